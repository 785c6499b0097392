(** C17, C20 and C41: the parser. *)
From Verif Require Import Base Lexer Spec_Lex LexFacts LexAll Prop_Lex Syntax Parser ParseFacts ParseTotal Spec_Parse ParseExpr ParseLine.
Local Open Scope Z_scope.

(** For the examples: a text that is tokenised consists of the words of its
    tokens. *)
Lemma written_of U s ts e : python_tables U -> ~ slips s -> tokenise U s = (ts, EEof e) -> written U s (words ts).
Proof.
  intros HU Hs H. destruct (C18_tokens_partial U s HU Hs) as [_ A]. destruct (A ts e H) as (items & Hr & F).
  exists items. split; [assumption|]. clear -F. induction F as [|t i ts is [A B] F IH]; [reflexivity|].
  change (words (t :: ts)) with ((t_kind t, t_lex t) :: words ts). cbn [map]. now rewrite IH, A, B.
Qed.

(** ** C17 *)

(** Whatever the spaces and comments, a line written with the words of an
    expression, with brackets only where the precedence asks for them, is
    parsed into that expression. *)
Theorem C17_read_back : forall U src l, python_tables U -> ~ slips src -> line_ok l -> written U src (show_line l) ->
  exists m s x, parse U src = POk m s /\ sm_annots m = [] /\ sm_children m = [x] /\ shape_line x = Some l.
Proof.
  intros U src l HU Hs Hl Hw.
  destruct (written_parse U src (show_line l) _ HU Hs Hw (fun N HN => whole_line U N l Hl HN)) as (m & s & E & A & x & B & C).
  exists m, s, x. auto.
Qed.
Print Assumptions C17_read_back.

Definition nm (s : String.string) : ex := EAtom (AName (txt s)).
Definition e17 : ex :=
  EBin BEq
    (EBin BMul (EBin BSub (EBin BSub (EAtom (AInt 1)) (nm "x")) (nm "y"))
       (EIndex (ECall (EField (nm "a") (txt "f")) [(None, EAtom (AInt 2)); (Some (txt "b"), EUn UMinus (EAtom (AInt 3)))]) (nm "i")))
    (ECast (nm "z") (TyName (txt "int") [] [] true)).
Definition s17 : text := txt "mostra (1 -x - y)*a.f(2, b: -3)[i] == z :> int? # fim".
Example C17_ex : written tables0 s17 (show_line (LShow e17)).
Proof.
  destruct (tokenise tables0 s17) as [ts fin] eqn:E.
  assert (Hfin : exists e, fin = EEof e) by (vm_compute in E; injection E as _ <-; eauto). destruct Hfin as [e ->].
  pose proof (written_of tables0 s17 ts e tables0_ok (no_slip s17 eq_refl) E) as H.
  vm_compute in E. injection E as <- _. exact H.
Qed.

(** Two expressions written with the same words are the same expression. *)
Theorem C17_unambiguous : forall e1 e2, show 0 e1 = show 0 e2 -> e1 = e2.
Proof.
  intros e1 e2 H. pose proof (parses_equality tables0 e1 (List.length (show 0 e1)) (le_n _)) as P1.
  pose proof (parses_equality tables0 e2 (List.length (show 0 e1))) as P2. rewrite H in P2 at 1. specialize (P2 (le_n _)).
  set (ts := map (fun w => mkTok (fst w) (snd w) 0 0) (show 0 e1)).
  assert (E : words ts = show 0 e1).
  { unfold ts, words. rewrite map_map. erewrite map_ext; [apply map_id|]. intros [k v]. reflexivity. }
  destruct (P1 ts [] (EEof eof0) E) as (x & Ex & Qx); [right; eauto|reflexivity|].
  destruct (P2 ts [] (EEof eof0) (eq_trans E H)) as (y & Ey & Qy); [right; eauto|reflexivity|].
  rewrite Ex in Ey. injection Ey as <-. unfold Qe in *. congruence.
Qed.
Print Assumptions C17_unambiguous.

(** ** C20 *)

(** For a variable or an element of a list, [t op= e] and [t = t op e] are
    parsed into the same assignment.  Missing from the full property: fields,
    for which it is false. *)
Theorem C20_same_assignment_partial : forall U s1 s2 o w t e, python_tables U -> ~ slips s1 -> ~ slips s2 ->
  compound o = Some w -> can_set t -> (forall a n, t <> EField a n) ->
  written U s1 (show 0 t ++ w :: show 0 e) -> written U s2 (show_line (LSet t (EBin o t e))) ->
  exists m1 p1 x1 m2 p2 x2,
    parse U s1 = POk m1 p1 /\ sm_children m1 = [x1] /\ parse U s2 = POk m2 p2 /\ sm_children m2 = [x2] /\
    shape_line x1 = Some (LSet t (EBin o t e)) /\ shape_line x2 = Some (LSet t (EBin o t e)).
Proof.
  intros U s1 s2 o w t e HU H1 H2 Ho Ht Hf W1 W2.
  destruct (written_parse U s1 _ _ HU H1 W1 (fun N HN => whole_module_compound U N o w t e Ho Ht HN)) as (m1 & p1 & E1 & _ & x1 & B1 & C1).
  destruct (C17_read_back U s2 (LSet t (EBin o t e)) HU H2 Ht W2) as (m2 & p2 & x2 & E2 & _ & B2 & C2).
  exists m1, p1, x1, m2, p2, x2. repeat split; auto. rewrite C1. destruct t; try reflexivity. now destruct (Hf t n).
Qed.
Print Assumptions C20_same_assignment_partial.
Definition s20a : text := txt "v[i + 1] *= 2 + n".
Definition s20b : text := txt "v[i + 1] = v[i+1]*(2 + n)".
Definition t20 : ex := EIndex (nm "v") (EBin BAdd (nm "i") (EAtom (AInt 1))).
Definition e20 : ex := EBin BAdd (EAtom (AInt 2)) (nm "n").
Lemma written_words s ws : forallb (fun c => negb (N.eqb c BSL)) s = true ->
  (let '(ts, e) := tokenise tables0 s in words ts = ws /\ exists t, e = EEof t) -> written tables0 s ws.
Proof.
  intros Hs H. destruct (tokenise tables0 s) as [ts e] eqn:E. destruct H as [<- [t ->]].
  eapply written_of; eauto using tables0_ok, no_slip.
Qed.
Example C20_ex : compound BMul = Some (lit TStarEq (txt "*=")) /\
  written tables0 s20a (show 0 t20 ++ lit TStarEq (txt "*=") :: show 0 e20) /\
  written tables0 s20b (show_line (LSet t20 (EBin BMul t20 e20))).
Proof.
  split; [reflexivity|]. split; (apply written_words; [reflexivity|]); vm_compute; split; eauto.
Qed.

(** For a field the operator is dropped: [a.n op= e] is parsed into
    [a.n = e], for all four operators and every [e]. *)
Theorem C20_field_refuted : forall U src o w a n e, python_tables U -> ~ slips src -> compound o = Some w ->
  written U src (show 0 (EField a n) ++ w :: show 0 e) ->
  exists m s x, parse U src = POk m s /\ sm_children m = [x] /\ shape_line x = Some (LSet (EField a n) e).
Proof.
  intros U src o w a n e HU Hs Ho W.
  destruct (written_parse U src _ _ HU Hs W (fun N HN => whole_module_compound U N o w (EField a n) e Ho I HN)) as (m & s & E & _ & x & B & C).
  exists m, s, x. auto.
Qed.
Print Assumptions C20_field_refuted.
Example C20_field_ex : written tables0 (txt "p.x += 1") (show 0 (EField (nm "p") (txt "x")) ++ lit TPlusEq (txt "+=") :: show 0 (EAtom (AInt 1))).
Proof. apply written_words; [reflexivity|]. vm_compute. split; eauto. Qed.

(** ** C41 *)

(** Parsing ends for every text: with a tree, with an error at a line of the
    text, or in a Python exception; the last only if the text has a format
    string, an [iguala] or a number Python cannot read. *)
Theorem C41_total : forall U src, python_tables U ->
  match parse U src with
  | POk _ _ => True
  | PErr l _ => 1 <= l <= 1 + line_ends src
  | PCrash => snd (tokenise U src) = ECrash \/
              Exists (fun t => t_kind t = TFormat \/ t_kind t = TIguala) (fst (tokenise U src))
  | PFuel => False
  end.
Proof.
  intros U src HU. pose proof (parse_total U HU src) as H. destruct (parse U src); auto. pose proof (inner_ends_le src). lia.
Qed.
Print Assumptions C41_total.
Example C41_total_ex : exists m s l c,
  parse tables0 (txt "se x entao mostra 1; fim") = POk m s /\
  parse tables0 (txt "se x" ++ [NL] ++ txt "mostra 1 fim") = PErr l c.
Proof. eexists _, _, _, _. split; vm_compute; reflexivity. Qed.

(** A text without those never crashes the parser. *)
Theorem C41_no_crash_partial : forall U src, python_tables U -> snd (tokenise U src) <> ECrash ->
  (forall t, In t (fst (tokenise U src)) -> t_kind t <> TFormat /\ t_kind t <> TIguala) -> parse U src <> PCrash.
Proof.
  intros U src HU H1 H2 E. pose proof (parse_total U HU src) as H. rewrite E in H.
  destruct H as [H|H]; [contradiction|]. apply Exists_exists in H as (t & Hin & [Hk|Hk]); destruct (H2 t Hin); contradiction.
Qed.
Print Assumptions C41_no_crash_partial.
Example C41_no_crash_ex : snd (tokenise tables0 s17) <> ECrash /\
  forallb (fun t => negb (tk_eqb (t_kind t) TFormat || tk_eqb (t_kind t) TIguala)) (fst (tokenise tables0 s17)) = true.
Proof. split; vm_compute; [discriminate|reflexivity]. Qed.

(** The empty format string raises IndexError, and a pattern that is neither a
    name, an integer nor a text raises an exception from [unreachable]. *)
Theorem C41_no_crash_refuted :
  parse tables0 (txt "mostra f''") = PCrash /\
  parse tables0 (txt "iguala x verdadeiro => 1 fim") = PCrash.
Proof. split; vm_compute; reflexivity. Qed.
Print Assumptions C41_no_crash_refuted.

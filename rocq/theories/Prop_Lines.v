(** C45 for errors of meaning: what is quoted when the analyser rejects a program. *)
From Verif Require Import Lexer Base Dec Bson Value VM Ast CodeGen Compile Types Syntax Parser Sym Exhaust Check Front BaseFacts Spec_Lex ParseFacts ParseTotal Prop_Lex Report Prop_Report Ex_Front Prop_Import Spec_Lines ParseLines LineLoad.
From Coq Require Import String.
Local Open Scope Z_scope.
Local Open Scope list_scope.

(** Every rejection names a file, and a line on which a word of that file stands (or
    where its syntax is wrong), and quotes that line; the assertion in the reporter
    never fails.  Missing: programs with format strings and modules imported under
    another name ([C45_format_line_refuted], [C45_alias_refuted]). *)
Theorem C45_semantic_partial : forall U F fuel p q l,
  python_tables U ->
  (forall path src, f_text F path = Some src -> no_format U src /\ forall m s, parse U src = POk m s -> no_alias m) ->
  front F U fuel p = FError q l ->
  exists src context w, f_text F q = Some src /\ stands_on U src l /\
    report_of U F fuel p = Quotes q l context /\ line_of src l w /\ trimmed U w context.
Proof.
  intros U F fuel p q l HU HF H.
  assert (A : analyse F U fuel p = CErr q l).
  { unfold front in H. destruct (analyse F U fuel p) as [m s|q' l'| |]; try discriminate H; [|injection H as -> ->; reflexivity].
    repeat match type of H with match ?x with _ => _ end = _ => destruct x; try discriminate H end. }
  destruct (analyse_lines F U HU (fun a b E => proj1 (HF a b E)) (fun a b m s E => proj2 (HF a b E) m s) fuel p q l A) as (src & Ef & So).
  assert (R : exists context w, throw_error U src l = Some context /\ line_of src l w /\ trimmed U w context).
  { destruct So as [[c Hc]|(m & s & Ep & Hl)]; [eapply C45_syntax_partial; eauto|].
    pose proof (parse_lines U src m s HU (proj1 (HF _ _ Ef)) Ep) as [OC OA].
    assert (B : 1 <= l <= 1 + inner_ends src).
    { destruct Hl as [(x & Hx & Hl)|(a & Ha & ->)].
      - rewrite Forall_forall in OC. destruct (OC x Hx) as [[Ox _]|(t & mode & w & -> & Et)].
        + rewrite Forall_forall in Ox. now apply Ox.
        + destruct Hl as [<-|[]]. exact Et.
      - rewrite Forall_forall in OA. exact (OA a Ha). }
    assert (NE : src <> []).
    { intros ->. injection Ep as <- _. destruct Hl as [(x & [] & _)|(a & [] & _)]. }
    pose proof (file_lines_count src NE) as FC. unfold throw_error. destruct (l <? 1) eqn:L; [apply Z.ltb_lt in L; lia|].
    destruct (nth_error (file_lines src) (Z.to_nat (l - 1))) as [w|] eqn:E.
    - exists (strip U w), w. split; [reflexivity|]. split; [|apply strip_trimmed].
      replace l with (Z.of_nat (Z.to_nat (l - 1)) + 1) at 1 by lia. now apply file_lines_nth.
    - apply nth_error_None in E. lia. }
  destruct R as (context & w & T & Lw & Tr). exists src, context, w. split; [exact Ef|]. split; [exact So|]. split; [|auto].
  unfold report_of. rewrite H, Ef, T. reflexivity.
Qed.
Print Assumptions C45_semantic_partial.

(** The hypotheses can be checked by running the lexer and the parser. *)
Definition plain_file (U : uni) (src : text) : bool :=
  forallb (fun t => match t_kind t with TFormat => false | _ => true end) (fst (tokenise U src)) &&
  match parse U src with
  | POk m _ => forallb (fun x => match x with XUsa _ (MScoped _) _ => false | _ => true end) (sm_children m)
  | _ => true
  end.
Lemma plain_file_ok U src : plain_file U src = true -> no_format U src /\ forall m s, parse U src = POk m s -> no_alias m.
Proof.
  intros H. apply andb_true_iff in H as [H1 H2]. split.
  - unfold no_format. apply Forall_forall. intros t Ht. rewrite forallb_forall in H1. specialize (H1 t Ht). now destruct (t_kind t).
  - intros m s E. rewrite E in H2. apply Forall_forall. intros x Hx. rewrite forallb_forall in H2. specialize (H2 x Hx).
    destruct x; try exact I. destruct mode; try exact I. discriminate.
Qed.
Lemma env_plain files : forallb (fun e => plain_file alphabet (snd e)) ((txt "/repo/std/embutidos.ama", embutidos) :: files) = true ->
  forall path src, f_text (env_of files) path = Some src -> no_format alphabet src /\ forall m s, parse alphabet src = POk m s -> no_alias m.
Proof.
  intros H path src E. cbn [f_text env_of] in E. apply plain_file_ok. rewrite forallb_forall in H.
  assert (K : forall fs, assoc (abs_path path) fs = Some src -> exists k, In (k, src) fs).
  { induction fs as [|[k v] fs IH]; cbn; [discriminate|]. destruct (text_eqb _ _); [intros [= ->]; eauto|]. intros X. destruct (IH X) as [k' Hk]. eauto. }
  destruct (K _ E) as [k Hk]. exact (H _ Hk).
Qed.

(** An error deep in a function of an imported file. *)
Definition two45 : list (text * text) :=
  [(txt "/repo/main.ama", lines ["usa ""m.ama"""; "mostra dobro(2)"]%string);
   (txt "/repo/m.ama", lines ["func dobro(n: int): int"; "    se n > 0 entao"; "        mostra n"; "        mostra n + ""a"""; "    fim"; "    retorna n * 2"; "fim"]%string)].
Example C45_hyp_ex : forall path src, f_text (env_of two45) path = Some src -> no_format alphabet src /\ forall m s, parse alphabet src = POk m s -> no_alias m.
Proof. apply env_plain. vm_compute. reflexivity. Qed.
Example C45_deep_ex : front (env_of two45) alphabet 20 main_file = FError (txt "/repo/m.ama") 4.
Proof. vm_compute. reflexivity. Qed.
Example C45_deep_report : exists src context w, f_text (env_of two45) (txt "/repo/m.ama") = Some src /\ stands_on alphabet src 4 /\
  report_of alphabet (env_of two45) 20 main_file = Quotes (txt "/repo/m.ama") 4 context /\ line_of src 4 w /\ trimmed alphabet w context.
Proof. exact (C45_semantic_partial alphabet (env_of two45) 20 main_file _ _ alphabet_ok C45_hyp_ex C45_deep_ex). Qed.
Example C45_deep_quote : report_of alphabet (env_of two45) 20 main_file = Quotes (txt "/repo/m.ama") 4 (txt "mostra n + ""a""").
Proof. vm_compute. reflexivity. Qed.

(** A module imported under a name that is in use: the error is in the importing
    file, but the report names the imported file, with the line number of the
    importing one. *)
Definition alias45 (main : list String.string) : report :=
  report_of alphabet (env_of [(txt "/repo/main.ama", lines main); (txt "/repo/m.ama", lines ["x: int = 1"]%string)]) 20 main_file.
Theorem C45_alias_refuted : alias45 ["usa ""m.ama"" => tam"]%string = Quotes (txt "/repo/m.ama") 1 (txt "x: int = 1") /\
  alias45 [""; ""; "usa ""m.ama"" => tam"]%string = Assertion.
Proof. split; vm_compute; reflexivity. Qed.
Print Assumptions C45_alias_refuted.
Example C45_alias_ok : alias45 [""; ""; "usa ""m.ama"" => outro"; "mostra tam"]%string = Quotes main_file 4 (txt "mostra tam").
Proof. vm_compute. reflexivity. Qed.

(** The blocks of [iguala] stand on line 1 for the reporter: when one of them ends
    with an empty block, an error about its value is reported there. *)
Theorem C45_block_line_refuted :
  rep ["uniao L"; "  A,"; "  B(int)"; "fim"; "l: L = L::B(2)"; "se iguala l => L::A entao"; "  produz 1"; "senao"; "  se verdadeiro entao"; "  fim"; "fim"]%string
  = Quotes main_file 1 (txt "uniao L").
Proof. vm_compute. reflexivity. Qed.
Print Assumptions C45_block_line_refuted.

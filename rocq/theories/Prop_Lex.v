(** C18 and C19: the lexer. *)
From Verif Require Import Base Lexer Spec_Lex LexFacts LexAll.
Local Open Scope Z_scope.

(** A small set of tables for the examples: ASCII, and the superscript two
    (digit without decimal value). *)
Definition tables0 : uni := mkUni (fun _ => false) (fun _ => false) (fun c => N.eqb c 178) (fun c => N.eqb c 178) (fun _ => None) (Some 40%nat).
Example tables0_ok : python_tables tables0.
Proof. intros c _. cbn. split; discriminate. Qed.

(** ** C18 *)

(** Tokenising ends: with the end-of-file token, with an error, or in the
    ValueError Python raises for a number it cannot read.  The tokens come from
    separate non-empty pieces of the text, in order. *)
Theorem C18_total : forall U s, python_tables U ->
  let '(ts, e) := tokenise U s in
  e <> EFuel /\
  exists pieces rest, s = List.concat pieces ++ rest /\ List.length pieces = List.length ts /\ Forall (fun p => p <> []) pieces.
Proof.
  intros U s HU. pose proof (tokens_total U HU (S (List.length s)) (start s) (Nat.lt_succ_diag_r _)) as H.
  unfold tokenise. destruct (tokens U (S (List.length s)) (start s)) as [ts e]. tauto.
Qed.
Print Assumptions C18_total.
Example C18_total_ex : List.length (fst (tokenise tables0 (txt "x: int = 10 # dez"))) = 5%nat.
Proof. vm_compute. reflexivity. Qed.

(** A text is tokenised to the end exactly when it consists of tokens, and
    then into those tokens.  Missing from the full property: texts where the
    lexer misreads an escape ([slips]). *)
Theorem C18_tokens_partial : forall U s, python_tables U -> ~ slips s ->
  (forall items, reads U 1 s items ->
     exists ts e, tokenise U s = (ts, EEof e) /\ Forall2 says ts items) /\
  (forall ts e, tokenise U s = (ts, EEof e) ->
     exists items, reads U 1 s items /\ Forall2 says ts items).
Proof.
  intros U s HU Hs. split.
  - intros items H.
    destruct (tokens_complete U HU 1 s items H (S (List.length s)) (start s) eq_refl (Nat.lt_succ_diag_r _) Hs)
      as (ts & e & E & F & _). eauto.
  - intros ts e H. exact (tokens_sound U HU _ (start s) ts e Hs H 1).
Qed.
Print Assumptions C18_tokens_partial.
Lemma no_slip (s : text) : forallb (fun c => negb (N.eqb c BSL)) s = true -> ~ slips s.
Proof.
  intros H (a & e & x & y & b & -> & _). rewrite forallb_forall in H.
  assert (Hin : In BSL (a ++ BSL :: e :: x :: y :: b)) by (apply in_or_app; right; now left).
  specialize (H _ Hin). discriminate.
Qed.
Definition src0 : text := txt "mostra x1..'a' #fim".
Example C18_tokens_ex : exists items, reads tables0 1 src0 items /\
  map i_kind items = [TMostra; TIdent; TDdot; TString].
Proof.
  destruct (C18_tokens_partial tables0 src0 tables0_ok (no_slip src0 eq_refl)) as [_ H].
  destruct (tokenise tables0 src0) as [ts e] eqn:E. vm_compute in E.
  injection E as <- <-. destruct (H _ _ eq_refl) as (items & Hr & F). exists items. split; [exact Hr|].
  inversion F as [|? ? ? ? [A1 _] F1]; subst. inversion F1 as [|? ? ? ? [A2 _] F2]; subst.
  inversion F2 as [|? ? ? ? [A3 _] F3]; subst. inversion F3 as [|? ? ? ? [A4 _] F4]; subst. inversion F4; subst.
  cbn in *. congruence.
Qed.

(** With every literal on one line, a token carries the line it starts on. *)
Theorem C18_lines_partial : forall U s items, python_tables U -> ~ slips s -> reads U 1 s items ->
  Forall (fun i => i_written i = [NL] \/ ~ In NL (i_written i)) items ->
  exists ts e, tokenise U s = (ts, EEof e) /\ Forall2 says ts items /\
    Forall2 (fun t i => t_line t = i_line i) ts items.
Proof.
  intros U s items HU Hs H Ho.
  destruct (tokens_complete U HU 1 s items H (S (List.length s)) (start s) eq_refl (Nat.lt_succ_diag_r _) Hs)
    as (ts & e & E & F & L). exists ts, e. repeat split; auto.
Qed.
Print Assumptions C18_lines_partial.

Definition two_lines : text := (txt "a" ++ [NL] ++ txt "b")%list.
Example C18_lines_ex : reads tables0 1 two_lines
  [mkItem TIdent (LText (txt "a")) (txt "a") 1; mkItem TNewline (LText (txt "\n")) [NL] 1; mkItem TIdent (LText (txt "b")) (txt "b") 2].
Proof.
  assert (W : forall c, word_start tables0 c -> (forall k, ~ In ([c], k) keywords) -> spells tables0 TIdent (LText [c]) [c])
    by (intros c H1 H2; apply sp_name; auto).
  apply (rd_token tables0 1 [] TIdent (LText (txt "a")) (txt "a") ([NL] ++ txt "b")).
  - constructor. constructor.
  - apply W; [now left|]. intros k H. apply keywords_lookup in H. discriminate.
  - cbn [stops]. split; [discriminate|]. split.
    + intros _. split; [intros (c & r & E & [H|H]); injection E as <- <-; discriminate|intros [E _]; discriminate].
    + intros c d r k' _ E Hin. injection E as <- <-. apply symbols_lookup in Hin. destruct (N.eq_dec c 97); [subst|].
      * discriminate.
      * unfold from_char in Hin. apply lookup_in in Hin.
        assert (T : forallb (fun p => match fst p with [_; d] => negb (N.eqb d NL) | _ => true end) symbols = true) by (vm_compute; reflexivity).
        rewrite forallb_forall in T. specialize (T _ Hin). discriminate.
  - apply (rd_token tables0 1 [] TNewline (LText (txt "\n")) [NL] (txt "b")).
    + constructor. constructor.
    + constructor.
    + split; [discriminate|]. split.
      * intros (c & r & E & [H|H]); injection E as <- <-; discriminate.
      * intros c d r k' E1 _ Hin. injection E1 as <-. apply symbols_shape in Hin.
        destruct Hin as (_ & _ & _ & _ & _ & [(x & Ex & _)|(x & y & Ex & Hx & _)]); [discriminate|]. injection Ex as <- <-. discriminate.
    + apply (rd_token tables0 2 [] TIdent (LText (txt "b")) (txt "b") []).
      * constructor. constructor.
      * apply W; [now left|]. intros k H. apply keywords_lookup in H. discriminate.
      * cbn [stops]. split; [discriminate|]. split.
        -- intros _. split; [intros (c & r & E & _); discriminate|intros [E _]; discriminate].
        -- intros c d r k' _ E _. discriminate.
      * apply (rd_end tables0 2 []). constructor. constructor.
Qed.

(** A text literal running over a line end throws the count off: the name [x]
    below starts on line 2 and is reported on line 1. *)
Definition long_text : text := (SQ :: txt "a" ++ [NL] ++ txt "b" ++ [SQ] ++ txt " x")%list.
Theorem C18_lines_refuted : exists ts e t, tokenise tables0 long_text = (ts, EEof e) /\
  nth_error ts 1 = Some t /\ t_lex t = LText (txt "x") /\ t_line t = 1 /\
  exists before, long_text = (before ++ txt "x")%list /\ line_ends before = 1.
Proof.
  destruct (tokenise tables0 long_text) as [ts e] eqn:E. vm_compute in E. injection E as <- <-.
  eexists _, _, _. split; [reflexivity|]. split; [reflexivity|]. split; [reflexivity|]. split; [reflexivity|].
  exists (SQ :: txt "a" ++ [NL] ++ txt "b" ++ [SQ] ++ txt " ")%list. split; vm_compute; reflexivity.
Qed.
Print Assumptions C18_lines_refuted.

(** Spaces and comments do not matter: two texts written with the same tokens
    give the same tokens. *)
Theorem C18_spacing_partial : forall U s s' items items', python_tables U -> ~ slips s -> ~ slips s' ->
  reads U 1 s items -> reads U 1 s' items' -> map i_written items = map i_written items' ->
  exists ts ts' e e', tokenise U s = (ts, EEof e) /\ tokenise U s' = (ts', EEof e') /\
    Forall2 (fun t t' => t_kind t = t_kind t' /\ t_lex t = t_lex t') ts ts'.
Proof.
  intros U s s' items items' HU Hs Hs' H H' E.
  destruct (C18_tokens_partial U s HU Hs) as [A _]. destruct (C18_tokens_partial U s' HU Hs') as [A' _].
  destruct (A _ H) as (ts & e & E1 & F1). destruct (A' _ H') as (ts' & e' & E2 & F2).
  exists ts, ts', e, e'. split; [assumption|]. split; [assumption|].
  pose proof (reads_same U HU 1 1 s s' items items' H H' E Hs) as R.
  clear -F1 F2 R. revert ts ts' F1 F2. induction R as [|i j its its' [R1 R2] R IH]; intros ts ts' F1 F2.
  - inversion F1; inversion F2; subst. constructor.
  - inversion F1 as [|t ? ts0 ? [P1 P2] F1']; inversion F2 as [|t' ? ts0' ? [Q1 Q2] F2']; subst.
    constructor; [split; congruence|]. auto.
Qed.
Print Assumptions C18_spacing_partial.
Example C18_spacing_ex :
  map (fun t => (t_kind t, t_lex t)) (fst (tokenise tables0 (txt "x=f(1 ,2)"))) =
  map (fun t => (t_kind t, t_lex t)) (fst (tokenise tables0 (txt "  x  = f ( 1,2 )  # nada"))).
Proof. vm_compute. reflexivity. Qed.

(** When every digit has a decimal value and the text is no longer than the
    longest number Python reads, tokenising does not crash. *)
Theorem C18_no_crash_partial : forall U s, python_tables U ->
  (forall c, In c s -> is_digit U c = true -> digit_val U c <> None) ->
  match u_limit U with Some m => (List.length s <= m)%nat | None => True end ->
  snd (tokenise U s) <> ECrash.
Proof.
  intros U s HU Hd Hm E. pose proof (tokens_total U HU (S (List.length s)) (start s) (Nat.lt_succ_diag_r _)) as H.
  unfold tokenise in E. destruct (tokens U (S (List.length s)) (start s)) as [ts e]. cbn in E.
  destruct H as (_ & H & _). destruct (H E) as (a & w & b & Es & Hw & Hbad). cbn in Es.
  destruct Hbad as [(c & Hc & Hn)|Hl].
  - apply (Hd c); [rewrite Es; apply in_or_app; right; apply in_or_app; now left| |assumption].
    rewrite forallb_forall in Hw. auto.
  - apply Hl. unfold within_limit. destruct (u_limit U); [|trivial]. rewrite Es, !app_length in Hm. lia.
Qed.
Print Assumptions C18_no_crash_partial.
(** Otherwise it can: a character [str.isdigit] accepts and [int] does not. *)
Theorem C18_no_crash_refuted : python_tables tables0 /\ tokenise tables0 [178%N] = ([], ECrash).
Proof. split; [exact tables0_ok|vm_compute; reflexivity]. Qed.
Print Assumptions C18_no_crash_refuted.

(** ** C19 *)

(** A quoted text followed by anything: its token holds the text it stands
    for.  Missing: texts where the lexer misreads an escape. *)
Theorem C19_text_partial : forall U q raw body rest, python_tables U -> q = SQ \/ q = DQ -> quoted q raw body ->
  ~ slips ((q :: raw ++ [q]) ++ rest) ->
  exists t s', get_token U (start ((q :: raw ++ [q]) ++ rest)) = LTok t s' /\
    t_kind t = TString /\ t_lex t = LText (q :: body ++ [q]) /\ lx_rest s' = rest.
Proof.
  intros U q raw body rest HU Hq Hd Hs. rewrite get_token_two.
  assert (Sp : spells U TString (LText (q :: body ++ [q])) (q :: raw ++ [q])) by now constructor.
  destruct (skip_app U [] ((q :: raw ++ [q]) ++ rest) (lx_pos (start ((q :: raw ++ [q]) ++ rest)))) as [p E].
  - constructor. constructor.
  - destruct (spells_head U HU _ _ _ Sp) as (_ & c & r & E & H1 & H2). rewrite E. now split.
  - cbn [app] in E. cbn [app start lx_rest]. rewrite E.
    destruct (spells_step U HU (lx_line (start ((q :: raw ++ [q]) ++ rest))) _ _ _ rest p Sp I Hs) as (t & s' & E' & A & B & _ & C & _).
    cbn [app] in E'. rewrite E'. eauto 8.
Qed.
Print Assumptions C19_text_partial.
Example C19_text_ex : quoted DQ (txt "d'a\n\""b\c") (txt "d'a" ++ [NL; DQ] ++ txt "b\c").
Proof.
  cbn. do 3 (apply q_other; [discriminate|discriminate|]). apply q_newline. apply q_double.
  apply q_other; [discriminate|discriminate|]. apply q_backslash; [discriminate..|].
  apply q_other; [discriminate|discriminate|]. constructor.
Qed.

(** A text without backslashes is kept as it is. *)
Theorem C19_plain : forall U q raw, python_tables U -> q = SQ \/ q = DQ -> ~ In q raw -> ~ In BSL raw ->
  exists t e, tokenise U (q :: raw ++ [q]) = ([t], EEof e) /\ t_kind t = TString /\ t_lex t = LText (q :: raw ++ [q]).
Proof.
  intros U q raw HU Hq Hn Hb.
  assert (Hd : quoted q raw raw).
  { clear -Hn Hb. induction raw as [|c raw IH]; [constructor|].
    apply q_other; [intros ->; apply Hn; now left|intros ->; apply Hb; now left|].
    apply IH; intros H; [apply Hn|apply Hb]; now right. }
  assert (Hs : ~ slips (q :: raw ++ [q])).
  { intros (a & e & x & y & b & E & _). apply Hb.
    assert (Hin : In BSL (q :: raw ++ [q])) by (rewrite E; apply in_or_app; right; now left).
    assert (Hqb : q <> BSL) by (destruct Hq as [-> | ->]; discriminate).
    destruct Hin as [Hin|Hin]; [congruence|]. apply in_app_or in Hin as [Hin|[Hin|[]]]; [assumption|congruence]. }
  destruct (C18_tokens_partial U (q :: raw ++ [q]) HU Hs) as [H _].
  destruct (H [mkItem TString (LText (q :: raw ++ [q])) (q :: raw ++ [q]) 1]) as (ts & e & E & F).
  - rewrite <- (app_nil_r (q :: raw ++ [q])) at 1. apply (rd_token U 1 [] TString _ (q :: raw ++ [q]) [] []).
    + constructor. constructor.
    + now constructor.
    + exact I.
    + apply rd_end. constructor. constructor.
  - inversion F as [|t i ts0 is0 [A B] F1]; subst. inversion F1; subst. exists t, e. auto.
Qed.
Print Assumptions C19_plain.
Example C19_plain_ex : fst (tokenise tables0 (txt "'ola # x'")) = [mkTok TString (LText (txt "'ola # x'")) 1 2].
Proof. vm_compute. reflexivity. Qed.

(** After a decoded escape the lexer tests the character after the next one
    for a quote and, if it is one, drops the next one: the literal below stands
    for a line end, [a], a single quote, [b] and [c], and the [a] is lost. *)
Theorem C19_text_refuted : exists raw body ts e t,
  quoted DQ raw body /\ tokenise tables0 (DQ :: raw ++ [DQ]) = (ts, EEof e) /\
  nth_error ts 0 = Some t /\ t_kind t = TString /\ t_lex t <> LText (DQ :: body ++ [DQ]).
Proof.
  exists (txt "\na'bc"), (NL :: txt "a'bc").
  destruct (tokenise tables0 (DQ :: txt "\na'bc" ++ [DQ])) as [ts e] eqn:E. vm_compute in E. injection E as <- <-.
  eexists _, _, _. split; [|split; [reflexivity|split; [reflexivity|split; [reflexivity|vm_compute; discriminate]]]].
  apply q_newline. change (txt "a'bc") with [97; 39; 98; 99]%N. do 4 (apply q_other; [discriminate|discriminate|]). constructor.
Qed.
Print Assumptions C19_text_refuted.
(** It can even drop the closing quote: a well-formed literal is rejected. *)
Theorem C19_closing_refuted : exists raw body l p,
  quoted DQ raw body /\ tokenise tables0 (DQ :: raw ++ [DQ]) = ([], EErr InvalidString l p).
Proof.
  exists (txt "\na'b"), (NL :: txt "a'b"), 1, 8. split; [|vm_compute; reflexivity].
  apply q_newline. change (txt "a'b") with [97; 39; 98]%N. do 3 (apply q_other; [discriminate|discriminate|]). constructor.
Qed.
Print Assumptions C19_closing_refuted.

(** Not every text can be written: no literal stands for a text that ends in a
    backslash. *)
Theorem C19_every_text_refuted : forall U s ts e t q body,
  tokenise U s = (ts, e) -> In t ts -> t_kind t = TString -> t_lex t = LText (q :: body ++ [q]) ->
  last body 0%N <> BSL.
Proof. intros U s. exact (text_token_last U (S (List.length s)) (start s)). Qed.
Print Assumptions C19_every_text_refuted.

From Verif Require Import Base Lexer Spec_Lex LexFacts LexAll Syntax Parser.
Local Open Scope Z_scope.

(** ** Lexer facts the parser needs: how long a format string is, and lines *)

Lemma escape_res char seq hit res rest pos hit' res' rest' pos' :
  escape_seq char seq (hit, res, rest, pos) = (hit', res', rest', pos') ->
  (List.length res' + List.length rest' <= List.length res + List.length rest)%nat /\
  (hit' = hit /\ res' = res /\ rest' = rest \/ hit' = true /\ (S (List.length res' + List.length rest') <= List.length res + List.length rest)%nat).
Proof.
  destruct rest as [|x [|y b]]; cbn; intros H; try (injection H as <- <- <- <-; cbn; split; [lia|left; auto]; fail).
  destruct (N.eqb y char); injection H as <- <- <- <-; cbn [List.length]; rewrite ?app_length; cbn [List.length].
  - split; [lia|]. right. split; [reflexivity|lia].
  - split; [lia|]. left. auto.
Qed.

Lemma string_loop_short q : forall fuel rest res pos b r p,
  string_loop fuel q res rest pos = SDone b r p ->
  (S (List.length b + List.length r) <= List.length res + List.length rest)%nat.
Proof.
  induction fuel as [|fuel IH]; intros rest res pos b r0 p H; [discriminate|].
  destruct rest as [|c r]; [discriminate|]. cbn [string_loop] in H.
  destruct (N.eqb c q); [injection H as <- <- <-; cbn; lia|].
  destruct (N.eqb c BSL).
  2:{ apply IH in H. rewrite app_length in H. cbn in *. lia. }
  match type of H with context[escape_seq 110 NL ?s] => destruct (escape_seq 110 NL s) as [[[h1 res1] rest1] pos1] eqn:E1 end.
  match type of H with context[escape_seq SQ SQ ?s] => destruct (escape_seq SQ SQ s) as [[[h2 res2] rest2] pos2] eqn:E2 end.
  match type of H with context[escape_seq DQ DQ ?s] => destruct (escape_seq DQ DQ s) as [[[h3 res3] rest3] pos3] eqn:E3 end.
  destruct h3; [|apply IH in H; rewrite app_length in H; cbn in *; lia].
  apply escape_res in E1, E2, E3. apply IH in H. cbn in *. lia.
Qed.

(** The share of the text a token accounts for. *)
Definition twt (t : token) : nat := if tk_eqb (t_kind t) TFormat then S (List.length (lex_text t)) else 1%nat.
Fixpoint lwt (ts : list token) : nat := match ts with [] => 0%nat | t :: r => (twt t + lwt r)%nat end.
Definition wt (s : pst) : nat := lwt (fst s).

Lemma twt_pos t : (1 <= twt t)%nat.
Proof. unfold twt. destruct (tk_eqb _ _); lia. Qed.

Section LexMore.
Variable U : uni.
Hypothesis HU : python_tables U.

Lemma string_wt kind line pos q r t s' : string kind line pos q r = LTok t s' ->
  (List.length (lex_text t) + List.length (lx_rest s') <= S (List.length r))%nat /\ t_line t = line /\ lx_line s' = line.
Proof.
  unfold string. destruct (string_loop _ _ _ _ _) as [b r0 p| |] eqn:E; try discriminate.
  intros H. apply ltok_inj in H as [<- <-]. apply string_loop_short in E. cbn -[List.length] in *.
  unfold lex_text. cbn [t_lex]. cbn [List.length]. rewrite app_length. cbn [List.length] in *. lia.
Qed.

Lemma dispatch_wt line rest pos t s' : dispatch U line rest pos = LTok t s' -> t_kind t <> TEof ->
  (twt t + List.length (lx_rest s') <= List.length rest)%nat.
Proof.
  intros H Hk. pose proof (moves_dispatch U HU line rest pos) as M. rewrite H in M. cbn [moves] in M.
  destruct M as [M|[_ M]]; [contradiction|]. apply eaten_len in M.
  unfold twt. destruct (tk_eqb (t_kind t) TFormat) eqn:Ef; [|lia].
  unfold tk_eqb in Ef. destruct (tk_eq_dec (t_kind t) TFormat) as [Ef'|]; [clear Ef|discriminate].
  unfold dispatch in H. destruct rest as [|c r]; [apply ltok_inj in H as [<- _]; discriminate|].
  destruct (N.eqb c NL).
  { destruct r; apply ltok_inj in H as [<- _]; discriminate. }
  destruct (N.eqb c SQ || N.eqb c DQ)%bool.
  { unfold string in H. destruct (string_loop _ _ _ _ _); try discriminate. apply ltok_inj in H as [<- _]; discriminate. }
  destruct (is_alpha U c || N.eqb c USC)%bool.
  { assert (Hi : forall w, identifier U line pos w = LTok t s' -> False).
    { intros w Hw. unfold identifier in Hw. destruct (eat _ w pos) as [[w0 r0] p0]. apply ltok_inj in Hw as [<- _].
      cbn [t_kind] in Ef'. destruct (lookup_tk w0 keywords) eqn:El; [|discriminate]. subst.
      apply lookup_in in El. cbv - [In] in El. repeat (destruct El as [El|El]; [discriminate|]). exact El. }
    destruct r as [|q r]; [now apply Hi in H|].
    destruct (N.eqb c 102 && (N.eqb q DQ || N.eqb q SQ))%bool; [|now apply Hi in H].
    apply string_wt in H. cbn [List.length]. lia. }
  destruct (is_digit U c).
  { unfold number in H. destruct (eat _ _ _) as [[w r0] p0].
    repeat match type of H with
    | context[match ?x with _ => _ end] => destruct x
    end; try discriminate; apply ltok_inj in H as [<- _]; discriminate. }
  assert (Hs : forall w k, from_char w = Some k -> k <> TFormat).
  { intros w k Hw ->. apply lookup_in in Hw. cbv - [In] in Hw. repeat (destruct Hw as [Hw|Hw]; [discriminate|]). exact Hw. }
  unfold common_toks in H.
  assert (One : match from_char [c] with
    | Some k => LTok (mkTok k (LText [c]) line pos) (mkLex line (adv r pos) r)
    | None => LErr InvalidSymbol line (adv r pos) end = LTok t s' -> False).
  { destruct (from_char [c]) as [k|] eqn:E; [|discriminate]. intros H0. apply ltok_inj in H0 as [<- _]. eapply Hs; eauto. }
  destruct (is_ambiguous c); [|contradiction]. destruct r as [|d r]; [contradiction|].
  destruct (from_char [c; d]) as [k|] eqn:E; [|contradiction]. apply ltok_inj in H as [<- _]. exfalso. eapply Hs; eauto.
Qed.

Lemma tokens_wt : forall fuel s, (lwt (fst (tokens U fuel s)) <= List.length (lx_rest s))%nat.
Proof.
  induction fuel as [|fuel IH]; intros s; cbn [tokens]; [cbn; lia|].
  destruct (get_token U s) as [t s'|e l p| |] eqn:E; cbn [fst lwt]; try lia.
  destruct (tk_eqb (t_kind t) TEof) eqn:Et; [cbn; lia|].
  assert (Hk : t_kind t <> TEof) by (intros E'; rewrite E' in Et; discriminate).
  specialize (IH s'). destruct (tokens U fuel s') as [ts e]. cbn [fst lwt] in *.
  rewrite get_token_two in E. destruct (skip U (lx_rest s) (lx_pos s)) as [r p] eqn:Es.
  destruct (skip_spec U _ _ _ _ Es) as (g & -> & _). apply dispatch_wt in E; [|assumption].
  rewrite app_length. lia.
Qed.

(** Lines count the line ends read so far, or fewer. *)
Lemma dispatch_line line rest pos t s' : dispatch U line rest pos = LTok t s' ->
  t_line t = line /\ (lx_line s' = line \/ exists r, rest = NL :: r /\ r <> [] /\ lx_rest s' = r /\ lx_line s' = line + 1).
Proof.
  unfold dispatch. destruct rest as [|c r]; [intros H; apply ltok_inj in H as [<- <-]; auto|].
  destruct (N.eqb c NL) eqn:En.
  { apply N.eqb_eq in En. subst. destruct r; intros H; apply ltok_inj in H as [<- <-]; cbn; split; auto.
    right. eexists. split; [reflexivity|]. split; [discriminate|auto]. }
  destruct (N.eqb c SQ || N.eqb c DQ)%bool.
  { intros H. apply string_wt in H as (_ & ? & ?). auto. }
  assert (Hi : forall w, identifier U line pos w = LTok t s' -> t_line t = line /\ lx_line s' = line).
  { intros w Hw. unfold identifier in Hw. destruct (eat _ w pos) as [[w0 r0] p0]. apply ltok_inj in Hw as [<- <-]. auto. }
  destruct (is_alpha U c || N.eqb c USC)%bool.
  { destruct r as [|q r]; [intros H; apply Hi in H; tauto|].
    destruct (N.eqb c 102 && (N.eqb q DQ || N.eqb q SQ))%bool; intros H; [|apply Hi in H; tauto].
    apply string_wt in H as (_ & ? & ?). auto. }
  destruct (is_digit U c).
  { unfold number. intros H. destruct (eat _ _ _) as [[w r0] p0].
    repeat match type of H with
    | context[match ?x with _ => _ end] => destruct x
    end; try discriminate; apply ltok_inj in H as [<- <-]; auto. }
  unfold common_toks. intros H.
  assert (One : match from_char [c] with
    | Some k => LTok (mkTok k (LText [c]) line pos) (mkLex line (adv r pos) r)
    | None => LErr InvalidSymbol line (adv r pos) end = LTok t s' -> t_line t = line /\ lx_line s' = line).
  { destruct (from_char [c]) as [k|]; [|discriminate]. intros H0. apply ltok_inj in H0 as [<- <-]. auto. }
  destruct (is_ambiguous c); [|apply One in H; tauto]. destruct r as [|d r]; [apply One in H; tauto|].
  destruct (from_char [c; d]) as [k|]; [|apply One in H; tauto]. apply ltok_inj in H as [<- <-]. auto.
Qed.

Lemma dispatch_err line rest pos e l p : dispatch U line rest pos = LErr e l p -> l = line.
Proof.
  unfold dispatch. destruct rest as [|c r]; [discriminate|].
  destruct (N.eqb c NL); [destruct r; discriminate|].
  assert (Hs : forall k p0 q0 r0, string k line p0 q0 r0 = LErr e l p -> l = line).
  { intros k p0 q0 r0. unfold string. destruct (string_loop _ _ _ _ _); try discriminate. intros H. injection H as _ <- _. reflexivity. }
  destruct (N.eqb c SQ || N.eqb c DQ)%bool; [apply Hs|].
  assert (Hi : forall w, identifier U line pos w = LErr e l p -> False).
  { intros w Hw. unfold identifier in Hw. destruct (eat _ w pos) as [[w0 r0] p0]. discriminate. }
  destruct (is_alpha U c || N.eqb c USC)%bool.
  { destruct r as [|q r]; [intros H; apply Hi in H; tauto|].
    destruct (N.eqb c 102 && (N.eqb q DQ || N.eqb q SQ))%bool; intros H; [eapply Hs; eauto|apply Hi in H; tauto]. }
  destruct (is_digit U c).
  { unfold number. intros H. destruct (eat _ _ _) as [[w r0] p0].
    repeat match type of H with
    | context[match ?x with _ => _ end] => destruct x
    end; discriminate. }
  unfold common_toks. intros H.
  assert (One : match from_char [c] with
    | Some k => LTok (mkTok k (LText [c]) line pos) (mkLex line (adv r pos) r)
    | None => LErr InvalidSymbol line (adv r pos) end = LErr e l p -> l = line).
  { destruct (from_char [c]) as [k|]; [discriminate|]. intros H0. injection H0 as _ <- _. reflexivity. }
  destruct (is_ambiguous c); [|auto]. destruct r as [|d r]; [auto|].
  destruct (from_char [c; d]) as [k|]; [discriminate|auto].
Qed.

Lemma line_ends_app a b : line_ends (a ++ b) = line_ends a + line_ends b.
Proof. unfold line_ends. rewrite count_occ_app. lia. Qed.
Lemma line_ends_pos a : 0 <= line_ends a.
Proof. unfold line_ends. lia. Qed.
(** The line ends that have something after them. *)
Definition inner_ends (a : text) : Z := line_ends (removelast a).
Lemma inner_ends_app a b : inner_ends b <= inner_ends (a ++ b).
Proof.
  unfold inner_ends. destruct b as [|c b]; [cbn; apply line_ends_pos|]. rewrite removelast_app by discriminate.
  rewrite line_ends_app. pose proof (line_ends_pos a). lia.
Qed.
Lemma inner_ends_le a : inner_ends a <= line_ends a.
Proof.
  unfold inner_ends. destruct a as [|c a]; [cbn; lia|]. rewrite (app_removelast_last c (l := c :: a)) at 2 by discriminate.
  rewrite line_ends_app. pose proof (line_ends_pos [last (c :: a) c]). lia.
Qed.

(** Every line number the lexer gives is a line of the text. *)
Definition in_lines (lo hi l : Z) : Prop := lo <= l <= hi.
Definition end_lines (lo hi : Z) (e : ending) : Prop :=
  match e with EEof t => in_lines lo hi (t_line t) | EErr _ l _ => in_lines lo hi l | _ => True end.

Lemma tokens_lines : forall fuel s, (List.length (lx_rest s) < fuel)%nat ->
  let '(ts, e) := tokens U fuel s in
  let hi := lx_line s + inner_ends (lx_rest s) in
  Forall (fun t => in_lines (lx_line s) hi (t_line t)) ts /\ end_lines (lx_line s) hi e.
Proof.
  induction fuel as [|fuel IH]; intros s Hl; [lia|]. cbn [tokens].
  pose proof (line_ends_pos (removelast (lx_rest s)) : 0 <= inner_ends (lx_rest s)) as Hp.
  pose proof (moves_token U HU s) as M.
  destruct (get_token U s) as [t s'|e l p| |] eqn:E; cbn [moves] in M; try (split; [constructor|exact I]).
  2:{ split; [constructor|]. rewrite get_token_two in E. destruct (skip U (lx_rest s) (lx_pos s)) as [r p0].
      apply dispatch_err in E. cbn. unfold in_lines. lia. }
  rewrite get_token_two in E. destruct (skip U (lx_rest s) (lx_pos s)) as [r p] eqn:Es.
  destruct (skip_spec U _ _ _ _ Es) as (g & Hg & _). apply dispatch_line in E as [Et El].
  destruct (tk_eqb (t_kind t) TEof) eqn:Ek.
  { split; [constructor|]. cbn. unfold in_lines. lia. }
  destruct M as [M|[_ M]]; [rewrite M in Ek; discriminate|].
  specialize (IH s' ltac:(apply eaten_len in M; lia)).
  destruct M as (c & Hc & Hs). destruct (tokens U fuel s') as [ts e].
  assert (Hle : lx_line s <= lx_line s' /\ lx_line s' + inner_ends (lx_rest s') <= lx_line s + inner_ends (lx_rest s)).
  { destruct El as [El|(r' & -> & Hr & Hs' & El)].
    - rewrite Hs. pose proof (inner_ends_app c (lx_rest s')). lia.
    - rewrite Hg, Hs', El. pose proof (inner_ends_app g (NL :: r')).
      assert (inner_ends (NL :: r') = 1 + inner_ends r').
      { unfold inner_ends. destruct r' as [|c' r']; [congruence|]. change (removelast (NL :: c' :: r')) with ([NL] ++ removelast (c' :: r')). rewrite line_ends_app. reflexivity. }
      lia. }
  cbn zeta in IH. destruct IH as [IH1 IH2]. split.
  - constructor; [unfold in_lines; lia|]. eapply Forall_impl; [|exact IH1]. unfold in_lines. cbn. intros; lia.
  - destruct e; cbn in *; unfold in_lines in *; auto; lia.
Qed.
End LexMore.

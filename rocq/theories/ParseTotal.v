From Verif Require Import Base Lexer Spec_Lex LexFacts LexAll Syntax Parser ParseFacts.
Local Open Scope Z_scope.
Local Open Scope parse_scope.

Lemma tk_eqb_true a b : tk_eqb a b = true <-> a = b.
Proof. unfold tk_eqb. destruct (tk_eq_dec a b); split; congruence. Qed.
Lemma tk_eqb_refl a : tk_eqb a a = true.
Proof. now apply tk_eqb_true. Qed.

(** [s'] is what is left of [s] after reading tokens, at least one if [b]. *)
Definition later (b : bool) (s s' : pst) : Prop :=
  snd s' = snd s /\ exists p, fst s = p ++ fst s' /\ (b = true -> p <> []).

Lemma lwt_app a b : lwt (a ++ b) = (lwt a + lwt b)%nat.
Proof. induction a; cbn; lia. Qed.
Lemma later_wt b s s' : later b s s' -> (wt s' + (if b then 1 else 0) <= wt s)%nat /\
  (List.length (fst s') + (if b then 1 else 0) <= List.length (fst s))%nat.
Proof.
  intros (_ & p & E & Hp). unfold wt. rewrite E, lwt_app, app_length. destruct b; [|lia].
  destruct p as [|t p]; [now destruct Hp|]. cbn. pose proof (twt_pos t). lia.
Qed.
Lemma later_refl s : later false s s.
Proof. split; [reflexivity|]. exists []. split; [reflexivity|discriminate]. Qed.
Lemma later_trans a b s s1 s2 : later a s s1 -> later b s1 s2 -> later (a || b) s s2.
Proof.
  intros (E1 & p & Ep & Hp) (E2 & q & Eq & Hq). split; [congruence|]. exists (p ++ q). split; [now rewrite Ep, Eq, app_assoc|].
  intros H. destruct a; cbn in H.
  - destruct p; [now destruct Hp|discriminate].
  - destruct q; [now destruct Hq|]. destruct p; discriminate.
Qed.
Lemma later_weak b s s' : later b s s' -> later false s s'.
Proof. intros (E & p & Ep & _). split; [assumption|]. exists p. split; [assumption|discriminate]. Qed.

(** What is true of the tokens left: their lines satisfy [E], and there is a
    format string or an [iguala] among them, or the lexer crashes later, only
    if [C]. *)
Definition st_ok (E : Z -> Prop) (C : Prop) (s : pst) : Prop :=
  Forall (fun t => E (t_line t) /\ (t_kind t = TFormat \/ t_kind t = TIguala -> C)) (fst s) /\
  match snd s with EEof t => E (t_line t) /\ t_kind t = TEof | EErr _ l _ => E l /\ fst s <> [] | ECrash => C /\ fst s <> [] | EFuel => False end.

Lemma later_ok E C b s s' : later b s s' -> st_ok E C s -> (fst s' <> [] \/ exists t, snd s = EEof t) -> st_ok E C s'.
Proof.
  intros (E1 & p & Ep & _) [H1 H2] Hne. split.
  - rewrite Ep in H1. now apply Forall_app in H1.
  - rewrite E1. destruct (snd s); auto; destruct Hne as [?|[? ?]]; try discriminate; tauto.
Qed.

Definition ok (E : Z -> Prop) (C : Prop) (b : bool) {A} (m : P A) (s : pst) : Prop :=
  match m s with
  | POk _ s' => later b s s' /\ st_ok E C s'
  | PErr l _ => E l
  | PCrash => C
  | PFuel => False
  end.

Section Ok.
Variables (E : Z -> Prop) (C : Prop).

Lemma ok_weak {A} b (m : P A) s : ok E C b m s -> ok E C false m s.
Proof. unfold ok. destruct (m s); auto. intros [? ?]. split; [eapply later_weak; eauto|assumption]. Qed.
Lemma ok_ret {A} (a : A) s : st_ok E C s -> ok E C false (ret a) s.
Proof. intros H. split; [apply later_refl|assumption]. Qed.
Lemma ok_bind {A B} b1 b2 (m : P A) (f : A -> P B) s :
  ok E C b1 m s ->
  (forall a s', m s = POk a s' -> later b1 s s' -> st_ok E C s' -> ok E C b2 (f a) s') ->
  ok E C (b1 || b2) (bind m f) s.
Proof.
  unfold ok, bind. destruct (m s) as [a s'|l c| |]; auto. intros [Hl Hs] Hf.
  specialize (Hf a s' eq_refl Hl Hs). destruct (f a s') as [a' s''|l c| |]; auto.
  destruct Hf as [Hl' Hs']. split; [eapply later_trans; eauto|assumption].
Qed.
Lemma ok_look s : st_ok E C s -> ok E C false look s.
Proof. intros H. split; [apply later_refl|assumption]. Qed.
Lemma ok_is k s : st_ok E C s -> ok E C false (is k) s.
Proof. intros H. split; [apply later_refl|assumption]. Qed.

Lemma look_line s : st_ok E C s -> E (t_line (look_tok s)) /\ (kind s = TFormat \/ kind s = TIguala -> C).
Proof.
  intros [H1 H2]. unfold kind, look_tok. destruct (fst s) as [|t r].
  - destruct (snd s); cbn in *; try tauto. destruct H2 as [? ->]. split; [assumption|]. intros [H0|H0]; discriminate.
  - inversion H1. assumption.
Qed.
Lemma ok_error {A} b s : st_ok E C s -> ok E C b (@error A) s.
Proof. intros H. apply (look_line s H). Qed.

Lemma ok_next s : st_ok E C s -> ok E C (negb (tk_eqb (kind s) TEof)) next s.
Proof.
  intros [H1 H2]. unfold ok, next, kind, look_tok. destruct s as [ts e]. cbn [fst snd] in *. destruct ts as [|t r].
  - destruct e; cbn in *; try tauto. destruct H2 as [? Hk]. rewrite Hk. cbn. split; [apply later_refl|]. split; cbn; auto.
  - inversion H1. subst. destruct r as [|t' r]; cbn [pull].
    + destruct e as [t0|e0 l c| |]; cbn in *; try tauto. split; [|split; cbn; auto].
      split; [reflexivity|]. exists [t]. split; [reflexivity|discriminate].
    + split; [|split; cbn; auto; destruct e; cbn in *; auto; split; try tauto; discriminate].
      split; [reflexivity|]. exists [t]. split; [reflexivity|discriminate].
Qed.

Lemma ok_consume k s : st_ok E C s -> ok E C (negb (tk_eqb k TEof)) (consume k) s.
Proof.
  intros H. unfold consume, ok. destruct (tk_eqb (kind s) k) eqn:Ek.
  - apply tk_eqb_true in Ek. subst k. pose proof (ok_next s H) as Hn. unfold ok, bind, ret in *. destruct (next s); auto.
  - apply (look_line s H).
Qed.
Lemma ok_consume_t k s : k <> TEof -> st_ok E C s -> ok E C true (consume k) s.
Proof.
  intros Hk H. pose proof (ok_consume k s H) as Hc. replace (negb (tk_eqb k TEof)) with true in Hc; [assumption|].
  symmetry. apply negb_true_iff. unfold tk_eqb. destruct (tk_eq_dec k TEof); congruence.
Qed.

Lemma ok_skip s : st_ok E C s -> ok E C false skip_newlines s.
Proof.
  destruct s as [ts e]. unfold ok, skip_newlines. cbn [fst snd]. induction ts as [|t r IH]; intros H.
  - cbn. split; [apply later_refl|assumption].
  - cbn [skip_nl]. destruct (tk_eqb (t_kind t) TNewline); [|split; [apply later_refl|assumption]].
    destruct H as [H1 H2]. inversion H1. subst. destruct r as [|t' r].
    + destruct e; cbn in *; try tauto. split; [|split; cbn; auto].
      split; [reflexivity|]. exists [t]. split; [reflexivity|discriminate].
    + specialize (IH ltac:(split; cbn in *; auto; destruct e; cbn in *; auto; split; try tauto; discriminate)).
      destruct (skip_nl (t' :: r) e) as [u s'|l c| |]; auto. destruct IH as [Hl Hs]. split; [|assumption].
      destruct Hl as (Ee & p & Ep & Hp). split; [assumption|]. exists (t :: p). cbn in *. split; [now rewrite Ep|discriminate].
Qed.
Lemma ok_consume_nl k s : k <> TEof -> st_ok E C s -> ok E C true (consume_nl k) s.
Proof.
  intros Hk H. unfold consume_nl. change true with (false || true)%bool. apply ok_bind; [now apply ok_skip|].
  intros _ s' _ _ Hs. now apply ok_consume_t.
Qed.

Lemma ok_while {A} c (body : A -> P A) : forall n a s, (List.length (fst s) < n)%nat ->
  (forall a s', later false s s' -> st_ok E C s' -> c (kind s') = true -> ok E C true (body a) s') ->
  st_ok E C s -> ok E C false (while n c body a) s.
Proof.
  induction n as [|n IH]; intros a s Hn Hb Hs; [lia|].
  unfold ok. cbn [while]. destruct (c (kind s)) eqn:Ec; [|split; [apply later_refl|assumption]].
  pose proof (Hb a s (later_refl s) Hs Ec) as H. unfold ok in H. unfold bind. destruct (body a s) as [a' s'|l cc| |]; auto.
  destruct H as [Hl Hs']. specialize (IH a' s').
  assert (Hw : ok E C false (while n c body a') s').
  { apply IH; [apply later_wt in Hl; lia| |assumption]. intros a0 s0 Hl0 Hs0 Hc0. apply Hb; [|assumption|assumption].
    apply (later_weak (true || false)). eapply later_trans; eauto. }
  unfold ok in Hw. destruct (while n c body a' s') as [a1 s1|l1 c1| |]; auto. destruct Hw as [Hl1 Hs1]. split; [|assumption].
  apply (later_weak (true || false)). eapply later_trans; eauto.
Qed.
Lemma ok_loop {A} c (body : A -> P A) a s :
  (forall a s', later false s s' -> st_ok E C s' -> c (kind s') = true -> ok E C true (body a) s') ->
  st_ok E C s -> ok E C false (loop c body a) s.
Proof. intros Hb Hs. unfold ok, loop. apply (ok_while c body (S (List.length (fst s)))); auto. Qed.
End Ok.

Lemma look_inv s a s' : look s = POk a s' -> a = look_tok s /\ s' = s.
Proof. intros H. injection H as <- <-. auto. Qed.
Lemma is_inv k s a s' : is k s = POk a s' -> a = tk_eqb (kind s) k /\ s' = s.
Proof. intros H. injection H as <- <-. auto. Qed.
Lemma one_of_in ks k : one_of ks k = true <-> In k ks.
Proof.
  unfold one_of. rewrite existsb_exists. split.
  - intros (x & Hx & E). apply tk_eqb_true in E. now subst.
  - intros H. exists k. split; [assumption|apply tk_eqb_refl].
Qed.

Create HintDb okdb.
#[export] Hint Resolve ok_ret ok_look ok_is ok_error ok_skip : okdb.
#[export] Hint Extern 1 (ok _ _ _ (consume _) _) => (apply ok_consume_t; [congruence|assumption]) : okdb.
#[export] Hint Extern 1 (ok _ _ _ (consume_nl _) _) => (apply ok_consume_nl; [congruence|assumption]) : okdb.


(** Walk through a parser: each step either reads nothing or at least a token. *)
Ltac fold_later :=
  repeat match goal with
  | H : later ?b ?s ?s' |- _ =>
      lazymatch goal with
      | _ : (wt s' + _ <= wt s)%nat |- _ => fail
      | _ => let K := fresh "W" in pose proof (proj1 (later_wt b s s' H)) as K
      end
  end.

Section Step.
Variable U : uni.
Hypothesis HU : python_tables U.
Variable R : rec.
Variable n : nat.
Hypothesis Req : forall E C s, st_ok E C s -> (wt s < n)%nat -> ok E C true (r_eq R) s.
Hypothesis Rty : forall E C s, st_ok E C s -> (wt s < n)%nat -> ok E C true (r_type R) s.
Hypothesis Rbl : forall E C s, st_ok E C s -> (wt s < n)%nat -> ok E C false (r_block R) s.
Hypothesis Rpa : forall E (C : Prop) s, C -> st_ok E C s -> (wt s < n)%nat -> ok E C true (r_pat R) s.

Ltac by_wt := fold_later; cbn [Nat.add] in *; lia.
Ltac rleaf :=
  first [ apply Req; [assumption|by_wt] | apply Rty; [assumption|by_wt] | apply Rbl; [assumption|by_wt]
        | apply Rpa; [assumption|assumption|by_wt] ].
Ltac leaf := first [solve [eauto 2 with okdb] | rleaf | apply (ok_weak _ _ true); first [solve [eauto 2 with okdb] | rleaf]].
Ltac sleaf := first [solve [eauto 2 with okdb] | rleaf].
Ltac inv_m H := first [apply look_inv in H as [-> ->] | apply is_inv in H as [-> ->] | idtac].
Ltac intro_k := let a := fresh "a" in let s := fresh "s" in let Hm := fresh "Hm" in let Hl := fresh "Hl" in let Hs := fresh "Hs" in
  intros a s Hm Hl Hs; inv_m Hm.
Ltac okstep :=
  lazymatch goal with
  | |- ok _ _ true (bind _ _) _ =>
      first [ apply (ok_bind _ _ true false); [solve [sleaf]|intro_k] | apply (ok_bind _ _ false true); [solve [leaf]|intro_k] ]
  | |- ok _ _ false (bind _ _) _ =>
      first [ apply (ok_weak _ _ true), (ok_bind _ _ true false); [solve [sleaf]|intro_k]
            | apply (ok_bind _ _ false false); [solve [leaf]|intro_k] ]
  end.
Ltac branch :=
  match goal with
  | |- ok _ _ _ (match ?x with _ => _ end) _ => destruct x eqn:?
  | |- ok _ _ _ (fun s => _) _ => fail
  end.
Ltac go :=
  cbv zeta;
  first
  [ solve [leaf]
  | okstep; go
  | branch; go
  | lazymatch goal with
    | |- ok _ _ false (loop _ _ _) _ =>
        apply ok_loop; [let Hc := fresh "Hc" in intros ? ? ? ? Hc; go|assumption]
    | |- ok _ _ true (bind _ _) _ => apply (ok_bind _ _ false true); [solve [go]|intro_k; go]
    | |- ok _ _ false (bind _ _) _ => apply (ok_bind _ _ false false); [solve [go]|intro_k; go]
    end
  | idtac ].

Lemma ok_is_maybe E C s : st_ok E C s -> ok E C false is_maybe s.
Proof. intros H. unfold is_maybe. go. Qed.
Hint Resolve ok_is_maybe : okdb.

Lemma ok_generic_args E C s : st_ok E C s -> (wt s < S n)%nat -> ok E C false (generic_args R) s.
Proof. intros H W. unfold generic_args. go. Qed.
Hint Extern 1 (ok _ _ _ (generic_args _) _) => (apply ok_generic_args; [assumption|by_wt]) : okdb.
Lemma ok_generic_params E C s : st_ok E C s -> ok E C false generic_params s.
Proof. intros H. unfold generic_params. go. Qed.
Hint Resolve ok_generic_params : okdb.

Lemma ok_type_path E C h s : st_ok E C s -> (wt s < S n)%nat -> ok E C false (type_path R h) s.
Proof. intros H W. unfold type_path. go. Qed.
Hint Extern 1 (ok _ _ _ (type_path _ _) _) => (apply ok_type_path; [assumption|by_wt]) : okdb.
Lemma ok_type E C s : st_ok E C s -> (wt s < S n)%nat -> ok E C true (type_ R) s.
Proof. intros H W. unfold type_. go. Qed.
Hint Extern 1 (ok _ _ _ (type_ _) _) => (apply ok_type; [assumption|by_wt]) : okdb.
Hint Extern 2 (ok _ _ false (consume TEof) _) => (apply (ok_consume _ _ TEof); assumption) : okdb.
Lemma ok_end_stmt E C s : st_ok E C s -> ok E C false end_stmt s.
Proof. intros H. unfold end_stmt. go. Qed.
Hint Resolve ok_end_stmt : okdb.

Lemma ok_iguala_arm E (C : Prop) eq pat s : C ->
  (forall s', later false s s' -> st_ok E C s' -> ok E C true eq s') ->
  (forall s', later false s s' -> st_ok E C s' -> ok E C true pat s') ->
  st_ok E C s -> (wt s < n)%nat -> ok E C true (iguala_arm R eq pat) s.
Proof.
  intros HC He Hp H W. unfold iguala_arm.
  apply (ok_bind _ _ false true); [now apply ok_skip|]. intros _ s1 _ L1 H1.
  apply (ok_bind _ _ true false); [now apply Hp|]. intros p s2 _ L2 H2.
  apply (ok_bind _ _ false false); [leaf|]. intros tok s3 _ L3 H3.
  apply (ok_bind _ _ false false); [leaf|]. intros _ s4 _ L4 H4.
  apply (ok_bind _ _ false false); [leaf|]. intro_k. destruct (tk_eqb (kind s4) TFaca).
  - go.
  - apply (ok_bind _ _ false false).
    + apply (ok_weak _ _ true), He; [|assumption].
      apply (later_weak (false || (true || (false || false)))). repeat (eapply later_trans; [eassumption|]). assumption.
    + intro_k. go.
Qed.

Lemma ok_iguala E (C : Prop) eq pat s : C ->
  (forall s', later true s s' -> st_ok E C s' -> ok E C true eq s') ->
  (forall s', later true s s' -> st_ok E C s' -> ok E C true pat s') ->
  st_ok E C s -> (wt s < S n)%nat -> ok E C true (iguala_stmt R eq pat) s.
Proof.
  intros HC He Hp H W. unfold iguala_stmt. okstep.
  assert (Arm : forall s', later false s0 s' -> st_ok E C s' -> ok E C true (iguala_arm R eq pat) s').
  { intros s' L' H'. apply ok_iguala_arm; auto; [| |by_wt].
    - intros s'' L'' H''. apply He; [|assumption]. change true with (true || (false || false))%bool.
      repeat (eapply later_trans; [eassumption|]). assumption.
    - intros s'' L'' H''. apply Hp; [|assumption]. change true with (true || (false || false))%bool.
      repeat (eapply later_trans; [eassumption|]). assumption. }
  apply (ok_bind _ _ false false); [apply (ok_weak _ _ true); now apply He|]. intros tg s1 _ L1 H1.
  apply (ok_bind _ _ false false).
  - apply ok_loop; [|assumption]. intros arms s2 L2 H2 _.
    apply (ok_bind _ _ true false).
    { apply Arm; [|assumption]. change false with (false || false)%bool. eapply later_trans; eassumption. }
    intros x s3 _ L3 H3. apply ok_loop; [|assumption]. intros arms' s4 L4 H4 _.
    apply (ok_bind _ _ true false); [leaf|]. intros _ s5 _ L5 H5.
    apply (ok_bind _ _ false false).
    { apply (ok_weak _ _ true), Arm; [|assumption].
      apply (later_weak (false || (false || (true || (false || true))))). repeat (eapply later_trans; [eassumption|]). assumption. }
    intros y s6 _ L6 H6. go.
  - intro_k. go.
Qed.

Lemma ok_arg E C s : st_ok E C s -> (wt s < n)%nat -> ok E C true (arg R) s.
Proof. intros H W. unfold arg. go. Qed.
Hint Extern 1 (ok _ _ _ (arg _) _) => (apply ok_arg; [assumption|by_wt]) : okdb.
Lemma ok_args E C s : st_ok E C s -> (wt s < n)%nat -> ok E C false (args R) s.
Proof. intros H W. unfold args. go. Qed.
Hint Extern 1 (ok _ _ _ (args _) _) => (apply ok_args; [assumption|by_wt]) : okdb.

(** *** Format strings *)
Lemma to_brace_len s : forall a b, to_brace s = Some (a, b) -> (S (List.length a + List.length b) <= List.length s)%nat.
Proof.
  induction s as [|c r IH]; intros a b H; [discriminate|]. cbn in H. destruct (N.eqb c RBRC).
  - injection H as <- <-. cbn. lia.
  - destruct (to_brace r) as [[x y]|] eqn:Er; [|discriminate]. injection H as <- <-. specialize (IH _ _ eq_refl). cbn. lia.
Qed.
Lemma inner_len w : (List.length (inner w) <= List.length w)%nat.
Proof.
  unfold inner. destruct w as [|c w]; [cbn; lia|]. cbn [tl]. induction w as [|d w IH]; [cbn; lia|].
  cbn [removelast]. destruct w; cbn in *; lia.
Qed.

Lemma ok_fstr_expr (E : Z -> Prop) (C : Prop) token e s : C -> E (t_line token) -> st_ok E C s -> (List.length e < n)%nat ->
  ok E C false (fstr_expr U R token e) s.
Proof.
  intros HC He H W. unfold ok, fstr_expr. destruct (look_line E C s H) as [Hll _].
  destruct (lstrip U e) as [|c r]; [exact Hll|].
  destruct (N.eqb c 102 && _)%bool; [exact Hll|].
  unfold tokenise. pose proof (tokens_wt U HU (S (List.length e)) (start e)) as Wt.
  pose proof (tokens_total U HU (S (List.length e)) (start e)) as Tot. cbn [start lx_rest] in *. specialize (Tot ltac:(lia)).
  destruct (tokens U (S (List.length e)) (start e)) as [ts fin] eqn:Et. cbn [fst] in Wt. destruct Tot as (Hf & _ & _).
  assert (Hend : forall t, fin = EEof t -> t_kind t = TEof).
  { clear - Et. revert Et. generalize (S (List.length e)) (start e). intros f. revert ts fin. induction f as [|f IH]; intros ts fin s0 Et t ->; [discriminate|].
    cbn [tokens] in Et. destruct (get_token U s0) as [t0 s1| | |]; try discriminate.
    destruct (tk_eqb (t_kind t0) TEof) eqn:Ek; [apply tk_eqb_true in Ek; congruence|].
    destruct (tokens U f s1) as [ts' e'] eqn:E1. injection Et as _ ->. eapply IH; eauto. }
  assert (Hst : forall u s', pull ts fin = POk u s' -> s' = (ts, fin) /\ st_ok (fun _ => True) C s').
  { intros u s' Hp. assert (s' = (ts, fin)).
    { unfold pull in Hp. destruct ts; [destruct fin; try discriminate|]; now injection Hp as _ <-. }
    split; [assumption|]. subst s'. split; cbn [fst snd].
    - clear - HC. induction ts; constructor; auto.
    - destruct ts; [destruct fin; cbn in Hp; try discriminate; split; eauto; exact I|].
      destruct fin; try (split; [auto|discriminate]); try (split; [exact I|eauto]). congruence. }
  destruct (pull ts fin) as [u s'|l c0| |] eqn:Ep; auto.
  - destruct (Hst u s' eq_refl) as [-> Hs']. pose proof (Req (fun _ => True) C (ts, fin) Hs') as Hr.
    unfold wt in Hr. cbn [fst] in Hr. specialize (Hr ltac:(lia)). unfold ok in Hr.
    destruct (r_eq R (ts, fin)); auto. split; [apply later_refl|assumption].
  - unfold pull in Ep. destruct ts; [destruct fin; try discriminate; congruence|discriminate].
Qed.

Lemma ok_fmt_loop (E : Z -> Prop) (C : Prop) token : C -> E (t_line token) -> forall fuel cur parts has w s, (List.length w < fuel)%nat ->
  (List.length w <= n)%nat ->
  st_ok E C s -> ok E C false (fmt_loop U R fuel token cur parts has w) s.
Proof.
  intros HC He. induction fuel as [|fuel IH]; intros cur parts has w s Hf Hw H; [lia|].
  cbn [fmt_loop]. destruct w as [|c r]; [leaf|]. cbn [List.length] in *.
  destruct (N.eqb c LBRC); [|apply IH; auto; lia].
  destruct r as [|d r]; [leaf|]. destruct (N.eqb d LBRC); [apply IH; cbn in *; auto; lia|].
  destruct (to_brace (d :: r)) as [[e rest]|] eqn:Eb; [|leaf]. apply to_brace_len in Eb. cbn [List.length] in *.
  apply (ok_bind _ _ false false); [apply ok_fstr_expr; auto; lia|]. intros x s' _ _ H'. apply IH; auto; lia.
Qed.

Lemma consume_inv k s a s' : consume k s = POk a s' -> a = look_tok s /\ kind s = k.
Proof.
  unfold consume. destruct (tk_eqb (kind s) k) eqn:Ek; [|discriminate]. apply tk_eqb_true in Ek.
  unfold bind, ret. destruct (next s); try discriminate. intros H. injection H as <- <-. auto.
Qed.

Lemma ok_format E C s : st_ok E C s -> (wt s < S n)%nat -> ok E C true (parse_format_str U R) s.
Proof.
  intros H W. unfold parse_format_str. apply (ok_bind _ _ true false); [leaf|]. intros token s1 Hc L1 H1.
  apply consume_inv in Hc as [-> Hk]. destruct (look_line E C s H) as [Hll HC]. specialize (HC (or_introl Hk)).
  assert (Wl : (List.length (lex_text (look_tok s)) < S n)%nat).
  { destruct s as [ts e]. unfold look_tok, kind, wt in *. cbn [fst snd] in *. destruct ts as [|t r].
    - destruct H as [_ H]. cbn in H, Hk. destruct e; try discriminate. destruct H as [_ H]. rewrite H in Hk. discriminate.
    - cbn in Hk, W |- *. unfold twt in W. rewrite Hk in W. cbn in W. lia. }
  cbv zeta. apply (ok_bind _ _ false false).
  - apply ok_fmt_loop; auto. pose proof (inner_len (lex_text (look_tok s))). lia.
  - intros [parts has] s2 _ _ H2. destruct has; [leaf|]. destruct parts; [exact HC|leaf].
Qed.
Hint Extern 1 (ok _ _ _ (parse_format_str _ _) _) => (apply ok_format; [assumption|by_wt]) : okdb.

Lemma ok_primary E C s : st_ok E C s -> (wt s < S n)%nat -> ok E C true (primary U R (r_pat R)) s.
Proof.
  intros H W. unfold primary. okstep. unfold look_tok in *. fold (look_tok s) in *.
  destruct (t_kind (look_tok s)) eqn:Ek; try solve [go].
  destruct (look_line E C s H) as [_ HC]. specialize (HC (or_intror Ek)).
  apply ok_iguala; auto; intros s' L' H'; [apply Req|apply Rpa]; auto; by_wt.
Qed.
Hint Extern 1 (ok _ _ _ (primary _ _ _) _) => (apply ok_primary; [assumption|by_wt]) : okdb.

Lemma ok_pattern E (C : Prop) s : C -> st_ok E C s -> (wt s < S n)%nat -> ok E C true (pattern U R) s.
Proof.
  intros HC H W. unfold pattern. okstep. destruct a; go; exact HC.
Qed.
Hint Extern 1 (ok _ _ _ (pattern _ _) _) => (apply ok_pattern; [assumption|assumption|by_wt]) : okdb.

Lemma ok_call E C s : st_ok E C s -> (wt s < S n)%nat -> ok E C true (call U R) s.
Proof. intros H W. unfold call. go. Qed.
Hint Extern 1 (ok _ _ _ (call _ _) _) => (apply ok_call; [assumption|by_wt]) : okdb.

Lemma ok_unary_ E C : forall m s, (List.length (fst s) < m)%nat -> st_ok E C s -> (wt s < S n)%nat -> ok E C true (unary_ U R m) s.
Proof.
  induction m as [|m IH]; intros s Hm H W; [lia|]. cbn [unary_]. okstep.
  destruct (one_of _ _) eqn:Eo; [|go].
  assert (Hk : t_kind (look_tok s) <> TEof).
  { apply one_of_in in Eo. intros Ek. rewrite Ek in Eo. cbn in Eo. intuition discriminate. }
  apply (ok_bind _ _ true false); [now apply ok_consume_t|]. intros tok s1 _ L1 H1.
  apply (ok_bind _ _ false false); [|intro_k; go].
  apply (ok_weak _ _ true), IH; auto; [|by_wt]. apply later_wt in L1. lia.
Qed.
Lemma ok_unary E C s : st_ok E C s -> (wt s < S n)%nat -> ok E C true (unary U R) s.
Proof. intros H W. unfold ok, unary. apply (ok_unary_ E C (S (List.length (fst s))) s); auto. Qed.

Lemma ok_binary E C ops operand s : ~ In TEof ops ->
  (forall s', later false s s' -> st_ok E C s' -> ok E C true operand s') ->
  st_ok E C s -> ok E C true (binary ops operand) s.
Proof.
  intros Hops Ho H. unfold binary. apply (ok_bind _ _ true false); [apply Ho; auto; apply later_refl|]. intros e s1 _ L1 H1.
  apply ok_loop; [|assumption]. intros x s2 L2 H2 Hc. apply one_of_in in Hc.
  okstep. apply (ok_bind _ _ true false).
  { apply ok_consume_t; auto. unfold kind in Hc. intros Ek. rewrite Ek in Hc. contradiction. }
  intros op s3 _ L3 H3. apply (ok_bind _ _ false false); [|intro_k; go].
  apply (ok_weak _ _ true), Ho; auto. apply (later_weak (true || (false || true))).
  repeat (eapply later_trans; [eassumption|]). assumption.
Qed.
Ltac no_eof := cbn; intuition discriminate.
Lemma ok_term E C s : st_ok E C s -> (wt s < S n)%nat -> ok E C true (term U R) s.
Proof. intros H W. apply ok_binary; [no_eof| |assumption]. intros s' L' H'. apply ok_unary; auto. by_wt. Qed.
Lemma ok_addition E C s : st_ok E C s -> (wt s < S n)%nat -> ok E C true (addition U R) s.
Proof. intros H W. apply ok_binary; [no_eof| |assumption]. intros s' L' H'. apply ok_term; auto. by_wt. Qed.
Lemma ok_comparison E C s : st_ok E C s -> (wt s < S n)%nat -> ok E C true (comparison U R) s.
Proof. intros H W. apply ok_binary; [no_eof| |assumption]. intros s' L' H'. apply ok_addition; auto. by_wt. Qed.
Lemma ok_equality E C s : st_ok E C s -> (wt s < S n)%nat -> ok E C true (equality U R) s.
Proof. intros H W. apply ok_binary; [no_eof| |assumption]. intros s' L' H'. apply ok_comparison; auto. by_wt. Qed.
Hint Extern 1 (ok _ _ _ (equality _ _) _) => (apply ok_equality; [assumption|by_wt]) : okdb.

Lemma ok_assignment_ E C : forall m s, (List.length (fst s) < m)%nat -> st_ok E C s -> (wt s < S n)%nat ->
  ok E C true (assignment_ U R m) s.
Proof.
  induction m as [|m IH]; intros s Hm H W; [lia|]. cbn [assignment_]. okstep. okstep.
  destruct (tk_eqb (kind s0) TEqual) eqn:Ek; [|go].
  apply (ok_bind _ _ false false); [leaf|]. intros tok s1 Hc L1 H1.
  destruct (negb (assignable a)); [leaf|].
  apply (ok_bind _ _ false false); [|intro_k; go].
  apply (ok_weak _ _ true), IH; auto; [|by_wt].
  apply later_wt in L1. apply later_wt in Hl. lia.
Qed.
Lemma ok_assignment E C s : st_ok E C s -> (wt s < S n)%nat -> ok E C true (assignment U R) s.
Proof. intros H W. unfold ok, assignment. apply (ok_assignment_ E C (S (List.length (fst s))) s); auto. Qed.
Hint Extern 1 (ok _ _ _ (assignment _ _) _) => (apply ok_assignment; [assumption|by_wt]) : okdb.

Lemma ok_expression E C s : st_ok E C s -> (wt s < S n)%nat -> ok E C true (expression U R) s.
Proof.
  intros H W. unfold expression. okstep. okstep. destruct (compound_op (t_kind (look_tok s0))) as [[k w]|] eqn:Ec; [|leaf].
  assert (t_kind (look_tok s0) <> TEof) by (intros Ek; rewrite Ek in Ec; discriminate).
  destruct (negb (assignable a)); [leaf|]. cbv zeta.
  go.
Qed.
Hint Extern 1 (ok _ _ _ (expression _ _) _) => (apply ok_expression; [assumption|by_wt]) : okdb.

Lemma ok_simple_decl E C t s : st_ok E C s -> (wt s < S n)%nat -> ok E C true (simple_decl U R t) s.
Proof. intros H W. unfold simple_decl. go. Qed.
Hint Extern 1 (ok _ _ _ (simple_decl _ _ _) _) => (apply ok_simple_decl; [assumption|by_wt]) : okdb.
Lemma ok_multi_decl E C t s : st_ok E C s -> (wt s < S n)%nat -> ok E C true (multi_decl R t) s.
Proof. intros H W. unfold multi_decl. go. Qed.
Hint Extern 1 (ok _ _ _ (multi_decl _ _) _) => (apply ok_multi_decl; [assumption|by_wt]) : okdb.
Lemma ok_decl_stmt E C s : st_ok E C s -> (wt s < S n)%nat -> ok E C true (decl_stmt U R) s.
Proof. intros H W. unfold decl_stmt. go. Qed.
Hint Extern 1 (ok _ _ _ (decl_stmt _ _) _) => (apply ok_decl_stmt; [assumption|by_wt]) : okdb.

Lemma ok_block E C s : st_ok E C s -> (wt s < n)%nat -> ok E C false (block R) s.
Proof. intros H W. unfold block. leaf. Qed.
Hint Extern 1 (ok _ _ _ (block _) _) => (apply ok_block; [assumption|by_wt]) : okdb.

Lemma ok_se_iguala E C t s : kind s = TIguala -> st_ok E C s -> (wt s < n)%nat -> ok E C true (se_iguala_stmt U R t) s.
Proof.
  intros Hk H W. destruct (look_line E C s H) as [_ HC]. specialize (HC (or_intror Hk)).
  unfold se_iguala_stmt. go.
Qed.
Lemma ok_senaose E C s : st_ok E C s -> (wt s < S n)%nat -> ok E C true (senaose_branch U R) s.
Proof. intros H W. unfold senaose_branch. go. Qed.
Hint Extern 1 (ok _ _ _ (senaose_branch _ _) _) => (apply ok_senaose; [assumption|by_wt]) : okdb.
Lemma ok_se E C s : st_ok E C s -> (wt s < S n)%nat -> ok E C true (se_statement U R) s.
Proof.
  intros H W. unfold se_statement. okstep. okstep. destruct (tk_eqb (kind s0) TIguala) eqn:Ek; [|go].
  apply tk_eqb_true in Ek. apply (ok_weak _ _ true), ok_se_iguala; auto. by_wt.
Qed.
Hint Extern 1 (ok _ _ _ (se_statement _ _) _) => (apply ok_se; [assumption|by_wt]) : okdb.
Lemma ok_enquanto E C s : st_ok E C s -> (wt s < S n)%nat -> ok E C true (enquanto_stmt U R) s.
Proof. intros H W. unfold enquanto_stmt. go. Qed.
Hint Extern 1 (ok _ _ _ (enquanto_stmt _ _) _) => (apply ok_enquanto; [assumption|by_wt]) : okdb.
Lemma ok_para E C s : st_ok E C s -> (wt s < S n)%nat -> ok E C true (para_stmt U R) s.
Proof. intros H W. unfold para_stmt. go. Qed.
Hint Extern 1 (ok _ _ _ (para_stmt _ _) _) => (apply ok_para; [assumption|by_wt]) : okdb.
Lemma ok_escolha E C s : st_ok E C s -> (wt s < S n)%nat -> ok E C true (escolha_stmt U R) s.
Proof. intros H W. unfold escolha_stmt. go. Qed.
Hint Extern 1 (ok _ _ _ (escolha_stmt _ _) _) => (apply ok_escolha; [assumption|by_wt]) : okdb.
Lemma ok_statement E C s : st_ok E C s -> (wt s < S n)%nat -> ok E C true (statement U R) s.
Proof.
  intros H W. unfold statement. okstep. destruct (t_kind (look_tok s)) eqn:Ek; try solve [go].
  destruct (look_line E C s H) as [_ HC]. specialize (HC (or_intror Ek)).
  apply (ok_bind _ _ true false); [|intro_k; go].
  apply ok_iguala; auto; intros s' L' H'; [apply ok_equality|apply ok_pattern]; auto; by_wt.
Qed.
Hint Extern 1 (ok _ _ _ (statement _ _) _) => (apply ok_statement; [assumption|by_wt]) : okdb.

Lemma ok_annotation_body E C s : st_ok E C s -> ok E C true annotation_body s.
Proof. intros H. unfold annotation_body. go. Qed.
Hint Resolve ok_annotation_body : okdb.
Lemma ok_annotations E C k s : k <> TEof -> st_ok E C s -> ok E C false (annotations k) s.
Proof. intros Hk H. unfold annotations. go. Qed.
Hint Extern 1 (ok _ _ _ (annotations _) _) => (apply ok_annotations; [congruence|assumption]) : okdb.
Lemma ok_formal_params E C s : st_ok E C s -> (wt s < S n)%nat -> ok E C false (formal_params R) s.
Proof. intros H W. unfold formal_params. go. Qed.
Hint Extern 1 (ok _ _ _ (formal_params _) _) => (apply ok_formal_params; [assumption|by_wt]) : okdb.
Lemma ok_function_decl E C ans s : st_ok E C s -> (wt s < S n)%nat -> ok E C true (function_decl R ans) s.
Proof. intros H W. unfold function_decl. go. Qed.
Hint Extern 1 (ok _ _ _ (function_decl _ _) _) => (apply ok_function_decl; [assumption|by_wt]) : okdb.
Lemma ok_method_decl E C ans s : st_ok E C s -> (wt s < S n)%nat -> ok E C true (method_decl R ans) s.
Proof. intros H W. unfold method_decl. go. Qed.
Hint Extern 1 (ok _ _ _ (method_decl _ _) _) => (apply ok_method_decl; [assumption|by_wt]) : okdb.
Lemma ok_uniao_variant E C s : st_ok E C s -> (wt s < S n)%nat -> ok E C true (uniao_variant R) s.
Proof. intros H W. unfold uniao_variant. go. Qed.
Hint Extern 1 (ok _ _ _ (uniao_variant _) _) => (apply ok_uniao_variant; [assumption|by_wt]) : okdb.
Lemma ok_uniao_body E C s : st_ok E C s -> (wt s < S n)%nat -> ok E C false (uniao_body R) s.
Proof. intros H W. unfold uniao_body. go. Qed.
Hint Extern 1 (ok _ _ _ (uniao_body _) _) => (apply ok_uniao_body; [assumption|by_wt]) : okdb.
Lemma ok_uniao_decl E C ans s : st_ok E C s -> (wt s < S n)%nat -> ok E C true (uniao_decl R ans) s.
Proof. intros H W. unfold uniao_decl. go. Qed.
Hint Extern 1 (ok _ _ _ (uniao_decl _ _) _) => (apply ok_uniao_decl; [assumption|by_wt]) : okdb.

Lemma ok_skip_strict E C s : kind s = TNewline -> st_ok E C s -> ok E C true skip_newlines s.
Proof.
  intros Hk H. pose proof (ok_skip E C s H) as H0. unfold ok in *. destruct s as [ts e]. unfold skip_newlines in *. cbn [fst snd] in *.
  unfold kind, look_tok in Hk. cbn [fst snd] in Hk. destruct ts as [|t r].
  - destruct H as [_ H]. destruct e; cbn in *; try discriminate; try tauto. destruct H as [_ H]. congruence.
  - cbn [skip_nl] in *. rewrite Hk in *. cbn [tk_eqb] in *. change (tk_eqb TNewline TNewline) with true in *. cbv iota in *.
    destruct H as [H1 H2]. inversion H1. subst. destruct r as [|t' r].
    + destruct e; cbn in *; try tauto. destruct H0 as [_ H0]. split; [|assumption].
      split; [reflexivity|]. exists [t]. split; [reflexivity|discriminate].
    + pose proof (ok_skip E C (t' :: r, e) ltac:(split; cbn in *; auto; destruct e; cbn in *; auto; split; try tauto; discriminate)) as Hq5.
      unfold ok, skip_newlines in Hq5. cbn [fst snd] in Hq5. destruct (skip_nl (t' :: r) e) as [u s'|l c| |]; auto.
      destruct Hq5 as [Hl Hs]. split; [|assumption]. destruct Hl as (Ee & p & Ep & Hp).
      split; [assumption|]. exists (t :: p). cbn in *. split; [now rewrite Ep|discriminate].
Qed.

Lemma ok_registo_body E C s : st_ok E C s -> (wt s < S n)%nat -> ok E C false (registo_body U R) s.
Proof.
  intros H W. unfold registo_body. apply ok_loop; [|assumption]. intros l s1 L1 H1 _. okstep.
  destruct (t_kind (look_tok s1)) eqn:Ek; try solve [go].
  apply (ok_bind _ _ true false); [now apply ok_skip_strict|intro_k; go].
Qed.
Hint Extern 1 (ok _ _ _ (registo_body _ _) _) => (apply ok_registo_body; [assumption|by_wt]) : okdb.
Lemma ok_registo_decl E C ans s : st_ok E C s -> (wt s < S n)%nat -> ok E C true (registo_decl U R ans) s.
Proof. intros H W. unfold registo_decl. go. Qed.
Hint Extern 1 (ok _ _ _ (registo_decl _ _ _) _) => (apply ok_registo_decl; [assumption|by_wt]) : okdb.

Lemma ok_declaration E C s : st_ok E C s -> (wt s < S n)%nat -> ok E C true (declaration U R) s.
Proof. intros H W. unfold declaration. go. Qed.
Hint Extern 1 (ok _ _ _ (declaration _ _) _) => (apply ok_declaration; [assumption|by_wt]) : okdb.
Lemma ok_children E C stop s : st_ok E C s -> (wt s < S n)%nat -> ok E C false (children U R stop) s.
Proof. intros H W. unfold children. go. Qed.
Hint Extern 1 (ok _ _ _ (children _ _ _) _) => (apply ok_children; [assumption|by_wt]) : okdb.
Lemma ok_usa E C s : st_ok E C s -> ok E C true usa_stmt s.
Proof. intros H. unfold usa_stmt. go. Qed.
Hint Resolve ok_usa : okdb.
Lemma ok_module E C s : st_ok E C s -> (wt s < S n)%nat -> ok E C false (module_ U R) s.
Proof. intros H W. unfold module_. go. Qed.
End Step.

Lemma run_ok U : python_tables U -> forall n,
  (forall E C s, st_ok E C s -> (wt s < n)%nat -> ok E C true (r_eq (run U n)) s) /\
  (forall E C s, st_ok E C s -> (wt s < n)%nat -> ok E C true (r_type (run U n)) s) /\
  (forall E C s, st_ok E C s -> (wt s < n)%nat -> ok E C false (r_block (run U n)) s) /\
  (forall E (C : Prop) s, C -> st_ok E C s -> (wt s < n)%nat -> ok E C true (r_pat (run U n)) s).
Proof.
  intros HU. induction n as [|n (I1 & I2 & I3 & I4)].
  - repeat split; intros; lia.
  - cbn [run step r_eq r_type r_block r_pat]. repeat split; intros.
    + now apply (ok_equality U HU (run U n) n).
    + now apply (ok_type (run U n) n).
    + now apply (ok_children U HU (run U n) n).
    + now apply (ok_pattern U HU (run U n) n).
Qed.

Lemma tokens_eof U f s ts t : tokens U f s = (ts, EEof t) -> t_kind t = TEof.
Proof.
  revert s ts. induction f as [|f IH]; intros s ts H; [discriminate|].
  cbn [tokens] in H. destruct (get_token U s) as [t0 s1| | |]; try discriminate.
  destruct (tk_eqb (t_kind t0) TEof) eqn:Ek; [apply tk_eqb_true in Ek; congruence|].
  destruct (tokens U f s1) as [ts' e'] eqn:E1. injection H as _ ->. eapply IH; eauto.
Qed.

(** What can come out of the parser for any text. *)
Theorem parse_total U : python_tables U -> forall src,
  match parse U src with
  | POk _ _ => True
  | PErr l _ => 1 <= l <= 1 + inner_ends src
  | PCrash => snd (tokenise U src) = ECrash \/
              Exists (fun t => t_kind t = TFormat \/ t_kind t = TIguala) (fst (tokenise U src))
  | PFuel => False
  end.
Proof.
  intros HU src. unfold parse.
  pose proof (tokens_wt U HU (S (List.length src)) (start src)) as Wt.
  pose proof (tokens_total U HU (S (List.length src)) (start src)) as Tot.
  pose proof (tokens_lines U HU (S (List.length src)) (start src)) as Lin.
  cbn [start lx_rest lx_line] in *. specialize (Tot ltac:(lia)). specialize (Lin ltac:(lia)).
  fold (tokenise U src) in *. destruct (tokenise U src) as [ts e] eqn:Et. cbn [fst snd] in *.
  destruct Tot as (Hf & _ & _). cbv zeta in Lin. destruct Lin as [L1 L2].
  assert (He : forall t, e = EEof t -> t_kind t = TEof) by (intros t ->; eapply tokens_eof; exact Et).
  unfold parse_tokens. set (Q := e = ECrash \/ _).
  assert (St : ts <> [] \/ (exists t, e = EEof t) -> st_ok (fun l => 1 <= l <= 1 + inner_ends src) Q (ts, e)).
  { intros Hne. split; cbn [fst snd].
    - rewrite Forall_forall in L1 |- *. intros t Ht. split; [now apply L1|]. intros Hk. right. apply Exists_exists. eauto.
    - destruct e; cbn in L2; try (split; [assumption|eauto]).
      + destruct Hne as [?|[? ?]]; [assumption|discriminate].
      + split; [now left|]. destruct Hne as [?|[? ?]]; [assumption|discriminate].
      + congruence. }
  destruct (pull ts e) as [u s'|l c| |] eqn:Ep.
  - assert (s' = (ts, e) /\ (ts <> [] \/ exists t, e = EEof t)) as [-> Hne].
    { unfold pull in Ep. destruct ts; [destruct e; try discriminate|]; injection Ep as _ <-; split; eauto. left. discriminate. }
    destruct (run_ok U HU (S (List.length src))) as (I1 & I2 & I3 & I4).
    pose proof (ok_module U HU (run U (S (List.length src))) (S (List.length src)) I1 I2 I3 I4 _ _ _ (St Hne)) as H.
    unfold wt in H. cbn [fst] in H. specialize (H ltac:(lia)). unfold ok in H.
    destruct (module_ U (run U (S (List.length src))) (ts, e)); auto.
  - unfold pull in Ep. destruct ts; [destruct e; try discriminate|discriminate]. injection Ep as <- <-. exact L2.
  - unfold pull in Ep. destruct ts; [destruct e; try discriminate|discriminate]. now left.
  - unfold pull in Ep. destruct ts; [destruct e; try discriminate|discriminate]. congruence.
Qed.

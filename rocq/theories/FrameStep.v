(** What one instruction leaves alone on the stack. *)
From Verif Require Import Base BaseFacts Bson Opcode OpcodeFacts Value ValueFacts Ast CodeGen VM Spec_Code Spec_Height HeightStep HeightRun Spec_Frame.

Definition kept (k : Z) (vs vs' : list value) : Prop := forall j v, (Z.of_nat j < k)%Z -> nth_error vs j = Some v -> nth_error vs' j = Some v.
Lemma kept_refl k vs : kept k vs vs. Proof. intros j v _ H. exact H. Qed.
Lemma kept_trans k a b c : kept k a b -> kept k b c -> kept k a c. Proof. intros H1 H2 j v L H. eauto. Qed.
Lemma kept_app k a b c : kept k a b -> kept k a (b ++ c).
Proof. intros K j v L H. specialize (K j v L H). rewrite nth_error_app1; [exact K|]. apply nth_error_Some. congruence. Qed.
Lemma kept_set k a b i v : kept k a b -> (k <= i)%Z -> kept k a (list_set b (Z.to_nat i) v).
Proof. intros K I j w L H. rewrite list_set_neq by lia. eauto. Qed.
Lemma nth_firstn {A} n : forall (l : list A) j, (j < n)%nat -> nth_error (firstn n l) j = nth_error l j.
Proof. induction n as [|n IH]; intros [|x l] [|j] L; cbn; try lia; try reflexivity. apply IH. lia. Qed.
Lemma kept_firstn k a b n : kept k a b -> (k <= n)%Z -> kept k a (firstn (Z.to_nat n) b).
Proof. intros K I j w L H. rewrite nth_firstn by lia. eauto. Qed.
Lemma kept_removelast k a b : kept k a b -> (k <= zlen b - 1)%Z -> kept k a (removelast b).
Proof. intros K I. rewrite removelast_firstn_len. replace (Nat.pred (List.length b)) with (Z.to_nat (zlen b - 1)) by (unfold zlen; lia). now apply kept_firstn. Qed.

Section S.
Variables (E : ext) (P : program) (k : Z).
Definition ks (s s' : state) (x : Z) : Prop := s_sp s' = (s_sp s + x)%Z /\ s_frames s' = s_frames s /\ kept k (s_vals s) (s_vals s').
Lemma push_k s v : (k <= s_sp s + 1)%Z -> kept k (s_vals s) (s_vals (op_push s v)).
Proof.
  intros L. unfold op_push. destruct (_ =? _)%Z; [|destruct (_ <? _)%Z]; cbn [with_stack s_vals]; [apply kept_app, kept_refl|apply kept_set; [apply kept_refl|exact L]|apply kept_refl].
Qed.
Lemma pop_k s v s' : op_pop s = Some (v, s') -> (k <= s_sp s)%Z -> kept k (s_vals s) (s_vals s').
Proof.
  unfold op_pop. intros H L. destruct (Z.eqb_spec (s_sp s) (zlen (s_vals s) - 1)); [|destruct (_ <? _)%Z]; [destruct (vget _ _)..|]; try discriminate; injection H as _ <-; cbn [with_stack s_vals];
    [apply kept_removelast; [apply kept_refl|lia]|apply kept_set; [apply kept_refl|exact L]].
Qed.
Definition kres (s : state) (r : xres) : Prop := match r with XOk s' => kept k (s_vals s) (s_vals s') | _ => True end.
Lemma k_pop s0 s x f : ks s0 s x -> (k <= s_sp s)%Z -> (forall v s', ks s0 s' (x - 1) -> kres s0 (f v s')) -> kres s0 (xpop s f).
Proof.
  intros (A & B & C) L H. unfold xpop. destruct (op_pop s) as [[v s']|] eqn:Q; [|exact I]. apply H. destruct (pop_h _ _ _ Q) as (A' & B' & _).
  split; [lia|]. split; [congruence|]. eapply kept_trans; [exact C|eapply pop_k; eassumption].
Qed.
Lemma k_opt {A} s0 (o : option A) f : (forall a, kres s0 (f a)) -> kres s0 (xopt o f). Proof. intros H. destruct o; cbn; auto. Qed.
Lemma k_lift {A} s0 s (o : vres A) f : (forall a, kres s0 (f a)) -> kres s0 (xlift s o f). Proof. intros H. destruct o; cbn; auto. Qed.
Lemma k_pushed s0 s x v : ks s0 s x -> (k <= s_sp s + 1)%Z -> ks s0 (op_push s v) (x + 1).
Proof. intros (A & B & C) L. destruct (push_h s v) as (A' & B' & _). split; [lia|]. split; [congruence|]. eapply kept_trans; [exact C|now apply push_k]. Qed.
Lemma k_val s0 s x r : ks s0 s x -> (k <= s_sp s + 1)%Z -> kres s0 (xval s r).
Proof. intros S H. destruct r; cbn; auto. eapply (k_pushed s0 s x); eassumption. Qed.
Lemma k_ok s0 s x : ks s0 s x -> kres s0 (XOk s). Proof. intros H. apply H. Qed.
Lemma k_refl s : ks s s 0. Proof. split; [lia|]. split; [reflexivity|apply kept_refl]. Qed.
Lemma k_world s0 s x w : ks s0 s x -> ks s0 (with_world s w) x. Proof. intros H. exact H. Qed.
Lemma k_globs s0 s x m g : ks s0 s x -> ks s0 (set_globs s m g) x. Proof. intros H. unfold set_globs. destruct m; exact H. Qed.
Lemma k_stack s0 s x vs sp : ks s0 s x -> kept k (s_vals s0) vs -> ks s0 (with_stack s vs sp) (sp - s_sp s0).
Proof. intros (A & B & C) K. split; [cbn; lia|]. split; [exact B|exact K]. Qed.
Ltac arith := repeat match goal with
  | H : ks ?a ?b _ |- _ => lazymatch a with b => fail | _ => idtac end; let K := fresh in pose proof (proj1 H) as K; clear H
  | H : (_ =? _)%N = true |- _ => apply N.eqb_eq in H
  | H : (_ =? _)%N = false |- _ => apply N.eqb_neq in H
  end; cbn [s_sp with_stack with_world] in *; rewrite ?(proj1 (push_h _ _)); cbn [s_sp with_stack with_world] in *; lia.
Ltac km := match goal with
  | |- ks _ (op_push _ _) _ => apply k_pushed; [km|arith]
  | |- ks _ (with_world _ _) _ => apply k_world; km
  | |- ks _ (set_globs _ _ _) _ => apply k_globs; km
  | |- ks _ (with_stack _ _ _) _ => eapply k_stack; [km|kv]
  | H : ks _ ?s _ |- ks _ ?s _ => exact H
  | |- ks ?s ?s _ => apply k_refl
  end
with kv := cbn [s_vals with_stack with_world]; match goal with
  | |- kept _ _ (truncate _ _) => unfold truncate; apply kept_firstn; [kv|arith]
  | |- kept _ _ (drain_mid _ _ _) => unfold drain_mid; apply kept_app, kept_firstn; [kv|arith]
  | H : ks _ ?s _ |- kept _ _ (s_vals ?s) => exact (proj2 (proj2 H))
  | |- kept _ ?a ?a => apply kept_refl
  | |- kept _ _ (s_vals (op_push ?s ?v)) => let H := fresh in eassert (H : ks _ (op_push s v) _) by km; exact (proj2 (proj2 H))
  end.
Ltac hs1 := match goal with
  | |- True => exact I
  | |- kres _ XPanic => exact I
  | |- kres _ (XErr _ _) => exact I
  | |- kres _ (XHalt _) => exact I
  | |- kres _ (xopt _ _) => apply k_opt; intros ?
  | |- kres _ (xlift _ _ _) => apply k_lift; intros ?
  | |- kres _ (xpop _ _) => eapply k_pop; [km|arith|intros ? ? ?]
  | |- kres _ (xval _ _) => eapply k_val; [km|arith]
  | |- kres _ (XOk _) => eapply k_ok; km
  | |- kres _ (if ?b then _ else _) => destruct b eqn:?
  | |- kres _ (let (_, _) := halloc ?a ?b in _) => destruct (halloc a b)
  | |- kres _ (match ?v with _ => _ end) => is_var v; destruct v
  end.
Ltac hs := repeat hs1.

Lemma plain_k o args s : o <> CALL_FUNCTION -> o <> RETURN -> o <> BIND_MATCH_ARGS -> (o = SET_LOCAL -> k <= top_bp s)%Z ->
  (k <= s_sp s + 1 - Z.of_nat (takes o args))%Z -> kres s (exec_op E P o args s).
Proof.
  intros NC NR NB SL TK. unfold exec_op. apply k_opt. intros m.
  destruct o; try contradiction; clear NC NR NB; cbn [takes is_binop] in TK.
  all: revert TK; generalize (nth 0 args 0%N); intros a0 TK.
  all: try solve [hs].
  - cbn [kres]. unfold set_top_ip. destruct (s_frames s); apply kept_refl.
  - eapply k_pop; [km|arith|]. intros v s1 S1. assert (T : kept k (s_vals s) (s_vals (set_top_ip s1 a0))) by (unfold set_top_ip; destruct (s_frames s1); apply S1).
    destruct v as [| |[]| | | | | | | | |]; first [exact T|apply S1].
  - eapply k_pop; [km|arith|]. intros v s1 S1. unfold vset. destruct (_ || _)%bool; [exact I|]. cbn [xopt kres with_stack s_vals].
    apply kept_set; [apply S1|]. assert (TB : top_bp s1 = top_bp s) by (unfold top_bp; rewrite (proj1 (proj2 S1)); reflexivity). specialize (SL eq_refl). rewrite TB. lia.
  - destruct (N.eqb_spec a0 0) as [->|NZ]; [hs|]. apply k_opt. intros elems. destruct (halloc (s_world s) (CVec elems)) as [w l]. set (t := with_stack (with_world s w) (s_vals s) _).
    assert (KT : ks s t (- Z.of_N a0)) by (split; [cbn; lia|split; [reflexivity|apply kept_refl]]). assert (SP : s_sp t = (s_sp s - Z.of_N a0)%Z) by (cbn; lia). clearbody t.
    cbn [kres with_stack s_vals]. unfold truncate. apply kept_firstn; [eapply (k_pushed s t); [exact KT|lia]|rewrite (proj1 (push_h _ _)); lia].
  - destruct (N.eqb_spec a0 1) as [->|NZ]; [assert (TK2 : (k <= s_sp s + 1 - 2)%Z) by exact TK; clear TK; solve [hs]|]. destruct (Nat.eqb_spec (N.to_nat a0) 1); [lia|]. hs.
Qed.
Lemma reserve_k s n : kept k (s_vals s) (s_vals (reserve s n)). Proof. cbn. apply kept_app, kept_refl. Qed.
Lemma call_k n s : (k <= s_sp s - Z.of_N n)%Z -> kres s (call_function E s n).
Proof.
  intros L. unfold call_function. eapply k_pop; [km|lia|]. intros fv s1 S1. pose proof (proj1 S1) as SP. destruct fv as [| | |fn|nm| | | | | | |]; try exact I.
  - assert (F : forall s2, kept k (s_vals s1) (s_vals s2) -> kres s (let s' := match fn_mod fn with Some i => with_ctx s2 (Some i) | None => s2 end in
       if Nat.leb recursion_limit (List.length (s_frames s')) then XErr ERecursion s'
       else XOk (with_frames s' (mkFrame (fn_name fn) (fn_start fn) (fn_start fn) (if (0 <? Z.of_N n)%Z then (s_sp s1 - (Z.of_N n - 1))%Z else if (0 <? fn_locals fn)%N then (s_sp s1 + 1)%Z else (-1)%Z) (fn_mod fn) :: s_frames s')))).
    { intros s2 K. cbv zeta. destruct (Nat.leb _ _); [exact I|]. cbn [kres]. eapply kept_trans; [apply S1|]. destruct (fn_mod fn); exact K. }
    destruct (0 <? Z.of_N n)%Z; [|destruct (0 <? fn_locals fn)%N].
    + destruct (fn_locals fn <? n)%N; [exact I|]. cbn [xopt]. apply (F (reserve s1 _)), reserve_k.
    + cbn [xopt]. apply (F (reserve s1 _)), reserve_k.
    + cbn [xopt]. apply (F s1), kept_refl.
  - cbv zeta. set (start := if (0 <? Z.of_N n)%Z then (s_sp s1 - _)%Z else _). assert (ST : start = (s_sp s - Z.of_N n)%Z) by (unfold start; destruct (Z.ltb_spec 0 (Z.of_N n)); lia). clearbody start. subst start.
    apply k_opt. intros args. cbv zeta. apply k_lift. intros [rv w]. set (t := with_world _ w).
    assert (KT : ks s t (- Z.of_N n - 1)) by (split; [cbn; lia|split; [apply S1|apply S1]]). assert (SPT : s_sp t = (s_sp s - Z.of_N n - 1)%Z) by (cbn; lia). clearbody t.
    cbn [kres with_stack s_vals]. unfold truncate. apply kept_firstn; [eapply (k_pushed s t); [exact KT|lia]|rewrite (proj1 (push_h _ _)); lia].
Qed.
Lemma return_k s s' f g r v s1 : s_frames s = f :: g :: r -> do_return s = XOk s' -> op_pop s = Some (v, s1) -> (k <= s_sp s)%Z -> (0 <= f_bp f -> k <= f_bp f)%Z ->
  kept k (s_vals s) (s_vals s') /\ (0 <= s_sp s -> f_bp f <= s_sp s -> nth_error (s_vals s') (Z.to_nat (s_sp s')) = Some v)%Z.
Proof.
  intros F X Q L B. unfold do_return, xpop in X. rewrite Q in X. destruct (pop_h _ _ _ Q) as (Q1 & Q2 & _). rewrite Q2, F in X. injection X as <-. pose proof (pop_k _ _ _ Q L) as K.
  set (t := with_frames _ _). assert (TV : s_vals t = s_vals s1) by reflexivity. assert (TS : s_sp t = if (-1 <? f_bp f)%Z then (f_bp f - 1)%Z else s_sp s1) by reflexivity.
  assert (LN : (s_sp s <= zlen (s_vals s1))%Z).
  { clear - Q. unfold op_pop in Q. destruct (Z.eqb_spec (s_sp s) (zlen (s_vals s) - 1)) as [e|e]; [|destruct (Z.ltb_spec (s_sp s) (zlen (s_vals s) - 1)) as [e'|e']]; [destruct (vget _ _)..|]; try discriminate; injection Q as _ <-; cbn [with_stack s_vals].
    - rewrite removelast_firstn_len. unfold zlen in *. rewrite firstn_length. lia.
    - unfold zlen in *. rewrite list_set_length. lia. }
  clearbody t. cbn [with_ctx s_vals s_sp]. destruct (Z.ltb_spec (-1) (f_bp f)) as [B1|B1]; split.
  1,3: eapply kept_trans; [exact K|]; rewrite <- TV; apply push_k; lia.
  all: intros S0 BB; rewrite (proj1 (push_h _ _)); unfold op_push; rewrite TV; destruct (Z.eqb_spec (s_sp t + 1) (zlen (s_vals s1))) as [e|e]; [|destruct (Z.ltb_spec (s_sp t + 1) (zlen (s_vals s1))) as [e'|e']; [|lia]]; cbn [with_stack s_vals].
  1,3: rewrite e; unfold zlen; rewrite Nat2Z.id, nth_error_app2, Nat.sub_diag by lia; reflexivity.
  all: apply list_set_eq; unfold zlen in *; lia.
Qed.
End S.
Lemma call_sp E n fn s s1 s' : op_pop s = Some (VFunc fn, s1) -> call_function E s n = XOk s' -> (s_sp s - 1 <= s_sp s')%Z.
Proof.
  intros Q X. assert (LN : (s_sp s - 1 <= zlen (s_vals s1) - 1)%Z).
  { clear - Q. unfold op_pop in Q. destruct (Z.eqb_spec (s_sp s) (zlen (s_vals s) - 1)) as [e|e]; [|destruct (Z.ltb_spec (s_sp s) (zlen (s_vals s) - 1)) as [e'|e']]; [destruct (vget _ _)..|]; try discriminate; injection Q as _ <-; cbn [with_stack s_vals].
    - rewrite removelast_firstn_len. unfold zlen in *. rewrite firstn_length. lia.
    - unfold zlen in *. rewrite list_set_length. lia. }
  unfold call_function, xpop in X. rewrite Q in X. destruct (pop_h _ _ _ Q) as (Q1 & _).
  assert (R : forall q, (zlen (s_vals s1) - 1 <= s_sp (reserve s1 q))%Z) by (intros q; cbn; unfold zlen; rewrite app_length; lia).
  destruct (0 <? Z.of_N n)%Z; [|destruct (0 <? fn_locals fn)%N].
  - destruct (fn_locals fn <? n)%N; [discriminate|]. cbn [xopt] in X. match type of X with (if ?b then _ else _) = _ => destruct b; [discriminate|] end. injection X as <-.
    specialize (R (fn_locals fn - n)%N). destruct (fn_mod fn); cbn [with_frames with_ctx s_sp]; lia.
  - cbn [xopt] in X. match type of X with (if ?b then _ else _) = _ => destruct b; [discriminate|] end. injection X as <-.
    specialize (R (fn_locals fn)). destruct (fn_mod fn); cbn [with_frames with_ctx s_sp]; lia.
  - cbn [xopt] in X. match type of X with (if ?b then _ else _) = _ => destruct b; [discriminate|] end. injection X as <-. destruct (fn_mod fn); cbn [with_frames with_ctx s_sp]; lia.
Qed.
Lemma call_all E n fn s s1 s' : op_pop s = Some (VFunc fn, s1) -> call_function E s n = XOk s' ->
  kept (s_sp s) (s_vals s) (s_vals s') /\ s_world s' = s_world s /\ s_globs s' = s_globs s /\ s_iglobs s' = s_iglobs s.
Proof.
  intros Q X. pose proof (pop_k (s_sp s) _ _ _ Q ltac:(lia)) as K. assert (W : s_world s1 = s_world s /\ s_globs s1 = s_globs s /\ s_iglobs s1 = s_iglobs s).
  { clear - Q. unfold op_pop in Q. destruct (_ =? _)%Z; [|destruct (_ <? _)%Z]; [destruct (vget _ _)..|]; try discriminate; injection Q as _ <-; auto. }
  unfold call_function, xpop in X. rewrite Q in X. pose proof (reserve_k (s_sp s) s1) as R.
  destruct (0 <? Z.of_N n)%Z; [|destruct (0 <? fn_locals fn)%N].
  - destruct (fn_locals fn <? n)%N; [discriminate|]. cbn [xopt] in X. match type of X with (if ?b then _ else _) = _ => destruct b; [discriminate|] end. injection X as <-.
    split; [eapply kept_trans; [exact K|]; destruct (fn_mod fn); apply R|destruct (fn_mod fn); exact W].
  - cbn [xopt] in X. match type of X with (if ?b then _ else _) = _ => destruct b; [discriminate|] end. injection X as <-.
    split; [eapply kept_trans; [exact K|]; destruct (fn_mod fn); apply R|destruct (fn_mod fn); exact W].
  - cbn [xopt] in X. match type of X with (if ?b then _ else _) = _ => destruct b; [discriminate|] end. injection X as <-. split; destruct (fn_mod fn); first [exact K|exact W].
Qed.

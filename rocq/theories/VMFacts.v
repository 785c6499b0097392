(** Facts about single VM steps. *)
From Verif Require Import Base Float Opcode Value VM Spec_VM.

Lemma push_frames s v : s_frames (op_push s v) = s_frames s.
Proof. unfold op_push. destruct (_ =? _)%Z; [|destruct (_ <? _)%Z]; reflexivity. Qed.
Lemma pop_frames s v s' : op_pop s = Some (v, s') -> s_frames s' = s_frames s.
Proof.
  unfold op_pop. destruct (_ =? _)%Z; [|destruct (_ <? _)%Z]; try discriminate;
    destruct (vget _ _); try discriminate; intros X; injection X as _ <-; reflexivity.
Qed.
Lemma reserve_frames s n : s_frames (reserve s n) = s_frames s.
Proof. reflexivity. Qed.
Lemma set_globs_frames s m g : s_frames (set_globs s m g) = s_frames s.
Proof. destruct m; reflexivity. Qed.
Lemma set_top_ip_frames s ip : List.length (s_frames (set_top_ip s ip)) = List.length (s_frames s).
Proof. unfold set_top_ip. destruct (s_frames s) eqn:E; [|cbn]; congruence. Qed.

(** Result states have the same number of frames. *)
Definition flen (x : xres) (n : nat) : Prop :=
  match x with XOk s | XHalt s | XErr _ s => List.length (s_frames s) = n | XPanic => True end.
Lemma flen_xpop s k n : List.length (s_frames s) = n ->
  (forall v s', List.length (s_frames s') = n -> flen (k v s') n) -> flen (xpop s k) n.
Proof. intros H K. unfold xpop. destruct (op_pop s) as [[v s']|] eqn:E; [|exact I]. apply K. rewrite (pop_frames _ _ _ E). exact H. Qed.
Lemma flen_xval s r n : List.length (s_frames s) = n -> flen (xval s r) n.
Proof. intros H. destruct r; cbn; rewrite ?push_frames; auto. Qed.
Lemma flen_xlift A s (r : vres A) k n : List.length (s_frames s) = n -> (forall a, flen (k a) n) -> flen (xlift s r k) n.
Proof. intros H K. destruct r; cbn; auto. Qed.
Lemma flen_xopt A (o : option A) k n : (forall a, flen (k a) n) -> flen (xopt o k) n.
Proof. intros K. destruct o; cbn; auto. Qed.

Ltac flen_tac :=
  repeat first
    [ assumption
    | apply flen_xpop; [flen_tac|intros]
    | apply flen_xval
    | apply flen_xlift; [flen_tac|intros]
    | apply flen_xopt; intros
    | progress cbn [flen with_stack with_frames with_world with_ctx s_frames]
    | rewrite push_frames
    | rewrite set_globs_frames
    | rewrite set_top_ip_frames
    | match goal with
      | |- flen (match ?v with _ => _ end) _ => destruct v
      | |- context [let (_, _) := ?p in _] => destruct p
      | |- True => exact I
      end ].

Lemma bind_frames vargs n : forall idxs i s, List.length (s_frames s) = n ->
  flen ((fix bind (idxs : list value) (i : nat) (s : state) {struct idxs} : xres :=
             match idxs with
             | [] => XOk s
             | iv :: r =>
                 xlift s (take_int iv) (fun idx =>
                 xopt (nth_error vargs i) (fun v =>
                 xopt (vset (s_vals s) (top_bp s + idx) v) (fun vs =>
                 bind r (S i) (with_stack s vs (s_sp s)))))
             end) idxs i s) n.
Proof.
  induction idxs as [|iv r IH]; intros i s H; [exact H|].
  apply flen_xlift; [exact H|intros]. apply flen_xopt; intros. apply flen_xopt; intros. apply IH. exact H.
Qed.

Lemma exec_frames E P o args s : o <> CALL_FUNCTION -> o <> RETURN ->
  flen (exec_op E P o args s) (List.length (s_frames s)).
Proof.
  intros N1 N2. remember (List.length (s_frames s)) as n eqn:Hn. symmetry in Hn.
  unfold exec_op. apply flen_xopt; intros m.
  destruct o; try congruence; try (flen_tac; fail).
  cbn zeta. apply flen_xopt; intros. apply flen_xpop; [assumption|intros v s' H'].
  destruct v; try exact I. destruct args0; try exact I. apply bind_frames. assumption.
Qed.

Lemma call_frames E s n s' : call_function E s n = XOk s' ->
  List.length (s_frames s') = List.length (s_frames s) \/
  (List.length (s_frames s') = S (List.length (s_frames s)) /\ (List.length (s_frames s) < recursion_limit)%nat).
Proof.
  unfold call_function, xpop. destruct (op_pop s) as [[fv s1]|] eqn:Ep; [|discriminate].
  pose proof (pop_frames _ _ _ Ep) as F1. destruct fv; try discriminate.
  - destruct (_ : Z * option state) as [bp so] eqn:Eb. unfold xopt. destruct so as [s2|]; [|discriminate].
    assert (F2 : s_frames s2 = s_frames s).
    { destruct (0 <? Z.of_N n)%Z; [|destruct (0 <? fn_locals f)%N].
      - destruct (fn_locals f <? n)%N; [discriminate|]. injection Eb as _ <-. exact F1.
      - injection Eb as _ <-. exact F1.
      - injection Eb as _ <-. exact F1. }
    assert (F3 : s_frames (match fn_mod f with Some i => with_ctx s2 (Some i) | None => s2 end) = s_frames s)
      by (destruct (fn_mod f); exact F2).
    set (s3 := match fn_mod f with Some i => with_ctx s2 (Some i) | None => s2 end) in *.
    destruct (Nat.leb recursion_limit (List.length (s_frames s3))) eqn:L; [discriminate|].
    intros X; injection X as <-. right. cbn [s_frames with_frames List.length]. rewrite F3 in L |- *.
    split; [reflexivity|]. apply Nat.leb_gt in L. exact L.
  - unfold xopt. destruct (if _ : bool then _ else _) as [fargs|]; [|discriminate]. unfold xlift.
    destruct (native _ _ _ _) as [[r w]| |]; try discriminate. intros X; injection X as <-. left.
    cbn [s_frames with_stack]. rewrite push_frames. cbn. congruence.
Qed.
Lemma return_frames s s' : do_return s = XOk s' -> (List.length (s_frames s') < List.length (s_frames s))%nat.
Proof.
  unfold do_return, xpop. destruct (op_pop s) as [[fv s1]|] eqn:Ep; [|discriminate].
  pose proof (pop_frames _ _ _ Ep) as F1. rewrite F1. destruct (s_frames s) as [|f [|g r]]; try discriminate.
  intros X; injection X as <-. cbn [s_frames with_ctx]. rewrite push_frames. cbn. lia.
Qed.

Lemma step_frames E P s s' : step E P s = SNext s' ->
  (List.length (s_frames s) <= recursion_limit)%nat -> (List.length (s_frames s') <= recursion_limit)%nat.
Proof.
  unfold step. destruct (s_frames s) as [|f r] eqn:Ef; [discriminate|].
  destruct (get_module P (s_ctx s)); [|discriminate].
  destruct (vm_fetch _) as [[[o args] n]|]; [|discriminate].
  set (s1 := with_frames s _). assert (L1 : List.length (s_frames s1) = List.length (f :: r)) by reflexivity.
  destruct (exec_op E P o args s1) as [s2|s2|e s2|] eqn:X; try discriminate. intros Y; injection Y as <-. intros L.
  destruct o;
    try (match type of X with exec_op _ _ ?o _ _ = _ =>
           pose proof (exec_frames E P o args s1 ltac:(discriminate) ltac:(discriminate)) as F end;
         rewrite X in F; cbn [flen] in F; rewrite F, L1; exact L).
  - unfold exec_op in X. destruct (get_module P (s_ctx s1)); [|discriminate]. cbn [xopt] in X.
    apply call_frames in X. rewrite L1 in X. cbn in *. lia.
  - unfold exec_op in X. destruct (get_module P (s_ctx s1)); [|discriminate]. cbn [xopt] in X.
    apply return_frames in X. rewrite L1 in X. cbn in *. lia.
Qed.
Lemma reaches_frames E P s s' : reaches E P s s' ->
  (List.length (s_frames s) <= recursion_limit)%nat -> (List.length (s_frames s') <= recursion_limit)%nat.
Proof. induction 1; eauto using step_frames. Qed.

(** A call of a program function. *)
Lemma call_limit E P s f n : next_op P s CALL_FUNCTION [n] -> top s (VFunc f) ->
  (n <= fn_locals f)%N ->
  ((List.length (s_frames s) < recursion_limit)%nat ->
     exists s', step E P s = SNext s' /\ List.length (s_frames s') = S (List.length (s_frames s))) /\
  ((recursion_limit <= List.length (s_frames s))%nat -> exists tr s', step E P s = SErr ERecursion tr s').
Proof.
  intros (fr & r & m & k & Hf & Hm & Hv) (s1 & Hp) Hn. unfold step. rewrite Hf, Hm, Hv.
  set (s0 := with_frames s _).
  assert (Hp0 : op_pop s0 = Some (VFunc f, with_frames s1 (mkFrame (f_name fr) (f_ip fr + N.of_nat k) (f_ip fr) (f_bp fr) (f_mod fr) :: r))).
  { unfold op_pop in *. cbn [s_vals s_sp s0 with_frames] in *. destruct (_ =? _)%Z; [|destruct (_ <? _)%Z]; try discriminate;
      destruct (vget _ _); try discriminate; injection Hp as -> <-; reflexivity. }
  unfold exec_op. change (s_ctx s0) with (s_ctx s). rewrite Hm. cbn [xopt nth].
  unfold call_function, xpop. rewrite Hp0.
  set (s2 := with_frames s1 _).
  assert (B : exists bp s3, (if (0 <? Z.of_N n)%Z
      then ((s_sp s2 - (Z.of_N n - 1))%Z, if (fn_locals f <? n)%N then None else Some (reserve s2 (fn_locals f - n)))
      else if (0 <? fn_locals f)%N then ((s_sp s2 + 1)%Z, Some (reserve s2 (fn_locals f))) else ((-1)%Z, Some s2)) = (bp, Some s3)
      /\ s_frames s3 = s_frames s2).
  { destruct (0 <? Z.of_N n)%Z; [|destruct (0 <? fn_locals f)%N].
    - replace (fn_locals f <? n)%N with false by lia. eauto.
    - eauto.
    - eauto. }
  destruct B as (bp & s3 & -> & F3). cbn [xopt].
  set (s4 := match fn_mod f with Some i => with_ctx s3 (Some i) | None => s3 end).
  assert (F4 : s_frames s4 = s_frames s2) by (unfold s4; destruct (fn_mod f); exact F3).
  assert (L4 : List.length (s_frames s4) = List.length (fr :: r)) by (rewrite F4; reflexivity).
  rewrite L4. split; intros L.
  - replace (Nat.leb recursion_limit (List.length (fr :: r))) with false by (symmetry; apply Nat.leb_gt; exact L).
    eexists. split; [reflexivity|]. cbn [s_frames with_frames List.length]. rewrite F4. reflexivity.
  - replace (Nat.leb recursion_limit (List.length (fr :: r))) with true by (symmetry; apply Nat.leb_le; exact L).
    eauto.
Qed.

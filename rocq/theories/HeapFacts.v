(** Proofs about vectors and records. *)
From Coq Require Import Permutation.
From Verif Require Import Base BaseFacts Float Value Spec_Value ValueFacts Spec_Heap.
Local Open Scope Z_scope.

Lemma list_set_replace l i v : list_set l i v = replace_at l i v.
Proof. revert i; induction l as [|x l IH]; intros [|i]; cbn; try rewrite IH; reflexivity. Qed.
Lemma remove_nth_delete (l : list value) i : remove_nth l i = delete_at l i.
Proof.
  unfold remove_nth. revert i; induction l as [|x l IH]; intros [|i]; cbn [firstn skipn delete_at app]; try reflexivity.
  rewrite <- IH. reflexivity.
Qed.
Lemma bounds_check vs i :
  vec_index_check vs i = match out_of_bounds vs i with Some e => RErr e | None => ROk (Z.to_nat i) end.
Proof.
  unfold vec_index_check, out_of_bounds. destruct (i <? 0); [reflexivity|]. destruct (_ <=? _); reflexivity.
Qed.
Lemma in_bounds_nth (vs : list value) i : out_of_bounds vs i = None ->
  nth_error vs (Z.to_nat i) = Some (nth (Z.to_nat i) vs VNone).
Proof.
  unfold out_of_bounds. destruct (i <? 0) eqn:A; [discriminate|]. destruct (_ <=? _) eqn:B; [discriminate|].
  intros _. apply nth_error_nth'. lia.
Qed.
Lemma out_of_bounds_none vs i : out_of_bounds vs i = None <-> 0 <= i < Z.of_nat (List.length vs).
Proof. unfold out_of_bounds. destruct (i <? 0) eqn:A; [|destruct (_ <=? _) eqn:B]; split; intros; try congruence; lia. Qed.

Lemma native_anexa E l v w vs : nth_error (w_heap w) l = Some (CVec vs) ->
  native E (txt "anexa") [VVec l; v] w = ROk (VNone, set_heap w (list_set (w_heap w) l (CVec (vs ++ [v])))).
Proof.
  intros H. transitivity (match nth_error (w_heap w) l with
        | Some (CVec vs) => ROk (VNone, set_heap w (list_set (w_heap w) l (CVec (vs ++ [v]))))
        | _ => RPanic end); [reflexivity|]. rewrite H. reflexivity.
Qed.
Lemma native_remova E l idx w vs : nth_error (w_heap w) l = Some (CVec vs) ->
  native E (txt "remova") [VVec l; VInt idx] w =
  (let* i := vec_index_check vs idx in let* x := of_opt (nth_error vs i) in
   ROk (x, set_heap w (list_set (w_heap w) l (CVec (remove_nth vs i))))).
Proof.
  intros H. transitivity (match nth_error (w_heap w) l with
        | Some (CVec vs) =>
            let* i := vec_index_check vs idx in
            let* x := of_opt (nth_error vs i) in
            ROk (x, set_heap w (list_set (w_heap w) l (CVec (remove_nth vs i))))
        | _ => RPanic end); [reflexivity|]. rewrite H. reflexivity.
Qed.
Lemma native_tam E l w vs : nth_error (w_heap w) l = Some (CVec vs) ->
  native E (txt "tam") [VVec l] w = ROk (VInt (Z.of_nat (List.length vs)), w).
Proof.
  intros H. transitivity (match nth_error (w_heap w) l with
        | Some (CVec vs) => ROk (VInt (Z.of_nat (List.length vs)), w)
        | _ => RPanic end); [reflexivity|]. rewrite H. reflexivity.
Qed.

Lemma vm_op_list E loc w vs o : nth_error (w_heap w) loc = Some (CVec vs) ->
  match list_op vs o with
  | inl e => vm_op E loc w o = RErr e
  | inr (v, vs') =>
      exists w', vm_op E loc w o = ROk (v, w') /\ nth_error (w_heap w') loc = Some (CVec vs') /\
        same_elsewhere (w_heap w) (w_heap w') loc /\ w_out w' = w_out w /\ w_in w' = w_in w
  end.
Proof.
  intros H.
  assert (L : (loc < List.length (w_heap w))%nat) by (apply nth_error_Some; congruence).
  assert (Same : same_elsewhere (w_heap w) (w_heap w) loc) by (split; auto).
  destruct o as [v|i| |i|i v]; unfold list_op, vm_op; cbn zeta.
  - rewrite (native_anexa _ _ _ _ _ H). eexists. split; [reflexivity|]. cbn. rewrite list_set_eq by assumption.
    split; [reflexivity|]. split; [apply list_set_elsewhere|split; reflexivity].
  - rewrite (native_remova _ _ _ _ _ H), bounds_check. destruct (out_of_bounds vs i) eqn:B; [reflexivity|]. cbn [rbind].
    rewrite (in_bounds_nth _ _ B). cbn [rbind of_opt]. eexists. split; [reflexivity|]. cbn.
    rewrite list_set_eq by assumption. rewrite remove_nth_delete.
    split; [reflexivity|]. split; [apply list_set_elsewhere|split; reflexivity].
  - rewrite (native_tam _ _ _ _ H). eexists. split; [reflexivity|]. auto.
  - unfold index_get. cbn. rewrite H, bounds_check. destruct (out_of_bounds vs i) eqn:B; [reflexivity|]. cbn.
    rewrite (in_bounds_nth _ _ B). cbn. eexists. split; [reflexivity|]. auto.
  - unfold index_set. cbn. rewrite H, bounds_check. destruct (out_of_bounds vs i) eqn:B; [reflexivity|]. cbn.
    eexists. split; [reflexivity|]. cbn. rewrite list_set_eq by assumption. rewrite list_set_replace.
    split; [reflexivity|]. split; [apply list_set_elsewhere|split; reflexivity].
Qed.

Lemma same_elsewhere_trans h1 h2 h3 l :
  same_elsewhere h1 h2 l -> same_elsewhere h2 h3 l -> same_elsewhere h1 h3 l.
Proof. intros [A B] [C D]. split; [congruence|]. intros k Hk. rewrite D, B by assumption. reflexivity. Qed.

Lemma vm_ops_list E loc os : forall w vs, nth_error (w_heap w) loc = Some (CVec vs) ->
  fst (vm_ops E loc w os) = fst (list_ops vs os) /\
  match snd (list_ops vs os) with
  | inl e => snd (vm_ops E loc w os) = RErr e
  | inr vs' =>
      exists w', snd (vm_ops E loc w os) = ROk w' /\ nth_error (w_heap w') loc = Some (CVec vs') /\
        same_elsewhere (w_heap w) (w_heap w') loc /\ w_out w' = w_out w /\ w_in w' = w_in w
  end.
Proof.
  induction os as [|o os IH]; intros w vs H; cbn [vm_ops list_ops].
  - cbn. split; [reflexivity|]. exists w. repeat split; auto.
  - pose proof (vm_op_list E loc w vs o H) as S. destruct (list_op vs o) as [e|[v vs1]].
    + rewrite S. cbn. auto.
    + destruct S as (w1 & -> & H1 & E1 & O1 & I1). specialize (IH w1 vs1 H1) as [A B].
      destruct (vm_ops E loc w1 os) as [rs f], (list_ops vs1 os) as [rs' f']. cbn [fst snd] in *.
      split; [congruence|]. destruct f' as [e|vs2]; [exact B|].
      destruct B as (w2 & F2 & H2 & E2 & O2 & I2). exists w2.
      split; [assumption|]. split; [assumption|]. split; [eapply same_elsewhere_trans; eassumption|].
      split; congruence.
Qed.

(** ** vec *)
Lemma dims_ok_neg l1 n l2 : n < 0 -> Forall (fun v => exists z, v = VInt z) l1 ->
  dims_ok (l1 ++ VInt n :: l2) = ROk false.
Proof.
  intros Hn F. induction F as [|v r (z & ->) F IH]; cbn.
  - replace (n <? 0) with true by lia. reflexivity.
  - destruct (z <? 0); [reflexivity|apply IH].
Qed.

Lemma alloc_copies_spec n c w :
  let w' := snd (alloc_copies n c w) in
  fst (alloc_copies n c w) = map VVec (seq (List.length (w_heap w)) n) /\
  w_heap w' = w_heap w ++ repeat c n /\ w_out w' = w_out w /\ w_in w' = w_in w.
Proof.
  revert w. induction n as [|n IH]; intros w; cbn.
  - rewrite app_nil_r. auto.
  - specialize (IH (set_heap w (w_heap w ++ [c]))). cbn in IH.
    destruct (alloc_copies n c (set_heap w (w_heap w ++ [c]))) as [vs w2]. cbn [fst snd] in *.
    destruct IH as (A & B & C & D). rewrite A, B. rewrite app_length. cbn [List.length].
    rewrite <- app_assoc. cbn. rewrite Nat.add_comm. cbn. auto.
Qed.

Lemma zero_of_value t v : zero_value t = Some v -> zero_of t = ROk v.
Proof. destruct t; cbn; intros H; try discriminate; injection H as <-; reflexivity. Qed.

Lemma vec1 E t z n w : zero_value t = Some z -> 0 <= n ->
  native E (txt "vec") [VType t; VInt n] w =
  ROk (VVec (List.length (w_heap w)), set_heap w (w_heap w ++ [CVec (repeat z (Z.to_nat n))])).
Proof.
  intros Hz Hn. change (native E (txt "vec") [VType t; VInt n] w) with (n_vec [VType t; VInt n] w).
  unfold n_vec. cbn -[build_vec]. replace (n <? 0) with false by lia. cbn.
  rewrite (zero_of_value _ _ Hz). cbn. reflexivity.
Qed.

Lemma vec2 E t z n m w : zero_value t = Some z -> 0 < n -> 0 <= m ->
  let k := List.length (w_heap w) in
  native E (txt "vec") [VType t; VInt n; VInt m] w =
  ROk (VVec (k + Z.to_nat n)%nat,
       set_heap w (w_heap w ++ repeat (CVec (repeat z (Z.to_nat m))) (Z.to_nat n)
                     ++ [CVec (map VVec (seq k (Z.to_nat n)))])).
Proof.
  intros Hz Hn Hm k. change (native E (txt "vec") [VType t; VInt n; VInt m] w) with (n_vec [VType t; VInt n; VInt m] w).
  unfold n_vec. cbn -[build_vec]. replace (n <? 0) with false by lia. cbn -[build_vec].
  replace (m <? 0) with false by lia. cbn -[build_vec].
  cbn [build_vec rbind take_int]. replace (n =? 0) with false by lia. rewrite (zero_of_value _ _ Hz). cbn.
  pose proof (alloc_copies_spec (Z.to_nat n) (CVec (repeat z (Z.to_nat m))) w) as S. cbn in S.
  destruct (alloc_copies (Z.to_nat n) (CVec (repeat z (Z.to_nat m))) w) as [vs w1]. cbn [fst snd] in S.
  destruct S as (-> & B & C & D). unfold halloc. rewrite B. rewrite app_length, repeat_length.
  unfold set_heap. rewrite C, D. rewrite <- app_assoc. reflexivity.
Qed.

(** ** Records *)
Lemma pair_up_spec args : forall acc, NoDup (map fst args) ->
  exists st, pair_up (flat_pairs args) acc = ROk st /\
    forall f, assoc f st = match assoc f args with Some v => Some v | None => assoc f acc end.
Proof.
  induction args as [|[n v] r IH]; intros acc ND; cbn.
  - exists acc. split; reflexivity.
  - cbn in ND. inversion ND as [|? ? Hn ND']; subst. destruct (IH (assoc_set acc n v) ND') as (st & E & F).
    exists st. split; [exact E|]. intros f. rewrite F. destruct (text_eqb f n) eqn:Q.
    + apply text_eqb_eq in Q; subst f. apply assoc_None in Hn. rewrite Hn. apply assoc_set_eq.
    + apply text_eqb_neq in Q. rewrite assoc_set_neq by assumption. reflexivity.
Qed.
Lemma assoc_perm {A} (a b : list (text * A)) : Permutation a b -> NoDup (map fst a) ->
  forall f, assoc f a = assoc f b.
Proof.
  induction 1 as [|[n v] a b P IH|[n v] [m u] l|a b c P1 IH1 P2 IH2]; intros ND f; cbn in *.
  - reflexivity.
  - inversion ND; subst. rewrite IH by assumption. reflexivity.
  - inversion ND as [|? ? N1 N2]; subst. cbn in N1.
    destruct (text_eqb f m) eqn:A1, (text_eqb f n) eqn:A2; try reflexivity.
    apply text_eqb_eq in A1, A2. subst. exfalso. apply N1. auto.
  - rewrite IH1 by assumption. apply IH2. eapply Permutation_NoDup; [apply Permutation_map, P1|assumption].
Qed.

(** ** vec with any number of dimensions *)
Lemma matrix_ext h ext dims z : forall vs, matrix h dims z vs -> matrix (h ++ ext) dims z vs.
Proof.
  induction dims as [|n r IH]; intros vs H; [exact H|]. destruct r as [|m r]; [exact H|].
  change (matrix (h ++ ext) (n :: m :: r) z vs) with
    (List.length vs = Z.to_nat n /\
     Forall (fun v => exists l inner, v = VVec l /\ nth_error (h ++ ext) l = Some (CVec inner) /\ matrix (h ++ ext) (m :: r) z inner) vs).
  destruct H as [L F]. split; [exact L|]. eapply Forall_impl; [|exact F].
  cbv beta. intros v (l & inner & -> & N & M). exists l, inner. split; [reflexivity|].
  split; [|apply IH, M]. rewrite nth_error_app1; [exact N|]. apply nth_error_Some. congruence.
Qed.
Lemma build_vec_matrix t z dims : zero_value t = Some z -> dims <> [] -> Forall (fun n => 0 <= n) dims ->
  forall w, exists vs w', build_vec (map VInt dims) t w = ROk (vs, w') /\
    matrix (w_heap w') dims z vs /\ (exists e, w_heap w' = w_heap w ++ e) /\ w_out w' = w_out w /\ w_in w' = w_in w.
Proof.
  intros Hz Ne F. induction dims as [|n r IH]; [congruence|]. inversion F as [|? ? Hn Fr]; subst.
  destruct r as [|m r]; intros w.
  - cbn. rewrite (zero_of_value _ _ Hz). cbn. eexists _, _. split; [reflexivity|].
    split; [reflexivity|]. split; [exists []; rewrite app_nil_r; reflexivity|auto].
  - specialize (IH ltac:(discriminate) Fr w) as (inner & w1 & B & M & (e & X) & O & I).
    change (build_vec (map VInt (n :: m :: r)) t w) with
      (if n =? 0 then ROk ([], w)
       else let* iw := build_vec (map VInt (m :: r)) t w in
            let (inner, w1) := iw in ROk (alloc_copies (Z.to_nat n) (CVec inner) w1)).
    destruct (n =? 0) eqn:Z0.
    + eexists _, _. split; [reflexivity|]. split.
      * split; [replace n with 0 by lia; reflexivity|constructor].
      * split; [exists []; rewrite app_nil_r; reflexivity|auto].
    + rewrite B. cbn [rbind]. pose proof (alloc_copies_spec (Z.to_nat n) (CVec inner) w1) as S. cbn in S.
      destruct (alloc_copies (Z.to_nat n) (CVec inner) w1) as [vs w2]. cbn [fst snd] in S.
      destruct S as (-> & H2 & O2 & I2). eexists _, _. split; [reflexivity|]. split; [|split; [|split; congruence]].
      * split; [rewrite map_length, seq_length; reflexivity|]. apply Forall_forall. intros v Hv.
        apply in_map_iff in Hv as (l & <- & Hl). apply in_seq in Hl. exists l, inner. split; [reflexivity|].
        split; [|rewrite H2; apply matrix_ext, M].
        rewrite H2, nth_error_app2 by lia. apply nth_error_repeat. lia.
      * exists (e ++ repeat (CVec inner) (Z.to_nat n)). rewrite H2, X, app_assoc. reflexivity.
Qed.
Lemma dims_ok_pos dims : Forall (fun n => 0 <= n) dims -> dims_ok (map VInt dims) = ROk true.
Proof. induction 1 as [|n r Hn F IH]; cbn; [reflexivity|]. replace (n <? 0) with false by lia. apply IH. Qed.
Lemma vec_matrix E t z dims w : zero_value t = Some z -> dims <> [] -> Forall (fun n => 0 <= n) dims ->
  exists l w' vs, native E (txt "vec") (VType t :: map VInt dims) w = ROk (VVec l, w') /\
    nth_error (w_heap w') l = Some (CVec vs) /\ matrix (w_heap w') dims z vs /\
    (exists e, w_heap w' = w_heap w ++ e) /\ w_out w' = w_out w /\ w_in w' = w_in w.
Proof.
  intros Hz Ne F. destruct (build_vec_matrix t z dims Hz Ne F w) as (vs & w1 & B & M & (e & X) & O & I).
  change (native E (txt "vec") (VType t :: map VInt dims) w) with (n_vec (VType t :: map VInt dims) w).
  unfold n_vec. cbn [rbind take_type]. rewrite (dims_ok_pos _ F). cbn [rbind]. rewrite B. cbn.
  eexists _, _, vs. split; [reflexivity|]. cbn. rewrite nth_error_app2 by lia. rewrite Nat.sub_diag. cbn.
  split; [reflexivity|]. split; [apply matrix_ext, M|]. split; [exists (e ++ [CVec vs]); rewrite X, app_assoc; reflexivity|auto].
Qed.

Lemma read_spec E h l vs i : nth_error h l = Some (CVec vs) ->
  (forall v, 0 <= i -> nth_error vs (Z.to_nat i) = Some v -> index_get E h (VVec l) (VInt i) = ROk v) /\
  (~ 0 <= i < Z.of_nat (List.length vs) -> exists e, index_get E h (VVec l) (VInt i) = RErr e /\
     (e = EIdxNegVec \/ e = EIdxVec (Z.of_nat (List.length vs)) i)).
Proof.
  intros H. unfold index_get. cbn. rewrite H, bounds_check. split.
  - intros v Hi Hv. assert ((Z.to_nat i < List.length vs)%nat) by (apply nth_error_Some; congruence).
    rewrite (proj2 (out_of_bounds_none vs i)) by lia. cbn. rewrite Hv. reflexivity.
  - intros N. unfold out_of_bounds. destruct (i <? 0) eqn:A; [cbn; eauto|].
    destruct (Z.of_nat (List.length vs) <=? i) eqn:B; [cbn; eauto|lia].
Qed.

Lemma write_spec h l vs i v : nth_error h l = Some (CVec vs) ->
  (0 <= i < Z.of_nat (List.length vs) ->
   exists h' vs', index_set h (VVec l) (VInt i) v = ROk h' /\ same_elsewhere h h' l /\
     nth_error h' l = Some (CVec vs') /\ List.length vs' = List.length vs /\
     nth_error vs' (Z.to_nat i) = Some v /\
     forall j, j <> Z.to_nat i -> nth_error vs' j = nth_error vs j) /\
  (~ 0 <= i < Z.of_nat (List.length vs) -> exists e, index_set h (VVec l) (VInt i) v = RErr e).
Proof.
  intros H. unfold index_set. cbn. rewrite H, bounds_check. split.
  - intros B. rewrite (proj2 (out_of_bounds_none vs i) B). cbn. eexists _, (list_set vs (Z.to_nat i) v).
    split; [reflexivity|]. split; [apply list_set_elsewhere|].
    split; [apply list_set_eq, nth_error_Some; congruence|]. split; [apply list_set_length|].
    split; [apply list_set_eq; lia|]. intros j. apply list_set_neq.
  - intros N. destruct (out_of_bounds vs i) eqn:B; [cbn; eauto|]. apply out_of_bounds_none in B. contradiction.
Qed.

Lemma vec2_independent E t z n m w : zero_value t = Some z -> 0 < n -> 0 <= m ->
  exists l w', native E (txt "vec") [VType t; VInt n; VInt m] w = ROk (VVec l, w') /\
    (forall i, (i < Z.to_nat n)%nat -> exists k, row (w_heap w') l i = Some k /\
        (List.length (w_heap w) <= k)%nat /\ nth_error (w_heap w') k = Some (CVec (repeat z (Z.to_nat m)))) /\
    (forall i j k, row (w_heap w') l i = Some k -> row (w_heap w') l j = Some k -> i = j).
Proof.
  intros Hz Hn Hm. pose proof (vec2 E t z n m w Hz Hn Hm) as V. cbn zeta in V.
  eexists _, _. split; [exact V|]. clear V. unfold row. cbn [w_heap set_heap].
  set (k0 := List.length (w_heap w)). set (nn := Z.to_nat n).
  assert (L : nth_error (w_heap w ++ repeat (CVec (repeat z (Z.to_nat m))) nn ++ [CVec (map VVec (seq k0 nn))]) (k0 + nn)
              = Some (CVec (map VVec (seq k0 nn)))).
  { rewrite nth_error_app2 by (unfold k0; lia). rewrite nth_error_app2; rewrite repeat_length; [|unfold k0; lia].
    replace (k0 + nn - List.length (w_heap w) - nn)%nat with O by (unfold k0; lia). reflexivity. }
  assert (R : forall i, (i < nn)%nat -> nth_error (map VVec (seq k0 nn)) i = Some (VVec (k0 + i))).
  { intros i Hi. apply map_nth_error. rewrite nth_error_nth' with (d := O) by (rewrite seq_length; lia).
    rewrite seq_nth by lia. reflexivity. }
  assert (R' : forall i k, nth_error (map VVec (seq k0 nn)) i = Some (VVec k) -> (i < nn)%nat).
  { intros i k H. assert (H' : (i < List.length (map VVec (seq k0 nn)))%nat) by (apply nth_error_Some; congruence).
    rewrite map_length, seq_length in H'. exact H'. }
  rewrite L. split.
  - intros i Hi. exists (k0 + i)%nat. rewrite (R i Hi). split; [reflexivity|]. split; [lia|].
    rewrite nth_error_app2 by (unfold k0; lia). rewrite nth_error_app1 by (rewrite repeat_length; unfold k0; lia).
    apply nth_error_repeat. unfold k0. lia.
  - intros i j k Hi Hj.
    destruct (nth_error (map VVec (seq k0 nn)) i) as [vi|] eqn:Ei; [|discriminate].
    destruct (nth_error (map VVec (seq k0 nn)) j) as [vj|] eqn:Ej; [|discriminate].
    destruct vi; try discriminate. destruct vj; try discriminate.
    injection Hi as ->. injection Hj as ->. pose proof (R' _ _ Ei) as Bi. pose proof (R' _ _ Ej) as Bj.
    rewrite (R _ Bi) in Ei. rewrite (R _ Bj) in Ej. injection Ei as Ei. injection Ej as Ej. lia.
Qed.

Lemma vec_negative E t l1 n l2 w : n < 0 -> Forall (fun v => exists z, v = VInt z) l1 ->
  native E (txt "vec") (VType t :: l1 ++ VInt n :: l2) w = RErr EVecDims.
Proof.
  intros Hn F.
  change (native E (txt "vec") (VType t :: l1 ++ VInt n :: l2) w) with (n_vec (VType t :: l1 ++ VInt n :: l2) w).
  unfold n_vec. cbn [rbind take_type]. rewrite (dims_ok_neg l1 n l2 Hn F). reflexivity.
Qed.

Lemma field_write h l reg st f v : nth_error h l = Some (CObj reg st) ->
  exists h', prop_set h (VObj l) (VStr f) v = ROk h' /\ same_elsewhere h h' l /\
    prop_get h' (VObj l) (VStr f) = ROk v /\
    (forall g u, g <> f -> prop_get h (VObj l) (VStr g) = ROk u -> prop_get h' (VObj l) (VStr g) = ROk u) /\
    (forall k g, k <> l -> prop_get h' (VObj k) (VStr g) = prop_get h (VObj k) (VStr g)).
Proof.
  intros H. assert (L : (l < List.length h)%nat) by (apply nth_error_Some; congruence).
  unfold prop_set, prop_get. rewrite H. cbn. eexists. split; [reflexivity|].
  split; [apply list_set_elsewhere|]. rewrite list_set_eq by assumption.
  split; [rewrite assoc_set_eq; reflexivity|]. split.
  - intros g u N G. cbn in G. rewrite assoc_set_neq by assumption. exact G.
  - intros k g N. rewrite list_set_neq by assumption. reflexivity.
Qed.

Lemma field_initial args args' : Permutation args args' -> NoDup (map fst args) ->
  exists st st', pair_up (flat_pairs args) [] = ROk st /\ pair_up (flat_pairs args') [] = ROk st' /\
    (forall f, assoc f st = assoc f st') /\
    (forall f v, In (f, v) args -> assoc f st = Some v) /\
    (forall f, ~ In f (map fst args) -> assoc f st = None).
Proof.
  intros P ND. assert (ND' : NoDup (map fst args')) by (eapply Permutation_NoDup; [apply Permutation_map, P|assumption]).
  destruct (pair_up_spec args [] ND) as (st & E1 & F1). destruct (pair_up_spec args' [] ND') as (st' & E2 & F2).
  exists st, st'. split; [assumption|]. split; [assumption|]. split.
  - intros f. rewrite F1, F2, (assoc_perm _ _ P ND). reflexivity.
  - split; intros f; [intros v Hv|intros Hf]; rewrite F1.
    + replace (assoc f args) with (Some v); [reflexivity|]. symmetry. clear -ND Hv.
      induction args as [|[n u] r IH]; cbn in *; [contradiction|]. inversion ND as [|? ? N1 N2]; subst.
      destruct Hv as [Hv|Hv].
      * injection Hv as -> ->. rewrite BaseFacts.text_eqb_refl. reflexivity.
      * replace (text_eqb f n) with false; [apply IH; assumption|]. symmetry. apply BaseFacts.text_eqb_neq.
        intros ->. apply N1. apply (in_map fst) in Hv. exact Hv.
    + apply assoc_None in Hf. rewrite Hf. reflexivity.
Qed.

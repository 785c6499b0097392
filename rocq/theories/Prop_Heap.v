(** C23-C26: vectors and records. *)
From Coq Require Import Permutation.
From Verif Require Import Base Float Value Spec_Value ValueFacts Spec_Heap HeapFacts.
Local Open Scope Z_scope.

Theorem C23_read E h l vs i : nth_error h l = Some (CVec vs) ->
  (forall v, 0 <= i -> nth_error vs (Z.to_nat i) = Some v -> index_get E h (VVec l) (VInt i) = ROk v) /\
  (~ 0 <= i < Z.of_nat (List.length vs) -> exists e, index_get E h (VVec l) (VInt i) = RErr e /\
     (e = EIdxNegVec \/ e = EIdxVec (Z.of_nat (List.length vs)) i)).
Proof. exact (read_spec E h l vs i). Qed.
Print Assumptions C23_read.
Theorem C23_write h l vs i v : nth_error h l = Some (CVec vs) ->
  (0 <= i < Z.of_nat (List.length vs) ->
   exists h' vs', index_set h (VVec l) (VInt i) v = ROk h' /\ same_elsewhere h h' l /\
     nth_error h' l = Some (CVec vs') /\ List.length vs' = List.length vs /\
     nth_error vs' (Z.to_nat i) = Some v /\
     forall j, j <> Z.to_nat i -> nth_error vs' j = nth_error vs j) /\
  (~ 0 <= i < Z.of_nat (List.length vs) -> exists e, index_set h (VVec l) (VInt i) v = RErr e).
Proof. exact (write_spec h l vs i v). Qed.
Print Assumptions C23_write.
Example C23_ex : exists E : ext, index_get E [CVec [VInt 7; VInt 8]] (VVec 0) (VInt 1) = ROk (VInt 8) /\
  index_get E [CVec [VInt 7]] (VVec 0) (VInt 1) = RErr (EIdxVec 1 1) /\
  index_set [CVec [VInt 7; VInt 8]] (VVec 0) (VInt 1) (VInt 9) = ROk [CVec [VInt 7; VInt 9]].
Proof. exists (mkExt (fun _ => []) (fun _ => []) (fun _ _ => f_zero) f_zero false). repeat split. Qed.

(** Any sequence of operations on one vector gives the results and the final
    contents the mathematical list gives, touching nothing else. *)
Theorem C24_list E loc os w vs : nth_error (w_heap w) loc = Some (CVec vs) ->
  fst (vm_ops E loc w os) = fst (list_ops vs os) /\
  match snd (list_ops vs os) with
  | inl e => snd (vm_ops E loc w os) = RErr e
  | inr vs' =>
      exists w', snd (vm_ops E loc w os) = ROk w' /\ nth_error (w_heap w') loc = Some (CVec vs') /\
        same_elsewhere (w_heap w) (w_heap w') loc /\ w_out w' = w_out w /\ w_in w' = w_in w
  end.
Proof. exact (vm_ops_list E loc os w vs). Qed.
Print Assumptions C24_list.
Example C24_ex : exists E : ext,
  vm_ops E 0 (mkWorld [CVec [VInt 5]] [] []) [Anexa (VInt 6); Tam; Remova 0; Get 0; Get 1] =
  ([VNone; VInt 2; VInt 5; VInt 6], RErr (EIdxVec 1 1)).
Proof. exists (mkExt (fun _ => []) (fun _ => []) (fun _ _ => f_zero) f_zero false). vm_compute. reflexivity. Qed.

(** vec builds a matrix of zeros of the requested shape ... *)
Theorem C25_shape E t z dims w : zero_value t = Some z -> dims <> [] -> Forall (fun n => 0 <= n) dims ->
  exists l w' vs, native E (txt "vec") (VType t :: map VInt dims) w = ROk (VVec l, w') /\
    nth_error (w_heap w') l = Some (CVec vs) /\ matrix (w_heap w') dims z vs /\
    (exists e, w_heap w' = w_heap w ++ e) /\ w_out w' = w_out w /\ w_in w' = w_in w.
Proof. exact (vec_matrix E t z dims w). Qed.
Print Assumptions C25_shape.
(** ... whose rows are distinct new objects when there are two dimensions
    (missing: three dimensions or more, where it is false). *)
Theorem C25_independent_partial E t z n m w : zero_value t = Some z -> 0 < n -> 0 <= m ->
  exists l w', native E (txt "vec") [VType t; VInt n; VInt m] w = ROk (VVec l, w') /\
    (forall i, (i < Z.to_nat n)%nat -> exists k, row (w_heap w') l i = Some k /\
        (List.length (w_heap w) <= k)%nat /\ nth_error (w_heap w') k = Some (CVec (repeat z (Z.to_nat m)))) /\
    (forall i j k, row (w_heap w') l i = Some k -> row (w_heap w') l j = Some k -> i = j).
Proof. exact (vec2_independent E t z n m w). Qed.
Print Assumptions C25_independent_partial.
Example C25_independent_ex : zero_value TyInt = Some (VInt 0) /\ 0 < 2 /\ 0 <= 3. Proof. repeat split; lia. Qed.
(** With three dimensions the innermost vectors are shared: m[0][0] and m[1][0]
    are the same object. *)
Theorem C25_three_dims_refuted : exists E w l w' a b k,
  native E (txt "vec") [VType TyInt; VInt 2; VInt 2; VInt 2] w = ROk (VVec l, w') /\
  row (w_heap w') l 0 = Some a /\ row (w_heap w') l 1 = Some b /\ a <> b /\
  row (w_heap w') a 0 = Some k /\ row (w_heap w') b 0 = Some k.
Proof.
  exists (mkExt (fun _ => []) (fun _ => []) (fun _ _ => f_zero) f_zero false), (mkWorld [] [] []).
  eexists _, _, 2%nat, 3%nat, 0%nat. split; [vm_compute; reflexivity|]. repeat split; try reflexivity. lia.
Qed.
Print Assumptions C25_three_dims_refuted.
Theorem C25_negative E t l1 n l2 w : n < 0 -> Forall (fun v => exists z, v = VInt z) l1 ->
  native E (txt "vec") (VType t :: l1 ++ VInt n :: l2) w = RErr EVecDims.
Proof. exact (vec_negative E t l1 n l2 w). Qed.
Print Assumptions C25_negative.
Example C25_negative_ex : exists E w, native E (txt "vec") [VType TyInt; VInt 3; VInt (-1)] w = RErr EVecDims.
Proof. exists (mkExt (fun _ => []) (fun _ => []) (fun _ _ => f_zero) f_zero false), (mkWorld [] [] []). reflexivity. Qed.

(** Writing a field is seen through every alias (the same location); other
    fields and other objects keep their values. *)
Theorem C26_write h l reg st f v : nth_error h l = Some (CObj reg st) ->
  exists h', prop_set h (VObj l) (VStr f) v = ROk h' /\ same_elsewhere h h' l /\
    prop_get h' (VObj l) (VStr f) = ROk v /\
    (forall g u, g <> f -> prop_get h (VObj l) (VStr g) = ROk u -> prop_get h' (VObj l) (VStr g) = ROk u) /\
    (forall k g, k <> l -> prop_get h' (VObj k) (VStr g) = prop_get h (VObj k) (VStr g)).
Proof. exact (field_write h l reg st f v). Qed.
Print Assumptions C26_write.
(** A new object has the values of the initialiser, in whatever order the named
    arguments come. *)
Theorem C26_initial args args' : Permutation args args' -> NoDup (map fst args) ->
  exists st st', pair_up (flat_pairs args) [] = ROk st /\ pair_up (flat_pairs args') [] = ROk st' /\
    (forall f, assoc f st = assoc f st') /\
    (forall f v, In (f, v) args -> assoc f st = Some v) /\
    (forall f, ~ In f (map fst args) -> assoc f st = None).
Proof. exact (field_initial args args'). Qed.
Print Assumptions C26_initial.
Example C26_ex : exists st, pair_up (flat_pairs [(txt "x", VInt 1); (txt "y", VInt 2)]) [] = ROk st /\
  assoc (txt "y") st = Some (VInt 2) /\
  prop_set [CObj (txt "P") st] (VObj 0) (VStr (txt "x")) (VInt 9) =
    ROk [CObj (txt "P") [(txt "x", VInt 9); (txt "y", VInt 2)]].
Proof. eexists. repeat split. Qed.

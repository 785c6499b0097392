(** Proofs about the operators and the heap operations. *)
From Coq Require Import Floats.SpecFloat.
From Verif Require Import Base BaseFacts Float FloatFacts Bson Opcode Value Ast CodeGen Spec_Value.
Local Open Scope Z_scope.

Lemma in_i64_fits z : in_i64 z = true <-> fits z.
Proof. unfold in_i64, fits, min_i64, max_i64. lia. Qed.
Lemma chk_exact z : exact_or_overflow (match chk z with Some z => ROk (VInt z) | None => RErr EArith end) z.
Proof.
  unfold chk, exact_or_overflow. destruct (in_i64 z) eqn:E.
  - apply in_i64_fits in E. split; [reflexivity|]. intros N. contradiction.
  - split; [|reflexivity]. intros F. apply in_i64_fits in F. congruence.
Qed.

Lemma add_exact a b : exact_or_overflow (binop (VInt a) (binop_code BAdd) (VInt b)) (a + b).
Proof. apply chk_exact. Qed.
Lemma sub_exact a b : exact_or_overflow (binop (VInt a) (binop_code BSub) (VInt b)) (a - b).
Proof. apply chk_exact. Qed.
Lemma mul_exact a b : exact_or_overflow (binop (VInt a) (binop_code BMul) (VInt b)) (a * b).
Proof. apply chk_exact. Qed.
Lemma floordiv_exact a b : b <> 0 ->
  exact_or_overflow (binop (VInt a) (binop_code BFloorDiv) (VInt b)) (Z.quot a b).
Proof.
  intros H. cbn. unfold checked_div. replace (b =? 0) with false by lia. apply chk_exact.
Qed.
Lemma floordiv_zero a : binop (VInt a) (binop_code BFloorDiv) (VInt 0) = RErr EDivZero.
Proof. reflexivity. Qed.
Lemma mod_zero a : binop (VInt a) (binop_code BMod) (VInt 0) = RErr EModZero.
Proof. reflexivity. Qed.
Lemma div_zero a : binop (VInt a) (binop_code BDiv) (VInt 0) = RErr EDivZero.
Proof. reflexivity. Qed.
Lemma mod_exact a b : b <> 0 -> ~ (a = - 2 ^ 63 /\ b = -1) ->
  binop (VInt a) (binop_code BMod) (VInt b) = ROk (VInt (Z.rem a b)).
Proof.
  intros H N. cbn. rewrite f_of_Z_zero. replace (b =? 0) with false by lia. unfold checked_rem.
  replace (b =? 0) with false by lia.
  replace ((a =? min_i64) && (b =? -1)) with false by (unfold min_i64; lia). reflexivity.
Qed.
Lemma div_exact a b : b <> 0 ->
  binop (VInt a) (binop_code BDiv) (VInt b) = ROk (VF64 (f_div (f_of_Z a) (f_of_Z b))).
Proof. intros H. cbn. rewrite f_of_Z_zero. replace (b =? 0) with false by lia. reflexivity. Qed.

(** Comparisons. *)
Lemma int_compare op a b : is_comparison op = true ->
  decides (binop (VInt a) (binop_code op) (VInt b)) (int_rel op a b).
Proof.
  intros H; destruct op; try discriminate; eexists; (split; [reflexivity|]); cbn;
    try (destruct (a =? b) eqn:E; cbn); lia.
Qed.
Lemma real_compare op x y : is_comparison op = true ->
  decides (binop (VF64 x) (binop_code op) (VF64 y)) (real_rel op x y).
Proof.
  intros H; destruct op; try discriminate; eexists; (split; [reflexivity|]); cbn;
    unfold f_eqb, f_ltb, f_leb, SFeqb, SFltb, SFleb;
    try (destruct (SFcompare x y) as [[]|]); try (destruct (SFcompare y x) as [[]|]);
    cbn; intuition congruence.
Qed.
Lemma text_compare s t :
  decides (binop (VStr s) (binop_code BEq) (VStr t)) (s = t) /\
  decides (binop (VStr s) (binop_code BNe) (VStr t)) (s <> t).
Proof.
  split; (eexists; (split; [reflexivity|])); cbn; destruct (text_eqb s t) eqn:E; cbn;
    [apply text_eqb_eq in E|apply text_eqb_neq in E|apply text_eqb_eq in E|apply text_eqb_neq in E]; intuition congruence.
Qed.
Lemma bool_ops a b :
  binop (VBool a) (binop_code BAnd) (VBool b) = ROk (VBool (a && b)) /\
  binop (VBool a) (binop_code BOr) (VBool b) = ROk (VBool (a || b)) /\
  binop (VBool a) (binop_code BEq) (VBool b) = ROk (VBool (Bool.eqb a b)) /\
  binop (VBool a) (binop_code BNe) (VBool b) = ROk (VBool (negb (Bool.eqb a b))).
Proof. destruct a, b; repeat split. Qed.
Lemma mixed_compare op a x : is_comparison op = true ->
  binop (VInt a) (binop_code op) (VF64 x) = binop (VF64 (f_of_Z a)) (binop_code op) (VF64 x) /\
  binop (VF64 x) (binop_code op) (VInt a) = binop (VF64 x) (binop_code op) (VF64 (f_of_Z a)).
Proof. intros H; destruct op; try discriminate; split; reflexivity. Qed.

(** The VM's operator agrees with the functional specification. *)
Lemma binop_sem op l r : sem_binop op l r <> RPanic -> binop l (binop_code op) r = sem_binop op l r.
Proof.
  assert (R : forall z, (match chk z with Some z => ROk (VInt z) | None => RErr EArith end) = in_range z).
  { intros z. unfold chk, in_range, in_i64, min_i64, max_i64.
    replace (z <=? 2 ^ 63 - 1) with (z <? 2 ^ 63) by lia. destruct (_ && _); reflexivity. }
  intros H. destruct l as [a|x|a|?|?|?| |?|s|? ?|?|? ?]; destruct r as [b|y|b|?|?|?| |?|s2|? ?|?|? ?];
    try (destruct op; exfalso; apply H; reflexivity); destruct op; try (exfalso; apply H; reflexivity); cbn;
    rewrite ?f_of_Z_zero; unfold checked_add, checked_sub, checked_mul, checked_div, checked_rem; rewrite ?R;
    try reflexivity;
    try (destruct (b =? 0) eqn:E; [reflexivity|rewrite ?R; try reflexivity]);
    try (unfold min_i64; destruct ((a =? - 2 ^ 63) && (b =? -1)); reflexivity);
    try (destruct a, b; reflexivity).
  all: match goal with |- context [if ?b then _ else _] => destruct b; reflexivity end.
Qed.
Lemma unop_sem_minus v : sem_unop UMinus v <> RPanic -> invert v = sem_unop UMinus v.
Proof.
  destruct v; cbn; try congruence. unfold min_i64. destruct (z =? - 2 ^ 63); reflexivity.
Qed.
Lemma unop_sem_not v : sem_unop UNot v <> RPanic -> op_not v = sem_unop UNot v.
Proof. destruct v; cbn; congruence. Qed.

(** Lists. *)
Lemma list_set_length {A} (l : list A) i x : List.length (list_set l i x) = List.length l.
Proof. revert i; induction l as [|y l IH]; intros [|i]; cbn; auto. Qed.
Lemma list_set_eq {A} (l : list A) i x : (i < List.length l)%nat -> nth_error (list_set l i x) i = Some x.
Proof. revert i; induction l as [|y l IH]; intros [|i] H; cbn in *; try lia; auto. apply IH; lia. Qed.
Lemma list_set_neq {A} (l : list A) i j x : j <> i -> nth_error (list_set l i x) j = nth_error l j.
Proof. revert i j; induction l as [|y l IH]; intros [|i] [|j] H; cbn; auto; try congruence. Qed.
Lemma list_set_elsewhere (h : heap) l c : same_elsewhere h (list_set h l c) l.
Proof. split; [apply list_set_length|]. intros k Hk. apply list_set_neq, Hk. Qed.

(** Association lists. *)
Lemma assoc_set_eq {A} m k (v : A) : assoc k (assoc_set m k v) = Some v.
Proof.
  induction m as [|[k' v'] m IH]; cbn; [rewrite text_eqb_refl; reflexivity|].
  destruct (text_eqb k k') eqn:E; cbn; [rewrite text_eqb_refl; reflexivity|]. rewrite E. apply IH.
Qed.
Lemma assoc_set_neq {A} m k k' (v : A) : k' <> k -> assoc k' (assoc_set m k v) = assoc k' m.
Proof.
  intros N. induction m as [|[q v'] m IH]; cbn.
  - replace (text_eqb k' k) with false; [reflexivity|]. symmetry. apply text_eqb_neq, N.
  - destruct (text_eqb k q) eqn:E; cbn.
    + apply text_eqb_eq in E; subst q. replace (text_eqb k' k) with false; [reflexivity|].
      symmetry. apply text_eqb_neq, N.
    + destruct (text_eqb k' q); [reflexivity|apply IH].
Qed.
Lemma assoc_In {A} m k (v : A) : assoc k m = Some v -> In (k, v) m.
Proof.
  induction m as [|[q w] m IH]; cbn; [discriminate|]. destruct (text_eqb k q) eqn:E; intros H.
  - apply text_eqb_eq in E. injection H as <-. left. congruence.
  - right. apply IH, H.
Qed.
Lemma assoc_None {A} m k : assoc k m = @None A <-> ~ In k (map fst m).
Proof.
  induction m as [|[q w] m IH]; cbn; [tauto|]. destruct (text_eqb k q) eqn:E.
  - apply text_eqb_eq in E. split; [discriminate|]. intros H. exfalso. apply H. auto.
  - apply text_eqb_neq in E. rewrite IH. intuition congruence.
Qed.

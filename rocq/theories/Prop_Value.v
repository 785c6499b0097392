(** C08, C09: integer arithmetic, comparison and logic. *)
From Verif Require Import Base Float Opcode Value Ast CodeGen Spec_Value ValueFacts.
Local Open Scope Z_scope.

Theorem C08_add_sub_mul a b : fits a -> fits b ->
  exact_or_overflow (binop (VInt a) (binop_code BAdd) (VInt b)) (a + b) /\
  exact_or_overflow (binop (VInt a) (binop_code BSub) (VInt b)) (a - b) /\
  exact_or_overflow (binop (VInt a) (binop_code BMul) (VInt b)) (a * b).
Proof. intros _ _. exact (conj (add_exact a b) (conj (sub_exact a b) (mul_exact a b))). Qed.
Print Assumptions C08_add_sub_mul.
Example C08_add_sub_mul_ex : fits (2 ^ 63 - 1) /\
  binop (VInt (2 ^ 63 - 1)) (binop_code BAdd) (VInt 1) = RErr EArith /\
  binop (VInt (2 ^ 63 - 1)) (binop_code BSub) (VInt 1) = ROk (VInt (2 ^ 63 - 2)).
Proof. split; [unfold fits; lia|]. split; vm_compute; reflexivity. Qed.

Theorem C08_floordiv a b : fits a -> fits b -> b <> 0 ->
  exact_or_overflow (binop (VInt a) (binop_code BFloorDiv) (VInt b)) (Z.quot a b).
Proof. intros _ _. exact (floordiv_exact a b). Qed.
Print Assumptions C08_floordiv.
Example C08_floordiv_ex : binop (VInt (-7)) (binop_code BFloorDiv) (VInt 2) = ROk (VInt (-3)) /\
  binop (VInt (- 2 ^ 63)) (binop_code BFloorDiv) (VInt (-1)) = RErr EArith.
Proof. split; vm_compute; reflexivity. Qed.

Theorem C08_rem a b : fits a -> fits b -> b <> 0 -> ~ (a = - 2 ^ 63 /\ b = -1) ->
  binop (VInt a) (binop_code BMod) (VInt b) = ROk (VInt (Z.rem a b)).
Proof. intros _ _. exact (mod_exact a b). Qed.
Print Assumptions C08_rem.
Example C08_rem_ex : binop (VInt (-7)) (binop_code BMod) (VInt 2) = ROk (VInt (-1)).
Proof. vm_compute; reflexivity. Qed.

Theorem C08_div a b : fits a -> fits b -> b <> 0 ->
  binop (VInt a) (binop_code BDiv) (VInt b) = ROk (VF64 (f_div (f_of_Z a) (f_of_Z b))).
Proof. intros _ _. exact (div_exact a b). Qed.
Print Assumptions C08_div.
Example C08_div_ex : binop (VInt 1) (binop_code BDiv) (VInt 2) = ROk (VF64 (f_of_me 1 (-1))).
Proof. vm_compute; reflexivity. Qed.

Theorem C08_zero_divisor a : fits a ->
  binop (VInt a) (binop_code BFloorDiv) (VInt 0) = RErr EDivZero /\
  binop (VInt a) (binop_code BMod) (VInt 0) = RErr EModZero /\
  binop (VInt a) (binop_code BDiv) (VInt 0) = RErr EDivZero.
Proof. intros _. exact (conj (floordiv_zero a) (conj (mod_zero a) (div_zero a))). Qed.
Print Assumptions C08_zero_divisor.
Example C08_zero_divisor_ex : fits 5. Proof. unfold fits; lia. Qed.

(** The remainder of the least integer by -1 is 0, which fits, but is refused. *)
Theorem C08_rem_min_refuted :
  exists a b, fits a /\ fits b /\ b <> 0 /\ fits (Z.rem a b) /\
    binop (VInt a) (binop_code BMod) (VInt b) = RErr EArith.
Proof.
  exists (- 2 ^ 63), (-1). split; [unfold fits; lia|]. split; [unfold fits; lia|]. split; [lia|].
  split; [vm_compute; split; congruence|]. vm_compute; reflexivity.
Qed.
Print Assumptions C08_rem_min_refuted.
(** Unary minus does wrap (release build). *)
Theorem C08_negate_wraps_refuted : exists a, fits a /\ invert (VInt a) = ROk (VInt a) /\ a <> - a.
Proof. exists (- 2 ^ 63). split; [unfold fits; lia|]. split; [vm_compute; reflexivity|lia]. Qed.
Print Assumptions C08_negate_wraps_refuted.
Theorem C08_negate a : fits a -> a <> - 2 ^ 63 -> invert (VInt a) = ROk (VInt (- a)) /\ fits (- a).
Proof.
  intros F N. split; [|unfold fits in *; lia].
  exact (eq_trans (unop_sem_minus (VInt a) ltac:(cbn; replace (a =? - 2 ^ 63) with false by lia; discriminate))
           ltac:(cbn; replace (a =? - 2 ^ 63) with false by lia; reflexivity)).
Qed.
Print Assumptions C08_negate.
Example C08_negate_ex : invert (VInt 5) = ROk (VInt (-5)). Proof. reflexivity. Qed.

Theorem C09_int op a b : is_comparison op = true ->
  decides (binop (VInt a) (binop_code op) (VInt b)) (int_rel op a b).
Proof. exact (int_compare op a b). Qed.
Print Assumptions C09_int.
Theorem C09_real op x y : is_comparison op = true ->
  decides (binop (VF64 x) (binop_code op) (VF64 y)) (real_rel op x y).
Proof. exact (real_compare op x y). Qed.
Print Assumptions C09_real.
Theorem C09_mixed op a x : is_comparison op = true ->
  binop (VInt a) (binop_code op) (VF64 x) = binop (VF64 (f_of_Z a)) (binop_code op) (VF64 x) /\
  binop (VF64 x) (binop_code op) (VInt a) = binop (VF64 x) (binop_code op) (VF64 (f_of_Z a)).
Proof. exact (mixed_compare op a x). Qed.
Print Assumptions C09_mixed.
Theorem C09_text s t :
  decides (binop (VStr s) (binop_code BEq) (VStr t)) (s = t) /\
  decides (binop (VStr s) (binop_code BNe) (VStr t)) (s <> t).
Proof. exact (text_compare s t). Qed.
Print Assumptions C09_text.
Theorem C09_bool a b :
  binop (VBool a) (binop_code BAnd) (VBool b) = ROk (VBool (a && b)) /\
  binop (VBool a) (binop_code BOr) (VBool b) = ROk (VBool (a || b)) /\
  binop (VBool a) (binop_code BEq) (VBool b) = ROk (VBool (Bool.eqb a b)) /\
  binop (VBool a) (binop_code BNe) (VBool b) = ROk (VBool (negb (Bool.eqb a b))) /\
  op_not (VBool a) = ROk (VBool (negb a)).
Proof. destruct (bool_ops a b) as (A & B & C & D). exact (conj A (conj B (conj C (conj D eq_refl)))). Qed.
Print Assumptions C09_bool.
Example C09_ex : is_comparison BLe = true /\ int_rel BLe 3 4 /\
  binop (VInt 3) (binop_code BLe) (VInt 4) = ROk (VBool true) /\
  binop (VInt 1) (binop_code BLt) (VF64 (f_of_me 3 (-1))) = ROk (VBool true).
Proof. split; [reflexivity|]. split; [cbn; lia|]. split; vm_compute; reflexivity. Qed.

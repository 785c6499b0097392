(** Specification vocabulary for operators on values: what each source operator
    means, written without reference to opcodes or to the VM's dispatch. *)
From Coq Require Import Floats.SpecFloat.
From Verif Require Import Base Float Value Ast.
Local Open Scope Z_scope.

(** A mathematical integer fits a 64-bit [int]. *)
Definition fits (z : Z) : Prop := - 2 ^ 63 <= z < 2 ^ 63.

(** The operation gives exactly [z] when it fits and the overflow error
    otherwise. *)
Definition exact_or_overflow (r : vres value) (z : Z) : Prop :=
  (fits z -> r = ROk (VInt z)) /\ (~ fits z -> r = RErr EArith).

(** The relation a comparison operator decides on integers. *)
Definition int_rel (op : bop) (a b : Z) : Prop :=
  match op with
  | BEq => a = b | BNe => a <> b | BLt => a < b | BLe => a <= b | BGt => a > b | BGe => a >= b
  | _ => False
  end.
(** ... and on doubles, where a NaN compares with nothing. *)
Definition real_rel (op : bop) (x y : f64) : Prop :=
  match op with
  | BEq => SFcompare x y = Some Eq
  | BNe => SFcompare x y <> Some Eq
  | BLt => SFcompare x y = Some Lt
  | BLe => SFcompare x y = Some Lt \/ SFcompare x y = Some Eq
  | BGt => SFcompare y x = Some Lt
  | BGe => SFcompare y x = Some Lt \/ SFcompare y x = Some Eq
  | _ => False
  end.
Definition is_comparison (op : bop) : bool :=
  match op with BEq | BNe | BLt | BLe | BGt | BGe => true | _ => false end.
(** A result that is a truth value deciding [Q]. *)
Definition decides (r : vres value) (Q : Prop) : Prop :=
  exists b, r = ROk (VBool b) /\ (b = true <-> Q).

(** ** The meaning of a binary operator on two values, as a function *)
Inductive pair2 := PairI (a b : Z) | PairF (x y : f64) | PairB (a b : bool) | PairT (s t : text) | PairNone.
(** Two integers stay integers; if one is real both are taken as reals. *)
Definition classify (l r : value) : pair2 :=
  match l, r with
  | VInt a, VInt b => PairI a b
  | VF64 x, VF64 y => PairF x y
  | VInt a, VF64 y => PairF (f_of_Z a) y
  | VF64 x, VInt b => PairF x (f_of_Z b)
  | VBool a, VBool b => PairB a b
  | VStr s, VStr t => PairT s t
  | _, _ => PairNone
  end.
Definition in_range (z : Z) : vres value :=
  if (- 2 ^ 63 <=? z) && (z <? 2 ^ 63) then ROk (VInt z) else RErr EArith.
Definition sem_binop (op : bop) (l r : value) : vres value :=
  match op, classify l r with
  | BAdd, PairI a b => in_range (a + b)
  | BSub, PairI a b => in_range (a - b)
  | BMul, PairI a b => in_range (a * b)
  | BMod, PairI a b =>
      if b =? 0 then RErr EModZero
      else if (a =? - 2 ^ 63) && (b =? -1) then RErr EArith else ROk (VInt (Z.rem a b))
  | BDiv, PairI a b => if b =? 0 then RErr EDivZero else ROk (VF64 (f_div (f_of_Z a) (f_of_Z b)))
  | BFloorDiv, PairI a b => if b =? 0 then RErr EDivZero else in_range (Z.quot a b)
  | BAdd, PairF x y => ROk (VF64 (f_add x y))
  | BSub, PairF x y => ROk (VF64 (f_sub x y))
  | BMul, PairF x y => ROk (VF64 (f_mul x y))
  | BMod, PairF x y => if f_eqb y f_zero then RErr EModZero else ROk (VF64 (f_rem x y))
  | BDiv, PairF x y => if f_eqb y f_zero then RErr EDivZero else ROk (VF64 (f_div x y))
  | BEq, PairI a b => ROk (VBool (a =? b))
  | BNe, PairI a b => ROk (VBool (negb (a =? b)))
  | BLt, PairI a b => ROk (VBool (a <? b))
  | BLe, PairI a b => ROk (VBool (a <=? b))
  | BGt, PairI a b => ROk (VBool (b <? a))
  | BGe, PairI a b => ROk (VBool (b <=? a))
  | BEq, PairF x y => ROk (VBool (f_eqb x y))
  | BNe, PairF x y => ROk (VBool (negb (f_eqb x y)))
  | BLt, PairF x y => ROk (VBool (f_ltb x y))
  | BLe, PairF x y => ROk (VBool (f_leb x y))
  | BGt, PairF x y => ROk (VBool (f_ltb y x))
  | BGe, PairF x y => ROk (VBool (f_leb y x))
  | BEq, PairB a b => ROk (VBool (Bool.eqb a b))
  | BNe, PairB a b => ROk (VBool (negb (Bool.eqb a b)))
  | BAnd, PairB a b => ROk (VBool (a && b))
  | BOr, PairB a b => ROk (VBool (a || b))
  | BEq, PairT s t => ROk (VBool (text_eqb s t))
  | BNe, PairT s t => ROk (VBool (negb (text_eqb s t)))
  | _, _ => RPanic
  end.
(** Unary operators.  The negation of the least integer does not fit; the machine
    gives the least integer itself (see [C08_negate_wraps_refuted]), and so does this. *)
Definition sem_unop (op : uop) (v : value) : vres value :=
  match op, v with
  | UMinus, VInt z => if z =? - 2 ^ 63 then ROk (VInt (- 2 ^ 63)) else ROk (VInt (- z))
  | UMinus, VF64 f => ROk (VF64 (f_neg f))
  | UNot, VBool b => ROk (VBool (negb b))
  | _, _ => RPanic
  end.

(** ** The heap *)
(** Every cell but [loc] is the same in both heaps. *)
Definition same_elsewhere (h h' : heap) (loc : nat) : Prop :=
  List.length h' = List.length h /\ forall k, k <> loc -> nth_error h' k = nth_error h k.

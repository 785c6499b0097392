(** Specification vocabulary for printing, conversion and union values
    (C11, C30, C42). *)
From Coq Require Import Floats.SpecFloat.
From Verif Require Import Base Float Value VM Types Spec_Value Spec_Tables Spec_Types.
Local Open Scope Z_scope.

(** [t] is the decimal numeral of [z]: a minus sign if negative, no leading
    zeros. *)
Definition numeral (z : Z) (t : text) : Prop :=
  exists ds, digits ds /\ digits_number 0 ds = Z.abs z /\ (hd 0%N ds = 48%N -> ds = [48%N]) /\
    t = (if z <? 0 then 45%N :: ds else ds).
(** [t] denotes [z]: digits, possibly after one sign. *)
Definition denotes (t : text) (z : Z) : Prop :=
  exists ds, digits ds /\
    ((t = ds /\ z = digits_number 0 ds) \/ (t = 43%N :: ds /\ z = digits_number 0 ds) \/
     (t = 45%N :: ds /\ z = - digits_number 0 ds)).

(** Texts with a comma and a space between them. *)
Fixpoint commas (l : list text) : text :=
  match l with
  | [] => []
  | t :: r => match r with [] => t | _ => t ++ txt ", " ++ commas r end
  end.
(** What [mostra] prints for a value, and what an f-string inserts.  The digits
    of a double are left to the library ([show_f64]). *)
Inductive prints (E : ext) (h : heap) : value -> text -> Prop :=
| pr_text t : prints E h (VStr t) t
| pr_int z t : numeral z t -> prints E h (VInt z) t
| pr_real f : prints E h (VF64 f) (if f_is_integral f then show_f64 E f ++ txt ".0" else show_f64 E f)
| pr_true : prints E h (VBool true) (txt "verdadeiro")
| pr_false : prints E h (VBool false) (txt "falso")
| pr_none : prints E h VNone (txt "nulo")
| pr_vec l vs ts : nth_error h l = Some (CVec vs) -> Forall2 (prints E h) vs ts ->
    prints E h (VVec l) (txt "[" ++ commas ts ++ txt "]")
| pr_obj l n fs : nth_error h l = Some (CObj n fs) ->
    prints E h (VObj l) (txt "<Inst" ++ [226%N] ++ txt "ncia do tipo " ++ n ++ txt ">")
| pr_variant tag a t : numeral (Z.of_N tag) t ->
    prints E h (VVariant tag a) (txt "<Variante(" ++ t ++ txt ")>").

(** [z] is the integer part of the double [f], towards zero: with
    [|f| = m * 2^e], [|z| <= |f| < |z| + 1]. *)
Definition int_part (f : f64) (z : Z) : Prop :=
  match f with
  | S754_zero _ => z = 0
  | S754_finite neg m e =>
      (if neg then z <= 0 else 0 <= z) /\
      Z.abs z * 2 ^ Z.max 0 (- e) <= Z.pos m * 2 ^ Z.max 0 e < (Z.abs z + 1) * 2 ^ Z.max 0 (- e)
  | _ => False
  end.
(** The nearest [int]. *)
Definition clamped (z : Z) : Z := Z.max (- 2 ^ 63) (Z.min (2 ^ 63 - 1) z).

(** What a conversion of [v] to a basic type gives: a value or an error. *)
Inductive converts (E : ext) (h : heap) : value -> prim -> vres value -> Prop :=
| cv_texto v t : prints E h v t -> converts E h v TTexto (ROk (VStr t))
| cv_real_int f z : int_part f z -> converts E h (VF64 f) TInt (ROk (VInt (clamped z)))
| cv_inf_int neg : converts E h (VF64 (S754_infinity neg)) TInt (ROk (VInt (if neg then - 2 ^ 63 else 2 ^ 63 - 1)))
| cv_nan_int : converts E h (VF64 S754_nan) TInt (ROk (VInt 0))
| cv_texto_int t z : denotes t z -> fits z -> converts E h (VStr t) TInt (ROk (VInt z))
| cv_texto_int_bad t : (forall z, denotes t z -> ~ fits z) -> converts E h (VStr t) TInt (RErr (ENotInt t))
| cv_int_real z : converts E h (VInt z) TReal (ROk (VF64 (f_of_Z z)))
| cv_texto_real t f : parse_f64 t = Some f -> converts E h (VStr t) TReal (ROk (VF64 f))
| cv_texto_real_bad t : parse_f64 t = None -> converts E h (VStr t) TReal (RErr (ENotReal t))
| cv_int_bool z b : (b = true <-> z <> 0) -> converts E h (VInt z) TBool (ROk (VBool b))
| cv_real_bool f b : (b = false <-> (exists s, f = S754_zero s)) -> converts E h (VF64 f) TBool (ROk (VBool b))
| cv_texto_bool t b : (b = false <-> t = []) -> converts E h (VStr t) TBool (ROk (VBool b)).

(** The top of the stack, last pushed last. *)
Definition on_top (s : state) (vs : list value) : Prop :=
  exists l j, s_vals s = l ++ vs ++ j /\ s_sp s = zlen (l ++ vs) - 1.
(** The value in local slot [k] of the running function. *)
Definition slot (s : state) (k : N) : option value :=
  match s_frames s with f :: _ => vget (s_vals s) (f_bp f + Z.of_N k) | [] => None end.
(** Slot [k] lies in the running function's part of the stack, below the [n]
    values on top. *)
Definition is_slot (s : state) (n : nat) (k : N) : Prop :=
  match s_frames s with f :: _ => 0 <= f_bp f /\ f_bp f + Z.of_N k < s_sp s + 1 - Z.of_nat n | [] => False end.

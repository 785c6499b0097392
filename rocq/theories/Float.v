(** IEEE-754 binary64 arithmetic as used by the VM ([f64]), on the standard
    library's [spec_float] (computable, no axioms). *)
From Coq Require Export Floats.SpecFloat.
From Verif Require Import Base Dec.

Definition f64 := spec_float.
Definition prec : Z := 53.
Definition emax : Z := 1024.

Definition f_add (x y : f64) : f64 := SFadd prec emax x y.
Definition f_sub (x y : f64) : f64 := SFsub prec emax x y.
Definition f_mul (x y : f64) : f64 := SFmul prec emax x y.
Definition f_div (x y : f64) : f64 := SFdiv prec emax x y.
Definition f_sqrt (x : f64) : f64 := SFsqrt prec emax x.
Definition f_neg (x : f64) : f64 := SFopp x.
Definition f_abs (x : f64) : f64 := SFabs x.
Definition f_eqb (x y : f64) : bool := SFeqb x y.
Definition f_ltb (x y : f64) : bool := SFltb x y.
Definition f_leb (x y : f64) : bool := SFleb x y.
Definition f_zero : f64 := S754_zero false.

(** The double nearest to [m * 2^e] (ties to even). *)
Definition f_of_me (m e : Z) : f64 := binary_normalize prec emax m e false.

(** Rust [i as f64]. *)
Definition f_of_Z (z : Z) : f64 := f_of_me z 0.

(** Rust [x % y] on [f64] (C [fmod]): exact, sign of the dividend. *)
Definition f_rem (x y : f64) : f64 :=
  match x, y with
  | S754_nan, _ | _, S754_nan => S754_nan
  | S754_infinity _, _ => S754_nan
  | _, S754_zero _ => S754_nan
  | S754_zero s, _ => S754_zero s
  | _, S754_infinity _ => x
  | S754_finite sx mx ex, S754_finite _ my ey =>
      let e := Z.min ex ey in
      let ax := (Z.pos mx * 2 ^ (ex - e))%Z in
      let ay := (Z.pos my * 2 ^ (ey - e))%Z in
      let r := (ax mod ay)%Z in
      if (r =? 0)%Z then S754_zero sx
      else binary_normalize prec emax (if sx then - r else r)%Z e sx
  end.

(** Integer part (towards zero) of a finite double. *)
Definition f_trunc_Z (x : f64) : option Z :=
  match x with
  | S754_zero _ => Some 0%Z
  | S754_finite s m e =>
      let a := if (0 <=? e)%Z then (Z.pos m * 2 ^ e)%Z else (Z.pos m / 2 ^ (- e))%Z in
      Some (if s then (- a)%Z else a)
  | _ => None
  end.

(** Rust [x as i64]: truncation, saturation, NaN to 0. *)
Definition f_to_i64 (x : f64) : Z :=
  match x with
  | S754_nan => 0%Z
  | S754_infinity s => if s then min_i64 else max_i64
  | _ => match f_trunc_Z x with
         | Some z => if (z <? min_i64)%Z then min_i64 else if (max_i64 <? z)%Z then max_i64 else z
         | None => 0%Z
         end
  end.

(** Rust [x.fract() == 0.0]: no fractional part (NaN and infinities: false). *)
Definition f_is_integral (x : f64) : bool :=
  match x with
  | S754_zero _ => true
  | S754_finite _ m e => if (0 <=? e)%Z then true else (Z.pos m mod 2 ^ (- e) =? 0)%Z
  | _ => false
  end.

(** [floor], [ceil], [round] (half away from zero) to an integer value; the VM
    always converts the result with [as i64] (mat.rs:24-37). *)
Definition f_floor_Z (x : f64) : option Z :=
  match x with
  | S754_zero _ => Some 0%Z
  | S754_finite s m e =>
      let v := if s then Z.neg m else Z.pos m in
      Some (if (0 <=? e)%Z then v * 2 ^ e else v / 2 ^ (- e))%Z
  | _ => None
  end.
Definition f_ceil_Z (x : f64) : option Z := option_map Z.opp (f_floor_Z (f_neg x)).
Definition f_round_Z (x : f64) : option Z :=
  match x with
  | S754_zero _ => Some 0%Z
  | S754_finite s m e =>
      let a := if (0 <=? e)%Z then (Z.pos m * 2 ^ e)%Z
               else ((2 * Z.pos m + 2 ^ (- e)) / (2 * 2 ^ (- e)))%Z in
      Some (if s then - a else a)%Z
  | _ => None
  end.
Definition sat_i64 (x : f64) (o : option Z) : Z :=
  match o with
  | Some z => if (z <? min_i64)%Z then min_i64 else if (max_i64 <? z)%Z then max_i64 else z
  | None => f_to_i64 x
  end.

(** The double nearest to the decimal [m * 10^e]. *)
Definition f_of_decimal (neg : bool) (m : N) (e : Z) : f64 :=
  if (m =? 0)%N then S754_zero neg
  else
    let sgn z := if neg then (- z)%Z else z in
    if (0 <=? e)%Z then binary_normalize prec emax (sgn (Z.of_N m * 10 ^ e)%Z) 0 neg
    else
      let d := (10 ^ (- e))%Z in
      (* enough extra bits for a quotient of at least 66 bits; the last bit is sticky *)
      let s := (Z.log2 d + 70)%Z in
      let q := (Z.of_N m * 2 ^ s / d)%Z in
      let r := (Z.of_N m * 2 ^ s mod d)%Z in
      binary_normalize prec emax (sgn (2 * q + (if (r =? 0)%Z then 0 else 1))%Z) (- s - 1) neg.

(** Split off the longest prefix of ASCII digits. *)
Fixpoint span_digits (t : text) : text * text :=
  match t with
  | c :: t' => if is_digit c then let (a, b) := span_digits t' in (c :: a, b) else ([], t)
  | [] => ([], [])
  end.

Definition lower (c : N) : N := if ((65 <=? c) && (c <=? 90))%N then (c + 32)%N else c.

(** Rust [str::parse::<f64>] (core::num::dec2flt grammar):
    [+-]? ( inf | infinity | nan | digits [. digits?] [eE [+-]? digits]
          | . digits [eE ..] ), case-insensitive names, at least one digit,
    correctly rounded. *)
Definition parse_exp (t : text) : option Z :=
  match t with
  | [] => Some 0%Z
  | c :: t' =>
      if ((c =? 101) || (c =? 69))%N then
        match t' with
        | s :: t'' =>
            if (s =? 45)%N then option_map (fun n => (- Z.of_N n)%Z) (parse_digits t'')
            else if (s =? 43)%N then option_map Z.of_N (parse_digits t'')
            else option_map Z.of_N (parse_digits t')
        | [] => None
        end
      else None
  end.

Definition digits_val (t : text) : N :=
  match parse_digits t with Some n => n | None => 0%N end.

(** Exponents beyond these bounds cannot change the result: the mantissa has
    [k] digits, so values past [10^(400+k)] overflow and below vanish. *)
Definition parse_f64 (t : text) : option f64 :=
  let (neg, body) :=
    match t with
    | c :: t' => if (c =? 45)%N then (true, t') else if (c =? 43)%N then (false, t') else (false, t)
    | [] => (false, [])
    end in
  let low := map lower body in
  if text_eqb low (txt "inf") || text_eqb low (txt "infinity") then Some (S754_infinity neg)
  else if text_eqb low (txt "nan") then Some S754_nan
  else
    let (ip, r) := span_digits body in
    let (fp, r2) :=
      match r with
      | c :: r' => if (c =? 46)%N then span_digits r' else ([], r)
      | [] => ([], [])
      end in
    match ip, fp with
    | [], [] => None
    | _, _ =>
        match parse_exp r2 with
        | None => None
        | Some e =>
            let digs := ip ++ fp in
            let m := digits_val digs in
            let e10 := (e - Z.of_nat (List.length fp))%Z in
            let lim := (400 + Z.of_nat (List.length digs))%Z in
            if (m =? 0)%N then Some (S754_zero neg)
            else if (lim <? e10)%Z then Some (S754_infinity neg)
            else if (e10 <? - (800 + Z.of_nat (List.length digs)))%Z then Some (S754_zero neg)
            else Some (f_of_decimal neg m e10)
        end
    end.

(** Python [struct.pack("<d")] is not needed: no double reaches the BSON writer
    (constants travel as text). *)

Example parse_f64_pi : parse_f64 (txt "3.14") = Some (S754_finite false 7070651414971679 (-51)).
Proof. vm_compute. reflexivity. Qed.
Example parse_f64_tenth : parse_f64 (txt "0.1") = Some (S754_finite false 7205759403792794 (-56)).
Proof. vm_compute. reflexivity. Qed.
Example parse_f64_max : parse_f64 (txt "1.7976931348623157e308") = Some (S754_finite false 9007199254740991 971).
Proof. vm_compute. reflexivity. Qed.
Example parse_f64_denorm : parse_f64 (txt "4.9e-324") = Some (S754_finite false 1 (-1074)).
Proof. vm_compute. reflexivity. Qed.
Example parse_f64_over : parse_f64 (txt "1e309") = Some (S754_infinity false).
Proof. vm_compute. reflexivity. Qed.
Example parse_f64_bad : parse_f64 (txt "1.2.3") = None /\ parse_f64 (txt ".") = None /\ parse_f64 (txt "e5") = None /\ parse_f64 (txt "1e") = None /\ parse_f64 (txt "") = None /\ parse_f64 (txt "5.") <> None /\ parse_f64 (txt ".5") <> None.
Proof. vm_compute. repeat split; congruence. Qed.
Example f_rem_ex : f_rem (f_of_Z (-7)) (f_of_Z 3) = f_of_Z (-1) /\ f_rem (f_of_Z 7) (f_of_Z (-3)) = f_of_Z 1.
Proof. vm_compute. auto. Qed.
Example f_to_i64_ex : f_to_i64 (f_of_me (-7) (-1)) = (-3)%Z /\ f_to_i64 (f_of_me 1 70) = max_i64.
Proof. vm_compute. auto. Qed.

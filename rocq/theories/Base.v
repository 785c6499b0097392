(** Shared vocabulary: bytes, texts, byte-order helpers.

    A byte is an [N] below 256 and a text is a list of Unicode code points
    ([N]).  Nothing here models a particular function of /repo except where a
    comment says so. *)
From Coq Require Export List ZArith NArith Lia Bool Ascii String.
From Coq Require Export ZifyBool ZifyNat ZifyN.
Export ListNotations.
#[global] Open Scope list_scope.

Definition byte := N.
Definition bytes := list N.
Definition text := list N.

Definition is_byte (b : N) : Prop := (b < 256)%N.

(** Literal helper for examples: an ASCII Coq string as a text. *)
Fixpoint txt (s : string) : text :=
  match s with
  | EmptyString => []
  | String c s' => N_of_ascii c :: txt s'
  end.

Definition text_eqb (a b : text) : bool := if list_eq_dec N.eq_dec a b then true else false.

(** Little-endian encoding of the [n] low bytes of [x]. *)
Fixpoint le_bytes (n : nat) (x : N) : bytes :=
  match n with
  | O => []
  | S n' => (x mod 256)%N :: le_bytes n' (x / 256)%N
  end.

Fixpoint le_val (bs : bytes) : N :=
  match bs with
  | [] => 0%N
  | b :: bs' => (b + 256 * le_val bs')%N
  end.

Definition be_bytes (n : nat) (x : N) : bytes := rev (le_bytes n x).
Definition be_val (bs : bytes) : N := le_val (rev bs).

(** Two's complement of width [8*n] bits. *)
Definition wrap (n : nat) (z : Z) : N := Z.to_N (z mod 2 ^ (8 * Z.of_nat n))%Z.
Definition unwrap_signed (n : nat) (x : N) : Z :=
  let z := Z.of_N x in
  if (z <? 2 ^ (8 * Z.of_nat n - 1))%Z then z else (z - 2 ^ (8 * Z.of_nat n))%Z.

Definition min_i64 : Z := (- 2 ^ 63)%Z.
Definition max_i64 : Z := (2 ^ 63 - 1)%Z.
Definition in_i64 (z : Z) : bool := ((min_i64 <=? z) && (z <=? max_i64))%Z.

(** Take exactly [n] elements, like [Read::read_exact]. *)
Fixpoint take {A} (n : nat) (l : list A) : option (list A * list A) :=
  match n, l with
  | O, _ => Some ([], l)
  | S n', x :: l' => match take n' l' with Some (a, r) => Some (x :: a, r) | None => None end
  | S _, [] => None
  end.

Lemma some_inj {A} (x y : A) : Some x = Some y -> x = y.
Proof. congruence. Qed.
#[global] Arguments N.add : simpl never.
#[global] Arguments N.mul : simpl never.
#[global] Arguments N.sub : simpl never.
#[global] Arguments N.div : simpl never.
#[global] Arguments N.modulo : simpl never.
#[global] Arguments N.pow : simpl never.
#[global] Arguments Z.add : simpl never.
#[global] Arguments Z.mul : simpl never.
#[global] Arguments Z.sub : simpl never.
#[global] Arguments Z.div : simpl never.
#[global] Arguments Z.modulo : simpl never.
#[global] Arguments Z.pow : simpl never.

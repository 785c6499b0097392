(** Decimal printing and parsing of integers: Python's [str(int)] and Rust's
    [Display]/[FromStr] for [i64]. *)
From Coq Require Import Decimal DecimalN DecimalZ DecimalFacts.
From Verif Require Import Base.

Fixpoint uint_txt (u : Decimal.uint) : text :=
  match u with
  | Decimal.Nil => []
  | Decimal.D0 u => 48%N :: uint_txt u
  | Decimal.D1 u => 49%N :: uint_txt u
  | Decimal.D2 u => 50%N :: uint_txt u
  | Decimal.D3 u => 51%N :: uint_txt u
  | Decimal.D4 u => 52%N :: uint_txt u
  | Decimal.D5 u => 53%N :: uint_txt u
  | Decimal.D6 u => 54%N :: uint_txt u
  | Decimal.D7 u => 55%N :: uint_txt u
  | Decimal.D8 u => 56%N :: uint_txt u
  | Decimal.D9 u => 57%N :: uint_txt u
  end.

Definition dec_N (n : N) : text := uint_txt (N.to_uint n).
(** Python [str(z)] / Rust [format!("{}", z)]. *)
Definition dec_Z (z : Z) : text :=
  match z with
  | Zneg p => 45%N :: dec_N (Npos p)
  | _ => dec_N (Z.to_N z)
  end.

Fixpoint txt_uint (t : text) : option Decimal.uint :=
  match t with
  | [] => Some Decimal.Nil
  | c :: t' =>
      match txt_uint t' with
      | None => None
      | Some u =>
          if (c =? 48)%N then Some (Decimal.D0 u)
          else if (c =? 49)%N then Some (Decimal.D1 u)
          else if (c =? 50)%N then Some (Decimal.D2 u)
          else if (c =? 51)%N then Some (Decimal.D3 u)
          else if (c =? 52)%N then Some (Decimal.D4 u)
          else if (c =? 53)%N then Some (Decimal.D5 u)
          else if (c =? 54)%N then Some (Decimal.D6 u)
          else if (c =? 55)%N then Some (Decimal.D7 u)
          else if (c =? 56)%N then Some (Decimal.D8 u)
          else if (c =? 57)%N then Some (Decimal.D9 u)
          else None
      end
  end.

(** Non-empty digit sequence to its value, any number of leading zeros. *)
Definition parse_digits (t : text) : option N :=
  match t with
  | [] => None
  | _ => match txt_uint t with Some u => Some (N.of_uint u) | None => None end
  end.

(** Rust [str::parse::<i64>]: optional single sign, at least one digit, ASCII
    digits only, value in range. *)
Definition parse_i64 (t : text) : option Z :=
  match t with
  | [] => None
  | c :: t' =>
      let r := if (c =? 45)%N then option_map (fun n => (- Z.of_N n)%Z) (parse_digits t')
               else if (c =? 43)%N then option_map Z.of_N (parse_digits t')
               else option_map Z.of_N (parse_digits t) in
      match r with
      | Some z => if in_i64 z then Some z else None
      | None => None
      end
  end.

Definition is_digit (c : N) : bool := ((48 <=? c) && (c <=? 57))%N.

Lemma uint_txt_digits u : Forall (fun c => is_digit c = true) (uint_txt u).
Proof. induction u; simpl; constructor; auto. Qed.

Lemma txt_uint_uint_txt u : txt_uint (uint_txt u) = Some u.
Proof. induction u; simpl; try rewrite IHu; reflexivity. Qed.

Lemma N_to_uint_nonnil n : N.to_uint n <> Decimal.Nil.
Proof.
  destruct n as [|p]; simpl; [discriminate|].
  apply DecimalPos.Unsigned.to_uint_nonnil.
Qed.

Lemma dec_N_nonempty n : dec_N n <> [].
Proof. unfold dec_N. pose proof (N_to_uint_nonnil n). destruct (N.to_uint n); simpl; congruence. Qed.

Lemma parse_digits_dec_N n : parse_digits (dec_N n) = Some n.
Proof.
  unfold parse_digits. pose proof (dec_N_nonempty n).
  destruct (dec_N n) eqn:E; [congruence|]. rewrite <- E.
  unfold dec_N. rewrite txt_uint_uint_txt.
  rewrite DecimalN.Unsigned.of_to. reflexivity.
Qed.

Lemma dec_N_digits n : Forall (fun c => is_digit c = true) (dec_N n).
Proof. apply uint_txt_digits. Qed.

Lemma dec_N_head n c t : dec_N n = c :: t -> is_digit c = true.
Proof. intros H. pose proof (dec_N_digits n) as F. rewrite H in F. inversion F; auto. Qed.

Lemma parse_i64_dec_Z z : in_i64 z = true -> parse_i64 (dec_Z z) = Some z.
Proof.
  intros H. destruct z as [|p|p].
  - reflexivity.
  - unfold dec_Z. change (Z.to_N (Z.pos p)) with (N.pos p).
    unfold parse_i64. pose proof (dec_N_nonempty (N.pos p)).
    pose proof (parse_digits_dec_N (N.pos p)) as P.
    destruct (dec_N (N.pos p)) as [|c t] eqn:E; [congruence|].
    apply dec_N_head in E. unfold is_digit in E.
    replace (c =? 45)%N with false by lia. replace (c =? 43)%N with false by lia.
    rewrite P. simpl option_map. cbv iota beta zeta. change (Z.of_N (N.pos p)) with (Z.pos p).
    rewrite H. reflexivity.
  - unfold dec_Z, parse_i64. rewrite N.eqb_refl, parse_digits_dec_N. simpl option_map.
    cbv iota beta zeta. change (- Z.of_N (N.pos p))%Z with (Z.neg p). rewrite H. reflexivity.
Qed.

Lemma dec_N_inj a b : dec_N a = dec_N b -> a = b.
Proof. intros H. pose proof (parse_digits_dec_N a) as P. rewrite H, parse_digits_dec_N in P. congruence. Qed.

Lemma dec_Z_inj a b : dec_Z a = dec_Z b -> a = b.
Proof.
  unfold dec_Z. intros H.
  destruct a as [|p|p], b as [|q|q];
    try (apply dec_N_inj in H; simpl in H; congruence);
    try (injection H as H; apply dec_N_inj in H; congruence);
    match goal with
    | H : 45%N :: _ = dec_N ?x |- _ => symmetry in H; apply dec_N_head in H; discriminate
    | H : dec_N ?x = 45%N :: _ |- _ => apply dec_N_head in H; discriminate
    end.
Qed.

Lemma dec_Z_nonempty z : dec_Z z <> [].
Proof. destruct z; unfold dec_Z; try discriminate; apply dec_N_nonempty. Qed.

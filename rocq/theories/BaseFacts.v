(** Facts about the helpers of [Base]. *)
From Verif Require Import Base.
Ltac Zify.zify_post_hook ::= Z.div_mod_to_equations.

Lemma text_eqb_eq a b : text_eqb a b = true <-> a = b.
Proof. unfold text_eqb; destruct (list_eq_dec N.eq_dec a b); split; congruence. Qed.

Lemma text_eqb_refl a : text_eqb a a = true.
Proof. apply text_eqb_eq; reflexivity. Qed.

Lemma text_eqb_neq a b : text_eqb a b = false <-> a <> b.
Proof. unfold text_eqb; destruct (list_eq_dec N.eq_dec a b); split; congruence. Qed.

Lemma le_bytes_length n x : List.length (le_bytes n x) = n.
Proof. revert x; induction n as [|n IH]; intros x; simpl; [|rewrite IH]; reflexivity. Qed.

Lemma be_bytes_length n x : List.length (be_bytes n x) = n.
Proof. unfold be_bytes; rewrite rev_length, le_bytes_length; reflexivity. Qed.

Lemma le_bytes_byte n x : Forall is_byte (le_bytes n x).
Proof.
  revert x; induction n as [|n IH]; intros x; simpl; constructor; auto.
  unfold is_byte. lia.
Qed.

Lemma be_bytes_byte n x : Forall is_byte (be_bytes n x).
Proof. unfold be_bytes. apply Forall_rev, le_bytes_byte. Qed.

Lemma le_val_bytes n x : (x < 256 ^ N.of_nat n)%N -> le_val (le_bytes n x) = x.
Proof.
  revert x; induction n as [|n IH]; intros x Hx.
  - simpl in *. change (256 ^ 0)%N with 1%N in Hx. lia.
  - cbn [le_bytes le_val]. rewrite IH.
    + lia.
    + rewrite Nat2N.inj_succ, N.pow_succ_r' in Hx. lia.
Qed.

Lemma be_val_bytes n x : (x < 256 ^ N.of_nat n)%N -> be_val (be_bytes n x) = x.
Proof. intros H; unfold be_val, be_bytes; rewrite rev_involutive; apply le_val_bytes, H. Qed.

Lemma wrap_lt n z : (wrap n z < 256 ^ N.of_nat n)%N.
Proof.
  unfold wrap.
  assert (H : (0 <= z mod 2 ^ (8 * Z.of_nat n) < 2 ^ (8 * Z.of_nat n))%Z).
  { apply Z.mod_pos_bound. apply Z.pow_pos_nonneg; lia. }
  apply N2Z.inj_lt. rewrite Z2N.id by lia. rewrite N2Z.inj_pow.
  change (Z.of_N 256) with (2 ^ 8)%Z. rewrite <- Z.pow_mul_r by lia.
  rewrite nat_N_Z. lia.
Qed.

Lemma unwrap_wrap n z :
  (0 < n)%nat ->
  (- 2 ^ (8 * Z.of_nat n - 1) <= z < 2 ^ (8 * Z.of_nat n - 1))%Z ->
  unwrap_signed n (wrap n z) = z.
Proof.
  intros Hn Hz. unfold unwrap_signed, wrap.
  assert (E : (2 ^ (8 * Z.of_nat n) = 2 * 2 ^ (8 * Z.of_nat n - 1))%Z).
  { rewrite <- Z.pow_succ_r by lia. f_equal. lia. }
  assert (P : (0 < 2 ^ (8 * Z.of_nat n - 1))%Z) by (apply Z.pow_pos_nonneg; lia).
  set (h := (2 ^ (8 * Z.of_nat n - 1))%Z) in *. rewrite E.
  assert (B : (0 <= z mod (2 * h) < 2 * h)%Z) by (apply Z.mod_pos_bound; lia).
  rewrite Z2N.id by lia.
  destruct (Z_lt_dec z 0) as [Hneg|Hpos].
  - replace (z mod (2 * h))%Z with (z + 2 * h)%Z.
    + destruct (Z.ltb_spec (z + 2 * h) h); lia.
    + rewrite <- (Z.mod_small (z + 2 * h) (2 * h)) by lia.
      replace (z + 2 * h)%Z with (z + 1 * (2 * h))%Z by lia.
      rewrite Z.mod_add by lia. reflexivity.
  - rewrite Z.mod_small by lia. destruct (Z.ltb_spec z h); lia.
Qed.

Lemma take_app {A} (a b : list A) : take (List.length a) (a ++ b) = Some (a, b).
Proof. induction a as [|x a IH]; simpl; [|rewrite IH]; reflexivity. Qed.

Lemma take_app' {A} n (a b : list A) : n = List.length a -> take n (a ++ b) = Some (a, b).
Proof. intros ->; apply take_app. Qed.

Lemma take_spec {A} n (l a b : list A) : take n l = Some (a, b) -> l = a ++ b /\ List.length a = n.
Proof.
  revert l a b; induction n as [|n IH]; intros l a b H; simpl in H.
  - injection H as <- <-; auto.
  - destruct l as [|x l]; [discriminate|].
    destruct (take n l) as [[a' r]|] eqn:E; [|discriminate]. injection H as <- <-.
    apply IH in E as [-> <-]. auto.
Qed.

Lemma take_none {A} n (l : list A) : take n l = None <-> (List.length l < n)%nat.
Proof.
  revert l; induction n as [|n IH]; intros l; simpl; [split; [discriminate|lia]|].
  destruct l as [|x l]; simpl; [split; [lia|reflexivity]|].
  specialize (IH l). destruct (take n l) as [[a r]|]; split; intros H; try discriminate; try lia.
  - assert (List.length l < n)%nat by lia. apply IH in H0; discriminate.
  - assert (List.length l < n)%nat by (apply IH; reflexivity). lia.
  - reflexivity.
Qed.

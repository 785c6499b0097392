(** Facts about the conversion of integers to doubles. *)
From Verif Require Import Base Float.
From Coq Require Import Floats.SpecFloat.
Local Open Scope Z_scope.

Lemma iter_shr_m p : forall mrs, 0 <= shr_m mrs -> shr_m (iter_pos shr_1 p mrs) = shr_m mrs / 2 ^ Zpos p.
Proof.
  assert (One : forall mrs, 0 <= shr_m mrs -> shr_m (shr_1 mrs) = shr_m mrs / 2 /\ 0 <= shr_m (shr_1 mrs)).
  { intros [m r s] H. cbn [shr_m] in *. unfold shr_1. cbn.
    destruct m as [|[q|q|]|q]; cbn [shr_m]; try lia; split; try lia. }
  induction p as [p IH|p IH|]; intros mrs H; cbn [iter_pos].
  - destruct (One mrs H) as [E1 P1].
    assert (P2 : 0 <= shr_m (iter_pos shr_1 p (shr_1 mrs))).
    { rewrite IH by assumption. apply Z.div_pos; [assumption|lia]. }
    rewrite IH by assumption. rewrite IH by assumption. rewrite E1.
    rewrite !Z.div_div by lia. f_equal. rewrite Pos2Z.inj_xI.
    replace (2 * Z.pos p + 1) with (Z.pos p + Z.pos p + 1) by lia.
    rewrite !Z.pow_add_r by lia. rewrite Z.pow_1_r. ring.
  - assert (P2 : 0 <= shr_m (iter_pos shr_1 p mrs)).
    { rewrite IH by assumption. apply Z.div_pos; [assumption|lia]. }
    rewrite IH by assumption. rewrite IH by assumption.
    rewrite !Z.div_div by lia. f_equal. rewrite Pos2Z.inj_xO.
    rewrite <- !Z.pow_add_r by lia. f_equal. lia.
  - apply One. assumption.
Qed.

Lemma digits2_lower p : 2 ^ (Zpos (digits2_pos p) - 1) <= Zpos p.
Proof.
  induction p as [p IH|p IH|]; cbn [digits2_pos]; [| |cbn; lia];
    rewrite Pos2Z.inj_succ; replace (Z.succ (Zpos (digits2_pos p)) - 1) with (1 + (Zpos (digits2_pos p) - 1)) by lia;
    rewrite Z.pow_add_r by lia; rewrite Z.pow_1_r; lia.
Qed.

(** Shifting right to the target exponent keeps a positive mantissa positive. *)
Lemma shr_fexp_pos m e l : 0 < m -> emin prec emax <= e ->
  0 < shr_m (fst (shr_fexp prec emax m e l)) /\ emin prec emax <= snd (shr_fexp prec emax m e l).
Proof.
  intros Hm He. unfold shr_fexp, shr, fexp.
  set (n := Z.max (Zdigits2 m + e - prec) (emin prec emax) - e).
  assert (Hs : shr_m (shr_record_of_loc m l) = m) by (destruct l as [|[]]; reflexivity).
  destruct n as [|p|p] eqn:En; cbn [fst snd]; rewrite ?Hs; try (split; lia).
  rewrite iter_shr_m by (rewrite Hs; lia). rewrite Hs. split; [|lia].
  destruct m as [|q|q]; try lia. cbn [Zdigits2] in n.
  assert (Hn : Zpos p <= Zpos (digits2_pos q) - 1).
  { unfold n in En. unfold emin, emax, prec in *. lia. }
  pose proof (digits2_lower q) as L.
  assert (2 ^ Zpos p <= 2 ^ (Zpos (digits2_pos q) - 1)) by (apply Z.pow_le_mono_r; lia).
  apply Z.div_str_pos. lia.
Qed.

Lemma binary_round_nonzero sx mx :
  match binary_round prec emax sx mx 0 with S754_zero _ | S754_nan => False | _ => True end.
Proof.
  unfold binary_round, shl_align.
  set (e := fexp prec emax (Z.pos (digits2_pos mx) + 0) - 0).
  assert (He : emin prec emax <= fexp prec emax (Z.pos (digits2_pos mx) + 0)) by (unfold fexp; lia).
  assert (H0 : emin prec emax <= 0) by (unfold emin, emax, prec; lia).
  assert (G : forall mz ez, emin prec emax <= ez ->
    match binary_round_aux prec emax sx (Zpos mz) ez loc_Exact with S754_zero _ | S754_nan => False | _ => True end).
  { intros mz ez Hz. unfold binary_round_aux.
    pose proof (shr_fexp_pos (Zpos mz) ez loc_Exact ltac:(lia) Hz) as [P1 P2].
    destruct (shr_fexp prec emax (Z.pos mz) ez loc_Exact) as [mrs e1]. cbn [fst snd] in *.
    set (r := round_nearest_even (shr_m mrs) (loc_of_shr_record mrs)).
    assert (Hr : 0 < r) by (unfold r, round_nearest_even; destruct (loc_of_shr_record mrs) as [|[]]; try lia;
      destruct (Z.even (shr_m mrs)); lia).
    pose proof (shr_fexp_pos r e1 loc_Exact Hr P2) as [Q1 _].
    destruct (shr_fexp prec emax r e1 loc_Exact) as [mrs2 e2]. cbn [fst snd] in *.
    destruct (shr_m mrs2); try lia. destruct (_ <=? _); exact I. }
  destruct e; apply G; assumption.
Qed.

Lemma f_of_Z_zero z : f_eqb (f_of_Z z) f_zero = (z =? 0).
Proof.
  destruct z as [|p|p]; [reflexivity| |]; unfold f_of_Z, f_of_me, binary_normalize;
    pose proof (binary_round_nonzero false p) as A; pose proof (binary_round_nonzero true p) as B;
    [destruct (binary_round prec emax false p 0) as [s|s| |s m e]
    |destruct (binary_round prec emax true p 0) as [s|s| |s m e]]; try contradiction;
    destruct s; reflexivity.
Qed.

(** ** Small integers are doubles *)
Lemma digits2_upper p : Zpos p < 2 ^ Zpos (digits2_pos p).
Proof.
  induction p as [p IH|p IH|]; cbn [digits2_pos]; [| |cbn; lia];
    rewrite Pos2Z.inj_succ, Z.pow_succ_r by lia; lia.
Qed.
Lemma digits2_iter n p : digits2_pos (Pos.iter xO p n) = (digits2_pos p + n)%positive.
Proof.
  revert n. apply Pos.peano_ind; [cbn; lia|]. intros n IH. rewrite Pos.iter_succ. cbn [digits2_pos]. rewrite IH. lia.
Qed.
Lemma iter_xO n p : Zpos (Pos.iter xO p n) = Zpos p * 2 ^ Zpos n.
Proof.
  revert n. apply Pos.peano_ind; [cbn; lia|]. intros n IH. rewrite Pos.iter_succ, Pos2Z.inj_xO, IH, Pos2Z.inj_succ, Z.pow_succ_r by lia. ring.
Qed.
Lemma round_exact s m e : Zpos (digits2_pos m) = 53 -> -52 <= e <= 0 ->
  binary_round_aux prec emax s (Zpos m) e loc_Exact = S754_finite s m e.
Proof.
  intros D He. unfold binary_round_aux.
  assert (X : forall l, shr_fexp prec emax (Zpos m) e l = (shr_record_of_loc (Zpos m) l, e)).
  { intros l. unfold shr_fexp, fexp, emin, emax, prec. cbn [Zdigits2]. rewrite D.
    replace (Z.max (53 + e - 53) (3 - 1024 - 53) - e) with 0 by lia. reflexivity. }
  rewrite X. cbn [shr_record_of_loc loc_of_shr_record shr_m round_nearest_even]. rewrite X. cbn [shr_record_of_loc shr_m].
  replace (e <=? emax - prec) with true by (unfold emax, prec; lia). reflexivity.
Qed.
(** The double of a small integer: its mantissa and exponent. *)
Lemma round_small s p : Zpos p < 2 ^ 53 -> exists m e,
  binary_round prec emax s p 0 = S754_finite s m e /\ e <= 0 /\ Zpos m = Zpos p * 2 ^ (- e).
Proof.
  intros L. pose proof (digits2_lower p) as DL. pose proof (digits2_upper p) as DU.
  assert (D : Zpos (digits2_pos p) <= 53).
  { destruct (Z.leb_spec (Zpos (digits2_pos p)) 53); [assumption|].
    assert (2 ^ 53 <= 2 ^ (Zpos (digits2_pos p) - 1)) by (apply Z.pow_le_mono_r; lia). lia. }
  unfold binary_round, shl_align.
  replace (fexp prec emax (Z.pos (digits2_pos p) + 0) - 0) with (Zpos (digits2_pos p) - 53) by (unfold fexp, emin, emax, prec; lia).
  replace (fexp prec emax (Z.pos (digits2_pos p) + 0)) with (Zpos (digits2_pos p) - 53) by (unfold fexp, emin, emax, prec; lia).
  destruct (Zpos (digits2_pos p) - 53) as [|q|q] eqn:Q; [|lia|].
  - exists p, 0. rewrite round_exact by lia. repeat split; lia.
  - exists (shift_pos q p), (Zneg q). unfold shift_pos. rewrite round_exact.
    + split; [reflexivity|]. split; [lia|]. exact (iter_xO q p).
    + rewrite digits2_iter. lia.
    + lia.
Qed.

(** Proofs about printing, conversions and union values. *)
From Coq Require Import Decimal DecimalN DecimalPos DecimalFacts Floats.SpecFloat.
From Verif Require Import Base BaseFacts Bson BsonFacts Dec Float FloatFacts Opcode Value VM Ast CodeGen Types Spec_Value ValueFacts Spec_Tables TableFacts
  Spec_Types Spec_VM SimVM Spec_Show.
Local Open Scope Z_scope.

(** ** Numerals *)
Lemma uint_txt_of t u : txt_uint t = Some u -> uint_txt u = t.
Proof.
  revert u. induction t as [|c t IH]; intros u H; cbn in H; [injection H as <-; reflexivity|].
  destruct (txt_uint t) as [v|]; [|discriminate].
  repeat match type of H with context [(c =? ?n)%N] => destruct (N.eqb_spec c n); [subst c; injection H as <-; cbn; rewrite (IH v eq_refl); reflexivity|] end.
  discriminate.
Qed.
Lemma parse_digits_digits t n : parse_digits t = Some n -> digits t.
Proof.
  unfold parse_digits. destruct t as [|c t]; [discriminate|]. destruct (txt_uint (c :: t)) as [u|] eqn:U; [|discriminate].
  intros _. split; [discriminate|]. rewrite <- (uint_txt_of _ _ U). pose proof (uint_txt_digits u) as F.
  eapply Forall_impl; [|exact F]. intros a Ha. unfold is_digit in Ha. lia.
Qed.
Lemma dec_N_lead n : hd 0%N (dec_N n) = 48%N -> dec_N n = [48%N].
Proof.
  unfold dec_N. destruct n as [|p]; [reflexivity|]. cbn [N.to_uint]. intros H.
  pose proof (DecimalPos.Unsigned.to_uint_nonzero p) as NZ.
  assert (U : Decimal.unorm (Pos.to_uint p) = Pos.to_uint p).
  { pose proof (DecimalN.Unsigned.to_of (Pos.to_uint p)) as T. change (N.of_uint (Pos.to_uint p)) with (Pos.of_uint (Pos.to_uint p)) in T.
    rewrite DecimalPos.Unsigned.of_to in T. cbn in T. symmetry. exact T. }
  destruct (Pos.to_uint p) as [|u| | | | | | | | |] eqn:Ep; cbn in H; try discriminate.
  exfalso. unfold Decimal.unorm in U. cbn [Decimal.nzhead] in U.
  assert (L : forall u, (Decimal.nb_digits (Decimal.nzhead u) <= Decimal.nb_digits u)%nat) by (induction u0; cbn; lia).
  destruct (Decimal.nzhead u) eqn:Eu; try discriminate U.
  - injection U as <-. apply NZ. reflexivity.
  - pose proof (DecimalFacts.nzhead_nonzero u u0). congruence.
Qed.
Lemma dec_N_digits' n : digits (dec_N n) /\ digits_number 0 (dec_N n) = Z.of_N n.
Proof.
  pose proof (parse_digits_dec_N n) as P. pose proof (parse_digits_digits _ _ P) as D. split; [exact D|].
  apply parse_digits_number in D. rewrite P in D. cbn in D. congruence.
Qed.
Lemma numeral_dec z : numeral z (dec_Z z).
Proof.
  unfold numeral. exists (dec_N (Z.to_N (Z.abs z))). destruct (dec_N_digits' (Z.to_N (Z.abs z))) as [D V].
  split; [exact D|]. split; [rewrite V; lia|]. split; [apply dec_N_lead|].
  destruct z as [|p|p]; reflexivity.
Qed.
Lemma digits_number_acc t : forall a, digits_number a t = a * 10 ^ Z.of_nat (List.length t) + digits_number 0 t.
Proof.
  induction t as [|c t IH]; intros a; cbn [digits_number List.length]; [cbn; lia|].
  rewrite IH. rewrite (IH (10 * 0 + _)). rewrite Nat2Z.inj_succ, Z.pow_succ_r by lia. ring.
Qed.
Lemma digits_bound t : Forall (fun c => (48 <= c <= 57)%N) t -> 0 <= digits_number 0 t < 10 ^ Z.of_nat (List.length t).
Proof.
  induction 1 as [|c t Hc F IH]; cbn [digits_number List.length]; [cbn; lia|].
  rewrite digits_number_acc, Nat2Z.inj_succ, Z.pow_succ_r by lia.
  pose proof (Z.pow_pos_nonneg 10 (Z.of_nat (List.length t))). nia.
Qed.
(** A number has one numeral. *)
Lemma same_digits a : forall b, Forall (fun c => (48 <= c <= 57)%N) a -> Forall (fun c => (48 <= c <= 57)%N) b ->
  List.length a = List.length b -> digits_number 0 a = digits_number 0 b -> a = b.
Proof.
  induction a as [|x a IH]; intros [|y b] Fa Fb L H; try discriminate; [reflexivity|].
  inversion Fa; inversion Fb; subst. cbn [digits_number] in H. injection L as L.
  rewrite (digits_number_acc a), (digits_number_acc b), L in H.
  pose proof (digits_bound a ltac:(assumption)) as Ba. pose proof (digits_bound b ltac:(assumption)) as Bb. rewrite L in Ba.
  assert (x = y) by nia. subst y. f_equal. apply IH; try assumption. nia.
Qed.
Lemma numeral_unique z s t : numeral z s -> numeral z t -> s = t.
Proof.
  intros (a & (Na & Fa) & Va & La & ->) (b & (Nb & Fb) & Vb & Lb & ->).
  assert (a = b); [|subst; reflexivity].
  assert (LE : forall a b, a <> [] -> Forall (fun c => (48 <= c <= 57)%N) a -> Forall (fun c => (48 <= c <= 57)%N) b ->
    (hd 0%N a = 48%N -> a = [48%N]) -> b <> [] -> digits_number 0 a = digits_number 0 b -> (List.length a <= List.length b)%nat).
  { clear. intros a b Na Fa Fb La Nb H. destruct a as [|x a]; [contradiction|].
    destruct (N.eq_dec x 48) as [->|NE].
    - rewrite (La eq_refl). destruct b; [contradiction|]. cbn. lia.
    - inversion Fa; subst. cbn [digits_number] in H. rewrite digits_number_acc in H.
      pose proof (digits_bound a ltac:(assumption)). pose proof (digits_bound b ltac:(assumption)).
      destruct (Nat.leb_spec (List.length (x :: a)) (List.length b)); [assumption|exfalso].
      cbn [List.length] in *. assert (10 ^ Z.of_nat (List.length b) <= 10 ^ Z.of_nat (List.length a)) by (apply Z.pow_le_mono_r; lia).
      pose proof (Z.pow_pos_nonneg 10 (Z.of_nat (List.length a))). nia. }
  apply same_digits; try assumption; [|congruence].
  apply Nat.le_antisymm; apply LE; auto; congruence.
Qed.

(** ** Printing *)
Lemma join_commas l : join l = commas l.
Proof. induction l as [|x l IH]; [reflexivity|]. cbn. destruct l; [reflexivity|]. rewrite IH. reflexivity. Qed.
Lemma opt_map_some {A B} (f : A -> option B) l ts : opt_map f l = Some ts <-> Forall2 (fun x y => f x = Some y) l ts.
Proof.
  split.
  - revert ts. induction l as [|x l IH]; intros ts H; cbn in H; [injection H as <-; constructor|].
    destruct (f x) eqn:Fx; [|discriminate]. destruct (opt_map f l); [|discriminate]. injection H as <-. constructor; auto.
  - induction 1 as [|x y l ts Hx F IH]; [reflexivity|]. cbn. rewrite Hx, IH. reflexivity.
Qed.
Lemma f2_imp {A B} (R Q : A -> B -> Prop) l m : (forall a b, R a b -> Q a b) -> Forall2 R l m -> Forall2 Q l m.
Proof. intros H. induction 1; constructor; auto. Qed.
Section Show.
Variable E : ext.
Variable h : heap.
Lemma show_prints n : forall v t, show_fuel E n h v = Some t -> prints E h v t.
Proof.
  induction n as [|n IH]; intros v t H; [discriminate|]. destruct v; cbn in H; try discriminate;
    try (injection H as <-; try (constructor; fail)).
  - constructor. apply numeral_dec.
  - destruct b; constructor.
  - destruct (nth_error h loc) as [[vs|? ?]|] eqn:Hl; try discriminate. destruct (opt_map _ vs) as [ts|] eqn:O; [|discriminate].
    injection H as <-. rewrite join_commas. econstructor; [exact Hl|]. apply opt_map_some in O.
    eapply f2_imp; [|exact O]. exact IH.
  - destruct (nth_error h loc) as [[?|reg fs]|] eqn:Hl; try discriminate. injection H as <-. econstructor. exact Hl.
  - constructor. pose proof (numeral_dec (Z.of_N tag)) as X. replace (dec_Z (Z.of_N tag)) with (dec_N tag) in X; [exact X|].
    destruct tag; reflexivity.
Qed.
Lemma show_mono n : forall m v t, (n <= m)%nat -> show_fuel E n h v = Some t -> show_fuel E m h v = Some t.
Proof.
  induction n as [|n IH]; intros m v t L H; [discriminate|]. destruct m as [|m]; [lia|].
  destruct v; cbn in *; try assumption. destruct (nth_error h loc) as [[vs|? ?]|] eqn:Hl; try discriminate.
  destruct (opt_map (show_fuel E n h) vs) as [ts|] eqn:O; [|discriminate].
  replace (opt_map (show_fuel E m h) vs) with (Some ts); [exact H|]. symmetry.
  apply opt_map_some. apply opt_map_some in O. eapply f2_imp; [|exact O]. intros a b X. apply IH; [lia|exact X].
Qed.
(** Fuel [1 + size of the heap] is enough: a vector printed inside itself would
    need more fuel than it has. *)
Lemma show_bound n : forall seen v t, NoDup seen -> Forall (fun l => (l < List.length h)%nat /\ show_fuel E n h (VVec l) = None) seen ->
  show_fuel E n h v = Some t -> show_fuel E (Datatypes.S (List.length h) - List.length seen) h v = Some t.
Proof.
  induction n as [|n IH]; intros seen v t ND F H; [discriminate|].
  assert (LS : (List.length seen <= List.length h)%nat).
  { rewrite <- (seq_length (List.length h) 0). apply NoDup_incl_length; [exact ND|]. intros l Hl. rewrite Forall_forall in F.
    apply in_seq. destruct (F l Hl). lia. }
  destruct (show_fuel E n h v) as [t'|] eqn:Hn.
  - assert (t' = t) by (pose proof (show_mono n (Datatypes.S n) v t' ltac:(lia) Hn); congruence). subst t'.
    apply (IH seen v t ND); [|exact Hn]. eapply Forall_impl; [|exact F]. intros l (A & B). split; [exact A|].
    destruct (show_fuel E n h (VVec l)) eqn:X; [|reflexivity]. pose proof (show_mono n (Datatypes.S n) _ _ ltac:(lia) X). congruence.
  - replace (Datatypes.S (List.length h) - List.length seen)%nat with (Datatypes.S (List.length h - List.length seen)) by lia.
    destruct v; cbn [show_fuel] in H |- *; try assumption.
    destruct (nth_error h loc) as [[vs|? ?]|] eqn:Hl; try discriminate.
    destruct (opt_map (show_fuel E n h) vs) as [ts|] eqn:O; [|discriminate].
    replace (opt_map (show_fuel E (List.length h - List.length seen) h) vs) with (Some ts); [exact H|]. symmetry.
    apply opt_map_some. apply opt_map_some in O.
    assert (NI : ~ In loc seen).
    { intros I. rewrite Forall_forall in F. destruct (F loc I) as (_ & X). cbn [show_fuel] in X. rewrite Hl in X.
      rewrite (proj2 (opt_map_some _ _ _) O) in X. congruence. }
    assert (LL : (loc < List.length h)%nat) by (apply nth_error_Some; congruence).
    eapply f2_imp; [|exact O]. intros a b X. pose proof (IH (loc :: seen) a b) as Y.
    cbn [List.length] in Y. replace (Datatypes.S (List.length h) - Datatypes.S (List.length seen))%nat with (List.length h - List.length seen)%nat in Y by lia.
    apply Y; [constructor; assumption| |exact X].
    constructor; [split; [exact LL|exact Hn]|]. eapply Forall_impl; [|exact F]. intros l (A & B). split; [exact A|].
    destruct (show_fuel E n h (VVec l)) eqn:Z; [|reflexivity]. pose proof (show_mono n (Datatypes.S n) _ _ ltac:(lia) Z). congruence.
Qed.
Section PrintsInd.
Variable P : value -> text -> Prop.
Hypothesis P_text : forall t, P (VStr t) t.
Hypothesis P_int : forall z t, numeral z t -> P (VInt z) t.
Hypothesis P_real : forall f, P (VF64 f) (if f_is_integral f then show_f64 E f ++ txt ".0" else show_f64 E f).
Hypothesis P_true : P (VBool true) (txt "verdadeiro").
Hypothesis P_false : P (VBool false) (txt "falso").
Hypothesis P_none : P VNone (txt "nulo").
Hypothesis P_vec : forall l vs ts, nth_error h l = Some (CVec vs) -> Forall2 P vs ts -> P (VVec l) (txt "[" ++ commas ts ++ txt "]").
Hypothesis P_obj : forall l n fs, nth_error h l = Some (CObj n fs) -> P (VObj l) (txt "<Inst" ++ [226%N] ++ txt "ncia do tipo " ++ n ++ txt ">").
Hypothesis P_variant : forall tag a t, numeral (Z.of_N tag) t -> P (VVariant tag a) (txt "<Variante(" ++ t ++ txt ")>").
Fixpoint prints_ind' v t (H : prints E h v t) {struct H} : P v t :=
  match H in prints _ _ v t return P v t with
  | pr_text _ _ t => P_text t
  | pr_int _ _ z t N => P_int z t N
  | pr_real _ _ f => P_real f
  | pr_true _ _ => P_true
  | pr_false _ _ => P_false
  | pr_none _ _ => P_none
  | pr_vec _ _ l vs ts Hl F =>
      P_vec l vs ts Hl
        ((fix all vs ts (F : Forall2 (prints E h) vs ts) {struct F} : Forall2 P vs ts :=
            match F in Forall2 _ vs ts return Forall2 P vs ts with
            | Forall2_nil _ => Forall2_nil _
            | Forall2_cons x y Hx F' => Forall2_cons x y (prints_ind' x y Hx) (all _ _ F')
            end) vs ts F)
  | pr_obj _ _ l n fs Hl => P_obj l n fs Hl
  | pr_variant _ _ tag a t N => P_variant tag a t N
  end.
End PrintsInd.
Lemma prints_show v t : prints E h v t -> exists n, show_fuel E n h v = Some t.
Proof.
  intros H. refine (prints_ind' (fun v t => exists n, show_fuel E n h v = Some t) _ _ _ _ _ _ _ _ _ v t H); clear v t H; try (intros; exists 1%nat; reflexivity).
  - intros z t N. exists 1%nat. cbn. f_equal. eapply numeral_unique; [apply numeral_dec|eassumption].
  - intros l vs ts H H0. assert (X : exists n, opt_map (show_fuel E n h) vs = Some ts).
    { clear H. induction H0 as [|v t vs ts (n & Hv) F (k & IH)]; [exists O; reflexivity|].
      exists (n + k)%nat. cbn. rewrite (show_mono n (n + k) v t ltac:(lia) Hv).
      replace (opt_map (show_fuel E (n + k) h) vs) with (Some ts); [reflexivity|]. symmetry. apply opt_map_some. apply opt_map_some in IH.
      eapply f2_imp; [|exact IH]. intros a b Y. eapply show_mono; [|exact Y]. lia. }
    destruct X as (n & X). exists (Datatypes.S n). cbn [show_fuel]. rewrite H, X, join_commas. reflexivity.
  - intros l n fs H. exists 1%nat. cbn [show_fuel]. rewrite H. reflexivity.
  - intros tag a t H. exists 1%nat. cbn [show_fuel]. do 3 f_equal. eapply numeral_unique; [|exact H].
    pose proof (numeral_dec (Z.of_N tag)) as X. replace (dec_Z (Z.of_N tag)) with (dec_N tag) in X by (destruct tag; reflexivity). exact X.
Qed.
Lemma show_iff v t : show E h v = Some t <-> prints E h v t.
Proof.
  split; [apply show_prints|]. intros H. apply prints_show in H as (n & H).
  pose proof (show_bound n [] v t (NoDup_nil _) (Forall_nil _) H) as X. rewrite Nat.sub_0_r in X. exact X.
Qed.
End Show.

(** ** Conversions *)
Lemma trunc_part f z : int_part f z -> f_trunc_Z f = Some z.
Proof.
  destruct f as [s| | |s m e]; cbn; try contradiction; [intros ->; reflexivity|]. intros (Sg & Lo & Hi).
  f_equal. destruct (Z.leb_spec 0 e).
  - replace (Z.max 0 (- e)) with 0 in * by lia. replace (Z.max 0 e) with e in * by lia. rewrite Z.pow_0_r in *.
    destruct s; lia.
  - replace (Z.max 0 (- e)) with (- e) in * by lia. replace (Z.max 0 e) with 0 in * by lia. rewrite Z.pow_0_r, !Z.mul_1_r in *.
    assert (D : Z.pos m / 2 ^ (- e) = Z.abs z).
    { symmetry. apply (Z.div_unique _ _ _ (Z.pos m - Z.abs z * 2 ^ (- e))); [left; nia|ring]. }
    rewrite D. destruct s; lia.
Qed.
Lemma part_exists f : (exists s m e, f = S754_finite s m e) \/ (exists s, f = S754_zero s) -> exists z, int_part f z.
Proof.
  intros [(s & m & e & ->)|(s & ->)]; [|exists 0; reflexivity].
  destruct (Z.leb_spec 0 e) as [L|L].
  - exists (if s then - (Z.pos m * 2 ^ e) else Z.pos m * 2 ^ e). cbn.
    replace (Z.max 0 (- e)) with 0 by lia. replace (Z.max 0 e) with e by lia. rewrite Z.pow_0_r.
    pose proof (Z.pow_pos_nonneg 2 e). destruct s; split; try nia; rewrite ?Z.abs_opp, Z.abs_eq by nia; lia.
  - exists (if s then - (Z.pos m / 2 ^ (- e)) else Z.pos m / 2 ^ (- e)). cbn.
    replace (Z.max 0 (- e)) with (- e) by lia. replace (Z.max 0 e) with 0 by lia. rewrite Z.pow_0_r, Z.mul_1_r.
    pose proof (Z.pow_pos_nonneg 2 (- e) ltac:(lia) ltac:(lia)) as P.
    pose proof (Z.div_pos (Z.pos m) (2 ^ (- e)) ltac:(lia) P). pose proof (Z.mul_div_le (Z.pos m) (2 ^ (- e)) P).
    pose proof (Z.mul_succ_div_gt (Z.pos m) (2 ^ (- e)) P).
    destruct s; split; try lia; rewrite ?Z.abs_opp, Z.abs_eq by lia; nia.
Qed.
Lemma to_i64_clamped f z : int_part f z -> f_to_i64 f = clamped z.
Proof.
  intros H. pose proof (trunc_part _ _ H) as T. unfold f_to_i64. destruct f; try contradiction; rewrite T;
    unfold clamped, min_i64, max_i64; destruct (Z.ltb_spec z (- 2 ^ 63)); try lia; destruct (Z.ltb_spec (2 ^ 63 - 1) z); lia.
Qed.
Lemma parse_denotes t z : parse_i64 t = Some z <-> denotes t z /\ fits z.
Proof.
  split.
  - intros H. unfold parse_i64 in H. destruct t as [|c r]; [discriminate|].
    assert (X : forall w, (if (c =? 45)%N then option_map (fun n => - Z.of_N n) (parse_digits r)
               else if (c =? 43)%N then option_map Z.of_N (parse_digits r) else option_map Z.of_N (parse_digits (c :: r))) = Some w -> denotes (c :: r) w).
    { intros w W. destruct (N.eqb_spec c 45) as [->|N1].
      - destruct (parse_digits r) as [n|] eqn:P; [|discriminate]. cbn in W. injection W as <-.
        pose proof (parse_digits_digits _ _ P) as D. pose proof (parse_digits_number _ D) as V. rewrite P in V. cbn [option_map] in V.
        exists r. split; [exact D|]. right. right. split; [reflexivity|]. congruence.
      - destruct (N.eqb_spec c 43) as [->|N2].
        + destruct (parse_digits r) as [n|] eqn:P; [|discriminate]. cbn in W. injection W as <-.
          pose proof (parse_digits_digits _ _ P) as D. pose proof (parse_digits_number _ D) as V. rewrite P in V. cbn [option_map] in V.
          exists r. split; [exact D|]. right. left. split; [reflexivity|]. congruence.
        + destruct (parse_digits (c :: r)) as [n|] eqn:P; [|discriminate]. cbn in W. injection W as <-.
          pose proof (parse_digits_digits _ _ P) as D. pose proof (parse_digits_number _ D) as V. rewrite P in V. cbn [option_map] in V.
          exists (c :: r). split; [exact D|]. left. split; [reflexivity|]. congruence. }
    match type of H with match ?o with _ => _ end = _ => destruct o as [w|] eqn:O; [|discriminate] end.
    destruct (in_i64 w) eqn:I; [|discriminate]. injection H as ->. split; [apply X; reflexivity|]. apply in_i64_fits, I.
  - intros ((ds & D & [[-> ->]|[[-> ->]|[-> ->]]]) & F); apply in_i64_fits in F; pose proof (parse_digits_number _ D) as V.
    + unfold parse_i64. destruct ds as [|c r]; [destruct D; contradiction|]. destruct D as (_ & FD). inversion FD; subst.
      replace (c =? 45)%N with false by lia. replace (c =? 43)%N with false by lia. rewrite V, F. reflexivity.
    + cbn [parse_i64]. change (43 =? 45)%N with false. change (43 =? 43)%N with true. cbv iota. rewrite V, F. reflexivity.
    + cbn [parse_i64]. change (45 =? 45)%N with true. cbv iota. destruct (parse_digits ds); [|discriminate]. cbn in V |- *.
      injection V as ->. rewrite F. reflexivity.
Qed.
Lemma denotes_unique t y z : denotes t y -> denotes t z -> y = z.
Proof.
  intros (a & Da & A) (b & Db & B). destruct Da as (Na & Fa), Db as (Nb & Fb).
  assert (Q : forall c r l, Forall (fun c => (48 <= c <= 57)%N) l -> l = c :: r -> (48 <= c <= 57)%N) by (intros c r l F ->; inversion F; assumption).
  destruct A as [[-> ->]|[[-> ->]|[-> ->]]], B as [[E1 ->]|[[E1 ->]|[E1 ->]]]; try (injection E1 as <-); try (subst; reflexivity);
    try discriminate; first [specialize (Q _ _ _ Fa E1); lia|specialize (Q _ _ _ Fb (eq_sym E1)); lia].
Qed.
Lemma cast_value E h p q t v : basic p -> basic q -> val_prim v p -> p <> q -> vty_of q = Some t ->
  check_cast (TyPrim p) (TyPrim q) = PyOk true -> forall r, vcast E h v t = r <-> converts E h v q r.
Proof.
  intros Bp Bq Hv Ne Ht C.
  assert (T : exists r, vcast E h v t = r /\ converts E h v q r).
  { destruct Bp as [-> | [-> | [-> | ->]]], Bq as [-> | [-> | [-> | ->]]]; destruct Hv as [x ->]; try congruence; try discriminate;
      injection Ht as <-; cbn [vcast show show_fuel rbind of_opt]; try (eexists; split; [reflexivity|]).
    - constructor.
    - constructor. destruct (Z.eqb_spec x 0); cbn; intuition congruence.
    - constructor. constructor. apply numeral_dec.
    - destruct x as [s|s| |s m e].
      + rewrite (to_i64_clamped (S754_zero s) 0 eq_refl). constructor. reflexivity.
      + destruct s; apply cv_inf_int.
      + constructor.
      + destruct (part_exists (S754_finite s m e)) as (z & Hz); [left; eauto|].
        rewrite (to_i64_clamped _ _ Hz). constructor. exact Hz.
    - constructor. destruct x as [s|s| |s m e]; cbn; (split; [intros X|intros (s' & X)]); try discriminate; eauto; destruct s; discriminate.
    - constructor. constructor.
    - constructor. destruct x; constructor.
    - destruct (parse_i64 x) as [z|] eqn:P.
      + apply parse_denotes in P as (P & F). constructor; assumption.
      + constructor. intros z D F. rewrite (proj2 (parse_denotes x z) (conj D F)) in P. discriminate.
    - destruct (parse_f64 x) as [z|] eqn:P; constructor; assumption.
    - constructor. destruct x; split; congruence. }
  destruct T as (r0 & V & K). intros r. split; [intros <-; rewrite V; exact K|]. intros K'. rewrite V. clear V C Ht t.
  destruct K; inversion K'; subst; try reflexivity; try contradiction; try congruence;
    try (match goal with b : bool, b' : bool |- _ => destruct b, b'; intuition congruence end).
  - match goal with A : prints _ _ _ _, B : prints _ _ _ _ |- _ => apply (show_iff E h) in A; apply (show_iff E h) in B end. congruence.
  - match goal with A : int_part _ _, B : int_part _ _ |- _ => apply trunc_part in A; apply trunc_part in B end. congruence.
  - do 2 f_equal. eapply denotes_unique; eauto.
  - exfalso. match goal with A : forall z, denotes _ z -> _ |- _ => apply (A z); assumption end.
  - exfalso. match goal with A : forall z, denotes _ z -> _ |- _ => apply (A z); assumption end.
Qed.

(** Small integers survive the way to [real] and back. *)
Lemma small_part z : - 2 ^ 53 < z < 2 ^ 53 -> int_part (f_of_Z z) z.
Proof.
  intros H. destruct z as [|p|p]; [reflexivity| |]; unfold f_of_Z, f_of_me, binary_normalize.
  - destruct (round_small false p ltac:(lia)) as (m & e & -> & Le & M). cbn [int_part].
    replace (Z.max 0 (- e)) with (- e) by lia. replace (Z.max 0 e) with 0 by lia. rewrite Z.pow_0_r, Z.mul_1_r, M.
    pose proof (Z.pow_pos_nonneg 2 (- e)). nia.
  - destruct (round_small true p ltac:(lia)) as (m & e & -> & Le & M). cbn [int_part].
    replace (Z.max 0 (- e)) with (- e) by lia. replace (Z.max 0 e) with 0 by lia. rewrite Z.pow_0_r, Z.mul_1_r, M.
    pose proof (Z.pow_pos_nonneg 2 (- e)). nia.
Qed.

(** ** Union values *)
Section Variants.
Variable E : ext.
Variable P : program.
Lemma at_of s o args vs : next_op P s o args -> on_top s vs -> exists l s1 A1 ip1,
  s_sp s = zlen (l ++ vs) - 1 /\
  at_ A1 ip1 (l ++ vs) (s_world s) (s_globs s, s_iglobs s) s1 /\ q_bp A1 = top_bp s /\
  (exists vm, get_module P (q_m A1) = Some vm) /\ s_frames s <> [] /\
  step E P s = match exec_op E P o args s1 with
               | XOk s' => SNext s'
               | XHalt s' => SHalt s'
               | XErr e s' => SErr e (trace P s') s'
               | XPanic => SPanic
               end.
Proof.
  intros (f & r & m & n & F & M & V) (l & j & Vs & Sp).
  exists l, (with_frames s (mkFrame (f_name f) (f_ip f + N.of_nat n) (f_ip f) (f_bp f) (f_mod f) :: r)),
    (mkFC (s_ctx s) (f_name f) (f_bp f) (f_mod f) r), (f_ip f + N.of_nat n)%N.
  split; [exact Sp|]. split.
  { constructor; try reflexivity; [exists (f_ip f); reflexivity|]. exists j. cbn. rewrite <- app_assoc. split; assumption. }
  split; [unfold top_bp; rewrite F; reflexivity|]. split; [exists m; exact M|]. split; [rewrite F; discriminate|].
  unfold step. rewrite F, M, V. reflexivity.
Qed.
Lemma top_of A ip l vs w G s : at_ A ip (l ++ vs) w G s -> on_top s vs.
Proof. intros [c f (j & V & Sp) W Gl]. exists l, j. rewrite app_assoc. split; assumption. Qed.
Lemma run_build s vs t : next_op P s BUILD_VARIANT [N.of_nat (List.length vs)] -> on_top s (vs ++ [VInt (Z.of_N t)]) -> Z.of_N t < 2 ^ 64 ->
  exists s', step E P s = SNext s' /\ on_top s' [VVariant t (match vs with [] => None | _ => Some vs end)].
Proof.
  intros N T L. destruct (at_of _ _ _ _ N T) as (l & s1 & A1 & ip1 & _ & H & _ & (vm & GM) & _ & ->).
  destruct (ex_build_variant E P A1 vm GM ip1 l _ _ vs t s1 H L) as (s' & -> & H'). exists s'. split; [reflexivity|]. eapply top_of, H'.
Qed.
Lemma run_match s a t vs : next_op P s MATCH_VARIANT [a] -> on_top s [VVariant t vs] ->
  exists s', step E P s = SNext s' /\ on_top s' [VBool (a =? t)%N].
Proof.
  intros N T. destruct (at_of _ _ _ _ N T) as (l & s1 & A1 & ip1 & _ & H & _ & (vm & GM) & _ & ->).
  destruct (ex_match_variant E P A1 vm GM ip1 l _ _ a t vs s1 H) as (s' & -> & H'). exists s'. split; [reflexivity|]. eapply top_of, H'.
Qed.
Lemma bind_slots_other ks : forall loc vs k, ~ In k ks -> nth_error (bind_slots loc ks vs) (N.to_nat k) = nth_error loc (N.to_nat k).
Proof.
  induction ks as [|q ks IH]; intros loc [|v vs] k NI; cbn; try reflexivity. rewrite IH by (intros X; apply NI; right; exact X).
  apply list_set_neq. intros X. apply NI. left. lia.
Qed.
Lemma bind_slots_get ks : forall loc vs, NoDup ks -> Forall (fun k => (N.to_nat k < List.length loc)%nat) ks ->
  forall i k v, nth_error ks i = Some k -> nth_error vs i = Some v -> nth_error (bind_slots loc ks vs) (N.to_nat k) = Some v.
Proof.
  induction ks as [|q ks IH]; intros loc [|x vs] ND F i k v K V; destruct i as [|i]; cbn in K, V; try discriminate.
  - injection K as ->. injection V as ->. inversion ND; subst. inversion F; subst. cbn. rewrite bind_slots_other by assumption.
    apply list_set_eq. assumption.
  - cbn. inversion ND; subst. inversion F; subst. eapply IH; eauto. eapply Forall_impl; [|eassumption]. intros a Ha. rewrite list_set_length. exact Ha.
Qed.
Lemma run_bind s ks t vs : next_op P s BIND_MATCH_ARGS [N.of_nat (List.length ks)] ->
  on_top s (VVariant t (Some vs) :: map (fun k => VInt (Z.of_N k)) ks) ->
  ks <> [] -> NoDup ks -> (List.length ks <= List.length vs)%nat -> Forall (is_slot s (1 + List.length ks)) ks ->
  exists s', step E P s = SNext s' /\ (forall i k v, nth_error ks i = Some k -> nth_error vs i = Some v -> slot s' k = Some v).
Proof.
  intros N T NE ND LE F. destruct (at_of _ _ _ _ N T) as (l & s1 & A1 & ip1 & Sp & H & Hbp & (vm & GM) & NF & ->).
  rewrite zlen_app in Sp.
  assert (ZL : zlen (VVariant t (Some vs) :: map (fun k => VInt (Z.of_N k)) ks) = 1 + Z.of_nat (List.length ks)).
  { unfold zlen. cbn [List.length]. rewrite map_length. lia. }
  rewrite ZL in Sp.
  destruct (s_frames s) as [|f r] eqn:Fr; [contradiction|].
  assert (F' : Forall (fun k => 0 <= f_bp f /\ f_bp f + Z.of_N k < zlen l) ks).
  { eapply Forall_impl; [|exact F]. intros k Hk. unfold is_slot in Hk. rewrite Fr in Hk. rewrite Nat2Z.inj_add in Hk. lia. }
  assert (B0 : 0 <= f_bp f <= zlen l) by (destruct ks as [|k ks]; [contradiction|]; inversion F'; subst; lia).
  unfold top_bp in Hbp. rewrite Fr in Hbp.
  set (base := firstn (Z.to_nat (f_bp f)) l). set (loc := skipn (Z.to_nat (f_bp f)) l).
  assert (EL : l = base ++ loc) by (symmetry; apply firstn_skipn).
  assert (ZB : zlen base = f_bp f) by (unfold zlen, base in *; rewrite firstn_length; lia).
  assert (ZC : zlen l = zlen base + zlen loc) by (rewrite EL; apply zlen_app).
  assert (FL : Forall (fun k => (N.to_nat k < List.length loc)%nat) ks).
  { eapply Forall_impl; [|exact F']. intros k Hk. cbv beta in Hk. unfold zlen in *. lia. }
  replace (l ++ VVariant t (Some vs) :: map (fun k => VInt (Z.of_N k)) ks) with
    ((base ++ loc ++ []) ++ VVariant t (Some vs) :: map (fun k => VInt (Z.of_N k)) ks) in H by (rewrite app_nil_r, EL; reflexivity).
  destruct (ex_bind_args E P A1 vm GM ip1 base loc [] _ _ ks t vs s1 H ltac:(rewrite ZB; exact Hbp) NE LE FL) as (s' & -> & H').
  exists s'. split; [reflexivity|]. intros i k v K V.
  destruct H' as [c (la & fr) (j & Vs & _) _ _]. unfold slot. rewrite fr. cbn [f_bp]. rewrite Hbp, Vs. unfold vget.
  replace (f_bp f + Z.of_N k <? 0) with false by lia.
  replace (Z.to_nat (f_bp f + Z.of_N k)) with (List.length base + N.to_nat k)%nat by (unfold zlen in ZB; lia).
  rewrite <- !app_assoc, nth_error_app2 by lia. replace (List.length base + N.to_nat k - List.length base)%nat with (N.to_nat k) by lia.
  apply nth_error_prefix. eapply bind_slots_get; eassumption.
Qed.
End Variants.
Lemma run_mostra E P s v : next_op P s MOSTRA [] -> on_top s [v] ->
  (forall t, prints E (w_heap (s_world s)) v t ->
     exists s', step E P s = SNext s' /\ w_out (s_world s') = w_out (s_world s) ++ t ++ [10%N] /\
       w_heap (s_world s') = w_heap (s_world s)) /\
  ((forall t, ~ prints E (w_heap (s_world s)) v t) -> step E P s = SPanic).
Proof.
  intros N T. destruct (at_of E P _ _ _ _ N T) as (l & s1 & A1 & ip1 & _ & H & _ & (vm & GM) & _ & ->). split.
  - intros t Pt. apply show_iff in Pt. destruct (ex_mostra E P A1 vm GM ip1 l _ _ v t s1 H Pt) as (s' & -> & H').
    exists s'. split; [reflexivity|]. rewrite (at_w _ _ _ _ _ _ H'). split; reflexivity.
  - intros NP. unfold exec_op. rewrite (at_ctx _ _ _ _ _ _ H), GM. cbn [xopt].
    destruct (xpop_at _ _ _ _ _ _ _ H) as (s2 & -> & H2). unfold heap_of. rewrite (at_w _ _ _ _ _ _ H2).
    destruct (show E (w_heap (s_world s)) v) as [t|] eqn:Sh; [|reflexivity]. exfalso. apply show_iff in Sh. exact (NP t Sh).
Qed.
Lemma tag_small decls b t : variant_tag (fold_left variant_index decls init_gst) b = PyOk t -> Z.of_N t < Z.of_nat (List.length decls).
Proof.
  intros H.
  assert (L : forall g, (List.length (g_variants (fold_left variant_index decls g)) <= List.length (g_variants g) + List.length decls)%nat).
  { clear. induction decls as [|d ds IH]; intros g; cbn [fold_left List.length]; [lia|]. etransitivity; [apply IH|].
    unfold variant_index at 1, table_index. cbn. destruct (index_of text_eqb (g_variants g) d); cbn; rewrite ?app_length; cbn; lia. }
  specialize (L init_gst). cbn in L. unfold variant_tag in H. destruct (index_of text_eqb _ b) as [i|] eqn:I; [|discriminate].
  injection H as <-. apply (index_of_some text_eqb text_eqb_eq) in I.
  assert (i < List.length (g_variants (fold_left variant_index decls init_gst)))%nat by (apply nth_error_Some; congruence). lia.
Qed.

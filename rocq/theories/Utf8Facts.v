From Verif Require Import Base BaseFacts Utf8.
Ltac Zify.zify_post_hook ::= Z.div_mod_to_equations.

Lemma utf8_enc1_some c : scalar c = true -> exists a, utf8_enc1 c = Some a.
Proof. intros H; unfold utf8_enc1; rewrite H; simpl; eauto. Qed.

Lemma utf8_dec1_enc1 c a r : utf8_enc1 c = Some a -> utf8_dec1 (a ++ r) = Some (c, r).
Proof.
  unfold utf8_enc1. destruct (scalar c) eqn:S; [|discriminate].
  cbn [negb]. intros H; apply some_inj in H; subst a.
  destruct (c <? 0x80)%N eqn:E1; [|destruct (c <? 0x800)%N eqn:E2; [|destruct (c <? 0x10000)%N eqn:E3]];
    unfold utf8_dec1; cbn [app].
  - rewrite E1; reflexivity.
  - replace (192 + c / 64 <? 0x80)%N with false by lia.
    replace ((0xC0 <=? 192 + c / 64) && (192 + c / 64 <? 0xE0))%N with true by lia.
    cbv zeta.
    replace ((192 + c / 64 - 0xC0) * 64 + (128 + c mod 64 - 0x80))%N with c by lia.
    unfold cont. replace ((0x80 <=? 128 + c mod 64) && (128 + c mod 64 <? 0xC0) && (0x80 <=? c))%N with true by lia.
    reflexivity.
  - replace (224 + c / 4096 <? 0x80)%N with false by lia.
    replace ((0xC0 <=? 224 + c / 4096) && (224 + c / 4096 <? 0xE0))%N with false by lia.
    replace ((0xE0 <=? 224 + c / 4096) && (224 + c / 4096 <? 0xF0))%N with true by lia.
    cbv zeta.
    replace ((224 + c / 4096 - 0xE0) * 4096 + (128 + (c / 64) mod 64 - 0x80) * 64 + (128 + c mod 64 - 0x80))%N
      with c by lia.
    rewrite S. unfold cont.
    replace ((0x80 <=? 128 + (c / 64) mod 64) && (128 + (c / 64) mod 64 <? 0xC0))%N with true by lia.
    replace ((0x80 <=? 128 + c mod 64) && (128 + c mod 64 <? 0xC0))%N with true by lia.
    replace (0x800 <=? c)%N with true by lia. reflexivity.
  - assert (c < 0x110000)%N by (unfold scalar in S; lia).
    replace (240 + c / 262144 <? 0x80)%N with false by lia.
    replace ((0xC0 <=? 240 + c / 262144) && (240 + c / 262144 <? 0xE0))%N with false by lia.
    replace ((0xE0 <=? 240 + c / 262144) && (240 + c / 262144 <? 0xF0))%N with false by lia.
    replace ((0xF0 <=? 240 + c / 262144) && (240 + c / 262144 <? 0xF8))%N with true by lia.
    cbv zeta.
    replace ((240 + c / 262144 - 0xF0) * 262144 + (128 + (c / 4096) mod 64 - 0x80) * 4096
             + (128 + (c / 64) mod 64 - 0x80) * 64 + (128 + c mod 64 - 0x80))%N with c by lia.
    rewrite S. unfold cont.
    replace ((0x80 <=? 128 + (c / 4096) mod 64) && (128 + (c / 4096) mod 64 <? 0xC0))%N with true by lia.
    replace ((0x80 <=? 128 + (c / 64) mod 64) && (128 + (c / 64) mod 64 <? 0xC0))%N with true by lia.
    replace ((0x80 <=? 128 + c mod 64) && (128 + c mod 64 <? 0xC0))%N with true by lia.
    replace (0x10000 <=? c)%N with true by lia. reflexivity.
Qed.

Lemma utf8_enc1_nonempty c a : utf8_enc1 c = Some a -> (1 <= List.length a)%nat.
Proof.
  unfold utf8_enc1. destruct (negb (scalar c)); [discriminate|]. intros H; apply some_inj in H; subst a.
  destruct (c <? 0x80)%N; [simpl; lia|]. destruct (c <? 0x800)%N; [simpl; lia|].
  destruct (c <? 0x10000)%N; simpl; lia.
Qed.

Lemma utf8_enc1_byte c a : utf8_enc1 c = Some a -> Forall is_byte a.
Proof.
  unfold utf8_enc1. destruct (scalar c) eqn:S; [|discriminate]. cbn [negb].
  intros H; apply some_inj in H; subst a. unfold scalar in S. unfold is_byte.
  destruct (c <? 0x80)%N eqn:E1; [|destruct (c <? 0x800)%N eqn:E2; [|destruct (c <? 0x10000)%N eqn:E3]];
    repeat constructor; lia.
Qed.

Lemma utf8_encode_byte t bs : utf8_encode t = Some bs -> Forall is_byte bs.
Proof.
  revert bs; induction t as [|c t IH]; intros bs H; simpl in H.
  - injection H as <-; constructor.
  - destruct (utf8_enc1 c) as [a|] eqn:E; [|discriminate].
    destruct (utf8_encode t) as [b|]; [|discriminate]. injection H as <-.
    apply Forall_app; split; [eapply utf8_enc1_byte; eauto|auto].
Qed.

Lemma utf8_dec_fuel_enc t bs fuel :
  utf8_encode t = Some bs -> (List.length bs <= fuel)%nat -> utf8_dec_fuel fuel bs = Some t.
Proof.
  revert bs fuel; induction t as [|c t IH]; intros bs fuel H L; simpl in H.
  - injection H as <-. destruct fuel; reflexivity.
  - destruct (utf8_enc1 c) as [a|] eqn:E; [|discriminate].
    destruct (utf8_encode t) as [b|] eqn:Eb; [|discriminate]. injection H as <-.
    pose proof (utf8_enc1_nonempty _ _ E) as Ha. rewrite app_length in L.
    destruct fuel as [|f]; [lia|].
    cbn [utf8_dec_fuel]. destruct (a ++ b) as [|x l] eqn:Eab.
    { destruct a; simpl in *; [lia|discriminate]. }
    rewrite <- Eab, (utf8_dec1_enc1 _ _ _ E), (IH b f eq_refl) by lia. reflexivity.
Qed.

Lemma utf8_decode_encode t bs : utf8_encode t = Some bs -> utf8_decode bs = Some t.
Proof. intros H; apply (utf8_dec_fuel_enc t bs _ H); lia. Qed.

Lemma utf8_encode_some t : Forall (fun c => scalar c = true) t -> exists bs, utf8_encode t = Some bs.
Proof.
  induction 1 as [|c t Hc Ht [b Hb]]; simpl; eauto.
  destruct (utf8_enc1_some c Hc) as [a Ha]. rewrite Ha, Hb; eauto.
Qed.

Lemma utf8_encode_scalar t bs : utf8_encode t = Some bs -> Forall (fun c => scalar c = true) t.
Proof.
  revert bs; induction t as [|c t IH]; intros bs H; constructor; simpl in H;
    unfold utf8_enc1 in H; destruct (scalar c); try discriminate; auto.
  destruct (utf8_encode t); [eauto|discriminate].
Qed.

Lemma utf8_encode_ascii t : Forall (fun c => (c < 128)%N) t -> utf8_encode t = Some t.
Proof.
  induction 1 as [|c t Hc Ht IH]; simpl; auto.
  unfold utf8_enc1, scalar.
  replace (c <? 55296)%N with true by lia. cbn. replace (c <? 128)%N with true by lia.
  rewrite IH. reflexivity.
Qed.

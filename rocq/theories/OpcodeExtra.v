From Verif Require Import Base BaseFacts Bson BsonFacts Opcode Spec_Opcode OpcodeFacts.

Lemma encode_injective labels o1 a1 o2 a2 r1 r2 bs rest1 rest2 b1 b2 :
  resolve_args labels (o1, a1) = Some r1 -> args_fit o1 r1 ->
  resolve_args labels (o2, a2) = Some r2 -> args_fit o2 r2 ->
  write_op_bytes labels (o1, a1) = PyOk b1 -> write_op_bytes labels (o2, a2) = PyOk b2 ->
  bs = b1 ++ rest1 -> bs = b2 ++ rest2 -> o1 = o2 /\ r1 = r2 /\ rest1 = rest2.
Proof.
  intros R1 F1 R2 F2 W1 W2 E1 E2.
  destruct (encode_ok labels o1 a1 r1 R1 F1) as (x & Hx & Lx & Fx).
  destruct (encode_ok labels o2 a2 r2 R2 F2) as (y & Hy & Ly & Fy).
  rewrite W1 in Hx. apply pyok_inj in Hx; subst x. rewrite W2 in Hy. apply pyok_inj in Hy; subst y.
  specialize (Fx rest1). specialize (Fy rest2). rewrite <- E1 in Fx. rewrite <- E2 in Fy.
  rewrite Fx in Fy. injection Fy as -> -> HL. split; [reflexivity|split; [reflexivity|]].
  subst bs. assert (Hs : skipn (List.length b1) (b1 ++ rest1) = skipn (List.length b2) (b2 ++ rest2)).
  { rewrite HL, E2. reflexivity. }
  rewrite !skipn_app, !skipn_all, !Nat.sub_diag in Hs. exact Hs.
Qed.

Lemma bad_byte b rest : (41 < b < 255)%N -> vm_fetch (b :: rest) = None.
Proof.
  intros H. unfold vm_fetch, opcode_of_byte. replace (b =? 255)%N with false by lia.
  rewrite (proj2 (nth_error_None _ _)); [reflexivity|]. cbn [List.length]. lia.
Qed.

Lemma take_short {A} n (l : list A) : (List.length l < n)%nat -> take n l = None.
Proof.
  revert l. induction n; intros l H; [lia|]. destruct l; [reflexivity|]. simpl in *.
  rewrite IHn by lia. reflexivity.
Qed.

Lemma truncated o rest : (N.of_nat (S (List.length rest)) < op_size o)%N -> vm_fetch (op_value o :: rest) = None.
Proof.
  intros H. unfold vm_fetch. rewrite opcode_of_value. rewrite op_size_kind in H.
  rewrite take_short by lia. reflexivity.
Qed.

Lemma refuses_wide labels o args rargs :
  resolve_args labels (o, args) = Some rargs ->
  vm_argkind o = A8 \/ vm_argkind o = A64 \/ vm_argkind o = A64x2 ->
  List.length rargs = (match vm_argkind o with A64x2 => 2 | _ => 1 end)%nat ->
  ~ args_fit o rargs -> exists e, write_op_bytes labels (o, args) = PyErr e.
Proof.
  intros HR K HL HF. unfold write_op_bytes.
  assert (HA : (if is_jump o
      then let! l := arg0 args in
           match nth_error labels (N.to_nat l) with Some a => PyOk [a] | None => PyErr KeyErr end
      else PyOk args) = PyOk rargs).
  { unfold resolve_args in HR. destruct (is_jump o).
    - destruct args as [|l [|]]; try discriminate. simpl.
      destruct (nth_error labels (N.to_nat l)); [|discriminate]. congruence.
    - congruence. }
  rewrite HA. cbn [pbind]. clear HA HR.
  unfold args_fit in HF. unfold format_u64_arg.
  destruct K as [K|[K|K]]; rewrite K in *.
  - destruct rargs as [|a [|]]; try discriminate.
    assert (Ha : (a <? 256)%N = false). { destruct (a <? 256)%N eqn:E; [|reflexivity]. exfalso. apply HF. exists a. split; [reflexivity|]. change (2 ^ 8)%N with 256%N. lia. }
    destruct o; try discriminate K; cbn [op_size arg0 pbind]; rewrite Ha; eauto.
  - destruct rargs as [|a [|]]; try discriminate.
    assert (Ha : (a <? 2 ^ 64)%N = false). { destruct (a <? 2 ^ 64)%N eqn:E; [|reflexivity]. exfalso. apply HF. exists a. split; [reflexivity|lia]. }
    destruct o; try discriminate K; cbn [op_size arg0 pbind]; rewrite Ha; cbn [pbind]; eauto.
  - destruct rargs as [|a [|b [|]]]; try discriminate.
    destruct o; try discriminate K; cbn [op_size arg0 pbind].
    destruct (a <? 2 ^ 64)%N eqn:Ea; cbn [pbind]; eauto.
    destruct (b <? 2 ^ 64)%N eqn:Eb; cbn [pbind]; eauto.
    exfalso. apply HF. exists a, b. split; [reflexivity|]. split; lia.
Qed.

Lemma wide_u16_refuted : exists a b bs, a <> b /\
  write_op_bytes [] (LOAD_CONST, [a]) = PyOk bs /\ write_op_bytes [] (LOAD_CONST, [b]) = PyOk bs.
Proof. exists 65536%N, 0%N. eexists. split; [discriminate|]. split; [vm_compute; reflexivity|]. vm_compute; reflexivity. Qed.

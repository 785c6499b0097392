From Verif Require Import Base BaseFacts Bson BsonFacts Opcode Spec_Opcode.

Lemma opcode_of_value o : opcode_of_byte (op_value o) = Some o.
Proof. destruct o; reflexivity. Qed.

Lemma op_value_byte o : (op_value o < 256)%N.
Proof. destruct o; simpl; lia. Qed.

Lemma op_size_kind o : op_size o = N.of_nat (S (argkind_size (vm_argkind o))).
Proof. destruct o; reflexivity. Qed.

Lemma be_val_u16 a : (a < 2 ^ 16)%N -> be_val (format_u16_arg a) = a.
Proof.
  intros H. unfold format_u16_arg, be_val. cbn.
  change (2 ^ 16)%N with 65536%N in H. lia.
Qed.

Lemma encode_ok labels o args rargs :
  resolve_args labels (o, args) = Some rargs -> args_fit o rargs ->
  exists bs, write_op_bytes labels (o, args) = PyOk bs /\
    List.length bs = N.to_nat (op_size o) /\
    forall rest, vm_fetch (bs ++ rest) = Some (o, rargs, List.length bs).
Proof.
  intros HR HF. unfold write_op_bytes.
  assert (HA : (if is_jump o
      then let! l := arg0 args in
           match nth_error labels (N.to_nat l) with Some a => PyOk [a] | None => PyErr KeyErr end
      else PyOk args) = PyOk rargs).
  { unfold resolve_args in HR. destruct (is_jump o).
    - destruct args as [|l [|]]; try discriminate. simpl.
      destruct (nth_error labels (N.to_nat l)); [|discriminate]. congruence.
    - congruence. }
  rewrite HA. cbn [pbind]. clear HA HR args.
  unfold args_fit in HF.
  assert (H0 : vm_argkind o = ANone -> rargs = [] ->
    exists bs, PyOk [op_value o] = PyOk bs /\ List.length bs = N.to_nat (op_size o) /\
      forall rest, vm_fetch (bs ++ rest) = Some (o, rargs, List.length bs)).
  { intros K ->. eexists; split; [reflexivity|]. split; [rewrite op_size_kind, K; reflexivity|].
    intros rest. unfold vm_fetch. cbn [app]. rewrite opcode_of_value, K. reflexivity. }
  assert (H8 : forall a, vm_argkind o = A8 -> rargs = [a] -> (a < 2 ^ 8)%N ->
    exists bs, (if (a <? 256)%N then PyOk [op_value o; a] else PyErr ValueErr) = PyOk bs /\
      List.length bs = N.to_nat (op_size o) /\
      forall rest, vm_fetch (bs ++ rest) = Some (o, rargs, List.length bs)).
  { intros a K -> Ha. change (2 ^ 8)%N with 256%N in Ha. replace (a <? 256)%N with true by lia.
    eexists; split; [reflexivity|]. split; [rewrite op_size_kind, K; reflexivity|].
    intros rest. unfold vm_fetch. cbn [app]. rewrite opcode_of_value, K. cbn.
    replace (a + 256 * 0)%N with a by lia. reflexivity. }
  assert (H16 : forall a, vm_argkind o = A16 -> rargs = [a] -> (a < 2 ^ 16)%N ->
    exists bs, PyOk (op_value o :: format_u16_arg a) = PyOk bs /\
      List.length bs = N.to_nat (op_size o) /\
      forall rest, vm_fetch (bs ++ rest) = Some (o, rargs, List.length bs)).
  { intros a K -> Ha.
    eexists; split; [reflexivity|]. split; [rewrite op_size_kind, K; reflexivity|].
    intros rest. unfold vm_fetch. cbn [app]. rewrite opcode_of_value, K.
    cbn [argkind_size]. rewrite take_app' by reflexivity. rewrite be_val_u16 by exact Ha. reflexivity. }
  assert (H64 : forall a, vm_argkind o = A64 -> rargs = [a] -> (a < 2 ^ 64)%N ->
    exists bs, (let! b := format_u64_arg a in PyOk (op_value o :: b)) = PyOk bs /\
      List.length bs = N.to_nat (op_size o) /\
      forall rest, vm_fetch (bs ++ rest) = Some (o, rargs, List.length bs)).
  { intros a K -> Ha. unfold format_u64_arg; replace (a <? 2 ^ 64)%N with true by lia; cbn [pbind].
    eexists; split; [reflexivity|]. split; [cbn [List.length]; rewrite be_bytes_length, op_size_kind, K; reflexivity|].
    intros rest. unfold vm_fetch. cbn [app]. rewrite opcode_of_value, K.
    cbn [argkind_size]. rewrite take_app' by (rewrite be_bytes_length; reflexivity).
    rewrite be_val_bytes by (simpl; lia). cbn [List.length]. rewrite be_bytes_length. reflexivity. }
  assert (H128 : forall a b, vm_argkind o = A64x2 -> rargs = [a; b] -> (a < 2 ^ 64)%N -> (b < 2 ^ 64)%N ->
    exists bs, (let! x := format_u64_arg a in let! y := format_u64_arg b in PyOk (op_value o :: x ++ y)) = PyOk bs /\
      List.length bs = N.to_nat (op_size o) /\
      forall rest, vm_fetch (bs ++ rest) = Some (o, rargs, List.length bs)).
  { intros a b K -> Ha Hb. unfold format_u64_arg; replace (a <? 2 ^ 64)%N with true by lia.
    replace (b <? 2 ^ 64)%N with true by lia; cbn [pbind].
    eexists; split; [reflexivity|].
    split; [cbn [List.length]; rewrite app_length, !be_bytes_length, op_size_kind, K; reflexivity|].
    intros rest. unfold vm_fetch. cbn [app]. rewrite opcode_of_value, K.
    cbn [argkind_size]. rewrite take_app' by (rewrite app_length, !be_bytes_length; reflexivity).
    rewrite (firstn_app 8), (skipn_app 8), be_bytes_length.
    change (8 - 8)%nat with 0%nat. rewrite firstn_O, app_nil_r.
    rewrite firstn_all2 by (rewrite be_bytes_length; lia).
    rewrite (skipn_all2 (n := 8)) by (rewrite be_bytes_length; lia). rewrite skipn_O. cbn [app].
    rewrite !be_val_bytes by (simpl; lia). cbn [List.length]. rewrite app_length, !be_bytes_length. reflexivity. }
  destruct o; cbn [vm_argkind op_size] in *;
    first [ exact (H0 eq_refl HF)
          | destruct HF as (a & -> & Ha); cbn [arg0 pbind];
            first [ exact (H8 a eq_refl eq_refl Ha) | exact (H16 a eq_refl eq_refl Ha)
                  | exact (H64 a eq_refl eq_refl Ha) ]
          | destruct HF as (a & b & -> & Ha & Hb); exact (H128 a b eq_refl eq_refl Ha Hb) ].
Qed.

(** Encoding then fetching a whole program, instruction by instruction. *)
Lemma write_ops_app labels a b :
  write_ops labels (a ++ b) =
  (let! x := write_ops labels a in let! y := write_ops labels b in PyOk (x ++ y)).
Proof.
  induction a as [|i a IH]; simpl.
  - destruct (write_ops labels b); reflexivity.
  - destruct (write_op_bytes labels i); simpl; [|reflexivity].
    rewrite IH. destruct (write_ops labels a); simpl; [|reflexivity].
    destruct (write_ops labels b); simpl; [|reflexivity]. rewrite app_assoc. reflexivity.
Qed.

Lemma ops_size_app a b : ops_size (a ++ b) = (ops_size a + ops_size b)%N.
Proof. induction a as [|[o args] a IH]; simpl; [lia|]. rewrite IH. lia. Qed.

Lemma write_op_length labels i bs : write_op_bytes labels i = PyOk bs ->
  N.of_nat (List.length bs) = op_size (fst i).
Proof.
  destruct i as [o args]. unfold write_op_bytes. cbn [fst]. intros H.
  apply pbind_ok in H as (rargs & _ & H).
  destruct o; cbn [op_size] in H |- *;
    try (apply pyok_inj in H; subst; reflexivity);
    try (destruct rargs as [|a [|b r]]; try discriminate H; cbn [arg0 pbind] in H;
         try (destruct (a <? 256)%N; [|discriminate]);
         try (unfold format_u64_arg in H; destruct (a <? 2 ^ 64)%N; [|discriminate]; cbn [pbind] in H);
         try (destruct (b <? 2 ^ 64)%N; [|discriminate]; cbn [pbind] in H);
         apply pyok_inj in H; subst; cbn [List.length];
         rewrite ?app_length, ?be_bytes_length; reflexivity).
Qed.

Lemma write_ops_length labels ops : forall bs, write_ops labels ops = PyOk bs ->
  N.of_nat (List.length bs) = ops_size ops.
Proof.
  induction ops as [|[o args] ops IH]; intros bs H; cbn [write_ops] in H.
  - apply pyok_inj in H; subst. reflexivity.
  - apply pbind_ok in H as (a & Ha & H). apply pbind_ok in H as (b & Hb & H).
    apply pyok_inj in H; subst. rewrite app_length. apply write_op_length in Ha. apply IH in Hb.
    cbn [ops_size fst] in *. lia.
Qed.

(** Fetching at the offset of the [n]-th instruction gives that instruction. *)
Lemma fetch_nth labels pre o args post bs rargs :
  write_ops labels (pre ++ (o, args) :: post) = PyOk bs ->
  resolve_args labels (o, args) = Some rargs -> args_fit o rargs ->
  vm_fetch (skipn (N.to_nat (ops_size pre)) bs) = Some (o, rargs, N.to_nat (op_size o)).
Proof.
  intros H HR HF. rewrite write_ops_app in H.
  apply pbind_ok in H as (x & Hx & H). apply pbind_ok in H as (y & Hy & H). apply pyok_inj in H; subst bs.
  cbn [write_ops] in Hy. apply pbind_ok in Hy as (a & Ha & Hy). apply pbind_ok in Hy as (b & Hb & Hy).
  apply pyok_inj in Hy; subst y.
  destruct (encode_ok labels o args rargs HR HF) as (a' & Ha' & Hl & Hf).
  rewrite Ha in Ha'. apply pyok_inj in Ha'; subst a'.
  apply write_ops_length in Hx. rewrite <- Hx, Nat2N.id.
  rewrite skipn_app, skipn_all, Nat.sub_diag. cbn [app skipn].
  rewrite Hf. rewrite Hl. reflexivity.
Qed.

(** C02: compiler and VM agree on the instruction encoding. *)
From Verif Require Import Base Bson Opcode Spec_Opcode OpcodeFacts OpcodeExtra.

(** Every instruction whose arguments fit is encoded; the VM decodes the same
    operation and arguments from the head of any byte string that starts with
    the encoding, and consumes exactly the size the compiler used for offsets. *)
Theorem C02_roundtrip : forall labels o args rargs,
  resolve_args labels (o, args) = Some rargs -> args_fit o rargs ->
  exists bs, write_op_bytes labels (o, args) = PyOk bs /\
    List.length bs = N.to_nat (op_size o) /\
    forall rest, vm_fetch (bs ++ rest) = Some (o, rargs, List.length bs).
Proof. exact encode_ok. Qed.
Print Assumptions C02_roundtrip.

(** In a whole program, the VM reads at the offset of each instruction (the
    sum of the sizes before it) exactly that instruction. *)
Theorem C02_program : forall labels before o args after bs rargs,
  write_ops labels (before ++ (o, args) :: after) = PyOk bs ->
  resolve_args labels (o, args) = Some rargs -> args_fit o rargs ->
  vm_fetch (skipn (N.to_nat (ops_size before)) bs) = Some (o, rargs, N.to_nat (op_size o)).
Proof. exact fetch_nth. Qed.
Print Assumptions C02_program.

(** The encoding is prefix-free and injective. *)
Theorem C02_unambiguous : forall labels o1 a1 o2 a2 r1 r2 bs rest1 rest2 b1 b2,
  resolve_args labels (o1, a1) = Some r1 -> args_fit o1 r1 ->
  resolve_args labels (o2, a2) = Some r2 -> args_fit o2 r2 ->
  write_op_bytes labels (o1, a1) = PyOk b1 -> write_op_bytes labels (o2, a2) = PyOk b2 ->
  bs = b1 ++ rest1 -> bs = b2 ++ rest2 -> o1 = o2 /\ r1 = r2 /\ rest1 = rest2.
Proof. exact encode_injective. Qed.
Print Assumptions C02_unambiguous.

(** Bytes that are no instruction, and truncated instructions, are rejected. *)
Theorem C02_bad_byte : forall b rest, (41 < b < 255)%N -> vm_fetch (b :: rest) = None.
Proof. exact bad_byte. Qed.
Theorem C02_truncated : forall o rest,
  (N.of_nat (S (List.length rest)) < op_size o)%N -> vm_fetch (op_value o :: rest) = None.
Proof. exact truncated. Qed.
Print Assumptions C02_truncated.

(** One-byte and eight-byte operands that do not fit make the encoder fail... *)
Theorem C02_refuses_wide : forall labels o args rargs,
  resolve_args labels (o, args) = Some rargs ->
  vm_argkind o = A8 \/ vm_argkind o = A64 \/ vm_argkind o = A64x2 ->
  List.length rargs = (match vm_argkind o with A64x2 => 2 | _ => 1 end)%nat ->
  ~ args_fit o rargs -> exists e, write_op_bytes labels (o, args) = PyErr e.
Proof. exact refuses_wide. Qed.
Print Assumptions C02_refuses_wide.

(** ... but a two-byte operand is silently truncated. *)
Theorem C02_wide_u16_refuted : exists a b bs, a <> b /\
  write_op_bytes [] (LOAD_CONST, [a]) = PyOk bs /\ write_op_bytes [] (LOAD_CONST, [b]) = PyOk bs.
Proof. exact wide_u16_refuted. Qed.
Print Assumptions C02_wide_u16_refuted.

Example C02_example :
  let labels := [12; 300]%N in
  let ops := [(LOAD_CONST, [258]); (JUMP_IF_FALSE, [1]); (LOAD_MODULE_DEF, [3; 5]); (CALL_FUNCTION, [255])]%N in
  (exists bs, write_ops labels ops = PyOk bs /\
     vm_fetch (skipn 3 bs) = Some (JUMP_IF_FALSE, [300%N], 9%nat) /\
     vm_fetch (skipn 12 bs) = Some (LOAD_MODULE_DEF, [3; 5]%N, 17%nat)) /\
  resolve_args labels (JUMP_IF_FALSE, [1%N]) = Some [300%N] /\ args_fit JUMP_IF_FALSE [300%N].
Proof.
  split; [eexists; split; [vm_compute; reflexivity|]; split; vm_compute; reflexivity|].
  split; [reflexivity|]. exists 300%N. split; reflexivity.
Qed.

(** Specification vocabulary for the instruction encoding (C02, C03). *)
From Verif Require Import Base Opcode.

(** The arguments of an instruction as the VM must see them: jump labels
    replaced by their offset. *)
Definition resolve_args (labels : list N) (i : instr) : option (list N) :=
  let (o, args) := i in
  if is_jump o then
    match args with
    | [l] => match nth_error labels (N.to_nat l) with Some a => Some [a] | None => None end
    | _ => None
    end
  else Some args.

(** Arguments have the number and range the opcode supports. *)
Definition args_fit (o : opcode) (args : list N) : Prop :=
  match vm_argkind o with
  | ANone => args = []
  | A8 => exists a, args = [a] /\ (a < 2 ^ 8)%N
  | A16 => exists a, args = [a] /\ (a < 2 ^ 16)%N
  | A64 => exists a, args = [a] /\ (a < 2 ^ 64)%N
  | A64x2 => exists a b, args = [a; b] /\ (a < 2 ^ 64)%N /\ (b < 2 ^ 64)%N
  end.

(** Bytes taken by a list of instructions. *)
Fixpoint ops_size (ops : list instr) : N :=
  match ops with [] => 0 | (o, _) :: r => op_size o + ops_size r end%N.


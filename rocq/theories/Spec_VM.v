(** Specification vocabulary for the virtual machine: states a run passes
    through. *)
From Verif Require Import Base Value VM.

(** [reaches s s']: the machine gets from [s] to [s'] in some number of steps. *)
Inductive reaches (E : ext) (P : program) : state -> state -> Prop :=
| rc_refl s : reaches E P s s
| rc_step s s1 s2 : step E P s = SNext s1 -> reaches E P s1 s2 -> reaches E P s s2.

(** The instruction about to be executed. *)
Definition next_op (P : program) (s : state) (o : Opcode.opcode) (args : list N) : Prop :=
  exists f r m n, s_frames s = f :: r /\ get_module P (s_ctx s) = Some m /\
    Opcode.vm_fetch (skipn (N.to_nat (f_ip f)) (m_code m)) = Some (o, args, n).

(** The value on top of the stack. *)
Definition top (s : state) (v : value) : Prop := exists s', op_pop s = Some (v, s').

(** Specification vocabulary for what a call leaves alone (C06). *)
From Verif Require Import Base Opcode Value Ast CodeGen VM Spec_Height.

(** The first [k] values of the stack are as they were. *)
Definition keeps (k : Z) (s s' : state) : Prop :=
  forall j v, (Z.of_nat j < k)%Z -> nth_error (s_vals s) j = Some v -> nth_error (s_vals s') j = Some v.
(** A function of the module it belongs to has just been entered. *)
Definition entered (P : program) (s : state) : Prop :=
  exists f r vm, s_frames s = f :: r /\ s_ctx s = f_mod f /\ get_module P (f_mod f) = Some vm /\ In (f_ip f) (map fn_start (m_funcs vm)).
(** The next instruction writes a variable of the function: one of a function
    that has variables, and not by pattern matching. *)
Definition writes_own (P : program) (s : state) : Prop :=
  (forall args, ~ fetches P s BIND_MATCH_ARGS args) /\ forall args, fetches P s SET_LOCAL args -> (0 <= frame_bp s)%Z.
(** An execution inside one frame as in [stays], with those two conditions at
    every instruction, also inside the calls. *)
Inductive stays_own (E : ext) (P : program) : state -> state -> Prop :=
| so_end s : stays_own E P s s
| so_step s s1 s2 : ~ enters P s -> ~ leaves P s -> writes_own P s -> step E P s = SNext s1 -> stays_own E P s1 s2 -> stays_own E P s s2
| so_call s s1 t s2 s3 : enters P s -> step E P s = SNext s1 -> entered P s1 -> stays_own E P s1 t -> leaves P t ->
    (0 <= frame_bp s1 \/ s_sp t = s_sp s1 + 1)%Z -> step E P t = SNext s2 -> stays_own E P s2 s3 -> stays_own E P s s3.

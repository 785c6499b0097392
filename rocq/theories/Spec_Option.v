(** Words for the theorems about [nulo] in [Prop_Option.v]. *)
From Verif Require Import Base Bson Opcode Spec_Opcode Value VM Ast CodeGen Compile SemProg Spec_Sem.

(** While module [m] of the program was compiled, the generator went from [a] to
    [b] on [x], and the instructions and names it had then are in the final
    module. *)
Definition code_of (bpath : text) (main : amodule) (imports : list amodule) (m : option N) (x : node) (a b : gst) : Prop :=
  exists md F, module_at main imports m = Some md /\ mo_builtin md = false /\
    gen_module (ctx_of imports bpath md) md = PyOk F /\ gen (ctx_of imports bpath md) x a = PyOk b /\ initial (g_ops b) (g_ops F) /\ initial (g_names b) (g_names F).
(** Where the code generated so far ends. *)
Definition ends (a : gst) : N := ops_size (g_ops a).

(** The machine is about to execute the instruction at [ip] of module [m], and
    its stack (what lies up to the stack pointer) is [l]. *)
Definition stands (m : option N) (ip : N) (l : list value) (s : state) : Prop :=
  s_ctx s = m /\ (exists f r, s_frames s = f :: r /\ f_ip f = ip) /\
  exists rest, s_vals s = l ++ rest /\ s_sp s = (zlen l - 1)%Z.
(** Apart from the stack and the position in the function that is running,
    nothing has changed. *)
Definition only_moved (s s' : state) : Prop :=
  s_ctx s' = s_ctx s /\ s_world s' = s_world s /\ s_globs s' = s_globs s /\ s_iglobs s' = s_iglobs s /\
  exists f f' r, s_frames s = f :: r /\ s_frames s' = f' :: r /\ f_name f' = f_name f /\ f_bp f' = f_bp f /\ f_mod f' = f_mod f.
(** Code of several expressions, one after the other from left to right. *)
Inductive in_turn (code : node -> gst -> gst -> Prop) : list node -> gst -> gst -> Prop :=
| it_nil a : in_turn code [] a a
| it_cons x xs a b c : code x a b -> in_turn code xs b c -> in_turn code (x :: xs) a c.

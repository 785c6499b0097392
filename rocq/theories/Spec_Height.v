(** Specification vocabulary for the height of the operand stack (C35). *)
From Verif Require Import Base Opcode Value Ast CodeGen VM Spec_Code.

(** How many operands an instruction takes from the stack, and how many it puts
    there. *)
Definition takes (o : opcode) (args : list N) : nat :=
  let n := N.to_nat (nth 0 args 0%N) in
  match o with
  | LOAD_CONST | LOAD_NAME | GET_GLOBAL | JUMP | GET_LOCAL | LOAD_REGISTO | LOAD_MODULE_DEF | HALT => 0
  | MOSTRA | OP_INVERT | OP_NOT | SET_GLOBAL | JUMP_IF_FALSE | SET_LOCAL | RETURN | OP_ISNULL | MATCH_VARIANT => 1
  | OP_ADD | OP_MINUS | OP_MUL | OP_DIV | OP_FLOORDIV | OP_MODULO | OP_AND | OP_OR | OP_EQ | OP_NOTEQ
  | OP_GREATER | OP_GREATEREQ | OP_LESS | OP_LESSEQ | OP_INDEX_GET | CAST | GET_PROP => 2
  | OP_INDEX_SET | SET_PROP => 3
  | BUILD_STR | BUILD_VEC => n
  | CALL_FUNCTION | BUILD_VARIANT | BIND_MATCH_ARGS => n + 1
  | BUILD_OBJ => 2 * n + 1
  | OP_UNWRAP => if Nat.eqb n 1 then 2 else 1
  end.
Definition gives (o : opcode) (args : list N) : nat :=
  match o with
  | MOSTRA | SET_GLOBAL | SET_LOCAL | JUMP | JUMP_IF_FALSE | RETURN | HALT | OP_INDEX_SET | SET_PROP | BIND_MATCH_ARGS => 0
  | CAST => if Nat.leb (N.to_nat (nth 0 args 0%N)) 1 then 1 else 0
  | _ => 1
  end.
Definition after (o : opcode) (args : list N) (h : nat) : nat := h - takes o args + gives o args.
(** The instruction after it may be executed next (in the same function). *)
Definition falls (o : opcode) : bool := match o with JUMP | RETURN | HALT => false | _ => true end.

(** Each instruction of the code has one height: the operands it takes are there,
    and wherever it goes on -- to the next instruction or to the target of a
    jump -- the height is the one it leaves.  The code and each function start
    with nothing. *)
Definition height_map (code : bytes) (entries : list N) (l : list (N * opcode * list N)) (h : N -> nat) : Prop :=
  decodes code 0 l /\ h 0%N = 0 /\ (forall e, In e entries -> h e = 0) /\
  forall off o args, In (off, o, args) l ->
    takes o args <= h off /\
    (falls o = true -> h (off + op_size o)%N = after o args (h off)) /\
    (is_jump o = true -> exists t, args = [t] /\ h t = after o args (h off)).
Definition heights_ok (code : bytes) (entries : list N) : Prop := exists l h, height_map code entries l h.

(** ** Running inside one frame
    The instruction about to be executed, read as the VM reads it. *)
Definition fetches (P : program) (s : state) (o : opcode) (args : list N) : Prop :=
  exists f r m n, s_frames s = f :: r /\ get_module P (s_ctx s) = Some m /\
    vm_fetch (skipn (N.to_nat (f_ip f)) (m_code m)) = Some (o, args, n).
(** It calls a function written in the language (not a native one). *)
Definition enters (P : program) (s : state) : Prop :=
  exists args fn s', fetches P s CALL_FUNCTION args /\ op_pop s = Some (VFunc fn, s').
Definition leaves (P : program) (s : state) : Prop := fetches P s RETURN [].
(** The module running is the one the function on top belongs to.  (It need not
    be: that is C40_import_call_refuted.) *)
Definition at_home (s : state) : Prop := match s_frames s with f :: _ => s_ctx s = f_mod f | [] => False end.
Definition frame_bp (s : state) : Z := match s_frames s with f :: _ => f_bp f | [] => (-1)%Z end.
(** [stays E P s s']: an execution from [s] to [s'] that begins and ends in the
    same frame.  A call is there as a whole, from its first instruction to its
    return; the function called runs at home, and either it has parameters or
    local variables (the VM then drops everything it left), or it leaves its
    answer and nothing else. *)
Inductive stays (E : ext) (P : program) : state -> state -> Prop :=
| st_end s : stays E P s s
| st_step s s1 s2 : ~ enters P s -> ~ leaves P s -> step E P s = SNext s1 -> stays E P s1 s2 -> stays E P s s2
| st_call s s1 t s2 s3 : enters P s -> step E P s = SNext s1 -> at_home s1 -> stays E P s1 t -> leaves P t ->
    (0 <= frame_bp s1 \/ s_sp t = s_sp s1 + 1)%Z -> step E P t = SNext s2 -> stays E P s2 s3 -> stays E P s s3.

(** ** The programs considered *)
(** Expressions. *)
Fixpoint is_expr (x : node) : bool :=
  match x with
  | NConst _ _ _ _ | NVar _ _ _ _ | NAlvo _ _ | NPath _ _ _ => true
  | NUn _ _ e _ | NConv _ e _ | NGet _ e _ => is_expr e
  | NBin _ _ _ _ a b _ | NIndex _ a b => is_expr a && is_expr b
  | NCall _ CType f args _ => is_expr f && forallb (fun a => match a with NNamed _ _ e => is_expr e | _ => false end) args
  | NCall _ _ f args _ => is_expr f && forallb is_expr args
  | NFmt _ ps | NList _ ps => forallb is_expr ps
  | NUnwrap _ a d => is_expr a && match d with Some y => is_expr y | None => true end
  | _ => false
  end.
(** Statements other than expressions, as they may stand anywhere; [lp]: inside a
    loop of the same function.  At the top of a module or function a statement
    can be an expression (its value stays on the stack); inside another statement
    that is what C35_expression_statement_refuted is about. *)
Fixpoint is_stat (lp : bool) (x : node) {struct x} : bool :=
  let blk (lp : bool) (b : node) := match b with NBlock _ ch => forallb (is_stat lp) ch | _ => false end in
  let rhs (e : node) := match e with NAssign _ _ _ _ _ => is_stat lp e | _ => is_expr e end in
  match x with
  | NIndexSet _ a b c => is_expr a && is_expr b && is_expr c
  | NSet _ _ a _ b => is_expr a && is_expr b
  | NAssign _ _ _ e _ => rhs e
  | NVarDecl _ _ _ None => true
  | NVarDecl _ _ _ (Some i) => match i with NAssign _ _ _ _ _ => is_stat lp i | _ => false end
  | NSe _ c th els el =>
      is_expr c && blk lp th && forallb (fun e => match e with NSenaoSe _ c b => is_expr c && blk lp b | _ => false end) els &&
      match el with Some b => blk lp b | None => true end
  | NEnquanto _ c b => is_expr c && blk true b
  | NPara _ _ a b i c => is_expr a && is_expr b && match i with Some e => is_expr e | None => true end && blk lp c
  | NFunc _ _ _ _ b => match b with NBlock _ ch => forallb (fun y => is_stat false y || is_expr y) ch | _ => true end
  | NRet _ (Some e) => is_expr e
  | NMostra _ e => is_expr e
  | NLoopCtl _ _ => lp
  | NRet _ None | NRegisto _ _ _ | NUniao _ _ _ | NNoOp _ => true
  | _ => false
  end.
Definition plain_body (l : list node) : bool := forallb (fun y => is_stat false y || is_expr y) l.

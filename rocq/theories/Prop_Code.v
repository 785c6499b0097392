(** C03: jumps land on instructions.  C29: reported lines.  C39: code generation
    is local. *)
From Verif Require Import Base Bson Opcode Spec_Opcode Value Ast CodeGen VM Compile Sem SemProg Spec_Code Ex_Prog CodeFacts LineFacts GenTwin.

(** ** C03 *)
(** Whatever the modules contain: if compiling and loading succeed, the code of
    each module is a list of instructions that ends in HALT, each jump goes to
    an instruction of the list, and each function starts at one. *)
Theorem C03_jumps : forall builtins main imports P m vm,
  build builtins main imports = PyOk (Some P) -> get_module P m = Some vm ->
  code_ok (m_code vm) (map fn_start (m_funcs vm)).
Proof. exact jumps_ok. Qed.
Print Assumptions C03_jumps.
(** A program with a function, a loop, a counting loop and a conditional. *)
Example C03_jumps_case : match build emb_path prog1 [emb] with
  | PyOk (Some P) => List.length (m_code (p_main P)) = 171%nat /\ map fn_start (m_funcs (p_main P)) = [9%N]
  | _ => False end.
Proof. vm_compute. auto. Qed.

(** ** C29 *)
(** A statement written on one line [L], with the rest of its module on lines
    before and after it in source order: whenever one of its instructions fails
    (in any run, in any state), the innermost reported line is [L].  Missing:
    statements spread over several lines, [para] with an explicit step, pattern
    matching, and the lines reported for the callers. *)
Theorem C29_lines_partial : forall builtins main imports P m md L x,
  build builtins main imports = PyOk (Some P) -> module_at main imports m = Some md -> mo_builtin md = false ->
  inside L x (mo_body md) -> lines (Z.eqb L) x = true -> node_line x = Some L -> (0 < L < 2 ^ 63)%Z ->
  let C := ctx_of imports builtins md in
  exists F vm u v ops post,
    gen_module C md = PyOk F /\ get_module P m = Some vm /\ write_ops (g_labels F) (g_ops F) = PyOk (m_code vm) /\
    gen C x u = PyOk v /\ g_ops v = g_ops u ++ ops /\ g_ops F = g_ops v ++ post /\
    forall E pre i q s f r e tr s', ops = pre ++ i :: q ->
      s_ctx s = m -> s_frames s = f :: r -> f_ip f = ops_size (g_ops u ++ pre) ->
      step E P s = SErr e tr s' -> e <> ERecursion -> hd_error tr = Some (Z.to_N L, f_name f).
Proof. exact error_line. Qed.
Print Assumptions C29_lines_partial.
(** The body of the recursive function, the body of the counting loop and the
    last statement of [prog1] meet the hypotheses. *)
Ltac lines_ok := repeat first [constructor | reflexivity | discriminate | (intros; discriminate)].
Example C29_lines_case :
  inside 5 (NRet 5 (Some (bin 5 BMul (var 5 n_) (call 5 fat_ [bin 5 BSub (var 5 n_) (num 5 "1")])))) (mo_body prog1) /\
  inside 13 (NMostra 13 (bin 13 BMul (var 13 j_) (var 13 i_))) (mo_body prog1) /\
  inside 15 (NMostra 15 (bin 15 BFloorDiv (num 15 "10") (bin 15 BSub (var 15 i_) (num 15 "5")))) (mo_body prog1).
Proof.
  split; [|split].
  - apply (in_stmt 5 _ [] fat_decl); [lines_ok| |lines_ok]. apply in_func; [lia|]. apply (in_here 5 _ [_] []); lines_ok.
  - apply (in_stmt 13 _ [fat_decl; _; _] (NPara 12 _ _ _ _ _)); [lines_ok| |lines_ok]. apply in_para; [lia|lines_ok|lines_ok|]. apply (in_here 13 _ [] []); lines_ok.
  - apply (in_here 15 _ [_; _; _; _] []); lines_ok.
Qed.
(** With an explicit step in the heading the body's errors are reported on the
    heading's line (1 instead of 2). *)
Definition trace_of (o : option outcome) : option (errmsg * list (N * text)) :=
  match o with Some (Failed e tr _) => Some (e, tr) | _ => None end.
Theorem C29_step_refuted : checked prog_inc [emb] = true /\
  mo_body prog_inc = [NPara 1 (txt "j") (num 1 "0") (num 1 "3") (Some (num 1 "1")) (NBlock (scope_of [j_]) [NMostra 2 (bin 2 BFloorDiv (num 2 "10") (var 2 j_))])] /\
  trace_of (run_main prog_inc [emb] 100) = Some (EDivZero, [(1%N, txt "_inicio_")]).
Proof. vm_compute. auto. Qed.
Print Assumptions C29_step_refuted.
(** An error in a function of another module: the caller's line is looked up in
    that other module's table (0 instead of 4). *)
Theorem C29_caller_refuted : checked prog_lib [emb; lib_g] = true /\
  trace_of (run_main prog_lib [emb; lib_g] 100) = Some (EDivZero, [(2%N, txt "g"); (0%N, txt "_inicio_")]).
Proof. vm_compute. auto. Qed.
Print Assumptions C29_caller_refuted.

(** ** C39 *)
(** Two runs of the generator on the same tree, from states that agree on the
    tables, visible declarations and enclosing labels but may have emitted
    different code before, emit the same instructions. *)
Theorem C39_local : forall C x a a' b b', same_view a a' -> gen C x a = PyOk b -> gen C x a' = PyOk b' ->
  same_view b b' /\ exists new, g_ops b = g_ops a ++ new /\ g_ops b' = g_ops a' ++ new.
Proof. exact gen_local. Qed.
Print Assumptions C39_local.
(** Emitting more code keeps everything emitted or numbered before, and the
    labels that existed keep their positions. *)
Theorem C39_monotone : forall C x a b, gen C x a = PyOk b ->
  (exists t, g_ops b = g_ops a ++ t) /\ (exists t, g_consts b = g_consts a ++ t) /\ (exists t, g_names b = g_names a ++ t) /\
  (exists t, g_variants b = g_variants a ++ t) /\ (exists t, g_funcs b = g_funcs a ++ t) /\ (exists t, g_regs b = g_regs a ++ t) /\
  (forall i, (i < List.length (g_labels a))%nat -> nth_error (g_labels b) i = nth_error (g_labels a) i).
Proof. exact gen_grows. Qed.
Print Assumptions C39_monotone.
Example C39_case : match gen (mkCtx main_path [(emb_path, 0%N)] emb_path) fat_decl (enter init_gst (scope_of [fat_; i_])) with
  | PyOk b => (10 < List.length (g_ops b))%nat | _ => False end.
Proof. vm_compute. lia. Qed.

(** What compiled programs do when they run: C04, C05, C06, C27, C32, C33, C34,
    C35, C38, C40.  The reference is the interpreter of [Sem.v]; the words used
    here are in [Spec_Sem.v]. *)
From Verif Require Import Base Bson Float Opcode Value VM Ast CodeGen Compile Sem SemWf SemProg Spec_Sem SemFacts SimProg SimAt SimUse Ex_Prog.

(** ** Concrete cases *)
(** [prog2] is compiled, loaded and lies in the fragment. *)
Lemma checked_ready main imports : checked main imports = true -> exists P, ready emb_path main imports P.
Proof.
  unfold checked, built, ready. intros H. apply andb_prop in H as [H B]. apply andb_prop in H as [H1 H2].
  destruct (build emb_path main imports) as [[P|]|e]; try discriminate B. exists P. auto.
Qed.
Example prog2_ready : exists P, ready emb_path prog2 [emb] P.
Proof. apply checked_ready. vm_compute. reflexivity. Qed.
(** The [i]-th statement of the main module, reached by running the ones before
    it. *)
Definition imports_done (main : amodule) (imports : list amodule) : option cfg :=
  match run_modules e0 (senv_of main imports) 100 0 imports (mkCfg (mkWorld [] [] []) (fun _ _ => None) []) with Done _ c => Some c | _ => None end.
Definition reached (main : amodule) (imports : list amodule) (i : nat) : option cfg :=
  match imports_done main imports with
  | Some c0 =>
      match run_seq (ev e0 (senv_of main imports) (exec e0 (senv_of main imports) 100) None 1) (firstn i (mo_body main)) (start_globals c0 None []) with
      | Done ONorm c => Some c
      | _ => None
      end
  | None => None
  end.
Lemma reached_at main imports i x c : checked main imports = true -> reached main imports i = Some c -> nth_error (mo_body main) i = Some x ->
  exists P A a a' s0 n s j, ready emb_path main imports P /\ pl_m A = None /\ pl_callers A = [] /\ place_ok A /\
    placed emb_path main imports A false [] [x] a a' /\ main_start e0 P [] s0 /\ many e0 P n s0 s /\
    holds P (senv_of main imports) A [] (g_ip a) j c s.
Proof.
  intros CH R NX. destruct (checked_ready _ _ CH) as (P & HB & HO & HZ). unfold reached, imports_done in R.
  destruct (run_modules _ _ _ _ _ _) as [o0 c0|? ?| |] eqn:RM; try discriminate R.
  destruct (run_seq _ _ _) as [[| | | |] c1|? ?| |] eqn:RS; try discriminate R. apply some_inj in R. subst c1.
  apply nth_error_split in NX as (l1 & l2 & EQ & L). assert (F : firstn i (mo_body main) = l1) by (rewrite EQ, <- L, firstn_app, Nat.sub_diag, firstn_O, app_nil_r, firstn_all; reflexivity).
  rewrite F in RS. destruct (stmt_reach e0 emb_path main imports P HB HO HZ 100 [] l1 x l2 o0 c0 c EQ RM RS) as (A & a & a' & s0 & n & s & j & H1 & H2 & H3 & H4 & H5 & H6 & H7 & _).
  exists P, A, a, a', s0, n, s, j. repeat (split; [first [assumption|split; auto]|]). assumption.
Qed.
Lemma shown_at main imports i ln e c : checked main imports = true -> reached main imports i = Some c -> nth_error (mo_body main) i = Some (NMostra ln e) ->
  exists P A a a' s0 n s j, ready emb_path main imports P /\ pl_m A = None /\ pl_callers A = [] /\ place_ok A /\
    placed emb_path main imports A false [] [e] a a' /\ main_start e0 P [] s0 /\ many e0 P n s0 s /\
    holds P (senv_of main imports) A [] (g_ip a) j c s.
Proof.
  intros CH R NX. destruct (reached_at _ _ _ _ _ CH R NX) as (P & A & a & a' & s0 & n & s & j & H1 & H2 & H3 & H4 & H5 & H6 & H7 & H8).
  destruct (placed_mostra emb_path main imports A _ _ _ _ _ _ _ H5) as (a1 & a2 & PL & IP). rewrite <- IP in H8.
  exists P, A, a1, a2, s0, n, s, j. repeat (split; [assumption|]). assumption.
Qed.
Definition is_some {T} (o : option T) : bool := match o with Some _ => true | None => false end.
Lemma reached_some main imports i : is_some (reached main imports i) = true -> exists c, reached main imports i = Some c.
Proof. destruct (reached main imports i); [eauto|discriminate]. Qed.

(** ** C04 *)
(** The code of an expression, anywhere in a program and with anything on the
    stack below: the machine pushes the value the interpreter gives, or stops
    with the error the interpreter gives; local variables are as before; and
    if the expression calls no function nothing observable has changed.
    Missing: [iguala] used as an expression, pieces of f-strings that look like
    numbers (C16), and cases where the interpreter has no meaning ([Stuck]:
    ill-typed operands, a global variable read before it was given a value). *)
Theorem C04_expression_partial : forall E builtins main imports P A lp g x a a' fuel operands c s,
  ready builtins main imports P -> place_ok A -> placed builtins main imports A lp g [x] a a' -> is_stmt x = false ->
  holds P (senv_of main imports) A g (g_ip a) operands c s ->
  runs E P (Datatypes.S fuel) (means E main imports A fuel x c) s (fun o c' s' =>
    exists v, o = OVal v /\ holds P (senv_of main imports) A g (g_ip a') (operands ++ [v]) c' s' /\
      k_l c' = k_l c /\ (pure x = true -> unchanged c c')).
Proof. intros E b main imports P A lp g x a a' fuel st c s (HB & HO & HZ) PO PL NS H. exact (expr_use E b main imports P HB HO HZ A PO lp g x a a' fuel st c s PL NS H). Qed.
Print Assumptions C04_expression_partial.
(** Every statement and every shown expression of the main module meets the
    hypotheses when the machine gets there. *)
Theorem C04_reach : forall E builtins main imports P fuel stdin pre ln e post o0 c0 c,
  ready builtins main imports P -> mo_body main = pre ++ NMostra ln e :: post ->
  run_modules E (senv_of main imports) fuel 0 imports (mkCfg (mkWorld [] [] stdin) (fun _ _ => None) []) = Done o0 c0 ->
  run_seq (ev E (senv_of main imports) (exec E (senv_of main imports) fuel) None 1) pre (start_globals c0 None []) = Done ONorm c ->
  exists A a a' s0 n s j, pl_m A = None /\ pl_callers A = [] /\ place_ok A /\ placed builtins main imports A false [] [e] a a' /\
    main_start E P stdin s0 /\ many E P n s0 s /\ holds P (senv_of main imports) A [] (g_ip a) j c s /\ (lclean pre = true -> j = []).
Proof. intros E b main imports P fuel stdin pre ln e post o0 c0 c (HB & HO & HZ). exact (shown_reach E b main imports P HB HO HZ fuel stdin pre ln e post o0 c0 c). Qed.
Print Assumptions C04_reach.
Example C04_case : exists c P A a a' s0 n s j, ready emb_path prog1 [emb] P /\ pl_m A = None /\ pl_callers A = [] /\ place_ok A /\
  placed emb_path prog1 [emb] A false [] [bin 15 BFloorDiv (num 15 "10") (bin 15 BSub (var 15 i_) (num 15 "5"))] a a' /\ main_start e0 P [] s0 /\ many e0 P n s0 s /\
  holds P (senv_of prog1 [emb]) A [] (g_ip a) j c s.
Proof. destruct (reached_some prog1 [emb] 4) as [c R]; [vm_compute; reflexivity|]. exists c. exact (shown_at prog1 [emb] 4 15 _ c eq_refl R eq_refl). Qed.

(** ** C05 *)
(** Whole programs with their imported modules: same output, same global
    variables at the end, or the same error after the same output; a program
    that does not end does not end on the machine either.  Missing: [iguala],
    nested functions, [quebra]/[continua] inside [para] (false: C33), calls from
    the top level of imported modules (false: C40), unused values of function
    calls in functions without variables (false: C06), and [Stuck]. *)
Theorem C05_program_partial : forall E builtins main imports P fuel stdin, ready builtins main imports P ->
  agrees fuel (exec_program E fuel main imports stdin) (fun k => run E P k stdin).
Proof. intros E b main imports P fuel stdin (HB & HO & HZ). exact (program_sim E b main imports P HB HO HZ fuel stdin). Qed.
Print Assumptions C05_program_partial.
Example C05_case_ends : meant prog2 [emb] 100 = Some (txt "verdadeiro" ++ nl ++ txt "<6>" ++ nl ++ txt "0" ++ nl ++ txt "1" ++ nl ++ txt "2" ++ nl ++ txt "2" ++ nl) /\
  checked prog2 [emb] = true.
Proof. vm_compute. auto. Qed.
Example C05_case_fails : match exec_program e0 100 prog1 [emb] [] with Fail EDivZero w => List.length (w_out w) = 18%nat | _ => False end /\ checked prog1 [emb] = true.
Proof. vm_compute. auto. Qed.

(** ** C06 *)
(** A call, at any depth below the limit, from a function or the main module:
    the arguments are evaluated in order, the body runs with its parameters
    bound to them and nothing else, and afterwards the caller's operands and
    variables are as they were with the returned value on top ([falso] if the
    body ends without [retorna]).  Missing: functions that leave the fragment,
    in particular those without variables that leave values behind. *)
Theorem C06_call_partial : forall E builtins main imports P A lp g ln l name o args a a' fuel operands c s vs c1 mm fd r v c2,
  ready builtins main imports P -> place_ok A ->
  placed builtins main imports A lp g [NCall ln CFunction (NVar l name o false) args false] a a' ->
  holds P (senv_of main imports) A g (g_ip a) operands c s ->
  evals (means E main imports A fuel) args c vs c1 ->
  call_target (senv_of main imports) c1 (pl_m A) name = Some (TUser mm fd) ->
  List.length vs = List.length (fd_params fd) -> (List.length (pl_callers A) < 999)%nat ->
  exec E (senv_of main imports) fuel (Body (fd_body fd)) mm (Datatypes.S (Datatypes.S (List.length (pl_callers A))))
    (mkCfg (k_w c1) (k_g c1) [List.combine (fd_params fd) vs]) = Done r c2 ->
  (r = ORet v \/ r = ONorm /\ v = VBool false) ->
  exists k s', many E P k s s' /\ holds P (senv_of main imports) A g (g_ip a') (operands ++ [v]) (mkCfg (k_w c2) (k_g c2) (k_l c)) s'.
Proof.
  intros E b main imports P A lp g ln l n o args a a' fuel st c s vs c1 mm fd r v c2 (HB & HO & HZ) PO PL H EV CT LV LC EX R.
  exact (call_use E b main imports P HB HO HZ A PO lp g ln l n o args a a' fuel st c s vs c1 mm fd r v c2 PL H EV CT LV LC EX R).
Qed.
Print Assumptions C06_call_partial.
(** At the limit the call fails, after the arguments have been evaluated. *)
Theorem C06_limit_partial : forall E builtins main imports P A lp g ln l name o args a a' fuel operands c s vs c1 mm fd,
  ready builtins main imports P -> place_ok A ->
  placed builtins main imports A lp g [NCall ln CFunction (NVar l name o false) args false] a a' ->
  holds P (senv_of main imports) A g (g_ip a) operands c s ->
  evals (means E main imports A fuel) args c vs c1 ->
  call_target (senv_of main imports) c1 (pl_m A) name = Some (TUser mm fd) ->
  List.length vs = List.length (fd_params fd) -> (999 <= List.length (pl_callers A))%nat ->
  exists k s' tr s2, many E P k s s' /\ step E P s' = SErr ERecursion tr s2 /\ s_world s2 = k_w c1.
Proof.
  intros E b main imports P A lp g ln l n o args a a' fuel st c s vs c1 mm fd (HB & HO & HZ) PO PL H EV CT LV LC.
  exact (call_limit E b main imports P HB HO HZ A PO lp g ln l n o args a a' fuel st c s vs c1 mm fd PL H EV CT LV LC).
Qed.
Print Assumptions C06_limit_partial.
(** [mostra soma(2, 3)] after the declaration of [soma]: all hypotheses hold,
    and the value is 5. *)
Definition prog_call : amodule := program_of [soma_]
  [ NFunc 1 soma_ [(txt "a", pa_); (txt "b", pb_)] false (NBlock (scope_of [pa_; pb_; t_])
      [decl 2 t_ "int" (bin 2 BAdd (var 2 pa_) (var 2 pb_)); NRet 3 (Some (var 3 t_))]);
    NMostra 4 (call 4 soma_ [num 4 "2"; num 4 "3"]) ].
Example C06_case : exists c P A a a' s0 n s j fd c2, ready emb_path prog_call [emb] P /\ place_ok A /\ pl_callers A = [] /\
  placed emb_path prog_call [emb] A false [] [call 4 soma_ [num 4 "2"; num 4 "3"]] a a' /\ main_start e0 P [] s0 /\ many e0 P n s0 s /\
  holds P (senv_of prog_call [emb]) A [] (g_ip a) j c s /\
  evals (means e0 prog_call [emb] A 10) [num 4 "2"; num 4 "3"] c [VInt 2; VInt 3] c /\
  call_target (senv_of prog_call [emb]) c (pl_m A) (txt "soma") = Some (TUser None fd) /\
  List.length (fd_params fd) = 2%nat /\
  exec e0 (senv_of prog_call [emb]) 10 (Body (fd_body fd)) None 2 (mkCfg (k_w c) (k_g c) [List.combine (fd_params fd) [VInt 2; VInt 3]]) = Done (ORet (VInt 5)) c2.
Proof.
  destruct (reached_some prog_call [emb] 1) as [c R]; [vm_compute; reflexivity|].
  destruct (shown_at prog_call [emb] 1 4 _ c eq_refl R eq_refl) as (P & A & a & a' & s0 & n & s & j & H1 & H2 & H3 & H4 & H5 & H6 & H7 & H8).
  assert (exists fd c2, call_target (senv_of prog_call [emb]) c None (txt "soma") = Some (TUser None fd) /\ List.length (fd_params fd) = 2%nat /\
    exec e0 (senv_of prog_call [emb]) 10 (Body (fd_body fd)) None 2 (mkCfg (k_w c) (k_g c) [List.combine (fd_params fd) [VInt 2; VInt 3]]) = Done (ORet (VInt 5)) c2) as (fd & c2 & X1 & X2 & X3).
  { vm_compute in R. apply some_inj in R. subst c. do 2 eexists. repeat split. }
  exists c, P, A, a, a', s0, n, s, j, fd, c2. rewrite H2. repeat (split; [assumption|]). split; [|auto].
  econstructor; [reflexivity|]. econstructor; [reflexivity|]. constructor.
Qed.
(** Without the restriction it is false: a function without variables that
    leaves an unused value behind destroys an operand of its caller, so
    [1 + g()] is 102 instead of 3. *)
Theorem C06_operands_refuted : out_main prog_junk [emb] 200 = Some (txt "102" ++ nl) /\ meant prog_junk [emb] 200 = Some (txt "3" ++ nl).
Proof. vm_compute. auto. Qed.
Print Assumptions C06_operands_refuted.

(** ** C27 *)
(** [x == nulo], [nulo == x], [x != nulo] and [nulo != x]. *)
Theorem C27_null_test_partial : forall E builtins main imports P A lp g ln neg x nl nr ln2 a a' fuel operands c s v c1,
  ready builtins main imports P -> place_ok A -> (nl, nr) = (true, false) \/ (nl, nr) = (false, true) ->
  let nulo := NConst ln2 KNulo (txt "nulo") false in
  let e := NBin ln (if neg : bool then BNe else BEq) nl nr (if nl then nulo else x) (if nl then x else nulo) false in
  placed builtins main imports A lp g [e] a a' -> holds P (senv_of main imports) A g (g_ip a) operands c s ->
  means E main imports A fuel x c = Done (OVal v) c1 ->
  exists k s', many E P k s s' /\ holds P (senv_of main imports) A g (g_ip a') (operands ++ [VBool (xorb neg (is_none v))]) c1 s'.
Proof. intros E b main imports P A lp g ln neg x nl nr ln2 a a' fuel st c s v c1 (HB & HO & HZ) PO. exact (null_use E b main imports P HB HO HZ A PO lp g ln neg x nl nr ln2 a a' fuel st c s v c1). Qed.
Print Assumptions C27_null_test_partial.
(** [x.valor]. *)
Theorem C27_unwrap_partial : forall E builtins main imports P A lp g ln x a a' fuel operands c s v c1,
  ready builtins main imports P -> place_ok A -> placed builtins main imports A lp g [NUnwrap ln x None] a a' ->
  holds P (senv_of main imports) A g (g_ip a) operands c s -> means E main imports A fuel x c = Done (OVal v) c1 ->
  if is_none v then exists k s' tr s2, many E P k s s' /\ step E P s' = SErr ENull tr s2 /\ s_world s2 = k_w c1
  else exists k s', many E P k s s' /\ holds P (senv_of main imports) A g (g_ip a') (operands ++ [v]) c1 s'.
Proof. intros E b main imports P A lp g ln x a a' fuel st c s v c1 (HB & HO & HZ) PO. exact (unwrap_use E b main imports P HB HO HZ A PO lp g ln x a a' fuel st c s v c1). Qed.
Print Assumptions C27_unwrap_partial.
(** [x.valor_ou(d)]; the default is evaluated in any case. *)
Theorem C27_unwrap_or_partial : forall E builtins main imports P A lp g ln x d a a' fuel operands c s v c1 w c2,
  ready builtins main imports P -> place_ok A -> placed builtins main imports A lp g [NUnwrap ln x (Some d)] a a' ->
  holds P (senv_of main imports) A g (g_ip a) operands c s -> means E main imports A fuel x c = Done (OVal v) c1 ->
  means E main imports A fuel d c1 = Done (OVal w) c2 ->
  exists k s', many E P k s s' /\ holds P (senv_of main imports) A g (g_ip a') (operands ++ [if is_none v then w else v]) c2 s'.
Proof. intros E b main imports P A lp g ln x d a a' fuel st c s v c1 w c2 (HB & HO & HZ) PO. exact (unwrap_or_use E b main imports P HB HO HZ A PO lp g ln x d a a' fuel st c s v c1 w c2). Qed.
Print Assumptions C27_unwrap_or_partial.
(** <<
1 x: int? = nulo
2 mostra x == nulo
3 mostra x.valor_ou(7)
4 mostra x.valor
>> *)
Definition prog_opt : amodule := program_of [x_]
  [ decl 1 x_ "int" (NConst 1 KNulo (txt "nulo") false);
    NMostra 2 (NBin 2 BEq false true (var 2 x_) (NConst 2 KNulo (txt "nulo") false) false);
    NMostra 3 (NUnwrap 3 (var 3 x_) (Some (num 3 "7")));
    NMostra 4 (NUnwrap 4 (var 4 x_) None) ].
Example C27_case : forall i e, nth_error (mo_body prog_opt) i = Some e -> (1 <= i)%nat ->
  exists ln x c P A a a' s0 n s j, e = NMostra ln x /\ ready emb_path prog_opt [emb] P /\ place_ok A /\
  placed emb_path prog_opt [emb] A false [] [x] a a' /\ main_start e0 P [] s0 /\ many e0 P n s0 s /\
  holds P (senv_of prog_opt [emb]) A [] (g_ip a) j c s /\ means e0 prog_opt [emb] A 10 (var 2 x_) c = Done (OVal VNone) c.
Proof.
  intros i e N L. assert (exists ln x, e = NMostra ln x) as (ln & x & ->) by (do 4 (destruct i as [|i]; [first [lia|injection N as <-; eauto]|]); destruct i; discriminate N).
  destruct (reached_some prog_opt [emb] i) as [c R].
  { do 4 (destruct i as [|i]; [vm_compute; reflexivity|]). destruct i; discriminate N. }
  destruct (shown_at prog_opt [emb] i ln x c eq_refl R N) as (P & A & a & a' & s0 & n & s & j & H1 & H2 & H3 & H4 & H5 & H6 & H7 & H8).
  exists ln, x, c, P, A, a, a', s0, n, s, j. repeat (split; [solve [reflexivity|assumption]|]). unfold means. rewrite H2.
  do 4 (destruct i as [|i]; [first [lia|vm_compute in R; apply some_inj in R; subst c; reflexivity]|]). destruct i; discriminate N.
Qed.
Example C27_case_runs : checked prog_opt [emb] = true /\ out_main prog_opt [emb] 100 = Some (txt "verdadeiro" ++ nl ++ txt "7" ++ nl) /\
  match run_main prog_opt [emb] 100 with Some (Failed ENull _ _) => True | _ => False end.
Proof. vm_compute. auto. Qed.

(** ** C32 *)
(** Missing: a literal piece that looks like a number or is empty is changed or
    rejected by the compiler (see C16). *)
Theorem C32_fstring_partial : forall E builtins main imports P A lp g ln parts a a' fuel operands c s vs c1 ts,
  ready builtins main imports P -> place_ok A -> placed builtins main imports A lp g [NFmt ln parts] a a' ->
  holds P (senv_of main imports) A g (g_ip a) operands c s ->
  evals (means E main imports A fuel) parts c vs c1 -> map (show E (w_heap (k_w c1))) vs = map Some ts ->
  exists k s', many E P k s s' /\ holds P (senv_of main imports) A g (g_ip a') (operands ++ [VStr (List.concat ts)]) c1 s'.
Proof. intros E b main imports P A lp g ln ps a a' fuel st c s vs c1 ts (HB & HO & HZ) PO. exact (fmt_use E b main imports P HB HO HZ A PO lp g ln ps a a' fuel st c s vs c1 ts). Qed.
Print Assumptions C32_fstring_partial.
(** [f"<{...}>"] in [prog2]. *)
Definition fmt_parts : list node := [NConst 7 KPart (txt "<") false; bin 7 BAdd (num 7 "1") (call 7 soma_ [num 7 "2"; num 7 "3"]); NConst 7 KPart (txt ">") false].
Example C32_case : exists c P A a a' s0 n s j, ready emb_path prog2 [emb] P /\ place_ok A /\
  placed emb_path prog2 [emb] A false [] [NFmt 7 fmt_parts] a a' /\ main_start e0 P [] s0 /\ many e0 P n s0 s /\
  holds P (senv_of prog2 [emb]) A [] (g_ip a) j c s /\
  exists c', evals (means e0 prog2 [emb] A 10) fmt_parts c [VStr (txt "<"); VInt 6; VStr (txt ">")] c' /\
    map (show e0 (w_heap (k_w c'))) [VStr (txt "<"); VInt 6; VStr (txt ">")] = map Some [txt "<"; txt "6"; txt ">"].
Proof.
  destruct (reached_some prog2 [emb] 3) as [c R]; [vm_compute; reflexivity|].
  destruct (shown_at prog2 [emb] 3 7 _ c eq_refl R eq_refl) as (P & A & a & a' & s0 & n & s & j & H1 & H2 & H3 & H4 & H5 & H6 & H7 & H8).
  exists c, P, A, a, a', s0, n, s, j. repeat (split; [assumption|]). unfold means. rewrite H2, H3. vm_compute in R. apply some_inj in R. subst c. eexists. split.
  - econstructor; [reflexivity|]. econstructor; [reflexivity|]. econstructor; [reflexivity|]. constructor.
  - reflexivity.
Qed.

(** ** C33 *)
(** [quebra] in the body of an [enquanto]: whatever branches it is in, the
    machine gets to the end of that loop. *)
Theorem C33_break_partial : forall E builtins main imports P A lp g ln cnd body a a' fuel operands c s c1 c2,
  ready builtins main imports P -> place_ok A -> placed builtins main imports A lp g [NEnquanto ln cnd body] a a' ->
  holds P (senv_of main imports) A g (g_ip a) operands c s ->
  means E main imports A fuel cnd c = Done (OVal (VBool true)) c1 -> run_block (means E main imports A fuel) body c1 = Done OBrk c2 ->
  exists k s' j, many E P k s s' /\ (clean body = true -> j = []) /\ holds P (senv_of main imports) A g (g_ip a') (operands ++ j) c2 s'.
Proof. intros E b main imports P A lp g ln cnd blk a a' fuel st c s c1 c2 (HB & HO & HZ) PO. exact (break_use E b main imports P HB HO HZ A PO lp g ln cnd blk a a' fuel st c s c1 c2). Qed.
Print Assumptions C33_break_partial.
(** [continua]: the loop goes on from the variables as they are then. *)
Theorem C33_continue_partial : forall E builtins main imports P A lp g ln cnd body a a' fuel operands c s c1 c2 c3,
  ready builtins main imports P -> place_ok A -> placed builtins main imports A lp g [NEnquanto ln cnd body] a a' ->
  holds P (senv_of main imports) A g (g_ip a) operands c s ->
  means E main imports A fuel cnd c = Done (OVal (VBool true)) c1 -> run_block (means E main imports A fuel) body c1 = Done OCont c2 ->
  means E main imports A fuel (NEnquanto ln cnd body) c2 = Done ONorm c3 ->
  exists k s' j, many E P k s s' /\ (clean body = true -> j = []) /\ holds P (senv_of main imports) A g (g_ip a') (operands ++ j) c3 s'.
Proof. intros E b main imports P A lp g ln cnd blk a a' fuel st c s c1 c2 c3 (HB & HO & HZ) PO. exact (continue_use E b main imports P HB HO HZ A PO lp g ln cnd blk a a' fuel st c s c1 c2 c3). Qed.
Print Assumptions C33_continue_partial.
(** In the interpreter no [quebra] or [continua] gets out of a loop. *)
Theorem C33_innermost : forall E S fuel m depth x c o c',
  match x with NEnquanto _ _ _ | NPara _ _ _ _ _ _ => True | _ => False end ->
  ev E S (exec E S fuel) m depth x c = Done o c' -> o <> OBrk /\ o <> OCont.
Proof. intros E S fuel m d x c o c' HX H. pose proof (loop_nojump _ _ _ _ _ _ _ _ _ HX H) as X. split; intros ->; discriminate X. Qed.
Print Assumptions C33_innermost.
(** The loop of [prog2] in its last round. *)
Definition prog_last : amodule := program_of [i_] [decl 11 i_ "int" (num 11 "2"); 
    NEnquanto 12 (NConst 12 KBool (txt "verdadeiro") false)
      (NBlock [] [NSe 13 (bin 13 BGe (var 13 i_) (num 13 "2")) (NBlock [] [NLoopCtl 14 true]) [] None;
                  set 16 i_ (bin 16 BAdd (var 16 i_) (num 16 "1"))])].
Example C33_case : exists c P A a a' s0 n s j cnd body, ready emb_path prog_last [emb] P /\ place_ok A /\
  placed emb_path prog_last [emb] A false [] [NEnquanto 12 cnd body] a a' /\ main_start e0 P [] s0 /\ many e0 P n s0 s /\
  holds P (senv_of prog_last [emb]) A [] (g_ip a) j c s /\
  means e0 prog_last [emb] A 10 cnd c = Done (OVal (VBool true)) c /\ run_block (means e0 prog_last [emb] A 10) body c = Done OBrk c.
Proof.
  destruct (reached_some prog_last [emb] 1) as [c R]; [vm_compute; reflexivity|].
  destruct (reached_at prog_last [emb] 1 _ c eq_refl R eq_refl) as (P & A & a & a' & s0 & n & s & j & H1 & H2 & H3 & H4 & H5 & H6 & H7 & H8).
  do 11 eexists. split; [exact H1|]. split; [exact H4|]. split; [exact H5|]. split; [exact H6|]. split; [exact H7|]. split; [exact H8|].
  unfold means. rewrite H2. vm_compute in R. apply some_inj in R. subst c. split; reflexivity.
Qed.
(** Inside [para] the statement is false: [quebra] leaves the enclosing
    [enquanto] instead (the program prints nothing instead of 0 and 1). *)
Theorem C33_para_refuted : out_main prog_brk [emb] 500 = Some [] /\ meant prog_brk [emb] 500 = Some (txt "0" ++ nl ++ txt "1" ++ nl).
Proof. vm_compute. auto. Qed.
Print Assumptions C33_para_refuted.

(** ** C34 *)
(** A counting loop whose rounds are [zs] (each round evaluates the bound and
    the step and adds the step to the counter): the machine runs exactly these
    rounds, and the counter is gone afterwards.  Missing: [quebra]/[continua]
    (false: C33) and [retorna] in the body, errors. *)
Theorem C34_rounds_partial : forall E builtins main imports P A lp g ln i start stop step body a a' fuel operands c s v c0 zs c1,
  ready builtins main imports P -> place_ok A -> placed builtins main imports A lp g [NPara ln i start stop step body] a a' ->
  holds P (senv_of main imports) A g (g_ip a) operands c s ->
  means E main imports A fuel start c = Done (OVal v) c0 ->
  rounds (senv_of main imports) (means E main imports A fuel) (pl_m A) i stop step body (push_scope c0 [(i, v)]) zs c1 ->
  exists k s' j, many E P k s s' /\ (clean body = true -> j = []) /\ holds P (senv_of main imports) A g (g_ip a') (operands ++ j) (pop_scope c1) s'.
Proof. intros E b main imports P A lp g ln n start stop inc blk a a' fuel st c s i c0 zs c1 (HB & HO & HZ) PO. exact (para_use E b main imports P HB HO HZ A PO lp g ln n start stop inc blk a a' fuel st c s i c0 zs c1). Qed.
Print Assumptions C34_rounds_partial.
(** If the bound and the step are always the same and the body leaves the
    counter alone, the rounds are those of the range. *)
Theorem C34_range : forall S f m i stop step body b k, (0 < k)%Z ->
  (forall c, f stop c = Done (OVal (VInt b)) c) ->
  match step with Some e => forall c, f e c = Done (OVal (VInt k)) c | None => k = 1%Z end ->
  (forall c c2 u, run_block f body c = Done ONorm c2 -> look (k_l c) i = Some u -> look (k_l c2) i = Some u) ->
  forall c zs c' a, rounds S f m i stop step body c zs c' -> look (k_l c) i = Some (VInt a) -> zs = range a b k.
Proof. exact rounds_range. Qed.
Print Assumptions C34_range.
Example C34_range_values : range 2 11 3 = [2; 5; 8]%Z /\ range 3 3 1 = [] /\ range 5 2 2 = [] /\ range (-4) 1 2 = [-4; -2; 0]%Z.
Proof. vm_compute. auto. Qed.
(** [para j de 0..3 faz mostra j fim]. *)
Definition para_body : node := NBlock (scope_of [j_]) [NMostra 9 (var 9 j_)].
Definition prog_para : amodule := program_of [] [NPara 8 (txt "j") (num 8 "0") (num 8 "3") None para_body].
Example C34_case : exists c P A a a' s0 n s j, ready emb_path prog_para [emb] P /\ place_ok A /\
  placed emb_path prog_para [emb] A false [] [NPara 8 (txt "j") (num 8 "0") (num 8 "3") None para_body] a a' /\ main_start e0 P [] s0 /\ many e0 P n s0 s /\
  holds P (senv_of prog_para [emb]) A [] (g_ip a) j c s /\
  means e0 prog_para [emb] A 10 (num 8 "0") c = Done (OVal (VInt 0)) c /\
  exists c1, rounds (senv_of prog_para [emb]) (means e0 prog_para [emb] A 10) (pl_m A) (txt "j") (num 8 "3") None para_body
    (push_scope c [(txt "j", VInt 0)]) [0; 1; 2]%Z c1.
Proof.
  destruct (reached_some prog_para [emb] 0) as [c R]; [vm_compute; reflexivity|].
  destruct (reached_at prog_para [emb] 0 _ c eq_refl R eq_refl) as (P & A & a & a' & s0 & n & s & j & H1 & H2 & H3 & H4 & H5 & H6 & H7 & H8).
  exists c, P, A, a, a', s0, n, s, j. repeat (split; [assumption|]). clear - H2 H3. unfold means. rewrite H2, H3. split; [reflexivity|]. destruct c as [[h o i] g l]. unfold push_scope, set_l. cbn [k_w k_g k_l].
  eexists. do 3 (eapply rounds_go; [reflexivity|reflexivity|reflexivity|reflexivity|split; reflexivity|reflexivity|split; [vm_compute; discriminate|reflexivity]|reflexivity|]).
  eapply rounds_end; [reflexivity|reflexivity|vm_compute; discriminate].
Qed.
Example C34_case_body : forall S E n d c c2 u, run_block (ev E S (exec E S n) None d) para_body c = Done ONorm c2 ->
  look (k_l c) (txt "j") = Some u -> look (k_l c2) (txt "j") = Some u.
Proof.
  intros S E n d c c2 u H L. unfold para_body, run_block in H. cbn [run_seq ev promote] in H. unfold popr in H. apply bind_done in H as (o & c1 & H & H2). apply bind_done in H as (o2 & c3 & H & H3).
  apply bindv_done in H as (v & c4 & H & H4). change (read_var S (push_scope c []) None (txt "j") = Done (OVal v) c4) in H. unfold read_var in H. destruct (var_value S _ _ _) eqn:V; try discriminate H. injection H as <- <-.
  destruct (show _ _ _); try discriminate H4. injection H4 as <- <-. injection H3 as <- <-. injection H2 as <-. exact L.
Qed.

(** ** C35 *)
(** After statements that leave no value behind the stack is as high as before
    them, whatever happened in between.  Missing: expressions used as statements
    leave their value on the stack (false: below); that the height at a point
    inside a statement is fixed. *)
Theorem C35_balanced_partial : forall E builtins main imports P A lp g l a a' fuel operands c s,
  ready builtins main imports P -> place_ok A -> placed builtins main imports A lp g l a a' -> lclean l = true ->
  holds P (senv_of main imports) A g (g_ip a) operands c s ->
  runs E P (Datatypes.S fuel) (run_seq (means E main imports A fuel) l c) s (fun o c' s' =>
    o = ONorm -> holds P (senv_of main imports) A (vars_after (g_scopes a) g l) (g_ip a') operands c' s').
Proof.
  intros E b main imports P A lp g l a a' fuel st c s (HB & HO & HZ) PO PL CL H. pose proof (stmts_at E b main imports P HB HO HZ A lp g l a a' fuel st c s PO PL H) as X.
  unfold means. destruct (run_seq _ _ _) as [o c'|e w| |]; cbn [runs] in *; auto. destruct X as (n & s' & M & Y). exists n, s'. split; [exact M|]. intros O. destruct (Y O) as (j & J & HH).
  rewrite (J CL), app_nil_r in HH. exact HH.
Qed.
Print Assumptions C35_balanced_partial.
(** Then the height itself is the same. *)
Theorem C35_height : forall P S A g g' ip ip' operands c c' s s',
  holds P S A g ip operands c s -> holds P S A g' ip' operands c' s' -> s_sp s = s_sp s'.
Proof.
  intros P S A g g' ip ip' st c c' s s' H H'. destruct (ho_stack _ _ _ _ _ _ _ _ H) as (l1 & r1 & L1 & _ & -> & _), (ho_stack _ _ _ _ _ _ _ _ H') as (l2 & r2 & L2 & _ & -> & _).
  unfold zlen. rewrite !app_length. lia.
Qed.
Print Assumptions C35_height.
Example C35_case : lclean (mo_body prog1) = true /\ lclean (mo_body prog2) = true /\ checked prog1 [emb] = true.
Proof. vm_compute. auto. Qed.
(** A loop with an expression as a statement grows the stack in each round: at
    its condition (instruction 6) the heights are 255, 256, 257, 258. *)
Theorem C35_expression_statement_refuted : checked prog_grow [emb] = true /\ heights_at prog_grow 6 200 = [255; 256; 257; 258]%Z.
Proof. vm_compute. auto. Qed.
Print Assumptions C35_expression_statement_refuted.

(** ** C38 *)
(** Where a local variable is visible, the interpreter has a value for it and
    the machine reads that value.  Missing: global variables (false: below). *)
Theorem C38_local_partial : forall E builtins main imports P A lp g ln name o y a a' operands c s,
  ready builtins main imports P -> place_ok A -> placed builtins main imports A lp g [NVar ln name o false] a a' ->
  glook g name = Some y -> holds P (senv_of main imports) A g (g_ip a) operands c s ->
  exists v, look (k_l c) name = Some v /\
    exists k s', many E P k s s' /\ holds P (senv_of main imports) A g (g_ip a') (operands ++ [v]) c s'.
Proof. intros E b main imports P A lp g ln n o y a a' st c s (HB & HO & HZ) PO. exact (local_use E b main imports P HB HO HZ A PO lp g ln n o y a a' st c s). Qed.
Print Assumptions C38_local_partial.
(** [a: int = 1 + a]: the read of a global variable in its own declaration finds
    nothing and the machine crashes. *)
Theorem C38_global_refuted : checked prog_uninit [emb] = true /\ match run_main prog_uninit [emb] 100 with Some Crashed => True | _ => False end.
Proof. vm_compute. auto. Qed.
Print Assumptions C38_global_refuted.

(** ** C40 *)
(** A call of a function of any module: the body runs with the global variables
    of its own module [mm]; afterwards the machine is back in the caller's
    module.  Missing: calls made at the top level of an imported module (false:
    below). *)
Theorem C40_modules_partial : forall E builtins main imports P A lp g ln l name o args a a' fuel operands c s vs c1 mm fd r v c2,
  ready builtins main imports P -> place_ok A ->
  placed builtins main imports A lp g [NCall ln CFunction (NVar l name o false) args false] a a' ->
  holds P (senv_of main imports) A g (g_ip a) operands c s ->
  evals (means E main imports A fuel) args c vs c1 ->
  call_target (senv_of main imports) c1 (pl_m A) name = Some (TUser mm fd) ->
  List.length vs = List.length (fd_params fd) -> (List.length (pl_callers A) < 999)%nat ->
  exec E (senv_of main imports) fuel (Body (fd_body fd)) mm (Datatypes.S (Datatypes.S (List.length (pl_callers A))))
    (mkCfg (k_w c1) (k_g c1) [List.combine (fd_params fd) vs]) = Done r c2 ->
  (r = ORet v \/ r = ONorm /\ v = VBool false) ->
  exists k s', many E P k s s' /\ s_ctx s' = s_ctx s /\ (exists la, s_frames s' = mkFrame (pl_name A) (g_ip a') la (pl_bp A) (s_ctx s) :: pl_callers A) /\
    forall i n w, k_g c2 i n = Some w -> assoc n (get_globs s' i) = Some w.
Proof.
  intros E b main imports P A lp g ln l n o args a a' fuel st c s vs c1 mm fd r v c2 (HB & HO & HZ) PO PL H EV CT LV LC EX R.
  destruct (call_use E b main imports P HB HO HZ A PO lp g ln l n o args a a' fuel st c s vs c1 mm fd r v c2 PL H EV CT LV LC EX R) as (k & s' & M & HH).
  exists k, s'. split; [exact M|]. rewrite (ho_ctx _ _ _ _ _ _ _ _ H). split; [apply HH|]. split; [apply HH|]. exact (ho_globals _ _ _ _ _ _ _ _ HH).
Qed.
Print Assumptions C40_modules_partial.
(** <<
lib.ama:  1 x: int = 5
          2 func g(): int
          3   retorna x
          4 fim
main.ama: 1 usa "lib"
          2 x: int = 1
          3 mostra g()
>> prints 5. *)
Definition lib_own : amodule := mkAMod lib_path (txt "lib") false (scope_of [libx_; libg_])
  [ decl 1 libx_ "int" (num 1 "5"); NFunc 2 libg_ [] false (NBlock [] [NRet 3 (Some (var 3 libx_))]) ].
Definition prog_own : amodule := program_of [libg_; x_] [NNoOp 1; decl 2 x_ "int" (num 2 "1"); NMostra 3 (call 3 libg_ [])].
Example C40_case : checked prog_own [emb; lib_own] = true /\ out_main prog_own [emb; lib_own] 100 = Some (txt "5" ++ nl) /\
  match reached prog_own [emb; lib_own] 2 with
  | Some c => match call_target (senv_of prog_own [emb; lib_own]) c None (txt "g") with Some (TUser (Some 1%N) _) => True | _ => False end
  | None => False end.
Proof. vm_compute. auto. Qed.
(** A function called at the top level of an imported module returns into the
    main module's context: the rest of the import crashes. *)
Theorem C40_import_call_refuted : match run_main prog_usa [emb; lib_x] 100 with Some Crashed => True | _ => False end /\
  meant prog_usa [emb; lib_x] 100 = Some (txt "5" ++ nl).
Proof. vm_compute. auto. Qed.
Print Assumptions C40_import_call_refuted.

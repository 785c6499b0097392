(** From the simulation to the statements of [Spec_Sem.v]: a node at a point of
    a run, and how the machine gets to a statement of the main module. *)
From Verif Require Import Base BaseFacts Bson BsonFacts Opcode Spec_Opcode OpcodeFacts Dec Float Value Spec_Value ValueFacts
  Ast Spec_Tables TableFacts VM Compile SemProg CodeGen GenFacts Sem SemWf GenLocals SimVM Sim SimRel SimFrame SimNode SimFun GenFuncs LoadFacts SimMod SimProg Spec_Sem SemFacts.

Lemma many_steps E P n s s' : many E P n s s' <-> steps E P n s s'.
Proof. split; induction 1; econstructor; eassumption. Qed.
Lemma sim_runs E P k r s (Q Q' : out -> cfg -> state -> Prop) : (forall o c s, r = Done o c -> Q o c s -> Q' o c s) -> sim E P k r s Q -> runs E P k r s Q'.
Proof.
  intros H. destruct r; cbn; auto.
  - intros (n & s' & X & Y). exists n, s'. rewrite many_steps. auto.
  - intros (n & s' & tr & s2 & X & Y). exists n, s', tr, s2. rewrite many_steps. auto.
  - intros (n & s' & X & Y). exists n, s'. rewrite many_steps. auto.
Qed.
Lemma during_none S : during S None = S.
Proof. destruct S. reflexivity. Qed.

Definition fctx_of (A : place) : fctx := mkFC (pl_m A) (pl_name A) (pl_bp A) (pl_m A) (pl_callers A).

Section At.
Variable E : ext.
Variable b : text.
Variable main : amodule.
Variable imports : list amodule.
Variable P : program.
Hypothesis HB : build b main imports = PyOk (Some P).
Hypothesis HO : program_ok b main imports = true.
Hypothesis HZ : sizes_ok b main imports = true.
Notation S := (senv_of main imports).
Notation ctx := (ctx_of imports b).
Notation fof := (stage_fof main imports P None).

Lemma fof_def i n f : fof i n = Some f <-> exists fd vm, se_fun S i n = Some fd /\ get_module P i = Some vm /\ find (fun f => text_eqb n (fn_name f)) (m_funcs vm) = Some f.
Proof.
  unfold stage_fof, fofp. cbn [seen]. split.
  - destruct (se_fun S i n) as [fd|]; [|discriminate]. destruct (get_module P i) as [vm|]; [|discriminate]. intros H. eauto 6.
  - intros (fd & vm & -> & -> & H). exact H.
Qed.
Lemma holds_here A g ip st c s : holds P S A g ip st c s <-> here P fof 0 (fctx_of A) (pl_slots A) (pl_below A) (pl_size A) g ip st c s.
Proof.
  split.
  - intros [h1 h2 (loc & rest & h3 & h4 & h5 & h6 & h7) h8 h9 h10 h11 h12]. exists loc, (s_globs s, s_iglobs s). split; [exact h3|]. split; [|split; [split; [exact h6|exact h7]|]].
    + constructor.
      * intros i n v H. destruct i; exact (h9 _ _ _ H).
      * intros i n f H. apply fof_def in H as (fd & vm & H1 & H2 & H3). destruct i; exact (h10 _ _ _ _ _ H1 H2 H3).
      * exact h12.
      * exact h11.
    + constructor; auto. exists rest. rewrite <- !app_assoc. split; [exact h4|exact h5].
  - intros (loc & G & h3 & [g1 g2 g3 g4] & [h6 h7] & [a1 a2 (j & a3 & a4) a5 a6]). subst G. constructor; auto.
    + exists loc, j. rewrite <- !app_assoc in a3. auto 10.
    + intros i n fd vm f H1 H2 H3. assert (H : fof i n = Some f) by (apply fof_def; eauto 6). apply g2 in H. destruct i; exact H.
Qed.

Lemma placed_parts A lp g l a b' : placed b main imports A lp g l a b' -> exists md vm F s0 s1, user_mod b main imports P (pl_m A) md vm F s0 s1 /\
  seqm (gen (ctx md)) l a = PyOk b' /\ wf_seq (fun g x => wf S (ctx md) (pl_m A) true lp g (g_scopes a) x) (decls (g_scopes a)) g l = true /\
  fin (List.length (g_labels a)) b' F (pl_slots A) /\ ipok a.
Proof.
  intros [(md & F & MA & BI & GM & GE & W & p1 & p2 & p3 & p4 & p5 & p6) IP SL].
  destruct (user_module b main imports P HB HO HZ _ _ MA BI) as (vm & F' & s0 & s1 & UM).
  assert (F' = F). { pose proof (um_init _ _ _ _ _ _ _ _ _ _ UM) as UI. pose proof (um_gen _ _ _ _ _ _ _ _ _ _ UM) as UG. pose proof (um_F _ _ _ _ _ _ _ _ _ _ UM) as UF.
    unfold gen_module in GM. rewrite UI in GM. cbn [pbind] in GM. rewrite UG in GM. cbn [pbind] in GM. apply pyok_inj in GM. congruence. }
  subst F'. exists md, vm, F, s0, s1. repeat (split; [assumption|]). split; [|exact IP]. constructor; auto.
Qed.

(** One node. *)
Lemma node_here A C F vm fuel lp g x a b' st c s : modok P S 0 (pl_m A) C F vm -> place_ok A ->
  wf S C (pl_m A) true lp g (g_scopes a) x = true -> gen C x a = PyOk b' -> ipok a -> fin (List.length (g_labels a)) b' F (pl_slots A) ->
  here P fof 0 (fctx_of A) (pl_slots A) (pl_below A) (pl_size A) g (g_ip a) st c s ->
  sim E P (Datatypes.S fuel) (ev E S (exec E S fuel) (pl_m A) (Datatypes.S (List.length (pl_callers A))) x c) s
   (npost P fof 0 (fctx_of A) F (pl_slots A) (pl_below A) (pl_size A) g (decls (g_scopes a) g x) (clean x) (negb (is_stmt x)) lp (g_brk a) (g_cont a) (g_ip b') st).
Proof.
  intros MOK (PO1 & PO2) W GE IP FI H.
  assert (HF : forall m n, se_fun S m n = None -> fof m n = None). { intros m n X. apply (stage_none main imports P None m n). rewrite during_none. exact X. }
  assert (HFun : forall mm n fd, se_fun S mm n = Some fd -> exists f, fof mm n = Some f /\ fn_ok P S 0 mm fd f).
  { intros mm n fd X. pose proof (stage_fun b main imports P HB HO HZ None mm n fd) as Y. rewrite during_none in Y. exact (Y X). }
  assert (CA : true = true -> q_fm (fctx_of A) = q_m (fctx_of A)) by reflexivity.
  exact (node_fuel E P S fof 0 HF HFun fuel (fctx_of A) C F vm (pl_slots A) (pl_below A) (pl_size A) true x lp g a b' st c s MOK PO1 PO2 CA W GE IP FI H).
Qed.

(** An expression. *)
Theorem expr_at A lp g x a b' fuel st c s : place_ok A -> placed b main imports A lp g [x] a b' -> is_stmt x = false ->
  holds P S A g (g_ip a) st c s ->
  runs E P (Datatypes.S fuel) (ev E S (exec E S fuel) (pl_m A) (Datatypes.S (List.length (pl_callers A))) x c) s
    (fun o c' s' => exists v, o = OVal v /\ holds P S A g (g_ip b') (st ++ [v]) c' s').
Proof.
  intros PO PL NS H. apply placed_parts in PL as (md & vm & F & s0 & s1 & UM & GE & W & FI & IP). apply holds_here in H.
  cbn [seqm] in GE. destruct (gen (ctx md) x a) as [t|] eqn:GX; [|discriminate GE]. apply pyok_inj in GE. subst t.
  cbn [wf_seq] in W. rewrite andb_true_r in W.
  pose proof (node_here A (ctx md) F vm fuel lp g x a b' st c s (um_ok _ _ _ _ _ _ _ _ _ _ UM S eq_refl) PO W GX IP FI H) as X.
  eapply sim_runs; [|exact X]. rewrite NS. intros o c' s' X1 Y. destruct (expr_val _ _ _ _ _ _ _ _ _ NS X1) as (v & ->). exists v. split; [reflexivity|]. destruct Y as [_ Y]. apply holds_here, Y.
Qed.

(** Statements in order. *)
Lemma seq_here A C F vm fuel lp : modok P S 0 (pl_m A) C F vm -> place_ok A -> forall l g a b' st c s,
  wf_seq (fun g x => wf S C (pl_m A) true lp g (g_scopes a) x) (decls (g_scopes a)) g l = true ->
  seqm (gen C) l a = PyOk b' -> ipok a -> fin (List.length (g_labels a)) b' F (pl_slots A) ->
  here P fof 0 (fctx_of A) (pl_slots A) (pl_below A) (pl_size A) g (g_ip a) st c s ->
  sim E P (Datatypes.S fuel) (run_seq (ev E S (exec E S fuel) (pl_m A) (Datatypes.S (List.length (pl_callers A)))) l c) s
   (fun o c' s' => o = ONorm -> exists j, (lclean l = true -> j = []) /\
     here P fof 0 (fctx_of A) (pl_slots A) (pl_below A) (pl_size A) (vars_after (g_scopes a) g l) (g_ip b') (st ++ j) c' s').
Proof.
  intros MOK PO. induction l as [|y l IH]; intros g a b' st c s W GE I FI H.
  - cbn in GE. apply pyok_inj in GE. subst b'. cbn [run_seq]. apply sim_done. intros _. exists []. split; [reflexivity|]. rewrite app_nil_r. exact H.
  - cbn [wf_seq] in W. apply andb_prop in W as [W1 W2]. cbn [seqm] in GE. destruct (gen C y a) as [t|] eqn:GY; [|discriminate GE].
    assert (NL : forallb noig l = true) by (eapply wn_seq; [apply Forall_forall; intros; apply wf_noig|exact W2]).
    assert (NY : noig y = true) by exact (proj1 (wf_noig _ _ _ _ y) _ _ _ W1).
    assert (CT : same_ctx a t) by exact (ctx_gen _ _ _ _ GY).
    assert (M1 : mv (fun _ => False) a t) by (eapply mv_gen; [exact NY|exact GY]).
    assert (FT : fin (List.length (g_labels t)) b' F (pl_slots A)) by (eapply fin_mv; [apply mv_refl| |exact FI]; apply (mv_llen _ _ _ M1)).
    assert (FA : fin (List.length (g_labels a)) t F (pl_slots A)) by (eapply fin_mv; [eapply mv_seq; [exact NL|exact GE]|apply Nat.le_refl|exact FI]).
    change (run_seq ?f (y :: l) c) with (bind (f y c) (fun o c' => match o with ONorm | OVal _ => run_seq f l c' | o => Done o c' end)).
    eapply sim_bind; [eapply (node_here A C F vm fuel lp); [exact MOK|exact PO|exact W1|exact GY|exact I|exact FA|exact H]|].
    intros o c' s' X. pose proof (sc_scopes _ _ CT) as SC. pose proof (mv_ip _ _ _ M1 I) as I2.
    assert (STEP : forall j g1, g1 = decls (g_scopes a) g y -> (lclean (y :: l) = true -> lclean l = true /\ j = []) ->
      here P fof 0 (fctx_of A) (pl_slots A) (pl_below A) (pl_size A) g1 (g_ip t) (st ++ j) c' s' ->
      sim E P (Datatypes.S fuel) (run_seq (ev E S (exec E S fuel) (pl_m A) (Datatypes.S (List.length (pl_callers A)))) l c') s'
       (fun o c'0 s'0 => o = ONorm -> exists j, (lclean (y :: l) = true -> j = []) /\
         here P fof 0 (fctx_of A) (pl_slots A) (pl_below A) (pl_size A) (vars_after (g_scopes a) g (y :: l)) (g_ip b') (st ++ j) c'0 s'0)).
    { intros j g1 -> CL H'. rewrite <- SC in W2. eapply sim_post; [|eapply (IH _ t b'); [exact W2|exact GE|exact I2|exact FT|rewrite SC; exact H']].
      intros o' c2 s2 Y ON. destruct (Y ON) as (j2 & J2 & Y2). exists (j ++ j2). split.
      - intros X1. destruct (CL X1) as [X2 ->]. rewrite (J2 X2). reflexivity.
      - rewrite SC in Y2. rewrite app_assoc. exact Y2. }
    destruct o; cbn in X.
    + destruct X as (j & J & H'). eapply STEP; [reflexivity| |exact H']. intros CL. unfold lclean in CL. cbn in CL. spl. split; [assumption|auto].
    + destruct X as [NST H']. apply negb_true_iff in NST. apply (STEP [v] g); [symmetry; apply decls_expr, NST| |exact H'].
      intros CL. unfold lclean in CL. cbn in CL. rewrite NST in CL. discriminate CL.
    + apply sim_done. discriminate.
    + apply sim_done. discriminate.
    + apply sim_done. discriminate.
Qed.
Theorem stmts_at A lp g l a b' fuel st c s : place_ok A -> placed b main imports A lp g l a b' ->
  holds P S A g (g_ip a) st c s ->
  runs E P (Datatypes.S fuel) (run_seq (ev E S (exec E S fuel) (pl_m A) (Datatypes.S (List.length (pl_callers A)))) l c) s
    (fun o c' s' => o = ONorm -> exists j, (lclean l = true -> j = []) /\ holds P S A (vars_after (g_scopes a) g l) (g_ip b') (st ++ j) c' s').
Proof.
  intros PO PL H. apply placed_parts in PL as (md & vm & F & s0 & s1 & UM & GE & W & FI & IP). apply holds_here in H.
  eapply sim_runs; [|eapply (seq_here A (ctx md) F vm fuel lp); [exact (um_ok _ _ _ _ _ _ _ _ _ _ UM S eq_refl)|exact PO|exact W|exact GE|exact IP|exact FI|exact H]].
  intros o c' s' _ Y ON. destruct (Y ON) as (j & J & Y2). exists j. split; [exact J|]. apply holds_here, Y2.
Qed.

(** ** Getting there *)
Lemma vars_top scs l : vars_after scs [] l = [].
Proof.
  unfold vars_after. induction l as [|x l IH]; [reflexivity|]. cbn [fold_left]. replace (decls scs [] x) with (@nil (list (text * sym))); [exact IH|].
  destruct x; try reflexivity. cbn. destruct init as [[]|]; try reflexivity. destruct (resolve scs name); reflexivity.
Qed.
Lemma wf_seq_split f dc l1 l2 : forall g, wf_seq f dc g (l1 ++ l2) = true -> wf_seq f dc g l1 = true /\ wf_seq f dc (fold_left dc l1 g) l2 = true.
Proof. induction l1 as [|x l IH]; intros g H; cbn in *; [auto|]. apply andb_prop in H as [H1 H2]. apply IH in H2 as [? ?]. rewrite H1. auto. Qed.
Lemma seqm_split {A} (f : A -> gst -> pyres gst) l1 l2 : forall a r, seqm f (l1 ++ l2) a = PyOk r -> exists c, seqm f l1 a = PyOk c /\ seqm f l2 c = PyOk r.
Proof. induction l1 as [|y l IH]; intros a r H; cbn in *; [eauto|]. destruct (f y a) as [t|]; [|discriminate]. apply IH in H. exact H. Qed.

Theorem main_reach fuel stdin pre post o0 c0 c : mo_body main = pre ++ post ->
  run_modules E S fuel 0 imports (mkCfg (mkWorld [] [] stdin) (fun _ _ => None) []) = Done o0 c0 ->
  run_seq (ev E S (exec E S fuel) None 1) pre (start_globals c0 None []) = Done ONorm c ->
  exists A a b' s0 n s j, pl_m A = None /\ pl_callers A = [] /\ place_ok A /\ placed b main imports A false [] post a b' /\
    main_start E P stdin s0 /\ many E P n s0 s /\ holds P S A [] (g_ip a) j c s /\ (lclean pre = true -> j = []).
Proof.
  intros BD RI RP. destruct (prog_parts b main imports P HB HO HZ) as (_ & BM & (b0 & r0 & IMP & _ & _ & _) & _ & _).
  assert (IR : one_ok fuel (run_modules E S fuel 0 imports (mkCfg (mkWorld [] [] stdin) (fun _ _ => None) [])) (fun k => run_imports E P k (initial_state P stdin) 0 (p_imports P))
     (fun c s => inv main imports P (before (Some (N.of_nat (List.length imports)))) (0 <? N.of_nat (List.length imports))%N c s)).
  { apply (imports_run E b main imports P HB HO HZ); auto.
    + symmetry. apply (imports_len b main imports P HB).
    + constructor.
      * discriminate.
      * intros i n f H. unfold fofp in H. replace (before (Some 0%N) i) with false in H; [discriminate|]. destruct i as [i|]; unfold before, seen; cbn [omod_eqb]; [|reflexivity]. destruct i; reflexivity.
      * cbn. apply repeat_length.
      * discriminate.
      * cbn [initial_state s_vals]. rewrite repeat_length. unfold default_stack_size. lia.
      * reflexivity. }
  rewrite RI in IR. destruct IR as (n0 & s & IV & RUN).
  assert (IV2 : inv main imports P (before None) true c0 s).
  { replace (0 <? N.of_nat (List.length imports))%N with true in IV by (rewrite IMP; cbn [List.length]; lia).
    eapply inv_mono; [|exact IV]. intros [j|] vm GM H; unfold before, seen in *; cbn [omod_eqb] in *; [|discriminate].
    assert (L : (N.to_nat j < List.length (p_imports P))%nat) by (apply nth_error_Some; cbn in GM; congruence). rewrite (imports_len b main imports P HB) in L.
    apply andb_true_intro. split; [lia|apply negb_true_iff; lia]. }
  destruct (user_module b main imports P HB HO HZ None main eq_refl BM) as (vm & F & s0 & s1 & UM).
  destruct (user_start E b main imports P None main vm F s0 s1 c0 s true UM eq_refl BM IV2 eq_refl) as (s' & ST & H).
  assert (VM : vm = p_main P) by (pose proof (um_get _ _ _ _ _ _ _ _ _ _ UM) as X; cbn in X; congruence). subst vm.
  destruct (init_tables_facts _ _ (um_init _ _ _ _ _ _ _ _ _ _ UM)) as (Z1 & Z2 & Z3 & Z4 & Z5 & Z6).
  pose proof (um_F _ _ _ _ _ _ _ _ _ _ UM) as UF. pose proof (um_wf _ _ _ _ _ _ _ _ _ _ UM) as UW. pose proof (um_gen _ _ _ _ _ _ _ _ _ _ UM) as UG.
  assert (I0 : ipok (enter s0 (mo_scope main))) by (unfold ipok; cbn; rewrite Z6, Z5; reflexivity).
  assert (NI : forallb noig (mo_body main) = true) by (eapply wn_seq; [apply Forall_forall; intros; apply wf_noig|exact UW]).
  assert (M1 : mv (fun _ => True) s1 F). { rewrite UF. eapply mv_trans; [apply mv_leave|]. eapply mv_trans; [apply mv_line|apply mv_op]. }
  assert (L0 : g_locals (enter s0 (mo_scope main)) = []) by (cbn; rewrite Z4; reflexivity).
  assert (NB : numb (g_locals F)).
  { assert (X : lx (enter s0 (mo_scope main)) s1) by (eapply lx_seq; [apply Forall_forall; intros; apply gen_lx|exact NI|exact UG]).
    destruct X as [_ X]. rewrite UF. cbn. apply X. rewrite L0. apply numb_nil. }
  set (A := mkPlace None (txt "_inicio_") 0 [] [] (List.length (s_vals s)) (g_locals F)).
  assert (PO : place_ok A).
  { split; [right; split; [reflexivity|]|exact NB]. cbn. eapply Nat.le_trans; [exact (um_loc _ _ _ _ _ _ _ _ _ _ UM)|exact (iv_vals _ _ _ _ _ _ _ IV2)]. }
  rewrite BD in UW, UG, NI. apply wf_seq_split in UW as [W1 W2]. apply seqm_split in UG as (t & G1 & G2). rewrite forallb_app in NI. apply andb_prop in NI as [N1 N2].
  assert (SC0 : g_scopes (enter s0 (mo_scope main)) = [mo_scope main]) by (cbn; rewrite Z3; reflexivity).
  assert (SC1 : g_scopes t = [mo_scope main]). { rewrite <- SC0. apply (sc_scopes (enter s0 (mo_scope main)) t). exact (ctx_seq _ _ _ _ G1). }
  assert (FN : fin (List.length (g_labels (enter s0 (mo_scope main)))) s1 F (g_locals F)).
  { rewrite UF. constructor; try (cbn; apply prefix_refl || apply prefix_app); reflexivity. }
  assert (FT : fin (List.length (g_labels (enter s0 (mo_scope main)))) t F (g_locals F)) by (eapply fin_mv; [eapply mv_seq; [exact N2|exact G2]|apply Nat.le_refl|exact FN]).
  assert (MT : mv (fun _ => False) (enter s0 (mo_scope main)) t) by (eapply mv_seq; [exact N1|exact G1]).
  pose proof (seq_here A (ctx main) F (p_main P) fuel false (um_ok _ _ _ _ _ _ _ _ _ _ UM S eq_refl) PO pre [] (enter s0 (mo_scope main)) t [] (start_globals c0 None []) s') as SIM.
  rewrite SC0 in SIM. specialize (SIM W1 G1 I0 FT). replace (g_ip (enter s0 (mo_scope main))) with 0%N in SIM by (cbn; rewrite Z6; reflexivity).
  specialize (SIM H). cbn [A pl_m pl_callers List.length] in SIM. rewrite RP in SIM. destruct SIM as (n & s2 & STP & X). destruct (X eq_refl) as (j & J & HH).
  rewrite vars_top in HH.
  exists A, t, s1, s', n, s2, j. repeat (split; [solve [reflexivity|exact PO]|]).
  split.
  { constructor.
    - exists main, F. split; [reflexivity|]. split; [exact BM|]. split.
      { unfold gen_module. rewrite (um_init _ _ _ _ _ _ _ _ _ _ UM). cbn [pbind]. rewrite (um_gen _ _ _ _ _ _ _ _ _ _ UM). cbn [pbind]. rewrite UF. reflexivity. }
      split; [exact G2|]. split; [rewrite SC1; fold (vars_after [mo_scope main] [] pre) in W2; rewrite vars_top in W2; exact W2|].
      destruct FN. repeat (split; [assumption|]). intros i [Hi Hl]. apply fi_lab; [|exact Hl]. eapply Nat.le_trans; [|exact Hi]. apply (mv_llen _ _ _ MT).
    - exact (mv_ip _ _ _ MT I0).
    - change (prefix (g_locals s1) (g_locals F)). rewrite UF. apply prefix_refl. }
  split; [exists (Datatypes.S n0), s; split; [rewrite RUN; destruct (Nat.ltb_spec (Datatypes.S n0) n0); [lia|reflexivity]|exact ST]|].
  split; [apply many_steps, STP|]. split; [apply holds_here, HH|exact J].
Qed.
End At.

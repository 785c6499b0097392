(** Visiting a statement only adds symbols, scopes, and names to the scope it is in. *)
From Verif Require Import Base BaseFacts Dec Bson Value Ast Types Syntax Sym Exhaust Check Front Spec_Accept GenLocals ValueFacts AcceptBase AcceptTypes AcceptFrame.
Local Open Scope chk_scope.

Section Step.
Variable F : front_env.
Variable usa : smode -> text -> M unit.
Notation Fclaim := (Fclaim F usa).
Notation Bclaim := (Bclaim F usa).
Notation visit := (visit F usa).
Notation visits := (visits F usa).

Definition P (x : sx) : Prop := (is_s (core x) = true \/ is_l (core x) = true -> Fclaim x) /\ (is_b (core x) = true -> Bclaim x).
Lemma k_step {A} (m : M A) s a s' : keeps m -> m s = COk a s' -> step nowhere s s'.
Proof. intros K H. split; [|exact (proj2 (xp_frame nowhere _ _ (K _ _ _ H)))]. exact (proj1 (xp_frame nowhere _ _ (K _ _ _ H))). Qed.
Lemma v_step x p again s r s' : is_e (core x) = true -> visit x p None again s = COk r s' -> step nowhere s s'.
Proof. intros C H. eapply k_step; [|exact H]. apply K_all, is_e_is_a, C. Qed.
Lemma l_step (l : Z) s u s' : set_line l s = COk u s' -> step nowhere s s'.
Proof. apply k_step, k_line. Qed.
Lemma cret_step {A} (a : A) s b s' : cret a s = COk b s' -> step nowhere s s'.
Proof. intros H. apply cret_inv in H as [_ ->]. apply step_refl. Qed.
(** A computation without effects follows. *)
Ltac kend := eapply k_step; [|eassumption]; kx.
Ltac first_line H := cbn [Check.visit] in H; apply cbind_inv in H as (?u & ?s0 & ?L & H).
Tactic Notation "next" simple_intropattern(a) ident(Q) := let s1 := fresh "s" in apply cbind_inv in Q as (a & s1 & ?H & Q).
Ltac cstep := eapply step_trans; [|]; [eassumption|].

Lemma block_enter sco s b s1 : enter_scope sco s = COk b s1 ->
  (exists psc, sco = Some psc /\ b = psc /\ s1 = at_scope s (S (cx_depth (sst_cx s))) psc) \/
  (sco = None /\ b = List.length (so_scopes (sst_st s)) /\
   s1 = at_scope (mkSst (with_scopes (sst_st s) (so_scopes (sst_st s) ++ [mkScope [] (Some (cx_scope (sst_cx s)))])) (sst_cx s)) (S (cx_depth (sst_cx s))) b).
Proof.
  unfold enter_scope. intros H. apply cbind_inv in H as (d & s2 & H1 & H). apply gcx_inv in H1 as [-> ->].
  apply cbind_inv in H as (c & s2 & H1 & H). apply gcx_inv in H1 as [-> ->]. apply cbind_inv in H as (k & s2 & H1 & H).
  apply cbind_inv in H as (u & s3 & H2 & H). apply cret_inv in H as [-> ->]. unfold set_scope, mcx in H2. injection H2 as <- <-.
  destruct sco as [psc|].
  - apply cret_inv in H1 as [-> ->]. left. exists psc. auto.
  - apply new_scope_inv in H1 as [-> ->]. right. auto.
Qed.
Lemma block_inv l sco again s t o s' : visit (XBlock l) PNone sco again s = COk (t, o) s' ->
  exists ln b s1 ts s2 u, enter_scope sco (reline s ln) = COk b s1 /\ visits l again s1 = COk ts s2 /\ leave_scope s2 = COk u s' /\ t = TBlock b ts.
Proof.
  intros H. first_line H. apply line_inv in L as ->. next b H. next ts H. next ?v H. apply cret_inv in H as [H ->]. injection H as -> ->.
  exists (Lexer.t_line (Parser.node_tok (XBlock l))), b, s0, ts, s1, v. auto.
Qed.
(** The scope of a block, once the block has been visited. *)
Lemma leave_step l again s1 ts s2 u s' up : Forall Fclaim l -> noyield s1 -> cx_depth (sst_cx s1) <> 0%nat -> visits l again s1 = COk ts s2 -> leave_scope s2 = COk u s' ->
  (exists c, nth_error (so_scopes (sst_st s1)) (cx_scope (sst_cx s1)) = Some c /\ sc_up c = Some up) ->
  frame (eq (cx_scope (sst_cx s1))) (sst_st s1) (sst_st s') /\ exists ln, sst_cx s' = sst_cx (at_scope (reline s1 ln) (pred (cx_depth (sst_cx s1))) up).
Proof.
  intros FA NY DP V L (c1 & E1 & U1). apply (visits_frame F usa _ _ FA) in V as [FR (ln & KP)]; [|exact NY|exact DP].
  apply leave_inv in L as (c & up' & EC & UP & ->). rewrite KP in EC. cbn [reline sst_cx cx_scope] in EC.
  destruct (f_grow _ _ _ FR _ _ E1) as (c' & EC' & U' & _). assert (c' = c) as -> by congruence. assert (up' = up) as -> by congruence.
  split; [exact FR|]. exists ln. unfold at_scope. cbn [sst_cx]. rewrite KP. reflexivity.
Qed.
Lemma block_step l : Forall Fclaim l -> Bclaim (XBlock l).
Proof.
  intros FA. split.
  - intros again s t o s' NY H. apply block_inv in H as (ln & b & s1 & ts & s2 & u & E & V & L & _).
    apply block_enter in E as [(psc & D & _)|(_ & Eb & E1)]; [discriminate D|]. subst s1.
    edestruct leave_step as (FR & ln2 & CX); [exact FA| | |exact V|exact L| |]; [exact NY|discriminate| |].
    { cbn [at_scope sst_st sst_cx cx_scope with_scopes so_scopes reline]. eexists. split; [subst b; apply nth_last|reflexivity]. }
    cbn [at_scope sst_st sst_cx cx_scope with_scopes so_scopes reline] in *. split.
    + eapply frame_fresh; [apply new_scope_frame|exact FR|]. intros k <-. left. subst b. apply le_n.
    + exists ln2. rewrite CX. reflexivity.
  - intros again psc s t o s' c NY EC UP H. apply block_inv in H as (ln & b & s1 & ts & s2 & u & E & V & L & _).
    apply block_enter in E as [(psc' & D & Eb & E1)|(D & _)]; [|discriminate D]. injection D as <-. subst s1 b.
    edestruct leave_step as (FR & ln2 & CX); [exact FA| | |exact V|exact L| |]; [exact NY|discriminate| |].
    { cbn [at_scope sst_st sst_cx cx_scope with_scopes so_scopes reline]. eexists. split; [exact EC|exact UP]. }
    split; [exact FR|]. exists ln2. rewrite CX. reflexivity.
Qed.
Lemma e_fclaim x : is_e (core x) = true -> Fclaim x.
Proof. intros C again s t o s' NY DP H. apply step_no. eapply v_step; eassumption. Qed.
Lemma not_b x : is_e (core x) = true -> is_b (core x) = true -> Bclaim x.
Proof. intros C B. destruct (core x); discriminate. Qed.
Ltac case_when C := match type of C with context[if ?b then _ else _] => destruct b eqn:?W end.
Ltac bad C := first [discriminate C | destruct C as [C|C]; discriminate C].

Lemma S_assign t v r : is_e (core r) = true -> Fclaim (XAssign t (XVar v) r).
Proof.
  intros C again s t0 o s' NY DP H. apply step_no. first_line H. apply l_step in L. next rv H. apply v_step in H0; [|exact C].
  eapply step_trans; [exact L|]. eapply step_trans; [exact H0|]. kend.
Qed.
Lemma S_iset t a v : is_e (core a) = true -> is_e (core v) = true -> Fclaim (XIndexSet t a v).
Proof.
  intros C C' again s t0 o s' NY DP H. apply step_no. first_line H. apply l_step in L. next rv H. apply v_step in H0; [|exact C].
  eapply step_trans; [exact L|]. eapply step_trans; [exact H0|]. next rv' H.
  assert (step nowhere s1 s2) by (eapply k_step; [|exact H1]; kx). eapply step_trans; [eassumption|]. next rw H. apply v_step in H3; [|exact C'].
  eapply step_trans; [exact H3|]. kend.
Qed.
Lemma S_set a v : is_e (core a) = true -> is_e (core v) = true -> Fclaim (XSet a v).
Proof.
  intros C C' again s t0 o s' NY DP H. apply step_no. first_line H. apply l_step in L. next rv H. apply v_step in H0; [|exact C].
  eapply step_trans; [exact L|]. eapply step_trans; [exact H0|]. destruct (fst rv); try discriminate H.
  destruct (tx_ty _); try discriminate H; next rv' H; (apply v_step in H1; [|exact C']); (eapply step_trans; [exact H1|]); kend.
Qed.
Lemma S_mostra t e : is_e (core e) = true -> Fclaim (XMostra t e).
Proof.
  intros C again s t0 o s' NY DP H. apply step_no. first_line H. apply l_step in L. next rv H. apply v_step in H0; [|exact C].
  eapply step_trans; [exact L|]. eapply step_trans; [exact H0|]. kend.
Qed.
Lemma S_loopctl t : Fclaim (XLoopCtl t).
Proof. intros again s t0 o s' NY DP H. apply step_no. first_line H. apply l_step in L. eapply step_trans; [exact L|]. kend. Qed.
Lemma S_ret t o : oP (fun e => is_e (core e) = true) o -> Fclaim (XRet t o).
Proof.
  intros C again s t0 o0 s' NY DP H. apply step_no. first_line H. apply l_step in L. apply (kept_yield _ _ (proj2 L)) in NY. eapply step_trans; [exact L|].
  next f H. apply gcx_inv in H0 as [-> ->]. destruct (cx_func (sst_cx s0)) as [f|]; [|discriminate H].
  next x H. apply sym_at_inv in H0 as [E ->]. next ft H. apply must_inv in H0 as [ET ->]. destruct o as [e|].
  - destruct (is_vazio ft); [discriminate H|]. next y H. apply gcx_inv in H0 as [-> ->]. rewrite NY in H. next ?v H. apply cret_inv in H0 as [_ ->].
    next r H. apply v_step in H0; [|exact C]. eapply step_trans; [exact H0|]. kend.
  - destruct (negb (is_vazio ft)); [discriminate H|]. next y H. apply gcx_inv in H0 as [-> ->]. rewrite NY in H. next ?v H. apply cret_inv in H0 as [_ ->]. kend.
Qed.
Lemma S_decl t n y o : core_ty y = true -> oP (fun q => is_e (core (snd q)) = true) o -> forall p again s t0 o0 s', noyield s -> (cx_depth (sst_cx s) <> 0)%nat ->
  visit (XDecl t n y o) p None again s = COk (t0, o0) s' -> step (eq (cx_scope (sst_cx s))) s s'.
Proof.
  intros CY C p again s t0 o0 s' NY DP H. first_line H.
  assert (L0 : step nowhere s s0) by (destruct p; first [apply l_step in L; exact L | apply cret_step in L; exact L]). clear L.
  destruct L0 as [FL KL]. destruct (KL) as (lnL & CXL).
  eapply step_trans; [split; [eapply frame_weak; [|exact FL]; intros ? []|exact KL]|].
  replace (cx_scope (sst_cx s)) with (cx_scope (sst_cx s0)) by (rewrite CXL; reflexivity).
  assert (DP0 : cx_depth (sst_cx s0) <> 0%nat) by (rewrite CXL; exact DP). clear s NY DP FL KL CXL lnL.
  next ?v H. apply free_inv in H0 as [-> FREE]. next ?v H. destruct again; [discriminate H0|]. apply cret_inv in H0 as [_ ->].
  next ty H. apply k_type in H0; [|exact CY]. destruct H0 as ((l1 & SY1 & NR1) & SC1 & OP1 & (ln1 & CX1)).
  next i H. next d H. apply gcx_inv in H1 as [-> ->]. next cur H. apply gcx_inv in H1 as [-> ->]. next ?v H.
  edestruct define_new as (EI & CX & OP & SC & x & SY & NX & KX & MX); [exact H0|exact H1|].
  subst i. apply new_var_inv in H0 as [_ ->]. cbn [sst_cx sst_st] in *.
  match type of H with _ ?x = _ => rename x into sd end.
  assert (FR : step (eq (cx_scope (sst_cx s0))) s0 sd).
  { split; [|exists ln1; congruence]. rewrite CX1 in SC. cbn in SC.
    eapply bind_frame with (l := l1 ++ [x]); [rewrite SY, SY1, app_assoc; reflexivity| |rewrite SC, SC1; reflexivity|congruence|exact FREE].
    apply Forall_app. split; [exact NR1|]. constructor; [|constructor]. intros f ms tp K. congruence. }
  eapply step_trans; [exact FR|]. next r H. rewrite CX1 in H. cbn [reline sst_cx cx_depth] in H.
  destruct (cx_depth (sst_cx s0)) as [|dd]; [congruence|]. cbn [Nat.eqb] in H.
  eapply step_trans; [|apply step_no; kend]. apply step_no. destruct o as [[ta e]|].
  - destruct (lex_is (Parser.node_tok e) (lex_text n)); [discriminate H0|]. next ?v H0. apply l_step in H2. eapply step_trans; [exact H2|].
    next rv H0. apply v_step in H3; [|exact C]. eapply step_trans; [exact H3|]. kend.
  - kend.
Qed.
Lemma b_step x again s r s' : Bclaim x -> noyield s -> visit x PNone None again s = COk r s' -> step nowhere s s'.
Proof. intros [B _] NY H. destruct r. eapply B; eassumption. Qed.
Ltac yield L NY := let N := fresh "NY" in pose proof (kept_yield _ _ (proj2 L) NY) as N; clear NY; rename N into NY.
Lemma S_senaose t c b : is_e (core c) = true -> Bclaim b -> Fclaim (XSenaoSe t c b).
Proof.
  intros C B again s t0 o0 s' NY DP H. apply step_no. first_line H. apply l_step in L. yield L NY. eapply step_trans; [exact L|].
  next rc H. apply v_step in H0; [|exact C]. yield H0 NY. eapply step_trans; [exact H0|].
  destruct (tx_ty (fst rc)) as [[]|?|?|?|? ?|?|?]; try discriminate H. next rb H. apply b_step in H1; [|exact B|exact NY]. eapply step_trans; [exact H1|]. kend.
Qed.
Lemma S_elifs l again : Forall (fun x => is_decl x = false /\ Fclaim x) l -> forall s ts s', noyield s -> visits l again s = COk ts s' -> step nowhere s s'.
Proof.
  induction 1 as [|x l (ND & FX) _ IH]; intros s ts s' NY H.
  - unfold AcceptFrame.visits in H. cbn in H. injection H as <- <-. apply step_refl.
  - change (visits (x :: l) again) with (cbind (cbind (visit x PNone None again) (fun r => cret (fst r)))
      (fun y => cbind (visits l again) (fun ys => cret (y :: ys)))) in H.
    next t H. next r H. apply cret_inv in H as [_ ->]. next r1 H0. destruct r1 as [t1 o1]. apply cret_inv in H0 as [_ ->].
    apply FX in H; [|exact NY|congruence]. eapply step_weak in H; [|intros k [D _]; rewrite ND in D; discriminate D].
    eapply step_trans; [exact H|]. eapply IH; [|eassumption]. exact (kept_yield _ _ (proj2 H) NY).
Qed.
Lemma S_se t c th l el : is_e (core c) = true -> Bclaim th -> Forall (fun x => is_decl x = false /\ Fclaim x) l -> oP Bclaim el -> Fclaim (XSe t c th l el).
Proof.
  intros C B FL BE again s t0 o0 s' NY DP H. apply step_no. first_line H. apply l_step in L. yield L NY. eapply step_trans; [exact L|].
  next rc H. apply v_step in H0; [|exact C]. yield H0 NY. eapply step_trans; [exact H0|].
  next g H. apply tag_inv in H1 as [_ ->]. destruct (negb (prim_eqb g TBool)); [discriminate H|].
  next rt H. apply b_step in H1; [|exact B|exact NY]. yield H1 NY. eapply step_trans; [exact H1|].
  next ts H. apply (S_elifs _ _ FL) in H2; [|exact NY]. yield H2 NY. eapply step_trans; [exact H2|].
  next ro H. eapply step_trans; [|kend]. destruct el as [e|]; [|eapply cret_step; eassumption].
  next re H3. apply cret_inv in H3 as [_ ->]. eapply b_step; [exact BE|exact NY|eassumption].
Qed.
Lemma S_enquanto t c b : is_e (core c) = true -> Bclaim b -> Fclaim (XEnquanto t c b).
Proof.
  intros C B again s t0 o0 s' NY DP H. apply step_no. first_line H. apply l_step in L. yield L NY. eapply step_trans; [exact L|].
  next rc H. apply v_step in H0; [|exact C]. yield H0 NY. eapply step_trans; [exact H0|].
  next g H. apply tag_inv in H1 as [_ ->]. destruct (negb (prim_eqb g TBool)); [next ?u H; discriminate H|].
  next old H. apply gcx_inv in H1 as [-> ->]. next ?u H. unfold set_loop, mcx in H1. injection H1 as <- <-.
  next rb H. apply b_step in H1; [|exact B|exact NY]. next ?u H. unfold set_loop, mcx in H2. injection H2 as <- <-. apply cret_inv in H as [_ ->].
  destruct H1 as [FR (ln & CX)]. split; [exact FR|]. exists ln. cbn. rewrite CX. reflexivity.
Qed.
Lemma S_para t n a z inc b : is_e (core a) = true -> is_e (core z) = true -> oP (fun e => is_e (core e) = true) inc -> Bclaim b -> Fclaim (XPara t n a z inc b).
Proof.
  intros CA CZ CI B again s t0 o0 s' NY DP H. apply step_no. first_line H. apply l_step in L. yield L NY. eapply step_trans; [exact L|].
  next ra H. apply v_step in H0; [|exact CA]. yield H0 NY. eapply step_trans; [exact H0|].
  next rz H. apply v_step in H1; [|exact CZ]. yield H1 NY. eapply step_trans; [exact H1|].
  next ri H. assert (SI : step nowhere s2 s3).
  { destruct inc as [e|]; [|eapply cret_step; eassumption]. next re H2. apply cret_inv in H2 as [_ ->]. eapply v_step; [exact CI|eassumption]. }
  clear H2. yield SI NY. eapply step_trans; [exact SI|]. match type of H with (if ?b then _ else _) _ = _ => destruct b end; [discriminate H|].
  next o H. apply here_inv in H2 as [-> ->]. next ty H. apply named_inv in H2 as (j & y & _ & _ & _ & ->).
  next i H. next d H. apply gcx_inv in H3 as [-> ->]. next cur H. apply gcx_inv in H3 as [-> ->]. next psc H. apply new_scope_inv in H3 as (EP & ->).
  apply new_var_inv in H2 as (EI & ->). next ?u H. cbn [sst_st sst_cx with_syms so_syms so_scopes] in *.
  edestruct define_inv as (g & GN & GK & GM & _ & _ & SY & SC & OP & _ & _ & CX); [|exact H2|].
  { cbn. subst i. apply nth_last. }
  cbn [sst_st sst_cx with_syms with_scopes so_syms so_scopes so_opcao s_name] in *.
  rewrite EI, upd_last in SY. rewrite EP, upd_last in SC. unfold bind_in in SC. cbn in SC.
  match type of H with _ ?x = _ => rename x into sd end.
  assert (FR : frame nowhere (sst_st s3) (sst_st sd)).
  { constructor.
    - eexists. split; [exact SY|]. constructor; [|constructor]. intros f ms tp K. rewrite GK in K. discriminate K.
    - intros k LT _. rewrite SC. apply nth_error_app1. exact LT.
    - intros k c E. exists c. rewrite SC. split; [apply nth_old; exact E|auto].
    - exact OP. }
  next rb H. apply cret_inv in H as [_ ->]. destruct rb as [tb ob]. destruct B as [_ B].
  edestruct B as [FB KB]; [| | |exact H3|].
  { unfold noyield. rewrite CX. exact NY. }
  { rewrite SC, EP. apply nth_last. }
  { rewrite CX. reflexivity. }
  split.
  - eapply frame_fresh; [exact FR|exact FB|]. intros k <-. left. subst psc. apply le_n.
  - eapply kept_trans; [|exact KB]. exists (cx_line (sst_cx sd)). rewrite CX. cbn. destruct (sst_cx s3). reflexivity.
Qed.

Lemma P_all x : P x.
Proof.
  assert (PE : forall x, is_e (core x) = true -> P x).
  { intros y C. split; [intros _; apply e_fclaim; exact C|apply not_b; exact C]. }
  assert (FS : forall x, is_s (core x) = true -> P x -> Fclaim x) by (intros y C [H _]; apply H; left; exact C).
  induction x using sx_ind'; try (split; [intros [C|C]|intros C]; discriminate C).
  all: try (apply PE; reflexivity).
  - destruct (is_e (core x)) eqn:E; [apply PE; cbn; rewrite E; reflexivity|split; [intros C|intros C]; cbn in C; rewrite E in C; bad C].
  - destruct (is_e (core x1) && is_e (core x2)) eqn:E; [apply PE; cbn; rewrite E; reflexivity|split; [intros C|intros C]; cbn in C; rewrite E in C; bad C].
  - destruct x; try (split; [intros C|intros C]; bad C).
    destruct (is_e (core (XCall (XVar t) l))) eqn:E; [apply PE; exact E|]. cbn in E. split; [intros C|intros C]; cbn in C; case_when C; bad C || discriminate E.
  - split; [intros C|intros C]; cbn in C; case_when C; bad C.
  - destruct (is_e (core (XConv t x y))) eqn:E; [apply PE; exact E|]. cbn in E. split; [intros C|intros C]; cbn in C; case_when C; bad C || discriminate E.
  - destruct (is_e (core (XIndex t x1 x2))) eqn:E; [apply PE; exact E|]. cbn in E. split; [intros C|intros C]; cbn in C; case_when C; bad C || discriminate E.
  - split; intros C; cbn in C; case_when C; try bad C. apply andb_prop in W as [W1 W2]. apply S_iset; assumption.
  - destruct (is_e (core (XGet x m))) eqn:E; [apply PE; exact E|]. cbn in E. split; [intros C|intros C]; cbn in C; case_when C; bad C || discriminate E.
  - split; intros C; cbn in C; case_when C; try bad C. apply andb_prop in W as [W1 W2]. apply S_set; assumption.
  - destruct (is_e (core (XFmt t l))) eqn:E; [apply PE; exact E|]. cbn in E. split; [intros C|intros C]; cbn in C; case_when C; bad C || discriminate E.
  - destruct (is_e (core (XList t y l))) eqn:E; [apply PE; exact E|]. cbn in E. split; [intros C|intros C]; cbn in C; case_when C; bad C || discriminate E.
  - destruct x1; try (split; [intros C|intros C]; bad C). split; intros C; cbn in C; case_when C; try bad C. apply S_assign; assumption.
  - split; [intros C|intros C].
    + assert (CC : core_ty y = true /\ oP (fun q => is_e (core (snd q)) = true) o).
      { cbn in C. destruct o as [[ta e]|]; case_when C; try bad C; [apply andb_prop in W as [W1 W2]; auto|cbn; auto]. }
      destruct CC as [CY CO]. intros again s t0 o0 s' NY DP V. eapply step_weak; [|eapply S_decl; [exact CY|exact CO|exact NY|apply DP; reflexivity|exact V]].
      intros k <-. auto.
    + cbn in C. destruct o as [[ta e]|]; case_when C; bad C.
  - split; intros C; cbn in C; case_when C; try bad C. apply S_mostra; assumption.
  - split; intros C; cbn in C; destruct o; try bad C; [case_when C; try bad C; apply S_ret; exact W|apply S_ret; exact I|case_when C; bad C].
  - split; intros C; cbn in C; [apply S_loopctl|bad C].
  - split; intros C; [|cbn in C; destruct o; case_when C; bad C].
    assert (CC : is_e (core x1) = true /\ is_b (core x2) = true /\ forallb (fun y => is_l (core y)) l = true /\ oP (fun e => is_b (core e) = true) o).
    { cbn in C. destruct o; case_when C; try bad C; rewrite !andb_true_iff in W; cbn; tauto. }
    destruct CC as (C1 & C2 & C3 & C4). apply S_se; [exact C1|apply IHx2; exact C2| |].
    + rewrite forallb_forall in C3. rewrite Forall_forall in *. intros y I. specialize (C3 y I). split; [|apply H; auto].
      destruct y; try reflexivity. cbn in C3. destruct init as [[? ?]|]; case_when C3; discriminate C3.
    + destruct o; [|exact I]. cbn in *. apply H0. exact C4.
  - split; intros C; cbn in C; case_when C; try bad C. apply andb_prop in W as [W1 W2]. apply S_senaose; [exact W1|apply IHx2; exact W2].
  - split; intros C; cbn in C; case_when C; try bad C. apply andb_prop in W as [W1 W2]. apply S_enquanto; [exact W1|apply IHx2; exact W2].
  - split; intros C; [|cbn in C; destruct o; case_when C; bad C].
    assert (CC : is_e (core x1) = true /\ is_e (core x2) = true /\ oP (fun e => is_e (core e) = true) o /\ is_b (core x3) = true).
    { cbn in C. destruct o; case_when C; try bad C; rewrite !andb_true_iff in W; cbn; tauto. }
    destruct CC as (C1 & C2 & C3 & C4). apply S_para; auto. apply IHx3. exact C4.
  - split; intros C; cbn in C; case_when C; try bad C. apply block_step. rewrite forallb_forall in W. rewrite Forall_forall in *. intros y I. apply FS; auto.
  - split; intros C; cbn in C; destruct nat; try bad C; destruct o; try bad C; case_when C; bad C.
  - split; intros C; cbn in C; destruct g; try bad C; case_when C; bad C.
Qed.
End Step.

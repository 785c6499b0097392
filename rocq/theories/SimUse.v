(** Consequences of the simulation for particular constructs. *)
From Verif Require Import Base BaseFacts Bson BsonFacts Opcode Spec_Opcode OpcodeFacts Dec Float Value Spec_Value ValueFacts
  Ast Spec_Tables TableFacts VM Compile SemProg CodeGen GenFacts Sem SemWf GenLocals SimVM Sim SimRel SimFrame SimNode SimFun GenFuncs LoadFacts SimMod SimProg Spec_Sem SemFacts SimAt.

Section Use.
Variable E : ext.
Variable b : text.
Variable main : amodule.
Variable imports : list amodule.
Variable P : program.
Hypothesis HB : build b main imports = PyOk (Some P).
Hypothesis HO : program_ok b main imports = true.
Hypothesis HZ : sizes_ok b main imports = true.
Notation S := (senv_of main imports).
Section Here.
Variable A : place.
Hypothesis PO : place_ok A.
Notation EV n := (ev E S (exec E S n) (pl_m A) (Datatypes.S (List.length (pl_callers A)))).

Theorem expr_use lp g x a a' fuel st c s : placed b main imports A lp g [x] a a' -> is_stmt x = false ->
  holds P S A g (g_ip a) st c s ->
  runs E P (Datatypes.S fuel) (EV fuel x c) s
    (fun o c' s' => exists v, o = OVal v /\ holds P S A g (g_ip a') (st ++ [v]) c' s' /\ k_l c' = k_l c /\ (pure x = true -> unchanged c c')).
Proof.
  intros PL NS H. pose proof (expr_at E b main imports P HB HO HZ A lp g x a a' fuel st c s PO PL NS H) as X.
  destruct (EV fuel x c) as [o c'|e w| |] eqn:EQ; cbn [runs] in *; auto. destruct X as (n & s' & M & v & -> & HH). exists n, s'. split; [exact M|].
  exists v. split; [reflexivity|]. split; [exact HH|]. split; [eapply expr_locals, EQ|]. intros PU. eapply pure_unchanged; eassumption.
Qed.
Lemma expr_done lp g x a a' fuel st c s v c' : placed b main imports A lp g [x] a a' -> is_stmt x = false ->
  holds P S A g (g_ip a) st c s -> EV fuel x c = Done (OVal v) c' -> exists n s', many E P n s s' /\ holds P S A g (g_ip a') (st ++ [v]) c' s'.
Proof.
  intros PL NS H EQ. pose proof (expr_at E b main imports P HB HO HZ A lp g x a a' fuel st c s PO PL NS H) as X. rewrite EQ in X.
  destruct X as (n & s' & M & u & U & HH). injection U as <-. eauto.
Qed.
Lemma expr_fail lp g x a a' fuel st c s e w : placed b main imports A lp g [x] a a' -> is_stmt x = false ->
  holds P S A g (g_ip a) st c s -> EV fuel x c = Fail e w -> exists n s' tr s2, many E P n s s' /\ step E P s' = SErr e tr s2 /\ s_world s2 = w.
Proof.
  intros PL NS H EQ. pose proof (expr_at E b main imports P HB HO HZ A lp g x a a' fuel st c s PO PL NS H) as X. rewrite EQ in X. exact X.
Qed.
Lemma stmt_done lp g x a a' fuel st c s c' : placed b main imports A lp g [x] a a' ->
  holds P S A g (g_ip a) st c s -> EV fuel x c = Done ONorm c' ->
  exists n s' j, many E P n s s' /\ (is_stmt x && clean x = true -> j = []) /\ holds P S A (decls (g_scopes a) g x) (g_ip a') (st ++ j) c' s'.
Proof.
  intros PL H EQ. pose proof (stmts_at E b main imports P HB HO HZ A lp g [x] a a' fuel st c s PO PL H) as X. cbn [run_seq] in X. rewrite EQ in X. cbn [bind runs] in X.
  destruct X as (n & s' & M & HH). destruct (HH eq_refl) as (j & J & H'). exists n, s', j. split; [exact M|]. split; [|exact H'].
  intros CL. apply J. unfold lclean. cbn [forallb]. rewrite CL. reflexivity.
Qed.

Lemma evals_args f l c vs c1 : evals f l c vs c1 -> forall k, run_args f l c k = k vs c1.
Proof.
  induction 1 as [|x l c v c1 vs c2 H R IH]; intros k; [reflexivity|]. cbn. rewrite H. cbn [bindv bind]. apply (IH (fun vs c'' => k (v :: vs) c'')).
Qed.
Lemma evals_locals n l c vs c1 : evals (EV n) l c vs c1 -> k_l c1 = k_l c.
Proof. induction 1 as [|x l c v c1 vs c2 H R IH]; [reflexivity|]. rewrite IH. eapply expr_locals, H. Qed.

Theorem call_use lp g ln l n o args a a' fuel st c s vs c1 mm fd r v c2 :
  placed b main imports A lp g [NCall ln CFunction (NVar l n o false) args false] a a' ->
  holds P S A g (g_ip a) st c s ->
  evals (EV fuel) args c vs c1 -> call_target S c1 (pl_m A) n = Some (TUser mm fd) ->
  List.length vs = List.length (fd_params fd) -> (List.length (pl_callers A) < 999)%nat ->
  exec E S fuel (Body (fd_body fd)) mm (Datatypes.S (Datatypes.S (List.length (pl_callers A)))) (mkCfg (k_w c1) (k_g c1) [List.combine (fd_params fd) vs]) = Done r c2 ->
  (r = ORet v \/ r = ONorm /\ v = VBool false) ->
  exists k s', many E P k s s' /\ holds P S A g (g_ip a') (st ++ [v]) (mkCfg (k_w c2) (k_g c2) (k_l c)) s'.
Proof.
  intros PL H EV1 CT LV LC EX R. eapply expr_done; [exact PL|reflexivity|exact H|].
  cbn [ev promote]. instantiate (1 := fuel). rewrite (evals_args _ _ _ _ _ EV1). rewrite CT. cbn [call_any]. unfold call_user.
  rewrite LV, Nat.eqb_refl. cbn [negb]. replace (max_depth <=? Datatypes.S (List.length (pl_callers A)))%nat with false by (symmetry; apply Nat.leb_gt; unfold max_depth; lia).
  rewrite EX. cbn [bind]. rewrite (evals_locals _ _ _ _ _ EV1). destruct R as [-> | [-> ->]]; reflexivity.
Qed.
(** At the limit. *)
Theorem call_limit lp g ln l n o args a a' fuel st c s vs c1 mm fd :
  placed b main imports A lp g [NCall ln CFunction (NVar l n o false) args false] a a' ->
  holds P S A g (g_ip a) st c s ->
  evals (EV fuel) args c vs c1 -> call_target S c1 (pl_m A) n = Some (TUser mm fd) ->
  List.length vs = List.length (fd_params fd) -> (999 <= List.length (pl_callers A))%nat ->
  exists k s' tr s2, many E P k s s' /\ step E P s' = SErr ERecursion tr s2 /\ s_world s2 = k_w c1.
Proof.
  intros PL H EV1 CT LV LC. eapply expr_fail; [exact PL|reflexivity|exact H|].
  cbn [ev promote]. instantiate (1 := fuel). rewrite (evals_args _ _ _ _ _ EV1). rewrite CT. cbn [call_any]. unfold call_user.
  rewrite LV, Nat.eqb_refl. cbn [negb]. replace (max_depth <=? Datatypes.S (List.length (pl_callers A)))%nat with true by (symmetry; apply Nat.leb_le; unfold max_depth; lia).
  reflexivity.
Qed.

(** Options. *)
Theorem null_use lp g ln neg x nl nr ln2 a a' fuel st c s v c1 :
  (nl, nr) = (true, false) \/ (nl, nr) = (false, true) ->
  let nulo := NConst ln2 KNulo (txt "nulo") false in
  let e := NBin ln (if neg : bool then BNe else BEq) nl nr (if nl then nulo else x) (if nl then x else nulo) false in
  placed b main imports A lp g [e] a a' -> holds P S A g (g_ip a) st c s -> EV fuel x c = Done (OVal v) c1 ->
  exists k s', many E P k s s' /\ holds P S A g (g_ip a') (st ++ [VBool (xorb neg (is_none v))]) c1 s'.
Proof.
  intros NN nulo e PL H EX. assert (EQ : EV fuel e c = Done (OVal (VBool (xorb neg (is_none v)))) c1).
  { destruct NN as [NN|NN]; injection NN as -> ->; unfold e, nulo; cbn [ev promote]; (replace (lit_value KNulo (txt "nulo")) with (Some VNone) by reflexivity); cbn [bindv bind]; rewrite EX; cbn [bindv bind]; destruct neg; cbn [is_equality orb andb is_none]; rewrite ?andb_true_r; reflexivity. }
  eapply expr_done; [exact PL|reflexivity|exact H|exact EQ].
Qed.
Theorem unwrap_use lp g ln x a a' fuel st c s v c1 :
  placed b main imports A lp g [NUnwrap ln x None] a a' -> holds P S A g (g_ip a) st c s -> EV fuel x c = Done (OVal v) c1 ->
  if is_none v then exists k s' tr s2, many E P k s s' /\ step E P s' = SErr ENull tr s2 /\ s_world s2 = k_w c1
  else exists k s', many E P k s s' /\ holds P S A g (g_ip a') (st ++ [v]) c1 s'.
Proof.
  intros PL H EX. destruct (is_none v) eqn:N.
  - eapply expr_fail; [exact PL|reflexivity|exact H|]. cbn [ev]. rewrite EX. cbn [bindv bind]. rewrite N. reflexivity.
  - eapply expr_done; [exact PL|reflexivity|exact H|]. cbn [ev]. rewrite EX. cbn [bindv bind]. rewrite N. reflexivity.
Qed.
Theorem unwrap_or_use lp g ln x d a a' fuel st c s v c1 w c2 :
  placed b main imports A lp g [NUnwrap ln x (Some d)] a a' -> holds P S A g (g_ip a) st c s -> EV fuel x c = Done (OVal v) c1 -> EV fuel d c1 = Done (OVal w) c2 ->
  exists k s', many E P k s s' /\ holds P S A g (g_ip a') (st ++ [if is_none v then w else v]) c2 s'.
Proof.
  intros PL H EX ED. eapply expr_done; [exact PL|reflexivity|exact H|]. cbn [ev]. rewrite EX. cbn [bindv bind]. rewrite ED. reflexivity.
Qed.
(** Text with expressions in it. *)
Theorem fmt_use lp g ln ps a a' fuel st c s vs c1 ts :
  placed b main imports A lp g [NFmt ln ps] a a' -> holds P S A g (g_ip a) st c s -> evals (EV fuel) ps c vs c1 ->
  map (show E (w_heap (k_w c1))) vs = map Some ts ->
  exists k s', many E P k s s' /\ holds P S A g (g_ip a') (st ++ [VStr (List.concat ts)]) c1 s'.
Proof.
  intros PL H EX SH. eapply expr_done; [exact PL|reflexivity|exact H|]. cbn [ev]. instantiate (1 := fuel). rewrite (evals_args _ _ _ _ _ EX).
  assert (X : opt_map (show E (w_heap (k_w c1))) vs = Some ts).
  { clear - SH. revert ts SH. induction vs as [|v vs IH]; intros [|t ts] SH; try discriminate SH; [reflexivity|]. cbn in SH |- *. injection SH as S1 S2. rewrite S1, (IH _ S2). reflexivity. }
  unfold show_all. rewrite X. reflexivity.
Qed.

(** Loops. *)
Theorem break_use lp g ln cnd blk a a' fuel st c s c1 c2 :
  placed b main imports A lp g [NEnquanto ln cnd blk] a a' -> holds P S A g (g_ip a) st c s ->
  EV fuel cnd c = Done (OVal (VBool true)) c1 -> run_block (EV fuel) blk c1 = Done OBrk c2 ->
  exists k s' j, many E P k s s' /\ (clean blk = true -> j = []) /\ holds P S A g (g_ip a') (st ++ j) c2 s'.
Proof.
  intros PL H E1 E2. destruct (stmt_done lp g _ a a' fuel st c s c2 PL H) as (k & s' & j & M & J & H').
  - cbn [ev]. rewrite E1. cbn [bindv bind]. rewrite E2. reflexivity.
  - exists k, s', j. split; [exact M|]. split; [|exact H']. exact J.
Qed.
Theorem continue_use lp g ln cnd blk a a' fuel st c s c1 c2 c3 :
  placed b main imports A lp g [NEnquanto ln cnd blk] a a' -> holds P S A g (g_ip a) st c s ->
  EV fuel cnd c = Done (OVal (VBool true)) c1 -> run_block (EV fuel) blk c1 = Done OCont c2 ->
  EV fuel (NEnquanto ln cnd blk) c2 = Done ONorm c3 ->
  exists k s' j, many E P k s s' /\ (clean blk = true -> j = []) /\ holds P S A g (g_ip a') (st ++ j) c3 s'.
Proof.
  intros PL H E1 E2 E3. destruct (stmt_done lp g _ a a' (Datatypes.S fuel) st c s c3 PL H) as (k & s' & j & M & J & H').
  - assert (F1 : EV (Datatypes.S fuel) cnd c = Done (OVal (VBool true)) c1) by (eapply (ev_more _ _ fuel); [lia|exact E1|discriminate]).
    assert (F2 : run_block (EV (Datatypes.S fuel)) blk c1 = Done OCont c2) by (eapply (block_more _ _ fuel); [lia|exact E2|discriminate]).
    cbn [ev]. rewrite F1. cbn [bindv bind]. rewrite F2. cbn [bind]. exact E3.
  - exists k, s', j. split; [exact M|]. split; [|exact H']. exact J.
Qed.
Theorem para_use lp g ln n start stop inc blk a a' fuel st c s i c0 zs c1 :
  placed b main imports A lp g [NPara ln n start stop inc blk] a a' -> holds P S A g (g_ip a) st c s ->
  EV fuel start c = Done (OVal i) c0 ->
  rounds S (EV fuel) (pl_m A) n stop inc blk (push_scope c0 [(n, i)]) zs c1 ->
  exists k s' j, many E P k s s' /\ (clean blk = true -> j = []) /\ holds P S A g (g_ip a') (st ++ j) (pop_scope c1) s'.
Proof.
  intros PL H E1 R. destruct (stmt_done lp g _ a a' (Datatypes.S (fuel + List.length zs)) st c s (pop_scope c1) PL H) as (k & s' & j & M & J & H').
  - cbn [ev]. assert (F1 : EV (Datatypes.S (fuel + List.length zs)) start c = Done (OVal i) c0) by (eapply (ev_more _ _ fuel); [lia|exact E1|discriminate]).
    rewrite F1. cbn [bindv bind]. eapply rounds_exec, R.
  - exists k, s', j. split; [exact M|]. split; [|exact H']. exact J.
Qed.

(** The expression of a [mostra] statement. *)
Lemma placed_mostra lp g ln e post a a' : placed b main imports A lp g (NMostra ln e :: post) a a' ->
  exists a1 a2, placed b main imports A lp g [e] a1 a2 /\ g_ip a1 = g_ip a.
Proof.
  intros [(md & F & MA & BI & GM & GE & W & p1 & p2 & p3 & p4 & p5 & p6) IP SL].
  cbn [wf_seq wf] in W. apply andb_prop in W as [W1 W2]. cbn [seqm] in GE.
  destruct (gen (ctx_of imports b md) (NMostra ln e) a) as [t|] eqn:GY; [|discriminate GE].
  assert (NL : forallb noig post = true) by (eapply wn_seq; [apply Forall_forall; intros; apply wf_noig|exact W2]).
  change (gen (ctx_of imports b md) (NMostra ln e) a) with (pbind (gen (ctx_of imports b md) e (set_line a ln)) (fun s => PyOk (append_op s MOSTRA []))) in GY.
  apply pbind_ok in GY as (t1 & G1 & G2). apply pyok_inj in G2.
  assert (M : mv (fun i => (List.length (g_labels a) <= i)%nat) t1 a') by (eapply mv_trans; [apply (mv_op _ _ MOSTRA [])|rewrite G2; eapply mv_seq; [exact NL|exact GE]]).
  exists (set_line a ln), t1. split; [|reflexivity]. constructor; [|exact IP|].
  - exists md, F. split; [exact MA|]. split; [exact BI|]. split; [exact GM|]. split; [cbn [seqm]; rewrite G1; reflexivity|]. split; [cbn [wf_seq]; rewrite andb_true_r; exact W1|].
    assert (FN : fin (List.length (g_labels a)) a' F (pl_slots A)) by (constructor; auto).
    assert (FT : fin (List.length (g_labels a)) t1 F (pl_slots A)) by (eapply fin_mv; [exact M|apply Nat.le_refl|exact FN]).
    destruct FT. repeat (split; [assumption|]). intros i [Hi Hl]. apply fi_lab; [exact Hi|exact Hl].
  - assert (FN : fin (List.length (g_labels a)) a' F (pl_slots A)) by (constructor; auto).
    assert (FT : fin (List.length (g_labels a)) t1 F (pl_slots A)) by (eapply fin_mv; [exact M|apply Nat.le_refl|exact FN]).
    apply FT.
Qed.

(** The first of several statements. *)
Lemma placed_first lp g x post a a' : placed b main imports A lp g (x :: post) a a' ->
  exists a2, placed b main imports A lp g [x] a a2.
Proof.
  intros [(md & F & MA & BI & GM & GE & W & p1 & p2 & p3 & p4 & p5 & p6) IP SL].
  cbn [wf_seq] in W. apply andb_prop in W as [W1 W2]. cbn [seqm] in GE.
  destruct (gen (ctx_of imports b md) x a) as [t|] eqn:GY; [|discriminate GE].
  assert (NL : forallb noig post = true) by (eapply wn_seq; [apply Forall_forall; intros; apply wf_noig|exact W2]).
  assert (M : mv (fun i => (List.length (g_labels a) <= i)%nat) t a') by (eapply mv_seq; [exact NL|exact GE]).
  assert (FN : fin (List.length (g_labels a)) a' F (pl_slots A)) by (constructor; auto).
  assert (FT : fin (List.length (g_labels a)) t F (pl_slots A)) by (eapply fin_mv; [exact M|apply Nat.le_refl|exact FN]).
  exists t. constructor; [|exact IP|apply FT].
  exists md, F. split; [exact MA|]. split; [exact BI|]. split; [exact GM|]. split; [cbn [seqm]; rewrite GY; reflexivity|]. split; [cbn [wf_seq]; rewrite andb_true_r; exact W1|].
  destruct FT. repeat (split; [assumption|]). intros i [Hi Hl]. apply fi_lab; [exact Hi|exact Hl].
Qed.

(** A visible local variable has a value, the one the machine pushes. *)
Lemma f2_look slots loc g l n y : Forall2 (Forall2 (in_slot slots loc)) g l -> glook g n = Some y -> exists v, look l n = Some v.
Proof.
  induction 1 as [|sc lc g l H _ IH]; [discriminate|]. cbn. intros G.
  assert (X : match assoc n sc with Some _ => exists v, assoc n lc = Some v | None => assoc n lc = None end).
  { clear - H. induction H as [|[n1 y1] [n2 v2] sc lc (X & _) _ IH]; [reflexivity|]. cbn in X |- *. subst n2. destruct (text_eqb n n1); [eauto|exact IH]. }
  destruct (assoc n sc); [destruct X as [v ->]; eauto|]. rewrite X. apply IH, G.
Qed.
Theorem local_use lp g ln n o y a a' st c s : placed b main imports A lp g [NVar ln n o false] a a' ->
  glook g n = Some y -> holds P S A g (g_ip a) st c s ->
  exists v, look (k_l c) n = Some v /\ exists k s', many E P k s s' /\ holds P S A g (g_ip a') (st ++ [v]) c s'.
Proof.
  intros PL G H. destruct (ho_stack _ _ _ _ _ _ _ _ H) as (loc & rest & _ & _ & _ & F2 & _). destruct (f2_look _ _ _ _ _ _ F2 G) as (v & LK).
  exists v. split; [exact LK|]. eapply (expr_done _ _ _ _ _ O); [exact PL|reflexivity|exact H|]. cbn [ev promote]. unfold read_var, var_value. rewrite LK. reflexivity.
Qed.
End Here.

Theorem shown_reach fuel stdin pre ln e post o0 c0 c : mo_body main = pre ++ NMostra ln e :: post ->
  run_modules E S fuel 0 imports (mkCfg (mkWorld [] [] stdin) (fun _ _ => None) []) = Done o0 c0 ->
  run_seq (ev E S (exec E S fuel) None 1) pre (start_globals c0 None []) = Done ONorm c ->
  exists A a a' s0 n s j, pl_m A = None /\ pl_callers A = [] /\ place_ok A /\ placed b main imports A false [] [e] a a' /\
    main_start E P stdin s0 /\ many E P n s0 s /\ holds P S A [] (g_ip a) j c s /\ (lclean pre = true -> j = []).
Proof.
  intros BD RI RS. destruct (main_reach E b main imports P HB HO HZ fuel stdin _ _ o0 c0 c BD RI RS) as (A & a & a' & s0 & n & s & j & H1 & H2 & H3 & H4 & H5 & H6 & H7 & H8).
  destruct (placed_mostra A _ _ _ _ _ _ _ H4) as (a1 & a2 & PL & IP). rewrite <- IP in H7. exists A, a1, a2, s0, n, s, j. repeat (split; [assumption|]). assumption.
Qed.
Theorem stmt_reach fuel stdin pre x post o0 c0 c : mo_body main = pre ++ x :: post ->
  run_modules E S fuel 0 imports (mkCfg (mkWorld [] [] stdin) (fun _ _ => None) []) = Done o0 c0 ->
  run_seq (ev E S (exec E S fuel) None 1) pre (start_globals c0 None []) = Done ONorm c ->
  exists A a a' s0 n s j, pl_m A = None /\ pl_callers A = [] /\ place_ok A /\ placed b main imports A false [] [x] a a' /\
    main_start E P stdin s0 /\ many E P n s0 s /\ holds P S A [] (g_ip a) j c s /\ (lclean pre = true -> j = []).
Proof.
  intros BD RI RS. destruct (main_reach E b main imports P HB HO HZ fuel stdin _ _ o0 c0 c BD RI RS) as (A & a & a' & s0 & n & s & j & H1 & H2 & H3 & H4 & H5 & H6 & H7 & H8).
  destruct (placed_first A _ _ _ _ _ _ H4) as (a2 & PL). exists A, a, a2, s0, n, s, j. repeat (split; [assumption|]). assumption.
Qed.
End Use.

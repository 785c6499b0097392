(** Declarations of the module: the names they use and declare. *)
From Verif Require Import Base BaseFacts Dec Bson Value Ast Types Syntax Sym Exhaust Check Front Spec_Accept Spec_Scope GenLocals ValueFacts AcceptBase AcceptTypes AcceptFrame AcceptStep AcceptExpr AcceptDecl AcceptTop AcceptMod ScopeExpr ScopeInv ScopeStm.
Local Open Scope chk_scope.

Section Top.
Variable F : front_env.
Variable usa : smode -> text -> M unit.
Variable gl : nat.
Variable path : text.
Variable stf : store.
Hypothesis order_nil : f_order F [] = [].
Notation visit := (visit F usa).
Notation sinv := (sinv gl path).
Notation scoped := (scoped stf).
Notation after := (after stf).

Lemma top_level L s : sinv L s -> cx_depth (sst_cx s) = 0%nat -> exists ns c, L = [mkLevel gl ns] /\ cx_scope (sst_cx s) = gl /\
  nth_error (so_scopes (sst_st s)) gl = Some c /\ sc_up c = None /\ (forall n, assoc n ns = assoc n (sc_syms c)).
Proof.
  intros I D. pose proof (v_depth _ _ _ _ I) as DD. pose proof (v_chain _ _ _ _ I) as C. rewrite D in DD.
  inversion C as [c ns E U A Q1 Q2|sc c up ns r E U LT C' T Q1 Q2]; subst.
  - exists ns, c. auto 10.
  - pose proof (sch_ne _ _ _ _ _ C'). destruct r; [congruence|discriminate DD].
Qed.
Lemma bind_ext st st' sc n i l e : so_syms st' = so_syms st ++ l -> so_scopes st' = upd (so_scopes st) sc (bind_in n i) ++ e -> scope_get st sc n = None -> ext st st'.
Proof.
  intros SY SC FREE. constructor; [eauto|]. intros k c E. unfold scope_get in FREE.
  assert (N : nth_error (so_scopes st') k = Some (if (k =? sc)%nat then bind_in n i c else c)).
  { rewrite SC. apply nth_old. rewrite nth_upd, E. destruct (k =? sc)%nat; reflexivity. }
  rewrite N. eexists. split; [reflexivity|]. destruct (k =? sc)%nat eqn:EQ; [|auto]. apply Nat.eqb_eq in EQ. subst k. rewrite E in FREE. split; [reflexivity|].
  intros m j A. cbn. rewrite assoc_set_neq; [exact A|]. intros ->. congruence.
Qed.
Lemma top_bind st st' ns n i e c : nth_error (so_scopes st) gl = Some c -> sc_up c = None -> (forall n, assoc n ns = assoc n (sc_syms c)) ->
  so_scopes st' = upd (so_scopes st) gl (bind_in n i) ++ e -> sch gl path st' gl [mkLevel gl ((n, i) :: ns)].
Proof.
  intros E U A SC. apply sch_top with (c := bind_in n i c); [|exact U|].
  - rewrite SC. apply nth_old. rewrite nth_upd, E, Nat.eqb_refl. reflexivity.
  - intros m. cbn [assoc bind_in sc_syms]. destruct (text_eqb m n) eqn:EM.
    + apply text_eqb_eq in EM. subst m. rewrite assoc_set_eq. reflexivity.
    + rewrite A. symmetry. apply assoc_set_neq. intros ->. rewrite text_eqb_refl in EM. discriminate EM.
Qed.
Lemma top_get st st' n i e c : nth_error (so_scopes st) gl = Some c -> so_scopes st' = upd (so_scopes st) gl (bind_in n i) ++ e -> scope_get st' gl n = Some i.
Proof. intros E SC. unfold scope_get. rewrite SC, (nth_old _ _ _ (bind_in n i c)); [apply assoc_set_eq|]. rewrite nth_upd, E, Nat.eqb_refl. reflexivity. Qed.
Lemma top_declares ns n i x : assoc n ns = None -> scope_get stf gl n = Some i -> nth_error (so_syms stf) i = Some x -> s_name x = n -> declares stf [mkLevel gl ns] n i.
Proof. intros A G E N. cbn. split; [exact A|]. split; [exact G|]. split; [eauto|congruence]. Qed.

Definition Ti (x : sx) : Prop := forall L s t o s', visit x PNone None false s = COk (t, o) s' -> sinv L s -> cx_depth (sst_cx s) = 0%nat -> (nest x <= 9)%nat ->
  ext (sst_st s) (sst_st s') /\ cx_depth (sst_cx s') = 0%nat /\ (ext (sst_st s') stf -> scoped L t /\ sinv (after L t) s').

Lemma Ti_stm x : is_s (core x) = true -> is_decl x = false -> Ti x.
Proof.
  intros C ND L s t o s' V I D N. pose proof (s_step _ _ _ _ _ _ _ _ (or_introl C) ND (v_yield _ _ _ _ I) V) as ST.
  split; [eapply step_ext; exact ST|]. split; [rewrite (step_depth _ _ ST); exact D|]. intros X.
  destruct (proj1 (Q_all F usa gl path stf x) C _ _ _ _ _ _ V I ltac:(lia) X ltac:(congruence)) as (S1 & A1 & I1). auto.
Qed.
Lemma Ti_decl t n y o : core_ty y = true -> oP (fun q => is_e (core (snd q)) = true) o -> Ti (XDecl t n y o).
Proof.
  intros CY C L s t0 o0 s' V I D N.
  apply (decl_inv F usa) in V as (ty & x & ln & sd & rr & se & _ & FREE & SY & (NX & KX & MX) & _ & SC & OP & CX & REST & -> & ->); [|exact CY].
  destruct (top_level _ _ I D) as (ns & c & EL & SCX & EC & UC & AC). rewrite SCX in *. rewrite D. cbn [Nat.eqb sst_st sst_cx with_syms so_syms so_scopes].
  set (i := List.length (so_syms (sst_st s))) in *. set (n0 := lex_text n) in *.
  rewrite <- (app_nil_r (upd _ _ _)) in SC.
  assert (ID : sinv (add L n0 i) sd).
  { destruct I as [I1 I2 I3 I4 I5]. constructor; unfold noyield; rewrite ?CX; cbn; auto.
    - rewrite EL. cbn. exact D.
    - rewrite EL, SCX. cbn. eapply top_bind; eassumption. }
  assert (SE : step nowhere sd se).
  { destruct o as [[ta e]|]; [|destruct REST as (_ & -> & _); apply step_refl]. destruct REST as (tv & ov & s1 & VE & -> & _).
    pose proof (v_step _ _ _ _ _ _ _ _ (C : is_e (core e) = true) VE) as ST. destruct ST as [FR (l' & K)]. split; [exact FR|]. exists (Lexer.t_line n). cbn [reline sst_cx]. rewrite K. reflexivity. }
  assert (IE : sinv (add L n0 i) se) by (eapply sinv_step; eassumption).
  assert (XE : ext (sst_st sd) (sst_st se)) by (eapply step_ext; exact SE).
  pose proof (bind_ext _ _ _ _ _ _ _ SY SC FREE) as XS.
  assert (EX : nth_error (so_syms (sst_st sd)) i = Some x) by (rewrite SY; apply nth_last).
  assert (SYE : exists l, so_syms (sst_st se) = so_syms (sst_st s) ++ x :: l).
  { destruct (x_syms _ _ XE) as (l & ->). rewrite SY. exists l. rewrite <- app_assoc. reflexivity. }
  destruct SYE as (l & SYE).
  assert (X' : ext (sst_st s) (with_syms (sst_st se) (upd (so_syms (sst_st se)) i s_set_global))).
  { constructor; cbn [with_syms so_syms so_scopes]; [rewrite SYE; unfold i; rewrite upd_at; eauto|]. exact (x_scopes _ _ (ext_trans _ _ _ XS XE)). }
  split; [exact X'|]. split; [destruct SE as [_ (l' & ->)]; cbn [reline sst_cx cx_depth cx_scope cx_module cx_reg cx_yield]; rewrite CX; exact D|]. intros X.
  assert (IF : sinv (add L n0 i) (mkSst (with_syms (sst_st se) (upd (so_syms (sst_st se)) i s_set_global)) (sst_cx se))).
  { destruct IE as [I1 I2 I3 I4 I5]. constructor; auto. cbn [sst_st sst_cx]. assert (SS : cx_scope (sst_cx se) = gl) by (destruct SE as [_ (l' & ->)]; cbn [reline sst_cx cx_depth cx_scope cx_module cx_reg cx_yield]; rewrite CX; exact SCX). rewrite SS in *. rewrite EL in I5 |- *. cbn [add lv_scope lv_names] in *.
    inversion I5 as [c' ns' E' U' A'|? ? ? ? ? ? ? ? C' ?]; subst; [|exfalso; inversion C']. eapply sch_top; eassumption. }
  assert (GF : scope_get stf gl n0 = Some i).
  { eapply ext_get; [exact X|]. change (scope_get (sst_st se) gl n0 = Some i). eapply ext_get; [exact XE|]. eapply top_get; eassumption. }
  assert (XF : nth_error (so_syms stf) i = Some (s_set_global x)).
  { eapply ext_sym; [exact X|]. cbn [with_syms so_syms]. rewrite nth_upd, Nat.eqb_refl, SYE. unfold i. rewrite nth_at. reflexivity. }
  assert (DC : declares stf L n0 i).
  { rewrite EL. eapply top_declares; [|exact GF|exact XF|exact NX]. rewrite AC. unfold scope_get in FREE. rewrite EC in FREE. exact FREE. }
  destruct o as [[ta e]|].
  - destruct REST as (tv & ov & s1 & VE & ES & i' & x' & t' & RS & _ & _ & -> & _).
    pose proof (sinv_line _ _ _ _ (Lexer.t_line ta) ID) as ID1. destruct (vstep F usa gl path _ _ _ _ _ _ _ (C : is_e (core e) = true) VE ID1) as [I2 RV].
    assert (i' = i) as ->.
    { rewrite (sinv_resolve _ _ _ _ _ I2) in RS. rewrite EL in RS. cbn [add look lv_names assoc] in RS. rewrite text_eqb_refl in RS. congruence. }
    cbn [Spec_Scope.scoped Spec_Scope.after]. split; [|exact IF]. split; [reflexivity|]. split; [exact DC|]. apply reads_prom. exact RV.
  - destruct REST as (-> & _). cbn [Spec_Scope.scoped Spec_Scope.after]. split; [eexists; exact DC|].
    assert (EA : (match L with l :: _ => match scope_get stf (lv_scope l) n0 with Some i => add L n0 i | None => L end | [] => L end) = add L n0 i).
    { rewrite EL. cbn [lv_scope]. rewrite GF. reflexivity. }
    rewrite EA. exact IF.
Qed.
Lemma Ti_reg name l lb : forallb core_field l = true -> Ti (XReg name [] l lb).
Proof.
  intros CF L s t o s' V I D N. destruct (top_level _ _ I D) as (ns & c0 & EL & SCX & EC & UC & AC).
  apply (reg_inv F usa order_nil) in V as (rx & xs & c & gc & ln & FREE & SY & (NX & KX & MX) & _ & SC & _ & OP & CX & ->); [|exact CF|apply I|].
  2:{ rewrite SCX. apply nth_error_Some. congruence. }
  rewrite SCX in *. split; [eapply bind_ext; eassumption|]. split; [rewrite CX; exact D|]. intros X. cbn [Spec_Scope.scoped Spec_Scope.after].
  set (i := List.length (so_syms (sst_st s))) in *. split.
  - rewrite EL. eapply top_declares with (x := rx); [|eapply ext_get; [exact X|eapply top_get; eassumption]| |exact NX].
    + rewrite AC. unfold scope_get in FREE. rewrite EC in FREE. exact FREE.
    + eapply ext_sym; [exact X|]. rewrite SY. apply nth_at.
  - destruct I as [I1 I2 I3 I4 I5]. constructor; unfold noyield; rewrite ?CX; cbn; auto.
    + rewrite EL. exact D.
    + rewrite EL, SCX. cbn. eapply top_bind; eassumption.
Qed.
(** *** Functions *)
Lemma nth_params {A B} (R : A * nat -> B -> Prop) : forall ps xs, Forall2 R ps xs -> forall a k p, map snd ps = seq a (List.length ps) -> nth_error ps k = Some p ->
  exists x, nth_error xs k = Some x /\ R p x /\ snd p = (a + k)%nat.
Proof.
  induction 1 as [|p x ps xs H _ IH]; intros a k q SQ E; [destruct k; discriminate E|]. cbn [map List.length seq] in SQ. injection SQ as SA SQ.
  destruct k as [|k]; cbn in E.
  - injection E as <-. exists x. split; [reflexivity|]. split; [exact H|]. lia.
  - destruct (IH _ _ _ SQ E) as (z & E1 & R1 & S1). exists z. split; [exact E1|]. split; [exact R1|]. lia.
Qed.
Lemma assoc_nodup l : NoDup (map fst l) -> forall (n : text) (i : nat), In (n, i) l -> assoc n l = Some i.
Proof.
  induction l as [|[m j] l IH]; intros ND n i I; [destruct I|]. cbn [map fst] in ND. inversion ND as [|? ? NI ND']; subst. cbn. destruct (text_eqb n m) eqn:E.
  - apply text_eqb_eq in E. subst. destruct I as [Q|I]; [congruence|]. destruct NI. apply (in_map fst) in I. exact I.
  - destruct I as [Q|I]; [injection Q as -> ->; rewrite text_eqb_refl in E; discriminate E|auto].
Qed.
Lemma assoc_rev l : NoDup (map fst l) -> forall (n : text), @assoc nat n (rev l) = assoc n l.
Proof.
  intros ND n. destruct (assoc n l) as [i|] eqn:E.
  - apply assoc_nodup; [rewrite map_rev; apply NoDup_rev; exact ND|]. rewrite <- in_rev. apply assoc_In. exact E.
  - apply assoc_None. rewrite map_rev, <- in_rev. apply assoc_None. exact E.
Qed.
Lemma adds_rev ps : forall sc ns L, adds (mkLevel sc ns :: L) ps = mkLevel sc (rev ps ++ ns) :: L.
Proof. induction ps as [|[n i] ps IH]; intros sc ns L; [reflexivity|]. cbn. unfold adds in IH. rewrite IH. cbn. rewrite <- app_assoc. reflexivity. Qed.
Lemma params_declared ps psc L : List.length L = 1%nat -> NoDup (map fst ps) -> (forall n i, In (n, i) ps -> scope_get stf psc n = Some i) ->
  (forall k n i, nth_error ps k = Some (n, i) -> exists x, nth_error (so_syms stf) i = Some x /\ s_name x = n /\ s_out x = out_name 1 k) ->
  forall post pre, ps = pre ++ post -> declares_all stf (mkLevel psc (rev pre) :: L) post.
Proof.
  intros LL ND SG OUT. induction post as [|[n i] post IH]; intros pre E; [exact Logic.I|]. cbn [declares_all fst snd]. split.
  - cbn [declares lv_names lv_scope]. destruct (OUT (List.length pre) n i) as (x & EX & NX & OX); [rewrite E; apply nth_at|].
    split; [|split; [apply SG; rewrite E; apply in_or_app; right; left; reflexivity|split; [eauto|]]].
    + apply assoc_None. rewrite map_rev, <- in_rev. rewrite E, map_app in ND. cbn [map fst] in ND. apply NoDup_remove_2 in ND. intros IN. apply ND. apply in_or_app. left. exact IN.
    + intros _. destruct L as [|l0 [|? ?]]; try discriminate LL. unfold locals. cbn [removelast flat_map lv_names]. rewrite app_nil_r. intros IN.
      apply in_map_iff in IN as (j & EJ & IJ). apply in_map_iff in IJ as ([m j'] & EM & IM). cbn in EM. subst j'. apply in_rev in IM. apply In_nth_error in IM as (k & EK).
      assert (LK : (k < List.length pre)%nat) by (apply nth_error_Some; congruence).
      destruct (OUT k m j) as (z & EZ & _ & OZ); [rewrite E; apply nth_old; exact EK|]. unfold slot in EJ. rewrite EX, EZ in EJ.
      assert (SO : s_out z = s_out x) by congruence. rewrite OX, OZ in SO. apply out_inj in SO as [_ SO]; lia.
  - cbn [add lv_scope lv_names]. specialize (IH (pre ++ [(n, i)])). rewrite rev_app_distr in IH. cbn in IH. apply IH. rewrite E, <- app_assoc. reflexivity.
Qed.
Lemma Ti_func name ps y ans b : core (XFunc name ps y false ans (Some b)) = ShT -> is_b (core b) = true -> Ti (XFunc name ps y false ans (Some b)).
Proof.
  intros C CB L s t o s' V I D N. destruct (top_level _ _ I D) as (ns & c0 & EL & SCX & EC & UC0 & AC0). cbn [nest] in N.
  apply (func_inv F usa) in V as (ty & ps' & fx & xs & c & ln & s1 & tb & ob & s2 & _ & FREE & SY & (NX & KX & MX & BX) & _ & SQ & ND & PA & SC & UC & AC & OP & CX & VB & -> & -> & _ & GX & PS & LG & LO); [|exact C].
  rewrite SCX in *. set (psc := List.length (so_scopes (sst_st s))) in *. set (fi := List.length (so_syms (sst_st s))) in *. set (n0 := lex_text name) in *.
  pose proof (bind_ext _ _ _ _ _ _ _ SY SC FREE) as X1.
  assert (NPSC : nth_error (so_scopes (sst_st s1)) psc = Some c).
  { rewrite SC. rewrite nth_error_app2, upd_len by (rewrite upd_len; unfold psc; lia). unfold psc. rewrite Nat.sub_diag. reflexivity. }
  assert (NR : Forall noreg (fx :: xs)) by (constructor; [intros f ms tp K; congruence|eapply parm_noreg; exact PA]).
  assert (ST : step (eq psc) s1 s2).
  { destruct (P_all F usa b) as [_ PB]. destruct (PB CB) as [_ B2]. eapply B2 with (c := c); [|exact NPSC|rewrite CX; cbn; rewrite SCX; exact UC|exact VB].
    unfold noyield. rewrite CX. cbn. apply I. }
  pose proof (frame_ext _ _ _ (proj1 ST)) as X2. cbn [with_func sst_st sst_cx cx_depth].
  split; [exact (ext_trans _ _ _ X1 X2)|]. split; [destruct ST as [_ (l' & ->)]; cbn [reline sst_cx cx_depth cx_scope cx_module cx_reg cx_yield]; rewrite CX; exact D|]. intros X.
  pose proof (ext_trans _ _ _ X2 X) as X1F.
  assert (EFX : nth_error (so_syms (sst_st s1)) fi = Some fx) by (rewrite SY; apply nth_at). pose proof (ext_sym _ _ _ _ X1F EFX) as EFS.
  assert (GF : scope_get stf gl n0 = Some fi) by (eapply ext_get; [exact X1F|eapply top_get; eassumption]).
  assert (CH1 : sch gl path (sst_st s1) gl (add L n0 fi)) by (rewrite EL; cbn; eapply top_bind; eassumption).
  assert (GLT : (gl < psc)%nat) by (unfold psc; apply nth_error_Some; congruence).
  assert (PAR : forall k n i, nth_error ps' k = Some (n, i) -> exists x t, nth_error (so_syms (sst_st s1)) i = Some x /\ s_name x = n /\ s_kind x = SVar t /\ s_mod x = path /\ s_global x = false /\ s_out x = out_name 1 k).
  { intros k n i E. destruct (nth_params _ _ _ PA _ _ _ SQ E) as (x & EX & (P1 & P2 & t & P3 & _) & EI). cbn [fst snd] in *. exists x, t.
    assert (E1 : nth_error (so_syms (sst_st s1)) i = Some x).
    { rewrite SY, EI. rewrite nth_error_app2 by (fold fi; lia). replace (S fi + k - List.length (so_syms (sst_st s)))%nat with (S k) by (fold fi; lia). exact EX. }
    split; [exact E1|]. split; [exact P1|]. split; [exact P3|]. split; [rewrite P2; apply I|]. split.
    - rewrite Forall_forall in LG. apply LG. eapply nth_error_In; exact EX.
    - clear - LO EX. assert (G : forall a l, Forall2 (fun k x => s_out x = out_name 1 k) (seq a (List.length l)) l -> forall k, nth_error l k = Some x -> s_out x = out_name 1 (a + k)).
      { intros a l. revert a. induction l as [|z l IH]; intros a H q E; [destruct q; discriminate E|]. cbn in H. inversion H; subst. destruct q as [|q]; cbn in E.
        - injection E as ->. rewrite Nat.add_0_r. assumption.
        - rewrite <- Nat.add_succ_comm. apply IH; assumption. }
      apply (G 0%nat _ LO _ EX). }
  assert (IB : sinv (mkLevel psc (rev ps') :: add L n0 fi) (at_scope s1 (S (cx_depth (sst_cx s1))) psc)).
  { constructor; cbn [at_scope sst_st sst_cx cx_module cx_reg cx_depth cx_scope]; unfold noyield; cbn [at_scope sst_st sst_cx cx_yield]; rewrite ?CX; cbn; try apply I.
    - rewrite EL. cbn. rewrite D. reflexivity.
    - eapply sch_in; [exact NPSC|exact UC|exact GLT|exact CH1|]. split; [intros n; rewrite PS; apply assoc_rev; exact ND|].
      assert (LN : List.length (add L n0 fi) = 1%nat) by (rewrite EL; reflexivity). rewrite LN. exists (rev (seq 0 (List.length ps'))). split.
      + assert (G : forall l a, (forall k n i, nth_error l k = Some (n, i) -> loc_sym path (sst_st s1) 1 (a + k) n i) -> Forall2 (fun (e : text * nat) (k : nat) => loc_sym path (sst_st s1) 1 k (fst e) (snd e)) (rev l) (rev (seq a (List.length l)))).
        { induction l as [|[n i] l IH]; intros a H; [constructor|]. cbn [rev List.length seq]. apply Forall2_app.
          - apply IH. intros k m j E. rewrite Nat.add_succ_comm. apply H. exact E.
          - constructor; [|constructor]. cbn [fst snd]. rewrite <- (Nat.add_0_r a). apply H. reflexivity. }
        apply G. intros k n i E. exact (PAR _ _ _ E).
      + rewrite PS. apply Forall_rev. rewrite Forall_forall. intros k IK. apply in_seq in IK. lia. }
  destruct (proj2 (proj2 (Q_all F usa gl path stf b)) CB) as [_ K2].
  destruct (K2 _ _ _ _ _ _ _ _ VB IB) as (ch & -> & IO); [rewrite CX; cbn; rewrite D; exact N|exact X|].
  cbn [Spec_Scope.scoped Spec_Scope.after]. rewrite EFS, NX. split.
  - exists fx, ty, ps'. split; [reflexivity|]. split; [exact KX|]. rewrite NX. split; [|split; [|split]].
    + rewrite EL. eapply top_declares; [|exact GF|exact EFS|exact NX]. rewrite AC0. unfold scope_get in FREE. rewrite EC in FREE. exact FREE.
    + apply (ext_inside (sst_st s1)); [exact X1F|]. rewrite EL. unfold inside. cbn. rewrite NPSC. exact UC.
    + apply (params_declared ps' psc) with (pre := []); [rewrite EL; reflexivity|exact ND| | |reflexivity].
      * intros n i IN. eapply ext_get; [exact X1F|]. unfold scope_get. rewrite NPSC, PS. apply assoc_nodup; assumption.
      * intros k n i E. destruct (PAR _ _ _ E) as (x & t & E1 & N1 & _ & _ & _ & O1). exists x. split; [eapply ext_sym; eassumption|auto].
    + rewrite adds_rev, app_nil_r. exact IO.
  - constructor; unfold noyield; cbn [with_func sst_st sst_cx cx_module cx_reg cx_depth cx_scope cx_yield].
    + destruct ST as [_ (l' & ->)]. cbn [reline sst_cx cx_depth cx_scope cx_module cx_reg cx_yield]. rewrite CX. apply I.
    + destruct ST as [_ (l' & ->)]. cbn [reline sst_cx cx_depth cx_scope cx_module cx_reg cx_yield]. rewrite CX. apply I.
    + destruct ST as [_ (l' & ->)]. cbn [reline sst_cx cx_depth cx_scope cx_module cx_reg cx_yield]. rewrite CX. apply I.
    + rewrite EL. destruct ST as [_ (l' & ->)]. cbn [reline sst_cx cx_depth cx_scope cx_module cx_reg cx_yield]. rewrite CX. exact D.
    + assert (SS : cx_scope (sst_cx s2) = gl) by (destruct ST as [_ (l' & ->)]; cbn [reline sst_cx cx_depth cx_scope cx_module cx_reg cx_yield]; rewrite CX; exact SCX). rewrite SS.
      eapply sch_frame; [exact (proj1 ST)| |exact CH1]. intros k LK <-. lia.
Qed.
Lemma item_sc x : is_t (core x) = true -> Ti x.
Proof.
  intros C. destruct (core_top x C) as [[CS ND]|[(t0 & n & y & o0 & -> & CY & CO)|[(name & ps & y & ans & b & -> & CT & CB)|(name & l & lb & -> & CF)]]].
  - apply Ti_stm; assumption.
  - apply Ti_decl; assumption.
  - apply Ti_func; assumption.
  - apply Ti_reg; assumption.
Qed.
End Top.
Section Items.
Variable F : front_env.
Variable usa : smode -> text -> M unit.
Variable gl : nat.
Variable path : text.
Hypothesis order_nil : f_order F [] = [].
Lemma items_sc l : forall stf L s body s', forallb (fun x => is_t (core x)) l = true -> Forall (fun x => nest x <= 9)%nat l -> visit_all F usa l s = COk body s' ->
  sinv gl path L s -> cx_depth (sst_cx s) = 0%nat -> ext (sst_st s') stf -> ext (sst_st s) stf /\ in_order stf (scoped stf) L body.
Proof.
  induction l as [|x l IH]; intros stf L s body s' C N V I D X.
  - unfold visit_all in V. cbn in V. injection V as <- <-. split; [exact X|exact Logic.I].
  - cbn [forallb] in C. apply andb_prop in C as [CX CL]. inversion N as [|? ? NX NL]; subst. apply items_cons in V as (t & o & s1 & ts & V1 & V2 & ->).
    pose proof (fun stf => item_sc F usa gl path stf order_nil x CX _ _ _ _ _ V1 I D NX) as TI.
    destruct (TI (sst_st s1)) as (X1 & D1 & J1). destruct (J1 (ext_refl _)) as (_ & I1).
    (* the rest does not depend on what is known of the end *)
    assert (XR : ext (sst_st s1) stf).
    { eapply IH; [exact CL|exact NL|exact V2| |exact D1|exact X]. exact I1. }
    destruct (TI stf) as (_ & _ & J). destruct (J XR) as (S1 & I1'). split; [exact (ext_trans _ _ _ X1 XR)|].
    cbn [in_order]. split; [exact S1|]. eapply IH; eassumption.
Qed.
End Items.

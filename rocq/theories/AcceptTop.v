(** Accepted declarations at the top level are well typed. *)
From Verif Require Import Base BaseFacts Dec Bson Value Ast Types Syntax Sym Exhaust Check Front Sem Spec_Types Spec_Typing Spec_Accept GenLocals ValueFacts AcceptBase AcceptTypes AcceptExpr AcceptFrame AcceptStep AcceptStm AcceptDecl.
Local Open Scope chk_scope.

Section Top.
Variable F : front_env.
Variable usa : smode -> text -> M unit.
Variable gl tyc : nat.
Variable path lib : text.
Variable S : senv.
Variable stf : store.    (* the store at the end *)
Hypothesis own_names : forall n i x, scope_get stf gl n = Some i -> nth_error (so_syms stf) i = Some x -> s_mod x = path -> se_imp S None n = None.
Hypothesis lib_names : forall n i x, scope_get stf gl n = Some i -> nth_error (so_syms stf) i = Some x -> s_mod x = lib -> s_name x = n ->
  se_imp S None n = Some (0%N, n) /\ se_fun S (Some 0%N) n = None.
Hypothesis prim_names : forall i x p, nth_error (so_syms stf) i = Some x -> s_kind x = SPrim p -> s_name x = prim_name p.
Hypothesis order_nil : f_order F [] = [].
Notation tvalid := (tvalid gl path).
Notation lk := (lk gl path lib).
Notation visit := (visit F usa).
Notation R := (R gl stf).
Notation base := (base gl tyc path lib).
Notation inv := (inv gl tyc path lib).

(** ** The store grows *)
Record OI (s : sst) : Prop := mkOI {
  o_gl : cx_global (sst_cx s) = gl;
  o_scope : cx_scope (sst_cx s) = gl;
  o_depth : cx_depth (sst_cx s) = 0%nat;
  o_reg : cx_reg (sst_cx s) = false;
  o_func : cx_func (sst_cx s) = None;
  o_yield : cx_yield (sst_cx s) = None;
  o_loop : cx_loop (sst_cx s) = false;
  o_path : cx_module (sst_cx s) = path;
  o_ty : cx_ty (sst_cx s) = tyc;
  o_glt : (gl < List.length (so_scopes (sst_st s)))%nat;
  o_tyt : (tyc < List.length (so_scopes (sst_st s)))%nat;
  o_recs : recs_ok (sst_st s) (fun k => k = gl \/ k = tyc)
}.
Definition more (st st' : store) : Prop := sext st st' /\ exists l, so_syms st' = so_syms st ++ l.
Lemma more_refl st : more st st.
Proof. split; [apply sext_refl|]. exists []. rewrite app_nil_r. reflexivity. Qed.
Lemma more_trans a b c : more a b -> more b c -> more a c.
Proof. intros [X1 (l1 & E1)] [X2 (l2 & E2)]. split; [eapply sext_trans; eassumption|]. exists (l1 ++ l2). rewrite E2, E1, app_assoc. reflexivity. Qed.
Lemma frame_more w st st' : frame w st st' -> recs_ok st w -> more st st'.
Proof. intros FR RO. split; [eapply frame_sext; eassumption|]. destruct (f_syms _ _ _ FR) as (l & E & _). eauto. Qed.
(** Adding a name to the global scope, and new scopes. *)
Lemma bind_more st st' n i l r : so_syms st' = so_syms st ++ l -> so_scopes st' = upd (so_scopes st) gl (bind_in n i) ++ r -> so_opcao st' = so_opcao st ->
  scope_get st gl n = None -> recs_ok st (fun k => k = gl \/ k = tyc) -> more st st'.
Proof.
  intros SY SC OP FREE RO. assert (SCK : forall k c, nth_error (so_scopes st) k = Some c -> nth_error (so_scopes st') k = Some (if (k =? gl)%nat then bind_in n i c else c)).
  { intros k c E. rewrite SC, nth_error_app1 by (rewrite upd_len; apply nth_error_Some; congruence). rewrite nth_upd, E. destruct (k =? gl)%nat; reflexivity. }
  split; [|eauto]. constructor.
  - intros j x E. exists x. rewrite SY. split; [apply nth_old; exact E|auto].
  - intros k c E. exists (if (k =? gl)%nat then bind_in n i c else c). split; [apply SCK; exact E|]. destruct (k =? gl)%nat eqn:KG; [|auto]. split; [reflexivity|].
    apply Nat.eqb_eq in KG. subst k. intros m j A. cbn. rewrite assoc_set_neq; [exact A|]. intros ->. unfold scope_get in FREE. rewrite E in FREE. congruence.
  - intros j x f ms tp E K. destruct (RO _ _ _ _ _ E K) as [LT NW]. rewrite SC, nth_error_app1 by (rewrite upd_len; exact LT). rewrite nth_upd.
    destruct (f =? gl)%nat eqn:FG; [apply Nat.eqb_eq in FG; tauto|reflexivity].
  - exact OP.
Qed.
Lemma recs_grow st st' l w : so_syms st' = so_syms st ++ l -> (List.length (so_scopes st) <= List.length (so_scopes st'))%nat -> recs_ok st w ->
  (forall x f ms tp, In x l -> s_kind x = SReg f ms tp -> (f < List.length (so_scopes st'))%nat /\ ~ w f) -> recs_ok st' w.
Proof.
  intros SY LE RO HN i x f ms tp E K. rewrite SY in E. destruct (Nat.lt_ge_cases i (List.length (so_syms st))) as [LT|GE].
  - rewrite nth_error_app1 in E by exact LT. destruct (RO _ _ _ _ _ E K). split; [lia|assumption].
  - rewrite nth_error_app2 in E by exact GE. apply nth_error_In in E. eapply HN; eassumption.
Qed.
Lemma noreg_in l : Forall noreg l -> forall x f ms tp, In x l -> s_kind x <> SReg f ms tp.
Proof. intros H x f ms tp I. rewrite Forall_forall in H. apply H. exact I. Qed.
Lemma OI_kept s s' : OI s -> kept s s' -> (List.length (so_scopes (sst_st s)) <= List.length (so_scopes (sst_st s')))%nat -> 
  recs_ok (sst_st s') (fun k => k = gl \/ k = tyc) -> OI s'.
Proof. intros [] (ln & CX) LE RO. constructor; rewrite ?CX; cbn; auto; lia. Qed.
Lemma OI_step s s' : OI s -> step nowhere s s' -> OI s' /\ more (sst_st s) (sst_st s').
Proof.
  intros O [FR K]. split.
  - eapply OI_kept; [exact O|exact K|eapply frame_len; exact FR|]. eapply (recs_frame usa gl lib S stf lib_names prim_names); [exact FR|apply O].
  - eapply frame_more; [exact FR|]. eapply recs_weak; [|apply O]. intros k [].
Qed.
Lemma core_top x : is_t (core x) = true ->
  (is_s (core x) = true /\ is_decl x = false) \/
  (exists t n y o, x = XDecl t n y o /\ core_ty y = true /\ oP (fun q => is_e (core (snd q)) = true) o) \/
  (exists name ps y ans b, x = XFunc name ps y false ans (Some b) /\ core x = ShT /\ is_b (core b) = true) \/
  (exists name l lb, x = XReg name [] l lb /\ forallb core_field l = true).
Proof.
  assert (ND : is_decl x = false -> core x <> ShT -> is_t (core x) = true -> is_s (core x) = true /\ is_decl x = false).
  { intros D NT C. split; [|exact D]. destruct (core x); try discriminate C; try congruence; reflexivity. }
  intros C. destruct x; try (left; apply ND; [reflexivity| |exact C]; cbn; repeat match goal with |- context[match ?b with _ => _ end] => destruct b end; discriminate); try discriminate C.
  - right. left. exists t, name, ty, init. split; [reflexivity|]. cbn in C. destruct init as [[ta e]|].
    + destruct (core_ty ty && is_e (core e)) eqn:W; [|discriminate C]. apply andb_prop in W as [W1 W2]. split; assumption.
    + destruct (core_ty ty) eqn:W; [|discriminate C]. split; [reflexivity|exact I].
  - right. right. left. destruct native; [discriminate C|]. destruct blk as [b|]; [|discriminate C]. exists name, params, ty, ans, b. split; [reflexivity|]. cbn in C |- *.
    destruct (_ && is_b (core b)) eqn:W; [|discriminate C]. split; [reflexivity|]. apply andb_prop in W. tauto.
  - right. right. right. destruct gparams; [|discriminate C]. exists name, fields, ans. split; [reflexivity|]. cbn in C. destruct (forallb core_field fields); [reflexivity|discriminate C].
Qed.

(** *** Each item *)
Lemma decl_op t n y o again s t0 o0 s' : core_ty y = true -> oP (fun q => is_e (core (snd q)) = true) o -> OI s ->
  visit (XDecl t n y o) PNone None again s = COk (t0, o0) s' -> OI s' /\ more (sst_st s) (sst_st s').
Proof.
  intros CY CO O V. apply (decl_inv F usa) in V as (ty & x & ln & sd & rr & se & _ & FREE & SY & (NX & KX & MX) & T & SC & OP & CX & HI & -> & _); [|exact CY].
  rewrite (o_scope _ O) in *. rewrite (o_depth _ O). cbn [Nat.eqb].
  assert (XP : xp sd se).
  { destruct o as [[ta e]|]; [|destruct HI as (_ & -> & _); apply xp_refl]. destruct HI as (tv & ov & s1 & V & -> & _).
    apply (K_all F usa) in V; [|apply is_e_is_a; exact CO]. eapply xp_trans; [|eapply xp_trans; [exact V|]]; (split; [exists []; rewrite app_nil_r; auto|]; split; [reflexivity|]; split; [reflexivity|eexists; reflexivity]). }
  destruct XP as ((l & SYE & NR) & SCE & OPE & (ln2 & CXE)). set (st' := with_syms (sst_st se) _).
  assert (SY' : so_syms st' = so_syms (sst_st s) ++ s_set_global x :: l) by (cbn; rewrite SYE, SY, <- app_assoc; cbn [app]; apply upd_at).
  assert (SC' : so_scopes st' = upd (so_scopes (sst_st s)) gl (bind_in (lex_text n) (List.length (so_syms (sst_st s)))) ++ []) by (rewrite app_nil_r; cbn; congruence).
  split.
  - eapply OI_kept; [exact O| | |].
    + exists ln2. cbn [sst_cx]. rewrite CXE. unfold reline. cbn. rewrite CX. reflexivity.
    + cbn [sst_st]. rewrite SC', app_nil_r, upd_len. lia.
    + eapply recs_grow; [exact SY'|cbn [sst_st]; rewrite SC', app_nil_r, upd_len; lia|apply O|]. intros z f ms tp [<-|I] K; [cbn in K; congruence|].
      destruct (noreg_in _ NR _ _ _ _ I K).
  - eapply bind_more; [exact SY'|exact SC'|cbn; congruence|exact FREE|apply O].
Qed.
Lemma func_op name ps y ans b again s t o s' : core (XFunc name ps y false ans (Some b)) = ShT -> is_b (core b) = true -> OI s ->
  visit (XFunc name ps y false ans (Some b)) PNone None again s = COk (t, o) s' -> OI s' /\ more (sst_st s) (sst_st s').
Proof.
  intros C CB O V. apply (func_inv F usa) in V as (ty & ps' & fx & xs & c & ln & s1 & tb & ob & s2 & _ & FREE & SY & (NX & KX & MX & BX) & TI & SQ & ND & PA & SC & UC & AC & OP & CX & VB & -> & _); [|exact C].
  rewrite (o_scope _ O) in *. assert (NR : Forall noreg (fx :: xs)) by (constructor; [intros f ms tp K; congruence|eapply parm_noreg; exact PA]).
  assert (LS : (List.length (so_scopes (sst_st s)) < List.length (so_scopes (sst_st s1)))%nat) by (rewrite SC, app_length, upd_len; cbn; lia).
  assert (RO1 : recs_ok (sst_st s1) (fun k => k = gl \/ k = tyc)).
  { eapply recs_grow; [exact SY|lia|apply O|]. intros z f ms tp I K. destruct (noreg_in _ NR _ _ _ _ I K). }
  assert (RO2 : recs_ok (sst_st s1) (eq (List.length (so_scopes (sst_st s))))).
  { eapply recs_grow with (w := eq _); [exact SY|lia| |]; [|intros z f ms tp I K; destruct (noreg_in _ NR _ _ _ _ I K)].
    intros i x f ms tp E K. destruct (o_recs _ O _ _ _ _ _ E K). split; [assumption|]. lia. }
  assert (ST : step (eq (List.length (so_scopes (sst_st s)))) s1 s2).
  { destruct (P_all F usa b) as [_ PB]. destruct (PB CB) as [_ B2]. eapply B2 with (c := c); [|rewrite SC|rewrite CX; cbn; rewrite (o_scope _ O); exact UC|exact VB].
    - unfold noyield. rewrite CX. cbn. apply O.
    - rewrite nth_error_app2, upd_len, Nat.sub_diag by (rewrite upd_len; lia). reflexivity. }
  destruct ST as [FR (ln2 & CX2)]. pose proof (frame_len _ _ _ FR) as LS2. split.
  - eapply OI_kept; [exact O| | |].
    + exists ln2. unfold with_func, reline. cbn. rewrite CX2. cbn. rewrite CX. reflexivity.
    + cbn. lia.
    + cbn. eapply (recs_frame usa gl lib S stf lib_names prim_names); [exact FR|exact RO1].
  - eapply more_trans; [eapply bind_more; [exact SY|exact SC|exact OP|exact FREE|apply O]|]. cbn. eapply frame_more; [exact FR|exact RO2].
Qed.
Lemma reg_op name l lb again s t o s' : forallb core_field l = true -> OI s ->
  visit (XReg name [] l lb) PNone None again s = COk (t, o) s' -> OI s' /\ more (sst_st s) (sst_st s').
Proof.
  intros CF O V. apply (reg_inv F usa order_nil) in V as (rx & xs & c & gc & ln & FREE & SY & (NX & KX & MX) & NR & SC & FE & OP & CX & _);
    [|exact CF|apply O|rewrite (o_scope _ O); apply O]. rewrite (o_scope _ O) in *.
  split.
  - eapply OI_kept; [exact O|exists ln; exact CX|rewrite SC, app_length, upd_len; lia|].
    eapply recs_grow; [exact SY|rewrite SC, app_length, upd_len; lia|apply O|]. intros z f ms tp [<-|I] K; [|destruct (noreg_in _ NR _ _ _ _ I K)].
    rewrite KX in K. injection K as <- <- <-. rewrite SC, app_length, upd_len. cbn. pose proof (o_glt _ O). pose proof (o_tyt _ O). lia.
  - eapply bind_more; [exact SY|exact SC|exact OP|exact FREE|apply O].
Qed.
Lemma item_op x s t o s' : is_t (core x) = true -> OI s -> visit x PNone None false s = COk (t, o) s' -> OI s' /\ more (sst_st s) (sst_st s').
Proof.
  intros C O V. destruct (core_top x C) as [[CS ND]|[(t0 & n & y & o0 & -> & CY & CO)|[(name & ps & y & ans & b & -> & CT & CB)|(name & l & lb & -> & CF)]]].
  - apply OI_step; [exact O|]. destruct (P_all F usa x) as [PX _]. eapply step_weak; [|eapply PX; [left; exact CS|apply O|congruence|exact V]].
    intros k [D _]. congruence.
  - eapply decl_op; eassumption.
  - eapply func_op; eassumption.
  - eapply reg_op; eassumption.
Qed.

(** ** What holds between items *)
Definition regs_bound (st : store) : Prop := forall i x f ms tp, nth_error (so_syms st) i = Some x -> s_kind x = SReg f ms tp -> s_mod x = path ->
  ms = [] /\ tp = [] /\ scope_get st gl (s_name x) = Some i.
Lemma known_tin st t : regs_bound st -> (forall i, so_opcao st = Some i -> exists x, nth_error (so_syms st) i = Some x /\ s_name x = ty_opcao_name) ->
  sext st stf -> known stf path t = true -> tin (List.length (so_syms st)) t -> tvalid st t.
Proof.
  intros RB OC SX. revert t. fix IH 1. intros [p|t|i|i|g l|n|p] K T; cbn [known] in K; try discriminate K.
  - apply andb_prop in K as [K1 K2]. split; intros ->; discriminate.
  - exact (IH t K T).
  - cbn in T. destruct (nth_error (so_syms st) i) as [x|] eqn:E; [|apply nth_error_None in E; lia].
    destruct (sx_sym _ _ SX _ _ E) as (x' & E' & N' & K' & M'). unfold symbol_at in K. rewrite E' in K. apply andb_prop in K as [K1 K2]. apply text_eqb_eq in K1.
    rewrite K' in K2. destruct (s_kind x) eqn:KX; try discriminate K2. rewrite M' in K1. destruct (RB _ _ _ _ _ E KX K1) as (-> & -> & SG).
    exists x, fields. auto.
  - destruct g as [| |i| | | |]; try discriminate K. destruct l as [|[n t] [|? ?]]; try discriminate K. rewrite !andb_true_iff in K. destruct K as [[K1 K2] K3].
    destruct (so_opcao stf) as [j|] eqn:OP; [|discriminate K1]. apply Nat.eqb_eq in K1. subst j. apply text_eqb_eq in K2. subst n. rewrite (sx_opc _ _ SX) in OP.
    destruct (OC _ OP) as (x & E & N). cbn. split; [exact OP|]. split; [reflexivity|]. split; [eauto|]. exact (IH t K3 T).
Qed.
Record T (g : genv) (s : sst) : Prop := mkT {
  t_oi : OI s;
  t_base : base (sst_st s) g;
  t_regs : regs_bound (sst_st s);
  t_free : forall n, scope_get (sst_st s) gl n = None -> assoc n (ge_var g) = None /\ assoc n (ge_fun g) = None /\ ~ In n (ge_rec g);
  t_fns : forall n, builtin_fn n <> None -> scope_get (sst_st s) gl n <> None
}.
Lemma T_inv g s ret : T g s -> inv ret (top_env g) s.
Proof.
  intros [[] B _ _ _]. constructor; auto; cbn.
  - rewrite o_scope0. constructor.
  - rewrite o_func0. reflexivity.
  - congruence.
Qed.
Definition agree (n0 : text) (g g' : genv) : Prop := forall n, n <> n0 ->
  assoc n (ge_var g') = assoc n (ge_var g) /\ assoc n (ge_fun g') = assoc n (ge_fun g) /\ (In n (ge_rec g) -> In n (ge_rec g')).
Lemma lk_more st st' g g' n0 n i x x' : sext st st' -> agree n0 g g' -> n <> n0 -> sim x x' -> lk st (top_env g) n i x -> lk st' (top_env g') n i x'.
Proof.
  intros SX AG NE (NX & KX & MX). destruct (AG n NE) as (AV & AF & AR). unfold AcceptExpr.lk. rewrite KX, MX. destruct (s_kind x); auto.
  - intros H M. destruct (H M) as [V TY]. destruct (tvalid_ext gl path _ _ _ SX V) as [V' E']. rewrite E'. split; [exact V'|]. unfold var_type in *. cbn in *. congruence.
  - intros (TL & SG & HO & HL). split; [exact TL|]. split; [eapply sext_get; eassumption|]. split.
    + intros M. destruct (HO M) as (BF & V & ts & PT & GF). destruct (tvalid_ext gl path _ _ _ SX V) as [V' E']. split; [exact BF|]. split; [exact V'|].
      exists ts. rewrite E'. split; [|cbn in *; congruence]. unfold ptypes in *. eapply Forall2_imp; [|exact PT]. cbn. intros p t (y & c & E & K & VC & ->).
      destruct (tvalid_ext gl path _ _ _ SX VC) as [VC' EC]. destruct (sx_sym _ _ SX _ _ E) as (y' & E2 & _ & K2 & _). exists y', c. split; [exact E2|]. split; [congruence|auto].
    + intros M. destruct (HL M) as (ML & HB). split; [exact ML|]. intros BF. destruct (HB BF) as (pts & r' & NS & ER & NP). exists pts, r'. split; [exact NS|]. split; [exact ER|].
      unfold nparams in *. eapply Forall2_imp; [|exact NP]. cbn. intros p q (y & E & K). destruct (sx_sym _ _ SX _ _ E) as (y' & E2 & _ & K2 & _). exists y'. split; [exact E2|congruence].
  - intros (TL & HO). split; [exact TL|]. intros M. destruct (HO M) as [BF IN]. split; [exact BF|]. cbn in *. auto.
Qed.
(** The name [n] is added to the global scope. *)
Lemma bind_get st st' n i r m : so_scopes st' = upd (so_scopes st) gl (bind_in n i) ++ r -> (gl < List.length (so_scopes st))%nat ->
  scope_get st' gl m = if text_eqb m n then Some i else scope_get st gl m.
Proof.
  intros SC LT. unfold scope_get. rewrite SC, nth_error_app1 by (rewrite upd_len; exact LT). rewrite nth_upd, Nat.eqb_refl.
  destruct (nth_error (so_scopes st) gl) as [c|] eqn:E; [|apply nth_error_None in E; lia]. cbn. destruct (text_eqb m n) eqn:MN.
  - apply text_eqb_eq in MN. subst. apply assoc_set_eq.
  - apply assoc_set_neq. intros ->. rewrite text_eqb_refl in MN. discriminate MN.
Qed.
Lemma base_more st st' g g' n x l r : base st g -> sext st st' -> agree n g g' -> so_syms st' = so_syms st ++ x :: l -> s_name x = n ->
  so_scopes st' = upd (so_scopes st) gl (bind_in n (List.length (so_syms st))) ++ r -> 
  lk st' (top_env g') n (List.length (so_syms st)) x -> Forall noreg l ->
  (forall f ms tp, s_kind x = SReg f ms tp -> ((f < List.length (so_scopes st'))%nat /\ f <> gl /\ f <> tyc) /\ (s_mod x = path -> ms = [] /\ tp = [] /\
    forall m j, assoc m (fields_of st' f) = Some j -> exists y c, nth_error (so_syms st') j = Some y /\ s_kind y = SVar c /\ tvalid st' c)) -> base st' g'.
Proof.
  intros B SX AG SY NX SC LK NR HR. destruct (b_gl _ _ _ _ _ _ B) as (cg & EG & UG). destruct (b_ty _ _ _ _ _ _ B) as (ct & ET & YT & UT).
  assert (LG : (gl < List.length (so_scopes st))%nat) by (apply nth_error_Some; congruence).
  assert (SG : forall m, scope_get st' gl m = if text_eqb m n then Some (List.length (so_syms st)) else scope_get st gl m) by (intros; eapply bind_get; eassumption).
  assert (GOLD : forall m i, scope_get st gl m = Some i -> scope_get st' gl m = Some i) by (intros; eapply sext_get; eassumption).
  assert (SO : forall i z, nth_error (so_syms st) i = Some z -> nth_error (so_syms st') i = Some z) by (intros; rewrite SY; apply nth_old; assumption).
  assert (NEWR : forall i z f ms tp, nth_error (so_syms st') i = Some z -> s_kind z = SReg f ms tp -> nth_error (so_syms st) i = Some z \/ z = x).
  { intros i z f ms tp E K. rewrite SY in E. destruct (Nat.lt_ge_cases i (List.length (so_syms st))) as [LT|GE]; [rewrite nth_error_app1 in E; auto|].
    rewrite nth_error_app2 in E by exact GE. apply nth_error_In in E as [<-|I]; [auto|]. destruct (noreg_in _ NR _ _ _ _ I K). }
  assert (LS : (List.length (so_scopes st) <= List.length (so_scopes st'))%nat) by (rewrite SC, app_length, upd_len; lia).
  constructor.
  - destruct (sx_scope _ _ SX _ _ EG) as (c' & E' & U' & _). exists c'. split; [exact E'|congruence].
  - exists ct. split; [|auto]. rewrite SC, nth_error_app1 by (rewrite upd_len; apply nth_error_Some; congruence). rewrite nth_upd.
    destruct (tyc =? gl)%nat eqn:TG; [apply Nat.eqb_eq in TG; destruct (b_apart _ _ _ _ _ _ B); congruence|exact ET].
  - apply B.
  - intros m i H. rewrite SG in H. destruct (text_eqb m n) eqn:MN.
    + apply text_eqb_eq in MN. subst m. injection H as <-. exists x. split; [rewrite SY; apply nth_at|]. split; [exact NX|exact LK].
    + destruct (b_glob _ _ _ _ _ _ B _ _ H) as (z & E & N & LZ). exists z. split; [apply SO; exact E|]. split; [exact N|].
      eapply lk_more; [exact SX|exact AG| |repeat split|exact LZ]. intros ->. rewrite text_eqb_refl in MN. discriminate MN.
  - intros i z f ms tp E K. destruct (NEWR _ _ _ _ _ E K) as [E0| ->]; [|exact (proj1 (HR _ _ _ K))].
    destruct (b_fields _ _ _ _ _ _ B _ _ _ _ _ E0 K) as (LT & N1 & N2). split; [lia|auto].
  - intros i z f ms tp E K M. destruct (NEWR _ _ _ _ _ E K) as [E0| ->]; [|exact (proj2 (HR _ _ _ K) M)].
    destruct (b_rec _ _ _ _ _ _ B _ _ _ _ _ E0 K M) as (-> & -> & HF). split; [reflexivity|]. split; [reflexivity|].
    intros m j A. unfold fields_of in A. rewrite (sx_rec _ _ SX _ _ _ _ _ E0 K) in A. destruct (HF m j A) as (y & c & EY & KY & VC).
    exists y, c. split; [apply SO; exact EY|]. split; [exact KY|]. apply (tvalid_ext gl path _ _ _ SX VC).
  - intros p IP. destruct (b_prim _ _ _ _ _ _ B p IP) as (i & z & GI & E & K). exists i, z. auto.
  - destruct (b_taken _ _ _ _ _ _ B) as (i & z & GI & E & K). exists i, z. auto.
  - intros i OI. rewrite (sx_opc _ _ SX) in OI. destruct (b_opc _ _ _ _ _ _ B i OI) as (z & E & N). exists z. auto.
Qed.
Lemma regs_more st st' n x l r : regs_bound st -> sext st st' -> so_syms st' = so_syms st ++ x :: l -> s_name x = n -> (gl < List.length (so_scopes st))%nat ->
  so_scopes st' = upd (so_scopes st) gl (bind_in n (List.length (so_syms st))) ++ r -> Forall noreg l ->
  (forall f ms tp, s_kind x = SReg f ms tp -> ms = [] /\ tp = []) -> regs_bound st'.
Proof.
  intros RB SX SY NX LG SC NR HX i z f ms tp E K M. rewrite SY in E. destruct (Nat.lt_ge_cases i (List.length (so_syms st))) as [LT|GE].
  - rewrite nth_error_app1 in E by exact LT. destruct (RB _ _ _ _ _ E K M) as (-> & -> & SG). split; [reflexivity|]. split; [reflexivity|]. eapply sext_get; eassumption.
  - rewrite nth_error_app2 in E by exact GE. destruct (i - List.length (so_syms st))%nat as [|q] eqn:IQ.
    + cbn in E. injection E as <-. destruct (HX _ _ _ K) as [-> ->]. split; [reflexivity|]. split; [reflexivity|]. rewrite (bind_get _ _ _ _ _ _ SC LG), NX, text_eqb_refl. f_equal. lia.
    + cbn in E. apply nth_error_In in E. destruct (noreg_in _ NR _ _ _ _ E K).
Qed.
Lemma frame_regs w st st' : frame w st st' -> sext st st' -> regs_bound st -> regs_bound st'.
Proof.
  intros FR SX RB i x f ms tp E K M. pose proof (frame_old _ _ _ _ _ _ _ _ FR E K) as E0. destruct (RB _ _ _ _ _ E0 K M) as (-> & -> & SG).
  split; [reflexivity|]. split; [reflexivity|]. eapply sext_get; eassumption.
Qed.
Lemma frame_get w st st' n : frame w st st' -> ~ w gl -> (gl < List.length (so_scopes st))%nat -> scope_get st' gl n = scope_get st gl n.
Proof. intros FR NW LT. unfold scope_get. rewrite (f_keep _ _ _ FR gl LT NW). reflexivity. Qed.

(** ** Each item is well typed *)
Definition funs_ok (nd : node) : Prop :=
  match nd with
  | NFunc _ s ps false (NBlock _ ch) => se_fun S None (sy_name s) = Some (mkFD (map fst ps) ch)
  | _ => True
  end.
Definition Titem (g : genv) (s s' : sst) (t : tx) : Prop := exists g', T g' s' /\
  forall nd cur', lower stf gl t (Some gl) = LOk (nd, cur') -> funs_ok nd -> cur' = Some gl /\ top_ty S None R g nd g'.
Lemma stm_ok x ret g s t o s' : is_s (core x) = true -> is_decl x = false -> visit x PNone None false s = COk (t, o) s' -> T g s ->
  safe stf path ret t = true -> sext (sst_st s') stf -> Titem g s s' t.
Proof.
  intros C ND V TT SF SX. pose proof (T_inv _ _ ret TT) as I. destruct (Q_all F usa gl tyc path lib S stf lib_names prim_names x) as (QS & _).
  destruct (QS C false ret (top_env g) s t o s' V I SF SX) as (G' & I' & EG & _ & LW); [congruence|]. rewrite (EG ND) in *. clear EG.
  assert (ST : step nowhere s s').
  { destruct (P_all F usa x) as [PX _]. eapply step_weak; [|eapply PX; [left; exact C|apply TT|congruence|exact V]]. intros k [D _]. congruence. }
  destruct (OI_step _ _ (t_oi _ _ TT) ST) as [O' [SX' _]]. destruct ST as [FR KP].
  assert (SG : forall n, scope_get (sst_st s') gl n = scope_get (sst_st s) gl n) by (intros; eapply frame_get; [exact FR|intros []|apply TT]).
  exists g. split.
  - constructor; [exact O'|apply I'|eapply frame_regs; [exact FR|exact SX'|apply TT]| |].
    + intros n. rewrite SG. apply TT.
    + intros n. rewrite SG. apply TT.
  - intros nd cur' L _. rewrite (o_scope _ (t_oi _ _ TT)) in LW. destruct (LW _ _ L) as [-> TY]. split; [reflexivity|]. apply tt_stmt; [|exact TY].
    intros ln n tn i ->. cbn in TY. destruct TY as (? & ? & ? & E & _). discriminate E.
Qed.
Lemma own_fresh g s n i x : T g s -> scope_get (sst_st s) gl n = None -> scope_get stf gl n = Some i -> nth_error (so_syms stf) i = Some x -> s_mod x = path ->
  fresh S None g n.
Proof. intros TT FREE SG E M. split; [eapply own_names; eassumption|]. apply TT. exact FREE. Qed.
Lemma agree_var g n t : agree n g (with_var g n t) /\ agree n (with_var g n t) g.
Proof.
  split; intros m NE; cbn; (destruct (text_eqb m n) eqn:E; [apply text_eqb_eq in E; congruence|]); auto.
Qed.
Lemma agree_fun g n ts t : agree n g (with_fun g n ts t).
Proof. intros m NE; cbn; (destruct (text_eqb m n) eqn:E; [apply text_eqb_eq in E; congruence|]); auto. Qed.
Lemma agree_rec g n : agree n g (with_rec g n).
Proof. intros m NE; cbn; auto. Qed.
Lemma sext_upd st i h x : nth_error (so_syms st) i = Some x -> sim x (h x) -> sext st (with_syms st (upd (so_syms st) i h)).
Proof.
  intros E SM. constructor; cbn; auto; [|intros k c EC; exists c; auto].
  intros j y EY. rewrite nth_upd, EY. destruct (j =? i)%nat eqn:JI; [|eauto 6]. apply Nat.eqb_eq in JI. subst j. exists (h y). assert (y = x) as -> by congruence. auto.
Qed.
Lemma decl_ok t n y o ret g s t0 o0 s' : core_ty y = true -> oP (fun q => is_e (core (snd q)) = true) o ->
  visit (XDecl t n y o) PNone None false s = COk (t0, o0) s' -> T g s -> safe stf path ret t0 = true -> sext (sst_st s') stf -> Titem g s s' t0.
Proof.
  intros CY CO V TT SF SX. pose proof (t_oi _ _ TT) as O. destruct (decl_op _ _ _ _ _ _ _ _ _ CY CO O V) as [O' [SXS _]].
  apply (decl_inv F usa) in V as (ty & x & ln & sd & rr & se & _ & FREE & SY & (NX & KX & MX) & TI & SC & OP & CX & HI & -> & ->); [|exact CY].
  rewrite (o_scope _ O) in *. rewrite (o_depth _ O) in *. cbn [Nat.eqb] in *. cbn [sst_st] in SX, SXS. set (n0 := lex_text n) in *.
  pose proof (t_base _ _ TT) as B. rewrite (o_path _ O) in MX.
  assert (KN : known stf path ty = true).
  { cbn [safe] in SF. destruct rr as [[]|]; try discriminate SF; rewrite ?andb_true_iff in SF; tauto. }
  assert (SS : sext (sst_st s) stf) by (eapply sext_trans; eassumption).
  pose proof (known_tin _ _ (t_regs _ _ TT) (b_opc _ _ _ _ _ _ B) SS KN TI) as TV.
  set (g' := with_var g n0 (strip (sst_st s) ty)). destruct (agree_var g n0 (strip (sst_st s) ty)) as [AG AG']. fold g' in AG, AG'.
  assert (LK : forall st' z, sext (sst_st s) st' -> s_kind z = SVar ty -> lk st' (top_env g') n0 (List.length (so_syms (sst_st s))) z).
  { intros st' z X K. unfold AcceptExpr.lk. rewrite K. intros _. destruct (tvalid_ext gl path _ _ _ X TV) as [V' E']. split; [exact V'|]. cbn. rewrite text_eqb_refl, E'. reflexivity. }
  assert (SC0 : so_scopes (sst_st sd) = upd (so_scopes (sst_st s)) gl (bind_in n0 (List.length (so_syms (sst_st s)))) ++ []) by (rewrite app_nil_r; exact SC).
  destruct (bind_more _ _ _ _ _ _ SY SC0 OP FREE (o_recs _ O)) as [SXD _].
  assert (NRX : forall z, s_kind z = SVar ty -> forall f ms tp, s_kind z = SReg f ms tp -> False) by (intros z K f ms tp K'; congruence).
  assert (BD : base (sst_st sd) g').
  { eapply base_more; [exact B|exact SXD|exact AG|exact SY|exact NX|exact SC0|apply LK; [exact SXD|exact KX]|constructor|]. intros f ms tp K. destruct (NRX _ KX _ _ _ K). }
  assert (RD : regs_bound (sst_st sd)).
  { eapply regs_more; [apply TT|exact SXD|exact SY|exact NX|apply O|exact SC0|constructor|]. intros f ms tp K. destruct (NRX _ KX _ _ _ K). }
  assert (GD : forall m, scope_get (sst_st sd) gl m = if text_eqb m n0 then Some (List.length (so_syms (sst_st s))) else scope_get (sst_st s) gl m).
  { intros m. eapply bind_get; [exact SC0|apply O]. }
  assert (EXD : nth_error (so_syms (sst_st sd)) (List.length (so_syms (sst_st s))) = Some x) by (rewrite SY; apply nth_last).
  assert (FIN : forall s1, same sd s1 -> sext (with_syms (sst_st s1) (upd (so_syms (sst_st s1)) (List.length (so_syms (sst_st s))) s_set_global)) stf ->
     T g' (mkSst (with_syms (sst_st s1) (upd (so_syms (sst_st s1)) (List.length (so_syms (sst_st s))) s_set_global)) (sst_cx s1)) /\ fresh S None g n0).
  { intros s1 (lx & ->) X. cbn [reline sst_st sst_cx] in X |- *. set (st' := with_syms (sst_st sd) (upd (so_syms (sst_st sd)) (List.length (so_syms (sst_st s))) s_set_global)) in *.
    assert (SY' : so_syms st' = so_syms (sst_st s) ++ s_set_global x :: []) by (cbn; rewrite SY; apply upd_last).
    assert (SC' : so_scopes st' = upd (so_scopes (sst_st s)) gl (bind_in n0 (List.length (so_syms (sst_st s)))) ++ []) by exact SC0.
    destruct (bind_more (sst_st s) st' n0 _ _ _ SY' SC' OP FREE (o_recs _ O)) as [SX1 _].
    assert (G1 : forall m, scope_get st' gl m = scope_get (sst_st sd) gl m) by reflexivity.
    split.
    - constructor.
      + eapply OI_kept; [exact O| | |].
        * exists lx. cbn. rewrite CX. reflexivity.
        * cbn. rewrite SC, upd_len. lia.
        * eapply recs_grow; [exact SY'|cbn; rewrite SC, upd_len; lia|apply O|]. intros z f ms tp [<-|[]] K. cbn in K. congruence.
      + cbn [sst_st]. eapply base_more; [exact B|exact SX1|exact AG|exact SY'|exact NX|exact SC'|apply LK; [exact SX1|exact KX]|constructor|]. intros f ms tp K. destruct (NRX (s_set_global x) KX _ _ _ K).
      + cbn [sst_st]. eapply regs_more; [apply TT|exact SX1|exact SY'|exact NX|apply O|exact SC'|constructor|]. intros f ms tp K. destruct (NRX (s_set_global x) KX _ _ _ K).
      + intros m. cbn [sst_st]. rewrite G1, GD. cbn. destruct (text_eqb m n0) eqn:MN; [discriminate|]. intros H. apply TT. exact H.
      + intros m BF. cbn [sst_st]. rewrite G1, GD. destruct (text_eqb m n0); [discriminate|]. apply TT. exact BF.
    - assert (EX' : nth_error (so_syms st') (List.length (so_syms (sst_st s))) = Some (s_set_global x)) by (rewrite SY'; apply nth_last).
      destruct (sx_sym _ _ X _ _ EX') as (x2 & E2 & _ & _ & M2).
      eapply own_fresh; [exact TT|exact FREE| |exact E2|rewrite M2; exact MX]. eapply sext_get; [exact X|]. rewrite G1, GD, text_eqb_refl. reflexivity. }
  destruct o as [[ta e]|].
  - destruct HI as (tv & ov & s1 & VE & -> & i' & x' & t' & RS & E & SYT & -> & MT). cbn in CO.
    cbn [safe] in SF. rewrite safe_prom, fits_prom, !andb_true_iff in SF. destruct SF as [[[_ S1] S2] S3].
    assert (OD : OI sd).
    { eapply OI_kept; [exact O|exists ln; exact CX|rewrite SC, upd_len; lia|]. eapply recs_grow; [exact SY|rewrite SC, upd_len; lia|apply O|]. intros z f ms tp [<-|[]] K. congruence. }
    assert (TD : T g' sd).
    { constructor; auto.
      - intros m. rewrite GD. cbn. destruct (text_eqb m n0) eqn:MN; [discriminate|]. intros H. apply TT. exact H.
      - intros m BF. rewrite GD. destruct (text_eqb m n0); [discriminate|]. apply TT. exact BF. }
    assert (XP : xp (reline sd (Lexer.t_line ta)) s1) by (apply (K_all F usa) in VE; [exact VE|apply is_e_is_a; exact CO]).
    assert (SXE : sext (sst_st sd) (sst_st s1)).
    { destruct (xp_frame nowhere _ _ XP) as [FR _]. eapply frame_sext; [exact FR|]. eapply recs_weak; [|apply OD]. intros k []. }
    assert (SDF : sext (sst_st sd) stf).
    { eapply sext_trans; [exact SXE|]. eapply sext_trans; [|exact SX]. cbn [reline sst_st]. destruct XP as ((l & EL & _) & _). eapply sext_upd with (x := x); [|repeat split].
      cbn [reline sst_st] in EL. rewrite EL. apply nth_old. exact EXD. }
    assert (EO : env_ok gl path lib stf [n0] (top_env g) sd).
    { pose proof (T_inv _ _ ret TD) as ID. destruct (inv_env0 usa gl tyc path lib S stf lib_names prim_names _ _ _ ID SDF) as [A1 A2 A3 A4 A5 A6 A7 A8 A9 A10 A11]. constructor; auto.
      intros m j z NI RSm EZ. assert (NE : m <> n0) by (intros ->; apply NI; left; reflexivity).
      eapply lk_more; [apply sext_refl|exact AG'|exact NE|repeat split|]. apply A11; auto. }
    destruct (E_all F usa gl path lib S stf lib_names prim_names e) as [EE _].
    assert (GE : good path stf [n0] ret tv).
    { split; [exact S1|]. intros m [<-|[]]. apply negb_true_iff in S2. rewrite mentions_prom in S2. exact S2. }
    edestruct EE as (SM & ET); [apply is_e_is_a; exact CO|exact nE|exact VE|apply env_reline; exact EO|exact GE|].
    pose proof (same_st _ _ SM) as ES. cbn [reline sst_st] in ES, ET. rewrite ES in RS, E, MT.
    assert (SM0 : same sd (reline s1 (Lexer.t_line n))) by (destruct SM as (lx & ->); exists (Lexer.t_line n); reflexivity).
    assert (SCP : cx_scope (sst_cx s1) = gl) by (destruct SM as (lx & ->); apply OD). rewrite SCP in RS.
    rewrite (glob_resolve _ _ _ _ _ _ _ BD), GD, text_eqb_refl in RS. injection RS as <-. assert (x' = x) as -> by congruence.
    unfold sym_ty in SYT. rewrite KX in SYT. injection SYT as <-. destruct (tvalid_ext gl path _ _ _ SXD TV) as [TVD STY].
    destruct (coerce _ _ _ _ _ _ _ _ ET (b_taken _ _ _ _ _ _ BD) TVD MT S3) as (A & TDD & SB).
    destruct (FIN _ SM0 SX) as [TF FRS]. exists g'. split; [exact TF|].
    intros nd cur' L _. cbn [lower] in L. destruct (lower stf _ (set_prom _ tv) _) as [[n1 c1]| |] eqn:L1; try discriminate L. cbn [lbind] in L.
    destruct (get_sym stf _) as [z| |]; try discriminate L. cbn [lbind] in L. injection L as <- <-.
    destruct (TDD _ _ _ _ L1) as (-> & EN). split; [reflexivity|]. apply tt_var; [exact FRS|]. exists A. rewrite STY in SB. auto.
  - destruct HI as (-> & -> & ZI). destruct (FIN sd ltac:(exists (cx_line (sst_cx sd)); destruct sd as [? []]; reflexivity) SX) as [TF FRS]. exists g'. split; [exact TF|].
    intros nd cur' L _. cbn [lower lookup] in L. destruct (resolve_sc stf _ _) as [j|] eqn:RJ; [|discriminate L]. cbn [lsome lbind] in L.
    destruct (get_sym stf j) as [z| |]; try discriminate L. cbn [lbind] in L. rewrite Nat.eqb_refl in L. injection L as <- <-. split; [reflexivity|].
    apply tt_var; [exact FRS|]. destruct (tvalid_ext gl path _ _ _ SS TV) as [_ EQ]. rewrite <- EQ. apply zero_ok. apply ZI. apply O.
Qed.
(** A body that always returns does so when lowered. *)
Lemma always_low : forall t, always t = true -> forall lex cur nd cur', lower stf lex t cur = LOk (nd, cur') -> returns nd = true.
Proof.
  fix IH 1. intros t A lex cur nd cur' L. destruct t; try discriminate A; cbn [lower] in L.
  - destruct (lopt _ _ _) as [[e1 c1]| |]; try discriminate L. injection L as <- _. reflexivity.
  - destruct el as [el|]; [|discriminate A]. cbn [always] in A. rewrite !andb_true_iff in A. destruct A as [[A1 A2] A3].
    destruct (lower stf lex t1 cur) as [[n1 c1]| |]; try discriminate L. cbn [lbind] in L.
    destruct (lower stf lex t2 c1) as [[n2 c2]| |] eqn:L2; try discriminate L. cbn [lbind] in L.
    destruct (lseq (lower stf lex) elifs c2) as [[n3 c3]| |] eqn:L3; try discriminate L. cbn [lbind lopt] in L.
    destruct (lower stf lex el c3) as [[n4 c4]| |] eqn:L4; try discriminate L. cbn [lbind] in L. injection L as <- _. cbn [returns].
    rewrite (IH t2 A1 _ _ _ _ L2), (IH el A3 _ _ _ _ L4), andb_true_r. cbn [andb]. clear L2 L4 A1 A3. revert A2 c2 n3 c3 L3.
    induction elifs as [|y r IHr]; intros A2 c2 n3 c3 L3; cbn [lseq] in L3; [injection L3 as <- _; reflexivity|].
    destruct (lower stf lex y c2) as [[m1 d1]| |] eqn:M1; try discriminate L3. cbn [lbind] in L3. destruct (lseq (lower stf lex) r d1) as [[m2 d2]| |] eqn:M2; try discriminate L3.
    cbn [lbind] in L3. injection L3 as <- _. cbn [forallb] in A2 |- *. apply andb_prop in A2 as [A1 A2]. rewrite (IH y A1 _ _ _ _ M1). exact (IHr A2 _ _ _ M2).
  - cbn [always] in A. destruct (lower stf lex t1 cur) as [[n1 c1]| |]; try discriminate L. cbn [lbind] in L.
    destruct (lower stf lex t2 c1) as [[n2 c2]| |] eqn:L2; try discriminate L. cbn [lbind] in L. injection L as <- _. exact (IH t2 A _ _ _ _ L2).
  - cbn [always] in A. destruct (lseq (lower stf sc) ch (Some sc)) as [[nds c]| |] eqn:LS; try discriminate L. cbn [lbind] in L. destruct (leave_cur stf c); try discriminate L.
    injection L as <- _. cbn [returns]. revert A LS. generalize (Some sc) at 1. revert nds c.
    induction ch as [|y r IHr]; intros nds c d A LS; [discriminate A|]. cbn [lseq] in LS.
    destruct (lower stf sc y d) as [[m1 d1]| |] eqn:M1; try discriminate LS. cbn [lbind] in LS. destruct (lseq (lower stf sc) r d1) as [[m2 d2]| |] eqn:M2; try discriminate LS.
    cbn [lbind] in LS. injection LS as <- _. cbn [existsb] in A |- *. destruct (always y) eqn:AY.
    + rewrite (IH y AY _ _ _ _ M1). reflexivity.
    + rewrite (IHr _ _ _ A M2). apply orb_true_r.
Qed.
Lemma param_types st m ps xs fx : Forall2 (parm m (List.length (so_syms st))) ps xs -> forall pre, so_syms st = pre ++ fx :: xs ->
  map snd ps = seq (Datatypes.S (List.length pre)) (List.length ps) ->
  (forall p, In p ps -> var_known stf path (snd p) = true) -> sext st stf -> regs_bound st ->
  (forall i, so_opcao st = Some i -> exists x, nth_error (so_syms st) i = Some x /\ s_name x = ty_opcao_name) ->
  exists ts, ptypes gl path st ps ts /\ 
    (forall n i, assoc n ps = Some i -> exists x t, nth_error (so_syms st) i = Some x /\ s_name x = n /\ s_kind x = SVar t /\ s_mod x = m /\ tvalid st t /\ assoc n (List.combine (map fst ps) ts) = Some (strip st t)) /\
    (forall n, assoc n ps = None -> assoc n (List.combine (map fst ps) ts) = None) /\ List.length ts = List.length ps.
Proof.
  intros FA. induction FA as [|[n j] x ps xs (NX & MX & t & KX & TI) FA IH] in fx |- *; intros pre SY SQ VK SX RB OC.
  - exists []. split; [constructor|]. split; [discriminate|]. auto.
  - cbn [map snd List.length seq fst] in *. injection SQ as -> SQ.
    assert (EX : nth_error (so_syms st) (Datatypes.S (List.length pre)) = Some x).
    { rewrite SY. change (pre ++ fx :: x :: xs) with (pre ++ [fx] ++ x :: xs). rewrite app_assoc. replace (Datatypes.S (List.length pre)) with (List.length (pre ++ [fx])) by (rewrite app_length; cbn; lia). apply nth_at. }
    assert (SY2 : so_syms st = (pre ++ [fx]) ++ x :: xs) by (rewrite SY, <- app_assoc; reflexivity).
    assert (SQ2 : map snd ps = seq (Datatypes.S (List.length (pre ++ [fx]))) (List.length ps)) by (rewrite app_length; cbn; rewrite Nat.add_1_r; exact SQ).
    destruct (IH x (pre ++ [fx]) SY2 SQ2 (fun p I => VK p (or_intror I)) SX RB OC) as (ts & PT & AS & AN & LN).
    assert (TV : tvalid st t).
      { apply known_tin; auto. specialize (VK _ (or_introl eq_refl)). unfold var_known, symbol_at in VK. cbn [snd] in VK. destruct (sx_sym _ _ SX _ _ EX) as (x' & E' & _ & K' & _). rewrite E', K', KX in VK. exact VK. }
      exists (strip st t :: ts). split; [constructor; [exists x, t; auto|exact PT]|]. cbn [assoc List.combine map fst]. split; [|split; [|cbn; congruence]].
      * intros m0 i. destruct (text_eqb m0 n) eqn:MN; [|apply AS]. intros H. injection H as <-. apply text_eqb_eq in MN. subst m0. exists x, t. auto 10.
      * intros m0. destruct (text_eqb m0 n); [discriminate|apply AN].
Qed.
Lemma func_ok name ps y ans b ret g s t o s' : core (XFunc name ps y false ans (Some b)) = ShT -> is_b (core b) = true ->
  visit (XFunc name ps y false ans (Some b)) PNone None false s = COk (t, o) s' -> T g s -> safe stf path ret t = true -> more (sst_st s') stf -> Titem g s s' t.
Proof.
  intros C CB V TT SF MF. pose proof (t_oi _ _ TT) as O. destruct (func_op _ _ _ _ _ _ _ _ _ _ C CB O V) as [O' [SXS _]]. pose proof (proj1 MF) as SX.
  apply (func_inv F usa) in V as (ty & ps' & fx & xs & c & ln & s1 & tb & ob & s2 & _ & FREE & SY & (NX & KX & MX & BX) & TI & SQ & ND & PA & SC & UC & AC & OP & CX & VB & -> & -> & _); [|exact C].
  rewrite (o_scope _ O) in *. rewrite (o_path _ O) in *. cbn [with_func sst_st] in SX, SXS, MF. set (n0 := lex_text name) in *. pose proof (t_base _ _ TT) as B.
  set (psc := List.length (so_scopes (sst_st s))) in *. set (fi := List.length (so_syms (sst_st s))) in *.
  assert (NR : Forall noreg (fx :: xs)) by (constructor; [intros f ms tp K; congruence|eapply parm_noreg; exact PA]).
  assert (LS : (psc < List.length (so_scopes (sst_st s1)))%nat) by (rewrite SC, app_length, upd_len; cbn; fold psc; lia).
  destruct (bind_more _ _ _ _ _ _ SY SC OP FREE (o_recs _ O)) as [SX1 _].
  assert (RO2 : recs_ok (sst_st s1) (eq psc)).
  { eapply recs_grow with (w := eq _); [exact SY|fold psc; lia| |]; [|intros z f ms tp I K; destruct (noreg_in _ NR _ _ _ _ I K)].
    intros i x f ms tp E K. destruct (o_recs _ O _ _ _ _ _ E K). split; [assumption|]. unfold psc. lia. }
  assert (NPSC : nth_error (so_scopes (sst_st s1)) psc = Some c).
  { rewrite SC. rewrite nth_error_app2, upd_len by (rewrite upd_len; unfold psc; lia). unfold psc. rewrite Nat.sub_diag. reflexivity. }
  assert (ST : step (eq psc) s1 s2).
  { destruct (P_all F usa b) as [_ PB]. destruct (PB CB) as [_ B2]. eapply B2 with (c := c); [|exact NPSC|rewrite CX; cbn; rewrite (o_scope _ O); exact UC|exact VB].
    unfold noyield. rewrite CX. cbn. apply O. }
  destruct ST as [FR KP]. pose proof (frame_sext _ _ _ FR RO2) as SX2. pose proof (sext_trans _ _ _ SX2 SX) as SXF.
  assert (EFX : nth_error (so_syms (sst_st s1)) fi = Some fx) by (rewrite SY; apply nth_at).
  assert (EFS : nth_error (so_syms stf) fi = Some fx).
  { destruct MF as [_ (l & ->)]. apply nth_old. eapply frame_sym; [exact FR|exact EFX]. }
  cbn [safe] in SF. unfold symbol_at in SF. rewrite EFS, KX in SF. rewrite !andb_true_iff in SF. destruct SF as [[[K1 K2] K3] K4].
  assert (RB1 : regs_bound (sst_st s1)).
  { eapply regs_more; [apply TT|exact SX1|exact SY|exact NX|apply O|exact SC|inversion NR; assumption|]. intros f ms tp K. congruence. }
  assert (OC1 : forall i, so_opcao (sst_st s1) = Some i -> exists x, nth_error (so_syms (sst_st s1)) i = Some x /\ s_name x = ty_opcao_name).
  { intros i OI. rewrite OP in OI. destruct (b_opc _ _ _ _ _ _ B _ OI) as (x & E & N). exists x. split; [rewrite SY; apply nth_old; exact E|exact N]. }
  pose proof (known_tin _ _ RB1 OC1 SXF K1 TI) as TVR.
  rewrite forallb_forall in K2. destruct (param_types _ _ _ _ fx PA (so_syms (sst_st s)) SY SQ K2 SXF RB1 OC1) as (ts & PT & PAS & PAN & PL).
  set (r0 := strip (sst_st s1) ty). set (g' := with_fun g n0 ts r0).
  assert (NB : builtin_fn n0 = None).
  { destruct (builtin_fn n0) eqn:BF; [|reflexivity]. destruct (t_fns _ _ TT n0); [congruence|exact FREE]. }
  assert (GET : forall m, scope_get (sst_st s1) gl m = if text_eqb m n0 then Some fi else scope_get (sst_st s) gl m) by (intros; eapply bind_get; [exact SC|apply O]).
  assert (BS1 : base (sst_st s1) g').
  { eapply base_more; [exact B|exact SX1|apply agree_fun|exact SY|exact NX|exact SC| |inversion NR; assumption|intros f ms tp K; congruence].
    unfold AcceptExpr.lk. rewrite KX. split; [reflexivity|]. split; [rewrite GET, text_eqb_refl; reflexivity|]. split; [|congruence]. intros _. split; [exact NB|]. split; [exact TVR|].
    exists ts. split; [exact PT|]. cbn. rewrite text_eqb_refl. reflexivity. }
  set (G1 := fun_env g' (map fst ps') ts r0).
  assert (I1 : inv ty G1 (at_scope s1 (Datatypes.S (cx_depth (sst_cx s1))) psc)).
  { constructor; cbn [at_scope sst_cx sst_st cx_global cx_module cx_reg cx_yield cx_ty cx_scope cx_depth cx_func cx_loop]; rewrite ?CX; cbn; try apply O; auto.
    - apply (ch_in gl tyc path (sst_st s1) psc c gl [[]; List.combine (map fst ps') ts] []); auto.
      + unfold psc. apply O.
      + unfold psc. pose proof (o_glt _ O). lia.
      + unfold psc. pose proof (o_tyt _ O). lia.
      + intros i x f ms tp E K. destruct (RO2 _ _ _ _ _ E K) as [_ NE]. auto.
      + discriminate.
      + intros n. rewrite AC. destruct (assoc n ps') as [i|] eqn:AN; cbn.
        * destruct (PAS _ _ AN) as (x & t & E & N & K & M & VT & TL). exists x, t. rewrite TL. auto 10.
        * rewrite (PAN _ AN). reflexivity.
      + constructor.
    - exists fx, ps'. auto.
    - rewrite (o_loop _ O). discriminate. }
  assert (LB : Lblk gl S stf gl G1 tb).
  { destruct (Q_all F usa gl tyc path lib S stf lib_names prim_names b) as (_ & _ & QB). destruct (QB CB) as [_ Q2].
    assert (SCX : cx_scope (sst_cx s1) = gl) by (rewrite CX; cbn; apply O).
    specialize (Q2 false ty G1 s1 psc tb ob s2 VB I1 ltac:(discriminate)). rewrite SCX in Q2. apply Q2; auto. unfold up_of. rewrite NPSC. exact UC. }
  destruct LB as (sc & ch & -> & UP & LW).
  assert (NW : psc <> gl /\ psc <> tyc) by (unfold psc; pose proof (o_glt _ O); pose proof (o_tyt _ O); lia).
  assert (BS2 : base (sst_st s2) g') by (eapply (base_frame usa gl tyc path lib S stf lib_names prim_names); [exact FR|tauto|tauto|exact RO2|exact BS1]).
  assert (GET2 : forall m, scope_get (sst_st s2) gl m = scope_get (sst_st s1) gl m).
  { intros. eapply frame_get; [exact FR|tauto|]. pose proof (o_glt _ O). fold psc in H. lia. }
  exists g'. split.
  - constructor; [exact O'|exact BS2|eapply frame_regs; [exact FR|exact SX2|exact RB1]| |]; cbn [with_func sst_st].
    + intros m. rewrite GET2, GET. cbn. destruct (text_eqb m n0) eqn:MN; [discriminate|]. intros H. apply TT. exact H.
    + intros m BF. rewrite GET2, GET. destruct (text_eqb m n0); [discriminate|]. apply TT. exact BF.
  - intros nd cur' L FO. cbn [lower] in L. rewrite EFS in L. cbn [lsome lbind] in L. rewrite KX, BX in L. destruct (lmap _ ps') as [lp| |] eqn:LP; try discriminate L. cbn [lbind] in L.
    destruct (lseq (lower stf sc) ch (Some sc)) as [[nds c2]| |] eqn:LS2; try discriminate L. cbn [lbind] in L. destruct (LW _ _ eq_refl) as [-> SEQ]. cbn [leave_cur lbind] in L. rewrite UP in L. injection L as <- <-.
    split; [reflexivity|]. assert (MF' : map fst lp = map fst ps').
    { clear - LP. revert lp LP. induction ps' as [|[m j] ps' IH]; intros lp LP; cbn [lmap] in LP; [injection LP as <-; reflexivity|].
      cbn [snd] in LP. destruct (get_sym stf j) as [z| |]; try discriminate LP. cbn [lbind] in LP. destruct (lmap _ ps') as [lq| |]; try discriminate LP. cbn [lbind] in LP. injection LP as <-. cbn. rewrite (IH _ eq_refl). reflexivity. }
    cbn in FO. assert (SN : sy_name (sym_of fx) = n0) by (rewrite <- NX; reflexivity). unfold g' at 1. rewrite <- SN. apply tt_fun.
    + rewrite SN. eapply own_fresh; [exact TT|exact FREE| |exact EFS|exact MX]. eapply sext_get; [exact SX|]. rewrite GET2, GET, text_eqb_refl. reflexivity.
    + exact FO.
    + rewrite SN, MF'. split; [rewrite map_length; congruence|]. split; [exact SEQ|].
      apply orb_prop in K4 as [KV|KA].
      * left. unfold r0. destruct ty as [[]|?|?|?|? ?|?|?]; try discriminate KV. reflexivity.
      * right. pose proof (always_low _ KA gl (Some gl)) as AL. cbn [lower] in AL. rewrite LS2 in AL. cbn [lbind leave_cur] in AL. specialize (AL _ _ eq_refl). exact AL.
Qed.
Lemma reg_ok name l lb ret g s t o s' : forallb core_field l = true ->
  visit (XReg name [] l lb) PNone None false s = COk (t, o) s' -> T g s -> safe stf path ret t = true -> more (sst_st s') stf -> Titem g s s' t.
Proof.
  intros CF V TT SF MF. pose proof (t_oi _ _ TT) as O. destruct (reg_op _ _ _ _ _ _ _ _ CF O V) as [O' [SXS _]]. pose proof (proj1 MF) as SX.
  apply (reg_inv F usa order_nil) in V as (rx & xs & c & gc & ln & FREE & SY & (NX & KX & MX) & NR & SC & FE & OP & CX & ->);
    [|exact CF|apply O|rewrite (o_scope _ O); apply O].
  rewrite (o_scope _ O) in *. rewrite (o_path _ O) in *. set (n0 := lex_text name) in *. pose proof (t_base _ _ TT) as B.
  set (fsc := List.length (so_scopes (sst_st s))) in *. set (ri := List.length (so_syms (sst_st s))) in *.
  assert (ERX : nth_error (so_syms (sst_st s')) ri = Some rx) by (rewrite SY; apply nth_at).
  assert (EFS : nth_error (so_syms stf) ri = Some rx) by (destruct MF as [_ (l2 & ->)]; apply nth_old; exact ERX).
  assert (NSC : nth_error (so_scopes (sst_st s')) fsc = Some c).
  { rewrite SC. rewrite nth_error_app2, upd_len by (rewrite upd_len; unfold fsc; lia). unfold fsc. rewrite Nat.sub_diag. reflexivity. }
  assert (NSF : nth_error (so_scopes stf) fsc = Some c) by (rewrite (sx_rec _ _ SX _ _ _ _ _ ERX KX); exact NSC).
  cbn [safe] in SF. unfold symbol_at in SF. rewrite EFS, KX in SF. unfold fields_of in SF. rewrite NSF in SF. rewrite forallb_forall in SF.
  assert (RB1 : regs_bound (sst_st s')).
  { eapply regs_more; [apply TT|exact SXS|exact SY|exact NX|apply O|exact SC|exact NR|]. intros f ms tp K. rewrite KX in K. injection K as _ <- <-. auto. }
  assert (OC1 : forall i, so_opcao (sst_st s') = Some i -> exists x, nth_error (so_syms (sst_st s')) i = Some x /\ s_name x = ty_opcao_name).
  { intros i OI. rewrite OP in OI. destruct (b_opc _ _ _ _ _ _ B _ OI) as (x & E & N). exists x. split; [rewrite SY; apply nth_old; exact E|exact N]. }
  set (g' := with_rec g n0).
  assert (NB : builtin_fn n0 = None).
  { destruct (builtin_fn n0) eqn:BF; [|reflexivity]. destruct (t_fns _ _ TT n0); [congruence|exact FREE]. }
  assert (GET : forall m, scope_get (sst_st s') gl m = if text_eqb m n0 then Some ri else scope_get (sst_st s) gl m) by (intros; eapply bind_get; [exact SC|apply O]).
  assert (BS1 : base (sst_st s') g').
  { eapply base_more; [exact B|exact SXS|apply agree_rec|exact SY|exact NX|exact SC| |exact NR|].
    - unfold AcceptExpr.lk. rewrite KX. split; [reflexivity|]. intros _. split; [exact NB|]. left. reflexivity.
    - intros f ms tp K. rewrite KX in K. injection K as <- <- <-. split.
      + rewrite SC, app_length, upd_len. cbn. fold fsc. pose proof (o_glt _ O). pose proof (o_tyt _ O). unfold fsc in *. lia.
      + intros _. split; [reflexivity|]. split; [reflexivity|]. intros m j AM. unfold fields_of in AM. rewrite NSC in AM. apply assoc_In in AM.
        rewrite Forall_forall in FE. destruct (FE _ AM) as (_ & z & tz & EZ & KZ & TZ). exists z, tz. split; [exact EZ|]. split; [exact KZ|].
        apply known_tin; auto. specialize (SF _ AM). unfold var_known, symbol_at in SF. cbn [snd] in SF, EZ. destruct (sx_sym _ _ SX _ _ EZ) as (z' & E' & _ & K' & _). rewrite E', K', KZ in SF. exact SF. }
  exists g'. split.
  - constructor; [exact O'|exact BS1|exact RB1| |].
    + intros m. rewrite GET. cbn. destruct (text_eqb m n0) eqn:MN; [discriminate|]. intros H. destruct (t_free _ _ TT _ H) as (U1 & U2 & U3). split; [exact U1|]. split; [exact U2|].
      intros [E|I]; [|exact (U3 I)]. subst m. rewrite text_eqb_refl in MN. discriminate.
    + intros m BF. rewrite GET. destruct (text_eqb m n0); [discriminate|]. apply TT. exact BF.
  - intros nd cur' L FO. cbn [lower] in L. destruct (lookup _ _ _) as [j| |]; try discriminate L. cbn [lbind] in L. rewrite EFS in L. cbn [lsome lbind] in L. rewrite KX in L.
    destruct (resolve_sc stf gl n0) as [k|]; try discriminate L. destruct (j =? k)%nat; try discriminate L. injection L as <- <-. split; [reflexivity|].
    assert (GF : scope_get stf gl n0 = Some ri) by (eapply sext_get; [exact SX|]; rewrite GET, text_eqb_refl; reflexivity).
    apply tt_rec with (decl := decl_of stf fsc).
    + eapply own_fresh; [exact TT|exact FREE|exact GF|exact EFS|exact MX].
    + unfold AcceptExpr.R. rewrite GF, EFS, KX. reflexivity.
Qed.

(** ** One item, and the whole text *)
Lemma item_ok x ret g s t o s' : is_t (core x) = true -> visit x PNone None false s = COk (t, o) s' -> T g s -> safe stf path ret t = true -> more (sst_st s') stf -> Titem g s s' t.
Proof.
  intros C V TT SF MF. destruct (core_top x C) as [[CS ND]|[(t0 & n & y & o0 & -> & CY & CO)|[(name & ps & y & ans & b & -> & CT & CB)|(name & l & lb & -> & CF)]]].
  - eapply stm_ok; eauto. apply MF.
  - eapply decl_ok; eauto. apply MF.
  - eapply func_ok; eauto.
  - eapply reg_ok; eauto.
Qed.
End Top.

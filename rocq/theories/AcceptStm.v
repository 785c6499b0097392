(** Accepted statements are well typed. *)
From Verif Require Import Base BaseFacts Dec Bson Value Ast Types Syntax Sym Exhaust Check Front Sem Spec_Types Spec_Typing Spec_Accept GenLocals ValueFacts AcceptBase AcceptTypes AcceptExpr AcceptFrame AcceptStep.
Local Open Scope chk_scope.

Section Stm.
Variable F : front_env.
Variable usa : smode -> text -> M unit.
Variable gl tyc : nat.
Variable path lib : text.
Variable S : senv.
Variable stf : store.    (* the store at the end *)
Hypothesis lib_names : forall n i x, scope_get stf gl n = Some i -> nth_error (so_syms stf) i = Some x -> s_mod x = lib -> s_name x = n ->
  se_imp S None n = Some (0%N, n) /\ se_fun S (Some 0%N) n = None.
Hypothesis prim_names : forall i x p, nth_error (so_syms stf) i = Some x -> s_kind x = SPrim p -> s_name x = prim_name p.
Notation tvalid := (tvalid gl path).
Notation lk := (lk gl path lib).
Notation env_ok := (env_ok gl path lib stf).
Notation tyd := (tyd gl S stf).
Notation Etyped := (Etyped gl path S stf).
Notation visit := (visit F usa).
Notation visits := (visits F usa).
Notation R := (R gl stf).
Notation sty := (sty S None R).

(** ** What holds between statements *)
(** The global scope, apart from the variables, functions and records in [g]. *)
Record base (st : store) (g : genv) : Prop := mkBase {
  b_gl : exists c, nth_error (so_scopes st) gl = Some c /\ sc_up c = None;
  b_ty : exists c, nth_error (so_scopes st) tyc = Some c /\ sc_syms c = [] /\ sc_up c = None;
  b_apart : gl <> tyc;
  b_glob : forall n i, scope_get st gl n = Some i -> exists x, nth_error (so_syms st) i = Some x /\ s_name x = n /\ lk st (top_env g) n i x;
  b_fields : forall i x f ms tp, nth_error (so_syms st) i = Some x -> s_kind x = SReg f ms tp ->
    (f < List.length (so_scopes st))%nat /\ f <> gl /\ f <> tyc;
  b_rec : forall i x f ms tp, nth_error (so_syms st) i = Some x -> s_kind x = SReg f ms tp -> s_mod x = path -> ms = [] /\ tp = [] /\
    forall m j, assoc m (fields_of st f) = Some j -> exists y c, nth_error (so_syms st) j = Some y /\ s_kind y = SVar c /\ tvalid st c;
  b_prim : forall p, In p prims -> exists i x, scope_get st gl (prim_name p) = Some i /\ nth_error (so_syms st) i = Some x /\ s_kind x = SPrim p;
  b_taken : opcao_taken gl path st;
  b_opc : forall i, so_opcao st = Some i -> exists x, nth_error (so_syms st) i = Some x /\ s_name x = ty_opcao_name
}.
(** The nested scopes of the analyser and those of the typing environment: one
    of the former may stand for two of the latter (a loop's variable and its
    body, a function's parameters and its body). *)
Definition apart (st : store) (sc : nat) : Prop :=
  forall i x f ms tp, nth_error (so_syms st) i = Some x -> s_kind x = SReg f ms tp -> f <> sc.
Definition link (st : store) (c : scopeo) (lvs : list (list (text * ty))) : Prop := forall n,
  match assoc n (sc_syms c) with
  | None => tlook lvs n = None
  | Some i => exists x t, nth_error (so_syms st) i = Some x /\ s_name x = n /\ s_kind x = SVar t /\ s_mod x = path /\ tvalid st t /\
                          tlook lvs n = Some (strip st t)
  end.
Inductive chain (st : store) : nat -> list (list (text * ty)) -> Prop :=
| ch_top : chain st gl []
| ch_in sc c up lvs rest : nth_error (so_scopes st) sc = Some c -> sc_up c = Some up -> (up < sc)%nat -> sc <> gl -> sc <> tyc -> apart st sc ->
    lvs <> [] -> link st c lvs -> chain st up rest -> chain st sc (lvs ++ rest).
Record inv (ret : cty) (G : tenv) (s : sst) : Prop := mkInv {
  i_gl : cx_global (sst_cx s) = gl;
  i_path : cx_module (sst_cx s) = path;
  i_reg : cx_reg (sst_cx s) = false;
  i_yield : cx_yield (sst_cx s) = None;
  i_ty : cx_ty (sst_cx s) = tyc;
  i_base : base (sst_st s) (te_g G);
  i_chain : chain (sst_st s) (cx_scope (sst_cx s)) (te_loc G);
  i_depth : te_loc G <> [] -> cx_depth (sst_cx s) <> 0%nat;
  i_func : match cx_func (sst_cx s) with
           | None => te_ret G = None
           | Some f => exists x ps, nth_error (so_syms (sst_st s)) f = Some x /\ s_kind x = SFun ret ps /\
                                    te_ret G = Some (strip (sst_st s) ret) /\ tvalid (sst_st s) ret
           end;
  i_loop : cx_loop (sst_cx s) = true -> te_loop G = true
}.

Lemma tlook_app a b n : tlook (a ++ b) n = match tlook a n with Some t => Some t | None => tlook b n end.
Proof. induction a as [|x a IH]; [reflexivity|]. cbn. destruct (assoc n x); [reflexivity|exact IH]. Qed.
Lemma chain_in st sc L : chain st sc L -> (exists c, nth_error (so_scopes st) gl = Some c /\ sc_up c = None) -> exists c, nth_error (so_scopes st) sc = Some c.
Proof. intros [|]; [intros (c & H & _)|intros _]; eauto. Qed.
Lemma chain_le st sc L : chain st sc L -> (gl <= sc)%nat.
Proof. induction 1; lia. Qed.
Lemma chain_resolve st g sc L n : base st g -> chain st sc L ->
  match resolve_sc st sc n with
  | Some i => (exists x t, nth_error (so_syms st) i = Some x /\ s_name x = n /\ s_kind x = SVar t /\ s_mod x = path /\ tvalid st t /\ tlook L n = Some (strip st t)) \/
              (tlook L n = None /\ scope_get st gl n = Some i)
  | None => tlook L n = None /\ scope_get st gl n = None
  end.
Proof.
  intros B C. unfold resolve_sc. destruct (chain_in _ _ _ C (b_gl _ _ B)) as (c0 & E0).
  assert (LT : (sc < Datatypes.S (List.length (so_scopes st)))%nat) by (enough (sc < List.length (so_scopes st))%nat by lia; apply nth_error_Some; congruence).
  clear c0 E0. revert LT. generalize (Datatypes.S (List.length (so_scopes st))) as f. induction C as [|sc c up lvs rest E U LT NG NT AP NL LN C IH]; intros f LF.
  - destruct f as [|f]; [lia|]. cbn [resolve_in]. destruct (b_gl _ _ B) as (c & E & U). unfold scope_get. rewrite E, U.
    destruct (assoc n (sc_syms c)); [right|]; auto.
  - destruct f as [|f]; [lia|]. cbn [resolve_in]. rewrite E, U. specialize (LN n). rewrite tlook_app. destruct (assoc n (sc_syms c)) as [i|].
    + destruct LN as (x & t & E1 & N1 & K1 & M1 & V1 & T1). left. exists x, t. rewrite T1. auto 10.
    + rewrite LN. apply IH. lia.
Qed.
Lemma glob_resolve st g n : base st g -> resolve_sc st gl n = scope_get st gl n.
Proof. intros B. destruct (b_gl _ _ B) as (c & E & U). unfold resolve_sc, scope_get. cbn. rewrite E, U. destruct (assoc n (sc_syms c)); reflexivity. Qed.
Lemma ty_resolve st g n : base st g -> resolve_sc st tyc n = None.
Proof. intros B. destruct (b_ty _ _ B) as (c & E & Y & U). unfold resolve_sc. cbn. rewrite E, Y, U. reflexivity. Qed.
Lemma lk_top st g G n i x : lk st (top_env g) n i x -> te_g G = g -> tlook (te_loc G) n = None -> lk st G n i x.
Proof.
  intros H <- TL. unfold AcceptExpr.lk in *. destruct (s_kind x); auto.
  - intros M. destruct (H M) as [V T]. split; [exact V|]. unfold var_type in *. cbn in T. rewrite TL. exact T.
  - destruct H as (_ & H). auto.
  - destruct H as (_ & H). auto.
  - destruct H as (_ & H). auto.
Qed.
Lemma inv_env ret G G' s X : inv ret G s -> sext (sst_st s) stf -> te_g G' = te_g G ->
  (forall n, ~ In n X -> tlook (te_loc G') n = tlook (te_loc G) n) -> env_ok X G' s.
Proof.
  intros I SX EG EL. pose proof (i_base _ _ _ I) as B. constructor.
  - apply I.
  - apply I.
  - exact SX.
  - intros n i RS. pose proof (chain_resolve _ _ _ _ n B (i_chain _ _ _ I)) as C. rewrite RS in C.
    destruct C as [(x & t & E & N & K & _)|(_ & GN)].
    + exists x. split; [exact E|]. split; [exact N|]. left. unfold sym_type. rewrite K. reflexivity.
    + destruct (b_glob _ _ B _ _ GN) as (x & E & N & _). exists x. auto.
  - apply B.
  - apply B.
  - intros n. rewrite (i_ty _ _ _ I). eapply ty_resolve, B.
  - intros n. eapply glob_resolve, B.
  - apply B.
  - apply B.
  - intros n i x NX RS E. pose proof (chain_resolve _ _ _ _ n B (i_chain _ _ _ I)) as C. rewrite RS in C.
    destruct C as [(x' & t & E' & N & K & M & V & T)|(TL & GN)].
    + assert (x' = x) as -> by congruence. unfold AcceptExpr.lk. rewrite K. intros _. split; [exact V|]. unfold var_type. rewrite (EL _ NX), T. reflexivity.
    + destruct (b_glob _ _ B _ _ GN) as (x' & E' & N & LK). assert (x' = x) as -> by congruence. apply lk_top with (g := te_g G); auto. rewrite (EL _ NX). exact TL.
Qed.
Lemma inv_env0 ret G s : inv ret G s -> sext (sst_st s) stf -> env_ok [] G s.
Proof. intros I SX. eapply inv_env; eauto. Qed.

(** ** Growing stores *)
Lemma frame_sym w st st' i x : frame w st st' -> nth_error (so_syms st) i = Some x -> nth_error (so_syms st') i = Some x.
Proof. intros FR E. destruct (f_syms _ _ _ FR) as (l & -> & _). apply nth_old. exact E. Qed.
Lemma frame_old w st st' i x f ms tp : frame w st st' -> nth_error (so_syms st') i = Some x -> s_kind x = SReg f ms tp -> nth_error (so_syms st) i = Some x.
Proof.
  intros FR E K. destruct (f_syms _ _ _ FR) as (l & EL & NR). rewrite EL in E.
  destruct (Nat.lt_ge_cases i (List.length (so_syms st))) as [LT|GE]; [rewrite nth_error_app1 in E; assumption|].
  rewrite nth_error_app2 in E by assumption. apply nth_error_In in E. rewrite Forall_forall in NR. destruct (NR _ E _ _ _ K).
Qed.
Definition recs_ok (st : store) (w : nat -> Prop) : Prop :=
  forall i x f ms tp, nth_error (so_syms st) i = Some x -> s_kind x = SReg f ms tp -> (f < List.length (so_scopes st))%nat /\ ~ w f.
Lemma frame_sext w st st' : frame w st st' -> recs_ok st w -> sext st st'.
Proof.
  intros FR RO. constructor.
  - intros i x E. exists x. split; [eapply frame_sym; eassumption|auto].
  - apply FR.
  - intros i x f ms tp E K. destruct (RO _ _ _ _ _ E K) as [LT NW]. apply (f_keep _ _ _ FR); assumption.
  - apply FR.
Qed.
Lemma recs_frame w v st st' : frame v st st' -> recs_ok st w -> recs_ok st' w.
Proof.
  intros FR RO i x f ms tp E K. destruct (RO _ _ _ _ _ (frame_old _ _ _ _ _ _ _ _ FR E K) K) as [LT NW]. split; [|exact NW].
  pose proof (frame_len _ _ _ FR). lia.
Qed.
Lemma inv_recs ret G s : inv ret G s -> recs_ok (sst_st s) (eq (cx_scope (sst_cx s))).
Proof.
  intros I i x f ms tp E K. destruct (b_fields _ _ (i_base _ _ _ I) _ _ _ _ _ E K) as (LT & N1 & N2). split; [exact LT|].
  intros <-. pose proof (i_chain _ _ _ I) as C. inversion C as [H|? ? ? ? ? _ _ _ _ _ AP]; subst; [congruence|]. exact (AP _ _ _ _ _ E K eq_refl).
Qed.
Lemma recs_weak st (w w' : nat -> Prop) : (forall k, w' k -> w k) -> recs_ok st w -> recs_ok st w'.
Proof. intros H RO i x f ms tp E K. destruct (RO _ _ _ _ _ E K). auto. Qed.

Lemma Forall2_imp {A B} (Q Q' : A -> B -> Prop) l m : (forall a b, Q a b -> Q' a b) -> Forall2 Q l m -> Forall2 Q' l m.
Proof. intros H. induction 1; constructor; auto. Qed.
Lemma lk_frame w st st' G n i x : frame w st st' -> sext st st' -> lk st G n i x -> lk st' G n i x.
Proof.
  intros FR SX. unfold AcceptExpr.lk. destruct (s_kind x); auto.
  - intros H M. destruct (H M) as [V T]. destruct (tvalid_ext gl path _ _ _ SX V) as [V' E']. rewrite E'. auto.
  - intros (TL & SG & HO & HL). split; [exact TL|]. split; [eapply sext_get; eassumption|]. split.
    + intros M. destruct (HO M) as (BF & V & ts & PT & GF). destruct (tvalid_ext gl path _ _ _ SX V) as [V' E']. split; [exact BF|]. split; [exact V'|].
      exists ts. rewrite E'. split; [|exact GF]. unfold ptypes in *. eapply Forall2_imp; [|exact PT]. cbn. intros p t (y & c & E & K & VC & ->).
      destruct (tvalid_ext gl path _ _ _ SX VC) as [VC' EC]. exists y, c. split; [eapply frame_sym; eassumption|]. auto.
    + intros M. destruct (HL M) as (ML & HB). split; [exact ML|]. intros BF. destruct (HB BF) as (pts & r' & NS & ER & NP). exists pts, r'. split; [exact NS|]. split; [exact ER|].
      unfold nparams in *. eapply Forall2_imp; [|exact NP]. cbn. intros p q (y & E & K). exists y. split; [eapply frame_sym; eassumption|auto].
Qed.
Lemma base_frame w st st' g : frame w st st' -> ~ w gl -> ~ w tyc -> recs_ok st w -> base st g -> base st' g.
Proof.
  intros FR WG WT RO B. pose proof (frame_sext _ _ _ FR RO) as SX. destruct (b_gl _ _ B) as (cg & EG & UG). destruct (b_ty _ _ B) as (ct & ET & YT & UT).
  assert (KG : nth_error (so_scopes st') gl = nth_error (so_scopes st) gl) by (apply (f_keep _ _ _ FR); [apply nth_error_Some; congruence|exact WG]).
  assert (KT : nth_error (so_scopes st') tyc = nth_error (so_scopes st) tyc) by (apply (f_keep _ _ _ FR); [apply nth_error_Some; congruence|exact WT]).
  assert (SG : forall n, scope_get st' gl n = scope_get st gl n) by (intros; unfold scope_get; rewrite KG; reflexivity).
  constructor.
  - exists cg. rewrite KG. auto.
  - exists ct. rewrite KT. auto.
  - apply B.
  - intros n i H. rewrite SG in H. destruct (b_glob _ _ B _ _ H) as (x & E & N & LK). exists x. split; [eapply frame_sym; eassumption|]. split; [exact N|].
    eapply lk_frame; eassumption.
  - intros i x f ms tp E K. destruct (b_fields _ _ B _ _ _ _ _ (frame_old _ _ _ _ _ _ _ _ FR E K) K) as (LT & N1 & N2). pose proof (frame_len _ _ _ FR). split; [lia|auto].
  - intros i x f ms tp E K M. pose proof (frame_old _ _ _ _ _ _ _ _ FR E K) as E0. destruct (b_rec _ _ B _ _ _ _ _ E0 K M) as (-> & -> & HF). split; [reflexivity|]. split; [reflexivity|].
    intros m j A. unfold fields_of in A. rewrite (sx_rec _ _ SX _ _ _ _ _ E0 K) in A. destruct (HF m j A) as (y & c & EY & KY & VC).
    exists y, c. split; [eapply frame_sym; eassumption|]. split; [exact KY|]. apply (tvalid_ext gl path _ _ _ SX VC).
  - intros p IP. destruct (b_prim _ _ B p IP) as (i & x & GI & E & K). exists i, x. rewrite SG. split; [exact GI|]. split; [eapply frame_sym; eassumption|exact K].
  - destruct (b_taken _ _ B) as (i & x & GI & E & K). exists i, x. rewrite SG. split; [exact GI|]. split; [eapply frame_sym; eassumption|exact K].
  - intros i OI. rewrite (f_opc _ _ _ FR) in OI. destruct (b_opc _ _ B i OI) as (x & E & N). exists x. split; [eapply frame_sym; eassumption|exact N].
Qed.
Lemma link_ext st st' c lvs : sext st st' -> link st c lvs -> link st' c lvs.
Proof.
  intros SX L n. specialize (L n). destruct (assoc n (sc_syms c)) as [i|]; [|exact L]. destruct L as (x & t & E & N & K & M & V & T).
  destruct (sx_sym _ _ SX _ _ E) as (x' & E' & N' & K' & M'). destruct (tvalid_ext gl path _ _ _ SX V) as [V' S']. exists x', t. rewrite N', K', M', S'. auto 10.
Qed.
Lemma chain_frame w st st' sc L : frame w st st' -> sext st st' -> (forall k, (k <= sc)%nat -> ~ w k) -> chain st sc L -> chain st' sc L.
Proof.
  intros FR SX W C. induction C as [|sc c up lvs rest E U LT NG NT AP NL LN C IH]; [constructor|].
  assert (LS : (sc < List.length (so_scopes st))%nat) by (apply nth_error_Some; congruence).
  econstructor; try eassumption.
  - rewrite (f_keep _ _ _ FR); [exact E|exact LS|apply W; lia].
  - intros i x f ms tp EX K. eapply AP; [eapply frame_old; eassumption|exact K].
  - eapply link_ext; eassumption.
  - apply IH. intros k LE. apply W. lia.
Qed.
Lemma chain_lt st g sc L : base st g -> chain st sc L -> (sc < List.length (so_scopes st))%nat.
Proof. intros B C. destruct (chain_in _ _ _ C (b_gl _ _ B)) as (c & E). apply nth_error_Some. congruence. Qed.
Lemma inv_sext ret G s st' : inv ret G s -> frame nowhere (sst_st s) st' -> sext (sst_st s) st'.
Proof. intros I FR. eapply frame_sext; [exact FR|]. eapply recs_weak; [|eapply inv_recs, I]. intros k []. Qed.
Lemma inv_step ret G s s' : inv ret G s -> step nowhere s s' -> inv ret G s'.
Proof.
  intros I [FR (ln & CX)]. pose proof (inv_sext _ _ _ _ I FR) as SX.
  destruct I as [I1 I2 I3 I4 I5 I6 I7 I8 I9 I10]. constructor; rewrite ?CX; cbn [reline sst_cx cx_global cx_module cx_reg cx_yield cx_ty cx_scope cx_depth cx_func cx_loop]; auto.
  - eapply base_frame; [exact FR|intros []|intros []| |exact I6]. intros i x f ms tp E K. split; [|intros []]. eapply (b_fields _ _ I6); eassumption.
  - eapply chain_frame; [exact FR|exact SX| |exact I7]. intros k _ [].
  - destruct (cx_func (sst_cx s)) as [f|]; [|exact I9]. destruct I9 as (x & ps & E & K & T & V). destruct (tvalid_ext gl path _ _ _ SX V) as [V' S'].
    exists x, ps. rewrite S'. split; [eapply frame_sym; eassumption|auto].
Qed.
Lemma same_step s s' : same s s' -> step nowhere s s'.
Proof. intros (l & ->). split; [apply frame_refl|]. exists l. reflexivity. Qed.
Lemma inv_same ret G s s' : inv ret G s -> same s s' -> inv ret G s'.
Proof. intros I SM. eapply inv_step; [exact I|apply same_step; exact SM]. Qed.
Lemma step_at s s' : step nowhere s s' -> cx_scope (sst_cx s') = cx_scope (sst_cx s).
Proof. intros [_ K]. apply kept_scope. exact K. Qed.

(** Entering a new scope. *)
Lemma inv_enter ret G s s1 sc c lvs b : inv ret G s -> frame nowhere (sst_st s) (sst_st s1) ->
  nth_error (so_scopes (sst_st s1)) sc = Some c -> sc_up c = Some (cx_scope (sst_cx s)) -> (List.length (so_scopes (sst_st s)) <= sc)%nat ->
  lvs <> [] -> link (sst_st s1) c lvs -> (cx_loop (sst_cx s1) = true -> b = true) ->
  (exists ln lo, sst_cx s1 = mkCx gl (Datatypes.S (cx_depth (sst_cx s))) sc ln false (cx_func (sst_cx s)) None lo path tyc) ->
  inv ret (mkTE (te_g G) (lvs ++ te_loc G) (te_ret G) b) s1.
Proof.
  intros I FR E U GE NL LN LB (ln & lo & CX). pose proof (inv_sext _ _ _ _ I FR) as SX.
  pose proof (chain_lt _ _ _ _ (i_base _ _ _ I) (i_chain _ _ _ I)) as LS.
  destruct I as [I1 I2 I3 I4 I5 I6 I7 I8 I9 I10]. destruct (b_ty _ _ I6) as (ct & ET & _). assert (LT : (tyc < List.length (so_scopes (sst_st s)))%nat) by (apply nth_error_Some; congruence).
  destruct (b_gl _ _ I6) as (cg & EG & _). assert (LG : (gl < List.length (so_scopes (sst_st s)))%nat) by (apply nth_error_Some; congruence).
  constructor; rewrite ?CX; cbn [cx_global cx_module cx_reg cx_yield cx_ty cx_scope cx_depth cx_func cx_loop te_g te_loc te_ret te_loop]; auto.
  - eapply base_frame; [exact FR|intros []|intros []| |exact I6]. intros i x f ms tp EX K. split; [|intros []]. eapply (b_fields _ _ I6); eassumption.
  - econstructor; try eassumption; try lia.
    + intros i x f ms tp EX K. destruct (b_fields _ _ I6 _ _ _ _ _ (frame_old _ _ _ _ _ _ _ _ FR EX K) K). lia.
    + eapply chain_frame; [exact FR|exact SX| |exact I7]. intros k _ [].
  - destruct (cx_func (sst_cx s)) as [f|]; [|exact I9]. destruct I9 as (x & ps & EX & K & T & V). destruct (tvalid_ext gl path _ _ _ SX V) as [V' S'].
    exists x, ps. rewrite S'. split; [eapply frame_sym; eassumption|auto].
  - rewrite CX in LB. exact LB.
Qed.
(** A new name in the current scope. *)
Lemma inv_bind ret G s s' l0 r n t x : inv ret G s -> te_loc G = l0 :: r -> scope_get (sst_st s) (cx_scope (sst_cx s)) n = None ->
  so_syms (sst_st s') = so_syms (sst_st s) ++ [x] -> s_name x = n -> s_kind x = SVar t -> s_mod x = path -> tvalid (sst_st s) t ->
  so_scopes (sst_st s') = upd (so_scopes (sst_st s)) (cx_scope (sst_cx s)) (bind_in n (List.length (so_syms (sst_st s)))) ->
  so_opcao (sst_st s') = so_opcao (sst_st s) -> sst_cx s' = sst_cx s ->
  inv ret (mkTE (te_g G) (((n, strip (sst_st s) t) :: l0) :: r) (te_ret G) (te_loop G)) s'.
Proof.
  intros I EL FREE SY NX KX MX V SC OP CX. pose proof (inv_recs _ _ _ I) as RO.
  assert (FR : frame (eq (cx_scope (sst_cx s))) (sst_st s) (sst_st s')).
  { eapply bind_frame; eauto. constructor; [|constructor]. intros f ms tp K. congruence. }
  pose proof (frame_sext _ _ _ FR RO) as SX.
  destruct I as [I1 I2 I3 I4 I5 I6 I7 I8 I9 I10]. constructor; rewrite ?CX; cbn [te_g te_loc te_ret te_loop]; auto.
  - rewrite EL in I7. inversion I7 as [|sc c up lvs rest E U LT NG NT AP NL LN C]; subst. eapply base_frame; [exact FR| | |exact RO|exact I6]; congruence.
  - rewrite EL in I7. inversion I7 as [|sc c up lvs rest E U LT NG NT AP NL LN C EQ ER]; subst sc.
    destruct lvs as [|l1 more]; [congruence|]. cbn in ER. injection ER as -> ER. subst r.
    change (((n, strip (sst_st s) t) :: l0) :: more ++ rest) with ((((n, strip (sst_st s) t) :: l0) :: more) ++ rest).
    apply ch_in with (c := bind_in n (List.length (so_syms (sst_st s))) c) (up := up); try assumption.
    + rewrite SC, nth_upd, Nat.eqb_refl, E. reflexivity.
    + intros i y f ms tp EX K. eapply AP; [eapply frame_old; eassumption|exact K].
    + discriminate.
    + intros m. cbn [bind_in sc_syms]. destruct (text_eqb m n) eqn:MN.
      * apply text_eqb_eq in MN as ->. rewrite assoc_set_eq. exists x, t. destruct (tvalid_ext gl path _ _ _ SX V) as [V' S'].
        split; [rewrite SY; apply nth_last|]. repeat (split; [assumption|]). cbn. rewrite text_eqb_refl, S'. reflexivity.
      * rewrite assoc_set_neq by (intros ->; rewrite text_eqb_refl in MN; discriminate MN).
        pose proof (link_ext _ _ _ _ SX LN m) as LM. cbn [tlook assoc] in *. rewrite MN. exact LM.
    + eapply chain_frame; [exact FR|exact SX| |exact C]. intros k LE <-. lia.
  - intros _. rewrite EL in I8. apply I8. discriminate.
  - destruct (cx_func (sst_cx s)) as [f|]; [|exact I9]. destruct I9 as (y & ps & EX & K & T & V0). destruct (tvalid_ext gl path _ _ _ SX V0) as [V' S'].
    exists y, ps. rewrite S'. split; [eapply frame_sym; eassumption|auto].
Qed.

(** ** Statements *)
Definition low_stm (lex : nat) (G : tenv) (t : tx) (G' : tenv) : Prop :=
  forall nd cur', lower stf lex t (Some lex) = LOk (nd, cur') -> cur' = Some lex /\ sty G nd G'.
Definition Sclaim (x : sx) : Prop := forall again ret G s t o s', visit x PNone None again s = COk (t, o) s' -> inv ret G s ->
  safe stf path ret t = true -> sext (sst_st s') stf -> (is_decl x = true -> te_loc G <> []) ->
  exists G', inv ret G' s' /\ (is_decl x = false -> G' = G) /\ (te_loc G <> [] -> te_loc G' <> []) /\ low_stm (cx_scope (sst_cx s)) G t G'.
Definition Lblk (lex : nat) (G1 : tenv) (t : tx) : Prop := exists sc ch, t = TBlock sc ch /\ up_of stf sc = Some lex /\
  forall nds cur', lseq (lower stf sc) ch (Some sc) = LOk (nds, cur') -> cur' = Some sc /\ seq_of sty G1 nds.

Lemma ety_sty G nd A : ety S None R G nd A -> sty G nd G.
Proof. destruct nd; cbn; try contradiction; intros H; (split; [reflexivity|]); exists A; exact H. Qed.
Lemma sext_back ret G s s' : inv ret G s -> step nowhere s s' -> sext (sst_st s') stf -> sext (sst_st s) stf.
Proof. intros I [FR _] SX. eapply sext_trans; [eapply inv_sext; eassumption|exact SX]. Qed.
Lemma s_step x again s t o s' : is_s (core x) = true \/ is_l (core x) = true -> is_decl x = false -> noyield s ->
  visit x PNone None again s = COk (t, o) s' -> step nowhere s s'.
Proof.
  intros C ND NY V. destruct (P_all F usa x) as [PX _]. eapply step_weak; [|eapply PX; [exact C|exact NY|congruence|exact V]].
  intros k [D _]. congruence.
Qed.
(** An expression inside a statement. *)
Lemma expr_ok x p again ret G G' X s t o s' : is_e (core x) = true -> p <> PField -> visit x p None again s = COk (t, o) s' -> inv ret G s ->
  sext (sst_st s) stf -> te_g G' = te_g G -> (forall n, ~ In n X -> tlook (te_loc G') n = tlook (te_loc G) n) -> good path stf X ret t ->
  same s s' /\ Etyped (sst_st s) G' t.
Proof.
  intros C NP V I SX EG EL GD. destruct (E_all F usa gl path lib S stf lib_names prim_names x) as [E _].
  eapply E; [apply is_e_is_a; exact C|exact NP|exact V| |exact GD]. eapply inv_env; eassumption.
Qed.
Lemma good0 ret t : safe stf path ret t = true -> good path stf [] ret t.
Proof. intros H. split; [exact H|]. intros n []. Qed.
Lemma expr_ok0 x p again ret G s t o s' : is_e (core x) = true -> p <> PField -> visit x p None again s = COk (t, o) s' -> inv ret G s ->
  sext (sst_st s) stf -> safe stf path ret t = true -> same s s' /\ Etyped (sst_st s) G t.
Proof. intros C NP V I SX SF. eapply expr_ok; eauto. apply good0. exact SF. Qed.
Tactic Notation "next" simple_intropattern(a) ident(Q) := let s1 := fresh "s" in apply cbind_inv in Q as (a & s1 & ?H & Q).
(** The first step of every visit. *)
Ltac begin CS := intros again ret G s t0 o0 s' V I SF SX DL;
  let st := fresh "ST" in
  match type of V with visit ?x _ _ _ _ = _ =>
    assert (st : step nowhere s s') by (apply (s_step x again s t0 o0 s'); [left; exact CS|reflexivity|apply I|exact V]) end;
  exists G; assert (SS : sext (sst_st s) stf) by (eapply sext_back; eassumption);
  split; [eapply inv_step; eassumption|]; split; [reflexivity|]; split; [auto|];
  cbn [Check.visit] in V; next ?u V; match goal with H : set_line _ _ = COk _ _ |- _ => apply line_inv in H; subst end;
  match type of V with _ (reline s ?l) = _ => apply inv_same with (s' := reline s l) in I; [|apply same_line];
    change (sst_st s) with (sst_st (reline s l)) in SS; change (cx_scope (sst_cx s)) with (cx_scope (sst_cx (reline s l))); clear st; 
    let s0 := fresh "s" in set (s0 := reline s l) in *; clearbody s0; clear s; rename s0 into s end.
Lemma S_expr x : is_e (core x) = true -> Sclaim x.
Proof.
  intros C again ret G s t o s' V I SF SX DL. exists G.
  assert (ST : step nowhere s s') by (eapply v_step; eassumption).
  destruct (expr_ok0 x PNone again ret G s t o s') as (SM & P0 & TV & TD); auto; [exact nN|eapply sext_back; eassumption|].
  split; [eapply inv_step; eassumption|]. split; [reflexivity|]. split; [auto|].
  intros nd cur' L. destruct (TD _ _ _ _ L) as (-> & ET). split; [reflexivity|]. eapply ety_sty. exact ET.
Qed.
Lemma S_assign t v r : is_e (core r) = true -> Sclaim (XAssign t (XVar v) r).
Proof.
  intros C. assert (CS : is_s (core (XAssign t (XVar v) r)) = true) by (cbn; rewrite C; reflexivity). begin CS. next rv V. destruct rv as [tr orr]. next ?u V. apply line_inv in H0. subst. next lr V. apply variable_inv in H0 as (-> & i & x & ty & -> & RS & E & SY & CE).
  cbn [fst snd] in V. next y V. apply sym_at_inv in H0 as [E' ->]. assert (y = x) as -> by congruence. next m V. apply gcx_inv in H0 as [-> ->].
  destruct (negb (text_eqb (s_mod x) (cx_module _))) eqn:OW; [discriminate V|]. apply negb_false_iff, text_eqb_eq in OW.
  assert (V' : (promotes (tx_ty tr) ty ;;; ok <- match_ty ty (tx_ty tr) ;;
     (if negb ok then set_line (Lexer.t_line t) ;;; ccerr else cret (TAssign (Lexer.t_line t) (lex_text v) i (set_prom (to_real (tx_ty tr) ty) tr) ty, None))) (reline s0 (Lexer.t_line v)) = COk (t0, o0) s').
  { destruct ty; try exact V. discriminate V. }
  clear V. rename V' into V. next ?u V. apply promotes_inv in H0. subst s1. next ok V. apply match_ty_inv in H0 as [MT ->].
  destruct ok; [|next ?u V; discriminate V]. cbn [negb] in V. apply cret_inv in V as [V ->]. injection V as -> ->.
  cbn in SF. rewrite safe_prom, fits_prom in SF. rewrite !andb_true_iff in SF. destruct SF as [[S1 S2] S3].
  destruct (expr_ok0 r PExpr again ret G s tr orr s0) as (SM & ET); auto; [exact nE|].
  pose proof (inv_same _ _ _ _ (inv_same _ _ _ _ I SM) (same_line s0 (Lexer.t_line v))) as I2.
  assert (SX2 : sext (sst_st (reline s0 (Lexer.t_line v))) stf) by (cbn; rewrite (same_st _ _ SM); exact SS).
  pose proof (inv_env0 _ _ _ I2 SX2) as EO. pose proof (e_look _ _ _ _ _ _ _ EO _ _ _ (fun x => x) RS E) as LK.
  cbn [reline sst_st sst_cx cx_module] in *. rewrite (i_path _ _ _ (inv_same _ _ _ _ I SM)) in OW.
  assert (KX : s_kind x = SVar ty).
  { unfold sym_ty in SY. unfold can_evaluate in CE. destruct (s_kind x) eqn:K; try discriminate CE; injection SY as <-; [reflexivity|discriminate S2]. }
  unfold AcceptExpr.lk in LK. rewrite KX in LK. destruct (LK OW) as [TV VT]. rewrite (same_st _ _ SM) in MT, TV, VT.
  destruct (coerce _ _ _ _ _ _ _ _ ET (b_taken _ _ (i_base _ _ _ I)) TV MT S3) as (A & TD & SB).
  intros nd cur' L. cbn [lower] in L. destruct (lower stf _ (set_prom _ tr) _) as [[n1 c1]| |] eqn:L1; try discriminate L. cbn [lbind] in L.
  destruct (TD _ _ _ _ L1) as (-> & EN). destruct (get_sym stf i) as [y| |]; try discriminate L. cbn [lbind] in L. injection L as <- <-.
  split; [reflexivity|]. cbn. split; [reflexivity|]. exists (strip (sst_st s) ty), A. auto.
Qed.
Lemma S_mostra t e : is_e (core e) = true -> Sclaim (XMostra t e).
Proof.
  intros C. assert (CS : is_s (core (XMostra t e)) = true) by (cbn; rewrite C; reflexivity). begin CS.
  next r V. destruct r as [te oe]. apply cret_inv in V as [V ->]. injection V as -> ->. cbn [fst] in *. cbn in SF.
  destruct (expr_ok0 e PStmt again ret G s te oe s0) as (SM & P0 & TV & TD); auto; [exact nS|].
  intros nd cur' L. cbn [lower] in L. destruct (lower stf _ te _) as [[n1 c1]| |] eqn:L1; try discriminate L. cbn [lbind] in L. injection L as <- <-.
  destruct (TD _ _ _ _ L1) as (-> & EN). split; [reflexivity|]. cbn. split; [reflexivity|]. eexists. split; [exact EN|]. eapply valid_showable. exact TV.
Qed.
Lemma S_loopctl t : Sclaim (XLoopCtl t).
Proof.
  assert (CS : is_s (core (XLoopCtl t)) = true) by reflexivity. begin CS.
  next b V. apply gcx_inv in H as [-> ->]. destruct (cx_loop (sst_cx s)) eqn:LP; [|discriminate V]. apply cret_inv in V as [V ->]. injection V as -> ->.
  intros nd cur' L. cbn [lower] in L. injection L as <- <-. split; [reflexivity|]. cbn. split; [reflexivity|]. apply I. exact LP.
Qed.
Lemma S_ret t o : oP (fun e => is_e (core e) = true) o -> Sclaim (XRet t o).
Proof.
  intros C. assert (CS : is_s (core (XRet t o)) = true) by (cbn; destruct o; [cbn in C; rewrite C|]; reflexivity). begin CS.
  next f V. apply gcx_inv in H as [-> ->]. pose proof (i_func _ _ _ I) as IF. destruct (cx_func (sst_cx s)) as [f|]; [|discriminate V].
  destruct IF as (x & ps & EX & KX & TR & TV). next y V. apply sym_at_inv in H as [E ->]. assert (y = x) as -> by congruence.
  next ft V. apply must_inv in H as [FT ->]. unfold sym_ty in FT. rewrite KX in FT. injection FT as <-.
  pose proof (i_yield _ _ _ I) as NY. destruct o as [e|].
  - destruct (is_vazio ret); [discriminate V|]. next y V. apply gcx_inv in H as [-> ->]. rewrite NY in V. next ?v V. apply cret_inv in H as [_ ->].
    next r V. destruct r as [te oe]. next ?v V. apply promotes_inv in H0. subst. next ok V. apply match_ty_inv in H0 as [MT ->]. destruct ok; [|discriminate V].
    apply cret_inv in V as [V ->]. injection V as -> ->. cbn [fst] in *. cbn in SF. rewrite safe_prom, fits_prom in SF. apply andb_prop in SF as [S1 S2].
    cbn in C. destruct (expr_ok0 e PStmt again ret G s te oe s0) as (SM & ET); auto; [exact nS|]. rewrite (same_st _ _ SM) in MT.
    destruct (coerce _ _ _ _ _ _ _ _ ET (b_taken _ _ (i_base _ _ _ I)) TV MT S2) as (A & TD & SB).
    intros nd cur' L. cbn [lower lopt] in L. destruct (lower stf _ (set_prom _ te) _) as [[n1 c1]| |] eqn:L1; try discriminate L. cbn [lbind] in L. injection L as <- <-.
    destruct (TD _ _ _ _ L1) as (-> & EN). split; [reflexivity|]. cbn. split; [reflexivity|]. rewrite TR. eauto.
  - destruct (negb (is_vazio ret)) eqn:VZ; [discriminate V|]. next y V. apply gcx_inv in H as [-> ->]. rewrite NY in V. next ?v V. apply cret_inv in H as [_ ->].
    apply cret_inv in V as [V ->]. injection V as -> ->. intros nd cur' L. cbn [lower lopt lbind] in L. injection L as <- <-.
    split; [reflexivity|]. cbn. split; [reflexivity|]. rewrite TR. apply negb_false_iff in VZ. destruct ret as [[]|?|?|?|? ?|?|?]; try discriminate VZ. reflexivity.
Qed.
Lemma strip_texto st t : tvalid st t -> strip st t = ttexto -> t = CPrim TTexto.
Proof.
  revert t. refine (tvalid_ind gl path st (fun t => strip st t = ttexto -> t = CPrim TTexto) _ _ _ _).
  - intros p _ _ U. cbn in U. injection U as ->. reflexivity.
  - intros ? ? ? U. discriminate U.
  - intros i _ U. cbn in U. destruct (nth_error _ i); discriminate U.
  - intros i x t O E N _ _ U. erewrite strip_opc in U by eassumption. discriminate U.
Qed.
(** Only a property access lowers to one. *)
Lemma lower_get lex v cur n c : lower stf lex v cur = LOk (n, c) -> match v with TGet _ _ _ _ => false | _ => true end = true ->
  match n with NGet _ _ _ => false | _ => true end = true.
Proof.
  intros L NG. destruct v; try discriminate NG; cbn [lower] in L;
    repeat match type of L with
    | (match ?m with _ => _ end) = _ => destruct m; try discriminate L
    | lbind ?m _ = _ => destruct m as [[? ?]| |] || destruct m; cbn [lbind] in L; try discriminate L
    end; try (injection L as <- <-; reflexivity); try discriminate L.
Qed.
Lemma S_iset t a v : is_e (core a) = true -> is_e (core v) = true -> Sclaim (XIndexSet t a v).
Proof.
  intros C C'. assert (CS : is_s (core (XIndexSet t a v)) = true) by (cbn; rewrite C, C'; reflexivity). begin CS.
  next r V. destruct r as [ti oi]. cbn [fst] in V. next ?v V. assert (s1 = s0 /\ tx_ty ti <> CPrim TTexto) as [-> NT].
  { destruct (tx_ty ti) as [[]|?|?|?|? ?|?|?]; try discriminate H0; apply cret_inv in H0 as [_ ->]; (split; [reflexivity|discriminate]). }
  clear H0. next r V. destruct r as [tv ov]. cbn [fst] in V. next ok V. apply match_ty_inv in H1 as [MT ->]. destruct ok; [|next ?w V; discriminate V].
  apply cret_inv in V as [V ->]. injection V as -> ->. cbn [safe] in SF. destruct ti; try discriminate SF.
  rewrite !andb_true_iff in SF. destruct SF as [[[S1 S2] S3] S4].
  destruct (expr_ok0 a PExpr again ret G s (TIndex ln ti1 ti2 t0) oi s0) as (SM & EA); auto; [exact nE|cbn; rewrite S1, S2; reflexivity|].
  pose proof (inv_same _ _ _ _ I SM) as I1. assert (SS1 : sext (sst_st s0) stf) by (rewrite (same_st _ _ SM); exact SS).
  destruct (expr_ok0 v PExpr again ret G s0 tv ov s1) as (SM1 & EV); auto; [exact nE|]. rewrite (same_st _ _ SM1) in MT. rewrite (same_st _ _ SM) in MT, EV.
  pose proof (coerce_as_is _ _ _ _ _ _ _ _ EV (b_taken _ _ (i_base _ _ _ I)) (proj1 (proj2 EA)) MT S4) as SB.
  destruct EA as (P0 & TV & TD). destruct EV as (P1 & TV1 & TD1). cbn [tx_ty] in *.
  intros nd cur' L. cbn [lower] in L. destruct (lower stf _ ti1 _) as [[n1 c1]| |] eqn:L1; try discriminate L. cbn [lbind] in L.
  destruct (lower stf _ ti2 c1) as [[n2 c2]| |] eqn:L2; try discriminate L. cbn [lbind] in L.
  destruct (lower stf _ tv c2) as [[n3 c3]| |] eqn:L3; try discriminate L. cbn [lbind] in L. injection L as <- <-.
  destruct (TD (cx_scope (sst_cx s)) (Some (cx_scope (sst_cx s))) (NIndex ln n1 n2) c2) as (E2 & NI); [cbn [lower]; rewrite L1; cbn [lbind]; rewrite L2; reflexivity|]. subst c2.
  destruct (TD1 _ _ _ _ L3) as (-> & NV). split; [reflexivity|]. cbn [Spec_Typing.sty]. split; [reflexivity|].
  cbn [ety] in NI. destruct NI as ((w & NA & U) & NI). exists (strip (sst_st s) t0), (strip (sst_st s) (tx_ty tv)).
  split; [|auto]. destruct U as [->|[-> U]]; [exact NA|]. exfalso. apply NT. exact (strip_texto _ _ TV U).
Qed.
Lemma S_set a v : is_e (core a) = true -> is_e (core v) = true -> Sclaim (XSet a v).
Proof.
  intros C C'. assert (CS : is_s (core (XSet a v)) = true) by (cbn; rewrite C, C'; reflexivity). begin CS.
  next r V. destruct r as [ta oa]. cbn [fst] in V. destruct ta as [| | | | | | | | | | |ln ta m t| | | | | | | | | | | | | | | | | | | | | | |]; try discriminate V.
  assert (V' : (rv <- visit v PExpr None again ;;
              let tt := t in
              promotes (tx_ty (fst rv)) tt ;;;
              ok <- match_ty tt (tx_ty (fst rv)) ;;
              if negb ok then set_line (Lexer.t_line (Parser.node_tok (XSet a v))) ;;; ccerr
              else cret (TSet (Lexer.t_line (Parser.node_tok (XSet a v))) (TGet ln ta m t) (set_prom (to_real (tx_ty (fst rv)) tt) (fst rv)) tt, None)) s0 = COk (t0, o0) s').
  { destruct (tx_ty ta); try exact V. discriminate V. }
  clear V. rename V' into V. cbn zeta in V. next r V. destruct r as [tv ov]. cbn [fst] in V. next ?u V. apply promotes_inv in H1. subst s2.
  next ok V. apply match_ty_inv in H1 as [MT ->]. destruct ok; [|next ?w V; discriminate V].
  apply cret_inv in V as [V ->]. injection V as -> ->. cbn [safe] in SF. rewrite safe_prom, fits_prom, !andb_true_iff in SF.
  destruct SF as [[[[[S1 S2] S3] S4] S5] S6].
  destruct (expr_ok0 a PExpr again ret G s (TGet ln ta m t) oa s0) as (SM & EA); auto; [exact nE|cbn; rewrite S1, S2, S3; reflexivity|].
  pose proof (inv_same _ _ _ _ I SM) as I1. assert (SS1 : sext (sst_st s0) stf) by (rewrite (same_st _ _ SM); exact SS).
  destruct (expr_ok0 v PExpr again ret G s0 tv ov s1) as (SM1 & EV); auto; [exact nE|]. rewrite (same_st _ _ SM1) in MT. rewrite (same_st _ _ SM) in MT, EV.
  destruct (coerce _ _ _ _ _ _ _ _ EV (b_taken _ _ (i_base _ _ _ I)) (proj1 (proj2 EA)) MT S5) as (A & TD1 & SB).
  destruct EA as (P0 & TV & TD). cbn [tx_ty] in *.
  intros nd cur' L. cbn [lower] in L. destruct (lower stf _ ta _) as [[n1 c1]| |] eqn:L1; try discriminate L. cbn [lbind] in L.
  destruct (lower stf _ (set_prom _ tv) c1) as [[n3 c3]| |] eqn:L3; try discriminate L. cbn [lbind] in L. injection L as <- <-.
  destruct (TD (cx_scope (sst_cx s)) (Some (cx_scope (sst_cx s))) (NGet ln n1 m) c1) as (E2 & NI); [cbn [lower]; rewrite L1; reflexivity|]. subst c1.
  destruct (TD1 _ _ _ _ L3) as (-> & NV). split; [reflexivity|]. 
  pose proof (lower_get _ _ _ _ _ L3) as NG. specialize (NG S6).
  cbn [ety] in NI. destruct NI as (q & dc & NI & RQ & AF).
  replace (match n3 with NGet vl b n => NField vl b n | _ => n3 end) with n3 by (destruct n3; try reflexivity; discriminate NG).
  cbn [Spec_Typing.sty]. split; [reflexivity|]. exists q, dc, (strip (sst_st s) t), A. auto.
Qed.
Lemma frame_back ret G s s' : inv ret G s -> step (eq (cx_scope (sst_cx s))) s s' -> sext (sst_st s') stf -> sext (sst_st s) stf.
Proof. intros I [FR _] SX. eapply sext_trans; [eapply frame_sext; [exact FR|eapply inv_recs; exact I]|exact SX]. Qed.
Lemma zero_ok st t : zero_initialized t = true -> zero_type (ty_name (strip st t)) (strip st t).
Proof. destruct t as [[]|?|?|?|? ?|?|?]; try discriminate; intros _; eexists; (split; [|split; reflexivity]); unfold basic; auto. Qed.
Lemma S_decl t n y o : core_ty y = true -> oP (fun q => is_e (core (snd q)) = true) o -> Sclaim (XDecl t n y o).
Proof.
  intros CY C again ret G s t0 o0 s' V I SF SX DL. specialize (DL eq_refl).
  assert (ST : step (eq (cx_scope (sst_cx s))) s s').
  { eapply AcceptStep.S_decl; [exact CY|exact C|apply I|apply (i_depth _ _ _ I); exact DL|exact V]. }
  pose proof (frame_back _ _ _ _ I ST SX) as SS. clear ST.
  destruct (te_loc G) as [|l0 r] eqn:EL; [congruence|]. clear DL.
  cbn [Check.visit] in V. next ?u V. apply line_inv in H. subst.
  match type of V with _ (reline s ?l) = _ => apply inv_same with (s' := reline s l) in I; [|apply same_line];
    change (sst_st s) with (sst_st (reline s l)) in SS; change (cx_scope (sst_cx s)) with (cx_scope (sst_cx (reline s l))); 
    let s0 := fresh "s" in set (s0 := reline s l) in *; clearbody s0; clear s; rename s0 into s end.
  next ?v V. apply free_inv in H as [-> FREE]. next ?v V. destruct again; [discriminate H|]. apply cret_inv in H as [_ ->].
  next ty V. pose proof (inv_env0 _ _ _ I SS) as EO. eapply get_type_ok in H; [|exact CY|exact EO]. destruct H as (-> & TV).
  next i V. next d V. apply gcx_inv in H0 as [-> ->]. next cur V. apply gcx_inv in H0 as [-> ->]. next ?v V.
  edestruct define_new as (EI & CX & OP & SC & x & SY & NX & KX & MX); [exact H|exact H0|]. subst i.
  apply new_var_inv in H as [_ ->]. cbn [sst_cx sst_st] in *. clear H0.
  match type of V with _ ?z = _ => rename z into sd end.
  next rr V. match type of H with _ = COk _ ?z => rename z into se end. pose proof (i_depth _ _ _ I) as DP. rewrite EL in DP. specialize (DP ltac:(discriminate)).
  destruct (cx_depth (sst_cx s)) as [|dd]; [congruence|]. cbn [Nat.eqb] in V. next ?v V. apply cret_inv in H0 as [_ ->].
  apply cret_inv in V as [V ->]. injection V as -> ->.
  assert (KN : known stf path ty = true).
  { cbn [safe] in SF. destruct rr as [[]|]; try discriminate SF; rewrite ?andb_true_iff in SF; tauto. }
  specialize (TV KN).
  pose proof (inv_bind ret G s sd l0 r (lex_text n) ty x I EL FREE SY NX KX ltac:(rewrite MX; apply I) TV SC OP CX) as ID.
  set (G' := mkTE (te_g G) (((lex_text n, strip (sst_st s) ty) :: l0) :: r) (te_ret G) (te_loop G)) in *.
  assert (SD : step nowhere sd se).
  { destruct o as [[ta e]|].
    - destruct (lex_is (Parser.node_tok e) (lex_text n)); [discriminate H|]. next ?v H. apply l_step in H0. eapply step_trans; [exact H0|].
      next rv H. apply v_step in H1; [|exact C]. eapply step_trans; [exact H1|]. next ?v H. apply l_step in H2. eapply step_trans; [exact H2|].
      next rl H. apply variable_inv in H3 as (-> & _). match type of H with _ ?z = _ => rename z into sq end.
      assert (V' : (promotes (tx_ty (fst rv)) (snd rl) ;;; ok <- match_ty (snd rl) (tx_ty (fst rv)) ;;
        (if negb ok then set_line (Lexer.t_line ta) ;;; ccerr else cret (Some (TAssign (Lexer.t_line ta) (lex_text n) (fst rl) (set_prom (to_real (tx_ty (fst rv)) (snd rl)) (fst rv)) (snd rl))))) sq = COk rr se).
      { destruct (snd rl); try exact H. discriminate H. }
      clear H. next ?v V'. apply promotes_inv in H. subst. next ok V'. apply match_ty_inv in H as [_ ->]. destruct ok; [|next ?v V'; discriminate V'].
      apply cret_inv in V' as [_ ->]. apply step_refl.
    - next b H. apply gcx_inv in H0 as [-> ->]. destruct (_ && _); [discriminate H|]. apply cret_inv in H as [_ ->]. apply step_refl. }
  pose proof (sext_back _ _ _ _ ID SD SX) as SXD.
  assert (EXT : sext (sst_st s) (sst_st sd)).
  { eapply frame_sext; [|eapply inv_recs; exact I]. eapply bind_frame; [exact SY| |exact SC|exact OP|exact FREE]. constructor; [|constructor]. intros f ms tp K. congruence. }
  destruct (tvalid_ext gl path _ _ _ EXT TV) as [TVD STY].
  assert (RSD : resolve_sc (sst_st sd) (cx_scope (sst_cx sd)) (lex_text n) = Some (List.length (so_syms (sst_st s)))).
  { unfold resolve_sc. cbn [resolve_in]. rewrite CX, SC, nth_upd, Nat.eqb_refl. destruct (chain_in _ _ _ (i_chain _ _ _ I) (b_gl _ _ (i_base _ _ _ I))) as (c & E).
    rewrite E. cbn [option_map bind_in sc_syms]. rewrite assoc_set_eq. reflexivity. }
  exists G'. split; [eapply inv_step; eassumption|]. split; [discriminate|]. split; [discriminate|].
  destruct o as [[ta e]|].
  - destruct (lex_is (Parser.node_tok e) (lex_text n)); [discriminate H|]. next ?v H. apply line_inv in H0. subst.
    next rv H. destruct rv as [tv ov]. cbn [fst] in H. next ?v H. apply line_inv in H1. subst. next rl H. apply variable_inv in H1 as (-> & i' & x' & t' & -> & RS & E & SYT & CE).
    cbn [fst snd] in H.
    assert (V' : (promotes (tx_ty tv) t' ;;; ok <- match_ty t' (tx_ty tv) ;;
        (if negb ok then set_line (Lexer.t_line ta) ;;; ccerr else cret (Some (TAssign (Lexer.t_line ta) (lex_text n) i' (set_prom (to_real (tx_ty tv) t') tv) t')))) (reline s0 (Lexer.t_line n)) = COk rr se).
    { destruct t'; try exact H. discriminate H. }
    clear H. rename V' into H. next ?v H. apply promotes_inv in H1. subst. next ok H. apply match_ty_inv in H1 as [MT ->]. destruct ok; [|next ?v H; discriminate H].
    cbn [negb] in H. apply cret_inv in H as [-> ->]. cbn [safe] in SF. rewrite safe_prom, fits_prom, !andb_true_iff in SF. destruct SF as [[[_ S1] S2] S3].
    cbn in C. assert (SM1 : same (reline sd (Lexer.t_line ta)) s0 /\ Etyped (sst_st (reline sd (Lexer.t_line ta))) G tv).
    { eapply expr_ok with (X := [lex_text n]) (G := G') (ret := ret); [exact C|exact nE|exact H0| | |reflexivity| |].
      - eapply inv_same; [exact ID|apply same_line].
      - exact SXD.
      - intros m NI. unfold G'. rewrite EL. cbn. destruct (text_eqb m (lex_text n)) eqn:MN; [|reflexivity]. apply text_eqb_eq in MN. exfalso. apply NI. left. congruence.
      - split; [exact S1|]. intros m [<-|[]]. apply negb_true_iff in S2. rewrite mentions_prom in S2. exact S2. }
    destruct SM1 as (SM & ET). cbn [reline sst_st] in ET, RS, E, MT. pose proof (same_st _ _ SM) as ES. cbn [reline sst_st] in ES. rewrite ES in RS, E, MT.
    assert (SCP : cx_scope (sst_cx (reline s0 (Lexer.t_line n))) = cx_scope (sst_cx sd)) by (destruct SM as (lx & ->); reflexivity).
    rewrite SCP, RSD in RS. injection RS as <-. assert (EX : nth_error (so_syms (sst_st sd)) (List.length (so_syms (sst_st s))) = Some x) by (rewrite SY; apply nth_last).
    assert (x' = x) as -> by congruence. unfold sym_ty in SYT. rewrite KX in SYT. injection SYT as <-.
    destruct (coerce _ _ _ _ _ _ _ _ ET (b_taken _ _ (i_base _ _ _ ID)) TVD MT S3) as (A & TD & SB).
    intros nd cur' L. cbn [lower] in L. destruct (lower stf _ (set_prom _ tv) _) as [[n1 c1]| |] eqn:L1; try discriminate L. cbn [lbind] in L.
    destruct (get_sym stf _) as [z| |]; try discriminate L. cbn [lbind] in L. injection L as <- <-.
    destruct (TD _ _ _ _ L1) as (-> & EN). split; [reflexivity|]. exists (strip (sst_st s) ty), l0, r. split; [exact EL|]. split; [reflexivity|].
    exists A. rewrite STY in SB. auto.
  - next b H. apply gcx_inv in H0 as [-> ->]. assert (RG : cx_reg (sst_cx sd) = false) by apply ID. rewrite RG in H. cbn [negb andb] in H.
    destruct (zero_initialized ty) eqn:ZI; [|discriminate H]. apply cret_inv in H as [-> ->].
    intros nd cur' L. cbn [lower lookup] in L. destruct (resolve_sc stf _ _) as [j|] eqn:RJ; [|discriminate L]. cbn [lsome lbind] in L.
    destruct (get_sym stf j) as [z| |]; try discriminate L. cbn [lbind] in L. rewrite Nat.eqb_refl in L. injection L as <- <-.
    split; [reflexivity|]. exists (strip (sst_st s) ty), l0, r. split; [exact EL|]. split; [reflexivity|].
    destruct (tvalid_ext gl path _ _ _ SS TV) as [_ EQ]. rewrite <- EQ. apply zero_ok. exact ZI.
Qed.
(** ** Sequences and blocks *)
Lemma visits_cons x l again s ts s' : visits (x :: l) again s = COk ts s' ->
  exists t o s1 ts', visit x PNone None again s = COk (t, o) s1 /\ visits l again s1 = COk ts' s' /\ ts = t :: ts'.
Proof.
  intros H. change (visits (x :: l) again) with (cbind (cbind (visit x PNone None again) (fun r => cret (fst r)))
      (fun y => cbind (visits l again) (fun ys => cret (y :: ys)))) in H.
  next t H. next r H. apply cret_inv in H as [-> ->]. next r1 H0. destruct r1 as [t1 o1]. apply cret_inv in H0 as [-> ->]. eauto 8.
Qed.
Definition low_seq (lex : nat) (G : tenv) (ts : list tx) : Prop :=
  forall nds cur', lseq (lower stf lex) ts (Some lex) = LOk (nds, cur') -> cur' = Some lex /\ seq_of sty G nds.
Lemma seq_ok l again : Forall Sclaim l -> Forall (Fclaim F usa) l -> forall ret G s ts s', visits l again s = COk ts s' -> inv ret G s -> te_loc G <> [] ->
  forallb (safe stf path ret) ts = true -> sext (sst_st s') stf -> low_seq (cx_scope (sst_cx s)) G ts.
Proof.
  induction 1 as [|x l SX _ IH]; intros FA ret G s ts s' V I NE SF EX.
  - unfold AcceptFrame.visits in V. cbn in V. injection V as <- <-. intros nds cur' L. cbn in L. injection L as <- <-. split; [reflexivity|exact Logic.I].
  - inversion FA as [|? ? FX FA']; subst. apply visits_cons in V as (t & o & s1 & ts' & V1 & V2 & ->). cbn [forallb] in SF. apply andb_prop in SF as [SF1 SF2].
    assert (ST : step (eq (cx_scope (sst_cx s))) s s1).
    { eapply step_weak; [|eapply FX; [apply I|intros _; apply (i_depth _ _ _ I); exact NE|exact V1]]. intros k [_ ->]. reflexivity. }
    assert (SC1 : cx_scope (sst_cx s1) = cx_scope (sst_cx s)) by (apply kept_scope; apply ST).
    assert (EX1 : sext (sst_st s1) stf).
    { eapply sext_trans; [|exact EX]. eapply frame_sext.
      - eapply visits_frame; [exact FA'| | |exact V2]; [eapply kept_yield; [apply ST|apply I]|].
        destruct ST as [_ (ln & ->)]. cbn. apply (i_depth _ _ _ I). exact NE.
      - rewrite SC1. eapply recs_frame; [apply ST|]. eapply inv_recs. exact I. }
    destruct (SX _ _ _ _ _ _ _ V1 I SF1 EX1 ltac:(auto)) as (G1 & I1 & _ & NE1 & LW). specialize (NE1 NE).
    pose proof (IH FA' _ _ _ _ _ V2 I1 NE1 SF2 EX) as LS. rewrite SC1 in LS.
    intros nds cur' L. cbn [lseq] in L. destruct (lower stf _ t _) as [[n1 c1]| |] eqn:L1; try discriminate L. cbn [lbind] in L.
    destruct (LW _ _ L1) as (-> & T1). destruct (lseq (lower stf _) ts' _) as [[ns c2]| |] eqn:L2; try discriminate L. cbn [lbind] in L. injection L as <- <-.
    destruct (LS _ _ L2) as (-> & T2). split; [reflexivity|]. exists G1. auto.
Qed.
Definition Kclaim (x : sx) : Prop :=
  (forall again ret G s t o s' b, visit x PNone None again s = COk (t, o) s' -> inv ret G s -> safe stf path ret t = true -> sext (sst_st s') stf ->
    (cx_loop (sst_cx s) = true -> b = true) -> Lblk (cx_scope (sst_cx s)) (mkTE (te_g G) ([] :: te_loc G) (te_ret G) b) t) /\
  (forall again ret G1 s psc t o s', visit x PNone (Some psc) again s = COk (t, o) s' -> inv ret G1 (at_scope s (Datatypes.S (cx_depth (sst_cx s))) psc) ->
    te_loc G1 <> [] -> up_of (sst_st s) psc = Some (cx_scope (sst_cx s)) -> safe stf path ret t = true -> sext (sst_st s') stf ->
    Lblk (cx_scope (sst_cx s)) G1 t).
Lemma up_ext st sc k : sext st stf -> up_of st sc = Some k -> up_of stf sc = Some k.
Proof.
  unfold up_of. intros X H. destruct (nth_error (so_scopes st) sc) as [c|] eqn:E; [|discriminate H].
  destruct (sx_scope _ _ X _ _ E) as (c' & E' & U' & _). rewrite E'. congruence.
Qed.
Lemma block_ok l : Forall Sclaim l -> Forall (Fclaim F usa) l -> Kclaim (XBlock l).
Proof.
  intros SA FA.
  assert (MAIN : forall again ret G1 s1 up ts s2 u s', inv ret G1 s1 -> te_loc G1 <> [] -> up_of (sst_st s1) (cx_scope (sst_cx s1)) = Some up ->
    visits l again s1 = COk ts s2 -> leave_scope s2 = COk u s' -> forallb (safe stf path ret) ts = true -> sext (sst_st s') stf ->
    Lblk up G1 (TBlock (cx_scope (sst_cx s1)) ts)).
  { intros again ret G1 s1 up ts s2 u s' I NE UP V L SF EX. apply leave_inv in L as (c & up' & EC & UC & ->). cbn [at_scope sst_st] in EX.
    assert (FR : frame (eq (cx_scope (sst_cx s1))) (sst_st s1) (sst_st s2)).
    { eapply visits_frame; [exact FA|apply I|apply (i_depth _ _ _ I); exact NE|exact V]. }
    exists (cx_scope (sst_cx s1)), ts. split; [reflexivity|]. split; [|eapply seq_ok; eassumption].
    eapply up_ext; [|exact UP]. eapply sext_trans; [|exact EX]. eapply frame_sext; [exact FR|]. eapply inv_recs. exact I. }
  split.
  - intros again ret G s t o s' b H I SF EX LB. apply block_inv in H as (ln & k & s1 & ts & s2 & u & E & V & L & ->).
    apply block_enter in E as [(psc & D & _)|(_ & Eb & E1)]; [discriminate D|].
    set (G1 := mkTE (te_g G) ([] :: te_loc G) (te_ret G) b).
    assert (I1 : inv ret G1 s1).
    { eapply inv_same with (s' := reline s ln) in I; [|apply same_line].
      eapply inv_enter with (lvs := [[]]) (sc := k) (c := mkScope [] (Some (cx_scope (sst_cx s)))); [exact I| | | | | | | |].
      - subst s1. apply new_scope_frame.
      - subst s1 k. apply nth_last.
      - reflexivity.
      - subst k. apply le_n.
      - discriminate.
      - intros n. reflexivity.
      - subst s1. exact LB.
      - subst s1. exists ln, (cx_loop (sst_cx s)). cbn. destruct I as [I1 I2 I3 I4 I5]. cbn in *. congruence. }
    assert (SK : cx_scope (sst_cx s1) = k) by (subst s1; reflexivity).
    rewrite <- SK. eapply MAIN; [exact I1|discriminate| |exact V|exact L|exact SF|exact EX].
    rewrite SK. unfold up_of. subst s1 k. cbn [at_scope sst_st with_scopes so_scopes reline]. rewrite nth_last. reflexivity.
  - intros again ret G1 s psc t o s' H I NE UP SF EX. apply block_inv in H as (ln & k & s1 & ts & s2 & u & E & V & L & ->).
    apply block_enter in E as [(psc' & D & Eb & E1)|(D & _)]; [|discriminate D]. injection D as <-. subst k.
    assert (I1 : inv ret G1 s1).
    { subst s1. change (at_scope (reline s ln) (Datatypes.S (cx_depth (sst_cx (reline s ln)))) psc) with (reline (at_scope s (Datatypes.S (cx_depth (sst_cx s))) psc) ln).
      eapply inv_same; [exact I|apply same_line]. }
    assert (SK : cx_scope (sst_cx s1) = psc) by (subst s1; reflexivity).
    rewrite <- SK. eapply MAIN; [exact I1|exact NE| |exact V|exact L|exact SF|exact EX].
    rewrite SK. subst s1. exact UP.
Qed.
Lemma blk_low lex G1 t cur nd cur' : Lblk lex G1 t -> lower stf lex t cur = LOk (nd, cur') ->
  cur' = Some lex /\ exists sy ch, nd = NBlock sy ch /\ seq_of sty G1 ch.
Proof.
  intros (sc & ch & -> & UP & LS) L. cbn [lower] in L. destruct (lseq (lower stf sc) ch (Some sc)) as [[ns c2]| |] eqn:L2; try discriminate L. cbn [lbind] in L.
  destruct (LS _ _ eq_refl) as (-> & T). cbn [leave_cur lbind] in L. rewrite UP in L. injection L as <- <-. eauto.
Qed.
Lemma blk_typed G nd sy ch : nd = NBlock sy ch -> seq_of sty (mkTE (te_g G) ([] :: te_loc G) (te_ret G) (te_loop G)) ch -> blk_of sty G nd.
Proof. intros -> H. exact H. Qed.
(** The middle branches of a conditional. *)
Definition low_elif (lex : nat) (G : tenv) (t : tx) : Prop := forall nd cur', lower stf lex t (Some lex) = LOk (nd, cur') ->
  cur' = Some lex /\ exists ln c b, nd = NSenaoSe ln c b /\ ety S None R G c tbool /\ blk_of sty G b.
Definition Lclaim (x : sx) : Prop := forall again ret G s t o s', visit x PNone None again s = COk (t, o) s' -> inv ret G s ->
  safe stf path ret t = true -> sext (sst_st s') stf -> low_elif (cx_scope (sst_cx s)) G t.
Lemma S_senaose t c b : is_e (core c) = true -> Bclaim F usa b -> Kclaim b -> Lclaim (XSenaoSe t c b).
Proof.
  intros C B K again ret G s t0 o0 s' V I SF SX. pose proof (inv_recs _ _ _ I) as _.
  cbn [Check.visit] in V. next ?u V. apply line_inv in H. subst.
  match type of V with _ (reline s ?l) = _ => apply inv_same with (s' := reline s l) in I; [|apply same_line];
    change (cx_scope (sst_cx s)) with (cx_scope (sst_cx (reline s l))); set (s0 := reline s l) in *; clearbody s0; clear s; rename s0 into s end.
  next rc V. destruct rc as [tc oc]. cbn [fst] in V. destruct (tx_ty tc) as [[]|?|?|?|? ?|?|?] eqn:TC; try discriminate V. next rb V. destruct rb as [tb ob]. apply cret_inv in V as [V ->]. injection V as -> ->.
  cbn [fst safe] in SF. apply andb_prop in SF as [S1 S2].
  pose proof (v_step _ _ _ _ _ _ _ _ C H) as ST1. pose proof (inv_step _ _ _ _ I ST1) as I1.
  pose proof (b_step _ _ _ _ _ _ _ B (i_yield _ _ _ I1) H0) as ST2.
  pose proof (sext_back _ _ _ _ I1 ST2 SX) as X1. pose proof (sext_back _ _ _ _ I ST1 X1) as X0.
  destruct (expr_ok0 c PNone again ret G s tc oc s0) as (SM & P0 & TV & TD); auto; [exact nN|].
  pose proof (proj1 K _ _ _ _ _ _ _ (te_loop G) H0 I1 S2 SX (i_loop _ _ _ I1)) as LB. rewrite (step_at _ _ ST1) in LB.
  intros nd cur' L. cbn [lower fst] in L. destruct (lower stf _ tc _) as [[n1 c1]| |] eqn:L1; try discriminate L. cbn [lbind] in L.
  destruct (TD _ _ _ _ L1) as (-> & EC). rewrite TC in EC. destruct (lower stf _ tb _) as [[n2 c2]| |] eqn:L2; try discriminate L. cbn [lbind] in L. injection L as <- <-.
  destruct (blk_low _ _ _ _ _ _ LB L2) as (-> & sy & ch & -> & TB). split; [reflexivity|]. eexists _, _, _. split; [reflexivity|]. split; [exact EC|exact TB].
Qed.
Lemma elifs_ok l again : Forall (fun x => is_decl x = false /\ Fclaim F usa x) l -> Forall Lclaim l -> forall ret G s ts s', visits l again s = COk ts s' -> inv ret G s ->
  forallb (safe stf path ret) ts = true -> sext (sst_st s') stf ->
  forall nds cur', lseq (lower stf (cx_scope (sst_cx s))) ts (Some (cx_scope (sst_cx s))) = LOk (nds, cur') -> cur' = Some (cx_scope (sst_cx s)) /\ elifs_of S None R sty G nds.
Proof.
  intros FA LA. induction LA as [|x l LX _ IH]; intros ret G s ts s' V I SF SX nds cur' L.
  - unfold AcceptFrame.visits in V. cbn in V. injection V as <- <-. cbn in L. injection L as <- <-. split; [reflexivity|exact Logic.I].
  - inversion FA as [|? ? FX FA']; subst. destruct FX as [ND FX]. apply visits_cons in V as (t & o & s1 & ts' & V1 & V2 & ->). cbn [forallb] in SF. apply andb_prop in SF as [SF1 SF2].
    assert (ST : step nowhere s s1).
    { eapply step_weak; [|eapply FX; [apply I|congruence|exact V1]]. intros k [D _]. congruence. }
    pose proof (inv_step _ _ _ _ I ST) as I1. pose proof (S_elifs _ _ _ _ FA' _ _ _ (i_yield _ _ _ I1) V2) as ST2.
    pose proof (sext_back _ _ _ _ I1 ST2 SX) as X1. pose proof (LX _ _ _ _ _ _ _ V1 I SF1 X1) as LW.
    cbn [lseq] in L. destruct (lower stf _ t _) as [[n1 c1]| |] eqn:L1; try discriminate L. cbn [lbind] in L.
    destruct (LW _ _ L1) as (-> & ln & c & b & -> & T1 & T2). destruct (lseq (lower stf _) ts' _) as [[ns c2]| |] eqn:L2; try discriminate L. cbn [lbind] in L. injection L as <- <-.
    rewrite <- (step_at _ _ ST) in L2. destruct (IH FA' _ _ _ _ _ V2 I1 SF2 SX _ _ L2) as (-> & T3). rewrite (step_at _ _ ST). split; [reflexivity|]. cbn. auto.
Qed.
Lemma S_se t c th l el : is_s (core (XSe t c th l el)) = true -> is_e (core c) = true -> Bclaim F usa th -> Kclaim th ->
  Forall (fun x => is_decl x = false /\ Fclaim F usa x) l -> Forall Lclaim l -> oP (Bclaim F usa) el -> oP Kclaim el -> Sclaim (XSe t c th l el).
Proof.
  intros CS C B K FL LL BE KE. begin CS.
  next rc V. destruct rc as [tc oc]. cbn [fst] in V. next g V. apply tag_inv in H0 as [TC ->]. destruct (negb (prim_eqb g TBool)) eqn:GB; [discriminate V|].
  assert (g = TBool) as -> by (destruct g; try discriminate GB; reflexivity). clear GB.
  next rt V. destruct rt as [tt ot]. cbn [fst] in V. next ts V. next ro V. apply cret_inv in V as [V ->]. injection V as -> ->.
  cbn [safe fst] in SF. rewrite !andb_true_iff in SF. destruct SF as [[[S1 S2] S3] S4].
  pose proof (v_step _ _ _ _ _ _ _ _ C H) as ST1. pose proof (inv_step _ _ _ _ I ST1) as I1.
  pose proof (b_step _ _ _ _ _ _ _ B (i_yield _ _ _ I1) H0) as ST2. pose proof (inv_step _ _ _ _ I1 ST2) as I2.
  change (visits l again s1 = COk ts s2) in H1.
  pose proof (S_elifs _ _ _ _ FL _ _ _ (i_yield _ _ _ I2) H1) as ST3. pose proof (inv_step _ _ _ _ I2 ST3) as I3.
  assert (ST4 : step nowhere s2 s3).
  { destruct el as [e|]; [|eapply cret_step; eassumption]. next re H2. apply cret_inv in H2 as [_ ->]. eapply b_step; [exact BE|exact (i_yield _ _ _ I3)|eassumption]. }
  pose proof (sext_back _ _ _ _ I3 ST4 SX) as X3. pose proof (sext_back _ _ _ _ I2 ST3 X3) as X2. pose proof (sext_back _ _ _ _ I1 ST2 X2) as X1.
  destruct (expr_ok0 c PNone again ret G s tc oc s0) as (SM & P0 & TV & TD); auto; [exact nN|]. rewrite TC in TD.
  pose proof (proj1 K _ _ _ _ _ _ _ (te_loop G) H0 I1 S2 X2 (i_loop _ _ _ I1)) as LB. rewrite (step_at _ _ ST1) in LB.
  pose proof (elifs_ok _ _ FL LL _ _ _ _ _ H1 I2 S3 X3) as LE. rewrite (step_at _ _ ST2), (step_at _ _ ST1) in LE.
  assert (LO : forall nd cur', lopt (lower stf (cx_scope (sst_cx s))) ro (Some (cx_scope (sst_cx s))) = LOk (nd, cur') -> cur' = Some (cx_scope (sst_cx s)) /\
    match nd with Some b => blk_of sty G b | None => True end).
  { intros nd cur' L. destruct el as [e|].
    - next re H2. destruct re as [te oe]. apply cret_inv in H2 as [-> ->]. cbn [lopt fst] in L. destruct (lower stf _ te _) as [[n2 c2]| |] eqn:L2; try discriminate L. cbn [lbind] in L. injection L as <- <-.
      pose proof (proj1 KE _ _ _ _ _ _ _ (te_loop G) H3 I3 S4 SX (i_loop _ _ _ I3)) as LK. rewrite (step_at _ _ ST3), (step_at _ _ ST2), (step_at _ _ ST1) in LK.
      destruct (blk_low _ _ _ _ _ _ LK L2) as (-> & sy & ch & -> & TB). split; [reflexivity|exact TB].
    - apply cret_inv in H2 as [-> ->]. cbn in L. injection L as <- <-. auto. }
  intros nd cur' L. cbn [lower fst] in L. destruct (lower stf _ tc _) as [[n1 c1]| |] eqn:L1; try discriminate L. cbn [lbind] in L.
  destruct (TD _ _ _ _ L1) as (-> & EC). destruct (lower stf _ tt _) as [[n2 c2]| |] eqn:L2; try discriminate L. cbn [lbind] in L.
  destruct (blk_low _ _ _ _ _ _ LB L2) as (-> & sy & ch & -> & TB). destruct (lseq _ ts _) as [[n3 c3]| |] eqn:L3; try discriminate L. cbn [lbind] in L.
  destruct (LE _ _ eq_refl) as (-> & TE). destruct (lopt _ ro _) as [[n4 c4]| |] eqn:L4; try discriminate L. cbn [lbind] in L. injection L as <- <-.
  destruct (LO _ _ eq_refl) as (-> & TO). split; [reflexivity|]. cbn [Spec_Typing.sty]. split; [reflexivity|]. split; [exact EC|]. split; [exact TB|]. split; [exact TE|exact TO].
Qed.
Definition looped (b : bool) (s : sst) : sst :=
  mkSst (sst_st s) (mkCx (cx_global (sst_cx s)) (cx_depth (sst_cx s)) (cx_scope (sst_cx s)) (cx_line (sst_cx s)) (cx_reg (sst_cx s)) (cx_func (sst_cx s))
                         (cx_yield (sst_cx s)) b (cx_module (sst_cx s)) (cx_ty (sst_cx s))).
Lemma inv_looped ret G s b : inv ret G s -> inv ret (in_loop G) (looped b s).
Proof. intros []. constructor; auto. Qed.
Lemma S_enquanto t c b : is_e (core c) = true -> is_b (core b) = true -> Bclaim F usa b -> Kclaim b -> Sclaim (XEnquanto t c b).
Proof.
  intros C CB B K. assert (CS : is_s (core (XEnquanto t c b)) = true) by (cbn; rewrite C, CB; reflexivity). begin CS.
  next rc V. destruct rc as [tc oc]. cbn [fst] in V. next g V. apply tag_inv in H0 as [TC ->]. destruct (negb (prim_eqb g TBool)) eqn:GB; [next ?v V; discriminate V|].
  assert (g = TBool) as -> by (destruct g; try discriminate GB; reflexivity). clear GB.
  next old V. apply gcx_inv in H0 as [-> ->]. next ?v V. unfold set_loop, mcx in H0. injection H0 as <- <-.
  change (mkSst (sst_st s0) _) with (looped true s0) in V.
  next rb V. destruct rb as [tb ob]. next ?v V. unfold set_loop, mcx in H1. injection H1 as <- <-. apply cret_inv in V as [V ->]. injection V as -> ->.
  cbn [safe fst] in SF. rewrite !andb_true_iff in SF. destruct SF as [S1 S2]. cbn [sst_st] in SX.
  pose proof (v_step _ _ _ _ _ _ _ _ C H) as ST1. pose proof (inv_step _ _ _ _ I ST1) as I1.
  pose proof (inv_looped _ _ _ true I1) as I2. pose proof (b_step _ _ _ _ _ _ _ B (i_yield _ _ _ I2) H0) as ST2.
  pose proof (sext_back _ _ _ _ I2 ST2 SX) as X1. cbn [looped sst_st] in X1.
  destruct (expr_ok0 c PNone again ret G s tc oc s0) as (SM & P0 & TV & TD); auto; [exact nN|]. rewrite TC in TD.
  pose proof (proj1 K _ _ _ _ _ _ _ true H0 I2 S2 SX (fun _ => eq_refl)) as LB. cbn [looped sst_cx cx_scope in_loop te_g te_loc te_ret] in LB. rewrite (step_at _ _ ST1) in LB.
  destruct LB as (sc & ch & -> & UP & LS).
  intros nd cur' L. cbn [lower fst] in L. destruct (lower stf _ tc _) as [[n1 c1]| |] eqn:L1; try discriminate L. cbn [lbind] in L.
  destruct (TD _ _ _ _ L1) as (-> & EC). destruct (lseq _ ch _) as [[n2 c2]| |] eqn:L2; try discriminate L. cbn [lbind] in L.
  destruct (LS _ _ eq_refl) as (-> & TB). cbn [leave_cur lbind] in L. rewrite UP in L. injection L as <- <-.
  split; [reflexivity|]. cbn [Spec_Typing.sty]. split; [reflexivity|]. split; [exact EC|]. exact TB.
Qed.
Lemma is_int_eq t : is_int t = true -> t = CPrim TInt.
Proof. destruct t as [[]|?|?|?|? ?|?|?]; try discriminate; reflexivity. Qed.
Lemma S_para t n a z inc b : is_s (core (XPara t n a z inc b)) = true -> is_e (core a) = true -> is_e (core z) = true -> oP (fun e => is_e (core e) = true) inc ->
  Bclaim F usa b -> Kclaim b -> Sclaim (XPara t n a z inc b).
Proof.
  intros CS CA CZ CI B K. begin CS.
  next ra V. destruct ra as [ta oa]. next rz V. destruct rz as [tz oz]. cbn [fst] in V. next ri V.
  pose proof (v_step _ _ _ _ _ _ _ _ CA H) as ST1. pose proof (inv_step _ _ _ _ I ST1) as I1.
  pose proof (v_step _ _ _ _ _ _ _ _ CZ H0) as ST2. pose proof (inv_step _ _ _ _ I1 ST2) as I2.
  assert (ST3 : step nowhere s1 s2).
  { destruct inc as [e|]; [|eapply cret_step; eassumption]. next re H1. apply cret_inv in H1 as [_ ->]. eapply v_step; [exact CI|eassumption]. }
  pose proof (inv_step _ _ _ _ I2 ST3) as I3.
  match type of V with (if negb ?b then _ else _) _ = _ => destruct b eqn:INT end; [|discriminate V]. cbn [negb] in V.
  rewrite !andb_true_iff in INT. destruct INT as [[IA IZ] II]. apply is_int_eq in IA. apply is_int_eq in IZ.
  next o V. apply here_inv in H2 as [-> ->]. next ty V.
  destruct (named_inv _ _ _ _ H2) as (_ & _ & _ & _ & _ & EQ). subst s3. rename H2 into NT.
  next i V. next d V. apply gcx_inv in H3 as [-> ->]. next cur V. apply gcx_inv in H3 as [-> ->]. next psc V. apply new_scope_inv in H3 as (EP & ->).
  apply new_var_inv in H2 as (EI & ->). next ?v V. cbn [sst_st sst_cx with_syms so_syms so_scopes] in *.
  edestruct define_inv as (g & GN & GK & GM & _ & _ & SY & SC & OP & _ & _ & CX); [|exact H2|].
  { cbn. subst i. apply nth_last. }
  cbn [sst_st sst_cx with_syms with_scopes so_syms so_scopes so_opcao s_name s_kind s_mod] in *.
  rewrite EI, upd_last in SY. rewrite EP, upd_last in SC. unfold bind_in in SC. cbn in SC.
  match type of V with _ ?x = _ => rename x into sd end.
  assert (FR : frame nowhere (sst_st s2) (sst_st sd)).
  { constructor.
    - eexists. split; [exact SY|]. constructor; [|constructor]. intros f ms tp KK. rewrite GK in KK. discriminate KK.
    - intros k LT _. rewrite SC. apply nth_error_app1. exact LT.
    - intros k c E. exists c. rewrite SC. split; [apply nth_old; exact E|auto].
    - exact OP. }
  next rb V. destruct rb as [tb ob]. apply cret_inv in V as [V ->]. injection V as -> ->. cbn [safe fst] in *.
  rewrite !andb_true_iff in SF. destruct SF as [[[[[S1 S2] S3] S4] S5] S6].
  assert (UPS : nth_error (so_scopes (sst_st sd)) psc = Some (mkScope [(lex_text n, i)] (Some (cx_scope (sst_cx s2))))) by (rewrite SC, EP, EI; apply nth_last).
  assert (STB : step (eq psc) sd s3).
  { eapply (proj2 B); [|exact UPS| |exact H3]; [unfold noyield; rewrite CX; apply I3|]. rewrite CX. reflexivity. }
  assert (XD : sext (sst_st s2) (sst_st s3)).
  { eapply frame_sext; [eapply frame_fresh; [exact FR|apply STB|]|eapply recs_weak; [|eapply inv_recs; exact I3]; intros k []].
    intros k <-. left. subst psc. apply le_n. }
  pose proof (sext_trans _ _ _ XD SX) as X3. pose proof (sext_back _ _ _ _ I2 ST3 X3) as X2. pose proof (sext_back _ _ _ _ I1 ST2 X2) as X1.
  destruct (prim_here gl path lib stf _ _ _ TInt _ _ _ (inv_env0 _ _ _ I3 X3) ltac:(cbn; auto) eq_refl NT) as [-> _].
  set (G1 := push G [(lex_text n, tint)]).
  assert (G1L : forall m, ~ In m [lex_text n] -> tlook (te_loc G1) m = tlook (te_loc G) m).
  { intros m NI. cbn. destruct (text_eqb m (lex_text n)) eqn:MN; [|reflexivity]. apply text_eqb_eq in MN. exfalso. apply NI. left. congruence. }
  destruct (expr_ok0 a PNone again ret G s ta oa s0) as (SM & P0 & TV & TD); auto; [exact nN|]. rewrite IA in TD.
  assert (TZ : tyd G1 tz tint).
  { destruct (expr_ok z PNone again ret G G1 [lex_text n] s0 tz oz s1) as (_ & _ & _ & T); auto; [exact nN| |rewrite IZ in T; exact T].
    split; [exact S2|]. intros m [<-|[]]. apply negb_true_iff. exact S5. }
  assert (TI : match ri with Some ti => tyd G1 ti tint | None => True end).
  { destruct inc as [e|]; [|apply cret_inv in H1 as [-> _]; exact Logic.I]. next re H1. destruct re as [ti oi]. apply cret_inv in H1 as [-> ->]. cbn [fst] in *. apply is_int_eq in II.
    match goal with Hv : visit e _ _ _ _ = COk _ ?q |- _ => rename q into sq end.
    destruct (expr_ok e PNone again ret G G1 [lex_text n] s1 ti oi sq) as (_ & _ & _ & T); auto; [exact nN| |rewrite II in T; exact T].
    split; [exact S3|]. intros m [<-|[]]. apply negb_true_iff. exact S6. }
  assert (IB : inv ret (mkTE (te_g G) ([[]; [(lex_text n, tint)]] ++ te_loc G) (te_ret G) true) (at_scope sd (Datatypes.S (cx_depth (sst_cx sd))) psc)).
  { eapply inv_enter; [exact I3|exact FR|exact UPS|reflexivity|subst psc; apply le_n|discriminate| |reflexivity|].
    - intros m. cbn [sc_syms assoc]. destruct (text_eqb m (lex_text n)) eqn:MN.
      + apply text_eqb_eq in MN as ->. eexists _, (CPrim TInt). split; [cbn [at_scope sst_st]; rewrite SY, EI; apply nth_last|].
        split; [rewrite GN; reflexivity|]. split; [rewrite GK; reflexivity|]. split; [rewrite GM; apply I3|]. split; [split; discriminate|].
        cbn. rewrite text_eqb_refl. reflexivity.
      + cbn. rewrite MN. reflexivity.
    - cbn [at_scope sst_cx]. rewrite CX. destruct I3 as [J1 J2 J3 J4 J5]. rewrite J1, J2, J3, J4, J5. eauto. }
  pose proof (proj2 K _ _ _ _ _ _ _ _ H3 IB ltac:(discriminate)) as LB. unfold up_of in LB. rewrite UPS, CX in LB. specialize (LB eq_refl S4 SX).
  rewrite (step_at _ _ ST3), (step_at _ _ ST2), (step_at _ _ ST1) in LB.
  destruct LB as (sc & ch & -> & UP & LS).
  intros nd cur' L. cbn [lower fst] in L. destruct (lower stf _ ta _) as [[n1 c1]| |] eqn:L1; try discriminate L. cbn [lbind] in L.
  destruct (TD _ _ _ _ L1) as (-> & EA). destruct (lower stf _ tz _) as [[n2 c2]| |] eqn:L2; try discriminate L. cbn [lbind] in L.
  destruct (TZ _ _ _ _ L2) as (-> & EZ). destruct (lseq _ ch _) as [[n3 c3]| |] eqn:L3; try discriminate L. cbn [lbind] in L.
  destruct (LS _ _ eq_refl) as (-> & TB). destruct (lopt _ ri _) as [[n4 c4]| |] eqn:L4; try discriminate L. cbn [lbind] in L.
  assert (LI : c4 = Some sc /\ match n4 with Some e => ety S None R G1 e tint | None => True end).
  { destruct ri as [ti|]; cbn [lopt] in L4; [|injection L4 as <- <-; auto]. destruct (lower stf _ ti _) as [[n5 c5]| |] eqn:L5; try discriminate L4. cbn [lbind] in L4. injection L4 as <- <-.
    exact (TI _ _ _ _ L5). }
  destruct LI as (-> & LI). cbn [leave_cur lbind] in L. rewrite UP in L. injection L as <- <-.
  split; [reflexivity|]. cbn [Spec_Typing.sty]. split; [reflexivity|]. split; [exact EA|]. split; [exact EZ|]. split; [exact LI|]. exact TB.
Qed.
Definition Q (x : sx) : Prop :=
  (is_s (core x) = true -> Sclaim x) /\ (is_l (core x) = true -> Lclaim x) /\ (is_b (core x) = true -> Kclaim x).
Ltac case_when C := match type of C with context[if ?b then _ else _] => destruct b eqn:?W end.
Lemma l_decl y : is_l (core y) = true -> is_decl y = false.
Proof. intros C3. destruct y; try reflexivity. cbn in C3. destruct init as [[? ?]|]; case_when C3; discriminate C3. Qed.
Ltac no C := solve [discriminate C | cbn in C; repeat match type of C with
  | context[if ?b then _ else _] => destruct b
  | context[match ?z with _ => _ end] => destruct z
  end; discriminate C].
Lemma Q_all x : Q x.
Proof.
  assert (PE : forall x, is_e (core x) = true -> Q x).
  { intros y C. split; [intros _; apply S_expr; exact C|]. split; intros D; destruct (core y); discriminate. }
  assert (PL : forall y, is_l (core y) = true -> Fclaim F usa y) by (intros y C; apply (P_all F usa y); right; exact C).
  assert (PS : forall y, is_s (core y) = true -> Fclaim F usa y) by (intros y C; apply (P_all F usa y); left; exact C).
  assert (PB : forall y, is_b (core y) = true -> Bclaim F usa y) by (intros y C; apply (P_all F usa y); exact C).
  induction x using sx_ind'; try (split; [|split]; intros C; no C).
  all: try (apply PE; reflexivity).
  - destruct (is_e (core x)) eqn:E; [apply PE; cbn; rewrite E; reflexivity|]. split; [|split]; intros C; cbn in C; rewrite E in C; no C.
  - destruct (is_e (core x1) && is_e (core x2)) eqn:E; [apply PE; cbn; rewrite E; reflexivity|]. split; [|split]; intros C; cbn in C; rewrite E in C; no C.
  - destruct (is_e (core (XCall x l))) eqn:E; [apply PE; exact E|]. split; [|split]; intros C; try no C; destruct x; try no C. cbn in E, C. case_when C; discriminate.
  - destruct (is_e (core (XConv t x y))) eqn:E; [apply PE; exact E|]. split; [|split]; intros C; try no C. cbn in E, C. case_when C; discriminate.
  - destruct (is_e (core (XIndex t x1 x2))) eqn:E; [apply PE; exact E|]. split; [|split]; intros C; try no C. cbn in E, C. case_when C; discriminate.
  - split; [|split]; intros C; try no C. cbn in C. case_when C; [|discriminate C]. apply andb_prop in W as [W1 W2]. apply S_iset; assumption.
  - destruct (is_e (core (XGet x m))) eqn:E; [apply PE; exact E|]. split; [|split]; intros C; try no C. cbn in E, C. case_when C; discriminate.
  - split; [|split]; intros C; try no C. cbn in C. case_when C; [|discriminate C]. apply andb_prop in W as [W1 W2]. apply S_set; assumption.
  - destruct (is_e (core (XFmt t l))) eqn:E; [apply PE; exact E|]. split; [|split]; intros C; try no C. cbn in E, C. case_when C; discriminate.
  - destruct (is_e (core (XList t y l))) eqn:E; [apply PE; exact E|]. split; [|split]; intros C; try no C. cbn in E, C. case_when C; discriminate.
  - destruct x1; try (split; [|split]; intros C; no C). split; [|split]; intros C; try no C. cbn in C. case_when C; [|discriminate C]. apply S_assign. assumption.
  - split; [|split]; intros C; try no C.
    assert (CC : core_ty y = true /\ oP (fun q => is_e (core (snd q)) = true) o).
    { cbn in C. destruct o as [[ta e]|]; case_when C; try discriminate C; [apply andb_prop in W as [W1 W2]; auto|cbn; auto]. }
    apply S_decl; apply CC.
  - split; [|split]; intros C; try no C. cbn in C. case_when C; [|discriminate C]. apply S_mostra. assumption.
  - split; [|split]; intros C; try no C. cbn in C. apply S_ret. destruct o; [|exact Logic.I]. case_when C; [exact W|discriminate C].
  - split; [|split]; intros C; try no C. apply S_loopctl.
  - split; [|split]; intros C; try no C.
    assert (CC : is_e (core x1) = true /\ is_b (core x2) = true /\ forallb (fun y => is_l (core y)) l = true /\ oP (fun e => is_b (core e) = true) o).
    { cbn in C. destruct o; case_when C; try discriminate C; rewrite !andb_true_iff in W; cbn; tauto. }
    destruct CC as (C1 & C2 & C3 & C4). rewrite forallb_forall in C3. apply S_se; auto; [apply IHx2; exact C2| | |destruct o; [apply PB; exact C4|exact Logic.I]|].
    + rewrite Forall_forall. intros y IN. specialize (C3 y IN). split; [apply l_decl; exact C3|apply PL; exact C3].
    + rewrite Forall_forall in *. intros y IN. apply H; auto.
    + destruct o; [|exact Logic.I]. cbn in *. apply H0. exact C4.
  - split; [|split]; intros C; try no C. cbn in C. case_when C; [|discriminate C]. apply andb_prop in W as [W1 W2]. apply S_senaose; auto. apply IHx2. exact W2.
  - split; [|split]; intros C; try no C. cbn in C. case_when C; [|discriminate C]. apply andb_prop in W as [W1 W2]. apply S_enquanto; auto. apply IHx2. exact W2.
  - split; [|split]; intros C; try no C.
    assert (CC : is_e (core x1) = true /\ is_e (core x2) = true /\ oP (fun e => is_e (core e) = true) o /\ is_b (core x3) = true).
    { cbn in C. destruct o; case_when C; try discriminate C; rewrite !andb_true_iff in W; cbn; tauto. }
    destruct CC as (C1 & C2 & C3 & C4). apply S_para; auto. apply IHx3. exact C4.
  - split; [|split]; intros C; try no C. cbn in C. case_when C; [|discriminate C]. rewrite forallb_forall in W. apply block_ok; rewrite Forall_forall in *; intros y IN; [apply H; auto|apply PS; auto].
Qed.
End Stm.

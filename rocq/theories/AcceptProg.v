(** Accepted programs are well typed. *)
From Verif Require Import Base BaseFacts Dec Bson Value Ast CodeGen Compile Types Syntax Lexer Parser Sym Exhaust Check Front Sem SemWf SemProg SimMod Spec_Types Spec_Typing Spec_Accept GenLocals ValueFacts AcceptBase AcceptTypes AcceptExpr AcceptFrame AcceptStep AcceptStm AcceptDecl AcceptTop AcceptMod Spec_AcceptProg Prop_Typing.
Local Open Scope chk_scope.

(** ** The library *)
Lemma params_are_ok st : forall ps qs, params_are st ps qs = true -> nparams st ps qs.
Proof.
  induction ps as [|p ps IH]; intros [|q qs] H; try discriminate H; [constructor|]. cbn in H. apply andb_prop in H as [H1 H2]. constructor; [|apply IH; exact H2].
  destruct (nth_error _ _) as [y|] eqn:E; [|discriminate H1]. destruct (s_kind y) as [[] | | | | | | |] eqn:K; try discriminate H1. apply prim_eqb_eq in H1. subst. eauto.
Qed.
Lemma name_ok_lk st g path lib n i : names_ok st g path lib = true -> scope_get st g n = Some i ->
  exists x, nth_error (so_syms st) i = Some x /\ s_name x = n /\ lk g path lib st (top_env nothing) n i x.
Proof.
  unfold names_ok, scope_get at 1. destruct (nth_error (so_scopes st) g) as [c|]; [|discriminate]. destruct (sc_up c); [discriminate|]. rewrite forallb_forall. intros H A.
  apply assoc_In in A. specialize (H _ A). unfold name_ok in H. cbn [fst snd] in H. destruct (nth_error (so_syms st) i) as [x|]; [|discriminate H].
  rewrite !andb_true_iff, negb_true_iff in H. destruct H as [[H1 H2] H3]. apply text_eqb_eq in H1. exists x. split; [reflexivity|]. split; [exact H1|].
  assert (NP : s_mod x <> path) by (intros E; rewrite E, text_eqb_refl in H2; discriminate).
  unfold lk. destruct (s_kind x) as [t|r ps|? ? ?|? ? ?|p|? ? ?|? ? ?|]; auto; try contradiction.
  - rewrite !andb_true_iff in H3. destruct H3 as [[M S1] S2]. apply text_eqb_eq in M. split; [reflexivity|]. split.
    + destruct (scope_get st g n) as [k|]; [|discriminate S1]. apply Nat.eqb_eq in S1. congruence.
    + split; [contradiction|]. intros _. split; [exact M|]. intros BF. rewrite BF in S2. unfold native_ok in S2. destruct (nsig n) as [[qs q]|]; [|discriminate S2].
      apply andb_prop in S2 as [S2 S3]. destruct r as [r| | | | | |]; try discriminate S2. apply prim_eqb_eq in S2. subst. exists qs, q. split; [reflexivity|]. split; [reflexivity|]. apply params_are_ok. exact S3.
  - split; [reflexivity|]. apply text_eqb_eq. exact H3.
  - split; [reflexivity|contradiction].
Qed.
Lemma library_T path lib s : library_ok path lib s = true -> T (cx_global (sst_cx s)) (cx_ty (sst_cx s)) path lib nothing s.
Proof.
  unfold library_ok. rewrite !andb_true_iff. intros [[[[[A NM] RA] PB] BD] OB].
  unfold at_start in A. rewrite !andb_true_iff, !negb_true_iff in A. destruct A as [[[[[[[A1 A2] A3] A4] A5] A6] A7] A8].
  apply Nat.eqb_eq in A1, A2. apply text_eqb_eq in A5. apply Nat.eqb_neq in A7. destruct (cx_func (sst_cx s)) eqn:CF; [discriminate A6|]. destruct (cx_yield (sst_cx s)) eqn:CY; [discriminate A6|].
  destruct (nth_error (so_scopes (sst_st s)) (cx_ty (sst_cx s))) as [ct|] eqn:ET; [|discriminate A8]. destruct (sc_syms ct) eqn:ST; [|discriminate A8]. destruct (sc_up ct) eqn:UT; [discriminate A8|].
  assert (EG : exists c, nth_error (so_scopes (sst_st s)) (cx_global (sst_cx s)) = Some c /\ sc_up c = None).
  { unfold names_ok in NM. destruct (nth_error (so_scopes (sst_st s)) (cx_global (sst_cx s))) as [c|]; [|discriminate NM]. exists c. split; [reflexivity|]. destruct (sc_up c); [discriminate NM|reflexivity]. }
  assert (LG : (cx_global (sst_cx s) < List.length (so_scopes (sst_st s)))%nat) by (destruct EG as (c & EG & _); apply nth_error_Some; congruence).
  assert (RR : forall i x f ms tp, nth_error (so_syms (sst_st s)) i = Some x -> s_kind x = SReg f ms tp ->
    ((f < List.length (so_scopes (sst_st s)))%nat /\ f <> cx_global (sst_cx s) /\ f <> cx_ty (sst_cx s)) /\ s_mod x <> path).
  { intros i x f ms tp E K. unfold records_apart in RA. rewrite forallb_forall in RA. specialize (RA x (nth_error_In _ _ E)). rewrite K, !andb_true_iff, !negb_true_iff in RA.
    destruct RA as [[[R1 R2] R3] R4]. apply Nat.ltb_lt in R1. apply Nat.eqb_neq in R2, R3. split; [auto|]. intros E1. rewrite E1, text_eqb_refl in R4. discriminate. }
  constructor.
  - constructor; auto; [apply nth_error_Some; congruence|]. intros i x f ms tp E K. destruct (RR _ _ _ _ _ E K) as [(L & N1 & N2) _]. split; [exact L|]. intros [|]; congruence.
  - constructor; auto.
    + eauto.
    + intros n i SG. eapply name_ok_lk; eassumption.
    + intros i x f ms tp E K. apply (RR _ _ _ _ _ E K).
    + intros i x f ms tp E K M. destruct (RR _ _ _ _ _ E K) as [_ NE]. contradiction.
    + intros p I. rewrite forallb_forall in PB. specialize (PB p I). unfold prim_bound in PB. destruct (scope_get _ _ _) as [i|]; [|discriminate PB].
      destruct (nth_error _ i) as [x|] eqn:E; [|discriminate PB]. exists i, x. split; [reflexivity|]. split; [exact E|]. destruct (s_kind x); try discriminate PB. apply prim_eqb_eq in PB. congruence.
    + unfold opcao_bound in OB. apply andb_prop in OB as [OB _]. destruct (scope_get _ _ _) as [i|] eqn:SG; [|discriminate OB]. destruct (nth_error _ i) as [x|] eqn:E; [|discriminate OB].
      exists i, x. split; [exact SG|]. split; [exact E|]. apply negb_true_iff in OB. intros E1. rewrite E1, text_eqb_refl in OB. discriminate.
    + intros i OI. unfold opcao_bound in OB. apply andb_prop in OB as [_ OB]. rewrite OI in OB. destruct (nth_error _ i) as [x|] eqn:E; [|discriminate OB]. exists x. split; [reflexivity|]. apply text_eqb_eq. exact OB.
  - intros i x f ms tp E K M. destruct (RR _ _ _ _ _ E K) as [_ NE]. contradiction.
  - intros n _. cbn. auto.
  - intros n BF. destruct (builtin_fn n) as [fn|] eqn:B; [|congruence]. unfold builtin_fn in B. apply find_some in B as [I EQ]. apply text_eqb_eq in EQ. subst fn.
    rewrite forallb_forall in BD. specialize (BD n I). unfold bound in BD. destruct (scope_get _ _ n); congruence.
Qed.

(** ** Names of the main module *)
Lemma scope_syms_get st g n i x : scope_get st g n = Some i -> nth_error (so_syms st) i = Some x -> assoc n (scope_syms st g) = Some (sym_of x).
Proof.
  unfold scope_get, scope_syms. destruct (nth_error (so_scopes st) g) as [c|]; [|discriminate]. induction (sc_syms c) as [|[m j] r IH]; [discriminate|]. cbn.
  destruct (text_eqb n m) eqn:NM.
  - intros H E. injection H as ->. rewrite E. cbn. rewrite NM. reflexivity.
  - intros H E. destruct (nth_error (so_syms st) j); cbn; rewrite ?NM; auto.
Qed.
Lemma find_fun_in l : NoDup (fun_names l) -> forall x n fd, In x l -> fun_of x = Some (n, fd) -> find_fun n l = Some fd.
Proof.
  induction l as [|y r IH]; intros ND x n fd []; intros FX.
  - subst y. cbn. rewrite FX, text_eqb_refl. reflexivity.
  - unfold fun_names in ND. cbn in ND. fold (fun_names r) in ND. cbn. destruct (fun_of y) as [[n' fd']|] eqn:FY; cbn in ND.
    + inversion ND; subst. destruct (text_eqb n n') eqn:NN; [|eapply IH; eassumption]. apply text_eqb_eq in NN. subst n'. exfalso. apply H2.
      unfold fun_names. apply in_concat. exists [n]. split; [apply in_map_iff; exists x; rewrite FX; auto|left; reflexivity].
    + eapply IH; eassumption.
Qed.
Lemma funs_found main imports : mo_builtin main = false -> nodupb (fun_names (mo_body main)) = true -> Forall (funs_ok (senv_of main imports)) (mo_body main).
Proof.
  intros NB ND. apply nodupb_ok in ND. apply Forall_forall. intros x I. destruct x; cbn; auto. destruct builtin; auto. destruct x; auto.
  unfold module_fun. rewrite NB. eapply find_fun_in; [exact ND|exact I|reflexivity].
Qed.

(** ** The whole *)
Lemma module_inv F usa m s i s' : visit_module F usa m s = COk i s' -> exists b body body' s2, visit_all F usa (sm_children m) s = COk body s2 /\
  mapc trans body s2 = COk body' s' /\ i = mkMinfo false b (Some (cx_global (sst_cx s'))) body'.
Proof.
  unfold visit_module. intros H. apply cbind_inv in H as (q & s1 & H1 & H). apply gcx_inv in H1 as [-> ->]. apply cbind_inv in H as (b & s2 & H1 & H).
  assert (s2 = s). { destruct (find _ _) as [a|]; [destruct (text_eqb _ _); [|discriminate H1]|]; apply cret_inv in H1; tauto. } subst s2. clear H1.
  apply cbind_inv in H as (body & s2 & H1 & H). apply cbind_inv in H as (body' & s3 & H2 & H). apply cbind_inv in H as (g & s4 & H3 & H). apply gcx_inv in H3 as [-> ->]. apply cret_inv in H as [-> ->].
  exists b, body, body', s2. auto.
Qed.
Lemma accepted_typed F U fuel p main imports : in_fragment F U fuel p = true -> trees F U fuel p = Some (main, imports) ->
  exists gl st g, final F U fuel p = Some (gl, st) /\ typed (records gl st) main imports g /\
  forall n i x t, scope_get st gl n = Some i -> nth_error (so_syms st) i = Some x -> s_kind x = SVar t -> s_mod x = p -> assoc n (ge_var g) = Some (strip st t).
Proof.
  intros FR TR. unfold in_fragment in FR. rewrite TR, !andb_true_iff in FR. destruct FR as [[TX ON] [PO _]].
  assert (order_nil : f_order F [] = []) by (destruct (f_order F []); [reflexivity|discriminate ON]). clear ON.
  unfold trees in TR. unfold final. destruct (analyse F U fuel p) as [m s| | |] eqn:A; try discriminate TR.
  unfold analyse, run_frontend in A. apply cbind_inv in A as (sm & s0 & A0 & A). apply cbind_inv in A as ([] & s1 & A1 & A). set (usa := visit_usa F U fuel) in *.
  unfold text_ok in TX. rewrite A0 in TX. fold usa in TX. rewrite A1 in TX. rewrite !andb_true_iff in TX. destruct TX as [[LIB CORE] TX].
  apply module_inv in A as (b & body & body' & s2 & AV & AT & ->). rewrite AV in TX. apply andb_prop in TX as [SF PS].
  rewrite (mapc_id trans s2 body) in AT.
  2:{ apply Forall_forall. intros x I. rewrite forallb_forall in SF. eapply trans_safe. apply SF. exact I. }
  injection AT as <- <-. set (stf := sst_st s2) in *. set (gl := cx_global (sst_cx s1)). set (lib := builtins_path F) in *.
  unfold plain_store in PS. apply andb_prop in PS as [IMP PN]. destruct (so_imports stf) as [|q [|]] eqn:IM; try discriminate IMP. apply text_eqb_eq in IMP. subst q.
  cbn [lmap] in TR. destruct (match assoc lib (so_mods stf) with Some i => lower_module stf lib i | None => LCrash end) as [lm| |] eqn:LM; try discriminate TR. cbn [lbind] in TR.
  destruct (lower_module stf p _) as [mm| |] eqn:MM in TR; try discriminate TR. injection TR as <- <-.
  pose proof (library_T _ _ _ LIB) as T1. fold gl in T1.
  assert (O2 : OI gl (cx_ty (sst_cx s1)) p s2).
  { edestruct (items_op F usa gl (cx_ty (sst_cx s1)) p lib (mkSE (fun _ _ => None) (fun _ _ => None) (fun _ _ => None)) (mkStore [] [] [] None [] [])) as [O2 _];
      [| | |exact order_nil|exact CORE|apply T1|exact AV|exact O2].
    - intros n i x H. unfold scope_get in H. destruct gl; discriminate H.
    - intros n i x H. unfold scope_get in H. destruct gl; discriminate H.
    - intros i x q H. destruct i; discriminate H. }
  unfold lower_module in MM. cbn [mi_scope mi_builtin mi_body lsome lbind] in MM. rewrite (o_gl _ _ _ _ O2) in MM. rewrite (o_gl _ _ _ _ O2).
  unfold program_ok in PO. rewrite !andb_true_iff in PO. destruct PO as [[[[NP NBM] LB] _] MO].
  destruct b; [injection MM as <-; discriminate NBM|]. destruct (lseq (lower stf gl) body (Some gl)) as [[nds cur]| |] eqn:LS; try discriminate MM. cbn [lbind] in MM.
  unfold module_ok in MO. rewrite !andb_true_iff in MO. destruct MO as [[[NF _] _] _].
  set (S := senv_of mm [lm]) in *.
  assert (LP : mo_path lm = lib /\ mo_builtin lm = true /\ mo_name lm = txt "embutidos").
  { destruct LB as [[L1 L2] L3]. apply text_eqb_eq in L2, L3. auto. }
  destruct LP as (LP & LBI & LNM).
  assert (MP : mo_path mm = p /\ mo_scope mm = scope_syms stf gl /\ mo_body mm = nds /\ mo_builtin mm = false) by (injection MM as <-; auto). destruct MP as (MP & MS & MB & MBI).
  assert (NE : p <> lib).
  { intros E. unfold nodupb in NP. cbn in NP. rewrite MP, LP, E, text_eqb_refl in NP. discriminate NP. }
  assert (IMPN : forall n i x, scope_get stf gl n = Some i -> nth_error (so_syms stf) i = Some x -> se_imp S None n = imported_name [lm] mm n /\ assoc n (mo_scope mm) = Some (sym_of x)).
  { intros n i x SG E. split; [reflexivity|]. rewrite MS. eapply scope_syms_get; eassumption. }
  destruct (items_ok F usa gl (cx_ty (sst_cx s1)) p lib S stf) with (ret := CPrim Types.TVazio) (l := sm_children sm) (g := nothing) (s := s1) (body := body) (s' := s2) as (g & T2 & LW); auto.
  - intros n i x SG E M. destruct (IMPN _ _ _ SG E) as [-> AS]. unfold imported_name. rewrite AS, MP. cbn. rewrite M, text_eqb_refl. reflexivity.
  - intros n i x SG E M N. destruct (IMPN _ _ _ SG E) as [-> AS]. unfold imported_name. rewrite AS, MP. cbn. rewrite M.
    assert (NQ : text_eqb lib p = false) by (apply text_eqb_neq; congruence). rewrite NQ, LP, text_eqb_refl. cbn. rewrite N. split; [reflexivity|]. unfold module_fun. rewrite LBI. reflexivity.
  - intros i x q E K. rewrite forallb_forall in PN. specialize (PN x (nth_error_In _ _ E)). rewrite K in PN. apply text_eqb_eq. exact PN.
  - apply more_refl.
  - exists gl, stf, g. split; [reflexivity|]. split.
    + split; [split; [exact MBI|exists lm; auto]|]. rewrite MB. refine (LW _ _ LS _). rewrite <- MB. apply funs_found; assumption.
    + intros n i x t SG E K M. destruct (b_glob _ _ _ _ _ _ (t_base _ _ _ _ _ _ T2) _ _ SG) as (x' & E' & _ & LK). fold stf in E', LK. rewrite E in E'. injection E' as <-.
      unfold lk in LK. rewrite K in LK. exact (proj2 (LK M)).
Qed.

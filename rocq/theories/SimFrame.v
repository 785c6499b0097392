(** Pieces of generated code, run inside one frame. *)
From Verif Require Import Base BaseFacts Bson BsonFacts Opcode Spec_Opcode OpcodeFacts Dec Float Value Spec_Value ValueFacts
  Ast Spec_Tables TableFacts CodeGen VM GenFacts Sem SemWf GenLocals SimVM Sim SimRel.

Lemma at_eq A ip l l' w G s : at_ A ip l w G s -> l = l' -> at_ A ip l' w G s.
Proof. intros H <-. exact H. Qed.
Ltac lst := repeat rewrite <- app_assoc; cbn [app]; try reflexivity.
Ltac ateq H := eapply at_eq; [exact H|lst].

(** ** Same enclosing scopes and loop *)
Lemma ctx_of_gs n a b : gs n a b -> same_ctx a b. Proof. intros [_ X]. exact X. Qed.
Ltac cx L H := eapply same_ctx_trans; [|exact (ctx_of_gs O _ _ (L H))].
Ltac ctxt :=
  first [ eassumption | apply same_ctx_refl |
  lazymatch goal with
  | |- same_ctx _ (append_op ?s _ _) => apply (same_ctx_trans _ s); [|constructor; reflexivity]; ctxt
  | |- same_ctx _ (set_line ?s _) => apply (same_ctx_trans _ s); [|constructor; reflexivity]; ctxt
  | |- same_ctx _ (add_reg ?s _) => apply (same_ctx_trans _ s); [|constructor; reflexivity]; ctxt
  | |- same_ctx _ ?b =>
      match goal with
      | H : same_ctx _ b |- _ => eapply same_ctx_trans; [|exact H]; ctxt
      | H : load_const _ _ = PyOk b |- _ => eapply same_ctx_trans; [|exact (ctx_of_gs O _ _ (gs_load_const _ _ _ _ H))]; ctxt
      | H : load_name _ _ = PyOk b |- _ => eapply same_ctx_trans; [|exact (ctx_of_gs O _ _ (gs_load_name _ _ _ _ H))]; ctxt
      | H : name_index _ _ = PyOk (b, _) |- _ => eapply same_ctx_trans; [|exact (ctx_of_gs O _ _ (gs_name _ _ _ _ _ H))]; ctxt
      | H : const_index _ _ = PyOk (b, _) |- _ => eapply same_ctx_trans; [|exact (ctx_of_gs O _ _ (gs_const _ _ _ _ _ H))]; ctxt
      | H : auto_cast _ _ _ = PyOk b |- _ => eapply same_ctx_trans; [|exact (ctx_of_gs O _ _ (gs_auto_cast _ _ _ _ _ H))]; ctxt
      | H : load_variable _ _ _ = PyOk b |- _ => eapply same_ctx_trans; [|exact (ctx_of_gs O _ _ (gs_load_variable _ _ _ _ _ H))]; ctxt
      | H : set_variable _ _ = PyOk b |- _ => eapply same_ctx_trans; [|exact (ctx_of_gs O _ _ (gs_set_variable _ _ _ _ H))]; ctxt
      | H : finish_assign _ _ _ _ = PyOk b |- _ => eapply same_ctx_trans; [|exact (ctx_of_gs O _ _ (gs_finish _ _ _ _ _ _ H))]; ctxt
      | H : gen _ _ _ = PyOk b |- _ => eapply same_ctx_trans; [|exact (ctx_gen _ _ _ _ H)]; ctxt
      | H : block_with (gen _) _ _ = PyOk b |- _ => eapply same_ctx_trans; [|exact (ctx_block _ _ _ _ H)]; ctxt
      | H : seqm (gen _) _ _ = PyOk b |- _ => eapply same_ctx_trans; [|exact (ctx_seq _ _ _ _ H)]; ctxt
      | H : new_label _ = (b, _) |- _ => eapply same_ctx_trans; [|exact (ctx_of_gs O _ _ (proj1 (gs_new_label _ _ _ _ H)))]; ctxt
      | H : patch_label _ _ = PyOk b |- _ => eapply same_ctx_trans; [|exact (ctx_of_gs O _ _ (proj1 (gs_patch _ _ _ _ H (Nat.le_0_l _))))]; ctxt
      end
  end ].

Section Frame.
Variable E : ext.
Variable P : program.
(** At least one step leads from [s] to a state with [R]. *)
Definition reach (s : state) (R : state -> Prop) : Prop := exists n s', steps E P (Datatypes.S n) s s' /\ R s'.
Lemma sim_reachS k r s R (Q : out -> cfg -> state -> Prop) : reach s R -> (forall s', R s' -> sim E P k r s' Q) -> sim E P (Datatypes.S k) r s Q.
Proof.
  intros (n & s' & X & Y) K. inversion X as [|? ? s1 ? ST X']; subst. eapply sim_stepS; [exact ST|].
  eapply sim_steps; [exact X'|]. apply K, Y.
Qed.
Lemma sim_reach k r s R (Q : out -> cfg -> state -> Prop) : reach s R -> (forall s', R s' -> sim E P k r s' Q) -> sim E P k r s Q.
Proof. intros H K. eapply sim_le; [|eapply sim_reachS; [exact H|exact K]]. lia. Qed.
Lemma reach_post s (R R' : state -> Prop) : (forall s', R s' -> R' s') -> reach s R -> reach s R'.
Proof. intros H (n & s' & X & Y). exists n, s'. auto. Qed.
Lemma reach_then s (R R' : state -> Prop) : reach s R -> (forall s', R s' -> reach s' R') -> reach s R'.
Proof.
  intros (n & s' & X & Y) K. destruct (K _ Y) as (n' & s'' & X' & Y'). exists (n + Datatypes.S n')%nat, s''. split; [|exact Y'].
  exact (steps_trans _ _ _ _ _ _ _ X X').
Qed.
Lemma reach_op s B ip l w G o args B' ip' l' w' G' : at_ B ip l w G s -> fetch_at P (q_m B) ip o args ->
  (forall s1, at_ B (ip + op_size o) l w G s1 -> exists s', exec_op E P o args s1 = XOk s' /\ at_ B' ip' l' w' G' s') ->
  reach s (at_ B' ip' l' w' G').
Proof.
  intros H FE X. destruct (step_at E P _ _ _ _ _ _ _ _ H FE) as (s1 & H1 & ST). destruct (X _ H1) as (s' & X1 & X2).
  rewrite X1 in ST. exists O, s'. split; [|exact X2]. econstructor; [exact ST|constructor].
Qed.

Variable S : senv.
Variable fof : option N -> text -> option afunc.
Variable bi : N.
(** Functions of the interpreter are functions of the machine and vice versa. *)
Hypothesis HF : forall m n, se_fun S m n = None -> fof m n = None.

Variable A : fctx.
Variable C : gctx.
Variable F : gst.
Variable vm : vmodule.
Variable Lf : list (text * N).
Variable base : list value.
Variable nloc : nat.
Hypothesis HM : modok P S bi (q_m A) C F vm.
Hypothesis HS : Lf = [] \/ q_bp A = zlen base /\ (List.length Lf <= nloc)%nat.
Hypothesis HN : numb Lf.

Definition here (g : gam) (ip : N) (st : list value) (c : cfg) (s : state) : Prop :=
  exists loc G, List.length loc = nloc /\ glob_rel P fof bi (k_g c) G /\ env_rel g (k_l c) Lf loc /\
    at_ A ip (base ++ loc ++ st) (k_w c) G s.

(** An instruction working on the operands only. *)
Lemma r_op g s1 o args n st st' c w' s : fin n (append_op s1 o args) F Lf -> ipok s1 -> is_jump o = false -> arity o args ->
  here g (g_ip s1) st c s ->
  (forall l G s', glob_rel P fof bi (k_g c) G -> at_ A (g_ip s1 + op_size o) (l ++ st) (k_w c) G s' ->
     exists s'', exec_op E P o args s' = XOk s'' /\ at_ A (g_ip s1 + op_size o) (l ++ st') w' G s'') ->
  reach s (here g (g_ip (append_op s1 o args)) st' (set_w c w')).
Proof.
  intros FI I J AR (loc & G & LL & GR & ER & H) X. eapply reach_post; [|eapply reach_op; [exact H|exact (fetch_plain _ _ _ _ _ _ _ _ _ _ _ _ HM FI I J AR)|]].
  2:{ intros s' H'. rewrite app_assoc in H'. destruct (X _ _ _ GR H') as (s'' & X1 & X2). exists s''. split; [exact X1|exact X2]. }
  intros s' H'. exists loc, G. rewrite <- app_assoc in H'. auto.
Qed.
Lemma set_w_same c : set_w c (k_w c) = c. Proof. destruct c. reflexivity. Qed.
Lemma r_op0 g s1 o args n st st' c s : fin n (append_op s1 o args) F Lf -> ipok s1 -> is_jump o = false -> arity o args ->
  here g (g_ip s1) st c s ->
  (forall l G s', glob_rel P fof bi (k_g c) G -> at_ A (g_ip s1 + op_size o) (l ++ st) (k_w c) G s' ->
     exists s'', exec_op E P o args s' = XOk s'' /\ at_ A (g_ip s1 + op_size o) (l ++ st') (k_w c) G s'') ->
  reach s (here g (g_ip (append_op s1 o args)) st' c).
Proof. intros. rewrite <- (set_w_same c) at 1. eapply r_op; eassumption. Qed.
(** ... whose result is that of an operation on values. *)
Definition vq g ip st (o : out) (c : cfg) (s : state) : Prop :=
  match o with OVal v => here g ip (st ++ [v]) c s | _ => False end.
Lemma s_val k g s1 o args n st pp r c s : fin n (append_op s1 o args) F Lf -> ipok s1 -> is_jump o = false -> arity o args ->
  here g (g_ip s1) (st ++ pp) c s ->
  (forall l G s', at_ A (g_ip s1 + op_size o) (l ++ pp) (k_w c) G s' ->
     exists s'', exec_op E P o args s' = xval s'' r /\ at_ A (g_ip s1 + op_size o) l (k_w c) G s'') ->
  sim E P k (lift (k_w c) r c) s (vq g (g_ip (append_op s1 o args)) st).
Proof.
  intros FI I J AR (loc & G & LL & GR & ER & H) X.
  eapply sim_val; [exact H|exact (fetch_plain _ _ _ _ _ _ _ _ _ _ _ _ HM FI I J AR)| |].
  - intros s' H'. apply (X (base ++ loc ++ st)). ateq H'.
  - intros v s' _ H'. exists loc, G. repeat (split; [assumption|]). ateq H'.
Qed.
Lemma s_fail k g s1 o args n st c e s Q : fin n (append_op s1 o args) F Lf -> ipok s1 -> is_jump o = false -> arity o args ->
  here g (g_ip s1) st c s ->
  (forall l G s', at_ A (g_ip s1 + op_size o) (l ++ st) (k_w c) G s' ->
     exists s'', exec_op E P o args s' = XErr e s'' /\ s_world s'' = k_w c) ->
  sim E P k (Fail e (k_w c)) s Q.
Proof.
  intros FI I J AR (loc & G & LL & GR & ER & H) X.
  eapply sim_fail; [exact H|exact (fetch_plain _ _ _ _ _ _ _ _ _ _ _ _ HM FI I J AR)|].
  intros s' H'. apply (X (base ++ loc) G). ateq H'.
Qed.

(** ** Constants and names *)
Lemma r_const g s1 s2 k v n st c s : load_const s1 k = PyOk s2 -> fin n s2 F Lf -> ipok s1 ->
  (forall v', const_ok k v' -> v' = v) -> here g (g_ip s1) st c s -> reach s (here g (g_ip s2) (st ++ [v]) c).
Proof.
  intros LC FI I K H. unfold load_const in LC. apply pbind_ok in LC as ((s1' & i) & CI & LC). apply pyok_inj in LC. cbn [fst snd] in LC. subst s2.
  pose proof (const_nth _ _ _ _ CI) as NT. pose proof (mv_ip _ _ _ (mv_const (fun _ => False) _ _ _ _ CI) I) as I'.
  assert (IP : g_ip s1 = g_ip s1').
  { unfold const_index in CI. destruct (table_index _ _ _). destruct (_ <? _)%N; [|discriminate]. apply pyok_inj in CI. injection CI as <- <-. reflexivity. }
  rewrite IP in H. eapply r_op0; [exact FI|exact I'|reflexivity|exists i; reflexivity|exact H|].
  intros l G s' _ H'.
  assert (NF : nth_error (g_consts F) (N.to_nat i) = Some k) by (eapply prefix_nth; [apply FI|exact NT]).
  destruct (Forall2_nth _ _ _ _ _ (mo_cs _ _ _ _ _ _ _ HM) NF) as (v' & NV & CO). apply K in CO. subst v'.
  destruct (ex_const E P A vm (mo_get _ _ _ _ _ _ _ HM) _ _ _ _ _ _ _ H' NV) as (s'' & X & Y). exists s''. split; [exact X|ateq Y].
Qed.
Lemma name_ip s n s' i : name_index s n = PyOk (s', i) -> g_ip s' = g_ip s.
Proof.
  unfold name_index. destruct (table_index _ _ _). destruct (_ <? _)%N; [|discriminate]. intros H. apply pyok_inj in H. injection H as <- <-. reflexivity.
Qed.
Lemma name_final s n s' i k : name_index s n = PyOk (s', i) -> fin k s' F Lf -> nth_error (m_names vm) (N.to_nat i) = Some n.
Proof. intros H FI. rewrite (mo_nm _ _ _ _ _ _ _ HM). eapply prefix_nth; [apply FI|eapply name_nth, H]. Qed.
Lemma fin_op n s o args : fin n (append_op s o args) F Lf -> fin n s F Lf.
Proof. intros H. eapply fin_mv; [apply mv_op|apply le_n|exact H]. Qed.
Lemma r_name g s1 s2 t n st c s : load_name s1 t = PyOk s2 -> fin n s2 F Lf -> ipok s1 ->
  here g (g_ip s1) st c s -> reach s (here g (g_ip s2) (st ++ [VStr t]) c).
Proof.
  intros LC FI I H. unfold load_name in LC. apply pbind_ok in LC as ((s1' & i) & CI & LC). apply pyok_inj in LC. cbn [fst snd] in LC. subst s2.
  pose proof (mv_ip _ _ _ (mv_name (fun _ => False) _ _ _ _ CI) I) as I'. rewrite <- (name_ip _ _ _ _ CI) in H.
  eapply r_op0; [exact FI|exact I'|reflexivity|exists i; reflexivity|exact H|]. intros l G s' _ H'.
  destruct (ex_name E P A vm (mo_get _ _ _ _ _ _ _ HM) _ _ _ _ _ _ _ H' (name_final _ _ _ _ _ CI (fin_op _ _ _ _ FI))) as (s'' & X & Y). exists s''. split; [exact X|ateq Y].
Qed.

(** ** Variables *)
(** The global table and the name there of a global name. *)
Definition where_ (nm : text) (i : option N) (n' : text) : Prop :=
  match se_imp S (q_m A) nm with Some (j, x) => i = Some j /\ n' = x | None => i = q_m A /\ n' = nm end.
Lemma r_glob g s1 s2 nm x i n' v n st c s : load_variable C s1 x = PyOk s2 -> fin n s2 F Lf -> ipok s1 ->
  glob_ok S C (q_m A) nm x = true -> where_ nm i n' ->
  (forall G, glob_rel P fof bi (k_g c) G -> assoc n' (gg G i) = Some v) ->
  here g (g_ip s1) st c s -> reach s (here g (g_ip s2) (st ++ [v]) c).
Proof.
  intros LV FI I GO WH VAL H. unfold load_variable in LV. apply pbind_ok in LV as ((s1' & j) & CI & LV).
  pose proof (mv_ip _ _ _ (mv_name (fun _ => False) _ _ _ _ CI) I) as I'. rewrite <- (name_ip _ _ _ _ CI) in H.
  unfold glob_ok, own_glob in GO. unfold where_ in WH. destruct (text_eqb (sy_mod x) (c_path C)) eqn:TM; cbn [negb] in LV.
  - apply andb_prop in GO as [GO IMP]. apply andb_prop in GO as [GL NM]. rewrite GL in LV. apply pyok_inj in LV. subst s2.
    apply text_eqb_eq in NM. destruct (se_imp S (q_m A) nm); [discriminate IMP|]. destruct WH as [-> ->].
    eapply r_op0; [exact FI|exact I'|reflexivity|exists j; reflexivity|exact H|]. intros l G s' GR H'.
    pose proof (name_final _ _ _ _ _ CI (fin_op _ _ _ _ FI)) as NF. rewrite NM in NF.
    destruct (ex_get_global E P A vm (mo_get _ _ _ _ _ _ _ HM) _ _ _ _ _ _ _ _ H' NF (VAL _ GR)) as (s'' & X & Y). exists s''. split; [exact X|ateq Y].
  - destruct (assoc (sy_mod x) (c_modules C)) as [md|] eqn:AM; [|discriminate LV]. apply pyok_inj in LV. subst s2.
    destruct (se_imp S (q_m A) nm) as [[i' nn]|]; [|discriminate GO]. destruct WH as [-> ->]. apply andb_prop in GO as [EQ NM].
    apply N.eqb_eq in EQ. subst i'. apply text_eqb_eq in NM.
    eapply r_op0; [exact FI|exact I'|reflexivity|exists md, j; reflexivity|exact H|]. intros l G s' GR H'.
    pose proof (name_final _ _ _ _ _ CI (fin_op _ _ _ _ FI)) as NF. rewrite NM in NF.
    destruct (ex_module_def E P A vm (mo_get _ _ _ _ _ _ _ HM) _ _ _ _ _ _ _ _ _ H' NF (mo_idx _ _ _ _ _ _ _ HM _ _ AM) (VAL _ GR)) as (s'' & X & Y). exists s''. split; [exact X|ateq Y].
Qed.
Lemma where_ex nm : exists i n', where_ nm i n'.
Proof. unfold where_. destruct (se_imp S (q_m A) nm) as [[j x]|]; eauto. Qed.
Lemma slot o k : assoc o Lf = Some k -> q_bp A = zlen base /\ (N.to_nat k < nloc)%nat.
Proof.
  intros K. destruct HS as [-> | [B L]]; [discriminate K|]. split; [exact B|]. pose proof (numb_lt _ _ _ HN K). lia.
Qed.
(** Reading a name. *)
Lemma r_var g s1 s2 nm x v n st c s : load_variable C s1 x = PyOk s2 -> fin n s2 F Lf -> ipok s1 ->
  var_ok S C (q_m A) g nm x = true -> var_value S c (q_m A) nm = Some v ->
  here g (g_ip s1) st c s -> reach s (here g (g_ip s2) (st ++ [v]) c).
Proof.
  intros LV FI I VO VV H. unfold var_ok in VO. unfold var_value in VV.
  assert (EL := H). destruct EL as (loc0 & G0 & LL & GR & ER & _). pose proof (env_look _ _ _ _ nm ER) as EL.
  destruct (look (k_l c) nm) as [w|].
  - injection VV as ->. destruct EL as (y & k & GL & K & NTH). rewrite GL in VO.
    apply andb_prop in VO as [VO OUT]. apply andb_prop in VO as [TM GLB]. apply text_eqb_eq in OUT.
    unfold load_variable in LV. apply pbind_ok in LV as ((s1' & j) & CI & LV). rewrite TM in LV. cbn [negb] in LV.
    destruct (sy_global x); [discriminate GLB|]. destruct (assoc (sy_out x) (g_locals s1')) as [k'|] eqn:AK; [|discriminate LV].
    apply pyok_inj in LV. subst s2. pose proof (mv_ip _ _ _ (mv_name (fun _ => False) _ _ _ _ CI) I) as I'.
    rewrite <- (name_ip _ _ _ _ CI) in H.
    assert (k' = k).
    { destruct (fi_loc _ _ _ _ FI) as [t EL]. cbn in EL. apply (assoc_app _ _ t) in AK. rewrite <- EL, OUT, K in AK. congruence. }
    subst k'. destruct (slot _ _ K) as [BP _]. destruct H as (loc & G & LL' & GR' & ER' & H).
    pose proof (env_look _ _ _ _ nm ER') as EL. 
    assert (NTH' : nth_error loc (N.to_nat k) = Some v).
    { destruct (look (k_l c) nm) eqn:LK. 2:{ congruence. } destruct EL as (y' & k' & G' & K' & NT'). rewrite GL in G'. injection G' as <-.
      rewrite K in K'. injection K' as <-. pose proof (env_look _ _ _ _ nm ER) as EL2. rewrite LK in EL2. destruct EL2 as (y2 & k2 & G2 & K2 & N2).
      rewrite GL in G2. injection G2 as <-. rewrite K in K2. injection K2 as <-. congruence. }
    eapply reach_post; [|eapply reach_op; [exact H|exact (fetch_plain _ _ _ _ _ _ _ _ _ _ _ _ HM FI I' eq_refl (ex_intro _ k eq_refl))|]].
    2:{ intros s' H'. apply (ex_get_local E P A vm (mo_get _ _ _ _ _ _ _ HM) _ _ _ _ _ _ _ _ _ H' BP NTH'). }
    intros s' H'. exists loc, G. repeat (split; [assumption|]). ateq H'.
  - rewrite EL in VO. destruct (where_ex nm) as (i & n' & WH). eapply r_glob; [exact LV|exact FI|exact I|exact VO|exact WH| |exact H].
    intros G GR'. apply (gr_var _ _ _ _ _ GR'). unfold global_value in VV. unfold where_ in WH.
    destruct (se_imp S (q_m A) nm) as [[j z]|]; destruct WH as [-> ->]; exact VV.
Qed.
(** A type of the built-in module. *)
Lemma r_type g s1 s2 x ty n st c s : load_variable C s1 x = PyOk s2 -> fin n s2 F Lf -> ipok s1 ->
  sy_mod x = c_builtins C -> type_named (sy_name x) = Some ty ->
  here g (g_ip s1) st c s -> reach s (here g (g_ip s2) (st ++ [VType ty]) c).
Proof.
  intros LV FI I MD TY H. unfold load_variable in LV. apply pbind_ok in LV as ((s1' & j) & CI & LV).
  pose proof (mv_ip _ _ _ (mv_name (fun _ => False) _ _ _ _ CI) I) as I'. rewrite <- (name_ip _ _ _ _ CI) in H.
  rewrite MD, (mo_bp _ _ _ _ _ _ _ HM), (mo_bi _ _ _ _ _ _ _ HM) in LV. cbn [negb] in LV. apply pyok_inj in LV. subst s2.
  eapply r_op0; [exact FI|exact I'|reflexivity|exists bi, j; reflexivity|exact H|]. intros l G s' GR H'.
  pose proof (name_final _ _ _ _ _ CI (fin_op _ _ _ _ FI)) as NF.
  destruct (ex_module_def E P A vm (mo_get _ _ _ _ _ _ _ HM) _ _ _ _ _ _ _ _ _ H' NF (mo_idx _ _ _ _ _ _ _ HM _ _ (mo_bi _ _ _ _ _ _ _ HM)) (gr_ty _ _ _ _ _ GR _ _ TY)) as (s'' & X & Y). exists s''. split; [exact X|ateq Y].
Qed.
(** Promotion to [real]. *)
Lemma s_promote k g s1 s2 pr r st s n : auto_cast C s1 pr = PyOk s2 -> fin n s2 F Lf -> ipok s1 ->
  sim E P k r s (vq g (g_ip s1) st) -> sim E P k (promote pr r) s (vq g (g_ip s2) st).
Proof.
  unfold auto_cast, promote. destruct pr; intros AC FI I H; [|apply pyok_inj in AC; subst; exact H].
  apply pbind_ok in AC as (s1' & LV & AC). apply pyok_inj in AC. subst s2.
  pose proof (mv_ip _ _ _ (mv_load_variable (fun _ => False) _ _ _ _ LV) I) as I'.
  eapply sim_bindv; [exact H|]. intros v c s' V. cbn [vq] in V. destruct v; try exact Logic.I.
  eapply sim_reach; [eapply r_type; [exact LV|exact (fin_op _ _ _ _ FI)|exact I|reflexivity|reflexivity|exact V]|]. cbn beta.
  intros s'' V'. eapply sim_reach; [eapply r_op0 with (st' := st ++ [VF64 (f_of_Z z)]); [exact FI|exact I'|reflexivity|exists 0%N; reflexivity|exact V'|]|].
  - intros l G s3 _ H'. destruct (ex_cast E P A vm (mo_get _ _ _ _ _ _ _ HM) _ (l ++ st) _ _ (VInt z) TyReal false s3 ltac:(ateq H')) as (s4 & X & Y).
    exists (op_push s4 (VF64 (f_of_Z z))). split; [exact X|]. apply (push_at _ _ _ _ _ _ (VF64 (f_of_Z z))) in Y. ateq Y.
  - cbn beta. intros s4 V4. apply sim_done. exact V4.
Qed.

(** ** Assignment *)
Lemma set_global_l c m n v : k_l (set_global c m n v) = k_l c. Proof. reflexivity. Qed.
Lemma r_set_glob g s1 s2 nm x v n st c s : set_variable s1 x = PyOk s2 -> fin n s2 F Lf -> ipok s1 ->
  set_glob_ok S (q_m A) nm x = true -> here g (g_ip s1) (st ++ [v]) c s ->
  reach s (here g (g_ip s2) st (set_global c (q_m A) nm v)).
Proof.
  intros SV FI I SG H. unfold set_glob_ok, own_glob in SG. apply andb_prop in SG as [SG FN]. apply andb_prop in SG as [SG IMP].
  apply andb_prop in SG as [GL NM]. apply text_eqb_eq in NM. unfold set_variable in SV. rewrite GL in SV.
  apply pbind_ok in SV as ((s1' & j) & CI & SV). apply pyok_inj in SV. cbn [fst snd] in SV. subst s2.
  pose proof (mv_ip _ _ _ (mv_name (fun _ => False) _ _ _ _ CI) I) as I'. rewrite <- (name_ip _ _ _ _ CI) in H.
  destruct H as (loc & G & LL & GR & ER & H).
  eapply reach_post; [|eapply reach_op; [exact H|exact (fetch_plain _ _ _ _ _ _ _ _ _ _ _ _ HM FI I' eq_refl (ex_intro _ j eq_refl))|]].
  2:{ intros s' H'. pose proof (name_final _ _ _ _ _ CI (fin_op _ _ _ _ FI)) as NF. rewrite NM in NF.
      refine (ex_set_global E P A vm (mo_get _ _ _ _ _ _ _ HM) _ (base ++ loc ++ st) _ _ _ _ v _ _ NF). ateq H'. }
  intros s' H'. exists loc, (gset G (q_m A) nm v). split; [exact LL|]. split; [|split; [exact ER|exact H']].
  apply (glob_set P fof bi (k_g c)); auto.
  - apply HF. destruct (se_fun S (q_m A) nm); [discriminate FN|reflexivity].
  - apply (mo_nb _ _ _ _ _ _ _ HM).
  - apply (mo_in _ _ _ _ _ _ _ HM).
Qed.
Lemma set_local_slot s1 s2 x n : set_variable s1 x = PyOk s2 -> fin n s2 F Lf -> ipok s1 -> sy_global x = false ->
  exists s1' k, s2 = append_op s1' SET_LOCAL [k] /\ g_ip s1' = g_ip s1 /\ ipok s1' /\ assoc (sy_out x) Lf = Some k.
Proof.
  intros SV FI I GL. unfold set_variable in SV. rewrite GL in SV.
  set (s1' := match assoc (sy_out x) (g_locals s1) with Some _ => s1 | None => fst (declare_local s1 x) end) in *.
  destruct (assoc (sy_out x) (g_locals s1')) as [k|] eqn:AK; [|discriminate SV]. apply pyok_inj in SV. subst s2.
  exists s1', k. split; [reflexivity|]. split; [|split].
  - unfold s1'. destruct (assoc _ _); reflexivity.
  - unfold s1'. destruct (assoc _ _); exact I.
  - destruct (fi_loc _ _ _ _ FI) as [t EL]. cbn in EL. apply (assoc_app _ _ t) in AK. rewrite <- EL in AK. exact AK.
Qed.
Lemma r_set_slot g s1 k n st v c s (R : state -> Prop) : fin n (append_op s1 SET_LOCAL [k]) F Lf -> ipok s1 ->
  q_bp A = zlen base -> (N.to_nat k < nloc)%nat -> here g (g_ip s1) (st ++ [v]) c s ->
  (forall loc G s', List.length loc = nloc -> glob_rel P fof bi (k_g c) G -> env_rel g (k_l c) Lf loc ->
     at_ A (g_ip (append_op s1 SET_LOCAL [k])) (base ++ list_set loc (N.to_nat k) v ++ st) (k_w c) G s' -> R s') -> reach s R.
Proof.
  intros FI I BP L (loc & G & LL & GR & ER & H) K.
  eapply reach_post; [|eapply reach_op; [exact H|exact (fetch_plain _ _ _ _ _ _ _ _ _ _ _ _ HM FI I eq_refl (ex_intro _ k eq_refl))|]].
  2:{ intros s' H'. refine (ex_set_local E P A vm (mo_get _ _ _ _ _ _ _ HM) _ base loc st _ _ k v s' _ BP _). - ateq H'. - rewrite LL. exact L. }
  intros s' H'. apply (K loc G s'); assumption.
Qed.
Lemma r_set g s1 s2 nm x v n st c s c' : set_variable s1 x = PyOk s2 -> fin n s2 F Lf -> ipok s1 ->
  tgt_ok S (q_m A) g nm x = true -> write_var c (q_m A) nm v = Done ONorm c' -> here g (g_ip s1) (st ++ [v]) c s ->
  reach s (here g (g_ip s2) st c').
Proof.
  intros SV FI I TG WV H. unfold tgt_ok in TG. unfold write_var in WV.
  assert (EL := H). destruct EL as (loc0 & G0 & LL & GR & ER & _). pose proof (env_look _ _ _ _ nm ER) as EL.
  destruct (look (k_l c) nm) as [w|] eqn:LK.
  - destruct EL as (y & k & GL & K & _). rewrite GL in TG. apply andb_prop in TG as [GLB OUT]. apply text_eqb_eq in OUT.
    apply negb_true_iff in GLB. destruct (set_local_slot _ _ _ _ SV FI I GLB) as (s1' & k' & -> & IP & I' & K').
    rewrite OUT, K in K'. injection K' as <-. destruct (slot _ _ K) as [BP L].
    destruct (update_some (k_l c) nm v) as (l' & U); [congruence|]. rewrite U in WV. injection WV as <-.
    rewrite <- IP in H. eapply r_set_slot; [exact FI|exact I'|exact BP|exact L|exact H|].
    intros loc G s' LL' GR' ER' H'. exists (list_set loc (N.to_nat k) v), G. split; [rewrite list_set_length; exact LL'|].
    split; [exact GR'|]. split; [|exact H']. eapply env_update; eauto. rewrite LL'. exact L.
  - rewrite EL in TG. rewrite (update_none _ _ v LK) in WV. injection WV as <-. eapply r_set_glob; eassumption.
Qed.
Lemma existsb_in o l : existsb (text_eqb o) l = false -> ~ In o l.
Proof.
  intros H I. assert (existsb (text_eqb o) l = true); [|congruence]. apply existsb_exists. exists o. split; [exact I|apply text_eqb_refl].
Qed.
Lemma r_decl g s1 s2 nm x v n st c s c' : set_variable s1 x = PyOk s2 -> fin n s2 F Lf -> ipok s1 ->
  decl_ok S (q_m A) g nm x = true -> declare c (q_m A) nm v = Done ONorm c' -> here g (g_ip s1) (st ++ [v]) c s ->
  reach s (here (gdecl g nm x) (g_ip s2) st c').
Proof.
  intros SV FI I DO DC H. unfold decl_ok in DO. unfold declare in DC.
  assert (EL := H). destruct EL as (loc0 & G0 & LL & GR & [ER _] & _).
  destruct g as [|sc g].
  - inversion ER as [E1 E2|]. rewrite <- E2 in DC. injection DC as <-. eapply r_set_glob; eassumption.
  - inversion ER as [|? l0 ? lr Hs Hr E1 E2]. rewrite <- E2 in DC. injection DC as <-. unfold fresh_ok in DO.
    apply andb_prop in DO as [GLB NI]. apply negb_true_iff in GLB. apply negb_true_iff in NI. apply existsb_in in NI.
    destruct (set_local_slot _ _ _ _ SV FI I GLB) as (s1' & k & -> & IP & I' & K). destruct (slot _ _ K) as [BP L].
    rewrite <- IP in H. eapply r_set_slot; [exact FI|exact I'|exact BP|exact L|exact H|].
    intros loc G s' LL' GR' ER' H'. exists (list_set loc (N.to_nat k) v), G. split; [rewrite list_set_length; exact LL'|].
    split; [exact GR'|]. split; [|exact H']. cbn [gdecl]. rewrite <- E2 in ER'. cbn. apply env_declare; auto. rewrite LL'. exact L.
Qed.

(** ** Jumps *)
Definition jump_to (o : option N) (ip : N) : Prop := exists l, o = Some l /\ nth_error (g_labels F) (N.to_nat l) = Some ip.
Lemma r_jump g s1 l a n st c s : fin n (append_op s1 JUMP [l]) F Lf -> ipok s1 -> nth_error (g_labels F) (N.to_nat l) = Some a ->
  here g (g_ip s1) st c s -> reach s (here g a st c).
Proof.
  intros FI I J (loc & G & LL & GR & ER & H).
  eapply reach_post; [|eapply reach_op; [exact H|exact (fetch_jump _ _ _ _ _ _ _ _ _ _ _ _ _ HM FI I eq_refl J)|]].
  2:{ intros s' H'. apply (ex_jump E P A vm (mo_get _ _ _ _ _ _ _ HM) _ a _ _ _ _ H'). }
  intros s' H'. exists loc, G. auto.
Qed.
Lemma r_jump_if g s1 l a n st b c s : fin n (append_op s1 JUMP_IF_FALSE [l]) F Lf -> ipok s1 -> nth_error (g_labels F) (N.to_nat l) = Some a ->
  here g (g_ip s1) (st ++ [VBool b]) c s -> reach s (here g (if b then g_ip (append_op s1 JUMP_IF_FALSE [l]) else a) st c).
Proof.
  intros FI I J (loc & G & LL & GR & ER & H).
  eapply reach_post; [|eapply reach_op; [exact H|exact (fetch_jump _ _ _ _ _ _ _ _ _ _ _ _ _ HM FI I eq_refl J)|]].
  2:{ intros s' H'. refine (ex_jump_if E P A vm (mo_get _ _ _ _ _ _ _ HM) _ a (base ++ loc ++ st) _ _ b _ _). ateq H'. }
  intros s' H'. exists loc, G. auto.
Qed.
(** Where a patched label points to in the finished module. *)
Lemma lab_final a l b s2 n : patch_label a l = PyOk b -> (N.to_nat l < List.length (g_labels a))%nat ->
  mv (fun i => i = N.to_nat l) b s2 -> fin n s2 F Lf -> (n <= N.to_nat l)%nat -> nth_error (g_labels F) (N.to_nat l) = Some (g_ip a).
Proof.
  clear HS HN HM HF. unfold patch_label. destruct (_ <? _)%N; [discriminate|]. intros H L M FI LE. apply pyok_inj in H. subst b.
  pose proof (mv_llen _ _ _ M) as LL. cbn [g_labels set_labels] in LL. rewrite list_set_length in LL.
  rewrite (fi_lab _ _ _ _ FI) by lia. rewrite (mv_lab _ _ _ M) by (cbn; rewrite ?list_set_length; auto).
  cbn. apply list_set_same, L.
Qed.
Lemma patch_ip a l b : patch_label a l = PyOk b -> g_ip b = g_ip a.
Proof. unfold patch_label. destruct (_ <? _)%N; [discriminate|]. intros H. apply pyok_inj in H. subst b. reflexivity. Qed.

(** ** Scopes *)
Lemma here_push g ip st c s : here g ip st c s -> here ([] :: g) ip st (push_scope c []) s.
Proof. intros (loc & G & LL & GR & ER & H). exists loc, G. repeat (split; [assumption|]). split; [apply env_push, ER|exact H]. Qed.
Lemma here_pop g ip st c s : here g ip st c s -> here (tl g) ip st (pop_scope c) s.
Proof. intros (loc & G & LL & GR & ER & H). exists loc, G. repeat (split; [assumption|]). split; [apply env_pop, ER|exact H]. Qed.
End Frame.

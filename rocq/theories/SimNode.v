(** The code generated for a node does what the interpreter says. *)
From Verif Require Import Base BaseFacts Bson BsonFacts Opcode Spec_Opcode OpcodeFacts Dec Float Value Spec_Value ValueFacts
  Ast Spec_Tables TableFacts CodeGen VM GenFacts Sem SemWf GenLocals SimVM Sim SimRel SimFrame Compile SemProg.

(** ** Literals *)
Lemma digitsb_ok t : digitsb t = true -> digits t.
Proof.
  unfold digitsb, digits. destruct t as [|c t]; [discriminate|]. intros H. split; [discriminate|].
  rewrite forallb_forall in H. rewrite Forall_forall. intros x Hx. specialize (H x Hx). unfold digitb in H. lia.
Qed.
Lemma split_dot_app t a b : split_dot t = (a, Some b) -> t = a ++ 46%N :: b.
Proof.
  revert a b. induction t as [|c t IH]; intros a b H; cbn in H; [discriminate|]. destruct (c =? 46)%N eqn:D.
  - injection H as <- <-. apply N.eqb_eq in D. subst c. reflexivity.
  - destruct (split_dot t) as [a' b']. injection H as <- ->. cbn. f_equal. apply IH. reflexivity.
Qed.
Lemma digits_nonneg t : forall acc, (0 <= acc)%Z -> Forall (fun c => (48 <= c <= 57)%N) t -> (0 <= digits_number acc t)%Z.
Proof. induction t as [|c t IH]; intros acc H F; cbn; [exact H|]. inversion F; subst. apply IH; [lia|assumption]. Qed.
Lemma lit_const k lex v : k <> KPart -> lit_value k lex = Some v -> const_from_str lex = Some v.
Proof.
  intros NP H. destruct k; cbn [lit_value] in H; try congruence.
  - destruct (digitsb lex) eqn:D; [|discriminate H]. cbn in H. destruct (_ <? _)%Z eqn:L; [|discriminate H]. injection H as <-.
    apply digitsb_ok in D. apply const_int; [exact D|]. unfold fits. pose proof (digits_nonneg lex 0 ltac:(lia) (proj2 D)). lia.
  - destruct (split_dot lex) as [a [b|]] eqn:SD; [|discriminate H]. apply split_dot_app in SD. subst lex.
    destruct (digitsb a) eqn:DA; [|discriminate H]. destruct (digitsb b) eqn:DB; [|discriminate H]. cbn [andb] in H.
    apply digitsb_ok in DA. apply digitsb_ok in DB. destruct (parse_f64 (a ++ 46%N :: b)) as [f|] eqn:PF; [|discriminate H]. cbn in H.
    injection H as <-. destruct (const_real a b DA DB) as (f' & PF' & CR). rewrite PF in PF'. injection PF' as <-. exact CR.
  - destruct lex as [|q r]; [discriminate H|]. destruct (rev r) as [|q' t] eqn:RV; [discriminate H|].
    destruct (((q =? 34) || (q =? 39))%N && (q =? q')%N) eqn:Q; [|discriminate H]. injection H as <-.
    assert (ER : r = rev t ++ [q']). { rewrite <- (rev_involutive r), RV. reflexivity. }
    assert (q' = q) by lia. subst q' r. apply const_text. lia.
  - destruct (text_eqb lex (txt "verdadeiro")) eqn:T1.
    + injection H as <-. unfold const_from_str. rewrite T1. reflexivity.
    + destruct (text_eqb lex (txt "falso")) eqn:T2; [|discriminate H]. injection H as <-. unfold const_from_str. rewrite T1, T2. reflexivity.
  - destruct (text_eqb lex (txt "nulo")) eqn:T1; [|discriminate H]. injection H as <-. apply text_eqb_eq in T1. subst lex. reflexivity.
Qed.
Lemma falso_const v : const_ok (CText (txt "falso")) v -> v = VBool false.
Proof. intros H. symmetry. apply some_inj. exact H. Qed.
Lemma zero_const ty v : const_ok (init_value ty) v -> v = zero_value ty.
Proof.
  unfold init_value, zero_value. destruct (text_eqb ty (txt "int")); [intros H; exact H|].
  destruct (text_eqb ty (txt "real")).
  { intros H. symmetry. apply some_inj. rewrite <- H. vm_compute. reflexivity. }
  destruct (text_eqb ty (txt "bool")) eqn:TB.
  { apply text_eqb_eq in TB. subst ty. intros H. apply falso_const in H. subst v. vm_compute. reflexivity. }
  destruct (text_eqb ty (txt "texto")); [|apply falso_const].
  intros H. symmetry. apply some_inj. rewrite <- H. vm_compute. reflexivity.
Qed.

Lemma decls_expr scs g x : is_stmt x = false -> decls scs g x = g.
Proof. destruct x; cbn; try reflexivity; discriminate. Qed.
Lemma gdecl_tl g n x : tl (gdecl g n x) = tl g. Proof. destruct g; reflexivity. Qed.
Lemma decls_tl scs g x : tl (decls scs g x) = tl g.
Proof.
  destruct x; cbn; try reflexivity. destruct init as [y|]; [destruct y; cbn; try reflexivity; apply gdecl_tl|].
  destruct (resolve scs name); [apply gdecl_tl|reflexivity].
Qed.

(** Growth of everything but the local variables. *)
Definition mw (K : nat -> Prop) (a b : gst) : Prop := mv K (set_locals a []) (set_locals b []).
Lemma mw_mv K a b : mv K a b -> mw K a b.
Proof. intros [h1 h2 h3 h4 h5 h6 h7 h8 h9]. constructor; try assumption. apply prefix_refl. Qed.
Lemma mw_trans K a b c : mw K a b -> mw K b c -> mw K a c. Proof. apply mv_trans. Qed.
Lemma mw_locals K a l : mw K a (set_locals a l). Proof. apply mv_refl. Qed.
Lemma mw_ip K a b : mw K a b -> ipok a -> ipok b. Proof. intros H. exact (mv_ip _ _ _ H). Qed.
Lemma mv_of_mw K a b : mw K a b -> prefix (g_locals a) (g_locals b) -> mv K a b.
Proof. intros [h1 h2 h3 h4 h5 h6 h7 h8 h9] L. constructor; assumption. Qed.
Lemma fin_mw n n' a b F L L' : mw (fun i => (n <= i)%nat) a b -> (n' <= n)%nat -> fin n' b F L -> prefix (g_locals a) L' -> fin n a F L'.
Proof.
  intros M LE H PF. assert (X : fin n (set_locals a []) F []).
  { eapply fin_mv; [exact M|exact LE|]. destruct H. constructor; auto. apply prefix_refl. }
  destruct X. constructor; auto.
Qed.

Lemma mv_of_gs0 a b : gs 0 a b -> prefix (g_locals a) (g_locals b) -> mv (fun _ => False) a b.
Proof. intros [[h1 h2 h3 h4 h5 h6 h7 h8 h9] _] L. constructor; try assumption. intros i []. Qed.
Lemma gs0_seq C l a b : seqm (gen C) l a = PyOk b -> gs 0 a b.
Proof. apply gs_seqm; [|lia]. intros y _ a' b'. apply (proj1 (proj1 (gen_gs C y))). Qed.
Lemma gs0_body C (bi : bool) blk a b : (if bi then PyOk a
         else match blk with
              | NBlock sc ch => pbind (seqm (gen C) ch (enter a sc)) (fun s => PyOk (leave s))
              | _ => PyErr AttributeErr
              end) = PyOk b -> gs 0 a b.
Proof.
  destruct bi; intros H. { apply pyok_inj in H. subst. apply gs_refl. }
  destruct blk; try discriminate H. apply pbind_ok in H as (t & H1 & H). apply pyok_inj in H. subst b.
  apply (gs_enter_leave _ _ sc). eapply gs0_seq, H1.
Qed.

Section Node.
Variable E : ext.
Variable P : program.
Variable S : senv.
Variable fof : option N -> text -> option afunc.
Variable bi : N.
Hypothesis HF : forall m n, se_fun S m n = None -> fof m n = None.
Variable A : fctx.
Variable C : gctx.
Variable F : gst.
Variable vm : vmodule.
Variable Lf : list (text * N).
Variable base : list value.
Variable nloc : nat.
Variable calls : bool.
Hypothesis HM : modok P S bi (q_m A) C F vm.
Hypothesis HS : Lf = [] \/ q_bp A = zlen base /\ (List.length Lf <= nloc)%nat.
Hypothesis HN : numb Lf.
Hypothesis HC : calls = true -> q_fm A = q_m A.
Variable k : nat.
Variable rec : recfun.

Notation here := (here P fof bi A Lf base nloc).
Notation reach := (reach E P).
Notation vq := (vq P fof bi A Lf base nloc).
Notation sim := (sim E P).
Notation EV := (ev E S rec (q_m A) (Datatypes.S (List.length (q_fr A)))).
Notation WF := (wf S C (q_m A) calls).
Notation fin n s := (SimRel.fin n s F Lf).

(** How the code of a node may end. *)
Definition npost (g gn : gam) (cl isv lp : bool) (brk cont : option N) (ip : N) (st : list value) (o : out) (c : cfg) (s : state) : Prop :=
  match o with
  | OVal v => isv = true /\ here g ip (st ++ [v]) c s
  | ONorm => exists j, (cl = true -> j = []) /\ here gn ip (st ++ j) c s
  | OBrk => lp = true /\ exists j ip', (cl = true -> j = []) /\ jump_to F brk ip' /\ here g ip' (st ++ j) c s
  | OCont => lp = true /\ exists j ip', (cl = true -> j = []) /\ jump_to F cont ip' /\ here g ip' (st ++ j) c s
  | ORet v => exists j ip', (cl = true -> j = []) /\ fetch_at P (q_m A) ip' RETURN [] /\ here g ip' ((st ++ j) ++ [v]) c s
  end.
Definition lpost (g : gam) cl lp brk cont ip st o c s : Prop :=
  exists g', tl g' = tl g /\ npost g' g' cl false lp brk cont ip st o c s.
Definition NSk (kk : nat) (f : node -> cfg -> res) (x : node) : Prop := forall lp g scs s1 s2 st c s,
  WF lp g scs x = true -> g_scopes s1 = scs -> gen C x s1 = PyOk s2 -> ipok s1 -> fin (List.length (g_labels s1)) s2 ->
  here g (g_ip s1) st c s ->
  sim kk (f x c) s (npost g (decls scs g x) (clean x) (negb (is_stmt x)) lp (g_brk s1) (g_cont s1) (g_ip s2) st).
Definition NS := NSk (Datatypes.S k) EV.

Lemma fin_sub s1 s2 t1 t2 : mv (fun i => (List.length (g_labels t1) <= i)%nat) t2 s2 -> mv (fun _ => False) s1 t1 ->
  fin (List.length (g_labels s1)) s2 -> fin (List.length (g_labels t1)) t2.
Proof. intros M1 M2 H. eapply fin_mv; [exact M1|apply (mv_llen _ _ _ M2)|exact H]. Qed.
Lemma fin_any n s2 t : mv (fun _ => False) t s2 -> fin n s2 -> fin (Nat.max n (List.length (g_labels t))) t.
Proof.
  intros M H. constructor; try (eapply prefix_trans; [apply M|apply H]).
  intros i Hi Hl. lia.
Qed.

Ltac sct := match goal with H : g_scopes ?a = ?x |- g_scopes ?b = ?x => rewrite <- H; apply (sc_scopes a b); ctxt end.
Ltac ipt := match goal with I : ipok ?a |- ipok ?b => apply (mv_ip (fun _ => False) a b); [mvt|exact I] end.
Ltac fint := match goal with
  | H : SimRel.fin (List.length (g_labels ?a)) ?b _ _ |- SimRel.fin (List.length (g_labels ?t)) ?u _ _ => apply (fin_sub a b t u); [mvt|mvt|exact H]
  end.
Ltac fina := match goal with
  | H : SimRel.fin ?n ?b _ _ |- SimRel.fin _ ?u _ _ => apply (fin_any n b u); [mvt|exact H]
  end.
Ltac nig := repeat match goal with
  | H : wf _ _ _ _ _ _ _ ?x = true |- _ =>
      lazymatch goal with K : noig x = true |- _ => fail | _ => pose proof (proj1 (wf_noig _ _ _ _ x) _ _ _ H) end
  | H : forallb (wf ?a ?b ?c ?d ?e ?f ?g) ?l = true |- _ =>
      lazymatch goal with K : forallb noig l = true |- _ => fail | _ =>
        assert (forallb noig l = true) by (refine (wn_all a b c d l e f g _ H); apply Forall_forall; intros; apply wf_noig) end
  end.
Ltac spl := repeat match goal with H : (_ && _)%bool = true |- _ => apply andb_prop in H as [? ?] end.

Lemma v_bind x f lp g scs s1 s2 st c s Q : NS x -> WF lp g scs x = true -> g_scopes s1 = scs -> gen C x s1 = PyOk s2 -> ipok s1 ->
  fin (List.length (g_labels s1)) s2 -> here g (g_ip s1) st c s ->
  (forall v c' s', here g (g_ip s2) (st ++ [v]) c' s' -> sim (Datatypes.S k) (f v c') s' Q) ->
  sim (Datatypes.S k) (bindv (EV x c) f) s Q.
Proof.
  intros N W SC GE I FI H K. eapply sim_bindv; [eapply N; eassumption|]. intros v c' s' X. apply K. apply X.
Qed.
(** An expression. *)
Lemma v_node x lp g scs s1 s2 st c s : is_stmt x = false -> sim (Datatypes.S k) (EV x c) s (vq g (g_ip s2) st) ->
  sim (Datatypes.S k) (EV x c) s (npost g (decls scs g x) (clean x) (negb (is_stmt x)) lp (g_brk s1) (g_cont s1) (g_ip s2) st).
Proof.
  intros ST H. eapply sim_post; [|exact H]. intros o c' s' X. destruct o; cbn in X; try contradiction. rewrite ST. split; [reflexivity|exact X].
Qed.

(** ** Lists of expressions *)
Lemma args_sim l : Forall NS l -> forall lp g scs s1 s2 st c s Q (f : list value -> cfg -> res),
  forallb (WF lp g scs) l = true -> g_scopes s1 = scs -> seqm (gen C) l s1 = PyOk s2 -> ipok s1 -> fin (List.length (g_labels s1)) s2 ->
  here g (g_ip s1) st c s ->
  (forall vs c' s', List.length vs = List.length l -> here g (g_ip s2) (st ++ vs) c' s' -> sim (Datatypes.S k) (f vs c') s' Q) ->
  sim (Datatypes.S k) (run_args EV l c f) s Q.
Proof.
  induction 1 as [|y l N _ IH]; intros lp g scs s1 s2 st c s Q f W SC GE I FI H K.
  - cbn in GE. apply pyok_inj in GE. subst s2. cbn. apply K; [reflexivity|]. rewrite app_nil_r. exact H.
  - cbn [forallb] in W. spl. nig. cbn [seqm] in GE. destruct (gen C y s1) as [t|] eqn:GY; [|discriminate GE].
    change (run_args EV (y :: l) c f) with (bindv (EV y c) (fun v c' => run_args EV l c' (fun vs c'' => f (v :: vs) c''))).
    eapply v_bind; [exact N|eassumption|exact SC|exact GY|exact I|fint|exact H|]. intros v c' s' H'.
    eapply (IH _ _ _ t s2); [eassumption|sct|exact GE|ipt|fint|exact H'|]. intros vs c'' s'' LV H''. apply K; [cbn; lia|].
    rewrite <- app_assoc in H''. exact H''.
Qed.
Definition wf_field lp g scs (a : node) : bool := match a with NNamed _ _ e => WF lp g scs e | _ => false end.
Lemma field_noig lp g scs l : forallb (wf_field lp g scs) l = true -> forallb noig l = true.
Proof.
  intros H. rewrite forallb_forall in *. intros y Hy. specialize (H y Hy). destruct y; try discriminate H.
  cbn in *. apply (proj1 (wf_noig _ _ _ _ y) _ _ _ H).
Qed.
Lemma fields_sim l : Forall (kids NS) l -> forall lp g scs s1 s2 st c s Q (f : list (text * value) -> cfg -> res),
  forallb (wf_field lp g scs) l = true -> g_scopes s1 = scs -> seqm (gen C) l s1 = PyOk s2 -> ipok s1 -> fin (List.length (g_labels s1)) s2 ->
  here g (g_ip s1) st c s ->
  (forall fs c' s', List.length fs = List.length l -> here g (g_ip s2) (st ++ pairs_of fs) c' s' -> sim (Datatypes.S k) (f fs c') s' Q) ->
  sim (Datatypes.S k) (run_fields EV l c f) s Q.
Proof.
  induction 1 as [|y l N _ IH]; intros lp g scs s1 s2 st c s Q f W SC GE I FI H K.
  - cbn in GE. apply pyok_inj in GE. subst s2. cbn. apply K; [reflexivity|]. cbn. rewrite app_nil_r. exact H.
  - cbn [forallb] in W. apply andb_prop in W as [W1 W2]. pose proof (field_noig _ _ _ _ W2) as NL.
    destruct y; try discriminate W1. cbn [wf_field kids] in *. nig.
    cbn [seqm] in GE. destruct (gen C (NNamed ln name y) s1) as [t|] eqn:GY; [|discriminate GE].
    assert (mv (fun _ => False) s1 t) as MT by (eapply (mv_gen _ _ (NNamed ln name y)); [assumption|exact GY]).
    assert (SCT : same_ctx s1 t) by exact (ctx_gen _ _ _ _ GY).
    cbn [gen node_line] in GY. apply pbind_ok in GY as (t1 & LN & GY).
    change (run_fields EV (NNamed ln name y :: l) c f) with (bindv (EV y c) (fun v c' => run_fields EV l c' (fun vs c'' => f ((name, v) :: vs) c''))).
    eapply sim_reach; [eapply r_name; [exact HM|exact LN|fina|exact I|exact H]|]. cbn beta. intros s' H'.
    eapply (v_bind _ _ _ _ _ t1 t); [exact N|eassumption|sct|exact GY|ipt|fint|exact H'|]. intros v c' s'' H''.
    eapply (IH _ _ _ t s2); [eassumption|rewrite (sc_scopes _ _ SCT); exact SC|exact GE|apply (mv_ip _ _ _ MT I)|fint|exact H''|]. intros vs c'' s3 LV H3. apply K; [cbn; lia|].
    rewrite <- !app_assoc in H3. exact H3.
Qed.

(** ** Statements in order *)
Lemma npost_widen g g' gn cl cl' isv lp brk cont ip st j o c s : (cl' = true -> cl = true /\ j = []) ->
  npost g gn cl isv lp brk cont ip (st ++ j) o c s -> o <> ONorm \/ gn = g' -> (forall v, o <> OVal v) -> npost g g' cl' isv lp brk cont ip st o c s.
Proof.
  intros CL H NN NV. destruct o; cbn in *.
  - destruct NN as [NN|<-]; [congruence|]. destruct H as (j2 & J & H). exists (j ++ j2). rewrite app_assoc. split; [|exact H].
    intros X. destruct (CL X) as [X1 ->]. rewrite (J X1). reflexivity.
  - exfalso. eapply NV. reflexivity.
  - destruct H as (L & j2 & ip' & J & JT & H). split; [exact L|]. exists (j ++ j2), ip'. rewrite app_assoc. split; [|split; [exact JT|exact H]].
    intros X. destruct (CL X) as [X1 ->]. rewrite (J X1). reflexivity.
  - destruct H as (L & j2 & ip' & J & JT & H). split; [exact L|]. exists (j ++ j2), ip'. rewrite app_assoc. split; [|split; [exact JT|exact H]].
    intros X. destruct (CL X) as [X1 ->]. rewrite (J X1). reflexivity.
  - destruct H as (j2 & ip' & J & JT & H). exists (j ++ j2), ip'. rewrite (app_assoc st). split; [|split; [exact JT|exact H]].
    intros X. destruct (CL X) as [X1 ->]. rewrite (J X1). reflexivity.
Qed.
Lemma seq_noig lp dc g scs l : wf_seq (fun g y => WF lp g scs y) dc g l = true -> forallb noig l = true.
Proof. apply wn_seq. apply Forall_forall. intros. apply wf_noig. Qed.
Lemma seq_sim l : Forall NS l -> forall lp g scs s1 s2 st c s,
  wf_seq (fun g y => WF lp g scs y) (decls scs) g l = true -> g_scopes s1 = scs -> seqm (gen C) l s1 = PyOk s2 -> ipok s1 ->
  fin (List.length (g_labels s1)) s2 -> here g (g_ip s1) st c s ->
  sim (Datatypes.S k) (run_seq EV l c) s (lpost g (lclean l) lp (g_brk s1) (g_cont s1) (g_ip s2) st).
Proof.
  induction 1 as [|y l N _ IH]; intros lp g scs s1 s2 st c s W SC GE I FI H.
  - cbn in GE. apply pyok_inj in GE. subst s2. change (run_seq EV [] c) with (Done ONorm c). apply sim_done. exists g. split; [reflexivity|]. exists []. split; [reflexivity|].
    rewrite app_nil_r. exact H.
  - cbn [wf_seq] in W. apply andb_prop in W as [W1 W2]. pose proof (seq_noig _ _ _ _ _ W2) as NL. nig.
    cbn [seqm] in GE. destruct (gen C y s1) as [t|] eqn:GY; [|discriminate GE].
    change (run_seq EV (y :: l) c) with (bind (EV y c) (fun o c' => match o with ONorm | OVal _ => run_seq EV l c' | o => Done o c' end)).
    assert (CT : same_ctx s1 t) by ctxt.
    eapply sim_bind; [eapply N; [exact W1|exact SC|exact GY|exact I|fint|exact H]|]. intros o c' s' X.
    assert (STEP : forall j g1, tl g1 = tl g -> (lclean (y :: l) = true -> lclean l = true /\ j = []) ->
      wf_seq (fun g y => WF lp g scs y) (decls scs) g1 l = true -> here g1 (g_ip t) (st ++ j) c' s' ->
      sim (Datatypes.S k) (run_seq EV l c') s' (lpost g (lclean (y :: l)) lp (g_brk s1) (g_cont s1) (g_ip s2) st)).
    { intros j g1 TL CL W3 H'. eapply sim_post; [|eapply (IH _ _ _ t s2); [exact W3|sct|exact GE|ipt|fint|exact H']].
      intros o' c'' s'' (g' & TL' & Y). exists g'. split; [congruence|].
      rewrite (sc_brk _ _ CT), (sc_cont _ _ CT) in Y. eapply npost_widen; [exact CL|exact Y|right; reflexivity|].
      intros v ->. destruct Y as [Y _]. discriminate Y. }
    destruct o; cbn in X.
    + destruct X as (j & J & H'). eapply STEP; [|  |exact W2|exact H'].
      * apply decls_tl.
      * intros CL. unfold lclean in CL. cbn in CL. spl. split; [assumption|auto].
    + destruct X as [ST H']. apply negb_true_iff in ST. apply (STEP [v] g); [reflexivity| | |exact H'].
      * intros CL. unfold lclean in CL. cbn in CL. rewrite ST in CL. discriminate CL.
      * rewrite decls_expr in W2 by exact ST. exact W2.
    + apply sim_done. exists g. split; [reflexivity|]. destruct X as (L & j & ip' & J & R). split; [exact L|]. exists j, ip'. split; [|exact R].
      intros CL. unfold lclean in CL. cbn in CL. spl. auto.
    + apply sim_done. exists g. split; [reflexivity|]. destruct X as (L & j & ip' & J & R). split; [exact L|]. exists j, ip'. split; [|exact R].
      intros CL. unfold lclean in CL. cbn in CL. spl. auto.
    + apply sim_done. exists g. split; [reflexivity|]. destruct X as (j & ip' & J & R). exists j, ip'. split; [|exact R].
      intros CL. unfold lclean in CL. cbn in CL. spl. auto.
Qed.
(** Leaving a scope. *)
Lemma pop_post g cl lp brk cont ip st r s kk : sim kk r s (lpost ([] :: g) cl lp brk cont ip st) ->
  sim kk (popr r) s (npost g g cl false lp brk cont ip st).
Proof.
  intros H. eapply sim_bind; [exact H|]. intros o c' s' (g' & TL & X). cbn in TL. apply sim_done.
  destruct o; cbn in *.
  - destruct X as (j & J & X). exists j. split; [exact J|]. rewrite <- TL. apply here_pop, X.
  - destruct X. discriminate.
  - destruct X as (L & j & ip' & J & JT & X). split; [exact L|]. exists j, ip'. repeat (split; [assumption|]). rewrite <- TL. apply here_pop, X.
  - destruct X as (L & j & ip' & J & JT & X). split; [exact L|]. exists j, ip'. repeat (split; [assumption|]). rewrite <- TL. apply here_pop, X.
  - destruct X as (j & ip' & J & JT & X). exists j, ip'. repeat (split; [assumption|]). rewrite <- TL. apply here_pop, X.
Qed.
Definition wf_block lp g scs (b : node) : bool :=
  match b with
  | NBlock sc ch => wf_seq (fun g y => WF lp g (sc :: scs) y) (decls (sc :: scs)) ([] :: g) ch
  | _ => false
  end.
Lemma block_noig lp g scs b : wf_block lp g scs b = true -> noig b = true.
Proof. destruct b; try discriminate. cbn. apply seq_noig. Qed.
Lemma block_sim b : kids NS b -> forall lp g scs s1 s2 st c s,
  wf_block lp g scs b = true -> g_scopes s1 = scs -> block_with (gen C) b s1 = PyOk s2 -> ipok s1 ->
  fin (List.length (g_labels s1)) s2 -> here g (g_ip s1) st c s ->
  sim (Datatypes.S k) (run_block EV b c) s (npost g g (clean b) false lp (g_brk s1) (g_cont s1) (g_ip s2) st).
Proof.
  intros K lp g scs s1 s2 st c s W SC GE I FI H. destruct b; try discriminate W. cbn [kids wf_block block_with run_block] in *.
  apply pbind_ok in GE as (t & GE & X). apply pyok_inj in X. subst s2. apply pop_post.
  change (clean (NBlock sc ch)) with (lclean ch).
  change (g_brk s1) with (g_brk (enter s1 sc)). change (g_cont s1) with (g_cont (enter s1 sc)). change (g_ip (leave t)) with (g_ip t).
  eapply seq_sim; [exact K|exact W|cbn; congruence|exact GE|exact I| |apply here_push, H].
  pose proof (seq_noig _ _ _ _ _ W). fint.
Qed.
(** Carrying on after a result. *)
Lemma sim_then kk r s (Q Q' : out -> cfg -> state -> Prop) : sim kk r s Q -> (forall o c s', Q o c s' -> sim kk (Done o c) s' Q') -> sim kk r s Q'.
Proof. intros H K. destruct r; try exact H. destruct H as (n & s' & X & Y). eapply sim_steps; [exact X|]. apply K, Y. Qed.
(** After a statement that ends normally, go on. *)
Lemma sim_norm kk g cl cl' lp brk cont ip ip2 st r s : sim kk r s (npost g g cl false lp brk cont ip st) -> (cl' = true -> cl = true) ->
  (forall j c' s', here g ip (st ++ j) c' s' -> reach s' (here g ip2 (st ++ j) c')) ->
  sim kk r s (npost g g cl' false lp brk cont ip2 st).
Proof.
  intros H CL K. eapply sim_then; [exact H|]. intros o c' s' X. destruct o; cbn in X.
  - destruct X as (j & J & X). eapply sim_reach; [apply (K _ _ _ X)|]. intros s2 Y. apply sim_done. exists j. split; [auto|exact Y].
  - destruct X. discriminate.
  - apply sim_done. destruct X as (L & j & ip' & J & X). split; [exact L|]. exists j, ip'. split; [auto|exact X].
  - apply sim_done. destruct X as (L & j & ip' & J & X). split; [exact L|]. exists j, ip'. split; [auto|exact X].
  - apply sim_done. destruct X as (j & ip' & J & X). exists j, ip'. split; [auto|exact X].
Qed.
Lemma npost_clean kk g gn cl cl' isv lp brk cont ip st r s : (cl' = true -> cl = true) -> sim kk r s (npost g gn cl isv lp brk cont ip st) ->
  sim kk r s (npost g gn cl' isv lp brk cont ip st).
Proof.
  intros CL. apply sim_post. intros o c s' X. destruct o; cbn in *; auto.
  - destruct X as (j & J & X). exists j. auto.
  - destruct X as (L & j & ip' & J & X). split; [exact L|]. exists j, ip'. auto.
  - destruct X as (L & j & ip' & J & X). split; [exact L|]. exists j, ip'. auto.
  - destruct X as (j & ip' & J & X). exists j, ip'. auto.
Qed.

(** ** Conditionals *)
Definition wf_elif lp g scs (e : node) : bool := match e with NSenaoSe _ c b => WF lp g scs c && wf_block lp g scs b | _ => false end.
Lemma elif_noig lp g scs l : forallb (wf_elif lp g scs) l = true -> forallb noig l = true.
Proof.
  intros H. rewrite forallb_forall in *. intros y Hy. specialize (H y Hy). destruct y; try discriminate H.
  cbn in *. spl. rewrite (block_noig _ _ _ _ H0), (proj1 (wf_noig _ _ _ _ y1) _ _ _ H). reflexivity.
Qed.
Lemma mv_bound (K : nat -> Prop) a b : mv (fun i => K i /\ (i < List.length (g_labels a))%nat) a b -> mv K a b.
Proof. intros [h1 h2 h3 h4 h5 h6 h7 h8 h9]. constructor; auto. Qed.
Lemma mv_elifs l els : forallb noig els = true -> forall K a b, seqm (gen_elif C l) els a = PyOk b -> mv K a b.
Proof.
  induction els as [|y els IH]; intros N K a b H; cbn in H; [apply pyok_inj in H; subst; apply mv_refl|].
  destruct (gen_elif C l y a) as [t|] eqn:G; [|discriminate H]. cbn in N. apply andb_prop in N as [N1 N2].
  eapply mv_trans; [|eapply IH; eassumption]. apply mv_bound. eapply mv_elif; [exact N1| |exact G]. intros i []; assumption.
Qed.
Lemma ctx_elifs l els : forall a b, seqm (gen_elif C l) els a = PyOk b -> same_ctx a b.
Proof.
  induction els as [|y els IH]; intros a b H; cbn in H; [apply pyok_inj in H; subst; apply same_ctx_refl|].
  destruct (gen_elif C l y a) as [t|] eqn:G; [|discriminate H]. eapply same_ctx_trans; [|eapply IH; eassumption].
  apply (elif_gs C l y (gen_gs C y)) in G. apply G.
Qed.
Lemma new_label_ip s s' l : new_label s = (s', l) -> g_ip s' = g_ip s.
Proof. intros H. injection H as <- <-. reflexivity. Qed.
Lemma elifs_sim l a els : Forall (kids NS) els -> nth_error (g_labels F) (N.to_nat l) = Some a ->
  forall lp g scs s1 s2 st c s (kont : cfg -> res) cl, forallb (wf_elif lp g scs) els = true -> g_scopes s1 = scs ->
  seqm (gen_elif C l) els s1 = PyOk s2 -> ipok s1 -> fin (List.length (g_labels s1)) s2 ->
  here g (g_ip s1) st c s -> (cl = true -> forallb clean els = true) ->
  (forall c' s', here g (g_ip s2) st c' s' -> sim (Datatypes.S k) (kont c') s' (npost g g cl false lp (g_brk s1) (g_cont s1) a st)) ->
  sim (Datatypes.S k) (run_elifs EV kont els c) s (npost g g cl false lp (g_brk s1) (g_cont s1) a st).
Proof.
  intros NK LA. induction NK as [|y els N _ IH]; intros lp g scs s1 s2 st c s kont cl W SC GE I FI H CL K.
  - cbn in GE. apply pyok_inj in GE. subst s2. cbn. apply K, H.
  - cbn [forallb] in W. apply andb_prop in W as [W1 W2]. pose proof (elif_noig _ _ _ _ W2) as NL.
    destruct y; try discriminate W1. cbn [wf_elif kids] in *. apply andb_prop in W1 as [WC WB]. destruct N as [N1 N2].
    assert (KB : kids NS y2) by (destruct y2; try discriminate WB; exact N2). clear N2.
    pose proof (block_noig _ _ _ _ WB) as NB. nig.
    cbn [seqm] in GE. destruct (gen_elif C l (NSenaoSe ln y1 y2) s1) as [t|] eqn:GY; [|discriminate GE].
    cbn [gen_elif] in GY. destruct (new_label s1) as [sa la] eqn:NLE. destruct (new_label_eq _ _ _ NLE) as (LAE & _ & LSA).
    apply pbind_ok in GY as (sb & GC & GY). apply pbind_ok in GY as (sd & GB & GY).
    assert (L1 : (List.length (g_labels sa) <= List.length (g_labels sb))%nat) by (apply (mv_llen (fun _ => False)); mvt).
    assert (L2 : (List.length (g_labels sb) <= List.length (g_labels sd))%nat) by (apply (mv_llen (fun _ => False)); mvt).
    assert (ME : forall K, mv K t s2) by (intros; eapply mv_elifs; eassumption).
    assert (LAB : nth_error (g_labels F) (N.to_nat la) = Some (g_ip (append_op sd JUMP [l]))).
    { eapply (lab_final F Lf _ la t s2); [exact GY|cbn; lia|apply ME|exact FI|lia]. }
    change (run_elifs EV kont (NSenaoSe ln y1 y2 :: els) c) with
      (bindv (EV y1 c) (fun v c => match v with VBool true => run_block EV y2 c | VBool false => run_elifs EV kont els c | _ => Stuck end)).
    assert (CT : same_ctx s1 sd) by ctxt.
    eapply (v_bind _ _ lp g scs sa sb); [exact N1|exact WC|sct|exact GC|ipt|fint|rewrite (new_label_ip _ _ _ NLE); exact H|].
    intros v c' s' H'. destruct v; try exact Logic.I.
    eapply sim_reach; [eapply r_jump_if with (s1 := sb) (l := la); [exact HM|fina|ipt|exact LAB|exact H']|]. cbn beta. intros s'' H''.
    destruct b.
    + assert (CT2 : same_ctx s1 (append_op sb JUMP_IF_FALSE [la])) by ctxt. rewrite <- (sc_brk _ _ CT2), <- (sc_cont _ _ CT2).
      eapply sim_norm; [eapply (block_sim y2 KB lp g scs (append_op sb JUMP_IF_FALSE [la]) sd); [exact WB|sct|exact GB|ipt|fint|exact H'']| |].
      * intros X. specialize (CL X). cbn in CL. spl. assumption.
      * intros j c2 s3 H3. eapply r_jump with (s1 := sd) (l := l); [exact HM|fina|ipt|exact LA|exact H3].
    + assert (CT2 : same_ctx s1 t) by ctxt. rewrite <- (sc_brk _ _ CT2), <- (sc_cont _ _ CT2).
      eapply (IH lp g scs t s2); [exact W2|sct|exact GE|ipt|fint|rewrite (patch_ip _ _ _ GY); exact H''| |].
      * intros X. specialize (CL X). cbn in CL. spl. assumption.
      * rewrite (sc_brk _ _ CT2), (sc_cont _ _ CT2). exact K.
Qed.

(** ** Expressions *)
Ltac start ln := intros lp g scs s1 s2 st c s W SC GE I FI H; cbn [gen node_line] in GE;
  match type of H with SimFrame.here _ _ _ _ _ _ _ ?g (g_ip ?s1) ?st ?c ?s => change (here g (g_ip (set_line s1 ln)) st c s) in H end.
Ltac expr := apply v_node; [reflexivity|].
Ltac pb t := match goal with H : pbind _ _ = PyOk _ |- _ => let K := fresh "G" in apply pbind_ok in H as (t & K & H) end.

Lemma n_const ln kd lex pr : NS (NConst ln kd lex pr).
Proof.
  start ln. expr. pb t. cbn [wf] in W.
  change (EV (NConst ln kd lex pr) c) with (promote pr (match lit_value kd lex with Some v => Done (OVal v) c | None => Stuck end)).
  eapply s_promote; [exact HM|exact GE|exact FI|ipt|].
  destruct (lit_value kd lex) as [v|] eqn:LV; [|exact Logic.I].
  eapply sim_reach; [eapply r_const with (v := v); [exact HM|exact G|fina|ipt| |exact H]|].
  - intros v' CO. change (const_from_str lex = Some v') in CO.
    assert (D : kd = KPart \/ const_from_str lex = Some v) by (destruct kd; try (left; reflexivity); right; eapply lit_const; try exact LV; discriminate).
    destruct D as [-> | D]; [|congruence].
    cbn in LV. injection LV as <-. rewrite CO in W. destruct v'; try discriminate W. apply text_eqb_eq in W. congruence.
  - cbn beta. intros s' H'. apply sim_done. exact H'.
Qed.
Lemma n_var ln name o pr : NS (NVar ln name o pr).
Proof.
  start ln. expr. apply need_ok in GE as (y & EF & GE). pb t. cbn [wf] in W.
  assert (EF' : eff scs o name = Some y) by (rewrite <- SC; exact EF). rewrite EF' in W.
  change (EV (NVar ln name o pr) c) with (promote pr (read_var S c (q_m A) name)).
  eapply s_promote; [exact HM|exact GE|exact FI|ipt|]. unfold read_var.
  destruct (var_value S c (q_m A) name) as [v|] eqn:VV; [|exact Logic.I].
  eapply sim_reach; [eapply r_var with (v := v); [exact HF|exact HM|exact HS|exact HN|exact G|fina|ipt|exact W|exact VV|exact H]|].
  cbn beta. intros s' H'. apply sim_done. exact H'.
Qed.
Lemma n_alvo ln y : NS (NAlvo ln y).
Proof.
  start ln. expr. cbn [wf] in W. change (EV (NAlvo ln y) c) with (read_var S c (q_m A) (sy_name y)). unfold read_var.
  destruct (var_value S c (q_m A) (sy_name y)) as [v|] eqn:VV; [|exact Logic.I].
  eapply sim_reach; [eapply r_var with (v := v); [exact HF|exact HM|exact HS|exact HN|exact GE|fina|ipt|exact W|exact VV|exact H]|].
  cbn beta. intros s' H'. apply sim_done. exact H'.
Qed.
(** The number of a variant, loaded. *)
Lemma r_tag g s1 s2 vid tag t n st c s : variant_tag s1 vid = PyOk tag -> load_const s1 (CInt (Z.of_N tag)) = PyOk s2 -> fin n s2 -> ipok s1 ->
  se_tag S (q_m A) vid = Some t -> here g (g_ip s1) st c s ->
  (Z.of_N t < 2 ^ 64)%Z /\ reach s (here g (g_ip s2) (st ++ [VInt (Z.of_N t)]) c).
Proof.
  intros VT LC FI I TG H. unfold variant_tag in VT. destruct (index_of text_eqb (g_variants s1) vid) as [i|] eqn:IX; [|discriminate VT].
  apply pyok_inj in VT. subst tag.
  assert (IF : index_of text_eqb (g_variants F) vid = Some i).
  { pose proof (mv_load_const (fun _ => False) _ _ _ LC) as M. destruct (mv_vars _ _ _ M) as [e1 E1]. destruct (fi_vars _ _ _ _ FI) as [e2 E2].
    rewrite E2, E1. apply index_of_prefix, index_of_prefix, IX. }
  rewrite (mo_tag _ _ _ _ _ _ _ HM _ _ _ IF TG) in *. split.
  - unfold load_const in LC. apply pbind_ok in LC as ((s' & j) & CI & LC). apply pyok_inj in LC. cbn [fst snd] in LC. subst s2.
    apply (mo_cz _ _ _ _ _ _ _ HM). apply const_nth in CI. destruct (fi_consts _ _ _ _ FI) as [e E1]. cbn in E1. rewrite E1. apply in_app_iff. left.
    eapply nth_error_In, CI.
  - eapply r_const; [exact HM|exact LC|exact FI|exact I| |exact H]. intros v' CO. exact CO.
Qed.
Lemma n_path ln vid cb : NS (NPath ln vid cb).
Proof.
  start ln. expr. pb tag. pb t. apply pyok_inj in GE. subst s2.
  change (EV (NPath ln vid cb) c) with (match se_tag S (q_m A) vid with Some t => if cb then Stuck else Done (OVal (VVariant t None)) c | None => Stuck end).
  destruct (se_tag S (q_m A) vid) as [tg|] eqn:TG; [|exact Logic.I]. destruct cb; [exact Logic.I|].
  destruct (r_tag g (set_line s1 ln) t vid tag tg (Nat.max (List.length (g_labels s1)) (List.length (g_labels t))) st c s G G0) as [LT R]; [fina|ipt|exact TG|exact H|].
  eapply sim_reach; [exact R|]. cbn beta. intros s' H'.
  eapply sim_reach; [eapply r_op0 with (s1 := t) (st' := st ++ [VVariant tg None]); [exact HM|fina|ipt|reflexivity|exists 0%N; reflexivity|exact H'|]|].
  - intros l G' s3 _ H3. destruct (ex_build_variant E P A vm (mo_get _ _ _ _ _ _ _ HM) _ (l ++ st) _ _ [] tg s3 ltac:(ateq H3) LT) as (s4 & X & Y).
    exists s4. split; [exact X|]. ateq Y.
  - cbn beta. intros s4 H4. apply sim_done. exact H4.
Qed.
Lemma lift_ok kk w r r' c s Q : (r <> RPanic -> r' = r) -> sim kk (lift w r' c) s Q -> sim kk (lift w r c) s Q.
Proof. intros E1 H. destruct r as [v|e|]; [| |exact Logic.I]; (rewrite <- E1 by discriminate; exact H). Qed.
Lemma n_un ln op e pr : NS e -> NS (NUn ln op e pr).
Proof.
  intros N. start ln. expr. pb t. cbn [wf] in W. nig.
  change (EV (NUn ln op e pr) c) with (promote pr (bindv (EV e c) (fun v c => lift (k_w c) (sem_unop op v) c))).
  destruct op; try discriminate GE.
  - eapply s_promote with (s1 := append_op t OP_INVERT []); [exact HM|exact GE|exact FI|ipt|].
    eapply (v_bind e _ lp g scs (set_line s1 ln) t); [exact N|exact W|sct|exact G|ipt|fint|exact H|]. intros v c' s' H'.
    eapply lift_ok; [apply unop_sem_minus|]. eapply s_val; [exact HM|fina|ipt|reflexivity|reflexivity|exact H'|].
    intros l G' s3 H3. apply ex_invert with (vm := vm); [apply HM|exact H3].
  - eapply s_promote with (s1 := append_op t OP_NOT []); [exact HM|exact GE|exact FI|ipt|].
    eapply (v_bind e _ lp g scs (set_line s1 ln) t); [exact N|exact W|sct|exact G|ipt|fint|exact H|]. intros v c' s' H'.
    eapply lift_ok; [apply unop_sem_not|]. eapply s_val; [exact HM|fina|ipt|reflexivity|reflexivity|exact H'|].
    intros l G' s3 H3. apply ex_not with (vm := vm); [apply HM|exact H3].
Qed.

Lemma promote_bool kk pr r s (Q : out -> cfg -> state -> Prop) : sim kk r s (fun o c s => Q o c s /\ exists b, o = OVal (VBool b)) -> sim kk (promote pr r) s Q.
Proof.
  intros H. destruct pr.
  - eapply sim_bindv; [exact H|]. intros v c s' (_ & b & E1). injection E1 as ->. exact Logic.I.
  - eapply sim_post; [|exact H]. intros o c s' (X & _). exact X.
Qed.
Lemma r_not g s1 n st b c s : fin n (append_op s1 OP_NOT []) -> ipok s1 -> here g (g_ip s1) (st ++ [VBool b]) c s ->
  reach s (here g (g_ip (append_op s1 OP_NOT [])) (st ++ [VBool (negb b)]) c).
Proof.
  intros FI I H. eapply r_op0; [exact HM|exact FI|exact I|reflexivity|reflexivity|exact H|]. intros l G s' _ H'. rewrite app_assoc in H'.
  destruct (ex_not E P A vm (mo_get _ _ _ _ _ _ _ HM) _ _ _ _ _ _ H') as (s'' & X & Y). eexists. split; [exact X|]. rewrite app_assoc. apply push_at, Y.
Qed.
Lemma r_isnull g s1 n st v c s : fin n (append_op s1 OP_ISNULL []) -> ipok s1 -> here g (g_ip s1) (st ++ [v]) c s ->
  reach s (here g (g_ip (append_op s1 OP_ISNULL [])) (st ++ [VBool (is_none v)]) c).
Proof.
  intros FI I H. eapply r_op0; [exact HM|exact FI|exact I|reflexivity|reflexivity|exact H|]. intros l G s' _ H'. rewrite app_assoc in H'.
  destruct (ex_isnull E P A vm (mo_get _ _ _ _ _ _ _ HM) _ _ _ _ _ _ H') as (s'' & X & Y). exists s''. split; [exact X|]. rewrite app_assoc. exact Y.
Qed.
Lemma nulo_value x c : is_nulo x = true -> EV x c = Done (OVal VNone) c.
Proof.
  intros H. destruct x; try discriminate H. cbn [is_nulo] in H. repeat match type of H with match ?z with _ => _ end = true => destruct z; try discriminate H | (if ?z then _ else _) = true => destruct z; try discriminate H end.
  apply text_eqb_eq in H. subst. reflexivity.
Qed.
(** Comparison with [nulo]. *)
Lemma nul_eq x (ng : bool) lp g scs s1 s2 t st c s pr (f : value -> cfg -> res) :
  NS x -> WF lp g scs x = true -> g_scopes s1 = scs -> gen C x s1 = PyOk t ->
  s2 = (if ng then append_op (append_op t OP_ISNULL []) OP_NOT [] else append_op t OP_ISNULL []) ->
  ipok s1 -> fin (List.length (g_labels s1)) s2 -> here g (g_ip s1) st c s ->
  (forall v c, f v c = Done (OVal (VBool (xorb ng (is_none v)))) c) ->
  sim (Datatypes.S k) (promote pr (bindv (EV x c) f)) s (vq g (g_ip s2) st).
Proof.
  intros N W SC GE E2 I FI H K. nig. apply promote_bool.
  assert (MT : forall K, mv K t s2) by (intros; subst s2; destruct ng; mvt).
  eapply (v_bind x _ lp g scs s1 t); [exact N|exact W|exact SC|exact GE|exact I|fint|exact H|]. intros v c' s' H'. rewrite K.
  assert (M1 : forall K, mv K (append_op t OP_ISNULL []) s2) by (intros; subst s2; destruct ng; mvt).
  eapply sim_reach; [eapply r_isnull with (s1 := t); [fina|ipt|exact H']|]. cbn beta. intros s3 H3. destruct ng.
  - subst s2. eapply sim_reach; [eapply r_not with (s1 := append_op t OP_ISNULL []); [fina|ipt|exact H3]|]. cbn beta. intros s4 H4.
    apply sim_done. split; [|eauto]. cbn [vq]. rewrite xorb_true_l. exact H4.
  - subst s2. apply sim_done. split; [|eauto]. cbn [vq]. rewrite xorb_false_l. exact H3.
Qed.
Lemma n_bin ln op nl nr l r pr : NS l -> NS r -> NS (NBin ln op nl nr l r pr).
Proof.
  intros N1 N2. start ln. expr. cbn [wf] in W. apply andb_prop in W as [W WN]. apply andb_prop in W as [W1 W2]. nig.
  change (EV (NBin ln op nl nr l r pr) c) with (promote pr (bindv (EV l c) (fun a c => bindv (EV r c) (fun b c =>
        if (nl || nr) && is_equality op then
          Done (OVal (VBool (xorb (match op with BNe => true | _ => false end) (is_none a && is_none b)))) c
        else lift (k_w c) (sem_binop op a b) c)))).
  destruct ((nl || nr) && is_equality op)%bool eqn:EQ.
  - apply andb_prop in EQ as [NN EQ]. destruct nl.
    + rewrite (nulo_value _ _ WN). cbn [bindv bind].
      assert (GE' : exists t, gen C r (set_line s1 ln) = PyOk t /\
        s2 = (if match op with BNe => true | _ => false end then append_op (append_op t OP_ISNULL []) OP_NOT [] else append_op t OP_ISNULL [])).
      { destruct op; try discriminate EQ; pb t; apply pyok_inj in GE; subst; eauto. }
      destruct GE' as (t & GR & E2). eapply (nul_eq r _ lp g scs (set_line s1 ln) s2 t); [exact N2|exact W2|sct|exact GR|exact E2|ipt|exact FI|exact H|].
      intros v c'. reflexivity.
    + cbn [orb] in NN. subst nr.
      assert (GE' : exists t, gen C l (set_line s1 ln) = PyOk t /\
        s2 = (if match op with BNe => true | _ => false end then append_op (append_op t OP_ISNULL []) OP_NOT [] else append_op t OP_ISNULL [])).
      { destruct op; try discriminate EQ; pb t; apply pyok_inj in GE; subst; eauto. }
      destruct GE' as (t & GR & E2). eapply (nul_eq l _ lp g scs (set_line s1 ln) s2 t); [exact N1|exact W1|sct|exact GR|exact E2|ipt|exact FI|exact H|].
      intros v c'. rewrite (nulo_value _ _ WN). cbn [bindv bind]. cbn [is_none]. rewrite andb_true_r. reflexivity.
  - assert (GE' : exists t u, gen C l (set_line s1 ln) = PyOk t /\ gen C r t = PyOk u /\ auto_cast C (append_op u (binop_code op) []) pr = PyOk s2).
    { destruct op, nl, nr; try discriminate EQ; pb t; pb u; eauto. }
    clear GE. destruct GE' as (t & u & G1 & G2 & G3).
    eapply s_promote with (s1 := append_op u (binop_code op) []); [exact HM|exact G3|exact FI|ipt|].
    eapply (v_bind l _ lp g scs (set_line s1 ln) t); [exact N1|exact W1|sct|exact G1|ipt|fint|exact H|]. intros a c' s' H'.
    eapply (v_bind r _ lp g scs t u); [exact N2|exact W2|sct|exact G2|ipt|fint|exact H'|]. intros b c2 s3 H3.
    eapply lift_ok; [apply binop_sem|]. rewrite <- app_assoc in H3.
    eapply s_val; [exact HM|fina|ipt|destruct op; reflexivity|destruct op; reflexivity|exact H3|].
    intros ll G' s4 H4. apply ex_binop with (vm := vm); [apply HM|exact H4].
Qed.
Lemma n_conv ln e co : NS e -> NS (NConv ln e co).
Proof.
  intros N. start ln. expr. cbn [wf] in W. apply andb_prop in W as [W WC]. nig. pb t. destruct co as [[ty ck]|].
  - pb u. apply pyok_inj in GE. subst s2. apply text_eqb_eq in WC.
    change (EV (NConv ln e (Some (ty, ck))) c) with (bindv (EV e c) (fun v c =>
      match type_named (sy_name ty) with
      | None => Stuck
      | Some ty =>
          if ck then
            match get_type v with
            | Some vt => if vty_eqb vt ty then Done (OVal v) c else Fail (ECheckCast vt ty) (k_w c)
            | None => Stuck
            end
          else lift (k_w c) (vcast E (w_heap (k_w c)) v ty) c
      end)).
    eapply (v_bind e _ lp g scs (set_line s1 ln) t); [exact N|exact W|sct|exact G|ipt|fint|exact H|]. intros v c' s' H'.
    destruct (type_named (sy_name ty)) as [vt|] eqn:TN; [|exact Logic.I].
    eapply sim_reach; [eapply r_type; [exact HM|exact G0|fina|ipt|exact WC|exact TN|exact H']|]. cbn beta. intros s3 H3. rewrite <- app_assoc in H3.
    assert (X := fun l G' s4 (H4 : at_ A _ (l ++ [v; VType vt]) (k_w c') G' s4) => ex_cast E P A vm (mo_get _ _ _ _ _ _ _ HM) (g_ip u + op_size CAST) l _ _ v vt ck s4 H4).
    destruct ck.
    + destruct (get_type v) as [vt'|]; [|exact Logic.I]. destruct (vty_eqb vt' vt) eqn:VE.
      * eapply sim_reach; [eapply r_op0 with (st' := st ++ [v]); [exact HM|fina|ipt|reflexivity|exists 1%N; reflexivity|exact H3|]|].
        -- intros l G' s4 _ H4. destruct (X (l ++ st) G' s4 ltac:(ateq H4)) as (s5 & X1 & X2). cbn [xopt] in X1. rewrite VE in X1.
           eexists. split; [exact X1|]. apply (push_at _ _ _ _ _ _ v) in X2. ateq X2.
        -- cbn beta. intros s4 H4. apply sim_done. exact H4.
      * eapply s_fail; [exact HM|fina|ipt|reflexivity|exists 1%N; reflexivity|exact H3|].
        intros l G' s4 H4. destruct (X (l ++ st) G' s4 ltac:(ateq H4)) as (s5 & X1 & X2). cbn [xopt] in X1. rewrite VE in X1.
        exists s5. split; [exact X1|apply X2].
    + eapply s_val; [exact HM|fina|ipt|reflexivity|exists 0%N; reflexivity|exact H3|]. intros l G' s4 H4. exact (X l G' s4 H4).
  - apply pyok_inj in GE. subst t. change (EV (NConv ln e None) c) with (bindv (EV e c) (fun v c => Done (OVal v) c)).
    eapply (v_bind e _ lp g scs (set_line s1 ln) s2); [exact N|exact W|sct|exact G|ipt|fint|exact H|]. intros v c' s' H'.
    apply sim_done. exact H'.
Qed.

Lemma n_index ln t i : NS t -> NS i -> NS (NIndex ln t i).
Proof.
  intros N1 N2. start ln. expr. cbn [wf] in W. spl. nig. pb t1. pb t2. apply pyok_inj in GE. subst s2.
  change (EV (NIndex ln t i) c) with (bindv (EV t c) (fun tv c => bindv (EV i c) (fun iv c => lift (k_w c) (index_get E (w_heap (k_w c)) tv iv) c))).
  eapply (v_bind t _ lp g scs (set_line s1 ln) t1); [exact N1|eassumption|sct|exact G|ipt|fint|exact H|]. intros a c' s' Q'.
  eapply (v_bind i _ lp g scs t1 t2); [exact N2|eassumption|sct|exact G0|ipt|fint|exact Q'|]. intros b c2 s3 Q3.
  rewrite <- app_assoc in Q3. eapply s_val; [exact HM|fina|ipt|reflexivity|reflexivity|exact Q3|].
  intros ll G' s4 Q4. apply ex_index_get with (vm := vm); [apply HM|exact Q4].
Qed.
Lemma n_fmt ln ps : Forall NS ps -> NS (NFmt ln ps).
Proof.
  intros N. start ln. expr. cbn [wf] in W. nig. pb t. apply pyok_inj in GE. subst s2.
  change (EV (NFmt ln ps) c) with (run_args EV ps c (fun vs c =>
      match show_all E (w_heap (k_w c)) vs with Some t => Done (OVal (VStr t)) c | None => Stuck end)).
  eapply (args_sim ps N lp g scs (set_line s1 ln) t); [exact W|sct|exact G|ipt|fint|exact H|]. intros vs c' s' LV Q'.
  unfold show_all. destruct (opt_map (show E (w_heap (k_w c'))) vs) as [ts|] eqn:OM; [|exact Logic.I]. cbn [option_map].
  eapply sim_reach; [eapply r_op0 with (s1 := t) (o := BUILD_STR) (args := [N.of_nat (List.length ps)]) (st' := st ++ [VStr (List.concat ts)]); [exact HM|fina|ipt|reflexivity|eexists; reflexivity|exact Q'|]|].
  - intros l G' s4 _ Q4. rewrite <- LV. rewrite app_assoc in Q4. destruct (ex_build_str E P A vm (mo_get _ _ _ _ _ _ _ HM) _ _ _ _ _ _ _ Q4 OM) as (s5 & X & Y).
    exists s5. split; [exact X|]. ateq Y.
  - cbn beta. intros s4 Q4. apply sim_done. exact Q4.
Qed.
Lemma n_list ln ps : Forall NS ps -> NS (NList ln ps).
Proof.
  intros N. start ln. expr. cbn [wf] in W. nig. pb t. apply pyok_inj in GE. subst s2.
  change (EV (NList ln ps) c) with (run_args EV ps c (fun vs c =>
      let (w, l) := halloc (k_w c) (CVec vs) in Done (OVal (VVec l)) (set_w c w))).
  eapply (args_sim ps N lp g scs (set_line s1 ln) t); [exact W|sct|exact G|ipt|fint|exact H|]. intros vs c' s' LV Q'.
  destruct (halloc (k_w c') (CVec vs)) as [w' lc] eqn:HA.
  eapply sim_reach; [eapply r_op with (s1 := t) (o := BUILD_VEC) (args := [N.of_nat (List.length ps)]) (st' := st ++ [VVec lc]) (w' := w'); [exact HM|fina|ipt|reflexivity|eexists; reflexivity|exact Q'|]|].
  - intros l G' s4 _ Q4. rewrite <- LV. rewrite app_assoc in Q4. destruct (ex_build_vec E P A vm (mo_get _ _ _ _ _ _ _ HM) _ _ _ _ _ _ Q4) as (s5 & X & Y).
    rewrite HA in Y. exists s5. split; [exact X|]. ateq Y.
  - cbn beta. intros s4 Q4. apply sim_done. exact Q4.
Qed.
Lemma n_get ln t f : NS t -> NS (NGet ln t f).
Proof.
  intros N. start ln. expr. cbn [wf] in W. nig. pb t1. pb t2. apply pyok_inj in GE. subst s2.
  change (EV (NGet ln t f) c) with (bindv (EV t c) (fun tv c => lift (k_w c) (prop_get (w_heap (k_w c)) tv (VStr f)) c)).
  eapply (v_bind t _ lp g scs (set_line s1 ln) t1); [exact N|eassumption|sct|exact G|ipt|fint|exact H|]. intros a c' s' Q'.
  eapply sim_reach; [eapply r_name; [exact HM|exact G0|fina|ipt|exact Q']|]. cbn beta. intros s3 Q3.
  rewrite <- app_assoc in Q3. eapply s_val; [exact HM|fina|ipt|reflexivity|reflexivity|exact Q3|].
  intros ll G' s4 Q4. apply ex_get_prop with (vm := vm); [apply HM|exact Q4].
Qed.
Lemma n_unwrap ln o d : NS o -> optP NS d -> NS (NUnwrap ln o d).
Proof.
  intros N1 N2. start ln. expr. cbn [wf] in W. spl. nig. pb t1. destruct d as [d|].
  - cbn [optP] in N2. nig. pb t2. apply pyok_inj in GE. subst s2.
    change (EV (NUnwrap ln o (Some d)) c) with (bindv (EV o c) (fun v c => bindv (EV d c) (fun dv c => Done (OVal (if is_none v then dv else v)) c))).
    eapply (v_bind o _ lp g scs (set_line s1 ln) t1); [exact N1|eassumption|sct|exact G|ipt|fint|exact H|]. intros a c' s' Q'.
    eapply (v_bind d _ lp g scs t1 t2); [exact N2|eassumption|sct|exact G0|ipt|fint|exact Q'|]. intros b c2 s3 Q3. rewrite <- app_assoc in Q3.
    eapply sim_reach; [eapply r_op0 with (s1 := t2) (st' := st ++ [if is_none a then b else a]); [exact HM|fina|ipt|reflexivity|exists 1%N; reflexivity|exact Q3|]|].
    + intros l G' s4 _ Q4. rewrite app_assoc in Q4. destruct (ex_unwrap1 E P A vm (mo_get _ _ _ _ _ _ _ HM) _ _ _ _ _ _ _ Q4) as (s5 & X & Y).
      exists s5. split; [exact X|]. ateq Y.
    + cbn beta. intros s4 Q4. apply sim_done. exact Q4.
  - apply pyok_inj in GE. subst s2.
    change (EV (NUnwrap ln o None) c) with (bindv (EV o c) (fun v c => if is_none v then Fail ENull (k_w c) else Done (OVal v) c)).
    eapply (v_bind o _ lp g scs (set_line s1 ln) t1); [exact N1|eassumption|sct|exact G|ipt|fint|exact H|]. intros a c' s' Q'.
    destruct (is_none a) eqn:NA.
    + eapply s_fail; [exact HM|fina|ipt|reflexivity|exists 0%N; reflexivity|exact Q'|].
      intros l G' s4 Q4. rewrite app_assoc in Q4. destruct (ex_unwrap0 E P A vm (mo_get _ _ _ _ _ _ _ HM) _ _ _ _ _ _ Q4) as (s5 & X & Y).
      rewrite NA in X. exists s5. split; [exact X|apply Y].
    + eapply sim_reach; [eapply r_op0 with (s1 := t1) (st' := st ++ [a]); [exact HM|fina|ipt|reflexivity|exists 0%N; reflexivity|exact Q'|]|].
      * intros l G' s4 _ Q4. rewrite app_assoc in Q4. destruct (ex_unwrap0 E P A vm (mo_get _ _ _ _ _ _ _ HM) _ _ _ _ _ _ Q4) as (s5 & X & Y).
        rewrite NA in X. eexists. split; [exact X|]. apply (push_at _ _ _ _ _ _ a) in Y. ateq Y.
      * cbn beta. intros s4 Q4. apply sim_done. exact Q4.
Qed.

(** ** Simple statements *)
Lemma norm_post g gn cl lp brk cont ip st c s : here gn ip st c s -> npost g gn cl false lp brk cont ip st ONorm c s.
Proof. intros H. exists []. split; [reflexivity|]. rewrite app_nil_r. exact H. Qed.
Ltac endn := apply sim_done, norm_post.
Lemma n_index_set ln t i v : NS t -> NS i -> NS v -> NS (NIndexSet ln t i v).
Proof.
  intros N1 N2 N3. start ln. cbn [wf] in W. spl. nig. pb t1. pb t2. pb t3. apply pyok_inj in GE. subst s2.
  change (EV (NIndexSet ln t i v) c) with (bindv (EV t c) (fun tv c => bindv (EV i c) (fun iv c => bindv (EV v c) (fun v c =>
      match index_set (w_heap (k_w c)) tv iv v with
      | ROk h => Done ONorm (set_w c (set_heap (k_w c) h))
      | RErr e => Fail e (k_w c)
      | RPanic => Stuck
      end)))).
  eapply (v_bind t _ lp g scs (set_line s1 ln) t1); [exact N1|eassumption|sct|exact G|ipt|fint|exact H|]. intros tv c' s' Q'.
  eapply (v_bind i _ lp g scs t1 t2); [exact N2|eassumption|sct|exact G0|ipt|fint|exact Q'|]. intros iv c2 s3 Q3.
  eapply (v_bind v _ lp g scs t2 t3); [exact N3|eassumption|sct|exact G1|ipt|fint|exact Q3|]. intros vv c3 s4 Q4. rewrite <- !app_assoc in Q4.
  assert (X := fun l G' s4 (Q4 : at_ A _ (l ++ [tv; iv; vv]) (k_w c3) G' s4) => ex_index_set E P A vm (mo_get _ _ _ _ _ _ _ HM) (g_ip t3 + op_size OP_INDEX_SET) l _ _ tv iv vv s4 Q4).
  destruct (index_set (w_heap (k_w c3)) tv iv vv) as [h|e|]; [| |exact Logic.I].
  - eapply sim_reach; [eapply r_op with (s1 := t3) (st' := st) (w' := set_heap (k_w c3) h); [exact HM|fina|ipt|reflexivity|reflexivity|exact Q4|]|].
    + intros l G' s5 _ Q5. destruct (X (l ++ st) G' s5 ltac:(ateq Q5)) as (s6 & X1 & X2). eexists. split; [exact X1|]. eapply world_at, X2.
    + cbn beta. intros s5 Q5. endn. exact Q5.
  - eapply s_fail; [exact HM|fina|ipt|reflexivity|reflexivity|exact Q4|]. intros l G' s5 Q5.
    destruct (X (l ++ st) G' s5 ltac:(ateq Q5)) as (s6 & X1 & X2). exists s6. split; [exact X1|apply X2].
Qed.
Lemma n_set ln gln t f v : NS t -> NS v -> NS (NSet ln gln t f v).
Proof.
  intros N1 N3. start ln. cbn [wf] in W. spl. nig. pb t1. pb t2. pb t3. apply pyok_inj in GE. subst s2.
  change (EV (NSet ln gln t f v) c) with (bindv (EV t c) (fun tv c => bindv (EV v c) (fun v c =>
      match prop_set (w_heap (k_w c)) tv (VStr f) v with
      | ROk h => Done ONorm (set_w c (set_heap (k_w c) h))
      | RErr e => Fail e (k_w c)
      | RPanic => Stuck
      end))).
  eapply (v_bind t _ lp g scs (set_line (set_line s1 ln) gln) t1); [exact N1|eassumption|sct|exact G|ipt|fint|exact H|]. intros tv c' s' Q'.
  eapply sim_reach; [eapply r_name; [exact HM|exact G0|fina|ipt|exact Q']|]. cbn beta. intros s3 Q3.
  eapply (v_bind v _ lp g scs t2 t3); [exact N3|eassumption|sct|exact G1|ipt|fint|exact Q3|]. intros vv c3 s4 Q4. rewrite <- !app_assoc in Q4.
  assert (X := fun l G' s4 (Q4 : at_ A _ (l ++ [tv; VStr f; vv]) (k_w c3) G' s4) => ex_set_prop E P A vm (mo_get _ _ _ _ _ _ _ HM) (g_ip t3 + op_size SET_PROP) l _ _ tv (VStr f) vv s4 Q4).
  destruct (prop_set (w_heap (k_w c3)) tv (VStr f) vv) as [h|e|]; [| |exact Logic.I].
  - eapply sim_reach; [eapply r_op with (s1 := t3) (st' := st) (w' := set_heap (k_w c3) h); [exact HM|fina|ipt|reflexivity|reflexivity|exact Q4|]|].
    + intros l G' s5 _ Q5. destruct (X (l ++ st) G' s5 ltac:(ateq Q5)) as (s6 & X1 & X2). eexists. split; [exact X1|]. eapply world_at, X2.
    + cbn beta. intros s5 Q5. endn. exact Q5.
  - eapply s_fail; [exact HM|fina|ipt|reflexivity|reflexivity|exact Q4|]. intros l G' s5 Q5.
    destruct (X (l ++ st) G' s5 ltac:(ateq Q5)) as (s6 & X1 & X2). exists s6. split; [exact X1|apply X2].
Qed.
Lemma n_mostra ln e : NS e -> NS (NMostra ln e).
Proof.
  intros N. start ln. cbn [wf] in W. nig. pb t. apply pyok_inj in GE. subst s2.
  change (EV (NMostra ln e) c) with (bindv (EV e c) (fun v c =>
      match show E (w_heap (k_w c)) v with
      | Some t => Done ONorm (set_w c (emit (k_w c) (t ++ [10%N])))
      | None => Stuck
      end)).
  eapply (v_bind e _ lp g scs (set_line s1 ln) t); [exact N|eassumption|sct|exact G|ipt|fint|exact H|]. intros v c' s' Q'.
  destruct (show E (w_heap (k_w c')) v) as [tx|] eqn:SH; [|exact Logic.I].
  eapply sim_reach; [eapply r_op with (s1 := t) (st' := st); [exact HM|fina|ipt|reflexivity|reflexivity|exact Q'|]|].
  - intros l G' s4 _ Q4. rewrite app_assoc in Q4. exact (ex_mostra E P A vm (mo_get _ _ _ _ _ _ _ HM) _ _ _ _ _ _ _ Q4 SH).
  - cbn beta. intros s5 Q5. endn. exact Q5.
Qed.
Lemma n_ret ln e : optP NS e -> NS (NRet ln e).
Proof.
  intros N. start ln. cbn [wf] in W. destruct e as [e|].
  - cbn [optP] in N. nig. pb t. apply pyok_inj in GE. subst s2.
    change (EV (NRet ln (Some e)) c) with (bindv (EV e c) (fun v c => Done (ORet v) c)).
    eapply (v_bind e _ lp g scs (set_line s1 ln) t); [exact N|eassumption|sct|exact G|ipt|fint|exact H|]. intros v c' s' Q'.
    apply sim_done. exists [], (g_ip t). split; [reflexivity|]. split; [|rewrite app_nil_r; exact Q'].
    eapply fetch_plain; [exact HM|fina|ipt|reflexivity|reflexivity].
  - pb t. apply pyok_inj in GE. subst s2. change (EV (NRet ln None) c) with (Done (ORet (VBool false)) c).
    eapply sim_reach; [eapply r_const with (v := VBool false); [exact HM|exact G|fina|ipt|apply falso_const|exact H]|]. cbn beta. intros s' Q'.
    apply sim_done. exists [], (g_ip t). split; [reflexivity|]. split; [|rewrite app_nil_r; exact Q'].
    eapply fetch_plain; [exact HM|fina|ipt|reflexivity|reflexivity].
Qed.
Lemma n_uniao ln n vs : NS (NUniao ln n vs).
Proof.
  start ln. pb p. destruct p as [t i]. apply pyok_inj in GE. cbn [fst] in GE. subst s2. change (EV (NUniao ln n vs) c) with (Done ONorm c). endn.
  assert (IP : forall vs t, g_ip (fold_left variant_index vs t) = g_ip t) by (clear; induction vs as [|v vs IH]; intros t; cbn [fold_left]; [reflexivity|]; rewrite IH; reflexivity).
  rewrite IP, (name_ip _ _ _ _ G). exact H.
Qed.
Lemma n_noop ln : NS (NNoOp ln).
Proof. start ln. apply pyok_inj in GE. subst s2. change (EV (NNoOp ln) c) with (Done ONorm c). endn. exact H. Qed.

(** ** Assignments *)
(** The value of the right side of an assignment. *)
Definition rhs_val (rhs : node) (c : cfg) (f : value -> cfg -> res) : res :=
  match rhs with
  | NAssign _ n2 _ _ pr2 =>
      bind (EV rhs c) (fun o c => match o with
      | ONorm => bindv (promote pr2 (read_var S c (q_m A) n2)) f
      | _ => Stuck end)
  | _ => bindv (EV rhs c) f
  end.
Lemma rhs_sim rhs x lp g scs s1 t s2 n2 st c s Q f : NS rhs -> WF lp g scs rhs = true -> chain_ok S C (q_m A) g rhs = true ->
  g_scopes s1 = scs -> gen C rhs s1 = PyOk t -> finish_assign C t x rhs = PyOk s2 -> ipok s1 ->
  fin n2 s2 -> fin (List.length (g_labels s1)) t -> here g (g_ip s1) st c s ->
  (forall u v c' s', set_variable u x = PyOk s2 -> ipok u -> here g (g_ip u) (st ++ [v]) c' s' -> sim (Datatypes.S k) (f v c') s' Q) ->
  sim (Datatypes.S k) (rhs_val rhs c f) s Q.
Proof.
  intros N W CH SC GE FA I FI2 FI H K. nig.
  assert (D : (exists ln2 m2 x2 r2 pr2, rhs = NAssign ln2 m2 x2 r2 pr2) \/ (rhs_val rhs c f = bindv (EV rhs c) f /\ set_variable t x = PyOk s2)).
  { destruct rhs; try (right; split; [reflexivity|exact FA]). left. eauto 6. }
  destruct D as [(ln2 & m2 & x2 & r2 & pr2 & ->)|[-> SV]].
  - cbn [rhs_val]. cbn [chain_ok] in CH. apply andb_prop in CH as [PR VO]. apply negb_true_iff in PR. subst pr2.
    unfold finish_assign in FA. apply pbind_ok in FA as (u & LV & SV).
    eapply sim_bind; [eapply N; [exact W|exact SC|exact GE|exact I|exact FI|exact H]|]. intros o c' s' X.
    destruct o; try exact Logic.I. destruct X as (j & J & X).
    change (decls scs g (NAssign ln2 m2 x2 r2 false)) with g in X.
    cbn [promote]. unfold read_var.
    destruct (var_value S c' (q_m A) m2) as [v|] eqn:VV; [|exact Logic.I].
    assert (I2 : ipok t) by ipt.
    eapply sim_reach; [eapply r_var with (v := v); [exact HF|exact HM|exact HS|exact HN|exact LV|fina|exact I2|exact VO|exact VV|exact X]|].
    cbn beta. intros s3 Q3. cbn [bindv bind].
    rewrite (J eq_refl), app_nil_r in Q3. apply (K u); [exact SV|ipt|exact Q3].
  - eapply (v_bind rhs _ lp g scs s1 t); [exact N|exact W|exact SC|exact GE|exact I|exact FI|exact H|]. intros v c' s' Q'.
    apply (K t); [exact SV|ipt|exact Q'].
Qed.

Lemma n_assign ln n y rhs pr : NS rhs -> NS (NAssign ln n y rhs pr).
Proof.
  intros N. start ln. cbn [wf] in W. apply andb_prop in W as [W CH]. apply andb_prop in W as [TG W]. nig. pb t.
  change (EV (NAssign ln n y rhs pr) c) with (rhs_val rhs c (fun v c => write_var c (q_m A) n v)).
  eapply (rhs_sim rhs y lp g scs (set_line s1 ln) t s2); [exact N|exact W|exact CH|sct|exact G|exact GE|ipt|exact FI|fint|exact H|].
  intros u v c' s' SV IU Q'. assert (WV : exists c2, write_var c' (q_m A) n v = Done ONorm c2) by (unfold write_var; destruct (update _ _ _); eauto).
  destruct WV as [c2 WV]. rewrite WV.
  eapply sim_reach; [eapply r_set; [exact HF|exact HM|exact HS|exact HN|exact SV|exact FI|exact IU|exact TG|exact WV|exact Q']|].
  cbn beta. intros s3 Q3. endn. exact Q3.
Qed.
Lemma n_vardecl ln n ty init : optP (fun x => kids NS x) init -> NS (NVarDecl ln n ty init).
Proof.
  intros N. start ln. cbn [wf] in W.
  assert (DC : forall c v, exists c2, declare c (q_m A) n v = Done ONorm c2) by (intros c0 v; unfold declare; destruct (k_l c0); eauto).
  destruct init as [i|].
  - destruct i as [| | | | | | | | | | | | | | | | | ln0 name target i prom | | | | | | | | | | | | | | | | | | | | ]; try discriminate GE. cbn [optP kids] in N. apply andb_prop in W as [W CH]. apply andb_prop in W as [TG W]. nig. pb t.
    change (EV (NVarDecl ln n ty (Some (NAssign ln0 name target i prom))) c) with (rhs_val i c (fun v c => declare c (q_m A) n v)).
    eapply (rhs_sim i target lp g scs (set_line s1 ln) t s2); [exact N|exact W|exact CH|sct|exact G|exact GE|ipt|exact FI|fint|exact H|].
    intros u v c' s' SV IU Q'. destruct (DC c' v) as [c2 WV]. rewrite WV.
    eapply sim_reach; [eapply r_decl; [exact HF|exact HM|exact HS|exact HN|exact SV|exact FI|exact IU|exact TG|exact WV|exact Q']|].
    cbn beta. intros s3 Q3. endn. exact Q3.
  - pb t. apply need_ok in GE as (y & RS & GE). assert (RS' : resolve scs n = Some y) by (rewrite <- RS; f_equal; symmetry; sct).
    rewrite RS' in W. change (EV (NVarDecl ln n ty None) c) with (declare c (q_m A) n (zero_value ty)).
    eapply sim_reach; [eapply r_const with (v := zero_value ty); [exact HM|exact G|fina|ipt|apply zero_const|exact H]|]. cbn beta. intros s' Q'.
    destruct (DC c (zero_value ty)) as [c2 WV]. rewrite WV.
    eapply sim_reach; [eapply r_decl with (s1 := t); [exact HF|exact HM|exact HS|exact HN|exact GE|exact FI|ipt|exact W|exact WV|exact Q']|].
    cbn beta. intros s3 Q3. endn. cbn [decls]. rewrite RS'. exact Q3.
Qed.
Lemma n_loopctl ln q : NS (NLoopCtl ln q).
Proof.
  start ln. cbn [wf] in W. subst lp. change (g_brk (set_line s1 ln)) with (g_brk s1) in GE. change (g_cont (set_line s1 ln)) with (g_cont s1) in GE.
  change (EV (NLoopCtl ln q) c) with (Done (if q then OBrk else OCont) c).
  assert (X : forall o, (exists l, o = Some l /\ s2 = append_op (set_line s1 ln) JUMP [l]) -> exists a, jump_to F o a /\ reach s (here g a st c)).
  { intros o (l & -> & ->). assert (exists a, nth_error (g_labels F) (N.to_nat l) = Some a).
    { pose proof (mo_write _ _ _ _ _ _ _ HM) as WR. destruct (fi_ops _ _ _ _ FI) as [e E1]. cbn in E1. rewrite E1, <- app_assoc in WR.
      rewrite write_ops_app in WR. apply pbind_ok in WR as (? & _ & WR). apply pbind_ok in WR as (? & WR & _). cbn [app write_ops] in WR.
      apply pbind_ok in WR as (? & WR & _). unfold write_op_bytes in WR. cbn [is_jump arg0 pbind] in WR.
      destruct (nth_error (g_labels F) (N.to_nat l)); [eauto|discriminate WR]. }
    destruct H0 as [a NA]. exists a. split; [exists l; auto|]. eapply r_jump; [exact HM|exact FI|ipt|exact NA|exact H]. }
  destruct q.
  - destruct (g_brk s1) as [l|] eqn:GB; [|discriminate GE]. apply pyok_inj in GE. destruct (X (Some l)) as (a & J & R); [eauto|].
    eapply sim_reach; [exact R|]. cbn beta. intros s' Q'. apply sim_done. split; [reflexivity|]. exists [], a. rewrite app_nil_r. auto.
  - destruct (g_cont s1) as [l|] eqn:GB; [|discriminate GE]. apply pyok_inj in GE. destruct (X (Some l)) as (a & J & R); [eauto|].
    eapply sim_reach; [exact R|]. cbn beta. intros s' Q'. apply sim_done. split; [reflexivity|]. exists [], a. rewrite app_nil_r. auto.
Qed.
Lemma n_registo ln n fs : NS (NRegisto ln n fs).
Proof.
  start ln. cbn [wf] in W. pb p. destruct p as [t i]. cbn [fst] in GE. apply need_ok in GE as (y & RS & GE).
  cbn [append_op set_code add_reg g_scopes] in RS.
  assert (RS' : resolve scs n = Some y) by (rewrite <- RS; f_equal; symmetry; sct). rewrite RS' in W.
  change (EV (NRegisto ln n fs) c) with (Done ONorm (set_global c (q_m A) n (VRegisto n fs))).
  set (rg := N.of_nat (List.length (g_regs (add_reg t (n, fs))) - 1)) in *. set (u := append_op (add_reg t (n, fs)) LOAD_REGISTO [rg]) in *.
  assert (MU : forall K, mv K (set_line s1 ln) u) by (intros; unfold u; mvt).
  rewrite <- (name_ip _ _ _ _ G) in H. change (here g (g_ip (add_reg t (n, fs))) st c s) in H.
  eapply sim_reach; [eapply r_op0 with (s1 := add_reg t (n, fs)) (st' := st ++ [VRegisto n fs]); [exact HM|fold u; fina| |reflexivity|exists rg; reflexivity|exact H|]|].
  - clear MU. ipt.
  - intros l G' s4 _ Q4. assert (NR : nth_error (m_regs vm) (N.to_nat rg) = Some (n, fs)).
    { rewrite (mo_rg _ _ _ _ _ _ _ HM). assert (FU : fin (Nat.max (List.length (g_labels s1)) (List.length (g_labels u))) u) by fina.
      eapply prefix_nth; [apply FU|]. unfold u, rg. cbn. rewrite Nat2N.id, app_length. cbn. rewrite nth_error_app2 by lia.
      replace (_ - _ - _)%nat with O by lia. reflexivity. }
    destruct (ex_registo E P A vm (mo_get _ _ _ _ _ _ _ HM) _ _ _ _ _ _ _ Q4 NR) as (s5 & X & Y). exists s5. split; [exact X|]. cbn [fst snd] in Y. ateq Y.
  - cbn beta. intros s5 Q5. eapply sim_reach; [eapply r_set_glob with (s1 := u); [exact HF|exact HM|exact GE|exact FI|ipt|exact W|exact Q5]|].
    cbn beta. intros s6 Q6. endn. exact Q6.
Qed.

(** ** Calls *)
Lemma n_variant ln callee args pr : Forall NS args -> NS (NCall ln CVariant callee args pr).
Proof.
  intros N. start ln. expr. cbn [wf] in W.
  assert (D : exists l2 vid, callee = NPath l2 vid true) by (destruct callee; try discriminate W; destruct callable; try discriminate W; eauto).
  destruct D as (l2 & vid & ->). nig. pb t1. pb t2. apply pyok_inj in GE. subst s2.
  change (EV (NCall ln CVariant (NPath l2 vid true) args pr) c) with
    (match se_tag S (q_m A) vid with
          | Some t =>
              run_args EV args c (fun vs c =>
                Done (OVal (VVariant t (match vs with [] => None | _ => Some vs end))) c)
          | None => Stuck
          end).
  destruct (se_tag S (q_m A) vid) as [tg|] eqn:TG; [|exact Logic.I].
  assert (MT : forall K, mv K t1 t2) by (intros; eapply (mv_gen _ _ (NPath l2 vid true)); [reflexivity|exact G0]).
  eapply (args_sim args N lp g scs (set_line s1 ln) t1); [exact W|sct|exact G|ipt|fint|exact H|]. intros vs c' s' LV Q'.
  cbn [gen node_line] in G0. apply pbind_ok in G0 as (tag & VT & G0). apply pbind_ok in G0 as (t3 & LC & G0). apply pyok_inj in G0. subst t3.
  destruct (r_tag g (set_line t1 l2) t2 vid tag tg (Nat.max (List.length (g_labels s1)) (List.length (g_labels t2))) (st ++ vs) c' s' VT LC) as [LT R]; [fina|ipt|exact TG|exact Q'|].
  eapply sim_reach; [exact R|]. cbn beta. intros s3 Q3.
  eapply sim_reach; [eapply r_op0 with (s1 := t2) (o := BUILD_VARIANT) (args := [N.of_nat (List.length args)]) (st' := st ++ [VVariant tg (match vs with [] => None | _ => Some vs end)]); [exact HM|fina|ipt|reflexivity|eexists; reflexivity|exact Q3|]|].
  - intros l G' s4 _ Q4. rewrite <- LV. destruct (ex_build_variant E P A vm (mo_get _ _ _ _ _ _ _ HM) _ (l ++ st) _ _ vs tg s4 ltac:(ateq Q4) LT) as (s5 & X & Y).
    exists s5. split; [exact X|]. ateq Y.
  - cbn beta. intros s4 Q4. apply sim_done. exact Q4.
Qed.
(** The callee of a call: a global name. *)
Lemma r_callee g l2 n o t1 t2 scs i n' v st c s nn : gen C (NVar l2 n o false) t1 = PyOk t2 -> g_scopes t1 = scs ->
  match glook g n, eff scs o n with None, Some y => glob_ok S C (q_m A) n y | _, _ => false end = true ->
  fin nn t2 -> ipok t1 -> where_ S A n i n' ->
  (forall G, glob_rel P fof bi (k_g c) G -> assoc n' (gg G i) = Some v) -> here g (g_ip t1) st c s -> reach s (here g (g_ip t2) (st ++ [v]) c).
Proof.
  intros GE SC W FI I WH VAL H. cbn [gen node_line] in GE. apply need_ok in GE as (y & EF & GE). apply pbind_ok in GE as (t & LV & AC). apply pyok_inj in AC. subst t.
  destruct (glook g n); [discriminate W|]. assert (EF' : eff scs o n = Some y) by (rewrite <- SC; exact EF). rewrite EF' in W.
  eapply r_glob with (s1 := set_line t1 l2); [exact HM|exact LV|exact FI|exact I|exact W|exact WH|exact VAL|exact H].
Qed.
Lemma n_new ln callee args pr : Forall (kids NS) args -> NS (NCall ln CType callee args pr).
Proof.
  intros N. start ln. expr. cbn [wf] in W.
  assert (D : exists l2 n o, callee = NVar l2 n o false) by (destruct callee; try discriminate W; destruct pr0; try discriminate W; eauto).
  destruct D as (l2 & n & o & ->). apply andb_prop in W as [WG W]. change (forallb (wf_field lp g scs) args = true) in W.
  pose proof (field_noig _ _ _ _ W) as NI. pb t1. pb t2.
  assert (MT : forall K, mv K t1 t2) by (intros; eapply (mv_gen _ _ (NVar l2 n o false)); [reflexivity|exact G0]).
  change (EV (NCall ln CType (NVar l2 n o false) args pr) c) with
    (promote pr (run_fields EV args c (fun fs c =>
            match look (k_l c) n, global_value S c (q_m A) n with
            | None, Some (VRegisto rn _) =>
                let (w, l) := halloc (k_w c) (CObj rn (fields_of fs)) in Done (OVal (VObj l)) (set_w c w)
            | _, _ => Stuck
            end))).
  eapply s_promote with (s1 := append_op t2 BUILD_OBJ [N.of_nat (List.length args)]); [exact HM|exact GE|exact FI|ipt|].
  eapply (fields_sim args N lp g scs (set_line s1 ln) t1); [exact W|sct|exact G|ipt|fint|exact H|]. intros fs c' s' LV Q'.
  destruct (look (k_l c') n); [exact Logic.I|]. destruct (global_value S c' (q_m A) n) as [gv|] eqn:GV; [|exact Logic.I]. destruct gv; try exact Logic.I.
  destruct (halloc (k_w c') (CObj name (fields_of fs))) as [w' lc] eqn:HA.
  destruct (where_ex S A n) as (i & n' & WH).
  eapply sim_reach; [eapply (r_callee g l2 n o t1 t2 scs i n' (VRegisto name fields)); [exact G0|sct|exact WG|fina|ipt|exact WH| |exact Q']|].
  { intros GG GR. apply (gr_var _ _ _ _ _ GR). unfold global_value in GV. unfold where_ in WH.
    destruct (se_imp S (q_m A) n) as [[j z]|]; destruct WH as [-> ->]; exact GV. }
  cbn beta. intros s3 Q3.
  eapply sim_reach; [eapply r_op with (s1 := t2) (o := BUILD_OBJ) (args := [N.of_nat (List.length args)]) (st' := st ++ [VObj lc]) (w' := w'); [exact HM|fina|ipt|reflexivity|eexists; reflexivity|exact Q3|]|].
  - intros l G' s4 _ Q4. rewrite <- LV. destruct (ex_build_obj E P A vm (mo_get _ _ _ _ _ _ _ HM) _ (l ++ st) _ _ name fields fs s4 ltac:(ateq Q4)) as (s5 & X & Y).
    rewrite HA in Y. exists s5. split; [exact X|]. ateq Y.
  - cbn beta. intros s4 Q4. apply sim_done. exact Q4.
Qed.

(** What a function body does, started by a call. *)
Definition bpost (B : fctx) (l : list value) (o : out) (c : cfg) (s : state) : Prop :=
  exists v rest ip G, (o = ORet v \/ o = ONorm /\ v = VBool false) /\ glob_rel P fof bi (k_g c) G /\ fetch_at P (q_m B) ip RETURN [] /\
    at_ B ip ((l ++ rest) ++ [v]) (k_w c) G s /\ (q_bp B = zlen l \/ q_bp B = (-1)%Z /\ rest = []).
Definition body_ok (kk : nat) : Prop := forall mm n fd, se_fun S mm n = Some fd ->
  exists f, fof mm n = Some f /\ fn_mod f = mm /\ (List.length (fd_params fd) <= N.to_nat (fn_locals f))%nat /\
    (exists vmod, get_module P mm = Some vmod) /\
    forall bp fr l loc vs c G s, let B := mkFC mm (fn_name f) bp mm fr in
      at_ B (fn_start f) (l ++ loc) (k_w c) G s -> glob_rel P fof bi (k_g c) G ->
      k_l c = [List.combine (fd_params fd) vs] -> List.length vs = List.length (fd_params fd) -> prefix vs loc ->
      (N.to_nat (fn_locals f) <= List.length loc)%nat -> (bp = zlen l \/ bp = (-1)%Z /\ fn_locals f = 0%N /\ loc = []) ->
      sim kk (rec (Body (fd_body fd)) mm (Datatypes.S (List.length fr)) c) s (bpost B l).
Hypothesis HBody : body_ok k.

Lemma s_call g s1 mm n fd vs nn st c s f : se_fun S mm n = Some fd -> fof mm n = Some f -> (mm = None -> q_m A = None) -> q_fm A = q_m A ->
  fin nn (append_op s1 CALL_FUNCTION [N.of_nat (List.length vs)]) -> ipok s1 ->
  here g (g_ip s1) (st ++ vs ++ [VFunc f]) c s ->
  sim (Datatypes.S k) (call_user rec (Datatypes.S (List.length (q_fr A))) mm fd vs c) s (vq g (g_ip (append_op s1 CALL_FUNCTION [N.of_nat (List.length vs)])) st).
Proof.
  intros SF FO MN FM FI I (loc & G & LL & GR & ER & H).
  destruct (HBody _ _ _ SF) as (f' & FO' & FMO & LP & (vmod & GM) & HB). rewrite FO in FO'. injection FO' as <-.
  unfold call_user. destruct (List.length vs =? List.length (fd_params fd))%nat eqn:LV; cbn [negb]; [|exact Logic.I]. apply Nat.eqb_eq in LV.
  pose proof (fetch_plain _ _ _ _ _ _ _ _ _ _ _ _ HM FI I eq_refl (ex_intro _ (N.of_nat (List.length vs)) eq_refl)) as FE.
  destruct (step_at E P _ _ _ _ _ _ _ _ H FE) as (s1' & H1 & ST).
  assert (H1' : at_ A (g_ip s1 + op_size CALL_FUNCTION) ((base ++ loc ++ st) ++ vs ++ [VFunc f]) (k_w c) G s1') by (ateq H1).
  destruct (ex_call E P A vm (mo_get _ _ _ _ _ _ _ HM) _ _ _ _ _ _ _ H1') as [(s' & RL & X & WX)|(s' & la & bp & loc' & RL & X & Y & L1 & L2 & L3)].
  - lia.
  - rewrite FMO. exact MN.
  - replace (max_depth <=? Datatypes.S (List.length (q_fr A)))%nat with true by (symmetry; apply Nat.leb_le; exact RL).
    rewrite X in ST. exists O, s, (trace P s'), s'. split; [constructor|]. split; [exact ST|exact WX].
  - replace (max_depth <=? Datatypes.S (List.length (q_fr A)))%nat with false by (symmetry; apply Nat.leb_gt; exact RL).
    rewrite X in ST. eapply sim_stepS; [exact ST|].
    eapply sim_bind.
    { rewrite FMO in Y. eapply (HB bp (mkFrame (q_nm A) (g_ip s1 + op_size CALL_FUNCTION) la (q_bp A) (q_fm A) :: q_fr A) (base ++ loc ++ st) loc' vs (mkCfg (k_w c) (k_g c) [combine (fd_params fd) vs]) G s'); [exact Y|exact GR|reflexivity|exact LV|exact L2|exact L1|exact L3]. }
    intros o c' s2 (v & rest & ip & G2 & OO & GR2 & FR & Y2 & BP).
    assert (RET : reach s2 (here g (g_ip (append_op s1 CALL_FUNCTION [N.of_nat (List.length vs)])) (st ++ [v]) (set_l c' (k_l c)))).
    { eapply reach_post; [|eapply reach_op; [exact Y2|exact FR|]].
      2:{ intros s3 Y3. eapply ex_return with (A := A); [|exact Y3|reflexivity|exact FM|exact BP]. exact GM. }
      intros s3 Y3. exists loc, G2. split; [exact LL|]. split; [exact GR2|]. split; [exact ER|]. ateq Y3. }
    destruct OO as [-> | [-> ->]]; (eapply sim_reach; [exact RET|]); cbn beta; intros s3 Q3; apply sim_done; exact Q3.
Qed.
Lemma n_call ln callee args pr : Forall NS args -> NS (NCall ln CFunction callee args pr).
Proof.
  intros N. start ln. expr. cbn [wf] in W.
  assert (D : exists l2 n o, callee = NVar l2 n o false) by (destruct callee; try discriminate W; destruct pr0; try discriminate W; eauto).
  destruct D as (l2 & n & o & ->). apply andb_prop in W as [WG W]. apply andb_prop in WG as [WG WU]. nig. pb t1. pb t2.
  assert (MT : forall K, mv K t1 t2) by (intros; eapply (mv_gen _ _ (NVar l2 n o false)); [reflexivity|exact G0]).
  change (EV (NCall ln CFunction (NVar l2 n o false) args pr) c) with
    (promote pr (run_args EV args c (fun vs c =>
            match call_target S c (q_m A) n with Some t => call_any E rec (Datatypes.S (List.length (q_fr A))) t vs c | None => Stuck end))).
  eapply s_promote with (s1 := append_op t2 CALL_FUNCTION [N.of_nat (List.length args)]); [exact HM|exact GE|exact FI|ipt|].
  eapply (args_sim args N lp g scs (set_line s1 ln) t1); [exact W|sct|exact G|ipt|fint|exact H|]. intros vs c' s' LV Q'.
  unfold call_target. destruct (look (k_l c') n); [exact Logic.I|].
  destruct (where_ex S A n) as (i & n' & WH).
  assert (USER : forall mm fd, mm = i -> se_fun S i n' = Some fd -> (mm = None -> q_m A = None) -> user_call S (q_m A) n = true ->
    sim (Datatypes.S k) (call_user rec (Datatypes.S (List.length (q_fr A))) mm fd vs c') s' (vq g (g_ip (append_op t2 CALL_FUNCTION [N.of_nat (List.length args)])) st)).
  { intros mm fd -> SF MN UC. destruct (HBody _ _ _ SF) as (f & FO & FMO & _).
    eapply sim_reach; [eapply (r_callee g l2 n o t1 t2 scs i n' (VFunc f)); [exact G0|sct|exact WG|fina|ipt|exact WH| |exact Q']|].
    { intros GG GR. apply (gr_fun _ _ _ _ _ GR), FO. }
    cbn beta. intros s3 Q3. rewrite <- app_assoc in Q3. rewrite <- LV. eapply s_call; [exact SF|exact FO|exact MN| |rewrite LV; fina|ipt|exact Q3].
    apply HC. rewrite UC in WU. destruct calls; [reflexivity|discriminate WU]. }
  unfold where_ in WH. unfold user_call in USER. destruct (se_imp S (q_m A) n) as [[j x]|] eqn:IMP; destruct WH as [-> ->].
  - destruct (se_fun S (Some j) x) as [fd|] eqn:SF.
    + cbn [call_any]. apply USER; [reflexivity|reflexivity|discriminate|reflexivity].
    + destruct (k_g c' (Some j) x) as [gv|] eqn:KG; [|exact Logic.I]. destruct gv; try exact Logic.I. cbn [call_any].
      eapply sim_reach; [eapply (r_callee g l2 n o t1 t2 scs (Some j) x (VNative name)); [exact G0|sct|exact WG|fina|ipt| | |exact Q']|].
      { unfold where_. rewrite IMP. auto. }
      { intros GG GR. apply (gr_var _ _ _ _ _ GR), KG. }
      cbn beta. intros s3 Q3.
      assert (X := fun l G' s4 (Q4 : at_ A _ (l ++ vs ++ [VNative name]) (k_w c') G' s4) => ex_native E P A vm (mo_get _ _ _ _ _ _ _ HM) (g_ip t2 + op_size CALL_FUNCTION) l _ _ vs name s4 Q4).
      rewrite LV in X.
      destruct (native E name vs (k_w c')) as [[v w']|e|]; [| |exact Logic.I].
      * eapply sim_reach; [eapply r_op with (s1 := t2) (st' := st ++ [v]) (w' := w'); [exact HM|fina|ipt|reflexivity|eexists; reflexivity|exact Q3|]|].
        -- intros l G' s4 _ Q4. destruct (X (l ++ st) G' s4 ltac:(ateq Q4)) as (s5 & X1 & X2). exists s5. split; [exact X1|]. ateq X2.
        -- cbn beta. intros s4 Q4. apply sim_done. exact Q4.
      * eapply s_fail with (s1 := t2); [exact HM|fina|ipt|reflexivity|eexists; reflexivity|exact Q3|]. intros l G' s4 Q4.
        destruct (X (l ++ st) G' s4 ltac:(ateq Q4)) as (s5 & X1 & X2). exists s5. split; [exact X1|exact X2].
  - destruct (se_fun S (q_m A) n) as [fd|] eqn:SF; [|exact Logic.I]. cbn [option_map call_any].
    apply USER; [reflexivity|reflexivity|auto|reflexivity].
Qed.

(** ** Control flow *)
Lemma ctx_brk a b : same_ctx a b -> g_brk b = g_brk a. Proof. apply sc_brk. Qed.
Lemma n_se ln cnd th els el : NS cnd -> kids NS th -> Forall (kids NS) els -> optP (kids NS) el -> NS (NSe ln cnd th els el).
Proof.
  intros N1 N2 N3 N4. start ln. cbn [wf] in W. apply andb_prop in W as [W WE]. apply andb_prop in W as [W WL]. apply andb_prop in W as [WC WT].
  change (wf_block lp g scs th = true) in WT. change (forallb (wf_elif lp g scs) els = true) in WL.
  pose proof (block_noig _ _ _ _ WT) as NT. pose proof (elif_noig _ _ _ _ WL) as NL. nig.
  destruct (new_label (set_line s1 ln)) as [sa la] eqn:NLA. destruct (new_label sa) as [sb lb] eqn:NLB.
  destruct (new_label_eq _ _ _ NLA) as (LA & _ & LSA). destruct (new_label_eq _ _ _ NLB) as (LB & _ & LSB). cbn [set_line g_labels] in LA, LSA.
  pb t1. pb t2. pb t3. pb t4. pb t5. change (seqm (gen_elif C la) els t3 = PyOk t4) in G2.
  assert (M4 : forall K, mv K t3 t4) by (intros; eapply mv_elifs; eassumption).
  assert (C4 : same_ctx t3 t4) by (eapply ctx_elifs; eassumption).
  assert (M5 : forall K, mv K t4 t5).
  { intros. destruct el as [b|]; [|apply pyok_inj in G3; subst; apply mv_refl]. pose proof (block_noig _ _ _ _ WE). mvt. }
  assert (C5 : same_ctx t4 t5).
  { destruct el as [b|]; [|apply pyok_inj in G3; subst; apply same_ctx_refl]. eapply ctx_block, G3. }
  assert (L1 : (List.length (g_labels sb) <= List.length (g_labels t1))%nat) by (apply (mv_llen (fun _ => False)); mvt).
  assert (L2 : (List.length (g_labels t1) <= List.length (g_labels t2))%nat) by (apply (mv_llen (fun _ => False)); mvt).
  assert (L3 : (List.length (g_labels t2) <= List.length (g_labels t3))%nat) by (apply (mv_llen (fun _ => False)); mvt).
  assert (L4 : (List.length (g_labels t3) <= List.length (g_labels t4))%nat) by (apply (mv_llen (fun _ => False)); mvt).
  assert (L5 : (List.length (g_labels t4) <= List.length (g_labels t5))%nat) by (apply (mv_llen (fun _ => False)); mvt).
  assert (LAB2 : nth_error (g_labels F) (N.to_nat la) = Some (g_ip s2)).
  { rewrite (patch_ip _ _ _ GE). eapply (lab_final F Lf _ la s2 s2); [exact GE|lia|apply mv_refl|exact FI|lia]. }
  assert (LAB1 : nth_error (g_labels F) (N.to_nat lb) = Some (g_ip (append_op t2 JUMP [la]))).
  { eapply (lab_final F Lf _ lb t3 s2); [exact G1|cbn; lia|mvt|exact FI|lia]. }
  change (EV (NSe ln cnd th els el) c) with (bindv (EV cnd c) (fun v c =>
      match v with
      | VBool true => run_block EV th c
      | VBool false =>
          run_elifs EV (fun c => match el with Some b => run_block EV b c | None => Done ONorm c end) els c
      | _ => Stuck
      end)).
  assert (CT1 : same_ctx s1 t2) by ctxt.
  assert (CT3 : same_ctx s1 t3) by ctxt.
  eapply (v_bind cnd _ lp g scs sb t1); [exact N1|exact WC|sct|exact G|ipt|fint|rewrite (new_label_ip _ _ _ NLB), (new_label_ip _ _ _ NLA); exact H|].
  intros v c' s' Q'. destruct v; try exact Logic.I.
  eapply sim_reach; [eapply r_jump_if with (s1 := t1) (l := lb); [exact HM|fina|ipt|exact LAB1|exact Q']|]. cbn beta. intros s3 Q3.
  change (decls scs g (NSe ln cnd th els el)) with g. change (negb (is_stmt (NSe ln cnd th els el))) with false.
  destruct b.
  - assert (CT2 : same_ctx s1 (append_op t1 JUMP_IF_FALSE [lb])) by ctxt. rewrite <- (sc_brk _ _ CT2), <- (sc_cont _ _ CT2).
    eapply sim_norm; [eapply (block_sim th N2 lp g scs (append_op t1 JUMP_IF_FALSE [lb]) t2); [exact WT|sct|exact G0|ipt|fint|exact Q3]| |].
    + intros X. cbn in X. spl. assumption.
    + intros j c2 s4 Q4. eapply r_jump with (s1 := t2) (l := la); [exact HM|fina|ipt|exact LAB2|exact Q4].
  - rewrite <- (sc_brk _ _ CT3), <- (sc_cont _ _ CT3).
    eapply (elifs_sim la (g_ip s2) els N3 LAB2 lp g scs t3 t4); [exact WL|sct|exact G2|ipt|fint|rewrite (patch_ip _ _ _ G1); exact Q3| |].
    + intros X. cbn in X. spl. assumption.
    + intros c2 s4 Q4. destruct el as [b|].
      * cbn [optP] in N4. rewrite <- (sc_brk _ _ C4), <- (sc_cont _ _ C4). rewrite (patch_ip _ _ _ GE). pose proof (block_noig _ _ _ _ WE) as NE.
        eapply npost_clean; [|eapply (block_sim b N4 lp g scs t4 t5); [exact WE|sct|exact G3|ipt|fint|exact Q4]].
        intros X. cbn in X. spl. assumption.
      * apply pyok_inj in G3. subst t5. endn. rewrite (patch_ip _ _ _ GE). exact Q4.
Qed.

(** Another round of an [enquanto]. *)
Hypothesis HAgain : forall ln cnd b, NSk k (fun x c => rec (Again x) (q_m A) (Datatypes.S (List.length (q_fr A))) c) (NEnquanto ln cnd b).
Lemma n_enquanto ln cnd b : NS cnd -> kids NS b -> NS (NEnquanto ln cnd b).
Proof.
  intros N1 N2 lp g scs s1 s2 st c s W SC GE I FI H.
  assert (W0 := W). assert (GE0 := GE). cbn [wf] in W. cbn [gen node_line] in GE.
  destruct (new_label (set_line s1 ln)) as [sa la] eqn:NLA. destruct (new_label sa) as [sb lb] eqn:NLB.
  destruct (new_label_eq _ _ _ NLA) as (LA & _ & LSA). destruct (new_label_eq _ _ _ NLB) as (LB & _ & LSB). cbn [set_line g_labels] in LA, LSA.
  destruct b; try discriminate W. apply andb_prop in W as [WC WB]. cbn [kids] in N2.
  pose proof (seq_noig _ _ _ _ _ WB) as NB. nig.
  set (sd := enter (set_loop sb (Some la) (Some lb)) sc) in *.
  assert (MD : forall K, mv K sb sd) by (intros; unfold sd; mvt).
  pb se. pb t1. pb t2. pb t3. apply pyok_inj in GE.
  assert (M2 : forall K, mv K t3 s2) by (intros; subst s2; mvt).
  assert (IP2 : g_ip s2 = g_ip t3) by (subst s2; reflexivity).
  assert (L1 : (List.length (g_labels sb) <= List.length (g_labels sd))%nat) by (unfold sd; cbn; lia).
  assert (L2 : (List.length (g_labels sd) <= List.length (g_labels se))%nat) by (apply (mv_llen (fun _ => False)); mvt).
  assert (L3 : (List.length (g_labels se) <= List.length (g_labels t1))%nat) by (apply (mv_llen (fun _ => False)); mvt).
  assert (L4 : (List.length (g_labels t1) <= List.length (g_labels t2))%nat) by (apply (mv_llen (fun _ => False)); mvt).
  assert (LABA : nth_error (g_labels F) (N.to_nat la) = Some (g_ip (append_op t2 JUMP [lb]))).
  { eapply (lab_final F Lf _ la t3 s2); [exact G2|cbn; lia|apply M2|exact FI|lia]. }
  assert (LABB : nth_error (g_labels F) (N.to_nat lb) = Some (g_ip s1)).
  { replace (g_ip s1) with (g_ip sd) by (unfold sd; cbn; rewrite (new_label_ip _ _ _ NLB), (new_label_ip _ _ _ NLA); reflexivity).
    eapply (lab_final F Lf _ lb se s2); [exact G|lia|mvt|exact FI|lia]. }
  change (EV (NEnquanto ln cnd (NBlock sc ch)) c) with (bindv (EV cnd c) (fun v c =>
      match v with
      | VBool true =>
          bind (run_block EV (NBlock sc ch) c) (fun o c =>
          match o with
          | ONorm | OCont => rec (Again (NEnquanto ln cnd (NBlock sc ch))) (q_m A) (Datatypes.S (List.length (q_fr A))) c
          | OBrk => Done ONorm c
          | o => Done o c
          end)
      | VBool false => Done ONorm c
      | _ => Stuck
      end)).
  assert (SD : g_scopes sd = sc :: scs) by (unfold sd; cbn; f_equal; sct).
  assert (CSE : same_ctx sd se) by ctxt. assert (CT1 : same_ctx sd t1) by ctxt.
  eapply (v_bind cnd _ lp g (sc :: scs) se t1); [exact N1|exact WC|rewrite (sc_scopes _ _ CSE); exact SD|exact G0|ipt|fint| |].
  { rewrite (patch_ip _ _ _ G). unfold sd. cbn. rewrite (new_label_ip _ _ _ NLB), (new_label_ip _ _ _ NLA). exact H. }
  intros v c' s' Q'. destruct v; try exact Logic.I.
  eapply sim_reachS; [eapply r_jump_if with (s1 := t1) (l := la); [exact HM|fina|ipt|exact LABA|exact Q']|]. cbn beta. intros s3 Q3.
  change (decls scs g (NEnquanto ln cnd (NBlock sc ch))) with g. change (negb (is_stmt (NEnquanto ln cnd (NBlock sc ch)))) with false.
  change (clean (NEnquanto ln cnd (NBlock sc ch))) with (lclean ch).
  destruct b.
  2:{ endn. rewrite IP2, (patch_ip _ _ _ G2). exact Q3. }
  eapply sim_bind.
  { eapply sim_le; [apply Nat.le_succ_diag_r|]. cbn [run_block]. apply pop_post.
    eapply (seq_sim ch N2 true ([] :: g) (sc :: scs) (append_op t1 JUMP_IF_FALSE [la]) t2); [exact WB| |exact G1|ipt|fint|apply here_push, Q3].
    cbn. rewrite (sc_scopes _ _ CT1). exact SD. }
  intros o c2 s4 X. cbn [append_op set_code g_brk g_cont] in X. rewrite (sc_brk _ _ CT1), (sc_cont _ _ CT1) in X. unfold sd in X. cbn [enter set_scopes set_loop g_brk g_cont] in X.
  assert (AG : forall j, (lclean ch = true -> j = []) -> forall s5, here g (g_ip s1) (st ++ j) c2 s5 ->
    sim k (rec (Again (NEnquanto ln cnd (NBlock sc ch))) (q_m A) (Datatypes.S (List.length (q_fr A))) c2) s5
     (npost g g (lclean ch) false lp (g_brk s1) (g_cont s1) (g_ip s2) st)).
  { intros j J s5 Q5. eapply sim_post; [|eapply HAgain; [exact W0|exact SC|exact GE0|exact I|exact FI|exact Q5]].
    intros o' c5 s6 Y. change (clean (NEnquanto ln cnd (NBlock sc ch))) with (lclean ch) in Y.
    eapply npost_widen; [|exact Y|right; reflexivity|].
    - intros CL. auto.
    - intros v ->. destruct Y as [Y _]. discriminate Y. }
  destruct o; cbn in X.
  - destruct X as (j & J & X). eapply sim_reach; [eapply r_jump with (s1 := t2) (l := lb); [exact HM|fina|ipt|exact LABB|exact X]|].
    cbn beta. intros s5 Q5. eapply AG; eassumption.
  - destruct X. discriminate.
  - apply sim_done. destruct X as (_ & j & ip & J & (l & E1 & JT) & X). injection E1 as <-. rewrite LABA in JT. injection JT as <-.
    exists j. split; [exact J|]. rewrite IP2, (patch_ip _ _ _ G2). exact X.
  - destruct X as (_ & j & ip & J & (l & E1 & JT) & X). injection E1 as <-. rewrite LABB in JT. injection JT as <-. eapply AG; eassumption.
  - apply sim_done. destruct X as (j & ip & J & X). exists j, ip. auto.
Qed.

(** The test of a [para], its counter being in the innermost scope. *)
Definition TSk (kk : nat) (f : node -> cfg -> res) (x : node) : Prop :=
  forall ln n a b i sc ch, x = NPara ln n a b i (NBlock sc ch) -> forall lp g scs s1 s2 st c s cv at_lp,
  WF lp g scs x = true -> g_scopes s1 = scs -> gen C x s1 = PyOk s2 -> ipok s1 -> fin (List.length (g_labels s1)) s2 ->
  resolve (sc :: scs) n = Some cv -> nth_error (g_labels F) (Datatypes.S (List.length (g_labels s1))) = Some at_lp ->
  here ([(n, cv)] :: g) at_lp st c s ->
  sim kk (f x c) s (npost g g (clean x) false lp (g_brk s1) (g_cont s1) (g_ip s2) st).
Hypothesis HTest : forall x, TSk k (fun x c => rec (Test x) (q_m A) (Datatypes.S (List.length (q_fr A))) c) x.

Lemma n_para ln n a b i bl : NS a -> kids NS bl -> NS (NPara ln n a b i bl).
Proof.
  intros N1 N2 lp g scs s1 s2 st c s W SC GE I FI H.
  assert (W0 := W). assert (GE0 := GE). cbn [wf] in W. cbn [gen node_line] in GE.
  destruct bl; try discriminate W. destruct (resolve (sc :: scs) n) as [cv|] eqn:RS; [|discriminate W].
  apply andb_prop in W as [W WB]. apply andb_prop in W as [W WI]. apply andb_prop in W as [W WST]. apply andb_prop in W as [W WA].
  apply andb_prop in W as [FR MD]. pose proof (seq_noig _ _ _ _ _ WB) as NB. nig.
  apply need_ok in GE as (cv' & RS' & GE). assert (cv' = cv). { cbn [set_line g_scopes] in RS'. rewrite SC, RS in RS'. congruence. } subst cv'. clear RS'.
  destruct (new_label (set_line s1 ln)) as [sa la] eqn:NLA. destruct (new_label sa) as [sb lb] eqn:NLB.
  destruct (new_label_eq _ _ _ NLA) as (LA & _ & LSA). destruct (new_label_eq _ _ _ NLB) as (LB & _ & LSB). cbn [set_line g_labels] in LA, LSA.
  assert (NI : match i with Some e => noig e = true | None => True end).
  { destruct i as [e|]; [|exact Logic.I]. apply (proj1 (wf_noig _ _ _ _ e) _ _ _ WI). }
  pb t1. pb t2. pb t3. pb t4. pb t5. pb t6. pb t7. pb t8. pb t9. pb t10. apply pyok_inj in GE.
  assert (M7 : forall K, mv K t6 t7). { intros. destruct i as [e|]; mvt. }
  assert (M2 : forall K, mv K t10 s2) by (intros; subst s2; mvt).
  assert (L1 : (List.length (g_labels sb) <= List.length (g_labels t1))%nat) by (apply (mv_llen (fun _ => False)); mvt).
  assert (L2 : (List.length (g_labels t1) <= List.length (g_labels t2))%nat) by (apply (mv_llen (fun _ => False)); mvt).
  assert (L3 : (List.length (g_labels t2) <= List.length (g_labels t3))%nat) by (apply (mv_llen (fun _ => False)); mvt).
  assert (L5 : (List.length (g_labels t3) <= List.length (g_labels t9))%nat) by (apply (mv_llen (fun _ => False)); mvt).
  assert (LABB : nth_error (g_labels F) (N.to_nat lb) = Some (g_ip t2)).
  { eapply (lab_final F Lf _ lb t3 s2); [exact G1|lia|mvt|exact FI|lia]. }
  change (EV (NPara ln n a b i (NBlock sc ch)) c) with (bindv (EV a c) (fun v c => rec (Test (NPara ln n a b i (NBlock sc ch))) (q_m A) (Datatypes.S (List.length (q_fr A))) (push_scope c [(n, v)]))).
  eapply (v_bind a _ lp g (sc :: scs) (enter sb sc) t1); [exact N1|exact WA|cbn; f_equal; sct|exact G|ipt|fint| |].
  { cbn. rewrite (new_label_ip _ _ _ NLB), (new_label_ip _ _ _ NLA). exact H. }
  intros v c' s' Q'. apply here_push in Q'.
  eapply sim_reachS; [eapply r_decl with (g := [] :: g) (s1 := t1) (c := push_scope c' []) (v := v) (nm := n) (x := cv) (c' := push_scope c' [(n, v)]); [exact HF|exact HM|exact HS|exact HN|exact G0|fina|ipt|exact FR|reflexivity|exact Q']|].
  cbn beta. cbn [gdecl]. intros s3 Q3.
  change (decls scs g (NPara ln n a b i (NBlock sc ch))) with g.
  eapply (HTest _ ln n a b i sc ch eq_refl lp g scs s1 s2); [exact W0|exact SC|exact GE0|exact I|exact FI|exact RS| |exact Q3].
  replace (Datatypes.S (List.length (g_labels s1))) with (N.to_nat lb) by lia. exact LABB.
Qed.
Lemma n_para_round x : (match x with NPara _ _ _ b i bl => NS b /\ optP NS i /\ kids NS bl | _ => True end) ->
  TSk (Datatypes.S k) (para_round E S rec (q_m A) (Datatypes.S (List.length (q_fr A)))) x.
Proof.
  intros KX ln n a b i sc ch EX lp g scs s1 s2 st c s cv at_lp W SC GE I FI RS ATL H. subst x. destruct KX as (N1 & N2 & N3). cbn [kids] in N3.
  assert (W0 := W). assert (GE0 := GE). cbn [wf] in W. cbn [gen node_line] in GE. rewrite RS in W.
  apply andb_prop in W as [W WB]. apply andb_prop in W as [W WI]. apply andb_prop in W as [W WST]. apply andb_prop in W as [W WA].
  apply andb_prop in W as [FR MD]. pose proof (seq_noig _ _ _ _ _ WB) as NB. nig.
  apply need_ok in GE as (cv' & RS' & GE). assert (cv' = cv). { cbn [set_line g_scopes] in RS'. rewrite SC, RS in RS'. congruence. } subst cv'. clear RS'.
  destruct (new_label (set_line s1 ln)) as [sa la] eqn:NLA. destruct (new_label sa) as [sb lb] eqn:NLB.
  destruct (new_label_eq _ _ _ NLA) as (LA & _ & LSA). destruct (new_label_eq _ _ _ NLB) as (LB & _ & LSB). cbn [set_line g_labels] in LA, LSA.
  assert (NI : match i with Some e => noig e = true | None => True end).
  { destruct i as [e|]; [|exact Logic.I]. apply (proj1 (wf_noig _ _ _ _ e) _ _ _ WI). }
  pb t1. pb t2. pb t3. pb t4. pb t5. pb t6. pb t7. pb t8. pb t9. pb t10. apply pyok_inj in GE.
  assert (M7 : forall K, mv K t6 t7). { intros. destruct i as [e|]; mvt. }
  assert (C7 : same_ctx t6 t7). { destruct i as [e|]; ctxt. }
  assert (M2 : forall K, mv K t10 s2) by (intros; subst s2; mvt).
  assert (IP2 : g_ip s2 = g_ip t10) by (subst s2; reflexivity).
  assert (L1 : (List.length (g_labels sb) <= List.length (g_labels t1))%nat) by (apply (mv_llen (fun _ => False)); mvt).
  assert (L2 : (List.length (g_labels t1) <= List.length (g_labels t2))%nat) by (apply (mv_llen (fun _ => False)); mvt).
  assert (L3 : (List.length (g_labels t2) <= List.length (g_labels t3))%nat) by (apply (mv_llen (fun _ => False)); mvt).
  assert (L4 : (List.length (g_labels t3) <= List.length (g_labels t4))%nat) by (apply (mv_llen (fun _ => False)); mvt).
  assert (L5 : (List.length (g_labels t4) <= List.length (g_labels t5))%nat) by (apply (mv_llen (fun _ => False)); mvt).
  assert (L6 : (List.length (g_labels t5) <= List.length (g_labels t6))%nat) by (apply (mv_llen (fun _ => False)); mvt).
  assert (L7 : (List.length (g_labels t6) <= List.length (g_labels t9))%nat) by (apply (mv_llen (fun _ => False)); mvt).
  assert (LABB : nth_error (g_labels F) (N.to_nat lb) = Some (g_ip t2)).
  { eapply (lab_final F Lf _ lb t3 s2); [exact G1|lia|mvt|exact FI|lia]. }
  replace (Datatypes.S (List.length (g_labels s1))) with (N.to_nat lb) in ATL by lia. rewrite LABB in ATL. injection ATL as <-.
  assert (LABA : nth_error (g_labels F) (N.to_nat la) = Some (g_ip s2)).
  { rewrite IP2, (patch_ip _ _ _ G8). eapply (lab_final F Lf _ la t10 s2); [exact G8|cbn; lia|apply M2|exact FI|lia]. }
  set (g' := [(n, cv)] :: g) in *.
  assert (GLK : glook g' n = Some cv) by (unfold g'; cbn; rewrite text_eqb_refl; reflexivity).
  unfold fresh_ok in FR. apply andb_prop in FR as [GLB _].
  assert (VO : var_ok S C (q_m A) g' n cv = true) by (unfold var_ok; rewrite GLK, MD, GLB, text_eqb_refl; reflexivity).
  assert (TO : tgt_ok S (q_m A) g' n cv = true) by (unfold tgt_ok; rewrite GLK, GLB, text_eqb_refl; reflexivity).
  change (para_round E S rec (q_m A) (Datatypes.S (List.length (q_fr A))) (NPara ln n a b i (NBlock sc ch)) c) with
   (bindv (read_var S c (q_m A) n) (fun i0 c => bindv (EV b c) (fun s c =>
      bindv (lift (k_w c) (sem_binop BLt i0 s) c) (fun v c =>
      match v with
      | VBool true =>
          bind (run_block EV (NBlock sc ch) c) (fun o c =>
          match o with
          | ONorm | OCont =>
              bindv (match i with Some e => EV e c | None => Done (OVal (VInt 1)) c end) (fun k c =>
              bindv (read_var S c (q_m A) n) (fun i0 c =>
              bindv (lift (k_w c) (sem_binop BAdd k i0) c) (fun i' c =>
              bind (write_var c (q_m A) n i') (fun _ c => rec (Test (NPara ln n a b i (NBlock sc ch))) (q_m A) (Datatypes.S (List.length (q_fr A))) c))))
          | OBrk => Done ONorm (pop_scope c)
          | o => Done o (pop_scope c)
          end)
      | VBool false => Done ONorm (pop_scope c)
      | _ => Stuck
      end)))).
  assert (SB : g_scopes (enter sb sc) = sc :: scs) by (cbn; f_equal; sct).
  assert (C2 : same_ctx (enter sb sc) t4) by ctxt. assert (C5 : same_ctx t4 t5) by ctxt. assert (C6 : same_ctx t5 t6) by ctxt.
  assert (S4 : g_scopes t4 = sc :: scs) by (rewrite (sc_scopes _ _ C2); exact SB).
  assert (S5 : g_scopes t5 = sc :: scs) by (rewrite (sc_scopes _ _ C5); exact S4).
  assert (S6 : g_scopes t6 = sc :: scs) by (rewrite (sc_scopes _ _ C6); exact S5).
  rewrite <- (patch_ip _ _ _ G1) in H.
  unfold read_var at 1. destruct (var_value S c (q_m A) n) as [v0|] eqn:VV; [|exact Logic.I]. cbn [bindv bind].
  eapply sim_reach; [eapply r_var with (s1 := t3) (v := v0); [exact HF|exact HM|exact HS|exact HN|exact G2|fina|ipt|exact VO|exact VV|exact H]|].
  cbn beta. intros s' Q'.
  eapply (v_bind b _ lp g' (sc :: scs) t4 t5); [exact N1|exact WST|exact S4|exact G3|ipt|fint|exact Q'|].
  intros v1 c1 s3 Q3. rewrite <- app_assoc in Q3.
  eapply sim_bindv; [eapply lift_ok; [apply binop_sem|]; eapply (s_val E P S fof bi A C F vm Lf base nloc HM) with (s1 := t5) (o := binop_code BLt) (args := []); [fina|ipt|reflexivity|reflexivity|exact Q3|];
    intros ll G' s4 Q4; apply ex_binop with (vm := vm); [apply HM|exact Q4]|].
  intros v2 c2 s4 Q4. cbn [vq] in Q4. destruct v2 as [| |bb| | | | | | | | |]; try exact Logic.I.
  eapply sim_reachS; [eapply r_jump_if with (s1 := append_op t5 OP_LESS []) (l := la); [exact HM|fina|ipt|exact LABA|exact Q4]|].
  cbn beta. intros s5 Q5. change (clean (NPara ln n a b i (NBlock sc ch))) with (lclean ch).
  destruct bb; [|endn; apply (here_pop _ _ _ _ _ _ _ g'), Q5].
  eapply sim_bind.
  { eapply sim_le; [apply Nat.le_succ_diag_r|]. cbn [run_block]. apply pop_post.
    eapply (seq_sim ch N3 false ([] :: g') (sc :: scs) (append_op (append_op t5 OP_LESS []) JUMP_IF_FALSE [la]) t6); [exact WB|exact S5|exact G4|ipt|fint|apply here_push, Q5]. }
  intros o c3 s6 X. destruct o; cbn in X.
  - destruct X as (j & J & X).
    assert (TAIL : forall v3 c4 s7, here g' (g_ip t7) ((st ++ j) ++ [v3]) c4 s7 -> sim (Datatypes.S k)
      (bindv (read_var S c4 (q_m A) n) (fun i0 c => bindv (lift (k_w c) (sem_binop BAdd v3 i0) c) (fun i' c =>
         bind (write_var c (q_m A) n i') (fun _ c => rec (Test (NPara ln n a b i (NBlock sc ch))) (q_m A) (Datatypes.S (List.length (q_fr A))) c)))) s7
      (npost g g (lclean ch) false lp (g_brk s1) (g_cont s1) (g_ip s2) st)).
    { intros v3 c4 s7 Q7. unfold read_var at 1. destruct (var_value S c4 (q_m A) n) as [v4|] eqn:VV4; [|exact Logic.I]. cbn [bindv bind].
      eapply sim_reach; [eapply r_var with (s1 := t7) (v := v4); [exact HF|exact HM|exact HS|exact HN|exact G6|fina|ipt|exact VO|exact VV4|exact Q7]|].
      cbn beta. intros s8 Q8. rewrite <- app_assoc in Q8.
      eapply sim_bindv; [eapply lift_ok; [apply binop_sem|]; eapply (s_val E P S fof bi A C F vm Lf base nloc HM) with (s1 := t8) (o := binop_code BAdd) (args := []); [fina|ipt|reflexivity|reflexivity|exact Q8|];
        intros ll G' s9 Q9; apply ex_binop with (vm := vm); [apply HM|exact Q9]|].
      intros v5 c5 s9 Q9. cbn [vq] in Q9.
      assert (exists c6, write_var c5 (q_m A) n v5 = Done ONorm c6) as (c6 & WV) by (unfold write_var; destruct (update (k_l c5) n v5); eauto).
      rewrite WV. cbn [bind].
      eapply sim_reach; [eapply r_set with (s1 := append_op t8 OP_ADD []) (nm := n) (x := cv) (v := v5) (c' := c6); [exact HF|exact HM|exact HS|exact HN|exact G7|fina|ipt|exact TO|exact WV|exact Q9]|].
      cbn beta. intros s10 Q10.
      eapply sim_reachS; [eapply r_jump with (s1 := t9) (l := lb); [exact HM|fina|ipt|exact LABB|exact Q10]|].
      cbn beta. intros s11 Q11.
      eapply sim_post; [|eapply (HTest _ ln n a b i sc ch eq_refl lp g scs s1 s2); [exact W0|exact SC|exact GE0|exact I|exact FI|exact RS| |exact Q11]].
      2:{ replace (Datatypes.S (List.length (g_labels s1))) with (N.to_nat lb) by lia. exact LABB. }
      intros o c7 s12 Y. eapply npost_widen; [|exact Y| |].
      + intros CL. split; [exact CL|apply J, CL].
      + right. reflexivity.
      + intros w ->. destruct Y. discriminate. }
    cbv beta iota. eapply sim_le; [apply Nat.le_succ_diag_r|]. destruct i as [e|].
    + cbn [optP] in N2. eapply (v_bind e _ lp g' (sc :: scs) t6 t7); [exact N2|exact WI|exact S6|exact G5|ipt|fint|exact X|exact TAIL].
    + cbn [bindv bind]. eapply sim_reach; [eapply r_const with (s1 := t6) (v := VInt 1); [exact HM|exact G5|fina|ipt|intros v' CO; exact CO|exact X]|].
      cbn beta. intros s7 Q7. apply TAIL, Q7.
  - destruct X. discriminate.
  - destruct X. discriminate.
  - destruct X. discriminate.
  - apply sim_done. destruct X as (j & ip & J & FE & X). exists j, ip. split; [exact J|]. split; [exact FE|]. apply (here_pop _ _ _ _ _ _ _ g'), X.
Qed.

Lemma n_func ln y ps b0 bl : NS (NFunc ln y ps b0 bl).
Proof.
  start ln. cbn [wf] in W. destruct g; [|discriminate W]. apply pbind_ok in GE as ((sn & ni) & GN & GE). cbn [fst] in GE.
  destruct (new_label sn) as [sa la] eqn:NLA. destruct (new_label_eq _ _ _ NLA) as (LA & _ & LSA).
  destruct (new_label (append_op sa JUMP [la])) as [sb lb] eqn:NLB.
  pb t1. pb t2. pb t3. apply pyok_inj in GE.
  assert (G0' : gs 0 (append_op sa JUMP [la]) (set_locals (append_op t2 RETURN []) (g_locals sb))).
  { eapply gs_trans; [apply (gs_new_label 0 _ _ _ NLB)|]. eapply gs_trans; [apply gs_locals|]. eapply gs_trans; [eapply gs0_body, G|].
    eapply gs_trans; [eapply gs_load_const, G0|]. eapply gs_trans; [apply gs_op|apply gs_locals]. }
  assert (LB : g_locals sb = g_locals sa) by (apply (loc_new_label _ _ _ NLB)).
  assert (IN : g_ip sn = g_ip s1). { apply (name_ip _ _ _ _ GN). }
  assert (L1 : (List.length (g_labels s1) <= List.length (g_labels sn))%nat) by (apply (mv_llen (fun _ => False)); mvt).
  pose proof (gs_len _ _ _ G0') as L2. cbn [append_op set_code g_labels set_locals] in L2.
  assert (M3 : mv (fun i => i = N.to_nat la) t3 s2) by (subst s2; constructor; cbn; auto with gx).
  assert (LABA : nth_error (g_labels F) (N.to_nat la) = Some (g_ip s2)).
  { replace (g_ip s2) with (g_ip t3) by (subst s2; reflexivity). rewrite (patch_ip _ _ _ G1). eapply (lab_final F Lf _ la t3 s2); [exact G1|cbn; lia|exact M3|exact FI|lia]. }
  assert (IA : ipok sa) by ipt.
  change (EV (NFunc ln y ps b0 bl) c) with (Done ONorm c).
  assert (IP : g_ip (set_line s1 ln) = g_ip sa) by (rewrite (new_label_ip _ _ _ NLA), IN; reflexivity). rewrite IP in H.
  eapply sim_reach; [eapply r_jump with (s1 := sa) (l := la) (n := Nat.max (List.length (g_labels s1)) (List.length (g_labels (append_op sa JUMP [la])))); [exact HM| |exact IA|exact LABA|exact H]|].
  - apply (fin_any _ s2); [|exact FI]. apply mv_of_gs0.
    + eapply gs_trans; [exact G0'|]. eapply gs_trans; [apply (gs_patch 0 _ _ _ G1); lia|]. subst s2. apply gs_func.
    + subst s2. cbn. rewrite (loc_patch _ _ _ G1). cbn. rewrite LB. apply prefix_refl.
  - cbn beta. intros s' Q'. change (decls scs [] (NFunc ln y ps b0 bl)) with (@nil (list (text * sym))). endn. exact Q'.
Qed.

(** ** Every node *)
Ltac wfalse := intros lp0 g0 scs0 ? ? ? ? ? WX; discriminate WX.
Ltac nx := repeat match goal with
  | H : Forall (fun x => NS x /\ kids NS x) ?l |- _ =>
      let A := fresh in let B := fresh in
      assert (A : Forall NS l) by (eapply Forall_impl; [|exact H]; intros ? [X _]; exact X);
      assert (B : Forall (kids NS) l) by (eapply Forall_impl; [|exact H]; intros ? [_ X]; exact X); clear H
  | H : NS _ /\ kids NS _ |- _ => destruct H
  | H : optP (fun x => NS x /\ kids NS x) ?o |- _ =>
      let A := fresh in let B := fresh in
      assert (A : optP NS o) by (destruct o; cbn [optP] in *; [apply H|exact Logic.I]);
      assert (B : optP (kids NS) o) by (destruct o; cbn [optP] in *; [apply H|exact Logic.I]); clear H
  end.
Theorem node_sim x : NS x /\ kids NS x.
Proof.
  induction x using node_ind'; nx; (split; [|cbn [kids]; try exact Logic.I; try assumption]).
  - apply n_const.
  - apply n_var.
  - apply n_alvo.
  - apply n_path.
  - apply n_un; assumption.
  - apply n_bin; assumption.
  - destruct k0; first [apply n_call; assumption|apply n_new; assumption|apply n_variant; assumption|wfalse].
  - wfalse.
  - apply n_conv; assumption.
  - apply n_index; assumption.
  - apply n_index_set; assumption.
  - apply n_fmt; assumption.
  - apply n_list; assumption.
  - apply n_get; assumption.
  - wfalse.
  - apply n_set; assumption.
  - apply n_unwrap; assumption.
  - apply n_assign; assumption.
  - apply n_vardecl; assumption.
  - apply n_se; assumption.
  - wfalse.
  - split; [assumption|]. destruct x2; try exact Logic.I. assumption.
  - wfalse.
  - apply n_enquanto; assumption.
  - apply n_para; assumption.
  - apply n_func.
  - apply n_ret; assumption.
  - wfalse.
  - apply n_mostra; assumption.
  - apply n_loopctl.
  - apply n_registo.
  - apply n_uniao.
  - apply n_noop.
  - wfalse.
  - wfalse.
  - wfalse.
  - wfalse.
  - wfalse.
  - wfalse.
Qed.
(** The enclosing induction on fuel: one more round. *)
Lemma again_step ln cnd b : NSk (Datatypes.S k) (fun x c => EV x c) (NEnquanto ln cnd b).
Proof. exact (proj1 (node_sim _)). Qed.
Lemma test_step x : TSk (Datatypes.S k) (para_round E S rec (q_m A) (Datatypes.S (List.length (q_fr A)))) x.
Proof.
  apply n_para_round. destruct x; try exact Logic.I. split; [apply node_sim|]. split; [destruct inc; [apply node_sim|exact Logic.I]|apply node_sim].
Qed.
End Node.

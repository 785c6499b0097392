(** Lemmas for C43: steps of the analyser that end without an exception. *)
From Verif Require Import Base BaseFacts Bson Value Types Syntax Sym Check Spec_Plain PlainBase.
From Coq Require Import Lia.
Local Open Scope chk_scope.

Section Step.
Variables (R V : bool) (g t0 B : nat) (ex : list nat).
Local Notation wf := (wf R V g t0 B ex).
Local Notation ty_ok := (ty_ok R V ex).
Local Notation sym_ok := (sym_ok R V B ex).
Local Notation under := (under B).
Local Notation fn_ok := (fn_ok ex).
Local Notation var_ok := (var_ok ex).
Local Notation met_ok := (met_ok ex).
Local Notation prim_sym := (prim_sym ex).

(** Where the analyser is: scope, scope of type names, function. *)
Record pc := mkPc { p_cur : nat; p_ty : nat; p_fn : option nat }.
Definition at_ (c : pc) (s : sst) : Prop :=
  cx_scope (sst_cx s) = p_cur c /\ cx_ty (sst_cx s) = p_ty c /\ cx_func (sst_cx s) = p_fn c /\ cx_global (sst_cx s) = g.
Definition cok (st : store) (c : pc) : Prop :=
  under st g (p_cur c) /\ under st t0 (p_ty c) /\ match p_fn c with Some f => fn_ok st f | None => True end.
Definition gent (st : store) (n : text) (i : nat) : Prop := named st n i /\ ~ In i ex.

Lemma cok_ext : forall a b c, ext a b -> cok a c -> cok b c.
Proof.
  intros a b c E (H1 & H2 & H3). split; [eapply under_ext; eauto|split; [eapply under_ext; eauto|]].
  destruct (p_fn c); auto. eapply fn_ok_ext; eauto.
Qed.
Lemma gent_ext : forall a b n i, ext a b -> gent a n i -> gent b n i.
Proof. intros a b n i E [H1 H2]. split; [eapply named_ext; eauto|exact H2]. Qed.

Definition K {A} (c : pc) (st0 : store) (m : M A) (c' : A -> pc) (Q : A -> store -> Prop) : Prop :=
  forall s, sst_st s = st0 -> at_ c s ->
  match m s with
  | COk a s' => wf (sst_st s') /\ ext st0 (sst_st s') /\ at_ (c' a) s' /\ Q a (sst_st s')
  | CErr _ _ => True
  | CCrash | CFuel => False
  end.

Lemma k_weak : forall A c st (m : M A) c' (Q Q' : A -> store -> Prop), K c st m c' Q -> (forall a st', ext st st' -> wf st' -> Q a st' -> Q' a st') -> K c st m c' Q'.
Proof.
  intros A c st m c' Q Q' H W s E AT. specialize (H s E AT). destruct (m s); auto. destruct H as (H1 & H2 & H3 & H4). split; [|split; [|split]]; auto.
Qed.
Lemma k_ret : forall A c st (a : A) (Q : A -> store -> Prop), wf st -> Q a st -> K c st (cret a) (fun _ => c) Q.
Proof. intros A c st a Q W H s <- AT. cbn. auto using ext_refl. Qed.
Lemma k_bind : forall A A2 c st (m : M A) c1 Q1 (f : A -> M A2) c2 Q2,
  K c st m c1 Q1 -> (forall a st1, ext st st1 -> wf st1 -> Q1 a st1 -> K (c1 a) st1 (f a) c2 Q2) -> K c st (cbind m f) c2 Q2.
Proof.
  intros A A2 c st m c1 Q1 f c2 Q2 H F s E AT. specialize (H s E AT). unfold cbind. destruct (m s) as [a s'| | |]; auto.
  destruct H as (H1 & H2 & H3 & H4). specialize (F a _ H2 H1 H4 s' eq_refl H3). destruct (f a s') as [b s''| | |]; auto.
  destruct F as (F1 & F2 & F3 & F4). split; [|split; [|split]]; auto. eapply ext_trans; eauto.
Qed.
Lemma k_err : forall A c st c' (Q : A -> store -> Prop), K c st ccerr c' Q.
Proof. intros A c st c' Q s E AT. exact I. Qed.
Lemma k_err_at : forall A l c st c' (Q : A -> store -> Prop), K c st (cerr_at l) c' Q.
Proof. intros A l c st c' Q s E AT. exact I. Qed.
Lemma k_line_err : forall A l c st c' (Q : A -> store -> Prop), K c st (set_line l ;;; ccerr) c' Q.
Proof. intros A l c st c' Q s E AT. exact I. Qed.

Lemma k_errb : forall A A2 (k : A -> M A2) c st c' (Q : A2 -> store -> Prop), K c st (cbind ccerr k) c' Q.
Proof. intros A A2 k c st c' Q s E AT. exact I. Qed.

(** Reading. *)
Lemma k_read : forall A A2 c st (m : M A) v (k : A -> M A2) c' Q,
  (forall s, sst_st s = st -> at_ c s -> m s = COk v s) -> K c st (k v) c' Q -> K c st (cbind m k) c' Q.
Proof. intros A A2 c st m v k c' Q H HK s E AT. unfold cbind. rewrite (H s E AT). apply HK; auto. Qed.
Lemma k_gst : forall A A2 c st (f : store -> A) (k : A -> M A2) c' Q, K c st (k (f st)) c' Q -> K c st (cbind (gst f) k) c' Q.
Proof. intros. eapply k_read; [|exact H]. intros s <- AT. reflexivity. Qed.
Lemma k_gcx : forall A A2 c st (f : actx -> A) (k : A -> M A2) c' Q, (forall v, K c st (k v) c' Q) -> K c st (cbind (gcx f) k) c' Q.
Proof. intros A A2 c st f k c' Q H s E AT. unfold cbind, gcx. apply H; auto. Qed.
Lemma k_scope : forall A2 c st (k : nat -> M A2) c' Q, K c st (k (p_cur c)) c' Q -> K c st (cbind (gcx cx_scope) k) c' Q.
Proof. intros. eapply k_read; [|exact H]. intros s <- AT. unfold gcx. rewrite (proj1 AT). reflexivity. Qed.
Lemma k_tysc : forall A2 c st (k : nat -> M A2) c' Q, K c st (k (p_ty c)) c' Q -> K c st (cbind (gcx cx_ty) k) c' Q.
Proof. intros. eapply k_read; [|exact H]. intros s <- (_ & AT & _). unfold gcx. rewrite AT. reflexivity. Qed.
Lemma k_func : forall A2 c st (k : option nat -> M A2) c' Q, K c st (k (p_fn c)) c' Q -> K c st (cbind (gcx cx_func) k) c' Q.
Proof. intros. eapply k_read; [|exact H]. intros s <- (_ & _ & AT & _). unfold gcx. rewrite AT. reflexivity. Qed.
Lemma k_global : forall A2 c st (k : nat -> M A2) c' Q, K c st (k g) c' Q -> K c st (cbind (gcx cx_global) k) c' Q.
Proof. intros. eapply k_read; [|exact H]. intros s <- (_ & _ & _ & AT). unfold gcx. rewrite AT. reflexivity. Qed.
Lemma k_must : forall A A2 c st o v (k : A -> M A2) c' Q, o = Some v -> K c st (k v) c' Q -> K c st (cbind (must o) k) c' Q.
Proof. intros. subst o. exact H0. Qed.
Lemma k_retb : forall A A2 c st (v : A) (k : A -> M A2) c' Q, K c st (k v) c' Q -> K c st (cbind (cret v) k) c' Q.
Proof. intros. exact H. Qed.
Lemma k_sym : forall A2 c st i x (k : symbol -> M A2) c' Q, nth_error (so_syms st) i = Some x -> K c st (k x) c' Q -> K c st (cbind (sym_at i) k) c' Q.
Proof. intros. eapply k_read; [|exact H0]. intros s <- AT. unfold sym_at, cbind, gst. rewrite H. reflexivity. Qed.
Lemma k_assoc : forall A A2 A3 c st (m : M A) (f : A -> M A2) (k : A2 -> M A3) c' Q, K c st (cbind m (fun a => cbind (f a) k)) c' Q -> K c st (cbind (cbind m f) k) c' Q.
Proof.
  intros A A2 A3 c st m f k c' Q H s E AT. specialize (H s E AT). unfold cbind in *. destruct (m s); auto.
Qed.
(** Attributes that are not followed. *)
Lemma k_mcx : forall A c st (h : actx -> actx) (k : unit -> M A) c' Q, wf st ->
  (forall x, cx_scope (h x) = cx_scope x /\ cx_ty (h x) = cx_ty x /\ cx_func (h x) = cx_func x /\ cx_global (h x) = cx_global x) ->
  K c st (k tt) c' Q -> K c st (cbind (mcx h) k) c' Q.
Proof.
  intros A c st h k c' Q W H HK s E AT. unfold cbind, mcx. apply HK; [exact E|]. unfold at_ in *. cbn. destruct (H (sst_cx s)) as (-> & -> & -> & ->). exact AT.
Qed.
Lemma k_line : forall A l c st (k : unit -> M A) c' Q, wf st -> K c st (k tt) c' Q -> K c st (cbind (set_line l) k) c' Q.
Proof. intros. apply k_mcx; auto. Qed.
Lemma k_setfn : forall A f c st (k : unit -> M A) c' Q, K (mkPc (p_cur c) (p_ty c) f) st (k tt) c' Q -> K c st (cbind (set_func f) k) c' Q.
Proof. intros A f c st k c' Q HK s E AT. unfold cbind, set_func, mcx. apply HK; [exact E|]. unfold at_ in *. cbn. tauto. Qed.
Lemma k_setscope : forall A d sc c st (k : unit -> M A) c' Q, K (mkPc sc (p_ty c) (p_fn c)) st (k tt) c' Q -> K c st (cbind (set_scope d sc) k) c' Q.
Proof. intros A d sc c st k c' Q HK s E AT. unfold cbind, set_scope, mcx. apply HK; [exact E|]. unfold at_ in *. cbn. tauto. Qed.
Lemma k_setty : forall A t c st (k : unit -> M A) c' Q, K (mkPc (p_cur c) t (p_fn c)) st (k tt) c' Q -> K c st (cbind (set_ty_ctx t) k) c' Q.
Proof. intros A t c st k c' Q HK s E AT. unfold cbind, set_ty_ctx, mcx. apply HK; [exact E|]. unfold at_ in *. cbn. tauto. Qed.

(** Changing the tables. *)
Lemma k_mst : forall A (h : store -> store) c st (k : unit -> M A) c' Q, wf (h st) -> ext st (h st) -> K c (h st) (k tt) c' Q -> K c st (cbind (mst h) k) c' Q.
Proof.
  intros A h c st k c' Q W X HK s E AT. unfold cbind, mst. rewrite E. specialize (HK (mkSst (h st) (sst_cx s)) eq_refl AT).
  destruct (k tt _) as [a s'| | |]; auto. destruct HK as (H1 & H2 & H3). split; [|split]; auto. eapply ext_trans; eauto.
Qed.
Lemma k_new_sym : forall A x c st (k : nat -> M A) c' Q, wf st -> sym_ok st x ->
  (forall st1, ext st st1 -> wf st1 -> nth_error (so_syms st1) (List.length (so_syms st)) = Some x -> ~ In (List.length (so_syms st)) ex -> K c st1 (k (List.length (so_syms st))) c' Q) ->
  K c st (cbind (new_sym x) k) c' Q.
Proof.
  intros A x c st k c' Q W OK HK. unfold new_sym. apply k_assoc, k_gst, k_assoc. pose proof (ext_sym st x) as E.
  assert (W1 : wf (with_syms st (so_syms st ++ [x]))) by (apply wf_sym; [exact W|eapply sym_ok_ext; eauto]).
  apply k_mst; [exact W1|exact E|]. apply k_retb. apply HK; auto; cbn; [apply nth_snoc_r|]. intros H. pose proof (w_ex _ _ _ _ _ _ _ W _ H). lia.
Qed.
Lemma k_new_scope : forall A u c st (k : nat -> M A) c' Q, wf st -> scoped st u ->
  (forall st1, ext st st1 -> wf st1 -> up_is st1 (List.length (so_scopes st)) u -> (B <= List.length (so_scopes st))%nat -> K c st1 (k (List.length (so_scopes st))) c' Q) ->
  K c st (cbind (new_scope (Some u)) k) c' Q.
Proof.
  intros A u c st k c' Q W OK HK. unfold new_scope. apply k_assoc, k_gst, k_assoc. pose proof (ext_scope st (Some u)) as E.
  assert (W1 : wf (with_scopes st (so_scopes st ++ [mkScope [] (Some u)]))) by (apply wf_scope; auto).
  apply k_mst; [exact W1|exact E|]. apply k_retb. apply HK; auto; cbn; [|apply (w_B _ _ _ _ _ _ _ W)].
  eexists. split; [apply nth_snoc_r|reflexivity].
Qed.
Lemma k_upd : forall A i f c st (k : unit -> M A) c' Q, wf st ->
  (forall x, nth_error (so_syms st) i = Some x -> s_name (f x) = s_name x /\ kcl (s_kind (f x)) = kcl (s_kind x)) ->
  (forall x, nth_error (so_syms st) i = Some x -> ~ In i ex -> sym_ok st (f x)) ->
  (forall st1, ext st st1 -> wf st1 -> K c st1 (k tt) c' Q) -> K c st (cbind (upd_sym i f) k) c' Q.
Proof.
  intros A i f c st k c' Q W H1 H2 HK. pose proof (ext_upd st i f H1) as E. pose proof (wf_upd _ _ _ _ _ _ st i f W H1 H2) as W1.
  unfold upd_sym. apply k_mst; auto.
Qed.
(** Marks on a symbol. *)
Lemma k_mark : forall A i f c st (k : unit -> M A) c' Q, wf st -> (forall x, s_name (f x) = s_name x /\ s_kind (f x) = s_kind x) ->
  (forall st1, ext st st1 -> wf st1 -> K c st1 (k tt) c' Q) -> K c st (cbind (upd_sym i f) k) c' Q.
Proof.
  intros A i f c st k c' Q W H HK. apply k_upd; auto.
  - intros x _. destruct (H x) as [-> ->]. auto.
  - intros x X N. pose proof (w_sym _ _ _ _ _ _ _ W _ _ X N) as OK. unfold PlainBase.sym_ok in *. destruct (H x) as [_ ->]. exact OK.
Qed.

(** [define_symbol] *)
Lemma k_define : forall A F i d sc c st n (k : unit -> M A) c' Q, wf st -> gent st n i -> free_name n = true -> (sc = g \/ (B <= sc)%nat /\ var_ok st i) ->
  (forall st1, ext st st1 -> wf st1 -> K c st1 (k tt) c' Q) -> K c st (cbind (define_symbol F i d sc) k) c' Q.
Proof.
  intros A F i d sc c st n k c' Q W [(x & X & N) NE] FN SC HK. unfold define_symbol. apply k_assoc. eapply k_sym; [exact X|]. apply k_assoc, k_gst. apply k_assoc.
  assert (Fin : forall st1, ext st st1 -> wf st1 -> K c st1 (cbind (define sc (s_name x) i) k) c' Q).
  { intros st1 E W1. rewrite N. unfold define. assert (W2 : wf (put st1 sc n i)).
    { apply wf_put; auto; [eapply named_ext; [exact E|exists x; auto]|]. destruct SC as [->|[LE VO]]; [left; auto|right; split; [exact LE|eapply var_ok_ext; eauto]]. }
    apply k_mst; [exact W2|apply ext_put|]. apply HK; [|exact W2]. eapply ext_trans; [exact E|apply ext_put]. }
  destruct (_ || _)%bool.
  - apply k_mark; auto.
  - apply k_retb. apply Fin; [apply ext_refl|exact W].
Qed.

(** ** Names and types *)
Lemma k_resolve : forall A n c st (k : option nat -> M A) c' Q, wf st -> cok st c ->
  (forall o, match o with Some i => ent ex st n i | None => True end -> K c st (k o) c' Q) -> K c st (cbind (resolve_here n) k) c' Q.
Proof.
  intros A n c st k c' Q W (U & _) HK. unfold resolve_here. apply k_assoc, k_scope, k_gst. apply HK. destruct (resolve_sc st (p_cur c) n) eqn:E; [|exact I].
  eapply resolve_ent; [exact W|left; reflexivity|exact U|exact E].
Qed.
Lemma needed_here : forall n c st, wf st -> cok st c -> free_name n = false -> exists i, resolve_sc st (p_cur c) n = Some i /\ prim_sym st i.
Proof.
  intros n c st W (U & _) F. apply (resolve_needed R V g t0 B ex); auto. pose proof (under_lt _ _ _ _ _ _ _ _ W U). lia.
Qed.
Lemma needed_glob : forall n st, wf st -> free_name n = false -> exists i, resolve_sc st g n = Some i /\ prim_sym st i.
Proof.
  intros n st W F. apply (resolve_needed R V g t0 B ex); auto; [constructor|]. destruct (w_B _ _ _ _ _ _ _ W). lia.
Qed.
Lemma k_need : forall A n c st (k : cty -> M A) c' Q, wf st -> cok st c -> free_name n = false -> (forall p, K c st (k (CPrim p)) c' Q) ->
  K c st (cbind (resolve_here n) (fun o => cbind (named_type o) k)) c' Q.
Proof.
  intros A n c st k c' Q W C F HK. unfold resolve_here. apply k_assoc, k_scope, k_gst. destruct (needed_here n c st W C F) as (i & -> & NE & x & p & X & KD).
  unfold named_type. apply k_assoc. eapply k_must; [reflexivity|]. apply k_assoc. eapply k_sym; [exact X|]. eapply k_must; [unfold sym_type; rewrite KD; reflexivity|]. apply HK.
Qed.
Lemma k_need_glob : forall A n c st (k : cty -> M A) c' Q, wf st -> free_name n = false -> (forall p, K c st (k (CPrim p)) c' Q) ->
  K c st (cbind (resolve_global n) (fun o => cbind (named_type o) k)) c' Q.
Proof.
  intros A n c st k c' Q W F HK. unfold resolve_global. apply k_assoc, k_global, k_gst. destruct (needed_glob n st W F) as (i & -> & NE & x & p & X & KD).
  unfold named_type. apply k_assoc. eapply k_must; [reflexivity|]. apply k_assoc. eapply k_sym; [exact X|]. eapply k_must; [unfold sym_type; rewrite KD; reflexivity|]. apply HK.
Qed.

(** The type a symbol has or is. *)
Lemma sym_type_ok : forall st i x t, wf st -> nth_error (so_syms st) i = Some x -> ~ In i ex -> sym_type i x = Some t -> ty_ok st t.
Proof.
  intros st i x t W X N H. pose proof (w_sym _ _ _ _ _ _ _ W _ _ X N) as OK. unfold PlainBase.sym_ok in OK. unfold sym_type in H. destruct (s_kind x) eqn:E; try discriminate; injection H as <-; cbn; auto; try contradiction.
  destruct OK as (RR & _). split; [exact RR|split; [exact N|]]. eauto 8.
Qed.
Lemma sym_ty_ok : forall st i x t, wf st -> nth_error (so_syms st) i = Some x -> ~ In i ex -> sym_ty x = Some t -> ty_ok st t.
Proof.
  intros st i x t W X N H. pose proof (w_sym _ _ _ _ _ _ _ W _ _ X N) as OK. unfold PlainBase.sym_ok in OK. unfold sym_ty in H. destruct (s_kind x) eqn:E; try discriminate; injection H as <-; tauto.
Qed.
Lemma sym_any_ty : forall st i x, wf st -> nth_error (so_syms st) i = Some x -> ~ In i ex ->
  exists t, match sym_type i x with Some t => Some t | None => sym_ty x end = Some t /\ ty_ok st t.
Proof.
  intros st i x W X N. destruct (sym_type i x) eqn:E; [exists c; split; [reflexivity|eapply sym_type_ok; eauto]|].
  pose proof (w_sym _ _ _ _ _ _ _ W _ _ X N) as OK. destruct (sym_ty x) eqn:E2; [exists c; split; [reflexivity|eapply sym_ty_ok; eauto]|].
  exfalso. unfold PlainBase.sym_ok in OK. unfold sym_type in E. unfold sym_ty in E2. destruct (s_kind x); try discriminate; contradiction.
Qed.

Lemma k_type_sym : forall A n c st (k : nat -> M A) c' Q, wf st -> cok st c -> used_name n = true ->
  (forall i x t, nth_error (so_syms st) i = Some x -> ~ In i ex -> sym_type i x = Some t -> ty_ok st t -> K c st (k i) c' Q) -> K c st (cbind (type_sym n) k) c' Q.
Proof.
  intros A n c st k c' Q W C UN HK. unfold type_sym. apply k_assoc, k_resolve; auto. intros o Ho. apply k_assoc.
  assert (Fin : forall o, match o with Some i => ent ex st n i | None => True end ->
    K c st (cbind (match o with None => ccerr | Some i => x <- sym_at i;; match sym_type i x with Some _ => cret i | None => ccerr end end) k) c' Q).
  { clear o Ho. intros [i|] Ho; [|apply k_errb].
    destruct Ho as [(x & X & N) NE]. apply k_assoc. eapply k_sym; [exact X|]. destruct (sym_type i x) eqn:E.
    - apply k_retb. eapply HK; eauto. eapply sym_type_ok; eauto.
    - apply k_errb. }
  destruct o as [i|]; [apply k_retb; apply (Fin (Some i)); exact Ho|]. apply k_assoc, k_tysc, k_gst. apply (Fin (resolve_sc st (p_ty c) n)). destruct (resolve_sc st (p_ty c) n) eqn:E; [|exact I].
  destruct C as (_ & U & _). eapply resolve_ent; [exact W|right; reflexivity|exact U|exact E].
Qed.
Lemma k_get_type : forall y c st, wf st -> cok st c -> plain_type V y = true -> K c st (get_type y) (fun _ => c) (fun t st1 => st1 = st /\ ty_ok st1 t).
Proof.
  induction y; intros c st W C P; cbn in P; try discriminate.
  - destruct gargs; [discriminate|]. apply andb_true_iff in P. destruct P as [P1 P2]. apply negb_true_iff in P1. subst. cbn [get_type].
    apply k_type_sym; auto. intros i x t0' X N E T. unfold construct_ty. eapply k_sym; [exact X|]. eapply k_must; [exact E|]. apply k_ret; auto.
  - (* YArr *) rewrite !andb_true_iff in P. destruct P as [[P1 P2] P3]. apply negb_true_iff in P2. subst. cbn [get_type].
    eapply k_bind; [apply IHy; auto|]. intros t st1 E W1 [-> T]. apply k_ret; cbn; auto.
Qed.
Lemma k_type : forall A y c st (k : cty -> M A) c' Q, wf st -> cok st c -> plain_type V y = true -> (forall t, ty_ok st t -> K c st (k t) c' Q) -> K c st (cbind (get_type y) k) c' Q.
Proof. intros. eapply k_bind; [apply k_get_type; auto|]. intros t st1 E W1 [-> T]. auto. Qed.
Lemma k_type_opt : forall A o c st (k : cty -> M A) c' Q, wf st -> cok st c -> plain_result V o = true -> (forall t, ty_ok st t -> K c st (k t) c' Q) -> K c st (cbind (get_type_opt o) k) c' Q.
Proof.
  intros A [y|] c st k c' Q W C P HK; cbn [get_type_opt]; [apply k_type; auto|]. apply k_assoc. apply k_need; auto. intros p. apply HK. exact I.
Qed.

(** ** Operations on types *)
Lemma promote_total : forall st a b, ty_ok st b -> exists v, promote_to a (strip st b) = PyOk v.
Proof. intros st a b H. destruct b; cbn in *; try contradiction; destruct (promotion_to _ _); eauto. Qed.
Lemma match_total : forall st a b, ty_ok st b -> exists v, types_match (strip st b) a = PyOk v.
Proof. intros st a b H. unfold types_match. destruct (ty_eqb _ _); [eauto|]. apply promote_total; auto. Qed.
Lemma cast_total : forall st a b, ty_ok st b -> exists v, check_cast a (strip st b) = PyOk v.
Proof. intros st a b H. destruct b; cbn in *; try contradiction; destruct a; eauto. Qed.
Lemma k_promotes : forall A a b c st (k : bool -> M A) c' Q, ty_ok st b -> (forall v, K c st (k v) c' Q) -> K c st (cbind (promotes a b) k) c' Q.
Proof. intros A a b c st k c' Q T HK. unfold promotes. apply k_assoc, k_gst. destruct (promote_total st (strip st a) b T) as (v & ->). apply HK. Qed.
Lemma k_match : forall A a b c st (k : bool -> M A) c' Q, ty_ok st a -> (forall v, K c st (k v) c' Q) -> K c st (cbind (match_ty a b) k) c' Q.
Proof. intros A a b c st k c' Q T HK. unfold match_ty. apply k_assoc, k_gst. destruct (match_total st (strip st b) a T) as (v & ->). apply HK. Qed.
Lemma k_cast : forall A a b c st (k : bool -> M A) c' Q, ty_ok st b -> (forall v, K c st (k v) c' Q) ->
  K c st (cbind (gst (fun st => check_cast (strip st a) (strip st b))) (fun ok => cbind (py ok) k)) c' Q.
Proof. intros A a b c st k c' Q T HK. apply k_gst. destruct (cast_total st (strip st a) b T) as (v & ->). apply HK. Qed.
Lemma binop_total : forall st a b op, ty_ok st a -> exists o, ty_binop (strip st a) op b = PyOk o /\ forall t, o = Some t -> exists p, t = TyPrim p.
Proof.
  intros st a b op H. destruct a; cbn in *; try contradiction.
  - unfold primitive_binop. destruct (negb _); [eexists; split; [reflexivity|discriminate]|]. destruct b; try (eexists; split; [reflexivity|discriminate]).
    destruct op; eexists; (split; [reflexivity|]); match goal with |- forall _, (if ?b then _ else _) = _ -> _ => destruct b end; intros t [= <-]; eauto.
  - eexists; split; [reflexivity|discriminate].
  - eexists; split; [reflexivity|]. unfold reg_binop. destruct (_ && _)%bool; [|discriminate]. intros t [= <-]. eauto.
Qed.
Lemma unop_prim : forall st a op t, ty_ok st a -> ty_unop op (strip st a) = Some t -> exists p, a = CPrim p.
Proof. intros st a op t H. destruct a; cbn in *; try contradiction; try discriminate. eauto. Qed.

(** ** Properties *)
Lemma met_gent : forall st n i, met_ok st n i -> gent st n i.
Proof. intros st n i (NE & x & tg & r & ps & X & N & _). split; [exists x; auto|exact NE]. Qed.
Lemma k_prop : forall A t n c st (k : option nat -> M A) c' Q, wf st -> ty_ok st t ->
  (forall o, match o with Some i => gent st n i | None => True end -> K c st (k o) c' Q) -> K c st (cbind (get_property t n) k) c' Q.
Proof.
  intros A t n c st k c' Q W T HK. destruct t; cbn in T; try contradiction; cbn [get_property].
  - apply k_gst. apply HK. destruct (find _ _) as [[p' l]|] eqn:E; [|exact I]. cbn [snd]. destruct (assoc n l) eqn:E2; [|exact I]. apply find_some in E.
    pose proof (w_pr _ _ _ _ _ _ _ W _ _ (proj1 E)) as H. rewrite Forall_forall in H. specialize (H _ (assoc_in _ _ _ E2)). apply met_gent. exact H.
  - apply k_retb. apply HK. exact I.
  - destruct T as (RR & NE & x & f & ms & tp & X & KD). apply k_assoc. eapply k_sym; [exact X|]. rewrite KD. apply k_gst. apply HK.
    pose proof (w_sym _ _ _ _ _ _ _ W _ _ X NE) as OK. unfold PlainBase.sym_ok in OK. rewrite KD in OK. destruct OK as (_ & LE & _ & MS).
    destruct (scope_get st f n) eqn:E.
    + unfold scope_get in E. destruct (nth_error (so_scopes st) f) eqn:E2; [|discriminate]. destruct (w_sc _ _ _ _ _ _ _ W _ _ LE E2) as (u & _ & _ & F).
      rewrite Forall_forall in F. destruct (F _ (assoc_in _ _ _ E)) as ((N1 & _) & N2 & _). split; auto.
    + destruct (assoc n ms) eqn:E2; [|exact I]. rewrite Forall_forall in MS. apply met_gent. exact (MS _ (assoc_in _ _ _ E2)).
Qed.

(** ** Variables *)
Lemma k_variable : forall A n c st (k : nat * cty -> M A) c' Q, wf st -> cok st c -> used_name n = true ->
  (forall i x t, nth_error (so_syms st) i = Some x -> ~ In i ex -> s_kind x = SVar t -> ty_ok st t -> K c st (k (i, t)) c' Q) -> K c st (cbind (visit_variable n) k) c' Q.
Proof.
  intros A n c st k c' Q W C UN HK. unfold visit_variable. apply k_assoc, k_resolve; auto. intros [i|] Ho; [|apply k_errb]. destruct Ho as [(x & X & N) NE].
  specialize (NE UN). apply k_assoc. eapply k_sym; [exact X|]. pose proof (w_sym _ _ _ _ _ _ _ W _ _ X NE) as OK. unfold PlainBase.sym_ok in OK.
  unfold can_evaluate. destruct (s_kind x) eqn:KD; try apply k_errb; try contradiction. apply k_assoc. eapply k_must; [unfold sym_ty; rewrite KD; reflexivity|]. apply k_retb. eapply HK; eauto.
Qed.
Lemma k_here : forall A n c st (k : option nat -> M A) c' Q, (forall o, K c st (k o) c' Q) -> K c st (cbind (get_here n) k) c' Q.
Proof. intros. unfold get_here. apply k_assoc, k_scope, k_gst. auto. Qed.
Lemma k_free : forall A ln n c st (k : unit -> M A) c' Q, K c st (k tt) c' Q -> K c st (cbind (assert_free ln n) k) c' Q.
Proof.
  intros. unfold assert_free. apply k_assoc, k_here. intros [i|]; [|apply k_retb; exact H]. apply k_assoc, k_gcx. intros [|]; [|apply k_errb].
  intros s E AT. exact I.
Qed.
Lemma k_decl : forall A n c st (k : unit -> M A) c' Q, K c st (k tt) c' Q -> K c st (cbind (validate_decl n) k) c' Q.
Proof.
  intros. unfold validate_decl. apply k_assoc, k_gcx. intros d. destruct (0 <? d)%nat; [apply k_errb|]. apply k_assoc, k_here. intros [i|]; [apply k_errb|apply k_retb; exact H].
Qed.
Lemma k_new_var : forall A n t c st (k : nat -> M A) c' Q, wf st -> ty_ok st t ->
  (forall st1 i, ext st st1 -> wf st1 -> gent st1 n i -> var_ok st1 i -> K c st1 (k i) c' Q) -> K c st (cbind (new_var n t) k) c' Q.
Proof.
  intros A n t c st k c' Q W T HK. unfold new_var. apply k_assoc, k_gcx. intros m. apply k_new_sym; [exact W|exact T|]. intros st1 E W1 X NE. apply HK; auto.
  - split; [eexists; split; [exact X|reflexivity]|exact NE].
  - split; [exact NE|]. eexists _, _. split; [exact X|reflexivity].
Qed.
Lemma k_mapc : forall A2 D A (f : D -> M A2) l (P : A2 -> store -> Prop) c st (k : list A2 -> M A) c' Q, wf st -> cok st c ->
  (forall b a1 a2, ext a1 a2 -> P b a1 -> P b a2) ->
  (forall a st1, In a l -> ext st st1 -> wf st1 -> cok st1 c -> K c st1 (f a) (fun _ => c) P) ->
  (forall bs st1, ext st st1 -> wf st1 -> cok st1 c -> Forall (fun b => P b st1) bs -> List.length bs = List.length l -> K c st1 (k bs) c' Q) -> K c st (cbind (mapc f l) k) c' Q.
Proof.
  intros A2 D A f l P c st k c' Q W C ST H HK.
  cut (K c st (mapc f l) (fun _ => c) (fun bs st1 => Forall (fun b => P b st1) bs /\ List.length bs = List.length l)).
  { intros G. eapply k_bind; [exact G|]. intros bs st1 E W1 [F1 F2]. apply HK; auto. eapply cok_ext; eauto. }
  clear HK. revert st W C H. induction l as [|a l IH]; intros st W C H; cbn [mapc].
  - apply k_ret; auto.
  - eapply k_bind; [apply H; [left; reflexivity|apply ext_refl|exact W|exact C]|]. intros b st1 E1 W1 P1. cbv beta. pose proof (cok_ext _ _ _ E1 C) as C1.
    eapply k_bind; [apply IH; auto; intros a' st2 I2 E2 W2 C2; apply H; auto; [right; exact I2|eapply ext_trans; eauto]|]. intros bs st2 E2 W2 [F1 F2]. cbv beta.
    apply k_ret; [exact W2|]. split; [constructor; [eapply ST; eauto|exact F1]|cbn; congruence].
Qed.
End Step.

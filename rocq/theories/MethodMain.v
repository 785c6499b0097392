(** [visit] keeps the invariant of [MethodBase.v], and all calls of members in its
    result are [dispatched]. *)
From Verif Require Import Lexer Base Dec Bson Value VM Ast CodeGen Compile Types BaseFacts Syntax Parser Sym Exhaust Check Front AcceptBase AcceptFrame Spec_Method MethodBase MethodVisit.
From Coq Require Import Lia.
Local Open Scope chk_scope.

(** [tri] with two contexts. *)
Lemma t_skip {A B} c c2 (P : store -> Prop) (m : M A) (f : A -> M B) Q : stable P -> fine m -> (forall a, tri c c2 P (f a) Q) -> tri c c2 P (cbind m f) Q.
Proof.
  intros HS Hm Hf. apply (tri_bind c (fun _ => c) c2 P m (fun _ _ => True)); [exact HS|apply k_fine, Hm|].
  intros a. eapply tri_weaken; [apply Hf|intros st [H _]; exact H|cbv beta; auto].
Qed.
Lemma t_bind {A B} c c2 (P : store -> Prop) (m : M A) Q1 (f : A -> M B) Q :
  stable P -> keep c P m Q1 -> (forall a, tri c c2 (fun st => P st /\ Q1 a st) (f a) Q) -> tri c c2 P (cbind m f) Q.
Proof. intros HS Hm Hf. eapply tri_bind; eauto. Qed.
Lemma t_crash {A} c c2 P Q : tri c c2 P (@crash A) Q. Proof. intros s ? ? ? ?. exact I. Qed.
Lemma t_ccerr {A} c c2 P Q : tri c c2 P (@ccerr A) Q. Proof. intros s ? ? ? ?. exact I. Qed.
Lemma t_cerr_at {A} l c c2 P Q : tri c c2 P (@cerr_at A l) Q. Proof. intros s ? ? ? ?. exact I. Qed.
Lemma t_must {A B} c c2 (P : store -> Prop) (o : option A) (k : A -> M B) Q : (forall a, o = Some a -> tri c c2 P (k a) Q) -> tri c c2 P (cbind (must o) k) Q.
Proof. destruct o as [a|]; intros H; [exact (H a eq_refl) | intros s ? ? ? ?; exact I]. Qed.
Definition inside (c : ctx) (b : nat) : ctx := (b, S (snd (fst c)), snd c).
Lemma t_enter c (P : store -> Prop) o : (forall st, P st -> match o with Some k => up_is k (Some (fst (fst c))) st | None => True end) ->
  tri c (inside c) P (enter_scope o) (fun b st => up_is b (Some (fst (fst c))) st).
Proof.
  intros H. destruct c as [[sc d] g]. cbn [fst snd] in *. intros s G O (C1 & C2 & C3) HP. cbn [fst snd] in *. destruct O as [O1 O2]. cbn [fst snd] in *.
  unfold enter_scope, cbind, gcx, set_scope, mcx. destruct o as [k|].
  - cbn. specialize (H _ HP). split; [exact G|]. split; [apply R_refl|]. split; [split; [|exact O2]|split; [|exact H]].
    + cbn. rewrite <- ?C2. eapply chain_up; [exact H|]. congruence.
    + unfold cxis. cbn. rewrite C2. auto.
  - pose proof (k_scope (sc, d, g) (fun _ => True) (Some (cx_scope (sst_cx s))) s G (conj O1 O2) (conj C1 (conj C2 C3)) I) as K.
    destruct (new_scope _ s) as [k s'|? ?| |]; auto. destruct K as (A1 & A2 & (A3 & A3') & (B1 & B2 & B3) & A5). cbn [fst snd] in *. cbn.
    rewrite C1 in A5. split; [exact A1|]. split; [exact A2|]. split; [split; cbn; [|exact A3']|split; [|exact A5]].
    + eapply chain_up; [exact A5|exact A3].
    + unfold cxis. cbn. rewrite C2. auto.
Qed.
Lemma t_enter_some c (P : store -> Prop) k : (forall st, P st -> up_is k (Some (fst (fst c))) st) ->
  tri c (fun _ => inside c k) P (enter_scope (Some k)) (fun _ _ => True).
Proof.
  intros H s G O C HP. pose proof (t_enter c P (Some k) H s G O C HP) as K.
  unfold enter_scope, cbind, gcx, set_scope, mcx in *. cbn in *. destruct K as (A1 & A2 & A3 & A4 & _). auto.
Qed.
Lemma t_leave c b (P : store -> Prop) : (forall st, P st -> up_is b (Some (fst (fst c))) st) -> tri (inside c b) (fun _ => c) P leave_scope (fun _ _ => True).
Proof.
  intros H. destruct c as [[sc d] g]. cbn [fst snd inside] in *. intros s G [O1 O2] (C1 & C2 & C3) HP. cbn [fst snd inside] in *.
  unfold leave_scope, cbind, gcx, gst, set_scope, mcx. rewrite C1. destruct (H _ HP) as (e & E & U). rewrite E. cbn [must cret]. rewrite U. cbn [must cret]. cbn. rewrite C2. cbn [pred].
  split; [exact G|]. split; [apply R_refl|]. split; [|split; [|exact I]].
  - split; [cbn|exact O2]. inversion O1 as [|? u ? (e' & E' & U') O']; subst. rewrite E in E'. injection E' as <-. rewrite U in U'. injection U' as <-. exact O'.
  - unfold cxis. cbn. auto.
Qed.

(** Methods are entered in the tables. *)
Lemma k_defmet c t n i : keep c (fun st => method_of st t n i) (define_method t n i) (fun _ _ => True).
Proof.
  induction t as [p|t IH|j|j|g IH args|v|p]; cbn [define_method]; try apply k_crash.
  - apply k_mst. intros st G _ HP. set (l := match find _ _ with Some _ => _ | None => _ end).
    assert (HR : R st (with_prims st l)). { split; [intros k x E; exists x; split; [exact E|apply keeps_refl]|]. intros k x E. exists x. auto. }
    split; [|split; [exact HR|exact I]]. constructor.
    + intros k x f ms tp E K. destruct (g_reg _ G k x f ms tp E K) as (A & v & B). split; [exact A|]. exists v. exact B.
    + intros k x vs ms tp E K. exact (g_uni _ G k x vs ms tp E K).
    + intros q tb HI. change (In (q, tb) l) in HI. change (table_ok st (CPrim q) tb). subst l.
      assert (S : forall tb0, table_ok st (CPrim p) tb0 -> table_ok st (CPrim p) (assoc_set tb0 n i)).
      { intros tb0 H0. unfold table_ok in *. rewrite Forall_forall in *. intros [m j] Hj. apply in_assoc_set in Hj as [Hj|[-> ->]]; [exact (H0 _ Hj)|exact HP]. }
      destruct (find _ _) eqn:E.
      * apply in_map_iff in HI as ([q0 t0] & E0 & I0). cbn [fst snd] in E0. destruct (prim_eqb q0 p) eqn:EP.
        { injection E0 as <- <-. assert (q0 = p) by (destruct q0, p; try discriminate EP; reflexivity). subst q0. apply S. exact (g_prim st G _ _ I0). }
        { injection E0 as <- <-. exact (g_prim st G _ _ I0). }
      * apply in_app_iff in HI as [HI|[HI|[]]]; [exact (g_prim st G _ _ HI)|]. injection HI as <- <-. constructor; [exact HP|constructor].
    + intros k d u m j E U HI. exact (g_scope st G k d u m j E U HI).
  - apply k_upd. intros st G HP x E.
    destruct (s_kind x) as [| | | | |f ms tp| |] eqn:K; (split; [unfold s_set_kind; repeat split; cbn; rewrite ?K; auto|]); rewrite ?K; try exact I.
    + cbn. destruct (g_reg st G _ _ _ _ _ E K) as [T _]. unfold table_ok in *. rewrite Forall_forall in *. intros [m k] Hk.
      apply in_assoc_set in Hk as [Hk|[-> ->]]; [exact (T _ Hk)|exact HP].
    + exact (g_uni st G _ _ _ _ _ E K).
  - apply k_upd. intros st G HP x E.
    destruct (s_kind x) as [| | | | | |vs ms tp|] eqn:K; (split; [unfold s_set_kind; repeat split; cbn; rewrite ?K; auto|]); rewrite ?K; try exact I.
    + exact (proj1 (g_reg st G _ _ _ _ _ E K)).
    + cbn. pose proof (g_uni st G _ _ _ _ _ E K) as T. unfold table_ok in *. rewrite Forall_forall in *. intros [m k] Hk.
      apply in_assoc_set in Hk as [Hk|[-> ->]]; [exact (T _ Hk)|exact HP].
  - eapply k_weak; [exact IH|]. intros st H. exact H.
Qed.
Lemma k_valdecl c (P : store -> Prop) n : keep c P (validate_decl n) (fun _ st => up_is (fst (fst c)) None st).
Proof.
  unfold validate_decl. apply k_depth_here. destruct (snd (fst c)) as [|d] eqn:D; cbn [Nat.ltb Nat.leb]; [|apply k_ccerr].
  intros s G O C HP. unfold get_here, cbind, gcx, gst. destruct (scope_get _ _ _); [exact I|]. cbn.
  split; [exact G|]. split; [apply R_refl|]. split; [exact O|]. split; [exact C|]. destruct O as [O _]. rewrite D in O. inversion O; subst. assumption.
Qed.

(** The variables a compiled [iguala] adds to its scope. *)
Section Dict.
Variable dict : list (text * nat).
Variable next : nat.
Definition dinv (s : xst) : Prop :=
  x_next s = (next + List.length (x_new s))%nat /\
  forall n i, In (n, i) (x_dict s) -> In (n, i) dict \/ (next <= i < x_next s)%nat.
Definition xok {A} (m : X A) : Prop := forall s, dinv s -> match m s with XOk _ s' => dinv s' | _ => True end.
Lemma x_bind {A B} (m : X A) (f : A -> X B) : xok m -> (forall a, xok (f a)) -> xok (xbind m f).
Proof. intros Hm Hf s H. unfold xbind. specialize (Hm s H). destruct (m s) as [a s'| |]; auto. apply Hf, Hm. Qed.
Lemma x_ret {A} (a : A) : xok (xret a). Proof. intros s H. exact H. Qed.
Lemma x_crash {A} : xok (@xcrash A). Proof. intros s H. exact I. Qed.
Lemma x_get {A} (f : xst -> A) : xok (xget f). Proof. intros s H. exact H. Qed.
Lemma x_must {A} (o : option A) : xok (xmust o). Proof. destruct o; [apply x_ret|apply x_crash]. Qed.
Lemma x_mapx {A B} (f : A -> X B) l : (forall a, In a l -> xok (f a)) -> xok (mapx f l).
Proof.
  induction l as [|a l IH]; intros H; cbn [mapx]; [apply x_ret|]. apply x_bind; [apply H; left; reflexivity|intros b].
  apply x_bind; [apply IH; intros y Hy; apply H; right; exact Hy|intros; apply x_ret].
Qed.
Variable teq : cty -> cty -> bool.
Variable constructors : cty -> option (list (dcons * list cty)).
Variable infinite_ok : cty -> bool.
Lemma x_remove r v : xok (remove_column teq r v).
Proof. intros s H. unfold remove_column. destruct (nth_error _ _) as [[c a]|]; [|exact I]. destruct (pop_col _ _ _) as [[k l]|]; exact H. Qed.
Lemma x_move r : xok (move_patterns r). Proof. intros s H. exact H. Qed.
Lemma x_branch l : xok (branch_variable l).
Proof. intros s H. unfold branch_variable. destruct l as [|r l]; [exact I|]. destruct (cols_of s r); [exact I|exact H]. Qed.
Lemma x_newvar t : xok (new_variable t).
Proof.
  intros s [H1 H2]. unfold new_variable. split; cbn [x_next x_new x_dict].
  - rewrite app_length, H1. cbn. rewrite Nat.add_1_r, Nat.add_succ_r. reflexivity.
  - intros n i HI. apply in_assoc_set in HI as [HI|[_ ->]].
    + destruct (H2 n i HI) as [A|[A B]]; [auto|]. right. split; [exact A|]. apply Nat.lt_lt_succ_r, B.
    + right. split; [rewrite H1; apply Nat.le_add_r|apply Nat.lt_succ_diag_r].
Qed.
Lemma x_missing' : xok mark_missing. Proof. intros s H. exact H. Qed.
Lemma x_reached a : xok (mark_reached a). Proof. intros s H. exact H. Qed.
Local Open Scope exh_scope.
Lemma x_inf v rows : forall raw tested fb, xok (split_infinite teq rows v raw tested fb).
Proof.
  induction rows as [|r rows IH]; intros raw tested fb; cbn [split_infinite]; [apply x_ret|].
  apply x_bind; [apply x_remove|intros o]. destruct o as [k|]; [|apply IH]. apply x_bind; [apply x_must|intros q]. destruct (lookup_key _ _) as [[|?]|]; apply IH.
Qed.
Lemma x_split v rows : forall cases, xok (split_constructors teq rows v cases).
Proof.
  induction rows as [|r rows IH]; intros cases; cbn [split_constructors]; [apply x_ret|].
  apply x_bind; [apply x_remove|intros o]. destruct o as [k|]; [|apply IH]. destruct (c_pat k); try apply IH.
  apply x_bind; [apply x_must|intros e]. apply x_bind; [|intros; apply IH]. intros s H. destruct (nth_error _ _) as [[? ?]|]; [exact H|exact I].
Qed.
Lemma x_compile fuel : forall rows, xok (compile_rows teq constructors infinite_ok fuel rows).
Proof.
  induction fuel as [|fuel IH]; intros rows; cbn [compile_rows]; [intros s H; exact I|]. destruct rows as [|r rows].
  - apply x_bind; [apply x_missing'|intros; apply x_ret].
  - apply x_bind; [apply x_mapx; intros; apply x_move|intros _]. apply x_bind; [apply x_get|intros cs]. destruct cs.
    + apply x_bind; [apply x_get|intros a]. apply x_bind; [apply x_reached|intros; apply x_ret].
    + apply x_bind; [apply x_branch|intros v]. destruct (constructors _) as [ks|].
      * apply x_bind.
        { apply x_mapx. intros k _. apply x_bind; [apply x_mapx; intros; apply x_newvar|intros; apply x_ret]. }
        intros cases. apply x_bind; [apply x_split|intros cs2]. apply x_bind; [|intros; apply x_ret]. apply x_mapx. intros e _. apply x_bind; [apply IH|intros; apply x_ret].
      * destruct (infinite_ok _); [|apply x_crash]. apply x_bind; [apply x_inf|intros [raw fb]].
        apply x_bind; [|intros; apply x_bind; [apply IH|intros; apply x_ret]]. apply x_mapx. intros e _. apply x_bind; [apply IH|intros; apply x_ret].
Qed.
Lemma dict_ok target arms tree xs : compile_iguala teq constructors infinite_ok target arms dict next = XOk tree xs ->
  forall n i, In (n, i) (x_dict xs) -> In (n, i) dict \/ (next <= i < next + List.length (x_new xs))%nat.
Proof.
  unfold compile_iguala. match goal with |- context[compile_rows _ _ _ ?f ?r ?s] => pose proof (x_compile f r s) as H end.
  assert (D : dinv {| x_cols := map (fun p => [mkCol target p]) arms; x_rows := map (fun i => (i, i)) (seq 0 (List.length arms)); x_binds := repeat [] (List.length arms);
     x_dict := dict; x_new := []; x_next := next; x_reach := []; x_missing := false |}) by (split; [cbn; rewrite Nat.add_0_r; reflexivity|cbn; auto]).
  specialize (H D). destruct (compile_rows _ _ _ _ _ _) as [t s| |]; try discriminate. intros E. injection E as _ <-. destruct H as [H1 H2]. rewrite <- H1. exact H2.
Qed.
End Dict.
Lemma good_news st l : good st -> (forall x, In x l -> exists t, s_kind x = SVar t) ->
  good (with_syms st (so_syms st ++ l)) /\ R st (with_syms st (so_syms st ++ l)).
Proof.
  intros G N.
  assert (H : forall i y, nth_error (so_syms st) i = Some y -> exists x', nth_error (so_syms st ++ l) i = Some x' /\ keeps_sym y x').
  { intros i y E. exists y. split; [|apply keeps_refl]. rewrite nth_error_app1; [exact E|]. apply nth_error_Some. congruence. }
  assert (HR : R st (with_syms st (so_syms st ++ l))) by (apply R_syms, H).
  assert (L : forall i x, nth_error (so_syms st ++ l) i = Some x -> nth_error (so_syms st) i = Some x \/ In x l).
  { intros i x E. destruct (Nat.lt_ge_cases i (List.length (so_syms st))) as [Lt|Ge]; [left; rewrite nth_error_app1 in E; assumption|].
    right. rewrite nth_error_app2 in E by exact Ge. eapply nth_error_In; exact E. }
  split; [|exact HR]. apply good_syms; [exact G|exact H| |].
  - intros i x' f ms tp E K. destruct (L i x' E) as [E'|HI]; [|destruct (N _ HI) as [t Ht]; congruence].
    destruct (g_reg st G i x' f ms tp E' K) as [A B]. split; [eapply st_table; eauto|exact B].
  - intros i x' vs ms tp E K. destruct (L i x' E) as [E'|HI]; [|destruct (N _ HI) as [t Ht]; congruence].
    eapply st_table; [exact (g_uni st G i x' vs ms tp E' K)|exact HR].
Qed.
Lemma t_vars {B} c c2 (P : store -> Prop) (tv : nat) nm vty (pats : list xpat) isc u (K : dtree -> xst -> M B) Q :
  stable P -> (forall st, P st -> up_is isc (Some u) st) -> (forall tree xs, tri c c2 P (K tree xs) Q) ->
  tri c c2 P (
        dict <- gst (fun st => match nth_error (so_scopes st) isc with Some c => sc_syms c | None => [] end) ;;
        next <- gst (fun st => List.length (so_syms st)) ;;
        out <- gst (fun st => compile_iguala (fun a b => ty_eqb (strip st a) (strip st b)) (constructors_of st) infinite_type
                                (mkXvar tv nm vty) pats dict next) ;;
        match out with
        | XCrash => crash
        | XFuel => fun _ => CFuel
        | XOk tree xs => add_vars (x_new xs) isc (x_dict xs) ;;; K tree xs
        end) Q.
Proof.
  intros HS HU HK s G O C HP. unfold cbind at 1 2 3, gst.
  destruct (compile_iguala _ _ _ _ _ _ _) as [tree xs| |] eqn:E; try exact I.
  pose proof (dict_ok _ _ _ _ _ _ _ _ _ E) as D. destruct (HU _ HP) as (d & Ed & Ud). rewrite Ed in D. clear E.
  unfold add_vars, cbind, gcx, mst. cbn [sst_st sst_cx].
  set (l := map _ (x_new xs)). set (st1 := with_syms (sst_st s) (so_syms (sst_st s) ++ l)).
  destruct (good_news (sst_st s) l G) as [G1 R1].
  { intros x Hx. apply in_map_iff in Hx as (v & <- & _). exists (xv_ty v). reflexivity. }
  destruct (good_scopes st1 isc (fun s => mkScope (x_dict xs) (sc_up s)) G1) as [G2 R2].
  { intros d' Ed'. split; [reflexivity|]. cbn [sc_syms]. intros u' n i _ HI. destruct (D n i HI) as [HD|[L1 L2]].
    - destruct (g_scope _ G isc d u n i Ed Ud HD) as (x & Ex & Kx). exists x. split; [|exact Kx]. cbn. rewrite nth_error_app1; [exact Ex|]. apply nth_error_Some. congruence.
    - cbn. rewrite nth_error_app2 by exact L1. assert (LL : (i - List.length (so_syms (sst_st s)) < List.length l)%nat).
      { unfold l. rewrite map_length. lia. }
      apply nth_error_Some in LL. destruct (nth_error l _) as [x|] eqn:Ex; [|congruence]. exists x. split; [reflexivity|].
      apply nth_error_In, in_map_iff in Ex as (v & <- & _). reflexivity. }
  pose proof (R_trans _ _ _ R1 R2) as RR.
  specialize (HK tree xs (mkSst (with_scopes st1 (upd (so_scopes st1) isc (fun s0 => mkScope (x_dict xs) (sc_up s0)))) (sst_cx s)) G2 (st_okc _ _ _ O RR) C (HS _ _ HP RR)).
  fold st1. destruct (K tree xs _) as [b s'|? ?| |]; auto. destruct HK as (A1 & A2 & A3). split; [exact A1|]. split; [eapply R_trans; [exact RR|exact A2]|exact A3].
Qed.

Section Visit.
Variable F : front_env.
Variable usa : smode -> text -> M unit.
Hypothesis usa_fine : forall mode w, fine (usa mode w).

Definition vq (r : tx * option nat) (st : store) : Prop :=
  calls_ok (fst r) st /\
  match snd r with Some i => match fst r with TGet _ a m _ => member_ok (tx_ty a) m i st | _ => True end | None => True end.
Lemma st_vq r : stable (vq r).
Proof. unfold vq. apply st_and; [apply st_calls|]. destruct (snd r); [|apply st_true]. destruct (fst r); try apply st_true. apply st_member. Qed.
Definition given (sc : option nat) (c : ctx) (st : store) : Prop := match sc with Some k => up_is k (Some (fst (fst c))) st | None => True end.
Lemma st_given sc c : stable (given sc c). Proof. destruct sc; [apply st_up|apply st_true]. Qed.
Definition vok (x : sx) : Prop := forall c p sc again, keep c (given sc c) (visit F usa x p sc again) vq.
Definition parts (x : sx) : Prop := match x with XArm _ _ b => vok b | XCaso _ a b => vok a /\ vok b | _ => True end.

Lemma calls_prom b x st : calls_ok x st -> calls_ok (set_prom b x) st.
Proof. unfold calls_ok. destruct x; auto. Qed.
Lemma calls_list l st : Forall (fun b => calls_ok b st) l -> Forall (dispatched st) (flat_map member_calls l).
Proof. induction 1 as [|b l H _ IH]; cbn [flat_map]; [constructor|]. apply Forall_app. split; assumption. Qed.
Lemma vq_calls r st : vq r st -> calls_ok (fst r) st. Proof. intros [H _]. exact H. Qed.
Lemma vq_none t st : calls_ok t st -> vq (t, None) st. Proof. intros H. split; [exact H|exact I]. Qed.

Ltac st ::=
  repeat first [ apply st_true | apply st_has | apply st_up | apply st_vq | apply st_given | apply st_calls | apply st_member | apply st_const | apply st_avar
               | apply st_method | apply st_table | apply st_forall; intros ? | apply st_and ].
Lemma f_prop t n : fine (get_property t n).
Proof. intros c. eapply tri_weaken; [apply (k_prop c t n)|cbv beta; auto|cbv beta; auto]. Qed.
Ltac fbase :=
  first [ apply f_get_type_opt | apply f_leave_ty | apply f_free | apply f_valdecl | apply f_tname | apply f_pat_int | apply f_walk | apply f_vpath
        | apply f_vvar | apply f_match_args | apply f_ptypes | apply f_defparams | apply f_generics | apply f_variants | apply f_pattern | apply f_declare
        | apply f_ret | apply f_crash | apply f_ccerr | apply f_cerr_at | apply f_gcx | apply f_gst | apply f_must | apply f_py | apply f_sym_at
        | apply f_set_line | apply f_set_reg | apply f_set_func | apply f_set_yield | apply f_set_loop | apply f_set_module | apply f_set_ty
        | apply f_upd_out | apply f_upd_global | apply f_upd_prop
        | apply f_count | apply f_rhere | apply f_ghere | apply f_rglob | apply f_tyeq | apply f_prom | apply f_match | apply f_tag | apply f_scope | apply f_newvar
        | apply f_named | apply f_type_sym | apply f_mod_or_err | apply f_mod_scope | apply f_opcao | apply f_get_type ].
Ltac fgo := cbv beta zeta; repeat first [ fbase | match goal with |- fine (match ?x with _ => _ end) => destruct x end | apply f_bind; [|intros ?] ]; fail.
Ltac vis IH := eapply k_bind; [solve [st] | eapply k_weak; [apply IH|intros ? ?; exact I] | intros ?].
Ltac dall := repeat match goal with H : _ /\ _ |- _ => destruct H end.
Ltac cok :=
  unfold calls_ok in *; cbn [member_calls] in *; rewrite ?Forall_app;
  repeat match goal with |- _ /\ _ => split end;
  auto using calls_prom, calls_list.
Ltac fin :=
  apply k_ret; let st := fresh "st" in let H := fresh "H" in intros st H; dall;
  repeat match goal with H : vq _ st |- _ => apply vq_calls in H end;
  try apply vq_none;
  first [ solve [constructor] | assumption | apply calls_prom; assumption
        | solve [unfold calls_ok; cbn [member_calls]; rewrite ?Forall_app; repeat match goal with |- _ /\ _ => split end;
                 first [assumption | apply calls_list; assumption | apply calls_prom; assumption | constructor]] ].
Ltac kstep :=
  first [ apply k_crash | apply k_ccerr | apply k_cerr_at | solve [fin]
        | match goal with IH : vok ?x |- keep _ _ (cbind (visit _ _ ?x _ None _) _) _ => vis IH end
        | apply k_skip; [solve [st] | solve [fgo] | intros ?]
        | match goal with |- keep _ _ (match ?x with _ => _ end) _ => destruct x end ];
  cbv beta zeta.
Ltac kgo := cbv beta zeta; repeat kstep.

Definition fq (r : tx * nat) (st : store) : Prop :=
  calls_ok (fst r) st /\ match fst r with TGet _ a m _ => member_ok (tx_ty a) m (snd r) st | _ => True end.
Lemma st_fq r : stable (fq r).
Proof. unfold fq. apply st_and; [apply st_calls|]. destruct (fst r); try apply st_true. apply st_member. Qed.
Lemma calls_call ln i f args t pr st : fq (f, i) st -> Forall (fun b => calls_ok b st) args -> calls_ok (TCall ln i f args t pr) st.
Proof.
  intros [H1 H2] H3. unfold calls_ok in *. cbn [member_calls fst snd] in *. rewrite !Forall_app. split; [|split; [exact H1|apply calls_list, H3]].
  destruct f; constructor; [exact H2|constructor].
Qed.
Definition lq (l : list tx) (st : store) : Prop := Forall (fun b => calls_ok b st) l.
Lemma st_lq l : stable (lq l). Proof. apply st_forall. intros a. apply st_calls. Qed.
Lemma k_match_args c ts : forall l (P : store -> Prop), stable P -> (forall st, P st -> lq l st) -> keep c P (match_args ts l) lq.
Proof.
  induction ts as [|t ts IH]; intros [|x l] P HS H; cbn [match_args]; try (apply k_ret; exact H).
  apply k_skip; [exact HS|fbase|intros _]. apply k_skip; [exact HS|fbase|intros ok]. destruct (negb ok); [apply k_ccerr|].
  eapply k_bind; [exact HS|apply IH; [exact HS|]|].
  - intros st HP. specialize (H st HP). inversion H; subst; assumption.
  - intros r. apply k_ret. intros st [HP Hr]. specialize (H st HP). inversion H; subst. constructor; [apply calls_prom; assumption|exact Hr].
Qed.
Ltac st ::=
  repeat first [ apply st_true | apply st_has | apply st_up | apply st_vq | apply st_fq | apply st_lq | apply st_given | apply st_calls | apply st_member | apply st_const | apply st_avar
               | apply st_method | apply st_table | apply st_forall; intros ? | apply st_and ].
Definition oq (o : option tx) (st : store) : Prop := match o with Some e => calls_ok e st | None => True end.
Lemma st_oq o : stable (oq o). Proof. destruct o; [apply st_calls|apply st_true]. Qed.
Lemma oq_calls o st : oq o st -> Forall (dispatched st) (match o with Some e => member_calls e | None => [] end).
Proof. destruct o; [auto|constructor]. Qed.
Ltac st ::=
  repeat first [ apply st_true | apply st_has | apply st_up | apply st_vq | apply st_fq | apply st_lq | apply st_oq | apply st_given | apply st_calls | apply st_member | apply st_const | apply st_avar
               | apply st_method | apply st_table | apply st_forall; intros ? | apply st_and ].
Ltac v := match goal with IH : vok ?x |- keep _ _ (cbind (visit _ _ ?x _ None _) _) _ => vis IH end.
Ltac vlist := eapply (k_bind _ _ _ lq); [solve [st] | | intros ?].
Ltac vmap VL := apply (k_mapc _ _ _ _ (fun b st => calls_ok b st)); [solve [st] | intros ?; apply st_calls | let a := fresh "a" in let Ha := fresh "Ha" in intros a Ha; pose proof (VL a Ha)].

Lemma k_inits c again l : (forall x, In x l -> vok x) -> forall fs seen (P : store -> Prop), stable P -> keep c P ((fix go (seen : list text) (l : list sx) : M (list tx) :=
                        match l with
                        | [] => cret []
                        | a :: r =>
                            set_line (t_line (node_tok a)) ;;;
                            match a with
                            | XNamed n _ =>
                                ra <- visit F usa a PCall None again ;;
                                match assoc (lex_text n) fs with
                                | None => ccerr
                                | Some j =>
                                    if existsb (text_eqb (lex_text n)) seen then ccerr
                                    else
                                      fx <- sym_at j ;; ft <- must (sym_ty fx) ;;
                                      promotes (tx_ty (fst ra)) ft ;;;
                                      ok <- match_ty ft (tx_ty (fst ra)) ;;
                                      if negb ok then ccerr
                                      else rest <- go (lex_text n :: seen) r ;; cret (fst ra :: rest)
                                end
                            | _ => ccerr
                            end
                        end) seen l) lq.
Proof.
  intros V fs. induction l as [|a l IH]; intros seen P HS; [apply k_ret; constructor|].
  assert (V1 : vok a) by (apply V; left; reflexivity). specialize (IH (fun x Hx => V x (or_intror Hx))).
  apply k_skip; [exact HS|fbase|intros _]. destruct a; try apply k_ccerr.
  eapply k_bind; [exact HS|eapply k_weak; [apply V1|intros ? ?; exact I]|intros ra].
  assert (HS2 : stable (fun st => P st /\ vq ra st)) by (apply st_and; [exact HS|apply st_vq]).
  destruct (assoc _ _); [|apply k_ccerr]. destruct (existsb _ _); [apply k_ccerr|].
  apply k_skip; [exact HS2|fbase|intros fx]. apply k_skip; [exact HS2|fbase|intros ft]. apply k_skip; [exact HS2|fbase|intros _]. apply k_skip; [exact HS2|fbase|intros ok].
  destruct (negb ok); [apply k_ccerr|]. eapply k_bind; [exact HS2|apply IH; exact HS2|]. intros rest. apply k_ret. intros st [[_ H1] H2]. constructor; [apply vq_calls, H1|exact H2].
Qed.

Lemma visit_ok_parts : forall x, vok x /\ parts x.
Proof.
  induction x using sx_ind'.
  all: try match goal with IH : oP _ ?o |- _ => destruct o; cbn [oP] in * end.
  all: try match goal with IH : match ?o with Some _ => _ | None => _ end |- _ => destruct o as [[? ?]|]; cbn [fst snd] in * end.
  all: repeat match goal with IH : vok ?x /\ parts ?x |- _ => let H := fresh "V" in let H2 := fresh "VP" in destruct IH as [H H2] end.
  all: repeat match goal with IH : Forall (fun x => vok x /\ parts x) ?l |- _ =>
         let V := fresh "VL" in let W := fresh "WL" in
         assert (V : forall x, In x l -> vok x) by (intros; rewrite Forall_forall in IH; apply IH; assumption);
         assert (W : forall x, In x l -> parts x) by (intros; rewrite Forall_forall in IH; apply IH; assumption); clear IH end.
  all: split; [intros c p0 sc0 again | solve [exact I | cbn [parts]; try split; assumption]].
  all: cbn [visit]; apply k_skip; [apply st_given | destruct p0; fbase | intros _].
  all: try solve [kgo].
  - (* XCall *)
    eapply (k_bind c _ _ fq); [st| |].
    { destruct x; try apply k_ccerr.
      - apply k_skip; [st|fbase|intros o]. destruct o; [|apply k_ccerr]. apply k_ret. intros st _. split; [constructor|exact I].
      - eapply k_bind; [st|eapply k_weak; [apply V|intros ? ?; exact I]|intros r]. destruct (fst r) eqn:E; try apply k_crash.
        apply k_skip; [st|fbase|intros s1]. destruct (is_callable s1); [|apply k_ccerr]. apply k_ret. intros st _. rewrite ?E. split; [constructor|exact I].
      - eapply k_bind; [st|eapply k_weak; [apply V|intros ? ?; exact I]|intros r]. apply k_must_bind. intros i0 E. apply k_ret. intros st [_ [H1 H2]]. rewrite E in H2.
        split; [exact H1|exact H2]. }
    intros [f i]. apply k_skip; [st|fbase|intros s0]. cbv zeta. destruct (builtin_fn (s_name s0)) as [fn|].
    + destruct (text_eqb fn (txt "vec")).
      * destruct (256 <=? _)%nat; [apply k_crash|]. destruct l as [|first [|a2 l]]; try apply k_ccerr.
        vlist; [apply (k_mapc _ _ _ _ (fun b st => calls_ok b st)); [solve [st] | intros ?; apply st_calls | intros a Ha; pose proof (VL a (or_intror Ha)); kgo]|].
        destruct first; try apply k_crash. apply k_skip; [st|fbase|intros j]. apply k_skip; [st|fbase|intros e]. apply k_skip; [st|fbase|intros el].
        apply k_ret. intros st [[_ H1] H2]. apply vq_none, calls_call; [exact H1|]. constructor; [constructor|exact H2].
      * destruct (text_eqb fn (txt "tam")).
        -- destruct l as [|a1 [|? ?]]; try apply k_ccerr. pose proof (VL a1 (or_introl eq_refl)) as V1. vis V1. apply k_skip; [st|fbase|intros ok].
           destruct (negb ok); [apply k_ccerr|]. apply k_skip; [st|fbase|intros o]. apply k_skip; [st|fbase|intros ty].
           apply k_ret. intros st [[_ H1] H2]. apply vq_none, calls_call; [exact H1|]. constructor; [apply vq_calls, H2|constructor].
        -- destruct l as [|a1 [|a2 [|? ?]]]; try apply k_ccerr; try apply k_crash. pose proof (VL a1 (or_introl eq_refl)) as V1. pose proof (VL a2 (or_intror (or_introl eq_refl))) as V2.
           vis V1. vis V2. destruct (tx_ty (fst a)); try apply k_ccerr. destruct (text_eqb fn (txt "anexa")).
           ++ apply k_skip; [st|fbase|intros ok]. destruct (negb ok); [apply k_ccerr|]. apply k_skip; [st|fbase|intros _]. apply k_skip; [st|fbase|intros o]. apply k_skip; [st|fbase|intros ty].
              apply k_ret. intros st [[[_ H1] H2] H3]. apply vq_none, calls_call; [exact H1|]. constructor; [apply vq_calls, H2|constructor; [apply calls_prom, vq_calls, H3|constructor]].
           ++ destruct (is_int _); [|apply k_ccerr]. apply k_ret. intros st [[[_ H1] H2] H3]. apply vq_none, calls_call; [exact H1|]. constructor; [apply vq_calls, H2|constructor; [apply vq_calls, H3|constructor]].
    + destruct (s_kind s0) as [|ret ps|tg ret ps|tag u ts| |fields ms tp| |]; try apply k_ccerr.
      * vlist; [vmap VL; destruct (is_named a); kgo|]. destruct (negb _); [apply k_ccerr|]. apply k_skip; [st|fbase|intros ts].
        vlist; [apply k_match_args; [st|intros st [_ H]; exact H]|]. apply k_ret. intros st [[[_ H1] _] H2]. apply vq_none, calls_call; [exact H1|exact H2].
      * vlist; [vmap VL; destruct (is_named a); kgo|]. destruct (negb _); [apply k_ccerr|]. apply k_skip; [st|fbase|intros ts].
        vlist; [apply k_match_args; [st|intros st [_ H]; exact H]|]. apply k_ret. intros st [[[_ H1] _] H2]. apply vq_none, calls_call; [exact H1|exact H2].
      * destruct (negb _); [apply k_ccerr|]. vlist; [vmap VL; kgo|].
        vlist; [apply k_match_args; [st|intros st [_ H]; exact H]|]. apply k_ret. intros st [[[_ H1] _] H2]. apply vq_none, calls_call; [exact H1|exact H2].
      * apply k_skip; [st|fbase|intros fs]. destruct (negb _); [apply k_ccerr|]. vlist; [apply k_inits; [exact VL|st]|].
        apply k_ret. intros st [[_ H1] H2]. apply vq_none, calls_call; [exact H1|exact H2].
  - (* XGet *)
    vis V. eapply k_bind; [st; destruct a0; st|eapply k_weak; [apply k_prop|intros ? ?; exact I]|intros o]. destruct o as [i|]; [|apply k_ccerr].
    apply k_skip; [st|fbase|intros s0]. destruct (_ && _); [apply k_ccerr|]. apply k_skip; [st|fbase|intros ty]. apply k_ret. intros st [[_ H1] H2].
    split; [exact (vq_calls _ _ H1)|exact H2].
  - (* XSet *)
    vis V0. destruct (fst a) as [| | | | | | | | | | |ln target member t| | | | | | | | | | | | | | | | | | | | | | |] eqn:E; try apply k_crash.
    assert (W : forall P : store -> Prop, (forall st, P st -> calls_ok (fst a) st) -> stable P -> keep c P
              (rv <- visit F usa x2 PExpr None again ;;
              promotes (tx_ty (fst rv)) t ;;;
              ok <- match_ty t (tx_ty (fst rv)) ;;
              if negb ok then set_line (t_line (node_tok (XSet x1 x2))) ;;; ccerr
              else cret (TSet (t_line (node_tok (XSet x1 x2))) (TGet ln target member t) (set_prom (to_real (tx_ty (fst rv)) t) (fst rv)) t, None)) vq).
    { intros P HP HS. eapply k_bind; [exact HS|eapply k_weak; [apply V|intros ? ?; exact I]|intros rv].
      assert (HS2 : stable (fun st => P st /\ vq rv st)) by (apply st_and; [exact HS|apply st_vq]).
      apply k_skip; [exact HS2|fbase|intros _]. apply k_skip; [exact HS2|fbase|intros ok]. destruct (negb ok); [apply k_skip; [exact HS2|fbase|intros _; apply k_ccerr]|].
      apply k_ret. intros st [H1 H2]. apply vq_none. unfold calls_ok. cbn [member_calls]. apply Forall_app. split; [specialize (HP st H1); rewrite E in HP; exact HP|].
      apply calls_prom, (vq_calls _ _ H2). }
    destruct (tx_ty target); try apply k_ccerr; (apply W; [intros st [_ H]; exact (vq_calls _ _ H)|st]).
  - (* XFmt *)
    apply k_skip; [st|fbase|intros o]. apply k_skip; [st|fbase|intros ty]. vlist; [vmap VL; kgo|]. kgo.
  - (* XList *)
    apply k_skip; [st|fbase|intros ty]. vlist; [vmap VL; kgo|]. kgo.
  - (* XIguala *)
    apply k_scope_here. eapply k_bind; [st|apply k_scope|intros isc]. unfold keep.
    eapply tri_weaken with (P' := up_is isc (Some (fst (fst c)))); [|intros st [_ H]; exact H|intros r st H; exact H].
    eapply (tri_bind c (fun _ => inside c isc)); [st|apply t_enter_some; intros st H; exact H|intros ?].
    eapply t_bind; [st|eapply k_weak; [apply V|intros ? ?; exact I]|intros rt]. cbv zeta. destruct (is_vazio _); [apply t_ccerr|].
    eapply (t_bind _ _ _ _ (fun ps st => Forall (fun q => up_is (snd q) (Some isc) st) ps)); [st| |intros ps].
    { apply (k_mapc _ _ _ _ (fun (q : xpat * nat) st => up_is (snd q) (Some isc) st)); [st|intros ?; st|]. intros ar _. destruct ar; try apply k_crash.
      eapply k_bind; [st|apply k_scope|intros asc]. apply k_skip; [st|fbase|intros q']. apply k_ret. intros st [_ H]. exact H. }
    apply t_skip; [st| |intros tv].
    { assert (N : fine (i <- new_var (txt "_target_") (tx_ty (fst rt)) ;; d <- gcx cx_depth ;; define_symbol F i d isc ;;; cret i)).
      { intros c1. eapply k_bind; [apply st_true|apply k_newvar, st_true|]. intros i. apply k_skip; [st|fbase|intros d].
        apply (k_bind c1 _ _ (fun _ _ => True)); [st| |intros _; apply k_ret; auto]. apply k_defvar; [st|]. intros st H. exists (tx_ty (fst rt)). exact (proj2 H). }
      destruct (fst rt) as [| ? ? [?|] ? ?| | | | | | | | | | | | | | | | | | | | | | | | | | | | | | | | | ]; first [exact N | apply f_ret]. }
    apply t_skip; [st|fbase|intros ts]. apply t_skip; [st|fbase|intros vty].
    apply t_vars with (u := fst (fst c)); [st|intros st H; apply H|]. intros tree xs. destruct (x_missing xs).
    { apply t_skip; [st|fbase|intros fin]. destruct (_ && _); [apply t_crash|apply t_cerr_at]. }
    apply t_skip; [st|apply f_mapc; intros; fbase|intros _].
    eapply (t_bind _ _ _ _ (fun (r : option cty * list (nat * tx)) st => Forall (fun d => calls_ok (snd d) st) (snd r))); [st| |intros r].
    { eapply k_weak with (P' := fun st => Forall (fun q => up_is (snd q) (Some isc) st) ps /\ Forall (fun d => calls_ok (snd d) st) (@nil (nat * tx))); [|intros st H; split; [apply H|constructor]].
      generalize (@None cty) as ty. generalize (@nil (nat * tx)) as done. induction (x_reach xs) as [|ai r IHr]; intros done ty; [apply k_ret; intros st [_ H]; exact H|].
      apply k_must_bind. intros f Ef. apply nth_error_In, in_map_iff in Ef as (ar & <- & Har). specialize (WL ar Har).
      apply k_must_bind. intros asc Ea. apply nth_error_In, in_map_iff in Ea as (pa & <- & Hpa).
      eapply (k_bind _ _ _ vq); [st| |intros rb].
      { destruct ar; try apply k_crash. cbn [parts] in WL. eapply k_weak; [apply WL|]. intros st [H _]. cbn [given inside fst]. rewrite Forall_forall in H. exact (H pa Hpa). }
      apply k_skip; [st|destruct ty; fbase|intros ok]. destruct (negb ok); [apply k_ccerr|]. eapply k_weak; [apply IHr|].
      intros st [[H1 H2] H3]. split; [exact H1|]. constructor; [exact (vq_calls _ _ H3)|exact H2]. }
    apply t_must. intros ty _. eapply (tri_bind _ (fun _ => c)); [st|apply t_leave; intros st H; apply H|intros ?].
    apply k_ret. intros st [[[[_ H1] _] H2] _]. apply vq_none. unfold calls_ok. cbn [member_calls]. apply Forall_app. split; [exact (vq_calls _ _ H1)|].
    apply calls_list. apply Forall_forall. intros y Hy. apply in_map_iff in Hy as (e & <- & _). destruct (find _ _) as [d|] eqn:Fd; [|constructor].
    apply find_some in Fd as [Fd _]. rewrite Forall_forall in H2. exact (H2 d Fd).
  - (* XYield *)
    unfold keep. eapply (tri_bind c (inside c)); [st|apply t_enter; intros st H; exact H|intros ysc].
    apply t_skip; [st|fbase|intros prev]. apply t_skip; [st|fbase|intros _].
    eapply (t_bind _ _ _ _ lq); [st| |intros ys].
    { eapply k_weak with (P' := fun _ => True); [|auto]. clear WL. induction l as [|y l IH]; [apply k_ret; constructor|].
      pose proof (VL y (or_introl eq_refl)) as V1. vis V1. eapply (k_bind _ _ _ lq); [st|eapply k_weak; [apply IH; intros; apply VL; right; assumption|cbv beta; auto]|intros ys].
      apply k_ret. intros st [[_ H1] H2]. constructor; [exact (vq_calls _ _ H1)|exact H2]. }
    apply t_skip; [st|fbase|intros y]. apply t_must. intros y0 _. destruct (_ && _); [apply t_ccerr|]. apply t_skip; [st|fbase|intros _].
    eapply (tri_bind _ (fun _ => c)); [st|apply t_leave; intros st H; apply H|intros ?].
    apply k_ret. intros st [[_ H] _]. apply vq_none. apply calls_list, H.
  - (* XDecl *)
    destruct p as [t0 e]. cbn [fst snd] in *.
    apply k_skip; [st|fbase|intros _]. apply k_skip; [st|destruct again; fbase|intros _]. apply k_skip; [st|fbase|intros ty].
    eapply k_bind; [st|apply k_newvar; st|intros i]. apply k_skip; [st|fbase|intros d]. apply k_skip; [st|fbase|intros cur].
    apply (k_bind _ _ _ (fun _ _ => True)); [st|apply k_defvar; [st|intros st [_ H]; exists ty; exact H]|intros _].
    eapply (k_bind _ _ _ (fun o st => match o with Some e => calls_ok e st | None => True end)); [st| |intros r].
    { destruct (lex_is _ _); [apply k_ccerr|]. apply k_skip; [st|fbase|intros _].
      vis V. apply k_skip; [st|fbase|intros _]. apply k_skip; [st|fbase|intros rl]. cbv zeta.
      assert (W : forall lt, keep c (fun st => (((given sc0 c st /\ has i (SVar ty) st) /\ True) /\ vq a st))
         (promotes (tx_ty (fst a)) lt ;;;
                      ok <- match_ty lt (tx_ty (fst a)) ;;
                      if negb ok then set_line (t_line t0) ;;; ccerr
                      else cret (Some (TAssign (t_line t0) (lex_text n) (fst rl) (set_prom (to_real (tx_ty (fst a)) lt) (fst a)) lt)))
         (fun o st => match o with Some e => calls_ok e st | None => True end)).
      { intros lt. apply k_skip; [st|fbase|intros _]. apply k_skip; [st|fbase|intros ok]. destruct (negb ok); [apply k_skip; [st|fbase|intros _; apply k_ccerr]|].
        apply k_ret. intros st [_ H]. apply (calls_prom _ (fst a)), (vq_calls _ _ H). }
      destruct (snd rl); try apply k_ccerr; apply W. }
    apply k_skip; [st; destruct r; st|destruct (d =? 0)%nat; fbase|intros _]. apply k_ret. intros st [_ H]. apply vq_none. unfold calls_ok. cbn [member_calls]. destruct r; [exact H|constructor].
  - apply k_skip; [st|fbase|intros _]. apply k_skip; [st|destruct again; fbase|intros _]. apply k_skip; [st|fbase|intros ty].
    eapply k_bind; [st|apply k_newvar; st|intros i]. apply k_skip; [st|fbase|intros d]. apply k_skip; [st|fbase|intros cur].
    apply (k_bind _ _ _ (fun _ _ => True)); [st|apply k_defvar; [st|intros st [_ HH]; exists ty; exact HH]|intros _].
    eapply (k_bind _ _ _ (fun o st => match o with Some e => calls_ok e st | None => True end)); [st| |intros r].
    { apply k_skip; [st|fbase|intros reg]. destruct (_ && _); [apply k_ccerr|]. apply k_ret. auto. }
    apply k_skip; [st; destruct r; st|destruct (d =? 0)%nat; fbase|intros _]. apply k_ret. intros st [_ HH]. apply vq_none. unfold calls_ok. cbn [member_calls]. destruct r; [exact HH|constructor].
  - (* XSe *)
    v. apply k_skip; [st|fbase|intros g]. destruct (negb _); [apply k_ccerr|]. v. vlist; [vmap VL; kgo|].
    apply (k_bind _ _ _ oq); [st| |intros r].
    { v. apply k_ret. intros st [_ HH]. exact (vq_calls _ _ HH). }
    apply k_ret. intros st [[[[_ H1] H2] H3] H4]. apply vq_none. unfold calls_ok. cbn [member_calls]. rewrite !Forall_app.
    split; [exact (vq_calls _ _ H1)|]. split; [exact (vq_calls _ _ H2)|]. split; [apply calls_list, H3|]. apply oq_calls, H4.
  - v. apply k_skip; [st|fbase|intros g]. destruct (negb _); [apply k_ccerr|]. v. vlist; [vmap VL; kgo|].
    apply (k_bind _ _ _ oq); [st| |intros r].
    { apply k_ret. intros st _. exact I. }
    apply k_ret. intros st [[[[_ H1] H2] H3] H4]. apply vq_none. unfold calls_ok. cbn [member_calls]. rewrite !Forall_app.
    split; [exact (vq_calls _ _ H1)|]. split; [exact (vq_calls _ _ H2)|]. split; [apply calls_list, H3|]. apply oq_calls, H4.
  - (* XPara *)
    v. v. apply (k_bind _ _ _ oq); [st| |intros ri].
    { v. apply k_ret. intros st [_ HH]. exact (vq_calls _ _ HH). }
    destruct (negb _); [apply k_ccerr|]. apply k_skip; [st|fbase|intros o]. apply k_skip; [st|fbase|intros ty].
    eapply k_bind; [st|apply k_newvar; st|intros i]. apply k_skip; [st|fbase|intros d]. apply k_scope_here.
    eapply k_bind; [st|apply k_scope|intros psc]. apply (k_bind _ _ _ (fun _ _ => True)); [st|apply k_defvar; [st|intros st [[_ HH] _]; exists ty; exact HH]|intros _].
    eapply (k_bind _ _ _ vq); [st| |intros rb].
    { match goal with IH : vok ?x |- keep _ _ (visit _ _ ?x _ (Some _) _) _ => eapply k_weak; [apply IH|intros st [[_ HH] _]; exact HH] end. }
    apply k_ret. intros st [[[[[[[_ H1] H2] H3] _] _] _] H4]. apply vq_none. unfold calls_ok. cbn [member_calls]. rewrite !Forall_app.
    split; [exact (vq_calls _ _ H1)|]. split; [exact (vq_calls _ _ H2)|]. split; [apply oq_calls, H3|exact (vq_calls _ _ H4)].
  - v. v. apply (k_bind _ _ _ oq); [st| |intros ri].
    { apply k_ret. intros st _. exact I. }
    destruct (negb _); [apply k_ccerr|]. apply k_skip; [st|fbase|intros o]. apply k_skip; [st|fbase|intros ty].
    eapply k_bind; [st|apply k_newvar; st|intros i]. apply k_skip; [st|fbase|intros d]. apply k_scope_here.
    eapply k_bind; [st|apply k_scope|intros psc]. apply (k_bind _ _ _ (fun _ _ => True)); [st|apply k_defvar; [st|intros st [[_ HH] _]; exists ty; exact HH]|intros _].
    eapply (k_bind _ _ _ vq); [st| |intros rb].
    { match goal with IH : vok ?x |- keep _ _ (visit _ _ ?x _ (Some _) _) _ => eapply k_weak; [apply IH|intros st [[_ HH] _]; exact HH] end. }
    apply k_ret. intros st [[[[[[[_ H1] H2] H3] _] _] _] H4]. apply vq_none. unfold calls_ok. cbn [member_calls]. rewrite !Forall_app.
    split; [exact (vq_calls _ _ H1)|]. split; [exact (vq_calls _ _ H2)|]. split; [apply oq_calls, H3|exact (vq_calls _ _ H4)].
  - (* XEscolha *)
    v. apply k_skip; [st|fbase|intros g]. destruct (negb _); [apply k_ccerr|].
    apply (k_bind _ _ _ (fun ps st => Forall (fun p => calls_ok (fst p) st /\ calls_ok (snd p) st) ps)); [st| |intros cs].
    { apply (k_mapc _ _ _ _ (fun (p : tx * tx) st => calls_ok (fst p) st /\ calls_ok (snd p) st)); [st|intros ?; st|]. intros k Hk. specialize (WL k Hk). destruct k; try apply k_crash. destruct WL as [W1 W2].
      v. apply k_skip; [st|fbase|intros ok]. destruct (negb ok); [apply k_ccerr|]. v. apply k_ret. intros st [[_ H1] H2]. split; [exact (vq_calls _ _ H1)|exact (vq_calls _ _ H2)]. }
    apply (k_bind _ _ _ oq); [st| |intros r].
    { v. apply k_ret. intros st [_ HH]. exact (vq_calls _ _ HH). }
    apply k_ret. intros st [[[_ H1] H2] H3]. apply vq_none. unfold calls_ok. cbn [member_calls]. rewrite !Forall_app.
    split; [exact (vq_calls _ _ H1)|]. split; [|apply oq_calls, H3]. clear - H2. induction H2 as [|p l [A B] _ IH]; cbn [flat_map]; [constructor|]. rewrite !Forall_app. repeat split; assumption.
  - v. apply k_skip; [st|fbase|intros g]. destruct (negb _); [apply k_ccerr|].
    apply (k_bind _ _ _ (fun ps st => Forall (fun p => calls_ok (fst p) st /\ calls_ok (snd p) st) ps)); [st| |intros cs].
    { apply (k_mapc _ _ _ _ (fun (p : tx * tx) st => calls_ok (fst p) st /\ calls_ok (snd p) st)); [st|intros ?; st|]. intros k Hk. specialize (WL k Hk). destruct k; try apply k_crash. destruct WL as [W1 W2].
      v. apply k_skip; [st|fbase|intros ok]. destruct (negb ok); [apply k_ccerr|]. v. apply k_ret. intros st [[_ H1] H2]. split; [exact (vq_calls _ _ H1)|exact (vq_calls _ _ H2)]. }
    apply (k_bind _ _ _ oq); [st| |intros r].
    { apply k_ret. intros st _. exact I. }
    apply k_ret. intros st [[[_ H1] H2] H3]. apply vq_none. unfold calls_ok. cbn [member_calls]. rewrite !Forall_app.
    split; [exact (vq_calls _ _ H1)|]. split; [|apply oq_calls, H3]. clear - H2. induction H2 as [|p l [A B] _ IH]; cbn [flat_map]; [constructor|]. rewrite !Forall_app. repeat split; assumption.
  - (* XBlock *)
    unfold keep. eapply (tri_bind c (inside c)); [st|apply t_enter; intros st HH; exact HH|intros bsc].
    eapply (t_bind _ _ _ _ lq); [st|vmap VL; kgo|intros ys].
    eapply (tri_bind _ (fun _ => c)); [st|apply t_leave; intros st HH; apply HH|intros ?].
    apply k_ret. intros st [[_ HH] _]. apply vq_none. apply calls_list, HH.
  - (* XFunc *)
    eapply k_bind; [st|apply k_valdecl|intros u0]. apply k_skip; [st|destruct (_ <? _)%nat; fbase|intros _]. apply k_skip; [st|fbase|intros ty]. apply k_skip; [st|fbase|intros m].
    eapply k_bind; [st|apply k_new_has; intros; exact I|intros i]. cbn [kclass s_kind].
    apply k_skip; [st|fbase|intros _]. apply k_skip; [st|fbase|intros _]. apply k_skip; [st|fbase|intros d]. apply k_scope_here.
    apply (k_bind _ _ _ (fun _ _ => True)); [st|apply k_defsym; [st|intros st _ _ [[_ HH] _]; right; exact HH]|intros _].
    eapply k_bind; [st|apply k_funcscope; st|intros r].
    apply (k_bind _ _ _ (fun _ _ => True)); [st| |intros _].
    { apply k_upd. intros st _ [[[_ (x & Ex & Kx)] _] _] y0 Ey. rewrite Ex in Ey. injection Ey as <-. split; [|exact I]. split; [cbn; symmetry; exact Kx|]. split; [auto|]. intros k Hk. exact Hk. }
    destruct (_ || _).
    { apply k_ret. intros st _. apply vq_none. constructor. }
    destruct (_ && _); [apply k_skip; [st|fbase|intros _; apply k_ccerr]|].
    apply k_skip; [st|fbase|intros old]. apply k_skip; [st|fbase|intros _].
    eapply (k_bind _ _ _ vq); [st| |intros rb].
    { match goal with IH : vok ?x |- keep _ _ (visit _ _ ?x _ (Some _) _) _ => eapply k_weak; [apply IH|intros st [[_ HH] _]; exact HH] end. }
    apply k_skip; [st|fbase|intros _]. apply k_ret. intros st [_ HH]. apply vq_none. exact (vq_calls _ _ HH).
  - eapply k_bind; [st|apply k_valdecl|intros u0]. apply k_skip; [st|destruct (_ <? _)%nat; fbase|intros _]. apply k_skip; [st|fbase|intros ty]. apply k_skip; [st|fbase|intros m].
    eapply k_bind; [st|apply k_new_has; intros; exact I|intros i]. cbn [kclass s_kind].
    apply k_skip; [st|fbase|intros _]. apply k_skip; [st|fbase|intros _]. apply k_skip; [st|fbase|intros d]. apply k_scope_here.
    apply (k_bind _ _ _ (fun _ _ => True)); [st|apply k_defsym; [st|intros st _ _ [[_ HH] _]; right; exact HH]|intros _].
    eapply k_bind; [st|apply k_funcscope; st|intros r].
    apply (k_bind _ _ _ (fun _ _ => True)); [st| |intros _].
    { apply k_upd. intros st _ [[[_ (x & Ex & Kx)] _] _] y0 Ey. rewrite Ex in Ey. injection Ey as <-. split; [|exact I]. split; [cbn; symmetry; exact Kx|]. split; [auto|]. intros k Hk. exact Hk. }
    destruct (_ || _); [|apply k_crash]. apply k_ret. intros st _. apply vq_none. constructor.
  - (* XMet *)
    apply k_skip; [st|fbase|intros _]. apply k_skip; [st|fbase|intros tt0]. apply k_skip; [st|fbase|intros tn]. apply k_skip; [st|apply f_prop|intros o]. destruct o; [apply k_ccerr|].
    eapply k_bind; [st|apply k_valdecl|intros u0]. apply k_skip; [st|fbase|intros rty]. apply k_skip; [st|fbase|intros m].
    eapply (k_bind _ _ _ (fun i st => has i (SMet tt0 (CPrim TInt) []) st /\ method_of st tt0 (lex_text n) i)); [st| |intros i].
    { eapply tri_weaken; [apply k_new|cbv beta; intros ? HH; exact HH|]; [intros; exact I|]. cbv beta. intros i st E. split; [eexists; split; [exact E|reflexivity]|].
      repeat eexists; [exact E|reflexivity| |reflexivity]. left; reflexivity. }
    apply k_skip; [st|fbase|intros _]. apply k_skip; [st|fbase|intros d]. apply k_scope_here.
    apply (k_bind _ _ _ (fun _ _ => True)); [st|apply k_defsym; [st|intros st _ _ [[_ HH] _]; right; exact HH]|intros _].
    eapply k_bind; [st|apply k_funcscope; st|intros r0].
    apply (k_bind _ _ _ (fun _ _ => True)); [st| |intros _].
    { apply k_upd. intros st _ [[[_ [(y0 & Ex & Kx) _]] _] _] z Ez. rewrite Ex in Ez. injection Ez as <-. split; [|exact I]. split; [cbn; symmetry; exact Kx|]. split; [auto|]. intros k Hk. exact Hk. }
    eapply k_bind; [st|apply k_newvar; st|intros av].
    apply (k_bind _ _ _ (fun _ _ => True)); [st|apply k_defvar; [st|intros st [_ HH]; exists tt0; exact HH]|intros _].
    apply k_skip; [st|fbase|intros _].
    eapply (k_bind _ _ _ (fun b st => calls_ok b st)); [st| |intros blk].
    { destruct (is_embutido ans); [apply k_ret; intros; constructor|].
      destruct (_ && _); [apply k_skip; [st|fbase|intros _; apply k_ccerr]|].
      apply k_skip; [st|fbase|intros old]. apply k_skip; [st|fbase|intros _].
      eapply (k_bind _ _ _ vq); [st| |intros rb].
      { match goal with IH : vok ?x |- keep _ _ (visit _ _ ?x _ (Some _) _) _ => eapply k_weak; [apply IH|intros st [[[[_ HH] _] _] _]; exact HH] end. }
      apply k_skip; [st|fbase|intros _]. apply k_ret. intros st [_ HH]. exact (vq_calls _ _ HH). }
    apply (k_bind _ _ _ (fun _ _ => True)); [st|eapply k_weak; [apply k_defmet|]; intros st HH; apply HH|intros _].
    apply k_skip; [st|fbase|intros _]. apply k_ret. intros st HH. apply vq_none. apply HH.
  - (* XReg *)
    apply k_scope_here. apply k_skip; [st|fbase|intros d]. eapply k_bind; [st|apply k_scope|intros rsc]. apply k_skip; [st|fbase|intros o]. destruct o; [apply k_ccerr|].
    apply k_skip; [st|fbase|intros _]. apply k_skip; [st|fbase|intros m].
    eapply k_bind; [st|apply k_new_has|intros i].
    { intros st [_ HH]. split; [reflexivity|]. eexists; exact HH. }
    cbn [kclass s_kind].
    apply (k_bind _ _ _ (fun _ _ => True)); [st|apply k_defsym; [st|intros st _ _ [_ (y & Ey & Ky)]; left; exists y; split; [exact Ey|]]|intros _].
    { rewrite <- global_kclass, Ky. reflexivity. }
    apply k_skip; [st|fbase|intros _].
    unfold keep. eapply (tri_bind c (fun _ => inside c rsc)); [st|apply t_enter_some; intros st HH; apply HH|intros ?].
    eapply (t_bind _ _ _ _ (fun _ _ => True)); [st| |intros ?].
    { eapply tri_weaken; [apply (k_mapc _ (fun _ => True) _ _ (fun _ _ => True)); [st|intros ?; st|]|cbv beta; auto|cbv beta; auto].
      intros f Hf. eapply tri_weaken; [apply (VL f Hf)|intros ? ?; exact I|cbv beta; auto]. }
    eapply t_skip; [st|fbase|intros fs]. eapply t_skip; [st|apply f_mapc; intros ? _; fbase|intros ?].
    eapply (tri_bind _ (fun _ => c)); [st|apply t_leave; intros st HH; apply HH|intros ?].
    apply (k_bind _ _ _ (fun _ _ => True)); [st|apply k_defsym; [st|intros st _ _ HH]|intros _].
    { assert (HI : has i (SReg rsc [] []) st) by apply HH. destruct HI as (y & Ey & Ky). left; exists y; split; [exact Ey|]. rewrite <- global_kclass, Ky. reflexivity. }
    apply k_skip; [st|fbase|intros _]. apply k_skip; [st|fbase|intros _]. apply k_ret. intros st _. apply vq_none. constructor.
  - (* XUni *)
    apply k_scope_here. apply k_skip; [st|fbase|intros d]. eapply k_bind; [st|apply k_scope|intros rsc]. apply k_skip; [st|fbase|intros o]. destruct o; [apply k_ccerr|].
    apply k_skip; [st|fbase|intros _]. apply k_skip; [st|fbase|intros m].
    eapply k_bind; [st|apply k_new_has|intros i].
    { intros st _. reflexivity. }
    cbn [kclass s_kind].
    apply (k_bind _ _ _ (fun _ _ => True)); [st|apply k_defsym; [st|intros st _ _ [_ (y & Ey & Ky)]; left; exists y; split; [exact Ey|]]|intros _].
    { rewrite <- global_kclass, Ky. reflexivity. }
    unfold keep. eapply (tri_bind c (fun _ => inside c rsc)); [st|apply t_enter_some; intros st HH; apply HH|intros ?].
    eapply t_skip; [st|fbase|intros ?].
    eapply (tri_bind _ (fun _ => c)); [st|apply t_leave; intros st HH; apply HH|intros ?].
    apply k_skip; [st|fbase|intros _]. apply k_ret. intros st _. apply vq_none. constructor.
  - (* XUsa *)
    apply k_skip; [st|apply usa_fine|intros ?]. apply k_ret. intros st _. apply vq_none. constructor.
Qed.

Lemma visit_ok x : vok x. Proof. apply visit_ok_parts. Qed.
Lemma visit_all_ok c l : keep c (fun _ => True) (visit_all F usa l) (fun ys st => Forall (fun b => calls_ok b st) ys).
Proof.
  unfold visit_all. apply (k_mapc _ _ _ _ (fun b st => calls_ok b st)); [st|intros ?; apply st_calls|]. intros a _.
  eapply k_bind; [st|eapply k_weak; [apply (visit_ok a c)|intros ? ?; exact I]|intros r]. apply k_ret. intros st [_ H]. exact (vq_calls _ _ H).
Qed.
End Visit.

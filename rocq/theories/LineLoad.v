(** Errors of meaning are reported at lines of statements of the file named. *)
From Verif Require Import VM Base Lexer Types Syntax Parser Sym Exhaust Check Front BaseFacts AcceptBase Spec_Lex Spec_Lines ParseLines LineCheck.
Local Open Scope chk_scope.

(** ** Steps without errors *)
Definition nobad {A} (m : M A) : Prop := forall s, match m s with CErr _ _ => False | _ => True end.
Lemma n_bind {A B} (m : M A) (f : A -> M B) : nobad m -> (forall a, nobad (f a)) -> nobad (cbind m f).
Proof. intros H K s. unfold cbind. specialize (H s). destruct (m s); auto. apply K. Qed.
Lemma n_mapc {A B} (f : A -> M B) l : (forall a, In a l -> nobad (f a)) -> nobad (mapc f l).
Proof.
  induction l as [|a l IH]; intros H; cbn [mapc]; [intros s; exact I|]. apply n_bind; [apply H; now left|]. intros y. apply n_bind; [apply IH; intros; apply H; now right|].
  intros ys s. exact I.
Qed.
Lemma n_ret {A} (a : A) : nobad (cret a). Proof. intros s. exact I. Qed.
Lemma n_crash {A} : nobad (@crash A). Proof. intros s. exact I. Qed.
Lemma n_gst {A} (f : store -> A) : nobad (gst f). Proof. intros s. exact I. Qed.
Lemma n_gcx {A} (f : actx -> A) : nobad (gcx f). Proof. intros s. exact I. Qed.
Lemma n_mst f : nobad (mst f). Proof. intros s. exact I. Qed.
Lemma n_mcx f : nobad (mcx f). Proof. intros s. exact I. Qed.
Lemma n_must {A} (o : option A) : nobad (must o). Proof. destruct o; intros s; exact I. Qed.
Ltac nb := first [apply n_ret | apply n_crash | apply n_gst | apply n_gcx | apply n_mst | apply n_mcx | apply n_must].
Ltac ns := first [ nb | match goal with |- nobad (cbind _ _) => apply n_bind; [|intros ?] end | match goal with |- nobad (match ?x with _ => _ end) => destruct x end ]; cbv beta zeta.
Ltac ng := cbv beta zeta; repeat ns.
Lemma n_sym_at i : nobad (sym_at i). Proof. unfold sym_at. ng. Qed.
Lemma n_upd_sym i f : nobad (upd_sym i f). Proof. unfold upd_sym. ng. Qed.
Lemma n_new_sym i : nobad (new_sym i). Proof. unfold new_sym. ng. Qed.
Lemma n_new_var n t : nobad (new_var n t). Proof. unfold new_var. ng. apply n_new_sym. Qed.
Lemma n_define a b c : nobad (define a b c). Proof. unfold define. ng. Qed.
Lemma n_mod_scope p : nobad (mod_scope p). Proof. unfold mod_scope. ng. Qed.
Lemma n_opcao_ty p : nobad (opcao_ty p). Proof. unfold opcao_ty. ng. Qed.
Ltac nb ::= first [apply n_ret | apply n_crash | apply n_gst | apply n_gcx | apply n_mst | apply n_mcx | apply n_must | apply n_sym_at | apply n_upd_sym | apply n_new_sym | apply n_new_var
  | apply n_define | apply n_mod_scope | apply n_opcao_ty].
Lemma n_rename p i : nobad (rename_into p i). Proof. unfold rename_into. ng. Qed.
Lemma n_trans_call l i f a t p : nobad (trans_call l i f a t p). Proof. unfold trans_call. cbv zeta. repeat first [ns | apply n_rename]. Qed.
Lemma n_trans_get l a m t : nobad (trans_get l a m t). Proof. unfold trans_get. cbv zeta. repeat first [ns | apply n_rename]. Qed.
Fixpoint all_n (l : list tx) : Prop := match l with [] => True | y :: r => nobad (trans y) /\ all_n r end.
Lemma n_trans : forall x, nobad (trans x).
Proof.
  fix IH 1. intros x.
  assert (IHl : forall l, all_n l -> nobad (mapc trans l)).
  { induction l as [|y l IHl]; intros Hl; [apply n_ret|]. destruct Hl as [H1 H2]. cbn [mapc]. apply n_bind; [exact H1|intros]. apply n_bind; [auto|intros]. apply n_ret. }
  destruct x; cbn [trans].
  all: repeat match goal with
    | |- nobad (trans_call _ _ _ _ _ _) => apply n_trans_call
    | |- nobad (trans_get _ _ _ _) => apply n_trans_get
    | |- nobad (trans _) => apply IH
    | |- nobad (mapc trans _) => apply IHl
    | |- nobad (cret _) => apply n_ret
    | |- nobad crash => apply n_crash
    | |- nobad (cbind _ _) => apply n_bind; [|intros ?]
    | |- nobad (match ?o with _ => _ end) => destruct o
    end.
  all: match goal with |- all_n ?l => induction l as [|y l IHy]; [exact I|split; [apply IH|exact IHy]] end.
Qed.

Section Load.
Variable F : front_env.
Variable U : uni.
Hypothesis HU : python_tables U.
Hypothesis HF : forall p src, f_text F p = Some src -> no_format U src.
Hypothesis HA : forall p src m s, f_text F p = Some src -> parse U src = POk m s -> no_alias m.

Definition good (p : text) (l : Z) : Prop := exists src, f_text F p = Some src /\ stands_on U src l.
Definition hs (I : actx -> Prop) {A} (m : M A) (J : actx -> Prop) : Prop :=
  forall s, I (sst_cx s) -> match m s with COk _ s' => J (sst_cx s') | CErr p l => good p l | _ => True end.
Definition still {A} (m : M A) : Prop := forall I, hs I m I.

Lemma h_weak {A} (I I' J J' : actx -> Prop) (m : M A) : hs I m J -> (forall c, I' c -> I c) -> (forall c, J c -> J' c) -> hs I' m J'.
Proof. intros H HI HJ s Hs. specialize (H s (HI _ Hs)). destruct (m s); auto. Qed.
Lemma h_bind {A B} (I J K : actx -> Prop) (m : M A) (f : A -> M B) : hs I m J -> (forall a, hs J (f a) K) -> hs I (cbind m f) K.
Proof. intros H HK s Hs. unfold cbind. specialize (H s Hs). destruct (m s) as [a s'| | |]; auto. now apply HK. Qed.
Lemma h_gcx {A B} (I J : actx -> Prop) (f : actx -> A) (k : A -> M B) : (forall a, hs (fun c => I c /\ f c = a) (k a) J) -> hs I (cbind (gcx f) k) J.
Proof. intros H s Hs. unfold cbind, gcx. apply (H (f (sst_cx s)) s). auto. Qed.
Lemma h_mcx (I J : actx -> Prop) f : (forall c, I c -> J (f c)) -> hs I (mcx f) J.
Proof. intros H s Hs. cbn. auto. Qed.
Lemma h_still {A B} (I J : actx -> Prop) (m : M A) (k : A -> M B) : still m -> (forall a, hs I (k a) J) -> hs I (cbind m k) J.
Proof. intros H. apply h_bind. apply H. Qed.
Lemma h_nobad {A} (I : actx -> Prop) (m : M A) : nobad m -> hs I m (fun _ => True).
Proof. intros H s _. specialize (H s). now destruct (m s). Qed.
Lemma h_mapc {A B} (I : actx -> Prop) (f : A -> M B) l : (forall a, In a l -> hs I (f a) I) -> hs I (mapc f l) I.
Proof.
  induction l as [|a l IH]; intros H; cbn [mapc]; [intros s Hs; exact Hs|]. eapply h_bind; [apply H; now left|]. intros y. eapply h_bind; [apply IH; intros; apply H; now right|].
  intros ys s Hs. exact Hs.
Qed.
Lemma s_bind {A B} (m : M A) (f : A -> M B) : still m -> (forall a, still (f a)) -> still (cbind m f).
Proof. intros H K I. eapply h_bind; [apply H|]. intros a. apply K. Qed.
Lemma s_ret {A} (a : A) : still (cret a). Proof. intros I s Hs. exact Hs. Qed.
Lemma s_crash {A} : still (@crash A). Proof. intros I s Hs. exact Logic.I. Qed.
Lemma s_gst {A} (f : store -> A) : still (gst f). Proof. intros I s Hs. exact Hs. Qed.
Lemma s_mst f : still (mst f). Proof. intros I s Hs. exact Hs. Qed.
Lemma s_must {A} (o : option A) : still (must o). Proof. destruct o; [apply s_ret|apply s_crash]. Qed.
Ltac sb := first [apply s_ret | apply s_crash | apply s_gst | apply s_mst | apply s_must].
Ltac ss := first [ sb | match goal with |- still (cbind _ _) => apply s_bind; [|intros ?] end | match goal with |- still (match ?x with _ => _ end) => destruct x end ]; cbv beta zeta.
Ltac sg := cbv beta zeta; repeat ss.
Lemma s_sym_at i : still (sym_at i). Proof. unfold sym_at. sg. Qed.
Lemma s_new_sym i : still (new_sym i). Proof. unfold new_sym. sg. Qed.
Lemma s_new_scope u : still (new_scope u). Proof. unfold new_scope. sg. Qed.
Lemma s_define a b c : still (define a b c). Proof. unfold define. sg. Qed.
Lemma s_mod_scope p : still (mod_scope p). Proof. unfold mod_scope. sg. Qed.
Lemma s_set_mod p i : still (set_mod p i). Proof. unfold set_mod. sg. Qed.
Lemma s_set_loaded p : still (set_loaded p). Proof. unfold set_loaded. sg. Qed.

Lemma h_fact {A} (I J : actx -> Prop) (P : Prop) (m : M A) : (forall c, I c -> P) -> (P -> hs I m J) -> hs I m J.
Proof. intros H K s Hs. exact (K (H _ Hs) s Hs). Qed.

(** Reading a file. *)
Lemma h_parse I J {A} p (k : smodule -> M A) :
  (forall src m s, f_text F p = Some src -> parse U src = POk m s -> hs I (k m) J) -> hs I (cbind (parse_file F U p) k) J.
Proof.
  intros H s Hs. unfold cbind, parse_file. destruct (f_text F p) as [src|] eqn:E; [|exact Logic.I].
  destruct (parse U src) as [m st|l c| |] eqn:P; cbn; auto; [eapply H; eauto|]. exists src. split; [exact E|]. left. eauto.
Qed.

Section Usa.
Variable usa : smode -> text -> M unit.
Definition at_ (q : text) (c : actx) : Prop := cx_module c = q.
Definition on (q : text) (c : actx) : Prop := cx_module c = q /\ good q (cx_line c).
Hypothesis Husa : forall q mode w, (forall a, mode <> MScoped a) -> hs (on q) (usa mode w) (at_ q).

Lemma h_child q src m s x : f_text F q = Some src -> parse U src = POk m s -> In x (sm_children m) -> hs (at_ q) (visit F usa x PNone None false) (at_ q).
Proof.
  intros Ef Ep Hx. pose proof (parse_lines U src m s HU (HF _ _ Ef) Ep) as [OC _]. rewrite Forall_forall in OC. specialize (OC x Hx).
  assert (Hg : forall l, In l (lines_of x) -> good q l) by (intros l Hl; exists src; split; [exact Ef|]; right; exists m, s; split; [exact Ep|]; left; eauto).
  destruct OC as [[_ OC]|(t & mode & w & -> & _)].
  - pose proof (visit_ok good q (fun l => In l (lines_of x)) Hg F usa x) as [V _].
    specialize (V PNone None false). unfold tri in V. intros st Hst. specialize (V ltac:(now apply Forall_forall) OC st Hst Logic.I).
    destruct (visit F usa x PNone None false st); auto. now destruct V.
  - pose proof (HA _ _ _ _ Ef Ep) as NA. unfold no_alias in NA. rewrite Forall_forall in NA. specialize (NA _ Hx). cbn in NA.
    cbn [visit node_tok]. apply (h_bind _ (on q)); [apply h_mcx; intros c Hc; split; [exact Hc|]; cbn; apply Hg; now left|intros _].
    eapply h_bind; [apply Husa; intros a ->; exact NA|]. intros _. apply s_ret.
Qed.
Lemma h_visit_module q src m s : f_text F q = Some src -> parse U src = POk m s -> hs (at_ q) (visit_module F usa m) (fun _ => True).
Proof.
  intros Ef Ep. unfold visit_module. apply h_gcx. intros p. apply (h_bind _ (at_ q)).
  - destruct (find _ (sm_annots m)) as [a|] eqn:Fa; [|intros st [Hc _]; exact Hc]. destruct (text_eqb _ _); [intros st [Hc _]; exact Hc|].
    intros st [Hc _]. cbn. rewrite Hc. exists src. split; [exact Ef|]. right. exists m, s. split; [exact Ep|]. right. exists a. split; [|reflexivity]. now apply find_some in Fa.
  - intros b. apply (h_bind _ (at_ q)).
    + unfold visit_all. apply h_mapc. intros x Hx. eapply h_bind; [eapply h_child; eauto|]. intros r. apply s_ret.
    + intros body. apply h_nobad. apply n_bind; [apply n_mapc; intros; apply n_trans|]. intros. ng.
Qed.
Lemma h_load_global q p : hs (at_ q) (load_global F U usa p) (at_ q).
Proof.
  unfold load_global. apply h_gcx. intros prev.
  apply (h_bind _ (fun c => at_ p c /\ prev = q)); [apply h_mcx; intros c [Hc <-]; split; [reflexivity|]; now rewrite Hc|intros _].
  apply h_still; [sb|intros _]. apply h_parse. intros src m s Ef Ep.
  intros st [Hc Hq]. subst prev. revert st Hc. change (hs (at_ p) (i <- visit_module F usa m ;; set_mod p i ;;; set_loaded p ;;; set_module q) (at_ q)).
  eapply h_bind; [eapply h_visit_module; eauto|]. intros i. apply h_still; [apply s_set_mod|intros _]. apply h_still; [apply s_set_loaded|intros _].
  apply h_mcx. reflexivity.
Qed.
Lemma h_start I p : hs I (start_analyzer F U usa p) (at_ p).
Proof.
  unfold start_analyzer. apply h_still; [apply s_new_scope|intros g]. apply h_still; [apply s_new_scope|intros t].
  apply (h_bind _ (at_ p)); [apply h_mcx; reflexivity|intros _].
  apply h_still; [intros J; apply h_mapc; intros; apply s_define|intros _]. apply h_still; [sb|intros _].
  eapply h_bind; [apply h_load_global|intros _]. apply h_still; [sb|intros o]. apply h_still; [sb|intros i]. apply h_still; [apply s_sym_at|intros x].
  match goal with |- hs _ ?m _ => enough (K : still m) by apply K end. sg.
Qed.
Lemma h_load_scoped (I : actx -> Prop) p : hs I (load_scoped F U usa p) I.
Proof.
  unfold load_scoped. apply h_gcx. intros cx. apply h_still; [sb|intros im].
  intros st [Hi Hc]. subst cx. assert (K : hs (fun _ => True) (start_analyzer F U usa p ;;; mst (fun st0 => with_imports st0 im) ;;;
    m <- parse_file F U p ;; i <- visit_module F usa m ;; set_mod p i ;;; mcx (fun _ => sst_cx st)) I); [|now apply K].
  eapply h_bind; [apply h_start|intros _]. apply h_still; [sb|intros _]. apply h_parse. intros src m s Ef Ep.
  eapply h_bind; [eapply h_visit_module; eauto|]. intros i. apply h_still; [apply s_set_mod|intros _]. apply h_mcx. auto.
Qed.
Lemma h_free q n : forall ln, good q ln -> hs (on q) (assert_free ln n) (on q).
Proof.
  intros ln Hg s [Hm Hl]. pose proof (c_free good q (good q) (fun l H => H) ln n Hg s Hm Hl) as C. destruct (assert_free ln n s); auto.
Qed.
Lemma h_items p prev l : forall c0, hs (fun c => good prev (cx_line c) /\ (cx_module c = prev \/ cx_module c = c0)) (define_items p prev l) (fun c => cx_module c = prev \/ cx_module c = c0).
Proof.
  induction l as [|n l IH]; intros c0; cbn [define_items]; [intros s [_ Hs]; exact Hs|].
  apply h_still; [apply s_mod_scope|intros sc]. apply h_still; [sb|intros o].
  apply (h_bind _ (on prev)); [apply h_mcx; intros c [Hc _]; split; [reflexivity|exact Hc]|intros _].
  destruct o as [i|]; [|intros s [Hm Hl]; cbn; now rewrite Hm].
  apply h_gcx. intros ln. apply (h_fact _ _ (good prev ln)); [intros c [[_ Hc] <-]; exact Hc|intros Hln].
  eapply h_bind; [eapply h_weak; [apply h_free; exact Hln|intros c [Hc _]; exact Hc|intros c Hc; exact Hc]|intros _].
  apply h_gcx. intros g. eapply h_bind; [apply s_define|intros _]. eapply h_weak; [apply (IH prev)|intros c [[Hm Hl] _]; auto|intros c [Hc|Hc]; auto].
Qed.
Lemma h_load_module q p mode : (forall a, mode <> MScoped a) -> hs (on q) (load_module F U usa p mode) (at_ q).
Proof.
  intros Hmode. unfold load_module. apply h_still; [sb|intros known]. apply h_still; [sb|intros loaded]. apply h_gcx. intros prev.
  apply (h_fact _ _ (prev = q)); [intros c [[Hc _] <-]; exact Hc|intros ->].
  assert (HI : forall l c0, hs (fun c => good q (cx_line c) /\ (cx_module c = q \/ cx_module c = c0)) (items p q l) (fun c => cx_module c = q \/ cx_module c = c0)).
  { intros l c0. unfold items. destruct l; [intros s Hs; exact Logic.I|]. apply h_items. }
  destruct known.
  - destruct loaded; [|intros s [[Hm Hl] _]; cbn; now rewrite Hm].
    destruct mode as [|a|l]; [intros s [[Hm _] _]; exact Hm|now elim (Hmode a)|]. eapply h_weak; [apply (HI l q)|intros c [[Hm Hl] _]; auto|intros c [Hc|Hc]; exact Hc].
  - destruct mode as [|a|l]; [eapply h_weak; [apply h_load_global|intros c [[Hm _] _]; exact Hm|auto]|now elim (Hmode a)|].
    apply (h_bind _ (fun c => good q (cx_line c) /\ (cx_module c = q \/ cx_module c = p))); [apply h_mcx; intros c [[Hm Hl] _]; cbn; auto|intros _].
    apply h_still; [sb|intros _]. apply h_still; [destruct l; sb|intros _].
    eapply h_bind; [apply h_load_scoped|intros _]. eapply h_bind; [apply HI|intros _].
    apply h_still; [apply s_set_loaded|intros _]. apply h_mcx. reflexivity.
Qed.
End Usa.

Lemma h_usa fuel : forall q mode w, (forall a, mode <> MScoped a) -> hs (on q) (visit_usa F U fuel mode w) (at_ q).
Proof.
  induction fuel as [|fuel IH]; intros q mode w Hm; cbn [visit_usa]; [intros s Hs; exact Logic.I|]. cbv zeta.
  destruct (path_split _) as [h t]. destruct t; [intros s [Hc Hl]; cbn; now rewrite Hc|].
  destruct (resolve_import _ _); [|intros s [Hc Hl]; cbn; now rewrite Hc]. apply h_load_module; auto.
Qed.
Theorem analyse_lines fuel p q l : analyse F U fuel p = CErr q l -> good q l.
Proof.
  intros H. unfold analyse in H. assert (K : hs (fun _ => True) (run_frontend F U fuel p) (fun _ => True)).
  { unfold run_frontend. apply h_parse. intros src m s Ef Ep. eapply h_bind; [apply h_start; apply h_usa|]. intros _. eapply h_visit_module; eauto. apply h_usa. }
  specialize (K (start_sst F) Logic.I). now rewrite H in K.
Qed.
End Load.

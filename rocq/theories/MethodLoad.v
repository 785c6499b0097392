(** The invariant of MethodBase.v is kept by the rewriting of trees and by the
    loading of modules. *)
From Verif Require Import Lexer Base Dec Bson Value VM Ast CodeGen Compile Types BaseFacts Syntax Parser Sym Exhaust Check Front AcceptBase AcceptFrame Spec_Method MethodBase MethodVisit MethodMain.
Local Open Scope chk_scope.

Lemma k_then {A B} c (P : store -> Prop) (m : M A) (Q1 : A -> store -> Prop) (f : A -> M B) Q :
  keep c P m Q1 -> (forall a, keep c (Q1 a) (f a) Q) -> keep c P (cbind m f) Q.
Proof.
  intros Hm Hf s G O C HP. unfold cbind. specialize (Hm s G O C HP). destruct (m s) as [a s1|? ?| |]; auto.
  destruct Hm as (G1 & R1 & O1 & C1 & Q1'). specialize (Hf a s1 G1 O1 C1 Q1').
  destruct (f a s1); auto. destruct Hf as (G2 & R2 & H). split; [exact G2|]. split; [eapply R_trans; eauto|exact H].
Qed.
Lemma called_prefix x p n : called x n -> called (s_set_names (p ++ txt "::" ++ s_name x) x) n.
Proof.
  intros [<-|[q Hq]]; right; cbn [s_name s_set_names]; [exists p; reflexivity|]. exists (p ++ txt "::" ++ q). rewrite Hq, <- !app_assoc. reflexivity.
Qed.
(** Definitions in the scope of the program. *)
Lemma f_defglobal n i : fine (g <- gcx cx_global ;; define g n i).
Proof. intros c. apply k_global_here. apply k_define. intros st _ O _. right. apply O. Qed.
Lemma f_rename p i : fine (rename_into p i).
Proof.
  unfold rename_into. intros c.
  apply (k_sym_at c _ i (fun x st => nth_error (so_syms st) i = Some x)); [apply st_true|auto|intros x0].
  apply (k_then c _ _ (fun _ _ => True)).
  - apply k_upd. intros st G [_ E] x E2. rewrite E in E2. injection E2 as <-. split; [split; [reflexivity|split; [auto|intros; apply called_prefix; assumption]]|].
    cbn [s_kind s_set_names]. destruct (s_kind x0) eqn:K; try exact I; [exact (proj1 (g_reg st G _ _ _ _ _ E K))|exact (g_uni st G _ _ _ _ _ E K)].
  - intros _. apply k_global_here. apply (k_then c _ _ (fun _ _ => True)); [|intros; apply k_ret; auto].
    apply k_define. intros st _ O _. right. apply O.
Qed.
Lemma f_opcao_ty t : fine (opcao_ty t). Proof. unfold opcao_ty. apply f_gst. Qed.
Lemma k_set_params c (P : store -> Prop) i tg r ps r' ps' : (forall st, P st -> has i (kclass (SMet tg r ps)) st) -> keep c P (upd_sym i (s_set_kind (SMet tg r' ps'))) (fun _ _ => True).
Proof.
  intros H. apply k_upd. intros st G HP x E. destruct (H st HP) as (y & Ey & Ky). rewrite E in Ey. injection Ey as <-.
  split; [|exact I]. split; [cbn; symmetry; exact Ky|]. split; [auto|]. intros n Hn. exact Hn.
Qed.
Lemma f_trans_call ln i f args t pr : fine (trans_call ln i f args t pr).
Proof.
  unfold trans_call. intros c. apply (k_sym_at c _ i (fun x st => has i (kclass (s_kind x)) st)); [apply st_true| |intros x].
  { intros st x _ _ E. exists x. auto. }
  apply k_skip; [st|apply f_gcx|intros m]. cbv zeta. destruct (_ && _); [apply k_ret; auto|].
  destruct f; try (apply k_ret; auto).
  apply k_skip; [st|apply f_opcao_ty|intros o]. destruct (_ && _); [destruct args; [apply k_crash|apply k_ret; auto]|].
  destruct (s_kind x) eqn:K; try apply k_crash. apply (k_then c _ _ (fun _ _ => True)).
  - destruct (assoc _ _).
    + eapply k_set_params. intros st [_ H]. exact H.
    + apply k_skip; [st|apply f_newvar|intros j]. eapply k_set_params. intros st [_ H]. exact H.
  - intros _. apply k_skip; [st|destruct (negb _); [apply f_rename|apply f_ret]|intros n]. apply k_ret; auto.
Qed.
Lemma f_trans_get ln a m t : fine (trans_get ln a m t).
Proof.
  unfold trans_get. destruct (tx_ty a); try (apply f_bind; [apply f_opcao_ty|intros o]; destruct (_ && _); apply f_ret).
  apply f_bind; [apply f_mod_scope|intros sc]. apply f_bind; [apply f_gst|intros o]. apply f_bind; [apply f_must|intros i]. apply f_bind; [apply f_rename|intros n]. apply f_ret.
Qed.
Fixpoint all_fine (l : list tx) : Prop := match l with [] => True | y :: r => fine (trans y) /\ all_fine r end.
Lemma f_trans : forall x, fine (trans x).
Proof.
  fix IH 1. intros x.
  assert (IHl : forall l, all_fine l -> fine (mapc trans l)).
  { intros l. induction l as [|y l IHl]; intros H; cbn [mapc]; [apply f_ret|]. destruct H as [H1 H2]. apply f_bind; [exact H1|intros]. apply f_bind; [exact (IHl H2)|intros; apply f_ret]. }
  destruct x; cbn [trans].
  all: repeat match goal with
    | |- fine (trans_call _ _ _ _ _ _) => apply f_trans_call
    | |- fine (trans_get _ _ _ _) => apply f_trans_get
    | |- fine (trans _) => apply IH
    | |- fine (mapc trans _) => apply IHl
    | |- fine (cret _) => apply f_ret
    | |- fine crash => apply f_crash
    | |- fine (cbind _ _) => apply f_bind; [|intros ?]
    | |- fine (match ?o with _ => _ end) => destruct o
    end.
  all: match goal with |- all_fine ?l => induction l as [|y l IHy]; [exact I|split; [apply IH|exact IHy]] end.
Qed.

(** Changes of the store that touch no symbol, scope or table of methods. *)
Lemma f_aside f : (forall st, so_syms (f st) = so_syms st /\ so_scopes (f st) = so_scopes st /\ so_prims (f st) = so_prims st) -> fine (mst f).
Proof.
  intros H c. apply k_mst. intros st G _ _. destruct (H st) as (E1 & E2 & E3).
  assert (HR : R st (f st)). { split; rewrite ?E1, ?E2; intros; eexists; split; eauto using keeps_refl. }
  split; [|auto]. destruct G as [G1 G2 G3 G4]. split.
  - rewrite E1. intros i x g ms tp E K. destruct (G1 i x g ms tp E K) as [A [u B]]. split; [eapply st_table; eauto|exists u; eapply st_up; eauto].
  - rewrite E1. intros i x vs ms tp E K. eapply st_table; eauto.
  - rewrite E3. intros p l E. eapply st_table; eauto.
  - rewrite E1, E2. exact G4.
Qed.

Section Load.
Variable F : front_env.
Variable U : uni.
Lemma f_parse p : fine (parse_file F U p).
Proof. unfold parse_file. destruct (f_text F p); [|apply f_crash]. destruct (parse U t); [apply f_ret|intros c s ? ? ? ?; exact I|apply f_crash|intros c s ? ? ? ?; exact I]. Qed.
Lemma f_set_mod p i : fine (set_mod p i). Proof. apply f_aside. auto. Qed.
Lemma f_set_loaded p : fine (set_loaded p).
Proof. unfold set_loaded. apply f_bind; [apply f_gst|intros o]. apply f_bind; [apply f_must|intros i]. apply f_set_mod. Qed.
Lemma f_imports g : fine (mst (fun st => with_imports st (g st))). Proof. apply f_aside. auto. Qed.
Lemma f_alias a p : fine (define_alias a p).
Proof.
  unfold define_alias. apply f_bind; [apply f_gcx|intros ln]. apply f_bind; [apply f_free|intros _]. apply f_bind; [apply f_new; intros; exact I|intros i]. apply f_defglobal.
Qed.
Lemma f_items p prev l : fine (define_items p prev l).
Proof.
  induction l as [|n l IH]; cbn [define_items]; [apply f_ret|]. apply f_bind; [apply f_mod_scope|intros sc]. apply f_bind; [apply f_gst|intros o]. apply f_bind; [apply f_set_module|intros _].
  destruct o; [|apply f_ccerr]. apply f_bind; [apply f_gcx|intros ln]. apply f_bind; [apply f_free|intros _].
  intros c. apply k_global_here. apply (k_then c _ _ (fun _ _ => True)); [|intros; apply IH]. apply k_define. intros st _ O _. right. apply O.
Qed.

Section Usa.
Variable usa : smode -> text -> M unit.
Hypothesis usa_fine : forall mode w, fine (usa mode w).
Lemma f_visit_all l : fine (visit_all F usa l).
Proof. intros c. eapply tri_weaken; [apply (visit_all_ok F usa usa_fine c l)|cbv beta; auto|cbv beta; auto]. Qed.
Lemma f_visit_module m : fine (visit_module F usa m).
Proof.
  unfold visit_module. apply f_bind; [apply f_gcx|intros p]. apply f_bind; [destruct (find _ _); [destruct (text_eqb _ _); [apply f_ret|apply f_cerr_at]|apply f_ret]|intros b].
  apply f_bind; [apply f_visit_all|intros body]. apply f_bind; [apply f_mapc; intros; apply f_trans|intros body2]. apply f_bind; [apply f_gcx|intros g]. apply f_ret.
Qed.
Lemma f_load_global p : fine (load_global F U usa p).
Proof.
  unfold load_global. apply f_bind; [apply f_gcx|intros prev]. apply f_bind; [apply f_set_module|intros _]. apply f_bind; [apply (f_imports (fun st => so_imports st ++ [p]))|intros _].
  apply f_bind; [apply f_parse|intros m]. apply f_bind; [apply f_visit_module|intros i]. apply f_bind; [apply f_set_mod|intros _]. apply f_bind; [apply f_set_loaded|intros _]. apply f_set_module.
Qed.
(** A new analyser starts in a scope of its own. *)
Lemma scope_ok st u : good st -> let st' := with_scopes st (so_scopes st ++ [mkScope [] u]) in good st' /\ R st st' /\ up_is (List.length (so_scopes st)) u st'.
Proof.
  intros G st'.
  assert (HR : R st st').
  { split; [intros i x E; exists x; split; [exact E|apply keeps_refl]|]. intros k d E. exists d. split; [|reflexivity]. cbn.
    rewrite nth_error_app1; [exact E|]. apply nth_error_Some. congruence. }
  split; [|split; [exact HR|]].
  - constructor.
    + intros i x f ms tp E K. destruct (g_reg _ G i x f ms tp E K) as (A & v & B). split; [eapply st_table; eauto|]. exists v. eapply st_up; eauto.
    + intros i x vs ms tp E K. eapply st_table; [exact (g_uni _ G i x vs ms tp E K)|exact HR].
    + intros p t E. eapply st_table; [|exact HR]. exact (g_prim _ G p t E).
    + intros k d v n i E V HI. apply nth_app_inv in E as [E|[_ ->]]; [exact (g_scope _ G k d v n i E V HI)|destruct HI].
  - eexists. cbn. rewrite nth_error_app2 by reflexivity. rewrite Nat.sub_diag. split; reflexivity.
Qed.
Definition started (s : sst) (r : cres unit) : Prop :=
  match r with
  | COk _ s' => good (sst_st s') /\ R (sst_st s) (sst_st s') /\ exists c, okc c (sst_st s') /\ cxis c s'
  | _ => True
  end.
Lemma k_start (g : nat) (P : store -> Prop) : let c := (g, 0%nat, g) : ctx in
  keep c P (mapc (fun e : prim * nat => define g (prim_name (fst e)) (snd e)) (combine prims (seq 0 (List.length prims))) ;;;
            mst (fun st => with_imports st []) ;;;
            load_global F U usa (builtins_path F) ;;;
            o <- gst (fun st => scope_get st g (txt "Opcao")) ;;
            i <- must o ;; x <- sym_at i ;;
            match s_kind x with
            | SReg _ _ [_] => mst (fun st => with_opcao st (Some i))
            | _ => crash
            end) (fun _ _ => True).
Proof.
  intros c. apply (k_then c _ _ (fun _ _ => True)).
  { eapply tri_weaken; [apply (k_mapc c (fun _ => True) _ _ (fun _ _ => True)); [st|intros ?; st|]|cbv beta; auto|cbv beta; auto].
    intros e _. apply k_define. intros st _ O _. right. apply O. }
  intros _. apply k_skip; [st|apply (f_imports (fun _ => []))|intros _]. apply k_skip; [st|apply f_load_global|intros _]. apply k_skip; [st|apply f_gst|intros o].
  apply k_skip; [st|apply f_must|intros i]. apply k_skip; [st|apply f_sym_at|intros x]. destruct (s_kind x); try apply k_crash. match goal with |- keep _ _ (match ?l with _ => _ end) _ => destruct l as [|? [|]]; try apply k_crash end.
  eapply tri_weaken; [apply f_aside; auto|cbv beta; auto|cbv beta; auto].
Qed.
Lemma start_ok p s : good (sst_st s) -> started s (start_analyzer F U usa p s).
Proof.
  intros G. set (g := List.length (so_scopes (sst_st s))). pose (c := (g, 0%nat, g) : ctx).
  destruct (scope_ok (sst_st s) None G) as (G1 & R1 & U1). set (st1 := with_scopes _ _) in *. fold g in U1.
  destruct (scope_ok st1 None G1) as (G2 & R2 & U2). set (st2 := with_scopes st1 _) in *.
  pose (s2 := mkSst st2 (mkCx g 0 g 0 false None None false p (List.length (so_scopes st1)))).
  assert (O : okc c st2). { assert (A : up_is g None st2) by exact (st_up _ _ _ _ U1 R2). split; [constructor; exact A|exact A]. }
  pose proof (k_start g (fun _ => True) s2 G2 O (conj eq_refl (conj eq_refl eq_refl)) I) as K.
  unfold start_analyzer. unfold cbind at 1. change (new_scope None s) with (COk g (mkSst st1 (sst_cx s))). cbv beta iota.
  unfold cbind at 1. change (new_scope None (mkSst st1 (sst_cx s))) with (COk (List.length (so_scopes st1)) (mkSst st2 (sst_cx s))). cbv beta iota.
  unfold cbind at 1. match goal with |- context [mcx ?f ?x] => change (mcx f x) with (COk tt s2) end. cbv beta iota.
  match type of K with match ?m with _ => _ end => destruct m; try exact I end.
  destruct K as (K1 & K2 & K3 & K4 & _). split; [exact K1|]. split; [eapply R_trans; [|exact K2]; eapply R_trans; eauto|]. exists c. auto.
Qed.
Lemma f_load_scoped p : fine (load_scoped F U usa p).
Proof.
  intros c s G O C _. unfold load_scoped, cbind at 1 2. unfold gcx at 1. unfold gst at 1.
  unfold cbind at 1. pose proof (start_ok p s G) as S. destruct (start_analyzer F U usa p s) as [[] s1|? ?| |]; try exact I.
  destruct S as (G1 & R1 & c1 & O1 & C1).
  assert (K : keep c1 (fun _ => True) (mst (fun st => with_imports st (so_imports (sst_st s))) ;;; m <- parse_file F U p ;; i <- visit_module F usa m ;; set_mod p i) (fun _ _ => True)).
  { apply k_skip; [st|apply (f_imports (fun _ => _))|intros _]. apply k_skip; [st|apply f_parse|intros m]. apply k_skip; [st|apply f_visit_module|intros i]. apply f_set_mod. }
  specialize (K s1 G1 O1 C1 I). revert K. unfold cbind, mst. destruct (parse_file F U p _) as [m s2|? ?| |]; try (intros; exact I).
  destruct (visit_module F usa m s2) as [i s3|? ?| |]; try (intros; exact I). unfold set_mod, mst, mcx. cbn [sst_st sst_cx].
  intros (K1 & K2 & K3 & K4 & _). split; [exact K1|]. assert (HR : R (sst_st s) (with_mods (sst_st s3) (assoc_set (so_mods (sst_st s3)) p i))) by (eapply R_trans; eauto).
  split; [exact HR|]. split; [eapply st_okc; eauto|]. split; [exact C|exact I].
Qed.
Lemma f_load_module p mode : fine (load_module F U usa p mode).
Proof.
  unfold load_module. apply f_bind; [apply f_gst|intros known]. apply f_bind; [apply f_gst|intros loaded]. apply f_bind; [apply f_gcx|intros prev].
  assert (I1 : forall l, fine (items p prev l)) by (intros [|? ?]; [apply f_crash|apply f_items]).
  destruct known.
  - destruct loaded; [|apply f_ccerr]. destruct mode; [apply f_ret|apply f_alias|apply I1] || (destruct mode; auto using f_ret, f_alias).
  - destruct mode.
    all: try apply f_load_global.
    all: apply f_bind; [apply f_set_module|intros _]; apply f_bind; [apply (f_imports (fun st => so_imports st ++ [p]))|intros _].
    + apply f_bind; [apply f_load_scoped|intros _]. apply f_bind; [apply f_alias|intros _]. apply f_bind; [apply f_set_loaded|intros _]. apply f_set_module.
    + apply f_bind; [match goal with |- fine (match ?l with _ => _ end) => destruct l; [apply f_crash|apply f_ret] end|intros _].
      apply f_bind; [apply f_load_scoped|intros _]. apply f_bind; [apply I1|intros _]. apply f_bind; [apply f_set_loaded|intros _]. apply f_set_module.
Qed.
End Usa.
Lemma f_visit_usa fuel : forall mode w, fine (visit_usa F U fuel mode w).
Proof.
  induction fuel as [|fuel IH]; intros mode w; cbn [visit_usa]; [intros c s ? ? ? ?; exact I|].
  destruct (path_split _) as [h t]. destruct t; [apply f_ccerr|]. destruct (resolve_import _ _); [|apply f_ccerr]. apply f_load_module, IH.
Qed.

Lemma init_good : good (init_store F).
Proof.
  assert (S : forall i x, nth_error (so_syms (init_store F)) i = Some x -> exists p, s_kind x = SPrim p).
  { intros i x E. apply nth_error_In in E. unfold init_store in E. cbn [so_syms] in E. apply in_map_iff in E as (p & <- & _). exists p. reflexivity. }
  constructor.
  - intros i x f ms tp E K. destruct (S i x E) as [p Hp]. congruence.
  - intros i x vs ms tp E K. destruct (S i x E) as [p Hp]. congruence.
  - intros p l [].
  - intros k c u n i E. destruct k; discriminate.
Qed.
End Load.

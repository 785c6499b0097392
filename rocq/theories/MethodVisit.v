(** The analyser keeps the invariant of [MethodBase.v], and all calls of members
    in the trees it makes are [dispatched]. *)
From Verif Require Import Lexer Base Dec Bson Value VM Ast CodeGen Compile Types BaseFacts Syntax Parser Sym Exhaust Check Front AcceptBase AcceptFrame Spec_Method MethodBase.
Local Open Scope chk_scope.

Lemma k_read {A B} c (P : store -> Prop) (f : store -> A) (T : A -> store -> Prop) (k : A -> M B) Q : stable P ->
  (forall st, good st -> okc c st -> P st -> T (f st) st) -> (forall a, keep c (fun st => P st /\ T a st) (k a) Q) -> keep c P (cbind (gst f) k) Q.
Proof. intros HS H Hk. eapply k_bind; [exact HS|apply k_gst; exact H|exact Hk]. Qed.
Lemma k_sym_at {B} c (P : store -> Prop) i (T : symbol -> store -> Prop) (k : symbol -> M B) Q : stable P ->
  (forall st x, good st -> P st -> nth_error (so_syms st) i = Some x -> T x st) -> (forall x, keep c (fun st => P st /\ T x st) (k x) Q) ->
  keep c P (cbind (sym_at i) k) Q.
Proof.
  intros HS H Hk. eapply k_bind; [exact HS| |exact Hk]. intros s G O C HP. unfold sym_at, cbind, gst. destruct (nth_error (so_syms (sst_st s)) i) as [x|] eqn:E; cbn [must cret]; [|exact I].
  split; [exact G|]. split; [apply R_refl|]. split; [exact O|]. split; [exact C|]. apply H; auto.
Qed.
Lemma f_sym_at i : fine (sym_at i). Proof. unfold sym_at. apply f_bind; [apply f_gst|intros; apply f_must]. Qed.
Lemma k_weak {A} c (P P' : store -> Prop) (m : M A) Q : keep c P' m Q -> (forall st, P st -> P' st) -> keep c P m Q.
Proof. intros H HP. eapply tri_weaken; [exact H|exact HP|auto]. Qed.
Lemma k_scope_here {B} c (P : store -> Prop) (k : nat -> M B) Q : keep c P (k (fst (fst c))) Q -> keep c P (cbind (gcx cx_scope) k) Q.
Proof. intros H s G O C HP. unfold cbind, gcx. rewrite (proj1 C). exact (H s G O C HP). Qed.
Lemma k_depth_here {B} c (P : store -> Prop) (k : nat -> M B) Q : keep c P (k (snd (fst c))) Q -> keep c P (cbind (gcx cx_depth) k) Q.
Proof. intros H s G O C HP. unfold cbind, gcx. rewrite (proj1 (proj2 C)). exact (H s G O C HP). Qed.
Lemma k_global_here {B} c (P : store -> Prop) (k : nat -> M B) Q : keep c P (k (snd c)) Q -> keep c P (cbind (gcx cx_global) k) Q.
Proof. intros H s G O C HP. unfold cbind, gcx. rewrite (proj2 (proj2 C)). exact (H s G O C HP). Qed.

Ltac base :=
  first [ apply f_ret | apply f_crash | apply f_ccerr | apply f_cerr_at | apply f_gcx | apply f_gst | apply f_must | apply f_py | apply f_sym_at
        | apply f_set_line | apply f_set_reg | apply f_set_func | apply f_set_yield | apply f_set_loop | apply f_set_module | apply f_set_ty
        | apply f_upd_out | apply f_upd_global | apply f_upd_prop ].
Ltac step :=
  first [ base
        | apply f_bind; [| intros ?]
        | apply f_mapc; intros ? ?
        | match goal with |- fine (match ?x with _ => _ end) => destruct x end ];
  cbv beta zeta.
Ltac go := cbv beta zeta; repeat step.

Lemma f_count a : fine (count a). Proof. unfold count. go. Qed.
Lemma f_rhere n : fine (resolve_here n). Proof. unfold resolve_here. go. Qed.
Lemma f_ghere n : fine (get_here n). Proof. unfold get_here. go. Qed.
Lemma f_rglob n : fine (resolve_global n). Proof. unfold resolve_global. go. Qed.
Lemma f_tyeq a b : fine (ty_eq a b). Proof. unfold ty_eq. go. Qed.
Lemma f_prom a b : fine (promotes a b). Proof. unfold promotes. go. Qed.
Lemma f_match a b : fine (match_ty a b). Proof. unfold match_ty. go. Qed.
Lemma f_tag t : fine (tag_of t). Proof. unfold tag_of. go. Qed.
Lemma f_scope u : fine (new_scope u). Proof. intros c. eapply tri_weaken; [apply (k_scope c (fun _ => True))|cbv beta; auto|cbv beta; auto]. Qed.
Lemma f_newvar n t : fine (new_var n t). Proof. unfold new_var. apply f_bind; [apply f_gcx|intros m]. apply f_new. intros st. exact I. Qed.
Lemma k_newvar c (P : store -> Prop) n t : stable P -> keep c P (new_var n t) (fun i st => has i (SVar t) st).
Proof. intros HS. unfold new_var. apply k_skip; [exact HS|apply f_gcx|intros m]. apply (k_new_has c P (mkSymbol n n false false m false (SVar t))). intros st _. exact I. Qed.
Ltac base1 := first [base | apply f_count | apply f_rhere | apply f_ghere | apply f_rglob | apply f_tyeq | apply f_prom | apply f_match | apply f_tag | apply f_scope | apply f_newvar].
Ltac step ::=
  first [ base1
        | apply f_bind; [| intros ?]
        | apply f_mapc; intros ? ?
        | match goal with |- fine (match ?x with _ => _ end) => destruct x end ];
  cbv beta zeta.
Lemma f_named o : fine (named_type o). Proof. unfold named_type. go. Qed.
Lemma f_type_sym n : fine (type_sym n). Proof. unfold type_sym. go. Qed.
Lemma f_mod_or_err sc n : fine (mod_or_err sc n). Proof. unfold mod_or_err. go. Qed.
Lemma f_mod_scope p : fine (mod_scope p). Proof. unfold mod_scope. go. Qed.
Lemma f_opcao t : fine (opcao t). Proof. unfold opcao. go. Qed.
Lemma f_construct i g q : (forall l, g = Some l -> forall m, In m l -> fine m) -> fine (construct_ty i g q).
Proof.
  intros H. unfold construct_ty. apply f_bind; [apply f_sym_at|intros x]. apply f_bind; [apply f_must|intros t].
  destruct q; [apply f_opcao|]. destruct g as [[|a l]|]; try apply f_ret.
  apply f_bind; [destruct (s_kind x); go|intros tps]. destruct (negb _); [apply f_ccerr|].
  apply f_bind; [|intros ts; go]. apply f_mapc. intros m Hm. eapply H; eauto.
Qed.
Lemma f_get_type : forall y, fine (get_type y).
Proof.
  fix IH 1. intros y. destruct y as [t g q|t comps g q|el q]; cbn [get_type].
  - apply f_bind; [apply f_type_sym|intros i]. apply f_construct. destruct g as [l|]; intros l' E; [|discriminate]. injection E as <-.
    induction l as [|y l IHl]; intros m Hm; [destruct Hm|]. destruct Hm as [<-|Hm]; [apply IH|exact (IHl m Hm)].
  - destruct comps as [|h rest]; [apply f_crash|].
    apply f_bind; [apply f_gcx|intros sc]. apply f_bind; [apply f_mod_or_err|intros m].
    apply f_bind.
    { revert m. induction rest as [|c r IHr]; intros m; [apply f_ret|]. destruct r as [|c' r]; [apply f_ret|].
      apply f_bind; [apply f_mod_scope|intros sc']. apply f_bind; [apply f_mod_or_err|intros m']. apply IHr. }
    intros m'. apply f_bind; [apply f_mod_scope|intros sc']. apply f_bind; [apply f_gst|intros o]. destruct o as [i|]; [|apply f_ccerr].
    apply f_bind; [apply f_sym_at|intros x]. destruct (sym_type i x); [|apply f_ccerr]. apply f_construct.
    destruct g as [l|]; intros l' E; [|discriminate]. injection E as <-.
    induction l as [|y l IHl]; intros m2 Hm; [destruct Hm|]. destruct Hm as [<-|Hm]; [apply IH|exact (IHl m2 Hm)].
  - apply f_bind; [apply IH|intros t]. destruct q; [apply f_opcao|apply f_ret].
Qed.
Ltac base2 := first [base1 | apply f_named | apply f_type_sym | apply f_mod_or_err | apply f_mod_scope | apply f_opcao | apply f_get_type ].
Ltac step ::=
  first [ base2
        | apply f_bind; [| intros ?]
        | apply f_mapc; intros ? ?
        | match goal with |- fine (match ?x with _ => _ end) => destruct x end ];
  cbv beta zeta.
Lemma f_get_type_opt o : fine (get_type_opt o). Proof. unfold get_type_opt. go. Qed.
Lemma f_leave_ty : fine leave_ty_ctx. Proof. unfold leave_ty_ctx. go. Qed.
Lemma f_free l n : fine (assert_free l n). Proof. unfold assert_free. go. Qed.
Lemma f_valdecl n : fine (validate_decl n). Proof. unfold validate_decl. go. Qed.
Lemma f_tname t : fine (type_name t). Proof. unfold type_name. go. Qed.
Lemma f_pat_int t : fine (pat_int t). Proof. unfold pat_int. go. Qed.
Lemma f_walk l : forall i, fine (walk_path i l). Proof. induction l; intros i; cbn [walk_path]; go; auto. Qed.
Lemma f_vpath h l p : fine (visit_path h l p). Proof. unfold visit_path. go; apply f_walk. Qed.
Lemma f_vvar n : fine (visit_variable n). Proof. unfold visit_variable. go. Qed.
Lemma f_match_args ts : forall l, fine (match_args ts l). Proof. induction ts; intros [|x l]; cbn [match_args]; go; auto. Qed.
Lemma f_ptypes ps : fine (param_types ps). Proof. unfold param_types. go. Qed.
Lemma f_bind_var a i : fine (bind_var a i). Proof. unfold bind_var. go. apply f_new. intros st. exact I. Qed.

(** Definitions. *)
Lemma has_def i t sc st : has i (SVar t) st -> def_ok sc i st.
Proof. intros (x & E & K). left. exists x. split; [exact E|]. rewrite <- global_kclass, K. reflexivity. Qed.
Variant a_var (i : nat) (st : store) : Prop := is_var t : has i (SVar t) st -> a_var i st.
Lemma st_avar i : stable (a_var i).
Proof. intros st st' [t H] HR. exists t. exact (st_has _ _ _ _ H HR). Qed.
Ltac st :=
  repeat first [ apply st_and | apply st_true | apply st_has | apply st_up | apply st_calls | apply st_member | apply st_const | apply st_avar
               | apply st_method | apply st_forall; intros ? ].

Section Fix.
Variable F : front_env.
Lemma k_defsym c (P : store -> Prop) i d sc : stable P -> (forall st, good st -> okc c st -> P st -> def_ok sc i st) -> keep c P (define_symbol F i d sc) (fun _ _ => True).
Proof.
  intros HS H. unfold define_symbol. apply k_skip; [exact HS|apply f_sym_at|intros x]. apply k_skip; [exact HS|apply f_count|intros n].
  apply k_skip; [exact HS|go|intros _]. apply k_define. exact H.
Qed.
Lemma k_defvar c (P : store -> Prop) i d sc : stable P -> (forall st, P st -> a_var i st) -> keep c P (define_symbol F i d sc) (fun _ _ => True).
Proof. intros HS H. apply k_defsym; [exact HS|]. intros st _ _ HP. destruct (H st HP) as [t Ht]. eapply has_def; eauto. Qed.
Lemma f_defparams sc ps : fine (define_params sc ps).
Proof.
  unfold define_params. apply f_bind; [apply f_gcx|intros m]. apply f_bind; [|intros; apply f_ret]. apply f_mapc. intros n _ c.
  eapply k_bind; [apply st_true|apply (k_new_has c (fun _ => True) (mkSymbol n n false false m false STVar)); intros; exact I|]. intros i.
  apply k_define. intros st _ _ [_ (x & E & K)]. left. exists x. split; [exact E|]. rewrite <- global_kclass, K. reflexivity.
Qed.
Lemma f_generics ps : fine (enter_generics ps).
Proof. unfold enter_generics. apply f_bind; [base2|intros t]. apply f_bind; [base2|intros sc]. apply f_bind; [apply f_defparams|intros _; base2]. Qed.
Lemma k_read_params c l : forall (P : store -> Prop) seen, stable P -> (forall st, P st -> Forall (fun p => a_var (snd p) st) seen) ->
  keep c P (read_params seen l) (fun ps st => Forall (fun p => a_var (snd p) st) ps).
Proof.
  induction l as [|p l IH]; intros P seen HS H; cbn [read_params]; [apply k_ret; exact H|]. cbv zeta.
  destruct (assoc _ _); [apply k_ccerr|]. apply k_skip; [exact HS|base2|intros _]. apply k_skip; [exact HS|base2|intros t].
  eapply k_bind; [exact HS|apply k_newvar; exact HS|]. intros i. apply IH; [apply st_and; [exact HS|apply st_has]|].
  intros st [HP Hi]. apply Forall_app. split; [auto|]. constructor; [|constructor]. exists t. exact Hi.
Qed.
Lemma k_funcscope c (P : store -> Prop) l : stable P -> keep c P (define_func_scope F l) (fun r st => up_is (fst r) (Some (fst (fst c))) st).
Proof.
  intros HS. unfold define_func_scope. eapply k_bind; [exact HS|apply k_read_params; [exact HS|constructor]|]. intros ps.
  apply k_scope_here, k_depth_here. eapply k_bind; [st; exact HS|apply k_scope|]. intros sc.
  apply (k_bind c _ _ (fun _ _ => True)); [st; exact HS| |].
  - eapply tri_weaken; [apply (k_mapc c (fun st => Forall (fun p => a_var (snd p) st) ps) (fun p => define_symbol F (snd p) (S (snd (fst c))) sc) ps (fun _ _ => True))| |].
    + st.
    + intros _. apply st_true.
    + intros p Hp. apply k_defvar; [st|]. intros st H. rewrite Forall_forall in H. exact (H p Hp).
    + cbv beta. intros st [[_ H] _]. exact H.
    + auto.
  - intros _. apply k_ret. intros st [[_ H] _]. exact H.
Qed.
Lemma f_variants u l : fine (check_variants u l).
Proof.
  induction l as [|v l IH]; cbn [check_variants]; [apply f_ret|]. apply f_bind; [apply f_set_line|intros _]. cbv zeta. intros c.
  eapply (k_sym_at c _ u (fun x st => match s_kind x with SUni _ ms _ => has u (SUni [] [] []) st /\ table_ok st (CUni u) ms | _ => True end)); [apply st_true| |].
  - intros st x G _ E. destruct (s_kind x) eqn:K; try exact I. split; [exists x; rewrite K; auto|]. exact (g_uni st G _ _ _ _ _ E K).
  - intros x. destruct (s_kind x) as [| | | | | |vs ms tp|] eqn:K; try apply k_crash.
    destruct (assoc _ vs); [apply k_ccerr|].
    assert (HS : stable (fun st => True /\ has u (SUni [] [] []) st /\ table_ok st (CUni u) ms)) by (st; apply st_table).
    apply k_skip; [exact HS|go|intros ts]. apply k_skip; [exact HS|apply f_new; intros st; exact I|intros i].
    apply k_bind with (Q1 := fun _ _ => True); [exact HS| |intros _; eapply k_weak; [apply IH|cbv beta; auto]].
    apply k_upd. intros st G (_ & (y & Ey & Ky) & T) z Ez. rewrite Ey in Ez. injection Ez as <-.
    split; [|cbn; exact T]. split; [cbn; symmetry; exact Ky|]. split; [auto|]. intros n Hn. exact Hn.
Qed.
Lemma f_binding sc t ty : fine (check_binding F sc t ty).
Proof.
  unfold check_binding. apply f_bind; [apply f_gst|intros o]. destruct o; [apply f_cerr_at|]. intros c.
  eapply k_bind; [apply st_true|apply k_newvar, st_true|]. intros i. apply k_skip; [st|apply f_gcx|intros d].
  apply (k_bind c _ _ (fun _ _ => True)); [st| |intros _; apply k_ret; auto].
  apply k_defvar; [st|]. intros st H. exists ty. exact (proj2 H).
Qed.
Ltac base3 := first [base2 | apply f_binding | apply f_pat_int | apply f_walk | apply f_vpath | apply f_vvar].
Ltac step ::=
  first [ base3
        | apply f_bind; [| intros ?]
        | apply f_mapc; intros ? ?
        | match goal with |- fine (match ?x with _ => _ end) => destruct x end ];
  cbv beta zeta.
Lemma f_subs sc ps : forall ts, fine (check_subs F sc ps ts).
Proof. induction ps; intros [|t ts]; cbn [check_subs]; go; auto. Qed.
Lemma f_pattern sc p t : fine (check_pattern F sc p t).
Proof. unfold check_pattern. go; apply f_subs. Qed.
Lemma f_declare l e : fine (declare_leaf l e).
Proof.
  unfold declare_leaf. apply f_bind; [apply f_must|intros sc]. apply f_bind; [|intros; apply f_ret]. apply f_mapc. intros b _. cbv beta.
  apply f_bind; [base2|intros v]. apply f_bind; [base2|intros t]. intros c.
  eapply k_bind; [apply st_true|apply (k_new_has c (fun _ => True) (mkSymbol (fst b) (fst b) false false (s_mod v) false (SVar t))); intros; exact I|]. intros i.
  apply k_define. intros st _ _ [_ H]. eapply has_def; exact H.
Qed.
End Fix.

(** Properties and methods. *)
Lemma assoc_in {A} n (l : list (text * A)) i : assoc n l = Some i -> In (n, i) l.
Proof.
  induction l as [|[a b] l IH]; cbn [assoc]; [discriminate|]. destruct (text_eqb _ _) eqn:T; intros E; [|right; auto]. apply text_eqb_eq in T. injection E as <-. left. congruence.
Qed.
Lemma member_method t m i st : method_of st t m i -> member_ok t m i st.
Proof.
  intros H. unfold member_ok. destruct (declared_as t) eqn:D; try exact I. all: destruct H as (x & tg & r & ps & E & K & H); rewrite E; cbn [option_map]; rewrite K; exists x, tg, r, ps; auto.
Qed.
Lemma table_get st t l n i : table_ok st t l -> assoc n l = Some i -> method_of st t n i.
Proof. intros H E. apply assoc_in in E. unfold table_ok in H. rewrite Forall_forall in H. exact (H _ E). Qed.
Lemma member_con g args n i st : member_ok g n i st -> member_ok (CCon g args) n i st.
Proof. auto. Qed.
Lemma k_bind_sym c g args n i : keep c (member_ok g n i) (bind_sym args i) (fun j st => member_ok (CCon g args) n j st).
Proof.
  unfold bind_sym.
  eapply (k_sym_at c _ i (fun x st => match s_kind x with
     | SMet t _ _ => match declared_as g with CMod _ => True | _ => declared_as t = declared_as g /\ called x n end | _ => True end)); [apply st_member| |].
  - intros st x G H E. unfold member_ok in H. rewrite E in H. cbn [option_map] in H. destruct (s_kind x) eqn:K; try exact I.
    destruct (declared_as g) eqn:DG; try exact I. all: destruct H as (y & tg & r & ps & E2 & K2 & D & C & _); rewrite E in E2; injection E2 as <-; rewrite K in K2; injection K2 as -> -> ->; split; [congruence|exact C].
  - intros x. assert (HS : forall X : Prop, stable (fun st => member_ok g n i st /\ X)) by (intros X; st).
    destruct (s_kind x) as [t|r ps|t r ps|tag u ts|q|f ms tp|vs ms tp|] eqn:K; try apply k_crash.
    + unfold bind_var. eapply (k_sym_at c _ i (fun x st => member_ok g n i st)); [apply HS|intros st y _ [H _] _; exact H|].
      intros y. assert (HS2 : stable (fun st => (member_ok g n i st /\ True) /\ member_ok g n i st)) by st.
      destruct (s_kind y) as [[| | | | |v|]| | | | | | |]; try apply k_crash; try (apply k_ret; intros st [_ H]; exact H).
      apply k_skip; [exact HS2|apply f_must|intros t']. eapply tri_weaken; [apply (k_new c (fun _ => True)); intros; exact I|cbv beta; auto|].
      cbv beta. intros j st E. unfold member_ok. cbn [declared_as]. destruct (declared_as g); try exact I; rewrite E; exact I.
    + apply k_skip; [apply HS|apply f_gst|intros gg].
      apply k_skip; [apply HS| |intros ps'].
      { destruct (gg || is_cvar r); [|base2]. apply f_mapc. intros p _. apply f_bind; [apply f_bind_var|intros; base2]. }
      apply k_skip; [apply HS|go|intros r'].
      intros s G O C [_ HP].
      pose proof (k_new c (fun _ => True) (mkSymbol (s_name x) (s_name x) false true (s_mod x) false (SMet t r' ps')) (fun _ _ => I) s G O C I) as H.
      destruct (new_sym _ s) as [j s'|? ?| |]; auto. destruct H as (A1 & A2 & A3 & A4 & A5). split; [exact A1|]. split; [exact A2|]. split; [exact A3|]. split; [exact A4|].
      unfold member_ok. cbn [declared_as]. destruct (declared_as g) eqn:D; try exact I; rewrite A5; cbn [option_map s_kind]; do 4 eexists;
        (split; [exact A5|]; split; [reflexivity|]; split; [rewrite (proj1 HP); symmetry; cbn [declared_as]; exact D|]; split; [exact (proj2 HP)|reflexivity]).
Qed.
Lemma k_prop c t n : keep c (fun _ => True) (get_property t n) (fun o st => match o with Some i => member_ok t n i st | None => True end).
Proof.
  induction t as [p|t IH|i|i|g IH args|v|p]; cbn [get_property].
  - apply k_gst. intros st G _ _. destruct (find _ _) as [e|] eqn:E; [|exact I]. apply find_some in E as [E1 E2].
    destruct (assoc n (snd e)) as [j|] eqn:A; [|exact I]. apply member_method. destruct e as [q l]. cbn [fst snd] in *.
    assert (q = p) by (destruct q, p; try discriminate E2; reflexivity). subst q. exact (table_get _ _ _ _ _ (g_prim st G _ _ E1) A).
  - apply k_ret. auto.
  - eapply (k_sym_at c _ i (fun x st => match s_kind x with SReg f ms _ => table_ok st (CReg i) ms /\ exists u, up_is f (Some u) st | _ => True end)); [apply st_true| |].
    + intros st x G _ E. destruct (s_kind x) eqn:K; try exact I. exact (g_reg st G _ _ _ _ _ E K).
    + intros x. destruct (s_kind x) as [| | | | |f ms tp| |]; try apply k_crash. apply k_gst. intros st G _ (_ & T & u & (d & Ed & Ud)).
      unfold scope_get. rewrite Ed. destruct (assoc n (sc_syms d)) as [j|] eqn:A.
      * destruct (g_scope st G f d u n j Ed Ud (assoc_in _ _ _ A)) as (y & Ey & Ky). unfold member_ok. cbn [declared_as]. rewrite Ey. cbn [option_map].
        destruct (s_kind y); try exact I; discriminate Ky.
      * destruct (assoc n ms) as [j|] eqn:B; [|exact I]. apply member_method. exact (table_get _ _ _ _ _ T B).
  - eapply (k_sym_at c _ i (fun x st => match s_kind x with SUni _ ms _ => table_ok st (CUni i) ms | _ => True end)); [apply st_true| |].
    + intros st x G _ E. destruct (s_kind x) eqn:K; try exact I. exact (g_uni st G _ _ _ _ _ E K).
    + intros x. destruct (s_kind x) as [| | | | | |vs ms tp|]; try apply k_crash. apply k_ret. intros st [_ T].
      destruct (assoc n ms) as [j|] eqn:B; [|exact I]. apply member_method. exact (table_get _ _ _ _ _ T B).
  - eapply k_bind; [apply st_true|exact IH|]. intros o. destruct o as [i|]; [|apply k_ret; auto].
    eapply k_bind; [st|eapply k_weak; [apply (k_bind_sym c g args n i)|intros st [_ H]; exact H]|]. intros j. apply k_ret. intros st [_ H]. exact H.
  - apply k_ret. auto.
  - apply k_skip; [apply st_true|apply f_mod_scope|intros sc]. apply k_gst. intros st _ _ _. destruct (resolve_sc _ _ _); exact I.
Qed.

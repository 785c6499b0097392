(** The analyser reports errors at lines of the statement it is checking. *)
From Verif Require Import Base Dec Bson Value Ast Types Lexer Syntax Parser Sym Exhaust Check AcceptBase Spec_Lines ParseLines.
Local Open Scope chk_scope.

Section LineCheck.
Variable Bad : text -> Z -> Prop.    (* where errors may be reported *)
Variable q : text.                   (* the module being checked *)
Variable G : Z -> Prop.              (* lines of the statement being checked *)
Hypothesis G_bad : forall l, G l -> Bad q l.

Definition tri (P : Z -> Prop) {A} (m : M A) (Q : Z -> Prop) : Prop :=
  forall s, cx_module (sst_cx s) = q -> P (cx_line (sst_cx s)) ->
    match m s with
    | COk _ s' => cx_module (sst_cx s') = q /\ Q (cx_line (sst_cx s'))
    | CErr p l => Bad p l
    | CCrash | CFuel => True
    end.
(** Errors at the current line, which stays. *)
Definition calm {A} (m : M A) : Prop := tri G m G.
(** No errors, and the line stays. *)
Definition quiet {A} (m : M A) : Prop := forall P, tri P m P.
Definition top (_ : Z) : Prop := True.
Definition D (l : Z) : Prop := G l \/ l = 1%Z.

Lemma t_weak {A} (m : M A) (P P' Q Q' : Z -> Prop) : tri P m Q -> (forall l, P' l -> P l) -> (forall l, Q l -> Q' l) -> tri P' m Q'.
Proof. intros H HP HQ s Hm Hl. specialize (H s Hm (HP _ Hl)). destruct (m s); auto. destruct H; auto. Qed.
Lemma t_bind {A B} (m : M A) (f : A -> M B) (P Q R : Z -> Prop) : tri P m Q -> (forall a, tri Q (f a) R) -> tri P (cbind m f) R.
Proof. intros H K s Hm Hl. unfold cbind. specialize (H s Hm Hl). destruct (m s) as [a s'| | |]; auto. destruct H. now apply K. Qed.
Lemma t_ret {A} (a : A) (P Q : Z -> Prop) : (forall l, P l -> Q l) -> tri P (cret a) Q.
Proof. intros H s Hm Hl. cbn. auto. Qed.
Lemma t_crash {A} (P Q : Z -> Prop) : tri P (@crash A) Q.
Proof. intros s Hm Hl. exact I. Qed.
Lemma t_ccerr {A} (Q : Z -> Prop) : tri G (@ccerr A) Q.
Proof. intros s Hm Hl. cbn. rewrite Hm. now apply G_bad. Qed.
Lemma t_setl l (P : Z -> Prop) : G l -> tri P (set_line l) G.
Proof. intros H s Hm Hl. cbn. auto. Qed.
Lemma q_mapc {A B} (f : A -> M B) (P : Z -> Prop) l : (forall a, In a l -> tri P (f a) P) -> tri P (mapc f l) P.
Proof.
  induction l as [|a l IH]; intros H; cbn [mapc]; [apply t_ret; auto|]. eapply t_bind; [apply H; now left|]. intros y. eapply t_bind; [apply IH; intros; apply H; now right|].
  intros ys. apply t_ret. auto.
Qed.
Lemma c_ret {A} (a : A) : calm (cret a). Proof. apply t_ret. auto. Qed.
Lemma c_crash {A} : calm (@crash A). Proof. apply t_crash. Qed.
Lemma c_ccerr {A} : calm (@ccerr A). Proof. apply t_ccerr. Qed.
Lemma c_cerr_at {A} l : G l -> calm (@cerr_at A l). Proof. intros H s Hm Hl. cbn. rewrite Hm. now apply G_bad. Qed.
Lemma c_bind {A B} (m : M A) (f : A -> M B) : calm m -> (forall a, calm (f a)) -> calm (cbind m f).
Proof. apply t_bind. Qed.
Lemma c_mapc {A B} (f : A -> M B) l : (forall a, In a l -> calm (f a)) -> calm (mapc f l).
Proof. apply q_mapc. Qed.
Lemma q_bind {A B} (m : M A) (f : A -> M B) : quiet m -> (forall a, quiet (f a)) -> quiet (cbind m f).
Proof. intros H K P. eapply t_bind; [apply H|]. intros a. apply K. Qed.
Lemma q_ret {A} (a : A) : quiet (cret a). Proof. intros P. apply t_ret. auto. Qed.
Lemma q_crash {A} : quiet (@crash A). Proof. intros P. apply t_crash. Qed.
Lemma q_fuel {A} : quiet (fun _ => @CFuel A). Proof. intros P s Hm Hl. exact I. Qed.
Lemma q_gcx {A} (f : actx -> A) : quiet (gcx f). Proof. intros P s Hm Hl. cbn. auto. Qed.
Lemma q_gst {A} (f : store -> A) : quiet (gst f). Proof. intros P s Hm Hl. cbn. auto. Qed.
Lemma q_mst f : quiet (mst f). Proof. intros P s Hm Hl. cbn. auto. Qed.
Lemma q_must {A} (o : option A) : quiet (must o). Proof. destruct o; [apply q_ret|apply q_crash]. Qed.
Lemma q_py {A} (o : pyres A) : quiet (py o). Proof. destruct o; [apply q_ret|apply q_crash]. Qed.
Lemma q_set_reg b : quiet (set_reg b). Proof. intros P s Hm Hl. cbn. auto. Qed.
Lemma q_set_func b : quiet (set_func b). Proof. intros P s Hm Hl. cbn. auto. Qed.
Lemma q_set_yield b : quiet (set_yield b). Proof. intros P s Hm Hl. cbn. auto. Qed.
Lemma q_set_loop b : quiet (set_loop b). Proof. intros P s Hm Hl. cbn. auto. Qed.
Lemma q_set_ty b : quiet (set_ty_ctx b). Proof. intros P s Hm Hl. cbn. auto. Qed.
Lemma q_set_scope d b : quiet (set_scope d b). Proof. intros P s Hm Hl. cbn. auto. Qed.
Ltac qb := first [apply q_ret | apply q_crash | apply q_fuel | apply q_gcx | apply q_gst | apply q_mst | apply q_must | apply q_py | apply q_set_reg | apply q_set_func
  | apply q_set_yield | apply q_set_loop | apply q_set_ty | apply q_set_scope].
Ltac qs := first [ qb | match goal with |- quiet (cbind _ _) => apply q_bind; [|intros ?] end | match goal with |- quiet (match ?x with _ => _ end) => destruct x end ]; cbv beta zeta.
Ltac qg := cbv beta zeta; repeat qs.
Lemma q_sym_at i : quiet (sym_at i). Proof. unfold sym_at. qg. Qed.
Lemma q_new_sym i : quiet (new_sym i). Proof. unfold new_sym. qg. Qed.
Lemma q_upd_sym i f : quiet (upd_sym i f). Proof. unfold upd_sym. qg. Qed.
Lemma q_new_scope u : quiet (new_scope u). Proof. unfold new_scope. qg. Qed.
Lemma q_define a b c : quiet (define a b c). Proof. unfold define. qg. Qed.
Lemma q_count a : quiet (count a). Proof. unfold count. qg. Qed.
Lemma q_rhere n : quiet (resolve_here n). Proof. unfold resolve_here. qg. Qed.
Lemma q_ghere n : quiet (get_here n). Proof. unfold get_here. qg. Qed.
Lemma q_rglob n : quiet (resolve_global n). Proof. unfold resolve_global. qg. Qed.
Lemma q_tyeq a b : quiet (ty_eq a b). Proof. unfold ty_eq. qg. Qed.
Lemma q_prom a b : quiet (promotes a b). Proof. unfold promotes. qg. Qed.
Lemma q_match a b : quiet (match_ty a b). Proof. unfold match_ty. qg. Qed.
Lemma q_tag t : quiet (tag_of t). Proof. unfold tag_of. qg. Qed.
Ltac qb ::= first [apply q_ret | apply q_crash | apply q_fuel | apply q_gcx | apply q_gst | apply q_mst | apply q_must | apply q_py | apply q_set_reg | apply q_set_func
  | apply q_set_yield | apply q_set_loop | apply q_set_ty | apply q_set_scope
  | apply q_sym_at | apply q_new_sym | apply q_upd_sym | apply q_new_scope | apply q_define | apply q_count | apply q_rhere | apply q_ghere | apply q_rglob
  | apply q_tyeq | apply q_prom | apply q_match | apply q_tag ].
Lemma q_newvar n t : quiet (new_var n t). Proof. unfold new_var. qg. Qed.
Lemma q_named o : quiet (named_type o). Proof. unfold named_type. qg. Qed.
Lemma q_mod_scope p : quiet (mod_scope p). Proof. unfold mod_scope. qg. Qed.
Lemma q_opcao t : quiet (opcao t). Proof. unfold opcao. qg. Qed.
Variable F : front_env.
Variable usa : smode -> text -> M unit.
Lemma q_defsym i d sc : quiet (define_symbol F i d sc). Proof. unfold define_symbol. qg. Qed.
Lemma q_enter o : quiet (enter_scope o). Proof. unfold enter_scope. qg. Qed.
Lemma q_leave : quiet leave_scope. Proof. unfold leave_scope. qg. Qed.
Lemma q_leave_ty : quiet leave_ty_ctx. Proof. unfold leave_ty_ctx. qg. Qed.
Lemma q_tname t : quiet (type_name t). Proof. unfold type_name. qg. Qed.
Lemma q_map {A B} (f : A -> M B) l : (forall a, quiet (f a)) -> quiet (mapc f l).
Proof. intros H P. apply q_mapc. intros a _. apply H. Qed.
Lemma q_ptypes ps : quiet (param_types ps). Proof. unfold param_types. apply q_map. intros a. qg. Qed.
Lemma q_bind_var a i : quiet (bind_var a i). Proof. unfold bind_var. qg. Qed.
Lemma q_bind_sym a i : quiet (bind_sym a i).
Proof. unfold bind_sym. qg; try apply q_bind_var. all: try (apply q_map; intros; qg; apply q_bind_var). Qed.
Lemma q_prop t n : quiet (get_property t n).
Proof. revert n. induction t; intros n; cbn [get_property]; cbv beta zeta; repeat first [qs | apply IHt | apply q_mod_scope | apply q_bind_sym]. Qed.
Lemma q_defmet t n i : quiet (define_method t n i).
Proof. revert n i. induction t; intros; cbn [define_method]; qg. apply IHt. Qed.
Lemma q_defparams sc ps : quiet (define_params sc ps). Proof. unfold define_params. qg. apply q_map. intros. qg. Qed.
Lemma q_generics ps : quiet (enter_generics ps). Proof. unfold enter_generics. qg. apply q_defparams. Qed.
Lemma q_pat_int t : quiet (pat_int t). Proof. unfold pat_int. qg. Qed.
Lemma q_add_vars l sc d : quiet (add_vars l sc d). Proof. unfold add_vars. qg. Qed.
Lemma q_leaf scs e : quiet (declare_leaf scs e). Proof. unfold declare_leaf. qg. apply q_map. intros. qg. Qed.
Ltac qb ::= first [apply q_ret | apply q_crash | apply q_fuel | apply q_gcx | apply q_gst | apply q_mst | apply q_must | apply q_py | apply q_set_reg | apply q_set_func
  | apply q_set_yield | apply q_set_loop | apply q_set_ty | apply q_set_scope
  | apply q_sym_at | apply q_new_sym | apply q_upd_sym | apply q_new_scope | apply q_define | apply q_count | apply q_rhere | apply q_ghere | apply q_rglob
  | apply q_tyeq | apply q_prom | apply q_match | apply q_tag | apply q_newvar | apply q_named | apply q_mod_scope | apply q_opcao | apply q_defsym | apply q_enter
  | apply q_leave | apply q_leave_ty | apply q_tname | apply q_ptypes | apply q_prop | apply q_defmet | apply q_defparams | apply q_generics | apply q_pat_int
  | apply q_add_vars | apply q_leaf ].
Lemma qc {A} (m : M A) : quiet m -> calm m. Proof. intros H. apply H. Qed.
Ltac cb := first [apply c_ccerr | apply qc; qb].
Ltac cs := first [ cb | match goal with |- calm (cbind _ _) => apply c_bind; [|intros ?] end | match goal with |- calm (match ?x with _ => _ end) => destruct x end ]; cbv beta zeta.
Ltac cg := cbv beta zeta; repeat cs.
Lemma c_line l : G l -> calm (set_line l). Proof. intros H. now apply t_setl. Qed.
Lemma c_type_sym n : calm (type_sym n). Proof. unfold type_sym. cg. Qed.
Lemma c_mod_or_err sc n : calm (mod_or_err sc n). Proof. unfold mod_or_err. cg. Qed.
Lemma c_construct i g b : (forall l, g = Some l -> forall m, In m l -> calm m) -> calm (construct_ty i g b).
Proof.
  intros H. unfold construct_ty. apply c_bind; [cb|intros x]. apply c_bind; [cb|intros t].
  destruct b; [cb|]. destruct g as [[|a l]|]; try cb.
  apply c_bind; [destruct (s_kind x); cb|intros tps]. destruct (negb _); [cb|].
  apply c_bind; [|intros ts; cg]. apply c_mapc. intros m Hm. eapply H; eauto.
Qed.
Lemma c_get_type : forall y, calm (get_type y).
Proof.
  fix IH 1. intros y. destruct y as [t g b|t comps g b|el b]; cbn [get_type].
  - apply c_bind; [apply c_type_sym|intros i]. apply c_construct. destruct g as [l|]; intros l' E; [|discriminate]. injection E as <-.
    induction l as [|y l IHl]; intros m Hm; [destruct Hm|]. destruct Hm as [<-|Hm]; [apply IH|exact (IHl m Hm)].
  - destruct comps as [|h rest]; [cb|].
    apply c_bind; [cb|intros sc]. apply c_bind; [apply c_mod_or_err|intros m].
    apply c_bind.
    + revert m. induction rest as [|c r IHr]; intros m; [cb|]. destruct r; [cb|]. apply c_bind; [cb|intros sc']. apply c_bind; [apply c_mod_or_err|intros m']. apply IHr.
    + intros m'. apply c_bind; [cb|intros sc']. apply c_bind; [cb|intros o]. destruct o; [|cb]. apply c_bind; [cb|intros x]. destruct (sym_type n x); [|cb].
      apply c_construct. destruct g as [l|]; intros l' E; [|discriminate]. injection E as <-.
      induction l as [|y l IHl]; intros mm Hm; [destruct Hm|]. destruct Hm as [<-|Hm]; [apply IH|exact (IHl mm Hm)].
  - apply c_bind; [apply IH|intros t]. destruct b; cb.
Qed.
Lemma c_type_opt o : calm (get_type_opt o). Proof. unfold get_type_opt. destruct o; [apply c_get_type|cg]. Qed.
Lemma c_free ln n : G ln -> calm (assert_free ln n).
Proof. intros H. unfold assert_free. cg. now apply c_line. Qed.
Lemma c_valdecl n : calm (validate_decl n). Proof. unfold validate_decl. cg. Qed.
Lemma c_params ps : forall seen, Forall G (map (fun p => t_line (sp_name p)) ps) -> calm (read_params seen ps).
Proof.
  induction ps as [|p ps IH]; intros seen H; cbn [read_params]; [cb|]. inversion H; subst. destruct (assoc _ seen); [cb|].
  apply c_bind; [now apply c_line|intros _]. apply c_bind; [apply c_get_type|intros t]. apply c_bind; [cb|intros i]. now apply IH.
Qed.
Lemma c_func_scope ps : Forall G (map (fun p => t_line (sp_name p)) ps) -> calm (define_func_scope F ps).
Proof. intros H. unfold define_func_scope. cg; try (now apply c_params). all: try (apply c_mapc; intros; cg). Qed.
Lemma c_variants u vs : Forall G (map (fun v => t_line (sv_name v)) vs) -> calm (check_variants u vs).
Proof.
  induction vs as [|v vs IH]; intros H; cbn [check_variants]; [cb|]. inversion H; subst. cg; try (now apply c_line); try (now apply IH). all: apply c_mapc; intros; apply c_get_type.
Qed.
Lemma c_walk l : forall i, calm (walk_path i l).
Proof. induction l as [|c r IH]; intros i; cbn [walk_path]; cg. apply IH. Qed.
Lemma c_vpath h l p : calm (visit_path h l p).
Proof. unfold visit_path. cg; try apply c_walk. Qed.
Lemma c_vvar n : calm (visit_variable n). Proof. unfold visit_variable. cg. Qed.
Lemma c_match_args ts : forall l, calm (match_args ts l).
Proof. induction ts as [|t ts IH]; intros [|x l]; cbn [match_args]; cg. apply IH. Qed.
Lemma c_binding sc t ty : G (t_line t) -> calm (check_binding F sc t ty).
Proof. intros H. unfold check_binding. cg. now apply c_cerr_at. Qed.
Lemma c_subs sc ps : Forall G (flat_map pat_lines ps) -> forall ts, calm (check_subs F sc ps ts).
Proof.
  induction ps as [|p ps IH]; intros H ts; cbn [check_subs]; [cb|]. cbn [flat_map] in H. apply Forall_app in H as [Hp H]. destruct ts as [|t ts]; [cb|].
  apply c_bind; [destruct p; cg; apply c_binding; now inversion Hp|intros qq]. apply c_bind; [now apply IH|intros qs]. cb.
Qed.
(** The pattern of an arm, in its new scope. *)
Lemma c_pattern u p ty : Forall G (arm_lines p) ->
  calm (asc <- new_scope u ;; q' <- check_pattern F asc p ty ;; cret (q', asc)).
Proof.
  intros H. destruct p as [t|t|t|path h l args]; unfold check_pattern.
  - cg.
  - cg.
  - intros s Hm Hl. set (a := List.length (so_scopes (sst_st s))).
    set (s1 := mkSst (with_scopes (sst_st s) (so_scopes (sst_st s) ++ [mkScope [] u])) (sst_cx s)).
    assert (E : scope_get (sst_st s1) a (lex_text t) = None).
    { unfold scope_get, s1. cbn. unfold a. rewrite nth_error_app2, Nat.sub_diag by lia. reflexivity. }
    set (K := q' <- (q0 <- (q1 <- (i <- new_var (lex_text t) ty ;; d <- gcx cx_depth ;; define_symbol F i (S d) a ;;; cret (QBind (lex_text t))) ;; cret (q1, ty)) ;;
                     e <- ty_eq (snd q0) ty ;; if e then cret (fst q0) else ccerr) ;; cret (q', a)).
    assert (C : calm K) by (unfold K; cg).
    specialize (C s1 Hm Hl).
    match goal with |- match ?x with _ => _ end => replace x with (K s1); [exact C|] end.
    change (K s1 = (q' <- check_pattern F a (PaBind t) ty ;; cret (q', a)) s1).
    unfold K, check_pattern, check_binding. cbv zeta.
    assert (B : forall A (k : option nat -> M A), (o <- gst (fun st => scope_get st a (lex_text t)) ;; k o) s1 = k None s1).
    { intros A k. unfold cbind, gst. rewrite E. reflexivity. }
    assert (B2 : forall A C0 (m m' : M A) (k : A -> M C0), m s1 = m' s1 -> (cbind m k) s1 = (cbind m' k) s1).
    { intros A C0 m m' k Hmm. unfold cbind. now rewrite Hmm. }
    do 3 apply B2. symmetry. apply B.
  - cbn [arm_lines pat_lines] in H. inversion H; subst. cg; try (now apply c_line); try apply c_vpath; try apply c_vvar; try (now apply c_subs).
Qed.

Lemma node_good : forall x, Forall G (lines_of x) -> proper x = true -> match x with XBlock _ => True | _ => G (t_line (node_tok x)) end.
Proof.
  fix IH 1. intros x H P. destruct x; cbn [node_tok lines_of proper] in *; try exact I;
    try (inversion H; assumption).
  all: repeat match goal with H : _ && _ = true |- _ => apply andb_true_iff in H as [? ?] end.
  all: try match goal with H : Forall G (_ ++ _) |- _ => apply Forall_app in H as [? ?] end.
  - pose proof (IH x ltac:(assumption) ltac:(assumption)) as N. destruct x; try exact N; discriminate.
  - pose proof (IH x2 ltac:(assumption) ltac:(assumption)) as N. destruct x2; try exact N; discriminate.
  - inversion H; subst. inversion H3; subst. assumption.
  - destruct init as [[? ?]|]; inversion H; assumption.
Qed.

Definition pre (p : par) : Z -> Prop := match p with PField => G | _ => top end.
Definition vok (x : sx) : Prop := forall p sc again, Forall G (lines_of x) -> proper x = true ->
  tri (pre p) (visit F usa x p sc again) (if tidy x then G else D).
Definition vok2 (x : sx) : Prop := vok x /\ match x with XArm _ _ b => vok b | XCaso _ a b => vok a /\ vok b | _ => True end.
Lemma v_e x p sc again : vok x -> Forall G (lines_of x) -> tidy x && proper x = true -> calm (visit F usa x p sc again).
Proof.
  intros V H T. apply andb_true_iff in T as [T P]. specialize (V p sc again H P). rewrite T in V.
  eapply t_weak; [exact V| |auto]. intros l Hl. destruct p; cbn; auto; exact I.
Qed.
Lemma v_t x p sc again : vok x -> Forall G (lines_of x) -> tidy x = true -> proper x = true -> p <> PField -> tri top (visit F usa x p sc again) G.
Proof.
  intros V H T P Hp. specialize (V p sc again H P). rewrite T in V. eapply t_weak; [exact V| |auto]. destruct p; cbn; auto; now elim Hp.
Qed.
Lemma v_b x p sc again : vok x -> Forall G (lines_of x) -> proper x = true -> p <> PField -> tri top (visit F usa x p sc again) D.
Proof.
  intros V H P Hp. specialize (V p sc again H P).
  eapply t_weak; [exact V| |]; [destruct p; cbn; auto; now elim Hp|]. destruct (tidy x); unfold D; auto.
Qed.
Lemma start p l : G l -> tri (pre p) (match p with PField => cret tt | _ => set_line l end) G.
Proof. intros H. destruct p; try (now apply t_setl). apply t_ret. auto. Qed.
Lemma g_d {A} (m : M A) P : tri P m G -> tri P m D.
Proof. intros H. eapply t_weak; [exact H|auto|]. unfold D. auto. Qed.
Lemma d_q {A} (m : M A) : quiet m -> tri D m D. Proof. intros H. apply H. Qed.
Lemma top_d {A} (m : M A) P : tri top m D -> tri P m D.
Proof. intros H. eapply t_weak; [exact H| |auto]. intros; exact I. Qed.

Ltac spl :=
  cbn [lines_of proper] in *;
  repeat match goal with
         | H : _ && _ = true |- _ => apply andb_true_iff in H as [? ?]
         | H : Forall G (_ ++ _) |- _ => apply Forall_app in H as [? ?]
         | H : Forall G (_ :: _) |- _ => apply Forall_inv in H as ?; apply Forall_inv_tail in H
         end.
Ltac ve := apply v_e; [match goal with H : vok2 ?x |- vok ?x => exact (proj1 H) end|assumption|apply andb_true_iff; split; assumption].
Ltac vb := apply top_d, v_b; [match goal with H : vok2 ?x |- vok ?x => exact (proj1 H) end|assumption|assumption|discriminate].
Ltac cb ::= first [apply c_ccerr | apply c_line; assumption | apply c_cerr_at; assumption | apply c_get_type | apply c_type_opt | apply c_type_sym | apply c_vvar | apply c_vpath
  | apply c_match_args | apply c_valdecl | apply c_free; assumption | apply c_func_scope; assumption | apply c_variants; assumption | ve | apply qc; qb].
Lemma in_lines l a : Forall G (flat_map lines_of l) -> In a l -> Forall G (lines_of a).
Proof. intros H Hi. rewrite Forall_forall in *. intros z Hz. apply H. apply in_flat_map. eauto. Qed.

Lemma el_e l : Forall vok2 l -> Forall G (flat_map lines_of l) -> forallb (fun y => tidy y && proper y) l = true ->
  forall a, In a l -> (forall p sc ag, calm (visit F usa a p sc ag)) /\ G (t_line (node_tok a)).
Proof.
  intros V L P a Ha. rewrite Forall_forall in V. rewrite forallb_forall in P. pose proof (in_lines _ _ L Ha). split; [intros; apply v_e; auto; now apply V|].
  pose proof (P _ Ha) as Pa. apply andb_true_iff in Pa as [T Pa]. pose proof (node_good a H Pa) as N. destruct a; try exact N; discriminate.
Qed.
Lemma el_b l : Forall vok2 l -> Forall G (flat_map lines_of l) -> forallb proper l = true ->
  forall a, In a l -> forall p sc ag, p <> PField -> tri top (visit F usa a p sc ag) D.
Proof. intros V L P a Ha p sc ag Hp. rewrite Forall_forall in V. rewrite forallb_forall in P. apply v_b; auto; [now apply V|]. eapply in_lines; eauto. Qed.

Lemma c_must {A B} (o : option A) (k : A -> M B) : (forall a, o = Some a -> calm (k a)) -> calm (cbind (must o) k).
Proof. intros H. destruct o as [a|]; [exact (H a eq_refl)|]. intros s Hm Hl. exact I. Qed.

Theorem visit_ok x : vok2 x.
Proof.
  induction x using sx_ind'; (split; [intros pp sc ag L P|]).
  all: try exact I.
  all: try pose proof (node_good _ L P) as N; cbn [node_tok] in *.
  all: try (cbn [visit]; cbv beta zeta; eapply t_bind; [apply start; exact (node_good _ L P)|intros _]).
  all: spl.
  all: cbn [tidy].
  all: try match goal with |- tri G ?m G => change (calm m) end.
  all: try solve [cg].
  - (* XCall *)
    assert (Hl : forall a, In a l -> (forall p sc ag, calm (visit F usa a p sc ag)) /\ G (t_line (node_tok a))) by (now apply el_e).
    apply c_bind; [destruct x; cg|]. intros [f i]. apply c_bind; [cb|intros s]. destruct (builtin_fn (s_name s)).
    + destruct (text_eqb _ _); [|destruct (text_eqb _ _)].
      * destruct (256 <=? _)%nat; [cb|]. destruct l as [|a [|b l]]; try cb.
        apply c_bind; [|intros; cg]. apply c_mapc. intros c Hc. apply c_bind; [apply Hl; now right|]. intros. cg.
      * destruct l as [|a [|]]; try cb. apply c_bind; [apply Hl; now left|]. intros. cg.
      * destruct l as [|a [|b [|]]]; try cb. apply c_bind; [apply Hl; now left|]. intros. apply c_bind; [apply Hl; right; now left|]. intros. cg.
    + assert (K : calm (mapc (fun a => if is_named a then set_line (t_line (node_tok a)) ;;; ccerr else r0 <- visit F usa a PCall None ag ;; cret (fst r0)) l)).
      { apply c_mapc. intros a Ha. destruct (Hl a Ha). destruct (is_named a); [apply c_bind; [now apply c_line|]; intros; cb|]. apply c_bind; [auto|]. intros; cb. }
      destruct (s_kind s); try cb.
      * apply c_bind; [exact K|]. intros. cg.
      * apply c_bind; [exact K|]. intros. cg.
      * destruct (negb _); [cb|]. apply c_bind; [|intros; cg]. apply c_mapc. intros a Ha. apply c_bind; [now apply Hl|]. intros; cb.
      * apply c_bind; [cb|intros fs]. destruct (negb _); [cb|]. apply c_bind; [|intros; cb].
        match goal with |- calm (?g [] l) => assert (K2 : forall l0, (forall a, In a l0 -> In a l) -> forall seen, calm (g seen l0)); [|now apply K2] end.
        induction l0 as [|a l0 IHl]; intros Hsub seen; [cb|].
        destruct (Hl a (Hsub _ (or_introl eq_refl))) as [Va Na].
        apply c_bind; [now apply c_line|intros _]. destruct a; try cb.
        apply c_bind; [apply Va|intros ra]. cg. all: try (apply IHl; intros; apply Hsub; now right).
  - assert (Hl := el_e l ltac:(assumption) ltac:(assumption) ltac:(assumption)). do 2 (apply c_bind; [cb|intros ?]). apply c_bind; [|intros; cb]. apply c_mapc. intros z Hz.
    apply c_bind; [now apply Hl|]. intros. cg.
  - assert (Hl := el_e l ltac:(assumption) ltac:(assumption) ltac:(assumption)). do 1 (apply c_bind; [cb|intros ?]). apply c_bind; [|intros; cb]. apply c_mapc. intros z Hz.
    apply c_bind; [now apply Hl|]. intros. cg.
  - (* XAssign *)
    apply c_bind; [ve|intros rv]. destruct x1; try cb. spl. cg.
  - (* XIguala *)
    assert (Hl : forall t0 q0 b, In (XArm t0 q0 b) l -> Forall G (arm_lines q0) /\ (forall sc ag, calm (visit F usa b PExpr sc ag))).
    { intros t0 q0 b Hi. rewrite Forall_forall in H. destruct (H _ Hi) as [_ V].
      pose proof (in_lines l _ ltac:(assumption) Hi) as Lb. 
      match goal with Hp : forallb _ l = true |- _ => rewrite forallb_forall in Hp; specialize (Hp _ Hi); cbn in Hp end. spl. split; [assumption|].
      intros. apply v_e; [exact V|assumption|]. apply andb_true_iff. auto. }
    do 3 (apply c_bind; [cb|intros ?]). apply c_bind; [ve|intros rt]. destruct (is_vazio _); [cb|].
    apply c_bind.
    { apply c_mapc. intros y Hy. destruct y; try cb. apply c_pattern. eapply Hl; eauto. }
    intros ps. apply c_bind; [cg|intros tv]. do 4 (apply c_bind; [cb|intros ?]). apply c_bind; [cb|intros out].
    destruct out as [tree xs| |]; try cb. apply c_bind; [cb|intros _]. destruct (x_missing _); [cg|].
    apply c_bind; [apply qc, q_map; intros ?; apply q_leaf|intros _]. apply c_bind; [|intros; cg].
    match goal with |- calm (?g _ None []) => assert (K2 : forall l0 ty done, calm (g l0 ty done)); [|apply K2] end.
    induction l0 as [|y l0 IHl]; intros ty done; [cb|].
    apply c_must. intros f Ef. apply c_bind; [cb|intros asc]. apply c_bind.
    { apply nth_error_In, in_map_iff in Ef as (z & <- & Hz). destruct z; try apply c_crash. eapply Hl; eauto. }
    intros r. apply c_bind; [cg|intros ok]. destruct (negb ok); [cb|]. apply IHl.
  - exact (proj1 IHx).
  - (* XYield *)
    assert (One : G 1) by assumption. clear N.
    assert (Hl := el_b l ltac:(assumption) ltac:(assumption) ltac:(assumption)).
    do 3 (apply c_bind; [cb|intros ?]). apply c_bind; [|intros; cg].
    assert (DG : forall A (m : M A), tri D m D -> calm m).
    { intros A m Hm. eapply t_weak; [exact Hm|unfold D; auto|]. intros ? [?| ->]; auto. }
    apply DG.
    match goal with |- tri D (?g l) D => assert (K2 : forall l0, (forall a, In a l0 -> In a l) -> tri D (g l0) D); [|now apply K2] end.
    induction l0 as [|z l0 IHl]; intros Hs; [apply d_q; qb|].
    eapply t_bind; [apply top_d; apply Hl; [apply Hs; now left|destruct l0; discriminate]|intros ?].
    eapply t_bind; [apply IHl; intros; apply Hs; now right|intros ?]. apply d_q. qb.
  - (* XDecl *)
    destruct o as [[ta e]|]; spl; cbn [oP snd] in *; cg.
  - (* XRet *)
    destruct o as [e|]; cbn [oP] in *; spl; cg.
  - (* XSe *)
    assert (Hl := el_b l ltac:(assumption) ltac:(assumption) ltac:(assumption)).
    eapply t_bind; [ve|intros rc]. eapply t_bind; [cb|intros g]. destruct (negb _); [apply t_ccerr|].
    eapply t_bind; [vb|intros ?]. eapply t_bind; [apply q_mapc; intros z Hz; eapply t_bind; [apply top_d; now apply Hl|]; intros ?; apply d_q; qb|intros ?].
    eapply t_bind; [destruct o as [e|]; cbn [oP] in *; [eapply t_bind; [vb|]; intros ?; apply d_q; qb|apply d_q; qb]|intros ?]. apply d_q; qb.
  - (* XSenaoSe *)
    eapply t_bind; [ve|intros rc]. destruct (tx_ty (fst rc)) as [[]| | | | | |]; try (apply t_ccerr). eapply t_bind; [vb|intros ?]. apply d_q; qb.
  - (* XEnquanto *)
    eapply t_bind; [ve|intros rc]. eapply t_bind; [cb|intros g]. destruct (negb _); [apply g_d; match goal with |- tri G ?m G => change (calm m) end; cg|].
    do 2 (eapply t_bind; [cb|intros ?]). eapply t_bind; [vb|intros ?]. eapply t_bind; [apply d_q; qb|intros ?]. apply d_q; qb.
  - (* XPara *)
    do 2 (eapply t_bind; [ve|intros ?]).
    eapply t_bind; [destruct o as [e|]; cbn [oP] in *; spl; [apply c_bind; [ve|intros; cb]|cb]|intros ri].
    destruct (negb _); [apply t_ccerr|].
    do 7 (eapply t_bind; [cb|intros ?]). eapply t_bind; [vb|intros ?]. apply d_q; qb.
  - (* XEscolha *)
    eapply t_bind; [ve|intros re]. eapply t_bind; [cb|intros g]. destruct (negb _); [apply t_ccerr|].
    eapply (t_bind _ _ _ D).
    { apply (t_weak _ D _ D D); [|intros ? K; left; exact K|intros ? K; exact K]. apply q_mapc. intros z Hz. 
      rewrite Forall_forall in H. destruct (H _ Hz) as [_ Vz]. pose proof (in_lines l _ ltac:(assumption) Hz) as Lz.
      match goal with Hp : forallb _ l = true |- _ => rewrite forallb_forall in Hp; specialize (Hp _ Hz); cbn in Hp end.
      destruct z; try apply t_crash. destruct Vz as [V1 V2]. spl.
      eapply (t_bind _ _ _ G); [apply (t_weak _ top _ G); [apply v_t; [exact V1|..]; try assumption; discriminate|intros; exact I|intros ? K; exact K]|intros rc].
      eapply t_bind; [cb|intros ok]. destruct (negb ok); [apply t_ccerr|].
      eapply t_bind; [apply top_d, v_b; [exact V2|..]; try assumption; discriminate|intros ?]. apply d_q; qb. }
    intros ?. eapply t_bind; [destruct o as [e|]; cbn [oP] in *; [eapply t_bind; [vb|]; intros ?; apply d_q; qb|apply d_q; qb]|intros ?]. apply d_q; qb.
  - apply t_crash.
  - split; [exact (proj1 IHx1)|exact (proj1 IHx2)].
  - (* XBlock *)
    assert (Hl := el_b l ltac:(assumption) ltac:(assumption) ltac:(assumption)).
    cbn [visit]. eapply (t_bind _ _ _ D); [intros s Hm Hs; destruct pp; cbn; unfold D; auto|intros _].
    eapply t_bind; [apply d_q; qb|intros ?]. eapply t_bind; [apply q_mapc; intros z Hz; eapply t_bind; [apply top_d; now apply Hl|]; intros ?; apply d_q; qb|intros ?].
    eapply t_bind; [apply d_q; qb|intros ?]. apply d_q; qb.
  - (* XFunc *)
    eapply t_bind; [cb|intros _]. eapply t_bind; [match goal with |- tri G ?m _ => enough (K : calm m) by exact K end; cg|intros _].
    do 8 (eapply t_bind; [cb|intros ?]). eapply t_bind; [cb|intros r]. eapply t_bind; [cb|intros _].
    destruct (_ || _); [apply g_d; cb|]. destruct o as [b|]; cbn [oP] in *; [|apply t_crash].
    destruct (_ && _); [apply g_d; match goal with |- tri G ?m G => change (calm m) end; cg|].
    do 2 (eapply t_bind; [cb|intros ?]). eapply t_bind; [vb|intros ?]. eapply t_bind; [apply d_q; qb|intros ?]. apply d_q; qb.
  - (* XMet *)
    do 4 (eapply t_bind; [cb|intros ?]). destruct a2; [apply t_ccerr|].
    do 8 (eapply t_bind; [cb|intros ?]). eapply t_bind; [cb|intros fr]. do 4 (eapply t_bind; [cb|intros ?]).
    eapply t_bind.
    { destruct (is_embutido _); [apply g_d; cb|]. destruct (_ && _); [apply g_d; match goal with |- tri G ?m G => change (calm m) end; cg|].
      do 2 (eapply t_bind; [cb|intros ?]). eapply t_bind; [vb|intros ?]. eapply t_bind; [apply d_q; qb|intros ?]. apply d_q; qb. }
    intros ?. eapply t_bind; [apply d_q; qb|intros ?]. eapply t_bind; [apply d_q; qb|intros ?]. apply d_q; qb.
  - (* XReg *)
    assert (Hl := el_e l ltac:(assumption) ltac:(assumption) ltac:(assumption)). apply g_d.
    match goal with |- tri G ?m G => change (calm m) end.
    do 4 (apply c_bind; [cb|intros ?]). destruct a2; [cb|].
    do 6 (apply c_bind; [cb|intros ?]). apply c_bind; [apply c_mapc; intros z Hz; now apply Hl|intros ?].
    apply c_bind; [cb|intros ?]. apply c_bind; [apply qc, q_map; intros ?; qb|intros ?]. cg.
  - discriminate.
Qed.
End LineCheck.

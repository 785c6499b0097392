(** What the analyser does to the table of modules: only [usa] changes it, and
    the analysis of a tree ends whenever that of its [usa]s does. *)
From Verif Require Import Lexer Base Dec Bson Value VM Ast CodeGen Compile Types BaseFacts Syntax Parser Sym Exhaust ExhaustTotal Check Front AcceptBase.
Local Open Scope chk_scope.

Definition same_mods (s s' : sst) : Prop :=
  so_imports (sst_st s') = so_imports (sst_st s) /\ so_mods (sst_st s') = so_mods (sst_st s).

(** No [usa] anywhere in the tree. *)
Fixpoint usa_free (x : sx) : bool :=
  match x with
  | XUsa _ _ _ => false
  | XConst _ | XPart _ | XVar _ | XPath _ _ | XAlvo _ | XLoopCtl _ | XUni _ _ _ _ => true
  | XUn _ e | XNamed _ e | XConv _ e _ | XGet e _ | XArm _ _ e | XMostra _ e | XProduz _ e => usa_free e
  | XBin _ a b | XIndex _ a b | XIndexSet _ a b | XSet a b | XAssign _ a b | XSenaoSe _ a b | XEnquanto _ a b
  | XCaso _ a b => usa_free a && usa_free b
  | XCall e l | XIguala _ e l => usa_free e && forallb usa_free l
  | XFmt _ l | XList _ _ l | XYield _ _ l | XBlock l | XReg _ _ l _ => forallb usa_free l
  | XDecl _ _ _ o => match o with Some q => usa_free (snd q) | None => true end
  | XRet _ o => match o with Some e => usa_free e | None => true end
  | XSe _ a b l o => usa_free a && usa_free b && forallb usa_free l && match o with Some e => usa_free e | None => true end
  | XPara _ _ a b o c => usa_free a && usa_free b && match o with Some e => usa_free e | None => true end && usa_free c
  | XEscolha _ a l o => usa_free a && forallb usa_free l && match o with Some e => usa_free e | None => true end
  | XFunc _ _ _ _ _ o => match o with Some e => usa_free e | None => true end
  | XMet _ _ _ _ _ _ b => usa_free b
  end.

Section Ok.
Variable P : sst -> Prop.
Variable R : sst -> sst -> Prop.
Hypothesis keep : forall s s', P s -> same_mods s s' -> P s' /\ R s s'.
Hypothesis R_trans : forall a b c, R a b -> R b c -> R a c.
(** What is known when the fuel of a [usa] runs out. *)
Variable T : Prop.

Definition ok {A} (m : M A) : Prop :=
  forall s, P s -> match m s with COk _ s' => P s' /\ R s s' | CFuel => T | _ => True end.

Lemma ok_bind {A B} (m : M A) (f : A -> M B) : ok m -> (forall a, ok (f a)) -> ok (cbind m f).
Proof.
  intros Hm Hf s Hs. unfold cbind. specialize (Hm s Hs). destruct (m s) as [a s1|? ?| |]; auto.
  destruct Hm as [P1 R1]. specialize (Hf a s1 P1). destruct (f a s1); auto. destruct Hf as [P2 R2]. split; [exact P2|]. eapply R_trans; eauto.
Qed.
Lemma ok_same {A} (m : M A) : (forall s, match m s with COk _ s' => same_mods s s' | CFuel => False | _ => True end) -> ok m.
Proof. intros H s Hs. specialize (H s). destruct (m s); auto. destruct H. Qed.
Lemma ok_ret {A} (a : A) : ok (cret a).
Proof. apply ok_same. intros s. cbn. split; reflexivity. Qed.
Lemma ok_crash {A} : ok (@crash A).
Proof. apply ok_same. intros s. cbn. exact I. Qed.
Lemma ok_ccerr {A} : ok (@ccerr A).
Proof. apply ok_same. intros s. cbn. exact I. Qed.
Lemma ok_cerr_at {A} l : ok (@cerr_at A l).
Proof. apply ok_same. intros s. cbn. exact I. Qed.
Lemma ok_gcx {A} (f : actx -> A) : ok (gcx f).
Proof. apply ok_same. intros s. cbn. split; reflexivity. Qed.
Lemma ok_gst {A} (f : store -> A) : ok (gst f).
Proof. apply ok_same. intros s. cbn. split; reflexivity. Qed.
Lemma ok_mcx f : ok (mcx f).
Proof. apply ok_same. intros s. cbn. split; reflexivity. Qed.
Lemma ok_mst f : (forall st, so_imports (f st) = so_imports st /\ so_mods (f st) = so_mods st) -> ok (mst f).
Proof. intros H. apply ok_same. intros s. cbn. apply H. Qed.
Lemma ok_must {A} (o : option A) : ok (must o).
Proof. destruct o; [apply ok_ret | apply ok_crash]. Qed.
Lemma ok_py {A} (o : pyres A) : ok (py o).
Proof. destruct o; [apply ok_ret | apply ok_crash]. Qed.
Lemma ok_mapc {A B} (f : A -> M B) l : (forall a, In a l -> ok (f a)) -> ok (mapc f l).
Proof.
  induction l as [|a l IH]; intros H; cbn [mapc]; [apply ok_ret|].
  apply ok_bind; [apply H; left; reflexivity|]. intros b. apply ok_bind; [apply IH; intros x Hx; apply H; right; exact Hx|]. intros. apply ok_ret.
Qed.

Ltac base :=
  first [ apply ok_ret | apply ok_crash | apply ok_ccerr | apply ok_cerr_at | apply ok_gcx | apply ok_gst | apply ok_mcx
        | apply ok_must | apply ok_py | apply ok_mst; intros ?; split; reflexivity ].
Ltac step :=
  first [ base
        | apply ok_bind; [| intros ?]
        | match goal with |- ok (match ?x with _ => _ end) => destruct x end ];
  cbv beta zeta.
Ltac go := cbv beta zeta; repeat step.

Lemma ok_sym_at i : ok (sym_at i). Proof. unfold sym_at. go. Qed.
Lemma ok_upd i f : ok (upd_sym i f). Proof. unfold upd_sym. go. Qed.
Lemma ok_new x : ok (new_sym x). Proof. unfold new_sym. go. Qed.
Lemma ok_scope u : ok (new_scope u). Proof. unfold new_scope. go. Qed.
Lemma ok_define a b c : ok (define a b c). Proof. unfold define. go. Qed.
Lemma ok_count a : ok (count a). Proof. unfold count. go. Qed.
Lemma ok_rhere n : ok (resolve_here n). Proof. unfold resolve_here. go. Qed.
Lemma ok_ghere n : ok (get_here n). Proof. unfold get_here. go. Qed.
Lemma ok_rglob n : ok (resolve_global n). Proof. unfold resolve_global. go. Qed.
Lemma ok_tyeq a b : ok (ty_eq a b). Proof. unfold ty_eq. go. Qed.
Lemma ok_prom a b : ok (promotes a b). Proof. unfold promotes. go. Qed.
Lemma ok_match a b : ok (match_ty a b). Proof. unfold match_ty. go. Qed.
Lemma ok_tag t : ok (tag_of t). Proof. unfold tag_of. go. Qed.
Lemma ok_set_line l : ok (set_line l). Proof. unfold set_line. go. Qed.
Lemma ok_set_reg l : ok (set_reg l). Proof. unfold set_reg. go. Qed.
Lemma ok_set_func l : ok (set_func l). Proof. unfold set_func. go. Qed.
Lemma ok_set_yield l : ok (set_yield l). Proof. unfold set_yield. go. Qed.
Lemma ok_set_loop l : ok (set_loop l). Proof. unfold set_loop. go. Qed.
Lemma ok_set_module l : ok (set_module l). Proof. unfold set_module. go. Qed.
Lemma ok_set_ty l : ok (set_ty_ctx l). Proof. unfold set_ty_ctx. go. Qed.
Lemma ok_set_scope a b : ok (set_scope a b). Proof. unfold set_scope. go. Qed.

Ltac base ::=
  first [ apply ok_ret | apply ok_crash | apply ok_ccerr | apply ok_cerr_at | apply ok_gcx | apply ok_gst | apply ok_mcx
        | apply ok_must | apply ok_py | apply ok_sym_at | apply ok_upd | apply ok_new | apply ok_scope | apply ok_define
        | apply ok_count | apply ok_rhere | apply ok_ghere | apply ok_rglob | apply ok_tyeq | apply ok_prom | apply ok_match
        | apply ok_tag | apply ok_set_line | apply ok_set_reg | apply ok_set_func | apply ok_set_yield | apply ok_set_loop
        | apply ok_set_module | apply ok_set_ty | apply ok_set_scope | apply ok_mst; intros ?; split; reflexivity ].

Variable F : front_env.
Lemma ok_defsym i d sc : ok (define_symbol F i d sc). Proof. unfold define_symbol. go. Qed.
Lemma ok_newvar n t : ok (new_var n t). Proof. unfold new_var. go. Qed.
Lemma ok_named o : ok (named_type o). Proof. unfold named_type. go. Qed.
Lemma ok_type_sym n : ok (type_sym n). Proof. unfold type_sym. go. Qed.
Lemma ok_mod_or_err sc n : ok (mod_or_err sc n). Proof. unfold mod_or_err. go. Qed.
Lemma ok_mod_scope p : ok (mod_scope p). Proof. unfold mod_scope. go. Qed.
Lemma ok_opcao t : ok (opcao t). Proof. unfold opcao. go. Qed.
Lemma ok_construct i g q : (forall l, g = Some l -> forall m, In m l -> ok m) -> ok (construct_ty i g q).
Proof.
  intros H. unfold construct_ty. apply ok_bind; [apply ok_sym_at|intros x]. apply ok_bind; [apply ok_must|intros t].
  destruct q; [apply ok_opcao|]. destruct g as [[|a l]|]; try apply ok_ret.
  apply ok_bind; [destruct (s_kind x); go|intros tps]. destruct (negb _); [apply ok_ccerr|].
  apply ok_bind; [|intros ts; go]. apply ok_mapc. intros m Hm. eapply H; eauto.
Qed.
Lemma ok_get_type : forall y, ok (get_type y).
Proof.
  fix IH 1. intros y. destruct y as [t g q|t comps g q|el q]; cbn [get_type].
  - apply ok_bind; [apply ok_type_sym|intros i]. apply ok_construct. destruct g as [l|]; intros l' E; [|discriminate]. injection E as <-.
    induction l as [|y l IHl]; intros m Hm; [destruct Hm|]. destruct Hm as [<-|Hm]; [apply IH|exact (IHl m Hm)].
  - destruct comps as [|h rest]; [apply ok_crash|].
    apply ok_bind; [apply ok_gcx|intros sc]. apply ok_bind; [apply ok_mod_or_err|intros m].
    apply ok_bind.
    { revert m. induction rest as [|c r IHr]; intros m; [apply ok_ret|]. destruct r as [|c' r]; [apply ok_ret|].
      apply ok_bind; [apply ok_mod_scope|intros sc']. apply ok_bind; [apply ok_mod_or_err|intros m']. apply IHr. }
    intros m'. apply ok_bind; [apply ok_mod_scope|intros sc']. apply ok_bind; [apply ok_gst|intros o]. destruct o as [i|]; [|apply ok_ccerr].
    apply ok_bind; [apply ok_sym_at|intros x]. destruct (sym_type i x); [|apply ok_ccerr]. apply ok_construct.
    destruct g as [l|]; intros l' E; [|discriminate]. injection E as <-.
    induction l as [|y l IHl]; intros m2 Hm; [destruct Hm|]. destruct Hm as [<-|Hm]; [apply IH|exact (IHl m2 Hm)].
  - apply ok_bind; [apply IH|intros t]. destruct q; [apply ok_opcao|apply ok_ret].
Qed.
Ltac base2 := first [base | apply ok_defsym | apply ok_newvar | apply ok_named | apply ok_type_sym | apply ok_mod_or_err | apply ok_mod_scope | apply ok_opcao | apply ok_get_type ].
Ltac step ::=
  first [ base2
        | apply ok_bind; [| intros ?]
        | apply ok_mapc; intros ? _
        | match goal with |- ok (match ?x with _ => _ end) => destruct x end ];
  cbv beta zeta.
Lemma ok_get_type_opt o : ok (get_type_opt o). Proof. unfold get_type_opt. go. Qed.
Lemma ok_enter o : ok (enter_scope o). Proof. unfold enter_scope. go. Qed.
Lemma ok_leave : ok leave_scope. Proof. unfold leave_scope. go. Qed.
Lemma ok_defparams sc ps : ok (define_params sc ps). Proof. unfold define_params. go. Qed.
Lemma ok_generics ps : ok (enter_generics ps). Proof. unfold enter_generics. go; apply ok_defparams. Qed.
Lemma ok_leave_ty : ok leave_ty_ctx. Proof. unfold leave_ty_ctx. go. Qed.
Lemma ok_free l n : ok (assert_free l n). Proof. unfold assert_free. go. Qed.
Lemma ok_bind_var a i : ok (bind_var a i). Proof. unfold bind_var. go. Qed.
Lemma ok_bind_sym a i : ok (bind_sym a i). Proof. unfold bind_sym. go; apply ok_bind_var. Qed.
Lemma ok_prop t n : ok (get_property t n). Proof. induction t; cbn [get_property]; go; auto using ok_bind_sym. Qed.
Lemma ok_defmet t n i : ok (define_method t n i). Proof. induction t; cbn [define_method]; go; auto. Qed.
Lemma ok_read l : forall seen, ok (read_params seen l). Proof. induction l; intros seen; cbn [read_params]; go; auto. Qed.
Lemma ok_funcscope l : ok (define_func_scope F l). Proof. unfold define_func_scope. go; apply ok_read. Qed.
Lemma ok_valdecl n : ok (validate_decl n). Proof. unfold validate_decl. go. Qed.
Lemma ok_tname t : ok (type_name t). Proof. unfold type_name. go. Qed.
Lemma ok_variants u l : ok (check_variants u l). Proof. induction l; cbn [check_variants]; go; auto. Qed.
Lemma ok_binding sc t ty : ok (check_binding F sc t ty). Proof. unfold check_binding. go. Qed.
Lemma ok_pat_int t : ok (pat_int t). Proof. unfold pat_int. go. Qed.
Lemma ok_subs sc ps : forall ts, ok (check_subs F sc ps ts). Proof. induction ps; intros [|t ts]; cbn [check_subs]; go; auto using ok_binding, ok_pat_int. Qed.
Lemma ok_walk l : forall i, ok (walk_path i l). Proof. induction l; intros i; cbn [walk_path]; go; auto. Qed.
Lemma ok_vpath h l p : ok (visit_path h l p). Proof. unfold visit_path. go; apply ok_walk. Qed.
Lemma ok_vvar n : ok (visit_variable n). Proof. unfold visit_variable. go. Qed.
Lemma ok_pattern sc p t : ok (check_pattern F sc p t). Proof. unfold check_pattern. go; auto using ok_walk, ok_vpath, ok_vvar, ok_subs, ok_pat_int, ok_binding. Qed.
Lemma ok_addvars l sc d : ok (add_vars l sc d). Proof. unfold add_vars. go. Qed.
Lemma ok_declare l e : ok (declare_leaf l e). Proof. unfold declare_leaf. go. Qed.
Lemma ok_match_args ts : forall l, ok (match_args ts l). Proof. induction ts; intros [|x l]; cbn [match_args]; go; auto. Qed.
Lemma ok_ptypes ps : ok (param_types ps). Proof. unfold param_types. go. Qed.
Lemma compile_never st tv pats dict next :
  compile_iguala (fun a b => ty_eqb (strip st a) (strip st b)) (constructors_of st) infinite_type tv pats dict next <> XFuel.
Proof.
  apply compile_total. intros t [H|H]; destruct t as [[]| | | | | |]; cbn in *; try reflexivity; try congruence; apply text_eqb_refl.
Qed.

Variable usa : smode -> text -> M unit.
Definition fine (x : sx) : Prop := usa_free x = true \/ forall mode w, ok (usa mode w).
Definition ofine (o : option sx) : Prop := match o with Some e => fine e | None => True end.
Lemma fine_and a b (X : Prop) : a && b = true \/ X -> (a = true \/ X) /\ (b = true \/ X).
Proof. intros [H|H]; [apply andb_true_iff in H as [A B]; auto | auto]. Qed.
Lemma fine_all l (X : Prop) : forallb usa_free l = true \/ X -> forall x, In x l -> usa_free x = true \/ X.
Proof. intros [H|H] x Hx; [left; exact (proj1 (forallb_forall _ _) H x Hx) | auto]. Qed.

Ltac base3 :=
  first [ base2 | apply ok_get_type_opt | apply ok_enter | apply ok_leave | apply ok_defparams | apply ok_generics
        | apply ok_leave_ty | apply ok_free | apply ok_prop | apply ok_defmet | apply ok_funcscope | apply ok_valdecl
        | apply ok_tname | apply ok_variants | apply ok_vpath | apply ok_vvar | apply ok_pattern | apply ok_addvars
        | apply ok_declare | apply ok_match_args | apply ok_ptypes ].
Ltac step ::=
  first [ base3
        | match goal with IH : fine ?x -> forall p sc again, ok (visit F usa ?x p sc again) |- ok (visit F usa ?x _ _ _) => apply IH; assumption end
        | match goal with IH : forall p sc again, ok (visit F usa ?x p sc again) |- ok (visit F usa ?x _ _ _) => apply IH end
        | match goal with IH : forall x, In x ?l -> forall p sc again, ok (visit F usa x p sc again), Hi : In ?x ?l |- ok (visit F usa ?x _ _ _) => apply IH; exact Hi end
        | apply ok_bind; [| intros ?]
        | apply ok_mapc; intros ? ?
        | match goal with |- ok (match ?x with _ => _ end) => destruct x end ];
  cbv beta zeta.
Ltac open_fine H := unfold fine in H; cbn [usa_free] in H; repeat match type of H with _ && _ = true \/ _ => let H2 := fresh "Hf" in apply fine_and in H; destruct H as [H H2] end.
Definition okv (x : sx) : Prop := forall p sc again, ok (visit F usa x p sc again).
(** The parts of an arm or a case, which are visited by its parent. *)
Definition parts (x : sx) : Prop := match x with XArm _ _ b => okv b | XCaso _ a b => okv a /\ okv b | _ => True end.
Lemma all_okv l X : Forall (fun x => fine x -> okv x /\ parts x) l -> X = (forall mode w, ok (usa mode w)) -> forallb usa_free l = true \/ X ->
  (forall x, In x l -> forall p sc again, ok (visit F usa x p sc again)) /\ forall x, In x l -> parts x.
Proof. intros H -> Hf. rewrite Forall_forall in H. split; intros x Hx; apply (H x Hx); exact (fine_all _ _ Hf x Hx). Qed.
Ltac all_in IH H := let IH2 := fresh "IHl" in let IH3 := fresh "IHp" in
  destruct (all_okv _ _ IH eq_refl H) as [IH2 IH3]; clear IH.

Lemma ok_must_bind {A B} (o : option A) (k : A -> M B) : (forall a, o = Some a -> ok (k a)) -> ok (cbind (must o) k).
Proof. destruct o as [a|]; intros H; [exact (H a eq_refl) | exact (fun s _ => I)]. Qed.
Lemma ok_visit_parts : forall x, fine x -> okv x /\ parts x.
Proof.
  induction x using sx_ind'; intros Hfine.
  all: open_fine Hfine.
  all: repeat match goal with IH : Forall _ ?l, H : forallb usa_free ?l = true \/ _ |- _ => all_in IH H end.
  all: try match goal with IH : oP _ ?o |- _ => destruct o; cbn [oP] in * end.
  all: try match goal with IH : match ?o with Some _ => _ | None => _ end |- _ => destruct o as [[? ?]|]; cbn [fst snd] in * end.
  all: repeat match goal with IH : fine ?x -> _, H : usa_free ?x = true \/ _ |- _ => specialize (proj1 (IH H)) as ?; clear IH end.
  all: unfold okv in *; split; [intros p0 sc0 again | solve [exact I | cbn [parts]; try split; assumption]].
  all: cbn [visit]; apply ok_bind; [destruct p0; base3 | intros _].
  all: try solve [go].
  - (* XCall *)
    apply ok_bind; [destruct x; go|]. intros [f i].
    assert (Hin : forall fs seen, ok ((fix go (seen : list text) (l : list sx) : M (list tx) :=
                        match l with
                        | [] => cret []
                        | a :: r =>
                            set_line (t_line (node_tok a)) ;;;
                            match a with
                            | XNamed n _ =>
                                ra <- visit F usa a PCall None again ;;
                                match assoc (lex_text n) fs with
                                | None => ccerr
                                | Some j =>
                                    if existsb (text_eqb (lex_text n)) seen then ccerr
                                    else
                                      fx <- sym_at j ;; ft <- must (sym_ty fx) ;;
                                      promotes (tx_ty (fst ra)) ft ;;;
                                      ok <- match_ty ft (tx_ty (fst ra)) ;;
                                      if negb ok then ccerr
                                      else rest <- go (lex_text n :: seen) r ;; cret (fst ra :: rest)
                                end
                            | _ => ccerr
                            end
                        end) seen l)).
    { intros fs. clear - IHl keep R_trans T. induction l as [|a l IH2]; intros seen; [apply ok_ret|].
      assert (IHl' : forall x, In x l -> forall p sc again, ok (visit F usa x p sc again)) by (intros; apply IHl; right; assumption).
      assert (Ha : forall p sc again, ok (visit F usa a p sc again)) by (intros; apply IHl; left; reflexivity).
      specialize (IH2 IHl'). apply ok_bind; [apply ok_set_line|intros _]. destruct a; try apply ok_ccerr.
      apply ok_bind; [apply Ha|intros ra]. go. apply IH2. }
    go. all: try apply Hin. all: try (apply IHl; cbn [In]; auto).
  - (* XIguala *)
    apply ok_bind; [go|intros cur]. apply ok_bind; [go|intros isc]. apply ok_bind; [go|intros _]. apply ok_bind; [go|intros rt]. cbv zeta.
    destruct (is_vazio _); [go|]. apply ok_bind; [go|intros ps]. apply ok_bind; [go|intros tv]. apply ok_bind; [go|intros ts].
    apply ok_bind; [go|intros vty]. apply ok_bind; [go|intros dict]. apply ok_bind; [go|intros next].
    intros s Hs. unfold cbind at 1. unfold gst at 1.
    pose proof (compile_never (sst_st s) (mkXvar tv (s_name ts) vty) (map fst ps) dict next) as HN.
    match goal with |- context[match ?c with XOk _ _ => _ | XCrash => _ | XFuel => _ end] => destruct c as [tree xs| |] end; [|exact I|contradiction].
    revert s Hs HN. intros s Hs _. revert s Hs.
    match goal with |- forall s, P s -> match ?m s with COk _ _ => _ | CErr _ _ => _ | CCrash => _ | CFuel => _ end => change (ok m) end.
    apply ok_bind; [go|intros _]. destruct (x_missing xs); [go|]. apply ok_bind; [go|intros _].
    apply ok_bind; [|intros; go].
    generalize (@None cty) as ty. generalize (@nil (nat * tx)) as done. induction (x_reach xs) as [|a r IHr]; intros done ty; [go|].
    apply ok_must_bind. intros f Ef. apply nth_error_In, in_map_iff in Ef as (ar & <- & Har). specialize (IHp ar Har).
    assert (Hf2 : forall sc b, ok ((match ar with XArm _ _ b => visit F usa b PExpr | _ => fun _ _ => crash end) sc b)).
    { destruct ar; intros; try apply ok_crash. apply IHp. }
    apply ok_bind; [go|intros asc]. apply ok_bind; [apply Hf2|intros rb]. apply ok_bind; [go|intros okb]. destruct okb; [apply IHr|go].
  - (* XYield *)
    apply ok_bind; [go|intros ysc]. apply ok_bind; [go|intros prev]. apply ok_bind; [go|intros _].
    apply ok_bind; [|intros; go]. clear - IHl keep R_trans T. induction l as [|a l IH2]; [apply ok_ret|].
    apply ok_bind; [apply IHl; left; reflexivity|intros y]. apply ok_bind; [apply IH2; intros; apply IHl; right; assumption|intros; go].
  - apply ok_bind; [go|intros re]. apply ok_bind; [go|intros g]. destruct (negb _); [go|]. apply ok_bind; [|intros; go].
    apply ok_mapc. intros c Hc. specialize (IHp c Hc). destruct c; try apply ok_crash. destruct IHp as [A B]. go; auto.
  - apply ok_bind; [go|intros re]. apply ok_bind; [go|intros g]. destruct (negb _); [go|]. apply ok_bind; [|intros; go].
    apply ok_mapc. intros c Hc. specialize (IHp c Hc). destruct c; try apply ok_crash. destruct IHp as [A B]. go; auto.
  - destruct Hfine as [H|H]; [discriminate|]. apply ok_bind; [apply H|intros; go].
Qed.
Lemma ok_trans_call l i f a t b : ok (trans_call l i f a t b).
Proof. unfold trans_call, opcao_ty, rename_into. go. Qed.
Lemma ok_trans_get l a m t : ok (trans_get l a m t).
Proof. unfold trans_get, opcao_ty, rename_into. go. Qed.
Fixpoint all_tr (l : list tx) : Prop := match l with [] => True | y :: r => ok (trans y) /\ all_tr r end.
Lemma ok_trans : forall x, ok (trans x).
Proof.
  fix IH 1. intros x.
  assert (IHl : forall l, all_tr l -> ok (mapc trans l)).
  { intros l. induction l as [|y l IHl]; intros H; cbn [mapc]; [apply ok_ret|]. destruct H as [H1 H2]. apply ok_bind; [exact H1|intros]. apply ok_bind; [exact (IHl H2)|intros; apply ok_ret]. }
  destruct x; cbn [trans].
  all: repeat match goal with
    | |- ok (trans_call _ _ _ _ _ _) => apply ok_trans_call
    | |- ok (trans_get _ _ _ _) => apply ok_trans_get
    | |- ok (trans _) => apply IH
    | |- ok (mapc trans _) => apply IHl
    | |- ok (cret _) => apply ok_ret
    | |- ok crash => apply ok_crash
    | |- ok (cbind _ _) => apply ok_bind; [|intros ?]
    | |- ok (match ?o with _ => _ end) => destruct o
    end.
  all: match goal with |- all_tr ?l => induction l as [|y l IHy]; [exact I|split; [apply IH|exact IHy]] end.
Qed.
Lemma ok_visit x p sc again : fine x -> ok (visit F usa x p sc again).
Proof. intros H. apply ok_visit_parts. exact H. Qed.
End Ok.

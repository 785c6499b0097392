(** What accepted declarations do to the symbols. *)
From Verif Require Import Base BaseFacts Dec Bson Value Ast Types Syntax Sym Exhaust Check Front Sem Spec_Types Spec_Typing Spec_Accept GenLocals ValueFacts AcceptBase AcceptTypes AcceptExpr AcceptFrame AcceptStep AcceptStm.
Local Open Scope chk_scope.
Tactic Notation "next" simple_intropattern(a) ident(Q) := let s1 := fresh "s" in apply cbind_inv in Q as (a & s1 & ?H & Q).

Ltac first_line H := cbn [Check.visit] in H; apply cbind_inv in H as (?u & ?s0 & ?L & H).

(** ** What the declarations do to the store *)
Lemma type_same y : core_ty y = true -> forall s t s', get_type y s = COk t s' -> s' = s.
Proof.
  assert (OPC : forall t s t' s', opcao t s = COk t' s' -> s' = s).
  { intros t s t' s' H. unfold opcao in H. next o H. apply gst_inv in H0 as [-> ->]. next i H. apply must_inv in H0 as [_ ->]. apply cret_inv in H as [_ ->]. reflexivity. }
  induction y as [tk gargs q|tk comps gargs q|el IH q]; intros CY s t s' H; try discriminate CY.
  - cbn [get_type] in H. next i H. assert (s0 = s) as ->.
    { unfold type_sym in H0. next o H0. apply here_inv in H1 as [-> ->]. next o H0. assert (s1 = s) as ->.
      { destruct (resolve_sc _ _ _); [apply cret_inv in H1 as [_ ->]; reflexivity|]. next c H1. apply gcx_inv in H2 as [-> ->]. apply gst_inv in H1 as [_ ->]. reflexivity. }
      destruct o; [|discriminate H0]. next x H0. apply sym_at_inv in H2 as [_ ->]. destruct (sym_type _ _); [|discriminate H0]. apply cret_inv in H0 as [_ ->]. reflexivity. }
    unfold construct_ty in H. next x H. apply sym_at_inv in H1 as [_ ->]. next t1 H. apply must_inv in H1 as [_ ->].
    destruct q; [exact (OPC _ _ _ _ H)|]. destruct gargs as [[|? ?]|]; [| discriminate CY|]; apply cret_inv in H as [_ ->]; reflexivity.
  - cbn [get_type] in H. next t0 H. apply (IH CY) in H0. subst. destruct q; [exact (OPC _ _ _ _ H)|]. apply cret_inv in H as [_ ->]. reflexivity.
Qed.
Lemma type_opt_same y : match y with Some y => core_ty y | None => true end = true -> forall s t s', get_type_opt y s = COk t s' -> s' = s.
Proof.
  destruct y as [y|]; intros CY s t s' H; cbn [get_type_opt] in H; [eapply type_same; eassumption|]. next r H. apply here_inv in H0 as [-> ->].
  apply named_inv in H as (_ & _ & _ & _ & _ & ->). reflexivity.
Qed.
(** The records a type mentions have been declared. *)
Fixpoint tin (k : nat) (t : cty) : Prop :=
  match t with
  | CReg i => (i < k)%nat
  | CVec t => tin k t
  | CCon _ [(_, t)] => tin k t
  | _ => True
  end.
Lemma tin_more k k' t : (k <= k')%nat -> tin k t -> tin k' t.
Proof.
  intros LE. revert t. fix IH 1. intros [p|t|i|i|g l|n|p]; cbn; try exact (fun h => h).
  - apply IH.
  - lia.
  - destruct l as [|[m t] [|? ?]]; try exact (fun h => h). apply IH.
Qed.
Lemma type_in y : core_ty y = true -> forall s t s', get_type y s = COk t s' -> tin (List.length (so_syms (sst_st s))) t.
Proof.
  assert (OPC : forall t s t' s', opcao t s = COk t' s' -> tin (List.length (so_syms (sst_st s))) t -> tin (List.length (so_syms (sst_st s))) t').
  { intros t s t' s' H T. unfold opcao in H. next o H. apply gst_inv in H0 as [-> ->]. next i H. apply must_inv in H0 as [_ ->]. apply cret_inv in H as [-> ->]. exact T. }
  induction y as [tk gargs q|tk comps gargs q|el IH q]; intros CY s t s' H; try discriminate CY.
  - cbn [get_type] in H. next i H. assert (s0 = s) as ->.
    { unfold type_sym in H0. next o H0. apply here_inv in H1 as [-> ->]. next o H0. assert (s1 = s) as ->.
      { destruct (resolve_sc _ _ _); [apply cret_inv in H1 as [_ ->]; reflexivity|]. next c H1. apply gcx_inv in H2 as [-> ->]. apply gst_inv in H1 as [_ ->]. reflexivity. }
      destruct o; [|discriminate H0]. next x H0. apply sym_at_inv in H2 as [_ ->]. destruct (sym_type _ _); [|discriminate H0]. apply cret_inv in H0 as [_ ->]. reflexivity. }
    unfold construct_ty in H. next x H. apply sym_at_inv in H1 as [EX ->]. next t1 H. apply must_inv in H1 as [TY ->].
    assert (T : tin (List.length (so_syms (sst_st s))) t1).
    { unfold sym_type in TY. destruct (s_kind x); try discriminate TY; injection TY as <-; cbn; auto. apply nth_error_Some. congruence. }
    destruct q; [exact (OPC _ _ _ _ H T)|]. destruct gargs as [[|? ?]|]; [| discriminate CY|]; apply cret_inv in H as [-> ->]; exact T.
  - cbn [get_type] in H. next t0 H. pose proof (type_same el CY _ _ _ H0). subst. apply (IH CY) in H0. destruct q; [exact (OPC _ _ _ _ H H0)|]. apply cret_inv in H as [-> ->]. exact H0.
Qed.
Lemma type_opt_in y : match y with Some y => core_ty y | None => true end = true -> forall s t s', get_type_opt y s = COk t s' -> tin (List.length (so_syms (sst_st s))) t.
Proof.
  destruct y as [y|]; intros CY s t s' H; cbn [get_type_opt] in H; [eapply type_in; eassumption|]. next r H. apply here_inv in H0 as [-> ->].
  apply named_inv in H as (i & x & R & E & T & ->). unfold sym_type in T. destruct (s_kind x); try discriminate T; injection T as <-; cbn; auto. apply nth_error_Some. congruence.
Qed.
Definition sim (x x' : symbol) : Prop := s_name x' = s_name x /\ s_kind x' = s_kind x /\ s_mod x' = s_mod x.
Lemma upd_at {A} (a b : list A) x f : upd (a ++ x :: b) (List.length a) f = a ++ f x :: b.
Proof. induction a as [|y a IH]; cbn; [reflexivity|rewrite IH; reflexivity]. Qed.
Lemma upd_len {A} (l : list A) i f : List.length (upd l i f) = List.length l.
Proof. revert i. induction l as [|x l IH]; intros [|i]; cbn; auto. Qed.
Lemma upd_app {A} (a b : list A) i f : (i < List.length a)%nat -> upd (a ++ b) i f = upd a i f ++ b.
Proof. revert i. induction a as [|x a IH]; intros [|i] H; cbn in *; try lia; [reflexivity|rewrite IH by lia; reflexivity]. Qed.
Lemma upd_upd {A} (l : list A) i f g : upd (upd l i f) i g = upd l i (fun x => g (f x)).
Proof. revert i. induction l as [|x l IH]; intros [|i]; cbn; congruence. Qed.
Lemma upd_ext {A} (l : list A) i f g : (forall x, f x = g x) -> upd l i f = upd l i g.
Proof. intros H. revert i. induction l as [|x l IH]; intros [|i]; cbn; congruence. Qed.
Lemma nth_at {A} (a b : list A) x : nth_error (a ++ x :: b) (List.length a) = Some x.
Proof. rewrite nth_error_app2, Nat.sub_diag by lia. reflexivity. Qed.
Lemma bind_bind n i c : bind_in n i (bind_in n i c) = bind_in n i c.
Proof.
  unfold bind_in. cbn. f_equal. induction (sc_syms c) as [|[m j] l IH]; cbn; [rewrite text_eqb_refl; reflexivity|].
  destruct (text_eqb n m) eqn:E; cbn; rewrite ?text_eqb_refl, ?E, ?IH; reflexivity.
Qed.
Lemma upd_sym_inv i f s u s' : upd_sym i f s = COk u s' -> s' = mkSst (with_syms (sst_st s) (upd (so_syms (sst_st s)) i f)) (sst_cx s).
Proof. unfold upd_sym, mst. intros H. injection H as _ <-. reflexivity. Qed.
Lemma new_sym_inv x s i s' : new_sym x s = COk i s' -> i = List.length (so_syms (sst_st s)) /\
  s' = mkSst (with_syms (sst_st s) (so_syms (sst_st s) ++ [x])) (sst_cx s).
Proof. unfold new_sym, cbind, gst, mst, cret. intros H. injection H as <- <-. auto. Qed.

Section Ops.
Variable F : front_env.
Variable usa : smode -> text -> M unit.
Notation visit := (visit F usa).
(** *** Parameters *)
Definition parm (m : text) (k : nat) (p : text * nat) (x : symbol) : Prop :=
  s_name x = fst p /\ s_mod x = m /\ exists t, s_kind x = SVar t /\ tin k t.
Lemma parm_noreg m k l xs : Forall2 (parm m k) l xs -> Forall noreg xs.
Proof. induction 1 as [|p x l xs (_ & _ & t & K & _) _ IH]; constructor; auto. intros f ms tp K'. congruence. Qed.
Lemma read_inv l : forallb (fun p => core_ty (sp_ty p)) l = true -> forall seen s ps s', read_params seen l s = COk ps s' ->
  exists new xs ln, ps = seen ++ new /\ so_syms (sst_st s') = so_syms (sst_st s) ++ xs /\ so_scopes (sst_st s') = so_scopes (sst_st s) /\
    so_opcao (sst_st s') = so_opcao (sst_st s) /\ sst_cx s' = sst_cx (reline s ln) /\
    map snd new = seq (List.length (so_syms (sst_st s))) (List.length new) /\
    Forall2 (parm (cx_module (sst_cx s)) (List.length (so_syms (sst_st s')))) new xs /\ (NoDup (map fst seen) -> NoDup (map fst ps)).
Proof.
  induction l as [|p l IH]; intros CL seen s ps s' H; cbn [read_params] in H.
  - apply cret_inv in H as [-> ->]. exists [], [], (cx_line (sst_cx s)). rewrite !app_nil_r. repeat (split; [reflexivity|]). split; [destruct s as [? []]; reflexivity|].
    split; [reflexivity|]. split; [constructor|auto].
  - cbn [forallb] in CL. apply andb_prop in CL as [CY CL]. destruct (assoc (lex_text (sp_name p)) seen) eqn:AS; [discriminate H|].
    next ?w H. apply line_inv in H0. subst. next t H. pose proof (type_same _ CY _ _ _ H0). subst. apply type_in in H0; [|exact CY]. next i H. apply new_var_inv in H1 as (-> & ->).
    destruct (IH CL _ _ _ _ H) as (new & xs & ln & -> & SY & SC & OP & CX & SQ & FA & ND). cbn [sst_st sst_cx with_syms so_syms so_scopes so_opcao reline cx_module cx_global cx_depth cx_scope cx_reg cx_func cx_yield cx_loop cx_ty] in *.
    set (x := mkSymbol (lex_text (sp_name p)) (lex_text (sp_name p)) false false (cx_module (sst_cx s)) false (SVar t)) in *.
    exists ((lex_text (sp_name p), List.length (so_syms (sst_st s))) :: new), (x :: xs), ln. split; [rewrite <- app_assoc; reflexivity|].
    split; [rewrite SY, <- app_assoc; reflexivity|]. split; [exact SC|]. split; [exact OP|]. split; [exact CX|]. split; [|split].
    + cbn. rewrite SQ, app_length. cbn. rewrite Nat.add_1_r. reflexivity.
    + constructor; [|exact FA]. split; [reflexivity|]. split; [reflexivity|]. exists t. split; [reflexivity|]. eapply tin_more; [|exact H0]. rewrite SY, !app_length. lia.
    + intros NS. apply ND. rewrite map_app. cbn. apply NoDup_Add with (a := lex_text (sp_name p)) (l := map fst seen).
      * replace (map fst seen) with (map fst seen ++ []) at 1 by apply app_nil_r. apply Add_app.
      * split; [exact NS|]. apply assoc_None. exact AS.
Qed.
(** *** Defining them *)
Lemma define_all d sc : forall l pre xs s us s', so_syms (sst_st s) = pre ++ xs -> Forall2 (fun p x => s_name x = fst p) l xs ->
  map snd l = seq (List.length pre) (List.length l) -> mapc (fun p => define_symbol F (snd p) d sc) l s = COk us s' ->
  exists xs', so_syms (sst_st s') = pre ++ xs' /\ Forall2 sim xs xs' /\ so_opcao (sst_st s') = so_opcao (sst_st s) /\ sst_cx s' = sst_cx s /\
    so_scopes (sst_st s') = upd (so_scopes (sst_st s)) sc (fun c => fold_left (fun c p => bind_in (fst p) (snd p) c) l c).
Proof.
  induction l as [|[n j] l IH]; intros pre xs s us s' SY FA SQ H; inversion FA as [|? x ? xs' NX FA']; subst.
  - cbn in H. injection H as <- <-. exists []. split; [exact SY|]. split; [constructor|]. split; [reflexivity|]. split; [reflexivity|].
    cbn. clear. induction (so_scopes (sst_st s)) as [|c l IH] in sc |- *; destruct sc; cbn; congruence.
  - cbn [map snd List.length seq] in SQ. injection SQ as -> SQ.
    change (mapc (fun p => define_symbol F (snd p) d sc) ((n, List.length pre) :: l)) with
      (cbind (define_symbol F (List.length pre) d sc) (fun y => cbind (mapc (fun p => define_symbol F (snd p) d sc) l) (fun ys => cret (y :: ys)))) in H.
    next ?w H. next ws H. apply cret_inv in H as [_ ->].
    edestruct define_inv as (g & N & K & MD & _ & _ & SY1 & SC1 & OP1 & _ & _ & CX1); [|exact H0|]; [rewrite SY; apply nth_at|].
    rewrite SY, upd_at in SY1. destruct (IH (pre ++ [g x]) xs' s0 ws s1) as (ys & SY2 & FS & OP2 & CX2 & SC2).
    + rewrite SY1, <- app_assoc. reflexivity.
    + exact FA'.
    + rewrite app_length. cbn. rewrite Nat.add_1_r. exact SQ.
    + exact H1.
    + exists (g x :: ys). split; [rewrite SY2, <- app_assoc; reflexivity|]. split; [constructor; [split; auto|exact FS]|]. split; [congruence|]. split; [congruence|].
      rewrite SC2, SC1, upd_upd. cbn in NX |- *. rewrite NX. reflexivity.
Qed.
Lemma fold_bind l : NoDup (map fst l) -> forall c, sc_up (fold_left (fun c p => bind_in (fst p) (snd p) c) l c) = sc_up c /\
  forall m, assoc m (sc_syms (fold_left (fun c p => bind_in (fst p) (snd p) c) l c)) = match assoc m l with Some i => Some i | None => assoc m (sc_syms c) end.
Proof.
  induction l as [|[n j] l IH]; intros ND c; [split; reflexivity|]. cbn [map fst] in ND. inversion ND as [|? ? NI ND']; subst.
  cbn [fold_left fst snd]. destruct (IH ND' (bind_in n j c)) as [U A]. split; [exact U|]. intros m. rewrite A. cbn.
  destruct (text_eqb m n) eqn:E.
  - apply text_eqb_eq in E. subst m. assert (assoc n l = None) as ->. { apply assoc_None. exact NI. }
    apply assoc_set_eq.
  - destruct (assoc m l); [reflexivity|]. rewrite assoc_set_neq; [reflexivity|]. intros ->. rewrite text_eqb_refl in E. discriminate E.
Qed.
(** Parameters are local variables of the function's scope, numbered in order. *)
Lemma read_local l : forallb (fun p => core_ty (sp_ty p)) l = true -> forall seen s ps s' xs, read_params seen l s = COk ps s' ->
  so_syms (sst_st s') = so_syms (sst_st s) ++ xs -> Forall (fun x => s_global x = false) xs.
Proof.
  induction l as [|p l IH]; intros CL seen s ps s' xs H E; cbn [read_params] in H.
  - apply cret_inv in H as [_ ->]. rewrite <- (app_nil_r (so_syms (sst_st s))) in E at 1. apply app_inv_head in E. subst. constructor.
  - cbn [forallb] in CL. apply andb_prop in CL as [CY CL]. destruct (assoc (lex_text (sp_name p)) seen) eqn:AS; [discriminate H|].
    next ?w H. apply line_inv in H0. subst. next t H. pose proof (type_same _ CY _ _ _ H0). subst. next i H. apply new_var_inv in H1 as (-> & ->).
    destruct (read_inv _ CL _ _ _ _ H) as (new & ys & ln & _ & SY & _). pose proof (IH CL _ _ _ _ _ H SY) as FA.
    cbn [sst_st sst_cx with_syms so_syms reline] in SY. rewrite SY, <- app_assoc in E. apply app_inv_head in E. subst xs. constructor; [reflexivity|exact FA].
Qed.
Lemma define_outs d sc : (1 <= d)%nat -> forall l pre xs s us s' c, so_syms (sst_st s) = pre ++ xs -> Forall2 (fun p x => s_name x = fst p) l xs ->
  map snd l = seq (List.length pre) (List.length l) -> mapc (fun p => define_symbol F (snd p) d sc) l s = COk us s' ->
  nth_error (so_scopes (sst_st s)) sc = Some c -> NoDup (map fst l) -> (forall n, In n (map fst l) -> assoc n (sc_syms c) = None) ->
  exists xs', so_syms (sst_st s') = pre ++ xs' /\ Forall2 (fun k x => s_out x = out_name d k) (seq (List.length (sc_syms c)) (List.length xs)) xs' /\
    Forall2 (fun x x' => s_global x' = s_global x) xs xs' /\
    nth_error (so_scopes (sst_st s')) sc = Some (mkScope (sc_syms c ++ l) (sc_up c)).
Proof.
  intros D. induction l as [|[n j] l IH]; intros pre xs s us s' c SY FA SQ H EC ND FR; inversion FA as [|? x ? xs' NX FA']; subst.
  - cbn in H. injection H as <- <-. exists []. split; [exact SY|]. split; [constructor|]. split; [constructor|]. rewrite app_nil_r. destruct c. exact EC.
  - cbn [map snd List.length seq] in SQ. injection SQ as -> SQ. cbn [map fst] in ND. inversion ND as [|? ? NI ND']; subst.
    change (mapc (fun p => define_symbol F (snd p) d sc) ((n, List.length pre) :: l)) with
      (cbind (define_symbol F (List.length pre) d sc) (fun y => cbind (mapc (fun p => define_symbol F (snd p) d sc) l) (fun ys => cret (y :: ys)))) in H.
    next ?w H. next ws H. apply cret_inv in H as [_ ->].
    assert (DX : so_syms (sst_st s0) = pre ++ s_set_out (out_name d (List.length (sc_syms c))) x :: xs' /\
                 nth_error (so_scopes (sst_st s0)) sc = Some (mkScope (sc_syms c ++ [(n, List.length pre)]) (sc_up c))).
    { unfold define_symbol in H0. next y H0. apply sym_at_inv in H as [E ->]. rewrite SY, nth_at in E. injection E as <-. next k H0. unfold count in H. apply gst_inv in H as [-> ->].
      rewrite (proj2 (Nat.leb_le _ _) D), orb_true_r in H0. next ?w H0. apply upd_sym_inv in H. subst. unfold define, mst in H0. injection H0 as _ <-.
      cbn [sst_st with_syms with_scopes so_syms so_scopes]. rewrite SY, upd_at, EC. split; [reflexivity|].
      rewrite nth_upd, Nat.eqb_refl, EC. cbn in NX |- *. rewrite NX, assoc_set_none by (apply FR; left; reflexivity). reflexivity. }
    destruct DX as [SY1 SC1]. destruct (IH (pre ++ [s_set_out (out_name d (List.length (sc_syms c))) x]) xs' s0 ws s1 (mkScope (sc_syms c ++ [(n, List.length pre)]) (sc_up c))) as (ys & SY2 & FO & FG & SC2); [| | |exact H1|exact SC1|exact ND'| |].
    + rewrite SY1, <- app_assoc. reflexivity.
    + exact FA'.
    + rewrite app_length. cbn. rewrite Nat.add_1_r. exact SQ.
    + intros m I. cbn [sc_syms]. apply assoc_None. rewrite map_app, in_app_iff. intros [A|[<-|[]]]; [|contradiction]. revert A. apply assoc_None. apply FR. right. exact I.
    + eexists. split; [rewrite SY2, <- app_assoc; reflexivity|]. cbn [app]. split; [|split; [constructor; [reflexivity|exact FG]|]].
      * cbn [List.length seq]. constructor; [reflexivity|]. cbn [sc_syms] in FO. rewrite app_length in FO. cbn in FO. rewrite Nat.add_1_r in FO. exact FO.
      * rewrite SC2. cbn [sc_syms sc_up]. rewrite <- app_assoc. reflexivity.
Qed.
(** *** Functions *)
Definition with_func (s : sst) (f : option nat) : sst :=
  mkSst (sst_st s) (mkCx (cx_global (sst_cx s)) (cx_depth (sst_cx s)) (cx_scope (sst_cx s)) (cx_line (sst_cx s)) (cx_reg (sst_cx s)) f
                         (cx_yield (sst_cx s)) (cx_loop (sst_cx s)) (cx_module (sst_cx s)) (cx_ty (sst_cx s))).
Lemma func_inv name ps y ans b again s t o s' : core (XFunc name ps y false ans (Some b)) = ShT -> visit (XFunc name ps y false ans (Some b)) PNone None again s = COk (t, o) s' ->
  exists ty ps' fx xs c ln s1 tb ob s2,
    cx_depth (sst_cx s) = 0%nat /\ scope_get (sst_st s) (cx_scope (sst_cx s)) (lex_text name) = None /\
    so_syms (sst_st s1) = so_syms (sst_st s) ++ fx :: xs /\
    (s_name fx = lex_text name /\ s_kind fx = SFun ty ps' /\ s_mod fx = cx_module (sst_cx s) /\ s_builtin fx = false) /\ tin (List.length (so_syms (sst_st s1))) ty /\
    map snd ps' = seq (S (List.length (so_syms (sst_st s)))) (List.length ps') /\ NoDup (map fst ps') /\
    Forall2 (parm (cx_module (sst_cx s)) (List.length (so_syms (sst_st s1)))) ps' xs /\
    so_scopes (sst_st s1) = upd (so_scopes (sst_st s)) (cx_scope (sst_cx s)) (bind_in (lex_text name) (List.length (so_syms (sst_st s)))) ++ [c] /\
    sc_up c = Some (cx_scope (sst_cx s)) /\ (forall m, assoc m (sc_syms c) = assoc m ps') /\
    so_opcao (sst_st s1) = so_opcao (sst_st s) /\ sst_cx s1 = sst_cx (with_func (reline s ln) (Some (List.length (so_syms (sst_st s))))) /\
    visit b PNone (Some (List.length (so_scopes (sst_st s)))) again s1 = COk (tb, ob) s2 /\
    s' = with_func s2 (cx_func (sst_cx s)) /\ t = TFunc (Lexer.t_line name) (List.length (so_syms (sst_st s))) (Some tb) /\
    (has_return b = true \/ is_vazio ty = true) /\
    s_global fx = true /\ sc_syms c = ps' /\ Forall (fun x => s_global x = false) xs /\
    Forall2 (fun k x => s_out x = out_name 1 k) (seq 0 (List.length xs)) xs.
Proof.
  intros C H. cbn in C. destruct (_ && is_b _) eqn:CC in C; [|discriminate C]. rewrite !andb_true_iff in CC. destruct CC as [[[CP CY] CA] CB]. clear C.
  first_line H. apply line_inv in L. subst. next ?w H. unfold validate_decl in H0. next d H0. apply gcx_inv in H1 as [-> ->]. cbn [reline sst_cx cx_depth] in H0.
  destruct (0 <? cx_depth (sst_cx s))%nat eqn:DP; [discriminate H0|]. apply Nat.ltb_ge in DP. next o1 H0. unfold get_here in H1. next sc H1. apply gcx_inv in H2 as [-> ->].
  apply gst_inv in H1 as [-> ->]. cbn [reline sst_cx sst_st cx_scope] in H0. destruct (scope_get _ _ _) eqn:FREE; [discriminate H0|]. apply cret_inv in H0 as [_ ->].
  next ?w H. destruct (max_params <? _)%nat; [discriminate H0|]. apply cret_inv in H0 as [_ ->].
  next ty H. pose proof (type_opt_same _ CY _ _ _ H0). subst. apply type_opt_in in H0; [|exact CY]. next m H. apply gcx_inv in H1 as [-> ->].
  next i H. apply new_sym_inv in H1 as (-> & ->). next ty' H. pose proof (type_opt_same _ CY _ _ _ H1). subst. clear H1.
  next ?w H. apply upd_sym_inv in H1. subst. next d H. apply gcx_inv in H1 as [-> ->]. next cur H. apply gcx_inv in H1 as [-> ->].
  cbn [reline sst_cx sst_st cx_depth cx_scope cx_module with_syms so_syms] in *. rewrite upd_last in H.
  next ?w H. set (fx := s_set_global _) in H1.
  edestruct define_inv as (g & N & K & MD & BU & GB & SY1 & SC1 & OP1 & _ & _ & CX1); [|exact H1|]; [cbn; apply nth_last|]. clear H1.
  cbn [sst_cx sst_st with_syms so_syms so_scopes so_opcao] in *. rewrite upd_last in SY1. match type of H with _ ?z = _ => rename z into sa end.
  next r H. unfold define_func_scope in H1. next ps1 H1. destruct (read_inv _ CP _ _ _ _ H2) as (new & xs & ln & E & SY2 & SC2 & OP2 & CX2 & SQ & FA & ND).
  cbn in E. subst ps1. specialize (ND (NoDup_nil _)). pose proof (read_local _ CP _ _ _ _ _ H2 SY2) as LOC. clear H2. match type of H1 with _ ?z = _ => rename z into sb end.
  next cur H1. apply gcx_inv in H2 as [-> ->]. next d H1. apply gcx_inv in H2 as [-> ->]. next sc H1. apply new_scope_inv in H2 as (-> & ->).
  next us H1. apply cret_inv in H1 as [-> ->]. cbn [fst snd] in H.
  destruct (define_outs _ _ ltac:(apply le_n_S, Nat.le_0_l) new (so_syms (sst_st sa)) xs _ _ _ (mkScope [] (Some (cx_scope (sst_cx sb)))) (SY2 : so_syms (sst_st (mkSst (with_scopes (sst_st sb) _) (sst_cx sb))) = _)
     ltac:(clear - FA; induction FA as [|p x l xs (E & _) _ IH]; constructor; auto) SQ H2 (nth_last _ _) ND ltac:(reflexivity)) as (xo & SYO & FO & FG & SCO).
  destruct (define_all _ _ new (so_syms (sst_st sa)) xs _ _ _ (SY2 : so_syms (sst_st (mkSst (with_scopes (sst_st sb) _) (sst_cx sb))) = _)
     ltac:(clear - FA; induction FA as [|p x l xs (E & _) _ IH]; constructor; auto) SQ H2) as (xs' & SY3 & FS & OP3 & CX3 & SC3). clear H2.
  cbn [sst_cx sst_st with_scopes so_syms so_scopes so_opcao] in *. match type of H with _ ?z = _ => rename z into sc1 end.
  assert (LSA : List.length (so_syms (sst_st sa)) = S (List.length (so_syms (sst_st s)))) by (rewrite SY1, app_length; cbn; lia).
  next ?w H. apply upd_sym_inv in H1. subst. cbn [orb] in H. rewrite (proj1 (negb_true_iff _) CA) in H. cbn [orb] in H.
  destruct (_ && _) eqn:HR in H; [next ?w H; discriminate H|]. next old H. apply gcx_inv in H1 as [-> ->]. next ?w H. next rb H. destruct rb as [tb ob]. cbn [fst] in H. next ?w H.
  apply cret_inv in H as [H ->]. injection H as -> ->. unfold set_func, mcx in H1, H3. injection H1 as _ <-. injection H3 as _ <-.
  cbn [sst_cx sst_st with_syms so_syms so_scopes so_opcao] in *.
  assert (CX : sst_cx sc1 = sst_cx (reline s ln)) by (rewrite CX3, CX2; unfold reline; cbn [sst_cx]; rewrite CX1; reflexivity).
  match type of H2 with visit _ _ _ _ ?z = COk _ ?z2 => exists ty, new, (s_set_kind (SFun ty new) (g fx)), xs', (fold_left (fun c p => bind_in (fst p) (snd p) c) new (mkScope [] (Some (cx_scope (sst_cx s))))), ln, z, tb, ob, z2 end.
  assert (SYS : so_syms (sst_st sc1) = so_syms (sst_st s) ++ g fx :: xs') by (rewrite SY3, SY1, <- app_assoc; reflexivity).
  assert (LSC : List.length (so_syms (sst_st sc1)) = List.length (so_syms (sst_st sb))).
  { rewrite SY2, SY3, !app_length. f_equal. clear - FS. induction FS; cbn; auto. }
  cbn [sst_cx sst_st with_syms so_syms so_scopes so_opcao]. rewrite SYS, upd_at.
  split; [lia|]. split; [reflexivity|]. split; [reflexivity|]. split; [|split; [|split; [|split; [|split; [|split]]]]].
  - cbn. rewrite N, MD, BU. split; [reflexivity|]. split; [reflexivity|]. split; [reflexivity|]. cbn. apply negb_true_iff. exact CA.
  - eapply tin_more; [|exact H0]. rewrite app_length. lia.
  - rewrite LSA in SQ. exact SQ.
  - exact ND.
  - replace (List.length (so_syms (sst_st s) ++ s_set_kind (SFun ty new) (g fx) :: xs')) with (List.length (so_syms (sst_st sb))) by (rewrite <- LSC, SYS, !app_length; reflexivity).
    clear - FA FS CX1. rewrite CX1 in FA. cbn in FA. revert xs' FS. induction FA as [|p x l xs (P1 & P2 & t & P3 & P4) _ IH]; intros ys FS; inversion FS as [|? z ? ys' (S1 & S2 & S3) FS']; subst; constructor.
    + split; [congruence|]. split; [congruence|]. exists t. split; [congruence|exact P4].
    + apply IH. exact FS'.
  - rewrite SC3, SC2, upd_last, SC1, CX2. cbn [reline sst_cx cx_scope]. rewrite CX1. reflexivity.
  - destruct (fold_bind _ ND (mkScope [] (Some (cx_scope (sst_cx s))))) as [U A]. split; [exact U|]. split; [intros q; rewrite A; destruct (assoc q new); reflexivity|].
    split; [congruence|]. split; [rewrite CX; reflexivity|]. split; [|split; [|split; [reflexivity|]]].
    + rewrite SYS, upd_at, SC2, SC1, upd_len in H2. exact H2.
    + rewrite CX. reflexivity.
    + split; [destruct (has_return b); [auto|]; destruct (is_vazio ty); [auto|discriminate HR]|].
      split; [exact GB|]. split; [|split].
      * rewrite SC3, upd_last, nth_last in SCO. injection SCO as SCO.
        assert (EQ : cx_scope (sst_cx sb) = cx_scope (sst_cx s)) by (rewrite CX2; cbn [reline sst_cx cx_scope]; rewrite CX1; reflexivity). rewrite EQ in SCO. rewrite SCO. reflexivity.
      * assert (xo = xs') as -> by (rewrite SY3 in SYO; apply app_inv_head in SYO; congruence). clear - LOC FG. induction FG; inversion LOC; subst; constructor; [congruence|auto].
      * assert (xo = xs') as -> by (rewrite SY3 in SYO; apply app_inv_head in SYO; congruence).
        assert (LX : List.length xs' = List.length xs) by (clear - FG; induction FG; cbn; auto). rewrite LX.
        assert (EQ : cx_depth (sst_cx sb) = 0%nat) by (rewrite CX2; cbn [reline sst_cx cx_depth]; rewrite CX1; cbn; lia). rewrite EQ in FO. exact FO.
Qed.
(** *** Variables *)
Lemma decl_inv t n y o again s t0 o0 s' : core_ty y = true -> visit (XDecl t n y o) PNone None again s = COk (t0, o0) s' ->
  exists ty x ln sd rr se, again = false /\ scope_get (sst_st s) (cx_scope (sst_cx s)) (lex_text n) = None /\
    so_syms (sst_st sd) = so_syms (sst_st s) ++ [x] /\ (s_name x = lex_text n /\ s_kind x = SVar ty /\ s_mod x = cx_module (sst_cx s)) /\
    tin (List.length (so_syms (sst_st s))) ty /\
    so_scopes (sst_st sd) = upd (so_scopes (sst_st s)) (cx_scope (sst_cx s)) (bind_in (lex_text n) (List.length (so_syms (sst_st s)))) /\
    so_opcao (sst_st sd) = so_opcao (sst_st s) /\ sst_cx sd = sst_cx (reline s ln) /\
    match o with
    | None => rr = None /\ se = sd /\ (cx_reg (sst_cx s) = false -> zero_initialized ty = true)
    | Some (ta, e) => exists tv ov s1, visit e PExpr None false (reline sd (Lexer.t_line ta)) = COk (tv, ov) s1 /\
        se = reline s1 (Lexer.t_line n) /\ exists i' x' t', resolve_sc (sst_st s1) (cx_scope (sst_cx s1)) (lex_text n) = Some i' /\
          nth_error (so_syms (sst_st s1)) i' = Some x' /\ sym_ty x' = Some t' /\
          rr = Some (TAssign (Lexer.t_line ta) (lex_text n) i' (set_prom (to_real (tx_ty tv) t') tv) t') /\ types_match (strip (sst_st s1) t') (strip (sst_st s1) (tx_ty tv)) = PyOk true
    end /\
    s' = (if (cx_depth (sst_cx s) =? 0)%nat then mkSst (with_syms (sst_st se) (upd (so_syms (sst_st se)) (List.length (so_syms (sst_st s))) s_set_global)) (sst_cx se) else se) /\
    t0 = TDecl (Lexer.t_line t) (lex_text n) ty rr.
Proof.
  intros CY H. first_line H. apply line_inv in L. subst. next ?w H. apply free_inv in H0 as [-> FREE]. next ?w H. destruct again; [discriminate H0|]. apply cret_inv in H0 as [_ ->].
  next ty H. pose proof (type_same _ CY _ _ _ H0). subst. apply type_in in H0; [|exact CY].
  next i H. next d H. apply gcx_inv in H2 as [-> ->]. next cur H. apply gcx_inv in H2 as [-> ->]. next ?w H.
  edestruct define_new as (EI & CX & OP & SC & x & SY & NX & KX & MX); [exact H1|exact H2|].
  subst i. apply new_var_inv in H1 as [_ ->]. cbn [sst_cx sst_st reline cx_depth cx_scope cx_module] in *.
  match type of H with _ ?x = _ => rename x into sd end. next rr H. match type of H with _ ?x = _ => rename x into se end.
  exists ty, x, (Lexer.t_line t), sd, rr, se. split; [reflexivity|]. split; [exact FREE|]. split; [exact SY|]. split; [auto|]. split; [exact H0|]. split; [exact SC|]. split; [exact OP|].
  split; [exact CX|]. split.
  - destruct o as [[ta e]|].
    + destruct (lex_is (Parser.node_tok e) (lex_text n)); [discriminate H1|]. next ?w H1. apply line_inv in H3. subst.
      next rv H1. destruct rv as [tv ov]. cbn [fst] in H1. next ?w H1. apply line_inv in H4. subst. next rl H1. apply variable_inv in H4 as (-> & i' & x' & t' & -> & RS & E & SYT & CE).
      cbn [fst snd] in H1. match type of H3 with _ = COk _ ?z => exists tv, ov, z; set (s1 := z) in * end.
      assert (V' : (promotes (tx_ty tv) t' ;;; ok <- match_ty t' (tx_ty tv) ;;
        (if negb ok then set_line (Lexer.t_line ta) ;;; ccerr else cret (Some (TAssign (Lexer.t_line ta) (lex_text n) i' (set_prom (to_real (tx_ty tv) t') tv) t')))) (reline s1 (Lexer.t_line n)) = COk rr se).
      { destruct t'; try exact H1. discriminate H1. }
      next ?w V'. apply promotes_inv in H4. subst. next ok V'. apply match_ty_inv in H4 as [MT ->]. destruct ok; [|next ?w V'; discriminate V'].
      cbn [negb] in V'. apply cret_inv in V' as [-> ->]. split; [exact H3|]. split; [reflexivity|]. exists i', x', t'. auto 6.
    + next b H1. apply gcx_inv in H3 as [-> ->]. destruct (_ && _) eqn:ZI; [discriminate H1|]. apply cret_inv in H1 as [-> ->]. split; [reflexivity|]. split; [reflexivity|].
      intros RG. rewrite CX in ZI. cbn in ZI. rewrite RG in ZI. cbn in ZI. destruct (zero_initialized ty); [reflexivity|discriminate ZI].
  - next ?w H. apply cret_inv in H as [H ->]. injection H as -> ->. split; [|reflexivity]. destruct (cx_depth (sst_cx s) =? 0)%nat.
    + apply upd_sym_inv in H3. exact H3.
    + apply cret_inv in H3 as [_ ->]. reflexivity.
Qed.
(** *** Records *)
Lemma field_inv x again s r s' : core_field x = true -> cx_depth (sst_cx s) <> 0%nat -> visit x PField None again s = COk r s' ->
  exists n ty z, so_syms (sst_st s') = so_syms (sst_st s) ++ [z] /\ s_name z = n /\ s_kind z = SVar ty /\
    tin (List.length (so_syms (sst_st s))) ty /\ scope_get (sst_st s) (cx_scope (sst_cx s)) n = None /\
    so_scopes (sst_st s') = upd (so_scopes (sst_st s)) (cx_scope (sst_cx s)) (bind_in n (List.length (so_syms (sst_st s)))) /\
    so_opcao (sst_st s') = so_opcao (sst_st s) /\ sst_cx s' = sst_cx s.
Proof.
  intros CF DP H. destruct x; try discriminate CF. cbn in CF. match type of CF with match ?z with _ => _ end = _ => destruct z; [discriminate CF|] end. first_line H. apply cret_inv in L as [_ ->].
  next ?w H. apply free_inv in H0 as [-> FREE]. next ?w H. destruct again; [discriminate H0|]. apply cret_inv in H0 as [_ ->].
  next ty1 H. pose proof (type_same _ CF _ _ _ H0). subst. apply type_in in H0; [|exact CF].
  next i H. next d H. apply gcx_inv in H2 as [-> ->]. next cur H. apply gcx_inv in H2 as [-> ->]. next ?w H.
  edestruct define_new as (EI & CX & OP & SC & x & SY & NX & KX & MX); [exact H1|exact H2|].
  subst i. apply new_var_inv in H1 as [_ ->]. cbn [sst_cx sst_st] in *. next rr H. next b H1. apply gcx_inv in H3 as [-> ->].
  destruct (_ && _) in H1; [discriminate H1|]. apply cret_inv in H1 as [-> ->]. destruct (cx_depth (sst_cx s)) as [|d]; [congruence|]. cbn [Nat.eqb] in H.
  next ?w H. apply cret_inv in H1 as [_ ->]. apply cret_inv in H as [_ ->]. eauto 14.
Qed.
Definition ent (lo : nat) (syms : list symbol) (e : text * nat) : Prop :=
  (lo <= snd e)%nat /\ exists z t, nth_error syms (snd e) = Some z /\ s_kind z = SVar t /\ tin (List.length syms) t.
Lemma ent_more lo syms l e : ent lo syms e -> ent lo (syms ++ l) e.
Proof. intros (LE & z & t & E & K & T). split; [exact LE|]. exists z, t. split; [apply nth_old; exact E|]. split; [exact K|]. eapply tin_more; [|exact T]. rewrite app_length. lia. Qed.
Lemma set_ent (P : text * nat -> Prop) l n i : Forall P l -> P (n, i) -> Forall P (assoc_set l n i).
Proof.
  intros H HN. induction H as [|[m j] l PX H IH]; cbn; [constructor; auto|]. destruct (text_eqb n m); constructor; auto.
Qed.
Lemma fields_inv lo l again : forallb core_field l = true -> forall s us s' c, cx_depth (sst_cx s) <> 0%nat -> (lo <= List.length (so_syms (sst_st s)))%nat ->
  nth_error (so_scopes (sst_st s)) (cx_scope (sst_cx s)) = Some c -> Forall (ent lo (so_syms (sst_st s))) (sc_syms c) ->
  mapc (fun f => visit f PField None again) l s = COk us s' ->
  exists xs c', so_syms (sst_st s') = so_syms (sst_st s) ++ xs /\ Forall noreg xs /\ sc_up c' = sc_up c /\
    so_scopes (sst_st s') = upd (so_scopes (sst_st s)) (cx_scope (sst_cx s)) (fun _ => c') /\ Forall (ent lo (so_syms (sst_st s'))) (sc_syms c') /\
    so_opcao (sst_st s') = so_opcao (sst_st s) /\ sst_cx s' = sst_cx s.
Proof.
  induction l as [|x l IH]; intros CL s us s' c DP LO EC FE H.
  - cbn in H. injection H as <- <-. exists [], c. rewrite app_nil_r. repeat (split; [auto; fail|]). split; [|auto].
    clear - EC. revert EC. generalize (cx_scope (sst_cx s)). induction (so_scopes (sst_st s)) as [|d r IH]; intros [|k] E; cbn in *; try discriminate E; [congruence|]. rewrite <- IH; auto.
  - cbn [forallb] in CL. apply andb_prop in CL as [CX0 CL].
    change (mapc (fun f => visit f PField None again) (x :: l)) with (cbind (visit x PField None again) (fun y => cbind (mapc (fun f => visit f PField None again) l) (fun ys => cret (y :: ys)))) in H.
    next a H. next b H. apply cret_inv in H as [_ ->]. apply field_inv in H0 as (n & ty & z & SY & NZ & KZ & T & FREE & SC & OP & CX); [|exact CX0|exact DP].
    destruct (IH CL s0 b s1 (bind_in n (List.length (so_syms (sst_st s))) c)) as (xs & c' & SY' & NR & UP & SC' & FE' & OP' & CX'); [congruence|rewrite SY, app_length; lia| | |exact H1|].
    + rewrite SC, CX, nth_upd, Nat.eqb_refl, EC. reflexivity.
    + cbn. apply set_ent.
      * rewrite SY. eapply Forall_impl; [|exact FE]. intros e. apply ent_more.
      * split; [exact LO|]. exists z, ty. rewrite SY. cbn. split; [apply nth_last|]. split; [exact KZ|]. eapply tin_more; [|exact T]. rewrite app_length. lia.
    + exists (z :: xs), c'. split; [rewrite SY', SY, <- app_assoc; reflexivity|]. split; [constructor; [intros f ms tp K; congruence|exact NR]|]. split; [exact UP|].
      split; [rewrite SC', SC, CX, upd_upd; reflexivity|]. split; [exact FE'|]. split; congruence.
Qed.
(** Marking the fields changes nothing else. *)
Lemma sims_upd l i g : (forall x, sim x (g x)) -> Forall2 sim l (upd l i g).
Proof.
  intros HG. assert (RF : forall l, Forall2 sim l l) by (clear; induction l; constructor; [repeat split|auto]).
  revert i. induction l as [|x l IH]; intros [|i]; cbn; constructor; auto. repeat split.
Qed.
Lemma sims_trans a b c : Forall2 sim a b -> Forall2 sim b c -> Forall2 sim a c.
Proof.
  intros H. revert c. induction H as [|x y a b SM _ IH]; intros c H; inversion H as [|? z ? c' SM' H']; subst; constructor; [|apply IH; exact H'].
  destruct SM as (? & ? & ?), SM' as (? & ? & ?). repeat split; congruence.
Qed.
Lemma upd_right {A} (a b : list A) i f : (List.length a <= i)%nat -> upd (a ++ b) i f = a ++ upd b (i - List.length a) f.
Proof. revert i. induction a as [|x a IH]; intros i H; cbn in *; [rewrite Nat.sub_0_r; reflexivity|]. destruct i as [|i]; [lia|]. cbn. rewrite IH by lia. reflexivity. Qed.
Lemma props_inv pre l : Forall (fun e : text * nat => (List.length pre <= snd e)%nat) l -> forall xs s us s', so_syms (sst_st s) = pre ++ xs ->
  mapc (fun e : text * nat => upd_sym (snd e) s_set_prop) l s = COk us s' ->
  exists xs', so_syms (sst_st s') = pre ++ xs' /\ Forall2 sim xs xs' /\ so_scopes (sst_st s') = so_scopes (sst_st s) /\ so_opcao (sst_st s') = so_opcao (sst_st s) /\ sst_cx s' = sst_cx s.
Proof.
  induction 1 as [|e l LE _ IH]; intros xs s us s' SY H.
  - cbn in H. injection H as <- <-. exists xs. split; [exact SY|]. split; [|auto]. clear. induction xs; constructor; auto. repeat split.
  - change (mapc (fun e => upd_sym (snd e) s_set_prop) (e :: l)) with (cbind (upd_sym (snd e) s_set_prop) (fun y => cbind (mapc (fun e : text * nat => upd_sym (snd e) s_set_prop) l) (fun ys => cret (y :: ys)))) in H.
    next a H. next b H. apply cret_inv in H as [_ ->]. apply upd_sym_inv in H0. subst s0.
    edestruct (IH (upd xs (snd e - List.length pre) s_set_prop)) as (xs' & SY' & FS & SC & OP & CX); [|exact H1|]; [cbn; rewrite SY; apply upd_right; exact LE|].
    exists xs'. split; [exact SY'|]. split; [|auto]. eapply sims_trans; [|exact FS]. apply sims_upd. intros x. repeat split.
Qed.
Lemma sims_noreg xs xs' : Forall2 sim xs xs' -> Forall noreg xs -> Forall noreg xs'.
Proof. induction 1 as [|x y a b (_ & K & _) _ IH]; intros H; inversion H as [|? ? H1 H2]; subst; constructor; auto. intros f ms tp E. apply (H1 f ms tp). congruence. Qed.
Lemma sims_nth l l' i x : Forall2 sim l l' -> nth_error l i = Some x -> exists x', nth_error l' i = Some x' /\ sim x x'.
Proof. intros H. revert i. induction H as [|a b l l' SM _ IH]; intros [|i] E; cbn in *; try discriminate E; [injection E as <-; eauto|auto]. Qed.
Lemma sims_len l l' : Forall2 sim l l' -> List.length l' = List.length l.
Proof. induction 1; cbn; auto. Qed.
Hypothesis order_nil : f_order F [] = [].
Lemma reg_inv name fields lb again s t o s' : forallb core_field fields = true -> cx_reg (sst_cx s) = false ->
  (cx_scope (sst_cx s) < List.length (so_scopes (sst_st s)))%nat ->
  visit (XReg name [] fields lb) PNone None again s = COk (t, o) s' ->
  exists rx xs c gc ln, scope_get (sst_st s) (cx_scope (sst_cx s)) (lex_text name) = None /\
    so_syms (sst_st s') = so_syms (sst_st s) ++ rx :: xs /\ (s_name rx = lex_text name /\ s_kind rx = SReg (List.length (so_scopes (sst_st s))) [] [] /\ s_mod rx = cx_module (sst_cx s)) /\
    Forall noreg xs /\
    so_scopes (sst_st s') = upd (so_scopes (sst_st s)) (cx_scope (sst_cx s)) (bind_in (lex_text name) (List.length (so_syms (sst_st s)))) ++ [c; gc] /\
    Forall (ent 0 (so_syms (sst_st s'))) (sc_syms c) /\
    so_opcao (sst_st s') = so_opcao (sst_st s) /\ sst_cx s' = sst_cx (reline s ln) /\
    t = TReg (Lexer.t_line name) (lex_text name) (List.length (so_syms (sst_st s))).
Proof.
  intros CF RG LT H. first_line H. apply line_inv in L. subst. next cur H. apply gcx_inv in H0 as [-> ->]. next d H. apply gcx_inv in H0 as [-> ->].
  cbn [reline sst_cx sst_st cx_depth cx_scope cx_module] in H. next rsc H. apply new_scope_inv in H0 as (-> & ->).
  next oh H. unfold get_here in H0. next sc H0. apply gcx_inv in H1 as [-> ->]. apply gst_inv in H0 as [-> ->]. cbn [reline sst_cx sst_st cx_scope] in H.
  destruct (scope_get _ _ _) eqn:FREE in H; [discriminate H|].
  assert (GP : generic_params F [] = []) by (unfold generic_params; cbn; exact order_nil). rewrite GP in H.
  next ?w H. unfold enter_generics in H0. next ty H0. apply gcx_inv in H1 as [-> ->]. next gsc H0. apply new_scope_inv in H1 as (-> & ->).
  unfold define_params in H0. next ?w H0. next m H1. apply gcx_inv in H2 as [-> ->]. next ws H1. apply cret_inv in H2 as [_ ->]. apply cret_inv in H1 as [_ ->].
  unfold set_ty_ctx, mcx in H0. injection H0 as _ <-.
  next m H. apply gcx_inv in H0 as [-> ->]. next i H. apply new_sym_inv in H0 as (-> & ->).
  next ?w H. edestruct define_inv as (g & N & K & MD & _ & _ & SY1 & SC1 & OP1 & _ & _ & CX1); [|exact H0|]; [cbn; apply nth_last|]. clear H0.
  cbn [sst_cx sst_st with_syms with_scopes reline so_syms so_scopes so_opcao cx_module cx_ty cx_line cx_global cx_depth cx_scope cx_reg cx_func cx_yield cx_loop] in *. rewrite upd_last in SY1.
  match type of H with _ ?z = _ => rename z into sa end.
  next ?w H. unfold set_reg, mcx in H0. injection H0 as _ <-. next ?w H. apply block_enter in H0 as [(psc & E & _ & ->)|(E & _)]; [|discriminate E]. injection E as <-.
  next us H. rewrite <- app_assoc in SC1. rewrite upd_app in SC1 by exact LT. cbn [app] in SC1.
  eapply (fields_inv (S (List.length (so_syms (sst_st s))))) in H0 as (xs & c' & SY2 & NR & UP2 & SC2 & FE2 & OP2 & CX2);
    [|exact CF|cbn; discriminate|cbn; rewrite SY1, app_length; cbn; lia| |].
  2:{ cbn [at_scope sst_st sst_cx cx_scope]. rewrite SC1. rewrite nth_error_app2, upd_len, Nat.sub_diag by (rewrite upd_len; lia). reflexivity. }
  2:{ constructor. }
  cbn [at_scope sst_st sst_cx cx_scope cx_depth] in *. match type of H with _ ?z = _ => rename z into sb end.
  next fs H. apply gst_inv in H0 as [-> ->]. next ?w H.
  assert (NC : nth_error (so_scopes (sst_st sb)) (List.length (so_scopes (sst_st s))) = Some c').
  { rewrite SC2, SC1, nth_upd, Nat.eqb_refl. rewrite nth_error_app2, upd_len, Nat.sub_diag by (rewrite upd_len; lia). reflexivity. }
  rewrite NC in H0. rewrite SY1 in SY2. rewrite <- app_assoc in SY2. cbn [app] in SY2.
  eapply (props_inv (so_syms (sst_st s) ++ [g (mkSymbol (lex_text name) (lex_text name) true false (cx_module (sst_cx s)) false (SReg (List.length (so_scopes (sst_st s))) [] []))]))
    with (xs := xs) in H0 as (xs' & SY3 & FS & SC3 & OP3 & CX3).
  2:{ eapply Forall_impl; [|exact FE2]. intros e (LE & _). rewrite app_length. cbn. lia. }
  2:{ rewrite SY2, <- app_assoc. reflexivity. }
  rewrite <- app_assoc in SY3. cbn [app] in SY3. match type of H with _ ?z = _ => rename z into sc end.
  next ?w H. apply leave_inv in H0 as (c2 & up & E2 & UP & ->). rewrite CX3, CX2 in E2. cbn [cx_scope] in E2. rewrite SC3, NC in E2. injection E2 as <-.
  rewrite UP2 in UP. cbn in UP. injection UP as <-.
  next ?w H. edestruct define_inv as (g' & N' & K' & MD' & _ & _ & SY4 & SC4 & OP4 & _ & _ & CX4); [|exact H0|]; [cbn; rewrite SY3; apply nth_at|]. clear H0.
  cbn [at_scope sst_st sst_cx cx_scope cx_depth] in *. rewrite SY3, upd_at in SY4. match type of H with _ ?z = _ => rename z into sd end.
  assert (CXd : sst_cx sd = mkCx (cx_global (sst_cx s)) (cx_depth (sst_cx s)) (cx_scope (sst_cx s)) (Lexer.t_line (Parser.node_tok (XReg name [] fields lb))) true (cx_func (sst_cx s)) (cx_yield (sst_cx s)) (cx_loop (sst_cx s)) (cx_module (sst_cx s)) (List.length (so_scopes (sst_st s) ++ [mkScope [] (Some (cx_scope (sst_cx s)))]))).
  { rewrite CX4, CX3, CX2. cbn. rewrite CX1. reflexivity. }
  assert (SCD : so_scopes (sst_st sd) = upd (so_scopes (sst_st s)) (cx_scope (sst_cx s)) (bind_in (lex_text name) (List.length (so_syms (sst_st s)))) ++ [c'; mkScope [] (Some (cx_ty (sst_cx s)))]).
  { rewrite SC4, SC3, SC2, SC1. rewrite upd_right by (rewrite upd_len; lia). rewrite upd_len, Nat.sub_diag. cbn [upd]. rewrite upd_app by (rewrite upd_len; exact LT).
    rewrite upd_upd. f_equal. apply upd_ext. intros c. rewrite N. cbn [s_name]. apply bind_bind. }
  next ?w H. unfold leave_ty_ctx in H0. next tt1 H0. apply gcx_inv in H1 as [-> ->]. next cs H0. apply gst_inv in H1 as [-> ->]. next c5 H0. apply must_inv in H1 as [E5 ->].
  next up5 H0. apply must_inv in H1 as [UP5 ->]. unfold set_ty_ctx, mcx in H0. injection H0 as _ <-. rewrite CXd, SCD in E5. cbn [cx_ty] in E5.
  rewrite nth_error_app2 in E5 by (rewrite app_length, upd_len; cbn; lia). rewrite app_length, upd_len in E5. cbn [List.length] in E5. rewrite Nat.add_comm in E5.
  replace (1 + List.length (so_scopes (sst_st s)) - List.length (so_scopes (sst_st s)))%nat with 1%nat in E5 by lia. cbn in E5. injection E5 as <-. cbn in UP5. injection UP5 as <-.
  next ?w H. unfold set_reg, mcx in H0. injection H0 as _ <-. apply cret_inv in H as [H ->]. injection H as -> ->.
  cbn [sst_st sst_cx so_syms so_scopes cx_global cx_depth cx_scope cx_line cx_reg cx_func cx_yield cx_loop cx_module cx_ty].
  eexists _, xs', c', _, _. split; [|split; [exact SY4|]]; [|split; [|split; [|split; [exact SCD|]]]]; [| | |split; [|split; [|split; [|reflexivity]]]].
  - clear - FREE LT. unfold scope_get in *. cbn in FREE. rewrite nth_error_app1 in FREE by exact LT. exact FREE.
  - rewrite N', N, K', K, MD', MD. auto.
  - eapply sims_noreg; eassumption.
  - rewrite SY4. rewrite SY2 in FE2. eapply Forall_impl; [|exact FE2]. intros [fn j] (LE & z & ft & EZ & KZ & TZ). split; [cbn; lia|]. cbn [snd] in *.
    rewrite nth_error_app2 in EZ by lia. destruct (j - List.length (so_syms (sst_st s)))%nat as [|q] eqn:EQ; [lia|]. cbn in EZ. destruct (sims_nth _ _ _ _ FS EZ) as (z' & EZ' & SM).
    exists z', ft. rewrite nth_error_app2, EQ by lia. split; [exact EZ'|]. split; [destruct SM as (_ & -> & _); exact KZ|]. revert TZ. rewrite !app_length. cbn. rewrite (sims_len _ _ FS). auto.
  - congruence.
  - rewrite CXd. cbn. rewrite RG. reflexivity.
Qed.
End Ops.

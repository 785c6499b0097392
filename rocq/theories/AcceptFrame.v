(** What visiting a construct of the fragment leaves unchanged. *)
From Verif Require Import Base BaseFacts Dec Bson Value Ast Types Syntax Sym Exhaust Check Front Spec_Accept GenLocals ValueFacts AcceptBase AcceptTypes.
Local Open Scope chk_scope.

Definition noreg (x : symbol) : Prop := forall f ms tp, s_kind x <> SReg f ms tp.

(** ** Expressions: at most new symbols *)
Definition xp (s s' : sst) : Prop :=
  (exists l, so_syms (sst_st s') = so_syms (sst_st s) ++ l /\ Forall noreg l) /\
  so_scopes (sst_st s') = so_scopes (sst_st s) /\ so_opcao (sst_st s') = so_opcao (sst_st s) /\
  exists ln, sst_cx s' = sst_cx (reline s ln).
Lemma xp_refl s : xp s s.
Proof.
  split; [exists []; rewrite app_nil_r; auto|]. split; [reflexivity|]. split; [reflexivity|].
  exists (cx_line (sst_cx s)). destruct s as [st []]. reflexivity.
Qed.
Lemma xp_trans a b c : xp a b -> xp b c -> xp a c.
Proof.
  intros ((l1 & E1 & N1) & S1 & O1 & (n1 & C1)) ((l2 & E2 & N2) & S2 & O2 & (n2 & C2)).
  split; [exists (l1 ++ l2); rewrite E2, E1, app_assoc; split; [reflexivity|apply Forall_app; auto]|].
  split; [congruence|]. split; [congruence|]. exists n2. rewrite C2. unfold reline. cbn. rewrite C1. reflexivity.
Qed.
Definition keeps {A} (m : M A) : Prop := forall s a s', m s = COk a s' -> xp s s'.
Lemma k_bind {A B} (m : M A) (f : A -> M B) : keeps m -> (forall a, keeps (f a)) -> keeps (cbind m f).
Proof. intros K1 K2 s b s' H. apply cbind_inv in H as (a & s1 & H1 & H2). eapply xp_trans; [eapply K1|eapply K2]; eassumption. Qed.
Lemma k_ret {A} (a : A) : keeps (cret a).
Proof. intros s b s' H. apply cret_inv in H as [_ ->]. apply xp_refl. Qed.
Lemma k_must {A} (o : option A) : keeps (must o).
Proof. intros s b s' H. apply must_inv in H as [_ ->]. apply xp_refl. Qed.
Lemma k_py {A} (o : pyres A) : keeps (py o).
Proof. intros s b s' H. apply py_inv in H as [_ ->]. apply xp_refl. Qed.
Lemma k_gst {A} (f : store -> A) : keeps (gst f).
Proof. intros s b s' H. apply gst_inv in H as [_ ->]. apply xp_refl. Qed.
Lemma k_gcx {A} (f : actx -> A) : keeps (gcx f).
Proof. intros s b s' H. apply gcx_inv in H as [_ ->]. apply xp_refl. Qed.
Lemma k_crash {A} : keeps (@crash A). Proof. intros s b s' H. discriminate H. Qed.
Lemma k_err {A} : keeps (@ccerr A). Proof. intros s b s' H. discriminate H. Qed.
Lemma k_line l : keeps (set_line l).
Proof.
  intros s b s' H. apply line_inv in H as ->. split; [exists []; rewrite app_nil_r; auto|].
  split; [reflexivity|]. split; [reflexivity|]. exists l. reflexivity.
Qed.
Lemma k_new x : noreg x -> keeps (new_sym x).
Proof.
  intros N s b s' H. cbn in H. injection H as <- <-. split; [exists [x]; auto|].
  split; [reflexivity|]. split; [reflexivity|]. exists (cx_line (sst_cx s)). destruct s as [st []]. reflexivity.
Qed.
Lemma k_mapc {A B} (f : A -> M B) l : (forall x, In x l -> keeps (f x)) -> keeps (mapc f l).
Proof.
  induction l as [|x l IH]; intros H; [apply k_ret|].
  change (mapc f (x :: l)) with (cbind (f x) (fun y => cbind (mapc f l) (fun ys => cret (y :: ys)))).
  apply k_bind; [apply H; left; reflexivity|]. intros y. apply k_bind; [apply IH; intros; apply H; right; assumption|]. intros. apply k_ret.
Qed.
Ltac kp0 := first
  [ apply k_ret | apply k_must | apply k_py | apply k_gst | apply k_gcx | apply k_crash | apply k_err | apply k_line | assumption
  | apply k_new; intros ? ? ? ?K; cbn in K; congruence
  | (apply k_bind; [|intros ?]) | (apply k_mapc; intros ? ?)
  | match goal with |- keeps (match ?e with _ => _ end) => destruct e end
  | match goal with |- keeps (let '(_, _) := ?e in _) => destruct e end ].
Ltac kp := repeat (cbv zeta; kp0).
Ltac ku := cbv beta delta [match_ty promotes tag_of sym_at named_type type_sym opcao resolve_here get_here resolve_global ty_eq mod_or_err mod_scope visit_variable param_types bind_var].
Lemma k_sym i : keeps (sym_at i). Proof. ku. kp. Qed.
Lemma k_match a b : keeps (match_ty a b). Proof. ku. kp. Qed.
Lemma k_prom a b : keeps (promotes a b). Proof. ku. kp. Qed.
Lemma k_tag a : keeps (tag_of a). Proof. ku. kp. Qed.
Lemma k_named a : keeps (named_type a). Proof. ku. kp. Qed.
Lemma k_tsym a : keeps (type_sym a). Proof. ku. kp. Qed.
Lemma k_opc a : keeps (opcao a). Proof. ku. kp. Qed.
Lemma k_here a : keeps (resolve_here a). Proof. ku. kp. Qed.
Lemma k_get a : keeps (get_here a). Proof. ku. kp. Qed.
Lemma k_glob a : keeps (resolve_global a). Proof. ku. kp. Qed.
Lemma k_mod a : keeps (mod_scope a). Proof. ku. kp. Qed.
Lemma k_vv a : keeps (visit_variable a). Proof. ku. kp. Qed.
Lemma k_pt a : keeps (param_types a). Proof. ku. kp. Qed.
Lemma k_bv a i : keeps (bind_var a i). Proof. ku. kp. Qed.
Lemma k_bs a i : keeps (bind_sym a i).
Proof. unfold bind_sym. apply k_bind; [apply k_sym|]. intros x. destruct (s_kind x); kp; apply k_bv. Qed.
Lemma k_prop t n : keeps (get_property t n).
Proof.
  induction t as [p|t IH|i|i|g IH l|m|p]; cbn [get_property]; kp; try apply k_sym; try apply k_mod; try exact IH; try apply k_bs.
Qed.
Lemma k_ma ts l : keeps (match_args ts l).
Proof.
  revert l; induction ts as [|t ts IH]; intros [|x l]; cbn [match_args]; kp; try apply k_prom; try apply k_match. apply IH.
Qed.
Lemma k_type y : core_ty y = true -> keeps (get_type y).
Proof.
  induction y as [t g q|t c g q|el IH q]; intros C; try discriminate C; cbn [get_type].
  - apply k_bind; [apply k_tsym|]. intros i. unfold construct_ty. apply k_bind; [apply k_sym|]. intros x. apply k_bind; [apply k_must|].
    intros ty. destruct q; [apply k_opc|]. destruct g as [[|? ?]|]; [apply k_ret|discriminate C|apply k_ret].
  - apply k_bind; [exact (IH C)|]. intros t. destruct q; [apply k_opc|apply k_ret].
Qed.
Ltac kx := repeat (cbv zeta; first [kp0 | apply k_sym | apply k_match | apply k_prom | apply k_tag | apply k_named | apply k_tsym | apply k_opc
  | apply k_here | apply k_get | apply k_glob | apply k_vv | apply k_pt | apply k_prop | apply k_ma | apply k_type; assumption]).

Section Frame.
Variable F : front_env.
Variable usa : smode -> text -> M unit.
Definition Kclaim (x : sx) : Prop := is_a (core x) = true -> forall p again, keeps (visit F usa x p None again).
Lemma when_true (b : bool) : is_a (if b then ShE else ShN) = true -> b = true.
Proof. destruct b; [reflexivity|discriminate]. Qed.
Lemma is_e_is_a s : is_e s = true -> is_a s = true.
Proof. destruct s; try discriminate; reflexivity. Qed.
Ltac kv := cbn [visit]; apply k_bind; [kx|intros _].
Lemma K_all x : Kclaim x.
Proof.
  induction x using sx_ind'; intros C pp again; try discriminate C.
  - kv. kx.
  - kv. kx.
  - kv. kx.
  - cbn [core] in C. apply when_true in C. specialize (IHx (is_e_is_a _ C)). kv. kx. apply IHx.
  - cbn [core] in C. apply when_true, andb_prop in C as [C1 C2]. specialize (IHx1 (is_e_is_a _ C1)). specialize (IHx2 (is_e_is_a _ C2)). kv. kx; [apply IHx1|apply IHx2].
  - destruct x; try discriminate C. cbn [core] in C. apply when_true in C. rewrite forallb_forall in C.
    assert (HA : forall a, In a l -> forall p again, keeps (visit F usa a p None again)).
    { intros a I. rewrite Forall_forall in H. apply H; auto. }
    kv. apply k_bind; [kx|]. intros [f i]. apply k_bind; [apply k_sym|]. intros s. cbv zeta. destruct (builtin_fn (s_name s)) as [fn|].
    + destruct (text_eqb fn (txt "vec")).
      { destruct (256 <=? List.length l)%nat; [apply k_crash|]. destruct l as [|a [|b r]]; try apply k_err. apply k_bind.
        - apply k_mapc. intros y I. apply k_bind; [apply HA; right; exact I|]. intros ry. kx.
        - intros ss. kx. }
      destruct (text_eqb fn (txt "tam")).
      { destruct l as [|a [|b r]]; try apply k_err. apply k_bind; [apply HA; left; reflexivity|]. intros ra. kx. }
      destruct l as [|a [|b [|c r]]]; try apply k_err; try apply k_crash.
      apply k_bind; [apply HA; left; reflexivity|]. intros ra. apply k_bind; [apply HA; right; left; reflexivity|]. intros rb. kx.
    + destruct (s_kind s); try apply k_err.
      * apply k_bind; [apply k_mapc; intros a I; destruct (is_named a); [kx|]; apply k_bind; [apply HA; exact I|]; intros; apply k_ret|].
        intros la. kx.
      * apply k_bind; [apply k_mapc; intros a I; destruct (is_named a); [kx|]; apply k_bind; [apply HA; exact I|]; intros; apply k_ret|].
        intros la. kx.
      * match goal with |- keeps (if ?b then _ else _) => destruct b end; [apply k_err|].
        apply k_bind; [apply k_mapc; intros a I; apply k_bind; [apply HA; exact I|]; intros; apply k_ret|]. intros la. kx.
      * apply k_bind; [apply k_gst|]. intros fs. match goal with |- keeps (if ?b then _ else _) => destruct b end; [apply k_err|].
        apply k_bind; [|intros; apply k_ret].
        match goal with |- keeps (?g [] l) => assert (HG : forall seen, keeps (g seen l)) end; [|apply HG].
        clear C H. induction l as [|a l IH]; intros seen; [apply k_ret|]. apply k_bind; [apply k_line|]. intros _. destruct a; try apply k_err.
        apply k_bind; [apply HA; left; reflexivity|]. intros ra. destruct (assoc _ fs); [|apply k_err].
        match goal with |- keeps (if ?b then _ else _) => destruct b end; [apply k_err|].
        apply k_bind; [apply k_sym|]. intros fx. apply k_bind; [apply k_must|]. intros ft. apply k_bind; [apply k_prom|]. intros _. apply k_bind; [apply k_match|].
        intros ok. destruct (negb ok); [apply k_err|]. apply k_bind; [|intros; apply k_ret]. apply IH. intros; apply HA; right; assumption.
  - cbn [core] in C. assert (C' : is_e (core x) = true) by (destruct (is_e (core x)); [reflexivity|discriminate C]).
    specialize (IHx (is_e_is_a _ C')). kv. kx. apply IHx.
  - cbn [core] in C. apply when_true, andb_prop in C as [C1 C2]. specialize (IHx (is_e_is_a _ C1)). kv. kx. apply IHx.
  - cbn [core] in C. apply when_true, andb_prop in C as [C1 C2]. specialize (IHx1 (is_e_is_a _ C1)). specialize (IHx2 (is_e_is_a _ C2)). kv. kx; [apply IHx1|apply IHx2].
  - cbn [core] in C. destruct (is_e (core x1) && is_e (core x2)); discriminate C.
  - cbn [core] in C. apply when_true in C. specialize (IHx (is_e_is_a _ C)). kv. kx. apply IHx.
  - cbn [core] in C. destruct (is_e (core x1) && is_e (core x2)); discriminate C.
  - cbn [core] in C. apply when_true in C. rewrite forallb_forall in C. rewrite Forall_forall in H. kv. kx. apply H; [assumption|]. apply is_e_is_a, C. assumption.
  - cbn [core] in C. apply when_true, andb_prop in C as [C1 C2]. rewrite forallb_forall in C2. rewrite Forall_forall in H. kv. kx. apply H; [assumption|]. apply is_e_is_a, C2. assumption.
  - cbn [core] in C. destruct x1; try discriminate C. destruct (is_e (core x2)); discriminate C.
  - cbn [core] in C. destruct o as [[? ?]|]; match type of C with context[if ?b then _ else _] => destruct b end; discriminate C.
  - cbn [core] in C. destruct (is_e (core x)); discriminate C.
  - cbn [core] in C. destruct o; [|discriminate C]. destruct (is_e (core s)); discriminate C.
  - cbn [core] in C. destruct o; match type of C with context[if ?b then _ else _] => destruct b end; discriminate C.
  - cbn [core] in C. match type of C with context[if ?b then _ else _] => destruct b end; discriminate C.
  - cbn [core] in C. match type of C with context[if ?b then _ else _] => destruct b end; discriminate C.
  - cbn [core] in C. destruct o; match type of C with context[if ?b then _ else _] => destruct b end; discriminate C.
  - cbn [core] in C. match type of C with context[if ?b then _ else _] => destruct b end; discriminate C.
  - cbn [core] in C. destruct nat; [discriminate C|]. destruct o; [|discriminate C]. match type of C with context[if ?b then _ else _] => destruct b end; discriminate C.
  - cbn [core] in C. destruct g; [|discriminate C]. match type of C with context[if ?b then _ else _] => destruct b end; discriminate C.
Qed.

(** ** Statements: new symbols, new scopes, and perhaps new names in one scope *)
Record frame (w : nat -> Prop) (st st' : store) : Prop := mkFrame {
  f_syms : exists l, so_syms st' = so_syms st ++ l /\ Forall noreg l;
  f_keep : forall k, (k < List.length (so_scopes st))%nat -> ~ w k -> nth_error (so_scopes st') k = nth_error (so_scopes st) k;
  f_grow : forall k c, nth_error (so_scopes st) k = Some c -> exists c', nth_error (so_scopes st') k = Some c' /\ sc_up c' = sc_up c /\
    forall n i, assoc n (sc_syms c) = Some i -> assoc n (sc_syms c') = Some i;
  f_opc : so_opcao st' = so_opcao st
}.
Definition nowhere : nat -> Prop := fun _ => False.
Definition kept (s s' : sst) : Prop := exists ln, sst_cx s' = sst_cx (reline s ln).
Lemma kept_refl s : kept s s.
Proof. exists (cx_line (sst_cx s)). destruct s as [st []]. reflexivity. Qed.
Lemma kept_trans a b c : kept a b -> kept b c -> kept a c.
Proof. intros (n1 & C1) (n2 & C2). exists n2. rewrite C2. unfold reline. cbn. rewrite C1. reflexivity. Qed.
Lemma kept_scope s s' : kept s s' -> cx_scope (sst_cx s') = cx_scope (sst_cx s).
Proof. intros (l & ->). reflexivity. Qed.
Lemma frame_len w st st' : frame w st st' -> (List.length (so_scopes st) <= List.length (so_scopes st'))%nat.
Proof.
  intros FR. destruct (so_scopes st) as [|c0 r] eqn:E; [cbn; lia|].
  destruct (nth_error (so_scopes st) (List.length r)) as [c|] eqn:EN.
  - destruct (f_grow _ _ _ FR _ _ EN) as (c' & E' & _). cbn. enough (List.length r < List.length (so_scopes st'))%nat by lia.
    apply nth_error_Some. congruence.
  - apply nth_error_None in EN. rewrite E in EN. cbn in EN. lia.
Qed.
Lemma frame_refl w st : frame w st st.
Proof. constructor; auto; [exists []; rewrite app_nil_r; auto|]. eauto 6. Qed.
Lemma frame_weak (w w' : nat -> Prop) st st' : (forall k, w k -> w' k) -> frame w st st' -> frame w' st st'.
Proof. intros H [A B C D]. constructor; auto. Qed.
Lemma frame_trans w a b c : frame w a b -> frame w b c -> frame w a c.
Proof.
  intros FA FB. pose proof (frame_len _ _ _ FA) as LE. destruct FA as [(l1 & E1 & N1) K1 G1 O1], FB as [(l2 & E2 & N2) K2 G2 O2]. constructor.
  - exists (l1 ++ l2). rewrite E2, E1, app_assoc. split; [reflexivity|apply Forall_app; auto].
  - intros k LT NW. rewrite K2, K1; auto. lia.
  - intros k s H. destruct (G1 _ _ H) as (s1 & H1 & U1 & A1). destruct (G2 _ _ H1) as (s2 & H2 & U2 & A2).
    exists s2. split; [assumption|]. split; [congruence|]. auto.
  - congruence.
Qed.
Lemma frame_fresh (w w' : nat -> Prop) a b c : frame w a b -> frame w' b c -> (forall k, w' k -> (List.length (so_scopes a) <= k)%nat \/ w k) -> frame w a c.
Proof.
  intros FA FB W. pose proof (frame_len _ _ _ FA) as LE. destruct FA as [(l1 & E1 & N1) K1 G1 O1], FB as [(l2 & E2 & N2) K2 G2 O2]. constructor.
  - exists (l1 ++ l2). rewrite E2, E1, app_assoc. split; [reflexivity|apply Forall_app; auto].
  - intros k LT NW. rewrite K2, K1; auto; [lia|]. intros WK. destruct (W _ WK); [lia|auto].
  - intros k s H. destruct (G1 _ _ H) as (s1 & H1 & U1 & A1). destruct (G2 _ _ H1) as (s2 & H2 & U2 & A2).
    exists s2. split; [assumption|]. split; [congruence|]. auto.
  - congruence.
Qed.
Lemma xp_frame w s s' : xp s s' -> frame w (sst_st s) (sst_st s') /\ kept s s'.
Proof.
  intros (SY & SC & OP & CX). split; [|exact CX]. constructor; auto; rewrite SC; eauto 6.
Qed.
Definition step (w : nat -> Prop) (s s' : sst) : Prop := frame w (sst_st s) (sst_st s') /\ kept s s'.
Lemma step_refl w s : step w s s.
Proof. split; [apply frame_refl|apply kept_refl]. Qed.
Lemma step_trans w a b c : step w a b -> step w b c -> step w a c.
Proof. intros [F1 K1] [F2 K2]. split; [eapply frame_trans; eassumption|eapply kept_trans; eassumption]. Qed.
Lemma step_weak (w w' : nat -> Prop) s s' : (forall k, w k -> w' k) -> step w s s' -> step w' s s'.
Proof. intros H [A B]. split; [eapply frame_weak; eassumption|exact B]. Qed.
Lemma step_no w s s' : step nowhere s s' -> step w s s'.
Proof. apply step_weak. intros k []. Qed.

(** Changing one element of a list. *)
Lemma nth_upd {A} (l : list A) k f j : nth_error (upd l k f) j = if (j =? k)%nat then option_map f (nth_error l j) else nth_error l j.
Proof.
  revert k j; induction l as [|x l IH]; intros k j.
  - destruct (j =? k)%nat, j; reflexivity.
  - destruct k as [|k], j as [|j]; try reflexivity. exact (IH k j).
Qed.
Lemma len_upd {A} (l : list A) k f : List.length (upd l k f) = List.length l.
Proof. revert k; induction l as [|x l IH]; intros [|k]; cbn; auto. Qed.
Lemma upd_last {A} (l : list A) x f : upd (l ++ [x]) (List.length l) f = l ++ [f x].
Proof. induction l as [|y l IH]; cbn; [reflexivity|rewrite IH; reflexivity]. Qed.
Lemma nth_last {A} (l : list A) x : nth_error (l ++ [x]) (List.length l) = Some x.
Proof. rewrite nth_error_app2, Nat.sub_diag by lia. reflexivity. Qed.
Lemma nth_old {A} (l r : list A) i x : nth_error l i = Some x -> nth_error (l ++ r) i = Some x.
Proof. intros H. rewrite nth_error_app1; [exact H|]. apply nth_error_Some. congruence. Qed.
Definition bind_in (n : text) (i : nat) (c : scopeo) : scopeo := mkScope (assoc_set (sc_syms c) n i) (sc_up c).

(** [define_symbol] on an existing symbol. *)
Lemma define_inv i d sc s u s' x : nth_error (so_syms (sst_st s)) i = Some x -> define_symbol F i d sc s = COk u s' ->
  exists g, s_name (g x) = s_name x /\ s_kind (g x) = s_kind x /\ s_mod (g x) = s_mod x /\ s_builtin (g x) = s_builtin x /\ s_global (g x) = s_global x /\
    so_syms (sst_st s') = upd (so_syms (sst_st s)) i g /\ so_scopes (sst_st s') = upd (so_scopes (sst_st s)) sc (bind_in (s_name x) i) /\
    so_opcao (sst_st s') = so_opcao (sst_st s) /\ so_mods (sst_st s') = so_mods (sst_st s) /\ so_imports (sst_st s') = so_imports (sst_st s) /\ sst_cx s' = sst_cx s.
Proof.
  intros E H. unfold define_symbol in H. apply cbind_inv in H as (x' & s1 & H1 & H). apply sym_at_inv in H1 as [E1 ->].
  assert (x' = x) as -> by congruence. apply cbind_inv in H as (k & s1 & H1 & H). unfold count in H1. apply gst_inv in H1 as [_ ->].
  apply cbind_inv in H as (v & s1 & H1 & H). unfold define, mst in H. injection H as <- <-.
  destruct (negb (valid_name F (s_name x)) || (1 <=? d)%nat).
  - unfold upd_sym, mst in H1. injection H1 as <- <-. exists (s_set_out (out_name d k)). repeat split; reflexivity.
  - apply cret_inv in H1 as [_ ->]. exists (fun y => y). repeat split; try reflexivity. cbn.
    symmetry. clear. revert i; induction (so_syms (sst_st s)) as [|y l IH]; intros [|i]; cbn; try reflexivity. rewrite IH. reflexivity.
Qed.
(** A new variable, defined in a scope where its name is free. *)
Lemma new_var_inv n t s i s' : new_var n t s = COk i s' -> i = List.length (so_syms (sst_st s)) /\
  s' = mkSst (with_syms (sst_st s) (so_syms (sst_st s) ++ [mkSymbol n n false false (cx_module (sst_cx s)) false (SVar t)])) (sst_cx s).
Proof. unfold new_var, new_sym, cbind, gcx, gst, mst, cret. intros H. injection H as <- <-. auto. Qed.
Lemma bind_frame st st' sc n i l :
  so_syms st' = so_syms st ++ l -> Forall noreg l -> so_scopes st' = upd (so_scopes st) sc (bind_in n i) -> so_opcao st' = so_opcao st ->
  scope_get st sc n = None -> frame (eq sc) st st'.
Proof.
  intros SY NR SC OP FREE. constructor.
  - eauto.
  - intros k LT NE. rewrite SC, nth_upd. destruct (k =? sc)%nat eqn:K; [apply Nat.eqb_eq in K; congruence|reflexivity].
  - intros k c E. rewrite SC, nth_upd. destruct (k =? sc)%nat eqn:K; [|eauto 6]. apply Nat.eqb_eq in K as ->.
    rewrite E. cbn. eexists. split; [reflexivity|]. split; [reflexivity|]. intros m j A. cbn.
    unfold scope_get in FREE. rewrite E in FREE. rewrite assoc_set_neq; [exact A|]. intros <-. congruence.
  - exact OP.
Qed.
Lemma define_new n t sc d s i s1 u s2 : new_var n t s = COk i s1 -> define_symbol F i d sc s1 = COk u s2 ->
  i = List.length (so_syms (sst_st s)) /\ sst_cx s2 = sst_cx s /\ so_opcao (sst_st s2) = so_opcao (sst_st s) /\
  so_scopes (sst_st s2) = upd (so_scopes (sst_st s)) sc (bind_in n i) /\
  exists x, so_syms (sst_st s2) = so_syms (sst_st s) ++ [x] /\ s_name x = n /\ s_kind x = SVar t /\ s_mod x = cx_module (sst_cx s).
Proof.
  intros H1 H2. apply new_var_inv in H1 as (-> & ->).
  edestruct define_inv as (g & N & K & MD & _ & _ & SY & SC & OP & _ & _ & CX); [|exact H2|].
  - cbn. apply nth_last.
  - cbn [sst_st sst_cx with_syms so_syms so_scopes so_opcao s_name s_kind s_mod] in *.
    split; [reflexivity|]. split; [exact CX|]. split; [exact OP|]. split; [exact SC|].
    rewrite upd_last in SY. eexists. split; [exact SY|]. auto.
Qed.
Lemma free_inv ln n s u s' : assert_free ln n s = COk u s' -> s' = s /\ scope_get (sst_st s) (cx_scope (sst_cx s)) n = None.
Proof.
  unfold assert_free, get_here. intros H. apply cbind_inv in H as (o & s1 & H1 & H).
  apply cbind_inv in H1 as (c & s2 & H2 & H1). apply gcx_inv in H2 as [-> ->]. apply gst_inv in H1 as [-> ->].
  destruct (scope_get _ _ n); [|apply cret_inv in H as [_ ->]; auto].
  apply cbind_inv in H as (r & s2 & H2 & H). destruct r; [|discriminate H]. apply cbind_inv in H as (r & s3 & H3 & H). discriminate H.
Qed.
Lemma new_scope_inv up s i s' : new_scope up s = COk i s' -> i = List.length (so_scopes (sst_st s)) /\
  s' = mkSst (with_scopes (sst_st s) (so_scopes (sst_st s) ++ [mkScope [] up])) (sst_cx s).
Proof. unfold new_scope, cbind, gst, mst, cret. intros H. injection H as <- <-. auto. Qed.
Definition at_scope (s : sst) (d sc : nat) : sst :=
  mkSst (sst_st s) (mkCx (cx_global (sst_cx s)) d sc (cx_line (sst_cx s)) (cx_reg (sst_cx s)) (cx_func (sst_cx s))
                         (cx_yield (sst_cx s)) (cx_loop (sst_cx s)) (cx_module (sst_cx s)) (cx_ty (sst_cx s))).
Lemma leave_inv s u s' : leave_scope s = COk u s' -> exists c up, nth_error (so_scopes (sst_st s)) (cx_scope (sst_cx s)) = Some c /\ sc_up c = Some up /\
  s' = at_scope s (pred (cx_depth (sst_cx s))) up.
Proof.
  unfold leave_scope. intros H. apply cbind_inv in H as (d & s1 & H1 & H). apply gcx_inv in H1 as [-> ->].
  apply cbind_inv in H as (d & s1 & H1 & H). apply gcx_inv in H1 as [-> ->]. apply cbind_inv in H as (d & s1 & H1 & H). apply gst_inv in H1 as [-> ->].
  apply cbind_inv in H as (c & s1 & H1 & H). apply must_inv in H1 as [E ->]. apply cbind_inv in H as (up & s1 & H1 & H). apply must_inv in H1 as [U ->].
  unfold set_scope, mcx in H. injection H as <- <-. eauto 8.
Qed.
Lemma new_scope_frame st up : frame nowhere st (with_scopes st (so_scopes st ++ [mkScope [] up])).
Proof.
  constructor; cbn.
  - exists []. rewrite app_nil_r. auto.
  - intros k LT _. apply nth_error_app1. exact LT.
  - intros k c E. exists c. split; [apply nth_old; exact E|auto].
  - reflexivity.
Qed.

Definition visits (l : list sx) (again : bool) : M (list tx) := mapc (fun c => r <- visit F usa c PNone None again ;; cret (fst r)) l.
Definition is_decl (x : sx) : bool := match x with XDecl _ _ _ _ => true | _ => false end.
Definition noyield (s : sst) : Prop := cx_yield (sst_cx s) = None.
Lemma kept_yield s s' : kept s s' -> noyield s -> noyield s'.
Proof. unfold noyield. intros (l & ->) H. exact H. Qed.
Definition Fclaim (x : sx) : Prop := forall again s t o s', noyield s -> (is_decl x = true -> cx_depth (sst_cx s) <> 0%nat) -> visit F usa x PNone None again s = COk (t, o) s' ->
  step (fun k => is_decl x = true /\ k = cx_scope (sst_cx s)) s s'.
Definition Bclaim (x : sx) : Prop :=
  (forall again s t o s', noyield s -> visit F usa x PNone None again s = COk (t, o) s' -> step nowhere s s') /\
  (forall again psc s t o s' c, noyield s -> nth_error (so_scopes (sst_st s)) psc = Some c -> sc_up c = Some (cx_scope (sst_cx s)) ->
    visit F usa x PNone (Some psc) again s = COk (t, o) s' -> step (eq psc) s s').
Lemma visits_frame l again : Forall Fclaim l -> forall s ts s', noyield s -> cx_depth (sst_cx s) <> 0%nat -> visits l again s = COk ts s' -> step (eq (cx_scope (sst_cx s))) s s'.
Proof.
  induction 1 as [|x l FX _ IH]; intros s ts s' NY DP H.
  - unfold visits in H. cbn in H. injection H as <- <-. apply step_refl.
  - change (visits (x :: l) again) with (cbind (cbind (visit F usa x PNone None again) (fun r => cret (fst r)))
      (fun y => cbind (visits l again) (fun ys => cret (y :: ys)))) in H.
    apply cbind_inv in H as (t & s1 & H1 & H). apply cbind_inv in H as (r & s2 & H2 & H). apply cret_inv in H as [_ ->].
    apply cbind_inv in H1 as ((t1 & o1) & s3 & H1 & H3). apply cret_inv in H3 as [_ ->].
    apply FX in H1; [|exact NY|intros; exact DP]. apply IH in H2; [|exact (kept_yield _ _ (proj2 H1) NY)|destruct H1 as [_ (l1 & ->)]; exact DP]. rewrite (kept_scope _ _ (proj2 H1)) in H2.
    eapply step_trans; [|exact H2]. eapply step_weak; [|exact H1]. intros k [_ ->]. reflexivity.
Qed.
End Frame.

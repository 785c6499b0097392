(** Accepted expressions are well typed. *)
From Verif Require Import Base BaseFacts Dec Bson Value Ast Types Syntax Sym Exhaust Check Front Sem Spec_Types Spec_Typing Spec_Accept GenLocals AcceptBase AcceptTypes.
Local Open Scope chk_scope.

(** The signatures of the library's functions that are checked like any other. *)
Definition nsig (n : text) : option (list prim * prim) :=
  if text_eqb n (txt "escreva") then Some ([TIndef], TVazio)
  else if text_eqb n (txt "escrevaln") then Some ([TIndef], TVazio)
  else if text_eqb n (txt "leia") then Some ([TTexto], TTexto)
  else if text_eqb n (txt "leia_int") then Some ([TTexto], TInt)
  else if text_eqb n (txt "leia_real") then Some ([TTexto], TReal)
  else if text_eqb n (txt "txt_contem") then Some ([TTexto; TTexto], TBool)
  else None.

Definition pr0 (t : tx) : bool :=
  match t with
  | TConst _ _ _ _ p | TVar _ _ _ _ p | TUn _ _ _ _ p | TBin _ _ _ _ _ p | TCall _ _ _ _ _ p => negb p
  | _ => true
  end.
Lemma set_prom_false t : pr0 t = true -> set_prom false t = t.
Proof. destruct t; cbn; try reflexivity; destruct pr; try discriminate; reflexivity. Qed.
Lemma ty_prom b t : tx_ty (set_prom b t) = tx_ty t.
Proof. destruct t; reflexivity. Qed.
Lemma mentions_prom n b t : mentions n (set_prom b t) = mentions n t.
Proof. destruct t; reflexivity. Qed.
Lemma safe_prom st path ret b t : safe st path ret (set_prom b t) = safe st path ret t.
Proof. destruct t; reflexivity. Qed.
Lemma fits_prom b t d : fits (set_prom b t) d = fits t d.
Proof. unfold fits. rewrite ty_prom. destruct t; reflexivity. Qed.

Section Expr.
Variable F : front_env.
Variable usa : smode -> text -> M unit.
Variable gl : nat.
Variable path lib : text.
Variable S : senv.
Variable stf : store.    (* the store at the end *)

(** The fields of the records, as declared in the final store. *)
Definition ftype (j : nat) : ty :=
  match nth_error (so_syms stf) j with
  | Some y => match sym_ty y with Some c => strip stf c | None => TyPrim TUnknown end
  | None => TyPrim TUnknown
  end.
Definition decl_of (f : nat) : list (text * ty) := map (fun e => (fst e, ftype (snd e))) (fields_of stf f).
Definition R (n : text) : option (list (text * ty)) :=
  match scope_get stf gl n with
  | Some i => match nth_error (so_syms stf) i with
              | Some x => match s_kind x with SReg f _ _ => Some (decl_of f) | _ => None end
              | None => None
              end
  | None => None
  end.
Lemma assoc_decl n f : assoc n (decl_of f) = option_map ftype (assoc n (fields_of stf f)).
Proof. unfold decl_of. induction (fields_of stf f) as [|[m j] r IH]; [reflexivity|]. cbn. destruct (text_eqb n m); [reflexivity|exact IH]. Qed.

Hypothesis own_names : forall n i x, scope_get stf gl n = Some i -> nth_error (so_syms stf) i = Some x -> s_mod x = path -> se_imp S None n = None.
Hypothesis lib_names : forall n i x, scope_get stf gl n = Some i -> nth_error (so_syms stf) i = Some x -> s_mod x = lib -> s_name x = n ->
  se_imp S None n = Some (0%N, n) /\ se_fun S (Some 0%N) n = None.
Hypothesis prim_names : forall i x p, nth_error (so_syms stf) i = Some x -> s_kind x = SPrim p -> s_name x = prim_name p.

Definition ptypes (st : store) (ps : list (text * nat)) (ts : list ty) : Prop :=
  Forall2 (fun p t => exists y c, nth_error (so_syms st) (snd p) = Some y /\ s_kind y = SVar c /\ tvalid gl path st c /\ t = strip st c) ps ts.
Definition nparams (st : store) (ps : list (text * nat)) (pts : list prim) : Prop :=
  Forall2 (fun p q => exists y, nth_error (so_syms st) (snd p) = Some y /\ s_kind y = SVar (CPrim q)) ps pts.
(** What a visible name means. *)
Definition lk (st : store) (G : tenv) (n : text) (i : nat) (x : symbol) : Prop :=
  match s_kind x with
  | SVar c => s_mod x = path -> tvalid gl path st c /\ var_type G n = Some (strip st c)
  | SFun r ps => tlook (te_loc G) n = None /\ scope_get st gl n = Some i /\
      (s_mod x = path -> builtin_fn n = None /\ tvalid gl path st r /\ exists ts, ptypes st ps ts /\ assoc n (ge_fun (te_g G)) = Some (ts, strip st r)) /\
      (s_mod x <> path -> s_mod x = lib /\
         (builtin_fn n = None -> exists pts r', nsig n = Some (pts, r') /\ r = CPrim r' /\ nparams st ps pts))
  | SReg _ _ _ => tlook (te_loc G) n = None /\ (s_mod x = path -> builtin_fn n = None /\ In n (ge_rec (te_g G)))
  | SPrim p => tlook (te_loc G) n = None /\ s_mod x = lib
  | _ => True
  end.
Record env_ok (X : list text) (G : tenv) (s : sst) : Prop := mkEnv {
  e_gl : cx_global (sst_cx s) = gl;
  e_path : cx_module (sst_cx s) = path;
  e_ext : sext (sst_st s) stf;
  e_names : forall n i, resolve_sc (sst_st s) (cx_scope (sst_cx s)) n = Some i -> exists x, nth_error (so_syms (sst_st s)) i = Some x /\ s_name x = n /\
    (sym_type i x = None \/ scope_get (sst_st s) gl n = Some i);
  e_rec : forall i x f ms tp, nth_error (so_syms (sst_st s)) i = Some x -> s_kind x = SReg f ms tp -> s_mod x = path -> ms = [] /\ tp = [] /\
    forall m j, assoc m (fields_of (sst_st s) f) = Some j -> exists y c, nth_error (so_syms (sst_st s)) j = Some y /\ s_kind y = SVar c /\ tvalid gl path (sst_st s) c;
  e_prim : forall p, In p prims -> exists i x, scope_get (sst_st s) gl (prim_name p) = Some i /\ nth_error (so_syms (sst_st s)) i = Some x /\ s_kind x = SPrim p;
  e_ty : forall n, resolve_sc (sst_st s) (cx_ty (sst_cx s)) n = None;
  e_glob : forall n, resolve_sc (sst_st s) gl n = scope_get (sst_st s) gl n;
  e_taken : opcao_taken gl path (sst_st s);
  e_opc : forall i, so_opcao (sst_st s) = Some i -> exists x, nth_error (so_syms (sst_st s)) i = Some x /\ s_name x = ty_opcao_name;
  e_look : forall n i x, ~ In n X -> resolve_sc (sst_st s) (cx_scope (sst_cx s)) n = Some i -> nth_error (so_syms (sst_st s)) i = Some x ->
    lk (sst_st s) G n i x
}.
Lemma env_reline X G s l : env_ok X G s -> env_ok X G (reline s l).
Proof. intros []. constructor; assumption. Qed.

Definition tyd (G : tenv) (t : tx) (A : ty) : Prop :=
  forall lex cur nd cur', lower stf lex t cur = LOk (nd, cur') -> cur' = cur /\ ety S None R G nd A.

(** ** Promotion *)
Lemma tyd_true G t : pr0 t = true -> promotable t = true -> tyd G t tint -> tyd G (set_prom true t) treal.
Proof.
  intros P0 PM T lex cur nd cur' L. specialize (T lex cur).
  destruct t; try discriminate PM; cbn in P0; destruct pr; try discriminate P0; cbn [set_prom lower] in L, T.
  - injection L as <- <-. destruct (T _ _ eq_refl) as (_ & H). split; [reflexivity|]. cbn in *. destruct H as (H1 & H2). auto.
  - destruct (match s with Some i => LOk i | None => lookup stf cur name end) as [i| |]; try discriminate L. cbn [lbind] in L, T.
    destruct (get_sym stf i) as [y| |]; try discriminate L. cbn [lbind] in L, T. injection L as <- <-.
    destruct (T _ _ eq_refl) as (_ & H). split; [reflexivity|]. cbn in *. destruct H as (u & H1 & H2). eauto.
  - destruct (lower stf lex t cur) as [[e c1]| |]; try discriminate L. cbn [lbind] in L, T. injection L as <- <-.
    destruct (T _ _ eq_refl) as (E & H). split; [exact E|]. cbn in *. destruct H as (u & v & H1 & H2 & H3). subst v. exists u, tint. auto.
  - destruct (lower stf lex t1 cur) as [[e c1]| |]; try discriminate L. cbn [lbind] in L, T.
    destruct (lower stf lex t2 c1) as [[e2 c2]| |]; try discriminate L. cbn [lbind] in L, T. injection L as <- <-.
    destruct (T _ _ eq_refl) as (E & H). split; [exact E|]. cbn in *. destruct H as (a & b & u & H1 & H2 & H3 & H4). subst u. exists a, b, tint. auto.
  - destruct (lsome (nth_error (so_syms stf) s)) as [y| |]; try discriminate L. cbn [lbind] in L, T.
    destruct (lseq (lower stf lex) args cur) as [[l c1]| |]; try discriminate L. cbn [lbind] in L, T.
    destruct (lower stf lex t c1) as [[f c2]| |]; try discriminate L. cbn [lbind] in L, T. injection L as <- <-.
    destruct (T _ _ eq_refl) as (E & H). split; [exact E|].
    set (k := match s_kind y with SVariant _ _ _ => CVariant | _ => _ end) in *. clearbody k. cbn in *.
    destruct k; try contradiction; destruct f; try contradiction; destruct pr; try contradiction.
    + destruct H as (d & H1 & H2 & H3 & H4 & H5 & H6). cbn in H6. discriminate H6.
    + destruct H as (u & H & P1). cbn in P1. subst u. exists tint. split; [exact H|split; reflexivity].
Qed.

Definition Etyped (st : store) (G : tenv) (t : tx) : Prop :=
  pr0 t = true /\ tvalid gl path st (tx_ty t) /\ tyd G t (strip st (tx_ty t)).
Lemma coerce st G t dst : Etyped st G t -> opcao_taken gl path st -> tvalid gl path st dst ->
  types_match (strip st dst) (strip st (tx_ty t)) = PyOk true -> fits t dst = true ->
  exists A, tyd G (set_prom (to_real (tx_ty t) dst) t) A /\ sub A (strip st dst).
Proof.
  intros (P0 & V & T) OT VD MT FT. destruct (match_sub gl path st dst (tx_ty t) OT VD V MT) as [SB|IR].
  - destruct (to_real (tx_ty t) dst) eqn:TR.
    + unfold to_real in TR. destruct (tx_ty t) as [[]|?|?|?|? ?|?|?]; try discriminate TR. destruct dst as [[]|?|?|?|? ?|?|?]; try discriminate TR.
      inversion SB.
    + rewrite (set_prom_false _ P0). eauto.
  - unfold fits in FT. rewrite IR in FT. cbn [negb orb] in FT. apply andb_prop in FT as [FR FP].
    unfold to_real. apply andb_prop in IR as [IR _]. rewrite IR, FR. cbn [andb].
    destruct (tx_ty t) as [[]|?|?|?|? ?|?|?] eqn:ET; try discriminate IR. destruct dst as [[]|?|?|?|? ?|?|?]; try discriminate FR.
    exists treal. split; [apply tyd_true; assumption|apply sub_refl].
Qed.
Lemma coerce_as_is st G t dst : Etyped st G t -> opcao_taken gl path st -> tvalid gl path st dst ->
  types_match (strip st dst) (strip st (tx_ty t)) = PyOk true -> fits_as_is t dst = true ->
  sub (strip st (tx_ty t)) (strip st dst).
Proof.
  intros (P0 & V & T) OT VD MT FT. destruct (match_sub gl path st dst (tx_ty t) OT VD V MT) as [SB|IR]; [exact SB|].
  unfold fits_as_is in FT. rewrite IR in FT. discriminate FT.
Qed.
Lemma operand st G t u : Etyped st G t ->
  exists A, tyd G (set_prom (to_real (tx_ty t) u) t) A /\ (A = strip st (tx_ty t) \/ tx_ty t = CPrim TInt /\ u = CPrim TReal /\ A = treal).
Proof.
  intros (P0 & V & T). destruct (to_real (tx_ty t) u) eqn:TR; [|rewrite (set_prom_false _ P0); eauto].
  unfold to_real in TR. destruct (tx_ty t) as [[]|?|?|?|? ?|?|?] eqn:ET; try discriminate TR. destruct u as [[]|?|?|?|? ?|?|?]; try discriminate TR.
  destruct (promotable t) eqn:PM.
  - exists treal. split; [apply tyd_true; assumption|auto].
  - exists tint. split; [|auto]. replace (set_prom true t) with t; [exact T|]. destruct t; try reflexivity; discriminate PM.
Qed.

(** ** Lists *)
Definition low (G : tenv) (t : tx) (nd : node) : Prop := forall A, tyd G t A -> ety S None R G nd A.
Lemma lseq_low G lex ts : Forall (fun t => exists A, tyd G t A) ts -> forall cur nds cur',
  lseq (lower stf lex) ts cur = LOk (nds, cur') -> cur' = cur /\ Forall2 (low G) ts nds.
Proof.
  induction 1 as [|t r (A & T) _ IH]; intros cur nds cur' L; cbn in L.
  - injection L as <- <-. auto.
  - destruct (lower stf lex t cur) as [[nd c1]| |] eqn:LT; try discriminate L. cbn [lbind] in L.
    change ((fix go (l : list tx) (cur0 : option nat) {struct l} := _) r c1) with (lseq (lower stf lex) r c1) in L.
    destruct (lseq (lower stf lex) r c1) as [[ys c2]| |] eqn:LR; try discriminate L. cbn [lbind] in L. injection L as <- <-.
    destruct (T _ _ _ _ LT) as (-> & _). destruct (IH _ _ _ LR) as (-> & FA). split; [reflexivity|]. constructor; [|exact FA].
    intros B TB. destruct (TB _ _ _ _ LT) as (_ & EB). exact EB.
Qed.
Lemma some_type G ts (tys : list ty) : Forall2 (fun t ty => exists A, tyd G t A /\ sub A ty) ts tys -> Forall (fun t => exists A, tyd G t A) ts.
Proof. induction 1 as [|t ty ts tys (A & T & _) _ IH]; constructor; eauto. Qed.
Lemma args_of G ts nds tys : Forall2 (low G) ts nds -> Forall2 (fun t ty => exists A, tyd G t A /\ sub A ty) ts tys ->
  args_ty (ety S None R G) nds tys.
Proof.
  intros L. revert tys. induction L as [|t nd ts nds LT _ IH]; intros tys F2; inversion F2 as [|? ty ? tys' (A & TA & SA) F2']; subst; cbn; [exact I|].
  split; [exists A; split; [apply LT; exact TA|exact SA]|apply IH; assumption].
Qed.

Definition good (X : list text) (ret : cty) (t : tx) : Prop :=
  safe stf path ret t = true /\ forall n, In n X -> mentions n t = false.
Lemma good_prom X ret b t : good X ret (set_prom b t) <-> good X ret t.
Proof. unfold good. rewrite safe_prom. split; intros [H1 H2]; (split; [exact H1|]); intros n I; specialize (H2 n I); rewrite ?mentions_prom in *; exact H2. Qed.
Definition same (s s' : sst) : Prop := exists l, s' = reline s l.
Lemma same_trans a b c : same a b -> same b c -> same a c.
Proof. intros (l1 & ->) (l2 & ->). exists l2. reflexivity. Qed.
Lemma same_line s l : same s (reline s l).
Proof. exists l. reflexivity. Qed.
Lemma same_refl s : same s s.
Proof. exists (cx_line (sst_cx s)). destruct s as [st []]. reflexivity. Qed.
Lemma same_st s s' : same s s' -> sst_st s' = sst_st s.
Proof. intros (l & ->). reflexivity. Qed.
Lemma same_env X G s s' : same s s' -> env_ok X G s -> env_ok X G s'.
Proof. intros (l & ->). apply env_reline. Qed.

(** Visiting a list of expressions. *)
Lemma mapc_inv {A B} (f : A -> M B) (gd : B -> Prop) (Q : store -> A -> B -> Prop) X G l :
  (forall x s t s', In x l -> env_ok X G s -> f x s = COk t s' -> gd t -> same s s' /\ Q (sst_st s) x t) ->
  forall s ts s', env_ok X G s -> mapc f l s = COk ts s' -> Forall gd ts -> same s s' /\ Forall2 (Q (sst_st s)) l ts.
Proof.
  induction l as [|x l IH]; intros H s ts s' EO E FA.
  - injection E as <- <-. split; [apply same_refl|constructor].
  - change (mapc f (x :: l)) with (cbind (f x) (fun y => cbind (mapc f l) (fun ys => cret (y :: ys)))) in E.
    apply cbind_inv in E as (t & s1 & E1 & E). apply cbind_inv in E as (r & s2 & E2 & E). apply cret_inv in E as [-> ->].
    inversion FA as [|? ? G1 G2]; subst.
    destruct (H x s t s1 (or_introl eq_refl) EO E1 G1) as (S1 & Q1).
    destruct (IH (fun x s t s' I => H x s t s' (or_intror I)) s1 r s2 (same_env _ _ _ _ S1 EO) E2 G2) as (S2 & Q2).
    rewrite (same_st _ _ S1) in Q2. split; [exact (same_trans _ _ _ S1 S2)|constructor; assumption].
Qed.

(** ** Types *)
Lemma known_ok st X G s t : env_ok X G s -> st = sst_st s -> known stf path t = true ->
  (forall i, t = CReg i -> exists x f ms tp, nth_error (so_syms st) i = Some x /\ s_kind x = SReg f ms tp /\ scope_get st gl (s_name x) = Some i) ->
  (forall t', t <> CVec t') -> (forall g l, t <> CCon g l) -> tvalid gl path st t.
Proof.
  intros EO -> K HR NV NC. destruct t as [p|t|i|i|g l|n|p]; cbn [known] in K; try discriminate K.
  - apply andb_prop in K as [K1 K2]. split; intros ->; discriminate.
  - destruct (NV t eq_refl).
  - destruct (HR i eq_refl) as (x & f & ms & tp & E & KX & GX). destruct (sx_sym _ _ (e_ext _ _ _ EO) _ _ E) as (x' & E' & _ & K' & M').
    unfold symbol_at in K. rewrite E' in K. apply andb_prop in K as [K1 K2]. apply text_eqb_eq in K1. rewrite K', KX in K2.
    destruct (e_rec _ _ _ EO i x f ms tp E KX) as (-> & -> & _); [congruence|]. exists x, f. repeat split; auto. congruence.
  - destruct (NC g l eq_refl).
Qed.
Lemma type_sym_ok X G s n i s' : env_ok X G s -> type_sym n s = COk i s' -> s' = s /\ resolve_sc (sst_st s) (cx_scope (sst_cx s)) n = Some i /\
  exists x t, nth_error (so_syms (sst_st s)) i = Some x /\ s_name x = n /\ sym_type i x = Some t /\ scope_get (sst_st s) gl n = Some i.
Proof.
  intros EO H. unfold type_sym in H. apply cbind_inv in H as (o & s1 & H1 & H).
  apply here_inv in H1 as [-> ->].
  destruct (resolve_sc (sst_st s) (cx_scope (sst_cx s)) n) as [j|] eqn:RS.
  - apply cbind_inv in H as (o & s1 & H1 & H). apply cret_inv in H1 as [-> ->].
    apply cbind_inv in H as (x & s1 & H1 & H). apply sym_at_inv in H1 as [E ->].
    destruct (sym_type j x) as [t|] eqn:ST; [|discriminate H]. apply cret_inv in H as [-> ->]. split; [reflexivity|]. split; [reflexivity|].
    destruct (e_names _ _ _ EO _ _ RS) as (x' & E' & N & D). assert (x' = x) as -> by congruence. destruct D as [D|D]; [congruence|]. exists x, t. auto.
  - apply cbind_inv in H as (o & s1 & H1 & H). apply cbind_inv in H1 as (c & s2 & H2 & H1). apply gcx_inv in H2 as [-> ->].
    apply gst_inv in H1 as [-> ->]. rewrite (e_ty _ _ _ EO) in H. discriminate H.
Qed.
Lemma get_type_ok X G y : core_ty y = true -> forall s t s', env_ok X G s -> get_type y s = COk t s' ->
  s' = s /\ (known stf path t = true -> tvalid gl path (sst_st s) t).
Proof.
  assert (OPC : forall s t t' s', env_ok X G s -> opcao t s = COk t' s' -> s' = s /\ exists i, t' = CCon (CReg i) [(txt "T", t)] /\ so_opcao (sst_st s) = Some i).
  { intros s t t' s' EO H. unfold opcao in H. apply cbind_inv in H as (o & s1 & H1 & H). cbn in H1. injection H1 as <- <-.
    apply cbind_inv in H as (i & s1 & H1 & H). apply must_inv in H1 as [E ->]. apply cret_inv in H as [-> ->]. eauto. }
  assert (OPV : forall s t i, env_ok X G s -> so_opcao (sst_st s) = Some i -> (known stf path t = true -> tvalid gl path (sst_st s) t) ->
    known stf path (CCon (CReg i) [(txt "T", t)]) = true -> tvalid gl path (sst_st s) (CCon (CReg i) [(txt "T", t)])).
  { intros s t i EO OI HT K. cbn [known] in K. apply andb_prop in K as [_ K]. destruct (e_opc _ _ _ EO _ OI) as (x & E & N).
    cbn [tvalid]. repeat split; eauto. }
  assert (SYM : forall s i n x t, env_ok X G s -> nth_error (so_syms (sst_st s)) i = Some x -> s_name x = n -> sym_type i x = Some t ->
    scope_get (sst_st s) gl n = Some i -> known stf path t = true -> tvalid gl path (sst_st s) t).
  { intros s i n x t EO E N ST GN K. eapply known_ok; try eassumption; try reflexivity.
    - intros k ->. unfold sym_type in ST. destruct (s_kind x) eqn:KX; try discriminate ST. injection ST as <-. exists x. rewrite N. eauto 10.
    - intros t' ->. unfold sym_type in ST. destruct (s_kind x); discriminate ST.
    - intros g l ->. unfold sym_type in ST. destruct (s_kind x); discriminate ST. }
  induction y as [tk gargs q|tk comps gargs q|el IH q]; intros CY s t s' EO H; try discriminate CY.
  - cbn [get_type] in H. apply cbind_inv in H as (i & s1 & H1 & H). destruct (type_sym_ok _ _ _ _ _ _ EO H1) as (-> & _ & x & t0 & E & N & ST & GN).
    assert (GA : match gargs with Some l => Some (map get_type l) | None => None end = None \/
                 match gargs with Some l => Some (map get_type l) | None => None end = Some [])
      by (destruct gargs as [[|? ?]|]; [right; reflexivity|discriminate CY|left; reflexivity]).
    unfold construct_ty in H. apply cbind_inv in H as (x' & s1 & H2 & H). apply sym_at_inv in H2 as [E' ->]. assert (x' = x) as -> by congruence.
    rewrite ST in H. apply cbind_inv in H as (t1 & s1 & H2 & H). apply must_inv in H2 as [H2 ->]. injection H2 as <-.
    destruct q.
    + destruct (OPC _ _ _ _ EO H) as (-> & j & -> & OJ). split; [reflexivity|]. apply OPV; eauto.
    + assert (H' : cret t0 s = COk t s') by (destruct GA as [GA|GA]; rewrite GA in H; exact H).
      apply cret_inv in H' as [-> ->]. split; [reflexivity|]. eauto.
  - cbn [get_type] in H. apply cbind_inv in H as (t0 & s1 & H1 & H). destruct (IH CY _ _ _ EO H1) as (-> & HK). destruct q.
    + destruct (OPC _ _ _ _ EO H) as (-> & j & -> & OJ). split; [reflexivity|]. apply OPV; auto.
    + apply cret_inv in H as [-> ->]. split; [reflexivity|]. exact HK.
Qed.
(** The name of a basic type, looked up. *)
Lemma prim_here X G s p o t s' : env_ok X G s -> In p prims -> o = resolve_sc (sst_st s) (cx_scope (sst_cx s)) (prim_name p) ->
  named_type o s = COk t s' -> t = CPrim p /\ s' = s.
Proof.
  intros EO I -> H. apply named_inv in H as (i & x & RS & E & ST & ->). split; [|reflexivity].
  destruct (e_names _ _ _ EO _ _ RS) as (x' & E' & N & [D|D]); [congruence|].
  destruct (e_prim _ _ _ EO p I) as (j & y & GJ & EJ & KJ). assert (j = i) as -> by congruence. assert (y = x) as -> by congruence.
  unfold sym_type in ST. rewrite KJ in ST. congruence.
Qed.
Lemma prim_global X G s p o t s' : env_ok X G s -> In p prims -> o = resolve_sc (sst_st s) (cx_global (sst_cx s)) (prim_name p) ->
  named_type o s = COk t s' -> t = CPrim p /\ s' = s.
Proof.
  intros EO I -> H. apply named_inv in H as (i & x & RS & E & ST & ->). split; [|reflexivity].
  rewrite (e_gl _ _ _ EO), (e_glob _ _ _ EO) in RS.
  destruct (e_prim _ _ _ EO p I) as (j & y & GJ & EJ & KJ). assert (j = i) as -> by congruence. assert (y = x) as -> by congruence.
  unfold sym_type in ST. rewrite KJ in ST. congruence.
Qed.

(** ** Expressions *)
Definition Eclaim (x : sx) : Prop := forall p again X G ret s t o s',
  is_a (core x) = true -> p <> PField -> visit F usa x p None again s = COk (t, o) s' -> env_ok X G s -> good X ret t ->
  same s s' /\ Etyped (sst_st s) G t.

Lemma nE : PExpr <> PField. Proof. discriminate. Qed.
Lemma nC : PCall <> PField. Proof. discriminate. Qed.
Lemma nS : PStmt <> PField. Proof. discriminate. Qed.
Lemma nN : PNone <> PField. Proof. discriminate. Qed.
Ltac start :=
  intros p again X G ret s t o s' CO NP V EO GD;
  let s0 := fresh "s" in let SS := fresh "SS" in let u := fresh "u" in let L0 := fresh "L" in
  cbn [visit] in V; apply cbind_inv in V as (u & s0 & L0 & V);
  assert (SS : same s s0) by (destruct p; first [congruence | apply line_inv in L0; rewrite L0; apply same_line]);
  clear L0 u; apply (same_env _ _ _ _ SS) in EO;
  cut (same s0 s' /\ Etyped (sst_st s0) G t);
  [let SA := fresh "SA" in let TA := fresh "TA" in
   intros (SA & TA); rewrite (same_st _ _ SS) in TA; split; [exact (same_trans _ _ _ SS SA)|exact TA]|];
  clear s SS; rename s0 into s.
(** The next step of the computation. *)
Tactic Notation "next" simple_intropattern(a) ident(Q) := let s1 := fresh "s" in apply cbind_inv in Q as (a & s1 & ?H & Q).

Lemma good_sub X ret t e : good X ret t -> (safe stf path ret t = true -> safe stf path ret e = true) ->
  (forall n, mentions n t = false -> mentions n e = false) -> good X ret e.
Proof. intros [H1 H2] HS HM. split; auto. Qed.
Lemma typed_const st G ln k w ty X ret : good X ret (TConst ln k w ty false) -> ty = match k with KReal => CPrim TReal | Ast.KInt => CPrim TInt | KText | KPart => CPrim TTexto | Ast.KBool => CPrim TBool | KNulo => CPrim TNulo end ->
  Etyped st G (TConst ln k w ty false).
Proof.
  intros [GD _] ->. split; [reflexivity|]. split; [destruct k; cbn; split; discriminate|].
  intros lex cur nd cur' L. cbn in L. injection L as <- <-. split; [reflexivity|]. cbn in *.
  split; [destruct (lit_value k w); [discriminate|discriminate GD]|destruct k; reflexivity].
Qed.
Lemma E_const tk : Eclaim (XConst tk).
Proof.
  start. destruct (Lexer.t_kind tk) eqn:TK; try discriminate V.
  all: try (apply cret_inv in V as [V ->]; injection V as -> ->; split; [apply same_refl|eapply typed_const; [exact GD|reflexivity]]).
  next r V. apply here_inv in H as [-> ->]. next ty V.
  destruct (prim_here _ _ _ TInt _ _ _ EO (or_introl eq_refl) eq_refl H) as [-> ->].
  destruct (Lexer.t_lex tk); try discriminate V. destruct (max_i64 <? z)%Z; [discriminate V|].
  apply cret_inv in V as [V ->]; injection V as -> ->; split; [apply same_refl|eapply typed_const; [exact GD|reflexivity]].
Qed.
Lemma E_part tk : Eclaim (XPart tk).
Proof.
  start. apply cret_inv in V as [V ->]; injection V as -> ->; split; [apply same_refl|eapply typed_const; [exact GD|reflexivity]].
Qed.
Lemma variable_inv n s r s' : visit_variable n s = COk r s' -> s' = s /\ exists i x t, r = (i, t) /\
  resolve_sc (sst_st s) (cx_scope (sst_cx s)) n = Some i /\ nth_error (so_syms (sst_st s)) i = Some x /\ sym_ty x = Some t /\ can_evaluate x = true.
Proof.
  unfold visit_variable. intros V. next a V. apply here_inv in H as [-> ->].
  destruct (resolve_sc _ _ n) as [i|] eqn:RS; [|discriminate V]. next x V. apply sym_at_inv in H as [E ->].
  destruct (can_evaluate x) eqn:CE; [|discriminate V]. next t V. apply must_inv in H as [ET ->]. apply cret_inv in V as [-> ->].
  split; [reflexivity|]. exists i, x, t. auto.
Qed.
Lemma E_var tk : Eclaim (XVar tk).
Proof.
  start. next r V. apply variable_inv in H as (-> & i & x & ty & -> & RS & E & ST & CE).
  apply cret_inv in V as [V ->]. injection V as -> ->. split; [apply same_refl|]. destruct GD as [GD MN]. cbn [fst snd] in *.
  cbn in GD. apply andb_prop in GD as [OW KN]. unfold own, symbol_at in OW.
  destruct (sx_sym _ _ (e_ext _ _ _ EO) _ _ E) as (x' & E' & N' & K' & M'). rewrite E' in OW. apply text_eqb_eq in OW.
  assert (NX : ~ In (lex_text tk) X) by (intros I; specialize (MN _ I); cbn in MN; rewrite text_eqb_refl in MN; discriminate MN).
  pose proof (e_look _ _ _ EO _ _ _ NX RS E) as LK. unfold lk in LK.
  unfold can_evaluate in CE. unfold sym_ty in ST. destruct (s_kind x) eqn:KX; try discriminate CE; injection ST as <-.
  - destruct LK as (TV & VT); [congruence|]. split; [reflexivity|]. split; [exact TV|].
    intros lex cur nd cur' L. cbn in L. destruct (get_sym stf i); try discriminate L. cbn in L. injection L as <- <-.
    split; [reflexivity|]. cbn. eexists. split; [exact VT|reflexivity].
  - discriminate KN.
Qed.
Lemma E_un tk e : Eclaim e -> Eclaim (XUn tk e).
Proof.
  intros IH. start. assert (CE : is_a (core e) = true) by (cbn in CO; destruct (core e); first [reflexivity|discriminate CO]).
  next r V. destruct r as [te oe]. cbn [fst snd] in V. next op V. apply must_inv in H0 as [OP ->]. next u V. apply gst_inv in H0 as [-> ->].
  destruct (ty_unop op _) as [u|] eqn:TU; [|discriminate V]. apply cret_inv in V as [V ->]. injection V as -> ->.
  assert (GE : good X ret te) by (eapply good_sub; [exact GD| |]; [cbn; intros HH; apply andb_prop in HH; tauto|cbn; auto]).
  destruct (IH _ _ _ _ _ _ _ _ _ CE nE H EO GE) as (SM & P0 & TV & TD).
  rewrite (same_st _ _ SM) in TU. split; [exact SM|]. split; [reflexivity|]. split; [exact TV|].
  intros lex cur nd cur' L. cbn [lower] in L. destruct (lower stf lex te cur) as [[n1 c1]| |] eqn:L1; try discriminate L. cbn in L. injection L as <- <-.
  destruct (TD _ _ _ _ L1) as (-> & ET). split; [reflexivity|]. cbn [ety tx_ty]. eexists _, _. split; [exact ET|]. split; [|reflexivity].
  eapply un_ok; try eassumption. destruct GD as [GD _]. cbn in GD. apply andb_prop in GD as [_ GD]. intros ->. discriminate GD.
Qed.
Lemma core_bin tk a b : is_a (core (XBin tk a b)) = true -> is_a (core a) = true /\ is_a (core b) = true.
Proof. cbn. destruct (core a), (core b); cbn; auto. Qed.
Lemma E_bin tk a b : Eclaim a -> Eclaim b -> Eclaim (XBin tk a b).
Proof.
  intros IHa IHb. start. apply core_bin in CO as [CA CB].
  next r V. destruct r as [ta oa]. next r V. destruct r as [tb ob]. cbn [fst snd] in V. next op V. apply must_inv in H1 as [OP ->].
  next u V. apply gst_inv in H1 as [-> ->]. next u V. apply py_inv in H1 as [TB ->]. destruct u as [ty|]; [|discriminate V].
  next rt V. destruct ty as [q| | | | | |]; try discriminate H1. apply cret_inv in H1 as [-> ->].
  next ?u V. apply promotes_inv in H1 as ->. next ?u V. apply promotes_inv in H1 as ->.
  apply cret_inv in V as [V ->]. injection V as -> ->.
  assert (GA : good X ret ta).
  { destruct GD as [G1 G2]. cbn in G1. apply andb_prop in G1 as [G1 _]. apply andb_prop in G1 as [G1 _]. rewrite safe_prom in G1. split; [exact G1|].
    intros n I. specialize (G2 n I). cbn in G2. rewrite !mentions_prom in G2. apply orb_false_iff in G2. tauto. }
  assert (GB : good X ret tb).
  { destruct GD as [G1 G2]. cbn in G1. apply andb_prop in G1 as [G1 _]. apply andb_prop in G1 as [_ G1]. rewrite safe_prom in G1. split; [exact G1|].
    intros n I. specialize (G2 n I). cbn in G2. rewrite !mentions_prom in G2. apply orb_false_iff in G2. tauto. }
  destruct (IHa _ _ _ _ _ _ _ _ _ CA nE H EO GA) as (SM & EA).
  pose proof (same_env _ _ _ _ SM EO) as EO1.
  destruct (IHb _ _ _ _ _ _ _ _ _ CB nE H0 EO1 GB) as (SM1 & EB).
  rewrite (same_st _ _ SM1) in TB. rewrite (same_st _ _ SM) in TB, EB. split; [exact (same_trans _ _ _ SM SM1)|].
  destruct (operand _ _ _ (tx_ty tb) EA) as (A & TDA & HA). destruct (operand _ _ _ (tx_ty ta) EB) as (B & TDB & HB).
  pose proof (bin_ok gl path (sst_st s) op (tx_ty ta) (tx_ty tb) (TyPrim q) A B (proj1 (proj2 EA)) (proj1 (proj2 EB)) TB) as BO.
  assert (OPS : operands op (tx_ty ta) (tx_ty tb) = true).
  { destruct GD as [G1 _]. cbn in G1. apply andb_prop in G1 as [_ G1]. rewrite !ty_prom in G1. exact G1. }
  specialize (BO OPS HA HB). split; [reflexivity|]. split.
  - cbn [tx_ty tvalid]. destruct ((nulo_cty (tx_ty ta) || nulo_cty (tx_ty tb)) && is_equality op).
    + injection BO as ->. split; discriminate.
    + inversion BO; split; discriminate.
  - intros lex cur nd cur' L. cbn [lower] in L. destruct (lower stf lex (set_prom _ ta) cur) as [[n1 c1]| |] eqn:L1; try discriminate L. cbn [lbind] in L.
    destruct (lower stf lex (set_prom _ tb) c1) as [[n2 c2]| |] eqn:L2; try discriminate L. cbn [lbind] in L. injection L as <- <-.
    destruct (TDA _ _ _ _ L1) as (-> & NA). destruct (TDB _ _ _ _ L2) as (-> & NB). split; [reflexivity|].
    cbn [ety tx_ty strip]. exists A, B, (TyPrim q). split; [exact NA|]. split; [exact NB|]. split; [|reflexivity].
    rewrite !ty_prom. exact BO.
Qed.
Ltac gsub GD := eapply good_sub; [exact GD| |];
  [cbn; intros HH; rewrite ?andb_true_iff in HH; tauto|intros ?n HH; cbn in HH; rewrite ?orb_false_iff in HH; tauto].

Lemma E_conv tk e y : Eclaim e -> Eclaim (XConv tk e y).
Proof.
  intros IH. start. assert (CE : is_a (core e) = true /\ core_ty y = true) by (cbn in CO; destruct (core e), (core_ty y); try discriminate CO; auto).
  destruct CE as [CE CY]. next r V. destruct r as [te oe]. cbn [fst snd] in V. next ty V. next ok V. apply gst_inv in H1 as [-> ->].
  next ok V. apply py_inv in H1 as [CC ->]. destruct ok; [|discriminate V]. apply cret_inv in V as [V ->]. injection V as -> ->.
  assert (GE : good X ret te) by gsub GD.
  destruct (IH _ _ _ _ _ _ _ _ _ CE nE H EO GE) as (SM & P0 & TV & TD). pose proof (same_env _ _ _ _ SM EO) as EO1.
  destruct (get_type_ok _ _ y CY _ _ _ EO1 H0) as (-> & _). rewrite (same_st _ _ SM) in CC.
  assert (PK : exists q, ty = CPrim q /\ q <> TIndef /\ q <> TUnknown).
  { destruct GD as [GD _]. cbn in GD. rewrite !andb_true_iff in GD. destruct GD as [[_ K1] K2]. destruct ty as [q| | | | | |]; try discriminate K1.
    exists q. split; [reflexivity|]. cbn in K2. split; intros ->; discriminate K2. }
  destruct PK as (q & -> & Q1 & Q2). destruct (cast_ok gl path (sst_st s) (tx_ty te) q TV Q1 Q2 CC) as (p' & PE & D).
  split; [exact SM|]. split; [reflexivity|]. split; [split; assumption|].
  intros lex cur nd cur' L. cbn [lower] in L. destruct (lower stf lex te cur) as [[n1 c1]| |] eqn:L1; try discriminate L. cbn [lbind] in L.
  destruct (TD _ _ _ _ L1) as (-> & NT). rewrite PE in L, NT. cbn [strip] in NT. cbn [strip ty_eqb] in L.
  replace (Front.is_indef (CPrim q)) with false in L by (destruct q; try reflexivity; congruence). rewrite orb_false_r in L.
  destruct (prim_eqb q p') eqn:EQ.
  - injection L as <- <-. split; [reflexivity|]. apply prim_eqb_eq in EQ as ->. cbn [ety tx_ty strip]. exact NT.
  - destruct (type_symbol stf (CPrim q)) as [y0| |] eqn:TS; try discriminate L. cbn [lbind] in L. injection L as <- <-. split; [reflexivity|].
    destruct D as [->|(B1 & B2 & CB)]; [rewrite prim_eqb_refl in EQ; discriminate EQ|].
    assert (PI : match p' with TIndef => true | _ => false end = false) by (destruct B1 as [->|[->|[->| ->]]]; reflexivity).
    cbn [ety tx_ty strip Front.is_indef]. rewrite PI. exists p', q. split; [exact NT|]. repeat split; auto; try (apply CB).
    unfold type_symbol in TS. destruct (find _ (so_syms stf)) as [x0|] eqn:FD; [|discriminate TS]. injection TS as <-. cbn [sym_of sy_name].
    apply find_some in FD as [I PX]. destruct (s_kind x0) eqn:KX; try discriminate PX. apply prim_eqb_eq in PX as <-.
    apply In_nth_error in I as (k & EK). eapply prim_names; eassumption.
Qed.
Lemma core_index tk a b : is_a (core (XIndex tk a b)) = true -> is_a (core a) = true /\ is_a (core b) = true.
Proof. cbn. destruct (core a), (core b); cbn; auto. Qed.
Lemma E_index tk a b : Eclaim a -> Eclaim b -> Eclaim (XIndex tk a b).
Proof.
  intros IHa IHb. start. apply core_index in CO as [CA CB].
  next r V. destruct r as [ta oa]. next r V. destruct r as [tb ob]. cbn [fst snd] in V.
  assert (EQ : exists el, t = TIndex (Lexer.t_line tk) ta tb el /\ s' = s1 /\ is_int (tx_ty tb) = true /\ (tx_ty ta = CVec el \/ tx_ty ta = CPrim TTexto /\ el = CPrim TTexto)).
  { destruct (tx_ty ta) as [[]|el| | | | |]; try discriminate V; (destruct (is_int (tx_ty tb)); [|discriminate V]); apply cret_inv in V as [V ->]; injection V as -> ->; eauto 8. }
  destruct EQ as (el & -> & -> & IB & TA).
  assert (GA : good X ret ta) by gsub GD. assert (GB : good X ret tb) by gsub GD.
  destruct (IHa _ _ _ _ _ _ _ _ _ CA nE H EO GA) as (SM & P0 & TV & TD). pose proof (same_env _ _ _ _ SM EO) as EO1.
  destruct (IHb _ _ _ _ _ _ _ _ _ CB nE H0 EO1 GB) as (SM1 & P1 & TV1 & TD1). rewrite (same_st _ _ SM) in TD1.
  split; [exact (same_trans _ _ _ SM SM1)|]. split; [reflexivity|]. split.
  - destruct TA as [E|[E ->]]; [rewrite E in TV; exact TV|split; discriminate].
  - intros lex cur nd cur' L. cbn [lower] in L. destruct (lower stf lex ta cur) as [[n1 c1]| |] eqn:L1; try discriminate L. cbn [lbind] in L.
    destruct (lower stf lex tb c1) as [[n2 c2]| |] eqn:L2; try discriminate L. cbn [lbind] in L. injection L as <- <-.
    destruct (TD _ _ _ _ L1) as (-> & NA). destruct (TD1 _ _ _ _ L2) as (-> & NB). split; [reflexivity|]. cbn [ety tx_ty].
    destruct (tx_ty tb) as [[]| | | | | |]; try discriminate IB. split; [|exact NB].
    destruct TA as [E|[E ->]]; rewrite E in NA; cbn [strip] in *; eauto.
Qed.
(** The fields of the records. *)
Lemma record_at X G s i : env_ok X G s -> tvalid gl path (sst_st s) (CReg i) -> exists x f, nth_error (so_syms (sst_st s)) i = Some x /\ s_kind x = SReg f [] [] /\
  s_mod x = path /\ R (s_name x) = Some (decl_of f) /\ fields_of stf f = fields_of (sst_st s) f.
Proof.
  intros EO (x & f & E & K & M & GN). exists x, f. repeat split; auto.
  - unfold R. rewrite (sext_get _ _ _ _ _ (e_ext _ _ _ EO) GN). destruct (sx_sym _ _ (e_ext _ _ _ EO) _ _ E) as (x' & E' & _ & K' & _).
    rewrite E', K', K. reflexivity.
  - unfold fields_of. rewrite (sx_rec _ _ (e_ext _ _ _ EO) _ _ _ _ _ E K). reflexivity.
Qed.
Lemma ftype_ok X G s j y c : env_ok X G s -> nth_error (so_syms (sst_st s)) j = Some y -> s_kind y = SVar c -> tvalid gl path (sst_st s) c -> ftype j = strip (sst_st s) c.
Proof.
  intros EO E K V. destruct (sx_sym _ _ (e_ext _ _ _ EO) _ _ E) as (x' & E' & _ & K' & _). unfold ftype, sym_ty. rewrite E', K', K.
  apply (tvalid_ext gl path _ _ _ (e_ext _ _ _ EO) V).
Qed.
Lemma E_get a m : Eclaim a -> Eclaim (XGet a m).
Proof.
  intros IH. start. assert (CA : is_a (core a) = true) by (cbn in CO; destruct (core a); first [reflexivity|discriminate CO]).
  next r V. destruct r as [ta oa]. cbn [fst snd] in V. next pr V. destruct pr as [i|]; [|discriminate V].
  next y V. apply sym_at_inv in H1 as [EY ->]. destruct (in_eval p && _ && _); [discriminate V|]. next ty V. apply must_inv in H1 as [ST ->].
  apply cret_inv in V as [V ->]. injection V as -> ->.
  assert (GA : good X ret ta) by gsub GD.
  destruct (IH _ _ _ _ _ _ _ _ _ CA nE H EO GA) as (SM & P0 & TV & TD). pose proof (same_env _ _ _ _ SM EO) as EO1.
  assert (CR : exists k, tx_ty ta = CReg k).
  { destruct GD as [GD _]. cbn in GD. rewrite !andb_true_iff in GD. destruct GD as [[_ GD] _]. destruct (tx_ty ta); try discriminate GD. eauto. }
  destruct CR as (k & CR). rewrite CR in *. cbn [get_property] in H0. next x H0. apply sym_at_inv in H1 as [EX ->].
  rewrite <- (same_st _ _ SM) in TV, TD. destruct (record_at _ _ _ _ EO1 TV) as (x' & f & EX' & KX & MX & RX & FX). assert (x' = x) as -> by congruence.
  rewrite KX in H0. apply gst_inv in H0 as [H0 ->]. cbn [assoc] in H0.
  destruct (e_rec _ _ _ EO1 _ _ _ _ _ EX KX MX) as (_ & _ & FS). change (scope_get (sst_st s0) f (lex_text m)) with (scope_get (sst_st s0) f (lex_text m)) in H0.
  assert (AF : assoc (lex_text m) (fields_of (sst_st s0) f) = Some i).
  { unfold scope_get in H0. unfold fields_of. destruct (nth_error (so_scopes (sst_st s0)) f) as [c|]; [|discriminate H0].
    destruct (assoc (lex_text m) (sc_syms c)); congruence. }
  destruct (FS _ _ AF) as (y' & c & EY' & KY & VC). assert (y' = y) as -> by congruence.
  assert (ty = c) as -> by (unfold sym_type, sym_ty in ST; rewrite KY in ST; congruence).
  rewrite (same_st _ _ SM) in VC. split; [exact SM|]. split; [reflexivity|]. split; [exact VC|].
  intros lex cur nd cur' L. cbn [lower] in L. destruct (lower stf lex ta cur) as [[n1 c1]| |] eqn:L1; try discriminate L. cbn [lbind] in L. injection L as <- <-.
  destruct (TD _ _ _ _ L1) as (-> & NA). split; [reflexivity|]. cbn [ety tx_ty]. exists (s_name x), (decl_of f).
  cbn [strip] in NA. rewrite EX in NA. split; [exact NA|]. split; [exact RX|].
  rewrite assoc_decl, FX, AF. cbn [option_map]. f_equal. rewrite (ftype_ok _ _ _ _ _ _ EO1 EY KY); rewrite (same_st _ _ SM); auto.
Qed.
Lemma good_in X ret l t : (forall n, In n X -> existsb (mentions n) l = false) -> forallb (safe stf path ret) l = true -> In t l -> good X ret t.
Proof.
  intros M FA I. split; [rewrite forallb_forall in FA; auto|]. intros n IN. specialize (M n IN).
  destruct (mentions n t) eqn:E; [|reflexivity]. rewrite <- M. symmetry. apply existsb_exists. eauto.
Qed.
Lemma good_all X ret l : (forall n, In n X -> existsb (mentions n) l = false) -> forallb (safe stf path ret) l = true -> Forall (good X ret) l.
Proof. intros M FA. apply Forall_forall. intros t I. eapply good_in; eauto. Qed.
Lemma core_all (f : shape -> bool) l s0 : is_a (if forallb (fun y => f (core y)) l then s0 else ShN) = true -> forall y, In y l -> f (core y) = true.
Proof. destruct (forallb _ l) eqn:E; [|discriminate]. rewrite forallb_forall in E. auto. Qed.
Lemma is_e_a x : is_e x = true -> is_a x = true.
Proof. destruct x; auto. Qed.

Lemma E_fmt tk l : Forall Eclaim l -> Eclaim (XFmt tk l).
Proof.
  intros IH. start. cbn [core] in CO. pose proof (core_all is_e _ _ CO) as CL. next r V. apply global_inv in H as [-> ->].
  next ty V. destruct (prim_global _ _ _ TTexto _ _ _ EO ltac:(cbn; auto 8) eq_refl H) as (-> & ->). next ts V. apply cret_inv in V as [V ->]. injection V as -> ->.
  destruct GD as [GS GM]. cbn [safe mentions] in GS, GM. pose proof (good_all _ _ _ GM GS) as GA.
  eapply (mapc_inv _ (good X ret) (fun st _ t => Etyped st G t)) in H0; [|clear s EO H0 H|exact EO|exact GA].
  - destruct H0 as (SM & F2). split; [exact SM|]. split; [reflexivity|]. split; [split; discriminate|].
    intros lex cur nd cur' L. cbn [lower] in L. destruct (lseq (lower stf lex) ts cur) as [[nds c1]| |] eqn:L1; try discriminate L. cbn [lbind] in L. injection L as <- <-.
    assert (FT : Forall (Etyped (sst_st s) G) ts) by (clear - F2; induction F2; constructor; auto).
    eapply lseq_low in L1 as (-> & LL); [|eapply Forall_impl; [|exact FT]; intros ? (_ & _ & T); eauto].
    split; [reflexivity|]. cbn [ety tx_ty strip]. split; [|reflexivity].
    clear - LL FT. induction LL as [|t nd ts nds LT _ IH]; cbn; [exact I|]. inversion FT as [|? ? (_ & TV & TD) FT']; subst.
    split; [|apply IH; exact FT']. eexists. split; [apply LT; exact TD|eapply valid_showable; exact TV].
  - intros x sa t sb I EO E GT. next r E. destruct r as [te oe]. cbn [fst snd] in E. next ok E. apply gst_inv in H0 as [-> ->]. next ok E. apply py_inv in H0 as [_ ->].
    destruct ok; [|discriminate E]. apply cret_inv in E as [-> ->].
    rewrite Forall_forall in IH. exact (IH x I _ _ _ _ _ _ _ _ _ (is_e_a _ (CL x I)) nE H EO GT).
Qed.
Lemma E_list tk y l : Forall Eclaim l -> Eclaim (XList tk y l).
Proof.
  intros IH. start. cbn [core] in CO. assert (CY : core_ty y = true) by (destruct (core_ty y); [reflexivity|discriminate CO]). rewrite CY in CO. cbn [andb] in CO.
  pose proof (core_all is_e _ _ CO) as CL. next ty V. destruct (get_type_ok _ _ _ CY _ _ _ EO H) as (-> & HV). next ts V. apply cret_inv in V as [V ->]. injection V as -> ->.
  destruct GD as [GS GM]. cbn [safe mentions] in GS, GM. rewrite !andb_true_iff in GS. destruct GS as [[KN GS] FT]. specialize (HV KN).
  pose proof (good_all _ _ _ GM GS) as GA.
  assert (GF : Forall (fun t => good X ret t /\ fits t ty = true) ts) by (rewrite forallb_forall in FT; rewrite Forall_forall in *; auto).
  set (st := sst_st s) in *.
  eapply (mapc_inv _ (fun t => good X ret t /\ fits t ty = true) (fun st' _ t => st' = st -> exists A, tyd G t A /\ sub A (strip st ty))) in H0; [| |exact EO|exact GF].
  - destruct H0 as (SM & F2). split; [exact SM|]. split; [reflexivity|]. split; [exact HV|].
    intros lex cur nd cur' L. cbn [lower] in L. destruct (lseq (lower stf lex) ts cur) as [[nds c1]| |] eqn:L1; try discriminate L. cbn [lbind] in L. injection L as <- <-.
    assert (FU : Forall (fun t => exists A, tyd G t A /\ sub A (strip st ty)) ts) by (clear - F2; induction F2; constructor; auto).
    eapply lseq_low in L1 as (-> & LL); [|eapply Forall_impl; [|exact FU]; intros ? (A & T & _); eauto].
    split; [reflexivity|]. cbn [ety tx_ty strip]. exists (strip st ty). split; [|reflexivity].
    clear - LL FU. induction LL as [|t nd ts nds LT _ IH]; cbn; [exact I|]. inversion FU as [|? ? (A & TD & SA) FU']; subst.
    split; [|apply IH; exact FU']. exists A. split; [apply LT; exact TD|exact SA].
  - clear EO H0 H. intros x s1 t s2 I EO E (GT & FX). next r E. destruct r as [te oe]. cbn [fst snd] in E. next ok E. apply match_ty_inv in H0 as [MT ->].
    destruct ok; [|discriminate E]. cbn [negb] in E. next ?u E. apply promotes_inv in H0 as ->. apply cret_inv in E as [-> ->].
    rewrite good_prom in GT. rewrite fits_prom in FX. rewrite Forall_forall in IH.
    destruct (IH x I _ _ _ _ _ _ _ _ _ (is_e_a _ (CL x I)) nE H EO GT) as (SM & ET). split; [exact SM|]. intros ES. rewrite (same_st _ _ SM), ES in MT. rewrite ES in ET.
    eapply coerce; eauto. rewrite <- ES. apply (e_taken _ _ _ EO).
Qed.

(** ** Calls *)
Lemma call_inv lex ln i l2 n u ts ty cur nd cur' : lower stf lex (TCall ln i (TVar l2 n None u false) ts ty false) cur = LOk (nd, cur') ->
  exists y y' nds, nth_error (so_syms stf) i = Some y /\ lseq (lower stf lex) ts cur = LOk (nds, cur') /\
    nd = NCall ln (match s_kind y with SVariant _ _ _ => CVariant | SPrim _ | SReg _ _ _ | SUni _ _ _ | STVar => CType | _ => CFunction end)
               (NVar l2 n (Some y') false) nds false.
Proof.
  cbn [lower]. intros L. destruct (nth_error (so_syms stf) i) as [y|] eqn:EY; [|discriminate L]. cbn [lsome lbind] in L.
  destruct (lseq (lower stf lex) ts cur) as [[nds c1]| |]; try discriminate L. cbn [lbind] in L.
  destruct (lookup stf c1 n) as [k| |]; try discriminate L. cbn [lbind] in L. destruct (get_sym stf k) as [y'| |]; try discriminate L. cbn [lbind] in L.
  injection L as <- <-. eauto 8.
Qed.
Lemma param_inv ps : forall s ts s', param_types ps s = COk ts s' -> s' = s /\
  Forall2 (fun p t => exists y, nth_error (so_syms (sst_st s)) (snd p) = Some y /\ sym_ty y = Some t) ps ts.
Proof.
  unfold param_types. induction ps as [|p ps IH]; intros s ts s' H.
  - injection H as <- <-. auto.
  - change (mapc ?f (p :: ps)) with (cbind (f p) (fun y => cbind (mapc f ps) (fun ys => cret (y :: ys)))) in H.
    next t H. next y H0. apply sym_at_inv in H1 as [E ->]. apply must_inv in H0 as [ET ->]. next r H. apply cret_inv in H as [-> ->].
    destruct (IH _ _ _ H0) as (-> & F2). split; [reflexivity|]. constructor; eauto.
Qed.
Lemma types_of_ok st ps ts : sext st stf -> Forall2 (fun p t => exists y, nth_error (so_syms st) (snd p) = Some y /\ sym_ty y = Some t) ps ts -> types_of stf ps = ts.
Proof.
  intros X. induction 1 as [|p t ps ts (y & E & T) _ IH]; [reflexivity|]. cbn. unfold symbol_at.
  destruct (sx_sym _ _ X _ _ E) as (y' & E' & _ & K' & _). rewrite E'. replace (sym_ty y') with (Some t) by (unfold sym_ty in *; rewrite K'; congruence).
  cbn. f_equal. exact IH.
Qed.
Lemma match_args_inv tys : forall ts s ts' s', match_args tys ts s = COk ts' s' -> List.length ts = List.length tys -> s' = s /\
  Forall2 (fun t t' => exists b, t' = set_prom b t) ts ts' /\
  Forall2 (fun t ty => types_match (strip (sst_st s) ty) (strip (sst_st s) (tx_ty t)) = PyOk true) ts tys /\
  ts' = map (fun q => set_prom (to_real (tx_ty (fst q)) (snd q)) (fst q)) (List.combine ts tys).
Proof.
  induction tys as [|ty tys IH]; intros ts s ts' s' H LN; destruct ts as [|t ts]; try discriminate LN.
  - cbn in H. injection H as <- <-. auto.
  - cbn [match_args] in H. next ?u H. apply promotes_inv in H0 as ->. next ok H. apply match_ty_inv in H0 as [MT ->]. destruct ok; [|discriminate H]. cbn [negb] in H.
    next r H. apply cret_inv in H as [-> ->]. injection LN as LN. destruct (IH _ _ _ _ H0 LN) as (-> & F1 & F2 & ->).
    split; [reflexivity|]. split; [constructor; eauto|]. split; [constructor; auto|reflexivity].
Qed.
Lemma good_back X ret ts ts' : Forall2 (fun t t' => exists b, t' = set_prom b t) ts ts' -> Forall (good X ret) ts' -> Forall (good X ret) ts.
Proof.
  induction 1 as [|t t' ts ts' (b & ->) _ IH]; intros FA; inversion FA as [|? ? G1 G2]; subst; constructor; auto. rewrite good_prom in G1. exact G1.
Qed.
Lemma match_own st G ts tys : opcao_taken gl path st -> Forall (Etyped st G) ts -> Forall (tvalid gl path st) tys ->
  Forall2 (fun t ty => types_match (strip st ty) (strip st (tx_ty t)) = PyOk true) ts tys ->
  let ts' := map (fun q => set_prom (to_real (tx_ty (fst q)) (snd q)) (fst q)) (List.combine ts tys) in
  fit_all ts' tys = true -> Forall2 (fun t ty => exists A, tyd G t A /\ sub A ty) ts' (map (strip st) tys).
Proof.
  intros OT FE FV F2. induction F2 as [|t ty ts tys MT _ IH]; cbn; intros FA; [constructor|].
  inversion FE as [|? ? E1 E2]; subst. inversion FV as [|? ? V1 V2]; subst. apply andb_prop in FA as [FA1 FA2]. rewrite fits_prom in FA1. constructor.
  - eapply coerce; eassumption.
  - apply IH; assumption.
Qed.
Lemma match_native st G ts pts : opcao_taken gl path st -> Forall (Etyped st G) ts -> Forall (fun q => q = TIndef \/ q = TTexto) pts ->
  Forall2 (fun t ty => types_match (strip st ty) (strip st (tx_ty t)) = PyOk true) ts (map CPrim pts) ->
  let ts' := map (fun q => set_prom (to_real (tx_ty (fst q)) (snd q)) (fst q)) (List.combine ts (map CPrim pts)) in
  Forall2 (fun t q => exists A, tyd G t A /\ showable A /\ (q = TTexto -> A = ttexto)) ts' pts.
Proof.
  intros OT FE FP. revert ts FE. induction FP as [|q pts HQ _ IH]; intros ts FE F2; inversion F2 as [|t ? ts0 ? MT F2']; subst; [constructor|].
  inversion FE as [|? ? (P0 & TV & TD) E2]; subst. cbn. constructor; [|apply IH; assumption].
  replace (to_real (tx_ty t) (CPrim q)) with false by (unfold to_real; destruct HQ as [->| ->]; cbn; rewrite andb_false_r; reflexivity).
  rewrite (set_prom_false _ P0). exists (strip st (tx_ty t)). split; [exact TD|]. split; [eapply valid_showable; exact TV|].
  intros ->. assert (VT : tvalid gl path st (CPrim TTexto)) by (split; discriminate).
  destruct (match_sub gl path st _ _ OT VT TV MT) as [SB|IR]; [inversion SB; reflexivity|]. cbn in IR. rewrite andb_false_r in IR. discriminate IR.
Qed.
Definition Pe (x : sx) : Prop := Eclaim x /\ forall n e, x = XNamed n e -> Eclaim e.
Lemma args_inv X G ret again args (f : sx -> M tx) s ts s' : Forall Pe args -> (forall y, In y args -> is_a (core y) = true) -> env_ok X G s ->
  (forall a s t s', f a s = COk t s' -> exists o, visit F usa a PCall None again s = COk (t, o) s') ->
  mapc f args s = COk ts s' -> Forall (good X ret) ts -> same s s' /\ Forall (Etyped (sst_st s) G) ts /\ List.length ts = List.length args.
Proof.
  intros FP CA EO HF H GA. eapply (mapc_inv _ (good X ret) (fun st _ t => Etyped st G t)) in H; [| |exact EO|exact GA].
  - destruct H as (SM & F2). split; [exact SM|]. split; [clear - F2; induction F2; constructor; auto|]. clear - F2. induction F2; cbn; congruence.
  - intros x sa t sb I EA E GT. apply HF in E as (o & E). rewrite Forall_forall in FP. destruct (FP x I) as (IH & _).
    exact (IH _ _ _ _ _ _ _ _ _ (CA x I) nC E EA GT).
Qed.

(** A function of the module, and one of the library. *)
Lemma typed_fun X G s n i x r ps ln l2 u ts : env_ok X G s -> resolve_sc (sst_st s) (cx_scope (sst_cx s)) n = Some i ->
  nth_error (so_syms (sst_st s)) i = Some x -> s_kind x = SFun r ps -> lk (sst_st s) G n i x -> s_mod x = path ->
  forall tys, assoc n (ge_fun (te_g G)) = Some (tys, strip (sst_st s) r) ->
  Forall2 (fun t ty => exists A, tyd G t A /\ sub A ty) ts tys ->
  Etyped (sst_st s) G (TCall ln i (TVar l2 n None u false) ts r false).
Proof.
  intros EO RS E KX LK MX tys AF F2. unfold lk in LK. rewrite KX in LK. destruct LK as (TL & GN & LO & _). destruct (LO MX) as (_ & TV & _).
  split; [reflexivity|]. split; [exact TV|]. intros lex cur nd cur' L. apply call_inv in L as (y & y' & nds & EY & LS & ->).
  destruct (sx_sym _ _ (e_ext _ _ _ EO) _ _ E) as (x' & E' & _ & K' & _). assert (y = x') as -> by congruence. rewrite K', KX.
  eapply lseq_low in LS as (-> & LL); [|exact (some_type _ _ _ F2)].
  split; [reflexivity|]. cbn [ety tx_ty]. exists (strip (sst_st s) r). split; [|reflexivity]. left. exists tys. split; [exact TL|]. split; [exact AF|].
  eapply args_of; eassumption.
Qed.
Lemma library_ok X G s n i x : env_ok X G s -> scope_get (sst_st s) gl n = Some i -> nth_error (so_syms (sst_st s)) i = Some x -> s_name x = n -> s_mod x = lib ->
  tlook (te_loc G) n = None -> library S None G n.
Proof.
  intros EO GN E N M TL. destruct (sx_sym _ _ (e_ext _ _ _ EO) _ _ E) as (x' & E' & N' & _ & M').
  split; [exact TL|]. eapply lib_names; [eapply sext_get; [apply (e_ext _ _ _ EO)|exact GN]|exact E'|congruence|congruence].
Qed.
Lemma typed_native X G s n i x r ps ln l2 u ts R0 tys : env_ok X G s ->
  nth_error (so_syms (sst_st s)) i = Some x -> s_kind x = SFun r ps -> library S None G n ->
  tvalid gl path (sst_st s) R0 -> native_type n tys (strip (sst_st s) R0) ->
  Forall2 (fun t ty => exists A, tyd G t A /\ sub A ty) ts tys ->
  Etyped (sst_st s) G (TCall ln i (TVar l2 n None u false) ts R0 false).
Proof.
  intros EO E KX LB TV NT F2. split; [reflexivity|]. split; [exact TV|]. intros lex cur nd cur' L. apply call_inv in L as (y & y' & nds & EY & LS & ->).
  destruct (sx_sym _ _ (e_ext _ _ _ EO) _ _ E) as (x' & E' & _ & K' & _). assert (y = x') as -> by congruence. rewrite K', KX.
  eapply lseq_low in LS as (-> & LL); [|exact (some_type _ _ _ F2)].
  split; [reflexivity|]. cbn [ety tx_ty]. exists (strip (sst_st s) R0). split; [|reflexivity]. right. left. exists tys. split; [exact LB|]. split; [exact NT|].
  eapply args_of; eassumption.
Qed.
Lemma nsig_native st G n pts r ts : nsig n = Some (pts, r) -> Forall2 (fun t q => exists A, tyd G t A /\ showable A /\ (q = TTexto -> A = ttexto)) ts pts ->
  tvalid gl path st (CPrim r) /\ exists tys, native_type n tys (TyPrim r) /\ Forall2 (fun t ty => exists A, tyd G t A /\ sub A ty) ts tys.
Proof.
  unfold nsig. intros N F2.
  repeat match type of N with (if text_eqb n ?w then _ else _) = _ => let E := fresh in destruct (text_eqb n w) eqn:E; [apply text_eqb_eq in E; subst n|] end;
    try discriminate N; injection N as <- <-; (split; [split; discriminate|]).
  all: inversion F2 as [|t ? ts0 ? (A & TA & SA & IA) F2']; subst; inversion F2' as [|t2 ? ts1 ? (B & TB & SB & IB) F3]; subst; try (inversion F3; subst).
  - exists [A]. split; [apply nt_show; auto|]. repeat constructor. exists A. split; [exact TA|constructor].
  - exists [A]. split; [apply nt_show; auto|]. repeat constructor. exists A. split; [exact TA|constructor].
  - exists [A]. split; [apply nt_leia; auto|]. repeat constructor. exists A. split; [exact TA|constructor].
  - exists [A]. split; [apply nt_leia_int; auto|]. repeat constructor. exists A. split; [exact TA|constructor].
  - exists [A]. split; [apply nt_leia_real; auto|]. repeat constructor. exists A. split; [exact TA|constructor].
  - rewrite (IA eq_refl) in TA. rewrite (IB eq_refl) in TB. exists [ttexto; ttexto]. split; [apply nt_contem|]. repeat constructor; exists ttexto; (split; [assumption|constructor]).
Qed.
Lemma nsig_prims n pts r : nsig n = Some (pts, r) -> Forall (fun q => q = TIndef \/ q = TTexto) pts.
Proof.
  unfold nsig. repeat (destruct (text_eqb n _); [intros N; injection N as <- <-; repeat (apply Forall_cons || apply Forall_nil); auto|]). discriminate.
Qed.

(** Record initialisers. *)
Definition inits (again : bool) (fs : list (text * nat)) : list text -> list sx -> M (list tx) :=
  fix go (seen : list text) (l : list sx) : M (list tx) :=
    match l with
    | [] => cret []
    | a :: r =>
        set_line (Lexer.t_line (Parser.node_tok a)) ;;;
        match a with
        | XNamed n _ =>
            ra <- visit F usa a PCall None again ;;
            match assoc (lex_text n) fs with
            | None => ccerr
            | Some j =>
                if existsb (text_eqb (lex_text n)) seen then ccerr
                else
                  fx <- sym_at j ;; ft <- must (sym_ty fx) ;;
                  promotes (tx_ty (fst ra)) ft ;;;
                  ok <- match_ty ft (tx_ty (fst ra)) ;;
                  if negb ok then ccerr
                  else rest <- go (lex_text n :: seen) r ;; cret (fst ra :: rest)
            end
        | _ => ccerr
        end
    end.
Definition init_name (t : tx) : text := match t with TNamed _ n _ _ => n | _ => [] end.
Definition init_ok (st : store) (G : tenv) (fs : list (text * nat)) (t : tx) : Prop :=
  exists ln n e ty j y c, t = TNamed ln n e ty /\ assoc n fs = Some j /\ nth_error (so_syms st) j = Some y /\ s_kind y = SVar c /\
    tvalid gl path st c /\ Etyped st G e /\ sub (strip st (tx_ty e)) (strip st c).
Lemma named_visit again X G ret n e s t o s' : Eclaim e -> is_a (core (XNamed n e)) = true -> visit F usa (XNamed n e) PCall None again s = COk (t, o) s' ->
  env_ok X G s -> (forall e', t = TNamed (Lexer.t_line n) (lex_text n) e' (tx_ty e') -> good X ret e') ->
  same s s' /\ exists e', t = TNamed (Lexer.t_line n) (lex_text n) e' (tx_ty e') /\ Etyped (sst_st s) G e'.
Proof.
  intros IH CO V EO GE. cbn [visit] in V. next ?u V. apply line_inv in H. next r V. destruct r as [te oe]. apply cret_inv in V as [V ->]. injection V as -> ->.
  cbn [fst snd] in *. pose proof (same_line s (Lexer.t_line (Parser.node_tok (XNamed n e)))) as SL. rewrite <- H in SL. clear H. pose proof (same_env _ _ _ _ SL EO) as EO1.
  assert (CE : is_a (core e) = true) by (cbn in CO; destruct (core e); first [reflexivity|discriminate CO]).
  destruct (IH _ _ _ _ _ _ _ _ _ CE nE H0 EO1 (GE _ eq_refl)) as (SM & ET). rewrite (same_st _ _ SL) in ET. split; [exact (same_trans _ _ _ SL SM)|]. eauto.
Qed.
Lemma inits_inv again X G ret fs : forall l seen s ts s', Forall Pe l -> (forall y, In y l -> is_a (core y) = true) -> env_ok X G s ->
  inits again fs seen l s = COk ts s' ->
  (forall m j, assoc m fs = Some j -> exists y c, nth_error (so_syms (sst_st s)) j = Some y /\ s_kind y = SVar c /\ tvalid gl path (sst_st s) c) ->
  Forall (fun t => match t with TNamed _ _ e _ => good X ret e | _ => False end) ts -> forallb (field_fits stf fs) ts = true ->
  same s s' /\ Forall (init_ok (sst_st s) G fs) ts /\ NoDup (map init_name ts) /\ (forall n, In n (map init_name ts) -> In n seen -> False) /\ List.length ts = List.length l.
Proof.
  induction l as [|a l IH]; intros seen s ts s' FP CA EO H FS GA FF.
  - injection H as <- <-. split; [apply same_refl|]. split; [constructor|]. split; [constructor|]. split; [intros ? []|reflexivity].
  - cbn [inits] in H. next ?u H. apply line_inv in H0. pose proof (same_line s (Lexer.t_line (Parser.node_tok a))) as SL. rewrite <- H0 in SL. clear H0. pose proof (same_env _ _ _ _ SL EO) as EO1.
    destruct a; try discriminate H. next ra H. destruct ra as [ta oa]. cbn [fst snd] in H. match type of FP with Forall Pe (XNamed ?n ?e0 :: _) => rename n into tk end.
    destruct (assoc (lex_text tk) fs) as [j|] eqn:AF; [|discriminate H]. destruct (existsb _ seen) eqn:EX; [discriminate H|].
    next fx H. apply sym_at_inv in H1 as [EF ->]. next ft H. apply must_inv in H1 as [TF ->]. next ?u H. apply promotes_inv in H1 as ->.
    next ok H. apply match_ty_inv in H1 as [MT ->]. destruct ok; [|discriminate H]. cbn [negb] in H. next rest H. apply cret_inv in H as [-> ->].
    change ((fix go (seen0 : list text) (l0 : list sx) {struct l0} := _) (lex_text tk :: seen) l s1) with (inits again fs (lex_text tk :: seen) l s1) in H1.
    inversion FP as [|? ? (_ & P2) FP']; subst. inversion GA as [|? ? G1 G2]; subst. cbn [forallb] in FF. apply andb_prop in FF as [F1 F2].
    edestruct (named_visit again X G ret) as (SM & e' & TE & ET); [exact (P2 _ _ eq_refl)|apply CA; left; reflexivity|exact H0|exact EO1|intros e' ->; exact G1|]. subst ta.
    pose proof (same_trans _ _ _ SL SM) as SM1. pose proof (same_env _ _ _ _ SM1 EO) as EO2.
    destruct (IH (lex_text tk :: seen) s1 _ _ FP' (fun y I => CA y (or_intror I)) EO2 H1) as (SR & FR & ND & DJ & LN); auto.
    { rewrite (same_st _ _ SM1). exact FS. }
    rewrite (same_st _ _ SM1) in FR, MT, EF. rewrite (same_st _ _ SL) in ET. split; [exact (same_trans _ _ _ SM1 SR)|].
    destruct (FS _ _ AF) as (y & c & EY & KY & VC). assert (fx = y) as -> by congruence. unfold sym_ty in TF. rewrite KY in TF. injection TF as ->.
    split; [constructor; [|exact FR]|].
    + exists (Lexer.t_line tk), (lex_text tk), e', (tx_ty e'), j, y, ft. split; [reflexivity|]. split; [exact AF|]. split; [exact EY|]. split; [exact KY|]. split; [exact VC|]. split; [exact ET|].
      cbn [field_fits] in F1. rewrite AF in F1. unfold symbol_at in F1. destruct (sx_sym _ _ (e_ext _ _ _ EO) _ _ EY) as (y' & EY' & _ & KY' & _).
      rewrite EY' in F1. unfold sym_ty in F1. rewrite KY', KY in F1. eapply coerce_as_is; eauto. apply (e_taken _ _ _ EO).
    + cbn [map init_name List.length]. split; [|split; [|congruence]].
      * constructor; [|exact ND]. intros I. exact (DJ _ I (or_introl eq_refl)).
      * intros n [<-|I] IS; [|exact (DJ _ I (or_intror IS))]. rewrite <- not_true_iff_false in EX. apply EX. apply existsb_exists. exists (lex_text tk). split; [exact IS|apply text_eqb_refl].
Qed.
Lemma named_low G lex st fs : forall ts cur nds cur', Forall (init_ok st G fs) ts -> lseq (lower stf lex) ts cur = LOk (nds, cur') ->
  cur' = cur /\ Forall2 (fun t nd => exists ln n e ty e', t = TNamed ln n e ty /\ nd = NNamed ln n e' /\ ety S None R G e' (strip st (tx_ty e))) ts nds.
Proof.
  induction ts as [|t ts IH]; intros cur nds cur' FA L.
  - cbn in L. injection L as <- <-. auto.
  - inversion FA as [|? ? (ln & n & e & ty & j & y & c & -> & AF & EY & KY & VC & (_ & _ & TD) & SB) FA']; subst.
    change (lseq (lower stf lex) (?a :: ts) cur) with (let^ (y, cur) := lower stf lex a cur in let^ (ys, cur) := lseq (lower stf lex) ts cur in LOk (y :: ys, cur)) in L.
    cbn [lower] in L. destruct (lower stf lex e cur) as [[n1 c1]| |] eqn:L1; try discriminate L. cbn [lbind] in L.
    destruct (lseq (lower stf lex) ts c1) as [[ns c2]| |] eqn:L2; try discriminate L. cbn [lbind] in L. injection L as <- <-.
    destruct (TD _ _ _ _ L1) as (-> & NT). destruct (IH _ _ _ FA' L2) as (-> & F2). split; [reflexivity|]. constructor; [|exact F2]. eauto 10.
Qed.
Lemma typed_init X G s n i x f ln l2 u ts : env_ok X G s -> nth_error (so_syms (sst_st s)) i = Some x -> s_name x = n -> s_kind x = SReg f [] [] ->
  tvalid gl path (sst_st s) (CReg i) -> lk (sst_st s) G n i x -> s_mod x = path ->
  Forall (init_ok (sst_st s) G (fields_of (sst_st s) f)) ts -> NoDup (map init_name ts) -> List.length ts = List.length (fields_of (sst_st s) f) ->
  Etyped (sst_st s) G (TCall ln i (TVar l2 n None u false) ts (CReg i) false).
Proof.
  intros EO E N KX TV LK MX FA ND LN. destruct (record_at _ _ _ _ EO TV) as (x' & f' & E' & K' & M' & RX & FX). assert (x' = x) as -> by congruence.
  assert (f' = f) as -> by congruence. split; [reflexivity|]. split; [exact TV|]. intros lex cur nd cur' L. apply call_inv in L as (y & y' & nds & EY & LS & ->).
  destruct (sx_sym _ _ (e_ext _ _ _ EO) _ _ E) as (x0 & E0 & _ & K0 & _). assert (y = x0) as -> by congruence. rewrite K0, KX.
  destruct (named_low _ _ _ _ _ _ _ _ FA LS) as (-> & F2). split; [reflexivity|]. unfold lk in LK. rewrite KX in LK. destruct LK as (TL & LO). destruct (LO MX) as (_ & IN).
  cbn [ety tx_ty strip]. rewrite E, N. exists (decl_of f). split; [exact TL|]. split; [exact IN|]. split; [rewrite <- N; exact RX|]. split; [|split; [|reflexivity]].
  - clear LS LN ND. induction F2 as [|t nd ts nds (ln' & n' & e & ty & e' & -> & -> & NT) _ IH]; cbn [fields_ty]; [exact I|].
    destruct (Forall_inv FA) as (ln2 & n2 & e2 & ty2 & j & y & c & EQ & AF & EJ & KY & VC & ET & SB). pose proof (Forall_inv_tail FA) as FA'. injection EQ as <- <- <- <-.
    split; [|exact (IH FA')]. exists (strip (sst_st s) c), (strip (sst_st s) (tx_ty e)). split; [|split; [exact NT|exact SB]].
    rewrite assoc_decl, FX, AF. cbn [option_map]. f_equal. eapply ftype_ok; eassumption.
  - intros m u0 AD. assert (IM : In m (map fst (fields_of (sst_st s) f))).
    { rewrite assoc_decl, FX in AD. destruct (assoc m (fields_of (sst_st s) f)) as [j|] eqn:AJ; [|discriminate AD]. apply assoc_in in AJ. apply in_map_iff. exists (m, j). auto. }
    assert (IT : In m (map init_name ts)).
    { refine (NoDup_length_incl ND _ _ m IM); [rewrite !map_length; rewrite LN; apply Nat.le_refl|].
      intros z IZ. apply in_map_iff in IZ as (t & <- & IZ). rewrite Forall_forall in FA. destruct (FA _ IZ) as (ln2 & n2 & e2 & ty2 & j & y & c & -> & AF & _).
      cbn. apply assoc_in in AF. apply in_map_iff. exists (n2, j). auto. }
    clear - F2 IT. induction F2 as [|t nd ts nds (ln' & n' & e & ty & e' & -> & -> & NT) _ IH]; [destruct IT|].
    destruct IT as [<-|IT]; [exists ln', e'; left; reflexivity|]. destruct (IH IT) as (a & b & I). exists a, b. right. exact I.
Qed.

(** [vec]. *)
Lemma vec_strip st k p : strip st (Nat.iter k CVec (CPrim p)) = vec_of k (TyPrim p).
Proof. induction k as [|k IH]; [reflexivity|]. cbn [Nat.iter nat_rect vec_of strip]. f_equal. exact IH. Qed.
Lemma vec_valid st k p : p <> TIndef -> p <> TUnknown -> tvalid gl path st (Nat.iter k CVec (CPrim p)).
Proof. intros P1 P2. induction k as [|k IH]; [split; assumption|exact IH]. Qed.
Lemma vec_elem k t : elem_of (Nat.iter k CVec t) = elem_of t.
Proof. induction k as [|k IH]; [reflexivity|exact IH]. Qed.
Lemma ints_args G ts nds : Forall2 (low G) ts nds -> Forall (fun t => tyd G t tint) ts -> args_ty (ety S None R G) nds (repeat tint (List.length nds)).
Proof.
  induction 1 as [|t nd ts nds LT _ IH]; intros FA; cbn; [exact I|]. inversion FA as [|? ? T1 T2]; subst. split; [|exact (IH T2)].
  exists tint. split; [apply LT; exact T1|constructor].
Qed.
Lemma typed_vec X G s i x r ps ln l2 u ts l3 tn u3 p : env_ok X G s -> nth_error (so_syms (sst_st s)) i = Some x -> s_kind x = SFun r ps ->
  library S None G (txt "vec") -> basic p -> tn = prim_name p -> library S None G tn -> ts <> [] -> Forall (fun t => tyd G t tint) ts ->
  Etyped (sst_st s) G (TCall ln i (TVar l2 (txt "vec") None u false) (TVar l3 tn None u3 false :: ts) (Nat.iter (List.length ts) CVec (CPrim p)) false).
Proof.
  intros EO E KX LB BP TN LT NE FA. split; [reflexivity|]. split; [apply vec_valid; destruct BP as [->|[->|[->| ->]]]; discriminate|].
  intros lex cur nd cur' L. apply call_inv in L as (y & y' & nds & EY & LS & ->).
  destruct (sx_sym _ _ (e_ext _ _ _ EO) _ _ E) as (x' & E' & _ & K' & _). assert (y = x') as -> by congruence. rewrite K', KX.
  change (lseq (lower stf lex) (?a :: ts) cur) with (let^ (y, cur) := lower stf lex a cur in let^ (ys, cur) := lseq (lower stf lex) ts cur in LOk (y :: ys, cur)) in LS.
  cbn [lower] in LS. destruct (lookup stf cur tn) as [k| |]; try discriminate LS. cbn [lbind] in LS. destruct (get_sym stf k) as [y0| |]; try discriminate LS. cbn [lbind] in LS.
  destruct (lseq (lower stf lex) ts cur) as [[ds c1]| |] eqn:LQ; try discriminate LS. cbn [lbind] in LS. injection LS as <- <-.
  eapply lseq_low in LQ as (-> & LL); [|eapply Forall_impl; [|exact FA]; intros ? T; exists tint; exact T]. split; [reflexivity|].
  cbn [ety tx_ty]. rewrite vec_strip. exists (vec_of (List.length ts) (TyPrim p)). split; [|reflexivity]. right. right.
  exists l3, tn, (Some y0), (TyPrim p), ds. split; [reflexivity|]. split; [exact LB|]. split; [reflexivity|]. split; [exists p; auto|]. split; [exact LT|].
  split; [intros ->; inversion LL; subst; congruence|]. split; [eapply ints_args; eassumption|]. f_equal. clear - LL. induction LL; cbn; congruence.
Qed.
Lemma builtin_inv n fn : builtin_fn n = Some fn -> n = fn /\ (fn = txt "vec" \/ fn = txt "tam" \/ fn = txt "anexa" \/ fn = txt "remova").
Proof. unfold builtin_fn. intros H. apply find_some in H as [I E]. apply text_eqb_eq in E. split; [exact E|]. destruct I as [<-|[<-|[<-|[<-|[]]]]]; auto. Qed.

Lemma E_call tk args : Forall Pe args -> Eclaim (XCall (XVar tk) args).
Proof.
  intros FP. start. cbn [core] in CO. pose proof (core_all is_a _ _ CO) as CL. clear CO NP. set (n := lex_text tk) in *.
  next q V. next rs H. apply here_inv in H0 as [-> ->]. destruct (resolve_sc (sst_st s) (cx_scope (sst_cx s)) n) as [i|] eqn:RS; [|discriminate H].
  apply cret_inv in H as [-> ->]. next x V. apply sym_at_inv in H as [E ->].
  destruct (e_names _ _ _ EO _ _ RS) as (x' & E' & NM & DX). assert (x' = x) as -> by congruence. clear E'. rewrite NM in V.
  destruct (sx_sym _ _ (e_ext _ _ _ EO) _ _ E) as (xf & EF & NF & KF & MF).
  cbn [Parser.node_tok] in V. set (ln := Lexer.t_line tk) in *. set (f := TVar ln n None (CPrim TUnknown) false) in *.
  assert (SHAPE : forall ts ty, t = TCall ln i f ts ty false -> ~ In n X /\ (forall m, In m X -> existsb (mentions m) ts = false)).
  { intros ts ty ->. destruct GD as [_ GM]. cbn [mentions] in GM. split.
    - intros I. specialize (GM n I). unfold f in GM. cbn [mentions] in GM. rewrite text_eqb_refl in GM. discriminate GM.
    - intros m I. specialize (GM m I). apply orb_false_iff in GM. tauto. }
  assert (SAFE : forall ts ty, t = TCall ln i f ts ty false ->
    match s_kind x with
    | SFun r ps =>
        if text_eqb (s_mod x) path then forallb (safe stf path ret) ts && fit_all ts (types_of stf ps)
        else match builtin_fn n with
             | Some fn =>
                 if text_eqb fn (txt "vec") then
                   match ts with TVar _ _ None _ false :: l => forallb (safe stf path ret) l | _ => false end && zero_initialized (elem_of ty)
                 else forallb (safe stf path ret) ts &&
                      (negb (text_eqb fn (txt "anexa")) ||
                       match ts with [a; b] => match tx_ty a with CVec el => fits b el | _ => true end | _ => true end)
             | None => forallb (safe stf path ret) ts
             end
    | SReg fl _ [] =>
        text_eqb (s_mod x) path && forallb (fun y => match y with TNamed _ _ e _ => safe stf path ret e | _ => false end) ts &&
        forallb (field_fits stf (fields_of stf fl)) ts
    | _ => false
    end = true).
  { intros ts ty ->. destruct GD as [GS _]. unfold f in GS. cbn [safe] in GS. unfold symbol_at at 1 in GS. rewrite EF, KF, MF, NF, NM in GS. exact GS. }
  clear GD. destruct (builtin_fn n) as [fn|] eqn:BF.
  - (* [vec], [tam], [anexa], [remova] *)
    assert (LIB : forall ts ty, t = TCall ln i f ts ty false -> library S None G n /\ text_eqb (s_mod x) path = false /\ exists r ps, s_kind x = SFun r ps).
    { intros ts ty ET. specialize (SAFE _ _ ET). destruct (SHAPE _ _ ET) as (NX & _). pose proof (e_look _ _ _ EO _ _ _ NX RS E) as LK. unfold lk in LK.
      destruct (s_kind x) as [?|r ps|? ? ?|? ? ?|?|? ? tp|? ? ?|]; try discriminate SAFE.
      - destruct LK as (TL & GN & LO & LL). destruct (text_eqb (s_mod x) path) eqn:MX.
        + apply text_eqb_eq in MX. destruct (LO MX) as (B0 & _). congruence.
        + assert (MN : s_mod x <> path) by (intros MP; rewrite MP, text_eqb_refl in MX; discriminate MX). destruct (LL MN) as (ML & _).
          split; [eapply library_ok; eassumption|]. eauto.
      - destruct tp; [|discriminate SAFE]. rewrite !andb_true_iff in SAFE. destruct SAFE as [[MX _] _]. apply text_eqb_eq in MX. destruct LK as (_ & LO). destruct (LO MX). congruence. }
    destruct (builtin_inv _ _ BF) as (NF' & FN). 
    destruct (text_eqb fn (txt "vec")) eqn:FV.
    + apply text_eqb_eq in FV. destruct (256 <=? List.length args)%nat; [discriminate V|]. destruct args as [|a0 [|a1 sizes]]; try discriminate V.
      set (szs := a1 :: sizes) in *. next ss V. destruct a0; try discriminate V. match type of FP with Forall Pe (XVar ?v :: _) => rename v into tv end. next j V. next e V. apply sym_at_inv in H1 as [EE ->]. next el V. apply must_inv in H1 as [ST ->].
      apply cret_inv in V as [V ->]. injection V as -> ->. destruct (LIB _ _ eq_refl) as (LB & MX & r & ps & KX). specialize (SAFE _ _ eq_refl). rewrite KX, MX in SAFE.
      apply andb_prop in SAFE as [SAFE ZI]. destruct (SHAPE _ _ eq_refl) as (NX & MN).
      assert (MN' : forall m, In m X -> existsb (mentions m) ss = false) by (intros m I; specialize (MN m I); cbn [existsb] in MN; apply orb_false_iff in MN; tauto).
      assert (TX : ~ In (lex_text tv) X) by (intros I; specialize (MN _ I); cbn [existsb mentions] in MN; rewrite text_eqb_refl in MN; discriminate MN).
      pose proof (good_all _ _ _ MN' SAFE) as GA.
      eapply (mapc_inv _ (good X ret) (fun st _ t => tyd G t tint)) in H; [| |exact EO|exact GA].
      * destruct H as (SM & F2). pose proof (same_env _ _ _ _ SM EO) as EO1.
        destruct (type_sym_ok _ _ _ _ _ _ EO1 H0) as (-> & RT & x2 & t2 & E2 & N2 & ST2 & G2). assert (x2 = e) as -> by congruence.
        split; [exact SM|]. cbn [elem_of] in ZI; rewrite vec_elem in ZI.
        assert (EP : exists p, el = CPrim p /\ basic p /\ s_kind e = SPrim p).
        { unfold sym_type in ST. destruct (s_kind e) as [?|? ?|? ? ?|? ? ?|p0|? ? ?|? ? ?|]; try discriminate ST; injection ST as <-; try discriminate ZI. exists p0.
          split; [reflexivity|]. split; [|reflexivity]. destruct p0; try discriminate ZI; unfold basic; auto. }
        destruct EP as (p0 & -> & BP & KE). pose proof (e_look _ _ _ EO1 _ _ _ TX RT EE) as LK. unfold lk in LK. rewrite KE in LK. destruct LK as (TL & ML).
        destruct (sx_sym _ _ (e_ext _ _ _ EO1) _ _ EE) as (ef & EEF & NEF & KEF & MEF).
        match goal with |- Etyped _ _ (TCall _ _ _ _ ?ty _) => replace ty with (Nat.iter (List.length ss) CVec (CPrim p0)) by (replace (List.length ss) with (List.length szs) by (clear - F2; induction F2; cbn; congruence); reflexivity) end.
        unfold f. rewrite NF', FV. eapply typed_vec; try eassumption.
        -- rewrite <- FV, <- NF'. exact LB.
        -- rewrite <- N2, <- NEF. eapply prim_names; [exact EEF|congruence].
        -- eapply library_ok; [exact EO1|exact G2|exact EE|exact N2|exact ML|exact TL].
        -- intros ->. inversion F2.
        -- clear - F2. induction F2; constructor; auto.
      * intros y sa t0 sb I EA EV GT. next r0 EV. destruct r0 as [te oe]. cbn [fst snd] in EV. next g EV. apply tag_inv in H2 as [TT ->]. destruct (prim_eqb g TInt) eqn:PG; [|discriminate EV].
        apply cret_inv in EV as [-> ->]. apply prim_eqb_eq in PG. subst g. rewrite Forall_forall in FP. destruct (FP y (or_intror I)) as (IH & _).
        destruct (IH _ _ _ _ _ _ _ _ _ (CL y (or_intror I)) nC H1 EA GT) as (SM & P0 & TV & TD). rewrite TT in TD. auto.
    + destruct (text_eqb fn (txt "tam")) eqn:FT.
      * apply text_eqb_eq in FT. destruct args as [|a [|? ?]]; try discriminate V. next ra V. destruct ra as [ta oa]. cbn [fst snd] in V.
        next ok V. apply gst_inv in H0 as [-> ->]. destruct (supports_tam _) eqn:SP; [|discriminate V]. cbn [negb] in V. next rg V. apply global_inv in H0 as [-> ->].
        next ty V. apply cret_inv in V as [V ->]. injection V as -> ->. destruct (LIB _ _ eq_refl) as (LB & MX & r & ps & KX). specialize (SAFE _ _ eq_refl). rewrite KX, MX in SAFE.
        destruct (SHAPE _ _ eq_refl) as (NX & MN). apply andb_prop in SAFE as [SAFE _]. pose proof (Forall_inv (good_all _ _ _ MN SAFE)) as GA.
        destruct (Forall_inv FP) as (IH & _). destruct (IH _ _ _ _ _ _ _ _ _ (CL a (or_introl eq_refl)) nC H EO GA) as (SM & P0 & TV & TD).
        pose proof (same_env _ _ _ _ SM EO) as EO1.
        destruct (prim_global _ _ _ TInt _ _ _ EO1 (or_introl eq_refl) eq_refl H0) as (-> & ->). split; [exact SM|]. rewrite (same_st _ _ SM) in SP.
        unfold f. rewrite NF', FT in LB |- *.
        assert (NT : native_type (txt "tam") [strip (sst_st s) (tx_ty ta)] (strip (sst_st s) (CPrim TInt))).
        { cbn [strip]. destruct (tx_ty ta) as [[]|el| | |g la| |]; try discriminate SP; [apply nt_tam_texto|apply nt_tam_vec|].
          destruct g; try (destruct TV; fail). discriminate SP. }
        eapply typed_native; [exact EO|exact E|exact KX|exact LB|split; discriminate|exact NT|].
        constructor; [|constructor]. exists (strip (sst_st s) (tx_ty ta)). split; [exact TD|constructor].
      * destruct args as [|a [|b [|? ?]]]; try discriminate V. next ra V. destruct ra as [ta oa]. next rb V. destruct rb as [tb ob]. cbn [fst snd] in V.
        destruct (tx_ty ta) as [|el| | | | |] eqn:TA; try discriminate V. destruct (Forall_inv FP) as (IHa & _). destruct (Forall_inv (Forall_inv_tail FP)) as (IHb & _).
        assert (VIS : good X ret ta -> good X ret tb -> same s s1 /\ Etyped (sst_st s) G ta /\ Etyped (sst_st s) G tb).
        { intros GA GB. destruct (IHa _ _ _ _ _ _ _ _ _ (CL a (or_introl eq_refl)) nC H EO GA) as (SM & EA). pose proof (same_env _ _ _ _ SM EO) as EO1.
          destruct (IHb _ _ _ _ _ _ _ _ _ (CL b (or_intror (or_introl eq_refl))) nC H0 EO1 GB) as (SM1 & EB). rewrite (same_st _ _ SM) in EB.
          split; [exact (same_trans _ _ _ SM SM1)|]. auto. }
        destruct (text_eqb fn (txt "anexa")) eqn:FA.
        -- apply text_eqb_eq in FA. next ok V. apply match_ty_inv in H1 as [MT ->]. destruct ok; [|discriminate V]. cbn [negb] in V. next ?u V. apply promotes_inv in H1 as ->.
           next rg V. apply global_inv in H1 as [-> ->]. next ty V. apply cret_inv in V as [V ->]. injection V as -> ->.
           destruct (LIB _ _ eq_refl) as (LB & MX & r & ps & KX). specialize (SAFE _ _ eq_refl). rewrite KX, MX in SAFE. cbn [negb orb] in SAFE. rewrite TA, fits_prom in SAFE.
           destruct (SHAPE _ _ eq_refl) as (NX & MN). apply andb_prop in SAFE as [SAFE FB]. pose proof (good_all _ _ _ MN SAFE) as GAL.
           pose proof (Forall_inv GAL) as GA. pose proof (Forall_inv (Forall_inv_tail GAL)) as GB. rewrite good_prom in GB.
           destruct (VIS GA GB) as (SM & EA & EB). pose proof (same_env _ _ _ _ SM EO) as EO1.
           destruct (prim_global _ _ _ TVazio _ _ _ EO1 ltac:(cbn; auto 8) eq_refl H1) as (-> & ->). split; [exact SM|]. rewrite (same_st _ _ SM) in MT.
           destruct EA as (PA & VA & DA). rewrite TA in VA, DA. destruct (coerce _ _ _ _ EB (e_taken _ _ _ EO) (VA : tvalid gl path (sst_st s) el) MT FB) as (B & DB & SB).
           unfold f. rewrite NF', FA in LB |- *.
           eapply typed_native with (tys := [TyVec (strip (sst_st s) el); strip (sst_st s) el]); [exact EO|exact E|exact KX|exact LB|split; discriminate|cbn [strip]; apply nt_anexa|].
           constructor; [|constructor; [|constructor]]; [exists (TyVec (strip (sst_st s) el)); split; [exact DA|constructor]|exists B; auto].
        -- destruct (is_int (tx_ty tb)) eqn:IB; [|discriminate V]. apply cret_inv in V as [V ->]. injection V as -> ->.
           destruct (LIB _ _ eq_refl) as (LB & MX & r & ps & KX). specialize (SAFE _ _ eq_refl). rewrite KX, MX in SAFE.
           destruct (SHAPE _ _ eq_refl) as (NX & MN). apply andb_prop in SAFE as [SAFE _]. pose proof (good_all _ _ _ MN SAFE) as GAL.
           destruct (VIS (Forall_inv GAL) (Forall_inv (Forall_inv_tail GAL))) as (SM & (PA & VA & DA) & (PB & VB & DB)). split; [exact SM|].
           rewrite TA in VA, DA. destruct (tx_ty tb) as [[]| | | | | |]; try discriminate IB.
           assert (FR : fn = txt "remova").
           { destruct FN as [->|[->|[->|FN]]]; [rewrite text_eqb_refl in FV; discriminate FV|rewrite text_eqb_refl in FT; discriminate FT|rewrite text_eqb_refl in FA; discriminate FA|exact FN]. }
           unfold f. rewrite NF', FR in LB |- *.
           eapply typed_native with (tys := [TyVec (strip (sst_st s) el); tint]); [exact EO|exact E|exact KX|exact LB|exact VA|apply nt_remova|].
           constructor; [|constructor; [|constructor]]; [exists (TyVec (strip (sst_st s) el)); split; [exact DA|constructor]|exists tint; split; [exact DB|constructor]].
  - destruct (s_kind x) as [?|r ps|? ? ?|? ? ?|?|fl ms tp|? ? ?|] eqn:KX; try discriminate V.
    + (* a function *)
      next ts0 V. destruct (List.length args =? List.length ps)%nat eqn:LN; [|discriminate V]. cbn [negb] in V. apply Nat.eqb_eq in LN.
      next tys V. destruct (param_inv _ _ _ _ H0) as (-> & PT). next ts V. apply cret_inv in V as [V ->]. injection V as -> ->.
      specialize (SAFE _ _ eq_refl). destruct (SHAPE _ _ eq_refl) as (NX & MN). pose proof (e_look _ _ _ EO _ _ _ NX RS E) as LK.
      assert (LT : List.length tys = List.length ps) by (clear - PT; induction PT; cbn; congruence).
      assert (LS0 : List.length ts0 = List.length args).
      { clear - H. revert s s0 ts0 H. induction args as [|a args IH]; intros s s0 ts0 H; [injection H as <- <-; reflexivity|].
        change (mapc ?f (a :: args)) with (cbind (f a) (fun y => cbind (mapc f args) (fun ys => cret (y :: ys)))) in H.
        next y H. next ys H. apply cret_inv in H as [-> ->]. cbn. f_equal. eapply IH. eassumption. }
      destruct (match_args_inv _ _ _ _ _ H1 ltac:(congruence)) as (-> & F1 & F2 & ->).
      assert (GT : Forall (good X ret) (map (fun q => set_prom (to_real (tx_ty (fst q)) (snd q)) (fst q)) (List.combine ts0 tys))).
      { apply good_all; [exact MN|]. destruct (text_eqb (s_mod x) path); [apply andb_prop in SAFE; tauto|exact SAFE]. }
      pose proof (good_back _ _ _ _ F1 GT) as GT0.
      eapply (args_inv X G ret again args) in H; [|exact FP|exact CL|exact EO| |exact GT0].
      2: { intros a sa ta sb HA. destruct (is_named a); [discriminate HA|]. next q HA. destruct q as [te oe]. apply cret_inv in HA as [-> ->]. eauto. }
      destruct H as (SM & FE & _). split; [exact SM|]. rewrite (same_st _ _ SM) in F2, PT. pose proof LK as LK'. unfold lk in LK'. rewrite KX in LK'. destruct LK' as (TL & GN & LO & LL).
      destruct (text_eqb (s_mod x) path) eqn:MX.
      * apply text_eqb_eq in MX. destruct (LO MX) as (_ & TV & tys' & PTY & AF). apply andb_prop in SAFE as [_ FIT].
        rewrite (types_of_ok _ _ _ (e_ext _ _ _ EO) PT) in FIT.
        assert (TT : Forall (tvalid gl path (sst_st s)) tys /\ tys' = map (strip (sst_st s)) tys).
        { clear - PT PTY. revert tys' PTY. induction PT as [|p0 t0 ps tys (y & EY & TY) _ IH]; intros tys' PTY; inversion PTY as [|? ty' ? tys0 (y' & c & EY' & KY & VC & ->) PTY']; subst; [auto|].
          assert (y' = y) as -> by congruence. unfold sym_ty in TY. rewrite KY in TY. injection TY as ->. destruct (IH _ PTY') as (FA & ->). auto. }
        destruct TT as (FV & ->). eapply typed_fun; [exact EO|exact RS|exact E|exact KX|exact LK|exact MX|exact AF|].
        eapply match_own; [apply (e_taken _ _ _ EO)|exact FE|exact FV|exact F2|exact FIT].
      * assert (MNP : s_mod x <> path) by (intros MP; rewrite MP, text_eqb_refl in MX; discriminate MX). destruct (LL MNP) as (ML & LN'). destruct (LN' BF) as (pts & r' & NS & -> & NPS).
        assert (TY : tys = map CPrim pts).
        { clear - PT NPS. revert pts NPS. induction PT as [|p0 t0 ps tys (y & EY & TY) _ IH]; intros pts NPS; inversion NPS as [|? q ? pts0 (y' & EY' & KY) NPS']; subst; [reflexivity|].
          assert (y' = y) as -> by congruence. unfold sym_ty in TY. rewrite KY in TY. injection TY as <-. cbn. f_equal. apply IH. exact NPS'. }
        subst tys. pose proof (match_native _ _ _ _ (e_taken _ _ _ EO) FE (nsig_prims _ _ _ NS) F2) as MN2.
        destruct (nsig_native (sst_st s) _ _ _ _ _ NS MN2) as (TV & tys & NT & FF).
        eapply typed_native; [exact EO|exact E|exact KX|eapply library_ok; eassumption|exact TV|exact NT|exact FF].
    + (* a method *) next ts0 V. destruct (negb _); [discriminate V|]. next tys V. next ts V. apply cret_inv in V as [V ->]. injection V as -> ->. specialize (SAFE _ _ eq_refl). discriminate SAFE.
    + (* a variant *) destruct (negb _); [discriminate V|]. next tys V. next ts V. apply cret_inv in V as [V ->]. injection V as -> ->. specialize (SAFE _ _ eq_refl). discriminate SAFE.
    + (* a record *)
      next fs V. apply gst_inv in H as [-> ->]. change (match nth_error (so_scopes (sst_st s)) fl with Some c => sc_syms c | None => [] end) with (fields_of (sst_st s) fl) in V.
      destruct (List.length args =? List.length (fields_of (sst_st s) fl))%nat eqn:LN; [|discriminate V]. cbn [negb] in V. apply Nat.eqb_eq in LN.
      next ts V. apply cret_inv in V as [V ->]. injection V as -> ->. specialize (SAFE _ _ eq_refl). destruct tp; [|discriminate SAFE]. destruct (SHAPE _ _ eq_refl) as (NX & MN).
      rewrite !andb_true_iff in SAFE. destruct SAFE as [[MX SF] FF]. apply text_eqb_eq in MX. pose proof (e_look _ _ _ EO _ _ _ NX RS E) as LK.
      destruct (e_rec _ _ _ EO _ _ _ _ _ E KX MX) as (-> & _ & FS).
      assert (TV : tvalid gl path (sst_st s) (CReg i)).
      { exists x, fl. repeat split; auto. rewrite NM. destruct DX as [DX|DX]; [unfold sym_type in DX; rewrite KX in DX; discriminate DX|exact DX]. }
      destruct (record_at _ _ _ _ EO TV) as (x2 & f2 & E2 & K2 & _ & _ & FX). assert (x2 = x) as -> by congruence. assert (f2 = fl) as -> by congruence. rewrite FX in FF.
      match type of H with _ = COk _ ?z => change (inits again (fields_of (sst_st s) fl) [] args s = COk ts z) in H end.
      assert (GT : Forall (fun t => match t with TNamed _ _ e _ => good X ret e | _ => False end) ts).
      { apply Forall_forall. intros t0 I. rewrite forallb_forall in SF. specialize (SF _ I). destruct t0; try discriminate SF. split; [exact SF|].
        intros m IM. specialize (MN m IM). destruct (mentions m t0) eqn:MM; [|reflexivity]. rewrite <- MN. symmetry. apply existsb_exists. eauto. }
      destruct (inits_inv again X G ret _ _ _ _ _ _ FP CL EO H FS GT FF) as (SM & FI & ND & _ & LT). split; [exact SM|].
      eapply typed_init; eauto. congruence.
Qed.
Lemma E_named n e : Eclaim e -> Eclaim (XNamed n e).
Proof.
  intros _. start. next r V. apply cret_inv in V as [V ->]. injection V as -> ->. destruct GD as [GD _]. discriminate GD.
Qed.
Lemma E_all x : Pe x.
Proof.
  induction x using sx_ind'; (split; [|intros; try discriminate; try (match goal with H : XNamed _ _ = XNamed _ _ |- _ => injection H as <- <-; unfold Pe in *; tauto end)]).
  all: repeat match goal with H : Pe _ |- _ => destruct H as (? & _) end.
  all: try (first [apply E_const|apply E_part|apply E_var|apply E_un; assumption|apply E_bin; assumption|apply E_conv; assumption|apply E_index; assumption|apply E_get; assumption|apply E_named; assumption]; fail).
  all: try (apply E_fmt; eapply Forall_impl; [|eassumption]; intros ? (? & _); assumption).
  all: try (apply E_list; eapply Forall_impl; [|eassumption]; intros ? (? & _); assumption).
  all: try (match goal with |- Eclaim (XCall ?f _) => destruct f; try (apply E_call; assumption) end).
  all: intros ?p ?a ?X ?G ?r ?s ?t ?o ?s' CO; exfalso; clear - CO; cbn [core] in CO.
  all: repeat match type of CO with
       | is_a (if ?b then _ else _) = true => destruct b
       | is_a (match ?z with _ => _ end) = true => destruct z
       end; try discriminate CO.
Qed.
End Expr.

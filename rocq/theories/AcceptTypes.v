(** Facts about types and the store of symbols, for [Prop_Accept.v]. *)
From Verif Require Import Base BaseFacts Dec Bson Value Ast Types Syntax Sym Exhaust Check Sem Spec_Types Spec_Typing Spec_Accept GenLocals.

Lemma prim_eqb_eq p q : prim_eqb p q = true -> p = q.
Proof. destruct p, q; cbn; congruence. Qed.
Lemma prim_eqb_refl p : prim_eqb p p = true.
Proof. destruct p; reflexivity. Qed.
Lemma prim_name_inj p q : prim_name p = prim_name q -> p = q.
Proof. destruct p, q; cbn; try reflexivity; discriminate. Qed.

Section Types.
Variable gl : nat.      (* the global scope of the module *)
Variable path : text.   (* the module *)

(** ** A store that has grown *)
Record sext (st st' : store) : Prop := mkSext {
  sx_sym : forall i x, nth_error (so_syms st) i = Some x -> exists x', nth_error (so_syms st') i = Some x' /\
    s_name x' = s_name x /\ s_kind x' = s_kind x /\ s_mod x' = s_mod x;
  sx_scope : forall k c, nth_error (so_scopes st) k = Some c -> exists c', nth_error (so_scopes st') k = Some c' /\
    sc_up c' = sc_up c /\ forall n i, assoc n (sc_syms c) = Some i -> assoc n (sc_syms c') = Some i;
  sx_rec : forall i x f ms tp, nth_error (so_syms st) i = Some x -> s_kind x = SReg f ms tp ->
    nth_error (so_scopes st') f = nth_error (so_scopes st) f;
  sx_opc : so_opcao st' = so_opcao st
}.
Lemma sext_refl st : sext st st.
Proof. constructor; eauto 8. Qed.
Lemma sext_trans a b c : sext a b -> sext b c -> sext a c.
Proof.
  intros [S1 C1 R1 O1] [S2 C2 R2 O2]. constructor.
  - intros i x H. destruct (S1 _ _ H) as (x1 & H1 & N1 & K1 & M1). destruct (S2 _ _ H1) as (x2 & H2 & N2 & K2 & M2).
    exists x2. repeat split; congruence.
  - intros k s H. destruct (C1 _ _ H) as (s1 & H1 & U1 & A1). destruct (C2 _ _ H1) as (s2 & H2 & U2 & A2).
    exists s2. split; [assumption|]. split; [congruence|]. intros. apply A2, A1. assumption.
  - intros i x f ms tp H K. destruct (S1 _ _ H) as (x1 & H1 & N1 & K1 & M1). rewrite (R2 i x1 f ms tp H1); [eapply R1; eassumption|congruence].
  - congruence.
Qed.
Lemma sext_get st st' sc n i : sext st st' -> scope_get st sc n = Some i -> scope_get st' sc n = Some i.
Proof.
  intros X. unfold scope_get. destruct (nth_error (so_scopes st) sc) as [c|] eqn:E; [|discriminate].
  destruct (sx_scope _ _ X _ _ E) as (c' & E' & _ & A). rewrite E'. apply A.
Qed.

(** ** Types whose symbols are in the store *)
Fixpoint tvalid (st : store) (t : cty) : Prop :=
  match t with
  | CPrim p => p <> TIndef /\ p <> TUnknown
  | CVec t => tvalid st t
  | CReg i => exists x f, nth_error (so_syms st) i = Some x /\ s_kind x = SReg f [] [] /\ s_mod x = path /\
                          scope_get st gl (s_name x) = Some i
  | CCon (CReg i) [(n, t)] =>
      so_opcao st = Some i /\ n = txt "T" /\ (exists x, nth_error (so_syms st) i = Some x /\ s_name x = ty_opcao_name) /\ tvalid st t
  | _ => False
  end.
Lemma tvalid_ind (st : store) (P : cty -> Prop) :
  (forall p, p <> TIndef -> p <> TUnknown -> P (CPrim p)) ->
  (forall t, tvalid st t -> P t -> P (CVec t)) ->
  (forall i, tvalid st (CReg i) -> P (CReg i)) ->
  (forall i x t, so_opcao st = Some i -> nth_error (so_syms st) i = Some x -> s_name x = ty_opcao_name ->
     tvalid st t -> P t -> P (CCon (CReg i) [(txt "T", t)])) ->
  forall t, tvalid st t -> P t.
Proof.
  intros HP HV HR HC. fix IH 1. intros t V. destruct t as [p|t|i|i|g args|n|p]; try (destruct V; fail).
  - destruct V. auto.
  - apply HV; [exact V|apply IH; exact V].
  - apply HR. exact V.
  - destruct g as [?|?|i|?|? ?|?|?]; try (destruct V; fail). destruct args as [|[n t] [|? ?]]; try (destruct V; fail).
    cbn in V. destruct V as (O & -> & (x & E & N) & V). eapply HC; eauto.
Qed.
Lemma strip_opc st i x t : nth_error (so_syms st) i = Some x -> s_name x = ty_opcao_name ->
  strip st (CCon (CReg i) [(txt "T", t)]) = TyOpc (strip st t).
Proof. intros E N. cbn. rewrite E, N. reflexivity. Qed.

Lemma tvalid_ext st st' t : sext st st' -> tvalid st t -> tvalid st' t /\ strip st' t = strip st t.
Proof.
  intros X V. induction V as [p P1 P2|t VT IH|i VI|i x t OI EI NI VT IH] using tvalid_ind.
  - cbn. auto.
  - destruct IH as [V' E]. cbn. rewrite E. auto.
  - destruct VI as (x & f & E & K & M & G). destruct (sx_sym _ _ X _ _ E) as (x' & E' & N' & K' & M').
    cbn. rewrite E, E'. split; [|congruence]. exists x', f. rewrite K', M', N'. repeat split; auto. eapply sext_get; eassumption.
  - destruct IH as [V' E]. destruct (sx_sym _ _ X _ _ EI) as (x' & E' & N' & _ & _).
    split; [|cbn; rewrite EI, E', E, N', NI; reflexivity]. cbn. rewrite (sx_opc _ _ X). split; [assumption|]. split; [reflexivity|]. split; [|assumption]. exists x'. rewrite N'. auto.
Qed.
Lemma known_valid st st' t i x f ms : sext st st' -> known st' path t = true -> t = CReg i ->
  nth_error (so_syms st) i = Some x -> s_kind x = SReg f ms [] -> s_mod x = path.
Proof.
  intros X K -> E KX. cbn in K. unfold symbol_at in K. destruct (sx_sym _ _ X _ _ E) as (x' & E' & _ & _ & M). rewrite E' in K.
  apply andb_prop in K as [K _]. apply text_eqb_eq in K. congruence.
Qed.
Lemma valid_showable st t : tvalid st t -> showable (strip st t).
Proof.
  intros V. induction V as [p P1 P2|t VT IH|i VI|i x t OI EI NI VT IH] using tvalid_ind; try (cbn; constructor; auto; fail).
  rewrite (strip_opc _ _ _ _ EI NI). constructor. exact IH.
Qed.

(** ** Equality and assignment of types *)
Lemma opc_eqb a b : ty_eqb (TyOpc a) (TyOpc b) = ty_eqb a b.
Proof. unfold TyOpc. cbn [ty_eqb assoc]. rewrite !text_eqb_refl. cbn [andb]. apply andb_true_r. Qed.
Lemma eqb_eq st a b : tvalid st a -> tvalid st b -> ty_eqb (strip st a) (strip st b) = true -> strip st a = strip st b.
Proof.
  intros V. revert b. induction V as [p P1 P2|t VT IH|i VI|i x t OI EI NI VT IH] using tvalid_ind; intros b W.
  - destruct W as [q Q1 Q2|u W _|j W|j y u OJ EJ NJ W _] using tvalid_ind; cbn; try discriminate. intros E. apply prim_eqb_eq in E. congruence.
  - destruct W as [q Q1 Q2|u W _|j W|j y u OJ EJ NJ W _] using tvalid_ind; cbn; try discriminate. intros E. f_equal. apply IH; auto.
  - destruct W as [q Q1 Q2|u W _|j W|j y u OJ EJ NJ W _] using tvalid_ind; cbn; try discriminate. intros E. apply text_eqb_eq in E. congruence.
  - destruct W as [q Q1 Q2|u W _|j W|j y u OJ EJ NJ W _] using tvalid_ind; try discriminate.
    rewrite (strip_opc _ _ _ _ EI NI), (strip_opc _ _ _ _ EJ NJ), opc_eqb. intros E. rewrite (IH u W E). reflexivity.
Qed.

(** [Opcao] is the library's. *)
Definition opcao_taken (st : store) : Prop :=
  exists i x, scope_get st gl ty_opcao_name = Some i /\ nth_error (so_syms st) i = Some x /\ s_mod x <> path.
Lemma promote_sub st a b : opcao_taken st -> tvalid st a -> tvalid st b -> promote_to (strip st a) (strip st b) = PyOk true ->
  sub (strip st a) (strip st b) \/ is_int a && real_under b = true.
Proof.
  intros OT VA VB. induction VB as [q Q1 Q2|t VT IH|i VI|i x t OI EI NI VT IH] using tvalid_ind.
  - destruct VA as [p P1 P2|? ? _|? ?|i x t O E N V _] using tvalid_ind; cbn -[txt ty_opcao_name]; try (destruct q; congruence).
    destruct p, q; cbn; try congruence; auto.
  - destruct VA as [p P1 P2|? ? _|? ?|i x u O E N V _] using tvalid_ind; cbn; discriminate.
  - destruct VA as [p P1 P2|? ? _|? ?|j x u O E N V _] using tvalid_ind; cbn; discriminate.
  - rewrite (strip_opc _ _ _ _ EI NI). cbn [real_under]. intros P. unfold TyOpc in P. cbn [promote_to] in P.
    cbn [ty_name] in P. rewrite !text_eqb_refl in P. cbn [negb] in P. rewrite andb_false_r in P.
    assert (PF : promotion_to (strip st a) (TyCon (TyReg ty_opcao_name) [(txt "T", strip st t)]) = false).
    { destruct VA as [p P1 P2|? ? _|j VJ|j y u O E N V _] using tvalid_ind; try reflexivity.
      - destruct VJ as (y & f & EJ & _ & MJ & GJ). cbn [strip]. rewrite EJ. cbn [promotion_to ty_eqb is_indef]. rewrite orb_false_r.
        cbn [ty_name]. rewrite !text_eqb_refl.
        destruct (text_eqb ty_opcao_name (s_name y)) eqn:EN; [|reflexivity].
        apply text_eqb_eq in EN. rewrite <- EN in GJ. destruct OT as (k & z & GK & EK & MK). exfalso. apply MK. congruence. }
    rewrite PF in P.
    destruct (ty_eqb (strip st t) (strip st a)) eqn:EQ.
    + left. rewrite <- (eqb_eq st t a VT VA EQ). apply sub_some, sub_refl.
    + destruct (promote_to (strip st a) (strip st t)) as [[|]|] eqn:PT; try discriminate P.
      * destruct (IH eq_refl) as [S1|R1]; [left; apply sub_some; exact S1|right; exact R1].
      * left. destruct a as [[]|?|?|?|? ?|?|?]; try discriminate P. apply sub_nulo.
Qed.
Lemma match_sub st dst src : opcao_taken st -> tvalid st dst -> tvalid st src ->
  types_match (strip st dst) (strip st src) = PyOk true ->
  sub (strip st src) (strip st dst) \/ is_int src && real_under dst = true.
Proof.
  intros OT VD VS. unfold types_match. destruct (ty_eqb (strip st dst) (strip st src)) eqn:E.
  - intros _. left. rewrite (eqb_eq st dst src VD VS E). apply sub_refl.
  - apply promote_sub; assumption.
Qed.

(** ** Operations *)
Lemma un_ok st op t u : tvalid st t -> ty_unop op (strip st t) = Some u -> op <> UPlus -> un_type op (strip st t) (strip st t).
Proof.
  intros V. destruct V as [p P1 P2|t VT IH|i VI|i x t OI EI NI VT IH] using tvalid_ind; try discriminate.
  cbn. destruct op, p; cbn; try discriminate; try congruence; unfold number; auto.
Qed.
Lemma bin_ok st op a b ty A B : tvalid st a -> tvalid st b -> ty_binop (strip st a) op (strip st b) = PyOk (Some ty) ->
  operands op a b = true -> A = strip st a \/ a = CPrim TInt /\ b = CPrim TReal /\ A = treal ->
  B = strip st b \/ b = CPrim TInt /\ a = CPrim TReal /\ B = treal ->
  if (nulo_cty a || nulo_cty b) && is_equality op then ty = tbool else bin_type op A B ty.
Proof.
  intros VA VB H OP HA HB. destruct VA as [p P1 P2|t VT _|i VI|i x t OI EI NI VT _] using tvalid_ind.
  - destruct VB as [q Q1 Q2|u W _|j W|j y u OJ EJ NJ W _] using tvalid_ind; [|discriminate H|discriminate H|discriminate H].
    cbn in HA, HB. assert (HA' : A = TyPrim p \/ p = TInt /\ q = TReal /\ A = treal) by (destruct HA as [->|(E1 & E2 & ->)]; [left; reflexivity|right; repeat split; congruence]).
    assert (HB' : B = TyPrim q \/ q = TInt /\ p = TReal /\ B = treal) by (destruct HB as [->|(E1 & E2 & ->)]; [left; reflexivity|right; repeat split; congruence]).
    clear HA HB. cbn [strip ty_binop] in H. unfold primitive_binop in H. 
    destruct p; try congruence; destruct q; try congruence; destruct op; cbn in H, OP; try discriminate H; try discriminate OP;
      injection H as <-; cbn; try reflexivity;
      destruct HA' as [->|(E1 & E2 & ->)]; try discriminate E1; try discriminate E2;
      destruct HB' as [->|(F1 & F2 & ->)]; try discriminate F1; try discriminate F2;
      first [ solve [apply bt_int; auto 8] | solve [apply bt_real; unfold number; auto 8] | solve [apply bt_div; unfold number; auto 8]
            | solve [apply bt_logic; auto 8] | solve [apply bt_order; unfold number; auto 8] | apply bt_same; [auto 8|eexists; split; [reflexivity|unfold basic; auto 8]] ].
  - discriminate H.
  - cbn [strip ty_binop] in H. unfold reg_binop in H. destruct op; cbn [is_eq_op andb] in H; try discriminate H; cbn [operands nulo_cty is_prim_cty andb orb] in OP; rewrite ?orb_false_r in OP; rewrite ?OP;
      (destruct (match strip st b with TyReg _ => true | _ => false end || _); [|discriminate H]); injection H as <-; cbn [orb nulo_cty is_equality andb]; reflexivity.
  - cbn [strip ty_binop] in H. unfold reg_binop in H. destruct op; cbn [is_eq_op andb] in H; try discriminate H; cbn [operands nulo_cty is_prim_cty andb orb] in OP; rewrite ?orb_false_r in OP; rewrite ?OP;
      (destruct (match erase (strip st b) with TyReg _ => true | _ => false end || _); [|discriminate H]); injection H as <-; cbn [orb nulo_cty is_equality andb]; reflexivity.
Qed.
Lemma cast_ok st a q : tvalid st a -> q <> TIndef -> q <> TUnknown -> check_cast (strip st a) (TyPrim q) = PyOk true ->
  exists p, a = CPrim p /\ (p = q \/ basic p /\ basic q /\ castable p q).
Proof.
  intros V Q1 Q2. destruct V as [p P1 P2|t VT IH|i VI|i x t OI EI NI VT IH] using tvalid_ind; try discriminate.
  cbn [strip check_cast]. intros H. exists p. split; [reflexivity|]. injection H as H.
  destruct p, q; try congruence; auto; discriminate H || (right; unfold basic, castable; repeat split; auto; try discriminate; right; right; discriminate).
Qed.
Lemma index_ok st t : tvalid st (CVec t) -> tvalid st t. Proof. exact (fun H => H). Qed.
End Types.

(** Proofs about static types, operators and conversions. *)
From Verif Require Import Base BaseFacts Bson Dec Float Opcode Value Ast CodeGen Types Spec_Value ValueFacts Spec_Types.
Local Open Scope Z_scope.

Definition arith_error (e : errmsg) : Prop := e = EArith \/ e = EModZero \/ e = EDivZero.

Lemma in_range_int z : (exists u, in_range z = ROk u /\ val_prim u TInt) \/ in_range z = RErr EArith.
Proof. unfold in_range. destruct (_ && _); [left; eexists; split; [reflexivity|]; cbn; eauto|right; reflexivity]. Qed.

Lemma binop_typed p q op t v w : basic p -> basic q -> val_prim v p -> val_prim w q ->
  ~ (op = BFloorDiv /\ (p = TReal \/ q = TReal)) ->
  ty_binop (TyPrim p) op (TyPrim q) = PyOk (Some t) ->
  (exists u r, binop v (binop_code op) w = ROk u /\ t = TyPrim r /\ val_prim u r) \/
  (exists e, binop v (binop_code op) w = RErr e /\ arith_error e).
Proof.
  intros Bp Bq Hv Hw NF T. unfold arith_error.
  assert (D : binop v (binop_code op) w = sem_binop op v w).
  { apply binop_sem. destruct Bp as [-> | [-> | [-> | ->]]], Bq as [-> | [-> | [-> | ->]]]; cbn in Hv, Hw;
      destruct Hv as [x ->], Hw as [y ->]; destruct op; cbn in T; try discriminate; try (exfalso; intuition congruence);
      cbn [sem_binop classify];
      repeat match goal with
      | |- context [in_range ?z] => destruct (in_range_int z) as [(? & -> & ?)| ->]
      | |- context [if ?b then _ else _] => destruct b
      end; discriminate. }
  rewrite D. clear D.
  destruct Bp as [-> | [-> | [-> | ->]]], Bq as [-> | [-> | [-> | ->]]]; cbn in Hv, Hw;
    destruct Hv as [x ->], Hw as [y ->]; destruct op; cbn in T; try discriminate; try (exfalso; intuition congruence);
    injection T as <-; cbn [sem_binop classify];
    repeat match goal with
    | |- context [in_range ?z] => destruct (in_range_int z) as [(? & -> & ?)| ->]
    | |- context [if ?b then _ else _] => destruct b
    end;
    first [ left; eexists _, _; split; [reflexivity|]; split; [reflexivity|]; first [assumption | cbn; eauto]
          | right; eexists; split; [reflexivity|]; intuition ].
Qed.

Lemma unop_typed p op t v : basic p -> val_prim v p -> op <> UPlus -> ty_unop op (TyPrim p) = Some t ->
  exists u r, (match op with UNot => op_not v | _ => invert v end) = ROk u /\ t = TyPrim r /\ val_prim u r.
Proof.
  intros Bp Hv NP T. destruct Bp as [-> | [-> | [-> | ->]]]; destruct Hv as [x ->]; destruct op; cbn in T; try discriminate;
    try congruence; injection T as <-; cbn; try destruct (_ =? _); eexists _, _; split; try reflexivity; split; try reflexivity; cbn; eauto.
Qed.

Lemma cast_typed E h p q t v : basic p -> basic q -> val_prim v p -> p <> q -> vty_of q = Some t ->
  check_cast (TyPrim p) (TyPrim q) = PyOk true ->
  (exists u, vcast E h v t = ROk u /\ val_prim u q) \/
  (exists s, v = VStr s /\ ((q = TInt /\ vcast E h v t = RErr (ENotInt s)) \/ (q = TReal /\ vcast E h v t = RErr (ENotReal s)))).
Proof.
  intros Bp Bq Hv Ne Ht C.
  destruct Bp as [-> | [-> | [-> | ->]]], Bq as [-> | [-> | [-> | ->]]]; destruct Hv as [x ->]; try congruence; try discriminate;
    injection Ht as <-; cbn [vcast show show_fuel rbind of_opt];
    try (left; eexists; split; [reflexivity|]; cbn; eauto; fail).
  - destruct (parse_i64 x); [left; eexists; split; [reflexivity|]; cbn; eauto|right; exists x; split; [reflexivity|]; left; auto].
  - destruct (parse_f64 x); [left; eexists; split; [reflexivity|]; cbn; eauto|right; exists x; split; [reflexivity|]; right; auto].
Qed.

Lemma int_text_int E h z : in_i64 z = true ->
  exists s, vcast E h (VInt z) TyTexto = ROk (VStr s) /\ vcast E h (VStr s) TyInt = ROk (VInt z).
Proof. intros H. exists (dec_Z z). split; [reflexivity|]. cbn. rewrite (parse_i64_dec_Z z H). reflexivity. Qed.


(** ** Promotion *)
Lemma ty_eqb_opc t u : ty_eqb (TyOpc t) (TyOpc u) = ty_eqb t u.
Proof. cbn. rewrite andb_true_r. reflexivity. Qed.
Lemma ty_eqb_plain t : plain t -> forall u, plain u -> (ty_eqb t u = true <-> t = u).
Proof.
  induction 1 as [p B|t P IH|n N|n N|t P IH]; intros u Pu; destruct Pu as [q B'|u Pu|m M|m M|u Pu];
    try (split; [discriminate|intros X; inversion X; subst; congruence]).
  - cbn. split; [|intros X; injection X as ->; destruct q; reflexivity]. destruct p, q; cbn; congruence.
  - cbn. rewrite (IH _ Pu). split; congruence.
  - cbn. rewrite text_eqb_eq. split; congruence.
  - cbn. rewrite text_eqb_eq. split; congruence.
  - rewrite ty_eqb_opc, (IH _ Pu). unfold TyOpc. split; congruence.
Qed.

Lemma promote_opc a t : plain a -> plain t ->
  promote_to a (TyOpc t) = if ty_eqb t a then PyOk true else match promote_to a t with PyOk true => PyOk true | PyOk false => PyOk false | PyErr e => PyErr e end.
Proof.
  intros Pa Pt.
  assert (PT : promotion_to a (TyOpc t) = false).
  { destruct Pa; try reflexivity. unfold promotion_to, TyOpc.
      change (ty_eqb (TyReg ty_opcao_name) (TyReg n)) with (text_eqb ty_opcao_name n).
      destruct (text_eqb ty_opcao_name n) eqn:X; [apply text_eqb_eq in X; congruence|].
      rewrite andb_false_r. reflexivity. }
  transitivity (if promotion_to a (TyOpc t) then PyOk true
                else if negb (is_prim a) && false then PyOk false
                else if ty_eqb t a then PyOk true
                else match promote_to a t with
                     | PyOk true => PyOk true
                     | PyOk false => PyOk (match a with TyPrim TNulo => true | _ => false end)
                     | PyErr e => PyErr e
                     end).
  { reflexivity. }
  rewrite PT, andb_false_r. destruct (ty_eqb t a); [reflexivity|]. destruct (promote_to a t) as [[]|]; try reflexivity.
  destruct Pa as [p B| | | |]; try reflexivity. destruct B as [-> | [-> | [-> | ->]]]; reflexivity.
Qed.
Lemma promote_nonopc a b : plain a -> plain b -> (forall t, b <> TyOpc t) ->
  promote_to a b = PyOk (match a, b with TyPrim TInt, TyPrim TReal => true | _, _ => false end).
Proof.
  intros Pa Pb N. destruct Pb as [q B'|u Pu|m M|m M|u Pu]; try (exfalso; eapply N; reflexivity);
    destruct Pa as [p B|t P|n Nn|n Nn|t P]; cbn; try reflexivity;
    try (destruct B as [-> | [-> | [-> | ->]]]); try (destruct B' as [-> | [-> | [-> | ->]]]); try reflexivity.
Qed.

Lemma accepts_widens u : plain u -> forall t, plain t ->
  exists b, types_match u t = PyOk b /\ (b = true <-> widens t u).
Proof.
  unfold types_match.
  induction 1 as [p B|u P IH|n N|n N|u P IH]; intros t Pt.
  5:{ assert (Po : plain (TyOpc u)) by (constructor; assumption).
      destruct (ty_eqb (TyOpc u) t) eqn:Q.
      - apply (ty_eqb_plain _ Po _ Pt) in Q as <-. exists true. split; [reflexivity|]. split; [constructor|reflexivity].
      - assert (Ne : TyOpc u <> t) by (intros X; apply (ty_eqb_plain _ Po _ Pt) in X; congruence).
        rewrite (promote_opc _ _ Pt P). destruct (IH t Pt) as (b & E & W).
        destruct (ty_eqb u t).
        + injection E as <-. exists true. split; [reflexivity|]. split; [intros _; constructor; tauto|reflexivity].
        + rewrite E. exists b. split; [destruct b; reflexivity|]. rewrite W. split; [constructor; assumption|].
          intros V. inversion V; subst; try congruence; auto. }
  all: match goal with |- exists b, (if ty_eqb ?U _ then _ else _) = _ /\ _ =>
         assert (Pu : plain U) by (constructor; assumption);
         assert (No : forall x, U <> TyOpc x) by discriminate
       end;
       match goal with |- exists b, (if ?c then _ else _) = _ /\ _ => destruct c eqn:Q end;
       [ apply (ty_eqb_plain _ Pu _ Pt) in Q as <-; exists true; split; [reflexivity|]; split; [constructor|reflexivity]
       | match type of Q with ty_eqb ?U _ = _ => 
           assert (Ne : U <> t) by (intros X; apply (ty_eqb_plain _ Pu _ Pt) in X; congruence) end;
         rewrite (promote_nonopc _ _ Pt Pu No); eexists; split; [reflexivity|] ].
  - split.
    + destruct Pt as [q B'| | | |]; try discriminate. destruct B as [-> | [-> | [-> | ->]]], B' as [-> | [-> | [-> | ->]]]; try discriminate.
      intros _. constructor.
    + intros V. inversion V; subst; try congruence; reflexivity.
  - split; [destruct t as [[]| | | | | |]; discriminate|]. intros V. inversion V; subst; congruence.
  - split; [destruct t as [[]| | | | | |]; discriminate|]. intros V. inversion V; subst; congruence.
  - split; [destruct t as [[]| | | | | |]; discriminate|]. intros V. inversion V; subst; congruence.
Qed.

Fixpoint depth (t : ty) : nat := match t with TyCon _ ((_, t) :: _) => S (depth t) | _ => O end.
Lemma widens_depth t u : widens t u -> (depth t <= depth u)%nat.
Proof. induction 1; cbn in *; lia. Qed.
Lemma widens_trans t u v : widens t u -> widens u v -> widens t v.
Proof.
  intros H1 H2. induction H2; [assumption| |constructor; auto]. inversion H1; subst. constructor.
Qed.
Lemma widens_antisym t u : widens t u -> widens u t -> t = u.
Proof.
  intros H1 H2. inversion H1; subst; [reflexivity|inversion H2|].
  exfalso. apply widens_depth in H, H2. cbn in *. lia.
Qed.

Lemma nulo_match t : plain t ->
  types_match t (TyPrim TNulo) = PyOk (match t with TyCon _ _ => true | _ => false end).
Proof.
  intros P0. assert (N : ty_eqb t (TyPrim TNulo) = false).
  { destruct P0 as [p B| | | |]; try reflexivity. destruct B as [-> | [-> | [-> | ->]]]; reflexivity. }
  unfold types_match. rewrite N. clear N.
  induction P0 as [p B|u P IH|n N|n N|u P IH]; try reflexivity.
  transitivity (if ty_eqb u (TyPrim TNulo) then PyOk true
                  else match promote_to (TyPrim TNulo) u with PyOk true => PyOk true | PyOk false => PyOk true | PyErr e => PyErr e end).
    + reflexivity.
    + destruct (ty_eqb u (TyPrim TNulo)); [reflexivity|]. rewrite IH. destruct u; reflexivity.
Qed.
Lemma promote_self t : plain t -> promote_to t t = PyOk false.
Proof.
  intros P. destruct (P) as [p B|u Pu|n N|n N|u Pu].
  - destruct B as [-> | [-> | [-> | ->]]]; reflexivity.
  - reflexivity.
  - reflexivity.
  - reflexivity.
  - rewrite promote_opc by assumption.
    assert (Ne : ~ widens (TyOpc u) u) by (intros W; apply widens_depth in W; cbn in W; lia).
    destruct (accepts_widens u Pu (TyOpc u) P) as (b & E & W). unfold types_match in E.
    destruct (ty_eqb u (TyOpc u)) eqn:Q; [injection E as <-; exfalso; tauto|].
    rewrite E. destruct b; [exfalso; tauto|reflexivity].
Qed.
Lemma match_order t u v : plain t -> plain u -> plain v ->
  types_match t t = PyOk true /\
  (types_match u t = PyOk true -> types_match v u = PyOk true -> types_match v t = PyOk true) /\
  (types_match u t = PyOk true -> types_match t u = PyOk true -> t = u) /\
  promote_to t t = PyOk false.
Proof.
  intros Pt Pu Pv.
  assert (A : forall a b, plain a -> plain b -> (types_match b a = PyOk true <-> widens a b)).
  { intros a b Pa Pb. destruct (accepts_widens b Pb a Pa) as (x & -> & W). rewrite <- W. split; congruence. }
  rewrite !A by assumption. split; [constructor|]. split; [apply widens_trans|]. split; [apply widens_antisym|apply promote_self, Pt].
Qed.
Lemma real_not_int a : ~ widens (TyPrim TReal) (TyPrim TInt) /\ types_match (TyPrim TInt) (TyPrim TReal) = PyOk false /\
  (promote_to a (TyPrim TInt) = PyOk false).
Proof.
  split; [intros W; inversion W|]. split; [reflexivity|].
  destruct a as [[]| | | | | |]; reflexivity.
Qed.
Lemma promotion_has_cast p q : basic p -> basic q ->
  promote_to (TyPrim p) (TyPrim q) = PyOk true -> check_cast (TyPrim p) (TyPrim q) = PyOk true.
Proof. intros [-> | [-> | [-> | ->]]] [-> | [-> | [-> | ->]]]; cbn; congruence. Qed.

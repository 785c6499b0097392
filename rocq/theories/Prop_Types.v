(** C10-C12: operators, conversions and promotion between static types. *)
From Verif Require Import Base Bson Dec Float Opcode Value Ast CodeGen Types Spec_Value Spec_Types TypeFacts.
Local Open Scope Z_scope.

(** ** C10 *)
(** Missing: `//` with a real operand, unary plus, and equality of records,
    options and [indef], for which the property is false (below). *)
Theorem C10_binary_partial p q op t v w : basic p -> basic q -> val_prim v p -> val_prim w q ->
  ~ (op = BFloorDiv /\ (p = TReal \/ q = TReal)) ->
  ty_binop (TyPrim p) op (TyPrim q) = PyOk (Some t) ->
  (exists u r, binop v (binop_code op) w = ROk u /\ t = TyPrim r /\ val_prim u r) \/
  (exists e, binop v (binop_code op) w = RErr e /\ (e = EArith \/ e = EModZero \/ e = EDivZero)).
Proof. exact (binop_typed p q op t v w). Qed.
Print Assumptions C10_binary_partial.
Theorem C10_unary_partial p op t v : basic p -> val_prim v p -> op <> UPlus -> ty_unop op (TyPrim p) = Some t ->
  exists u r, (match op with UNot => op_not v | _ => invert v end) = ROk u /\ t = TyPrim r /\ val_prim u r.
Proof. exact (unop_typed p op t v). Qed.
Print Assumptions C10_unary_partial.
Example C10_ex : basic TInt /\ val_prim (VInt 3) TInt /\
  ty_binop (TyPrim TInt) BAdd (TyPrim TReal) = PyOk (Some (TyPrim TReal)) /\
  binop (VInt 3) (binop_code BAdd) (VF64 (f_of_Z 1)) = ROk (VF64 (f_of_Z 4)) /\
  ty_unop UNot (TyPrim TBool) = Some (TyPrim TBool).
Proof. unfold basic. cbn. split; [auto|]. split; [eauto|]. split; [reflexivity|]. split; [vm_compute; reflexivity|reflexivity]. Qed.
(** [2.5 // 1.0] has static type real and an integer value. *)
Theorem C10_floordiv_refuted : exists v w,
  val_prim v TReal /\ val_prim w TReal /\
  ty_binop (TyPrim TReal) BFloorDiv (TyPrim TReal) = PyOk (Some (TyPrim TReal)) /\
  exists z, binop v (binop_code BFloorDiv) w = ROk (VInt z).
Proof.
  exists (VF64 (f_of_me 5 (-1))), (VF64 (f_of_Z 1)). cbn [val_prim]. split; [eauto|]. split; [eauto|].
  split; [reflexivity|]. exists 2. vm_compute. reflexivity.
Qed.
Print Assumptions C10_floordiv_refuted.
(** Unary plus is accepted on numbers, but the generator has no code for it. *)
Theorem C10_unary_plus_refuted :
  ty_unop UPlus (TyPrim TInt) = Some (TyPrim TInt) /\
  forall C s, exists e, gen C (NUn 1 UPlus (NConst 1 KInt (txt "1") false) false) s = PyErr e.
Proof.
  split; [reflexivity|]. intros C s. cbn. unfold load_const. destruct (const_index _ _) as [[? ?]|e]; cbn; eauto.
Qed.
Print Assumptions C10_unary_plus_refuted.
(** Two records, or an option and a number, may be compared statically; the VM
    panics. *)
Theorem C10_record_equality_refuted : exists n,
  ty_binop (TyReg n) BEq (TyReg n) = PyOk (Some (TyPrim TBool)) /\
  binop (VObj 0) (binop_code BEq) (VObj 0) = RPanic.
Proof. exists (txt "P"). split; reflexivity. Qed.
Print Assumptions C10_record_equality_refuted.
Theorem C10_option_equality_refuted :
  ty_binop (TyOpc (TyPrim TInt)) BEq (TyPrim TInt) = PyOk (Some (TyPrim TBool)) /\
  types_match (TyOpc (TyPrim TInt)) (TyPrim TNulo) = PyOk true /\
  binop VNone (binop_code BEq) (VInt 3) = RPanic.
Proof. repeat split. Qed.
Print Assumptions C10_option_equality_refuted.
Theorem C10_indef_equality_refuted :
  ty_binop (TyPrim TIndef) BEq (TyPrim TInt) = PyOk (Some (TyPrim TBool)) /\
  types_match (TyPrim TIndef) (TyPrim TTexto) = PyOk true /\
  binop (VStr (txt "a")) (binop_code BEq) (VInt 3) = RPanic.
Proof. repeat split. Qed.
Print Assumptions C10_indef_equality_refuted.

(** ** C11 *)
(** Missing: conversions from [indef], which panic on some values, and to [t?]
    (below). *)
Theorem C11_basic_partial E h p q t v : basic p -> basic q -> val_prim v p -> p <> q -> vty_of q = Some t ->
  check_cast (TyPrim p) (TyPrim q) = PyOk true ->
  (exists u, vcast E h v t = ROk u /\ val_prim u q) \/
  (exists s, v = VStr s /\ ((q = TInt /\ vcast E h v t = RErr (ENotInt s)) \/ (q = TReal /\ vcast E h v t = RErr (ENotReal s)))).
Proof. exact (cast_typed E h p q t v). Qed.
Print Assumptions C11_basic_partial.
Theorem C11_int_text_int E h z : fits z ->
  exists s, vcast E h (VInt z) TyTexto = ROk (VStr s) /\ vcast E h (VStr s) TyInt = ROk (VInt z).
Proof. intros F. exact (int_text_int E h z (proj2 (ValueFacts.in_i64_fits z) F)). Qed.
Print Assumptions C11_int_text_int.
(** A conversion to the same type emits no code of its own. *)
Theorem C11_same_type C ln e s : forall s', gen C e (set_line s ln) = PyOk s' -> gen C (NConv ln e None) s = PyOk s'.
Proof. intros s' H. cbn. rewrite H. reflexivity. Qed.
Print Assumptions C11_same_type.
Example C11_ex : exists E, basic TTexto /\ vty_of TInt = Some TyInt /\ check_cast (TyPrim TTexto) (TyPrim TInt) = PyOk true /\
  vcast E [] (VStr (txt "-42")) TyInt = ROk (VInt (-42)) /\ vcast E [] (VStr (txt "4x")) TyInt = RErr (ENotInt (txt "4x")) /\
  vcast E [] (VF64 (f_of_me (-7) (-1))) TyInt = ROk (VInt (-3)).
Proof.
  exists (mkExt (fun _ => []) (fun _ => []) (fun _ _ => f_zero) f_zero false). unfold basic.
  split; [auto|]. repeat split.
Qed.
(** An [indef] may hold null or a record; converting it is accepted and panics
    (the check before the cast knows no such type). *)
Theorem C11_indef_refuted :
  check_cast (TyPrim TIndef) (TyPrim TInt) = PyOk true /\
  (exists n, types_match (TyPrim TIndef) (TyReg n) = PyOk true) /\
  get_type (VObj 0) = None /\ get_type VNone = None.
Proof. split; [reflexivity|]. split; [exists (txt "P"); reflexivity|]. split; reflexivity. Qed.
Print Assumptions C11_indef_refuted.
(** [5 como int?] is accepted; the generator then loads a definition [Opcao] of
    the built-in module that the VM does not export. *)
Theorem C11_option_refuted :
  check_cast (TyPrim TInt) (TyOpc (TyPrim TInt)) = PyOk true /\
  forall E, assoc ty_opcao_name (embutidos_exports E) = None.
Proof. split; [reflexivity|]. intros E. reflexivity. Qed.
Print Assumptions C11_option_refuted.

(** ** C12 *)
(** On types without [indef], [nulo] and user generics, what is accepted is
    exactly the documented order (missing: the other types, where it fails). *)
Theorem C12_order_partial t u : plain t -> plain u ->
  exists b, types_match u t = PyOk b /\ (b = true <-> widens t u).
Proof. intros Pt Pu. exact (accepts_widens u Pu t Pt). Qed.
Print Assumptions C12_order_partial.
Theorem C12_partial_order_partial t u v : plain t -> plain u -> plain v ->
  types_match t t = PyOk true /\
  (types_match u t = PyOk true -> types_match v u = PyOk true -> types_match v t = PyOk true) /\
  (types_match u t = PyOk true -> types_match t u = PyOk true -> t = u) /\
  promote_to t t = PyOk false.
Proof. exact (match_order t u v). Qed.
Print Assumptions C12_partial_order_partial.
Theorem C12_real_int a : ~ widens (TyPrim TReal) (TyPrim TInt) /\ types_match (TyPrim TInt) (TyPrim TReal) = PyOk false /\
  (promote_to a (TyPrim TInt) = PyOk false).
Proof. exact (real_not_int a). Qed.
Print Assumptions C12_real_int.
Theorem C12_nulo t : plain t ->
  types_match t (TyPrim TNulo) = PyOk (match t with TyCon _ _ => true | _ => false end).
Proof. exact (nulo_match t). Qed.
Print Assumptions C12_nulo.
Theorem C12_explicit_partial p q : basic p -> basic q ->
  promote_to (TyPrim p) (TyPrim q) = PyOk true -> check_cast (TyPrim p) (TyPrim q) = PyOk true.
Proof. exact (promotion_has_cast p q). Qed.
Print Assumptions C12_explicit_partial.
Example C12_ex : plain (TyOpc (TyVec (TyPrim TInt))) /\ plain (TyOpc (TyPrim TReal)) /\
  types_match (TyOpc (TyPrim TReal)) (TyPrim TInt) = PyOk true /\ widens (TyPrim TInt) (TyOpc (TyPrim TReal)).
Proof.
  split; [repeat constructor|]. split; [constructor; constructor; unfold basic; auto|]. split; [reflexivity|].
  exact (w_some _ _ w_int_real).
Qed.
Theorem C12_antisym_refuted : exists a b, a <> b /\ promote_to a b = PyOk true /\ promote_to b a = PyOk true.
Proof. exists (TyPrim TIndef), (TyOpc (TyPrim TIndef)). split; [discriminate|]. split; reflexivity. Qed.
Print Assumptions C12_antisym_refuted.
Theorem C12_irreflexive_refuted : exists a, promote_to a a = PyOk true.
Proof. exists (TyOpc (TyPrim TIndef)). reflexivity. Qed.
Print Assumptions C12_irreflexive_refuted.
Theorem C12_transitive_refuted : exists a b c,
  types_match b a = PyOk true /\ types_match c b = PyOk true /\ types_match c a = PyOk false.
Proof. exists (TyPrim TNulo), (TyOpc (TyPrim TInt)), (TyPrim TIndef). repeat split. Qed.
Print Assumptions C12_transitive_refuted.
Theorem C12_explicit_refuted : exists a b, promote_to a b = PyOk true /\ check_cast a b = PyOk false.
Proof. exists (TyVec (TyPrim TInt)), (TyPrim TIndef). split; reflexivity. Qed.
Print Assumptions C12_explicit_refuted.
(** [c : Caixa<int> = 5] is accepted: every generic behaves like an option. *)
Theorem C12_generic_refuted : exists box a,
  text_eqb box ty_opcao_name = false /\ is_opcao (TyCon (TyReg box) [(txt "T", a)]) = false /\
  types_match (TyCon (TyReg box) [(txt "T", a)]) a = PyOk true.
Proof. exists (txt "Caixa"), (TyPrim TInt). repeat split. Qed.
Print Assumptions C12_generic_refuted.
(** ... and the checker crashes if its parameter is not called T. *)
Theorem C12_generic_crash_refuted : exists box a,
  types_match (TyCon (TyReg box) [(txt "A", a)]) (TyPrim TInt) = PyErr KeyErr.
Proof. exists (txt "Caixa"), (TyPrim TInt). reflexivity. Qed.
Print Assumptions C12_generic_crash_refuted.

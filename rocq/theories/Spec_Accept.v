(** The programs for which [Prop_Accept.v] shows that being accepted by the
    analyser means being well typed.

    [core] says which constructs the source uses; [safe] leaves out, in the
    analysed tree, the uses for which acceptance is known not to be enough (each
    of them has a theorem whose name ends in [_refuted], or is outside the type
    system of [Spec_Typing.v]).  Both can be computed. *)
From Verif Require Import Base Dec Bson Value Ast Types Syntax Sym Check Sem.

(** ** Source *)
Inductive shape :=
| ShE        (* expression *)
| ShA        (* named argument *)
| ShS        (* other statement *)
| ShL        (* [senaose] branch *)
| ShB        (* block *)
| ShT        (* function or record, at the top level only *)
| ShN.       (* not considered *)
Definition is_e (s : shape) : bool := match s with ShE => true | _ => false end.
Definition is_a (s : shape) : bool := match s with ShE | ShA => true | _ => false end.
Definition is_s (s : shape) : bool := match s with ShE | ShS => true | _ => false end.
Definition is_l (s : shape) : bool := match s with ShL => true | _ => false end.
Definition is_b (s : shape) : bool := match s with ShB => true | _ => false end.
Definition is_t (s : shape) : bool := match s with ShE | ShS | ShT => true | _ => false end.

(** Types named directly: no type of another module, no type arguments. *)
Fixpoint core_ty (y : sty) : bool :=
  match y with
  | YName _ None _ | YName _ (Some []) _ => true
  | YArr el _ => core_ty el
  | _ => false
  end.
Definition core_field (x : sx) : bool := match x with XDecl _ _ y None => core_ty y | _ => false end.

Fixpoint core (x : sx) : shape :=
  let when (b : bool) (s : shape) := if b then s else ShN in
  let e (y : sx) := is_e (core y) in
  let b (y : sx) := is_b (core y) in
  match x with
  | XConst _ | XPart _ | XVar _ => ShE
  | XUn _ a | XGet a _ => when (e a) ShE
  | XBin _ a c | XIndex _ a c => when (e a && e c) ShE
  | XCall (XVar _) l => when (forallb (fun y => is_a (core y)) l) ShE
  | XNamed _ a => when (e a) ShA
  | XConv _ a y => when (e a && core_ty y) ShE
  | XFmt _ l => when (forallb e l) ShE
  | XList _ y l => when (core_ty y && forallb e l) ShE
  | XAssign _ (XVar _) r => when (e r) ShS
  | XIndexSet _ a v | XSet a v => when (e a && e v) ShS
  | XDecl _ _ y None => when (core_ty y) ShS
  | XDecl _ _ y (Some (_, a)) => when (core_ty y && e a) ShS
  | XMostra _ a | XRet _ (Some a) => when (e a) ShS
  | XRet _ None | XLoopCtl _ => ShS
  | XSe _ c th l None => when (e c && b th && forallb (fun y => is_l (core y)) l) ShS
  | XSe _ c th l (Some el) => when (e c && b th && forallb (fun y => is_l (core y)) l && b el) ShS
  | XSenaoSe _ c th => when (e c && b th) ShL
  | XEnquanto _ c th => when (e c && b th) ShS
  | XPara _ _ a z None th => when (e a && e z && b th) ShS
  | XPara _ _ a z (Some i) th => when (e a && e z && e i && b th) ShS
  | XBlock l => when (forallb (fun y => is_s (core y)) l) ShB
  | XFunc _ ps y false ans (Some th) =>
      when (forallb (fun p => core_ty (sp_ty p)) ps && match y with Some y => core_ty y | None => true end &&
            negb (is_embutido ans) && b th) ShT
  | XReg _ [] l _ => when (forallb core_field l) ShT
  | _ => ShN
  end.

(** ** Analysed tree *)
(** Whether the name occurs in an expression. *)
Fixpoint mentions (n : text) (x : tx) : bool :=
  match x with
  | TVar _ m _ _ _ => text_eqb n m
  | TUn _ _ e _ _ | TNamed _ _ e _ | TConv _ e _ | TGet _ e _ _ => mentions n e
  | TBin _ _ a b _ _ => mentions n a || mentions n b
  | TIndex _ a b _ => mentions n a || mentions n b
  | TCall _ _ f l _ _ => mentions n f || existsb (mentions n) l
  | TFmt _ l _ | TList _ l _ => existsb (mentions n) l
  | _ => false
  end.
(** Ends by returning, on every way through. *)
Fixpoint always (x : tx) : bool :=
  match x with
  | TRet _ _ => true
  | TBlock _ ch => existsb always ch
  | TSe _ _ th l (Some el) => always th && forallb always l && always el
  | TSenaoSe _ _ b => always b
  | _ => false
  end.

(** Expressions that the generator turns into reals where one is expected. *)
Definition promotable (x : tx) : bool :=
  match x with
  | TConst _ _ _ _ _ | TVar _ _ _ _ _ | TUn _ _ _ _ _ | TBin _ _ _ _ _ _ | TCall _ _ _ _ _ _ => true
  | _ => false
  end.
(** [real], [real?], [real??], ... *)
Fixpoint real_under (t : cty) : bool :=
  match t with
  | CPrim TReal => true
  | CCon _ [(_, t)] => real_under t
  | _ => false
  end.
(** Not an [int] where a [real] is expected, unless the generator converts it. *)
Definition fits (x : tx) (dst : cty) : bool :=
  negb (is_int (tx_ty x) && real_under dst) || (is_real dst && promotable x).
Definition fits_as_is (x : tx) (dst : cty) : bool := negb (is_int (tx_ty x) && real_under dst).
Fixpoint fit_all (l : list tx) (ts : list cty) : bool :=
  match l, ts with
  | x :: l, t :: ts => fits x t && fit_all l ts
  | _, _ => true
  end.
(** [//] only on [int]s; records, vectors and optionals are compared with nulo
    only. *)
Definition is_prim_cty (t : cty) : bool := match t with CPrim _ => true | _ => false end.
Definition nulo_cty (t : cty) : bool := match t with CPrim TNulo => true | _ => false end.
Definition operands (op : bop) (a b : cty) : bool :=
  match op with
  | BFloorDiv => is_int a && is_int b
  | BEq | BNe => nulo_cty a || nulo_cty b || (is_prim_cty a && is_prim_cty b)
  | _ => true
  end.
Fixpoint elem_of (t : cty) : cty := match t with CVec t => elem_of t | _ => t end.

Section Safe.
Variable st : store.    (* the symbols at the end of the analysis *)
Variable path : text.   (* the module *)

Definition symbol_at (i : nat) : option symbol := nth_error (so_syms st) i.
(** Records of the module itself without type parameters, vectors, optionals and
    basic types other than [indef]. *)
Fixpoint known (t : cty) : bool :=
  match t with
  | CPrim p => negb (prim_eqb p TIndef) && negb (prim_eqb p TUnknown)
  | CVec t => known t
  | CReg i =>
      match symbol_at i with
      | Some x => text_eqb (s_mod x) path && match s_kind x with SReg _ _ [] => true | _ => false end
      | None => false
      end
  | CCon (CReg i) [(n, t)] =>
      match so_opcao st with Some j => (i =? j)%nat | None => false end && text_eqb n (txt "T") && known t
  | _ => false
  end.
Definition var_known (i : nat) : bool :=
  match symbol_at i with Some x => match s_kind x with SVar t => known t | _ => false end | None => false end.
Definition types_of (ps : list (text * nat)) : list cty :=
  flat_map (fun p => match symbol_at (snd p) with
                     | Some x => match sym_ty x with Some t => [t] | None => [] end
                     | None => []
                     end) ps.
Definition own (i : nat) : bool := match symbol_at i with Some x => text_eqb (s_mod x) path | None => false end.
Definition fields_of (f : nat) : list (text * nat) :=
  match nth_error (so_scopes st) f with Some s => sc_syms s | None => [] end.
Definition field_fits (fs : list (text * nat)) (x : tx) : bool :=
  match x with
  | TNamed _ n e _ =>
      match assoc n fs with
      | Some j => match symbol_at j with
                  | Some y => match sym_ty y with Some t => fits_as_is e t | None => false end
                  | None => false
                  end
      | None => false
      end
  | _ => false
  end.

(** [ret]: the result type of the function around. *)
Fixpoint safe (ret : cty) (x : tx) {struct x} : bool :=
  let sf := safe ret in
  let opt (o : option tx) := match o with Some y => sf y | None => true end in
  match x with
  | TConst _ k w _ _ => match lit_value k w with Some _ => true | None => false end
  | TVar _ _ (Some i) t _ => own i && known t
  | TUn _ op e _ _ => sf e && match op with UPlus => false | _ => true end
  | TBin _ op a b _ _ => sf a && sf b && operands op (tx_ty a) (tx_ty b)
  | TCall _ i (TVar _ _ None _ false) l t _ =>
      match symbol_at i with
      | Some x =>
          match s_kind x with
          | SFun r ps =>
              if text_eqb (s_mod x) path then forallb sf l && fit_all l (types_of ps)
              else
                match builtin_fn (s_name x) with
                | Some fn =>
                    if text_eqb fn (txt "vec") then
                      match l with TVar _ _ None _ false :: l => forallb sf l | _ => false end && zero_initialized (elem_of t)
                    else
                      forallb sf l &&
                      (negb (text_eqb fn (txt "anexa")) ||
                       match l with [a; b] => match tx_ty a with CVec el => fits b el | _ => true end | _ => true end)
                | None => forallb sf l
                end
          | SReg f _ [] =>
              text_eqb (s_mod x) path &&
              forallb (fun y => match y with TNamed _ _ e _ => sf e | _ => false end) l &&
              forallb (field_fits (fields_of f)) l
          | _ => false
          end
      | None => false
      end
  | TConv _ e t => sf e && is_prim_cty t && known t
  | TIndex _ a i _ => sf a && sf i
  | TGet _ a _ t => sf a && match tx_ty a with CReg _ => true | _ => false end && known t
  | TFmt _ l _ => forallb sf l
  | TList _ l t => match t with CVec t => known t && forallb sf l && forallb (fun y => fits y t) l | _ => false end
  | TAssign _ _ i r t => sf r && known t && fits r t
  | TIndexSet _ (TIndex _ a i _) v t => sf a && sf i && sf v && fits_as_is v t
  | TSet _ (TGet gl a m gt) v t =>
      sf a && match tx_ty a with CReg _ => true | _ => false end && known gt && sf v && fits v t &&
      match v with TGet _ _ _ _ => false | _ => true end
  | TDecl _ _ t None => known t
  | TDecl _ n t (Some (TAssign _ _ _ r _)) => known t && sf r && negb (mentions n r) && fits r t
  | TMostra _ e => sf e
  | TRet _ None => true
  | TRet _ (Some e) => sf e && fits e ret
  | TLoopCtl _ _ => true
  | TSe _ c th l el => sf c && sf th && forallb sf l && opt el
  | TSenaoSe _ c b | TEnquanto _ c b => sf c && sf b
  | TPara _ n a z inc b =>
      sf a && sf z && opt inc && sf b && negb (mentions n z) &&
      match inc with Some e => negb (mentions n e) | None => true end
  | TBlock _ ch => forallb sf ch
  | TFunc _ i (Some b) =>
      match symbol_at i with
      | Some x =>
          match s_kind x with
          | SFun r ps => known r && forallb (fun p => var_known (snd p)) ps && safe r b && (is_vazio r || always b)
          | _ => false
          end
      | None => false
      end
  | TReg _ _ i =>
      match symbol_at i with
      | Some x => match s_kind x with SReg f _ _ => forallb (fun p => var_known (snd p)) (fields_of f) | _ => false end
      | None => false
      end
  | _ => false
  end.
End Safe.

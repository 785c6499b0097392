(** Static types and their operations: /repo/amanda/compiler/types/core.py,
    symbols/base.py (class [Type]) and ops.py. *)
From Verif Require Import Base Bson Value Ast.

(** The tags of [Primitive] types: types/builtins.py:12-20. *)
Inductive prim := TInt | TReal | TBool | TTexto | TVazio | TIndef | TNulo | TUnknown.
Definition prim_eqb (a b : prim) : bool :=
  match a, b with
  | TInt, TInt | TReal, TReal | TBool, TBool | TTexto, TTexto | TVazio, TVazio
  | TIndef, TIndef | TNulo, TNulo | TUnknown, TUnknown => true
  | _, _ => false
  end.

(** One constructor per class.  A [Registo] or [Uniao] is its name (equality
    looks at nothing else); [TyCon] is [ConstructedTy] with [bound_ty_args];
    [TyMod] is [ModuleTy] with the module's path. *)
Inductive ty :=
| TyPrim (p : prim)
| TyVec (el : ty)
| TyReg (name : text)
| TyUni (name : text)
| TyCon (g : ty) (args : list (text * ty))
| TyVar (name : text)
| TyMod (path : text).

Definition ty_opcao_name : text := txt "Opcao".
(** [SrcBuiltins.Opcao.bind(T=t)], written [t?] in programs. *)
Definition TyOpc (t : ty) : ty := TyCon (TyReg ty_opcao_name) [(txt "T", t)].

(** The [__eq__] methods: types/core.py:59-62 (Primitive), 224-225 (ModuleTy; two
    modules are compared by path), 306-310 (Vector), 423-424 (Registo), 532-533
    (Uniao), 572-582 (ConstructedTy: every argument of the left type must be
    bound to an equal type on the right), symbols/base.py:192-193 (TypeVar). *)
Fixpoint ty_eqb (a b : ty) {struct a} : bool :=
  match a, b with
  | TyPrim p, TyPrim q => prim_eqb p q
  | TyVec x, TyVec y => ty_eqb x y
  | TyReg n, TyReg m => text_eqb n m
  | TyUni n, TyUni m => text_eqb n m
  | TyVar n, TyVar m => text_eqb n m
  | TyMod n, TyMod m => text_eqb n m
  | TyCon g args, TyCon g' args' =>
      ty_eqb g g' &&
      (fix all (l : list (text * ty)) : bool :=
         match l with
         | [] => true
         | (n, t) :: r => match assoc n args' with Some t' => ty_eqb t t' | None => false end && all r
         end) args
  | _, _ => false
  end.

(** [name] of a type (symbols/base.py:24; the name of a [ConstructedTy] is that
    of its generic type). *)
Definition prim_name (p : prim) : text :=
  txt match p with
      | TInt => "int" | TReal => "real" | TBool => "bool" | TTexto => "texto" | TVazio => "vazio"
      | TIndef => "indef" | TNulo => "nulo" | TUnknown => "unknown"
      end.
Fixpoint ty_name (t : ty) : text :=
  match t with
  | TyPrim p => prim_name p
  | TyVec _ => txt "vec"
  | TyReg n | TyUni n | TyVar n => n
  | TyCon g _ => ty_name g
  | TyMod _ => txt "Module"
  end.

Definition is_prim (t : ty) : bool := match t with TyPrim _ => true | _ => false end.
Definition is_opcao (t : ty) : bool :=
  match t with TyCon g _ => text_eqb (ty_name g) ty_opcao_name | _ => false end.

(** [promotion_to]: types/core.py:146-164 (Primitive), 318-321 (Vector), 384-399
    (Registo), 505-510 (Uniao), 631-634 (ConstructedTy), symbols/base.py:227-228
    (TypeVar), types/core.py:236-237 (ModuleTy). *)
Definition prim_promotes (p q : prim) : bool :=
  match p, q with
  | TInt, TReal | TInt, TIndef | TReal, TIndef | TBool, TIndef | TTexto, TIndef => true
  | _, _ => false
  end.
Definition is_indef (t : ty) : bool := match t with TyPrim TIndef => true | _ => false end.
Definition promotion_to (a b : ty) : bool :=
  match a with
  | TyPrim p => match b with TyPrim q => prim_promotes p q | _ => false end
  | TyVec _ | TyUni _ | TyCon _ _ => is_indef b
  | TyReg _ =>
      (match b with TyCon g _ => text_eqb (ty_name g) ty_opcao_name && ty_eqb g a | _ => false end)
      || is_indef b
  | TyVar _ | TyMod _ => false
  end.

(** [promote_to] (symbols/base.py:155-157) with [promotion_from] (types/core.py:
    641-656).  When it succeeds the result is always the target type, so a
    boolean is enough; [bound_ty_args["T"]] can raise KeyError. *)
Fixpoint promote_to (a b : ty) {struct b} : pyres bool :=
  if promotion_to a b then PyOk true
  else
    match b with
    | TyCon g args =>
        if negb (is_prim a) && negb (text_eqb (ty_name g) ty_opcao_name) then PyOk false
        else
          (fix find (l : list (text * ty)) : pyres bool :=
             match l with
             | [] => PyErr KeyErr
             | (n, inner) :: r =>
                 if text_eqb (txt "T") n then
                   if ty_eqb inner a then PyOk true
                   else
                     match promote_to a inner with
                     | PyOk true => PyOk true
                     | PyOk false => PyOk (match a with TyPrim TNulo => true | _ => false end)
                     | PyErr e => PyErr e
                     end
                 else find r
             end) args
    | _ => PyOk false
    end.

(** [types_match]: check/core.py:271-272. *)
Definition types_match (expected received : ty) : pyres bool :=
  if ty_eqb expected received then PyOk true else promote_to received expected.

(** [cast_to]: types/core.py:91-129. *)
Definition prim_casts (p q : prim) : bool :=
  prim_eqb p q ||
  match p, q with
  | (TInt | TReal | TTexto), (TInt | TTexto | TBool | TReal | TIndef) => true
  | TBool, (TTexto | TIndef) => true
  | TIndef, (TInt | TTexto | TBool | TReal | TIndef) => true
  | _, _ => false
  end.
(** [check_cast] (symbols/base.py:149-150) with [cast_from] (types/core.py:623-629):
    only a [Primitive] can be the source, and [t?] accepts what [t] accepts. *)
Fixpoint check_cast (a b : ty) {struct b} : pyres bool :=
  match a with
  | TyPrim p =>
      match b with
      | TyPrim q => PyOk (prim_casts p q)
      | TyCon g args =>
          if text_eqb (ty_name g) ty_opcao_name then
            (fix find (l : list (text * ty)) : pyres bool :=
               match l with
               | [] => PyErr KeyErr
               | (n, inner) :: r =>
                   if text_eqb (txt "T") n then
                     if prim_eqb p TNulo then PyOk true else check_cast a inner
                   else find r
               end) args
          else PyOk false
      | _ => PyOk false
      end
  | _ => PyOk false
  end.

(** [is_operable]: types/core.py:84-85, 597-598, symbols/base.py:131-132. *)
Fixpoint is_operable (t : ty) : bool :=
  match t with
  | TyPrim p => negb (prim_eqb p TVazio) && negb (prim_eqb p TIndef)
  | TyCon g _ => is_operable g
  | _ => false
  end.
Definition is_numeric (p : prim) : bool := prim_eqb p TInt || prim_eqb p TReal.

(** [primitive_binop]: ops.py:10-47. *)
Definition primitive_binop (l : prim) (op : bop) (r : ty) : pyres (option ty) :=
  if negb (is_operable r) then PyOk None
  else
    match r with
    | TyPrim r =>
        match op with
        | BAdd | BSub | BMul | BDiv | BFloorDiv | BMod =>
            PyOk (if is_numeric l && is_numeric r then
                    Some (TyPrim (if prim_eqb l TInt && prim_eqb r TInt && negb (match op with BDiv => true | _ => false end)
                                  then TInt else TReal))
                  else None)
        | BGt | BLt | BGe | BLe =>
            PyOk (if is_numeric l && is_numeric r then Some (TyPrim TBool) else None)
        | BEq | BNe =>
            PyOk (if (is_numeric l && is_numeric r) || prim_eqb l r || prim_promotes l r || prim_promotes r l
                  then Some (TyPrim TBool) else None)
        | BAnd | BOr =>
            PyOk (if prim_eqb l TBool && prim_eqb r TBool then Some (TyPrim TBool) else None)
        end
    | _ => PyOk None
    end.
Definition is_eq_op (op : bop) : bool := match op with BEq | BNe => true | _ => false end.
(** [binop]: types/core.py:131-134, 264, 369-379 (Registo: two registos, or
    anything when the left one is [Opcao]), 495, 636-639 (ConstructedTy: both
    sides are reduced to their generic type). *)
Definition erase (t : ty) : ty := match t with TyCon g _ => g | _ => t end.
Definition reg_binop (name : text) (op : bop) (r : ty) : option ty :=
  if is_eq_op op && (match r with TyReg _ => true | _ => false end || text_eqb name ty_opcao_name)
  then Some (TyPrim TBool) else None.
Fixpoint ty_binop (l : ty) (op : bop) (r : ty) : pyres (option ty) :=
  match l with
  | TyPrim p => primitive_binop p op r
  | TyReg n => PyOk (reg_binop n op r)
  | TyCon g _ => ty_binop g op (erase r)
  | TyVec _ | TyUni _ | TyVar _ | TyMod _ => PyOk None
  end.
(** [unaryop]: types/core.py:136-146, 601-602. *)
Fixpoint ty_unop (op : uop) (t : ty) : option ty :=
  match t with
  | TyPrim p =>
      match op with
      | UPlus | UMinus => if is_numeric p then Some t else None
      | UNot => if prim_eqb p TBool then Some t else None
      end
  | TyCon g _ => ty_unop op g
  | _ => None
  end.

(** Indexing and [tam]: types/core.py:166-188, 270-289, 603-611. *)
Definition index_item_ty (t : ty) : option ty :=
  match t with
  | TyPrim TTexto => Some (TyPrim TTexto)
  | TyVec el => Some el
  | _ => None
  end.
Fixpoint supports_tam (t : ty) : bool :=
  match t with
  | TyPrim TTexto | TyVec _ => true
  | TyCon g _ => supports_tam g
  | _ => false
  end.
(** [supports_index_set]: types/core.py:172-173, 273-274. *)
Definition supports_index_set (t : ty) : bool := match t with TyVec _ => true | _ => false end.

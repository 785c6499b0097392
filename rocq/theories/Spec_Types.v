(** Specification vocabulary for static types (C10-C12). *)
From Verif Require Import Base Float Value Types.

(** A value of a basic static type. *)
Definition val_prim (v : value) (p : prim) : Prop :=
  match p with
  | TInt => exists z, v = VInt z
  | TReal => exists f, v = VF64 f
  | TBool => exists b, v = VBool b
  | TTexto => exists t, v = VStr t
  | _ => False
  end.
Definition basic (p : prim) : Prop := p = TInt \/ p = TReal \/ p = TBool \/ p = TTexto.

(** The run-time form of a basic type, as [CAST] receives it. *)
Definition vty_of (p : prim) : option vty :=
  match p with TInt => Some TyInt | TReal => Some TyReal | TBool => Some TyBool | TTexto => Some TyTexto | _ => None end.

(** Types built from the basic types, vectors, records and unions by [t?], with
    no [indef], [nulo] nor type variables anywhere. *)
Inductive plain : ty -> Prop :=
| pl_prim p : basic p -> plain (TyPrim p)
| pl_vec t : plain t -> plain (TyVec t)
| pl_reg n : n <> ty_opcao_name -> plain (TyReg n)
| pl_uni n : n <> ty_opcao_name -> plain (TyUni n)
| pl_opc t : plain t -> plain (TyOpc t).
(** The order the language documents on those types: a type promotes to itself,
    [int] to [real], and [t] to [u?] whenever [t] promotes to [u]. *)
Inductive widens : ty -> ty -> Prop :=
| w_refl t : widens t t
| w_int_real : widens (TyPrim TInt) (TyPrim TReal)
| w_some t u : widens t u -> widens t (TyOpc u).

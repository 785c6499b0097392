(** Specification vocabulary for vectors and records (C23-C26). *)
From Verif Require Import Base Float Value Spec_Value.
Local Open Scope Z_scope.

(** Operations a program can perform on one vector. *)
Inductive vop := Anexa (v : value) | Remova (i : Z) | Tam | Get (i : Z) | Put (i : Z) (v : value).

(** The same operations on a mathematical list: the result and the new list, or
    the index error. *)
Definition out_of_bounds (l : list value) (i : Z) : option errmsg :=
  if i <? 0 then Some EIdxNegVec
  else if Z.of_nat (List.length l) <=? i then Some (EIdxVec (Z.of_nat (List.length l)) i)
  else None.
Fixpoint replace_at (l : list value) (i : nat) (v : value) : list value :=
  match l, i with [], _ => [] | _ :: r, O => v :: r | x :: r, S j => x :: replace_at r j v end.
Fixpoint delete_at (l : list value) (i : nat) : list value :=
  match l, i with [], _ => [] | _ :: r, O => r | x :: r, S j => x :: delete_at r j end.
Definition list_op (l : list value) (o : vop) : errmsg + value * list value :=
  let at_ i (k : value * list value) :=
    match out_of_bounds l i with Some e => inl e | None => inr k end in
  match o with
  | Anexa v => inr (VNone, l ++ [v])
  | Tam => inr (VInt (Z.of_nat (List.length l)), l)
  | Remova i => at_ i (nth (Z.to_nat i) l VNone, delete_at l (Z.to_nat i))
  | Get i => at_ i (nth (Z.to_nat i) l VNone, l)
  | Put i v => at_ i (VNone, replace_at l (Z.to_nat i) v)
  end.
(** A sequence of operations: the results, then the final list, or the first
    error. *)
Fixpoint list_ops (l : list value) (os : list vop) : list value * (errmsg + list value) :=
  match os with
  | [] => ([], inr l)
  | o :: r =>
      match list_op l o with
      | inl e => ([], inl e)
      | inr (v, l') => let (vs, f) := list_ops l' r in (v :: vs, f)
      end
  end.

(** The VM's operations on the vector at [loc]. *)
Definition vm_op (E : ext) (loc : nat) (w : world) (o : vop) : vres (value * world) :=
  match o with
  | Anexa v => native E (txt "anexa") [VVec loc; v] w
  | Remova i => native E (txt "remova") [VVec loc; VInt i] w
  | Tam => native E (txt "tam") [VVec loc] w
  | Get i => let* v := index_get E (w_heap w) (VVec loc) (VInt i) in ROk (v, w)
  | Put i v => let* h := index_set (w_heap w) (VVec loc) (VInt i) v in ROk (VNone, set_heap w h)
  end.
Fixpoint vm_ops (E : ext) (loc : nat) (w : world) (os : list vop) : list value * vres world :=
  match os with
  | [] => ([], ROk w)
  | o :: r =>
      match vm_op E loc w o with
      | RErr e => ([], RErr e)
      | RPanic => ([], RPanic)
      | ROk (v, w') => let (vs, f) := vm_ops E loc w' r in (v :: vs, f)
      end
  end.

(** The zero value of an element type. *)
Definition zero_value (t : vty) : option value :=
  match t with
  | TyInt => Some (VInt 0) | TyReal => Some (VF64 f_zero) | TyBool => Some (VBool false)
  | TyTexto => Some (VStr []) | TyVector => None
  end.

(** Named arguments as they are pushed: name, value, name, value, ... *)
Fixpoint flat_pairs (args : list (text * value)) : list value :=
  match args with [] => [] | (n, v) :: r => VStr n :: v :: flat_pairs r end.

(** [vs] are the elements of an [n1 x n2 x ...] matrix whose innermost elements
    are all [z]. *)
Fixpoint matrix (h : heap) (dims : list Z) (z : value) (vs : list value) : Prop :=
  match dims with
  | [] => False
  | [n] => vs = repeat z (Z.to_nat n)
  | n :: r =>
      List.length vs = Z.to_nat n /\
      Forall (fun v => exists l inner, v = VVec l /\ nth_error h l = Some (CVec inner) /\ matrix h r z inner) vs
  end.
(** Sub-vector [v[i]] of the vector at [l]. *)
Definition row (h : heap) (l : nat) (i : nat) : option nat :=
  match nth_error h l with
  | Some (CVec vs) => match nth_error vs i with Some (VVec k) => Some k | _ => None end
  | _ => None
  end.

(** What a generic type means: replacing the type parameters in a type, and the
    type a field or a method of a record was declared with.  Nothing here looks
    at how the analyser computes the type of [c.x]. *)
From Verif Require Import Base Dec Bson Value Ast Types Syntax Sym.

(** [t] with every parameter replaced by its argument, wherever it occurs. *)
Fixpoint subst (args : list (text * cty)) (t : cty) : cty :=
  match t with
  | CVar n => match assoc n args with Some a => a | None => t end
  | CVec e => CVec (subst args e)
  | CCon g l => CCon (subst args g) (map (fun a => (fst a, subst args (snd a))) l)
  | CPrim _ | CReg _ | CUni _ | CMod _ => t
  end.

(** The parameter [n] is mentioned by a type. *)
Inductive mentions (n : text) : cty -> Prop :=
| MHere : mentions n (CVar n)
| MVec e : mentions n e -> mentions n (CVec e)
| MGen g l : mentions n g -> mentions n (CCon g l)
| MArg g l k t : In (k, t) l -> mentions n t -> mentions n (CCon g l).

(** [t] is a parameter itself, or mentions none. *)
Definition shallow (t : cty) : Prop := (exists n, t = CVar n) \/ forall n, ~ mentions n t.

(** Symbol [i] is a variable, field or parameter of type [t]. *)
Definition has_type (st : store) (i : nat) (t : cty) : Prop :=
  exists y, nth_error (so_syms st) i = Some y /\ s_kind y = SVar t.
(** The record or union [r] declares a field [n] of type [t]. *)
Definition field (st : store) (r : nat) (n : text) (t : cty) : Prop :=
  exists x f ms tp i, nth_error (so_syms st) r = Some x /\ s_kind x = SReg f ms tp /\
    scope_get st f n = Some i /\ has_type st i t.
(** Symbol [i] is a method whose parameters have the types [ts] and whose result
    has type [t]. *)
Definition method_type (st : store) (i : nat) (ts : list cty) (t : cty) : Prop :=
  exists y tgt ps, nth_error (so_syms st) i = Some y /\ s_kind y = SMet tgt t ps /\
    Forall2 (fun p u => has_type st (snd p) u) ps ts.
(** The record declares no field [n] and has the method [n]. *)
Definition method (st : store) (r : nat) (n : text) (ts : list cty) (t : cty) : Prop :=
  exists x f ms tp i, nth_error (so_syms st) r = Some x /\ s_kind x = SReg f ms tp /\
    scope_get st f n = None /\ assoc n ms = Some i /\ method_type st i ts t.

(** Symbol [i] is a record with type parameters [tp]; a union. *)
Definition a_record (st : store) (i : nat) (tp : list text) : Prop :=
  exists x f ms, nth_error (so_syms st) i = Some x /\ s_kind x = SReg f ms tp.
Definition a_union (st : store) (i : nat) : Prop :=
  exists x vs ms tp, nth_error (so_syms st) i = Some x /\ s_kind x = SUni vs ms tp.

(** Types built from the types of a program: a generic record is given an
    argument for each of its parameters. *)
Inductive built (st : store) : cty -> Prop :=
| BPrim p : built st (CPrim p)
| BVec e : built st e -> built st (CVec e)
| BReg i tp : a_record st i tp -> built st (CReg i)
| BUni i : a_union st i -> built st (CUni i)
| BVar n : built st (CVar n)
| BMod p : built st (CMod p)
| BCon r tp l : a_record st r tp -> map fst l = tp -> NoDup tp -> Forall (fun a => built st (snd a)) l ->
    built st (CCon (CReg r) l).

(** No two records have the same name, and no two unions. *)
Definition named_apart (st : store) : Prop :=
  forall i j x y, nth_error (so_syms st) i = Some x -> nth_error (so_syms st) j = Some y -> s_name x = s_name y ->
    ((exists tp, a_record st i tp) /\ exists tp, a_record st j tp) \/ (a_union st i /\ a_union st j) -> i = j.

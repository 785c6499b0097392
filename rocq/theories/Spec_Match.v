(** What it means for a pattern to match a value and for an arm to be the first
    that does, and what a decision tree does with a value. *)
From Verif Require Import Base Bson Types Sym Exhaust.

(** Values an [iguala] can look at. *)
Inductive mval := MVariant (tag : nat) (args : list mval) | MInt (z : Z) | MStr (t : text).

(** A pattern matches a value and gives these values to these names. *)
Inductive matches : xpat -> mval -> list (text * mval) -> Prop :=
| MBind n v : matches (QBind n) v [(n, v)]
| MatchInt z : matches (QInt z) (MInt z) []
| MatchStr t : matches (QStr t) (MStr t) []
| MAdt tag ps vs b : all_match ps vs b -> matches (QAdt tag ps) (MVariant tag vs) b
with all_match : list xpat -> list mval -> list (text * mval) -> Prop :=
| AMNil : all_match [] [] []
| AMCons p ps v vs b bs : matches p v b -> all_match ps vs bs -> all_match (p :: ps) (v :: vs) (b ++ bs).

Definition no_match (p : xpat) (v : mval) : Prop := forall b, ~ matches p v b.

(** Arm [i] is the first whose pattern matches [v]. *)
Definition first_match (arms : list xpat) (v : mval) (i : nat) (b : list (text * mval)) : Prop :=
  (exists p, nth_error arms i = Some p /\ matches p v b) /\
  (forall j p, (j < i)%nat -> nth_error arms j = Some p -> no_match p v).

(** What the code generated for a tree does (codegen.py:758-833): the case whose
    test succeeds is taken, its arguments are bound to the parts of the value; the
    fallback is not looked at.  [None]: no arm runs. *)
Definition menv := nat -> option mval.
Fixpoint bind_args (rho : menv) (ids : list nat) (vs : list mval) : menv :=
  match ids, vs with
  | i :: ids, v :: vs => bind_args (fun j => if Nat.eqb j i then Some v else rho j) ids vs
  | _, _ => rho
  end.
Definition test (c : dcons) (v : mval) : bool :=
  match c, v with
  | KInt z, MInt z' => Z.eqb z z'
  | KStr t, MStr t' => text_eqb t t'
  | KVariant _ tag, MVariant tag' _ => Nat.eqb tag tag'
  | _, _ => false
  end.
Fixpoint values (rho : menv) (bs : list (text * nat)) : option (list (text * mval)) :=
  match bs with
  | [] => Some []
  | (n, i) :: r => match rho i, values rho r with Some v, Some l => Some ((n, v) :: l) | _, _ => None end
  end.
Fixpoint tree_run (rho : menv) (t : dtree) : option (nat * list (text * mval)) :=
  match t with
  | DFail => None
  | DSucc a bs => match values rho bs with Some l => Some (a, l) | None => None end
  | DSwitch x cases _ =>
      match rho x with
      | None => None
      | Some v =>
          (fix go (l : list (dcons * list nat * dtree)) : option (nat * list (text * mval)) :=
             match l with
             | [] => None
             | (c, ids, b) :: r =>
                 if test c v then tree_run (match v with MVariant _ vs => bind_args rho ids vs | _ => rho end) b
                 else go r
             end) cases
      end
  end.
Definition only (x : nat) (v : mval) : menv := fun j => if Nat.eqb j x then Some v else None.

(** The values of a type: those of a union are its variants applied to values of
    the types of their parameters. *)
Section Values.
Variable ctors : cty -> option (list (dcons * list cty)).
Inductive fits : cty -> mval -> Prop :=
| FitUnion T ks tag k vs : ctors T = Some ks -> nth_error ks tag = Some k -> all_fit (snd k) vs -> fits T (MVariant tag vs)
| FitOther T v : ctors T = None -> fits T v
with all_fit : list cty -> list mval -> Prop :=
| FNil : all_fit [] []
| FCons T Ts v vs : fits T v -> all_fit Ts vs -> all_fit (T :: Ts) (v :: vs).

(** Patterns [S] for a value of type [T] that are names or, for a union, variants
    with one pattern per parameter; of the parameters of each variant, [S] looks
    into at most one, the others are given names; and into that one again in this
    way.  (No literals.) *)
Inductive one_way : cty -> (xpat -> Prop) -> Prop :=
| OWNames T (S : xpat -> Prop) : (forall p, S p -> is_bind p = true) -> one_way T S
| OWUnion T (S : xpat -> Prop) ks :
    ctors T = Some ks ->
    (forall tag k, nth_error ks tag = Some k -> exists u, fst k = KVariant u tag) ->
    (forall p, S p -> match p with
                      | QBind _ => True
                      | QAdt tag ps => exists k, nth_error ks tag = Some k /\ List.length ps = List.length (snd k)
                      | _ => False
                      end) ->
    (forall tag k, nth_error ks tag = Some k ->
       exists i, (forall ps j q, S (QAdt tag ps) -> nth_error ps j = Some q -> j <> i -> is_bind q = true) /\
                 (forall T', nth_error (snd k) i = Some T' ->
                    one_way T' (fun q => exists ps, S (QAdt tag ps) /\ nth_error ps i = Some q))) ->
    one_way T S.
End Values.

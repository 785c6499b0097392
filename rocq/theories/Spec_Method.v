(** What it means that a call [t.m(...)] is a call of the method [m] of the type
    of [t], read off the tree and the tables the analyser leaves. *)
From Verif Require Import Base Types Sym.

(** [Caixa<int>] and [Caixa] are the same declaration. *)
Fixpoint declared_as (t : cty) : cty := match t with CCon g _ => declared_as g | _ => t end.

(** The calls [target.member(...)] in a tree, with the symbol the analyser gave
    them, in whatever place they stand. *)
Fixpoint member_calls (x : tx) : list (tx * text * nat) :=
  match x with
  | TConst _ _ _ _ _ | TVar _ _ _ _ _ | TAlvo _ _ _ | TPath _ _ _ | TLoopCtl _ _ | TReg _ _ _ | TUni _ _ _ | TNoOp _ | TSkip _ => []
  | TUn _ _ e _ _ | TNamed _ _ e _ | TConv _ e _ | TGet _ e _ _ | TAssign _ _ _ e _ | TMostra _ e | TProduz _ e => member_calls e
  | TBin _ _ a b _ _ | TIndex _ a b _ | TIndexSet _ a b _ | TSet _ a b _ | TSenaoSe _ a b | TEnquanto _ a b => member_calls a ++ member_calls b
  | TCall _ i f args _ _ =>
      match f with TGet _ a m _ => [(a, m, i)] | _ => [] end ++ member_calls f ++ flat_map member_calls args
  | TUnwrap _ e o => member_calls e ++ match o with Some d => member_calls d | None => [] end
  | TFmt _ l _ | TList _ l _ | TYield _ _ l _ | TBlock _ l => flat_map member_calls l
  | TIguala _ e l _ _ => member_calls e ++ flat_map member_calls l
  | TDecl _ _ _ o | TRet _ o | TFunc _ _ o => match o with Some e => member_calls e | None => [] end
  | TSe _ c th l o => member_calls c ++ member_calls th ++ flat_map member_calls l ++ match o with Some e => member_calls e | None => [] end
  | TPara _ _ a z o b => member_calls a ++ member_calls z ++ match o with Some e => member_calls e | None => [] end ++ member_calls b
  | TEscolha _ e l o =>
      member_calls e ++ flat_map (fun p => member_calls (fst p) ++ member_calls (snd p)) l ++ match o with Some d => member_calls d | None => [] end
  end.

(** A method's name in the tables: the one it was declared with, or that name
    behind the paths of modules once a call from another module has been
    translated. *)
Definition called (x : symbol) (m : text) : Prop := s_name x = m \/ exists path, s_name x = path ++ txt "::" ++ m.

(** [i] is the method [m] of the type [t]. *)
Definition method_of (st : store) (t : cty) (m : text) (i : nat) : Prop :=
  exists x target ret params,
    nth_error (so_syms st) i = Some x /\ s_kind x = SMet target ret params /\
    declared_as target = declared_as t /\ called x m /\ s_prop x = true.

(** Calls of members of modules are calls of functions; a symbol that is neither a
    method nor a function is that of a field. *)
Definition dispatched (st : store) (c : tx * text * nat) : Prop :=
  let '(a, m, i) := c in
  match declared_as (tx_ty a) with
  | CMod _ => True
  | _ => match option_map s_kind (nth_error (so_syms st) i) with
         | Some (SMet _ _ _) => method_of st (tx_ty a) m i
         | Some (SFun _ _) | None => False
         | Some _ => True
         end
  end.

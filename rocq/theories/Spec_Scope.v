(** What "a name refers to the innermost declaration before it, and variables
    alive together are kept apart" means for an analysed tree.

    [scoped] walks through the tree with the declarations seen so far, level by
    level; it is independent of how the analyser finds names.  Every use of a
    name must carry the symbol of the innermost declaration before it; a
    declaration must be the first one of its name on its level; and the storage
    of a new local variable must not be that of a local variable still alive. *)
From Verif Require Import Base Value Ast Types Syntax Sym Check.

(** ** Nesting of the source *)
(** How many blocks are open at the innermost point. *)
Fixpoint nest (x : sx) : nat :=
  match x with
  | XBlock l => S (fold_right Nat.max 0%nat (map nest l))
  | XSe _ _ th l el =>
      Nat.max (Nat.max (nest th) (fold_right Nat.max 0%nat (map nest l))) (match el with Some b => nest b | None => 0%nat end)
  | XSenaoSe _ _ b | XEnquanto _ _ b | XPara _ _ _ _ _ b => nest b
  | XFunc _ _ _ _ _ (Some b) => nest b
  | _ => 0%nat
  end.

(** ** Levels *)
(** A level: the scope in which the analyser keeps its names, and the names
    declared on it so far with their symbols, latest first. *)
Record level := mkLevel { lv_scope : nat; lv_names : list (text * nat) }.
(** The innermost level first, that of the module last. *)
Fixpoint look (L : list level) (n : text) : option nat :=
  match L with
  | [] => None
  | l :: r => match assoc n (lv_names l) with Some i => Some i | None => look r n end
  end.
(** The local variables alive: those of every level but the module's. *)
Definition locals (L : list level) : list nat := map snd (flat_map lv_names (removelast L)).
Definition add (L : list level) (n : text) (i : nat) : list level :=
  match L with
  | l :: r => mkLevel (lv_scope l) ((n, i) :: lv_names l) :: r
  | [] => []
  end.
Definition adds (L : list level) (ps : list (text * nat)) : list level :=
  fold_left (fun L p => add L (fst p) (snd p)) ps L.

(** ** Uses *)
(** The names an expression or assignment uses, with the symbols attached to
    them; for a call, the name of what is called with the symbol called. *)
Fixpoint uses (x : tx) : list (text * nat) :=
  match x with
  | TVar _ n (Some i) _ _ => [(n, i)]
  | TCall _ i (TVar _ n None _ _) l _ _ => (n, i) :: flat_map uses l
  | TUn _ _ e _ _ | TNamed _ _ e _ | TConv _ e _ | TGet _ e _ _ | TMostra _ e | TRet _ (Some e) => uses e
  | TBin _ _ a b _ _ => uses a ++ uses b
  | TIndex _ a b _ | TIndexSet _ a b _ | TSet _ a b _ => uses a ++ uses b
  | TFmt _ l _ | TList _ l _ => flat_map uses l
  | TAssign _ n i r _ => (n, i) :: uses r
  | _ => []
  end.
Definition reads (L : list level) (x : tx) : Prop := Forall (fun u => look L (fst u) = Some (snd u)) (uses x).

(** ** Trees *)
Section Scoped.
Variable st : store.    (* the symbols and scopes at the end of the analysis *)
(** Where the variable is stored: the generator keeps the variables of a
    function, or of the module outside functions, under this name. *)
Definition slot (i : nat) : option text := match nth_error (so_syms st) i with Some x => Some (s_out x) | None => None end.
Definition declares (L : list level) (n : text) (i : nat) : Prop :=
  match L with
  | l :: r =>
      assoc n (lv_names l) = None /\ scope_get st (lv_scope l) n = Some i /\
      (exists x, nth_error (so_syms st) i = Some x /\ s_name x = n) /\
      (r <> [] -> ~ In (slot i) (map slot (locals L)))
  | [] => False
  end.
Fixpoint declares_all (L : list level) (ps : list (text * nat)) : Prop :=
  match ps with
  | [] => True
  | p :: r => declares L (fst p) (snd p) /\ declares_all (add L (fst p) (snd p)) r
  end.
(** The scope [sc] is inside that of the current level. *)
Definition inside (L : list level) (sc : nat) : Prop :=
  match L, nth_error (so_scopes st) sc with
  | l :: _, Some c => sc_up c = Some (lv_scope l)
  | _, _ => False
  end.
(** The declarations seen after a statement. *)
Definition after (L : list level) (x : tx) : list level :=
  match x with
  | TDecl _ n _ (Some (TAssign _ _ i _ _)) => add L n i
  | TDecl _ n _ None =>
      match L with
      | l :: _ => match scope_get st (lv_scope l) n with Some i => add L n i | None => L end
      | [] => L
      end
  | TFunc _ i _ => match nth_error (so_syms st) i with Some y => add L (s_name y) i | None => L end
  | TReg _ n i => add L n i
  | _ => L
  end.
Definition in_order (f : list level -> tx -> Prop) : list level -> list tx -> Prop :=
  fix go (L : list level) (l : list tx) {struct l} : Prop :=
    match l with
    | [] => True
    | y :: r => f L y /\ go (after L y) r
    end.
Definition all (f : tx -> Prop) : list tx -> Prop :=
  fix go (l : list tx) : Prop := match l with [] => True | y :: r => f y /\ go r end.
Definition reads_opt (L : list level) (o : option tx) : Prop := match o with Some e => reads L e | None => True end.

Fixpoint scoped (L : list level) (x : tx) {struct x} : Prop :=
  let block (b : tx) : Prop :=
    match b with
    | TBlock sc ch => inside L sc /\ in_order scoped (mkLevel sc [] :: L) ch
    | _ => False
    end in
  match x with
  | TDecl _ n _ None => exists i, declares L n i
  | TDecl _ n _ (Some (TAssign _ m i r _)) => m = n /\ declares L n i /\ reads (add L n i) r
  | TSe _ c th l el =>
      reads L c /\ block th /\
      all (fun y => match y with TSenaoSe _ c b => reads L c /\ block b | _ => False end) l /\
      match el with Some b => block b | None => True end
  | TEnquanto _ c b => reads L c /\ block b
  | TPara _ n a z inc b =>
      reads L a /\ reads L z /\ reads_opt L inc /\
      match b with
      | TBlock sc ch =>
          inside L sc /\ exists i, declares (mkLevel sc [] :: L) n i /\ in_order scoped (mkLevel sc [(n, i)] :: L) ch
      | _ => False
      end
  | TFunc _ i (Some (TBlock sc ch)) =>
      exists y r ps, nth_error (so_syms st) i = Some y /\ s_kind y = SFun r ps /\ declares L (s_name y) i /\
        let L1 := add L (s_name y) i in
        inside L1 sc /\ declares_all (mkLevel sc [] :: L1) ps /\ in_order scoped (adds (mkLevel sc [] :: L1) ps) ch
  | TReg _ n i => declares L n i
  | TDecl _ _ _ _ | TFunc _ _ _ | TBlock _ _ | TSenaoSe _ _ _ => False
  | _ => reads L x
  end.
End Scoped.

(** ** Where the analysis of the module [p] begins *)
(** Outside every block, function and record, in a scope without parent: what the
    constructor of the analyser leaves. *)
Definition begins (p : text) (s : sst) : bool :=
  let c := sst_cx s in
  text_eqb (cx_module c) p && (cx_scope c =? cx_global c)%nat && (cx_depth c =? 0)%nat && negb (cx_reg c) &&
  match cx_yield c with None => true | Some _ => false end &&
  match nth_error (so_scopes (sst_st s)) (cx_global c) with
  | Some g => match sc_up g with None => true | Some _ => false end
  | None => false
  end.
(** The level of the module when the text begins: the names of the library. *)
Definition library_level (s : sst) : level :=
  let g := cx_global (sst_cx s) in
  mkLevel g (match nth_error (so_scopes (sst_st s)) g with Some c => sc_syms c | None => [] end).

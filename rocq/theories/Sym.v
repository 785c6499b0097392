(** Symbols, scopes and the state of the semantic analyser:
    /repo/amanda/compiler/symbols/base.py, symbols/core.py, types/core.py and
    the attributes of [Analyzer] (check/core.py:44-76).

    Python symbols and scopes are objects that are shared and changed in place;
    here they live in a store and are referred to by number. *)
From Verif Require Import Base Dec Bson Value Ast Types Syntax.

(** A type as the analyser holds it.  [CReg] and [CUni] refer to the symbol of
    the type; the other constructors are as in [Types.ty].  The module kept in a
    [Vector] is never looked at and left out. *)
Inductive cty :=
| CPrim (p : prim)
| CVec (el : cty)
| CReg (s : nat)
| CUni (s : nat)
| CCon (g : cty) (args : list (text * cty))
| CVar (name : text)
| CMod (path : text).

(** What is particular to a symbol's class: symbols/core.py:8-107,
    types/core.py:50, 326-345, 424-475, symbols/base.py:174-190.  The fields of a
    [Registo] are the symbols of a scope. *)
Inductive skind :=
| SVar (t : cty)
| SFun (ret : cty) (params : list (text * nat))
| SMet (target ret : cty) (params : list (text * nat))
| SVariant (tag uni : nat) (params : list cty)
| SPrim (p : prim)
| SReg (fields : nat) (methods : list (text * nat)) (typarams : list text)
| SUni (variants methods : list (text * nat)) (typarams : list text)
| STVar.

(** [Symbol]: symbols/base.py:18-55.  [s_mod] is [module.fpath]; [s_builtin] is
    [is_builtin()]. *)
Record symbol := mkSymbol {
  s_name : text; s_out : text; s_global : bool; s_prop : bool; s_mod : text; s_builtin : bool; s_kind : skind
}.

(** [Scope]: symbols/core.py:110-175. [methods] and [locals] are not used. *)
Record scopeo := mkScope { sc_syms : list (text * nat); sc_up : option nat }.

(** The tree after analysis.  Every node keeps [lineno], the annotations that
    the later passes read, and its children; [pr] says that [prom_type] is real.
    [TSkip] stands for a part of the program that was not visited; the flag says
    whether it contains a call outside an [escolha]. *)
Inductive dcons := KInt (z : Z) | KStr (t : text) | KVariant (uni tag : nat) | KBool (b : bool).
Inductive dtree :=
| DFail
| DSucc (arm : nat) (binds : list (text * nat))
| DSwitch (v : nat) (cases : list (dcons * list nat * dtree)) (fallback : option dtree).

Inductive tx :=
| TConst (ln : Z) (k : litkind) (lex : text) (t : cty) (pr : bool)
| TVar (ln : Z) (name : text) (s : option nat) (t : cty) (pr : bool)
| TAlvo (ln : Z) (s : nat) (t : cty)
| TPath (ln : Z) (s : nat) (t : cty)
| TUn (ln : Z) (op : uop) (e : tx) (t : cty) (pr : bool)
| TBin (ln : Z) (op : bop) (l r : tx) (t : cty) (pr : bool)
| TCall (ln : Z) (s : nat) (callee : tx) (args : list tx) (t : cty) (pr : bool)
| TNamed (ln : Z) (name : text) (e : tx) (t : cty)
| TConv (ln : Z) (e : tx) (t : cty)
| TIndex (ln : Z) (target index : tx) (t : cty)
| TIndexSet (ln : Z) (target value : tx) (t : cty)
| TGet (ln : Z) (target : tx) (member : text) (t : cty)
| TSet (ln : Z) (target value : tx) (t : cty)
| TUnwrap (ln : Z) (o : tx) (d : option tx)
| TFmt (ln : Z) (parts : list tx) (t : cty)
| TList (ln : Z) (elems : list tx) (t : cty)
| TAssign (ln : Z) (name : text) (s : nat) (rhs : tx) (t : cty)
| TIguala (ln : Z) (target : tx) (bodies : list tx) (tree : dtree) (t : cty)
| TYield (ln : Z) (sc : nat) (ch : list tx) (t : cty)
| TDecl (ln : Z) (name : text) (ty : cty) (init : option tx)
| TMostra (ln : Z) (e : tx)
| TRet (ln : Z) (e : option tx)
| TProduz (ln : Z) (e : tx)
| TLoopCtl (ln : Z) (quebra : bool)
| TSe (ln : Z) (c th : tx) (elifs : list tx) (el : option tx)
| TSenaoSe (ln : Z) (c blk : tx)
| TEnquanto (ln : Z) (c blk : tx)
| TPara (ln : Z) (var : text) (start stop : tx) (inc : option tx) (blk : tx)
| TEscolha (ln : Z) (e : tx) (cases : list (tx * tx)) (default : option tx)
| TBlock (sc : nat) (ch : list tx)
| TFunc (ln : Z) (s : nat) (blk : option tx)
| TReg (ln : Z) (name : text) (s : nat)
| TUni (ln : Z) (name : text) (s : nat)
| TNoOp (ln : Z)
| TSkip (calls : bool).

(** [Module]: module.py, with what [visit_module] leaves in [ast]: the global
    scope and the children. *)
Record minfo := mkMinfo { mi_loaded : bool; mi_builtin : bool; mi_scope : option nat; mi_body : list tx }.

(** The objects alive during an analysis.  [so_prims] is [Primitive.methods]
    (types/core.py:52), [so_opcao] is [SrcBuiltins.Opcao], [so_imports] the keys of
    [imports] in order. *)
Record store := mkStore {
  so_syms : list symbol; so_scopes : list scopeo; so_prims : list (prim * list (text * nat));
  so_opcao : option nat; so_mods : list (text * minfo); so_imports : list text
}.

(** The yield block being checked: its [has_return], its [eval_type] and whether
    its last child is [produz alvo] (two such nodes compare equal). *)
Record yinfo := mkY { y_ret : bool; y_ty : cty; y_alvo : bool }.

(** The attributes of an [Analyzer].  [cx_line] is [ctx_node.token.line]. *)
Record actx := mkCx {
  cx_global : nat; cx_depth : nat; cx_scope : nat; cx_line : Z; cx_reg : bool; cx_func : option nat;
  cx_yield : option yinfo; cx_loop : bool; cx_module : text; cx_ty : nat
}.

Record sst := mkSst { sst_st : store; sst_cx : actx }.

(** How an analysis ends. *)
Inductive cres (A : Type) :=
| COk (a : A) (s : sst)
| CErr (path : text) (line : Z)   (* AmandaError *)
| CCrash                          (* any other Python exception *)
| CFuel.                          (* not an outcome of the code *)
Arguments COk {A}. Arguments CErr {A}. Arguments CCrash {A}. Arguments CFuel {A}.

Definition M (A : Type) : Type := sst -> cres A.
Definition cret {A} (a : A) : M A := fun s => COk a s.
Definition cbind {A B} (m : M A) (f : A -> M B) : M B :=
  fun s => match m s with COk a s' => f a s' | CErr p l => CErr p l | CCrash => CCrash | CFuel => CFuel end.
Declare Scope chk_scope.
Delimit Scope chk_scope with chk.
Notation "x <- m ;; k" := (cbind m (fun x => k)) (at level 61, m at next level, right associativity) : chk_scope.
Notation "m ;;; k" := (cbind m (fun _ => k)) (at level 61, right associativity) : chk_scope.
Local Open Scope chk_scope.

Definition crash {A} : M A := fun _ => CCrash.
Definition ccerr {A} : M A := fun s => CErr (cx_module (sst_cx s)) (cx_line (sst_cx s)).  (* [self.error] *)
Definition cerr_at {A} (l : Z) : M A := fun s => CErr (cx_module (sst_cx s)) l.  (* [self.error_with_loc] *)
Definition gcx {A} (f : actx -> A) : M A := fun s => COk (f (sst_cx s)) s.
Definition gst {A} (f : store -> A) : M A := fun s => COk (f (sst_st s)) s.
Definition mcx (f : actx -> actx) : M unit := fun s => COk tt (mkSst (sst_st s) (f (sst_cx s))).
Definition mst (f : store -> store) : M unit := fun s => COk tt (mkSst (f (sst_st s)) (sst_cx s)).
(** A Python value that must be there ([unwrap], attribute of [None], ...). *)
Definition must {A} (o : option A) : M A := match o with Some a => cret a | None => crash end.
(** A type operation that may raise. *)
Definition py {A} (r : pyres A) : M A := match r with PyOk a => cret a | PyErr _ => crash end.

Definition mapc {A B} (f : A -> M B) : list A -> M (list B) :=
  fix go l := match l with [] => cret [] | x :: r => y <- f x ;; ys <- go r ;; cret (y :: ys) end.
Definition optc {A B} (f : A -> M B) (o : option A) : M (option B) :=
  match o with Some x => y <- f x ;; cret (Some y) | None => cret None end.

(** Changes of single attributes. *)
Definition set_line (l : Z) : M unit :=
  mcx (fun c => mkCx (cx_global c) (cx_depth c) (cx_scope c) l (cx_reg c) (cx_func c) (cx_yield c) (cx_loop c) (cx_module c) (cx_ty c)).
Definition set_reg (b : bool) : M unit :=
  mcx (fun c => mkCx (cx_global c) (cx_depth c) (cx_scope c) (cx_line c) b (cx_func c) (cx_yield c) (cx_loop c) (cx_module c) (cx_ty c)).
Definition set_func (f : option nat) : M unit :=
  mcx (fun c => mkCx (cx_global c) (cx_depth c) (cx_scope c) (cx_line c) (cx_reg c) f (cx_yield c) (cx_loop c) (cx_module c) (cx_ty c)).
Definition set_yield (y : option yinfo) : M unit :=
  mcx (fun c => mkCx (cx_global c) (cx_depth c) (cx_scope c) (cx_line c) (cx_reg c) (cx_func c) y (cx_loop c) (cx_module c) (cx_ty c)).
Definition set_loop (b : bool) : M unit :=
  mcx (fun c => mkCx (cx_global c) (cx_depth c) (cx_scope c) (cx_line c) (cx_reg c) (cx_func c) (cx_yield c) b (cx_module c) (cx_ty c)).
Definition set_module (m : text) : M unit :=
  mcx (fun c => mkCx (cx_global c) (cx_depth c) (cx_scope c) (cx_line c) (cx_reg c) (cx_func c) (cx_yield c) (cx_loop c) m (cx_ty c)).
Definition set_ty_ctx (t : nat) : M unit :=
  mcx (fun c => mkCx (cx_global c) (cx_depth c) (cx_scope c) (cx_line c) (cx_reg c) (cx_func c) (cx_yield c) (cx_loop c) (cx_module c) t).
Definition set_scope (d sc : nat) : M unit :=
  mcx (fun c => mkCx (cx_global c) d sc (cx_line c) (cx_reg c) (cx_func c) (cx_yield c) (cx_loop c) (cx_module c) (cx_ty c)).

Definition with_syms (st : store) l := mkStore l (so_scopes st) (so_prims st) (so_opcao st) (so_mods st) (so_imports st).
Definition with_scopes (st : store) l := mkStore (so_syms st) l (so_prims st) (so_opcao st) (so_mods st) (so_imports st).
Definition with_prims (st : store) l := mkStore (so_syms st) (so_scopes st) l (so_opcao st) (so_mods st) (so_imports st).
Definition with_opcao (st : store) o := mkStore (so_syms st) (so_scopes st) (so_prims st) o (so_mods st) (so_imports st).
Definition with_mods (st : store) l := mkStore (so_syms st) (so_scopes st) (so_prims st) (so_opcao st) l (so_imports st).
Definition with_imports (st : store) l := mkStore (so_syms st) (so_scopes st) (so_prims st) (so_opcao st) (so_mods st) l.

Fixpoint upd {A} (l : list A) (i : nat) (f : A -> A) : list A :=
  match l, i with
  | x :: r, O => f x :: r
  | x :: r, S i => x :: upd r i f
  | [], _ => []
  end.

(** Creating and reading symbols. *)
Definition new_sym (x : symbol) : M nat :=
  i <- gst (fun st => List.length (so_syms st)) ;; mst (fun st => with_syms st (so_syms st ++ [x])) ;;; cret i.
Definition sym_at (i : nat) : M symbol := o <- gst (fun st => nth_error (so_syms st) i) ;; must o.
Definition upd_sym (i : nat) (f : symbol -> symbol) : M unit := mst (fun st => with_syms st (upd (so_syms st) i f)).
Definition s_set_out (o : text) (x : symbol) := mkSymbol (s_name x) o (s_global x) (s_prop x) (s_mod x) (s_builtin x) (s_kind x).
Definition s_set_names (n : text) (x : symbol) := mkSymbol n n (s_global x) (s_prop x) (s_mod x) (s_builtin x) (s_kind x).
Definition s_set_global (x : symbol) := mkSymbol (s_name x) (s_out x) true (s_prop x) (s_mod x) (s_builtin x) (s_kind x).
Definition s_set_prop (x : symbol) := mkSymbol (s_name x) (s_out x) (s_global x) true (s_mod x) (s_builtin x) (s_kind x).
Definition s_set_kind (k : skind) (x : symbol) := mkSymbol (s_name x) (s_out x) (s_global x) (s_prop x) (s_mod x) (s_builtin x) k.

(** [Scope.get], [resolve], [define], [count]: symbols/core.py:119-163.  Scopes
    are nested no deeper than there are scopes. *)
Definition scope_get (st : store) (sc : nat) (n : text) : option nat :=
  match nth_error (so_scopes st) sc with Some s => assoc n (sc_syms s) | None => None end.
Fixpoint resolve_in (fuel : nat) (st : store) (sc : nat) (n : text) : option nat :=
  match fuel with
  | O => None
  | S fuel =>
      match nth_error (so_scopes st) sc with
      | None => None
      | Some s => match assoc n (sc_syms s) with
                  | Some i => Some i
                  | None => match sc_up s with Some u => resolve_in fuel st u n | None => None end
                  end
      end
  end.
Definition resolve_sc (st : store) (sc : nat) (n : text) : option nat := resolve_in (S (List.length (so_scopes st))) st sc n.
Definition new_scope (up : option nat) : M nat :=
  i <- gst (fun st => List.length (so_scopes st)) ;;
  mst (fun st => with_scopes st (so_scopes st ++ [mkScope [] up])) ;;; cret i.
Definition define (sc : nat) (n : text) (i : nat) : M unit :=
  mst (fun st => with_scopes st (upd (so_scopes st) sc (fun s => mkScope (assoc_set (sc_syms s) n i) (sc_up s)))).
Definition count (sc : nat) : M nat :=
  gst (fun st => match nth_error (so_scopes st) sc with Some s => List.length (sc_syms s) | None => O end).
Definition resolve_here (n : text) : M (option nat) := sc <- gcx cx_scope ;; gst (fun st => resolve_sc st sc n).
Definition get_here (n : text) : M (option nat) := sc <- gcx cx_scope ;; gst (fun st => scope_get st sc n).
Definition resolve_global (n : text) : M (option nat) := sc <- gcx cx_global ;; gst (fun st => resolve_sc st sc n).

(** [isinstance(sym, Type)] and the type a type symbol is. *)
Definition sym_type (i : nat) (x : symbol) : option cty :=
  match s_kind x with
  | SPrim p => Some (CPrim p)
  | SReg _ _ _ => Some (CReg i)
  | SUni _ _ _ => Some (CUni i)
  | STVar => Some (CVar (s_name x))
  | _ => None
  end.
(** [sym.type] of a [Typed] symbol. *)
Definition sym_ty (x : symbol) : option cty :=
  match s_kind x with
  | SVar t => Some t
  | SFun r _ => Some r
  | SMet _ r _ => Some r
  | SVariant _ u _ => Some (CUni u)
  | _ => None
  end.
(** [can_evaluate], [is_callable]. *)
Definition can_evaluate (x : symbol) : bool :=
  match s_kind x with SVar _ => true | SVariant _ _ ps => match ps with [] => true | _ => false end | _ => false end.
Definition is_callable (x : symbol) : bool :=
  match s_kind x with
  | SFun _ _ | SMet _ _ _ | SReg _ _ _ => true
  | SVariant _ _ ps => match ps with [] => false | _ => true end
  | _ => false
  end.

(** The type with names in place of symbols: what [Types.v] works on. *)
Fixpoint strip (st : store) (t : cty) : ty :=
  match t with
  | CPrim p => TyPrim p
  | CVec e => TyVec (strip st e)
  | CReg i => TyReg (match nth_error (so_syms st) i with Some x => s_name x | None => [] end)
  | CUni i => TyUni (match nth_error (so_syms st) i with Some x => s_name x | None => [] end)
  | CCon g args => TyCon (strip st g) (map (fun a => (fst a, strip st (snd a))) args)
  | CVar n => TyVar n
  | CMod p => TyMod p
  end.
Definition ty_eq (a b : cty) : M bool := gst (fun st => ty_eqb (strip st a) (strip st b)).
Definition promotes (a b : cty) : M bool := r <- gst (fun st => promote_to (strip st a) (strip st b)) ;; py r.
(** [types_match]: check/core.py:271-272. *)
Definition match_ty (expected received : cty) : M bool :=
  r <- gst (fun st => types_match (strip st expected) (strip st received)) ;; py r.
(** A result of a type operation, which is always a primitive, the left operand
    itself, or its element type. *)
Definition is_int (t : cty) : bool := match t with CPrim TInt => true | _ => false end.
Definition is_real (t : cty) : bool := match t with CPrim TReal => true | _ => false end.
Definition is_vazio (t : cty) : bool := match t with CPrim TVazio => true | _ => false end.
(** Whether [promote_to] gives real, the only promotion the generator acts on. *)
Definition to_real (src dst : cty) : bool := is_int src && is_real dst.
(** [t.tag], an attribute only primitive types have. *)
Definition tag_of (t : cty) : M prim := match t with CPrim p => cret p | _ => crash end.

Definition tx_ty (x : tx) : cty :=
  match x with
  | TConst _ _ _ t _ | TVar _ _ _ t _ | TAlvo _ _ t | TPath _ _ t | TUn _ _ _ t _ | TBin _ _ _ _ t _
  | TCall _ _ _ _ t _ | TNamed _ _ _ t | TConv _ _ t | TIndex _ _ _ t | TIndexSet _ _ _ t | TGet _ _ _ t
  | TSet _ _ _ t | TFmt _ _ t | TList _ _ t | TAssign _ _ _ _ t | TIguala _ _ _ _ t | TYield _ _ _ t => t
  | _ => CPrim TUnknown
  end.
(** Setting [prom_type] on a node already checked. *)
Definition set_prom (b : bool) (x : tx) : tx :=
  match x with
  | TConst l k w t _ => TConst l k w t b
  | TVar l n s t _ => TVar l n s t b
  | TUn l o e t _ => TUn l o e t b
  | TBin l o a c t _ => TBin l o a c t b
  | TCall l s f a t _ => TCall l s f a t b
  | _ => x
  end.

(** [_r{depth}{count}_]. *)
Definition dec_nat (n : nat) : text := dec_N (N.of_nat n).
Definition out_name (depth cnt : nat) : text := txt "_r" ++ dec_nat depth ++ dec_nat cnt ++ txt "_".

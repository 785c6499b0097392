(** From source files to the trees the code generator reads: the rest of
    /repo/amanda/compiler/check/core.py (modules and [usa]),
    /repo/amanda/compiler/transform.py, and the driver
    (/repo/amanda/__main__.py:22-52). *)
From Verif Require Import Lexer Base Dec Bson Value VM Ast CodeGen Compile Types Syntax Parser Sym Exhaust Check.
Local Open Scope Z_scope.
Local Open Scope chk_scope.

(** ** [os.path] (POSIX): [split], [dirname], [join]. *)
Fixpoint strip_slashes (l : text) : text := match l with 47%N :: r => strip_slashes r | _ => l end.
Definition path_split (p : text) : text * text :=
  let fix last_slash (l : text) (head tail : text) : text * text :=
    match l with
    | [] => (head, tail)
    | c :: r => if (c =? 47)%N then last_slash r (head ++ tail ++ [c]) [] else last_slash r head (tail ++ [c])
    end in
  let '(head, tail) := last_slash p [] [] in
  (if forallb (N.eqb 47) head then head else rev (strip_slashes (rev head)), tail).
Definition path_join (a b : text) : text :=
  match b with
  | 47%N :: _ => b
  | _ => match rev a with [] => b | 47%N :: _ => a ++ b | _ => a ++ 47%N :: b end
  end.

(** [tail.split(".")[-1]] *)
Definition last_part (t : text) : text :=
  fold_left (fun acc c => if (c =? 46)%N then [] else acc ++ [c]) t [].

(** [s.replace(".ama", "")] *)
Fixpoint drop_ama (t : text) : text :=
  match t with
  | 46%N :: 97%N :: 109%N :: 97%N :: r => drop_ama r
  | c :: r => c :: drop_ama r
  | [] => []
  end.

(** ** The transformation: transform.py.  New nodes have the type Unknown and
    no [prom_type].  [expand]ing an [escolha] leaves its parts as they are. *)

Definition opcao_ty (t : cty) : M bool := gst (fun st => is_opcao (strip st t)).

(** transform.py:66-104 *)
Definition t_false : cty := CPrim TBool.
Definition trans_escolha (ln : Z) (e : tx) (cases : list (tx * tx)) (d : option tx) : tx :=
  let eq (c : tx) := TBin ln BEq c e t_false false in
  match cases, d with
  | [], None => TNoOp 0
  | [], Some d => TSe ln (TConst ln Ast.KBool (txt "verdadeiro") (CPrim TUnknown) false) d [] None
  | (c, b) :: r, d => TSe ln (eq c) b (map (fun p => TSenaoSe ln (eq (fst p)) (snd p)) r) d
  end.

Definition tx_line (x : tx) : Z :=
  match x with
  | TConst l _ _ _ _ | TVar l _ _ _ _ | TAlvo l _ _ | TPath l _ _ | TUn l _ _ _ _ | TBin l _ _ _ _ _
  | TCall l _ _ _ _ _ | TNamed l _ _ _ | TConv l _ _ | TIndex l _ _ _ | TIndexSet l _ _ _ | TGet l _ _ _
  | TSet l _ _ _ | TUnwrap l _ _ | TFmt l _ _ | TList l _ _ | TAssign l _ _ _ _ | TIguala l _ _ _ _
  | TYield l _ _ _ | TDecl l _ _ _ | TMostra l _ | TRet l _ | TProduz l _ | TLoopCtl l _ | TSe l _ _ _ _
  | TSenaoSe l _ _ | TEnquanto l _ _ | TPara l _ _ _ _ _ | TEscolha l _ _ _ | TFunc l _ _ | TReg l _ _
  | TUni l _ _ | TNoOp l => l
  | TBlock _ _ | TSkip _ => 1
  end.

(** [sym.name = sym.out_id = f"{fpath}::{sym.name}"; self.program.symbols.define(...)] *)
Definition rename_into (fpath : text) (i : nat) : M text :=
  x <- sym_at i ;;
  let n := fpath ++ txt "::" ++ s_name x in
  upd_sym i (s_set_names n) ;;; g <- gcx cx_global ;; define g n i ;;; cret n.

(** [transform_call] after its parts: transform.py:114-160.  The case of a callee
    that is still a [Get] on a module cannot arise. *)
Definition trans_call (ln : Z) (i : nat) (callee : tx) (args : list tx) (t : cty) (pr : bool) : M tx :=
  s <- sym_at i ;;
  m <- gcx cx_module ;;
  let external := negb (text_eqb (s_mod s) m) in
  if negb (s_prop s) && negb external then cret (TCall ln i callee args t pr)
  else
    match callee with
    | TGet _ target member _ =>
        o <- opcao_ty (tx_ty target) ;;
        if o && text_eqb member (txt "valor_ou") then
          match args with
          | a :: _ => cret (TUnwrap (tx_line target) target (Some a))
          | [] => crash
          end
        else
          match s_kind s with
          | SMet tg r ps =>
              (match assoc (txt "alvo") ps with
               | Some j => upd_sym i (s_set_kind (SMet tg r ((txt "alvo", j)
                             :: filter (fun p => negb (text_eqb (fst p) (txt "alvo"))) ps)))
               | None => j <- new_var (txt "alvo") r ;; upd_sym i (s_set_kind (SMet tg r ((txt "alvo", j) :: ps)))
               end) ;;;
              n <- (if external then rename_into (s_mod s) i else cret (s_name s)) ;;
              cret (TCall ln i (TVar ln n None (CPrim TUnknown) false) (target :: args) (CPrim TUnknown) false)
          | _ => crash
          end
    | _ => cret (TCall ln i callee args t pr)
    end.

(** [transform_get] after its target: transform.py:162-180. *)
Definition trans_get (ln : Z) (target : tx) (member : text) (t : cty) : M tx :=
  match tx_ty target with
  | CMod p =>
      sc <- mod_scope p ;;
      o <- gst (fun st => resolve_sc st sc member) ;; i <- must o ;;
      n <- rename_into p i ;;
      cret (TVar ln n None (CPrim TUnknown) false)
  | _ =>
      o <- opcao_ty (tx_ty target) ;;
      if o && text_eqb member (txt "valor") then cret (TUnwrap (tx_line target) target None)
      else cret (TGet ln target member t)
  end.

Fixpoint trans (x : tx) : M tx :=
  match x with
  | TUn l o e t p => e <- trans e ;; cret (TUn l o e t p)
  | TBin l o a b t p => b <- trans b ;; a <- trans a ;; cret (TBin l o a b t p)
  | TCall l i f args t p => f <- trans f ;; args <- mapc trans args ;; trans_call l i f args t p
  | TNamed l n e t => e <- trans e ;; cret (TNamed l n e t)
  | TConv l e t => e <- trans e ;; cret (TConv l e t)
  | TIndex l a i t => a <- trans a ;; i <- trans i ;; cret (TIndex l a i t)
  | TIndexSet l a v t => a <- trans a ;; v <- trans v ;; cret (TIndexSet l a v t)
  | TGet l a m t => a <- trans a ;; trans_get l a m t
  | TSet l a v t => a <- trans a ;; v <- trans v ;; cret (TSet l a v t)
  | TFmt l ps t => ps <- mapc trans ps ;; cret (TFmt l ps t)
  | TList l ps t => ps <- mapc trans ps ;; cret (TList l ps t)
  | TAssign l n i r t => r <- trans r ;; cret (TAssign l n i r t)
  | TIguala l e bs tree t => e <- trans e ;; bs <- mapc trans bs ;; cret (TIguala l e bs tree t)
  | TYield l sc ch t => ch <- mapc trans ch ;; cret (TYield l sc ch t)
  | TDecl l n t (Some e) => e <- trans e ;; cret (TDecl l n t (Some e))
  | TMostra l e => e <- trans e ;; cret (TMostra l e)
  | TRet l (Some e) => e <- trans e ;; cret (TRet l (Some e))
  | TProduz l e => e <- trans e ;; cret (TProduz l e)
  | TSe l c th elifs el =>
      c <- trans c ;; th <- trans th ;; elifs <- mapc trans elifs ;;
      el <- (match el with Some e => e <- trans e ;; cret (Some e) | None => cret None end) ;;
      cret (TSe l c th elifs el)
  | TSenaoSe l c b => c <- trans c ;; b <- trans b ;; cret (TSenaoSe l c b)
  | TEnquanto l c b => c <- trans c ;; b <- trans b ;; cret (TEnquanto l c b)
  | TPara l v a z inc b =>
      a <- trans a ;; z <- trans z ;;
      inc <- (match inc with Some e => e <- trans e ;; cret (Some e) | None => cret None end) ;;
      b <- trans b ;; cret (TPara l v a z inc b)
  | TEscolha l e cs d => cret (trans_escolha l e cs d)
  | TBlock sc ch => ch <- mapc trans ch ;; cret (TBlock sc ch)
  | TFunc l s (Some b) => b <- trans b ;; cret (TFunc l s (Some b))
  | TSkip true => crash
  | TConst _ _ _ _ _ | TVar _ _ _ _ _ | TAlvo _ _ _ | TPath _ _ _ | TUnwrap _ _ _ | TDecl _ _ _ None | TRet _ None
  | TLoopCtl _ _ | TFunc _ _ None | TReg _ _ _ | TUni _ _ _ | TNoOp _ | TSkip false => cret x
  end.

(** ** Modules: check/core.py:44-76, 304-462 *)
Section Modules.
Variable F : front_env.
Variable U : uni.

Definition builtins_path : text := path_join (f_std F) (txt "embutidos.ama").

(** [parse(filename)]: parse.py:1350-1355. *)
Definition parse_file (p : text) : M smodule :=
  match f_text F p with
  | None => crash
  | Some src =>
      match parse U src with
      | POk m _ => cret m
      | PErr l _ => fun _ => CErr p l
      | PCrash => crash
      | PFuel => fun _ => CFuel
      end
  end.

(** [validate_builtin_module], [visit_module]: what it leaves in the module. *)
Definition visit_module (usa : smode -> text -> M unit) (m : smodule) : M minfo :=
  p <- gcx cx_module ;;
  b <- (match find (fun a => text_eqb (an_name a) (txt "embutido")) (sm_annots m) with
        | None => cret false
        | Some a => if text_eqb (fst (path_split p)) (f_std F) then cret true else cerr_at (t_line (an_tok a))
        end) ;;
  body <- visit_all F usa (sm_children m) ;;
  body <- mapc trans body ;;
  g <- gcx cx_global ;;
  cret (mkMinfo false b (Some g) body).

Definition set_mod (p : text) (i : minfo) : M unit := mst (fun st => with_mods st (assoc_set (so_mods st) p i)).
Definition set_loaded (p : text) : M unit :=
  o <- gst (fun st => assoc p (so_mods st)) ;; i <- must o ;;
  set_mod p (mkMinfo true (mi_builtin i) (mi_scope i) (mi_body i)).

(** The symbols of the primitive types, which all analysers share; they come
    first in the store: types/builtins.py:12-21, 40-48. *)
Definition prims : list prim := [TInt; Types.TReal; TBool; TTexto; Types.TVazio; TIndef; Types.TNulo].
Definition init_store : store :=
  mkStore (map (fun p => mkSymbol (prim_name p) (prim_name p) true false builtins_path false (SPrim p)) prims)
          [] [] None [] [].

(** [load_module] with mode [Global] for a module that is not in [imports]. *)
Definition load_global (usa : smode -> text -> M unit) (p : text) : M unit :=
  prev <- gcx cx_module ;;
  set_module p ;;;
  mst (fun st => with_imports st (so_imports st ++ [p])) ;;;
  m <- parse_file p ;;
  i <- visit_module usa m ;;
  set_mod p i ;;; set_loaded p ;;;
  set_module prev.

(** [Analyzer.__init__] for module [p].  The import paths are taken to exist. *)
Definition start_analyzer (usa : smode -> text -> M unit) (p : text) : M unit :=
  g <- new_scope None ;; t <- new_scope None ;;
  mcx (fun _ => mkCx g 0 g 0 false None None false p t) ;;;
  mapc (fun e => define g (prim_name (fst e)) (snd e)) (combine prims (seq 0 (List.length prims))) ;;;
  mst (fun st => with_imports st []) ;;;
  load_global usa builtins_path ;;;
  o <- gst (fun st => scope_get st g (txt "Opcao")) ;;
  i <- must o ;; x <- sym_at i ;;
  match s_kind x with
  | SReg _ _ [_] => mst (fun st => with_opcao st (Some i))
  | _ => crash
  end.

Definition define_alias (alias imported : text) : M unit :=
  ln <- gcx cx_line ;;
  assert_free ln alias ;;;
  i <- new_sym (mkSymbol alias alias false false imported false (SVar (CMod imported))) ;;
  g <- gcx cx_global ;; define g alias i.

Fixpoint define_items (imported prev : text) (l : list text) : M unit :=
  match l with
  | [] => cret tt
  | n :: r =>
      sc <- mod_scope imported ;;
      o <- gst (fun st => resolve_sc st sc n) ;;
      set_module prev ;;;
      match o with
      | None => ccerr
      | Some i => ln <- gcx cx_line ;; assert_free ln n ;;; g <- gcx cx_global ;; define g n i ;;; define_items imported prev r
      end
  end.
Definition items (imported prev : text) (l : list text) : M unit :=
  match l with [] => crash | _ => define_items imported prev l end.

(** [load_module_scoped]: the importing analyser goes on where it was. *)
Definition load_scoped (usa : smode -> text -> M unit) (p : text) : M unit :=
  cx <- gcx (fun c => c) ;;
  imports <- gst so_imports ;;
  start_analyzer usa p ;;;
  mst (fun st => with_imports st imports) ;;;
  m <- parse_file p ;;
  i <- visit_module usa m ;;
  set_mod p i ;;;
  mcx (fun _ => cx).

Definition load_module (usa : smode -> text -> M unit) (p : text) (mode : smode) : M unit :=
  known <- gst (fun st => existsb (text_eqb p) (so_imports st)) ;;
  loaded <- gst (fun st => match assoc p (so_mods st) with Some i => mi_loaded i | None => false end) ;;
  prev <- gcx cx_module ;;
  if known then
    if loaded then
      match mode with
      | MGlobal => cret tt
      | MScoped a => define_alias (lex_text a) p
      | MItem l => items p prev l
      end
    else ccerr
  else
    match mode with
    | MGlobal => load_global usa p
    | MScoped a =>
        set_module p ;;;
        mst (fun st => with_imports st (so_imports st ++ [p])) ;;;
        load_scoped usa p ;;;
        define_alias (lex_text a) p ;;;
        set_loaded p ;;; set_module prev
    | MItem l =>
        set_module p ;;;
        mst (fun st => with_imports st (so_imports st ++ [p])) ;;;
        (match l with [] => crash | _ => cret tt end) ;;;
        load_scoped usa p ;;;
        items p prev l ;;;
        set_loaded p ;;; set_module prev
    end.

(** [resolve_import], [visit_usa]. *)
Definition resolve_import (p : text) : option text :=
  if f_isfile F p then Some (f_abs F p)
  else let q := path_join (f_std F) p in if f_isfile F q then Some (f_abs F q) else None.
Fixpoint visit_usa (fuel : nat) (mode : smode) (w : text) : M unit :=
  match fuel with
  | O => fun _ => CFuel
  | S fuel =>
      let p := filter (fun c => negb ((c =? 34) || (c =? 39))%N) w in
      let '(head, tail) := path_split p in
      match tail with
      | [] => ccerr
      | _ =>
          let tail := if text_eqb (last_part tail) (txt "ama") then tail else tail ++ txt ".ama" in
          match resolve_import (path_join head tail) with
          | None => ccerr
          | Some q => load_module (visit_usa fuel) q mode
          end
      end
  end.

(** [run_frontend]: __main__.py:22-31. *)
Definition run_frontend (fuel : nat) (p : text) : M minfo :=
  m <- parse_file p ;;
  start_analyzer (visit_usa fuel) p ;;;
  visit_module (visit_usa fuel) m.
Definition start_sst : sst := mkSst init_store (mkCx 0 0 0 0 false None None false [] 0).
Definition analyse (fuel : nat) (p : text) : cres minfo := run_frontend fuel p start_sst.
End Modules.

(** ** The tree codegen.py reads

    [scope_symtab] is followed as the generator changes it (codegen.py:432-452):
    leaving the last block of an [iguala] makes the scope of the [iguala] current,
    not the one that was current before.  The generator's own model ([CodeGen.v])
    keeps a stack of scopes instead, so names that it would look up there are given
    their symbol here.  [LUnsup]: not expressible in [Ast.node]. *)
Inductive lres (A : Type) := LOk (a : A) | LCrash | LUnsup.
Arguments LOk {A}. Arguments LCrash {A}. Arguments LUnsup {A}.
Definition lbind {A B} (m : lres A) (f : A -> lres B) : lres B :=
  match m with LOk a => f a | LCrash => LCrash | LUnsup => LUnsup end.
Notation "'let^' x ':=' a 'in' b" := (lbind a (fun x => b)) (at level 200, x pattern, right associativity).
Definition lsome {A} (o : option A) : lres A := match o with Some a => LOk a | None => LCrash end.

Section Lower.
Variable st : store.

Definition kind_of (x : symbol) : symkind :=
  match s_kind x with SVar _ => KVar | SFun _ _ => KFunc | SMet _ _ _ => KMethod | SPrim _ => KPrim | _ => KOther end.
Definition sym_of (x : symbol) : sym := mkSym (s_name x) (s_out x) (s_global x) (s_mod x) (kind_of x).
Definition get_sym (i : nat) : lres sym :=
  match nth_error (so_syms st) i with Some x => LOk (sym_of x) | None => LCrash end.
Definition scope_syms (sc : nat) : scope :=
  match nth_error (so_scopes st) sc with
  | None => []
  | Some s => flat_map (fun e => match nth_error (so_syms st) (snd e) with
                                 | Some x => [(fst e, sym_of x)]
                                 | None => []
                                 end) (sc_syms s)
  end.
Definition up_of (sc : nat) : option nat :=
  match nth_error (so_scopes st) sc with Some s => sc_up s | None => None end.
Definition lookup (cur : option nat) (n : text) : lres nat :=
  match cur with Some c => lsome (resolve_sc st c n) | None => LCrash end.
Definition leave_cur (cur : option nat) : lres (option nat) := match cur with Some c => LOk (up_of c) | None => LCrash end.

(** [variant_id]: types/core.py:444-445. *)
Definition variant_id (i : nat) : lres text :=
  let^ x := lsome (nth_error (so_syms st) i) in
  match s_kind x with
  | SVariant _ u _ => let^ y := lsome (nth_error (so_syms st) u) in
                      LOk (s_mod x ++ txt "::" ++ s_name y ++ txt "::" ++ s_name x)
  | _ => LCrash
  end.
Fixpoint lmap {A B} (f : A -> lres B) (l : list A) : lres (list B) :=
  match l with [] => LOk [] | x :: r => let^ y := f x in let^ ys := lmap f r in LOk (y :: ys) end.

Definition is_nulo (t : cty) : bool := match t with CPrim Types.TNulo => true | _ => false end.
Definition is_indef (t : cty) : bool := match t with CPrim TIndef => true | _ => false end.
Definition type_symbol (t : cty) : lres sym :=
  match t with
  | CPrim p => match find (fun x => match s_kind x with SPrim q => prim_eqb p q | _ => false end) (so_syms st) with
               | Some x => LOk (sym_of x)
               | None => LUnsup
               end
  | CReg i | CUni i => get_sym i
  | CCon (CReg i) _ | CCon (CUni i) _ =>
      let^ x := lsome (nth_error (so_syms st) i) in LOk (mkSym (s_name x) (s_name x) true (s_mod x) KOther)
  | _ => LUnsup
  end.

Definition tcons (c : dcons) : lres pcons :=
  match c with
  | KInt z => LOk (PInt z)
  | KStr t => LOk (PStr t)
  | KVariant u tag =>
      let^ x := lsome (nth_error (so_syms st) u) in
      match s_kind x with
      | SUni vs _ _ => let^ v := lsome (nth_error vs tag) in let^ n := variant_id (snd v) in LOk (PVariant n)
      | _ => LCrash
      end
  | KBool _ => LCrash
  end.

(** Threading [scope_symtab] through a list of nodes. *)
Definition lseq (f : tx -> option nat -> lres (node * option nat)) : list tx -> option nat -> lres (list node * option nat) :=
  fix go l cur := match l with
                  | [] => LOk ([], cur)
                  | x :: r => let^ (y, cur) := f x cur in let^ (ys, cur) := go r cur in LOk (y :: ys, cur)
                  end.
Definition lopt (f : tx -> option nat -> lres (node * option nat)) (o : option tx) (cur : option nat) : lres (option node * option nat) :=
  match o with Some x => let^ (y, cur) := f x cur in LOk (Some y, cur) | None => LOk (None, cur) end.

(** A declaration without a value, for a name whose current symbol is not the
    one the enclosing blocks give: codegen.py:537-556. *)
Definition default_init (ln : Z) (n : text) (t : cty) (x : sym) : node :=
  let k w := NConst ln Ast.KInt w false in
  NAssign ln n x (match t with
                  | CPrim TInt => k (txt "0")
                  | CPrim Types.TReal => k (txt "0.0")
                  | CPrim TTexto => NConst ln KText (txt "''") false
                  | _ => NConst ln Ast.KBool (txt "falso") false
                  end) false.

(** [lex]: the innermost enclosing block's scope; [cur]: [scope_symtab]. *)
Fixpoint lower (lex : nat) (x : tx) (cur : option nat) {struct x} : lres (node * option nat) :=
  match x with
  | TConst l k w _ p => LOk (NConst l k w p, cur)
  | TVar l n s _ p =>
      let^ i := match s with Some i => LOk i | None => lookup cur n end in
      let^ y := get_sym i in LOk (NVar l n (Some y) p, cur)
  | TAlvo l i _ => let^ y := get_sym i in LOk (NAlvo l y, cur)
  | TPath l i _ =>
      let^ x := lsome (nth_error (so_syms st) i) in
      let^ v := variant_id i in LOk (NPath l v (is_callable x), cur)
  | TUn l o e _ p => let^ (e, cur) := lower lex e cur in LOk (NUn l o e p, cur)
  | TBin l o a b _ p =>
      let na := is_nulo (tx_ty a) in let nb := is_nulo (tx_ty b) in
      let^ (a, cur) := lower lex a cur in let^ (b, cur) := lower lex b cur in LOk (NBin l o na nb a b p, cur)
  | TCall l i f args _ p =>
      let^ s := lsome (nth_error (so_syms st) i) in
      let k := match s_kind s with SVariant _ _ _ => CVariant | SPrim _ | SReg _ _ _ | SUni _ _ _ | STVar => CType | _ => CFunction end in
      let^ (args, cur) := lseq (lower lex) args cur in
      let^ (f, cur) := lower lex f cur in
      LOk (NCall l k f args p, cur)
  | TNamed l n e _ => let^ (e, cur) := lower lex e cur in LOk (NNamed l n e, cur)
  | TConv l e t =>
      let te := tx_ty e in
      let^ (e, cur) := lower lex e cur in
      if ty_eqb (strip st t) (strip st te) || is_indef t then LOk (NConv l e None, cur)
      else let^ y := type_symbol t in LOk (NConv l e (Some (y, is_indef te)), cur)
  | TIndex l a i _ => let^ (a, cur) := lower lex a cur in let^ (i, cur) := lower lex i cur in LOk (NIndex l a i, cur)
  | TIndexSet l t v _ =>
      match t with
      | TIndex _ a i _ =>
          let^ (a, cur) := lower lex a cur in let^ (i, cur) := lower lex i cur in
          let^ (v, cur) := lower lex v cur in LOk (NIndexSet l a i v, cur)
      | _ => LCrash
      end
  | TGet l a m _ => let^ (a, cur) := lower lex a cur in LOk (NGet l a m, cur)
  | TSet l t v _ =>
      match t with
      | TGet gl a m _ =>
          let^ (a, cur) := lower lex a cur in
          let^ (v, cur) := lower lex v cur in
          LOk (NSet l gl a m (match v with NGet vl b n => NField vl b n | _ => v end), cur)
      | _ => LUnsup
      end
  | TUnwrap l o d => let^ (o, cur) := lower lex o cur in let^ (d, cur) := lopt (lower lex) d cur in LOk (NUnwrap l o d, cur)
  | TFmt l ps _ => let^ (ps, cur) := lseq (lower lex) ps cur in LOk (NFmt l ps, cur)
  | TList l ps _ => let^ (ps, cur) := lseq (lower lex) ps cur in LOk (NList l ps, cur)
  | TAssign l n i r _ =>
      let^ (r, cur) := lower lex r cur in let^ y := get_sym i in LOk (NAssign l n y r false, cur)
  | TIguala l _ bodies tree _ =>
      let fs := map (fun b => match b with
                              | TYield _ sc _ _ => Some (lower sc b)
                              | _ => None
                              end) bodies in
      let^ (t, cur) :=
        (fix go (d : dtree) (cur : option nat) : lres (node * option nat) :=
           match d with
           | DFail => LCrash
           | DSucc a binds =>
               let^ f := lsome (match nth_error fs a with Some o => o | None => None end) in
               let^ bs := lmap (fun b => let^ y := get_sym (snd b) in LOk (fst b, y)) binds in
               let^ (b, cur) := f cur in LOk (NSuccess bs b, cur)
           | DSwitch v cases _ =>
               let^ y := get_sym v in
               let^ (cs, cur) :=
                 (fix gos (l : list (dcons * list nat * dtree)) (cur : option nat) : lres (list node * option nat) :=
                    match l with
                    | [] => LOk ([], cur)
                    | (c, args, b) :: r =>
                        let^ c := tcons c in
                        let^ args := lmap get_sym args in
                        let^ (b, cur) := go b cur in
                        let^ (r, cur) := gos r cur in LOk (NCase c args b :: r, cur)
                    end) cases cur in
               LOk (NSwitch y cs None, cur)
           end) tree cur in
      LOk (NIguala l t, cur)
  | TYield l sc ch _ =>
      let^ (ch, cur) := lseq (lower sc) ch (Some sc) in
      let^ cur := leave_cur cur in LOk (NYield l (scope_syms sc) ch, cur)
  | TDecl l n t None =>
      let^ i := lookup cur n in
      let^ y := get_sym i in
      match resolve_sc st lex n with
      | Some j => if (i =? j)%nat then LOk (NVarDecl l n (ty_name (strip st t)) None, cur)
                  else LOk (NVarDecl l n (ty_name (strip st t)) (Some (default_init l n t y)), cur)
      | None => LOk (NVarDecl l n (ty_name (strip st t)) (Some (default_init l n t y)), cur)
      end
  | TDecl l n t (Some e) => let^ (e, cur) := lower lex e cur in LOk (NVarDecl l n (ty_name (strip st t)) (Some e), cur)
  | TMostra l e => let^ (e, cur) := lower lex e cur in LOk (NMostra l e, cur)
  | TRet l e => let^ (e, cur) := lopt (lower lex) e cur in LOk (NRet l e, cur)
  | TProduz l e => let^ (e, cur) := lower lex e cur in LOk (NProduz l e, cur)
  | TLoopCtl l q => LOk (NLoopCtl l q, cur)
  | TSe l c th elifs el =>
      let^ (c, cur) := lower lex c cur in let^ (th, cur) := lower lex th cur in
      let^ (elifs, cur) := lseq (lower lex) elifs cur in let^ (el, cur) := lopt (lower lex) el cur in
      LOk (NSe l c th elifs el, cur)
  | TSenaoSe l c b => let^ (c, cur) := lower lex c cur in let^ (b, cur) := lower lex b cur in LOk (NSenaoSe l c b, cur)
  | TEnquanto l c b =>
      match b with
      | TBlock sc ch =>
          let^ (c, cur) := lower sc c (Some sc) in
          let^ (ch, cur) := lseq (lower sc) ch cur in
          let^ cur := leave_cur cur in LOk (NEnquanto l c (NBlock (scope_syms sc) ch), cur)
      | _ => LCrash
      end
  | TPara l v a z inc b =>
      match b with
      | TBlock sc ch =>
          let^ (a, cur) := lower sc a (Some sc) in
          let^ (z, cur) := lower sc z cur in
          let^ (ch, cur) := lseq (lower sc) ch cur in
          let^ (inc, cur) := lopt (lower sc) inc cur in
          let^ cur := leave_cur cur in LOk (NPara l v a z inc (NBlock (scope_syms sc) ch), cur)
      | _ => LCrash
      end
  | TBlock sc ch =>
      let^ (ch, cur) := lseq (lower sc) ch (Some sc) in
      let^ cur := leave_cur cur in LOk (NBlock (scope_syms sc) ch, cur)
  | TFunc l i b =>
      let^ s := lsome (nth_error (so_syms st) i) in
      let ps := match s_kind s with SFun _ ps | SMet _ _ ps => ps | _ => [] end in
      let^ ps := lmap (fun p => let^ y := get_sym (snd p) in LOk (fst p, y)) ps in
      if s_builtin s then LOk (NFunc l (sym_of s) ps true (NBlock [] []), cur)
      else
        match b with
        | Some b => let^ (b, cur) := lower lex b cur in LOk (NFunc l (sym_of s) ps false b, cur)
        | None => LCrash
        end
  | TReg l n i =>
      let^ j := lookup cur n in
      let^ y := lsome (nth_error (so_syms st) i) in
      match s_kind y, resolve_sc st lex n with
      | SReg f _ _, Some k =>
          if (j =? k)%nat then LOk (NRegisto l n (map fst (match nth_error (so_scopes st) f with Some s => sc_syms s | None => [] end)), cur)
          else LUnsup
      | _, _ => LUnsup
      end
  | TUni l n _ =>
      let^ j := lookup cur n in
      let^ y := lsome (nth_error (so_syms st) j) in
      match s_kind y with
      | SUni vs _ _ => let^ ids := lmap (fun v => variant_id (snd v)) vs in LOk (NUniao l n ids, cur)
      | _ => LCrash
      end
  | TNoOp l => LOk (NNoOp l, cur)
  | TEscolha _ _ _ _ => LCrash   (* [bad_gen]: an [escolha] inside an [escolha] is not rewritten *)
  | TSkip _ => LCrash
  end.

(** One module. *)
Definition lower_module (p : text) (m : minfo) : lres amodule :=
  let^ g := lsome (mi_scope m) in
  let name := drop_ama (snd (path_split p)) in
  if mi_builtin m then LOk (mkAMod p name true (scope_syms g) [])
  else
    let^ (body, _) := lseq (lower g) (mi_body m) (Some g) in
    LOk (mkAMod p name false (scope_syms g) body).
End Lower.

(** ** The whole front end and the program it hands to the VM *)
Inductive fres :=
| FProgram (p : program)         (* handed to the VM *)
| FError (path : text) (line : Z)  (* AmandaError, reported to the user *)
| FCrash                         (* any other Python exception *)
| FUnsup                         (* outside this model *)
| FFuel.

Definition front (F : front_env) (U : uni) (fuel : nat) (p : text) : fres :=
  match analyse F U fuel p with
  | CErr q l => FError q l
  | CCrash => FCrash
  | CFuel => FFuel
  | COk m s =>
      let st := sst_st s in
      match lmap (fun q => match assoc q (so_mods st) with Some i => lower_module st q i | None => LCrash end) (so_imports st),
            lower_module st p m with
      | LOk imports, LOk main =>
          match build (builtins_path F) main imports with
          | PyOk (Some prog) => FProgram prog
          | PyOk None => FUnsup
          | PyErr _ => FCrash
          end
      | LUnsup, _ | _, LUnsup => FUnsup
      | _, _ => FCrash
      end
  end.

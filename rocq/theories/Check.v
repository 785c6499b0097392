(** The semantic analyser: /repo/amanda/compiler/check/core.py, check/uniao.py
    and check/iguala.py.

    An error keeps the file and line it is reported at and not its message.  Any
    other Python exception is [CCrash].  A type name that has been hidden by a
    variable, function or method of the same name makes the code use that symbol
    as a type; here the analysis crashes at that point, in Python it does so when
    the symbol is first asked for a type's operation. *)
From Verif Require Import Lexer Base Dec Bson Value Ast Types Syntax Parser Sym Exhaust.
Local Open Scope Z_scope.
Local Open Scope chk_scope.

(** What the analyser asks of the outside: [path.isfile], [path.abspath], the
    text of a file, [STD_LIB], the order in which a Python set of type parameters
    is iterated, and which names are Python keywords or builtins. *)
Record front_env := mkFront {
  f_isfile : text -> bool; f_abs : text -> text; f_text : text -> option text; f_std : text;
  f_order : list text -> list text; f_reserved : text -> bool
}.

(** What a node's parent is, as far as [child_of] is asked: [PCall], [PAdt]
    ([ADTPattern]), [PExpr] (any other [Expr]), [PLast] (an [Expr] whose last
    child this is), [PStmt] ([Statement]) and [PNone].  [PField] is a [Registo]'s
    field, whose [visit_vardecl] is called without [visit]. *)
Inductive par := PCall | PAdt | PExpr | PLast | PStmt | PNone | PField.
(** [in_eval_ctx]: check/core.py:893-898. *)
Definition in_eval (p : par) : bool := match p with PNone | PField => false | _ => true end.

(** ** [has_return]: check/core.py:79-138. *)
Fixpoint has_return (x : sx) : bool :=
  match x with
  | XBlock ch => existsb has_return ch
  | XSe _ _ th _ (Some el) => has_return th && has_return el
  | XIguala _ _ arms =>
      forallb (fun a => match a with
                        | XArm _ _ (XYield _ _ ch) => existsb has_return ch
                        | _ => false
                        end) arms
      && existsb (fun a => match a with XArm _ (PaBind _) _ => true | _ => false end) arms
  | XEnquanto _ _ b => has_return b
  | XPara _ _ _ _ _ b => has_return b
  | XRet _ _ => true
  | _ => false
  end.

(** Whether [transform_call] would be reached in a tree that was not checked. *)
Fixpoint calls (x : sx) : bool :=
  match x with
  | XCall _ _ => true
  | XUn _ e | XNamed _ e | XConv _ e _ | XMostra _ e | XProduz _ e | XGet e _ => calls e
  | XBin _ a b | XIndex _ a b | XIndexSet _ a b | XSet a b | XAssign _ a b | XSenaoSe _ a b | XEnquanto _ a b
  | XCaso _ a b => calls a || calls b
  | XFmt _ l | XList _ _ l | XBlock l | XYield _ _ l => existsb calls l
  | XIguala _ e l => calls e || existsb calls l
  | XArm _ _ b => calls b
  | XDecl _ _ _ (Some (_, e)) => calls e
  | XRet _ (Some e) => calls e
  | XSe _ a b l o => calls a || calls b || existsb calls l || match o with Some e => calls e | None => false end
  | XPara _ _ a b i blk => calls a || calls b || calls blk || match i with Some e => calls e | None => false end
  | XFunc _ _ _ _ _ (Some b) => calls b
  | XMet _ _ _ _ _ _ b => calls b
  | XReg _ _ l _ => existsb calls l
  | _ => false
  end.

Definition is_prefix_suffix_underscore (n : text) : bool :=
  match n, rev n with a :: _, b :: _ => ((a =? 95) && (b =? 95))%N | _, _ => false end.

Definition is_embutido (l : list annot) : bool := existsb (fun a => text_eqb (an_name a) (txt "embutido")) l.

Definition bop_of (k : tk) : option bop :=
  match k with
  | TPlus => Some BAdd | TMinus => Some BSub | TStar => Some BMul | TSlash => Some BDiv | TDoubleSlash => Some BFloorDiv
  | TModulo => Some BMod | TE => Some BAnd | TOu => Some BOr | TDoubleEqual => Some BEq | TNotEqual => Some BNe
  | TGreater => Some BGt | TGreaterEq => Some BGe | TLess => Some BLt | TLessEq => Some BLe
  | _ => None
  end.
Definition uop_of (k : tk) : option uop :=
  match k with TMinus => Some UMinus | TPlus => Some UPlus | TNao => Some UNot | _ => None end.

(** [self.token.lexeme], a Python string or number, as the text [str] gives (for
    a real, the digits it was read from). *)
Definition lex_str (t : token) : text := match t_lex t with LText w => w | LReal w => w | LInt z => dec_Z z end.
Definition lex_is (t : token) (n : text) : bool := match t_lex t with LText w => text_eqb w n | _ => false end.

Section Check.
Variable F : front_env.

(** [is_valid_name], [define_symbol]: check/core.py:157-177. *)
Definition valid_name (n : text) : bool := negb (is_prefix_suffix_underscore n || f_reserved F n).
Definition define_symbol (i : nat) (depth : nat) (sc : nat) : M unit :=
  x <- sym_at i ;;
  n <- count sc ;;
  (if negb (valid_name (s_name x)) || (1 <=? depth)%nat then upd_sym i (s_set_out (out_name depth n)) else cret tt) ;;;
  define sc (s_name x) i.

(** A new [VariableSymbol] of the module being checked. *)
Definition new_var (n : text) (t : cty) : M nat :=
  m <- gcx cx_module ;; new_sym (mkSymbol n n false false m false (SVar t)).

(** [scope.resolve(name)] where the result is used as a type. *)
Definition named_type (o : option nat) : M cty :=
  i <- must o ;; x <- sym_at i ;; must (sym_type i x).

(** [get_type_sym_or_err]: check/core.py:179-187. *)
Definition type_sym (n : text) : M nat :=
  o <- resolve_here n ;;
  o <- (match o with Some i => cret (Some i) | None => t <- gcx cx_ty ;; gst (fun st => resolve_sc st t n) end) ;;
  match o with
  | None => ccerr
  | Some i => x <- sym_at i ;; match sym_type i x with Some _ => cret i | None => ccerr end
  end.

(** [get_mod_or_err]: check/core.py:199-205. *)
Definition mod_or_err (sc : nat) (n : text) : M text :=
  o <- gst (fun st => resolve_sc st sc n) ;;
  match o with
  | None => ccerr
  | Some i => x <- sym_at i ;;
              match sym_type i x with
              | Some _ => crash
              | None => match sym_ty x with Some (CMod p) => cret p | _ => ccerr end
              end
  end.
(** [module.ast.symbols] *)
Definition mod_scope (p : text) : M nat :=
  o <- gst (fun st => match assoc p (so_mods st) with Some m => mi_scope m | None => None end) ;; must o.

Definition opcao (t : cty) : M cty :=
  o <- gst so_opcao ;; i <- must o ;; cret (CCon (CReg i) [(txt "T", t)]).

Definition is_cvar (t : cty) : bool := match t with CVar _ => true | _ => false end.

(** [construct_ty]: check/core.py:207-234, with the generic arguments already
    read.  They are read before the result is needed only when there are any. *)
Definition construct_ty (i : nat) (gargs : option (list (M cty))) (q : bool) : M cty :=
  x <- sym_at i ;;
  t <- must (sym_type i x) ;;
  if q then opcao t
  else
    match gargs with
    | None | Some [] => cret t
    | Some args =>
        tps <- (match s_kind x with SReg _ _ tps => cret tps | SUni _ _ tps => cret tps | _ => ccerr end) ;;
        if negb (List.length tps =? List.length args)%nat then ccerr
        else
          ts <- mapc (fun a => a) args ;;
          if forallb is_cvar ts then cret t
          else match s_kind x with
               | SReg _ _ _ => cret (CCon t (combine tps ts))
               | _ => crash
               end
    end.

(** [get_type]: check/core.py:236-269. *)
Fixpoint get_type (y : sty) : M cty :=
  match y with
  | YArr el q => t <- get_type el ;; if q then opcao (CVec t) else cret (CVec t)
  | YPath _ comps gargs q =>
      match comps with
      | [] => crash
      | h :: rest =>
          sc <- gcx cx_scope ;;
          m <- mod_or_err sc h ;;
          m <- (fix go (m : text) (l : list text) : M text :=
                  match l with
                  | [] | [_] => cret m
                  | c :: r => sc <- mod_scope m ;; m' <- mod_or_err sc c ;; go m' r
                  end) m rest ;;
          sc <- mod_scope m ;;
          o <- gst (fun st => resolve_sc st sc (last comps [])) ;;
          match o with
          | None => ccerr
          | Some i => x <- sym_at i ;;
                      match sym_type i x with
                      | None => ccerr
                      | Some _ => construct_ty i (match gargs with Some l => Some (map get_type l) | None => None end) q
                      end
          end
      end
  | YName t gargs q =>
      i <- type_sym (lex_text t) ;;
      construct_ty i (match gargs with Some l => Some (map get_type l) | None => None end) q
  end.
Definition get_type_opt (o : option sty) : M cty :=
  match o with Some y => get_type y | None => r <- resolve_here (txt "vazio") ;; named_type r end.

(** [Type.zero_initialized]: types/builtins.py:12-20. *)
Definition zero_initialized (t : cty) : bool :=
  match t with CPrim TInt | CPrim Types.TReal | CPrim TBool | CPrim TTexto => true | _ => false end.

(** [enter_scope], [leave_scope]: check/core.py:274-285. *)
Definition enter_scope (o : option nat) : M nat :=
  d <- gcx cx_depth ;; cur <- gcx cx_scope ;;
  sc <- (match o with Some sc => cret sc | None => new_scope (Some cur) end) ;;
  set_scope (S d) sc ;;; cret sc.
Definition leave_scope : M unit :=
  d <- gcx cx_depth ;; cur <- gcx cx_scope ;;
  s <- gst (fun st => nth_error (so_scopes st) cur) ;; s <- must s ;; up <- must (sc_up s) ;;
  set_scope (pred d) up.

(** [get_generic_params], [get_generic_ty_ctx], [leave_ty_ctx]:
    check/core.py:662-682, 287-288. *)
Definition generic_params (l : list token) : list text := f_order F (nodup (list_eq_dec N.eq_dec) (map lex_text l)).
Definition define_params (sc : nat) (ps : list text) : M unit :=
  m <- gcx cx_module ;;
  mapc (fun n => i <- new_sym (mkSymbol n n false false m false STVar) ;; define sc n i) ps ;;; cret tt.
Definition enter_generics (ps : list text) : M unit :=
  t <- gcx cx_ty ;; sc <- new_scope (Some t) ;; define_params sc ps ;;; set_ty_ctx sc.
Definition leave_ty_ctx : M unit :=
  t <- gcx cx_ty ;; s <- gst (fun st => nth_error (so_scopes st) t) ;; s <- must s ;; up <- must (sc_up s) ;; set_ty_ctx up.

(** [assert_can_use_ident]: check/core.py:464-470. *)
Definition assert_free (ln : Z) (n : text) : M unit :=
  o <- get_here n ;;
  match o with
  | None => cret tt
  | Some _ => r <- gcx cx_reg ;; if r then set_line ln ;;; ccerr else ccerr
  end.

(** [bind] on a property of a [ConstructedTy]: symbols/core.py:20-23, 65-106. *)
Definition bind_var (args : list (text * cty)) (i : nat) : M nat :=
  x <- sym_at i ;;
  match s_kind x with
  | SVar (CVar n) => t <- must (assoc n args) ;; new_sym (mkSymbol (s_name x) (s_name x) false false (s_mod x) false (SVar t))
  | SVar _ => cret i
  | _ => crash
  end.
Definition has_generic (st : store) (ps : list (text * nat)) : bool :=
  existsb (fun p => match nth_error (so_syms st) (snd p) with
                    | Some x => match s_kind x with SVar t => is_cvar t | _ => false end
                    | None => false
                    end) ps.
Definition bind_sym (args : list (text * cty)) (i : nat) : M nat :=
  x <- sym_at i ;;
  match s_kind x with
  | SVar _ => bind_var args i
  | SMet target r ps =>
      g <- gst (fun st => has_generic st ps) ;;
      ps' <- (if g || is_cvar r then mapc (fun p => j <- bind_var args (snd p) ;; cret (fst p, j)) ps else cret ps) ;;
      r' <- (match r with CVar n => must (assoc n args) | _ => cret r end) ;;
      new_sym (mkSymbol (s_name x) (s_name x) false true (s_mod x) false (SMet target r' ps'))
  | _ => crash
  end.

(** [get_property]: types/core.py:75-76, 258-259, 413-414, 541-542, 650-654,
    symbols/base.py:163-164. *)
Fixpoint get_property (t : cty) (n : text) : M (option nat) :=
  match t with
  | CPrim p => gst (fun st => match find (fun e => prim_eqb (fst e) p) (so_prims st) with
                              | Some e => assoc n (snd e)
                              | None => None
                              end)
  | CVec _ | CVar _ => cret None
  | CReg i => x <- sym_at i ;;
              match s_kind x with
              | SReg f ms _ => gst (fun st => match scope_get st f n with Some j => Some j | None => assoc n ms end)
              | _ => crash
              end
  | CUni i => x <- sym_at i ;; match s_kind x with SUni _ ms _ => cret (assoc n ms) | _ => crash end
  | CMod p => sc <- mod_scope p ;; gst (fun st => resolve_sc st sc n)
  | CCon g args => o <- get_property g n ;;
                   match o with None => cret None | Some i => j <- bind_sym args i ;; cret (Some j) end
  end.

(** [define_method]: types/core.py:70-73, 416-417, 558-559, 611-612; vectors, type
    variables and modules raise. *)
Fixpoint define_method (t : cty) (n : text) (i : nat) : M unit :=
  match t with
  | CPrim p => mst (fun st => with_prims st
                 (match find (fun e => prim_eqb (fst e) p) (so_prims st) with
                  | Some _ => map (fun e => if prim_eqb (fst e) p then (fst e, assoc_set (snd e) n i) else e) (so_prims st)
                  | None => so_prims st ++ [(p, [(n, i)])]
                  end))
  | CReg j => upd_sym j (fun x => match s_kind x with
                                  | SReg f ms tp => s_set_kind (SReg f (assoc_set ms n i) tp) x
                                  | _ => x
                                  end)
  | CUni j => upd_sym j (fun x => match s_kind x with
                                  | SUni vs ms tp => s_set_kind (SUni vs (assoc_set ms n i) tp) x
                                  | _ => x
                                  end)
  | CCon g _ => define_method g n i
  | CVec _ | CVar _ | CMod _ => crash
  end.

Definition max_params : nat := 255.

(** [define_func_scope]: check/core.py:581-596. *)
Fixpoint read_params (seen : list (text * nat)) (l : list sparam) : M (list (text * nat)) :=
  match l with
  | [] => cret seen
  | p :: r =>
      let n := lex_text (sp_name p) in
      match assoc n seen with
      | Some _ => ccerr
      | None => set_line (t_line (sp_name p)) ;;;
                t <- get_type (sp_ty p) ;; i <- new_var n t ;; read_params (seen ++ [(n, i)]) r
      end
  end.
Definition define_func_scope (l : list sparam) : M (nat * list (text * nat)) :=
  ps <- read_params [] l ;;
  cur <- gcx cx_scope ;; d <- gcx cx_depth ;;
  sc <- new_scope (Some cur) ;;
  mapc (fun p => define_symbol (snd p) (S d) sc) ps ;;;
  cret (sc, ps).

(** [validate_decl_in_scope]: check/core.py:495-503. *)
Definition validate_decl (n : text) : M unit :=
  d <- gcx cx_depth ;;
  if (0 <? d)%nat then ccerr
  else o <- get_here n ;; match o with Some _ => ccerr | None => cret tt end.

(** The name of a type, for [full_field_path]: symbols/base.py:147-148. *)
Definition type_name (t : cty) : M text := gst (fun st => ty_name (strip st t)).

(** [UniaoVariant]s: check/uniao.py:30-41. *)
Fixpoint check_variants (u : nat) (l : list svariant) : M unit :=
  match l with
  | [] => cret tt
  | v :: r =>
      set_line (t_line (sv_name v)) ;;;
      let n := lex_text (sv_name v) in
      x <- sym_at u ;;
      match s_kind x with
      | SUni vs ms tp =>
          match assoc n vs with
          | Some _ => ccerr
          | None =>
              ts <- mapc get_type (sv_params v) ;;
              i <- new_sym (mkSymbol n n false false (s_mod x) false (SVariant (List.length vs) u ts)) ;;
              upd_sym u (s_set_kind (SUni (vs ++ [(n, i)]) ms tp)) ;;;
              check_variants u r
          end
      | _ => crash
      end
  end.

(** ** Patterns: check/iguala.py:80-146. *)
Definition pat_int (t : token) : M Z := match t_lex t with LInt z => cret z | _ => crash end.
Definition check_binding (sc : nat) (t : token) (ty : cty) : M xpat :=
  let n := lex_text t in
  o <- gst (fun st => scope_get st sc n) ;;
  match o with
  | Some _ => cerr_at (t_line t)
  | None => i <- new_var n ty ;; d <- gcx cx_depth ;; define_symbol i (S d) sc ;;; cret (QBind n)
  end.
(** Sub-patterns; those without a parameter are not looked at. *)
Fixpoint check_subs (sc : nat) (ps : list spat) (ts : list cty) : M (list xpat) :=
  match ps, ts with
  | p :: ps', t :: ts' =>
      q <- (match p with
            | PaBind v => check_binding sc v t
            | PaInt v => z <- pat_int v ;; cret (QInt z)
            | PaStr v => cret (QStr (lex_str v))
            | PaAdt _ _ _ _ => crash
            end) ;;
      qs <- check_subs sc ps' ts' ;; cret (q :: qs)
  | _, _ => cret []
  end.

(** [visit_path] up to the symbol it finds: check/core.py:823-843. *)
Fixpoint walk_path (i : nat) (l : list token) : M nat :=
  match l with
  | [] => cret i
  | c :: r => x <- sym_at i ;;
              match s_kind x with
              | SUni vs _ _ => match assoc (lex_text c) vs with Some j => walk_path j r | None => ccerr end
              | _ => ccerr
              end
  end.
Definition visit_path (h : token) (l : list token) (p : par) : M (nat * cty) :=
  o <- resolve_here (lex_text h) ;;
  match o with
  | None => ccerr
  | Some i =>
      j <- walk_path i l ;;
      x <- sym_at j ;;
      match s_kind x, p with
      | SVariant _ _ (_ :: _), (PExpr | PLast | PStmt | PNone) => ccerr
      | _, _ => t <- must (sym_ty x) ;; cret (j, t)
      end
  end.

(** [visit_variable]: check/core.py:807-821. *)
Definition visit_variable (n : text) : M (nat * cty) :=
  o <- resolve_here n ;;
  match o with
  | None => ccerr
  | Some i => x <- sym_at i ;;
              if can_evaluate x then t <- must (sym_ty x) ;; cret (i, t) else ccerr
  end.

Definition check_pattern (sc : nat) (p : spat) (target : cty) : M xpat :=
  q <- (match p with
        | PaAdt path h l args =>
            set_line (t_line h) ;;;
            (if path then
               r <- visit_path h l PAdt ;;
               x <- sym_at (fst r) ;;
               match s_kind x with
               | SVariant tag u ts =>
                   match ts, args with
                   | [], _ :: _ => ccerr
                   | _, _ => qs <- check_subs sc args ts ;; cret (QAdt tag qs, CUni u)
                   end
               | _ => crash
               end
             else visit_variable (lex_text h) ;;; crash)
        | PaInt t => z <- pat_int t ;; cret (QInt z, CPrim TInt)
        | PaStr t => cret (QStr (lex_str t), CPrim TTexto)
        | PaBind t => q <- check_binding sc t target ;; cret (q, target)
        end) ;;
  e <- ty_eq (snd q) target ;;
  if e then cret (fst q) else ccerr.

Definition constructors_of (st : store) (t : cty) : option (list (dcons * list cty)) :=
  match t with
  | CPrim TBool => Some [(KBool false, []); (KBool true, [])]
  | CUni u =>
      match nth_error (so_syms st) u with
      | Some x => match s_kind x with
                  | SUni vs _ _ =>
                      Some (flat_map (fun e => match nth_error (so_syms st) (snd e) with
                                               | Some v => match s_kind v with
                                                           | SVariant tag _ ts => [(KVariant u tag, ts)]
                                                           | _ => []
                                                           end
                                               | None => []
                                               end) vs)
                  | _ => None
                  end
      | None => None
      end
  | _ => None
  end.
Definition infinite_type (t : cty) : bool := match t with CPrim TInt | CPrim TTexto => true | _ => false end.

Definition add_vars (l : list xvar) (sc : nat) (dict : list (text * nat)) : M unit :=
  m <- gcx cx_module ;;
  mst (fun st => with_syms st (so_syms st ++ map (fun v => mkSymbol (xv_name v) (xv_name v) false false m false (SVar (xv_ty v))) l)) ;;;
  mst (fun st => with_scopes st (upd (so_scopes st) sc (fun s => mkScope dict (sc_up s)))).

(** [declare_block_symbols]: exhaustiveness.py:227-243. *)
Definition declare_leaf (scs : list nat) (e : nat * list (text * nat)) : M unit :=
  sc <- must (nth_error scs (fst e)) ;;
  mapc (fun b => v <- sym_at (snd b) ;; t <- must (sym_ty v) ;;
                 i <- new_sym (mkSymbol (fst b) (fst b) false false (s_mod v) false (SVar t)) ;;
                 define sc (fst b) i) (snd e) ;;; cret tt.

(** ** Calls *)
Definition is_named (x : sx) : bool := match x with XNamed _ _ => true | _ => false end.

(** Matching checked arguments with parameter types, in order. *)
Fixpoint match_args (ts : list cty) (l : list tx) : M (list tx) :=
  match ts, l with
  | t :: ts', x :: l' =>
      promotes (tx_ty x) t ;;;
      ok <- match_ty t (tx_ty x) ;;
      if negb ok then ccerr
      else r <- match_args ts' l' ;; cret (set_prom (to_real (tx_ty x) t) x :: r)
  | _, l => cret l
  end.

Definition param_types (ps : list (text * nat)) : M (list cty) :=
  mapc (fun p => x <- sym_at (snd p) ;; must (sym_ty x)) ps.

Definition builtin_fn (n : text) : option text :=
  find (text_eqb n) [txt "vec"; txt "tam"; txt "anexa"; txt "remova"].

Section Visit.
(** [visit_usa], which needs the analyser again for the module it loads. *)
Variable usa : smode -> text -> M unit.

(** [visit] and the [visit_...] methods.  [p]: the node's parent; [sc]: the scope
    given to a block; [again]: the node has been visited before (the last block of
    an [iguala] that is reached in two ways).  The result is the annotated node
    and, for a [Get], the symbol of its member. *)
Fixpoint visit (x : sx) (p : par) (sc : option nat) (again : bool) {struct x} : M (tx * option nat) :=
  (match p with PField => cret tt | _ => set_line (t_line (node_tok x)) end) ;;;
  match x with
  (* check/core.py:772-789 *)
  | XConst t =>
      match t_kind t with
      | TInteger =>
          o <- resolve_here (txt "int") ;; ty <- named_type o ;;
          match t_lex t with
          | LInt z => if (max_i64 <? z)%Z then ccerr else cret (TConst (t_line t) Ast.KInt (lex_str t) ty false, None)
          | _ => crash
          end
      | Lexer.TReal => cret (TConst (t_line t) KReal (lex_str t) (CPrim Types.TReal) false, None)
      | TString => cret (TConst (t_line t) KText (lex_str t) (CPrim TTexto) false, None)
      | TVerdadeiro | TFalso => cret (TConst (t_line t) Ast.KBool (lex_str t) (CPrim TBool) false, None)
      | Lexer.TNulo => cret (TConst (t_line t) KNulo (lex_str t) (CPrim Types.TNulo) false, None)
      | _ => crash
      end
  | XPart t => cret (TConst (t_line t) KPart (lex_str t) (CPrim TTexto) false, None)
  | XVar t => r <- visit_variable (lex_text t) ;; cret (TVar (t_line t) (lex_text t) (Some (fst r)) (snd r) false, None)
  | XPath h l => r <- visit_path h l p ;; cret (TPath (t_line h) (fst r) (snd r), None)
  (* check/core.py:717-727 *)
  | XAlvo t =>
      f <- gcx cx_func ;;
      match f with
      | None => ccerr
      | Some f => s <- sym_at f ;;
                  match s_kind s with
                  | SMet target _ _ => i <- new_var (txt "alvo") target ;; cret (TAlvo (t_line t) i target, None)
                  | _ => ccerr
                  end
      end
  (* check/core.py:998-1009 *)
  | XUn t e =>
      r <- visit e PExpr None again ;;
      op <- must (uop_of (t_kind t)) ;;
      o <- gst (fun st => ty_unop op (strip st (tx_ty (fst r)))) ;;
      match o with
      | None => set_line (t_line t) ;;; ccerr
      | Some _ => cret (TUn (t_line t) op (fst r) (tx_ty (fst r)) false, None)
      end
  (* check/core.py:977-996 *)
  | XBin t a b =>
      ra <- visit a PExpr None again ;;
      rb <- visit b PExpr None again ;;
      op <- must (bop_of (t_kind t)) ;;
      let ta := tx_ty (fst ra) in
      let tb := tx_ty (fst rb) in
      o <- gst (fun st => ty_binop (strip st ta) op (strip st tb)) ;;
      o <- py o ;;
      match o with
      | None => set_line (t_line t) ;;; ccerr
      | Some ty =>
          rt <- (match ty with TyPrim q => cret (CPrim q) | _ => crash end) ;;
          promotes ta tb ;;; promotes tb ta ;;;
          cret (TBin (t_line t) op (set_prom (to_real ta tb) (fst ra)) (set_prom (to_real tb ta) (fst rb)) rt false, None)
      end
  (* check/core.py:1181-1224 *)
  | XCall callee args =>
      r <- (match callee with
            | XVar t => o <- resolve_here (lex_text t) ;;
                        match o with
                        | None => ccerr
                        | Some i => cret (TVar (t_line t) (lex_text t) None (CPrim TUnknown) false, i)
                        end
            | XGet _ _ => r <- visit callee PCall None again ;; i <- must (snd r) ;; cret (fst r, i)
            | XPath _ _ => r <- visit callee PCall None again ;;
                           match fst r with
                           | TPath _ i _ => s <- sym_at i ;; if is_callable s then cret (fst r, i) else ccerr
                           | _ => crash
                           end
            | _ => ccerr
            end) ;;
      let '(f, i) := r in
      s <- sym_at i ;;
      let ln := t_line (node_tok callee) in
      match builtin_fn (s_name s) with
      | Some fn =>
          (* builtin_call: check/core.py:1238-1309 *)
          if text_eqb fn (txt "vec") then
            if (256 <=? List.length args)%nat then crash
            else
              match args with
              | first :: ((_ :: _) as sizes) =>
                  ss <- mapc (fun a => r <- visit a PCall None again ;; g <- tag_of (tx_ty (fst r)) ;;
                                       if prim_eqb g TInt then cret (fst r) else ccerr) sizes ;;
                  match first with
                  | XVar t =>
                      j <- type_sym (lex_text t) ;; e <- sym_at j ;; el <- must (sym_type j e) ;;
                      cret (TCall ln i f (TVar (t_line t) (lex_text t) None (CPrim TUnknown) false :: ss)
                                  (Nat.iter (List.length sizes) CVec el) false, None)
                  | _ => crash
                  end
              | _ => ccerr
              end
          else if text_eqb fn (txt "tam") then
            match args with
            | [a] => r <- visit a PCall None again ;;
                     ok <- gst (fun st => supports_tam (strip st (tx_ty (fst r)))) ;;
                     if negb ok then ccerr
                     else o <- resolve_global (txt "int") ;; ty <- named_type o ;;
                          cret (TCall ln i f [fst r] ty false, None)
            | _ => ccerr
            end
          else
            match args with
            | [] | [_] => crash
            | [a; b] =>
                ra <- visit a PCall None again ;; rb <- visit b PCall None again ;;
                match tx_ty (fst ra) with
                | CVec el =>
                    if text_eqb fn (txt "anexa") then
                      ok <- match_ty el (tx_ty (fst rb)) ;;
                      if negb ok then ccerr
                      else promotes (tx_ty (fst rb)) el ;;;
                           o <- resolve_global (txt "vazio") ;; ty <- named_type o ;;
                           cret (TCall ln i f [fst ra; set_prom (to_real (tx_ty (fst rb)) el) (fst rb)] ty false, None)
                    else if is_int (tx_ty (fst rb)) then cret (TCall ln i f [fst ra; fst rb] el false, None)
                    else ccerr
                | _ => ccerr
                end
            | _ => ccerr
            end
      | None =>
          match s_kind s with
          | SReg fields _ _ =>
              (* validate_initializer: check/core.py:1351-1382 *)
              fs <- gst (fun st => match nth_error (so_scopes st) fields with Some c => sc_syms c | None => [] end) ;;
              if negb (List.length args =? List.length fs)%nat then ccerr
              else
                l <- (fix go (seen : list text) (l : list sx) : M (list tx) :=
                        match l with
                        | [] => cret []
                        | a :: r =>
                            set_line (t_line (node_tok a)) ;;;
                            match a with
                            | XNamed n _ =>
                                ra <- visit a PCall None again ;;
                                match assoc (lex_text n) fs with
                                | None => ccerr
                                | Some j =>
                                    if existsb (text_eqb (lex_text n)) seen then ccerr
                                    else
                                      fx <- sym_at j ;; ft <- must (sym_ty fx) ;;
                                      promotes (tx_ty (fst ra)) ft ;;;
                                      ok <- match_ty ft (tx_ty (fst ra)) ;;
                                      if negb ok then ccerr
                                      else rest <- go (lex_text n :: seen) r ;; cret (fst ra :: rest)
                                end
                            | _ => ccerr
                            end
                        end) [] args ;;
                cret (TCall ln i f l (CReg i) false, None)
          | SVariant _ u ts =>
              (* check/uniao.py:43-62 *)
              if negb (List.length args =? List.length ts)%nat then ccerr
              else
                l <- mapc (fun a => r <- visit a PCall None again ;; cret (fst r)) args ;;
                l <- match_args ts l ;;
                cret (TCall ln i f l (CUni u) false, None)
          | SFun ret ps | SMet _ ret ps =>
              (* validate_call: check/core.py:1329-1349 *)
              l <- mapc (fun a => if is_named a then set_line (t_line (node_tok a)) ;;; ccerr
                                  else r <- visit a PCall None again ;; cret (fst r)) args ;;
              if negb (List.length args =? List.length ps)%nat then ccerr
              else
                ts <- param_types ps ;;
                l <- match_args ts l ;;
                cret (TCall ln i f l ret false, None)
          | _ => ccerr
          end
      end
  | XNamed n e => r <- visit e PExpr None again ;; cret (TNamed (t_line n) (lex_text n) (fst r) (tx_ty (fst r)), None)
  (* check/core.py:968-975 *)
  | XConv t e y =>
      r <- visit e PExpr None again ;;
      ty <- get_type y ;;
      ok <- gst (fun st => check_cast (strip st (tx_ty (fst r))) (strip st ty)) ;;
      ok <- py ok ;;
      if ok then cret (TConv (t_line t) (fst r) ty, None) else ccerr
  (* check/core.py:928-946 *)
  | XIndex t a i =>
      ra <- visit a PExpr None again ;; ri <- visit i PExpr None again ;;
      match tx_ty (fst ra) with
      | CVec el => if is_int (tx_ty (fst ri)) then cret (TIndex (t_line t) (fst ra) (fst ri) el, None) else ccerr
      | CPrim TTexto =>
          if is_int (tx_ty (fst ri)) then cret (TIndex (t_line t) (fst ra) (fst ri) (CPrim TTexto), None) else ccerr
      | _ => ccerr
      end
  (* check/core.py:948-966 *)
  | XIndexSet t i v =>
      ri <- visit i PExpr None again ;;
      let ty := tx_ty (fst ri) in
      (match ty with
       | CVec _ => cret tt
       | CPrim TTexto => ccerr
       | CPrim _ => cret tt
       | _ => crash
       end) ;;;
      rv <- visit v PExpr None again ;;
      ok <- match_ty ty (tx_ty (fst rv)) ;;
      if negb ok then set_line (t_line t) ;;; ccerr
      else cret (TIndexSet (t_line t) (fst ri) (fst rv) ty, None)
  (* check/core.py:873-908 *)
  | XGet a m =>
      ra <- visit a PExpr None again ;;
      o <- get_property (tx_ty (fst ra)) (lex_text m) ;;
      match o with
      | None => ccerr
      | Some i =>
          s <- sym_at i ;;
          if in_eval p && (match p with PCall => false | _ => true end) && negb (can_evaluate s) then ccerr
          else
            ty <- must (match sym_type i s with Some t => Some t | None => sym_ty s end) ;;
            cret (TGet (t_line m) (fst ra) (lex_text m) ty, Some i)
      end
  (* check/core.py:910-926 *)
  | XSet a v =>
      ra <- visit a PExpr None again ;;
      match fst ra with
      | TGet _ inner _ _ =>
          match tx_ty inner with
          | CMod _ => ccerr
          | _ =>
              rv <- visit v PExpr None again ;;
              let ta := tx_ty (fst ra) in
              promotes (tx_ty (fst rv)) ta ;;;
              ok <- match_ty ta (tx_ty (fst rv)) ;;
              if negb ok then set_line (t_line (node_tok x)) ;;; ccerr
              else cret (TSet (t_line (node_tok x)) (fst ra) (set_prom (to_real (tx_ty (fst rv)) ta) (fst rv)) ta, None)
          end
      | _ => crash
      end
  (* check/core.py:759-769 *)
  | XFmt t parts =>
      o <- resolve_global (txt "texto") ;; ty <- named_type o ;;
      l <- mapc (fun e => r <- visit e PExpr None again ;;
                          ok <- gst (fun st => check_cast (strip st (tx_ty (fst r))) (strip st ty)) ;; ok <- py ok ;;
                          if ok then cret (fst r) else set_line (t_line t) ;;; ccerr) parts ;;
      cret (TFmt (t_line t) l ty, None)
  (* check/core.py:791-804 *)
  | XList t y elems =>
      ty <- get_type y ;;
      l <- mapc (fun e => r <- visit e PExpr None again ;;
                          ok <- match_ty ty (tx_ty (fst r)) ;;
                          if negb ok then ccerr
                          else promotes (tx_ty (fst r)) ty ;;; cret (set_prom (to_real (tx_ty (fst r)) ty) (fst r))) elems ;;
      cret (TList (t_line t) l (CVec ty), None)
  (* check/core.py:1011-1036 *)
  | XAssign t lhs rhs =>
      rv <- visit rhs PExpr None again ;;
      match lhs with
      | XVar v =>
          set_line (t_line v) ;;;
          r <- visit_variable (lex_text v) ;;
          s <- sym_at (fst r) ;; m <- gcx cx_module ;;
          if negb (text_eqb (s_mod s) m) then ccerr
          else
            match snd r with
            | CMod _ => ccerr
            | lt =>
                promotes (tx_ty (fst rv)) lt ;;;
                ok <- match_ty lt (tx_ty (fst rv)) ;;
                if negb ok then set_line (t_line t) ;;; ccerr
                else cret (TAssign (t_line t) (lex_text v) (fst r) (set_prom (to_real (tx_ty (fst rv)) lt) (fst rv)) lt, None)
            end
      | _ => crash
      end
  (* check/iguala.py:13-77 *)
  | XIguala t target arms =>
      cur <- gcx cx_scope ;;
      isc <- new_scope (Some cur) ;;
      enter_scope (Some isc) ;;;
      rt <- visit target PExpr None again ;;
      let tty := tx_ty (fst rt) in
      if is_vazio tty then ccerr
      else
        ps <- mapc (fun a => match a with
                             | XArm _ q _ => asc <- new_scope (Some isc) ;; q' <- check_pattern asc q tty ;; cret (q', asc)
                             | _ => crash
                             end) arms ;;
        tv <- (match fst rt with
               | TVar _ _ (Some i) _ _ => cret i
               | TAlvo _ i _ => cret i
               | _ => i <- new_var (txt "_target_") tty ;; d <- gcx cx_depth ;; define_symbol i d isc ;;; cret i
               end) ;;
        ts <- sym_at tv ;; vty <- must (sym_ty ts) ;;
        dict <- gst (fun st => match nth_error (so_scopes st) isc with Some c => sc_syms c | None => [] end) ;;
        next <- gst (fun st => List.length (so_syms st)) ;;
        out <- gst (fun st => compile_iguala (fun a b => ty_eqb (strip st a) (strip st b)) (constructors_of st) infinite_type
                                (mkXvar tv (s_name ts) vty) (map fst ps) dict next) ;;
        match out with
        | XCrash => crash
        | XFuel => fun _ => CFuel
        | XOk tree xs =>
            add_vars (x_new xs) isc (x_dict xs) ;;;
            if x_missing xs then
              fin <- gst (fun st => match constructors_of st tty with Some _ => true | None => false end) ;;
              if fin && has_str tree then crash else cerr_at (t_line t)
            else
              mapc (declare_leaf (map snd ps)) (declared tree) ;;;
              let bodies := map (fun a => match a with
                                          | XArm _ _ b => visit b PExpr
                                          | _ => fun _ _ => crash
                                          end) arms in
              r <- (fix go (l : list nat) (ty : option cty) (done : list (nat * tx)) : M (option cty * list (nat * tx)) :=
                      match l with
                      | [] => cret (ty, done)
                      | a :: l' =>
                          f <- must (nth_error bodies a) ;;
                          asc <- must (nth_error (map snd ps) a) ;;
                          r <- f (Some asc) (again || existsb (fun e => Nat.eqb (fst e) a) done) ;;
                          ok <- (match ty with None => cret true | Some ty => ty_eq (tx_ty (fst r)) ty end) ;;
                          if negb ok then ccerr
                          else go l' (match ty with None => Some (tx_ty (fst r)) | _ => ty end) ((a, fst r) :: done)
                      end) (x_reach xs) None [] ;;
              ty <- must (fst r) ;;
              leave_scope ;;;
              cret (TIguala (t_line t) (fst rt)
                      (map (fun e => match find (fun d => Nat.eqb (fst d) (fst e)) (snd r) with
                                     | Some d => snd d
                                     | None => TSkip (calls (snd e))
                                     end) (combine (seq 0 (List.length arms)) arms))
                      tree ty, None)
        end
  | XArm _ _ _ => crash
  (* check/core.py:735-752 *)
  | XYield ln _ ch =>
      ysc <- enter_scope sc ;;
      prev <- gcx cx_yield ;;
      set_yield (Some (mkY false (CPrim Types.TVazio)
                           (match last ch (XBlock []) with XProduz _ (XAlvo _) => true | _ => false end))) ;;;
      l <- (fix go (l : list sx) : M (list tx) :=
              match l with
              | [] => cret []
              | c :: r => y <- visit c (match r with [] => PLast | _ => PExpr end) None again ;;
                          ys <- go r ;; cret (fst y :: ys)
              end) ch ;;
      y <- gcx cx_yield ;; y <- must y ;;
      if negb (is_vazio (y_ty y)) && y_ret y then ccerr
      else set_yield prev ;;; leave_scope ;;; cret (TYield ln ysc l (y_ty y), None)
  (* check/core.py:472-493 *)
  | XDecl t name y init =>
      let n := lex_text name in
      assert_free (t_line t) n ;;;
      (if again then crash else cret tt) ;;;
      ty <- get_type y ;;
      i <- new_var n ty ;;
      d <- gcx cx_depth ;; cur <- gcx cx_scope ;;
      define_symbol i d cur ;;;
      r <- (match init with
            | None => reg <- gcx cx_reg ;; if negb reg && negb (zero_initialized ty) then ccerr else cret None
            | Some (ta, e) =>
                if lex_is (node_tok e) n then ccerr
                else
                  (* the [Assign] to the new variable *)
                  set_line (t_line ta) ;;;
                  rv <- visit e PExpr None again ;;
                  set_line (t_line name) ;;;
                  rl <- visit_variable n ;;
                  match snd rl with
                  | CMod _ => ccerr
                  | lt =>
                      promotes (tx_ty (fst rv)) lt ;;;
                      ok <- match_ty lt (tx_ty (fst rv)) ;;
                      if negb ok then set_line (t_line ta) ;;; ccerr
                      else cret (Some (TAssign (t_line ta) n (fst rl) (set_prom (to_real (tx_ty (fst rv)) lt) (fst rv)) lt))
                  end
            end) ;;
      (if (d =? 0)%nat then upd_sym i s_set_global else cret tt) ;;;
      cret (TDecl (t_line t) n ty r, None)
  | XMostra t e => r <- visit e PStmt None again ;; cret (TMostra (t_line t) (fst r), None)
  (* check/core.py:1049-1075 *)
  | XRet t e =>
      f <- gcx cx_func ;;
      match f with
      | None => ccerr
      | Some f =>
          s <- sym_at f ;; ft <- must (sym_ty s) ;;
          match e with
          | None => if negb (is_vazio ft) then ccerr
                    else y <- gcx cx_yield ;;
                         (match y with Some y => set_yield (Some (mkY true (y_ty y) (y_alvo y))) | None => cret tt end) ;;;
                         cret (TRet (t_line t) None, None)
          | Some e =>
              if is_vazio ft then ccerr
              else
                y <- gcx cx_yield ;;
                (match y with Some y => set_yield (Some (mkY true (y_ty y) (y_alvo y))) | None => cret tt end) ;;;
                r <- visit e PStmt None again ;;
                promotes (tx_ty (fst r)) ft ;;;
                ok <- match_ty ft (tx_ty (fst r)) ;;
                if negb ok then ccerr
                else cret (TRet (t_line t) (Some (set_prom (to_real (tx_ty (fst r)) ft) (fst r))), None)
          end
      end
  (* check/core.py:1077-1086 *)
  | XProduz t e =>
      y <- gcx cx_yield ;;
      match y with
      | None => ccerr
      | Some y =>
          if (match p with PLast => true | _ => false end)
             || (y_alvo y && match e with XAlvo _ => true | _ => false end) then
            r <- visit e PStmt None again ;;
            y <- gcx cx_yield ;; y <- must y ;;
            set_yield (Some (mkY (y_ret y) (tx_ty (fst r)) (y_alvo y))) ;;;
            cret (TProduz (t_line t) (fst r), None)
          else ccerr
      end
  (* check/core.py:1041-1047 *)
  | XLoopCtl t =>
      b <- gcx cx_loop ;;
      if b then cret (TLoopCtl (t_line t) (match t_kind t with TQuebra => true | _ => false end), None) else ccerr
  (* check/core.py:1088-1105 *)
  | XSe t c th elifs el =>
      rc <- visit c PNone None again ;;
      g <- tag_of (tx_ty (fst rc)) ;;
      if negb (prim_eqb g TBool) then ccerr
      else
        rt <- visit th PNone None again ;;
        l <- mapc (fun e => r <- visit e PNone None again ;; cret (fst r)) elifs ;;
        ro <- (match el with Some e => r <- visit e PNone None again ;; cret (Some (fst r)) | None => cret None end) ;;
        cret (TSe (t_line t) (fst rc) (fst rt) l ro, None)
  | XSenaoSe t c b =>
      rc <- visit c PNone None again ;;
      match tx_ty (fst rc) with
      | CPrim TBool => rb <- visit b PNone None again ;; cret (TSenaoSe (t_line t) (fst rc) (fst rb), None)
      | _ => ccerr
      end
  (* check/core.py:1134-1148 *)
  | XEnquanto t c b =>
      rc <- visit c PNone None again ;;
      g <- tag_of (tx_ty (fst rc)) ;;
      if negb (prim_eqb g TBool) then set_line (t_line t) ;;; ccerr
      else
        old <- gcx cx_loop ;; set_loop true ;;;
        rb <- visit b PNone None again ;;
        set_loop old ;;;
        cret (TEnquanto (t_line t) (fst rc) (fst rb), None)
  (* check/core.py:1150-1175 *)
  | XPara t name a z inc b =>
      ra <- visit a PNone None again ;; rz <- visit z PNone None again ;;
      ri <- (match inc with Some i => r <- visit i PNone None again ;; cret (Some (fst r)) | None => cret None end) ;;
      if negb (is_int (tx_ty (fst ra)) && is_int (tx_ty (fst rz))
               && match ri with Some i => is_int (tx_ty i) | None => true end) then ccerr
      else
        o <- resolve_here (txt "int") ;; ty <- named_type o ;;
        i <- new_var (lex_text name) ty ;;
        d <- gcx cx_depth ;; cur <- gcx cx_scope ;;
        psc <- new_scope (Some cur) ;;
        define_symbol i (S d) psc ;;;
        rb <- visit b PNone (Some psc) again ;;
        cret (TPara (t_line t) (lex_text name) (fst ra) (fst rz) ri (fst rb), None)
  (* check/core.py:1107-1125 *)
  | XEscolha t e cases df =>
      re <- visit e PNone None again ;;
      g <- tag_of (tx_ty (fst re)) ;;
      if negb (prim_eqb g TInt || prim_eqb g TTexto) then ccerr
      else
        l <- mapc (fun c => match c with
                            | XCaso _ ce cb =>
                                rc <- visit ce PNone None again ;;
                                ok <- match_ty (tx_ty (fst re)) (tx_ty (fst rc)) ;;
                                if negb ok then ccerr
                                else rb <- visit cb PNone None again ;; cret (fst rc, fst rb)
                            | _ => crash
                            end) cases ;;
        d <- (match df with Some b => r <- visit b PNone None again ;; cret (Some (fst r)) | None => cret None end) ;;
        cret (TEscolha (t_line t) (fst re) l d, None)
  | XCaso _ _ _ => crash
  (* check/core.py:729-733 *)
  | XBlock ch =>
      bsc <- enter_scope sc ;;
      l <- mapc (fun c => r <- visit c PNone None again ;; cret (fst r)) ch ;;
      leave_scope ;;;
      cret (TBlock bsc l, None)
  (* check/core.py:552-579 *)
  | XFunc name ps y native ans blk =>
      let n := lex_text name in
      validate_decl n ;;;
      (if (max_params <? List.length ps)%nat then ccerr else cret tt) ;;;
      ty <- get_type_opt y ;;
      m <- gcx cx_module ;;
      i <- new_sym (mkSymbol n n false false m (is_embutido ans) (SFun ty [])) ;;
      get_type_opt y ;;;
      upd_sym i s_set_global ;;;
      d <- gcx cx_depth ;; cur <- gcx cx_scope ;;
      define_symbol i d cur ;;;
      r <- define_func_scope ps ;;
      upd_sym i (s_set_kind (SFun ty (snd r))) ;;;
      if is_embutido ans || native then
        cret (TFunc (t_line name) i (match blk with Some b => Some (TSkip (calls b)) | None => None end), None)
      else
        match blk with
        | None => crash
        | Some b =>
            if negb (has_return b) && negb (is_vazio ty) then set_line (t_line name) ;;; ccerr
            else
              old <- gcx cx_func ;; set_func (Some i) ;;;
              rb <- visit b PNone (Some (fst r)) again ;;
              set_func old ;;;
              cret (TFunc (t_line name) i (Some (fst rb)), None)
        end
  (* check/core.py:598-660 *)
  | XMet gps target name ps ret ans b =>
      let g := generic_params gps in
      enter_generics g ;;;
      tt0 <- get_type target ;;
      let n := lex_text name in
      tn <- type_name tt0 ;;
      o <- get_property tt0 n ;;
      match o with
      | Some _ => ccerr
      | None =>
          validate_decl (tn ++ txt "::" ++ n) ;;;
          rty <- get_type_opt ret ;;
          m <- gcx cx_module ;;
          i <- new_sym (mkSymbol n n false true m (is_embutido ans) (SMet tt0 rty [])) ;;
          upd_sym i s_set_global ;;;
          d <- gcx cx_depth ;; cur <- gcx cx_scope ;;
          define_symbol i d cur ;;;
          r <- define_func_scope ps ;;
          upd_sym i (s_set_kind (SMet tt0 rty (snd r))) ;;;
          av <- new_var (txt "alvo") tt0 ;;
          define_symbol av (S d) (fst r) ;;;
          define_params (fst r) g ;;;
          blk <- (if is_embutido ans then cret (TSkip (calls b))
                  else if negb (has_return b) && negb (is_vazio rty) then set_line (t_line name) ;;; ccerr
                  else
                    old <- gcx cx_func ;; set_func (Some i) ;;;
                    rb <- visit b PNone (Some (fst r)) again ;;
                    set_func old ;;; cret (fst rb)) ;;
          define_method tt0 n i ;;;
          leave_ty_ctx ;;;
          cret (TFunc (t_line name) i (Some blk), None)
      end
  (* check/core.py:687-715 *)
  | XReg name gps fields _ =>
      let n := lex_text name in
      cur <- gcx cx_scope ;; d <- gcx cx_depth ;;
      rsc <- new_scope (Some cur) ;;
      o <- get_here n ;;
      match o with
      | Some _ => ccerr
      | None =>
          let g := generic_params gps in
          enter_generics g ;;;
          m <- gcx cx_module ;;
          i <- new_sym (mkSymbol n n true false m false (SReg rsc [] g)) ;;
          define_symbol i d cur ;;;
          set_reg true ;;;
          enter_scope (Some rsc) ;;;
          mapc (fun f => visit f PField None again) fields ;;;
          fs <- gst (fun st => match nth_error (so_scopes st) rsc with Some c => sc_syms c | None => [] end) ;;
          mapc (fun e => upd_sym (snd e) s_set_prop) fs ;;;
          leave_scope ;;;
          define_symbol i d cur ;;;
          leave_ty_ctx ;;;
          set_reg false ;;;
          cret (TReg (t_line name) n i, None)
      end
  (* check/uniao.py:9-28 *)
  | XUni name gps vs _ =>
      let n := lex_text name in
      cur <- gcx cx_scope ;; d <- gcx cx_depth ;;
      usc <- new_scope (Some cur) ;;
      o <- get_here n ;;
      match o with
      | Some _ => ccerr
      | None =>
          let g := generic_params gps in
          enter_generics g ;;;
          m <- gcx cx_module ;;
          i <- new_sym (mkSymbol n n true false m false (SUni [] [] g)) ;;
          define_symbol i d cur ;;;
          enter_scope (Some usc) ;;;
          check_variants i vs ;;;
          leave_scope ;;;
          leave_ty_ctx ;;;
          cret (TUni (t_line name) n i, None)
      end
  | XUsa t mode modl => usa mode (lex_text modl) ;;; cret (TNoOp (t_line t), None)
  end.

(** [visit_children] of a module: check/core.py:317-326. *)
Definition visit_all (l : list sx) : M (list tx) :=
  mapc (fun c => r <- visit c PNone None false ;; cret (fst r)) l.
End Visit.
End Check.

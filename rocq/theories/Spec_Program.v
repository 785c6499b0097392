(** Whole programs as a programmer thinks of them, and the words they are
    written with.  Used to state C44; written without the parser. *)
From Verif Require Import Base Lexer Spec_Lex Syntax Spec_Parse.
Local Open Scope list_scope.

(** ** Programs *)

(** What an arm of [iguala] looks for: a number, a text, anything (giving it a
    name), or a variant with patterns for what it holds. *)
Inductive pt :=
| PtInt (z : Z)
| PtText (w : text)
| PtName (n : text)
| PtVariant (n : text) (path : list text) (args : list pt).

(** [@name(key = "value", ...)] *)
Record note := mkNote { nt_name : text; nt_attrs : list (text * text) }.

Inductive st :=
| SLine (l : line)
| SDecl (n : text) (t : ty) (v : option ex)                      (* n : t = v *)
| SRet (v : option ex)                                           (* retorna v *)
| SYield (v : ex)                                                (* produz v *)
| SBreak                                                         (* quebra *)
| SNext                                                          (* continua *)
| SWhile (c : ex) (b : list st)
| SIf (c : ex) (b : list st) (elifs : list (ex * list st)) (els : option (list st))
| SFor (n : text) (from to : ex) (step : option ex) (b : list st)
| SSwitch (e : ex) (cases : list (ex * list st)) (els : option (list st))
| SMatch (e : ex) (arms : list (pt * list st))
| SFunc (notes : list note) (n : text) (ps : list (text * ty)) (ret : option ty) (b : list st)
| SNative (n : text) (ps : list (text * ty)) (ret : option ty)
| SMethod (notes : list note) (gs : list text) (target : ty) (n : text) (ps : list (text * ty)) (ret : option ty)
    (b : list st)
| SRecord (notes : list note) (n : text) (gs : list text) (fields : list (text * ty * option ex))
| SUnion (notes : list note) (n : text) (gs : list text) (variants : list (text * list ty)).

(** [usa "file"], [usa "file" => name], [usa "file" => [name, ...]]; the file is
    kept with its quotes. *)
Inductive mode := ModAll | ModNamed (n : text) | ModSome (n : text) (l : list text).
Record import := mkImport { im_file : text; im_mode : mode }.
Record program := mkProgram { pg_notes : list note; pg_imports : list import; pg_body : list st }.

(** ** Words *)
Definition kw (k : tk) (s : String.string) : word := lit k (txt s).
Definition w_nl : word := kw TNewline "\n".
Definition w_semi : word := kw TSemi ";".
Definition w_eq : word := kw TEqual "=".
Definition w_fim : word := kw TFim "fim".
Definition w_arrow : word := kw TArrow "=>".
Definition w_path : word := kw TDoubleColon "::".

(** Any number of line ends. *)
Definition lines (k : nat) : list word := repeat w_nl k.

(** A statement of one line ends with the line or with a semicolon. *)
Definition closes (w : word) : Prop := w = w_nl \/ w = w_semi.

Definition show_init (v : option ex) : list word := match v with Some e => w_eq :: show 0 e | None => [] end.

(** Statements of one line, without what closes them. [a, b : t] declares two
    variables; [t op= e] is written for [t = t op e]. *)
Inductive simple : list st -> list word -> Prop :=
| sm_line l : line_ok l -> simple [SLine l] (show_line l)
| sm_compound o w t e : compound o = Some w -> can_set t -> (forall a n, t <> EField a n) ->
    simple [SLine (LSet t (EBin o t e))] (show 0 t ++ w :: show 0 e)
| sm_decl n t v : simple [SDecl n t v] (w_name n :: w_colon :: show_ty t ++ show_init v)
| sm_decls n m l t :
    simple (map (fun n => SDecl n t None) (n :: m :: l))
      (sep w_comma (map (fun n => [w_name n]) (n :: m :: l)) ++ w_colon :: show_ty t)
| sm_ret e : simple [SRet (Some e)] (kw TRetorna "retorna" :: show 0 e)
| sm_yield e : simple [SYield e] (kw TProduz "produz" :: show 0 e)
| sm_break : simple [SBreak] [kw TQuebra "quebra"]
| sm_next : simple [SNext] [kw TContinua "continua"].

Fixpoint show_pt (p : pt) : list word :=
  match p with
  | PtInt z => [(TInteger, LInt z)]
  | PtText w => [lit TString w]
  | PtName n => [w_name n]
  | PtVariant n path args =>
      w_name n :: flat_map (fun d => [w_path; w_name d]) path ++
      match args with [] => [] | _ => w_lpar :: sep w_comma (map show_pt args) ++ [w_rpar] end
  end.

(** A lone name is not a variant. *)
Fixpoint pt_ok (p : pt) : Prop :=
  match p with
  | PtVariant n path args =>
      (path <> [] \/ args <> []) /\ (fix go l := match l with [] => True | q :: l' => pt_ok q /\ go l' end) args
  | _ => True
  end.

(** [name : type], ... *)
Definition show_params (ps : list (text * ty)) : list word :=
  sep w_comma (map (fun p => w_name (fst p) :: w_colon :: show_ty (snd p)) ps).
(** Nothing, [: vazio] or [: type]. *)
Inductive show_ret : option ty -> list word -> Prop :=
| sr_none : show_ret None []
| sr_void : show_ret None [w_colon; kw TVazio "vazio"]
| sr_some t : show_ret (Some t) (w_colon :: show_ty t).
Definition show_ret_met (r : option ty) : list word := match r with Some t => w_colon :: show_ty t | None => [] end.
Definition show_gs (gs : list text) : list word :=
  match gs with [] => [] | _ => w_lbr :: sep w_comma (map (fun n => [w_name n]) gs) ++ [w_rbr] end.

(** Annotations; all on one line. *)
Definition show_note (at_ : word) (a : note) : list word :=
  at_ :: w_name (nt_name a) ::
  match nt_attrs a with
  | [] => []
  | l => w_lpar :: sep w_comma (map (fun kv => [w_name (fst kv); w_eq; lit TString (snd kv)]) l) ++ [w_rpar]
  end.
Definition note_ok (a : note) : Prop := NoDup (map fst (nt_attrs a)).
Inductive show_notes : list note -> list word -> Prop :=
| sn_none : show_notes [] []
| sn_some a l k : Forall note_ok (a :: l) -> show_notes (a :: l) (flat_map (show_note (kw TAt "@")) (a :: l) ++ lines k).

(** The fields of a record: declarations and empty lines. *)
Definition field : Type := text * ty * option ex.
Inductive show_fields : list field -> list word -> Prop :=
| sf_nil k : show_fields [] (lines k)
| sf_one k n t v w l ws : closes w -> show_fields l ws ->
    show_fields ((n, t, v) :: l) (lines k ++ (w_name n :: w_colon :: show_ty t ++ show_init v) ++ w :: ws)
| sf_many k n m ns t w l ws : closes w -> show_fields l ws ->
    show_fields (map (fun n => (n, t, None)) (n :: m :: ns) ++ l)
      (lines k ++ (sep w_comma (map (fun n => [w_name n]) (n :: m :: ns)) ++ w_colon :: show_ty t) ++ w :: ws).

(** The variants of a union, with a comma between two of them. *)
Definition show_variant (v : text * list ty) : list word :=
  w_name (fst v) ::
  match snd v with [] => [] | l => w_lpar :: sep w_comma (map show_ty l) ++ [w_rpar] end.
Inductive show_variants : list (text * list ty) -> list word -> Prop :=
| sv_one v k : show_variants [v] (show_variant v ++ lines k)
| sv_more v k l ws : show_variants l ws -> show_variants (v :: l) (show_variant v ++ w_comma :: lines k ++ ws).
Inductive show_union : list (text * list ty) -> list word -> Prop :=
| su_none k : show_union [] (lines k)
| su_some k l ws : show_variants l ws -> show_union l (lines k ++ ws).

(** Statements and declarations, with blocks written with any empty lines. *)
Inductive writes : list st -> list word -> Prop :=
| wr_simple l ws w : simple l ws -> closes w -> writes l (ws ++ [w])
| wr_ret w : closes w -> writes [SRet None] [kw TRetorna "retorna"; w]
| wr_while c b ws : block b ws ->
    writes [SWhile c b] (kw TEnquanto "enquanto" :: show 0 c ++ kw TFaca "faca" :: ws ++ [w_fim])
| wr_if c b elifs els wb we ws : block b wb -> elses elifs we -> orelse els ws ->
    writes [SIf c b elifs els] (kw TSe "se" :: show 0 c ++ kw TEntao "entao" :: wb ++ we ++ ws ++ [w_fim])
| wr_for n a z step b ws : block b ws ->
    writes [SFor n a z step b]
      (kw TPara "para" :: w_name n :: kw TDe "de" :: show 0 a ++ kw TDdot ".." :: show 0 z ++
       match step with Some e => kw TInc "inc" :: show 0 e | None => [] end ++ kw TFaca "faca" :: ws ++ [w_fim])
| wr_switch e k cs els wc ws : cases cs wc -> default els ws ->
    writes [SSwitch e cs els] (kw TEscolha "escolha" :: show 0 e ++ w_colon :: lines k ++ wc ++ ws ++ [w_fim])
| wr_match e k arms ws : matches arms ws ->
    writes [SMatch e arms] (kw TIguala "iguala" :: show 0 e ++ lines k ++ ws ++ [w_fim])
(* [se iguala e => p entao ... senao ... fim] is an [iguala] with two arms. *)
| wr_if_match e p b els wb ws : pt_ok p -> block b wb -> orelse els ws ->
    writes [SMatch e [(p, b); (PtName (txt "_"), match els with Some l => l | None => [] end)]]
      (kw TSe "se" :: kw TIguala "iguala" :: show 0 e ++ w_arrow :: show_pt p ++ kw TEntao "entao" :: wb ++ ws ++ [w_fim])
| wr_func notes n ps r b wn wr ws : show_notes notes wn -> show_ret r wr -> block b ws ->
    writes [SFunc notes n ps r b]
      (wn ++ kw TFunc "func" :: w_name n :: w_lpar :: show_params ps ++ w_rpar :: wr ++ w_nl :: ws ++ [w_fim])
| wr_native n ps r wr w : show_ret r wr -> closes w ->
    writes [SNative n ps r]
      (kw TFunc "func" :: kw TNativa "nativa" :: w_name n :: w_lpar :: show_params ps ++ w_rpar :: wr ++ [w])
(* Without type parameters, the type cannot begin with a bracket. *)
| wr_method notes gs t n ps r b wn ws : show_notes notes wn -> block b ws -> (gs = [] -> forall el q, t <> TyList el q) ->
    writes [SMethod notes gs t n ps r b]
      (wn ++ kw TMet "met" :: show_gs gs ++ show_ty t ++ w_path :: w_name n :: w_lpar :: kw TAlvo "alvo" ::
       match ps with [] => [] | _ => w_comma :: show_params ps end ++ w_rpar :: show_ret_met r ++ w_nl :: ws ++ [w_fim])
| wr_record notes n gs fs wn ws : show_notes notes wn -> show_fields fs ws ->
    writes [SRecord notes n gs fs] (wn ++ kw TRegisto "registo" :: w_name n :: show_gs gs ++ ws ++ [w_fim])
| wr_union notes n gs vs wn ws : show_notes notes wn -> show_union vs ws ->
    writes [SUnion notes n gs vs] (wn ++ kw TUniao "uniao" :: w_name n :: show_gs gs ++ ws ++ [w_fim])
with block : list st -> list word -> Prop :=
| bl_nil : block [] []
| bl_line l ws : block l ws -> block l (w_nl :: ws)
| bl_cons l ws l' ws' : writes l ws -> block l' ws' -> block (l ++ l') (ws ++ ws')
with elses : list (ex * list st) -> list word -> Prop :=
| el_nil : elses [] []
| el_cons c b l wb ws : block b wb -> elses l ws ->
    elses ((c, b) :: l) (kw TSenaoSe "senaose" :: show 0 c ++ kw TEntao "entao" :: wb ++ ws)
with orelse : option (list st) -> list word -> Prop :=
| oe_none : orelse None []
| oe_some b ws : block b ws -> orelse (Some b) (kw TSenao "senao" :: ws)
with cases : list (ex * list st) -> list word -> Prop :=
| cs_nil : cases [] []
| cs_cons e b l wb ws : block b wb -> cases l ws ->
    cases ((e, b) :: l) (kw TCaso "caso" :: show 0 e ++ w_colon :: wb ++ ws)
with default : option (list st) -> list word -> Prop :=
| df_none : default None []
| df_some b ws : block b ws -> default (Some b) (kw TSenao "senao" :: w_colon :: ws)
(* Arms: [p => e] is written for [p => faca produz e fim]; a comma may stand between two of them. *)
with arm : pt * list st -> list word -> Prop :=
| ar_expr k k' p e : pt_ok p ->
    arm (p, [SYield e]) (show_pt p ++ w_arrow :: lines k ++ show 0 e ++ lines k')
| ar_block k k' p b ws : pt_ok p -> block b ws ->
    arm (p, b) (show_pt p ++ w_arrow :: lines k ++ kw TFaca "faca" :: ws ++ w_fim :: lines k')
with matches : list (pt * list st) -> list word -> Prop :=
| ma_arm a l ws ws' : arm a ws -> more l ws' -> matches (a :: l) (ws ++ ws')
with more : list (pt * list st) -> list word -> Prop :=
| mo_none : more [] []
| mo_some l ws : matches l ws -> more l ws
| mo_comma k l ws : matches l ws -> more l (w_comma :: lines k ++ ws).

(** Imports, each on its own line. *)
Inductive show_import : import -> list word -> Prop :=
| si_all f w k : closes w -> show_import (mkImport f ModAll) (kw TUsa "usa" :: lit TString f :: w :: lines k)
| si_named f n k : show_import (mkImport f (ModNamed n)) (kw TUsa "usa" :: lit TString f :: w_arrow :: w_name n :: w_nl :: lines k)
| si_some f n l k :
    show_import (mkImport f (ModSome n l))
      (kw TUsa "usa" :: lit TString f :: w_arrow :: w_lbr :: sep w_comma (map (fun n => [w_name n]) (n :: l)) ++ w_rbr ::
       w_nl :: lines k).
Inductive show_imports : list import -> list word -> Prop :=
| sis_nil : show_imports [] []
| sis_cons i l ws ws' : show_import i ws -> show_imports l ws' -> show_imports (i :: l) (ws ++ ws').

(** The body of a program: a block, whose last line need not be closed. *)
Inductive body_words : list st -> list word -> Prop :=
| bw_block l ws : block l ws -> body_words l ws
| bw_open l ws l' ws' : block l ws -> simple l' ws' -> body_words (l ++ l') (ws ++ ws').

(** A program. Imports follow the annotations on the same line, since no line
    end may stand there. *)
Inductive program_words : program -> list word -> Prop :=
| pw notes is l k wi wb : Forall note_ok notes -> show_imports is wi -> body_words l wb ->
    (notes <> [] -> is = [] -> exists ws, wb = w_nl :: ws) ->
    program_words (mkProgram notes is l) (lines k ++ flat_map (show_note (kw TDoubleAt "@@")) notes ++ wi ++ wb).

(** ** The program a tree of the parser stands for *)
Fixpoint shape_pt (p : spat) : option pt :=
  match p with
  | PaInt t => match t_lex t with LInt z => Some (PtInt z) | _ => None end
  | PaStr t => Some (PtText (lex_text t))
  | PaBind t => Some (PtName (lex_text t))
  | PaAdt _ h tl args => obind (all shape_pt args) (fun l => Some (PtVariant (lex_text h) (map lex_text tl) l))
  end.
Definition shape_note (a : annot) : note := mkNote (an_name a) (an_attrs a).
Definition shape_param (p : sparam) : text * ty := (lex_text (sp_name p), shape_ty (sp_ty p)).
Definition shape_opt (o : option sx) : option (option ex) :=
  match o with Some x => obind (shape x) (fun e => Some (Some e)) | None => Some None end.
Definition shape_field (x : sx) : option field :=
  match x with
  | XDecl _ n y (Some (_, v)) => obind (shape v) (fun v => Some (lex_text n, shape_ty y, Some v))
  | XDecl _ n y None => Some (lex_text n, shape_ty y, None)
  | _ => None
  end.
Definition shape_variant (v : svariant) : text * list ty := (lex_text (sv_name v), map shape_ty (sv_params v)).

Fixpoint shape_st (x : sx) : option st :=
  let blk b := match b with XBlock l => all shape_st l | _ => None end in
  let oblk o := match o with Some b => obind (blk b) (fun l => Some (Some l)) | None => Some None end in
  match x with
  | XDecl _ n y (Some (_, v)) => obind (shape v) (fun v => Some (SDecl (lex_text n) (shape_ty y) (Some v)))
  | XDecl _ n y None => Some (SDecl (lex_text n) (shape_ty y) None)
  | XRet _ o => obind (shape_opt o) (fun v => Some (SRet v))
  | XProduz _ e => obind (shape e) (fun v => Some (SYield v))
  | XLoopCtl t => match t_kind t with TQuebra => Some SBreak | TContinua => Some SNext | _ => None end
  | XEnquanto _ c b => obind (shape c) (fun c => obind (blk b) (fun b => Some (SWhile c b)))
  | XSe _ c b elifs els =>
      obind (shape c) (fun c => obind (blk b) (fun b =>
      obind (all (fun x => match x with XSenaoSe _ c b => obind (shape c) (fun c => obind (blk b) (fun b => Some (c, b)))
                                      | _ => None end) elifs) (fun l =>
      obind (oblk els) (fun els => Some (SIf c b l els)))))
  | XPara _ n a z step b =>
      obind (shape a) (fun a => obind (shape z) (fun z => obind (shape_opt step) (fun step =>
      obind (blk b) (fun b => Some (SFor (lex_text n) a z step b)))))
  | XEscolha _ e cs els =>
      obind (shape e) (fun e =>
      obind (all (fun x => match x with XCaso _ e b => obind (shape e) (fun e => obind (blk b) (fun b => Some (e, b)))
                                      | _ => None end) cs) (fun l =>
      obind (oblk els) (fun els => Some (SSwitch e l els))))
  | XIguala _ e arms =>
      obind (shape e) (fun e =>
      obind (all (fun x => match x with
                           | XArm _ p (XYield _ _ b) => obind (shape_pt p) (fun p => obind (all shape_st b) (fun b => Some (p, b)))
                           | _ => None
                           end) arms) (fun l => Some (SMatch e l)))
  | XFunc n ps y false ans (Some b) =>
      obind (blk b) (fun b => Some (SFunc (map shape_note ans) (lex_text n) (map shape_param ps) (option_map shape_ty y) b))
  | XFunc n ps y true _ None => Some (SNative (lex_text n) (map shape_param ps) (option_map shape_ty y))
  | XMet gs t n ps y ans b =>
      obind (blk b) (fun b => Some (SMethod (map shape_note ans) (map lex_text gs) (shape_ty t) (lex_text n) (map shape_param ps)
                                     (option_map shape_ty y) b))
  | XReg n gs fs ans =>
      obind (all shape_field fs) (fun fs => Some (SRecord (map shape_note ans) (lex_text n) (map lex_text gs) fs))
  | XUni n gs vs ans => Some (SUnion (map shape_note ans) (lex_text n) (map lex_text gs) (map shape_variant vs))
  | _ => obind (shape_line x) (fun l => Some (SLine l))
  end.
Definition shape_import (x : sx) : option import :=
  match x with
  | XUsa _ MGlobal m => Some (mkImport (lex_text m) ModAll)
  | XUsa _ (MScoped n) m => Some (mkImport (lex_text m) (ModNamed (lex_text n)))
  | XUsa _ (MItem (n :: l)) m => Some (mkImport (lex_text m) (ModSome n l))
  | _ => None
  end.

(** The tree of a module: its imports first, then its body. *)
Definition stands_for (m : smodule) (p : program) : Prop :=
  map shape_note (sm_annots m) = pg_notes p /\
  exists a b, sm_children m = a ++ b /\ all shape_import a = Some (pg_imports p) /\ all shape_st b = Some (pg_body p).

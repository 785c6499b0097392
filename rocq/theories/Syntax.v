(** The tree the parser builds: /repo/amanda/compiler/ast.py.

    One constructor per Python class.  A node keeps its tokens; [lineno] is the
    line of the node's token (ast.py:44) unless said otherwise. *)
From Verif Require Import Base Lexer.
Local Open Scope Z_scope.

(** The text of a token that is not a number. *)
Definition lex_text (t : token) : text := match t_lex t with LText w => w | LReal w => w | LInt _ => [] end.

(** [Type], [TypePath], [ArrayType]: ast.py:605-642.  [q] is [maybe_ty]. *)
Inductive sty :=
| YName (t : token) (gargs : option (list sty)) (q : bool)
| YPath (t : token) (comps : list text) (gargs : option (list sty)) (q : bool)
| YArr (el : sty) (q : bool).

(** [Annotation]: ast.py:33-37. *)
Record annot := mkAnnot { an_name : text; an_attrs : list (text * text); an_tok : token }.

(** [Param]: ast.py:597-602. *)
Record sparam := mkParam { sp_name : token; sp_ty : sty }.

(** [UniaoVariant]: ast.py:554-559. *)
Record svariant := mkVariant { sv_name : token; sv_params : list sty }.

(** [UsaMode] with its arguments: ast.py:97-117. *)
Inductive smode := MGlobal | MScoped (alias : token) | MItem (items : list text).

(** Patterns: ast.py:294-347.  [PaAdt] holds the tokens of the [Path] or, when
    [path] is false, of the single [Variable]. *)
Inductive spat :=
| PaInt (t : token)
| PaStr (t : token)
| PaBind (t : token)
| PaAdt (path : bool) (h : token) (tl : list token) (args : list spat).

Inductive sx :=
| XConst (t : token)                         (* Constant *)
| XPart (t : token)                          (* Constant made by parse.py:1202-1204 *)
| XVar (t : token)
| XPath (h : token) (tl : list token)
| XAlvo (t : token)
| XUn (t : token) (e : sx)
| XBin (t : token) (l r : sx)
| XCall (callee : sx) (args : list sx)       (* the ")" token is dropped: ast.py:409-416 *)
| XNamed (name : token) (e : sx)
| XConv (t : token) (e : sx) (ty : sty)
| XIndex (t : token) (target index : sx)
| XIndexSet (t : token) (index value : sx)
| XGet (target : sx) (member : token)
| XSet (target value : sx)
| XFmt (t : token) (parts : list sx)
| XList (t : token) (ty : sty) (elems : list sx)
| XAssign (t : token) (left right : sx)
| XIguala (t : token) (target : sx) (arms : list sx)
| XArm (t : token) (p : spat) (body : sx)
| XYield (ln : Z) (t : token) (ch : list sx) (* [ln] is [lineno] *)
| XDecl (t name : token) (ty : sty) (init : option (token * sx))
| XMostra (t : token) (e : sx)
| XRet (t : token) (e : option sx)
| XProduz (t : token) (e : sx)
| XLoopCtl (t : token)
| XSe (t : token) (c th : sx) (elifs : list sx) (el : option sx)
| XSenaoSe (t : token) (c blk : sx)
| XEnquanto (t : token) (c blk : sx)
| XPara (t name : token) (start stop : sx) (inc : option sx) (blk : sx)
| XEscolha (t : token) (e : sx) (cases : list sx) (default : option sx)
| XCaso (t : token) (e blk : sx)
| XBlock (ch : list sx)
| XFunc (name : token) (params : list sparam) (ty : option sty) (native : bool) (ans : list annot) (blk : option sx)
| XMet (gparams : list token) (target : sty) (name : token) (params : list sparam) (ret : option sty)
    (ans : list annot) (blk : sx)
| XReg (name : token) (gparams : list token) (fields : list sx) (ans : list annot)
| XUni (name : token) (gparams : list token) (variants : list svariant) (ans : list annot)
| XUsa (t : token) (mode : smode) (modl : token).

(** [Module]: ast.py:88-94. *)
Record smodule := mkModule { sm_annots : list annot; sm_children : list sx }.

(** The token a [Block] is given: ast.py:80 (its kind is never looked at). *)
Definition program_tok : token := mkTok TEof (LText []) 1 1.

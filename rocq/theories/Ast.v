(** The tree the code generator reads: the parser's AST after semantic analysis
    and the transformation pass (/repo/amanda/compiler/ast.py, with the
    annotations set by check/core.py and transform.py).

    Python nodes are objects of many classes; [node] has one constructor per
    class the generator handles.  Of the annotations ([eval_type], [prom_type],
    [symbol], ...) a node keeps exactly the ones codegen.py looks at. *)
From Verif Require Import Base.

(** Which class a symbol belongs to; codegen.py:219-232 tests it. *)
Inductive symkind := KVar | KFunc | KMethod | KPrim | KOther.

(** [class Symbol]: symbols/base.py:18-36.  [sy_out] is [out_id], [sy_mod] is
    [module.fpath]. *)
Record sym := mkSym { sy_name : text; sy_out : text; sy_global : bool; sy_mod : text; sy_kind : symkind }.

(** [Scope.symbols]: symbols/core.py:112-120, in insertion order. *)
Definition scope := list (text * sym).

(** The token type of a literal. [KText] is a quoted text; [KPart] is the
    unquoted text between the braces of an f-string (parse.py:1170-1172). *)
Inductive litkind := KInt | KReal | KText | KPart | KBool | KNulo.

Inductive bop := BAdd | BSub | BMul | BDiv | BFloorDiv | BMod | BAnd | BOr
               | BEq | BNe | BGt | BGe | BLt | BLe.
Inductive uop := UMinus | UPlus | UNot.

(** What a call's [symbol] is: codegen.py:867-882. *)
Inductive ckind := CVariant | CType | CFunction.

(** Constructors tested by a decision tree (types/core.py IntCons, StrCons,
    VariantCons). [vid] is the variant's id. *)
Inductive pcons := PInt (z : Z) | PStr (t : text) | PVariant (vid : text).

(** [ln] is [lineno].  [pr] says whether [prom_type] is real, the only case
    [gen_auto_cast] acts on (codegen.py:915-919). *)
Inductive node :=
| NConst (ln : Z) (k : litkind) (lex : text) (pr : bool)
| NVar (ln : Z) (name : text) (s : option sym) (pr : bool)
| NAlvo (ln : Z) (s : sym)
| NPath (ln : Z) (vid : text) (callable : bool)
| NUn (ln : Z) (op : uop) (e : node) (pr : bool)
| NBin (ln : Z) (op : bop) (nl nr : bool) (l r : node) (pr : bool)
    (* [nl], [nr]: the operand's type is nulo *)
| NCall (ln : Z) (k : ckind) (callee : node) (args : list node) (pr : bool)
| NNamed (ln : Z) (name : text) (arg : node)
| NConv (ln : Z) (e : node) (c : option (sym * bool))
    (* [None]: same type or target type indef; otherwise the new type and
       whether the source type is indef *)
| NIndex (ln : Z) (t i : node)
| NIndexSet (ln : Z) (t i v : node)
| NFmt (ln : Z) (parts : list node)
| NList (ln : Z) (elems : list node)
| NGet (ln : Z) (t : node) (member : text)
| NField (ln : Z) (t : node) (member : text)
    (* a [Get] that is the right side of a [Set]: codegen.py:957-958 treats it like the left side *)
| NSet (ln gln : Z) (t : node) (member : text) (v : node)
    (* [gln]: line of the [Get] on the left *)
| NUnwrap (ln : Z) (o : node) (d : option node)
| NAssign (ln : Z) (name : text) (s : sym) (rhs : node) (pr : bool)
    (* [pr] is the [prom_type] an enclosing assignment gives this one; the
       generator does not look at it *)
| NVarDecl (ln : Z) (name : text) (ty : text) (init : option node)
| NSe (ln : Z) (c th : node) (elifs : list node) (el : option node)
| NSenaoSe (ln : Z) (c blk : node)
| NBlock (sc : scope) (ch : list node)
| NEnquanto (ln : Z) (c blk : node)
| NPara (ln : Z) (var : text) (start stop : node) (inc : option node) (blk : node)
| NFunc (ln : Z) (s : sym) (params : list (text * sym)) (builtin : bool) (blk : node)
    (* also [MethodDecl]; [params] is [symbol.params] *)
| NRet (ln : Z) (e : option node)
| NProduz (ln : Z) (e : node)
| NMostra (ln : Z) (e : node)
| NLoopCtl (ln : Z) (quebra : bool)
| NRegisto (ln : Z) (name : text) (fields : list text)
| NUniao (ln : Z) (name : text) (vids : list text)
| NNoOp (ln : Z)  (* also [Usa] *)
| NYield (ln : Z) (sc : scope) (ch : list node)
| NIguala (ln : Z) (tree : node)
(** Decision trees: check/exhaustiveness.py:86-134. *)
| NSuccess (binds : list (text * sym)) (body : node)
| NSwitch (v : sym) (cases : list node) (fallback : option node)
| NCase (c : pcons) (args : list sym) (body : node)
| NFailure.

(** Induction over nodes with the hypotheses for nested lists. *)
Definition optP (P : node -> Prop) (o : option node) : Prop :=
  match o with Some x => P x | None => True end.

Section NodeInd.
Variable P : node -> Prop.
Hypothesis HConst : forall ln k lex pr, P (NConst ln k lex pr).
Hypothesis HVar : forall ln name s pr, P (NVar ln name s pr).
Hypothesis HAlvo : forall ln s, P (NAlvo ln s).
Hypothesis HPath : forall ln vid c, P (NPath ln vid c).
Hypothesis HUn : forall ln op e pr, P e -> P (NUn ln op e pr).
Hypothesis HBin : forall ln op nl nr l r pr, P l -> P r -> P (NBin ln op nl nr l r pr).
Hypothesis HCall : forall ln k callee args pr, P callee -> Forall P args -> P (NCall ln k callee args pr).
Hypothesis HNamed : forall ln name e, P e -> P (NNamed ln name e).
Hypothesis HConv : forall ln e c, P e -> P (NConv ln e c).
Hypothesis HIndex : forall ln t i, P t -> P i -> P (NIndex ln t i).
Hypothesis HIndexSet : forall ln t i v, P t -> P i -> P v -> P (NIndexSet ln t i v).
Hypothesis HFmt : forall ln ps, Forall P ps -> P (NFmt ln ps).
Hypothesis HList : forall ln ps, Forall P ps -> P (NList ln ps).
Hypothesis HGet : forall ln t m, P t -> P (NGet ln t m).
Hypothesis HField : forall ln t m, P t -> P (NField ln t m).
Hypothesis HSet : forall ln gln t m v, P t -> P v -> P (NSet ln gln t m v).
Hypothesis HUnwrap : forall ln o d, P o -> optP P d -> P (NUnwrap ln o d).
Hypothesis HAssign : forall ln name s r pr, P r -> P (NAssign ln name s r pr).
Hypothesis HVarDecl : forall ln name ty i, optP P i -> P (NVarDecl ln name ty i).
Hypothesis HSe : forall ln c th elifs el, P c -> P th -> Forall P elifs -> optP P el -> P (NSe ln c th elifs el).
Hypothesis HSenaoSe : forall ln c b, P c -> P b -> P (NSenaoSe ln c b).
Hypothesis HBlock : forall sc ch, Forall P ch -> P (NBlock sc ch).
Hypothesis HEnquanto : forall ln c b, P c -> P b -> P (NEnquanto ln c b).
Hypothesis HPara : forall ln v a b i blk, P a -> P b -> optP P i -> P blk -> P (NPara ln v a b i blk).
Hypothesis HFunc : forall ln s ps bi b, P b -> P (NFunc ln s ps bi b).
Hypothesis HRet : forall ln e, optP P e -> P (NRet ln e).
Hypothesis HProduz : forall ln e, P e -> P (NProduz ln e).
Hypothesis HMostra : forall ln e, P e -> P (NMostra ln e).
Hypothesis HLoopCtl : forall ln q, P (NLoopCtl ln q).
Hypothesis HRegisto : forall ln n fs, P (NRegisto ln n fs).
Hypothesis HUniao : forall ln n vs, P (NUniao ln n vs).
Hypothesis HNoOp : forall ln, P (NNoOp ln).
Hypothesis HYield : forall ln sc ch, Forall P ch -> P (NYield ln sc ch).
Hypothesis HIguala : forall ln t, P t -> P (NIguala ln t).
Hypothesis HSuccess : forall bs b, P b -> P (NSuccess bs b).
Hypothesis HSwitch : forall v cs f, Forall P cs -> optP P f -> P (NSwitch v cs f).
Hypothesis HCase : forall c a b, P b -> P (NCase c a b).
Hypothesis HFailure : P NFailure.

Fixpoint node_ind' (x : node) : P x :=
  let fix all (l : list node) : Forall P l :=
    match l with [] => Forall_nil _ | y :: l' => Forall_cons _ (node_ind' y) (all l') end in
  let opt (o : option node) : optP P o :=
    match o as o' return optP P o' with Some y => node_ind' y | None => I end in
  match x with
  | NConst ln k lex pr => HConst ln k lex pr
  | NVar ln name s pr => HVar ln name s pr
  | NAlvo ln s => HAlvo ln s
  | NPath ln vid c => HPath ln vid c
  | NUn ln op e pr => HUn ln op e pr (node_ind' e)
  | NBin ln op nl nr l r pr => HBin ln op nl nr l r pr (node_ind' l) (node_ind' r)
  | NCall ln k callee args pr => HCall ln k callee args pr (node_ind' callee) (all args)
  | NNamed ln name e => HNamed ln name e (node_ind' e)
  | NConv ln e c => HConv ln e c (node_ind' e)
  | NIndex ln t i => HIndex ln t i (node_ind' t) (node_ind' i)
  | NIndexSet ln t i v => HIndexSet ln t i v (node_ind' t) (node_ind' i) (node_ind' v)
  | NFmt ln ps => HFmt ln ps (all ps)
  | NList ln ps => HList ln ps (all ps)
  | NGet ln t m => HGet ln t m (node_ind' t)
  | NField ln t m => HField ln t m (node_ind' t)
  | NSet ln gln t m v => HSet ln gln t m v (node_ind' t) (node_ind' v)
  | NUnwrap ln o d => HUnwrap ln o d (node_ind' o) (opt d)
  | NAssign ln name s r pr => HAssign ln name s r pr (node_ind' r)
  | NVarDecl ln name ty i => HVarDecl ln name ty i (opt i)
  | NSe ln c th elifs el => HSe ln c th elifs el (node_ind' c) (node_ind' th) (all elifs) (opt el)
  | NSenaoSe ln c b => HSenaoSe ln c b (node_ind' c) (node_ind' b)
  | NBlock sc ch => HBlock sc ch (all ch)
  | NEnquanto ln c b => HEnquanto ln c b (node_ind' c) (node_ind' b)
  | NPara ln v a b i blk => HPara ln v a b i blk (node_ind' a) (node_ind' b) (opt i) (node_ind' blk)
  | NFunc ln s ps bi b => HFunc ln s ps bi b (node_ind' b)
  | NRet ln e => HRet ln e (opt e)
  | NProduz ln e => HProduz ln e (node_ind' e)
  | NMostra ln e => HMostra ln e (node_ind' e)
  | NLoopCtl ln q => HLoopCtl ln q
  | NRegisto ln n fs => HRegisto ln n fs
  | NUniao ln n vs => HUniao ln n vs
  | NNoOp ln => HNoOp ln
  | NYield ln sc ch => HYield ln sc ch (all ch)
  | NIguala ln t => HIguala ln t (node_ind' t)
  | NSuccess bs b => HSuccess bs b (node_ind' b)
  | NSwitch v cs f => HSwitch v cs f (all cs) (opt f)
  | NCase c a b => HCase c a b (node_ind' b)
  | NFailure => HFailure
  end.
End NodeInd.

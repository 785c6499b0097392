(** Expressions as a programmer thinks of them, and the words they are written
    with.  Used to state C17 and C20; written without the parser. *)
From Verif Require Import Base Lexer Spec_Lex Syntax.
Local Open Scope Z_scope.

(** A word is what a token says: its kind and its value. *)
Definition word : Type := tk * lexeme.
Definition lit (k : tk) (s : text) : word := (k, LText s).

Inductive binop := BEq | BNe | BLt | BLe | BGt | BGe | BAdd | BSub | BOr | BMul | BDiv | BIntDiv | BMod | BAnd.
Inductive unop := UPlus | UMinus | UNot.

(** Types: a name, possibly with dots and type arguments, or a list type; the
    flag is the final question mark. *)
Inductive ty :=
| TyName (n : text) (dots : list text) (args : list ty) (q : bool)
| TyList (el : ty) (q : bool).

Inductive atom := AInt (z : Z) | AReal (w : text) | AText (w : text) | ATrue | AFalse | ANulo | AName (n : text)
| APath (n m : text) (l : list text) | AAlvo.

(** A call's arguments may carry a name. *)
Inductive ex :=
| EAtom (a : atom)
| EUn (o : unop) (e : ex)
| EBin (o : binop) (a b : ex)
| ECast (e : ex) (t : ty)
| ECall (f : ex) (args : list (option text * ex))
| EIndex (e i : ex)
| EField (e : ex) (n : text)
| EList (t : ty) (l : list ex).

(** ** Precedence: equality < comparison < [+ - ou] < [* / // % e] < unary <
    conversion < postfix. *)
Definition bin_level (o : binop) : nat :=
  match o with
  | BEq | BNe => 0
  | BLt | BLe | BGt | BGe => 1
  | BAdd | BSub | BOr => 2
  | BMul | BDiv | BIntDiv | BMod | BAnd => 3
  end.
Definition level (e : ex) : nat :=
  match e with
  | EBin o _ _ => bin_level o
  | EUn _ _ => 4
  | ECast _ _ => 5
  | ECall _ _ | EIndex _ _ | EField _ _ => 6
  | EAtom _ | EList _ _ => 7
  end.

Definition bin_word (o : binop) : word :=
  match o with
  | BEq => lit TDoubleEqual (txt "==") | BNe => lit TNotEqual (txt "!=")
  | BLt => lit TLess (txt "<") | BLe => lit TLessEq (txt "<=")
  | BGt => lit TGreater (txt ">") | BGe => lit TGreaterEq (txt ">=")
  | BAdd => lit TPlus (txt "+") | BSub => lit TMinus (txt "-") | BOr => lit TOu (txt "ou")
  | BMul => lit TStar (txt "*") | BDiv => lit TSlash (txt "/") | BIntDiv => lit TDoubleSlash (txt "//")
  | BMod => lit TModulo (txt "%") | BAnd => lit TE (txt "e")
  end.
Definition un_word (o : unop) : word :=
  match o with UPlus => lit TPlus (txt "+") | UMinus => lit TMinus (txt "-") | UNot => lit TNao (txt "nao") end.

Definition w_lpar : word := lit TLpar (txt "(").
Definition w_rpar : word := lit TRpar (txt ")").
Definition w_lbr : word := lit TLbracket (txt "[").
Definition w_rbr : word := lit TRbracket (txt "]").
Definition w_comma : word := lit TComma (txt ",").
Definition w_colon : word := lit TColon (txt ":").
Definition w_dot : word := lit TDot (txt ".").
Definition w_name (n : text) : word := lit TIdent n.

(** Words joined by a separator. *)
Fixpoint sep (s : word) (l : list (list word)) : list word :=
  match l with [] => [] | [a] => a | a :: l' => (a ++ s :: sep s l')%list end.

Fixpoint show_ty (t : ty) : list word :=
  match t with
  | TyName n ds args q =>
      w_name n :: flat_map (fun d => [w_dot; w_name d]) ds ++
      match args with [] => [] | _ => w_lbr :: sep w_comma (map show_ty args) ++ [w_rbr] end ++
      (if q then [lit TQmark (txt "?")] else [])
  | TyList el q => w_lbr :: show_ty el ++ w_rbr :: (if q then [lit TQmark (txt "?")] else [])
  end%list.

Definition show_atom (a : atom) : list word :=
  match a with
  | AInt z => [(TInteger, LInt z)]
  | AReal w => [(TReal, LReal w)]
  | AText w => [lit TString w]
  | ATrue => [lit TVerdadeiro (txt "verdadeiro")]
  | AFalse => [lit TFalso (txt "falso")]
  | ANulo => [lit TNulo (txt "nulo")]
  | AName n => [w_name n]
  | APath n m l => w_name n :: flat_map (fun d => [lit TDoubleColon (txt "::"); w_name d]) (m :: l)
  | AAlvo => [lit TAlvo (txt "alvo")]
  end.

(** The words of [e] where an expression of level [n] or above is wanted: in
    brackets only when its level is below [n].  The left operand of a binary
    operator may be of the operator's level, the right one may not. *)
Fixpoint show (n : nat) (e : ex) : list word :=
  let body :=
    match e with
    | EAtom a => show_atom a
    | EUn o a => un_word o :: show 4 a
    | EBin o a b => show (bin_level o) a ++ bin_word o :: show (S (bin_level o)) b
    | ECast a t => show 6 a ++ lit TCast (txt ":>") :: show_ty t
    | ECall f args =>
        show 6 f ++ w_lpar ::
        sep w_comma (map (fun p => match fst p with Some n => w_name n :: w_colon :: show 0 (snd p)
                                                  | None => show 0 (snd p) end) args) ++ [w_rpar]
    | EIndex a i => show 6 a ++ w_lbr :: show 0 i ++ [w_rbr]
    | EField a n => show 6 a ++ [w_dot; w_name n]
    | EList t l => w_lbr :: show_ty t ++ w_colon :: sep w_comma (map (show 0) l) ++ [w_rbr]
    end%list in
  if (level e <? n)%nat then (w_lpar :: body ++ [w_rpar])%list else body.

(** ** The expression a tree of the parser stands for *)
Fixpoint shape_ty (y : sty) : ty :=
  match y with
  | YName t g q => TyName (lex_text t) [] (match g with Some l => map shape_ty l | None => [] end) q
  | YPath _ cs g q =>
      match cs with
      | c :: cs' => TyName c cs' (match g with Some l => map shape_ty l | None => [] end) q
      | [] => TyName [] [] [] q
      end
  | YArr el q => TyList (shape_ty el) q
  end.

Definition bin_of (k : tk) : option binop :=
  match k with
  | TDoubleEqual => Some BEq | TNotEqual => Some BNe | TLess => Some BLt | TLessEq => Some BLe
  | TGreater => Some BGt | TGreaterEq => Some BGe | TPlus => Some BAdd | TMinus => Some BSub | TOu => Some BOr
  | TStar => Some BMul | TSlash => Some BDiv | TDoubleSlash => Some BIntDiv | TModulo => Some BMod | TE => Some BAnd
  | _ => None
  end.
Definition un_of (k : tk) : option unop :=
  match k with TPlus => Some UPlus | TMinus => Some UMinus | TNao => Some UNot | _ => None end.
Definition atom_of (t : token) : option atom :=
  match t_kind t, t_lex t with
  | TInteger, LInt z => Some (AInt z)
  | TReal, LReal w => Some (AReal w)
  | TString, LText w => Some (AText w)
  | TVerdadeiro, _ => Some ATrue
  | TFalso, _ => Some AFalse
  | TNulo, _ => Some ANulo
  | _, _ => None
  end.
Definition obind {A B} (o : option A) (f : A -> option B) : option B := match o with Some a => f a | None => None end.
Section All.
Context {A B : Type} (f : A -> option B).
Fixpoint all (l : list A) : option (list B) :=
  match l with [] => Some [] | a :: l' => obind (f a) (fun b => obind (all l') (fun r => Some (b :: r))) end.
End All.

Fixpoint shape (x : sx) : option ex :=
  match x with
  | XConst t => obind (atom_of t) (fun a => Some (EAtom a))
  | XVar t => Some (EAtom (AName (lex_text t)))
  | XPath h (m :: l) => Some (EAtom (APath (lex_text h) (lex_text m) (map lex_text l)))
  | XAlvo _ => Some (EAtom AAlvo)
  | XUn t e => obind (un_of (t_kind t)) (fun o => obind (shape e) (fun e => Some (EUn o e)))
  | XBin t a b => obind (bin_of (t_kind t)) (fun o => obind (shape a) (fun a => obind (shape b) (fun b => Some (EBin o a b))))
  | XConv _ e y => obind (shape e) (fun e => Some (ECast e (shape_ty y)))
  | XCall f args =>
      obind (shape f) (fun f =>
      obind (all (fun a => match a with
                           | XNamed n v => obind (shape v) (fun v => Some (Some (lex_text n), v))
                           | _ => obind (shape a) (fun v => Some (None, v))
                           end) args) (fun l => Some (ECall f l)))
  | XIndex _ e i => obind (shape e) (fun e => obind (shape i) (fun i => Some (EIndex e i)))
  | XGet e m => obind (shape e) (fun e => Some (EField e (lex_text m)))
  | XList _ y l => obind (all shape l) (fun l => Some (EList (shape_ty y) l))
  | _ => None
  end.

(** Statements of one line. *)
Inductive line :=
| LShow (e : ex)                (* mostra e *)
| LExpr (e : ex)                (* e *)
| LSet (target value : ex).     (* target = value *)
Definition shape_line (x : sx) : option line :=
  match x with
  | XMostra _ e => obind (shape e) (fun e => Some (LShow e))
  | XAssign _ a b | XIndexSet _ a b | XSet a b => obind (shape a) (fun a => obind (shape b) (fun b => Some (LSet a b)))
  | _ => obind (shape x) (fun e => Some (LExpr e))
  end.

(** The text consists of these words, written with any spaces and comments. *)
Definition written (U : uni) (src : text) (ws : list word) : Prop :=
  exists items, reads U 1 src items /\ map (fun i => (i_kind i, i_val i)) items = ws.

Definition can_set (e : ex) : Prop :=
  match e with EAtom (AName _) | EIndex _ _ | EField _ _ => True | _ => False end.
Definition line_ok (l : line) : Prop := match l with LSet t _ => can_set t | _ => True end.
Definition show_line (l : line) : list word :=
  match l with
  | LShow e => lit TMostra (txt "mostra") :: show 0 e
  | LExpr e => show 0 e
  | LSet t v => show 0 t ++ lit TEqual (txt "=") :: show 0 v
  end%list.

(** The four compound assignment signs. *)
Definition compound (o : binop) : option word :=
  match o with
  | BAdd => Some (lit TPlusEq (txt "+=")) | BSub => Some (lit TMinusEq (txt "-="))
  | BMul => Some (lit TStarEq (txt "*=")) | BDiv => Some (lit TSlashEq (txt "/="))
  | _ => None
  end.

(** The lines a statement of a program stands on, and the programs for which
    [Prop_Lines.v] shows that errors of meaning are reported at one of them. *)
From Verif Require Import Base Lexer Syntax Parser.
Local Open Scope Z_scope.

Fixpoint pat_lines (p : spat) : list Z :=
  match p with
  | PaInt t | PaStr t | PaBind t => [t_line t]
  | PaAdt _ h _ args => t_line h :: flat_map pat_lines args
  end.
(** A name that stands for a whole pattern has no line of its own: in
    [se iguala] the second arm is made up by the parser. *)
Definition arm_lines (p : spat) : list Z := match p with PaBind _ => [] | _ => pat_lines p end.

(** The lines of the words of a statement.  The blocks of [iguala] count as
    standing on line 1 as well, where the code locates some of their errors. *)
Fixpoint lines_of (x : sx) : list Z :=
  let opt (o : option sx) := match o with Some y => lines_of y | None => [] end in
  match x with
  | XConst t | XPart t | XVar t | XPath t _ | XAlvo t | XLoopCtl t => [t_line t]
  | XUsa t _ _ => [t_line t]
  | XUn t e | XNamed t e | XConv t e _ | XMostra t e | XProduz t e => t_line t :: lines_of e
  | XGet e t => t_line t :: lines_of e
  | XBin t a b | XIndex t a b | XIndexSet t a b | XAssign t a b | XSenaoSe t a b | XEnquanto t a b | XCaso t a b =>
      t_line t :: lines_of a ++ lines_of b
  | XSet a b => lines_of a ++ lines_of b
  | XCall f l => lines_of f ++ flat_map lines_of l
  | XFmt t l | XList t _ l => t_line t :: flat_map lines_of l
  | XIguala t e l => t_line t :: lines_of e ++ flat_map lines_of l
  | XArm t p b => t_line t :: arm_lines p ++ lines_of b
  | XYield _ t l => 1 :: t_line t :: flat_map lines_of l
  | XDecl t n _ None => [t_line t; t_line n]
  | XDecl t n _ (Some (e, y)) => t_line t :: t_line n :: t_line e :: lines_of y
  | XRet t o => t_line t :: opt o
  | XSe t c th l el => t_line t :: lines_of c ++ lines_of th ++ flat_map lines_of l ++ opt el
  | XPara t n a z i b => t_line t :: t_line n :: lines_of a ++ lines_of z ++ opt i ++ lines_of b
  | XEscolha t e l d => t_line t :: lines_of e ++ flat_map lines_of l ++ opt d
  | XBlock l => flat_map lines_of l
  | XFunc n ps _ _ _ b => t_line n :: map (fun p => t_line (sp_name p)) ps ++ opt b
  | XMet _ _ n ps _ _ b => t_line n :: map (fun p => t_line (sp_name p)) ps ++ lines_of b
  | XReg n _ l _ => t_line n :: flat_map lines_of l
  | XUni n _ vs _ => t_line n :: map (fun v => t_line (sv_name v)) vs
  end.

(** A word of a statement or of an annotation of [src] stands on line [l], or its
    syntax is wrong there. *)
Definition stands_on (U : uni) (src : text) (l : Z) : Prop :=
  (exists c, parse U src = PErr l c) \/
  exists m s, parse U src = POk m s /\
    ((exists x, In x (sm_children m) /\ In l (lines_of x)) \/ exists a, In a (sm_annots m) /\ l = t_line (an_tok a)).

(** No module is imported under a name of its own. *)
Definition no_alias (m : smodule) : Prop :=
  Forall (fun x => match x with XUsa _ (MScoped _) _ => False | _ => True end) (sm_children m).

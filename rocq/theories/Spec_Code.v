(** Specification vocabulary for the shape of compiled code (C03) and for the
    lines it is attributed to (C29). *)
From Verif Require Import Base Opcode Value Ast CodeGen.

(** [decodes code off l]: reading instruction after instruction as the VM does,
    starting at offset [off], gives exactly [l], with no byte left over. *)
Inductive decodes : bytes -> N -> list (N * opcode * list N) -> Prop :=
| dec_end off : decodes [] off []
| dec_op code off o args n l : vm_fetch code = Some (o, args, n) -> (0 < n <= List.length code)%nat ->
    decodes (skipn n code) (off + N.of_nat n) l -> decodes code off ((off, o, args) :: l).
Definition instr_at (l : list (N * opcode * list N)) (off : N) : Prop :=
  exists o args, In (off, o, args) l.
(** The whole code is a list of instructions ending in HALT; jumps and function
    entry points are offsets of instructions. *)
Definition code_ok (code : bytes) (entries : list N) : Prop :=
  exists l, decodes code 0 l /\
    (exists l' off, l = l' ++ [(off, HALT, [])]) /\
    (forall off o args, In (off, o, args) l -> is_jump o = true -> exists t, args = [t] /\ instr_at l t) /\
    (forall e, In e entries -> instr_at l e).

(** Every line number written in a tree satisfies [p]; blocks themselves carry
    none ([ASTNode.lineno] of a block is never used). *)
Fixpoint lines (p : Z -> bool) (x : node) {struct x} : bool :=
  let opt (o : option node) := match o with Some y => lines p y | None => true end in
  match x with
  | NConst l _ _ _ | NVar l _ _ _ | NAlvo l _ | NPath l _ _ | NLoopCtl l _ | NRegisto l _ _ | NUniao l _ _ | NNoOp l => p l
  | NUn l _ e _ | NNamed l _ e | NConv l e _ | NGet l e _ | NField l e _ | NMostra l e | NProduz l e | NAssign l _ _ e _ => p l && lines p e
  | NBin l _ _ _ a b _ | NIndex l a b | NEnquanto l a b | NSenaoSe l a b => p l && lines p a && lines p b
  | NCall l _ f args _ => p l && lines p f && forallb (lines p) args
  | NIndexSet l a b c => p l && lines p a && lines p b && lines p c
  | NFmt l ps | NList l ps | NYield l _ ps => p l && forallb (lines p) ps
  | NSet l g a _ b => p l && p g && lines p a && lines p b
  | NUnwrap l a d => p l && lines p a && opt d
  | NVarDecl l _ _ i => p l && opt i
  | NSe l c th els el => p l && lines p c && lines p th && forallb (lines p) els && opt el
  | NBlock _ ch => forallb (lines p) ch
  | NPara l _ a b i blk => p l && lines p a && lines p b && opt i && lines p blk
  | NFunc l _ _ _ b => p l && lines p b
  | NRet l e => p l && opt e
  | NIguala l t => p l && lines p t
  | NSuccess _ b | NCase _ _ b => lines p b
  | NSwitch _ cs _ => forallb (lines p) cs
  | NFailure => true
  end.
Definition before (L : Z) (x : node) : Prop := lines (fun z => z <? L)%Z x = true.
Definition after (L : Z) (x : node) : Prop := lines (fun z => L <? z)%Z x = true.
(** [inside L x l]: the statement [x] occurs in the statement list [l], possibly
    inside [se], [enquanto], [para] (with the default step) or function bodies;
    everything written before it is on lines below [L], everything after it on
    lines above [L]. *)
Inductive inside (L : Z) (x : node) : list node -> Prop :=
| in_here pre post : Forall (before L) pre -> Forall (after L) post -> inside L x (pre ++ x :: post)
| in_stmt pre y post : Forall (before L) pre -> within L x y -> Forall (after L) post -> inside L x (pre ++ y :: post)
with within (L : Z) (x : node) : node -> Prop :=
| in_then l c sc ch els el : (l < L)%Z -> before L c -> inside L x ch -> Forall (after L) els ->
    (forall e, el = Some e -> after L e) -> within L x (NSe l c (NBlock sc ch) els el)
| in_elif l c th pre l' c' sc ch post el : (l < L)%Z -> before L c -> before L th -> Forall (before L) pre ->
    (l' < L)%Z -> before L c' -> inside L x ch -> Forall (after L) post -> (forall e, el = Some e -> after L e) ->
    within L x (NSe l c th (pre ++ NSenaoSe l' c' (NBlock sc ch) :: post) el)
| in_else l c th els sc ch : (l < L)%Z -> before L c -> before L th -> Forall (before L) els -> inside L x ch ->
    within L x (NSe l c th els (Some (NBlock sc ch)))
| in_enquanto l c sc ch : (l < L)%Z -> before L c -> inside L x ch -> within L x (NEnquanto l c (NBlock sc ch))
| in_para l v a b sc ch : (l < L)%Z -> before L a -> before L b -> inside L x ch -> within L x (NPara l v a b None (NBlock sc ch))
| in_func l f ps sc ch : (l < L)%Z -> inside L x ch -> within L x (NFunc l f ps false (NBlock sc ch)).

(** Everything the generator may consult: variables, tables, enclosing loop
    labels, scopes, how many labels exist.  Not the code emitted so far, not its
    length, not where labels point, not the lines recorded. *)
Definition same_view (a b : gst) : Prop :=
  g_locals a = g_locals b /\ g_consts a = g_consts b /\ g_variants a = g_variants b /\ g_names a = g_names b /\
  g_regs a = g_regs b /\ g_brk a = g_brk b /\ g_cont a = g_cont b /\ g_scopes a = g_scopes b /\
  List.length (g_labels a) = List.length (g_labels b).

(** Trees the generator has code for: no unary plus, which it does not
    implement, and every variant named is in [vs], the variants declared so
    far. *)
From Verif Require Import Base Value Ast Bson Opcode CodeGen Compile Spec_Bson.

Fixpoint coded (vs : list text) (x : node) : bool :=
  let opt (o : option node) := match o with Some y => coded vs y | None => true end in
  match x with
  | NPath _ vid _ => existsb (text_eqb vid) vs
  | NUn _ op e _ => (match op with UPlus => false | _ => true end) && coded vs e
  | NConst _ _ _ _ | NVar _ _ _ _ | NAlvo _ _ | NLoopCtl _ _ | NRegisto _ _ _ | NNoOp _ | NUniao _ _ _ => true
  | NNamed _ _ e | NConv _ e _ | NGet _ e _ | NField _ e _ | NMostra _ e | NAssign _ _ _ e _ => coded vs e
  | NBin _ _ _ _ l r _ => coded vs l && coded vs r
  | NCall _ _ f args _ => coded vs f && forallb (coded vs) args
  | NIndex _ t i => coded vs t && coded vs i
  | NIndexSet _ t i v => coded vs t && coded vs i && coded vs v
  | NFmt _ ps | NList _ ps => forallb (coded vs) ps
  | NSet _ _ t _ v => coded vs t && coded vs v
  | NUnwrap _ o dv => coded vs o && opt dv
  | NVarDecl _ _ _ i => opt i
  | NSe _ c th els el => coded vs c && coded vs th && forallb (coded vs) els && opt el
  | NSenaoSe _ c b => coded vs c && coded vs b
  | NBlock _ ch => forallb (coded vs) ch
  | NEnquanto _ c b => coded vs c && coded vs b
  | NPara _ _ a b i blk => coded vs a && coded vs b && opt i && coded vs blk
  | NFunc _ _ _ _ blk => coded vs blk
  | NRet _ e => opt e
  | _ => false
  end.
(** The statements of a module: a variant is declared above its uses. *)
Fixpoint coded_all (vs : list text) (l : list node) : bool :=
  match l with
  | [] => true
  | x :: r => coded vs x && coded_all (match x with NUniao _ _ vids => vs ++ vids | _ => vs end) r
  end.

(** What the format of the program file has room for.  An operand fits the bytes
    that the instruction has for it (labels, the operands of jumps, are
    addresses). *)
Definition in_width (i : instr) : Prop :=
  match op_size (fst i) with
  | 2%N => Forall (fun a => (a < 256)%N) (snd i)
  | 3%N => True
  | _ => is_jump (fst i) = true \/ Forall (fun a => (a < 2 ^ 64)%N) (snd i)
  end.
(** The generator is not stopped by a full table (65535 constants or names) or
    by too long code, and what it gave out has room in the instructions. *)
Definition has_room (r : pyres gst) : Prop :=
  match r with
  | PyOk s => (g_ip s < 2 ^ 64)%N /\ Forall in_width (g_ops s)
  | PyErr e => e <> AssertErr /\ e <> ValueErr
  end.
(** The document has 64-bit integers, texts without lone surrogates, and less
    than 2 GiB. *)
Definition doc_has_room (d : list (text * bval)) : Prop := bson_fits (BDoc d) /\ (total_items d < 2 ^ 31)%N.

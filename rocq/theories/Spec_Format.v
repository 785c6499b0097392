(** What a format string is written with: pieces of text, in which an opening
    brace is written twice, and expressions between braces. *)
From Verif Require Import Base Lexer Spec_Lex Syntax Spec_Parse.

Inductive piece :=
| PText (w : text)
| PExpr (src : text) (e : ex).      (* [src] is how the expression is written *)

Definition open_brace : N := 123.
Definition close_brace : N := 125.

Definition piece_text (p : piece) : text :=
  match p with
  | PText w => flat_map (fun c => if N.eqb c open_brace then [c; c] else [c]) w
  | PExpr src _ => open_brace :: src ++ [close_brace]
  end.

(** The expression is written with more than spaces, without a closing brace, is not itself a format
    string, and does not begin with a brace. *)
Definition piece_ok (U : uni) (p : piece) : Prop :=
  match p with
  | PText w => w <> []
  | PExpr src e =>
      Exists (fun c => is_space U c = false) src /\ ~ In close_brace src /\ ~ slips src /\ written U src (show 0 e) /\ hd_error src <> Some open_brace /\
      forall a q b, src = a ++ 102%N :: q :: b -> Forall (fun c => is_space U c = true) a -> q <> SQ /\ q <> DQ
  end.

(** Two pieces of text do not stand side by side, and there is an expression. *)
Fixpoint apart (l : list piece) : Prop :=
  match l with
  | PText _ :: PText _ :: _ => False
  | _ :: r => apart r
  | [] => True
  end.
Definition has_expr (l : list piece) : Prop := exists src e, In (PExpr src e) l.

(** The tree of a piece. *)
Definition piece_is (p : piece) (x : sx) : Prop :=
  match p with
  | PText w => exists t, x = XPart t /\ t_lex t = LText w
  | PExpr _ e => shape x = Some e
  end.

(** The words of [mostra f'...'], with either quote. *)
Definition format_words (q : N) (l : list piece) : list word :=
  [lit TMostra (txt "mostra"); lit TFormat (q :: flat_map piece_text l ++ [q])].

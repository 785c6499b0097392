(** The programs the compilation theorems speak about: a decidable check of
    what semantic analysis guarantees (names denote the symbols attached to
    them, live locals have different identifiers) together with the limits of
    the interpreter in [Sem.v] (no [iguala]; functions only at the top level of
    a module; a loop control statement belongs to an [enquanto]).  Everything
    here is executable, so any concrete program can be checked by computation. *)
From Verif Require Import Base Value VM Ast CodeGen Sem.

(** Names in scope with their symbols, innermost scope first. *)
Definition gam := list (list (text * sym)).
Fixpoint glook (g : gam) (n : text) : option sym :=
  match g with
  | [] => None
  | sc :: r => match assoc n sc with Some x => Some x | None => glook r n end
  end.
Definition gouts (g : gam) : list text := map (fun p => sy_out (snd p)) (List.concat g).
Definition gdecl (g : gam) (n : text) (x : sym) : gam :=
  match g with [] => [] | sc :: r => ((n, x) :: sc) :: r end.

(** Statements that leave no value behind. *)
Definition is_stmt (x : node) : bool :=
  match x with
  | NAssign _ _ _ _ _ | NVarDecl _ _ _ _ | NSe _ _ _ _ _ | NEnquanto _ _ _ | NPara _ _ _ _ _ _
  | NFunc _ _ _ _ _ | NRet _ _ | NMostra _ _ | NLoopCtl _ _ | NRegisto _ _ _ | NUniao _ _ _ | NNoOp _
  | NIndexSet _ _ _ _ | NSet _ _ _ _ _ => true
  | _ => false
  end.
(** Nothing stays behind on the machine's stack: no expression used as a
    statement in its blocks. *)
Fixpoint clean (x : node) : bool :=
  let opt (o : option node) := match o with Some y => clean y | None => true end in
  match x with
  | NSe _ _ th els el => clean th && forallb clean els && opt el
  | NSenaoSe _ _ b => clean b
  | NBlock _ ch => forallb (fun y => is_stmt y && clean y) ch
  | NEnquanto _ _ b => clean b
  | NPara _ _ _ _ _ blk => clean blk
  | _ => true
  end.

Definition is_some {A} (o : option A) : bool := match o with Some _ => true | None => false end.
Definition is_nulo (x : node) : bool :=
  match x with NConst _ KNulo lex false => text_eqb lex (txt "nulo") | _ => false end.

Definition wf_seq (f : gam -> node -> bool) (dc : gam -> node -> gam) : gam -> list node -> bool :=
  fix go (g : gam) (l : list node) {struct l} : bool :=
    match l with [] => true | y :: r => f g y && go (dc g y) r end.

Section Wf.
Variable S : senv.
Variable C : gctx.
Variable m : option N.
(** Whether calls of functions written in Amanda are allowed (they are, except
    in the top-level statements of an imported module). *)
Variable calls : bool.

Definition eff (scs : list scope) (o : option sym) (n : text) : option sym :=
  match o with Some x => Some x | None => resolve scs n end.
(** A global name of this module, or a name imported from another one. *)
Definition own_glob (n : text) (x : sym) : bool :=
  sy_global x && text_eqb (sy_name x) n && negb (is_some (se_imp S m n)).
Definition glob_ok (n : text) (x : sym) : bool :=
  if text_eqb (sy_mod x) (c_path C) then own_glob n x
  else
    match assoc (sy_mod x) (c_modules C), se_imp S m n with
    | Some i, Some (i', n') => (i =? i')%N && text_eqb (sy_name x) n'
    | _, _ => false
    end.
Definition var_ok (g : gam) (n : text) (x : sym) : bool :=
  match glook g n with
  | Some y => text_eqb (sy_mod x) (c_path C) && negb (sy_global x) && text_eqb (sy_out x) (sy_out y)
  | None => glob_ok n x
  end.
Definition set_glob_ok (n : text) (x : sym) : bool := own_glob n x && negb (is_some (se_fun S m n)).
Definition tgt_ok (g : gam) (n : text) (x : sym) : bool :=
  match glook g n with
  | Some y => negb (sy_global x) && text_eqb (sy_out x) (sy_out y)
  | None => set_glob_ok n x
  end.
Definition fresh_ok (g : gam) (x : sym) : bool :=
  negb (sy_global x) && negb (existsb (text_eqb (sy_out x)) (gouts g)).
Definition decl_ok (g : gam) (n : text) (x : sym) : bool :=
  match g with [] => set_glob_ok n x | _ => fresh_ok g x end.
Definition chain_ok (g : gam) (rhs : node) : bool :=
  match rhs with NAssign _ n2 x2 _ pr2 => negb pr2 && var_ok g n2 x2 | _ => true end.
Definition user_call (n : text) : bool :=
  match se_imp S m n with
  | Some (i, n') => is_some (se_fun S (Some i) n')
  | None => is_some (se_fun S m n)
  end.

(** The scope after a statement. *)
Definition decls (scs : list scope) (g : gam) (x : node) : gam :=
  match x with
  | NVarDecl _ n _ (Some (NAssign _ _ y _ _)) => gdecl g n y
  | NVarDecl _ n _ None => match resolve scs n with Some y => gdecl g n y | None => g end
  | _ => g
  end.

Fixpoint wf (lp : bool) (g : gam) (scs : list scope) (x : node) {struct x} : bool :=
  let blk (lp : bool) (g : gam) (b : node) : bool :=
    match b with
    | NBlock sc ch => wf_seq (fun g y => wf lp g (sc :: scs) y) (decls (sc :: scs)) ([] :: g) ch
    | _ => false
    end in
  match x with
  | NConst _ k lex _ =>
      match k with
      | KPart => match const_from_str lex with Some (VStr t) => text_eqb t lex | _ => false end
      | _ => true
      end
  | NVar _ n o _ => match eff scs o n with Some y => var_ok g n y | None => false end
  | NAlvo _ y => var_ok g (sy_name y) y
  | NPath _ _ _ => true
  | NUn _ _ e _ => wf lp g scs e
  | NBin _ op nl nr l r _ =>
      wf lp g scs l && wf lp g scs r &&
      (if (nl || nr) && is_equality op then if nl then is_nulo l else is_nulo r else true)
  | NCall _ k callee args _ =>
      match k, callee with
      | CVariant, NPath _ _ true => forallb (wf lp g scs) args
      | CType, NVar _ n o false =>
          match glook g n, eff scs o n with None, Some y => glob_ok n y | _, _ => false end &&
          forallb (fun a => match a with NNamed _ _ e => wf lp g scs e | _ => false end) args
      | CFunction, NVar _ n o false =>
          match glook g n, eff scs o n with None, Some y => glob_ok n y | _, _ => false end &&
          (calls || negb (user_call n)) && forallb (wf lp g scs) args
      | _, _ => false
      end
  | NConv _ e c =>
      wf lp g scs e &&
      match c with
      | Some (t, _) => text_eqb (sy_mod t) (c_builtins C)
      | None => true
      end
  | NIndex _ t i => wf lp g scs t && wf lp g scs i
  | NIndexSet _ t i v => wf lp g scs t && wf lp g scs i && wf lp g scs v
  | NFmt _ ps | NList _ ps => forallb (wf lp g scs) ps
  | NGet _ t _ => wf lp g scs t
  | NSet _ _ t _ v => wf lp g scs t && wf lp g scs v
  | NUnwrap _ o dv =>
      wf lp g scs o && match dv with Some e => wf lp g scs e | None => true end
  | NAssign _ n y rhs _ => tgt_ok g n y && wf lp g scs rhs && chain_ok g rhs
  | NVarDecl _ n _ None => match resolve scs n with Some y => decl_ok g n y | None => false end
  | NVarDecl _ n _ (Some (NAssign _ _ y rhs _)) => decl_ok g n y && wf lp g scs rhs && chain_ok g rhs
  | NSe _ c th els el =>
      wf lp g scs c && blk lp g th &&
      forallb (fun e => match e with NSenaoSe _ c b => wf lp g scs c && blk lp g b | _ => false end) els &&
      match el with Some b => blk lp g b | None => true end
  | NEnquanto _ c b =>
      match b with
      | NBlock sc _ => wf lp g (sc :: scs) c && blk true g b
      | _ => false
      end
  | NPara _ n a b i bl =>
      match bl with
      | NBlock sc _ =>
          match resolve (sc :: scs) n with
          | Some cv =>
              fresh_ok g cv && text_eqb (sy_mod cv) (c_path C) &&
              wf lp g (sc :: scs) a &&
              wf lp ([(n, cv)] :: g) (sc :: scs) b &&
              match i with Some e => wf lp ([(n, cv)] :: g) (sc :: scs) e | None => true end &&
              blk false ([(n, cv)] :: g) bl
          | None => false
          end
      | _ => false
      end
  | NRet _ e => match e with Some e => wf lp g scs e | None => true end
  | NMostra _ e => wf lp g scs e
  | NLoopCtl _ _ => lp
  | NRegisto _ n _ => match resolve scs n with Some y => set_glob_ok n y | None => false end
  | NFunc _ _ _ _ _ => match g with [] => true | _ => false end
  | NUniao _ _ _ | NNoOp _ => true
  | _ => false
  end.
End Wf.

(** A declarative type system for the checked tree ([Ast.node]) and for run-time
    values, written without looking at the analyser: what it means for a program
    to use every value at its static type (C13, C14).

    The judgements cover the language without unions, [iguala], methods,
    generics other than [t?], and [indef]. *)
From Verif Require Import Base Float Value Ast Types Spec_Types Sem.

Notation tint := (TyPrim TInt).
Notation treal := (TyPrim TReal).
Notation tbool := (TyPrim TBool).
Notation ttexto := (TyPrim TTexto).
Notation tvazio := (TyPrim TVazio).
Notation tnulo := (TyPrim TNulo).

(** ** Types *)
(** A value of the first type may stand where the second is expected, as it is. *)
Inductive sub : ty -> ty -> Prop :=
| sub_refl t : sub t t
| sub_nulo t : sub tnulo (TyOpc t)
| sub_some t u : sub t u -> sub t (TyOpc u).
(** With [pr], an [int] is turned into a [real] on the way. *)
Definition prom (pr : bool) (t u : ty) : Prop :=
  if pr then t = tint /\ u = treal else u = t.
(** Types whose values can be printed. *)
Inductive showable : ty -> Prop :=
| sh_prim p : p <> TIndef -> p <> TUnknown -> showable (TyPrim p)
| sh_vec t : showable t -> showable (TyVec t)
| sh_reg n : showable (TyReg n)
| sh_opc t : showable t -> showable (TyOpc t).
Definition number (t : ty) : Prop := t = tint \/ t = treal.
Definition basic_ty (t : ty) : Prop := exists p, t = TyPrim p /\ basic p.

Definition un_type (op : uop) (t u : ty) : Prop :=
  match op with
  | UMinus => number t /\ u = t
  | UNot => t = tbool /\ u = tbool
  | UPlus => False
  end.
Inductive bin_type : bop -> ty -> ty -> ty -> Prop :=
| bt_int op : op = BAdd \/ op = BSub \/ op = BMul \/ op = BMod \/ op = BFloorDiv -> bin_type op tint tint tint
| bt_real op a b : op = BAdd \/ op = BSub \/ op = BMul \/ op = BMod -> number a -> number b ->
    a = treal \/ b = treal -> bin_type op a b treal
| bt_div a b : number a -> number b -> bin_type BDiv a b treal
| bt_logic op : op = BAnd \/ op = BOr -> bin_type op tbool tbool tbool
| bt_order op a b : op = BLt \/ op = BLe \/ op = BGt \/ op = BGe \/ op = BEq \/ op = BNe ->
    number a -> number b -> bin_type op a b tbool
| bt_same op t : op = BEq \/ op = BNe -> basic_ty t -> bin_type op t t tbool.

(** Conversions between basic types. *)
Definition castable (p q : prim) : Prop := p <> q /\ (q = TTexto \/ q = TBool \/ p <> TBool).

(** The type of a literal. *)
Definition lit_type (k : litkind) : ty :=
  match k with
  | KInt => tint | KReal => treal | KText | KPart => ttexto | KBool => tbool | KNulo => tnulo
  end.
(** Native functions: parameter types and result. *)
Inductive native_type : text -> list ty -> ty -> Prop :=
| nt_show n u : n = txt "escreva" \/ n = txt "escrevaln" -> showable u -> native_type n [u] tvazio
| nt_leia u : showable u -> native_type (txt "leia") [u] ttexto
| nt_leia_int u : showable u -> native_type (txt "leia_int") [u] tint
| nt_leia_real u : showable u -> native_type (txt "leia_real") [u] treal
| nt_tam_texto : native_type (txt "tam") [ttexto] tint
| nt_tam_vec t : native_type (txt "tam") [TyVec t] tint
| nt_contem : native_type (txt "txt_contem") [ttexto; ttexto] tbool
| nt_anexa t : native_type (txt "anexa") [TyVec t; t] tvazio
| nt_remova t : native_type (txt "remova") [TyVec t; tint] t.
(** A vector of vectors of ..., [k] times. *)
Fixpoint vec_of (k : nat) (t : ty) : ty := match k with O => t | Datatypes.S k => TyVec (vec_of k t) end.
(** The basic type a name stands for. *)
Definition basic_named (n : text) (t : ty) : Prop := exists p, basic p /\ t = TyPrim p /\ n = prim_name p.

(** ** Environments *)
(** What is declared at the top level: variables, functions with their
    parameter and result types, records. *)
Record genv := mkGE {
  ge_var : list (text * ty);
  ge_fun : list (text * (list ty * ty));
  ge_rec : list text
}.
(** ... and, inside blocks and functions: the nested scopes, innermost first,
    the result type of the function, and whether we are in a loop. *)
Record tenv := mkTE {
  te_g : genv;
  te_loc : list (list (text * ty));
  te_ret : option ty;
  te_loop : bool
}.
Fixpoint tlook (l : list (list (text * ty))) (n : text) : option ty :=
  match l with
  | [] => None
  | sc :: r => match assoc n sc with Some t => Some t | None => tlook r n end
  end.
Definition var_type (G : tenv) (n : text) : option ty :=
  match tlook (te_loc G) n with Some t => Some t | None => assoc n (ge_var (te_g G)) end.
Definition push (G : tenv) (sc : list (text * ty)) : tenv :=
  mkTE (te_g G) (sc :: te_loc G) (te_ret G) (te_loop G).
Definition in_loop (G : tenv) : tenv := mkTE (te_g G) (te_loc G) (te_ret G) true.

Section Typing.
Variable S : senv.
Variable m : option N.                               (* the module being typed *)
Variable R : text -> option (list (text * ty)).      (* fields of the records *)

(** A name of the standard library, not hidden by anything. *)
Definition library (G : tenv) (n : text) : Prop :=
  tlook (te_loc G) n = None /\ se_imp S m n = Some (0%N, n) /\ se_fun S (Some 0%N) n = None.

(** ** Expressions *)
(** Arguments against the expected types; elements of a vector; parts of an
    f-string; named fields of a new record. *)
Definition args_ty (f : node -> ty -> Prop) : list node -> list ty -> Prop :=
  fix go (l : list node) (ts : list ty) {struct l} : Prop :=
    match l, ts with
    | [], [] => True
    | y :: r, t :: ts' => (exists u, f y u /\ sub u t) /\ go r ts'
    | _, _ => False
    end.
Definition elems_ty (f : node -> ty -> Prop) (t : ty) : list node -> Prop :=
  fix go (l : list node) {struct l} : Prop :=
    match l with [] => True | y :: r => (exists u, f y u /\ sub u t) /\ go r end.
Definition parts_ty (f : node -> ty -> Prop) : list node -> Prop :=
  fix go (l : list node) {struct l} : Prop :=
    match l with [] => True | y :: r => (exists u, f y u /\ showable u) /\ go r end.
Definition fields_ty (f : node -> ty -> Prop) (decl : list (text * ty)) : list node -> Prop :=
  fix go (l : list node) {struct l} : Prop :=
    match l with
    | [] => True
    | NNamed _ n e :: r => (exists t u, assoc n decl = Some t /\ f e u /\ sub u t) /\ go r
    | _ :: _ => False
    end.

Fixpoint ety (G : tenv) (x : node) (t : ty) {struct x} : Prop :=
  match x with
  | NConst _ k lex pr => lit_value k lex <> None /\ prom pr (lit_type k) t
  | NVar _ n _ pr => exists u, var_type G n = Some u /\ prom pr u t
  | NUn _ op e pr => exists u v, ety G e u /\ un_type op u v /\ prom pr v t
  | NBin _ op nl nr l r pr =>
      exists a b u, ety G l a /\ ety G r b /\
        (if (nl || nr) && is_equality op then u = tbool else bin_type op a b u) /\ prom pr u t
  | NCall _ CType (NVar _ n _ false) fs pr =>
      exists decl, tlook (te_loc G) n = None /\ In n (ge_rec (te_g G)) /\ R n = Some decl /\
        fields_ty (ety G) decl fs /\
        (forall f u, assoc f decl = Some u -> exists ln e, In (NNamed ln f e) fs) /\
        prom pr (TyReg n) t
  | NCall _ CFunction (NVar _ n _ false) l pr =>
      exists u,
        ((exists ts, tlook (te_loc G) n = None /\ assoc n (ge_fun (te_g G)) = Some (ts, u) /\ args_ty (ety G) l ts) \/
         (exists ts, library G n /\ native_type n ts u /\ args_ty (ety G) l ts) \/
         (exists ln tn s b dims, n = txt "vec" /\ library G n /\ l = NVar ln tn s false :: dims /\
            basic_named tn b /\ library G tn /\ dims <> [] /\
            match l with [] => False | _ :: ds => args_ty (ety G) ds (repeat tint (List.length ds)) end /\
            u = vec_of (List.length dims) b)) /\
        prom pr u t
  | NConv _ e None => ety G e t
  | NConv _ e (Some (c, false)) =>
      exists p q, ety G e (TyPrim p) /\ basic p /\ basic q /\ castable p q /\
        sy_name c = prim_name q /\ t = TyPrim q
  | NIndex _ a i => (exists u, (ety G a u /\ (u = TyVec t \/ (u = ttexto /\ t = ttexto)))) /\ ety G i tint
  | NFmt _ ps => parts_ty (ety G) ps /\ t = ttexto
  | NList _ es => exists u, elems_ty (ety G) u es /\ t = TyVec u
  | NGet _ a f => exists n decl, ety G a (TyReg n) /\ R n = Some decl /\ assoc f decl = Some t
  | NUnwrap _ o None => ety G o (TyOpc t)
  | NUnwrap _ o (Some d) => ety G o (TyOpc t) /\ exists u, ety G d u /\ sub u t
  | _ => False
  end.

(** ** Statements *)
(** A statement that never ends by running past its end. *)
Fixpoint returns (x : node) : bool :=
  match x with
  | NRet _ _ => true
  | NBlock _ ch => existsb returns ch
  | NSe _ _ th elifs (Some el) => returns th && forallb returns elifs && returns el
  | NSenaoSe _ _ b => returns b
  | _ => false
  end.
Definition zero_type (n : text) (t : ty) : Prop := basic_named n t.

(** Sequences, blocks and the middle branches of a conditional. *)
Definition seq_of (f : tenv -> node -> tenv -> Prop) : tenv -> list node -> Prop :=
  fix go (G : tenv) (l : list node) {struct l} : Prop :=
    match l with [] => True | y :: r => exists G1, f G y G1 /\ go G1 r end.
Definition blk_of (f : tenv -> node -> tenv -> Prop) (G : tenv) (b : node) : Prop :=
  match b with NBlock _ ch => seq_of f (push G []) ch | _ => False end.
Definition elifs_of (f : tenv -> node -> tenv -> Prop) (G : tenv) : list node -> Prop :=
  fix go (l : list node) {struct l} : Prop :=
    match l with
    | [] => True
    | NSenaoSe _ c b :: r => ety G c tbool /\ blk_of f G b /\ go r
    | _ :: _ => False
    end.
(** [sty G x G']: [x] is well typed under [G], and [G'] adds the local
    variable it may declare. *)
Fixpoint sty (G : tenv) (x : node) (G' : tenv) {struct x} : Prop :=
  match x with
  | NVarDecl _ n tn init =>
      exists t sc r, te_loc G = sc :: r /\ G' = mkTE (te_g G) (((n, t) :: sc) :: r) (te_ret G) (te_loop G) /\
        match init with
        | None => zero_type tn t
        | Some (NAssign _ _ _ e _) => exists u, ety G e u /\ sub u t
        | Some _ => False
        end
  | _ =>
  G' = G /\
  match x with
  | NAssign _ n _ e _ => exists t u, var_type G n = Some t /\ ety G e u /\ sub u t
  | NIndexSet _ a i e => exists t u, ety G a (TyVec t) /\ ety G i tint /\ ety G e u /\ sub u t
  | NSet _ _ a f e =>
      exists n decl t u, ety G a (TyReg n) /\ R n = Some decl /\ assoc f decl = Some t /\ ety G e u /\ sub u t
  | NMostra _ e => exists u, ety G e u /\ showable u
  | NSe _ c th els el =>
      ety G c tbool /\ blk_of sty G th /\ elifs_of sty G els /\ match el with Some b => blk_of sty G b | None => True end
  | NEnquanto _ c b => ety G c tbool /\ blk_of sty (in_loop G) b
  | NPara _ n a z inc b =>
      (* limit and step are evaluated again in every round, inside the loop *)
      let G1 := push G [(n, tint)] in
      ety G a tint /\ ety G1 z tint /\ match inc with Some e => ety G1 e tint | None => True end /\
      blk_of sty (in_loop G1) b
  | NRet _ e =>
      match te_ret G, e with
      | Some t, Some e => exists u, ety G e u /\ sub u t
      | Some t, None => t = tvazio
      | None, _ => False
      end
  | NLoopCtl _ _ => te_loop G = true
  | NNoOp _ => True
  | _ => exists t, ety G x t
  end
  end.
Definition seq_ty : tenv -> list node -> Prop := seq_of sty.
Definition blk_ty : tenv -> node -> Prop := blk_of sty.

(** ** Declarations at the top level of the module *)
Definition top_env (g : genv) : tenv := mkTE g [] None false.
(** A name that is still free at the top level. *)
Definition fresh (g : genv) (n : text) : Prop :=
  se_imp S m n = None /\ assoc n (ge_var g) = None /\ assoc n (ge_fun g) = None /\ ~ In n (ge_rec g).
(** The body of a function: a scope with its parameters around that of its body. *)
Definition fun_env (g : genv) (names : list text) (ts : list ty) (t : ty) : tenv :=
  mkTE g [[]; List.combine names ts] (Some t) false.
Definition fun_ty (g : genv) (names : list text) (ts : list ty) (t : ty) (ch : list node) : Prop :=
  List.length names = List.length ts /\ seq_ty (fun_env g names ts t) ch /\
  (t = tvazio \/ existsb returns ch = true).
Definition with_var (g : genv) (n : text) (t : ty) : genv := mkGE ((n, t) :: ge_var g) (ge_fun g) (ge_rec g).
Definition with_fun (g : genv) (n : text) ts (t : ty) : genv := mkGE (ge_var g) ((n, (ts, t)) :: ge_fun g) (ge_rec g).
Definition with_rec (g : genv) (n : text) : genv := mkGE (ge_var g) (ge_fun g) (n :: ge_rec g).

Inductive top_ty (g : genv) : node -> genv -> Prop :=
| tt_var ln n tn t init : fresh g n ->
    match init with
    | None => zero_type tn t
    | Some (NAssign _ _ _ e _) => exists u, ety (top_env g) e u /\ sub u t
    | Some _ => False
    end -> top_ty g (NVarDecl ln n tn init) (with_var g n t)
| tt_fun ln s ps sc ch ts t : fresh g (sy_name s) ->
    se_fun S m (sy_name s) = Some (mkFD (map fst ps) ch) ->
    fun_ty (with_fun g (sy_name s) ts t) (map fst ps) ts t ch ->
    top_ty g (NFunc ln s ps false (NBlock sc ch)) (with_fun g (sy_name s) ts t)
| tt_native ln s ps b : top_ty g (NFunc ln s ps true b) g
| tt_rec ln n fs decl : fresh g n -> R n = Some decl -> top_ty g (NRegisto ln n fs) (with_rec g n)
| tt_stmt x : (forall ln n tn i, x <> NVarDecl ln n tn i) -> sty (top_env g) x (top_env g) -> top_ty g x g.
Fixpoint prog_ty (g : genv) (l : list node) (g' : genv) : Prop :=
  match l with [] => g' = g | y :: r => exists g1, top_ty g y g1 /\ prog_ty g1 r g' end.

(** ** Values *)
(** The static types of the vectors and records allocated so far. *)
Inductive cellty := HVec (t : ty) | HObj (n : text).
Definition hty := list cellty.
Inductive vt (H : hty) : value -> ty -> Prop :=
| vt_int z : vt H (VInt z) tint
| vt_real f : vt H (VF64 f) treal
| vt_bool b : vt H (VBool b) tbool
| vt_texto t : vt H (VStr t) ttexto
| vt_nulo : vt H VNone tnulo
| vt_vazio v : v = VNone \/ v = VBool false -> vt H v tvazio
| vt_vec l t : nth_error H l = Some (HVec t) -> vt H (VVec l) (TyVec t)
| vt_obj l n : nth_error H l = Some (HObj n) -> vt H (VObj l) (TyReg n)
| vt_none t : vt H VNone (TyOpc t)
| vt_some v t : vt H v t -> vt H v (TyOpc t).
(** The contents of a cell agree with its type. *)
Definition cell_ok (H : hty) (k : cellty) (c : cell) : Prop :=
  match k, c with
  | HVec t, CVec vs => Forall (fun v => vt H v t) vs
  | HObj n, CObj _ st =>
      exists decl, R n = Some decl /\ forall f t, assoc f decl = Some t -> exists v, assoc f st = Some v /\ vt H v t
  | _, _ => False
  end.
Definition heap_ok (H : hty) (h : heap) : Prop := Forall2 (cell_ok H) H h.
End Typing.

(** What a whole program means: the imported modules run one after the other,
    then the main module ([Sem.v] gives the meaning of statements), and the
    check of the programs the theorems speak about.

    This is a specification; it uses the tree of a module ([Compile.amodule])
    and the tables of native functions ([Value.embutidos_exports],
    [Value.mat_exports]), nothing of the compiler or of the machine. *)
From Verif Require Import Base Bson Opcode Value Ast CodeGen Compile Sem SemWf.

(** ** Names of a program *)
(** The module numbered [m]: [None] is the main one. *)
Definition module_at (main : amodule) (imports : list amodule) (m : option N) : option amodule :=
  match m with None => Some main | Some i => nth_error imports (N.to_nat i) end.

(** The function a declaration introduces. *)
Definition fun_of (x : node) : option (text * fundef) :=
  match x with
  | NFunc _ s ps false (NBlock _ ch) => Some (sy_name s, mkFD (map fst ps) ch)
  | _ => None
  end.
Fixpoint find_fun (n : text) (l : list node) : option fundef :=
  match l with
  | [] => None
  | x :: r =>
      match fun_of x with
      | Some (n', fd) => if text_eqb n n' then Some fd else find_fun n r
      | None => find_fun n r
      end
  end.
Definition module_fun (md : amodule) (n : text) : option fundef :=
  if mo_builtin md then None else find_fun n (mo_body md).

(** Variants are numbered in the order of their declarations in the module. *)
Definition variants_of (l : list node) : list text :=
  List.concat (map (fun x => match x with NUniao _ _ vs => vs | _ => [] end) l).
Fixpoint position (n : text) (l : list text) : option N :=
  match l with
  | [] => None
  | x :: r => if text_eqb n x then Some 0%N else option_map N.succ (position n r)
  end.
(** A name of the module's scope that belongs to another module. *)
Definition imported_name (imports : list amodule) (md : amodule) (n : text) : option (N * text) :=
  match assoc n (mo_scope md) with
  | Some x =>
      if text_eqb (sy_mod x) (mo_path md) then None
      else option_map (fun i => (i, sy_name x)) (position (sy_mod x) (map mo_path imports))
  | None => None
  end.

Definition senv_of (main : amodule) (imports : list amodule) : senv :=
  let of {A} (m : option N) (f : amodule -> option A) : option A :=
    match module_at main imports m with Some md => f md | None => None end in
  mkSE (fun m n => of m (fun md => module_fun md n))
       (fun m n => of m (fun md => imported_name imports md n))
       (fun m v => of m (fun md => position v (variants_of (mo_body md)))).

(** While import [i] runs, only the functions of the imports up to [i] exist;
    while the main module runs, all do. *)
Definition seen (stage m : option N) : bool :=
  match stage, m with
  | None, _ => true
  | Some k, Some i => (i <=? k)%N
  | Some _, None => false
  end.
Definition during (S : senv) (stage : option N) : senv :=
  mkSE (fun m n => if seen stage m then se_fun S m n else None) (se_imp S) (se_tag S).

(** ** Running a program *)
Definition native_module (E : ext) (n : text) : option (list (text * value)) :=
  if text_eqb n (txt "embutidos") then Some (embutidos_exports E)
  else if text_eqb n (txt "mat") then Some (mat_exports E)
  else None.
(** A module starts with the values it exports natively, if it is native, and
    with nothing otherwise. *)
Definition start_globals (c : cfg) (m : option N) (defs : list (text * value)) : cfg :=
  mkCfg (k_w c) (fun m' n => if omod_eqb m m' then assoc n defs else k_g c m' n) [].
Definition run_module (E : ext) (S : senv) (fuel : nat) (m : option N) (md : amodule) (c : cfg) : res :=
  if mo_builtin md then
    match native_module E (mo_name md) with
    | Some defs => Done ONorm (start_globals c m defs)
    | None => Stuck
    end
  else exec_module E (during S m) fuel m (mo_body md) (start_globals c m []).
Fixpoint run_modules (E : ext) (S : senv) (fuel : nat) (i : N) (l : list amodule) (c : cfg) : res :=
  match l with
  | [] => Done ONorm c
  | md :: r => bind (run_module E S fuel (Some i) md c) (fun _ c => run_modules E S fuel (i + 1) r c)
  end.
Definition exec_program (E : ext) (fuel : nat) (main : amodule) (imports : list amodule) (stdin : text) : res :=
  let S := senv_of main imports in
  bind (run_modules E S fuel 0 imports (mkCfg (mkWorld [] [] stdin) (fun _ _ => None) []))
       (fun _ c => run_module E S fuel None main c).

(** ** The programs considered *)
Definition nodupb (l : list text) : bool :=
  (fix go (l : list text) := match l with [] => true | x :: r => negb (existsb (text_eqb x) r) && go r end) l.

(** No pattern matching, no function and no union inside. *)
Fixpoint nofn (x : node) : bool :=
  let opt (o : option node) := match o with Some y => nofn y | None => true end in
  match x with
  | NConst _ _ _ _ | NVar _ _ _ _ | NAlvo _ _ | NPath _ _ _ | NLoopCtl _ _ | NRegisto _ _ _
  | NNoOp _ => true
  | NUn _ _ e _ | NNamed _ _ e | NConv _ e _ | NGet _ e _ | NField _ e _ | NMostra _ e => nofn e
  | NAssign _ _ _ e _ => nofn e
  | NBin _ _ _ _ l r _ => nofn l && nofn r
  | NCall _ _ f args _ => nofn f && forallb nofn args
  | NIndex _ t i => nofn t && nofn i
  | NIndexSet _ t i v => nofn t && nofn i && nofn v
  | NFmt _ ps | NList _ ps => forallb nofn ps
  | NSet _ _ t _ v => nofn t && nofn v
  | NUnwrap _ o dv => nofn o && opt dv
  | NVarDecl _ _ _ i => opt i
  | NSe _ c th els el => nofn c && nofn th && forallb nofn els && opt el
  | NSenaoSe _ c b => nofn c && nofn b
  | NBlock _ ch => forallb nofn ch
  | NEnquanto _ c b => nofn c && nofn b
  | NPara _ _ a b i blk => nofn a && nofn b && opt i && nofn blk
  | NRet _ e => opt e
  | _ => false
  end.
Definition lclean (l : list node) : bool := forallb (fun y => is_stmt y && clean y) l.
Definition is_decl (x : node) : bool := match x with NVarDecl _ _ _ _ => true | _ => false end.

Section Check.
Variable S : senv.
Variable C : gctx.
Variable m : option N.
(** A statement at the top level of a module: a function (whose parameters
    have different identifiers; one without parameters and variables uses no
    expression as a statement), a union, or a statement with neither inside. *)
Definition top_ok (sc : scope) (x : node) : bool :=
  match x with
  | NFunc _ y ps false (NBlock bsc ch) =>
      text_eqb (sy_mod y) (c_path C) && nodupb (gouts [ps]) && forallb nofn ch &&
      wf_seq (fun g z => wf S C m true false g [bsc; sc] z) (decls [bsc; sc]) [[]; ps] ch &&
      (negb (List.length ps =? 0)%nat || lclean ch || existsb is_decl ch)
  | NFunc _ _ _ _ _ => false
  | NUniao _ _ _ => true
  | x => nofn x
  end.
Definition fun_names (l : list node) : list text :=
  List.concat (map (fun x => match fun_of x with Some (n, _) => [n] | None => [] end) l).
Definition module_ok (md : amodule) : bool :=
  nodupb (fun_names (mo_body md)) && nodupb (variants_of (mo_body md)) &&
  forallb (top_ok (mo_scope md)) (mo_body md) &&
  wf_seq (fun g z => wf S C m (match m with None => true | _ => false end) false g [mo_scope md] z)
         (decls [mo_scope md]) [] (mo_body md).
End Check.
Fixpoint modules_ok (S : senv) (ctx : amodule -> gctx) (i : N) (l : list amodule) : bool :=
  match l with
  | [] => true
  | md :: r => (mo_builtin md || module_ok S (ctx md) (Some i) md) && modules_ok S ctx (i + 1) r
  end.
(** Modules have different paths, the first import is the built-in module, and
    every module passes the check. *)
Definition program_ok (builtins : text) (main : amodule) (imports : list amodule) : bool :=
  let S := senv_of main imports in
  let ctx := ctx_of imports builtins in
  nodupb (map mo_path (main :: imports)) && negb (mo_builtin main) &&
  match imports with
  | b :: _ => mo_builtin b && text_eqb (mo_path b) builtins && text_eqb (mo_name b) (txt "embutidos")
  | [] => false
  end &&
  modules_ok S ctx 0 imports && module_ok S (ctx main) None main.

(** Limits of the machine: operands of two bytes, and 256 variables outside
    functions. *)
Definition fit16b (i : instr) : bool :=
  match vm_argkind (fst i) with A16 => forallb (fun a => (a <? 2 ^ 16)%N) (snd i) | _ => true end.
Definition sizes_ok (builtins : text) (main : amodule) (imports : list amodule) : bool :=
  forallb (fun md => mo_builtin md ||
    match gen_module (ctx_of imports builtins md) md with
    | PyOk s => forallb fit16b (g_ops s) && (List.length (g_locals s) <=? 256)%nat
    | PyErr _ => true
    end) (main :: imports).

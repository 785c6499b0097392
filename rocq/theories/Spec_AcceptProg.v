(** The programs of [Prop_Accept.v], from their text on.

    [Spec_Accept.v] says which constructs and which uses are considered; here
    this is put together with the library that the analyser has loaded when it
    comes to the program, and with the check of [SemProg.v]. *)
From Verif Require Import Base Dec Bson Value Ast CodeGen Compile Types Syntax Lexer Parser Sym Check Front Sem SemWf SemProg Spec_Accept AcceptExpr.
Local Open Scope chk_scope.

(** ** The library *)
(** A native function with parameters and result as [AcceptExpr.nsig] lists them. *)
Fixpoint params_are (st : store) (ps : list (text * nat)) (qs : list prim) : bool :=
  match ps, qs with
  | [], [] => true
  | p :: ps, q :: qs =>
      match nth_error (so_syms st) (snd p) with
      | Some y => match s_kind y with SVar (CPrim r) => prim_eqb r q | _ => false end
      | None => false
      end && params_are st ps qs
  | _, _ => false
  end.
Definition native_ok (st : store) (n : text) (r : cty) (ps : list (text * nat)) : bool :=
  match nsig n with
  | Some (qs, q) => match r with CPrim r => prim_eqb r q | _ => false end && params_are st ps qs
  | None => false
  end.
(** A name of the library in the global scope [g]. *)
Definition name_ok (st : store) (g : nat) (path lib : text) (e : text * nat) : bool :=
  match nth_error (so_syms st) (snd e) with
  | Some x =>
      text_eqb (s_name x) (fst e) && negb (text_eqb (s_mod x) path) &&
      match s_kind x with
      | SFun r ps =>
          text_eqb (s_mod x) lib && match scope_get st g (fst e) with Some i => (i =? snd e)%nat | None => false end &&
          match builtin_fn (fst e) with Some _ => true | None => native_ok st (fst e) r ps end
      | SPrim _ => text_eqb (s_mod x) lib
      | _ => true
      end
  | None => false
  end.
Definition names_ok (st : store) (g : nat) (path lib : text) : bool :=
  match nth_error (so_scopes st) g with
  | Some c => match sc_up c with None => forallb (name_ok st g path lib) (sc_syms c) | Some _ => false end
  | None => false
  end.
(** Records are those of other modules, with their fields in scopes of their own. *)
Definition records_apart (st : store) (g t : nat) (path : text) : bool :=
  forallb (fun x => match s_kind x with
                    | SReg f _ _ => (f <? List.length (so_scopes st))%nat && negb (f =? g)%nat && negb (f =? t)%nat && negb (text_eqb (s_mod x) path)
                    | _ => true
                    end) (so_syms st).
(** The basic types are there under their names, and so are the functions that
    the compiler knows by name and the type of optionals. *)
Definition prim_bound (st : store) (g : nat) (p : prim) : bool :=
  match scope_get st g (prim_name p) with
  | Some i => match nth_error (so_syms st) i with
              | Some x => match s_kind x with SPrim q => prim_eqb q p | _ => false end
              | None => false
              end
  | None => false
  end.
Definition bound (st : store) (g : nat) (n : text) : bool := match scope_get st g n with Some _ => true | None => false end.
Definition opcao_bound (st : store) (g : nat) (path : text) : bool :=
  match scope_get st g ty_opcao_name with
  | Some i => match nth_error (so_syms st) i with Some x => negb (text_eqb (s_mod x) path) | None => false end
  | None => false
  end &&
  match so_opcao st with
  | Some i => match nth_error (so_syms st) i with Some x => text_eqb (s_name x) ty_opcao_name | None => false end
  | None => true
  end.
(** The analyser is about to check the module [path]. *)
Definition at_start (path : text) (c : actx) (st : store) : bool :=
  (cx_scope c =? cx_global c)%nat && (cx_depth c =? 0)%nat && negb (cx_reg c) && negb (cx_loop c) && text_eqb (cx_module c) path &&
  match cx_func c, cx_yield c with None, None => true | _, _ => false end &&
  negb (cx_global c =? cx_ty c)%nat &&
  match nth_error (so_scopes st) (cx_ty c) with Some t => match sc_syms t, sc_up t with [], None => true | _, _ => false end | None => false end.
Definition library_ok (path lib : text) (s : sst) : bool :=
  let st := sst_st s in
  let g := cx_global (sst_cx s) in
  at_start path (sst_cx s) st && names_ok st g path lib && records_apart st g (cx_ty (sst_cx s)) path &&
  forallb (prim_bound st g) prims && forallb (bound st g) [txt "vec"; txt "tam"; txt "anexa"; txt "remova"] && opcao_bound st g path.

(** ** The program *)
Definition is_nil {A} (l : list A) : bool := match l with [] => true | _ => false end.
(** Only the library is imported, and the names of basic types are their own. *)
Definition plain_store (lib : text) (st : store) : bool :=
  match so_imports st with [q] => text_eqb q lib | _ => false end &&
  forallb (fun x => match s_kind x with SPrim p => text_eqb (s_name x) (prim_name p) | _ => true end) (so_syms st).
(** The text of [p] has only the constructs of [core], its analysed tree only the
    uses of [safe]. *)
Definition text_ok (F : front_env) (U : uni) (fuel : nat) (p : text) : bool :=
  match parse_file F U p (start_sst F) with
  | COk m s0 =>
      match start_analyzer F U (visit_usa F U fuel) p s0 with
      | COk _ s1 =>
          library_ok p (builtins_path F) s1 && forallb (fun x => is_t (core x)) (sm_children m) &&
          match visit_all F (visit_usa F U fuel) (sm_children m) s1 with
          | COk body s2 => forallb (safe (sst_st s2) p (CPrim Types.TVazio)) body && plain_store (builtins_path F) (sst_st s2)
          | _ => false
          end
      | _ => false
      end
  | _ => false
  end.
(** The trees that the front end hands to the code generator. *)
Definition trees (F : front_env) (U : uni) (fuel : nat) (p : text) : option (amodule * list amodule) :=
  match analyse F U fuel p with
  | COk m s =>
      let st := sst_st s in
      match lmap (fun q => match assoc q (so_mods st) with Some i => lower_module st q i | None => LCrash end) (so_imports st),
            lower_module st p m with
      | LOk imports, LOk main => Some (main, imports)
      | _, _ => None
      end
  | _ => None
  end.
Definition in_fragment (F : front_env) (U : uni) (fuel : nat) (p : text) : bool :=
  text_ok F U fuel p && is_nil (f_order F []) &&
  match trees F U fuel p with
  | Some (main, imports) => program_ok (builtins_path F) main imports && sizes_ok (builtins_path F) main imports
  | None => false
  end.

(** What the analyser knows at the end: the global scope and the store. *)
Definition final (F : front_env) (U : uni) (fuel : nat) (p : text) : option (nat * store) :=
  match analyse F U fuel p with
  | COk m s => match mi_scope m with Some g => Some (g, sst_st s) | None => None end
  | _ => None
  end.
(** The fields of the records declared in the scope [g], with their types. *)
Definition field_type (st : store) (j : nat) : ty :=
  match nth_error (so_syms st) j with
  | Some y => match sym_ty y with Some c => strip st c | None => TyPrim TUnknown end
  | None => TyPrim TUnknown
  end.
Definition records (g : nat) (st : store) (n : text) : option (list (text * ty)) :=
  match scope_get st g n with
  | Some i => match nth_error (so_syms st) i with
              | Some x => match s_kind x with
                          | SReg f _ _ => Some (map (fun e => (fst e, field_type st (snd e))) (Spec_Accept.fields_of st f))
                          | _ => None
                          end
              | None => None
              end
  | None => None
  end.

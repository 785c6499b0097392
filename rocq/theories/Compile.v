(** Whole modules and programs: [ByteGen.compile]
    (/repo/amanda/compiler/codegen.py:207-301) and the loader that rebuilds the
    modules in the VM (/repo/amanda/vm/src/binload.rs:196-325). *)
From Verif Require Import Base Bson Opcode Value Ast CodeGen VM.

(** [Module] (/repo/amanda/compiler/module.py) with its analysed tree.
    [mo_name] is [path.split(fpath)[1].replace(".ama", "")]. *)
Record amodule := mkAMod {
  mo_path : text; mo_name : text; mo_builtin : bool; mo_scope : scope; mo_body : list node
}.

(** A finished generator run with its encoded instructions. *)
Record cmodule := mkCMod {
  cm_name : text; cm_builtin : bool; cm_locals : N; cm_consts : list ckey; cm_names : list text;
  cm_code : bytes; cm_funcs : list afunc; cm_regs : list (text * list text); cm_map : list Z
}.

(** codegen.py:279-292 *)
Definition flat_entry (e : Z * list N) : list Z :=
  match e with
  | (l, [a]) => [Z.of_N a; Z.of_N a; l]
  | (l, offs) => map Z.of_N offs ++ [l]
  end.
Definition flatten_map (m : list (Z * list N)) : list Z :=
  flat_map flat_entry (filter (fun e => negb (fst e =? 0)%Z) m).

(** codegen.py:216-217, 235-237 *)
Definition is_named_kind (k : symkind) : bool :=
  match k with KVar | KFunc | KPrim => true | _ => false end.
Definition init_tables (sc : scope) : pyres gst :=
  let! p := const_index init_gst (CText (txt "verdadeiro")) in
  let! p := const_index (fst p) (CText (txt "falso")) in
  seqm (fun e s => if is_named_kind (sy_kind (snd e)) then let! p := name_index s (fst e) in PyOk (fst p) else PyOk s)
       sc (fst p).

(** The state after [compile_block(program)] and the final [HALT]:
    codegen.py:253-258. *)
Definition gen_module (C : gctx) (m : amodule) : pyres gst :=
  let! s := init_tables (mo_scope m) in
  let! s := seqm (gen C) (mo_body m) (enter s (mo_scope m)) in
  PyOk (append_op (set_line (leave s) 0) HALT []).

(** [compile] and [compile_builtin] for one module: codegen.py:184-205, 207-301. *)
Definition compile_module (C : gctx) (m : amodule) : pyres cmodule :=
  if mo_builtin m then
    PyOk (mkCMod (mo_name m) true 0 [] [] [op_value HALT] [] [] [(-1)%Z])
  else
    let! s := gen_module C m in
    let! code := write_ops (g_labels s) (g_ops s) in
    PyOk (mkCMod (mo_name m) false (N.of_nat (List.length (g_locals s))) (g_consts s) (g_names s)
                 code (g_funcs s) (g_regs s) (flatten_map (g_map s))).

Fixpoint mapm {A B} (f : A -> pyres B) (l : list A) : pyres (list B) :=
  match l with
  | [] => PyOk []
  | x :: r => let! y := f x in let! ys := mapm f r in PyOk (y :: ys)
  end.

(** [self.modules]: codegen.py:239-241. *)
Fixpoint number_from (i : N) (l : list text) : list (text * N) :=
  match l with [] => [] | p :: r => (p, i) :: number_from (i + 1) r end.
Definition ctx_of (imports : list amodule) (builtins : text) (m : amodule) : gctx :=
  mkCtx (mo_path m) (number_from 0 (map mo_path imports)) builtins.

(** The main module and its imports (each compiled once, in load order):
    codegen.py:243-251. *)
Definition compile_all (builtins : text) (main : amodule) (imports : list amodule)
  : pyres (cmodule * list cmodule) :=
  let! is_ := mapm (fun m => compile_module (ctx_of imports builtins m) m) imports in
  let! m := compile_module (ctx_of imports builtins main) main in
  PyOk (m, is_).

(** ** The document handed to [bindump.dumps]: codegen.py:188-201, 286-298, 856-864 *)
Definition const_doc (c : ckey) : bval := match c with CInt z => BInt z | CText t => BStr t end.
Definition func_doc (f : afunc) : bval :=
  BDoc [(txt "name", BStr (fn_name f)); (txt "start_ip", BInt (Z.of_N (fn_start f)));
        (txt "locals", BInt (Z.of_N (fn_locals f)));
        (txt "module", BInt (match fn_mod f with Some i => Z.of_N i | None => -1 end))].
Definition reg_doc (r : text * list text) : bval :=
  BDoc [(txt "name", BStr (fst r)); (txt "fields", BArr (map BStr (snd r)))].
Definition module_doc (m : cmodule) (imports : list bval) : list (text * bval) :=
  [(txt "name", BStr (cm_name m)); (txt "builtin", BInt (if cm_builtin m then 1 else 0));
   (txt "entry_locals", BInt (Z.of_N (cm_locals m)));
   (txt "constants", BArr (map const_doc (cm_consts m)));
   (txt "names", BArr (map BStr (cm_names m)));
   (txt "ops", BBytes (cm_code m));
   (txt "functions", BArr (map func_doc (cm_funcs m)));
   (txt "registos", BArr (map reg_doc (cm_regs m)));
   (txt "src_map", BArr (map BInt (cm_map m)));
   (txt "imports", BArr imports)].
Definition program_doc (p : cmodule * list cmodule) : list (text * bval) :=
  module_doc (fst p) (map (fun m => BDoc (module_doc m [])) (snd p)).

(** ** The loader *)
Definition obind {A B} (x : option A) (f : A -> option B) : option B :=
  match x with Some a => f a | None => None end.
Notation "'let?!' x ':=' a 'in' b" := (obind a (fun x => b)) (at level 200, x name, right associativity).

Definition take_bstr (v : bval) : option text := match v with BStr t => Some t | _ => None end.
Definition take_bint (v : bval) : option Z := match v with BInt z => Some z | _ => None end.
Definition take_barr (v : bval) : option (list bval) := match v with BArr l => Some l | _ => None end.
Definition take_bdoc (v : bval) : option (list (text * bval)) := match v with BDoc l => Some l | _ => None end.
Definition take_bbytes (v : bval) : option bytes := match v with BBytes b => Some b | _ => None end.
(** [z as usize] *)
Definition as_usize (z : Z) : N := wrap 8 z.

(** [Const::from] and [consume_const]: binload.rs:29-38, 231-239.  The compiler
    writes no doubles. *)
Definition load_const_val (v : bval) : option value :=
  match v with BStr t => const_from_str t | BInt z => Some (VInt z) | _ => None end.
(** [doc_into_amafn]: binload.rs:196-216. *)
Definition load_func (v : bval) : option afunc :=
  let?! d := take_bdoc v in
  let?! s := obind (assoc (txt "start_ip") d) take_bint in
  let?! m := obind (assoc (txt "module") d) take_bint in
  let?! n := obind (assoc (txt "name") d) take_bstr in
  let?! l := obind (assoc (txt "locals") d) take_bint in
  Some (mkFunc n (as_usize s) (as_usize l) (if (0 <=? m)%Z then Some (as_usize m) else None)).
(** [doc_into_reg]: binload.rs:218-230. *)
Definition load_reg (v : bval) : option (text * list text) :=
  let?! d := take_bdoc v in
  let?! n := obind (assoc (txt "name") d) take_bstr in
  let?! fs := obind (assoc (txt "fields") d) take_barr in
  let?! fs := opt_map take_bstr fs in Some (n, fs).
(** [build_module]: binload.rs:253-325. *)
Definition build_module (d : list (text * bval)) : option vmodule :=
  let?! cs := obind (assoc (txt "constants") d) take_barr in
  let?! cs := opt_map load_const_val cs in
  let?! ns := obind (assoc (txt "names") d) take_barr in
  let?! ns := opt_map take_bstr ns in
  let?! code := obind (assoc (txt "ops") d) take_bbytes in
  let?! el := obind (assoc (txt "entry_locals") d) take_bint in
  let?! sm := obind (assoc (txt "src_map") d) take_barr in
  let?! sm := opt_map take_bint sm in
  let?! fs := obind (assoc (txt "functions") d) take_barr in
  let?! fs := opt_map load_func fs in
  let?! rs := obind (assoc (txt "registos") d) take_barr in
  let?! rs := opt_map load_reg rs in
  let?! bi := obind (assoc (txt "builtin") d) take_bint in
  let?! n := obind (assoc (txt "name") d) take_bstr in
  Some (mkModule n (negb (bi =? 0)%Z) cs ns code (map as_usize sm) (as_usize el) fs rs).
(** [load_bin]: binload.rs:241-251. *)
Definition load_program (d : list (text * bval)) : option program :=
  let?! is_ := obind (assoc (txt "imports") d) take_barr in
  let?! is_ := opt_map (fun v => obind (take_bdoc v) build_module) is_ in
  let?! m := build_module d in Some (mkProgram m is_).

(** Compile, send, load: what [amanda] runs for a program
    (/repo/amanda/__main__.py:26-52, /repo/amanda/vm/src/lib.rs:20-36). *)
Definition build (builtins : text) (main : amodule) (imports : list amodule) : pyres (option program) :=
  let! p := compile_all builtins main imports in
  let! bs := dumps (program_doc p) in
  PyOk (match load_doc bs with LOk d => load_program d | _ => None end).

(** The bytecode generator: [class ByteGen], /repo/amanda/compiler/codegen.py. *)
From Verif Require Import Base Bson Opcode Value Ast.

(** Keys of the constant table: codegen.py:459-472.  Literals are texts;
    [load_const(1)], variant tags and slot numbers are Python ints. *)
Inductive ckey := CInt (z : Z) | CText (t : text).
Definition ckey_eqb (a b : ckey) : bool :=
  match a, b with
  | CInt x, CInt y => (x =? y)%Z
  | CText x, CText y => text_eqb x y
  | _, _ => false
  end.

(** The generator's fields: codegen.py:182-205.  [func_locals] is a dict, kept
    as an association list; [const_table], [names] and [uniao_variants] map each
    key to its insertion position, so a list of keys is the same; [labels] maps
    0, 1, ... to offsets.  [ctx_loop_*] are [None] for -1.  [g_scopes] is
    [scope_symtab] followed by its enclosing scopes. *)
Record gst := mkG {
  g_locals : list (text * N); g_consts : list ckey; g_variants : list text; g_names : list text;
  g_labels : list N; g_ops : list instr; g_funcs : list afunc; g_regs : list (text * list text);
  g_ip : N; g_line : Z; g_brk : option N; g_cont : option N; g_map : list (Z * list N);
  g_scopes : list scope
}.
Definition init_gst : gst := mkG [] [] [] [] [] [] [] [] 0 (-1) None None [] [].

Definition set_locals (s : gst) x := mkG x (g_consts s) (g_variants s) (g_names s) (g_labels s) (g_ops s) (g_funcs s) (g_regs s) (g_ip s) (g_line s) (g_brk s) (g_cont s) (g_map s) (g_scopes s).
Definition set_consts (s : gst) x := mkG (g_locals s) x (g_variants s) (g_names s) (g_labels s) (g_ops s) (g_funcs s) (g_regs s) (g_ip s) (g_line s) (g_brk s) (g_cont s) (g_map s) (g_scopes s).
Definition set_variants (s : gst) x := mkG (g_locals s) (g_consts s) x (g_names s) (g_labels s) (g_ops s) (g_funcs s) (g_regs s) (g_ip s) (g_line s) (g_brk s) (g_cont s) (g_map s) (g_scopes s).
Definition set_names (s : gst) x := mkG (g_locals s) (g_consts s) (g_variants s) x (g_labels s) (g_ops s) (g_funcs s) (g_regs s) (g_ip s) (g_line s) (g_brk s) (g_cont s) (g_map s) (g_scopes s).
Definition set_labels (s : gst) x := mkG (g_locals s) (g_consts s) (g_variants s) (g_names s) x (g_ops s) (g_funcs s) (g_regs s) (g_ip s) (g_line s) (g_brk s) (g_cont s) (g_map s) (g_scopes s).
Definition add_func (s : gst) f := mkG (g_locals s) (g_consts s) (g_variants s) (g_names s) (g_labels s) (g_ops s) (g_funcs s ++ [f]) (g_regs s) (g_ip s) (g_line s) (g_brk s) (g_cont s) (g_map s) (g_scopes s).
Definition add_reg (s : gst) r := mkG (g_locals s) (g_consts s) (g_variants s) (g_names s) (g_labels s) (g_ops s) (g_funcs s) (g_regs s ++ [r]) (g_ip s) (g_line s) (g_brk s) (g_cont s) (g_map s) (g_scopes s).
Definition set_line (s : gst) x := mkG (g_locals s) (g_consts s) (g_variants s) (g_names s) (g_labels s) (g_ops s) (g_funcs s) (g_regs s) (g_ip s) x (g_brk s) (g_cont s) (g_map s) (g_scopes s).
Definition set_loop (s : gst) b c := mkG (g_locals s) (g_consts s) (g_variants s) (g_names s) (g_labels s) (g_ops s) (g_funcs s) (g_regs s) (g_ip s) (g_line s) b c (g_map s) (g_scopes s).
Definition set_scopes (s : gst) x := mkG (g_locals s) (g_consts s) (g_variants s) (g_names s) (g_labels s) (g_ops s) (g_funcs s) (g_regs s) (g_ip s) (g_line s) (g_brk s) (g_cont s) (g_map s) x.
Definition set_code (s : gst) ops ip m := mkG (g_locals s) (g_consts s) (g_variants s) (g_names s) (g_labels s) ops (g_funcs s) (g_regs s) ip (g_line s) (g_brk s) (g_cont s) m (g_scopes s).

(** [new_label]/[patch_label_loc]: codegen.py:303-315. *)
Definition new_label (s : gst) : gst * N :=
  (set_labels s (g_labels s ++ [g_ip s]), N.of_nat (List.length (g_labels s))).
Definition patch_label (s : gst) (l : N) : pyres gst :=
  if (2 ^ 64 - 1 <? g_ip s)%N then PyErr ValueErr
  else PyOk (set_labels s (list_set (g_labels s) (N.to_nat l) (g_ip s))).

(** The update of [src_map] in [append_op]: codegen.py:317-325. *)
Fixpoint map_add (m : list (Z * list N)) (line : Z) (ip : N) : list (Z * list N) :=
  match m with
  | [] => [(line, [ip])]
  | (l, offs) :: r =>
      if (l =? line)%Z then
        (l, match offs with
            | [a] => [a; ip]
            | [a; b] => if (b <? ip)%N then [a; ip] else offs
            | _ => offs ++ [ip]
            end) :: r
      else (l, offs) :: map_add r line ip
  end.
(** [append_op]: codegen.py:317-327. *)
Definition append_op (s : gst) (o : opcode) (args : list N) : gst :=
  set_code s (g_ops s ++ [(o, args)]) (g_ip s + op_size o)%N (map_add (g_map s) (g_line s) (g_ip s)).

(** Position of a key, adding it at the end if absent. *)
Fixpoint index_of {A} (eqb : A -> A -> bool) (l : list A) (x : A) : option nat :=
  match l with
  | [] => None
  | y :: r => if eqb y x then Some O else option_map S (index_of eqb r x)
  end.
Definition table_index {A} (eqb : A -> A -> bool) (l : list A) (x : A) : list A * N :=
  match index_of eqb l x with
  | Some i => (l, N.of_nat i)
  | None => (l ++ [x], N.of_nat (List.length l))
  end.
(** [get_table_index]: codegen.py:459-472. *)
Definition const_index (s : gst) (c : ckey) : pyres (gst * N) :=
  let (t, i) := table_index ckey_eqb (g_consts s) c in
  if (i <? 2 ^ 16 - 1)%N then PyOk (set_consts s t, i) else PyErr AssertErr.
Definition name_index (s : gst) (n : text) : pyres (gst * N) :=
  let (t, i) := table_index text_eqb (g_names s) n in
  if (i <? 2 ^ 16 - 1)%N then PyOk (set_names s t, i) else PyErr AssertErr.
(** [get_variant_index]: codegen.py:454-457. *)
Definition variant_index (s : gst) (v : text) : gst := set_variants s (fst (table_index text_eqb (g_variants s) v)).
Definition variant_tag (s : gst) (v : text) : pyres N :=
  match index_of text_eqb (g_variants s) v with Some i => PyOk (N.of_nat i) | None => PyErr KeyErr end.

(** [load_const], [load_name]: codegen.py:329-337. *)
Definition load_const (s : gst) (c : ckey) : pyres gst :=
  let! p := const_index s c in PyOk (append_op (fst p) LOAD_CONST [snd p]).
Definition load_name (s : gst) (n : text) : pyres gst :=
  let! p := name_index s n in PyOk (append_op (fst p) LOAD_NAME [snd p]).

(** [Scope.resolve] along the enclosing scopes: symbols/core.py:121-129. *)
Fixpoint resolve (scs : list scope) (n : text) : option sym :=
  match scs with
  | [] => None
  | sc :: r => match assoc n sc with Some x => Some x | None => resolve r n end
  end.

(** What does not change while a module is generated: [ctx_module.fpath],
    [modules], and the path of the built-in module that declares [real]. *)
Record gctx := mkCtx { c_path : text; c_modules : list (text * N); c_builtins : text }.

Section Gen.
Variable C : gctx.

(** [load_variable]: codegen.py:481-498. *)
Definition load_variable (s : gst) (x : sym) : pyres gst :=
  let! p := name_index s (sy_name x) in
  let (s, i) := p in
  if negb (text_eqb (sy_mod x) (c_path C)) then
    match assoc (sy_mod x) (c_modules C) with
    | Some m => PyOk (append_op s LOAD_MODULE_DEF [m; i])
    | None => PyErr KeyErr
    end
  else if sy_global x then PyOk (append_op s GET_GLOBAL [i])
  else
    match assoc (sy_out x) (g_locals s) with
    | Some k => PyOk (append_op s GET_LOCAL [k])
    | None => PyErr KeyErr
    end.
(** [Builtins.Real] as a symbol. *)
Definition real_sym : sym := mkSym (txt "real") (txt "real") true (c_builtins C) KPrim.
(** [gen_auto_cast]: codegen.py:915-919. *)
Definition auto_cast (s : gst) (pr : bool) : pyres gst :=
  if pr then let! s := load_variable s real_sym in PyOk (append_op s CAST [0%N]) else PyOk s.

(** [declare_local]: codegen.py:569-572. *)
Definition declare_local (s : gst) (x : sym) : gst * N :=
  let i := N.of_nat (List.length (g_locals s)) in
  (set_locals s (assoc_set (g_locals s) (sy_out x) i), i).
(** [set_variable]: codegen.py:558-567. *)
Definition set_variable (s : gst) (x : sym) : pyres gst :=
  if sy_global x then
    let! p := name_index s (sy_name x) in PyOk (append_op (fst p) SET_GLOBAL [snd p])
  else
    let s := match assoc (sy_out x) (g_locals s) with Some _ => s | None => fst (declare_local s x) end in
    match assoc (sy_out x) (g_locals s) with
    | Some k => PyOk (append_op s SET_LOCAL [k])
    | None => PyErr KeyErr
    end.
Definition need {A} (o : option A) (k : A -> pyres gst) : pyres gst :=
  match o with Some a => k a | None => PyErr AttributeErr end.

(** codegen.py:624-651. *)
Definition binop_code (op : bop) : opcode :=
  match op with
  | BAdd => OP_ADD | BSub => OP_MINUS | BMul => OP_MUL | BDiv => OP_DIV | BFloorDiv => OP_FLOORDIV
  | BMod => OP_MODULO | BAnd => OP_AND | BOr => OP_OR | BEq => OP_EQ | BNe => OP_NOTEQ
  | BGt => OP_GREATER | BGe => OP_GREATEREQ | BLt => OP_LESS | BLe => OP_LESSEQ
  end.
(** codegen.py:535-542 *)
Definition init_value (ty : text) : ckey :=
  if text_eqb ty (txt "int") then CInt 0
  else if text_eqb ty (txt "real") then CText (txt "0.0")
  else if text_eqb ty (txt "bool") then CText (txt "falso")
  else if text_eqb ty (txt "texto") then CText (txt "''")
  else CText (txt "falso").

Definition seqm {A} (f : A -> gst -> pyres gst) : list A -> gst -> pyres gst :=
  fix go (l : list A) (s : gst) {struct l} : pyres gst :=
    match l with
    | [] => PyOk s
    | y :: r => match f y s with PyOk s' => go r s' | PyErr e => PyErr e end
    end.

(** [enter_block]/[exit_block]: codegen.py:432-439. *)
Definition enter (s : gst) (sc : scope) : gst := set_scopes s (sc :: g_scopes s).
Definition leave (s : gst) : gst := set_scopes s (tl (g_scopes s)).

(** [lineno] of a node; decision trees have none. *)
Definition node_line (x : node) : option Z :=
  match x with
  | NConst l _ _ _ | NVar l _ _ _ | NAlvo l _ | NPath l _ _ | NUn l _ _ _ | NBin l _ _ _ _ _ _
  | NCall l _ _ _ _ | NNamed l _ _ | NConv l _ _ | NIndex l _ _ | NIndexSet l _ _ _ | NFmt l _
  | NList l _ | NGet l _ _ | NField l _ _ | NSet l _ _ _ _ | NUnwrap l _ _ | NAssign l _ _ _ _ | NVarDecl l _ _ _
  | NSe l _ _ _ _ | NSenaoSe l _ _ | NEnquanto l _ _ | NPara l _ _ _ _ _ | NFunc l _ _ _ _
  | NRet l _ | NProduz l _ | NMostra l _ | NLoopCtl l _ | NRegisto l _ _ | NUniao l _ _
  | NNoOp l | NYield l _ _ | NIguala l _ => Some l
  | NBlock _ _ => Some 1%Z
  | NSuccess _ _ | NSwitch _ _ _ | NCase _ _ _ | NFailure => None
  end.

(** [gen_assign], after its right side: codegen.py:576-591. *)
Definition finish_assign (s : gst) (x : sym) (rhs : node) : pyres gst :=
  let! s := match rhs with NAssign _ _ s' _ _ => load_variable s s' | _ => PyOk s end in
  set_variable s x.

(** [compile_block]: codegen.py:441-445, for a given [gen]. *)
Definition block_with (f : node -> gst -> pyres gst) (x : node) (s : gst) : pyres gst :=
  match x with
  | NBlock sc ch => let! s := seqm f ch (enter s sc) in PyOk (leave s)
  | _ => PyErr AttributeErr
  end.

(** [gen] with the [gen_*] methods: codegen.py:421-992. *)
Fixpoint gen (x : node) (s0 : gst) {struct x} : pyres gst :=
  let s := match node_line x with Some l => set_line s0 l | None => s0 end in
  match x with
  (* gen_constant: 474-479 *)
  | NConst _ _ lex pr => let! s := load_const s (CText lex) in auto_cast s pr
  (* gen_variable: 503-515 *)
  | NVar _ name o pr =>
      need (match o with Some x => Some x | None => resolve (g_scopes s) name end) (fun x =>
      let! s := load_variable s x in auto_cast s pr)
  (* gen_alvo: 925-926 *)
  | NAlvo _ x => load_variable s x
  (* gen_path: 517-532 *)
  | NPath _ vid callable =>
      let! tag := variant_tag s vid in
      let! s := load_const s (CInt (Z.of_N tag)) in
      PyOk (if callable then s else append_op s BUILD_VARIANT [0%N])
  (* gen_unaryop: 593-604 *)
  | NUn _ op e pr =>
      let! s := gen e s in
      match op with
      | UMinus => auto_cast (append_op s OP_INVERT []) pr
      | UNot => auto_cast (append_op s OP_NOT []) pr
      | UPlus => PyErr NotImplementedErr
      end
  (* gen_binop: 606-656 *)
  | NBin _ op nl nr l r pr =>
      match nl, op, nr with
      | true, BEq, _ => let! s := gen r s in PyOk (append_op s OP_ISNULL [])
      | false, BEq, true => let! s := gen l s in PyOk (append_op s OP_ISNULL [])
      | true, BNe, _ => let! s := gen r s in PyOk (append_op (append_op s OP_ISNULL []) OP_NOT [])
      | false, BNe, true => let! s := gen l s in PyOk (append_op (append_op s OP_ISNULL []) OP_NOT [])
      | _, _, _ =>
          let! s := gen l s in
          let! s := gen r s in
          auto_cast (append_op s (binop_code op) []) pr
      end
  (* gen_call: 867-882 *)
  | NCall _ k callee args pr =>
      let! s := seqm gen args s in
      let! s := gen callee s in
      let n := N.of_nat (List.length args) in
      match k with
      | CVariant => PyOk (append_op s BUILD_VARIANT [n])
      | CType => auto_cast (append_op s BUILD_OBJ [n]) pr
      | CFunction => auto_cast (append_op s CALL_FUNCTION [n]) pr
      end
  (* gen_namedarg: 884-886 *)
  | NNamed _ name e => let! s := load_name s name in gen e s
  (* gen_converta: 898-913 *)
  | NConv _ e c =>
      let! s := gen e s in
      match c with
      | None => PyOk s
      | Some (t, from_indef) =>
          let! s := load_variable s t in
          PyOk (append_op s CAST [if from_indef then 1%N else 0%N])
      end
  (* gen_indexget: 928-932; gen_indexset: 934-937 *)
  | NIndex _ t i => let! s := gen t s in let! s := gen i s in PyOk (append_op s OP_INDEX_GET [])
  | NIndexSet _ t i v =>
      let! s := gen t s in let! s := gen i s in let! s := gen v s in PyOk (append_op s OP_INDEX_SET [])
  (* gen_fmtstr: 939-942; gen_listliteral: 951-955 *)
  | NFmt _ ps => let! s := seqm gen ps s in PyOk (append_op s BUILD_STR [N.of_nat (List.length ps)])
  | NList _ es => let! s := seqm gen es s in PyOk (append_op s BUILD_VEC [N.of_nat (List.length es)])
  (* gen_get: 957-963; gen_set: 965-968 *)
  | NGet _ t m => let! s := gen t s in let! s := load_name s m in PyOk (append_op s GET_PROP [])
  | NField _ t m => let! s := gen t s in load_name s m
  | NSet _ gln t m v =>
      let! s := gen t (set_line s gln) in
      let! s := load_name s m in
      let! s := gen v s in
      PyOk (append_op s SET_PROP [])
  (* gen_unwrap: 970-974 *)
  | NUnwrap _ o d =>
      let! s := gen o s in
      match d with
      | Some d => let! s := gen d s in PyOk (append_op s OP_UNWRAP [1%N])
      | None => PyOk (append_op s OP_UNWRAP [0%N])
      end
  (* gen_assign: 576-591 *)
  | NAssign _ _ x rhs _ => let! s := gen rhs s in finish_assign s x rhs
  (* gen_vardecl: 534-556; [gen_assign] is called directly *)
  | NVarDecl _ name ty init =>
      match init with
      | Some (NAssign _ _ x rhs _) => let! s := gen rhs s in finish_assign s x rhs
      | Some _ => PyErr AttributeErr
      | None =>
          let! s := load_const s (init_value ty) in
          need (resolve (g_scopes s) name) (fun x => set_variable s x)
      end
  (* gen_se: 658-684 *)
  | NSe _ c th elifs el =>
      let (s, after_if) := new_label s in
      let (s, after_then) := new_label s in
      let! s := gen c s in
      let s := append_op s JUMP_IF_FALSE [after_then] in
      let! s := block_with gen th s in
      let s := append_op s JUMP [after_if] in
      let! s := patch_label s after_then in
      let! s := seqm (fun b s =>
        match b with
        | NSenaoSe _ c blk =>
            let (s, after) := new_label s in
            let! s := gen c s in
            let s := append_op s JUMP_IF_FALSE [after] in
            let! s := block_with gen blk s in
            let s := append_op s JUMP [after_if] in
            patch_label s after
        | _ => PyErr AttributeErr
        end) elifs s in
      let! s := match el with Some b => block_with gen b s | None => PyOk s end in
      patch_label s after_if
  | NSenaoSe _ _ _ => PyErr NotImplementedErr
  | NBlock _ _ => PyErr NotImplementedErr
  (* gen_enquanto: 686-716 *)
  | NEnquanto _ c blk =>
      let (s, after_loop) := new_label s in
      let (s, lp) := new_label s in
      let ob := g_brk s in let oc := g_cont s in
      let s := set_loop s (Some after_loop) (Some lp) in
      match blk with
      | NBlock sc ch =>
          let s := enter s sc in
          let! s := patch_label s lp in
          let! s := gen c s in
          let s := append_op s JUMP_IF_FALSE [after_loop] in
          let! s := seqm gen ch s in
          let s := append_op s JUMP [lp] in
          let! s := patch_label s after_loop in
          PyOk (set_loop (leave s) ob oc)
      | _ => PyErr AttributeErr
      end
  (* gen_para: 720-756 *)
  | NPara _ var start stop inc blk =>
      match blk with
      | NBlock sc ch =>
          need (resolve (sc :: g_scopes s) var) (fun cv =>
          let (s, after_loop) := new_label s in
          let (s, lp) := new_label s in
          let s := enter s sc in
          let! s := gen start s in
          let! s := set_variable s cv in
          let! s := patch_label s lp in
          let! s := load_variable s cv in
          let! s := gen stop s in
          let s := append_op s OP_LESS [] in
          let s := append_op s JUMP_IF_FALSE [after_loop] in
          let! s := seqm gen ch s in
          let! s := match inc with Some i => gen i s | None => load_const s (CInt 1) end in
          let! s := load_variable s cv in
          let s := append_op s OP_ADD [] in
          let! s := set_variable s cv in
          let s := append_op s JUMP [lp] in
          let! s := patch_label s after_loop in
          PyOk (leave s))
      | _ => PyErr AttributeErr
      end
  (* gen_functiondecl, gen_methoddecl: 826-865 *)
  | NFunc _ x params builtin blk =>
      let! p := name_index s (sy_name x) in
      let s := fst p in
      let (s, func_end) := new_label s in
      let s := append_op s JUMP [func_end] in
      let (s, func_start) := new_label s in
      let prev := g_locals s in
      let s := set_locals s (fold_left (fun ls q =>
                 assoc_set ls (sy_out (snd q)) (N.of_nat (List.length ls))) params []) in
      let! s :=
        (if builtin then PyOk s
         else match blk with
              | NBlock sc ch => let! s := seqm gen ch (enter s sc) in PyOk (leave s)
              | _ => PyErr AttributeErr
              end) in
      let! s := load_const s (CText (txt "falso")) in
      let s := append_op s RETURN [] in
      let num_locals := N.of_nat (List.length (g_locals s)) in
      let s := set_locals s prev in
      let! s := patch_label s func_end in
      PyOk (add_func s (mkFunc (sy_name x) (nth (N.to_nat func_start) (g_labels s) 0%N) num_locals
                               (assoc (sy_mod x) (c_modules C))))
  (* gen_retorna: 888-893; gen_produz: 895-896; gen_mostra: 921-923 *)
  | NRet _ e =>
      let! s := match e with Some e => gen e s | None => load_const s (CText (txt "falso")) end in
      PyOk (append_op s RETURN [])
  | NProduz _ e => gen e s
  | NMostra _ e => let! s := gen e s in PyOk (append_op s MOSTRA [])
  (* gen_loopctlstmt: 944-949; label -1 is a KeyError when encoding, here at once *)
  | NLoopCtl _ q =>
      match (if q then g_brk s else g_cont s) with
      | Some l => PyOk (append_op s JUMP [l])
      | None => PyErr KeyErr
      end
  (* gen_registo: 976-987 *)
  | NRegisto _ name fields =>
      let! p := name_index s name in
      let s := add_reg (fst p) (name, fields) in
      let s := append_op s LOAD_REGISTO [N.of_nat (List.length (g_regs s) - 1)] in
      need (resolve (g_scopes s) name) (fun x => set_variable s x)
  (* gen_uniao: 989-994 *)
  | NUniao _ name vids =>
      let! p := name_index s name in PyOk (fold_left variant_index vids (fst p))
  | NNoOp _ => PyOk s
  (* gen_yieldblock: 447-452 *)
  | NYield _ sc ch => let! s := seqm gen ch (enter s sc) in PyOk (leave s)
  (* gen_iguala, gen_iguala_from_ir: 758-778.  [DSwitch.fallback] is not read. *)
  | NIguala _ tree => gen tree s
  | NSuccess binds body =>
      let! s := seqm (fun b s =>
        let! s := load_variable s (snd b) in
        match body with
        | NYield _ sc _ => need (resolve (sc :: g_scopes s) (fst b)) (fun x => set_variable s x)
        | _ => PyErr AttributeErr
        end) binds s in
      gen body s
  (* gen_iguala_cases: 807-833, with gen_iguala_test: 780-795 and
     gen_iguala_case_bindings: 797-812 *)
  | NSwitch v cases _ =>
      match cases with
      | [] => PyErr IndexErr
      | _ :: _ =>
          let (s, after_if) := new_label s in
          let! s := seqm (fun cs s =>
            match cs with
            | NCase c args body =>
                let (s, after) := new_label s in
                let! s := load_variable s v in
                let! s :=
                  match c with
                  | PInt z => let! s := load_const s (CInt z) in PyOk (append_op s OP_EQ [])
                  | PStr t => let! s := load_const s (CText t) in PyOk (append_op s OP_EQ [])
                  | PVariant vid => let! tag := variant_tag s vid in PyOk (append_op s MATCH_VARIANT [tag])
                  end in
                let s := append_op s JUMP_IF_FALSE [after] in
                let! s := load_variable s v in
                let! s :=
                  match c, args with
                  | PVariant _, _ :: _ =>
                      let! s := seqm (fun a s =>
                        let (s, i) := declare_local s a in load_const s (CInt (Z.of_N i))) args s in
                      PyOk (append_op s BIND_MATCH_ARGS [N.of_nat (List.length args)])
                  | _, _ => PyOk s
                  end in
                let! s := gen body s in
                let s := append_op s JUMP [after_if] in
                patch_label s after
            | _ => PyErr AttributeErr
            end) cases s in
          patch_label s after_if
      end
  | NCase _ _ _ => PyErr NotImplementedErr
  | NFailure => PyErr NotImplementedErr
  end.

End Gen.

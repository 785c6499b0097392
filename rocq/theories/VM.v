(** The virtual machine: /repo/amanda/vm/src/vm.rs, with the loader's
    conversion of constants (binload.rs). *)
From Verif Require Import Base Dec Float Bson Opcode Value.

(** ** Constants *)

(** [Const::from_str]: binload.rs:40-67.  [None] is a slicing panic: the
    one-byte slices fail on an empty text, on a first or last character that
    is not ASCII, and on a lone quote. *)
Definition is_quote (c : N) : bool := ((c =? 34) || (c =? 39))%N.
Definition const_from_str (t : text) : option value :=
  if text_eqb t (txt "verdadeiro") then Some (VBool true)
  else if text_eqb t (txt "falso") then Some (VBool false)
  else if text_eqb t (txt "nulo") then Some VNone
  else
    match parse_i64 t with
    | Some z => Some (VInt z)
    | None =>
        match parse_f64 t with
        | Some f => Some (VF64 f)
        | None =>
            match t with
            | [] => None
            | c :: r =>
                if (128 <=? c)%N then None
                else if is_quote c then
                  match rev r with
                  | [] => None
                  | d :: m => if (128 <=? d)%N then None else Some (VStr (rev m))
                  end
                else Some (VStr t)
            end
        end
    end.

(** ** Static data *)

(** [struct Module] as loaded: module.rs:11-22, binload.rs:253-325. *)
Record vmodule := mkModule {
  m_name : text; m_builtin : bool; m_consts : list value; m_names : list text;
  m_code : bytes; m_srcmap : list N; m_locals : N; m_funcs : list afunc;
  m_regs : list (text * list text)
}.
(** Main module and imports: binload.rs:241-251. *)
Record program := mkProgram { p_main : vmodule; p_imports : list vmodule }.

(** ** Dynamic state *)

(** A frame is the copy of an [AmaFunc] made by a call: function.rs:30-39. *)
Record frame := mkFrame {
  f_name : text; f_ip : N; f_last : N; f_bp : Z; f_mod : option N
}.
(** [AmaVM]: vm.rs:65-76.  [s_ctx]: [None] is the main module, [Some i] the
    [i]-th import.  [s_globs] holds the global table of the main module and
    [s_iglobs] those of the imports.  [s_frames] has the newest frame first. *)
Record state := mkState {
  s_ctx : option N; s_frames : list frame; s_vals : list value; s_sp : Z;
  s_world : world; s_globs : list (text * value); s_iglobs : list (list (text * value))
}.

Definition recursion_limit : nat := 1000.        (* vm.rs:18 *)
Definition default_stack_size : nat := 256.      (* vm.rs:19 *)

Definition get_module (P : program) (m : option N) : option vmodule :=
  match m with None => Some (p_main P) | Some i => nth_error (p_imports P) (N.to_nat i) end.
Definition get_globs (s : state) (m : option N) : list (text * value) :=
  match m with None => s_globs s | Some i => nth (N.to_nat i) (s_iglobs s) [] end.
Definition set_globs (s : state) (m : option N) (g : list (text * value)) : state :=
  match m with
  | None => mkState (s_ctx s) (s_frames s) (s_vals s) (s_sp s) (s_world s) g (s_iglobs s)
  | Some i => mkState (s_ctx s) (s_frames s) (s_vals s) (s_sp s) (s_world s) (s_globs s)
                      (list_set (s_iglobs s) (N.to_nat i) g)
  end.
Definition with_stack (s : state) (vs : list value) (sp : Z) : state :=
  mkState (s_ctx s) (s_frames s) vs sp (s_world s) (s_globs s) (s_iglobs s).
Definition with_frames (s : state) (fs : list frame) : state :=
  mkState (s_ctx s) fs (s_vals s) (s_sp s) (s_world s) (s_globs s) (s_iglobs s).
Definition with_world (s : state) (w : world) : state :=
  mkState (s_ctx s) (s_frames s) (s_vals s) (s_sp s) w (s_globs s) (s_iglobs s).
Definition with_ctx (s : state) (m : option N) : state :=
  mkState m (s_frames s) (s_vals s) (s_sp s) (s_world s) (s_globs s) (s_iglobs s).

Definition zlen (l : list value) : Z := Z.of_nat (List.length l).
(** Indexing [Vec] with a computed [usize]; [None] is out of bounds.  A negative
    index is a huge [usize]; in a release build [arg + (-1 as usize)] wraps to
    [arg - 1]. *)
Definition vget (vs : list value) (i : Z) : option value :=
  if (i <? 0)%Z then None else nth_error vs (Z.to_nat i).
Definition vset (vs : list value) (i : Z) (v : value) : option (list value) :=
  if ((i <? 0) || (zlen vs <=? i))%Z then None else Some (list_set vs (Z.to_nat i) v).

(** [op_push]: vm.rs:109-117 ([sp >= -1] always holds). *)
Definition op_push (s : state) (v : value) : state :=
  let sp := (s_sp s + 1)%Z in
  let n := zlen (s_vals s) in
  if (sp =? n)%Z then with_stack s (s_vals s ++ [v]) sp
  else if (sp <? n)%Z then with_stack s (list_set (s_vals s) (Z.to_nat sp) v) sp
  else with_stack s (s_vals s) sp.

(** [op_pop]: vm.rs:119-131. *)
Definition op_pop (s : state) : option (value * state) :=
  let n := (zlen (s_vals s) - 1)%Z in
  if (s_sp s =? n)%Z then
    match vget (s_vals s) n with
    | Some v => Some (v, with_stack s (removelast (s_vals s)) (s_sp s - 1))
    | None => None
    end
  else if (s_sp s <? n)%Z then
    match vget (s_vals s) (s_sp s) with
    | Some v => Some (v, with_stack s (list_set (s_vals s) (Z.to_nat (s_sp s)) VNone) (s_sp s - 1))
    | None => None
    end
  else None.

(** The values in positions [start..=sp]. *)
Definition slice (vs : list value) (start sp : Z) : option (list value) :=
  if ((start <? 0) || (sp + 1 <? start) || (zlen vs <=? sp))%Z then None
  else Some (firstn (Z.to_nat (sp + 1 - start)) (skipn (Z.to_nat start) vs)).
(** [values.drain(n..)] *)
Definition truncate (vs : list value) (n : Z) : list value := firstn (Z.to_nat n) vs.
(** [values.drain(start..=sp)] *)
Definition drain_mid (vs : list value) (start sp : Z) : list value :=
  firstn (Z.to_nat start) vs ++ skipn (Z.to_nat (sp + 1)) vs.

(** [reserve_stack_space]: vm.rs:150-154. *)
Definition reserve (s : state) (n : N) : state :=
  let vs := s_vals s ++ repeat VNone (N.to_nat n) in
  with_stack s vs (zlen vs - 1).

(** [offset_to_line]: vm.rs:79-86. *)
Fixpoint offset_to_line (off : N) (m : list N) : N :=
  match m with
  | a :: b :: c :: r => if ((a <=? off) && (off <=? b))%N then c else offset_to_line off r
  | _ => 0%N
  end.

(** [panic_and_throw]: vm.rs:558-582: the reported line and function name of
    every frame, innermost first, all looked up in the current module's map.
    The last entry is the "Erro na linha" of the message. *)
Definition trace (P : program) (s : state) : list (N * text) :=
  match get_module P (s_ctx s) with
  | Some m => map (fun f => (offset_to_line (f_last f) (m_srcmap m), f_name f)) (s_frames s)
  | None => []
  end.

Inductive xres := XOk (s : state) | XHalt (s : state) | XErr (e : errmsg) (s : state) | XPanic.

Definition xpop (s : state) (k : value -> state -> xres) : xres :=
  match op_pop s with Some (v, s') => k v s' | None => XPanic end.
Definition xval (s : state) (r : vres value) : xres :=
  match r with ROk v => XOk (op_push s v) | RErr e => XErr e s | RPanic => XPanic end.
Definition xlift {A} (s : state) (r : vres A) (k : A -> xres) : xres :=
  match r with ROk a => k a | RErr e => XErr e s | RPanic => XPanic end.
Definition xopt {A} (o : option A) (k : A -> xres) : xres :=
  match o with Some a => k a | None => XPanic end.

Definition is_binop (o : opcode) : bool :=
  match o with
  | OP_ADD | OP_MINUS | OP_MUL | OP_DIV | OP_FLOORDIV | OP_MODULO | OP_AND | OP_OR | OP_EQ
  | OP_NOTEQ | OP_GREATER | OP_GREATEREQ | OP_LESS | OP_LESSEQ => true
  | _ => false
  end.

Section Run.
Variable E : ext.
Variable P : program.

Definition heap_of (s : state) : heap := w_heap (s_world s).
Definition top_bp (s : state) : Z := match s_frames s with f :: _ => f_bp f | [] => (-1)%Z end.
Definition set_top_ip (s : state) (ip : N) : state :=
  match s_frames s with
  | f :: r => with_frames s (mkFrame (f_name f) ip (f_last f) (f_bp f) (f_mod f) :: r)
  | [] => s
  end.

(** [OpCode::CallFunction]: vm.rs:353-393.  The caller's [ip] is already the
    return address. *)
Definition call_function (s : state) (nargs : N) : xres :=
  let args := Z.of_N nargs in
  xpop s (fun fv s =>
  match fv with
  | VFunc f =>
      let '(bp, so) :=
        (if (0 <? args)%Z then
           ((s_sp s - (args - 1))%Z,
            if (fn_locals f <? nargs)%N then None else Some (reserve s (fn_locals f - nargs)))
         else if (0 <? fn_locals f)%N then ((s_sp s + 1)%Z, Some (reserve s (fn_locals f)))
         else ((-1)%Z, Some s)) in
      xopt so (fun s =>
      let s := match fn_mod f with Some i => with_ctx s (Some i) | None => s end in
      if Nat.leb recursion_limit (List.length (s_frames s)) then XErr ERecursion s
      else XOk (with_frames s (mkFrame (fn_name f) (fn_start f) (fn_start f) bp (fn_mod f) :: s_frames s)))
  | VNative n =>
      let start := if (0 <? args)%Z then (s_sp s - (args - 1))%Z else (s_sp s + 1)%Z in
      xopt (if (0 <? args)%Z then slice (s_vals s) start (s_sp s) else Some []) (fun fargs =>
      let s := with_stack s (s_vals s) (start - 1) in
      xlift s (native E n fargs (s_world s)) (fun rw =>
      let (r, w) := rw in
      let s := op_push (with_world s w) r in
      XOk (with_stack s (truncate (s_vals s) (s_sp s + 1)) (s_sp s))))
  | _ => XPanic
  end).

(** [OpCode::Return]: vm.rs:394-407. *)
Definition do_return (s : state) : xres :=
  xpop s (fun v s =>
  match s_frames s with
  | f :: ((g :: _) as r) =>
      let sp := if (-1 <? f_bp f)%Z then (f_bp f - 1)%Z else s_sp s in
      let s := op_push (with_frames (with_stack s (s_vals s) sp) r) v in
      XOk (with_ctx s (f_mod g))
  | _ => XPanic
  end).

(** The arms of the [match] in [run]: vm.rs:184-547. *)
Definition exec_op (o : opcode) (args : list N) (s : state) : xres :=
  let a0 := nth 0 args 0%N in
  let a1 := nth 1 args 0%N in
  xopt (get_module P (s_ctx s)) (fun m =>
  match o with
  | LOAD_CONST => xopt (nth_error (m_consts m) (N.to_nat a0)) (fun v => XOk (op_push s v))
  | LOAD_NAME => xopt (nth_error (m_names m) (N.to_nat a0)) (fun n => XOk (op_push s (VStr n)))
  | LOAD_MODULE_DEF =>
      if (N.of_nat (List.length (p_imports P)) <=? a0)%N then XPanic else
      xopt (nth_error (m_names m) (N.to_nat a1)) (fun n =>
      xopt (assoc n (get_globs s (Some a0))) (fun v => XOk (op_push s v)))
  | LOAD_REGISTO =>
      xopt (nth_error (m_regs m) (N.to_nat a0)) (fun r => XOk (op_push s (VRegisto (fst r) (snd r))))
  | MOSTRA =>
      xpop s (fun v s => xopt (show E (heap_of s) v) (fun t =>
      XOk (with_world s (emit (s_world s) (t ++ [10%N])))))
  | MATCH_VARIANT =>
      xpop s (fun v s => match v with
                         | VVariant tag _ => XOk (op_push s (VBool (a0 =? tag)%N))
                         | _ => XPanic end)
  | OP_ISNULL => xpop s (fun v s => XOk (op_push s (VBool (is_none v))))
  | OP_INVERT => xpop s (fun v s => xval s (invert v))
  | OP_NOT => xpop s (fun v s => xval s (op_not v))
  | OP_INDEX_GET => xpop s (fun i s => xpop s (fun t s => xval s (index_get E (heap_of s) t i)))
  | OP_INDEX_SET =>
      xpop s (fun v s => xpop s (fun i s => xpop s (fun t s =>
      xlift s (index_set (heap_of s) t i v) (fun h => XOk (with_world s (set_heap (s_world s) h))))))
  | GET_GLOBAL =>
      xopt (nth_error (m_names m) (N.to_nat a0)) (fun n =>
      xopt (assoc n (get_globs s (s_ctx s))) (fun v => XOk (op_push s v)))
  | SET_GLOBAL =>
      xopt (nth_error (m_names m) (N.to_nat a0)) (fun n =>
      xpop s (fun v s => XOk (set_globs s (s_ctx s) (assoc_set (get_globs s (s_ctx s)) n v))))
  | JUMP => XOk (set_top_ip s a0)
  | JUMP_IF_FALSE =>
      xpop s (fun v s => match v with VBool false => XOk (set_top_ip s a0) | _ => XOk s end)
  | GET_LOCAL => xopt (vget (s_vals s) (Z.of_N a0 + top_bp s)) (fun v => XOk (op_push s v))
  | SET_LOCAL =>
      xpop s (fun v s =>
      xopt (vset (s_vals s) (Z.of_N a0 + top_bp s) v) (fun vs => XOk (with_stack s vs (s_sp s))))
  | CALL_FUNCTION => call_function s a0
  | RETURN => do_return s
  | BUILD_STR =>
      let start := (s_sp s - (Z.of_N a0 - 1))%Z in
      xopt (slice (s_vals s) start (s_sp s)) (fun parts =>
      xopt (opt_map (show E (heap_of s)) parts) (fun ts =>
      XOk (op_push (with_stack s (truncate (s_vals s) start) (start - 1)) (VStr (List.concat ts)))))
  | BUILD_VEC =>
      if (a0 =? 0)%N then
        let (w, l) := halloc (s_world s) (CVec []) in XOk (op_push (with_world s w) (VVec l))
      else
        let start := (s_sp s - (Z.of_N a0 - 1))%Z in
        xopt (slice (s_vals s) start (s_sp s)) (fun elems =>
        let (w, l) := halloc (s_world s) (CVec elems) in
        let s := op_push (with_stack (with_world s w) (s_vals s) (start - 1)) (VVec l) in
        XOk (with_stack s (truncate (s_vals s) (s_sp s + 1)) (s_sp s)))
  | BUILD_OBJ =>
      xpop s (fun rv s => match rv with
      | VRegisto name _ =>
          if (a0 =? 0)%N then
            let (w, l) := halloc (s_world s) (CObj name []) in XOk (op_push (with_world s w) (VObj l))
          else
            let start := (s_sp s - (Z.of_N a0 * 2 - 1))%Z in
            xopt (slice (s_vals s) start (s_sp s)) (fun elems =>
            xlift s (pair_up elems []) (fun st =>
            let (w, l) := halloc (s_world s) (CObj name st) in
            XOk (op_push (with_stack (with_world s w) (drain_mid (s_vals s) start (s_sp s)) (start - 1)) (VObj l))))
      | _ => XPanic
      end)
  | BUILD_VARIANT =>
      xpop s (fun tv s => xlift s (take_int tv) (fun tag =>
      let tag := wrap 8 tag in
      if (a0 =? 0)%N then XOk (op_push s (VVariant tag None))
      else
        let start := (s_sp s - (Z.of_N a0 - 1))%Z in
        xopt (slice (s_vals s) start (s_sp s)) (fun elems =>
        XOk (op_push (with_stack s (drain_mid (s_vals s) start (s_sp s)) (start - 1))
                     (VVariant tag (Some elems))))))
  | BIND_MATCH_ARGS =>
      let start := (s_sp s - (Z.of_N a0 - 1))%Z in
      xopt (slice (s_vals s) start (s_sp s)) (fun idxvs =>
      xpop (with_stack s (drain_mid (s_vals s) start (s_sp s)) (start - 1)) (fun obj s =>
      match obj with
      | VVariant _ (Some vargs) =>
          (fix bind (idxs : list value) (i : nat) (s : state) : xres :=
             match idxs with
             | [] => XOk s
             | iv :: r =>
                 xlift s (take_int iv) (fun idx =>
                 xopt (nth_error vargs i) (fun v =>
                 xopt (vset (s_vals s) (top_bp s + idx) v) (fun vs =>
                 bind r (S i) (with_stack s vs (s_sp s)))))
             end) idxvs O s
      | _ => XPanic
      end))
  | GET_PROP => xpop s (fun f s => xpop s (fun o s => xval s (prop_get (heap_of s) o f)))
  | SET_PROP =>
      xpop s (fun v s => xpop s (fun f s => xpop s (fun o s =>
      xlift s (prop_set (heap_of s) o f v) (fun h => XOk (with_world s (set_heap (s_world s) h))))))
  | OP_UNWRAP =>
      if (a0 =? 1)%N then
        xpop s (fun d s => xpop s (fun v s => XOk (op_push s (if is_none v then d else v))))
      else xpop s (fun v s => if is_none v then XErr ENull s else XOk (op_push s v))
  | CAST =>
      xpop s (fun tv s => xlift s (take_type tv) (fun t =>
      xpop s (fun v s =>
      if (a0 =? 0)%N then xval s (vcast E (heap_of s) v t)
      else if (a0 =? 1)%N then
        xopt (get_type v) (fun vt => if vty_eqb vt t then XOk (op_push s v) else XErr (ECheckCast vt t) s)
      else XOk s)))
  | HALT => XHalt s
  | _ =>
      if is_binop o then xpop s (fun r s => xpop s (fun l s => xval s (binop l o r))) else XPanic
  end).

Inductive sres := SNext (s : state) | SHalt (s : state) | SErr (e : errmsg) (tr : list (N * text)) (s : state) | SPanic.

(** One iteration of the loop of [run]: vm.rs:178-549. *)
Definition step (s : state) : sres :=
  match s_frames s, get_module P (s_ctx s) with
  | f :: r, Some m =>
      match vm_fetch (skipn (N.to_nat (f_ip f)) (m_code m)) with
      | None => SPanic
      | Some (o, args, n) =>
          let f' := mkFrame (f_name f) (f_ip f + N.of_nat n) (f_ip f) (f_bp f) (f_mod f) in
          match exec_op o args (with_frames s (f' :: r)) with
          | XOk s' => SNext s'
          | XHalt s' => SHalt s'
          | XErr e s' => SErr e (trace P s') s'
          | XPanic => SPanic
          end
      end
  | _, _ => SPanic
  end.

(** The loop, bounded by fuel; [None]: still running. *)
Fixpoint loop (fuel : nat) (s : state) : option sres :=
  match fuel with
  | O => None
  | S n => match step s with SNext s' => loop n s' | r => Some r end
  end.

(** [Module::initialize]: module.rs:25-44. *)
Definition insert_all (g : list (text * value)) (defs : list (text * value)) : list (text * value) :=
  fold_left (fun g d => assoc_set g (fst d) (snd d)) defs g.
Definition builtin_defs (n : text) : option (list (text * value)) :=
  if text_eqb n (txt "embutidos") then Some (embutidos_exports E)
  else if text_eqb n (txt "mat") then Some (mat_exports E)
  else None.
Definition initialize (m : vmodule) (g : list (text * value)) : option (list (text * value)) :=
  if m_builtin m then option_map (insert_all g) (builtin_defs (m_name m))
  else Some (insert_all g (map (fun f => (fn_name f, VFunc f)) (m_funcs m))).

(** [init]: vm.rs:103-107. *)
Definition init_main (s : state) (m : vmodule) : state :=
  let sp := (zlen (s_vals s) - 1)%Z in
  with_frames (with_stack s (s_vals s) sp)
    [mkFrame (txt "_inicio_") 0 0 (if (-1 <? sp)%Z then 0 else -1)%Z None].

(** Prepare to run a module: vm.rs:174-176 (and 169; initialising twice is the
    same as once). *)
Definition start_module (s : state) (i : option N) (m : vmodule) : option state :=
  match initialize m (get_globs s i) with
  | Some g => Some (init_main (with_ctx (set_globs s i g) i) m)
  | None => None
  end.

(** [reset]: vm.rs:160-163 (the frames array keeps stale entries, never read). *)
Definition reset (s : state) : state :=
  with_frames (with_stack s (s_vals s) (zlen (s_vals s) - 1)) [].

(** Whole-program outcome.  [fuel] bounds the instructions of each module. *)
Inductive outcome :=
| Finished (s : state)
| Failed (e : errmsg) (tr : list (N * text)) (s : state)
| Crashed            (* Rust panic *)
| OutOfFuel.

Definition run_one (fuel : nat) (s : state) (i : option N) (m : vmodule) : outcome :=
  match start_module s i m with
  | None => Crashed
  | Some s0 =>
      match loop fuel s0 with
      | None => OutOfFuel
      | Some (SHalt s') => Finished s'
      | Some (SErr e tr s') => Failed e tr s'
      | Some _ => Crashed
      end
  end.

(** The loop over imports at the beginning of [run]: vm.rs:167-173. *)
Fixpoint run_imports (fuel : nat) (s : state) (i : N) (ms : list vmodule) : outcome :=
  match ms with
  | [] => Finished s
  | m :: r =>
      match run_one fuel s (Some i) m with
      | Finished s' => run_imports fuel (reset s') (i + 1)%N r
      | o => o
      end
  end.

Definition initial_state (stdin : text) : state :=
  mkState None [] (repeat VNone default_stack_size) (-1)%Z (mkWorld [] [] stdin) []
          (repeat [] (List.length (p_imports P))).

(** [run_module] after loading: lib.rs:26-36. *)
Definition run (fuel : nat) (stdin : text) : outcome :=
  match run_imports fuel (initial_state stdin) 0%N (p_imports P) with
  | Finished s => run_one fuel s None (p_main P)
  | o => o
  end.

End Run.

Arguments SNext _ : assert.

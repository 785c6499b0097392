(** Bytecode instructions: the compiler's encoder and the VM's decoder. *)
From Verif Require Import Base Bson.

(** [class OpCode(Enum)]: /repo/amanda/compiler/codegen.py:39-125, and
    [enum OpCode]: /repo/amanda/vm/src/opcode.rs:5-49 (same order). *)
Inductive opcode :=
| MOSTRA | LOAD_CONST | LOAD_NAME
| OP_ADD | OP_MINUS | OP_MUL | OP_DIV | OP_FLOORDIV | OP_MODULO | OP_INVERT
| OP_AND | OP_OR | OP_NOT | OP_EQ | OP_NOTEQ | OP_GREATER | OP_GREATEREQ | OP_LESS | OP_LESSEQ
| OP_INDEX_GET | OP_INDEX_SET | GET_GLOBAL | SET_GLOBAL | JUMP | JUMP_IF_FALSE
| GET_LOCAL | SET_LOCAL | CALL_FUNCTION | RETURN | CAST | BUILD_STR | BUILD_VEC
| LOAD_REGISTO | BUILD_OBJ | GET_PROP | SET_PROP | OP_UNWRAP | OP_ISNULL
| LOAD_MODULE_DEF | BUILD_VARIANT | BIND_MATCH_ARGS | MATCH_VARIANT | HALT.

(** [op.value]: 0x00 then [auto()] (previous + 1), HALT = 0xFF;
    codegen.py:40-125. *)
Definition op_value (o : opcode) : N :=
  match o with
  | MOSTRA => 0 | LOAD_CONST => 1 | LOAD_NAME => 2
  | OP_ADD => 3 | OP_MINUS => 4 | OP_MUL => 5 | OP_DIV => 6 | OP_FLOORDIV => 7 | OP_MODULO => 8
  | OP_INVERT => 9 | OP_AND => 10 | OP_OR => 11 | OP_NOT => 12 | OP_EQ => 13 | OP_NOTEQ => 14
  | OP_GREATER => 15 | OP_GREATEREQ => 16 | OP_LESS => 17 | OP_LESSEQ => 18
  | OP_INDEX_GET => 19 | OP_INDEX_SET => 20 | GET_GLOBAL => 21 | SET_GLOBAL => 22
  | JUMP => 23 | JUMP_IF_FALSE => 24 | GET_LOCAL => 25 | SET_LOCAL => 26
  | CALL_FUNCTION => 27 | RETURN => 28 | CAST => 29 | BUILD_STR => 30 | BUILD_VEC => 31
  | LOAD_REGISTO => 32 | BUILD_OBJ => 33 | GET_PROP => 34 | SET_PROP => 35
  | OP_UNWRAP => 36 | OP_ISNULL => 37 | LOAD_MODULE_DEF => 38 | BUILD_VARIANT => 39
  | BIND_MATCH_ARGS => 40 | MATCH_VARIANT => 41 | HALT => 255
  end%N.

(** [op_size() // OP_SIZE], in bytes: codegen.py:127-161. *)
Definition op_size (o : opcode) : N :=
  match o with
  | CALL_FUNCTION | CAST | BUILD_STR | BUILD_VEC | BUILD_OBJ | OP_UNWRAP | BUILD_VARIANT
  | BIND_MATCH_ARGS => 2
  | LOAD_CONST | LOAD_NAME | SET_LOCAL | GET_LOCAL | GET_GLOBAL | SET_GLOBAL | LOAD_REGISTO => 3
  | JUMP | JUMP_IF_FALSE | MATCH_VARIANT => 9
  | LOAD_MODULE_DEF => 17
  | _ => 1
  end%N.

(** [Instruction = tuple[OpCode, tuple[int, ...]]]: codegen.py:167.  All
    arguments the generator passes are non-negative. *)
Definition instr := (opcode * list N)%type.

(** [struct.pack(">Q", arg)]: codegen.py:339-341. *)
Definition format_u64_arg (a : N) : pyres bytes :=
  if (a <? 2 ^ 64)%N then PyOk (be_bytes 8 a) else PyErr StructError.

(** codegen.py:343-346: masks, never fails. *)
Definition format_u16_arg (a : N) : bytes := [(a / 256) mod 256; a mod 256]%N.

Definition is_jump (o : opcode) : bool :=
  match o with JUMP | JUMP_IF_FALSE => true | _ => false end.

Definition arg0 (args : list N) : pyres N :=
  match args with a :: _ => PyOk a | [] => PyErr ValueErr end.

(** [write_op_bytes]: codegen.py:348-376.  [labels] maps label numbers to
    their (patched) offsets; a missing label is a KeyError.  [bytes([..])]
    raises ValueError for a one-byte argument above 255. *)
Definition write_op_bytes (labels : list N) (i : instr) : pyres bytes :=
  let (op, args) := i in
  let! args :=
    (if is_jump op then
       let! l := arg0 args in
       match nth_error labels (N.to_nat l) with
       | Some a => PyOk [a]
       | None => PyErr KeyErr
       end
     else PyOk args) in
  match op_size op with
  | 1%N => PyOk [op_value op]
  | 2%N => let! a := arg0 args in
           if (a <? 256)%N then PyOk [op_value op; a] else PyErr ValueErr
  | 3%N => let! a := arg0 args in PyOk (op_value op :: format_u16_arg a)
  | 9%N => let! a := arg0 args in
           let! b := format_u64_arg a in PyOk (op_value op :: b)
  | _ =>
      match args with
      | a :: b :: _ =>
          let! x := format_u64_arg a in
          let! y := format_u64_arg b in PyOk (op_value op :: x ++ y)
      | _ => PyErr ValueErr
      end
  end.

Fixpoint write_ops (labels : list N) (ops : list instr) : pyres bytes :=
  match ops with
  | [] => PyOk []
  | i :: ops' =>
      let! a := write_op_bytes labels i in
      let! b := write_ops labels ops' in PyOk (a ++ b)
  end.

(** ** The VM side *)

(** [From<&u8> for OpCode]: opcode.rs:51-103; an index past the table panics. *)
Definition opcode_of_byte (b : N) : option opcode :=
  if (b =? 255)%N then Some HALT else
  nth_error
    [MOSTRA; LOAD_CONST; LOAD_NAME; OP_ADD; OP_MINUS; OP_MUL; OP_DIV; OP_FLOORDIV; OP_MODULO;
     OP_INVERT; OP_AND; OP_OR; OP_NOT; OP_EQ; OP_NOTEQ; OP_GREATER; OP_GREATEREQ; OP_LESS; OP_LESSEQ;
     OP_INDEX_GET; OP_INDEX_SET; GET_GLOBAL; SET_GLOBAL; JUMP; JUMP_IF_FALSE; GET_LOCAL; SET_LOCAL;
     CALL_FUNCTION; RETURN; CAST; BUILD_STR; BUILD_VEC; LOAD_REGISTO; BUILD_OBJ; GET_PROP; SET_PROP;
     OP_UNWRAP; OP_ISNULL; LOAD_MODULE_DEF; BUILD_VARIANT; BIND_MATCH_ARGS; MATCH_VARIANT] (N.to_nat b).

(** Argument bytes each arm of [AmaVM::run] reads: vm.rs:182-547
    ([get_byte], [get_u16_arg], [get_u64_arg], vm.rs:133-148). *)
Inductive argkind := ANone | A8 | A16 | A64 | A64x2.
Definition vm_argkind (o : opcode) : argkind :=
  match o with
  | LOAD_CONST | LOAD_NAME | LOAD_REGISTO | GET_GLOBAL | SET_GLOBAL | GET_LOCAL | SET_LOCAL => A16
  | LOAD_MODULE_DEF => A64x2
  | MATCH_VARIANT | JUMP | JUMP_IF_FALSE => A64
  | CALL_FUNCTION | BUILD_STR | BUILD_VEC | BUILD_OBJ | BUILD_VARIANT | BIND_MATCH_ARGS
  | OP_UNWRAP | CAST => A8
  | _ => ANone
  end.

Definition argkind_size (k : argkind) : nat :=
  match k with ANone => 0 | A8 => 1 | A16 => 2 | A64 => 8 | A64x2 => 16 end.

(** Reads one instruction at the head of the byte list (the code from [ip]
    on): opcode, arguments and number of bytes consumed.  [None] is a panic. *)
Definition vm_fetch (bs : bytes) : option (opcode * list N * nat) :=
  match bs with
  | [] => None
  | b :: r =>
      match opcode_of_byte b with
      | None => None
      | Some o =>
          let k := vm_argkind o in
          match take (argkind_size k) r with
          | None => None
          | Some (a, _) =>
              Some (o,
                    match k with
                    | ANone => []
                    | A8 | A16 | A64 => [be_val a]
                    | A64x2 => [be_val (firstn 8 a); be_val (skipn 8 a)]
                    end,
                    S (argkind_size k))
          end
      end
  end.

# Formal model of amanda-lang/amanda in Rocq (Coq 8.16.1)

Amanda is a statically typed language with Portuguese keywords. A Python front end
(`amanda/compiler`: lexer, parser, checker, transformer, code generator, BSON writer) turns source text into a
bytecode module. A Rust VM (`amanda/vm`) loads the module and runs it.

The model is a set of executable Gallina functions, one per function of the code, each with a comment that cites
the file and lines it models. Exceptions, panics and errors are values. Theorems live in `theories/Prop_*.v`;
these files contain only theorem statements, `exact lemma`, non-vacuity `Example`s and `Print Assumptions`.

## Trusted base

* Coq's kernel (8.16.1), `coqc`, and the reduction machine behind `vm_compute`.
* No axioms. `Print Assumptions` stands below every property theorem and answers `Closed under the global context`
  for each of them; the list of theorems is MANIFEST.json. The standard library and nothing else is imported.
* The reading of the code: nothing ties the Gallina text to the Python/Rust text except the citations and the
  recorded tests (below).
* Platform behaviour that is not code of this repository is an explicit argument, so that theorems quantify over it:
  `ext` (Value.v: printing of an `f64`, grapheme segmentation, `libm`, the value of the constant PI, whether the VM
  was built in debug mode), `uni` (Lexer.v: Unicode classes, the digit limit of `int()`), `front_env` (Front.v: files,
  paths, the iteration order of Python sets, Python's keywords). IEEE-754 arithmetic is `Coq.Floats.SpecFloat`
  (prec 53, emax 1024), computable and axiom free.

## What is modelled

| Code | Model | Theorems |
|------|-------|----------|
| `compiler/bindump.py`, `vm/src/binload.rs` | Bson.v, Utf8.v, Dec.v, Opcode.v | Prop_Bson.v, Prop_Opcode.v |
| `vm/src/values`, `alloc`, `errors` | Float.v, Value.v | Prop_Value.v, Prop_Heap.v, Prop_Show.v |
| `vm/src/vm.rs`, natives of `vm/src` | VM.v | Prop_Tables.v, Prop_Sem.v |
| `compiler/codegen.py`, tree nodes `compiler/ast.py` | Ast.v, CodeGen.v, Compile.v | Prop_Code.v, Prop_Sem.v |
| `compiler/types`, `compiler/check/ops.py` | Types.v, Sym.v | Prop_Types.v, Prop_Generic.v |
| `compiler/lexer.py`, `tokens.py` | Lexer.v | Prop_Lex.v |
| `compiler/parse.py` | Syntax.v, Parser.v | Prop_Parse.v |
| `compiler/check/*` with `exhaustiveness.py` | Check.v, Exhaust.v | Prop_Match.v, Prop_Accept.v, Prop_Return.v, Prop_Scope.v |
| `compiler/transform.py`, module loading | Front.v | Prop_Front.v |

Three things in the development are not code of the repository but the specifications the theorems compare it with:
`Sem.v`/`SemProg.v` (a reference interpreter over the checked tree, which knows nothing of instructions, stacks, labels or
slots), `Spec_Typing.v` (a declarative type system for the checked tree) and the small `Spec_*.v` files.

The chain of the main theorems:

1. `C05_program_partial` (forward simulation): for a program of the fragment `SemProg.program_ok`, what the reference
   interpreter says is what the VM does with the generated code - output, error, error line, endless run.
2. `C13_typed_partial`: a tree with a typing in `Spec_Typing.v` never gets stuck, so by 1 the VM never panics.
3. `C13_accepted_partial`: a *source text* that lexer, parser, analyser and transformation accept and that lies in the
   syntactic fragment `in_fragment` (decidable, Spec_AcceptProg.v) has such a typing. So the VM does not panic, and
   each global variable ends with a value of its recorded type.

### Validation of the model

`Ex_Tests.v` runs the model, from characters to output, on the test programs of `/repo/tests` (their expected output
is the repository's own) with the standard library's `embutidos.ama`: 81 accepted programs print what is recorded,
the rejected ones are rejected at the recorded line. 61 of the 81 accepted ones lie in the fragment of
`C13_accepted_partial`; the others use `escolha`, unions, `iguala`, methods, `usa`, unwrapping of optionals,
conversion of `indef`, chained assignment or a record that mentions itself.

### Simplifications, stated again beside the definitions

* VM: release build (wrapping where Rust wraps); the debug build only differs in `leia`. A native that fails leaves no
  trace in the world. Texts of run-time errors are constructors. Reference counting and memory exhaustion are left out;
  a panic is the value `Crashed`.
* Generator: operands are assumed to fit their 16 bits and the main function has at most 256 locals (`sizes_ok`,
  decidable) where a theorem says so; C02/C31 say what happens otherwise.
* Lexer: works on code points; reals keep their digits. Errors keep position, not message.
* Parser: the tokens are lexed in advance; EOF is repeated. Python's recursion limit is not modelled; the fuel is shown to
  be enough (C41_total).
* Analyser: Python objects shared by reference are indices into a store (`Sym.sto`), updated as the code updates them.
  Errors keep position, not message. A type name hidden by a symbol that is not a type is an immediate exception. The
  nodes that a compound assignment shares are a tree. Import paths are assumed to exist.
* `Front.lower` turns the checked tree into the generator's input; what cannot be written there is `LUnsup`.

## Not modelled

`compile.py` and other dead code, the command line and the debugger, `ctypes` glue, console encoding, `nativa` functions
from user libraries, reading of files, text of messages.

## Plan per property

| Id | What is modelled | How it is proved |
|----|------------------|------------------|
| C01 | `dumps` and `unpack_bson_*` over bytes, with UTF-8 | induction on documents, round-trip theorem |
| C02 | opcode tables on both sides, `write_op_bytes`, `get_*_arg` | case analysis + big-endian lemmas |
| C03 | the whole code generator state (labels, ops, ip) | invariant over generation by induction on trees |
| C04 | annotated expressions, code generator, VM step function | forward simulation by induction on trees |
| C05 | statements, blocks, loops; reference interpreter with fuel | forward simulation by induction on fuel |
| C06 | calls and returns with the VM's value vector, `sp`, `bp` | forward simulation, frame lemma; for all compiled programs of plain bodies, what each instruction leaves alone below the frame (FrameStep.v), carried through executions inside a frame with the heights of C35 (FrameRun.v) |
| C07 | `FrameStack` | invariant over operation sequences |
| C08, C09 | `AmaValue::binop` over i64 (Z with range) and SpecFloat | arithmetic; in programs: the code of an operation is that of its operands and one instruction (OperateRun.v), then one VM step |
| C10, C11, C12 | type tables (`ops.py`, `types/core.py`) and VM tables | case analysis, induction on types; conversions in programs as for C08 (Prop_Convert.v) |
| C13 | checker for expressions, typing of values | preservation/progress by induction |
| C14 | `has_return_*` and a path semantics of bodies | counterexample for the code, proof for the sound part |
| C15 | scopes, `define_symbol`, slot assignment | invariant over the analyser's scope chain (ScopeInv/ScopeStm/ScopeTop), specification Spec_Scope.v; counterexample for the id format beyond nine open blocks |
| C16 | constant text to `Const::from_str` | case analysis on literal grammar; counterexample for f-string parts; which f-string pieces stay as written (Prop_Pieces.v) |
| C17 | expression grammar functions of the parser | induction on trees (print/parse) |
| C18, C19 | lexer over code points | induction on input; counterexample for escapes |
| C20 | `compound_assignment` | semantics equality; counterexample for fields |
| C21 | `transform_escolha` | induction on case list |
| C22 | `IgualaCompiler`, decision trees, `gen_iguala` | semantics of decision trees; counterexamples |
| C23-C26 | heap of vectors and record objects, natives | refinement to lists and finite maps; indexing and fields in programs as for C08 (OperateRun.v) |
| C27 | unwrap / isnull | for every operand and every value: the code of the expression is the operand's code followed by the test (OptionRun.v), and one step of the VM; for operands of the reference language also through the simulation |
| C28 | `load_module` over an abstract file system | invariant over the import traversal: loaded modules are accessible for `uses`, imports have no repetition; measure: files not yet imported (ImportLoad.v); that `visit` touches the module table only through `usa` (ImportFacts.v) and that compiling an `iguala` ends (ExhaustTotal.v) |
| C29 | `src_map`, `offset_to_line` | invariant; counterexample for exactness |
| C30 | variant table, build/match/bind | injectivity, round trip |
| C31 | `get_table_index` | invariant over request sequences |
| C32 | f-string parts, BUILD_STR; also any format string of any compiled program (`C32_compiled`) | induction on parts; the code of the parts in turn, then one machine step |
| C33, C34 | loops in checker and generator | simulation; counterexample for `para`; the rounds of a loop whose counter, bound and step the body leaves alone (Spec_Count.v) by induction on the interpreter: what a piece leaves alone (CountFacts.v), that it does not jump (CalmFacts.v), that fuel does not matter (FuelFacts.v) |
| C35 | stack effect of instructions | consequence of simulation; for all modules without pattern matching, a height for each instruction (Spec_Height.v) carried through the generator (HeightGen.v, HeightStm.v, HeightTop.v) and through writing and decoding (HeightCode.v), then the effect of each VM instruction, call and return (HeightStep.v) and of executions inside a frame (HeightRun.v); counterexamples for expression statements and for iguala |
| C36 | `get_property`, `define_method`, `transform_call`, method tables | invariant over every step of the analyser, including imports (MethodBase/MethodVisit/MethodMain/MethodLoad), specification Spec_Method.v: every member call of an accepted program is given a method of its target's type and becomes a call with the target first; counterexamples: run-time name clash, `tam` |
| C37 | type equality and binding | induction on types |
| C38 | declaration order | counterexample, proof for the sound part |
| C39 | generator state | prefix invariant |
| C40 | ctx_module bookkeeping | invariant; counterexample |
| C41 | whole parser over tokens | totality by a measure on the remaining tokens; counterexample for crashes |
| C42 | `Display` of values over the heap | induction on values; counterexample for cyclic vectors |
| C43 | whole front end from characters to program | counterexamples; no exception in the analyser for the plain language (Spec_Plain.v), by an invariant of the tables (PlainBase.v) kept by every step (PlainStep/PlainVisit/PlainTop); the code generator has code for every tree of the reference language (GenTotal.v), by induction over the tree with an invariant on labels, operands, slots and variants, so that encoder and writer succeed within the limits of the file format |
| C44 | words of whole programs (Spec_Program.v) against the parser of Parser.v | each construct reads exactly its own words, by mutual induction on the way a program is written; format strings (Spec_Format.v, Prop_Format.v) by induction on their pieces |
| C45 | the reporter (error.py, Report.v) on top of the parser | bound on the lines the lexer counts, by induction on its steps; the reporter's lines against the text; for errors of meaning, the lines of the words of each tree (Spec_Lines.v) are lines of the file (ParseLines.v) and every step of the analyser leaves its current line among them (LineCheck.v, LineLoad.v), Prop_Lines.v |

Properties that the code violates get a theorem with suffix `_refuted` (a concrete witness in the faithful model) and,
where possible, a theorem for the part that holds, with suffix `_partial`.

## What the code does not do

Each line is a theorem with suffix `_refuted`: a concrete program or input, evaluated in the model.

* C01_nonascii_key_refuted, C01_nul_key_refuted: the bytecode writer corrupts documents with a key that is not ASCII or contains NUL.
* C02_wide_u16_refuted: a two-byte operand above 65535 is silently cut.
* C06_operands_refuted: a function that leaves an unused value behind destroys an operand of its caller: `1 + g()` is 102 instead of 3.
* C08_rem_min_refuted, C08_negate_wraps_refuted: the least integer modulo -1 is reported as an arithmetic error although the result fits; its negation wraps silently.
* C10_*_refuted: `//` on reals is typed real and gives an int; unary plus makes the compiler fail with an exception; equality of records, optionals and indef are accepted and then panic or give another type.
* C11_*_refuted, C12_*_refuted: conversions of indef and optionals; the order of types is not antisymmetric or transitive.
* C13_*_refuted: accepted programs that panic, or variables holding a value of another type.
* C14_loop_refuted, C14_elif_refuted: functions that do not return although the checker says so.
* C15_*_refuted: two live variables in one slot; a builtin hidden for the analyser only.
* C16_fstring_refuted, C19_*_refuted: escapes in f-strings and texts.
* C18_*_refuted, C41_no_crash_refuted, C43_*_refuted: texts on which the compiler fails with an exception; wrong line numbers after a line break in a text.
* C43_condition_refuted, C43_element_refuted, C43_local_int_refuted, C43_builtin_arguments_refuted, C43_uncalled_method_refuted: a condition that is a record or vector, assignment to an element of a vector of records, a variable named `int`, `anexa` with one argument, a method that uses `alvo` and is never called: exceptions.
* C36_tam_refuted, C36_bare_name_refuted: a method named `tam` is checked as the builtin; a method can be called by its bare name; both panic.
* C36_escolha_refuted: a member call inside `escolha` is not rewritten, and panics.
* C43_nested_escolha_refuted, C43_imported_union_refuted, C43_later_local_refuted: the compiler fails with an exception.
* C20_field_refuted: `a.n += e` is compiled as `a.n = e`.
* C21_examined_once_refuted: `escolha` evaluates its subject once per case.
* C22_*_refuted: `iguala` takes the wrong arm or none.
* C25_three_dims_refuted: `vec` with three sizes shares its innermost vectors.
* C28_*_refuted: a module runs before the module it imports, and so panics when it uses it.
* C29_*_refuted: with an explicit step, errors in a `para` body are reported on the heading's line; the caller's line is looked up in another module's table.
* C33_para_refuted, C33_para_program_refuted: `quebra` and `continua` in `para`.
* C35_expression_statement_refuted: an expression statement leaves its value on the stack.
* C36_same_name_refuted: two methods of one name in a module.
* C36_tam_refuted: a method named `tam` is checked as the built-in `tam`, so its arguments are not checked.
* C37_*_refuted: generic fields and methods.
* C38_*_refuted: a global read in its own initialiser.
* C40_import_call_refuted: a function called at the top level of an imported module returns into the main module's context.
* C42_cycle_refuted: `mostra` of a vector that contains itself never ends.
* C45_format_line_refuted, C45_assertion_refuted: an error inside a format string is reported on line 1, or the reporter fails with an assertion.
* C45_alias_refuted: when `usa "m.ama" => nome` uses a name that is taken, the report names the imported file with the line number of the importing one (or fails with an assertion).
* C45_block_line_refuted: an error about the value of an `iguala` block that ends with an empty block is reported on line 1.

Found while writing the grammar of C44, and visible in Spec_Program.v as restrictions:

* Several annotations must stand on one line: `@a`, a line end and `@b` is a syntax error.
* A line end after `@@annotation` makes a following `usa` a syntax error.
* A method without type parameters cannot be declared on a vector type: `met [int]::f` reads `[int]` as type parameters.
* A line end before the comma between two variants of a union is accepted after the first variant only.
* Annotations on native functions are dropped.
* `retorna` at the end of a file without a line end is a syntax error.

## Seeded changes

`seeded/LOG.jsonl` has one line for each wrong program that was tried. `theorems_failed` lists the first lemma, theorem or
example that failed in each file: it is often a lemma about the changed function, not a property theorem. `blocked_files`
lists the property files of that time that import a failed file and so could not be rebuilt. Their theorems were not shown
to fail by themselves, unless the `note` says that the run was repeated with the earlier lemmas admitted. A line without
failed theorems is a change that was not noticed; `note` and `tightened` say what was done. Some runs rebuilt only the
property files of the claim, so other files may also have failed. Earlier versions of this log listed property theorems
that had only been blocked, or did not depend on the change, under `theorems_failed`.

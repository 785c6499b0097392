{"id": "C01", "title": "Compiled modules survive the compiler-to-VM transport", "statement": "Serialising any document the compiler can build (strings, 64-bit integers, floats, byte strings, lists and nested documents with NUL-free ASCII field names) and loading it in the VM yields exactly the same document, field by field; the serialiser refuses (raises) instead of emitting bytes that would decode to something else when a size or integer is out of range.", "quantifier": "every document value of any size and nesting depth", "why_tests_cant": "Documents are unbounded in size and depth; tests print a handful of encodings and never decode them.", "anchors": ["amanda/compiler/bindump.py:dumps", "amanda/vm/src/binload.rs:unpack_bson_doc", "amanda/vm/src/binload.rs:unpack_bson_value", "amanda/vm/src/lib.rs:run_module"]}
{"id": "C02", "title": "Compiler and VM agree on the instruction encoding", "statement": "For every instruction whose arguments fit their operand width, the VM's decoder reads back the same operation and the same arguments and consumes exactly the number of bytes the compiler accounted for when it computed offsets; two different instructions never have the same encoding; bytes that are not an instruction are rejected.", "quantifier": "every opcode and every argument value in the encodable range", "why_tests_cant": "The argument space is 2^128; Python and Rust keep two independent tables that tests only exercise through sample programs.", "anchors": ["amanda/compiler/codegen.py:OpCode", "amanda/compiler/codegen.py:ByteGen.write_op_bytes", "amanda/vm/src/opcode.rs:From<&u8>", "amanda/vm/src/vm.rs:get_u16_arg", "amanda/vm/src/vm.rs:get_u64_arg"]}
{"id": "C03", "title": "Jumps always land on instruction boundaries of the same program", "statement": "In the bytecode of every program the compiler accepts, decoding from offset 0 reaches the final HALT with no leftover bytes, and every jump target and every function entry point is the offset of an instruction of that program.", "quantifier": "every syntax tree the code generator accepts", "why_tests_cant": "Control-flow nesting is unbounded and offsets depend on everything emitted before.", "anchors": ["amanda/compiler/codegen.py:ByteGen.new_label", "amanda/compiler/codegen.py:ByteGen.patch_label_loc", "amanda/compiler/codegen.py:ByteGen.gen_se", "amanda/compiler/codegen.py:ByteGen.gen_enquanto", "amanda/compiler/codegen.py:ByteGen.gen_para", "amanda/compiler/codegen.py:ByteGen.gen_functiondecl"]}
{"id": "C04", "title": "Expressions compute what the source says", "statement": "Running the bytecode of an expression on the VM pushes exactly the value that evaluating the expression tree left-to-right gives (with the int-to-real promotions the checker inserted), leaves the rest of the stack, all variables and the output untouched, or stops with the same runtime error.", "quantifier": "every expression tree, every variable assignment, every stack below", "why_tests_cant": "Expressions are unbounded trees; tests sample a few shapes.", "anchors": ["amanda/compiler/codegen.py:ByteGen.gen_binop", "amanda/compiler/codegen.py:ByteGen.gen_unaryop", "amanda/compiler/codegen.py:ByteGen.gen_constant", "amanda/vm/src/vm.rs:AmaVM::run"]}
{"id": "C05", "title": "Statements and control flow compute what the source says", "statement": "For every accepted program built from declarations, assignments, mostra, se/senaose/senao, enquanto, para, quebra, continua and blocks, the VM prints the same lines in the same order and ends with the same variable values, or fails with the same runtime error, as the structured meaning of the source.", "quantifier": "every program in the fragment, every number of loop iterations", "why_tests_cant": "Loops are unbounded and nesting is arbitrary.", "anchors": ["amanda/compiler/codegen.py:ByteGen.gen_se", "amanda/compiler/codegen.py:ByteGen.gen_enquanto", "amanda/compiler/codegen.py:ByteGen.gen_para", "amanda/compiler/codegen.py:ByteGen.gen_loopctlstmt", "amanda/vm/src/vm.rs:AmaVM::run"]}
{"id": "C06", "title": "Calling a function does not disturb the caller", "statement": "A call evaluates the arguments, binds them to the parameters in order, runs the body in its own set of variables and puts exactly one value (the returned one) where the arguments were; every variable and pending operand of the caller is unchanged, at any recursion depth below the limit.", "quantifier": "every function body, every argument list, every caller state and recursion depth", "why_tests_cant": "Recursion depth and caller state are unbounded.", "anchors": ["amanda/vm/src/vm.rs:CallFunction", "amanda/vm/src/vm.rs:Return", "amanda/vm/src/vm.rs:reserve_stack_space", "amanda/compiler/codegen.py:ByteGen.gen_functiondecl", "amanda/compiler/codegen.py:ByteGen.gen_call"]}
{"id": "C07", "title": "Runaway recursion is reported, not a crash", "statement": "The frame stack never exceeds 1000 frames: a call at the limit ends the program with the recursion error and every other call is accepted.", "quantifier": "every sequence of calls and returns", "why_tests_cant": "The call history is unbounded.", "anchors": ["amanda/vm/src/vm.rs:FrameStack"]}
{"id": "C08", "title": "Integer arithmetic never wraps", "statement": "Adding, subtracting, multiplying, dividing or taking the remainder of two integers either yields the exact mathematical result (division and remainder truncated toward zero) or stops with an error, and the error occurs exactly when the exact result does not fit 64 bits or the divisor is zero.", "quantifier": "all pairs of 64-bit integers and all five operators", "why_tests_cant": "2^128 operand pairs per operator.", "anchors": ["amanda/vm/src/ama_value.rs:arith_ops", "amanda/vm/src/ama_value.rs:AmaValue::binop"]}
{"id": "C09", "title": "Comparison and logic operators follow their mathematical meaning", "statement": "On integers == != < <= > >= decide the integer order and are mutually consistent; on booleans e/ou/nao are the boolean operations; on texto == is equality of texts; mixed int/real comparisons compare the promoted values.", "quantifier": "all pairs of operands of the accepted types", "why_tests_cant": "Infinite operand space.", "anchors": ["amanda/vm/src/ama_value.rs:eq_ops", "amanda/vm/src/ama_value.rs:comp_ops", "amanda/vm/src/ama_value.rs:AmaValue::binop"]}
{"id": "C10", "title": "Accepted operators never hit an unsupported case in the VM", "statement": "If the checker gives a binary or unary operator a result type for operands of given types, then the VM computes a value of that result type (or one of the documented runtime errors) for all operand values of these types.", "quantifier": "all operator/operand-type combinations and all operand values", "why_tests_cant": "Needs every value of every type; static and dynamic tables live in two languages.", "anchors": ["amanda/compiler/ops.py:primitive_binop", "amanda/compiler/types/core.py:Primitive.unaryop", "amanda/vm/src/ama_value.rs:AmaValue::binop"]}
{"id": "C11", "title": "Accepted conversions are supported at run time and give the right type", "statement": "If 'v como T' is accepted for the static type of v, executing it gives a value of type T or a documented conversion error; converting to the same type is the identity; int to texto to int is the identity.", "quantifier": "all pairs of primitive types and all values", "why_tests_cant": "Infinite value space; the permission table and the conversion code are separate.", "anchors": ["amanda/compiler/types/core.py:Primitive.cast_to", "amanda/compiler/codegen.py:ByteGen.gen_converta", "amanda/vm/src/ama_value.rs:cast", "amanda/vm/src/ama_value.rs:check_cast"]}
{"id": "C12", "title": "Implicit promotion is a safe partial order", "statement": "Implicit promotion between types is antisymmetric, never promotes a type to itself, is transitive, never goes from real to int, and whenever it is allowed the explicit conversion is allowed too.", "quantifier": "all pairs and triples of types, including vectors, options and records of any nesting", "why_tests_cant": "Types are unbounded trees.", "anchors": ["amanda/compiler/symbols/base.py:Type.promote_to", "amanda/compiler/types/core.py:Primitive.promotion_to", "amanda/compiler/types/core.py:ConstructedTy.promotion_from"]}
{"id": "C13", "title": "Well-typed expressions keep their type at run time", "statement": "Evaluating an accepted expression in variables that hold values of their declared types yields a value of the expression's static type (after the inserted promotion, of the promoted type), and never an internal VM failure.", "quantifier": "all accepted expressions and all type-correct variable contents", "why_tests_cant": "Expressions and values are unbounded.", "anchors": ["amanda/compiler/check/core.py:Analyzer.visit_binop", "amanda/compiler/check/core.py:Analyzer.visit_assign", "amanda/compiler/codegen.py:ByteGen.gen_auto_cast", "amanda/vm/src/vm.rs:AmaVM::run"]}
{"id": "C14", "title": "Non-void functions always return a value they computed", "statement": "If the checker accepts a function with a non-void return type, then no execution of its body reaches the end without executing 'retorna'.", "quantifier": "all function bodies and all executions", "why_tests_cant": "All paths through arbitrary control flow.", "anchors": ["amanda/compiler/check/core.py:Analyzer.has_return", "amanda/compiler/check/core.py:Analyzer.has_return_enquanto", "amanda/compiler/codegen.py:ByteGen.gen_functiondecl"]}
{"id": "C15", "title": "Names resolve to the innermost declaration and variables alive together have separate storage", "statement": "A use of a name refers to the innermost enclosing declaration that precedes it; redeclaration in the same scope is rejected; two variables whose scopes overlap never share a storage slot, so assigning one never changes the other.", "quantifier": "all scope nestings, all declaration sequences", "why_tests_cant": "Scope nesting and number of variables are unbounded.", "anchors": ["amanda/compiler/check/core.py:Analyzer.define_symbol", "amanda/compiler/symbols/core.py:Scope", "amanda/compiler/codegen.py:ByteGen.declare_local", "amanda/compiler/codegen.py:ByteGen.set_variable"]}
{"id": "C16", "title": "Literals mean what they say", "statement": "A literal in the source reaches the running program as its value: an integer literal as that integer, a quoted text as exactly the text between the quotes, verdadeiro/falso/nulo as those values; different literals never collapse to the same constant; text pieces of f-strings stay text.", "quantifier": "all literal texts", "why_tests_cant": "Infinite literal space; the constant travels as text and is re-parsed by the VM.", "anchors": ["amanda/compiler/codegen.py:ByteGen.gen_constant", "amanda/compiler/codegen.py:ByteGen.get_table_index", "amanda/vm/src/binload.rs:Const::from_str", "amanda/compiler/parse.py:Parser.consume_literal_str"]}
{"id": "C17", "title": "Operator precedence and grouping", "statement": "Parsing the printed form of any expression tree built from literals, names, operators, conversions, calls, indexing, fields and list literals (with the minimal parentheses the documented precedence requires: equality < comparison < + - ou < * / // % e < unary < conversion < postfix), in any spacing, gives back that tree; operators of equal precedence group to the left; no two trees print alike.", "quantifier": "all expression trees", "why_tests_cant": "Expression trees are unbounded.", "anchors": ["amanda/compiler/parse.py:Parser.equality", "amanda/compiler/parse.py:Parser.comparison", "amanda/compiler/parse.py:Parser.addition", "amanda/compiler/parse.py:Parser.term", "amanda/compiler/parse.py:Parser.unary"]}
{"id": "C18", "title": "The lexer reads every program to the end without losing text", "statement": "Tokenising any text terminates with an end-of-file token or an error; each token consumes at least one character; concatenating consumed characters gives the input back; tokens carry the line they start on; spaces and comments between tokens do not change the token sequence.", "quantifier": "all texts", "why_tests_cant": "Infinite input space.", "anchors": ["amanda/compiler/parse.py:Lexer.get_token", "amanda/compiler/parse.py:Lexer.advance", "amanda/compiler/parse.py:Lexer.skip_whitespace"]}
{"id": "C19", "title": "Text literals keep their characters", "statement": "The token of a quoted text contains exactly the characters written between the quotes with the escapes \\n, \\' and \\\" decoded and every other backslash kept; every text can be written as a literal.", "quantifier": "all text contents", "why_tests_cant": "Infinite literal space; escapes interact with look-ahead.", "anchors": ["amanda/compiler/parse.py:Lexer.string"]}
{"id": "C20", "title": "Compound assignment means assignment", "statement": "'t op= e' has the same effect as 't = t op e' for every assignable target t (variable, index, field).", "quantifier": "all targets, operators, right-hand sides and stores", "why_tests_cant": "Infinite state space.", "anchors": ["amanda/compiler/parse.py:Parser.compound_assignment"]}
{"id": "C21", "title": "escolha runs the first matching case and nothing else", "statement": "escolha executes the block of the first case whose value equals the examined value, the default block if there is none, and exactly one block in total.", "quantifier": "all case lists, all examined values", "why_tests_cant": "Case lists are unbounded.", "anchors": ["amanda/compiler/transform.py:ASTTransformer.transform_escolha"]}
{"id": "C22", "title": "iguala runs the first matching arm; accepted iguala never falls through", "statement": "If the checker accepts an iguala, then for every value of the matched type exactly one arm runs: the first whose pattern matches, with its names bound to the matching parts of the value; if it rejects for missing patterns, some value is matched by no arm.", "quantifier": "all arm lists, all values of the matched type", "why_tests_cant": "Value and pattern spaces are unbounded trees.", "anchors": ["amanda/compiler/check/exhaustiveness.py:IgualaCompiler", "amanda/compiler/codegen.py:ByteGen.gen_iguala_cases", "amanda/compiler/check/iguala.py:check_iguala"]}
{"id": "C23", "title": "Vector indexing is bounds-checked and updates one element", "statement": "Reading v[i] yields the element at position i exactly when 0 <= i < tam(v) and otherwise stops with an index error; v[i] = x changes position i of that vector and nothing else.", "quantifier": "all vectors, indices, values and heaps", "why_tests_cant": "Unbounded heaps and lengths.", "anchors": ["amanda/vm/src/ama_value.rs:vec_index_check", "amanda/vm/src/vm.rs:OpIndexGet", "amanda/vm/src/vm.rs:OpIndexSet"]}
{"id": "C24", "title": "anexa, remova and tam behave like a list", "statement": "Any sequence of anexa/remova/tam/index operations on a vector behaves like the same operations on a mathematical list; other vectors are not affected unless they are the same object.", "quantifier": "all operation sequences on all vectors", "why_tests_cant": "Unbounded histories.", "anchors": ["amanda/vm/src/modules/builtins/embutidos.rs:anexa", "amanda/vm/src/modules/builtins/embutidos.rs:remova", "amanda/vm/src/modules/builtins/embutidos.rs:tam"]}
{"id": "C25", "title": "vec(T, n1, ..., nk) builds independent zeroed cells", "statement": "vec(T, n1..nk) returns an n1 x ... x nk matrix of zero values in which no two sub-vectors at different positions are the same object, so writing one cell changes that cell only; a negative size is an error.", "quantifier": "all element types, all dimension lists", "why_tests_cant": "Unbounded dimensions.", "anchors": ["amanda/vm/src/modules/builtins/embutidos.rs:build_vec", "amanda/vm/src/modules/builtins/embutidos.rs:vec"]}
{"id": "C26", "title": "Record fields behave like independent variables shared by aliases", "statement": "After r.f = v reading r.f through any alias of the same object gives v, other fields and other objects are unchanged; a new object has exactly the field values given to the initialiser, whatever the order of the named arguments.", "quantifier": "all records, field names, heaps and operation sequences", "why_tests_cant": "Unbounded heaps and histories.", "anchors": ["amanda/vm/src/values/registo.rs:RegObj", "amanda/vm/src/vm.rs:BuildObj", "amanda/vm/src/vm.rs:GetProp", "amanda/vm/src/vm.rs:SetProp"]}
{"id": "C27", "title": "Options: nulo is detected, unwrap never yields nulo silently", "statement": "x == nulo is true exactly for the null value; unwrapping a non-null value yields it, unwrapping null yields the default when there is one and the null-reference error otherwise.", "quantifier": "all values", "why_tests_cant": "Infinite value space.", "anchors": ["amanda/vm/src/vm.rs:Unwrap", "amanda/vm/src/vm.rs:IsNull", "amanda/compiler/codegen.py:ByteGen.gen_unwrap"]}
{"id": "C28", "title": "Each imported module is loaded and initialised once; cyclic imports are rejected", "statement": "Loading a program terminates; each distinct module file is analysed and its top-level code run at most once no matter how many times it is imported; an import cycle is reported as an error; every module runs after the modules it depends on.", "quantifier": "all import graphs", "why_tests_cant": "Import graphs are unbounded.", "anchors": ["amanda/compiler/check/core.py:Analyzer.load_module", "amanda/compiler/codegen.py:ByteGen.compile", "amanda/vm/src/vm.rs:AmaVM::run"]}
{"id": "C29", "title": "Runtime errors name the right source line", "statement": "When execution stops at an instruction, the reported line is the line of the source construct that instruction was generated for.", "quantifier": "all programs and all failing instructions", "why_tests_cant": "Depends on the whole emission history.", "anchors": ["amanda/compiler/codegen.py:ByteGen.append_op", "amanda/vm/src/vm.rs:offset_to_line", "amanda/vm/src/vm.rs:panic_and_throw"]}
{"id": "C30", "title": "Union variants are never confused", "statement": "Different variants declared in a program get different run-time tags; constructing a variant and matching it recovers the variant and its arguments in order.", "quantifier": "all union declarations and argument lists", "why_tests_cant": "Unbounded number of unions and variants.", "anchors": ["amanda/compiler/codegen.py:ByteGen.get_variant_index", "amanda/vm/src/vm.rs:BuildVariant", "amanda/vm/src/vm.rs:MatchVariant", "amanda/vm/src/vm.rs:BindMatchArgs"]}
{"id": "C31", "title": "Constant and name tables are injective and bounded", "statement": "Each constant or name gets one index, distinct items get distinct indices, looking an index up at run time gives the item back, and a program that would need an index beyond 16 bits is rejected rather than miscompiled.", "quantifier": "all sequences of table requests", "why_tests_cant": "Unbounded histories.", "anchors": ["amanda/compiler/codegen.py:ByteGen.get_table_index", "amanda/compiler/codegen.py:ByteGen.format_u16_arg"]}
{"id": "C32", "title": "f-strings concatenate their parts", "statement": "An f-string evaluates its parts left to right and yields the concatenation of their printed forms; literal pieces between braces are reproduced verbatim.", "quantifier": "all f-strings", "why_tests_cant": "Unbounded part lists.", "anchors": ["amanda/compiler/parse.py:Parser.parse_fstr", "amanda/compiler/codegen.py:ByteGen.gen_fmtstr", "amanda/vm/src/vm.rs:BuildStr"]}
{"id": "C33", "title": "quebra and continua act on the innermost enclosing loop", "statement": "quebra leaves and continua restarts the innermost loop (enquanto or para) that textually contains it; outside loops both are rejected.", "quantifier": "all nestings of loops and branches", "why_tests_cant": "Unbounded nesting.", "anchors": ["amanda/compiler/codegen.py:ByteGen.gen_loopctlstmt", "amanda/compiler/codegen.py:ByteGen.gen_para", "amanda/compiler/check/core.py:Analyzer.visit_loopctlstmt", "amanda/compiler/check/core.py:Analyzer.visit_para"]}
{"id": "C34", "title": "para counts exactly the range", "statement": "'para i de a ate b inc c' with positive c runs its body for i = a, a+c, ... while i < b, evaluating b and c each time round, and i is not visible afterwards.", "quantifier": "all bounds and bodies", "why_tests_cant": "Unbounded ranges.", "anchors": ["amanda/compiler/codegen.py:ByteGen.gen_para", "amanda/compiler/check/core.py:Analyzer.visit_para"]}
{"id": "C35", "title": "The operand stack stays balanced", "statement": "Between two statements of the same block the operand stack has the same height, at every program point the height is a function of the program point alone, and no instruction of a compiled program pops below its frame.", "quantifier": "all compiled programs and executions", "why_tests_cant": "All paths of arbitrary control flow.", "anchors": ["amanda/vm/src/vm.rs:op_push", "amanda/vm/src/vm.rs:op_pop", "amanda/compiler/codegen.py:ByteGen"]}
{"id": "C36", "title": "Method calls dispatch on the static type of the target", "statement": "t.m(a...) calls the method m declared for the type of t with alvo bound to t and the arguments in order, even when other types declare a method with the same name.", "quantifier": "all sets of method declarations", "why_tests_cant": "Unbounded programs.", "anchors": ["amanda/compiler/transform.py:ASTTransformer.transform_call", "amanda/compiler/codegen.py:ByteGen.gen_methoddecl", "amanda/vm/src/modules/module.rs:Module::initialize"]}
{"id": "C37", "title": "Generic records substitute their type argument consistently", "statement": "The type of a field or method of T<A> is its declared type with the parameter replaced by A; types equal up to arguments are equal and equality of types is an equivalence.", "quantifier": "all types", "why_tests_cant": "Types are unbounded trees.", "anchors": ["amanda/compiler/types/core.py:ConstructedTy", "amanda/compiler/symbols/core.py:FunctionSymbol.bind"]}
{"id": "C38", "title": "Variables are initialised before use", "statement": "Reading a variable at run time always finds a value that was stored by its declaration or a later assignment: uninitialised storage is never observable.", "quantifier": "all accepted programs and executions", "why_tests_cant": "All paths.", "anchors": ["amanda/compiler/check/core.py:Analyzer.visit_vardecl", "amanda/compiler/codegen.py:ByteGen.gen_vardecl", "amanda/vm/src/vm.rs:GetGlobal"]}
{"id": "C39", "title": "Compiling is deterministic and local", "statement": "The code emitted for a statement depends only on the statement, the declarations visible to it and the tables so far; emitting more code never changes bytes already decided except unresolved forward jumps.", "quantifier": "all programs", "why_tests_cant": "Unbounded programs.", "anchors": ["amanda/compiler/codegen.py:ByteGen.append_op", "amanda/compiler/codegen.py:ByteGen.patch_label_loc"]}
{"id": "C40", "title": "Imported code runs in its own module", "statement": "While a function of an imported module runs, constants, names and globals are those of that module; after it returns they are again the caller's.", "quantifier": "all call histories between modules", "why_tests_cant": "Unbounded call histories.", "anchors": ["amanda/vm/src/vm.rs:CallFunction", "amanda/vm/src/vm.rs:Return", "amanda/vm/src/binload.rs:doc_into_amafn"]}
{"id": "C41", "title": "Parsing always ends with a tree or one located error", "statement": "For every source text the parser terminates, with a syntax tree or with one syntax error whose line is a line of the text; it never fails with an internal exception.", "quantifier": "all source texts", "why_tests_cant": "The set of texts is infinite and the parser is recursive with unbounded lookups.", "anchors": ["amanda/compiler/parse.py:Parser", "amanda/compiler/parse.py:Parser.parse_format_str", "amanda/compiler/parse.py:Parser.pattern"]}
{"id": "C42", "title": "mostra prints one well-defined text per value", "statement": "mostra and f-strings print a number as its decimal numeral, truth values and nulo as their keywords, a text as itself and a vector as its elements between brackets separated by commas; every other value has a fixed form, and no value makes printing crash.", "quantifier": "all values, including nested vectors of any depth", "why_tests_cant": "Values are unbounded trees over a shared heap.", "anchors": ["amanda/vm/src/ama_value.rs:Display", "amanda/vm/src/vm.rs:Mostra"]}
{"id": "C43", "title": "The compiler answers every program", "statement": "For every source text the compiler answers with a program or with its own located error message; it never fails with an internal exception of the implementation language.", "quantifier": "all source texts, of any length and nesting", "why_tests_cant": "Source texts are unbounded; each test is one text.", "anchors": ["amanda/compiler/parse.py", "amanda/compiler/check/core.py", "amanda/compiler/check/checker.py", "amanda/compiler/codegen.py", "amanda/compiler/error.py:handle_exception"]}
{"id": "C44", "title": "Programs are read with the structure written", "statement": "A program written in the grammar is parsed into exactly the statements written, in order: every block, branch, case, arm, loop bound and step, parameter, type, field, variant, annotation and import is the one written, however spaces, comments and empty lines are placed; and no text can be read as two different programs.", "quantifier": "all programs of the grammar, of any size and nesting, and all texts writing them", "why_tests_cant": "Programs nest without bound, and each construct can stand inside each other one.", "anchors": ["amanda/compiler/parse.py:Parser.statement", "amanda/compiler/parse.py:Parser.declaration", "amanda/compiler/parse.py:Parser.block", "amanda/compiler/parse.py:Parser.se_statement", "amanda/compiler/parse.py:Parser.iguala_stmt", "amanda/compiler/parse.py:Parser.module"]}
{"id": "C45", "title": "Error reports quote the line they are about", "statement": "When the compiler rejects a program, the report names the file and the line of the error and quotes that line of the file; the reporter itself never fails.", "quantifier": "all source texts that are rejected, whatever the error and the place", "why_tests_cant": "The line number is computed along the whole text, past strings, comments and line ends; a test fixes one text.", "anchors": ["amanda/compiler/error.py:throw_error", "amanda/compiler/error.py:fmt_error", "amanda/__main__.py:run_frontend", "amanda/compiler/parse.py:Lexer.newline", "amanda/compiler/parse.py:Parser.parse_fstr_expr"]}

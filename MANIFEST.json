{
 "claims": [
  {
   "property": "C01",
   "status": "proved",
   "theorems": [
    "C01_roundtrip",
    "C01_total",
    "C01_injective",
    "C01_refuses_big_int",
    "C01_nonascii_key_refuted",
    "C01_nul_key_refuted"
   ],
   "note": "Round trip, totality, injectivity and refusal for the writer in bindump.py and the reader in binload.rs."
  },
  {
   "property": "C02",
   "status": "proved",
   "theorems": [
    "C02_roundtrip",
    "C02_program",
    "C02_unambiguous",
    "C02_bad_byte",
    "C02_truncated",
    "C02_refuses_wide",
    "C02_wide_u16_refuted"
   ],
   "note": "All opcodes; operands that fit. The silent truncation of 16-bit operands is C02_wide_u16_refuted."
  },
  {
   "property": "C03",
   "status": "proved",
   "theorems": [
    "C03_jumps"
   ],
   "note": "Every byte of the written code decodes into whole instructions and every jump of every built program lands on the first byte of an instruction of the same module, for all programs build accepts."
  },
  {
   "property": "C04",
   "status": "partial",
   "theorems": [
    "C04_expression_partial",
    "C04_reach"
   ],
   "note": "For every expression of the fragment, at every place of a program (any depth, operands below): value or error of the reference interpreter. Missing: iguala expressions, number-like f-string pieces, operands without a meaning (Stuck)."
  },
  {
   "property": "C05",
   "status": "partial",
   "theorems": [
    "C05_reference",
    "C05_program_partial"
   ],
   "note": "Whole programs with imports: same output, globals, error, divergence as the reference interpreter. Missing: iguala, nested functions, quebra/continua inside para, calls at the top level of imports, Stuck cases. C05_reference: the reference answer does not depend on the fuel."
  },
  {
   "property": "C06",
   "status": "partial",
   "theorems": [
    "C06_undisturbed_partial",
    "C06_parameters",
    "C06_call_partial",
    "C06_limit_partial",
    "C06_operands_refuted"
   ],
   "note": "Calls at any depth in the fragment, with the values (C06_call_partial). C06_undisturbed_partial: in every compiled program of plain bodies, with any values on the stack, a call that returns leaves every value below its arguments as it was, with the returned value on top and the caller going on after the call in its frame and module. C06_parameters: in any state of any program the function called has the arguments as its first variables in order. Refuted for functions without variables that leave an unused value (1 + g() gives 102)."
  },
  {
   "property": "C07",
   "status": "proved",
   "theorems": [
    "C07_bounded",
    "C07_call"
   ],
   "note": "Frame count bounded in every state reachable from the start of a module; a call is accepted exactly below the limit."
  },
  {
   "property": "C08",
   "status": "proved",
   "theorems": [
    "C08_compiled",
    "C08_add_sub_mul",
    "C08_floordiv",
    "C08_rem",
    "C08_div",
    "C08_zero_divisor",
    "C08_rem_min_refuted",
    "C08_negate_wraps_refuted",
    "C08_negate"
   ],
   "note": "Exact or error for + - * // % /; the two exceptions (least integer remainder -1, negation of the least integer) are proved as refutations. C08_compiled: the same in every compiled program, for operands of any form."
  },
  {
   "property": "C09",
   "status": "proved",
   "theorems": [
    "C09_compiled",
    "C09_int",
    "C09_real",
    "C09_mixed",
    "C09_text",
    "C09_bool"
   ],
   "note": "All comparison and logical operators on int, real, bool, texto, mixed. C09_compiled: the same in every compiled program, for operands of any form."
  },
  {
   "property": "C10",
   "status": "partial",
   "theorems": [
    "C10_binary_partial",
    "C10_unary_partial",
    "C10_floordiv_refuted",
    "C10_unary_plus_refuted",
    "C10_record_equality_refuted",
    "C10_option_equality_refuted",
    "C10_indef_equality_refuted"
   ],
   "note": "Proved for int, real, bool, texto except // with a real operand; refuted for //, unary plus, equality of records, options, indef."
  },
  {
   "property": "C11",
   "status": "partial",
   "theorems": [
    "C11_checked_compiled",
    "C11_compiled",
    "C11_values_partial",
    "C11_int_real_int",
    "C11_basic_partial",
    "C11_int_text_int",
    "C11_same_type",
    "C11_indef_refuted",
    "C11_option_refuted"
   ],
   "note": "Proved among int, real, bool, texto: which conversions are supported and exactly which value each gives, also for every conversion of every compiled program (plain and, from indef, tested); refuted from indef holding a record and to options."
  },
  {
   "property": "C12",
   "status": "partial",
   "theorems": [
    "C12_order_partial",
    "C12_partial_order_partial",
    "C12_real_int",
    "C12_nulo",
    "C12_explicit_partial",
    "C12_antisym_refuted",
    "C12_irreflexive_refuted",
    "C12_transitive_refuted",
    "C12_explicit_refuted",
    "C12_generic_refuted",
    "C12_generic_crash_refuted"
   ],
   "note": "Proved on all types without indef, nulo and user generics (any nesting); refuted in general."
  },
  {
   "property": "C13",
   "status": "partial",
   "theorems": [
    "C13_accepted_partial",
    "C13_expression_refuted",
    "C13_field_to_field_refuted",
    "C13_vector_element_refuted",
    "C13_initialiser_refuted",
    "C13_unwrap_in_escolha_refuted",
    "C13_uncalled_method_refuted",
    "C13_same_name_refuted",
    "C13_typed_partial"
   ],
   "note": "Proved for whole programs: an accepted text of the fragment never stops the machine, and every global ends with a value of the type the analyser recorded (C13_accepted_partial; the declarative type system itself is sound, C13_typed_partial). Outside the fragment the claim is false of the code: iguala inside an expression, assignment between fields, elements put into a vector of reals, unwrap inside escolha, an uncalled method (C13_*_refuted). Missing: unions, iguala, methods, generic records, user modules."
  },
  {
   "property": "C14",
   "status": "partial",
   "theorems": [
    "C14_loop_refuted",
    "C14_elif_refuted",
    "C14_straight_partial"
   ],
   "note": "An accepted function with a result type whose counted retornas are on every way through never reaches its end (C14_straight_partial, every function, not only the fragment). False of the code otherwise: retorna inside a loop that does not run and a senaose branch without retorna (C14_loop_refuted, C14_elif_refuted)."
  },
  {
   "property": "C15",
   "status": "partial",
   "theorems": [
    "C15_separate_storage_refuted",
    "C15_hidden_builtin_refuted",
    "C15_scoped_partial"
   ],
   "note": "C15_scoped_partial: in every accepted text of the core language with at most nine open blocks, each use of a variable stands for the innermost declaration before it, no name is declared twice on one level, and each new local has another storage name than every local alive. False of the code without the bound: internal names made of depth and number are ambiguous, so two live variables can share a slot (C15_separate_storage_refuted). A local variable named like a builtin hides it in the analyser only (C15_hidden_builtin_refuted). Missing: constructs outside the core language; the run-time part of the claim is what C05 adds."
  },
  {
   "property": "C16",
   "status": "partial",
   "theorems": [
    "C16_pieces_partial",
    "C16_accent_refuted",
    "C16_quote_refuted",
    "C16_int",
    "C16_text",
    "C16_real",
    "C16_keywords",
    "C16_fstring_refuted"
   ],
   "note": "Proved for integer, real, quoted text and keyword literals. Text pieces of format strings: C16_pieces_partial gives the pieces that stay the text written; refuted for pieces that look like a number or a keyword (C16_fstring_refuted), for every piece beginning with a non-ASCII character (C16_accent_refuted: the loader panics) and for every piece beginning with a quote (C16_quote_refuted: first and last character lost)."
  },
  {
   "property": "C17",
   "status": "proved",
   "theorems": [
    "C17_read_back",
    "C17_unambiguous"
   ],
   "note": "Through text: any spacing and comments (Spec_Parse.show_line, written). Excludes texts whose escapes the lexer misreads (C19). Format strings and iguala are not part of the expression trees ranged over."
  },
  {
   "property": "C18",
   "status": "partial",
   "theorems": [
    "C18_total",
    "C18_tokens_partial",
    "C18_lines_partial",
    "C18_lines_refuted",
    "C18_spacing_partial",
    "C18_no_crash_partial",
    "C18_no_crash_refuted"
   ],
   "note": "Totality and losslessness for every text. The token sequence is exactly the declarative one (both directions), lines included, except: escapes misread by the lexer (C19), literals over several lines (lines refuted), digits without decimal value and over-long numbers (ValueError, refuted)."
  },
  {
   "property": "C19",
   "status": "partial",
   "theorems": [
    "C19_text_partial",
    "C19_plain",
    "C19_text_refuted",
    "C19_closing_refuted",
    "C19_every_text_refuted"
   ],
   "note": "Exact for every literal in which no escape is followed by one character and a quote; full for literals without backslashes; refuted otherwise (a character, or the closing quote, is dropped). No literal denotes a text ending in a backslash."
  },
  {
   "property": "C20",
   "status": "partial",
   "theorems": [
    "C20_same_assignment_partial",
    "C20_field_refuted"
   ],
   "note": "Variables and list elements: both forms parse to the same assignment, for every target, operator and right-hand side. Fields: refuted for every operator and right-hand side (the operator is dropped)."
  },
  {
   "property": "C21",
   "status": "partial",
   "theorems": [
    "C21_first_case_partial",
    "C21_examined_once_refuted"
   ],
   "note": "Proved when evaluating the examined expression and the case values has no effect: the compiled escolha is the block of the first equal case, else the default, else nothing (C21_first_case_partial). False of the code otherwise: the examined expression is evaluated again for every case (C21_examined_once_refuted)."
  },
  {
   "property": "C22",
   "status": "partial",
   "theorems": [
    "C22_literals_refuted",
    "C22_nested_literal_refuted",
    "C22_first_arm_refuted",
    "C22_accepted_refuted",
    "C22_tree_partial",
    "C22_default_refuted"
   ],
   "note": "Proved for arms without literals that look into at most one parameter of each variant (C22_tree_partial). False of the code for literals (C22_default_refuted, for all such arms), for arms looking into several parameters (C22_first_arm_refuted) and as an operand (C13_expression_refuted)."
  },
  {
   "property": "C23",
   "status": "proved",
   "theorems": [
    "C23_read",
    "C23_write",
    "C23_read_compiled",
    "C23_write_compiled"
   ],
   "note": "Reads and writes through the VM's index operations. C23_read_compiled, C23_write_compiled: the same in every compiled program, for operands of any form."
  },
  {
   "property": "C24",
   "status": "proved",
   "theorems": [
    "C24_list"
   ],
   "note": "Any operation sequence on one vector refines list operations."
  },
  {
   "property": "C25",
   "status": "partial",
   "theorems": [
    "C25_shape",
    "C25_independent_partial",
    "C25_three_dims_refuted",
    "C25_negative"
   ],
   "note": "Shape and zeros for any number of dimensions; independence for two; refuted for three."
  },
  {
   "property": "C26",
   "status": "proved",
   "theorems": [
    "C26_write",
    "C26_initial",
    "C26_read_compiled",
    "C26_write_compiled"
   ],
   "note": "Write/read through aliases, other fields and objects, initialiser order. C26_read_compiled, C26_write_compiled: the same in every compiled program, for operands of any form."
  },
  {
   "property": "C27",
   "status": "proved",
   "theorems": [
    "C27_null_test",
    "C27_unwrap",
    "C27_unwrap_or",
    "C27_null_test_partial",
    "C27_unwrap_partial",
    "C27_unwrap_or_partial"
   ],
   "note": "For every compiled program and every operand, of whatever form: the instructions after the operand's code test or unwrap the value it left (C27_null_test, C27_unwrap, C27_unwrap_or); with the reference interpreter, what that value is (the _partial theorems)."
  },
  {
   "property": "C28",
   "status": "partial",
   "theorems": [
    "C28_order_refuted",
    "C28_use_refuted",
    "C28_terminates",
    "C28_acyclic",
    "C28_cycle_rejected",
    "C28_once"
   ],
   "note": "Proved for all import graphs: loading ends (C28_terminates), what is run has no import cycle (C28_acyclic, C28_cycle_rejected), every reachable module is loaded and none twice (C28_once). The order of running is false of the code: a module runs before the module it imports (C28_order_refuted, C28_use_refuted)."
  },
  {
   "property": "C29",
   "status": "partial",
   "theorems": [
    "C29_lines_partial",
    "C29_step_refuted",
    "C29_caller_refuted"
   ],
   "note": "C29_lines_partial: the line reported for an error other than the recursion limit is a line of the failing statement, for programs meeting program_ok/sizes_ok. C29_step_refuted and C29_caller_refuted: the exact line of a para step and the lines of caller frames in other modules are wrong."
  },
  {
   "property": "C30",
   "status": "proved",
   "theorems": [
    "C30_round_trip",
    "C30_tags"
   ],
   "note": "Tags are injective and total for every list of declarations; building, testing and taking apart a union value on the machine gives back exactly the variant and its arguments."
  },
  {
   "property": "C31",
   "status": "proved",
   "theorems": [
    "C31_constants",
    "C31_names",
    "C31_refuses"
   ],
   "note": "Any request sequence; refusal beyond the 16-bit bound."
  },
  {
   "property": "C32",
   "status": "partial",
   "theorems": [
    "C32_compiled",
    "C32_fstring_partial"
   ],
   "note": "In every compiled program the parts of a format string run from left to right and the value is the concatenation of their printed forms, for operands of any form (C32_compiled). Missing: the text between the parts as written in the source; literal pieces that look like numbers are changed (C16 refutation)."
  },
  {
   "property": "C33",
   "status": "partial",
   "theorems": [
    "C33_para_program_refuted",
    "C33_break_partial",
    "C33_continue_partial",
    "C33_innermost",
    "C33_para_refuted"
   ],
   "note": "quebra/continua in enquanto; refuted inside para (acts on the enclosing enquanto). C33_para_program_refuted gives a whole program."
  },
  {
   "property": "C34",
   "status": "partial",
   "theorems": [
    "C34_counts_partial",
    "C34_stops_partial",
    "C34_rounds_partial",
    "C34_range"
   ],
   "note": "C34_counts_partial: a counting loop that ends, over a body that leaves the counter alone and has no quebra or continua of its own, with a bound and a step that are literals or local variables the body leaves alone (Spec_Count.v), ran exactly the rounds a, a+k, ... below b, and the machine runs the same. C34_rounds_partial: the machine runs the rounds of any counting loop whose bound and step are evaluated each round. C34_stops_partial: such a loop that is left by retorna or an error went through the first rounds of the range. Missing: the range for other bounds; quebra and continua inside para are false of the code (C33_para_refuted)."
  },
  {
   "property": "C35",
   "status": "partial",
   "theorems": [
    "C35_points_partial",
    "C35_same_point_partial",
    "C35_iguala_refuted",
    "C35_balanced_partial",
    "C35_height",
    "C35_expression_statement_refuted"
   ],
   "note": "Static: every instruction of a compiled module (pattern matching and expression statements inside loops or branches excluded) has one height, all ways of going on agree with it, and its operands are there. Dynamic: in an execution that begins at a module or function start and stays in that frame (calls taken whole), no instruction takes more than the frame has pushed and each program point is always met at the same height; a called function without parameters and locals is assumed to leave only its answer. Also the simulation gives balance for the reference fragment. Refuted for expression statements (the stack grows each round). False of the code for iguala (C35_iguala_refuted) and for expression statements inside loops (C35_expression_statement_refuted)."
  },
  {
   "property": "C36",
   "status": "partial",
   "theorems": [
    "C36_same_name_refuted",
    "C36_dispatch_partial",
    "C36_target_first_partial",
    "C36_tam_refuted",
    "C36_bare_name_refuted",
    "C36_escolha_refuted"
   ],
   "note": "Proved for every program the front end accepts, with imports: each member call in the checked tree was given a method declared with that name for the declared type of its target, and is rewritten to a call with the target first and the arguments in order. At run time the machine looks the method up by its bare name, so the property is false when two types of a module declare a method of the same name (C36_same_name_refuted), and arguments of a method named tam are not checked (C36_tam_refuted). A method called by its bare name is accepted and the machine panics (C36_bare_name_refuted). A member call inside escolha is not rewritten and the machine panics (C36_escolha_refuted)."
  },
  {
   "property": "C37",
   "status": "partial",
   "theorems": [
    "C37_field_type_refuted",
    "C37_equality_partial",
    "C37_same_name_refuted",
    "C37_field_partial",
    "C37_inner_refuted",
    "C37_method_partial"
   ],
   "note": "Proved: for programs whose records have distinct names and whose unions have distinct names, the analyser's type equality is identity (hence an equivalence); fields and methods whose declared types are a parameter or mention none get the full substitution. False of the code: a parameter inside a vector or another generic is never replaced (C37_inner_refuted, C37_field_type_refuted), and same-named records of two modules are one type (C37_same_name_refuted)."
  },
  {
   "property": "C38",
   "status": "partial",
   "theorems": [
    "C38_own_initialiser_refuted",
    "C38_local_partial",
    "C38_global_refuted"
   ],
   "note": "Local variables; refuted for globals (a: int = 1 + a crashes the machine). C38_own_initialiser_refuted gives a whole program."
  },
  {
   "property": "C39",
   "status": "proved",
   "theorems": [
    "C39_local",
    "C39_monotone"
   ],
   "note": "Generation is a function (same input, same output) and the code appended for a node depends only on the tables it reads; emitted code is never changed afterwards."
  },
  {
   "property": "C40",
   "status": "partial",
   "theorems": [
    "C40_modules_partial",
    "C40_import_call_refuted"
   ],
   "note": "Calls between modules in the fragment; refuted for calls made at the top level of an imported module."
  },
  {
   "property": "C41",
   "status": "partial",
   "theorems": [
    "C41_total",
    "C41_no_crash_partial",
    "C41_no_crash_refuted"
   ],
   "note": "Termination and error lines for every text. No internal exception unless the text has a format string, an iguala or an unreadable number; refuted for f'' and for constant patterns other than integer and text."
  },
  {
   "property": "C42",
   "status": "partial",
   "theorems": [
    "C42_compiled",
    "C42_mostra",
    "C42_one_text",
    "C42_cycle_refuted"
   ],
   "note": "Printing is characterised for every value with a text (all acyclic values) and shown single-valued; refuted for a vector that contains itself, which crashes. C42_compiled: mostra in every compiled program adds the printed form of the value of its operand and a line end to the output and changes nothing else."
  },
  {
   "property": "C43",
   "status": "partial",
   "theorems": [
    "C43_condition_refuted",
    "C43_uncalled_method_refuted",
    "C43_builtin_arguments_refuted",
    "C43_element_refuted",
    "C43_local_int_refuted",
    "C43_nested_escolha_refuted",
    "C43_imported_union_refuted",
    "C43_later_local_refuted",
    "C43_own_initialiser_refuted",
    "C43_generator_partial",
    "C43_written_partial",
    "C43_unary_plus_refuted",
    "C43_text_partial",
    "C43_analyser_partial"
   ],
   "note": "Proved for the plain language (functions, records, methods on records and primitive types, vectors, loops, se, escolha, f-strings, conversions; Spec_Plain.v): the analyser accepts the text or rejects it with an error of a file and a line, never an exception. The front end ends on every program (C28_terminates). For the whole language the property is false of the code: C43_*_refuted. C43_generator_partial, C43_written_partial, C43_text_partial: a program of the reference interpreter's language without unary plus is generated, encoded and written without exception when the program file format has room for it (limits computed by all_room). Missing: unions, iguala, block expressions, generic and optional types and imports in the analyser; iguala and block expressions in the generator. C43_nested_escolha_refuted, C43_imported_union_refuted, C43_later_local_refuted: an escolha inside an escolha, the use of an imported union and a call of a function in a block that later declares a variable of its name make the compiler fail with an exception."
  },
  {
   "property": "C44",
   "status": "partial",
   "theorems": [
    "C44_format_partial",
    "C44_format_rest_refuted",
    "C44_format_brace_refuted",
    "C44_read_back_partial",
    "C44_unambiguous"
   ],
   "note": "C44_read_back_partial covers every statement and declaration of the grammar given in Spec_Program.v, with any nesting; C44_format_partial: a shown format string is read as its pieces in the order written; missing: format strings elsewhere, blocks used as expressions, line ends inside brackets. C44_unambiguous: no sequence of words is written for two programs. False of the code: what follows the first expression between braces is ignored (C44_format_rest_refuted), and a brace inside a text there ends the expression (C44_format_brace_refuted)."
  },
  {
   "property": "C45",
   "status": "partial",
   "theorems": [
    "C45_semantic_partial",
    "C45_alias_refuted",
    "C45_block_line_refuted",
    "C45_syntax_partial",
    "C45_format_line_refuted",
    "C45_assertion_refuted"
   ],
   "note": "C45_syntax_partial: for every text, a syntax error is at a line of the file and that line is what is quoted. C45_semantic_partial: for all programs without format strings and without modules imported under another name, of any number of files, every rejection by the analyser names a file and a line on which a word of a statement of that file stands, that line is what is quoted, and the reporter does not fail. Outside that it is refuted: inside format strings lines are counted from 1 (C45_format_line_refuted, C45_assertion_refuted), a clash of the name given to an imported module is reported against the imported file (C45_alias_refuted), and a block of iguala that ends with an empty block is located on line 1 (C45_block_line_refuted; line 1 counts as a line of iguala blocks in the positive theorem). That the line is the one at fault can fail after a text literal that runs over a line end (C18_lines_refuted)."
  }
 ]
}
{"id": "C01", "title": "Hash table behaves as a finite map", "statement": "After any sequence of insertions, removals and look-ups, a look-up returns exactly the value first inserted for that key since it was last removed (or nothing), regardless of collisions and table growth, and the probe loop always finds a slot (the internal 'unreachable' assertion never fires).", "quantifier": "every key type with equality, every hash function, every sequence of insert/lookup/remove operations of any length and any initial capacity", "why_tests_cant": "Collision chains, tombstones and rehash points depend on the whole history; tests only see a few histories and hash values.", "anchors": ["src/util/hash.c: hash_insert, hash_lookup, hash_remove, hash_expand, hash_find_entry, hash_is_full", "include/lacc/hash.h"]}
{"id": "C02", "title": "Interned strings are equal exactly when their bytes are equal", "statement": "Registering two byte sequences yields handles that compare equal if and only if the sequences have the same length and bytes, for any number of other registrations in between; a handle keeps denoting the same bytes forever.", "quantifier": "all byte strings (including embedded NUL, empty, short and long) and all registration histories", "why_tests_cant": "Requires every pair of strings and every table history; identifiers, macros and symbols are all looked up by handle identity.", "anchors": ["src/preprocessor/strtab.c: str_intern, strtab_find_entry, strtab_expand, djb2_hash", "src/util/string.c: str_eq, str_len, str_raw"]}
{"id": "C03", "title": "Token look-ahead queue is a FIFO", "statement": "The double-ended queue used for token look-ahead and definitions returns elements in exactly the order they were pushed, elements can be peeked by index without disturbing the order, and growing/wrapping never loses, duplicates or reorders an element.", "quantifier": "all sequences of push-back, pop-front, pop-back, peek, length, empty and destroy operations", "why_tests_cant": "Wrap-around and growth interact with every possible head position and length.", "anchors": ["include/lacc/deque.h: deque_push_back, deque_pop_front, deque_pop_back, deque_get"]}
{"id": "C04", "title": "Emitted string literals denote the original bytes", "statement": "Printing a string with C escapes (as in .ascii/.string assembly directives) and reading the printed text back with C string-literal escape rules gives exactly the original byte sequence.", "quantifier": "all byte sequences of any length", "why_tests_cant": "256^n strings; octal escapes followed by digits are a classic corner case.", "anchors": ["src/util/string.c: printchar, fprintstr", "src/preprocessor/tokenize.c: convert_escape_sequence, convert_preprocessing_string"]}
{"id": "C05", "title": "Conditional groups select exactly the lines the C standard selects", "statement": "For any properly nested arrangement of #if/#ifdef/#ifndef/#elif/#else/#endif groups the lines reaching the compiler are exactly those of the first group whose condition is true at every nesting level; conditions in skipped groups are never evaluated.", "quantifier": "every nesting tree of conditional groups, every sequence of text lines, every assignment of truth values to conditions", "why_tests_cant": "Nesting depth and combination of taken/skipped groups are unbounded.", "anchors": ["src/preprocessor/directive.c: preprocess_directive, push_condition, pop_condition, in_active_block", "src/preprocessor/preprocess.c"]}
{"id": "C06", "title": "#if expressions evaluate to the value the C grammar and arithmetic give", "statement": "The value of a #if controlling expression equals the value given by the C expression grammar (precedence, left associativity, all operators) evaluated in intmax_t/uintmax_t arithmetic with usual conversions.", "quantifier": "all token sequences forming a #if expression", "why_tests_cant": "Operator sequences of any length and 64-bit operands.", "anchors": ["src/preprocessor/directive.c: preprocess_expression and the preprocess_* operator functions"]}
{"id": "C07", "title": "Line reading performs only the C translation phases 1-3 rewrites", "statement": "Reading one logical line consumes exactly the physical lines it spans, joins backslash-newline, replaces comments by one space, leaves string and character literals untouched, counts consumed newlines exactly, and never writes past the buffer it was given.", "quantifier": "all byte sequences used as source text", "why_tests_cant": "Literal, comment, trigraph and splice states interact at arbitrary positions.", "anchors": ["src/preprocessor/input.c: read_line, read_comment, read_line_comment, read_literal, read_trigraph"]}
{"id": "C08", "title": "Tokenisation is maximal munch and loses no characters", "statement": "Splitting a line yields tokens whose spellings (with their leading white space) concatenate to the line; each punctuator token is the longest C punctuator that is a prefix of the remaining text; scanning always terminates.", "quantifier": "all lines of text", "why_tests_cant": "All strings over the alphabet; longest match errors only show on specific adjacent characters.", "anchors": ["src/preprocessor/tokenize.c: tokenize_internal, tokenize, basic_token"]}
{"id": "C09", "title": "Integer constants get the value and type required by C99 6.4.4.1", "statement": "For every integer constant spelling (decimal, octal, hexadecimal, any suffix) that fits in 64 bits, the resulting token has the mathematical value of the spelling and the first type in the C list for its base and suffix that can represent it; constants that do not fit are diagnosed.", "quantifier": "all digit strings and suffixes, of any length", "why_tests_cant": "Boundary values at 2^31, 2^32, 2^63, 2^64 in each base and suffix.", "anchors": ["src/preprocessor/tokenize.c: stringtonum, read_integer_suffix, constant_integer_type, convert_preprocessing_number"]}
{"id": "C10", "title": "The # operator produces a literal that spells its argument", "statement": "Stringifying a macro argument yields a string whose character sequence is the spelling of the argument's tokens, with interior white space collapsed to single spaces, and such that reading it as a string literal is well formed for every argument.", "quantifier": "all token sequences passed as macro argument", "why_tests_cant": "Arguments are arbitrary token sequences including literals with quotes and backslashes.", "anchors": ["src/preprocessor/macro.c: stringify, stringify_concat, str_write_escaped"]}
{"id": "C11", "title": "Macro table: last valid #define/#undef wins, incompatible redefinition is rejected", "statement": "After any sequence of #define and #undef, a name is a macro exactly if its last operation was #define, with the replacement list of that definition; redefinition is accepted exactly if the definitions are the same (kind, parameters, tokens, spacing).", "quantifier": "all sequences of #define/#undef over arbitrary names and replacement lists", "why_tests_cant": "Unbounded histories and replacement lists.", "anchors": ["src/preprocessor/macro.c: define, undef, macro_definition, macrocmp, tok_cmp"]}
{"id": "C12", "title": "Macro expansion terminates and never re-expands a name inside its own expansion", "statement": "Macro replacement of any line terminates for any set of macro definitions (including mutually recursive ones), and the result contains exactly the tokens obtained by rescanning with nested names disabled.", "quantifier": "all macro tables and all token lists", "why_tests_cant": "Recursion patterns among macros are unbounded.", "anchors": ["src/preprocessor/macro.c: expand_line, expand, expand_macro, is_expanded"]}
{"id": "C13", "title": "Structs are laid out without overlap and with correct alignment", "statement": "For every struct without bit-fields: members appear in declaration order at non-overlapping offsets, each offset is a multiple of the member's alignment, there is no more padding than alignment requires, and sizeof is the smallest multiple of the struct's alignment covering all members; in a union all members are at offset 0 and sizeof covers the largest.", "quantifier": "all finite member lists of arbitrary complete types", "why_tests_cant": "Member lists are unbounded; a single wrong case silently corrupts memory and breaks the ABI.", "anchors": ["src/parser/typetree.c: add_member, type_add_member, adjust_member_alignment, type_seal, type_alignment, size_of"]}
{"id": "C14", "title": "Bit-fields occupy disjoint bits inside their storage units", "statement": "For every sequence of named and unnamed bit-fields and ordinary members, no two named members share a bit, each field lies entirely within one storage unit of its backing type inside the struct, and a zero-width field forces the next field to a new unit of its type.", "quantifier": "all sequences of members and bit-field widths", "why_tests_cant": "Packing depends on the whole prefix of members.", "anchors": ["src/parser/typetree.c: type_add_field, pack_field_member, reset_field_alignment, adjust_member_alignment"]}
{"id": "C15", "title": "Usual arithmetic conversions and integer promotions follow the C rules", "statement": "The common type of two arithmetic operands and the promoted type of an operand are the types C99 6.3.1 prescribes on an LP64 target; the common type is symmetric and can represent every value required.", "quantifier": "all pairs of arithmetic types with all qualifiers", "why_tests_cant": "Needs the full matrix of types including _Bool, char, unsigned and long double.", "anchors": ["src/parser/typetree.c: usual_arithmetic_conversion, promote_integer, default_argument_promotion"]}
{"id": "C16", "title": "Integer conversions are value-exact or wrap modulo 2^n", "statement": "Converting an integer constant to any integer type yields the unique value of that type congruent to the source modulo 2^width (and 0/1 for _Bool), and leaves it unchanged whenever it is representable.", "quantifier": "all 64-bit constants and all pairs of integer types", "why_tests_cant": "2^64 values times all type pairs.", "anchors": ["src/parser/eval.c: convert, eval_cast, immediate_bool"]}
{"id": "C17", "title": "Constant folding agrees with run-time evaluation", "statement": "For each integer operator, folding two constants gives the same value as computing in the C common type (wrapping for unsigned, mathematical when representable for signed), so compile-time and run-time results agree; operations C leaves undefined (division by zero, INT_MIN/-1, oversize shift) never crash the compiler.", "quantifier": "all operators, all operand values, all integer types", "why_tests_cant": "2^128 operand pairs per operator; compiler crash inputs are rare points.", "anchors": ["src/parser/eval.c: eval_add, eval_sub, eval_mul, eval_div, eval_mod, eval_lshift, eval_rshift, eval_and, eval_or, eval_xor, eval_cmp_eq, eval_cmp_ge, eval_cmp_gt, eval_not, eval_neg"]}
{"id": "C18", "title": "Bit-field stores and loads are exact and local", "statement": "Storing a value to a bit-field and reading it back yields the value reduced to the field's width (sign- or zero-extended according to its type), and no bit outside the field changes.", "quantifier": "all field widths, offsets, storage contents and stored values", "why_tests_cant": "2^64 storage contents times values times geometry.", "anchors": ["src/parser/eval.c: assign_field", "src/backend/x86_64/compile.c: load_field, store_op"]}
{"id": "C19", "title": "Name lookup follows lexical scoping", "statement": "After any sequence of scope entries, exits and declarations, looking up a name yields the most recent declaration in the innermost open scope that declares it, leaving a scope makes its declarations invisible again and restores the ones they shadowed, and makes no other change.", "quantifier": "all sequences of push-scope/pop-scope/declare/lookup", "why_tests_cant": "Shadowing histories are unbounded.", "anchors": ["src/parser/symtab.c: push_scope, pop_scope, sym_lookup, sym_add"]}
{"id": "C20", "title": "Distinct symbols get distinct assembler names", "statement": "Two different objects or functions that need storage never get the same assembler-level name.", "quantifier": "all programs, any number of static locals, temporaries and literals", "why_tests_cant": "Collisions appear only after tens of thousands of symbols or with adversarial names.", "anchors": ["src/parser/symtab.c: sym_name, sym_create_temporary, sym_create_string, sym_add"]}
{"id": "C21", "title": "Every tentative definition and referenced symbol is emitted once", "statement": "Each symbol that must be emitted (tentative definitions, strings, referenced externs) is yielded to the back end exactly once, and each inline function is emitted exactly once if referenced and not at all otherwise.", "quantifier": "all sequences of declarations and references", "why_tests_cant": "Emission is driven by incremental history with back references.", "anchors": ["src/parser/symtab.c: yield_declaration", "src/parser/parse.c: pop_inline_function, parse"]}
{"id": "C22", "title": "Control-flow lowering preserves statement semantics", "statement": "Executing the control-flow graph built for a function body gives the same sequence of effects and the same termination behaviour as the C semantics of if/else, while, do, for, break, continue, switch/case/default with fall-through, and return.", "quantifier": "all statement trees, all behaviours of the conditions", "why_tests_cant": "Unbounded nesting and loop counts.", "anchors": ["src/parser/statement.c: if_statement, do_statement, while_statement, for_statement, switch_statement, statement", "src/parser/parse.c: cfg_block_init"]}
{"id": "C23", "title": "Logical operators short-circuit and negation is exact", "statement": "&&, || and ?: evaluate their right operands only when C requires it and yield 0/1 as required; ! yields 1 exactly when its operand compares equal to zero, including for floating comparisons with NaN.", "quantifier": "all operand expressions and valuations", "why_tests_cant": "Combination of constant/non constant operands, nesting, and NaN operands.", "anchors": ["src/parser/expression.c: logical_and_expression, logical_or_expression, conditional_expression, unary_expression"]}
{"id": "C24", "title": "Optimisation preserves observable behaviour", "statement": "With -O1, dead store elimination and merging of chained assignments leave every observable effect (stores to memory that can be read later, calls, returned values) unchanged.", "quantifier": "all control-flow graphs and all inputs", "why_tests_cant": "Liveness is a whole-function fixpoint.", "anchors": ["src/optimizer/liveness.c", "src/optimizer/transform.c: merge_chained_assignment, dead_store_elimination", "src/optimizer/optimize.c"]}
{"id": "C25", "title": "Skipping empty blocks preserves behaviour and terminates", "statement": "Removing empty blocks from the control-flow graph does not change which statements execute, and the pass terminates on every function.", "quantifier": "all control-flow graphs", "why_tests_cant": "Graphs with cycles of empty blocks are corner cases.", "anchors": ["src/optimizer/optimize.c: skip_empty_blocks"]}
{"id": "C26", "title": "Block linearisation preserves the control-flow graph", "statement": "The instruction stream emitted for a function executes blocks in exactly the order given by the graph: every reachable block is emitted exactly once, and every fall-through, jump and conditional jump reaches the successor the graph prescribes.", "quantifier": "all control-flow graphs", "why_tests_cant": "Emission order and fall-through depend on the whole graph shape.", "anchors": ["src/backend/x86_64/compile.c: compile_block, compile_function"]}
{"id": "C27", "title": "Parameter classification agrees with the System V ABI", "statement": "Every struct, union and scalar type is classified into INTEGER/SSE/X87/MEMORY eightbytes exactly as the System V AMD64 ABI prescribes.", "quantifier": "all types", "why_tests_cant": "Types nest arbitrarily.", "anchors": ["src/backend/x86_64/abi.c: classify, flatten, merge, combine, has_unaligned_fields"]}
{"id": "C28", "title": "Caller and callee agree on where every argument lives", "statement": "For every function signature the location (register or stack offset) where a caller compiled by lacc places each argument is the location where a callee compiled by lacc reads it, no two arguments share a location, and the stack is balanced after the call.", "quantifier": "all lists of argument types", "why_tests_cant": "Argument lists are unbounded; register exhaustion and struct splitting interact.", "anchors": ["src/backend/x86_64/compile.c: push_function_arguments, enter, alloc_register_params, move_to_from_registers"]}
{"id": "C29", "title": "Stack frame slots do not overlap", "statement": "In the frame of every function the slots of locals, spilled parameters, saved registers and the variadic register save area are pairwise disjoint and lie between the stack pointer and the frame pointer, and the stack pointer is 16-byte aligned at calls.", "quantifier": "all functions: any locals, parameters, number of saved registers, variadic or not", "why_tests_cant": "Frame composition is unbounded, overlap shows only on specific register pressure.", "anchors": ["src/backend/x86_64/compile.c: enter, allocate_locals, allocate_registers"]}
{"id": "C30", "title": "Object copies move exactly the object's bytes", "statement": "The instruction sequence emitted to copy an object of n bytes reads and writes each byte in [0,n) exactly once and nothing outside.", "quantifier": "all object sizes and source/destination offsets", "why_tests_cant": "Sizes are unbounded; the chunking has several cases.", "anchors": ["src/backend/x86_64/compile.c: emit_memcpy"]}
{"id": "C31", "title": "Encoded instructions decode to what was asked for", "statement": "The machine code bytes produced for an instruction decode, according to the x86-64 instruction format, to the same operation, operand sizes, registers, addresses and immediates; the length never exceeds 15 bytes.", "quantifier": "all instructions with all registers, displacements and immediates the encoder accepts", "why_tests_cant": "Register, REX, ModRM, SIB, displacement and immediate combinations with 2^32/2^64 values.", "anchors": ["src/backend/x86_64/encoding.c: encode, encode_modrm_sib_disp, encode_address, encode_immediate, match_instruction_encoding"]}
{"id": "C32", "title": "Object files have well-formed section layout", "statement": "In every emitted object file section contents occupy disjoint file ranges, each aligned as its header declares, and all offsets in headers refer to the bytes that were written for that section.", "quantifier": "all sequences of section contents", "why_tests_cant": "Sizes are arbitrary; alignment mistakes need particular residues.", "anchors": ["src/backend/x86_64/elf.c: elf_chain_offsets, write_sections, elf_flush, elf_section_write, elf_section_align"]}
{"id": "C33", "title": "Object symbol and string tables are consistent", "statement": "Every symbol's name index refers to its NUL-terminated name in the string table, local symbols precede global ones with the section info giving the boundary, and every relocation refers to the index of the symbol it was recorded for.", "quantifier": "all sequences of symbol additions and relocations", "why_tests_cant": "Global symbols are queued and renumbered at flush time, so correctness depends on the whole history.", "anchors": ["src/backend/x86_64/elf.c: elf_strtab_add, elf_symtab_add, elf_symtab_assoc, flush_symtab_globals, elf_symbol, elf_add_relocation, flush_relocations"]}
{"id": "C34", "title": "Local jumps land on their labels", "statement": "In every emitted text section each jump to a local label has a displacement that transfers control to exactly the label's address, whether the label is before or after the jump.", "quantifier": "all sequences of instructions, labels and jumps", "why_tests_cant": "Forward references are patched at the end; depends on the order of all emissions.", "anchors": ["src/backend/x86_64/elf.c: elf_text_displacement, elf_flush_text_displacements, elf_symbol"]}
{"id": "C35", "title": "Initialisers define every byte of an object once", "statement": "After post-processing, the initialiser assignments of an aggregate cover every byte of the object exactly once in increasing order; bytes not mentioned are zero, and among duplicate designators the last one wins.", "quantifier": "all object types and all sets of explicit member initialisers in any order", "why_tests_cant": "Designated initialisers may appear in any order and overlap.", "anchors": ["src/parser/initializer.c: sort_and_trim, initialize_padding, zero_initialize_bytes, merge_assignments, postprocess_object_initialization"]}
{"id": "C36", "title": "The exit status reports failure truthfully", "statement": "The process exits with status 0 if and only if no error was reported for any input and linking succeeded.", "quantifier": "all numbers of errors and input files, all linker outcomes", "why_tests_cant": "Error counts are unbounded and exit statuses wrap modulo 256.", "anchors": ["src/lacc.c: main, process_file", "src/backend/linker.c: invoke_linker"]}
{"id": "C37", "title": "Command-line option matching is unambiguous and exact", "statement": "An argument matches an option rule exactly if it is the option's spelling (with an optional or alternative part where the rule says so) and the option's value is exactly the remaining text or the next argument; every argument is consumed exactly once in order.", "quantifier": "all rule sets and argument vectors", "why_tests_cant": "All strings.", "anchors": ["src/util/argparse.c: match_rule, match_arg, parse_args"]}
{"id": "C38", "title": "Default output names", "statement": "The default output file name of an input is its base name with the extension replaced, the buffer it is written to is always large enough, and different inputs in one invocation get different outputs.", "quantifier": "all path strings", "why_tests_cant": "All strings; collisions need particular pairs of paths.", "anchors": ["src/lacc.c: change_file_suffix, add_input_file, define_macro"]}
{"id": "C39", "title": "Declaration specifiers may appear in any order", "statement": "Every permutation of a permitted multiset of type specifiers denotes the same type, the type listed for it in C99 6.7.2, and every other multiset is rejected.", "quantifier": "all sequences of specifier keywords", "why_tests_cant": "Sequences are unbounded.", "anchors": ["src/parser/declaration.c: declaration_specifiers"]}
{"id": "C40", "title": "Adjacent string literals are concatenated exactly", "statement": "A maximal run of adjacent string literals becomes one literal whose bytes are the concatenation of the pieces, each converted separately, and all other tokens pass through unchanged and in order.", "quantifier": "all token streams", "why_tests_cant": "Run lengths and interleavings are unbounded.", "anchors": ["src/preprocessor/preprocess.c: add_to_lookahead", "src/preprocessor/strtab.c: str_cat"]}
{"id": "C41", "title": "Escape sequences in literals have the value C gives them", "statement": "Every well-formed string literal is scanned to exactly its closing quote, and its escape sequences (simple, octal, hexadecimal) are converted to the byte values C prescribes, all other characters being kept as they are.", "quantifier": "all well-formed string literals of any length followed by any text", "why_tests_cant": "Escapes interact with the characters that follow them (maximal digit runs, prefixes), giving unboundedly many contexts.", "anchors": ["src/preprocessor/tokenize.c: convert_escape_sequence, convert_char, convert_preprocessing_string, parse_escape_sequence, strtostr"]}
{"id": "C42", "title": "Floating constants are recognised with the type of their suffix", "statement": "A preprocessing number is accepted as a floating constant exactly if it is one by the C grammar (decimal or hexadecimal, with point and/or exponent), and gets type float, long double or double according to its suffix.", "quantifier": "all preprocessing numbers of any length", "why_tests_cant": "the set of spellings is infinite and the code relies on how much of the text library conversions consume; a test only tries some spellings", "anchors": ["src/preprocessor/tokenize.c:224-281"]}
{"id": "C43", "title": "Character constants have the value of their character", "statement": "A character constant holding exactly one (possibly escaped) character is scanned to exactly its closing quote and has type int and the value of that character taken as a signed char; a constant holding no or several characters is rejected.", "quantifier": "all well-formed character constants followed by any text", "why_tests_cant": "escapes of every form and the text after the constant interact with the end of the scan", "anchors": ["src/preprocessor/tokenize.c: strtochar, parse_escape_sequence, convert_char, convert_preprocessing_char"]}
{"id": "C44", "title": "Integer assignments compute what C says", "statement": "For every integer or pointer assignment `t = l op r` (+ - * / % & | ^ << >> ~, casts, plain copies), wherever the operands are - constants, locals, globals, objects behind pointers, bit-fields, temporaries in registers, in position independent code or not - the emitted code, run on the processor, leaves in `t` the value C gives the expression (whenever C defines it), and changes no other memory and no other temporary.", "quantifier": "all operations, integer types of 32 and 64 bits (casts: all integer types), operand values, kinds and places of operands and target, memory contents, register contents", "why_tests_cant": "The code generated depends on the combination of operation, widths, signedness and place of each of three operands, and its effect on all values; tests try few combinations, and a clobbered register or neighbouring bit shows only if something else lives there.", "anchors": ["src/backend/x86_64/compile.c: emit_load, load_field, load_int, load_cast, store_op, compile_add, compile_sub, compile_mul, compile_div, compile_mod, compile_bitwise, compile_shl, compile_shr, compile_not, compile_cast, compile_assign"]}
{"id": "C45", "title": "Compiled comparisons give the result C prescribes", "statement": "The code emitted for ==, !=, >= and > leaves 1 exactly when the comparison holds and 0 otherwise, and the conditional jumps emitted for it or for any scalar condition go to the true successor exactly when it holds; for signed and unsigned operands of every width and for floating operands including NaN.", "quantifier": "all operators, operand types, operand values, and positions of constants", "why_tests_cant": "all pairs of 64-bit operands and all flag combinations", "anchors": ["src/backend/x86_64/compile.c: compile_compare, set_compare_value, compile_block"]}
{"id": "C46", "title": "Calls and assignments in an expression are carried out once, with their own operands", "statement": "Executing the code for an expression statement performs every call and every assignment written in the expression at most once, and exactly once when the expression has no &&, || or ?:, and each call receives the values of its own arguments, in order.", "quantifier": "all expressions, all memories, all behaviours of the functions called", "why_tests_cant": "The defect shows only for particular shapes (constant conditions, calls of results of calls), at any nesting depth.", "anchors": ["src/parser/expression.c: conditional_expression, postfix call, assignment_expression", "src/parser/eval.c: eval, eval_call, eval_push_param, eval_assign", "src/parser/parse.c: begin_throwaway_block, restore_block"]}
{"id": "C47", "title": "Calls follow the System V ABI", "statement": "For every list of argument types and every result type, a call compiled by lacc puts each byte of each argument in the register or at the stack offset that the System V AMD64 ABI prescribes, passes the address of a result of class MEMORY in %rdi, and sets %al to the number of vector registers of a variadic call; and a function compiled by lacc reads its parameters from those places, whatever compiler has produced its caller.", "quantifier": "all lists of argument types, all result types, all register and memory contents", "why_tests_cant": "Argument lists are unbounded, and two sides compiled by the same compiler agree even when both are wrong.", "anchors": ["src/backend/x86_64/compile.c: push_function_arguments, move_to_from_registers, alloc_register_params, compile_call, enter", "src/backend/x86_64/abi.c: classify"]}
{"id": "C48", "title": "Declarators denote the type C gives them", "statement": "For every declarator (any nesting of pointers, arrays, functions, parentheses, qualifiers, parameter lists with or without names and with `...`, identifier lists), the compiler reads exactly the tokens of the declarator, and the name and type it gets are those of C99 6.7.5, with parameters adjusted as in 6.7.5.3; types that existed before are not changed.", "quantifier": "all declarators and abstract declarators, all types and identifiers in scope, whatever follows", "why_tests_cant": "Declarators nest without bound, and inside-out: an inner declarator is read before the type it applies to is known and patched afterwards.", "anchors": ["src/parser/declaration.c: declarator, direct_declarator, array_declarator, parameter_list, identifier_list, pointer", "src/parser/typetree.c: type_create_pointer, type_create_function, type_create_array, type_patch_declarator, type_add_member, type_seal"]}
{"id": "C49", "title": "Expressions are read as the grammar of C says", "statement": "For every expression derivable from the grammar of C99 6.5 (primary, postfix, unary, cast, binary operators with their precedence and associativity, conditional, assignment, comma; with typedef names in scope deciding between casts and parenthesized expressions), the compiler accepts it, reads exactly its tokens, and applies each operation to the operands the grammar assigns to it, except that chains of && and of || are grouped the other way, which changes neither value nor effects; conversely whatever it accepts as an expression is spelled by such a derivation; and on every input it comes to an end.", "quantifier": "all expressions, all token sequences, all sets of declared names and types of functions, whatever follows the expression", "why_tests_cant": "Expressions nest without bound, and a wrong precedence shows only for particular pairs of operators in particular positions.", "anchors": ["src/parser/expression.c: expression, assignment_expression, conditional_expression, logical_or_expression, logical_and_expression, inclusive_or_expression ... multiplicative_expression, cast_expression, unary_expression, postfix, primary_expression", "src/parser/declaration.h: FIRST(type_name)"]}
{"id": "C50", "title": "Each element of an initializer goes to the subobject C says", "statement": "For every initializer that C99 6.7.8 allows (nested braces, left-out braces, designators, strings for arrays of characters, struct values for structs, trailing commas), the compiler reads exactly its tokens, and stores each expression in the subobject it initializes, in the order of the list, members of a union replacing each other; an array of unknown length gets the length of its largest index plus one. Without designators and unions this holds of every initializer C allows, except for a comma after an expression alone in braces.", "quantifier": "all types built from scalars, arrays, structs and unions, all initializers for them, whatever follows", "why_tests_cant": "Braces may be left out at any level and designators may lead anywhere, so that the number of ways to write one initializer grows exponentially with the depth of the type.", "anchors": ["src/parser/initializer.c: initializer, initialize_object, initialize_member, initialize_array, initialize_struct_or_union, initialize_struct, initialize_union, next_element, has_next_array_element, read_initializer_element"]}
{"id": "C51", "title": "va_arg yields the arguments that were passed", "statement": "In a variadic function called as the System V x86-64 ABI says, va_start makes a list the next argument of which is the first one after the parameters. va_arg with the type of the next argument stores its bytes in the object, whether it was passed in general registers, in vector registers, in both or on the stack, and makes the argument after it the next; any number of va_arg in sequence read all the arguments. Only the list and the object (rounded up to eightbytes) are written, and of the registers only scratch registers. The list can be handed to other functions: it depends on nothing but its own bytes, the register save area and the arguments on the stack.", "quantifier": "all lists of argument types (scalars, structs, unions), all results, any number of parameters, all values, all frames, lists reached directly or by pointer", "why_tests_cant": "Which of the four ways of passing applies to an argument depends on all the arguments before it; a wrong offset shows only for some combination of types, after some number of arguments.", "anchors": ["src/backend/x86_64/compile.c: enter, compile__builtin_va_start, compile__builtin_va_arg, emit_memcpy"]}
{"id": "C52", "title": "The assembly text of -S means the instructions and data that were asked for", "statement": "Each line of code that is written with -S is read by an assembler of the AT&T syntax as the operation, operand widths, registers, address and value that were asked for, and as the same instruction that the bytes in the object file are (-c), with symbols at any addresses. Each data directive reserves the bytes, or the address of the symbol plus the offset, of the initializer; strings with any characters, with or without a final 0. An instruction that has bytes also has a text.", "quantifier": "all instructions of the compiler with a meaning, all operands, all displacements and integers, all symbols and addresses of them, all strings", "why_tests_cant": "The suffixes of an operation depend on widths of both operands and on the entry found in a table of 103; there are 2^64 values for each operand, and the test suite assembles the text with the system's assembler only for the programs in it.", "anchors": ["src/backend/x86_64/assemble.c: asm_text, asm_data, asm_address, immediate, regname", "src/backend/x86_64/encoding.c: get_mnemonic, find_encoding", "src/util/string.c: fprintstr, printchar"]}
{"id": "C53", "title": "Declarations of one name agree, and come to one type", "statement": "When an identifier with linkage is declared a second time, the declaration is accepted if the two types are compatible as C99 6.2.7, 6.7.3, 6.7.5 say, and the identifier then has a type compatible with both, which has the length of the array or the parameters of the function if either declaration gives them; if the types are not compatible the program is rejected.", "quantifier": "for all pairs of declarators (pointers, arrays, functions, parameters, qualifiers, nested to any depth), all base types, typedef names and structs in scope, and all contents of the type table", "why_tests_cant": "compatibility is a relation on pairs of types of unbounded depth; tests declare a handful of pairs, and an error that makes the comparison succeed too often is silent.", "anchors": ["src/parser/typetree.c:884-1030", "src/parser/typetree.c:1082-1144", "src/parser/typetree.c:1221-1231", "src/parser/symtab.c:241-291", "src/parser/symtab.c:327-343"]}
{"id": "C54", "title": "Expressions of integers, objects and pointers have the values and addresses C says", "statement": "For an expression made of names, integer constants, [], unary * and &, ., ->, the binary operators + - * / % & | ^ << >> < > <= >= == !=, unary + - ~ !, and casts between integers and pointers, that C99 6.3.1, 6.3.2, 6.5.2 to 6.5.12 give a meaning (in particular no division by zero, overflow of a signed type, or shift by too much): compiling it is accepted; the code generated changes nothing but temporaries of its own; if the expression designates an object, the result refers to an object of that type at that address; if it is a value, the result has that type and that value; and where an object's value is used it is what memory holds there, or for an array the address of its first element. Structs are smaller than 2 GB.", "quantifier": "for all such expressions of any depth, all types (structs that contain each other and point to themselves, arrays of arrays, integers of each size), all contents of memory and addresses of objects, and all states of the compiler before", "why_tests_cant": "each operation has cases for constants, names, addresses, and dereferenced pointers with offsets, and their combinations are unbounded; tests see only some, and a wrong offset or scale reads a neighbouring object.", "anchors": ["src/parser/eval.c:203-237", "src/parser/eval.c:321-482", "src/parser/eval.c:512-1186", "src/parser/eval.c:1212-1243", "src/parser/eval.c:1313-1488", "src/parser/eval.c:1757-1785", "src/parser/expression.c:65-104", "src/parser/expression.c:147-252", "src/parser/expression.c:317-372", "src/parser/expression.c:483-718", "src/parser/typetree.c:1032-1080"]}
{"id": "C55", "title": "An assignment changes the object it is to, and nothing else", "statement": "For a = b, a += b and the other compound assignments (-= *= /= %= &= |= ^= <<= >>=), ++a, --a, a++ and a--, where a designates an integer or pointer object (C54) and b is an expression without effects that may be assigned to it: compiling is accepted, and after running the code the object at that address holds the value C99 6.5.16, 6.5.2.4 and 6.5.3.1 give it, converted to its type, while every other byte of memory keeps its value. The expression has the type of the object and is no lvalue; its value is the one stored, or for a++ and a-- the one before. A struct or union is copied byte by byte. A sequence of such statements does all this one after the other, each with the memory that the one before left.", "quantifier": "for all such expressions of any depth, all integer and pointer types on either side, all contents of memory and addresses, and all states of the compiler before", "why_tests_cant": "conversions between each pair of types, constants, names, dereferenced pointers and members are separate cases of the code and combine without bound; a store that is too wide changes a neighbouring object, which a test only sees if it looks there.", "anchors": ["src/parser/eval.c:1639-1712", "src/parser/eval.c:1757-1800", "src/parser/expression.c:253-270", "src/parser/expression.c:429-442", "src/parser/expression.c:913-983", "src/parser/eval.c:302-319", "src/parser/statement.c:73-80"]}
{"id": "C56", "title": "An expression is accepted exactly when C gives it a type, and has that type", "statement": "An expression of integers, objects, pointers, arrays and structs (names, constants, a[i], *, &, ., ->, all arithmetic, bitwise, shift and comparison operators, !, ~, +, -, casts) for which C99 6.5 and 6.3 give a type is accepted, whatever the values are and even where the value would be undefined; the compiled expression has exactly that type, is an lvalue if it designates an object, and code compiled before is kept. An expression whose operands violate the constraints of an operator (pointer + pointer, arithmetic on void *, < between pointers to different types, member of a non-struct, unknown member, * of an integer, operators on structs, ...), at any depth, is refused. sizeof an expression is the number of bytes of its type, of type unsigned long, and no code is generated for the operand. An assignment (=, compound, ++, --) is accepted exactly when the object is modifiable and the value may be assigned to it, what is stored has the type of the object, and so has the result.", "quantifier": "for all such expressions of any depth, all declared types and struct layouts, and all states of the compiler before", "why_tests_cant": "each operator distinguishes constants, names, addresses and dereferenced pointers, and each pair of operand types; the combinations over nested expressions are unbounded, and a wrong type of an inner expression shows only in an outer one.", "anchors": ["src/parser/eval.c:417-482", "src/parser/eval.c:512-829", "src/parser/eval.c:830-975", "src/parser/eval.c:977-1186", "src/parser/eval.c:1212-1243", "src/parser/eval.c:1313-1488", "src/parser/expression.c:150-252", "src/parser/expression.c:317-404", "src/parser/parse.c:166-192", "src/parser/eval.c:1639-1800"]}

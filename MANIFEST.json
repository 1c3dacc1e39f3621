{
 "claims": [
  {
   "property": "C01",
   "status": "proved",
   "theorems": [
    "C01_hash_table_is_finite_map"
   ],
   "note": "Table of any capacity; fewer than 2^29 insertions so that size arithmetic does not overflow the int used for capacities."
  },
  {
   "property": "C02",
   "status": "proved",
   "theorems": [
    "C02_interning_is_injective_and_stable"
   ],
   "note": "malloc is an oracle returning distinct addresses."
  },
  {
   "property": "C03",
   "status": "proved",
   "theorems": [
    "C03_deque_is_list"
   ],
   "note": "At most 2^30 pushes, so the int capacity does not overflow."
  },
  {
   "property": "C04",
   "status": "proved",
   "theorems": [
    "C04_printed_literal_denotes_bytes",
    "C04_printed_length"
   ],
   "note": "Bytes 0..255; stream output is the list of characters."
  },
  {
   "property": "C05",
   "status": "partial",
   "theorems": [
    "C05_groups_partial",
    "C05_selected_lines",
    "C05_no_assertion",
    "C05_skipped_condition_refuted",
    "C05_unterminated_refuted"
   ],
   "note": "Output of the preprocessor is exactly that of C 6.10.1 for every nesting, for any meaning of conditions, directives and text; refuted part: conditions of skipped groups are still read (defined without identifier is an error), a missing #endif is accepted."
  },
  {
   "property": "C06",
   "status": "partial",
   "theorems": [
    "C06_value_partial",
    "C06_terminates",
    "C06_or_chain_refuted",
    "C06_eq_chain_refuted",
    "C06_short_circuit_refuted",
    "C06_not_type_refuted",
    "C06_shift_type_refuted",
    "C06_constant_type_refuted",
    "C06_keyword_refuted",
    "C06_macro_name_refuted",
    "C06_trailing_tokens_refuted",
    "C06_no_crash_refuted",
    "C06_syntax"
   ],
   "note": "Value proved for all expressions of the C grammar outside the cases listed in predicate plain, each of which is refuted: chained |, chained ==, unevaluated operands, type of !, of shifts and of octal/hex constants, keywords, self-referential macros, trailing tokens."
  },
  {
   "property": "C07",
   "status": "partial",
   "theorems": [
    "C07_line_partial",
    "C07_safe",
    "C07_buffer",
    "C07_file_partial",
    "C07_query_refuted",
    "C07_queries_refuted",
    "C07_trigraph_splice_refuted",
    "C07_literal_refuted",
    "C07_end_refuted"
   ],
   "note": "Proved: a logical line is read as phases 1-3 prescribe, memory safety and newline counts for every buffer content, and independence from buffer boundaries for every file ending in a newline. Excluded from the line theorem, each with a refutation: ?? that is no trigraph outside literals and comments, ??? anywhere, ??/ before a newline. Also refuted: a newline in a literal after splicing is rejected; a file without final newline is read within its buffer."
  },
  {
   "property": "C08",
   "status": "partial",
   "theorems": [
    "C08_longest_match_partial",
    "C08_nothing_lost",
    "C08_spec_deterministic",
    "C08_multichar_refuted",
    "C08_high_byte_refuted",
    "C08_unterminated_refuted",
    "C08_digraph_wide_refuted",
    "C08_space_count_refuted"
   ],
   "note": "Full for lines of ASCII characters with single-character constants; false for bytes above 127, multi-character constants, digraphs, wide literals, unterminated strings and 65536 spaces."
  },
  {
   "property": "C09",
   "status": "proved",
   "theorems": [
    "C09_integer_constants",
    "C09_only_integer_constants",
    "C09_no_assertion"
   ],
   "note": "Every integer constant spelling; strtoul is modelled from its C library specification."
  },
  {
   "property": "C10",
   "status": "partial",
   "theorems": [
    "C10_stringify_spells_argument_partial",
    "C10_stringify_stray_backslash_refuted"
   ],
   "note": "Proved for all arguments without a backslash token outside literals; refuted for two stray backslashes."
  },
  {
   "property": "C11",
   "status": "partial",
   "theorems": [
    "C11_history",
    "C11_accepted",
    "C11_same_definition",
    "C11_define_line",
    "C11_spacing_refuted",
    "C11_parameter_names_refuted",
    "C11_variadic_refuted"
   ],
   "note": "Histories: proved in full. Redefinition: accepted exactly if name, kind, number of parameters and tokens agree, so equal definitions of C are accepted; the converse is false (spacing, parameter names and variadic are not compared)."
  },
  {
   "property": "C12",
   "status": "partial",
   "theorems": [
    "C12_replacement_partial",
    "C12_complete",
    "C12_deterministic",
    "C12_termination_refuted",
    "C12_open_call_refuted",
    "C12_empty_paste_refuted",
    "C12_trailing_paste_refuted",
    "C12_extra_argument_refuted",
    "C12_object_hash_refuted"
   ],
   "note": "Agrees with Prosser's algorithm (and so terminates) when there is no # or ##, arguments mention no macros, and invocations do not reach out of a macro. Termination for all tables is false: arguments are expanded with an empty stack of names."
  },
  {
   "property": "C13",
   "status": "proved",
   "theorems": [
    "C13_struct",
    "C13_no_overlap",
    "C13_union",
    "C13_array",
    "C13_array_overflow_refuted",
    "C13_anonymous_struct_refuted"
   ],
   "note": "All nested struct/union/array types whose sizes fit in 63 bits. Beyond that the size wraps (refuted), and C11 anonymous structs are laid out member by member (refuted)."
  },
  {
   "property": "C14",
   "status": "partial",
   "theorems": [
    "C14_fields",
    "C14_union_fields",
    "C14_zero_width_refuted",
    "C14_straddle_refuted",
    "C14_anonymous_union_refuted"
   ],
   "note": "Disjointness, containment in the storage unit, alignment of ordinary members and exact acceptance for all declaration lists without anonymous members. The zero-width clause and the ABI rule on straddling are false of the code and refuted; so is disjointness after an anonymous union with a bit-field."
  },
  {
   "property": "C15",
   "status": "proved",
   "theorems": [
    "C15_common_type",
    "C15_promotion",
    "C15_default_argument_promotion"
   ],
   "note": "All arithmetic types with any qualifiers."
  },
  {
   "property": "C16",
   "status": "proved",
   "theorems": [
    "C16_conversion"
   ],
   "note": "Integer constants of all types; conversions to and from floating types and pointers are not modelled."
  },
  {
   "property": "C17",
   "status": "partial",
   "theorems": [
    "C17_binary",
    "C17_shift",
    "C17_complement",
    "C17_negation",
    "C17_division_by_zero",
    "C17_no_crash_partial",
    "C17_no_crash_refuted",
    "C17_shift_crash_refuted"
   ],
   "note": "Agreement with C is proved for all operators, types and values. The no-crash part is false for long operands (LONG_MIN / -1, overflow) and for oversize shifts: see the refuted theorems."
  },
  {
   "property": "C18",
   "status": "partial",
   "theorems": [
    "C18_store_load_partial",
    "C18_load",
    "C18_assign_value",
    "C18_narrow_store_refuted",
    "C18_narrow_load_refuted",
    "C18_full_width_refuted"
   ],
   "note": "Holds for fields inside the first sizeof(declared type) bytes of their unit and narrower than 64 bits; refuted otherwise (witnesses laid out by the C14 model)."
  },
  {
   "property": "C19",
   "status": "proved",
   "theorems": [
    "C19_lookup",
    "C19_block",
    "C19_duplicate_refuted",
    "C19_extern_refuted"
   ],
   "note": "Scopes nested less than 32768 deep (struct symbol keeps the depth in a short). Types are abstract: is_function, type_equal and sym_apply_type are parameters."
  },
  {
   "property": "C20",
   "status": "partial",
   "theorems": [
    "C20_names_partial",
    "C20_statics_partial",
    "C20_many_strings_refuted"
   ],
   "note": "Less than 32768 symbols of each kind; beyond that names collide (refuted)."
  },
  {
   "property": "C21",
   "status": "proved",
   "theorems": [
    "C21_definitions",
    "C21_once",
    "C21_symbols",
    "C21_extern_refuted"
   ],
   "note": "Which functions are referenced is a parameter, as it is at the end of the input."
  },
  {
   "property": "C22",
   "status": "partial",
   "theorems": [
    "C22_lowering_partial",
    "C22_accepted",
    "C22_case_refuted"
   ],
   "note": "All statements incl. goto and labels, over any lawful domain of values. Excluded by fine_s: case constants that change when converted (refuted), the expressions refuted in C23 and C46, void expressions used as values."
  },
  {
   "property": "C23",
   "status": "partial",
   "theorems": [
    "C23_and_or_partial",
    "C23_conditional_partial",
    "C23_not_partial",
    "C23_not_refuted"
   ],
   "note": "Any operands outside the defects of C46. ! of a relational operator only if all values compare; refuted with NaN."
  },
  {
   "property": "C24",
   "status": "partial",
   "theorems": [
    "C24_result_partial",
    "C24_exit_partial",
    "C24_forever_partial",
    "C24_prefix_partial",
    "C24_ends_partial",
    "C24_escape_refuted",
    "C24_part_refuted",
    "C24_self_refuted",
    "C24_param_refuted",
    "C24_ends_refuted"
   ],
   "note": "The whole optimizer (empty blocks, liveness, dead stores, chained assignments) is a refinement for functions that are fit (scalars assigned whole, no pointer assigned and then assigned through with its own type, no array of pointers in a struct parameter) when called functions reach locals only through pointers they are given; each of these conditions is shown to be needed by a refutation. It ends (with a bound) unless empty blocks form a circle, as in for(;;);, which makes it run for ever."
  },
  {
   "property": "C25",
   "status": "partial",
   "theorems": [
    "C25_execution",
    "C25_termination",
    "C25_blocks",
    "C25_termination_refuted"
   ],
   "note": "Execution equivalence holds for every graph whenever the pass ends; the pass ends exactly when every jump leads out of empty blocks; termination on every function is refuted by for(;;);."
  },
  {
   "property": "C26",
   "status": "proved",
   "theorems": [
    "C26_execution",
    "C26_blocks"
   ],
   "note": "Statement code of a block is one abstract step; labels are taken to be distinct and resolved as C34 says."
  },
  {
   "property": "C27",
   "status": "partial",
   "theorems": [
    "C27_classify_partial",
    "C27_unaligned_refuted",
    "C27_bool_refuted"
   ],
   "note": "All complete scalar, struct and union types without _Bool members, members of small aggregates at multiples of their sizes. Refuted without those two hypotheses: struct { int x; int a[2]; } goes to memory, struct { _Bool b; } fails an assertion. Bit-fields and flexible arrays not in the source types."
  },
  {
   "property": "C28",
   "status": "partial",
   "theorems": [
    "C28_arguments",
    "C28_return_partial",
    "C28_variadic_refuted"
   ],
   "note": "Arguments: every signature for which code is generated (no failed assertion). Return: not for variadic functions that push registers, refuted. Moving results out of registers is not modelled."
  },
  {
   "property": "C29",
   "status": "partial",
   "theorems": [
    "C29_frame_partial",
    "C29_alignment",
    "C29_variadic_refuted",
    "C29_alignment_refuted"
   ],
   "note": "Not for variadic functions that push registers (refuted); alignment of 16 for locals refuted."
  },
  {
   "property": "C30",
   "status": "proved",
   "theorems": [
    "C30_bytes",
    "C30_copy",
    "C30_registers_partial",
    "C30_registers_refuted",
    "C30_push_partial",
    "C30_push_refuted"
   ],
   "note": "The memcpy sequence is proved for every size. Passing aggregates in registers or pushing them on the stack touches bytes outside the object for sizes such as 3 or 17 (refuted theorems)."
  },
  {
   "property": "C31",
   "status": "partial",
   "theorems": [
    "C31_encode_partial",
    "C31_accepts_partial",
    "C31_stream_partial",
    "C31_sub_refuted",
    "C31_mov_byte_refuted",
    "C31_movzlq_refuted",
    "C31_imm64_refuted",
    "C31_length_refuted",
    "C31_byte_register_refuted",
    "C31_byte_memory_refuted",
    "C31_x87_refuted",
    "C31_absolute_refuted"
   ],
   "note": "All operations, operand shapes, registers, displacements and immediates outside the listed defects (trouble), each refuted. The decoder covers the instructions used, written from the processor manual. Targets within 2 GB."
  },
  {
   "property": "C32",
   "status": "partial",
   "theorems": [
    "C32_written",
    "C32_layout",
    "C32_contents",
    "C32_objects_disjoint",
    "C32_align_refuted",
    "C32_second_refuted"
   ],
   "note": "One input file, without -g, from what the back end hands to the writer: proved that the file is written, that sections lie inside it, do not overlap and hold exactly what was written to them, objects at aligned offsets. That file offsets of sections are aligned is refuted, as is that a second input file is always compiled."
  },
  {
   "property": "C33",
   "status": "partial",
   "theorems": [
    "C33_symbols",
    "C33_boundary",
    "C33_info_refuted"
   ],
   "note": "Names, bindings, types, sections, values, sizes, order of symbols, and all relocations, for every sequence of declarations and definitions. The boundary in sh_info is right when there is a global symbol (or -fPIC); without one it is 0, refuted."
  },
  {
   "property": "C34",
   "status": "proved",
   "theorems": [
    "C34_jumps"
   ],
   "note": "Every jump of every function in an object file, forward or backward."
  },
  {
   "property": "C35",
   "status": "partial",
   "theorems": [
    "C35_bytes",
    "C35_fields_partial",
    "C35_fits_partial",
    "C35_order_partial",
    "C35_merge_refuted",
    "C35_ends_refuted",
    "C35_ends_other_refuted",
    "C35_order_refuted",
    "C35_twice_refuted",
    "C35_units_refuted",
    "C35_single_refuted",
    "C35_overlap_refuted"
   ],
   "note": "Without bit-fields, and initializers that write the same bits or disjoint ones, in full. With bit-fields of constant value: correct whenever no assertion fails, and no assertion fails for fields in order within 32-bit units. The rest is refuted: out of order or repeated fields, 64-bit units split at bit 32, a single field as wide as the object, a field followed at once by a member, values that are not constant, partial overlap."
  },
  {
   "property": "C36",
   "status": "partial",
   "theorems": [
    "C36_status_partial",
    "C36_status_refuted"
   ],
   "note": "Proved when fewer than 256 errors are counted and the linker ran to completion; refuted otherwise (256 errors, linker not started or killed give status 0)."
  },
  {
   "property": "C37",
   "status": "partial",
   "theorems": [
    "C37_rule",
    "C37_args",
    "C37_deterministic",
    "C37_table",
    "C37_rule_refuted",
    "C37_linker_refuted"
   ],
   "note": "Rules and whole command lines proved for all rule sets and argument vectors where no argument spells a bracket and optional parts are unambiguous; refuted without these conditions; -Wl, is unreachable."
  },
  {
   "property": "C38",
   "status": "partial",
   "theorems": [
    "C38_name",
    "C38_distinct_partial",
    "C38_distinct_refuted",
    "C38_overwrite_refuted",
    "C38_define"
   ],
   "note": "The name, the buffer bound and the macro line are proved for all paths; distinctness is refuted (same base name in two directories)."
  },
  {
   "property": "C39",
   "status": "partial",
   "theorems": [
    "C39_permitted_partial",
    "C39_accepted_partial",
    "C39_order",
    "C39_long_refuted",
    "C39_sign_refuted",
    "C39_storage_refuted"
   ],
   "note": "Proved for all specifier sequences where no long follows int or double and no signed/unsigned follows a type it does not combine with; these cases are refuted."
  },
  {
   "property": "C40",
   "status": "proved",
   "theorems": [
    "C40_stream",
    "C40_total"
   ],
   "note": "For all token streams, divisions into lines and orders of look-ahead and consumption; conversions of single literals are parameters (they are the subject of C41, C43, C09, C42)."
  },
  {
   "property": "C41",
   "status": "partial",
   "theorems": [
    "C41_literal_value_partial",
    "C41_literal_value_refuted",
    "C41_spec_deterministic"
   ],
   "note": "Full statement is refuted: a hexadecimal escape consisting of the digit 0 followed by x and a hexadecimal digit is read as a 0x prefix by strtol. Proved for every literal without that shape."
  },
  {
   "property": "C42",
   "status": "partial",
   "theorems": [
    "C42_floating_constants_partial",
    "C42_accepts_invalid_refuted"
   ],
   "note": "All C floating constants are accepted with the right type; the converse is false (08, 1f, 0x1.8 accepted). The floating value itself (strtod) is not modelled."
  },
  {
   "property": "C43",
   "status": "proved",
   "theorems": [
    "C43_char_constant",
    "C43_other_lengths"
   ],
   "note": "All character constants of the C grammar (no universal character names)."
  },
  {
   "property": "C44",
   "status": "partial",
   "theorems": [
    "C44_binary_partial",
    "C44_address_partial",
    "C44_shift",
    "C44_not",
    "C44_cast_partial",
    "C44_add_refuted",
    "C44_mul_field_refuted",
    "C44_bool_refuted",
    "C44_field_temporary_refuted",
    "C44_constant_pointer_refuted",
    "C44_address_cast_refuted"
   ],
   "note": "Proved for operands and targets as the front end makes them, with the exceptions the refutations show. Values that are undefined in C are excluded by the specification."
  },
  {
   "property": "C45",
   "status": "proved",
   "theorems": [
    "C45_value",
    "C45_branch",
    "C45_scalar"
   ],
   "note": "The way operands reach the compare instruction (loads, conversions) is not modelled."
  },
  {
   "property": "C46",
   "status": "partial",
   "theorems": [
    "C46_once_partial",
    "C46_conditional_refuted",
    "C46_arguments_refuted"
   ],
   "note": "Outside of constant conditions with a call in the chosen arm, and of calls of computed functions; both refuted. That a call has its own arguments is part of C22_lowering_partial (effects carry arguments)."
  },
  {
   "property": "C47",
   "status": "partial",
   "theorems": [
    "C47_caller_partial",
    "C47_callee_partial",
    "C47_alignment_refuted"
   ],
   "note": "Every argument byte is where the ABI puts it at the call, and is read from there by the callee, for types without _Bool in aggregates and without members at addresses that are not multiples of their size (see C27). Refuted: long double arguments on the stack are not aligned to 16."
  },
  {
   "property": "C48",
   "status": "partial",
   "theorems": [
    "C48_type_partial",
    "C48_one_type",
    "C48_restrict_refuted",
    "C48_parenthesis_refuted",
    "C48_hidden_refuted",
    "C48_const_array_refuted",
    "C48_inner_const_refuted",
    "C48_constraints_refuted"
   ],
   "note": "Partial: the declarators excluded by good and declarable, each of them refuted or listed at the theorem; no variable length arrays; specifiers of parameters are qualifiers and one type specifier."
  },
  {
   "property": "C49",
   "status": "partial",
   "theorems": [
    "C49_complete_partial",
    "C49_sound",
    "C49_terminates",
    "C49_unambiguous",
    "C49_grouping",
    "C49_same_meaning",
    "C49_unprototyped_refuted",
    "C49_literal_refuted",
    "C49_typedef_operand_refuted"
   ],
   "note": "Completeness asks that calls have as many arguments as the declared function has parameters, and that sizeof, ++ and -- do not stand directly before a compound literal; both restrictions are needed (refuted). Soundness is for the grammar extended by typedef names as operands and by conditional-expressions left of an assignment operator."
  },
  {
   "property": "C50",
   "status": "partial",
   "theorems": [
    "C50_complete_partial",
    "C50_plain",
    "C50_union_refuted",
    "C50_designated_last_refuted",
    "C50_index_refuted",
    "C50_back_refuted",
    "C50_last_then_name_refuted",
    "C50_comma_refuted",
    "C50_union_twice_refuted",
    "C50_anonymous_refuted"
   ],
   "note": "C50_complete_partial: for all types and initializers that meet the condition fine (BraceSpec.v), which says when an object without braces of its own may be left. C50_plain: without designators and unions nothing is asked for but that no comma follows an expression alone in braces. The refutations are initializers that C allows and that are rejected or stored elsewhere."
  },
  {
   "property": "C51",
   "status": "partial",
   "theorems": [
    "C51_arguments_partial",
    "C51_xmm_refuted",
    "C51_tail_refuted",
    "C51_deref_refuted",
    "C51_memcpy_refuted"
   ],
   "note": "For types without _Bool in aggregates and without members at addresses that are not multiples of their size (see C27, C47), when va_arg compiles (see C51_deref_refuted); objects in memory with room up to eightbytes (C51_tail_refuted), or temporaries in registers, except floating point ones for arguments on the stack (C51_xmm_refuted). The instructions that load pointers to the list and the object are not modelled."
  },
  {
   "property": "C52",
   "status": "partial",
   "theorems": [
    "C52_text_partial",
    "C52_accepts_partial",
    "C52_agree_partial",
    "C52_data",
    "C52_scale_refuted",
    "C52_null_refuted",
    "C52_suffix_refuted",
    "C52_long_name_refuted",
    "C52_agree_refuted"
   ],
   "note": "Missing: the instructions of misspelt (refuted), those of trouble (C31) for agreement; symbol directives and sections are not modelled."
  },
  {
   "property": "C53",
   "status": "partial",
   "theorems": [
    "C53_equal_partial",
    "C53_compatible_partial",
    "C53_declared_twice_partial",
    "C53_refused_partial",
    "C53_settled_partial",
    "C53_after_definition_partial",
    "C53_compatible_is",
    "C53_sign_refuted",
    "C53_dots_refuted",
    "C53_promotion_refuted",
    "C53_const_elements_refuted",
    "C53_structs_refuted",
    "C53_valid_refused_refuted",
    "C53_after_definition_refuted",
    "C53_composite_refuted",
    "C53_self_reference_refuted"
   ],
   "note": "All declarators of C48 and all types in the table. Partial: distinct structs must differ in kind, size or number of members; types returned by functions and elements of arrays must be compatible only with themselves; rejection is up to signedness, '...', one missing prototype, length 0 and qualifiers of elements of arrays without length. What happens outside is in the refutations."
  },
  {
   "property": "C54",
   "status": "proved",
   "theorems": [
    "C54_object",
    "C54_value",
    "C54_read",
    "C54_lvalue_refuted",
    "C54_address_of_value_refuted",
    "C54_member_of_integer_refuted",
    "C54_difference_refuted",
    "C54_large_refuted"
   ],
   "note": "All unary and binary operators on integers and pointers; && || ?: and the comma (C23), bit-fields, functions, string literals, VLAs, bool and floating types are left out of the expressions. What is refuted lies outside the statement: expressions C rejects are accepted or fail an assertion, and structs of 2 GB or more."
  },
  {
   "property": "C55",
   "status": "proved",
   "theorems": [
    "C55_assign",
    "C55_value",
    "C55_struct",
    "C55_sequence",
    "C55_integer_to_pointer_refuted",
    "C55_lvalue_refuted",
    "C55_value_refuted"
   ],
   "note": "On the model of C54, with all operators of compound assignment, and for sequences of statements. Left out: bit-fields (C18), bool, floating types, operands with effects. The value of the expression is shown when the assignment does not change a pointer on the way to its own target; otherwise it is refuted."
  },
  {
   "property": "C56",
   "status": "partial",
   "theorems": [
    "C56_accepted",
    "C56_refused",
    "C56_values",
    "C56_assignment",
    "C56_assignment_refused",
    "C56_sizeof",
    "C56_difference_refuted",
    "C56_sizeof_incomplete_refuted"
   ],
   "note": "Every expression and assignment with a type is accepted with that type, every one without is refused, what C54 says of values agrees with the types, and sizeof is the width, for all expressions. Not so for the operand of & and the left side of = (C54, C55: values are taken for lvalues) and for subtraction of pointers to different types, which is accepted (refuted); sizeof of void or of an undefined struct is 0 (refuted). Floating types, functions, bit-fields, ?:, && and || are not in this model."
  }
 ]
}
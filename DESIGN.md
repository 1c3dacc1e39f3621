# Formal model of lacc: design

Everything lives in `rocq/theories` (logical name `Verif`).  For an area `X`:

* `XModel.v`  executable Gallina model; every definition cites the C source it models;
* `XSpec.v`   (or a `Spec` part at the head of the proofs file) an independent specification,
  written from the C standard / ABI / ELF documents without using model helpers;
* `XProofs.v` lemmas;
* `XProps.v`  only the property theorems (`Theorem ... exact lemma.`), an `Example` showing the
  hypotheses are met by a non-trivial case, and `Print Assumptions`.

Names: `Cnn_..._partial` proves part of property Cnn (what is missing is said in the comment
above it); `Cnn_..._refuted` proves that the full statement is false of the faithful model and
gives the witness, i.e. a defect in the unchanged code.

## Plan per property

| id  | what is modelled | how it is proved |
|-----|------------------|------------------|
| C01 | entry array with linear probing, tombstones, doubling | invariant + refinement to an association function, induction on operation lists |
| C02 | intern table (chained/probed), 16-byte handles short/long | invariant over registration histories; handles equal iff bytes equal |
| C03 | ring buffer deque with growth | refinement to `list` |
| C04 | `printchar`/`fprintstr`, escape decoder | round trip by induction on the bytes |
| C05 | condition stack machine over a line stream | refinement to a recursive semantics of group trees |
| C06 | recursive descent evaluator with fuel | equality with the C value for all expressions outside a predicate, each excluded case refuted |
| C07 | `read_line` over bytes, buffer refilling of `initial_preprocess_line` | equals phases 1-3; safety, newline count and independence of the buffer for all inputs; refutations |
| C08 | longest match scanner | cover + maximality by analysis of the scanner |
| C09 | digit loop with wrap/overflow check, suffix table | comparison with mathematical value and the C99 table |
| C10 | `stringify` writers | round trip through the escape reader |
| C11 | macro table over C01's map | induction on histories |
| C12 | `expand_line` with the expand stack | simulation of Prosser's algorithm (hide sets) on a fragment; refutation of termination |
| C13 | member offset loop and `type_seal` | induction on member lists with an offset invariant |
| C14 | bit-field packing | as C13 at bit level; refutations for the zero-width and shrinking cases |
| C15 | the two conversion functions | finite type domain, all cases against a rank-based spec |
| C16 | `convert` on 64-bit unions | `Z` modular arithmetic |
| C17 | each folding operator with C host semantics incl. UB outcome | `Z` arithmetic; refutation for UB operands |
| C18 | mask/shift sequences | bitwise extensionality (`Z.testbit`) |
| C19 | symbol table with scope stack | invariant relating every suffix of the scope stack to the trace of declarations |
| C20 | name generation with `short n` | injectivity below the bound, collision witness |
| C21 | yield cursor, inline list | induction on histories |
| C22 | block builder for statements (`CfgModel`), executing its graphs | small-step semantics with continuations (CfgSpec); a graph that fits a statement (CfgStmt) simulates it, and the graph built fits (CfgBuild and others) |
| C23 | block builder for `&&`,`||`,`?:`, comparison negation | the lowering of expressions (CfgExpr, CfgCond), seen through `return e;`; NaN refutation |
| C24 | the optimizer (`OptModel`); execution over byte memory, local objects, calls to the outside (`OptSpec`) | `st_out` bounds liveness (`sound`); two memories that agree on live symbols; each edit refines; empty blocks by stuttering |
| C25 | `skip_empty_blocks` | execution equivalence; non-termination witness |
| C26 | `compile_block` recursion | program-counter simulation |
| C27 | `classify` and helpers on type trees | equality with an ABI spec on size-aligned types; refutations |
| C28 | caller / callee register and stack assignment | lock-step induction on argument lists |
| C29 | frame offset arithmetic | `lia` on interval invariants; refutation for variadic functions |
| C30 | chunk loop | induction on remaining bytes |
| C31 | `encode` and the per-instruction encoders (EncModel) | independent x86-64 decoder (EncSpec), round trip: open fields (displacement, immediate) are proved by arithmetic, the finite rest by `vm_compute` over all registers, widths and operand shapes; refutations |
| C32 | the whole of `elf.c` (without `-g`) on a byte level, from declarations, objects and functions to the file | simulation by an abstract state, then reading the bytes back as the ELF specification says; refutation for alignment |
| C33 | string/symbol/relocation tables | invariants over operation lists |
| C34 | pending displacement list and patching | invariant over emission lists |
| C35 | init assignment list post-processing (InitModel) | bit-level specification: each bit written once in order, last initializer wins, rest zero; refutations |
| C36 | exit code computation | arithmetic; refutations |
| C37 | rule matcher on strings | declarative matching relation |
| C38 | suffix replacement on strings | string lemmas; collision witness |
| C39 | specifier accumulator | permutation argument; refutation |
| C40 | look-ahead concatenation loop | induction on the token stream |
| C41 | escape decoder and literal scanner | induction on a declarative literal grammar; refutation for `\\x0x41` |
| C42 | floating constants: what strtod consumes, suffix | comparison with the C99 grammar; refutations |
| C43 | `strtochar`, `convert_preprocessing_char` | as C41, with one character |
| C44 | `compile_assign` for integers and pointers on operands of the intermediate representation, down to loads and stores; a machine with registers and byte memory | each load, store and operation by bounds and congruences modulo 2^(8 w); scratch registers are the only others written; refutations |
| C45 | `compile_compare`, `set_compare_value`, jumps of `compile_block` on processor flags | `Z` arithmetic on flags |
| C46 | as C22, calls and assignments | counting effects of the semantics; refutations |
| C47 | as C28, against the ABI (`SysvSpec`) | induction on argument lists; the locations of the ABI are those of the moves |
| C48 | `declarator` and what it calls, on a table of types | induction on the tokens of a declarator; types of the compiler denote types of C |
| C49 | the functions of `expression.c` from `expression` to `primary_expression`, on tokens | completeness by induction on trees of the grammar (with what may follow them), soundness by induction on the steps of the parser; refutations |
| C50 | the functions of `initializer.c` that read an initializer, on tokens | completeness against a specification by paths of subobjects (6.7.8#17-20), by induction on types and on the list; refutations |
| C51 | `va_start`, `va_arg` on the machine of C28 | an invariant of the list (3.5.7 of the ABI), set up by `enter` and `va_start`, advanced by each `va_arg`, kept by everything that leaves its memory alone; refutations |
| C52 | the text of `-S`: instructions of C31, data directives | a reader of the AT&T syntax (mnemonic, suffix, operands, strings) returns the instruction of `asked` (C31), hence text and bytes agree; refutations |
| C53 | `type_equal`, `is_compatible`, `sym_apply_type` on the type table of C48 | equality of table entries is equality of the types they denote; `is_compatible` is `compat Tight`, between C's relation and a looser one; two declarators read by C48's parser, then applied: taken and composed, or refused; the table stays tidy |
| C54 | expressions of integers, objects and pointers, with all operators but `&&`, `\|\|`, `?:` and the comma, to operands and statements of the intermediate code, with a meaning for both over memory | `compile` gives code that runs, leaves earlier temporaries alone and ends with an operand at the address, or with the value, that an independent semantics in addresses and integers gives; by induction with an invariant on operands |
| C55 | assignments (`=`, all compound ones, `++`, `--`) to integers, pointers and structs, over the model of C54 | after the statements and the store, the designated object holds the converted value (read back from its bytes), all other bytes are as before, and the result has the value stored, or the old one for postfix |
| C56 | every expression and assignment of the models of C54 and C55: typing rules of C99 6.3, 6.5 as a function of its own | what has a type is accepted with that type whatever the values, what has none is refused, `sizeof` is the number of bytes and generates nothing | induction on the expression, with the invariant of operands of C54 but without values |

## Trusted base

* The Coq 8.16.1 kernel (and its VM, used by `vm_compute`).
* The reading of the C sources: the code is not executed; models are tied to it by the citations.
* Axioms: none.  See "Assumptions".

## Assumptions

`Print Assumptions` of every property theorem says "Closed under the global context": no axiom of
the standard library is used by a theorem.  A whole-library check (`coqchk -o`, `vcheck`) lists the
constants `Coq.ssr.ssrunder.Under_rel.*`, which come with the standard library files loaded by
`lia` and are not used by our theorems.

## Defects found (theorems `..._refuted`)

* C05: conditions in skipped groups are read (`#if 0`, `#if defined 3` is an error); a missing `#endif` is accepted.
* C06: chained `|` and `==`, operands that must not be evaluated, the types of `!`, `<<`, `>>` and of constants in
  `#if`, some keywords, self-referential macro names, trailing tokens; division LONG_MIN / -1 in the compiler.
* C07: outside literals, the last character before `??x` (no trigraph) is lost, `???=` loses a question mark, and `??/`
  before a newline does not splice; a literal with a newline in it is accepted after `\\`; a file that ends
  without a newline in a comment is read outside the buffer.
* C08, C42: see the comments at the theorems in `TokenizeProps.v` and `NumberProps.v`.
* C10: a stray backslash in a macro argument is an error although the result would be a literal.
* C11: redefinitions that differ in spacing, parameter names or `...` are accepted.
* C12: `#define h(x) x`, `#define a h(b)`, `#define b h(a)`: expanding `a` never ends.  A call that ends outside
  the macro it begins in, two empty operands of `##` in a row, and `##` at the end of a two token
  replacement list read outside the token array.  `f(1,)` is accepted for one parameter.  `#` is
  rejected in object-like macros.
* C13: array sizes wrap modulo 2^64; C11 anonymous structs are laid out member by member.
* C14: a zero-width field does not always start a new unit; fields may cross a boundary of their
  declared type; a member after an anonymous union with a bit-field overlaps the union.
* C17: LONG_MIN / -1 and out-of-range shifts in constants are undefined behaviour of the compiler.
* C18: a bit-field whose declared type is narrower than its unit (`int a:20; short b:10;`) loses stores,
  or is read at the wrong place (`long a:40; int b:10;`); 64 bit wide fields hit an assertion.
* C19: two declarations of a name in one block are accepted; `{ extern int x; } int x;` makes two symbols, and both
  are handed to the back end (C21).
* C20: numbers are truncated to short: the first and the 65537th string literal have the same name.
* C22: a case constant is not converted to the type of the controlling expression: `switch (1) { case 4294967297L: ... }` does not match.
* C23: `!(a >= b)` is compiled as `b > a`: 0 instead of 1 if one is a NaN.
* C46: `1 ? f(5) : 0` calls `f(5)` and then `f` without its argument; `f(1)(2)` calls `f(1, 2)` and the result without arguments.
* C25: the optimizer does not end on `for (;;) ;`.
* C30: aggregates passed in registers or on the stack are read (and written) in whole words: bytes past a
  3-byte or 17-byte struct are touched.
* C27: a member that is not at a multiple of its size sends a small struct to memory (`struct { int x; int a[2]; }`);
  `_Bool` members fail an assertion.
* C28, C29: in a variadic function that keeps a temporary in a callee saved register the register save area is on top of
  the pushed registers; a call that passes a floating point argument clobbers `%rbx` (`C28_variadic_refuted`,
  `C29_variadic_refuted`). Locals of 16 byte alignment are at multiples of 8 (`C29_alignment_refuted`).
* C47: a `long double` argument on the stack may be at an odd multiple of 8.
* C31 (`trouble` in EncSpec lists them exactly): `sub mem, reg` is encoded with operands swapped; `movb $5, %cl` takes three more bytes; `movzlq` moves
  16 bits; 64-bit immediates of `cmpq`, `testq` have eight bytes (more than 15 in all with a long address); `%sil`, `%dil`,
  `%spl`, `%bpl` are encoded as `%dh`, ...; `cmpb $imm, mem` is an invalid opcode; x87 registers are encoded by number, not by
  position; absolute addresses fail an assertion. The code generator uses immediates in `cmp` below 8 bytes only and `sub` between
  registers only, so the first few need inline assembly; `fstp` after a comparison of `long double` does not.
* C24: a local whose address is in a global (or in an object a called function can get at) loses its stores before a call
  that passes no pointer (`g = &x; x = 5; return h();`); a store to part of a scalar kills the store to all of it
  (`x = 0x01020304; *(char *)&x = 0;`); `p = q; *(void **)p = p;` becomes a store through `p` before it is set; an array of
  pointers in a struct passed by value does not keep what it points at; `for (;;) ;` makes the compiler run for ever.
  By reading only: `va_arg` through a pointer to a local list is not a use of the list.
* C32: `elf_chain_offsets` pads by `offset % align` instead of up to a multiple, so sections are not aligned in the file; with
  two input files the capacities of the first are taken for those of the second (assertion).
* C33: without global symbols `sh_info` of the symbol table is 0.
* C35: bit-fields initialized out of order or twice (`{.b = 1, .a = 2}`), `struct { int a : 32; }`,
  `struct { int a : 16, b : 16; long c : 10; }`, `struct { int a : 24; char c; }` fail assertions; `struct { int a : 4, b : 4, c : 4; } x = { v, 1, 2 };`
  stores wrong bits; `{ .a = v, .a.x = 1 }` drops the rest of `v`.
* C36: with 256 errors the status is 0; so it is when the linker cannot be started or is killed.
* C37: `-Wl,...` is taken by the rule `-W<` and ignored; `-f[no-]PIC` typed literally matches its rule (the callback
  then asserts); optional parts are taken greedily.
* C38: `lacc -c a/x.c b/x.c` writes `x.o` twice; `lacc -c -x c x.o` writes over its input.
* C39: `int long`, `double long` are rejected; `float signed`, `long double unsigned`, `enum e unsigned` and a
  missing type specifier are accepted; a repeated `inline` is an error; `register static` is accepted.
* C41: `"\x0x41"` is read as one character.
* C44: an operand in a register that is also the target loses a constant addend (`t = t + 3` adds `%rax`); a bit-field on the left of `*`
  multiplies its whole unit; `(_Bool) n` keeps the low byte (256 gives 0, 2 gives 2); storing a temporary to a bit-field destroys it;
  `*(int *) 4096` as an operand reads a symbol where there is a constant; `(int) &x` fails an assertion. By reading only: the operands of
  `*`, `/`, `%`, `&`, `|`, `^`, `<<`, `>>` and `~` that are bit-fields are not promoted (`s.u3 * -1` is unsigned);
  a store through `((struct S *) 4096)->member` fails an assertion unless the member is the first.
* C48: `int * restrict * p` loses `restrict`; `int ([3])` is a function, and so is `int (T)` where it should declare `T`;
  `const A x`, with `A` an array, is a parameter that points to no `const`; `f(int (a[const 3]))` is rejected; arrays of functions
  (`int (a[3])(void)`) and of arrays without a length are accepted.
* C49: arguments for a function declared as `int g();` are refused (also after its implicit declaration in C89); `sizeof (int) { 1 }` and
  `++(int) { 1 }` are refused; a typedef name is accepted as an operand (`T + 1`). By reading only: `_Alignof()` is accepted.
* C50: initializers that C allows and lacc does not read rightly (BraceProps.v): a union without braces swallows the comma after its
  element (`struct { union { int a; float f; } u; int b; } x = {1, 2}` is rejected); after the designated last member of a nested struct
  the next element is looked for past its end (`{.s.b = 1, 2}`: assertion); `[` after the first member of a struct without braces is
  taken for an index into the next member (`struct { int a, b[2]; } x[2] = {1, [1] = {5}}` stores 5 in `x[0].b[1]`); going back in an
  array (`{[2] = 1, [0] = 5, 6}`) and naming a member after the last one (`{1, 2, .a = 3}`) are rejected, and so is `int a[2] = {{1,}, 2}`;
  designators into the same member of a union lose the first; members of anonymous structs in anonymous unions are given the wrong
  elements.
* C51: `va_arg` of a double that was passed on the stack, with a temporary in `%xmm8` to `%xmm15` for its value, loads a general register
  (`C51_xmm_refuted`; the encoding of the instruction is that of C31, `C51_general`); the registers are stored with 8 (or 4) bytes
  into shorter structs, over what is beside them (`C51_tail_refuted`); `*p = va_arg(ap, int)` in a function with a parameter `va_list ap`
  fails an assertion (`C51_deref_refuted`), and by reading only, so does a list that is a member of a struct; `memcpy`, called for structs of
  more than 64 bytes, may change temporaries in `%xmm8` to `%xmm15` (`C51_memcpy_refuted`).
* C52: an address with an index and no scale, which `asm` statements can have, is printed with the scale 0 (`C52_scale_refuted`), an address
  that is zero as nothing (`C52_null_refuted`); an integer and a register of different widths give `addlq` (`C52_suffix_refuted`); long names
  are written past the end of an array of 256 (`C52_long_name_refuted`); text and object file differ for `movq` to `%xmm8` to `%xmm15`
  (`C52_agree_refuted`).  `call` of an address in memory is printed without `*`; the compiler does not use it.
* C53: signedness is not compared (`int x; unsigned x;`, `C53_sign_refuted`), nor `...` (`C53_dots_refuted`), nor what a prototype says when
  the other declaration has none (`int f(); int f(char);`, `C53_promotion_refuted`), nor qualifiers of the elements when an array has no
  length (`C53_const_elements_refuted`); structs with equal members are one type (`C53_structs_refuted`), and comparing two that refer to
  themselves never ends (`C53_self_reference_refuted`; a cast between pointers to them does the same).  Valid and refused: functions that
  return `int (*)[]` and `int (*)[3]`, arrays of those (`C53_valid_refused_refuted`), and after a definition any declaration whose type is
  not the same, as `int a[3] = {0}; extern int a[];` (`C53_after_definition_refuted`).  What a parameter's type knows is lost when the
  function is declared again (`C53_composite_refuted`).
* C54: `&x`, `&*p`, `a + 1` for an array `a`, and `(long) p` keep the flag of an lvalue and can be assigned to (`C54_lvalue_refuted`);
  `& &*p` and `&(long) p` are the address of `p`, `& &x` fails an assertion (`C54_address_of_value_refuted`), and so does `i.m` for an
  integer (`C54_member_of_integer_refuted`); pointers to different types are subtracted (`C54_difference_refuted`); the offset of a
  member is cut to 32 bits when its address is taken through a pointer (`C54_large_refuted`).
* C55: an `int` assigned to a pointer (a warning only) is read as eight bytes, four of them of its neighbour
  (`C55_integer_to_pointer_refuted`); `(long) p = 5` is accepted and changes `p` (`C55_lvalue_refuted`); the value of an assignment is
  read again through the pointer, so `p->next = q` for a `p` that points to itself has the value `q->next` (`C55_value_refuted`).
* C56: `p - q` for pointers to different types is accepted (`C56_difference_refuted`); `sizeof *v` for a `void *v` or a pointer to
  an undefined struct is 0 instead of a diagnostic (`C56_sizeof_incomplete_refuted`).

## What is modelled

By model file (`rocq/theories/*Model.v`); line numbers are at the definitions.

| model | functions of /repo |
|---|---|
| HashModel | `src/util/hash.c`: insertion, lookup, removal, growth |
| DequeModel | `include/lacc/deque.h`: push, pop, access, compaction |
| StrtabModel | `src/preprocessor/strtab.c`: interning, concatenation; `String` handles |
| LineModel | `input.c`: `read_comment`, `read_line_comment`, `read_trigraph`, `read_literal`, `read_line`, `initial_preprocess_line`; `fread` as taking a prefix of the file |
| TokModel, TokenizeModel | `tokenize.c`: `tokenize` and what it calls (operators, identifiers, numbers, literals) |
| EscModel | `tokenize.c`: escape sequences, string and character conversion; `string.c`: `fprintstr` |
| NumberModel | `tokenize.c`: `convert_preprocessing_number`, suffixes, type of a constant (the value of a floating constant is not) |
| StringifyModel | `macro.c`: `stringify` and what it calls |
| MacroModel | `macro.c`: `define`, `undef`, `macrocmp`, `paste`, `read_args`, `expand`; `directive.c`: `preprocess_define` (not: `__LINE__` and the other builtin macros, invocations over several lines) |
| CondModel | `directive.c`: the state stack and the dispatch of directives; `preprocess_line` as far as groups go |
| IfModel | `directive.c`: the expression evaluator |
| JoinModel | `preprocess.c`: `add_to_lookahead`, `is_lookahead_ready`, `peek`, `peekn`, `next` |
| TypeModel, LayoutModel | `typetree.c`: sizes, alignment, members, bit-fields, conversions |
| EvalModel | `eval.c`: folding of integer operators and casts (not: floating point) |
| DeclspecModel | `declaration.c`: `declaration_specifiers`; `typetree.c`: `type_set_const` and the like |
| ArithModel | `compile.c`: `emit_load`, `load_field`, `load_int`, `load`, `load_cast`, `bitwise_imm_reg`, `store_op`, `store`, `operand_equal`, `compile_add`, `_sub`, `_not`, `_mul`, `_div`, `_mod`, `_bitwise`, `_shl`, `_shr`, `_cast`, `compile_assign`, for operands of integer or pointer type; and the instructions they use, as a machine (not: floating point, structs, calls; comparisons are in CmpModel; flags) |
| DeclModel | `declaration.c`: `declarator`, `parameter_declarator`, `direct_declarator`, `pointer`, `array_declarator`, `array_param_qualifiers`, `parameter_list`, `identifier_list`; `typetree.c`: what creates and changes types (not: variable length arrays; the specifiers of a parameter are qualifiers and one specifier; a program has fewer than 32768 types) |
| GramModel | `expression.c`: `primary_expression`, `postfix`, `postfix_expression`, `unary_expression`, `cast_expression`, the binary operators, `conditional_expression`, `assignment_expression`, `expression`: which operations are made on which operands (not: types, except for the number of parameters of what is called; builtin functions; the keywords of a type and an initializer are one token each) |
| SymtabModel | `symtab.c`: scopes, `sym_add`, `sym_name`, `yield_declaration`; `parse.c`: order of definitions |
| FieldModel | `compile.c`: `load_field`, the field part of `store_op`; `eval.c`: `assign_field` |
| CfgModel | `expression.c` from the conditional operator down to calls, `statement.c` (statements, not declarations and inline assembly), `eval.c`: `append_statement`, `eval`, `eval_expression_statement`, `eval_return`, `eval_assign`; `parse.c`: blocks; `declaration.c`: `ensure_main_returns_zero`; executing graphs, after `compile_block`. Over any domain of values (CfgSyntax). Not: pointers, members, arrays, bit-fields, structures, `sizeof`, compound literals; conversions of operands are part of the operators |
| SkipModel | `optimize.c`: `skip_empty_blocks`, `traverse`, `serialize` |
| OptModel | `liveness.c`, `transform.c`, `optimize.c`: all of the optimizer, from `optimize` down, on one array of statements and numbered nodes (not: inline assembly, whose functions are left alone, variable length arrays as something that has a meaning, `volatile`, which the optimizer ignores) |
| CopyModel | `compile.c`: `slice_type`, `emit_memcpy`, `push`, `move_to_from_registers` |
| CmpModel | `compile.c`: `compile_compare`, `set_compare_value`, the compare-and-branch of `compile_block` |
| LinearModel | `compile.c`: `compile_block`, `compile_function` as far as labels and jumps go |
| CallModel | `compile.c`: `slice_type`, `alloc_register_params`, `move_to_from_registers`, `push`, `push_function_arguments`, the saving of caller saved registers, the code of `compile_call` around the call (not the result), `allocate_registers`, `allocate_locals`, `enter`, the epilogue; a machine of byte registers and byte memory that runs it. Not: bit-field operands, inline assembly, wrap-around of addresses |
| BraceModel | `initializer.c`: lines 86-580 and 950-973, on tokens in which an expression is one token with the kind of its type (not: that elements of static objects are constant, 102-111, and conversion to the type of what is initialized, `eval_assign`) |
| VaModel | `compile.c`: `emit_memcpy`, `compile__builtin_va_start`, `compile__builtin_va_arg` (804-841, 1876-2131), on the machine of CallModel (not: the instructions that load the address of a list or an object that is reached through a pointer, and flags: a comparison and its jump are one step) |
| AttModel | `assemble.c`: `regname`, `asm_address`, `immediate`, `asm_text`, `asm_data` (55-176, 268-371); `encoding.c`: `get_mnemonic` and the names of the table (130-292, 995-1063) (not: `asm_symbol` and sections, 186-266, floats as data other than by their bits; the names of symbols are given) |
| CompatModel | `typetree.c`: `typetree_equal`, `typetree_equal_unqualified`, `type_equal`, `type_equal_unqualified`, `is_compatible`, `is_compatible_unqualified`, `set_array_length` (884-1030, 1082-1144, 1221-1231); `symtab.c`: `sym_apply_type` (241-291), the types in `sym_redeclare` (327-343) (not: arrays of variable length, `is_flexible`; the rest of `sym_redeclare` is in SymtabModel) |
| PtrModel | `eval.c`: `var_direct`, `var_int`, `var_numeric`, `as_expr`, `eval`, `convert`, `cast_operand`, `eval_cast`, `eval_mul`, `eval_div`, `eval_mod`, `eval_add`, `eval_sub`, `eval_and`, `eval_or`, `eval_xor`, `eval_lshift`, `eval_rshift`, `eval_not`, `eval_neg`, `eval_unary_plus`, `prepare_comparison_operands`, `eval_cmp_eq`, `_ne`, `_ge`, `_gt`, `rvalue`, `eval_addr`, `eval_deref`; `expression.c`: names, numbers, `[]`, `.`, `->`, `&`, `*`, casts, binary and unary operators, on expressions already parsed; `typetree.c`: `promote_integer`, `usual_arithmetic_conversion` (C49) (not: bit-fields, functions, VLAs, string literals, floating types and bool, qualifiers, casts to void; a struct equals only itself; the meaning of statements is the model's own, C44 has what code is emitted for them) |
| StoreModel | `eval.c`: `eval_prepare_assign_pointer`, `eval_prepare_assign`, `eval_assign`, `eval_copy`; `expression.c`: `assignment_expression`, prefix and postfix `++`, `--`; `statement.c`: `expression_statement`, in sequence (not: string literals to arrays, bit-fields, bool, floating types; operands with effects; the meaning of a store (`perform`) is given here, not taken from the code generator) |
| TypedModel | `expression.c`: `sizeof` of an expression (not: of a type name, of variable length arrays); `parse.c`: `begin_throwaway_block`, `restore_block` as dropping the statements |
| InitModel | `initializer.c`: `zero_initialize_bytes`, `initialize_padding`, `merge_assignments`, `normalize_field_assignment`, `sort_and_trim`, `postprocess_object_initialization`, on lists of assignments to one object (not: `validate_contiguous_initialization`) |
| AbiModel | `abi.c`: `has_unaligned_fields`, `combine`, `flatten`, `merge`, `classify`, on the types of LayoutModel (no functions) |
| EncModel | `encoding.c`: `encode` and all it calls, with the relocations it leaves (not: `mnemonic_match_operands`, `get_mnemonic`, i.e. the reading of inline assembly) |
| ElfModel | `elf.c` without `-g`: sections, string and symbol tables, relocations, jump displacements, file layout; an instruction is a list of pieces (bytes, jump, relocated field) |
| DriverModel, ArgsModel | `lacc.c`: `process_file`, `main`, output names, `-D`; `linker.c`: `invoke_linker`; `argparse.c` |

## What is not modelled

Source files (or functions) not cited in a `*Model.v` comment are not modelled.  Memory allocation is
assumed to succeed.  The models of the areas are separate: e.g. the theorems on constants start from
the spelling of one token, not from a source file.

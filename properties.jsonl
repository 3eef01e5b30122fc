{"id": "C01", "title": "Little-endian field access", "statement": "Writing an N-byte little-endian field (N in 1,2,4,8) into a byte buffer and reading it back yields the value modulo 2^(8N); no byte outside the N-byte window changes; and reading then writing back is the identity.", "quantifier": "every buffer, every in-bounds position, every 64-bit value, every width", "why_tests_cant": "2^64 values times all buffers and positions", "anchors": ["src/common.c: write_8/16/32/64, read_8/16/32/64, file_write_word/long/quad"]}
{"id": "C02", "title": "Round-up helper", "statement": "round_up_to_nearest(n,d) is the least multiple of d that is not below n, whenever n>=0, d>0 and the result fits in int.", "quantifier": "every pair of ints in the stated range", "why_tests_cant": "unbounded family of (n,d) pairs", "anchors": ["src/common.c: round_up_to_nearest"]}
{"id": "C03", "title": "Bit-field store/load code", "statement": "The IR emitted to store a value into a bit-field of a storage unit, followed by the IR emitted to load it, yields the value reduced modulo 2^len and then sign- or zero-extended as requested; every bit of the unit outside the field keeps its value.", "quantifier": "every storage-unit size, every (offset,len) inside it, every old content and every stored value", "why_tests_cant": "2^64 contents x 2^64 values x all fields", "anchors": ["src/ir/ir.c: ir_set_bits, ir_get_bits, ir_cast_int", "src/common.c: gen_mask"]}
{"id": "C04", "title": "UTF-8 encoding of universal characters", "statement": "Every code point up to U+10FFFF is encoded as its standard UTF-8 byte sequence, decoding that sequence gives the code point back and consumes exactly the bytes produced, and distinct code points have distinct encodings.", "quantifier": "every code point, every suffix of following bytes", "why_tests_cant": "about a million code points and arbitrary suffixes", "anchors": ["src/utf8.c: utf8_encode, utf8_decode"]}
{"id": "C05", "title": "Escape sequences in assembly text", "statement": "Each byte of a string literal, printed with the compiler's escape printer in a .string directive, is read back by a GNU-as string reader as the same byte, whatever bytes surround it.", "quantifier": "every byte string of every length", "why_tests_cant": "unbounded strings; adjacency of octal escapes and digits", "anchors": ["src/escape_sequence.c: character_to_escape_sequence", "src/assembler/assembler.c: asm_string"]}
{"id": "C06", "title": "Escape sequences in source text", "statement": "A simple, octal or hexadecimal escape sequence in a character or string literal denotes the character value C11 6.4.4.4 gives it, and scanning consumes exactly the escape.", "quantifier": "every escape sequence, every following text", "why_tests_cant": "unbounded digit strings and contexts", "anchors": ["src/escape_sequence.c: escape_sequence_read"]}
{"id": "C07", "title": "Integer literal value and type", "statement": "A decimal, octal or hexadecimal integer literal with any standard suffix has the value of its digits (when it fits 64 bits) and the first type of the C11 6.4.4.1 list that can hold that value.", "quantifier": "every digit string, base and suffix", "why_tests_cant": "unbounded digit strings, boundary values of every type", "anchors": ["src/arch/x64.c: is_contained_in, parse_integer/integer_constant_from_string"]}
{"id": "C08", "title": "Integer conversions of constants", "statement": "Converting an integer constant to an integer type of width w yields the unique representable value congruent to it modulo 2^w (and 0/1 for _Bool).", "quantifier": "every source/target integer type and every constant value", "why_tests_cant": "2^64 values x all type pairs", "anchors": ["src/arch/x64.c: cast constants, conv_*"]}
{"id": "C09", "title": "Integer promotion and usual arithmetic conversions", "statement": "For every pair of arithmetic types the common type chosen for a binary operator is the one C11 6.3.1.8 prescribes, and integer promotion follows 6.3.1.1.", "quantifier": "every pair of arithmetic types under both data models", "why_tests_cant": "cross product with data-model dependent ranks", "anchors": ["src/parser/expression.c: get_arithmetic_type, do_integer_promotion"]}
{"id": "C10", "title": "Declaration specifiers", "statement": "A sequence of type-specifier keywords denotes a type exactly when C11 6.7.2 lists that multiset, the denoted type is the listed one, and the order of keywords does not matter.", "quantifier": "every finite sequence of specifier keywords", "why_tests_cant": "unbounded keyword sequences", "anchors": ["src/parser/declaration.c: set_sbit, parse_specifier, specifiers_to_type"]}
{"id": "C11", "title": "Constant folding agrees with C", "statement": "When the compiler folds an integer operator on constants the result is the value C gives to that operation at that type, and an operation whose C behaviour is undefined (division or remainder by zero, overflowing quotient) is never executed by the compiler.", "quantifier": "every operator, every integer type, every pair of operand values", "why_tests_cant": "2^128 operand pairs per operator and type", "anchors": ["src/ir/operators.c: operators_constant"]}
{"id": "C12", "title": "Struct layout", "statement": "Laying out a struct without bit-fields places members in declaration order at the least offset satisfying their (packed) alignment, members never overlap, all lie inside the struct, and the struct's size is the least multiple of its alignment covering them.", "quantifier": "every member list of every length, every packing", "why_tests_cant": "unbounded member lists and alignments", "anchors": ["src/arch/x64.c: calculate_offsets"]}
{"id": "C13", "title": "Bit-field layout", "statement": "Bits of distinct members of a struct never overlap and every bit-field lies inside a storage unit of its declared type inside the struct.", "quantifier": "every member list mixing bit-fields and ordinary members", "why_tests_cant": "unbounded member lists", "anchors": ["src/arch/x64.c: calculate_offsets"]}
{"id": "C14", "title": "Union layout", "statement": "Every union member is at offset 0, the union is at least as large as every member, its alignment is a multiple of (the maximum of) the members' alignments and its size is a multiple of its alignment.", "quantifier": "every member list", "why_tests_cant": "unbounded member lists", "anchors": ["src/arch/x64.c: calculate_offsets"]}
{"id": "C15", "title": "Type identity", "statement": "Two type constructions yield the same type object exactly when they were given the same constructor, parameters and children, after any history of earlier constructions, and earlier objects are never changed by later constructions.", "quantifier": "every history of type constructions", "why_tests_cant": "unbounded histories, hash collisions", "anchors": ["src/types.c: type_create, compare_types, type_hash"]}
{"id": "C16", "title": "Macro table", "statement": "#define, #undef and lookup behave as a finite map from macro names to definitions, with the most recent definition winning, for any interleaving.", "quantifier": "every history of define/undef/lookup, every set of names including hash collisions", "why_tests_cant": "unbounded histories and collision patterns", "anchors": ["src/preprocessor/macro_expander.c: define_map_add, define_map_get, define_map_remove"]}
{"id": "C17", "title": "Hide sets", "statement": "Insertion, union, intersection and membership on the identifier sets used to stop recursive macro expansion agree with mathematical sets.", "quantifier": "every pair of sets reachable by any history of set operations", "why_tests_cant": "unbounded histories and names", "anchors": ["src/preprocessor/string_set.c: string_set_insert, string_set_union, string_set_intersection, string_set_contains"]}
{"id": "C18", "title": "push_macro/pop_macro", "statement": "#pragma pop_macro(\"X\") restores exactly the definition (or absence of definition) of X saved by the matching push_macro, leaving other macros untouched.", "quantifier": "every history of define/undef/push/pop", "why_tests_cant": "unbounded nesting", "anchors": ["src/preprocessor/directives.c: directiver_push_macro/pop_macro handling"]}
{"id": "C19", "title": "#if expressions", "statement": "The controlling expression of #if evaluates to the value C11 6.10.1 assigns (64-bit intmax_t/uintmax_t arithmetic, short circuit, conditional), is rejected when malformed, and unevaluated operands never cause a diagnostic.", "quantifier": "every expression tree of every depth, every value", "why_tests_cant": "unbounded expressions", "anchors": ["src/preprocessor/directives.c: evaluate_expression, check_div_overflow"]}
{"id": "C20", "title": "Conditional inclusion", "statement": "In a well-nested file exactly the lines of the selected groups reach the compiler: a group is selected when its own condition is the first true one of its #if section and every enclosing group is selected; skipped groups are not evaluated.", "quantifier": "every well-nested sequence of directives and text lines", "why_tests_cant": "unbounded nesting depth", "anchors": ["src/preprocessor/directives.c: cond stack, directiver_next"]}
{"id": "C21", "title": "Token look-ahead", "statement": "The parser sees exactly the preprocessor's token sequence: peeking at T0/T1/T2 never consumes, advancing delivers tokens in order without loss or duplication, and a pushed-back token is delivered next.", "quantifier": "every token stream and every interleaving of peek/next/push", "why_tests_cant": "unbounded histories", "anchors": ["src/preprocessor/preprocessor.c: t_next, t_push, t_peek"]}
{"id": "C22", "title": "Tokenizer progress", "statement": "For every NUL-terminated source the tokenizer terminates, makes progress on each token, never reads past the terminator, and the token texts (with white space and comments between them) tile the source.", "quantifier": "every input byte string", "why_tests_cant": "unbounded inputs", "anchors": ["src/preprocessor/tokenizer.c: tokenizer_next and helpers"]}
{"id": "C23", "title": "Punctuator maximal munch", "statement": "At a punctuator the tokenizer takes the longest C punctuator that is a prefix of the remaining input.", "quantifier": "every remaining input", "why_tests_cant": "unbounded inputs", "anchors": ["src/preprocessor/tokenizer.c: parse_punctuator"]}
{"id": "C24", "title": "Comments", "statement": "A block comment ends at the first */ after its opening, a line comment ends at the first newline that is not spliced, and a comment counts as white space.", "quantifier": "every comment body", "why_tests_cant": "unbounded bodies, runs of stars", "anchors": ["src/preprocessor/tokenizer.c: skip_whitespace"]}
{"id": "C25", "title": "Symbol scoping", "statement": "Looking up a name yields the innermost visible declaration; leaving a block restores the outer view exactly; a second declaration of the same name in the same block is refused.", "quantifier": "every history of enter/leave/declare/lookup", "why_tests_cant": "unbounded nesting, hash collisions", "anchors": ["src/parser/symbols.c: symbols_push_scope/pop, add_entry_with_block, get_entry"]}
{"id": "C26", "title": "Operator precedence parsing", "statement": "Parsing the token sequence of any binary/conditional/assignment expression tree written with minimal parentheses according to the C grammar yields that tree.", "quantifier": "every expression tree of every size", "why_tests_cant": "unbounded trees", "anchors": ["src/parser/expression.c: parse_pratt", "src/precedence.c"]}
{"id": "C27", "title": "Use lists", "statement": "After any history of argument updates and node replacements every IR node's use list holds each user exactly once per argument slot that refers to it, and after replacing a node no argument refers to it any more.", "quantifier": "every graph and every history of updates", "why_tests_cant": "unbounded graphs and histories", "anchors": ["src/ir/ir.c: node_set_argument, ir_replace_node, ir_new*"]}
{"id": "C28", "title": "Dominator tree", "statement": "For every function control-flow graph the computed immediate dominators form the dominator tree: a block's chain of immediate dominators is exactly its set of dominators.", "quantifier": "every reducible or irreducible control-flow graph", "why_tests_cant": "unbounded graphs", "anchors": ["src/ir/dominator_tree.c"]}
{"id": "C29", "title": "Phi elimination", "statement": "The copies emitted at the end of a predecessor block give every phi of the successor the value its operand had before any of the copies.", "quantifier": "every set of phis and every value assignment", "why_tests_cant": "unbounded phi sets, cyclic dependences", "anchors": ["src/codegen/codegen.c: codegen_phi_node"]}
{"id": "C30", "title": "Integer operator code", "statement": "The instruction sequence emitted for each integer IR operator leaves in the result the C value of the operation on the operands at that width, for all operand values for which C defines it.", "quantifier": "every operator, both widths, all operand values", "why_tests_cant": "2^128 operand pairs", "anchors": ["src/codegen/binary_operators.h", "src/codegen/codegen.c: codegen_binary_operator"]}
{"id": "C31", "title": "Unsigned division", "statement": "Dividing two unsigned values yields their unsigned quotient.", "quantifier": "all unsigned operand pairs at both widths", "why_tests_cant": "2^128 operand pairs", "anchors": ["src/parser/expression_to_ir.c: ir_from_type_and_op", "src/ir/ir.c: ir_binary_op", "src/codegen/binary_operators.h"]}
{"id": "C32", "title": "Floating comparisons", "statement": "Each relational and equality operator on floating operands yields the C result, including when an operand is NaN.", "quantifier": "all operand pairs, ordered or unordered", "why_tests_cant": "2^128 operand pairs", "anchors": ["src/codegen/binary_operators.h"]}
{"id": "C33", "title": "Scalar conversions in generated code", "statement": "Code emitted for integer-to-integer and integer-to-floating conversions delivers the source's value (sign- or zero-extended as its type demands) to the destination.", "quantifier": "all source/target sizes and all values", "why_tests_cant": "2^64 values x all sizes", "anchors": ["src/codegen/codegen.c: IR_INT_CAST_*, IR_INT_FLOAT_CAST, IR_UINT_FLOAT_CAST"]}
{"id": "C34", "title": "Block copy and clear code", "statement": "The emitted copy/clear sequence for n bytes copies/clears exactly bytes [0,n) and touches nothing else.", "quantifier": "every n, every memory content", "why_tests_cant": "unbounded n", "anchors": ["src/codegen/codegen.c: codegen_memcpy, codegen_memzero"]}
{"id": "C35", "title": "Scalar spills", "statement": "Storing a register as an n-byte scalar (1<=n<=8) writes exactly its n low bytes, little-endian, and loading it back gives those bytes zero-extended for the sizes the loader supports.", "quantifier": "every size, register value, memory content", "why_tests_cant": "2^64 values and all memories", "anchors": ["src/codegen/registers.c: scalar_to_reg, reg_to_scalar, reg_to_memory"]}
{"id": "C36", "title": "Stack frame layout", "statement": "Stack slots of distinct values in a function frame are disjoint, lie inside the allocated frame, and honour requested alignments.", "quantifier": "every function (list of slot requests)", "why_tests_cant": "unbounded lists of requests", "anchors": ["src/codegen/codegen.c: codegen_function"]}
{"id": "C37", "title": "Register argument assignment", "statement": "Under the System V convention integer/SSE eightbytes are assigned to distinct registers in order, an argument is either wholly in registers or wholly on the stack, and each aggregate eightbyte gets the class the ABI prescribes.", "quantifier": "every argument list of every length and every aggregate", "why_tests_cant": "unbounded argument lists and aggregates", "anchors": ["src/abi/sysv.c: get_calling_convention", "src/arch/calling.c: classify"]}
{"id": "C38", "title": "Variadic argument walk", "statement": "Successive va_arg calls on integer-class arguments fetch the unnamed arguments in order, first from the register save area then from the overflow area, exactly where the caller put them.", "quantifier": "every number of named and unnamed arguments", "why_tests_cant": "unbounded argument lists", "anchors": ["src/abi/sysv.c: sysv_emit_va_start, sysv_emit_va_arg, get_calling_convention"]}
{"id": "C39", "title": "String label interning", "statement": "Registering the same string/label twice returns the same id, different ones get different ids, and ids never collide with generated temporary labels.", "quantifier": "every history of registrations", "why_tests_cant": "unbounded histories", "anchors": ["src/codegen/rodata.c: label_register, register_label"]}
{"id": "C40", "title": "Static data image", "statement": "The bytes and relocations emitted for an initialised static object are exactly the image described by its initializer: specified scalars in place, everything else zero, total length equal to the object's size.", "quantifier": "every image and label placement", "why_tests_cant": "unbounded sizes", "anchors": ["src/codegen/rodata.c: codegen_initializer, codegen_initializer_recursive"]}
{"id": "C41", "title": "Memory operand encoding", "statement": "Decoding the ModRM/SIB/displacement bytes the assembler emits for a memory operand yields the same base register and displacement.", "quantifier": "every base register and every 32-bit displacement", "why_tests_cant": "2^36 operands, encoding special cases", "anchors": ["src/assembler/encode.c: encode_sib, assemble_encoding"]}
{"id": "C42", "title": "Instruction encoding", "statement": "Decoding the bytes emitted for an instruction of the supported table by the x86-64 rules yields the same instruction and operands, and no more than 15 bytes are emitted.", "quantifier": "every table entry, all registers, immediates and displacements", "why_tests_cant": "unbounded operand combinations", "anchors": ["src/assembler/encode.c: assemble_encoding, assemble_instruction", "src/assembler/instructions.h"]}
{"id": "C43", "title": "Object building", "statement": "Writing to the current section appends, never disturbing earlier bytes, symbols or relocations; a symbol is bound to the current section offset; one entry exists per name.", "quantifier": "every history of section/write/symbol/relocate operations", "why_tests_cant": "unbounded histories", "anchors": ["src/linker/object.c"]}
{"id": "C44", "title": "Alignment requests", "statement": "After an alignment request for a the section's next offset is a multiple of a and the section's recorded alignment is at least a.", "quantifier": "every section state and alignment", "why_tests_cant": "unbounded states", "anchors": ["src/linker/object.c: object_align"]}
{"id": "C45", "title": "Link-time relocation", "statement": "After linking, the bytes at each relocation site hold the address formula of its kind (S+A, or S+A-P) for the symbol's final address, and all other bytes are the objects' section bytes.", "quantifier": "every object, every relocation list", "why_tests_cant": "unbounded objects", "anchors": ["src/linker/linker.c: linker_link"]}
{"id": "C46", "title": "Cross-object symbols", "statement": "A reference in one object to a global defined in another resolves to the definition's own address.", "quantifier": "every set of objects", "why_tests_cant": "unbounded object sets", "anchors": ["src/linker/linker.c: combine_objects"]}
{"id": "C47", "title": "ELF object layout", "statement": "In an emitted ELF object file the header, section contents and section header table occupy disjoint file ranges at exactly the recorded offsets.", "quantifier": "every object", "why_tests_cant": "unbounded numbers and sizes of sections", "anchors": ["src/linker/elf.c: elf_allocate_sections, elf_write"]}
{"id": "C48", "title": "ELF round trip", "statement": "Reading back an ELF object file the compiler wrote yields the same sections, symbols and relocations up to the local-first ordering of symbols.", "quantifier": "every object", "why_tests_cant": "unbounded objects", "anchors": ["src/linker/elf.c: elf_from_object, object_from_elf, elf_write_object, elf_read_object"]}
{"id": "C49", "title": "COFF layout", "statement": "In an emitted COFF object every recorded file pointer (section data, relocations, symbol table, string table) equals the position at which that part is written.", "quantifier": "every object", "why_tests_cant": "unbounded objects", "anchors": ["src/linker/coff.c: coff_allocate, coff_write"]}
{"id": "C50", "title": "Loop conditions", "statement": "A while/for/do loop continues exactly when its controlling expression compares unequal to zero at the expression's own type.", "quantifier": "every scalar type and value of the condition", "why_tests_cant": "2^64 values per type", "anchors": ["src/parser/function_parser.c: loop statements", "src/parser/expression_to_ir.c: expression_to_int"]}
{"id": "C51", "title": "Compound assignment", "statement": "E1 op= E2 computes the same value as E1 = E1 op E2 with E1 evaluated once, for every operator including shifts.", "quantifier": "every operator, type pair and operand values", "why_tests_cant": "2^128 operand pairs x types", "anchors": ["src/parser/expression.c: fix_assignment_operators", "src/parser/expression_to_ir.c: evaluate_assignment_op"]}
{"id": "C52", "title": "#pragma pack", "statement": "#pragma pack(pop) restores the packing in force at the matching push.", "quantifier": "every history of pack pragmas", "why_tests_cant": "unbounded nesting", "anchors": ["src/parser/parser.c: parse_pragma"]}
{"id": "C53", "title": "Tentative definitions", "statement": "Each file-scope object with at least one (tentative or real) definition is emitted exactly once, real initialisers win, pure extern declarations emit nothing.", "quantifier": "every sequence of file-scope declarations", "why_tests_cant": "unbounded sequences", "anchors": ["src/parser/declaration.c: tentative definition handling"]}
{"id": "C54", "title": "Command line", "statement": "Every option/operand of an argument vector is recorded in order in the right list, options never become operands and vice versa.", "quantifier": "every argument vector", "why_tests_cant": "unbounded vectors", "anchors": ["src/arguments.c: arguments_parse"]}
{"id": "C55", "title": "Memory-to-register promotion", "statement": "Replacing loads of a promoted local by SSA values preserves the value every load observes.", "quantifier": "every function and every execution", "why_tests_cant": "unbounded programs and executions", "anchors": ["src/optimize/mem2reg.c"]}
{"id": "C56", "title": "Dead code removal", "statement": "Removing dead nodes keeps every node an observable effect depends on and breaks no remaining argument or use link.", "quantifier": "every IR graph", "why_tests_cant": "unbounded graphs", "anchors": ["src/optimize/remove_dead.c"]}
{"id": "C57", "title": "Stringification", "statement": "The # operator applied to a string literal or character constant yields a string literal that denotes exactly the spelling of its operand.", "quantifier": "every token spelling", "why_tests_cant": "unbounded set of spellings", "anchors": ["src/preprocessor/macro_expander.c: stringify_add", "src/escape_sequence.c: character_to_escape_sequence"]}
{"id": "C58", "title": "Too large integer literals", "statement": "An integer literal whose value fits none of the types C11 6.4.4.1 lists for its form is rejected, never given another value.", "quantifier": "every literal", "why_tests_cant": "unbounded digit strings", "anchors": ["src/arch/x64.c: integer_constant_from_string"]}
{"id": "C59", "title": "Macro replacement", "statement": "Scanning a token sequence replaces every object-like macro name by its rescanned replacement list, never replaces a macro inside its own replacement, leaves all other tokens in order, and always terminates, however macros refer to each other.", "quantifier": "every macro table and every token sequence", "why_tests_cant": "recursion through arbitrary tables of mutually recursive macros; no finite set of tests covers all tables", "anchors": ["src/preprocessor/macro_expander.c: expand_buffer, subs_buffer, expander_next, expand_token_list"]}
{"id": "C60", "title": "Function-like macro calls", "statement": "A call of a function-like macro is replaced by its body with each parameter replaced by the corresponding argument, arguments being separated by the commas at parenthesis depth one.", "quantifier": "every definition, every argument list with any nesting of parentheses", "why_tests_cant": "arguments nest without bound", "anchors": ["src/preprocessor/macro_expander.c: input_buffer_parse_argument, expand_argument, subs_buffer"]}
{"id": "C61", "title": "String literal joining and keywords", "statement": "The parser receives, for the macro-expanded token sequence, each maximal run of adjacent string literals as one literal whose bytes are the concatenated values followed by a terminator, identifiers spelled like keywords as those keywords, and every other token unchanged and in order.", "quantifier": "every token sequence of any length with runs of any length", "why_tests_cant": "unbounded sequences; one token of lookahead is carried between calls", "anchors": ["src/preprocessor/string_concat.c: string_concat_next, get_ident, take_string_prefix"]}
{"id": "C62", "title": "Shape of identifiers, numbers and literals", "statement": "Whenever the tokenizer accepts a source, every identifier is a maximal run of identifier characters, every preprocessing number is a maximal pp-number (with digit separators), every string literal and character constant runs from its (possibly prefixed) opening quote to the first closing quote that is not escaped, and nothing else is reported with those kinds.", "quantifier": "every source text and every token of it", "why_tests_cant": "Sources are unbounded and token boundaries depend on arbitrary context (prefixes, exponents with signs, escapes, splices).", "anchors": ["src/preprocessor/tokenizer.c:tokenizer_next", "src/preprocessor/tokenizer.c:parse_number", "src/preprocessor/tokenizer.c:parse_identifier", "src/preprocessor/tokenizer.c:parse_string_like"]}
{"id": "C63", "title": "Floating arithmetic in generated code", "statement": "Code emitted for +, -, * and / on float or double operands applies the processor's IEEE operation of that width to the left and right operand in that order and stores the result in the result's slot only; negation yields the operand with exactly its sign bit inverted.", "quantifier": "all operand bit patterns of both widths, every rounding behaviour of the unit", "why_tests_cant": "2^128 operand pairs", "anchors": ["src/codegen/binary_operators.h: BINARY_INS_FLT_32, BINARY_INS_FLT_64", "src/codegen/codegen.c: IR_NEGATE_FLOAT", "src/parser/expression_to_ir.c: ir_from_type_and_op"]}
{"id": "C64", "title": "Comparison results stored in an int", "statement": "Assigning the result of a comparison to an int object changes the bytes of that object only.", "quantifier": "all operand types, operand values and object addresses", "why_tests_cant": "the damage is to a neighbouring object, visible only for 8-byte operands and particular layouts", "anchors": ["src/ir/ir.c: ir_binary_op", "src/ir/ir.c: ir_store", "src/parser/expression_to_ir.c: evaluate_binary_operator, assign_to_ee", "src/codegen/codegen.c: IR_STORE"]}
{"id": "C65", "title": "Integer expressions compute their C value end to end", "statement": "For every C expression built from integer constants, variables of integer types, casts, unary and binary arithmetic, assignments, compound assignments, ++/-- and comma, whose behaviour C defines, the generated code leaves the value C prescribes in the result, leaves every variable with the value C prescribes, and changes no other object.", "quantifier": "every expression tree of that form, every assignment of types to variables, every initial value, every memory layout in which the objects are apart", "why_tests_cant": "unbounded expression trees over 12 types and 2^64 values per variable", "anchors": ["src/parser/expression.c: expr_new, convert_arithmetic, fix_binary_operator, fix_assignment_operators", "src/parser/expression_to_ir.c: expression_evaluate, variable_cast, assign_to_ee", "src/codegen/codegen.c: codegen_instruction"]}
{"id": "C66", "title": "Arguments reach the parameters of the callee", "statement": "When one compiled function calls another under the System V convention, then after the call sequence, the call instruction and the callee's entry sequence, every byte of every named parameter object equals the byte of the corresponding argument object, the hidden result address included, and no memory of the caller at or above its stack pointer changes apart from its own temporaries.", "quantifier": "every list of argument types and sizes (registers, pairs of registers, stack, trailing unnamed arguments), every argument value, every frame layout of caller and callee, every machine state", "why_tests_cant": "unbounded parameter lists and frame layouts; a misplaced byte shows only for particular combinations of sizes", "anchors": ["src/abi/sysv.c: sysv_expr_call, sysv_expr_function, get_calling_convention", "src/codegen/codegen.c: codegen_call_stack_chain, codegen_set_reg_chain, codegen_get_reg_uses, codegen_function"]}
{"id": "C67", "title": "Results reach the caller and its registers survive", "statement": "When a compiled function returns under the System V convention, control returns to the address that was pushed, with the caller's stack pointer, frame pointer and rbx; the bytes of the returned value arrive in the caller's result object, whether it travels in a register, in two registers or in memory; no other object of the caller changes; and the address of a result in memory is returned in rax.", "quantifier": "every result type, every value, every body that keeps its own frame, every frame layout and machine state", "why_tests_cant": "values, frame layouts and bodies are unbounded; a clobbered register or a byte past the result shows only in particular callers", "anchors": ["src/abi/sysv.c: sysv_expr_return, sysv_expr_call, split_variable", "src/codegen/codegen.c: codegen_instruction (IR_RETURN, IR_CALL), codegen_set_reg_chain, codegen_get_reg_uses"]}
{"id": "C68", "title": "The stack pointer around calls", "statement": "At every call instruction the stack pointer is a multiple of 16, as the ABI requires, and after every call the caller's stack pointer is what it was before the call, so that a loop of calls uses a bounded amount of stack.", "quantifier": "every argument list, every nesting of calls, every frame layout and machine state", "why_tests_cant": "the misalignment or the lost space depends on the argument list, and exhaustion needs an unbounded number of calls", "anchors": ["src/codegen/codegen.c: codegen_call_stack_chain, codegen_instruction (IR_CALL), codegen_function"]}
{"id": "C69", "title": "Statements transfer control as C says", "statement": "For every function whose statements keep the constraints of C, the control flow graph that is built performs the same actions and tests in the same order as the statements, and returns, falls off the end or runs forever exactly when they do: sequences, if, while, do, for, switch with case and default, labels, goto, break, continue and return, in any nesting.", "quantifier": "every nesting and number of statements, every meaning of the expressions in them, every store, every number of steps", "why_tests_cant": "the blocks made for a jump depend on all jumps made before it to the same place, so each statement works in small examples and fails only in certain combinations; runs are unbounded", "anchors": ["src/parser/function_parser.c: parse_statement, parse_labeled_statement, parse_selection_statement, parse_iteration_statement, parse_jump_statement, parse_function", "src/ir/ir.c: new_block, ir_goto, ir_connect, ir_if_selection"]}
{"id": "C70", "title": "Initializers: every part of an object gets the value C gives it", "statement": "For every object type (scalars, arrays, structs, unions, unnamed members, an array of unknown length as the whole) and every initializer valid for it, with braces left out or not, designators of any depth in any order, string literals and struct values as elements, and a trailing comma: the declaration is accepted, an array of unknown length gets the length that the largest index used gives it, every subobject has the value that the position rules of C11 6.7.9 give it, later initializers replacing earlier ones for the same subobject, and everything else is zero.", "quantifier": "all object types, initializers and texts following them", "why_tests_cant": "Types and initializers nest without bound, and brace elision interacts with designators at every depth; tests try a few nestings.", "anchors": ["src/parser/declaration.c:912-1183 (initializer_add_entry, match_string, parse_brace_initializer, parse_initializer_recursive, parse_initializer)", "src/types.c:186-213 (type_search_member)", "src/types.c:301-313 (type_select)"]}
{"id": "C71", "title": "A declaration gives every name it declares the type C says", "statement": "For every declaration, function definition header and type name of C, the compiler reads it to its end, whatever tokens follow, and gives each declared name the type that the rules of C 6.7.6 give: pointers, arrays and functions nested by the declarator, with their const qualifiers, array lengths, parameter types (adjusted from arrays and functions) and ellipsis; a function definition has the parameters of the list next to its name, and exactly their names are visible in its body.", "quantifier": "all declarations: every sequence of specifiers, every declarator and abstract declarator of any depth, every set of typedef names in scope, every following token sequence", "why_tests_cant": "Declarators nest without bound and inside out, parentheses are ambiguous between grouping and parameter lists depending on typedef names, and parameters contain declarators again; tests reach a few shapes.", "anchors": ["src/parser/declaration.c: parse_declarator, parse_function_parameters, parse_parameter_list, ast_to_type, ast_get_parameters, parse_type_name, parse_init_declarator, parse_declaration", "src/types.c: type_adjust_parameter, type_make_const"]}
{"id": "C72", "title": "Scheduling computes every value before it is used", "statement": "When the compiler turns the graph of a function into lists of instructions, scheduling ends, every instruction that a reachable block needs is in exactly one list, and whatever way an execution takes to an instruction, its operands have been computed before it, the operand a phi takes from a predecessor has been computed there, and a load sees the memory state it names: an instruction that replaces a memory state comes after all others that use it. An instruction is put in the last block from which all its users can be served.", "quantifier": "all graphs of a function the construction operations can make, with any control flow (loops, irreducible graphs, unreachable blocks), any placement of users and any chain of memory states", "why_tests_cant": "The order depends on dominance and on the order in which the whole graph is walked; there are unboundedly many graphs and a wrong order shows up only for particular shapes.", "anchors": ["src/ir/global_code_motion.c: ir_schedule_instructions_to_blocks, schedule_late, schedule_user_late", "src/ir/ir.c: ir_local_schedule, ir_local_schedule_blocks, ir_local_schedule_recursive, node_is_instruction"]}
{"id": "C73", "title": "Every expression has the type C gives it", "statement": "For every expression of C over declared objects, functions, structures and constants, the compiler accepts it and gives it the type of C 6.5: integer promotions (with bit-field widths), usual arithmetic conversions, decay of arrays and functions, pointer arithmetic, members found through unnamed structures, conditional operators with null pointer constants and composite types, casts, assignments, calls; and _Generic selects the association with the type of the value, or default.", "quantifier": "all expressions of any depth and shape built from the operators of C, all sets of structure definitions, all declared types (long double, complex and variable-length arrays excepted), whatever constant folding yields", "why_tests_cant": "Types of expressions combine without bound: conversions applied at each operator interact with qualifiers, bit-fields, folding of constants and null pointer constants below it, so that no finite set of expressions covers them.", "anchors": ["src/parser/expression.c: expr_new, decay_array, do_integer_promotion, convert_arithmetic, fix_binary_operator, fix_assignment_operators, cast_conditional, evaluate_constant_expression, expr_dot_operator, parse_prefix, parse_pratt_with_lhs", "src/types.c: type_search_member, type_make_composite, type_select", "src/ir/operators.c: operators_get_result_type", "src/arch/x64.c: simple_cast, constant_cast"]}
{"id": "C74", "title": "Calls under the Microsoft convention pass every word in the place the convention gives it", "statement": "When compiling for Windows, each argument of a call is in the register or stack slot that the x64 convention gives its number (the address of a large result counting as the first), by value when its size is 1, 2, 4 or 8 and by reference otherwise; the stack stays aligned with 32 bytes for the callee; a compiled callee reads exactly what a compiled caller passed; results, va_arg and preserved registers follow the convention.", "quantifier": "all return types, parameter lists, argument lists of up to 128 arguments, argument values and contents of registers and stack", "why_tests_cant": "argument lists, sizes, the floating/integer mix and the presence of a result address combine without bound, and wrong slots only show with the right neighbours", "anchors": ["src/abi/microsoft.c:ms_expr_call", "src/abi/microsoft.c:ms_expr_function", "src/abi/microsoft.c:ms_expr_return", "src/abi/microsoft.c:ms_emit_function_preamble", "src/abi/microsoft.c:ms_emit_va_start", "src/abi/microsoft.c:ms_emit_va_arg"]}
{"id": "C75", "title": "Expressions over objects read, write and yield what C says", "statement": "An expression made of variables, pointers, arrays, structure members, bit-fields, integer operators, conversions, assignments (plain, compound, prefix and postfix, on integers and pointers), conditional and comma expressions is compiled to instructions which, whenever C gives the expression a meaning in the current memory, run without error, leave in all objects exactly the bytes C says, designate the object C says, and yield the value C says in the width of its type.", "quantifier": "all well-typed expressions of these forms, all types and structure layouts, all addresses of variables, all contents of memory, all placements of temporaries", "why_tests_cant": "expressions nest without bound and combine lvalue kinds with side effects; aliasing, widths and bit positions multiply the cases, and wrong code often shows only with particular memory contents", "anchors": ["src/parser/expression_to_ir.c:expression_evaluate", "src/parser/expression_to_ir.c:evaluated_expression_to_var", "src/parser/expression_to_ir.c:evaluated_expression_to_address", "src/parser/expression_to_ir.c:assign_to_ee", "src/parser/expression_to_ir.c:evaluate_dot_operator", "src/parser/expression_to_ir.c:evaluate_pointer_arithmetic", "src/parser/expression_to_ir.c:evaluate_assignment_op", "src/parser/expression_to_ir.c:evaluate_conditional"]}
{"id": "C76", "title": "Included files stand in place of their #include lines", "statement": "Preprocessing a file gives exactly the selected lines of that file with every #include line replaced by the lines of the header it names, recursively and to any depth: a quoted name is looked for in the directory of the including file and then in the -I directories in order, a name in angle brackets only in the latter, and a name given by macros is the string literal they expand to; macros defined or undefined in a header stay so afterwards; a file that contains #pragma once contributes its lines only the first time; a header found nowhere is rejected.", "quantifier": "every file system, every list of search directories, every set of predefined macros, and every nesting of files and conditional sections", "why_tests_cant": "the number of files, their nesting, the conditions under which they are included and what earlier headers define combine without bound", "anchors": ["src/preprocessor/directives.c:directiver_push_input", "src/preprocessor/directives.c:next_from_stack", "src/preprocessor/directives.c:directiver_next", "src/preprocessor/directives.c:directiver_handle_pragma", "src/preprocessor/input.c:input_open", "src/preprocessor/input.c:input_disable_path"]}
{"id": "C77", "title": "Tags denote the types C says", "statement": "In every program, whatever its blocks, forward declarations and nested definitions, two struct or union specifiers denote one type exactly when C says so (6.2.1, 6.7.2.3): a visible tag is its type, an unknown one a new incomplete type in the innermost scope, a definition declares or completes the tag of the innermost scope, a definition without tag is a new type; a type has the members of its definition and is incomplete before its end; defining a complete tag again in its scope, or using a tag with another keyword, is rejected.", "quantifier": "all sequences of blocks, declarations and arbitrarily nested specifiers", "why_tests_cant": "tags nest and shadow without bound, and identity of types depends on the whole history of the scopes", "anchors": ["src/parser/declaration.c: parse_struct, parse_enum", "src/parser/symbols.c: symbols_get_struct, symbols_get_struct_in_current_scope, symbols_add_struct"]}
{"id": "C78", "title": "Enumeration constants have the values C says", "statement": "In every enumerator list, an enumeration constant with an expression has its value, one without has the value of the one before plus one (the first: 0), later expressions may use earlier constants, all constants have type int, and a list with values outside int or with an identifier of its scope is rejected (6.7.2.2).", "quantifier": "all enumerator lists, in all scopes, with all integer constant expressions over literals, earlier constants, unary and binary operators, ?:, !, &&, || and casts", "why_tests_cant": "each value depends on all values before it, through expressions of any depth, types and boundary values", "anchors": ["src/parser/declaration.c: parse_enumerator, parse_enum", "src/arch/x64.c: constant_increment", "src/parser/expression.c: expr_new, expression_to_constant"]}
{"id": "C79", "title": "The ## operator", "statement": "In a replacement list, operands joined by ## are pasted: the last token of the left operand and the first of the right one become the token their spellings make together, an empty argument leaves the other operand as it is, and everything else in the list is as without ##. Pastes that make no token are diagnosed.", "quantifier": "all pairs of tokens; all function-like macros with ## anywhere and any number of times in their replacement list; all calls, with arguments of any length, empty ones included", "why_tests_cant": "The token pairs are unbounded (every spelling of identifiers and numbers) and so are replacement lists and arguments; the effect of an empty argument depends on what stands before and after the operator.", "anchors": ["src/preprocessor/macro_expander.c: paste_table, glue, expand_argument, subs_buffer"]}
{"id": "C80", "title": "The files a command line asks for", "statement": "For every command line the compiler writes exactly the files asked for, under the settings asked for: -E prints each source preprocessed; -S and -c write one assembly or object file per source, named by -o or after the source; otherwise one executable is made of all sources and objects in order. -MD writes a dependency file per source, named by -MF or after the output, for the target -MT or the output. Each output contains what its own source defines and nothing else. -U undefines whatever the order, otherwise the last -D counts, -I directories are searched in order before the default ones, and the last of contradicting -f options counts. What cannot be compiled is refused.", "quantifier": "every sequence of options and operands, every behaviour of compilation, reading and linking", "why_tests_cant": "options combine without bound, and state kept between two sources shows only for particular combinations of sources", "anchors": ["src/main.c:main", "src/main.c:compile_file", "src/main.c:preprocess_file", "src/main.c:set_flags", "src/codegen/rodata.c:rodata_codegen", "src/codegen/rodata.c:data_codegen", "src/parser/parser.c:parser_reset"]}
{"id": "C81", "title": "Repeated declarations", "statement": "Declarations of one identifier at file scope are accepted if and only if their types are compatible, and the identifier then has the composite type; a function definition is exported unless the function was first declared static.", "quantifier": "every sequence of declarations and definitions of one identifier, of any types", "why_tests_cant": "compatibility is a relation over pairs of types of any nesting, and sequences are of any length", "anchors": ["src/types.c:type_make_composite", "src/parser/declaration.c:parse_init_declarator", "src/parser/function_parser.c:parse_function"]}
{"id": "C82", "title": "Merging of values that come from one place", "statement": "The pass that removes merge nodes (phis) with one operand keeps the value of every operand of every node, changes nothing else, leaves no use of such a phi, keeps the use lists exact, and always ends.", "quantifier": "every graph the compiler can build, and every assignment of values to its nodes under which a phi with one operand has the value of that operand", "why_tests_cant": "graphs are of any size, with chains and cycles of phis", "anchors": ["src/optimize/peephole.c:optimize_peephole", "src/optimize/peephole.c:peephole_phi", "src/ir/ir.c:ir_replace_node"]}
{"id": "C83", "title": "Preprocessed output", "statement": "The text that -E prints is a source file with the tokens of the preprocessed translation unit, in order and with the same spelling, so that compiling the printed text is compiling the original file.", "quantifier": "every sequence of tokens delivered by the preprocessor, with any marks for white space and new lines", "why_tests_cant": "The output is re-read by a tokenizer that takes the longest token at each place, so that whether a token survives depends on its neighbours and its length; tests compare a few files and have no tokens of a hundred characters.", "anchors": ["src/main.c: preprocess, T0", "src/debug.c: dbg_token, dbg_token_type, DBG_PRINT", "src/preprocessor/tokens.h"]}
{"id": "C84", "title": "Dependency files", "statement": "The dependency file that -MD writes for a source is, as make reads it, one rule: its target is the one asked for and its prerequisites are the files read for that source, in the order in which they were opened, and no others; this holds for each of the sources of one run.", "quantifier": "every sequence of sources compiled in one run, every sequence of files opened for each, every path", "why_tests_cant": "The recorded files are static variables shared by all sources of a run and paths are arbitrary text that make reads by its own rules; tests look at one source with plain names.", "anchors": ["src/preprocessor/directives.c: directiver_push_input, directiver_write_dependencies, directiver_finish_writing_dependencies, directiver_reset", "src/main.c: compile_file"]}
{"id": "C85", "title": "Line numbers after #line", "statement": "After a #line directive the tokens that follow are numbered as if the next source line had the number the directive gives, until the next #line directive or the end of the file; __LINE__, assertions and diagnostics use these numbers.", "quantifier": "every sequence of lines of text and #line directives, with or without a file name, with any numbers", "why_tests_cant": "The difference is one static variable that is added whenever a token is delivered, and tokens may be delivered more than once; it goes wrong only for certain sequences of directives.", "anchors": ["src/preprocessor/directives.c: next, push, directiver_next, line_diff"]}
{"id": "C86", "title": "offsetof", "statement": "offsetof(T, d), for a structure or union type T and a designator d made of member names and indices, is an integer constant equal to the number of bytes from the start of an object of type T to the part that d names, through members of unnamed structures and unions, nested structures and arrays of any depth; a constant is given only for a part that exists; a name that is no member is refused.", "quantifier": "every type, every list of designators and every index", "why_tests_cant": "Types nest to any depth and designators may be of any length; tests cover a few structures.", "anchors": ["src/parser/expression.c: parse_prefix (T_KOFFSETOF), expr_dot_operator, evaluate_constant_expression", "src/types.c: type_search_member, type_get_offsets, type_select"]}
{"id": "C87", "title": "_Static_assert", "statement": "A declaration _Static_assert(e, message); is accepted if the value of the constant expression e is not 0, and refused if it is 0, for every constant expression; a declaration that is not of this form (with or without the message) is never accepted.", "quantifier": "every constant expression over integer constants, enumeration constants, operators (with ?:, !, && and ||) and casts, in every scope; every sequence of tokens", "why_tests_cant": "Expressions are unbounded, and every combination of types and operators takes its own conversions.", "anchors": ["src/parser/declaration.c: parse_declaration (T_KSTATIC_ASSERT)", "src/parser/expression.c: expr_new, evaluate_constant_expression, expression_to_constant"]}
{"id": "C88", "title": "__LINE__ and __FILE__", "statement": "__LINE__ is replaced by an integer constant of type int whose value is the number of the line, __FILE__ by a string literal whose value is the path of the file; the replacement keeps its place and the white space around it, and no other name is replaced in this way.", "quantifier": "every line number, every path and every name", "why_tests_cant": "Line numbers and paths are unbounded; the value is only fixed after the constant or the literal has been read again by other parts of the compiler.", "anchors": ["src/preprocessor/macro_expander.c: builtin_macros", "src/arch/x64.c: constant_from_string", "src/preprocessor/string_concat.c: escape_string_to_buffer"]}
{"id": "C89", "title": "Variable-length array sizes", "statement": "Where a variable-length array type is declared at block scope, each of its size expressions is evaluated exactly once; sizeof of the type is from then on the product of the values they had there, whatever is declared or assigned later, and using the type again through its name evaluates nothing; such types are refused at file scope.", "quantifier": "every type built from arrays, pointers and functions, every value of the size expressions and every sequence of later declarations", "why_tests_cant": "Types nest to any depth and the values of the expressions change while the program runs.", "anchors": ["src/types.c: type_evaluate_vla, type_contains_unevaluated_vla, type_sizeof, type_has_variable_size", "src/parser/declaration.c: parse_init_declarator"]}
{"id": "C90", "title": "Constant conditions are false exactly if they compare equal to 0", "statement": "In an expression whose operands are constants, c ? a : b is b if c compares equal to 0 and a otherwise, and !c, c && d and c || d are the int 0 or 1 that follows from comparing c and d with 0, for constants of integer, pointer and floating types alike (6.5.3.3, 6.5.13-6.5.15).", "quantifier": "all constants of every scalar type, all bit patterns", "why_tests_cant": "there are 2^64 doubles and 2^32 floats, with two zeros each; only some bit patterns are decided wrongly", "anchors": ["src/parser/expression.c: constant_is_zero, evaluate_constant_expression (E_CONDITIONAL), parse_prefix (T_NOT), parse_pratt_with_lhs (T_OR, T_AND)", "src/arch/x64.h: struct constant"]}

{
 "claims": [
  {
   "property": "C01",
   "status": "proved",
   "theorems": [
    "C01_write_read_roundtrip",
    "C01_read_write_identity",
    "C01_file_write_appends",
    "C01_file_skip_pads"
   ],
   "note": "All widths and buffers."
  },
  {
   "property": "C02",
   "status": "proved",
   "theorems": [
    "C02_round_up_least_multiple"
   ],
   "note": "For every int for which the sum fits in an int."
  },
  {
   "property": "C03",
   "status": "proved",
   "theorems": [
    "C03_bitfield_store_load",
    "C03_bitfield_frame"
   ],
   "note": "Generated code sequence of ir_set_bits/ir_get_bits."
  },
  {
   "property": "C04",
   "status": "proved",
   "theorems": [
    "C04_encode_is_utf8",
    "C04_decode_encode",
    "C04_code_point_length",
    "C04_prefix_free",
    "C04_too_large_refused"
   ],
   "note": "All code points."
  },
  {
   "property": "C05",
   "status": "partial",
   "theorems": [
    "C05_string_line_partial",
    "C05_del_refuted"
   ],
   "note": "All strings without byte 127; for byte 127 the printer reads its tables out of bounds (witness)."
  },
  {
   "property": "C06",
   "status": "partial",
   "theorems": [
    "C06_escape_value_partial",
    "C06_string_literal_partial",
    "C06_header_name",
    "C06_hex_refuted",
    "C06_ff_refuted"
   ],
   "note": "Simple, octal and one-digit hex escapes and whole ordinary literals made of them; multi-digit hex escapes are read in base 8 (witness), byte 0xff after a short escape is an out-of-bounds table read (witness)."
  },
  {
   "property": "C57",
   "status": "partial",
   "theorems": [
    "C57_stringify_spelling_partial",
    "C57_stringify_argument_partial",
    "C57_del_refuted"
   ],
   "note": "All spellings without byte 127."
  },
  {
   "property": "C07",
   "status": "proved",
   "theorems": [
    "C07_integer_literal",
    "C07_bad_digit_refused"
   ],
   "note": "All digit strings below 2^64, all standard suffixes, both data models."
  },
  {
   "property": "C58",
   "status": "partial",
   "theorems": [
    "C58_too_large_literal_partial",
    "C58_too_large_literal_refuted"
   ],
   "note": "Literals below 2^64 without a type are rejected; literals of 2^64 and more are silently reduced (witness)."
  },
  {
   "property": "C08",
   "status": "partial",
   "theorems": [
    "C08_constant_conversion_partial",
    "C08_conversion_unique",
    "C08_bool_refuted",
    "C08_bool_partial"
   ],
   "note": "Every integer type except _Bool; conversion to _Bool truncates to 8 bits (witness)."
  },
  {
   "property": "C09",
   "status": "partial",
   "theorems": [
    "C09_common_type_sysv",
    "C09_promotion_sysv",
    "C09_common_type_ms_partial",
    "C09_ms_long_refuted",
    "C09_bitfield_promotion",
    "C09_default_argument_promotion"
   ],
   "note": "Holds on the SysV ABI for every pair of arithmetic types. Under the Microsoft ABI long is promoted to int: refuted by C09_ms_long_refuted, and the restricted statement is C09_common_type_ms_partial."
  },
  {
   "property": "C11",
   "status": "partial",
   "theorems": [
    "C11_fold_binary",
    "C11_fold_unary",
    "C11_bitwise_defined",
    "C11_signed_div_zero",
    "C11_signed_mod_zero_refuted",
    "C11_unsigned_div_zero_refuted",
    "C11_overflowing_quotient_refuted"
   ],
   "note": "Every folded operation whose C semantics is defined gives the C value. Undefined host behaviour is reachable for signed % 0, unsigned / 0 and INT_MIN / -1 (refuted theorems)."
  },
  {
   "property": "C10",
   "status": "partial",
   "theorems": [
    "C10_specifiers_partial",
    "C10_order_irrelevant",
    "C10_const_partial",
    "C10_long_double_refuted",
    "C10_repeated_const_refuted"
   ],
   "note": "All keyword lists in any order mixed with other specifiers. long double denotes double (witness) and a repeated const loses the qualifier (witness)."
  },
  {
   "property": "C12",
   "status": "partial",
   "theorems": [
    "C12_struct_layout",
    "C12_members_disjoint",
    "C12_alignment_of_elements",
    "C12_complex_member_refuted"
   ],
   "note": "Every member list without bit-fields and any packing. _Complex members, which have size 0 in the compiler's tables, make the layout divide by zero (witness)."
  },
  {
   "property": "C13",
   "status": "partial",
   "theorems": [
    "C13_bitfield_layout_partial",
    "C13_smaller_type_refuted",
    "C13_zero_width_refuted"
   ],
   "note": "Member lists in which bit-field types never get smaller and no width is zero; both restrictions are necessary (witnesses with overlapping members)."
  },
  {
   "property": "C14",
   "status": "proved",
   "theorems": [
    "C14_union_layout",
    "C14_alignment"
   ],
   "note": "Every member list without zero-width bit-fields, any packing."
  },
  {
   "property": "C15",
   "status": "proved",
   "theorems": [
    "C15_type_identity",
    "C15_objects_immutable"
   ],
   "note": "All histories of type_create from the empty table."
  },
  {
   "property": "C16",
   "status": "proved",
   "theorems": [
    "C16_macro_table"
   ],
   "note": "All histories of #define and #undef."
  },
  {
   "property": "C18",
   "status": "partial",
   "theorems": [
    "C18_push_pop_partial",
    "C18_pop_restores",
    "C18_push_undefined_refuted"
   ],
   "note": "All histories in which push_macro names a defined macro. Saving an undefined macro saves nothing (witness)."
  },
  {
   "property": "C17",
   "status": "partial",
   "theorems": [
    "C17_insert_union_membership",
    "C17_no_false_member",
    "C17_intersection_partial",
    "C17_self_intersection",
    "C17_intersection_refuted"
   ],
   "note": "Insertion, union and membership are exact in every history; intersections never invent members and are exact on increasing arrays. Insertion keeps arrays decreasing, so intersections can lose members (witness)."
  },
  {
   "property": "C59",
   "status": "partial",
   "theorems": [
    "C59_expand_line",
    "C59_expand_source",
    "C59_result_unique",
    "C59_function_like_refuted"
   ],
   "note": "Proved for every table of object-like macros (no # or ## in replacement lists) and every token sequence that names no function-like macro, including termination. With function-like macros the lossy hide-set intersection lets a macro be replaced inside its own replacement (witness)."
  },
  {
   "property": "C60",
   "status": "partial",
   "theorems": [
    "C60_call_substitution_partial"
   ],
   "note": "Every non-variadic definition without # and ##, arguments and body free of other macro names. Missing: macro names inside arguments or body, # and ##, variadic macros."
  },
  {
   "property": "C19",
   "status": "partial",
   "theorems": [
    "C19_value_partial",
    "C19_type_and_value_partial",
    "C19_violation_diagnosed",
    "C19_unevaluated_silent",
    "C19_terminates",
    "C19_malformed_rejected_partial",
    "C19_complement_refuted",
    "C19_shift_refuted",
    "C19_conditional_type_refuted",
    "C19_not_type_refuted",
    "C19_trailing_tokens_refuted",
    "C19_skipped_operators_refuted"
   ],
   "note": "Every derivable expression tree without the four departures named by `within` gets its C value; skipped operands never fail; evaluation ends on every line. Departures (witnesses): ~ is rejected, >> and << take unsignedness from the right operand, ?: does not convert its branches, ! keeps an unsigned type. Malformed lines: tokens after the expression are ignored and skipped operands may contain any operator (witnesses)."
  },
  {
   "property": "C20",
   "status": "partial",
   "theorems": [
    "C20_conditional_inclusion_partial",
    "C20_define_last_refuted",
    "C20_null_last_refuted"
   ],
   "note": "A well-nested file yields exactly the text of its selected groups (#if evaluated as in C19 after defined and C59 replacement, #ifdef/#elifdef, nested sections, #define/#undef on the way). A #define on the last line makes the reader loop for ever, a null directive there is rejected; both refuted. Not covered inside selected groups: #include, #line, #pragma."
  },
  {
   "property": "C21",
   "status": "proved",
   "theorems": [
    "C21_lookahead",
    "C21_no_loss",
    "C21_second_push_diagnosed"
   ],
   "note": ""
  },
  {
   "property": "C61",
   "status": "partial",
   "theorems": [
    "C61_strings_joined_partial",
    "C61_keyword_after_string_refuted"
   ],
   "note": "Proved when no string literal is directly followed by an identifier or character constant; otherwise that token skips keyword recognition (refuted). Ordinary literals; prefixed ones are modelled but not specified."
  },
  {
   "property": "C22",
   "status": "partial",
   "theorems": [
    "C22_terminates",
    "C22_within_source_partial",
    "C22_tiles",
    "C22_past_terminator_refuted",
    "C22_crlf_text_refuted"
   ],
   "note": "Termination, progress and tiling hold for every source. Reads stay within the terminator for sources that end in a newline as C requires; refuted for a string that ends in a backslash at end of file and for a block comment ending in a star at end of file. The text of a token spliced at CR LF keeps the splice (refuted)."
  },
  {
   "property": "C23",
   "status": "partial",
   "theorems": [
    "C23_longest_punctuator_partial",
    "C23_table",
    "C23_digraph_refuted",
    "C23_two_dots_refuted"
   ],
   "note": "Longest match over all C11 punctuators except digraphs (read as two tokens); two dots in a row are rejected (both refuted)."
  },
  {
   "property": "C24",
   "status": "partial",
   "theorems": [
    "C24_comments_partial",
    "C24_star_star_slash_refuted"
   ],
   "note": "Comments end at the first */ unless it follows another star (refuted in that case); line comments and white-space flags for every source."
  },
  {
   "property": "C62",
   "status": "proved",
   "theorems": [
    "C62_lexemes"
   ],
   "note": ""
  },
  {
   "property": "C25",
   "status": "partial",
   "theorems": [
    "C25_scoping",
    "C25_leaving_restores",
    "C25_redeclaration_refused",
    "C25_typedef_hiding_refuted"
   ],
   "note": "Full refinement to a stack of scopes for every balanced history, per name space. The C rule that an inner variable hides an outer typedef name is refuted: the table keeps typedef names in their own name space."
  },
  {
   "property": "C26",
   "status": "partial",
   "theorems": [
    "C26_ends",
    "C26_c_expressions",
    "C26_accepted",
    "C26_one_tree",
    "C26_only_c_refuted",
    "C26_missing_operand_refuted"
   ],
   "note": "Every expression of the C11 6.5 grammar is parsed to its tree, parsing ends for every token list and the accepted language is characterised exactly. The parser accepts more than C (refuted) and dereferences a missing operand of & (refuted). Compound literals, _Generic, va_* and offsetof primaries are outside the model; a type name is one token."
  },
  {
   "property": "C27",
   "status": "proved",
   "theorems": [
    "C27_use_lists",
    "C27_replacement"
   ],
   "note": "Any history of node creation, argument setting, replacement, state reads and writes and block sealing."
  },
  {
   "property": "C56",
   "status": "partial",
   "theorems": [
    "C56_dead_code_partial",
    "C56_effects_refuted",
    "C56_dangling_projection_refuted"
   ],
   "note": "Exactly the nodes a reachable return or region depends on survive, for every complete graph. Stores in a loop that no return follows are removed, and projections of removed branches stay (both refuted)."
  },
  {
   "property": "C28",
   "status": "proved",
   "theorems": [
    "C28_dominators"
   ],
   "note": "Every control-flow graph, reducible or not; the iteration is proved to end."
  },
  {
   "property": "C30",
   "status": "partial",
   "theorems": [
    "C30_operators_partial",
    "C30_unary",
    "C30_unsigned_division_sequence"
   ],
   "note": "Every binary operator at every integer type of the arithmetic width computes the value C assigns, with the exception of unsigned division (see C31), whose wrong operation is chosen; the sequence for unsigned division itself is right. Complement and negation are right at every width. The processor model X86.v is trusted."
  },
  {
   "property": "C31",
   "status": "partial",
   "theorems": [
    "C31_small_operands_partial",
    "C31_unsigned_quotient_refuted",
    "C31_unsigned_division_traps_refuted"
   ],
   "note": "Right when both operands are below 2^(width-1). Refuted otherwise: unsigned division is compiled to a signed division, so 4294967295u/2u is 0 and 2147483648u/4294967295u traps."
  },
  {
   "property": "C34",
   "status": "proved",
   "theorems": [
    "C34_clear",
    "C34_copy",
    "C34_store",
    "C34_load",
    "C34_copy_object",
    "C34_clear_object"
   ],
   "note": ""
  },
  {
   "property": "C35",
   "status": "partial",
   "theorems": [
    "C35_spill",
    "C35_spill_memory",
    "C35_load_partial",
    "C35_round_trip",
    "C35_odd_sizes_refuted"
   ],
   "note": "Storing is right for every size 1..8; loading is right for 1, 2, 4 and 8 bytes; sizes 3, 5, 6 and 7 load neighbouring bytes as well (refuted)."
  },
  {
   "property": "C32",
   "status": "partial",
   "theorems": [
    "C32_comparison_partial",
    "C32_nan_refuted"
   ],
   "note": "All six operators are right on ordered operands, > and >= on all operands. Refuted for the other four on every NaN: <, <= and == give 1, != gives 0."
  },
  {
   "property": "C33",
   "status": "partial",
   "theorems": [
    "C33_integer_to_integer",
    "C33_float_to_float",
    "C33_float_to_integer",
    "C33_integer_to_float_partial",
    "C33_negative_small_source_refuted",
    "C33_large_unsigned_source_refuted",
    "C33_negative_zero_to_bool_refuted"
   ],
   "note": "Integer to integer is proved for every pair of types. Integer to floating is right except for negative signed char/short sources and unsigned 64-bit sources of 2^63 or more, for which the refutations give what is delivered instead."
  },
  {
   "property": "C63",
   "status": "proved",
   "theorems": [
    "C63_arithmetic",
    "C63_negation"
   ],
   "note": "For every floating point unit."
  },
  {
   "property": "C64",
   "status": "partial",
   "theorems": [
    "C64_four_byte_operands_partial",
    "C64_eight_byte_operands_refuted"
   ],
   "note": "Right for operands of four bytes. Refuted for eight: the four bytes behind the int are cleared, for all operands."
  },
  {
   "property": "C36",
   "status": "proved",
   "theorems": [
    "C36_allocated",
    "C36_complete",
    "C36_disjoint",
    "C36_inside",
    "C36_prologue",
    "C36_return"
   ],
   "note": "values, objects, VLA slots, register save area, saved frame pointer; alignment proved on the machine state the prologue leaves"
  },
  {
   "property": "C29",
   "status": "partial",
   "theorems": [
    "C29_phi_copies_partial",
    "C29_exchange_refuted",
    "C29_same_predecessor_refuted"
   ],
   "note": "copies are sequential: correct without interference; two phis that exchange values (or any cycle) both get the second value; a region whose two predecessors are the same block always takes the first operand"
  },
  {
   "property": "C39",
   "status": "proved",
   "theorems": [
    "C39_ids",
    "C39_null_label",
    "C39_text_distinct",
    "C39_text_of_name",
    "C39_long_name_refuted",
    "C39_static_locals",
    "C39_strings_emitted"
   ],
   "note": "Over all registration histories: ids equal iff same request and not temporary; printed texts distinct; names of 64 or more bytes stop compilation (refuted part is an extra finding about printing, not about interning)."
  },
  {
   "property": "C43",
   "status": "proved",
   "theorems": [
    "C43_object",
    "C43_appends"
   ],
   "note": "Refinement of the builder to a view by section and symbol names, over every history of requests."
  },
  {
   "property": "C44",
   "status": "partial",
   "theorems": [
    "C44_offset",
    "C44_recorded_partial",
    "C44_recorded_refuted"
   ],
   "note": "Offsets are always aligned; the alignment is recorded only when padding was needed, and forgotten otherwise (refuted, for every alignment and state)."
  },
  {
   "property": "C45",
   "status": "partial",
   "theorems": [
    "C45_link_partial",
    "C45_entry",
    "C45_empty_section_refuted",
    "C45_undefined_symbol"
   ],
   "note": "For every linkable object; symbols of empty sections get the start of the image (refuted)."
  },
  {
   "property": "C46",
   "status": "partial",
   "theorems": [
    "C46_offset_lost_refuted",
    "C46_first_definition_partial",
    "C46_sections",
    "C46_combines"
   ],
   "note": "For every set of objects the address of a resolved reference lacks the offset of the definition in its section; right only for definitions at offset 0."
  },
  {
   "property": "C47",
   "status": "partial",
   "theorems": [
    "C47_object_partial",
    "C47_executable_partial"
   ],
   "note": "Object and executable files, from the fields of the file itself. Missing: files of 2^31 bytes or more, 2^16 or more section headers (the count in the header is cut to 16 bits), section names over 250 bytes (compilation stops)."
  },
  {
   "property": "C48",
   "status": "partial",
   "theorems": [
    "C48_round_trip_partial",
    "C48_alignment_refuted",
    "C48_many_symbols_refuted"
   ],
   "note": "Round trip of every writable object up to section alignments, which are lost (refuted), and the order of symbols, whose relocations follow; with 2^16 or more symbols relocations refer to the wrong symbol (refuted)."
  },
  {
   "property": "C49",
   "status": "partial",
   "theorems": [
    "C49_layout_partial",
    "C49_long_section_name_refuted",
    "C49_many_relocations_refuted"
   ],
   "note": "Every pointer, size, relocation, addend and symbol name of every writable object; section names over 8 bytes are always unreadable (refuted: offset lacks the 4 bytes of the table size); relocation counts are cut to 16 bits (refuted). Outside: files of 2^31 bytes or more."
  },
  {
   "property": "C52",
   "status": "partial",
   "theorems": [
    "C52_read_partial",
    "C52_packing_partial",
    "C52_pop_refuted",
    "C52_second_file_refuted"
   ],
   "note": "Every written history of pack pragmas is read token-exactly and the depth of the stack is right; the packing in force is right when no pop has anything to restore. Refuted in general: pack(pop) never changes the packing, and after a file with a push the freed stack is used again."
  },
  {
   "property": "C54",
   "status": "partial",
   "theorems": [
    "C54_terminates",
    "C54_command_line",
    "C54_every_vector_partial",
    "C54_missing_value_refuted",
    "C54_option_becomes_operand_refuted",
    "C54_m_option_becomes_operand_refuted",
    "C54_lone_dash_refuted",
    "C54_rejected"
   ],
   "note": "Every vector is either a command line recorded as it stands, or ends in an option without value, or holds an unrecognised argument; for those the actual behaviour is proved (tail of an unknown option becomes an operand, a lone dash is undefined)."
  },
  {
   "property": "C41",
   "status": "partial",
   "theorems": [
    "C41_memory_operand_partial",
    "C41_zero_rbp_refuted"
   ],
   "note": "Proved for every base register and 32-bit displacement except displacement 0 from rbp and r13, for which it is false: those name rax and r8 (refuted for every register moved)."
  },
  {
   "property": "C42",
   "status": "partial",
   "theorems": [
    "C42_defined",
    "C42_instruction_partial",
    "C42_sequence_partial",
    "C42_push_refuted",
    "C42_movabsq_refuted",
    "C42_movl_refuted",
    "C42_others_refuted",
    "C42_index_partial",
    "C42_high_index_refuted",
    "C42_scale_refuted"
   ],
   "note": "Proved against an independent decoder for every instruction the assembler accepts with the operands of 'encodable', single and in sequence; at most 15 bytes and nothing undefined for all instructions. False for r8-r15 in opcode bits and in r/m fields without REX.W, high byte registers, addq to a 32-bit register, leaq of a register, index registers r8-r15 and scales other than 1 (refuted)."
  },
  {
   "property": "C50",
   "status": "partial",
   "theorems": [
    "C50_loop_partial",
    "C50_wide_condition_refuted",
    "C50_floating_condition_refuted",
    "C50_if_integer",
    "C50_if_floating_partial",
    "C50_if_negative_zero_refuted"
   ],
   "note": "if statements branch on the full value of an integer condition, and on a floating one except for -0.0 (C50_if_negative_zero_refuted); loop conditions are right when the value fits the cast to int that the front end inserts, and refuted for multiples of 2^32 and for floating values strictly between -1 and 1. Missing: the sequencing of &&, || and ?: operands."
  },
  {
   "property": "C65",
   "status": "partial",
   "theorems": [
    "C65_integer_expressions_partial",
    "C65_frame_slots"
   ],
   "note": "Whole path of an expression: conversions and folding in expr_new, expression_to_ir, code. For every well-typed, sequenced expression, every type assignment (System V) and every store, except: unsigned division and comparisons of 64-bit operands (false, see C30, C64), a constant expression cast to _Bool (false, see C08), x >>= e with signed promoted x and unsigned common type (false, see C51). Not modelled in this chain: the scheduling and memory-to-register passes, pointers, bit-fields, calls, ?:, && and ||."
  },
  {
   "property": "C51",
   "status": "partial",
   "theorems": [
    "C51_compound_assignment_partial",
    "C51_right_shift_refuted"
   ],
   "note": "Proved for every operator, right-hand expression and pair of types, prefix and postfix, with the exceptions listed under C65; for int x >>= unsigned y the property is false for every negative x and non-zero y (refuted)."
  },
  {
   "property": "C37",
   "status": "partial",
   "theorems": [
    "C37_abi_unique",
    "C37_classes_partial",
    "C37_convention_partial",
    "C37_distinct_registers",
    "C37_boundary_refuted",
    "C37_large_refuted",
    "C37_packed_refuted",
    "C37_register_table_refuted"
   ],
   "note": "Against an independent statement of the System V classification and assignment rules: right for every conforming result and argument list, any length; registers never used twice and whole-or-stack for all types. False for an INTEGER field ending at byte 8 before an SSE eightbyte, structs of 17-32 bytes, packed structs, and more than six register pieces (caller's table overflows); all refuted."
  },
  {
   "property": "C66",
   "status": "partial",
   "theorems": [
    "C66_arguments_partial",
    "C66_hidden_argument_partial",
    "C66_aligned_frame_refuted"
   ],
   "note": "For every argument list (sizes positive, total below 2^31, at most six register pieces), every frame layout and machine state. False for callees with an object aligned to more than 16 bytes (refuted) and for more than six register pieces (C37_register_table_refuted). Missing: the order in which the scheduler emits the nodes is taken as the one in which they are made; vector pieces are taken to be 4 or 8 bytes."
  },
  {
   "property": "C67",
   "status": "partial",
   "theorems": [
    "C67_no_value_partial",
    "C67_register_partial",
    "C67_two_registers_partial",
    "C67_memory_partial",
    "C67_short_object_refuted",
    "C67_mixed_refuted",
    "C67_memory_address_refuted"
   ],
   "note": "For every type of one eightbyte, of sixteen bytes in two INTEGER eightbytes, and of class MEMORY, every frame and machine state, whatever the body does as long as it keeps its frame. False for values of 9-15 bytes (bytes behind the result object are overwritten), for {INTEGER, SSE} (callee uses rdx, caller reads xmm0), and rax does not hold the address of a result in memory; all refuted. Missing: bodies are not shown to keep their frame; r12-r15 are not followed."
  },
  {
   "property": "C68",
   "status": "partial",
   "theorems": [
    "C68_aligned_partial",
    "C68_restored_partial",
    "C68_leak_refuted"
   ],
   "note": "Alignment for every call and callee frame; the stack pointer is restored by calls without stack arguments. With stack arguments it ends 2*sub lower for every call (refuted), because the space is subtracted twice. Missing: variable length arrays between the entry and the call."
  },
  {
   "property": "C38",
   "status": "partial",
   "theorems": [
    "C38_va_arg_partial",
    "C38_vector_refuted"
   ],
   "note": "Call, function entry, va_start and any number of va_arg run on the machine and deliver the unnamed arguments in order. Missing: functions with an object aligned to more than 16 bytes (there the frame pointer is moved, see C66_aligned_frame_refuted); va_arg of a double or other argument with a vector register is rejected by the compiler, which is what C38_vector_refuted states; va_copy; calls under the Microsoft convention. The order of nodes inside the call and entry sequences is the one sysv.c makes."
  },
  {
   "property": "C53",
   "status": "partial",
   "theorems": [
    "C53_definitions_partial",
    "C53_lost_definition_refuted",
    "C53_block_statics"
   ],
   "note": "Holds of every sequence of declarations unless an object that is only tentatively defined is declared extern last: then it is not emitted at all (refuted, for every such sequence). Types are compared as type_make_composite does; an array whose length is never given is emitted as incomplete."
  },
  {
   "property": "C40",
   "status": "partial",
   "theorems": [
    "C40_image_partial",
    "C40_string_refuted",
    "C40_not_constant_refuted"
   ],
   "note": "For every type, initializer that fits it, label, alignment and earlier contents of the object file (C43 relates these to the file): bytes, relocations and symbol are exactly the image. False for strings that fit only without their zero (written past the buffer, refuted for every length) and for initialisers that are not constant (zero without a diagnostic). Missing: turning the text of an initializer into its tree (designators), and unions with several designated members."
  },
  {
   "property": "C55",
   "status": "partial",
   "theorems": [
    "C55_promotion_partial",
    "C55_built",
    "C55_own_value_refuted"
   ],
   "note": "For every graph whose states form chains joined by phis: every load of the object gives way to a node that, whenever the load reads, holds what was last written, writes leave the chain of states and nothing else changes. False if a store puts a load of the same object there (`x = x` in a loop): a load survives whose stores are gone (refuted). Missing: that the search ends, and that the value lasts until the load is used."
  },
  {
   "property": "C69",
   "status": "partial",
   "theorems": [
    "C69_statements_partial",
    "C69_compiled_partial",
    "C69_continue_refuted",
    "C69_two_continues_refuted",
    "C69_duff_refuted",
    "C69_default_refuted"
   ],
   "note": "For every function that keeps the constraints of C and has no case, default or continue inside a loop or switch other than its own: it compiles, and its blocks and its statements return, fall off or loop alike and pass through the same stores. False otherwise: a while with a continue inside a switch never compiles (for every function that contains one), a case in a loop inside its switch gives a block two successors, a default there is forgotten (all proved). Missing: the token that parse_labeled_statement takes after default, and the blocks &&, || and ?: make inside an expression."
  },
  {
   "property": "C70",
   "status": "partial",
   "theorems": [
    "C70_initializers_partial",
    "C70_stuck_refuted",
    "C70_second_list_refuted",
    "C70_union_refuted",
    "C70_comma_refuted",
    "C70_const_refuted"
   ],
   "note": "For every type and initializer, the parser gives the parts of the object the values of C's position rules. False, and refuted for all expressions: a list going on after the last member of an object entered by a designator with several levels is rejected; a second braced list for an object leaves what the first gave; several members of a union are all kept; a comma after a single value in braces (a string becomes one pointer-valued element); struct values that differ in const are used for the first member."
  },
  {
   "property": "C71",
   "status": "partial",
   "theorems": [
    "C71_declaration_partial",
    "C71_definition_partial",
    "C71_type_name_partial",
    "C71_brackets",
    "C71_static_parameter",
    "C71_const_twice_refuted",
    "C71_const_array_refuted",
    "C71_deref_refuted",
    "C71_typedef_refuted",
    "C71_void_refuted",
    "C71_scope_refuted",
    "C71_comma_refuted"
   ],
   "note": "Every declaration, definition header and type name is read to its end and gives the types of C. False, and refuted for all instances: const written twice is lost; const with the name of an array type qualifies the pointer and not the elements of a parameter; a size starting with a star is refused; a parenthesised typedef name cannot be redeclared; (V) with V a name for void declares a parameter; the body of a function that returns a function pointer and has no parameters sees the parameters of that pointer; missing and trailing commas are accepted. Not modelled: bit-fields and struct members, _Alignas, changes of the typedef names within one declaration."
  },
  {
   "property": "C72",
   "status": "partial",
   "theorems": [
    "C72_placement_partial",
    "C72_order_partial",
    "C72_operands_refuted",
    "C72_states_refuted",
    "C72_dead_code_refuted"
   ],
   "note": "Scheduling ends, puts each instruction in the last block serving all its reachable users, and gives each reachable block one list; when no phi takes a value of its own block and the other users of a state replaced in its block are there too or need only earlier blocks, every instruction is listed once, operands and phi operands are computed in time and users of a state come before its replacement in the same block. False without this, with witnesses: while (x &= x - 1) computes x & t before t = x - 1; a load is moved below a store that replaces the state it reads; a phi operand from unreachable code makes the compiler follow a null pointer. Missing: the state order across blocks, which is false."
  },
  {
   "property": "C73",
   "status": "partial",
   "theorems": [
    "C73_types_partial",
    "C73_value_partial",
    "C73_generic_partial",
    "C73_standard",
    "C73_fold_zero",
    "C73_void_refuted",
    "C73_conditional_const_refuted",
    "C73_conditional_null_refuted",
    "C73_const_member_refuted",
    "C73_bit_field_cast_refuted",
    "C73_const_bit_field_refuted",
    "C73_shift_refuted",
    "C73_const_struct_refuted",
    "C73_const_changed_refuted",
    "C73_long_double_refuted",
    "C73_double_zero_refuted"
   ],
   "note": "Every expression typed by the rules of 6.5 with the strict conditions is accepted with its C type and _Generic selects by it, whatever constants fold to. The strict conditions leave out what is refuted: ?: of a pointer to void or with const pointees, members of const structures, casts and qualifiers of bit-fields, shifts of const static objects, ?: of const structures, ++ on const locals, long double with integer constants, double constants as conditions."
  },
  {
   "property": "C74",
   "status": "partial",
   "theorems": [
    "C74_arguments_partial",
    "C74_stack",
    "C74_agree",
    "C74_result",
    "C74_va_arg_partial",
    "C74_va_start_refuted",
    "C74_result_address_refuted",
    "C74_long_double_refuted",
    "C74_unnamed_float_refuted"
   ],
   "note": "Every argument that is named or not floating is where the convention puts it, the stack area is aligned and large enough, callees read what callers passed, results agree, and va_arg delivers the unnamed arguments in order. False, and refuted for all instances: variadic functions that return through an address start va_arg one slot early; the address of the result is not returned in RAX; a function returning long double takes the address of the result from a vector register; unnamed floating arguments are not in vector registers. Missing: the instructions are not executed (Passing.v does that for the other convention), and arguments by reference are not copied before the call."
  },
  {
   "property": "C75",
   "status": "partial",
   "theorems": [
    "expressions_read_write_and_yield_partial",
    "assigned_bit_field_value_refuted",
    "dereferenced_constant_refuted",
    "wide_comparison_value_refuted"
   ],
   "note": "Proved for all well-typed expressions of the listed forms, by induction, but for three uses that are refuted: the value of an assignment to a bit-field is not reduced to the bit-field; an address constant reached through an assignment, comma, cast to the same type or unary plus is not dereferenced; a comparison of eight-byte operands yields eight bytes (C64), which only matters where it is used as a value. Missing: calls, compound literals, floating types, shifts and divisions (C65), variable length arrays, members of structures that are not objects."
  },
  {
   "property": "C76",
   "status": "partial",
   "theorems": [
    "files_stand_for_their_lines_partial",
    "missing_header_is_rejected",
    "once_goes_by_name_refuted"
   ],
   "note": "Proved for all nestings of files and sections. #pragma once goes by the path a file was found under, so the same file under another name is read again: refuted. Missing: files whose last line is a #define, a null directive or an #include naming its header by macros (C20), #line, other pragmas, and headers that leave an #if section open (the compiler continues the section in the including file)."
  },
  {
   "property": "C77",
   "status": "partial",
   "theorems": [
    "tags_denote_types_partial",
    "tags_are_not_redefined",
    "inner_self_reference_refuted",
    "tag_alone_refuted",
    "enumerations_are_redefined_refuted"
   ],
   "note": "Proved for all programs of blocks, declarations and nested specifiers, but for uses that are refuted: a tag defined in an inner scope that occurs in its own member list while an outer tag of that name is visible (the outer type is taken), a tag declared alone in such a scope (no new type is declared), and enumerations, which can be defined twice."
  },
  {
   "property": "C78",
   "status": "partial",
   "theorems": [
    "enumeration_constants_partial",
    "redeclared_enumerator_is_rejected",
    "after_unsigned_refuted",
    "enumeration_constant_type_refuted",
    "too_large_enumeration_constant_refuted"
   ],
   "note": "Proved for all lists whose expressions have type int, in every scope and whether or not a comma ends the list. False, and refuted for all instances: an enumerator without expression after one of unsigned type stops the compiler; a constant keeps the type of its expression instead of int; a constant one above INT_MAX is accepted. The expressions include ?:, !, && and || as long as the operands that are not evaluated have values too (see C87). Missing: sizeof, conversions to _Bool (C08), the Microsoft data model."
  },
  {
   "property": "C79",
   "status": "partial",
   "theorems": [
    "paste_yields_the_token_partial",
    "paste_yields_tokens_partial",
    "paste_in_calls_partial",
    "paste_is_refused_refuted",
    "paste_makes_no_token_refuted",
    "empty_operand_refuted"
   ],
   "note": "Proved for all pairs of identifiers and numbers and all pairs of punctuators, and for calls of function-like macros with any number of ## and any arguments (empty ones included) among tokens that are no macro names. False, and refuted: an empty argument as the first of several operands pastes the token before it in the replacement list (#define F(a,b) x a##b makes F(,y) xy); . ## 5, 1 ## . and L ## string are rejected; x ## 1.5 is accepted. Missing: pasted tokens that are macro names, # and __VA_ARGS__ beside ##."
  },
  {
   "property": "C80",
   "status": "partial",
   "theorems": [
    "command_line_files_partial",
    "other_operands_are_refused",
    "one_output_for_many_is_refused",
    "data_of_other_sources_refuted",
    "source_after_packing_refuted",
    "assembly_and_object_refuted",
    "dependencies_when_linking_refuted",
    "short_operand_refuted",
    "preprocess_options_refuted"
   ],
   "note": "Proved for all command lines from the argument vector on (with C54): the files and the settings, and the refusals. False, and refuted: when several sources are compiled in one run, each output also contains the string literals and static variables of the sources before it; a second source after one with #pragma pack(push) frees memory twice; -S -c overwrites the assembly with an empty object; -MD while linking opens NULL; an operand of one character is read out of bounds; -E refuses -U and ignores -o and -MD. Missing: -s (not implemented); -fdump-ir and -fdebug-stack-size."
  },
  {
   "property": "C81",
   "status": "partial",
   "theorems": [
    "redeclarations_partial",
    "conflicts_are_refused_partial",
    "conflicts_accepted_refuted",
    "compatible_refused_refuted",
    "definitions_refuted"
   ],
   "note": "Proved for all sequences of declarations whose types have nothing left open inside (array length or parameters may be left open on the outside): accepted with the composite type, and with nothing open at all refused when two conflict. False, and refuted: extern int x[]; char x[3]; is accepted, so are int f(); char f(int); and int f(); int f(float);; pointers to arrays of unknown and known length conflict, and so do int f(int); int f(const int);; a function definition is not compared with earlier declarations; static int f(void); int f(void) {} exports f. Missing: variable-length arrays, typedef names."
  },
  {
   "property": "C82",
   "status": "proved",
   "theorems": [
    "C82_peephole"
   ],
   "note": "For every history of graph operations (as for C27) that leaves a complete graph. A phi that is its own only operand keeps that one use."
  },
  {
   "property": "C83",
   "status": "partial",
   "theorems": [
    "preprocessed_text_partial",
    "preprocessed_constants_refuted",
    "preprocessed_strings_refuted",
    "preprocessed_adjacent_refuted",
    "preprocessed_long_refuted"
   ],
   "note": "Proved for identifiers without letters outside of ASCII, keywords, numbers and punctuators of at most 98 characters that are marked as separated: the tokenizer accepts the printed text and finds these tokens in it. False, and refuted: character constants are printed as the name of their kind, strings without their escape sequences, tokens from macros next to each other, and long tokens lose their last character."
  },
  {
   "property": "C84",
   "status": "partial",
   "theorems": [
    "dependency_rules_partial",
    "dependency_blanks_refuted",
    "dependency_file_refuted"
   ],
   "note": "Proved for all sequences of sources and of files opened for them whose names have no characters special to make: each file is one rule with that target and those prerequisites, and has no other reading. The files opened are given as a sequence, not derived from the model of inclusion. False, and refuted: paths with blanks are split, and a dependency file that cannot be created is undefined behaviour."
  },
  {
   "property": "C85",
   "status": "partial",
   "theorems": [
    "line_numbers_partial",
    "second_line_refuted",
    "line_before_define_refuted",
    "line_before_include_refuted",
    "line_at_the_end_refuted"
   ],
   "note": "Proved for all sources of text and #line directives in which a directive without a file name comes only before any other and is not the last line. The file name is not modelled, nor numbers from macros. False, and refuted: a second directive without a name, #define or #include after #line give wrong numbers, and #line on the last line is refused."
  },
  {
   "property": "C86",
   "status": "partial",
   "theorems": [
    "offsetof_partial",
    "offsetof_unique",
    "offsetof_index_refuted",
    "offsetof_no_member_refuted"
   ],
   "note": "Proved for all types and lists of designators whose indices are constants that promote to int: the constant is the distance of the part named, and every constant given is such a distance. The offsets of the members are those of the layout (C12), given here with the type. False, and refuted: an index of another integer type gives no constant, and an unknown first member followed by a further one is undefined behaviour of the compiler."
  },
  {
   "property": "C87",
   "status": "partial",
   "theorems": [
    "static_assertions_partial",
    "accepted_assertions",
    "static_assertion_bool_refuted",
    "unevaluated_operand_refuted"
   ],
   "note": "Proved for all integer constant expressions made of constants, enumeration constants, unary and binary operators, ?: (hence !, && and ||) whose unevaluated operands have values, and casts to types other than _Bool: accepted exactly if the value is not 0; and every accepted declaration has the form of an assertion. Floating expressions and sizeof are not in the expressions modelled. False, and refuted: with casts to _Bool true assertions are refused and false ones accepted; 1 ? k : 1 / 0 is refused for every k other than 0, and 1 ? k : 1 % 0 makes the compiler itself divide by 0."
  },
  {
   "property": "C88",
   "status": "partial",
   "theorems": [
    "line_macro",
    "file_macro_partial",
    "other_names_are_not_builtin",
    "file_macro_refuted"
   ],
   "note": "Proved for all line numbers below 2^31 and all paths without quotes, backslashes and bytes 255, down to the constant and the bytes of the string that the parser gets. That the number is that of the line is C85. False, and refuted: the path is not escaped, so backslashes in it are read as escape sequences."
  },
  {
   "property": "C89",
   "status": "partial",
   "theorems": [
    "vla_sizes_partial",
    "file_scope_vla_refuted",
    "star_size_refuted"
   ],
   "note": "Proved for all types without the size [*] at block scope: every size expression is evaluated exactly once and sizeof is the product of the values at the declaration after any further declarations. Storage of the arrays and pointer arithmetic over them are not modelled. False, and refuted: no variable-length array is refused at file scope, and a prototype with [*] at block scope is undefined behaviour of the compiler."
  },
  {
   "property": "C90",
   "status": "partial",
   "theorems": [
    "constant_conditions_partial",
    "double_condition_refuted",
    "float_condition_refuted"
   ],
   "note": "Proved for all integer and pointer constants, all floats but those zeros beside which the union has other bits set, and all doubles that are 0 or whose low 31 bits are not all 0. False, and refuted for all instances: every other double (1.0, 0.5, all small integers) counts as 0, because the test reads a double as float; the remaining float zeros, such as -0.0f and (float)1e-300, count as true. Nothing else is missing: constants of long double cannot be written."
  }
 ]
}
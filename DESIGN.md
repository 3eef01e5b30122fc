# Formal model of lasarus/C-Compiler in Rocq (Coq 8.16.1)

## Approach

The compiler is C code. It is read as text only. Each modelled function becomes a total
computable Gallina function in `rocq/theories`, with a comment giving file and lines in /repo.
C undefined behaviour, `ICE`/`ERROR`/`NOTIMP` exits and out-of-bounds accesses are distinct
outcomes of the model (`Undef`, `Fail`), never silently given a value. Loops become structural
recursion, folds, or recursion on fuel; where fuel is used a theorem shows that it suffices.
Machine words are `Z` with explicit wrap-around.

File conventions: `X.v` is the model, `XSpec.v` a specification that does not use the model's
helpers, `XProofs.v` lemmas, `CnnProps.v` the statements of property Cnn with `Print Assumptions`
beneath each and concrete `Example`s that meet the hypotheses.

When the faithful model violates a property, a theorem named `..._refuted` proves that it does
(for a witness, or for all inputs of a class, with the value delivered instead) and the strongest
true statement is proved beside it with the suffix `_partial`. The manifest calls such a property
"partial" and its note says what is missing and whether it is missing or false.

## Trusted base

- Coq's kernel (8.16.1) and `coqchk`.
- Axioms: `Print Assumptions` says "Closed under the global context" for every theorem listed in
  the manifest. No axiom, `Admitted`, `Parameter` or kernel switch is used. `coqchk` lists for the
  whole build only the axioms `Coq.ssr.ssrunder.Under_rel.*` of the standard library, which it
  finds in library modules loaded by the proof mode; no theorem depends on them.
- The reading of the C code, i.e. that each definition says what the cited lines do. C `int` is
  32 bits, `char` 8 bits and signed, two's complement.
- `X86.v`: what the processor does with the instructions the code generator emits (Intel manual).
  Flat memory, no faults other than running over the end of the address space, division errors
  and undefined flags; rounding of the floating point unit is a parameter over which theorems
  quantify. Properties C29-C36, C50, C51, C63-C65 rest on it.
- `EncodeSpec.v`: an independent decoder of x86-64 machine code, written from the manual's tables,
  against which the encoder is proved (C41, C42).
- The specifications (`*Spec.v`): the C11 standard (types, conversions, operators, preprocessing,
  grammar, lexical elements), System V and Microsoft ABI type sizes, ELF-64 and PE/COFF layouts,
  as far as each property needs them.

## Properties: what is modelled and how it is proved

- **C01 Little-endian field access** (`Bytes.v`): model: byte buffers as lists of N; write_N/read_N defined by the same nesting of 8/16/32-bit halves as the C code. Proof: round trip + frame theorem against a positional spec (sum b_i*256^i). Status: proved; theorems `C01_write_read_roundtrip`, `C01_read_write_identity`, `C01_file_write_appends`, `C01_file_skip_pads`.
- **C02 Round-up helper** (`Common.v`): model: C int arithmetic on Z, the truncating %. Proof: least-multiple characterisation. Status: proved; theorems `C02_round_up_least_multiple`.
- **C03 Bit-field store/load code** (`BitFields.v`): model: 64-bit words as N with testbit; gen_mask, and the node sequence built by ir_set_bits/ir_get_bits evaluated by a word semantics of IR_BAND/BOR/NOT/SHIFT/CAST. Proof: bitwise extensionality (N.bits_inj). Status: proved; theorems `C03_bitfield_store_load`, `C03_bitfield_frame`.
- **C04 UTF-8 encoding of universal characters** (`Utf8.v`): model: encoder/decoder as functions to/from byte lists. Proof: case split on ranges + div/mod arithmetic, injectivity from round trip. Status: proved; theorems `C04_encode_is_utf8`, `C04_decode_encode`, `C04_code_point_length`, `C04_prefix_free`, `C04_too_large_refused`.
- **C05 Escape sequences in assembly text** (`Escape.v`): model: printer per byte, reader = independent spec of a GAS string reader. Proof: induction over the string. Status: partial; theorems `C05_string_line_partial`, `C05_del_refuted`.
- **C06 Escape sequences in source text** (`Escape.v`): model: escape_sequence_read with position/remaining string. Proof: octal/simple proved; hex refuted (the code multiplies by 8). Status: partial; theorems `C06_escape_value_partial`, `C06_string_literal_partial`, `C06_header_name`, `C06_hex_refuted`, `C06_ff_refuted`.
- **C07 Integer literal value and type** (`IntLit.v`): model: prefix/suffix scanning, digit accumulation mod 2^64, candidate-type loop. Proof: induction over digits, spec from C11 table. Status: proved; theorems `C07_integer_literal`, `C07_bad_digit_refused`.
- **C08 Integer conversions of constants** (`ConstConv.v`): model: constant casts with conv_* helpers. Proof: modular arithmetic; _Bool refuted. Status: partial; theorems `C08_constant_conversion_partial`, `C08_conversion_unique`, `C08_bool_refuted`, `C08_bool_partial`.
- **C09 Integer promotion and usual arithmetic conversions** (`ArithConv.v`): model: finite type tables, both ABIs. Proof: complete case analysis over the finite domain (exhaustive, no bound is involved). Status: partial; theorems `C09_common_type_sysv`, `C09_promotion_sysv`, `C09_common_type_ms_partial`, `C09_ms_long_refuted`, `C09_bitfield_promotion`, `C09_default_argument_promotion`.
- **C10 Declaration specifiers** (`Specifiers.v`): model: set_sbit state machine over keyword lists. Proof: invariant: state = counts of keywords; spec = C11 table of multisets. Status: partial; theorems `C10_specifiers_partial`, `C10_order_irrelevant`, `C10_const_partial`, `C10_long_double_refuted`, `C10_repeated_const_refuted`.
- **C11 Constant folding agrees with C** (`ConstFold.v`): model: operators_constant on Z with C UB as a distinct outcome. Proof: equality with spec for defined cases; UB reachability refuted. Status: partial; theorems `C11_fold_binary`, `C11_fold_unary`, `C11_bitwise_defined`, `C11_signed_div_zero`, `C11_signed_mod_zero_refuted`, `C11_unsigned_div_zero_refuted`, `C11_overflowing_quotient_refuted`.
- **C12 Struct layout** (`Layout.v`): model: calculate_offsets loop over fields. Proof: fold invariant (sorted, disjoint, least). Status: partial; theorems `C12_struct_layout`, `C12_members_disjoint`, `C12_alignment_of_elements`, `C12_complex_member_refuted`.
- **C13 Bit-field layout** (`Layout.v`): model: same loop with bit-fields. Proof: refuted by witness, restricted positive theorem. Status: partial; theorems `C13_bitfield_layout_partial`, `C13_smaller_type_refuted`, `C13_zero_width_refuted`.
- **C14 Union layout** (`Layout.v`): model: union branch. Proof: fold invariant. Status: proved; theorems `C14_union_layout`, `C14_alignment`.
- **C15 Type identity** (`Types.v`): model: hash table of interned types with chained buckets. Proof: invariant over histories. Status: proved; theorems `C15_type_identity`, `C15_objects_immutable`.
- **C16 Macro table** (`MacroTable.v`): model: 1024 bucket chained hash table, djb2 hash. Proof: refinement to a finite map. Status: proved; theorems `C16_macro_table`.
- **C17 Hide sets** (`StringSet.v`): model: sorted arrays and merge loops as written. Proof: refuted in general; positive theorem for the order the merge loops assume. Status: partial; theorems `C17_insert_union_membership`, `C17_no_false_member`, `C17_intersection_partial`, `C17_self_intersection`, `C17_intersection_refuted`.
- **C18 push_macro/pop_macro** (`MacroTable.v`): model: push/pop stack. Proof: refinement. Status: partial; theorems `C18_push_pop_partial`, `C18_pop_restores`, `C18_push_undefined_refuted`.
- **C19 #if expressions** (`PPExpr.v`): model: evaluator of directives.c over tokens. Proof: refinement to big-step spec. Status: partial; theorems `C19_value_partial`, `C19_type_and_value_partial`, `C19_violation_diagnosed`, `C19_unevaluated_silent`, `C19_terminates`, `C19_malformed_rejected_partial`, `C19_complement_refuted`, `C19_shift_refuted`, `C19_conditional_type_refuted`, `C19_not_type_refuted`, `C19_trailing_tokens_refuted`, `C19_skipped_operators_refuted`.
- **C20 Conditional inclusion** (`Directives.v`): model: cond_stack machine over line events. Proof: simulation against a recursive spec over well-nested trees. Status: partial; theorems `C20_conditional_inclusion_partial`, `C20_define_last_refuted`, `C20_null_last_refuted`.
- **C21 Token look-ahead** (`Lookahead.v`): model: 3 slot window + pushed slot. Proof: refinement to stream. Status: proved; theorems `C21_lookahead`, `C21_no_loss`, `C21_second_push_diagnosed`.
- **C22 Tokenizer progress** (`Tokenizer.v`): model: cursor over char list with terminator. Proof: well-founded recursion / fuel with sufficiency theorem. Status: partial; theorems `C22_terminates`, `C22_within_source_partial`, `C22_tiles`, `C22_past_terminator_refuted`, `C22_crlf_text_refuted`.
- **C23 Punctuator maximal munch** (`Tokenizer.v`): model: punctuator decision tree. Proof: prefix analysis. Status: partial; theorems `C23_longest_punctuator_partial`, `C23_table`, `C23_digraph_refuted`, `C23_two_dots_refuted`.
- **C24 Comments** (`Tokenizer.v`): model: comment skipper. Proof: induction; refuted for **/. Status: partial; theorems `C24_comments_partial`, `C24_star_star_slash_refuted`.
- **C25 Symbol scoping** (`Symbols.v`): model: entries array + buckets + links. Proof: refinement to stack of scopes. Status: partial; theorems `C25_scoping`, `C25_leaving_restores`, `C25_redeclaration_refused`, `C25_typedef_hiding_refuted`.
- **C26 Operator precedence parsing** (`Pratt.v`): model: parse_pratt with the precedence table. Proof: induction over trees. Status: partial; theorems `C26_ends`, `C26_c_expressions`, `C26_accepted`, `C26_one_tree`, `C26_only_c_refuted`, `C26_missing_operand_refuted`.
- **C27 Use lists** (`IR.v`): model: node graph as finite maps. Proof: invariant over histories. Status: proved; theorems `C27_use_lists`, `C27_replacement`.
- **C28 Dominator tree** (`Dominator.v`): model: iterative algorithm. Proof: fixpoint invariant. Status: proved; theorems `C28_dominators`.
- **C29 Phi elimination** (`Phi.v`): model: sequential copies. Proof: refuted (swap); positive theorem without interference. Status: partial; theorems `C29_phi_copies_partial`, `C29_exchange_refuted`, `C29_same_predecessor_refuted`.
- **C30 Integer operator code** (`X86.v`, `Codegen.v`, `OpSelect.v`): model: x86 register/flag semantics of the emitted sequences. Proof: word arithmetic. Status: partial; theorems `C30_operators_partial`, `C30_unary`, `C30_unsigned_division_sequence`.
- **C31 Unsigned division** (`OpSelect.v`): model: IR selection composed with the sequences. Proof: refuted + positive below 2^(w-1). Status: partial; theorems `C31_small_operands_partial`, `C31_unsigned_quotient_refuted`, `C31_unsigned_division_traps_refuted`.
- **C32 Floating comparisons** (`Codegen.v`, `X86.v`): model: ucomis flag semantics over abstract comparison outcomes. Proof: case analysis; NaN refuted. Status: partial; theorems `C32_comparison_partial`, `C32_nan_refuted`.
- **C33 Scalar conversions in generated code** (`CastSelect.v`, `Codegen.v`): model: movs/movz/cvtsi2s sequences. Proof: word arithmetic; int8/16 and uint64 sources refuted. Status: partial; theorems `C33_integer_to_integer`, `C33_float_to_float`, `C33_float_to_integer`, `C33_integer_to_float_partial`, `C33_negative_small_source_refuted`, `C33_large_unsigned_source_refuted`, `C33_negative_zero_to_bool_refuted`.
- **C34 Block copy and clear code** (`Codegen.v`): model: chunk loops. Proof: induction on n. Status: proved; theorems `C34_clear`, `C34_copy`, `C34_store`, `C34_load`, `C34_copy_object`, `C34_clear_object`.
- **C35 Scalar spills** (`Codegen.v`): model: register spills. Proof: case per size. Status: partial; theorems `C35_spill`, `C35_spill_memory`, `C35_load_partial`, `C35_round_trip`, `C35_odd_sizes_refuted`.
- **C36 Stack frame layout** (`Frame.v`): model: slot allocator fold. Proof: induction over requests. Status: proved; theorems `C36_allocated`, `C36_complete`, `C36_disjoint`, `C36_inside`, `C36_prologue`, `C36_return`.
- **C37 Register argument assignment** (`SysV.v`, `SysVSpec.v`): model: classify and get_calling_convention of the System V back end. Proof: each eightbyte's class by induction over the type tree, then a fold invariant over arguments against the ABI's left-to-right rule; four `_refuted` theorems for types outside `conforming`. Status: partial; theorems `C37_abi_unique`, `C37_classes_partial`, `C37_convention_partial`, `C37_distinct_registers`, `C37_boundary_refuted`, `C37_large_refuted`, `C37_packed_refuted`, `C37_register_table_refuted`.
- **C38 Variadic argument walk** (`VaArg.v`, `VaArgSpec.v`, `VaArgProofs.v`, `VaArgWalk.v`, `C38Props.v`): model: sysv_emit_va_start, sysv_emit_va_arg (with its two labels) on top of the call and entry code of `Passing.v`. Proof: `serves` says that one va_arg after the other delivers the listed arguments whatever quiet code runs in between; induction over the unnamed arguments with the va_list fields as invariant. Arguments in vector registers are rejected by the compiler (`C38_vector_refuted`). Status: partial; theorems `C38_va_arg_partial`, `C38_vector_refuted`.
- **C39 String label interning** (`Labels.v`): model: interning table. Proof: invariant over histories. Status: proved; theorems `C39_ids`, `C39_null_label`, `C39_text_distinct`, `C39_text_of_name`, `C39_long_name_refuted`, `C39_static_locals`, `C39_strings_emitted`.
- **C40 Static data image** (`StaticData.v`): model: constant_to_buffer, codegen_initializer_recursive, the emission loop and codegen_static_var. Proof: bit-level effect of each write by induction over the initializer; disjointness of the places from the layout; strong induction over the emission loop. Strings without room for their zero and initialisers that are not constant refuted. Status: partial; theorems `C40_image_partial`, `C40_string_refuted`, `C40_not_constant_refuted`.
- **C41 Memory operand encoding** (`Encode.v`): model: encode_sib. Proof: decoder spec; RBP/R13 zero displacement refuted. Status: partial; theorems `C41_memory_operand_partial`, `C41_zero_rbp_refuted`.
- **C42 Instruction encoding** (`Encode.v`): model: assemble_encoding over the table. Proof: decoder spec. Status: partial; theorems `C42_defined`, `C42_instruction_partial`, `C42_sequence_partial`, `C42_push_refuted`, `C42_movabsq_refuted`, `C42_movl_refuted`, `C42_others_refuted`, `C42_index_partial`, `C42_high_index_refuted`, `C42_scale_refuted`.
- **C43 Object building** (`Object.v`): model: object builder state. Proof: invariants over histories. Status: proved; theorems `C43_object`, `C43_appends`.
- **C44 Alignment requests** (`Object.v`): model: object_align. Proof: refuted + partial. Status: partial; theorems `C44_offset`, `C44_recorded_partial`, `C44_recorded_refuted`.
- **C45 Link-time relocation** (`Linker.v`): model: single-object link. Proof: fold over relocations. Status: partial; theorems `C45_link_partial`, `C45_entry`, `C45_empty_section_refuted`, `C45_undefined_symbol`.
- **C46 Cross-object symbols** (`Linker.v`): model: combine_objects. Proof: refuted + partial. Status: partial; theorems `C46_offset_lost_refuted`, `C46_first_definition_partial`, `C46_sections`, `C46_combines`.
- **C47 ELF object layout** (`Elf.v`): model: section allocation and writer. Proof: fold invariant. Status: partial; theorems `C47_object_partial`, `C47_executable_partial`.
- **C48 ELF round trip** (`Elf.v`): model: writer/reader on bytes. Proof: round-trip induction. Status: partial; theorems `C48_round_trip_partial`, `C48_alignment_refuted`, `C48_many_symbols_refuted`.
- **C49 COFF layout** (`Coff.v`): model: allocate and write. Proof: induction over sections. Status: partial; theorems `C49_layout_partial`, `C49_long_section_name_refuted`, `C49_many_relocations_refuted`.
- **C50 Loop conditions** (`Condition.v`): model: expression_to_int applied to conditions. Proof: refuted + partial. Status: partial; theorems `C50_loop_partial`, `C50_wide_condition_refuted`, `C50_floating_condition_refuted`, `C50_if_integer`, `C50_if_floating_partial`, `C50_if_negative_zero_refuted`.
- **C51 Compound assignment** (`CExpr.v`): model: fix_assignment_operators. Proof: refuted for shifts + partial. Status: partial; theorems `C51_compound_assignment_partial`, `C51_right_shift_refuted`.
- **C52 #pragma pack** (`Pragma.v`): model: pack stack. Proof: refuted + partial. Status: partial; theorems `C52_read_partial`, `C52_packing_partial`, `C52_pop_refuted`, `C52_second_file_refuted`.
- **C53 Tentative definitions** (`Tentative.v`): model: parse_init_declarator for objects at file scope and in blocks, generate_tentative_definitions. Proof: invariant over declaration lists linking symbol flags, the list of tentative names and the registered objects to the declarations seen; a last extern declaration loses the object (refuted). Status: partial; theorems `C53_definitions_partial`, `C53_lost_definition_refuted`, `C53_block_statics`.
- **C54 Command line** (`Arguments.v`): model: arguments_parse. Proof: induction over argv. Status: partial; theorems `C54_terminates`, `C54_command_line`, `C54_every_vector_partial`, `C54_missing_value_refuted`, `C54_option_becomes_operand_refuted`, `C54_m_option_becomes_operand_refuted`, `C54_lone_dash_refuted`, `C54_rejected`.
- **C55 Memory-to-register promotion** (`Mem2reg.v`, `Mem2regSpec.v`, `Mem2regProofs.v`, `Mem2regMain.v`, `C55Props.v`): model: mem2reg.c on the graph of IR.v with its scratch cache. Specification: executions as sequences of moments (a state and the values that are valid), what the object holds in one. Proof: the cache is consistent with the chain of states throughout (invariant with the phis that are still open), induction over executions; stores of the object's own value: refuted by a loop. Status: partial; theorems `C55_promotion_partial`, `C55_built`, `C55_own_value_refuted`.
- **C56 Dead code removal** (`RemoveDead.v`): model: mark and sweep. Proof: reachability invariant. Status: partial; theorems `C56_dead_code_partial`, `C56_effects_refuted`, `C56_dangling_projection_refuted`.
- **C57 Stringification** (`Escape.v`): model: stringify over token spellings. Proof: induction; byte 127 refuted. Status: partial; theorems `C57_stringify_spelling_partial`, `C57_stringify_argument_partial`, `C57_del_refuted`.
- **C58 Too large integer literals** (`IntLit.v`): model: as C07. Proof: characterisation of rejected digit strings; silent reduction refuted. Status: partial; theorems `C58_too_large_literal_partial`, `C58_too_large_literal_refuted`.
- **C59 Macro replacement** (`Expander.v`): model: expander over token lists with hide sets. Proof: refinement to C11 6.10.3.4 for object-like macros, with termination; function-like refuted. Status: partial; theorems `C59_expand_line`, `C59_expand_source`, `C59_result_unique`, `C59_function_like_refuted`.
- **C60 Function-like macro calls** (`Expander.v`): model: argument collection and substitution. Proof: induction over nested parentheses. Status: partial; theorems `C60_call_substitution_partial`.
- **C61 String literal joining and keywords** (`Lookahead.v`): model: next() over the expanded stream. Proof: induction over the stream. Status: partial; theorems `C61_strings_joined_partial`, `C61_keyword_after_string_refuted`.
- **C62 Shape of identifiers, numbers and literals** (`Tokenizer.v`): model: as C22. Proof: longest match per token class. Status: proved; theorems `C62_lexemes`.
- **C63 Floating arithmetic in generated code** (`Codegen.v`, `X86.v`): model: SSE sequences. Proof: execution, for every floating point unit. Status: proved; theorems `C63_arithmetic`, `C63_negation`.
- **C64 Comparison results stored in an int** (`Codegen.v`): model: comparison node, store. Proof: execution; 8-byte operands refuted. Status: partial; theorems `C64_four_byte_operands_partial`, `C64_eight_byte_operands_refuted`.
- **C65 Integer expressions compute their C value end to end** (`CExpr.v`): model: the tree built by expr_new, expression_evaluate and the code of each node. Proof: elaboration preserves C type, value and effect (induction over expressions), code generation simulates the tree (program logic over emission, induction over trees). Status: partial; theorems `C65_integer_expressions_partial`, `C65_frame_slots`.
- **C66 Arguments reach the parameters of the callee** (`Passing.v`): model: the instructions of a call and of a function entry. Proof: execution of both halves; copies between disjoint regions of the frame (C36), register assignment (C37); over-aligned frames refuted. Status: partial; theorems `C66_arguments_partial`, `C66_hidden_argument_partial`, `C66_aligned_frame_refuted`.
- **C67 Results reach the caller and its registers survive** (`Returning.v`): model: the instructions of a return statement and those after a call. Proof: execution; the callee's frame invariant (C66 entry, body keeps rbp, two words and a node); results of 9-15 bytes, of mixed classes and rax for memory results refuted. Status: partial; theorems `C67_no_value_partial`, `C67_register_partial`, `C67_two_registers_partial`, `C67_memory_partial`, `C67_short_object_refuted`, `C67_mixed_refuted`, `C67_memory_address_refuted`.
- **C68 The stack pointer around calls** (`Passing.v`, `Returning.v`): model: the two changes of rsp around a call. Proof: execution; calls with stack arguments refuted. Status: partial; theorems `C68_aligned_partial`, `C68_restored_partial`, `C68_leak_refuted`.
- **C69 Statements transfer control as C says** (`Flow.v`, `FlowSpec.v`): model: the calls to new_block, ir_goto, ir_connect and ir_if_selection made for each statement, with struct jump_blocks and the label table; small-step semantics of statements with continuations beside it. Proof: a simulation with a decreasing measure (`FlowSim.v`), induction over statements for the translation (`FlowMain.v`), a frame argument on predecessor counts for success (`FlowTotal.v`); failing combinations refuted for all functions that contain them (`FlowContinue.v`). Status: partial; theorems `C69_statements_partial`, `C69_compiled_partial`, `C69_continue_refuted`, `C69_two_continues_refuted`, `C69_duff_refuted`, `C69_default_refuted`.
- **C70 Initializers: every part of an object gets the value C gives it** (`InitParse.v`, `InitSpec.v`): model: parse_initializer_recursive, parse_brace_initializer, match_string, initializer_add_entry and type_search_member over tokens, an assignment expression being one token. Specification: the current-object rules of C11 6.7.9, as a relation giving the sequence of writes to places, and which writes survive; the flag `strict` leaves out what is refuted. Proof: lexicographic induction over the size of the remaining list and of the type, with a postcondition that says which items a subobject has consumed, where the position is, and whether a comma has been read. Status: partial; theorems `C70_initializers_partial`, `C70_stuck_refuted`, `C70_second_list_refuted`, `C70_union_refuted`, `C70_comma_refuted`, `C70_const_refuted`.
- **C71 A declaration gives every name it declares the type C says** (`Declarator.v`, `DeclaratorSpec.v`): model: parse_specifiers, parse_declarator and its two helpers, ast_to_type, ast_get_parameters, parse_type_name, the loop of parse_declaration, over tokens, a size expression and the keywords of a type being one token each. Specification: the declarator grammar as trees, their spelling, and the type of a tree by recursion from the outside in. Proof: mutual induction over the trees for parsing, and recursion over the tree for the type; what the compiler gets wrong is a separate predicate and each part of it is refuted. Status: partial; theorems `C71_declaration_partial`, `C71_definition_partial`, `C71_type_name_partial`, `C71_brackets`, `C71_static_parameter`, `C71_const_twice_refuted`, `C71_const_array_refuted`, `C71_deref_refuted`, `C71_typedef_refuted`, `C71_void_refuted`, `C71_scope_refuted`, `C71_comma_refuted`.
- **C72 Scheduling computes every value before it is used** (`Schedule.v`, `ScheduleSpec.v`): model: schedule_user_late, schedule_late, ir_schedule_instructions_to_blocks, node_is_instruction, ir_local_schedule_recursive, ir_local_schedule_blocks and ir_local_schedule over the graphs of C27, with the dominator tree of C28; `visited` and `block` beside the graph. Specification: dominance by paths (C28), where a value is wanted, the latest common dominator, `computed_before` and `computed_in` on lists. Hypotheses: `control_graph`, `well_formed` (an order of the operands outside phis and the block each node was made in), `calm` for the order. Proof: placement by induction on the order with an invariant over the marks; operands are above their users because the home block of a node dominates its final block; the lists by an invariant of the depth-first walk that tells what has been listed when a node is visited. Refuted by three graphs that meet the hypotheses (`C72Props.v`). Status: partial; theorems `C72_placement_partial`, `C72_order_partial`, `C72_operands_refuted`, `C72_states_refuted`, `C72_dead_code_refuted`.
- **C73 Every expression has the type C gives it** (`ExprType.v`, `ExprTypeSpec.v`): model: expr_new with the conversions of its operands (decay_array, do_integer_promotion, convert_arithmetic, expression_cast, cast_conditional, fix_binary_operator, fix_assignment_operators, check_const_correctness), the folding of constants as far as types depend on it (the folded values are parameters), type_search_member and expr_dot_operator, the operators rewritten by the parser, _Generic. Specification: the typing rules of C 6.5 as an inductive relation, with the conditions that leave out the compiler's errors guarded by a flag, and a proof that the guarded relation is part of the unguarded one. Proof: induction over the derivation with an invariant on the node built (type up to qualifier, width of a bit-field up to promotion, kind of constant). Long double, complex types and variable-length arrays are not in the specification. Status: partial; theorems `C73_types_partial`, `C73_value_partial`, `C73_generic_partial`, `C73_standard`, `C73_fold_zero`, `C73_void_refuted`, `C73_conditional_const_refuted`, `C73_conditional_null_refuted`, `C73_const_member_refuted`, `C73_bit_field_cast_refuted`, `C73_const_bit_field_refuted`, `C73_shift_refuted`, `C73_const_struct_refuted`, `C73_const_changed_refuted`, `C73_long_double_refuted`, `C73_double_zero_refuted`.
- **C74 Calls under the Microsoft convention pass every word in the place the convention gives it** (`Microsoft.v`, `MicrosoftSpec.v`): model: ms_expr_call, ms_expr_function, ms_expr_return, the preamble, va_start and va_arg as places (registers, stack slots by distance from RSP at the call and from RBP in the callee) and the bytes moved. Specification: the place of word number k. Proof: the loop over the arguments equals the list by numbers; places of different numbers differ, so each word is found where it was written; the home slots written by the preamble continue the slots of the stack, so va_arg walks all words in order. Status: partial; theorems `C74_arguments_partial`, `C74_stack`, `C74_agree`, `C74_result`, `C74_va_arg_partial`, `C74_va_start_refuted`, `C74_result_address_refuted`, `C74_long_double_refuted`, `C74_unnamed_float_refuted`.
- **C75 Expressions over objects read, write and yield what C says** (`PtrExpr.v`, `PtrSpec.v`): model: expression_evaluate with all cases of the forms listed, evaluated_expression_to_var and _to_address, variable_cast, evaluated_expression_cast, assign_to_ee, assign_ee_to_ee, as a generator of numbered nodes and instructions; the instructions run on words and bytes of memory. Specification: big-step evaluation of expressions over byte memory with the ranges read and written, so that unsequenced conflicts, overlapping assignment, overflow and accesses outside objects have no meaning. Proof: induction over expressions; the invariant relates nodes to results (a place, a bit-field place, a value, a value still in memory), temporaries are owned by the node that allocates them and never overlap objects, and a value still in memory survives what is evaluated after it because the specification demands that the ranges be apart. Status: partial; theorems `expressions_read_write_and_yield_partial`, `assigned_bit_field_value_refuted`, `dereferenced_constant_refuted`, `wide_comparison_value_refuted`.
- **C76 Included files stand in place of their #include lines** (`Directives.v`, `InclSpec.v`): model: directiver_push_input, input_open, next_from_stack, #include with a header name or with macros, #pragma once. Specification: the selected lines of C20 with two more kinds of line, threading the macros and the files not to be read again through the included files. Proof: mutual induction over that relation; an included file runs on a stack whose top is that file, and its end is a step back to the including file. Status: partial; theorems `files_stand_for_their_lines_partial`, `missing_header_is_rejected`, `once_goes_by_name_refuted`.
- **C77 Tags denote the types C says** (`Tags.v`, `TagsSpec.v`): model: parse_struct and parse_enum as far as tags are concerned, over a stack of scopes (C25). Specification: the rules of 6.7.2.3 as a relation that numbers types in the order of declaration; a type is declared before its member list and complete after it. Proof: mutual induction over the relation; the invariant is a growing one-to-one pairing of the two numberings, with a list of tags that the rules have declared and the compiler has not entered yet (it enters a tag after its member list, or when the list mentions it). Status: partial; theorems `tags_denote_types_partial`, `tags_are_not_redefined`, `inner_self_reference_refuted`, `tag_alone_refuted`, `enumerations_are_redefined_refuted`.
- **C78 Enumeration constants have the values C says** (`Enum.v`, `EnumSpec.v`): model: parse_enumerator and the loop around it over tokens, an expression being one token given as a tree, constant_increment; expressions are built and folded as in C65. Specification: 6.7.2.2 as a relation over lists threading the values known so far, with the value of an expression by recursion. Proof: folding yields the constant of the value (induction over expressions, from C08, C09, C11); induction over the list. Status: partial; theorems `enumeration_constants_partial`, `redeclared_enumerator_is_rejected`, `after_unsigned_refuted`, `enumeration_constant_type_refuted`, `too_large_enumeration_constant_refuted`.
- **C79 The ## operator** (`Expander.v`, `PasteSpec.v`): model: paste_table, glue, expand_argument, the loop of subs_buffer (as for C60). Specification: two tokens paste to the token spelled like both together, by the lexical grammar of C62; operands joined by ## as a relation over the token lists they stand for, with placemarkers. Proof: finite check of the table against the punctuators, first-character arguments for words; induction over the operands of a group from right to left, as the code goes, with the flag that something is to be pasted as invariant. Status: partial; theorems `paste_yields_the_token_partial`, `paste_yields_tokens_partial`, `paste_in_calls_partial`, `paste_is_refused_refuted`, `paste_makes_no_token_refuted`, `empty_operand_refuted`.
- **C80 The files a command line asks for** (`Driver.v`, `DriverSpec.v`): model: main.c over abstract tools (compiling, reading and linking either work or end the run), with the state one compilation leaves to the next (entries of rodata.c, the freed array of packings). Specification: the effects a list of options and operands asks for, as a relation; settings by the last option that counts. Proof: from C54, by induction over the operands with the invariant that nothing is left over while a source remains. Status: partial; theorems `command_line_files_partial`, `other_operands_are_refused`, `one_output_for_many_is_refused`, `data_of_other_sources_refuted`, `source_after_packing_refuted`, `assembly_and_object_refuted`, `dependencies_when_linking_refuted`, `short_operand_refuted`, `preprocess_options_refuted`.
- **C81 Repeated declarations** (`Redecl.v`, `RedeclSpec.v`): model: type_make_composite (as for C73) folded over the declarations of one identifier; definitions replace the type. Specification: compatibility and composite type by the rules of 6.2.7 ff., as a mutual relation over types and parameter lists. Proof: mutual induction: compatible types with nothing open are equal; induction over the sequence from its end. Status: partial; theorems `redeclarations_partial`, `conflicts_are_refused_partial`, `conflicts_accepted_refuted`, `compatible_refused_refuted`, `definitions_refuted`.
- **C82 Merging of values that come from one place** (`Peephole.v`, `PeepholeSpec.v`): model: optimize_peephole over the graph of C27. Specification: any assignment of values to nodes in which a phi with one operand has its value; every operand keeps its value. Proof: induction over the worklist from the specification of ir_replace_node (C27); a phi that has been looked at is used no more or is its own operand. Status: proved; theorems `C82_peephole`.
- **C83 Preprocessed output** (`PrintTokens.v`, `PrintSpec.v`): model: the loop of -E, dbg_token, dbg_token_type, the sizes of DBG_PRINT. Specification: the preprocessing token each token of the parser stands for (C11 6.4, with the lexical grammar of C62); tokens marked as separated. Proof: a text of tokens with white space between them has one division into white space and tokens as C62 says, and the tokenizer, run forward over such a text, accepts it; it finds header names only after a directive. Missing: literals, tokens next to each other and tokens of 99 characters or more, which are refuted. Status: partial; theorems `preprocessed_text_partial`, `preprocessed_constants_refuted`, `preprocessed_strings_refuted`, `preprocessed_adjacent_refuted`, `preprocessed_long_refuted`.
- **C84 Dependency files** (`DepFile.v`, `DepFileSpec.v`): model: the static list of dependencies, its recording, writing and reset over the sources of one run. Specification: how make divides a line into targets and prerequisites. Proof: induction over sources and files; one line has one reading. Missing: that the files recorded are those of the inclusion model (C76), which has no such list; names with characters special to make are refuted. Status: partial; theorems `dependency_rules_partial`, `dependency_blanks_refuted`, `dependency_file_refuted`.
- **C85 Line numbers after #line** (`Directives.v`, `LineSpec.v`): model: that of C20. Specification: text and #line directives, the number of each token from the last directive before it (C11 6.10.4). Proof: induction over the source with the difference as invariant. Missing: file names, numbers from macros; other directives after #line, a second directive without a file name and a directive on the last line are refuted. Status: partial; theorems `line_numbers_partial`, `second_line_refuted`, `line_before_define_refuted`, `line_before_include_refuted`, `line_at_the_end_refuted`.
- **C86 offsetof** (`OffsetOf.v`, `OffsetOfSpec.v`): model: the label constant with the null label, type_search_member, expr_dot_operator, the folding of members, indices, address and cast. Specification: the part named by a list of designators and its distance, as a relation. Proof: induction over the relation and over the designators; distinct names make the search find the member meant. Missing: indices that do not promote to int and unknown members, which are refuted; other operators that the parser accepts after the designator. Status: partial; theorems `offsetof_partial`, `offsetof_unique`, `offsetof_index_refuted`, `offsetof_no_member_refuted`.
- **C87 _Static_assert** (`StaticAssert.v`): model: the branch of parse_declaration over tokens, the expression being one token given as a tree; 0 == e is built and folded as in C78. Specification: the value of an expression as in C78. Proof: folding yields the constant of the value (C78), 0 compares in the promoted type of e; inversion of the parser for the form. Missing: floating expressions, sizeof; casts to _Bool and operands of ?: that are not evaluated and have no value are refuted. Status: partial; theorems `static_assertions_partial`, `accepted_assertions`, `static_assertion_bool_refuted`, `unevaluated_operand_refuted`.
- **C88 __LINE__ and __FILE__** (`Builtin.v`): model: builtin_macros with the printing of a number, read again by the models of C07 and C06. Specification: the value of the constant and of the string. Proof: a decimal numeral is a literal of C07 with its value; a path without special characters is a body of C06. Missing: paths with a quote or a backslash, which are refuted. Status: partial; theorems `line_macro`, `file_macro_partial`, `other_names_are_not_builtin`, `file_macro_refuted`.
- **C89 Variable-length array sizes** (`Vla.v`, `VlaSpec.v`): model: type_evaluate_vla with is_evaluated and length_var as a table by size expression, type_contains_unevaluated_vla, type_sizeof as the value it computes. Specification: the size expressions of a type, the size of an object as a product. Proof: mutual induction over types with the invariant that evaluation only adds entries for expressions without one; multiplication modulo 2^64. Missing: file scope and the size [*], which are refuted. Status: partial; theorems `vla_sizes_partial`, `file_scope_vla_refuted`, `star_size_refuted`.
- **C90 Constant conditions are false exactly if they compare equal to 0** (`CondFold.v`, `CondFoldSpec.v`): model: constant_is_zero over the bytes of the union, the E_CONDITIONAL case of evaluate_constant_expression, and !, && and || as the parser builds them. Specification: IEEE 754 zeros by the significand. Proof: arithmetic of bit fields; the doubles and floats for which the test is wrong are refuted. Status: partial; theorems `constant_conditions_partial`, `double_condition_refuted`, `float_condition_refuted`.

## What is modelled and what is not

Model files are in rocq/theories. Everything not in the middle column is outside the model.

| Source | Modelled (model file) | Not modelled |
| --- | --- | --- |
| src/common.c, .h | rounding, little-endian buffers (`Common.v`, `Bytes.v`), hash and list macros where used | allocation, error printing, file reading |
| src/character_types.c, escape_sequence.c, utf8.c | all (`CharTypes.v`, `Escape.v`, `Utf8.v`) | |
| src/string_view.c, precedence.c | hashing, comparison, table (`StringSet.v`, `MacroTable.v`, `Precedence.v`) | |
| src/types.c | interning, sizes, layout (`Types.v`, `Layout.v`, `Arch.v`), composite types and member lookup (`ExprType.v`), sizes of variable-length arrays (`Vla.v`) | printing |
| src/abi/, src/arch/ | type sizes, constants, normalisation (`Arch.v`, `ConstConv.v`, `IntLit.v`); argument classification (`SysV.v`) passing (`Passing.v`), results (`Returning.v`), va_start and va_arg (`VaArg.v`); Microsoft calls by place (`Microsoft.v`) | the instructions of Microsoft calls |
| src/arguments.c | all (`Arguments.v`) | |
| src/main.c | all as far as C80 says (`Driver.v`) | printing other than -E (`PrintTokens.v`), -fdump-ir, -fdebug-stack-size; failing to open output files |
| src/preprocessor/tokenizer.c | whole tokenizer over a byte string (`Tokenizer.v`) | |
| src/preprocessor/input.c | the search for a header, disabled files (`Directives.v`) | reading the file, errors of fopen other than a missing file |
| src/preprocessor/macro_expander.c, token_list.c, string_set.c | macro table, hide sets, expansion, argument collection, stringification (`MacroTable.v`, `StringSet.v`, `Expander.v`, `Escape.v`), __LINE__ and __FILE__ (`Builtin.v`, apart from the expander) | |
| src/preprocessor/directives.c | #if evaluation, conditional inclusion, macro directives inside it, #include, #pragma once (`PPExpr.v`, `Directives.v`), dependency output (`DepFile.v`) | the path given by #line |
| src/preprocessor/preprocessor.c, string_concat.c | all (`Lookahead.v`) | |
| src/parser/symbols.c | both tables, scopes (`Symbols.v`) | |
| src/parser/parser.c, function_parser.c | pack pragmas, conditions (`Pragma.v`, `Condition.v`), control flow of all statements (`Flow.v`) | asm statements |
| src/parser/declaration.c | specifiers, struct layout calls (`Specifiers.v`, `Layout.v`), object definitions (`Tentative.v`), initializers (`InitParse.v`), declarators (`Declarator.v`), tags (`Tags.v`), enumerators (`Enum.v`), repeated declarations (`Redecl.v`), _Static_assert (`StaticAssert.v`) | attributes |
| src/parser/expression.c | precedence parser, conversions, folding, rewriting on integer types (`Pratt.v`, `ArithConv.v`, `CExpr.v`), types of all expressions, _Generic (`ExprType.v`), offsetof (`OffsetOf.v`), constant conditions (`CondFold.v`) | operators after the designator of offsetof, va_* |
| src/parser/expression_to_ir.c | integer expressions, assignments, casts, conditions (`CExpr.v`, `CastSelect.v`, `OpSelect.v`, `Condition.v`); pointers, members, bit-fields, compound assignment, ?: and comma over memory (`PtrExpr.v`) | calls, compound literals, VLAs |
| src/ir/ir.c, operators.c | node graph, use lists, sealing, local scheduling, bit-field sequences, constant operators (`IR.v`, `Schedule.v`, `BitFields.v`, `ConstFold.v`) | |
| src/ir/dominator_tree.c | all (`Dominator.v`) | |
| src/ir/global_code_motion.c | all (`Schedule.v`) | |
| src/debug.c | dbg_token, dbg_token_type, DBG_PRINT as used there (`PrintTokens.v`) | the rest |
| src/ir/export_dot.c | | all |
| src/optimize/ | remove_dead.c (`RemoveDead.v`); mem2reg.c (`Mem2reg.v`); peephole.c (`Peephole.v`) | |
| src/codegen/codegen.c, binary_operators.h, registers.c | arithmetic, casts, comparisons, loads, stores, block copies, scalar constants, phi copies, frames, branches (`Codegen.v`, `Frame.v`, `Phi.v`, `Condition.v`, `X86.v`) | VLA, aggregate constants |
| src/codegen/rodata.c | labels and strings (`Labels.v`); static data as far as C40 says | |
| src/assembler/ | encoder, whole instruction table, relocation requests, object building, string printing (`Encode.v`, `Object.v`, `Escape.v`) | instruction text output |
| src/linker/ | object.c, linker.c, ELF writer and reader, COFF writer (`Object.v`, `Linker.v`, `Elf.v`, `Coff.v`) | |

## Findings: places where the code departs from the property

Proved (`_refuted` theorems): hex escapes are read in base 8 (C06); byte 127 indexes the escape table
out of bounds (C05, C57) and byte 255 the character table (C06); literals of 2^64 and more are reduced
silently (C58); constant conversion to _Bool truncates (C08); under the Microsoft ABI long is promoted to
int (C09); constant folding reaches undefined host arithmetic (C11); long double is double and a
repeated const is lost (C10); _Complex members divide by zero in layout (C12); bit-fields overlap when
types get smaller or a width is zero (C13); push_macro of an undefined macro saves nothing (C18); hide-set
intersection loses members (C17) so that macros are replaced inside their own replacement (C59); #if:
~ rejected, shift signedness from the wrong operand, ?: unconverted, ! keeps unsignedness, trailing
tokens ignored (C19); directives on the last line loop or are rejected (C20); keywords after string
literals are identifiers (C61); over-reads at end of file and CR LF splices (C22); digraphs and `..`
(C23); `**/` does not end a comment (C24); typedef names are not hidden by variables (C25); the parser
accepts non-C expressions and dereferences missing operands (C26); stores in endless loops are removed and
projections dangle (C56); phi copies are sequential (C29); unsigned division is signed (C31); NaN
comparisons are inverted (C32); negative char/short and large unsigned to floating, -0.0 to _Bool (C33);
odd-sized loads read neighbours (C35); 8-byte comparisons clobber 4 bytes behind an int (C64); loop
conditions are cut to int and -0.0 is true in if (C50); `int >>= unsigned` is a logical shift (C51);
alignment requests are forgotten (C44); symbols of empty sections (C45); cross-object references lose
offsets (C46); ELF alignments lost and symbol indices cut to 16 bits (C48); COFF long section names and
relocation counts (C49); pack(pop) never restores, pack stack used after free (C52); command line oddities
(C54); r8-r15 in short forms, 0(%rbp), high byte registers, addq/leaq forms, index registers r8-r15 lose their fourth bit, scales are ignored (C41, C42).
an INTEGER field that ends at byte 8 makes the next eightbyte INTEGER, structs of 17-32 bytes travel in
registers, packed structs are not MEMORY, the caller's table of register pieces has six entries (C37).

Functions with an object aligned to more than 16 bytes read their stack parameters from the wrong place (C66). Results of 9 to 15 bytes overwrite the bytes behind the
result object, {INTEGER, SSE} results lose their second half, rax is not set for results in memory (C67). After a call with
arguments on the stack, the stack pointer is lowered again instead of being restored, so that loops of such calls use up
the stack (C68). va_arg rejects double (C38). An extern declaration after `int x;` removes the definition of x; `int a[];` is
emitted with size -1; the alignment of a tentative definition is that of the last declaration (C53); strings that fit their array only without their zero are written past the object and initialisers that are not constant become zero without a diagnostic (C40). When a local is promoted, a store of its own value (`while (x < 10) { x = x; f(x); }`) leaves a load of the object whose stores have all been removed (C55). A while loop with a `continue` inside a switch never compiles (an assertion fails), nor does a for or do loop with two such switches; a `case` in a loop inside its switch (Duff's device) leaves a block with two successors, and a `default` there is forgotten (C69). In initializers, `{ .s.b = 1, 2 }` is rejected when b is the last member of s, `{ .s = {1, 2}, .s = {3} }` leaves 2 in the second member, `{ .b = 1, .a = 2 }` for a union leaves b, `int x = {1,}` is rejected, `char s[] = {"abc",}` is an array of one character, and `const struct S a = b` initializes the first member with b (C70).

Seen while reading, outside a theorem: `T int` accepted after a typedef name; `#x` in object-like
bodies rejected; `f(a,)` accepted; an unterminated macro call loops at end of file; `#line` effects
applied twice; cond_stack not reset between files; second `#else` accepted; included files that cannot
be read end in an internal error; phis over 8 bytes unsupported; duplicate definitions not diagnosed
when linking; .data without SHF_WRITE; linker ignores section alignment; addends left in COFF section
data; parser_reset double free; `(y = x) = 5` accepted; a bit-field assignment yields the unconverted
right side; switch values cut to int; undefined labels not diagnosed; reg_variables overflow with more
than six register arguments; `extern int x = 1;` rejected at file scope; arrays of different element types
taken for compatible; a second definition of an object not diagnosed; string
initialisers longer than their array write past it.

C71 (declarators): `int *const const p` declares a pointer that is not const (apply_tq tests const_n == 1);
`typedef int A[3]; void f(const A x)` gives x the type int *const instead of const int *; `int a[*n]` is
refused; `typedef int T; void g(void) { int (T); }` is refused; `typedef void V; int f(V);` declares a
parameter of type void; in `int (*f(void))(int x) { ... }` the body of f sees x; `int a b;` and
`int f(int,);` are accepted.

C72. In `while (x &= x - 1);` the value carried round the loop is computed in the block of its phi; the
walk that orders the block starts at the phi, meets the AND below it and lists it before the
subtraction whose result it takes. In `int x = 1, *p = &x, a = x; if (c) { *p = 2; if (d) return a; }
return 0;` the load of a is only needed where a is returned and is placed there, after the store: 2 is
returned. In `if (c) { return 0; p = &x; } x = 3; use(p);` a phi takes its operand from a block that
cannot be reached and the compiler follows a null pointer.

C73 (types of expressions). `c ? (void *)p : (int *)q` has type int * instead of void *; `c ? (const int *)p
: (int *)q` loses const; `c ? (const void *)p : (void *)0` too. A member of a const structure is not const:
it can be assigned to. `(unsigned)s.b - 1` with an unsigned bit-field b narrower than int has type int: the
cast is dropped. A const bit-field promotes by its declared type. `g << 1` with a static `const long g` is
an internal error, as is `c ? g : x` with a static const structure g. `x += 1` and `x++` are accepted for a
const local. Arithmetic of a long double with an integer constant is refused. constant_is_zero reads float
for double and the reverse: `!1.0` is 1 and `1.0 ? 2 : 3` is 3.

C74 (Microsoft calls). In a variadic function that returns a large structure va_arg starts at the last named parameter, because
va_start counts the parameters but not the address of the result. The address of a large result is not returned in RAX. A function
returning long double looks for the address of its result in XMM2 while the caller passes it in RCX. Floating arguments that no
parameter names (variadic, or a declaration without prototype) go to general registers only. A structure passed by reference is
passed as the object itself, not a copy, so a callee compiled by another compiler may change the caller's object. A long double
argument is passed as an address in a vector register.

**C75 (expressions over objects).** The value of `s.b = 9` with a 3-bit field is 9, not the value of the bit-field afterwards; the
same for `++s.b` and `s.b += n`. In `*(p = &g)` and `*(x, &g)` an address constant reaches
evaluate_indirection unfolded as a constant and is left as it is, so the expression reads as the address of g instead of its contents
(and cannot be assigned to). A comparison of eight-byte operands yields a word of eight bytes where int is wanted (C64).

**C76 (file inclusion).** `#pragma once` goes by the path under which the file was found: `#include "a.h"` and `#include "./a.h"` read the
same file twice. A header that ends in a `#define` works only when the including file goes on with another line (C20).

**C77 (tags).** `struct s { ... }; void f(void) { struct s { struct s *next; } x; }`: the member of the inner type points to the outer
type, because the tag is entered after the member list. `struct s;` in an inner scope does not declare a new type when an outer one is
visible. An enumeration may be defined twice in a scope: is_complete is never set for enumerations. `enum e x;` is accepted for an
unknown e.

**C78 (enumeration constants).** `enum { A = sizeof(int), B }` (or `A = 1u`) stops the compiler: constant_increment is not implemented for unsigned
types. `enum { A = 1L }` gives A type long: sizeof A is 8. `enum { A = 2147483647, B }` is accepted; B is an int with value 2147483648.

**C79 (## operator).** With `#define F(a,b) x a##b`, `F(,y)` becomes `xy` instead of `x y`: the flag that something is to be pasted is kept when the
argument is empty, even if no ## precedes it. `.##5`, `1##.`, `1e##+` and `L##"a"` are rejected (not in the table). `x##1.5` is accepted as
an identifier spelled `x1.5`.

**C80 (driver).** Compiling several sources in one run (`cc -c a.c b.c` or `cc a.c b.c`): the entries of rodata.c are never emptied, so the second
object also contains the string literals and static variables of the first source; global variables are then defined twice and the objects do not
link. parser_reset frees `packs` without clearing the pointer: after a source with `#pragma pack(push)` any further source frees it again. `-S -c`
writes the assembly and then overwrites it with an empty object. `-MD` without `-MF` when linking opens NULL. A one-character operand is read out of
bounds. `-E -U x` stops with "not implemented"; `-E -o f` prints to the standard output; `-E -MD` writes no dependencies.

**C81 (repeated declarations).** type_make_composite looks at the outside of types only: `extern int x[]; char x[3];`, `int f(); char f(int);` and
`int f(); int f(float);` are accepted, `extern int (*p)[]; int (*p)[3];` and `int f(int); int f(const int);` are refused. A function definition is
not compared with earlier declarations (`int f(int); char f(void) {...}` is accepted), and `static int f(void); int f(void) {...}` exports `f`.

**C83 (preprocessed output).** -E prints character constants and wide strings as the name of their kind (`Character constant`), string literals with their escape sequences already replaced (a newline inside of the quotes), and tokens from macros next to each other (`-N` with N defined as `-1` gives `--1`). DBG_PRINT in src/debug.c gives snprintf one byte less than the buffer has and grows the buffer to just the text and its NUL: every identifier or number of 99 characters or more is printed without its last character (`preprocessed_constants_refuted`, `preprocessed_strings_refuted`, `preprocessed_adjacent_refuted`, `preprocessed_long_refuted`).

**C84 (dependency files).** Paths are written as they are: one with a blank is read by make as two prerequisites (`dependency_blanks_refuted`). The result of fopen is not checked, so that a dependency file that cannot be created makes fprintf write to a null stream (`dependency_file_refuted`).

**C85 (#line).** Tokens that are pushed back get the line difference a second time when they are delivered again: the first token after a second `#line n` and after every `#define` that follows a `#line` has a wrong number (`second_line_refuted`, `line_before_define_refuted`). #include sets the difference to 0 for the including file as well (`line_before_include_refuted`). `#line n` on the last line of a file is refused (`line_at_the_end_refuted`).

**C86 (offsetof).** Address constants are only folded with indices of type int: `offsetof(struct s, a[1u])` or `a[sizeof(int)]` is no constant and is left to the program, which computes with a label that stands for nothing (`offsetof_index_refuted`). The result of looking up the first member is not checked: `offsetof(struct s, nosuch.x)` reads through a null pointer (`offsetof_no_member_refuted`).

**C87 (_Static_assert).** Because casts of constants to _Bool keep the low byte (C08), `_Static_assert((_Bool)256, "")` is refused and `_Static_assert((_Bool)2 - 1, "")` is accepted (`static_assertion_bool_refuted`). All operands of ?:, && and || are folded, so `_Static_assert(1 || 1 / 0, "")` is refused and `1 ? 2 : 1 % 0` makes the compiler divide by 0 (`unevaluated_operand_refuted`).

**C88 (__FILE__).** The path is put between quotes as it is: a backslash in it begins an escape sequence when the literal is read, a quote ends it (`file_macro_refuted`). On Windows every path with a directory is affected.

**C89 (variable-length arrays).** type_contains_unevaluated_vla returns whether a variable-length array has been evaluated: at file scope none has, so that `int a[n];` is accepted there (`file_scope_vla_refuted`). A prototype at block scope with a parameter `int a[][*]` makes type_evaluate_vla evaluate an expression that is not there (`star_size_refuted`).

**C90 (constant conditions).** constant_is_zero reads a double as float and a float as double (src/parser/expression.c:1103-1106): `1.0 ? 2 : 3` is 3 and `!1.0` is 1, as for every double other than 0 whose low 31 bits are 0 (`double_condition_refuted`); `-0.0f ? 2 : 3` and `(float)1e-300 ? 2 : 3` are 2 (`float_condition_refuted`).

## Testing the theorems against wrong programs

Edits of the model that imitate realistic bugs are applied in a scratch copy and the build is repeated; `seeded/LOG.jsonl`
has one line per edit with the theorems that failed. An edit that no theorem noticed led to a stronger theorem (named in the
line) unless it does not change behaviour.

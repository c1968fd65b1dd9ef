{
 "claims": [
  {
   "property": "C01",
   "status": "partial",
   "theorems": [
    "C01_constant_folding_exact",
    "C01_folded_only_if_defined",
    "C01_zero_divisor_reported",
    "C01_min_div_minus_one_traps_refuted",
    "C01_shift_by_width_accepted_refuted",
    "C01_unevaluated_operand_refuted"
   ],
   "note": "Folding is proved exact in both directions for every constant expression. The compiler itself traps on INT_MIN / -1, has undefined behaviour on a shift by the full width and reports 0 && (1/0); these are the _refuted theorems."
  },
  {
   "property": "C02",
   "status": "proved",
   "theorems": [
    "C02_usual_arithmetic_conversions",
    "C02_order_does_not_matter",
    "C02_integer_promotions",
    "C02_promotion_keeps_value",
    "C02_bitfield_promotion"
   ],
   "note": ""
  },
  {
   "property": "C03",
   "status": "proved",
   "theorems": [
    "C03_octal_hex_binary_type",
    "C03_decimal_type",
    "C03_suffixes",
    "C03_explicit_type_suffix"
   ],
   "note": ""
  },
  {
   "property": "C04",
   "status": "partial",
   "theorems": [
    "C04_decimal_value",
    "C04_binary_value",
    "C04_hexadecimal_value",
    "C04_octal_value",
    "C04_octal_digit_8_9_reported",
    "C04_decimal_value_partial",
    "C04_decimal_overflow_undiagnosed_refuted",
    "C04_octal_false_warning_refuted"
   ],
   "note": "Values and diagnoses are exact for hex and binary; octal overflow is never missed but warns from 2^63 on; decimal overflow can be missed (refuted)."
  },
  {
   "property": "C05",
   "status": "proved",
   "theorems": [
    "C05_cast_is_reduction",
    "C05_cast_to_bool",
    "C05_cast_keeps_representable"
   ],
   "note": ""
  },
  {
   "property": "C06",
   "status": "partial",
   "theorems": [
    "C06_reads_the_tree_of_the_grammar_partial",
    "C06_every_input_ends",
    "C06_grammar_is_unambiguous",
    "C06_full_stack_regroups_refuted"
   ],
   "note": "Every derivation that nests at most 1024 pending operators is read with the tree of the grammar, and every token sequence ends. Beyond that the parser can regroup operands (refuted), so the unbounded statement is false."
  },
  {
   "property": "C07",
   "status": "partial",
   "theorems": [
    "C07_value_partial",
    "C07_wellformed_partial",
    "C07_no_fault_partial",
    "C07_unevaluated_refuted",
    "C07_largest_literal_refuted",
    "C07_not_refuted",
    "C07_shift_refuted",
    "C07_conditional_refuted",
    "C07_trailing_refuted",
    "C07_division_refuted",
    "C07_full_refuted"
   ],
   "note": "Every condition of the C grammar (no bound on size, up to 1023 waiting operators) whose parts all have a value gets that value; every accepted line begins with an expression of the grammar; evaluation ends and the internal assertions hold for every token sequence. Excluded and refuted: the irregular signedness of !, shifts, ?: and 2^63-1, operands that C does not evaluate, trailing tokens. Missing: __has_include."
  },
  {
   "property": "C08",
   "status": "partial",
   "theorems": [
    "C08_first_true_group_partial",
    "C08_unbalanced_is_reported",
    "C08_null_directive_refuted"
   ],
   "note": "Every nesting of sections: the effect is that of the first true groups, later conditions are not evaluated, unbalanced files are reported. Refuted for a null directive in a skipped group, which ends the skipping."
  },
  {
   "property": "C09",
   "status": "partial",
   "theorems": [
    "C09_table_is_a_map",
    "C09_lookup_is_the_last_definition_partial",
    "C09_refuted"
   ],
   "note": "The table is a map for every hash function and history (C09_table_is_a_map). With the comparison of definitions the code makes this is proved for definitions without # and ## and without a parameter called __VA_ARGS__, and refuted otherwise: a redefinition that the comparison wrongly takes for the same is dropped."
  },
  {
   "property": "C10",
   "status": "partial",
   "theorems": [
    "C10_lossless",
    "C10_lexemes",
    "C10_errors",
    "C10_bounds",
    "C10_lines_partial",
    "C10_columns_partial",
    "C10_lines_refuted",
    "C10_columns_refuted",
    "C10_comment_refuted",
    "C10_overrun_refuted"
   ],
   "note": "Every file of bytes is split, the loop ends, the texts of the tokens make up the file and none is empty. Without an error every token is a proper lexeme (the longest punctuator, identifier, number or run of blanks); an error is reported only where no token starts. Lines are exact for files whose lines end with LF or CRLF unless a character literal contains a spliced line (refuted); columns are exact unless a one-line block comment or a string with a spliced line precedes (refuted)."
  },
  {
   "property": "C11",
   "status": "partial",
   "theorems": [
    "C11_encoding_partial",
    "C11_encoding",
    "C11_buffer",
    "C11_range",
    "C11_truncated",
    "C11_surrogate_refuted",
    "C11_no_fault_refuted",
    "C11_codepoint_refuted",
    "C11_utf8_refuted"
   ],
   "note": "All sequences of adjacent literals written as C allows get the units of the execution character set, for UTF-8 and UTF-32 without exception and for UTF-16 except the characters above U+FFFF whose second surrogate the encoder gets wrong (refuted). Every text, well-formed or not, fits the buffer. Octal and hexadecimal escapes out of range and incomplete UTF-8 are never accepted. Refuted: some malformed texts make the compiler fail or are accepted. The integer value of character constants is not modelled."
  },
  {
   "property": "C12",
   "status": "partial",
   "theorems": [
    "C12_struct_partial",
    "C12_struct_sound_partial",
    "C12_union_partial",
    "C12_struct_accepted_partial",
    "C12_union_accepted_partial",
    "C12_errors_diagnosed",
    "C12_unnamed_refuted",
    "C12_unnamed_crash_refuted",
    "C12_union_bits_refuted"
   ],
   "note": "Every list of members, with #pragma pack, packed and align: the rules of the ABI, hence order, disjointness, alignment, containment; errors are diagnosed and correct declarations accepted. Excluded and refuted: unnamed bit-fields that open a storage unit, bit-fields in unions. Total size below 2^62 bytes."
  },
  {
   "property": "C13",
   "status": "partial",
   "theorems": [
    "C13_load",
    "C13_store_partial",
    "C13_round_trip_partial",
    "C13_width_64_refuted"
   ],
   "note": "Loads are exact for every field, storage unit and whatever the rest of the register holds. Stores replace exactly the bits of the field for all widths below 64; at width 64 nothing is stored (refuted). Modelled as operations on register words: the choice of registers is C16."
  },
  {
   "property": "C14",
   "status": "partial",
   "theorems": [
    "C14_memory_operands_decode_partial",
    "C14_register_operands_decode",
    "C14_operand_size",
    "C14_byte_registers_partial",
    "C14_byte_registers_refuted",
    "C14_base_r13_refuted",
    "C14_base_r12_refuted",
    "C14_rip_relative_reaches_target",
    "C14_object_relocation",
    "C14_mov_immediate_decodes",
    "C14_spill_store_decodes"
   ],
   "note": "Every register, opcode map, prefix set (legacy and VEX), size, base, index, scale, 32-bit displacement and immediate, and rip-relative operands after patching. Base r12 without index and base r13 with displacement 0 are mis-encoded, and byte operands on rsp/rbp/rsi/rdi without REX name ah/ch/dh/bh (refuted)."
  },
  {
   "property": "C15",
   "status": "proved",
   "theorems": [
    "C15_conditions_exact",
    "C15_jump_lands",
    "C15_branch_lands",
    "C15_compare_and_branch"
   ],
   "note": "Every jump and conditional jump of every modelled instruction sequence, all operand widths and operands. Floating point comparisons (which share the condition table and are wrong for NaN) and jump tables are not modelled."
  },
  {
   "property": "C16",
   "status": "proved",
   "theorems": [
    "C16_live_values_survive",
    "C16_locked_values_stay",
    "C16_store_refuted",
    "C16_polite_requests_are_served"
   ],
   "note": "Every history of requests made through the allocator, with any number of live values. Requests of clients that keep to the rules of ServeSpec.v are always served (C16_polite_requests_are_served). A separate theorem refutes the same claim for emit_store, a client that keeps using a register number after its owner was spilled."
  },
  {
   "property": "C17",
   "status": "partial",
   "theorems": [
    "C17_return_partial",
    "C17_code_is_generated",
    "C17_compiled_partial"
   ],
   "note": "End to end from the expression tree to bytes run on a machine: for every side-effect free integer expression (literals, variables, casts, unary and binary operators, commas) the code generator emits code (no assertion fails, no register is missing) whenever the parser accepts the expression and the temporaries stay within 2 GB, and running the bytes leaves the C value in RAX, keeps callee-saved registers and all memory but the temporaries. Missing: && || ?:, assignments, calls, pointers; a constant right operand of a comma is excluded (refuted in C44)."
  },
  {
   "property": "C18",
   "status": "partial",
   "theorems": [
    "C18_fifo_partial",
    "C18_fifo_fresh_partial",
    "C18_exactly_once_partial",
    "C18_in_flight_partial",
    "C18_no_waiting_partial",
    "C18_reuse_refuted"
   ],
   "note": "Every interleaving of any number of threads in which no entry is appended again while another thread still compares with it (in particular if no entry is appended twice): linearizable to a FIFO list, each entry handed out exactly once, exact in-flight count, no waiting on stopped threads except between the two halves of an append. With such reuse it is refuted by a schedule (ABA). Sequential consistency."
  },
  {
   "property": "C19",
   "status": "partial",
   "theorems": [
    "C19_finished_iff_processable_partial",
    "C19_order_does_not_matter_partial",
    "C19_no_entry_is_lost",
    "C19_registered_is_resolvable_partial",
    "C19_string_size_wakes_nobody_refuted",
    "C19_wrong_table_refuted",
    "C19_stage_never_ends_refuted",
    "C19_table_is_used_while_it_grows_refuted",
    "C19_no_fault_with_room",
    "C19_finished_iff_processable_with_room_partial",
    "C19_stage_ends_partial"
   ],
   "note": "Every program, order, hash function, number of threads and schedule: if the stage ends without a fault, exactly the declarations whose needs can be resolved were processed and all others are in the tables; no entry is ever lost or duplicated. If the tables are large enough at the start there is no fault, and if no initialiser waits inside of its braces the stage ends under every fair schedule. Refuted: arrays sized by strings, extern followed by static, a list initialiser that has to sleep (the stage never ends), growth of a table. Queue and table of declarations atomic (C18, C20), sequential consistency."
  },
  {
   "property": "C20",
   "status": "proved",
   "theorems": [
    "C20_linearizable",
    "C20_registered_once",
    "C20_same_for_all",
    "C20_visible_later",
    "C20_stays_inside",
    "C20_growth_refuted"
   ],
   "note": "Every interleaving of any number of threads without growth is linearizable to an atomic map (as the property says); with growth it is refuted by a schedule. Safety only: progress is not claimed. Sequential consistency."
  },
  {
   "property": "C21",
   "status": "proved",
   "theorems": [
    "C21_lookup_is_lexical",
    "C21_same_scope_warning"
   ],
   "note": "Every hash function and every history. Lookups that reach file scope end in the table of C20, a parameter here."
  },
  {
   "property": "C22",
   "status": "partial",
   "theorems": [
    "C22_reads_back_partial",
    "C22_free_pages",
    "C22_almost_4GiB_never_ends_refuted"
   ],
   "note": "Exact for every list of streams whose sizes are at most 2^32 - 4096; on one of the 4095 larger u32 sizes the write loop never ends (refuted)."
  },
  {
   "property": "C23",
   "status": "partial",
   "theorems": [
    "C23_unsigned_roundtrip",
    "C23_signed_roundtrip_partial",
    "C23_signed_roundtrip_refuted",
    "C23_pdb_enumerator_constant_refuted",
    "C23_pdb_enumerator_constant_partial",
    "C23_obj_enumerator_constant_refuted",
    "C23_enumerate_roundtrip",
    "C23_leaf_size",
    "C23_record_padding"
   ],
   "note": "Unsigned leaves, field list enumerators, the size helper and padding are exact. Signed numbers below -2^15 are corrupted at addresses divisible by four, which is where pdb constant records put them; negative enumerators in object files read as unsigned (both refuted)."
  },
  {
   "property": "C24",
   "status": "proved",
   "theorems": [
    "C24_parses_by_the_rules",
    "C24_only_reading",
    "C24_quoting_roundtrip",
    "C24_buffer"
   ],
   "note": ""
  },
  {
   "property": "C25",
   "status": "partial",
   "theorems": [
    "C25_parse_stays_inside",
    "C25_lookup_stays_inside_partial",
    "C25_lookup_reads_outside_refuted",
    "C25_symbol_found",
    "C25_dll_name"
   ],
   "note": "Parsing is safe for every file and lookups are exact in well-formed archives; a lookup can read up to 60 bytes behind a truncated file (refuted)."
  },
  {
   "property": "C26",
   "status": "proved",
   "theorems": [
    "C26_sort_terminates_sorted",
    "C26_sort_fuel_irrelevant",
    "C26_diagnostics_sorted",
    "C26_diagnostics_in_order",
    "C26_exports_sorted"
   ],
   "note": ""
  },
  {
   "property": "C27",
   "status": "proved",
   "theorems": [
    "C27_crc32_is_bitwise",
    "C27_crc32_incremental",
    "C27_md5",
    "C27_md5_stops",
    "C27_md5_of_source_file"
   ],
   "note": ""
  },
  {
   "property": "C28",
   "status": "proved",
   "theorems": [
    "C28_is_power_of_two",
    "C28_align_up",
    "C28_align_up_overflow_refuted",
    "C28_align_up_checks",
    "C28_push_alignment",
    "C28_round_up_64",
    "C28_round_up_32",
    "C28_round_up_outside",
    "C28_leading_zeros_32",
    "C28_leading_zeros_64",
    "C28_trailing_zeros_32",
    "C28_trailing_zeros_64",
    "C28_truncate_unsigned",
    "C28_truncate_signed"
   ],
   "note": "align_up is exact whenever the result fits 64 bits; the overflow case is the _refuted theorem."
  },
  {
   "property": "C29",
   "status": "proved",
   "theorems": [
    "C29_blocks_disjoint",
    "C29_blocks_aligned_and_committed",
    "C29_temporary_memory",
    "C29_push_succeeds",
    "C29_end_succeeds"
   ],
   "note": ""
  },
  {
   "property": "C30",
   "status": "proved",
   "theorems": [
    "C30_mutual_exclusion",
    "C30_first_come_first_served",
    "C30_no_deadlock"
   ],
   "note": ""
  },
  {
   "property": "C31",
   "status": "partial",
   "theorems": [
    "C31_assignment_partial",
    "C31_compound_partial",
    "C31_compound_common_partial",
    "C31_unsigned_divisor_refuted",
    "C31_full_refuted",
    "C31_unsigned_constant_refuted",
    "C31_signed_char_divisor_refuted",
    "C31_unsigned_char_divisor_refuted",
    "C31_divide_error_refuted",
    "C31_increment",
    "C31_bitfield_partial",
    "C31_bitfield_shift_refuted"
   ],
   "note": "Assignment, all compound assignments and ++ and -- on variables of all integer types and on bit-fields, for all values, store what the expanded assignment stores. / and % only where the code divides in the common type or in a type that gives the same result; refuted by five witnesses elsewhere. Shifts of bit-fields only by amounts of a type that does not change the common type; refuted elsewhere. ++ and -- on bit-fields and lvalues other than variables are missing."
  },
  {
   "property": "C32",
   "status": "partial",
   "theorems": [
    "C32_offset_partial",
    "C32_constant_step_refuted",
    "C32_assignment_partial",
    "C32_increment_partial",
    "C32_huge_element_refuted",
    "C32_difference_partial",
    "C32_negative_difference_refuted"
   ],
   "note": "Every pointer expression made of + - and subscripts, += -= ++ -- and differences, for every element size and index of every integer type. Excluded and refuted: constants added to pointer constants (not scaled), negative differences (divided unsigned), ++ with elements of 2^31 bytes and more."
  },
  {
   "property": "C33",
   "status": "partial",
   "theorems": [
    "C33_stores_partial",
    "C33_inside",
    "C33_bits_refuted",
    "C33_string_address_refuted",
    "C33_twice_refuted",
    "C33_string_twice_refuted",
    "C33_difference_refuted"
   ],
   "note": "For every initialiser made of numbers, floating numbers, bit-fields, strings, files, address constants and nested compound literals that lies in the object, the linked bytes are those a sequence of assignments leaves in zeroed memory. No code whatsoever writes outside of the object (flexible arrays excepted). Refuted: numbers too large for their bit-field, addresses inside of string literals, places set twice where the first value is an address or the second a string, number minus address. Not modelled: the casts the parser inserts, thread-local and imported variables, object files."
  },
  {
   "property": "C34",
   "status": "proved",
   "theorems": [
    "C34_reachable_exactly_once",
    "C34_inline_asm_root_refuted"
   ],
   "note": "Every finite reference graph and list of roots: the search ends, flags exactly the reachable declarations, and queues each reachable function and initializer once. Assumes that no root is a defined intrinsic or inline assembly function; C34_inline_asm_root_refuted shows why. The patching of array sizes inside the loop is not modelled."
  },
  {
   "property": "C35",
   "status": "proved",
   "theorems": [
    "C35_shuffle_is_permutation"
   ],
   "note": ""
  },
  {
   "property": "C36",
   "status": "partial",
   "theorems": [
    "C36_once_partial",
    "C36_complete_partial",
    "C36_same_file_partial",
    "C36_no_deadlock_partial",
    "C36_no_fault_partial",
    "C36_full_table_refuted"
   ],
   "note": "Every interleaving of any number of threads that ask for files by path or through entries of the table of system includes, as long as no more distinct paths are asked for than the table of files has slots: each path is tokenised at most once, every answer is the file that was tokenised from that path before, no deadlock, no null pointer. With a full table it is refuted. Sequential consistency; the loading and tokenising of one file is one step."
  },
  {
   "property": "C37",
   "status": "partial",
   "theorems": [
    "C37_same_is_accepted",
    "C37_difference_is_diagnosed_partial",
    "C37_stringify_refuted",
    "C37_paste_refuted",
    "C37_varargs_refuted"
   ],
   "note": "The same text up to white space is always accepted. A difference is always diagnosed for definitions without # and ## and without a parameter called __VA_ARGS__; refuted by witnesses for each of these. White space is ignored entirely, also where only one of the two definitions has any."
  },
  {
   "property": "C38",
   "status": "partial",
   "theorems": [
    "C38_never_inside",
    "C38_enabled",
    "C38_arguments",
    "C38_terminates_partial",
    "C38_terminates_refuted",
    "C38_self_refuted"
   ],
   "note": "For every table and text no macro is replaced while its text is being read, all are enabled again at the end, and an expanded argument is not expanded again. Expansion ends for every text if the replacement lists close the parentheses they open; without that it need not (refuted), and a name that stems from a macro can be replaced by it after its text is used up (refuted). The tokens ## makes are a parameter that keeps parentheses."
  },
  {
   "property": "C39",
   "status": "partial",
   "theorems": [
    "C39_reflexive",
    "C39_symmetric",
    "C39_transitive_partial",
    "C39_equal_iff_alike",
    "C39_equal_layout_partial",
    "C39_poison_refuted",
    "C39_packing_refuted"
   ],
   "note": "Symmetric for all types; reflexive, transitive and equal to an independent relation (alike) for types without the type of erroneous expressions, where transitivity is refuted; equal size and alignment without #pragma pack and __declspec(align), and refuted with them. Varargs and calling conventions are not compared by the code and not modelled."
  },
  {
   "property": "C40",
   "status": "partial",
   "theorems": [
    "C40_enumerators_number_consecutively",
    "C40_enumerators_partial",
    "C40_huge_constants_are_accepted_refuted",
    "C40_after_INT_MAX_refuted"
   ],
   "note": "Exact for constants that fit int; for others the list is accepted modulo 2^32 iff every explicit value is an int or unsigned int, provided explicit values fit long long. Huge unsigned values are accepted as negative ones and INT_MAX is followed by INT_MIN (both refuted)."
  },
  {
   "property": "C41",
   "status": "proved",
   "theorems": [
    "C41_specifiers_denote_the_listed_type",
    "C41_order_is_irrelevant"
   ],
   "note": "Every list of specifiers, any length and order."
  },
  {
   "property": "C42",
   "status": "partial",
   "theorems": [
    "C42_utf16_to_utf8_partial",
    "C42_utf16_to_utf8_refuted"
   ],
   "note": "Exact for all code points of plane 0 and the odd planes; planes 2, 4, ... 16 are converted wrongly (refuted)."
  },
  {
   "property": "C43",
   "status": "partial",
   "theorems": [
    "C43_covers_partial",
    "C43_accepts_partial",
    "C43_never_in_braces_partial",
    "C43_balanced_partial",
    "C43_separates_partial",
    "C43_ends_partial"
   ],
   "note": "Every token sequence: the splitter ends and its packages are the file. Every file with matching brackets: accepted, no cut inside braces or square brackets, every global semicolon is a cut, and all brackets are closed at every cut if there is no semicolon or function body directly between parentheses (C has none). Missing: files with #pragma pack."
  },
  {
   "property": "C44",
   "status": "partial",
   "theorems": [
    "C44_lowering_partial",
    "C44_constant_comma_refuted",
    "C44_branches_partial",
    "C44_branches_accepted_partial",
    "C44_labels",
    "C44_unevaluated_refuted"
   ],
   "note": "Every expression of any size over literals, variables, casts, unary and binary operators, commas, && || and ?: (the last three with labels, jumps and temporaries): the generated instructions, run on a stack machine with sized words, give the C value; operands C does not evaluate need no value. Excluded and refuted: a constant as right operand of a comma that is then cast; `0 && 1 / 0` is reported. Missing: calls, side effects inside expressions, floats; the choice of registers is C16."
  },
  {
   "property": "C45",
   "status": "partial",
   "theorems": [
    "C45_returns_partial",
    "C45_ends_partial",
    "C45_runs_on_partial",
    "C45_labels",
    "C45_constraints",
    "C45_accepted_partial",
    "C45_jumps"
   ],
   "note": "Every body of nested if, while, do, for, switch (fall-through, default, nested), break, continue, goto, labels, return, assignments and expressions over integer variables: same return value, same final values, same non-termination; labels and cases are placed once and every jump goes to one of them; bodies that break the constraints (duplicate labels, cases or defaults, goto without label, stray break, continue, case, default) are reported and others are compiled. Missing: declarations with scopes, calls, pointers, floats, asm; expressions as in C44 (no constant behind a comma); machine code for jumps."
  },
  {
   "property": "C46",
   "status": "partial",
   "theorems": [
    "C46_missing_return_partial",
    "C46_noreturn_partial",
    "C46_no_false_warning",
    "C46_missing_return_refuted"
   ],
   "note": "Every function with labels only in its outermost block, case and default only in the block of their switch, and do loops without break and continue of their own: without a warning it never ends without a value, and a _Noreturn function never returns; obvious cases are not warned about. Refuted in general: do loops left with break or continue and labels or cases inside of dead statements suppress the warning. Missing: calls of _Noreturn functions, inline assembly."
  },
  {
   "property": "C47",
   "status": "partial",
   "theorems": [
    "C47_caller",
    "C47_callee",
    "C47_call",
    "C47_frame",
    "C47_return",
    "C47_copy_alignment_refuted"
   ],
   "note": "Every return type, parameter list and argument list: places of the arguments for callers and callees of other compilers, and both together; frame layout, alignment of the stack pointer and of temporaries, restored registers. Refuted: the copy of a struct passed by reference is not always 16-byte aligned. Simplified: slots are whole words. Missing: the moves between registers that fill the places, return values in RAX and XMM0, the copying of structs, exception filters, alloca."
  },
  {
   "property": "C48",
   "status": "partial",
   "theorems": [
    "C48_calls_partial",
    "C48_argument_count",
    "C48_runs_agree"
   ],
   "note": "Every nesting of direct calls with at most four integer arguments whose other parts are integer expressions over local variables, for every called function that follows the convention; runs agree. Missing: stack arguments, calls through pointers, calls inside of operators, void functions, varargs, floating point and structs; that a compiled call always exists."
  }
 ]
}
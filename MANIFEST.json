{
 "claims": [
  {
   "property": "C01",
   "status": "proved",
   "theorems": [
    "C01_integer_roundtrip",
    "C01_machine_integer"
   ],
   "note": "all integers"
  },
  {
   "property": "C02",
   "status": "partial",
   "theorems": [
    "C02_float_roundtrip_partial",
    "C02_float_roundtrip_refuted"
   ],
   "note": "true for all patterns except -0.0 and 0x3000000000000000, both shown to read back as +0.0"
  },
  {
   "property": "C03",
   "status": "proved",
   "theorems": [
    "C03_immediates_disjoint",
    "C03_unpack_pack",
    "C03_immediate_not_reference",
    "C03_address_not_immediate"
   ],
   "note": ""
  },
  {
   "property": "C04",
   "status": "proved",
   "theorems": [
    "C04_truthiness",
    "C04_words",
    "C04_references_truthy"
   ],
   "note": ""
  },
  {
   "property": "C05",
   "status": "proved",
   "theorems": [
    "C05_add_sub_mul_exact",
    "C05_immediate_operand",
    "C05_unary"
   ],
   "note": "all integers of any size; immediate operand any i32"
  },
  {
   "property": "C06",
   "status": "proved",
   "theorems": [
    "C06_floored_division",
    "C06_zero_division"
   ],
   "note": ""
  },
  {
   "property": "C07",
   "status": "proved",
   "theorems": [
    "C07_power_exact"
   ],
   "note": "float power is an arbitrary function argument, unused here"
  },
  {
   "property": "C08",
   "status": "partial",
   "theorems": [
    "C08_and_or_bitwise",
    "C08_xor_not_bitwise_partial",
    "C08_xor_not_big_refuted"
   ],
   "note": "& and | for all integers; ^ and ~ for small integers only, every big operand shown to raise NoMethodError"
  },
  {
   "property": "C09",
   "status": "partial",
   "theorems": [
    "C09_shift_left_partial",
    "C09_shift_right_partial",
    "C09_negative_count_reverses",
    "C09_shift_refuted"
   ],
   "note": "exact outside the cases the code gets wrong (1<<63, -1>>64)"
  },
  {
   "property": "C10",
   "status": "proved",
   "theorems": [
    "C10_comparison",
    "C10_comparison_immediate",
    "C10_spaceship_equality"
   ],
   "note": ""
  },
  {
   "property": "C11",
   "status": "proved",
   "theorems": [
    "C11_gcd",
    "C11_lcm"
   ],
   "note": "includes termination of the binary gcd loop and absence of overflow panics; gcdlcm pairs the two"
  },
  {
   "property": "C12",
   "status": "partial",
   "theorems": [
    "C12_bit_reference_partial",
    "C12_bit_reference_imm_agrees",
    "C12_bit_reference_refuted",
    "C12_bit_length"
   ],
   "note": "negative small integers with index above 63 read 0 (shown)"
  },
  {
   "property": "C13",
   "status": "partial",
   "theorems": [
    "C13_times",
    "C13_upto_downto_partial",
    "C13_step_partial",
    "C13_step_default_partial",
    "C13_big_receiver_refuted"
   ],
   "note": "times for all integers; upto/downto/step for all small integers; big receivers panic (shown)"
  },
  {
   "property": "C45",
   "status": "partial",
   "theorems": [
    "C45_digits_partial",
    "C45_digits_refuted"
   ],
   "note": "correct when no digit is zero; 105.digits is [5]"
  },
  {
   "property": "C46",
   "status": "partial",
   "theorems": [
    "C46_integer_div_partial",
    "C46_integer_div_refuted",
    "C46_integer_div_zero"
   ],
   "note": "Proved for dividends below 2^53 and divisors up to 2^53 in absolute value, where the division through f64 gives the floored quotient; beyond that the full statement is false."
  },
  {
   "property": "C47",
   "status": "partial",
   "theorems": [
    "C47_numeric_equality_partial",
    "C47_numeric_equality_refuted",
    "C47_symmetric",
    "C47_big_refuted"
   ],
   "note": "== is symmetric. Two integers up to 2^53 equal to the same value are equal; beyond that the full statement is false. Equality between integers is an equivalence by C10."
  },
  {
   "property": "C14",
   "status": "proved",
   "theorems": [
    "C14_read_after_write",
    "C14_read_is_nth",
    "C14_write_before_start"
   ],
   "note": "positions below 2^59, above which the array cannot grow"
  },
  {
   "property": "C15",
   "status": "proved",
   "theorems": [
    "C15_splice",
    "C15_splice_range",
    "C15_splice_refused"
   ],
   "note": "results up to 2^59 elements; includes assigning the receiver into itself"
  },
  {
   "property": "C16",
   "status": "partial",
   "theorems": [
    "C16_slice",
    "C16_slice_never_crashes",
    "C16_range_slice_partial",
    "C16_range_slice_refuted",
    "C16_out_of_range_start_refuted"
   ],
   "note": "[start,len] never crashes; some ranges crash the interpreter (shown); out-of-range starts give [] instead of nil (shown)"
  },
  {
   "property": "C17",
   "status": "proved",
   "theorems": [
    "C17_retain",
    "C17_nothing_lost_on_exception",
    "C17_compact_delete"
   ],
   "note": "arbitrary stateful raising block"
  },
  {
   "property": "C18",
   "status": "proved",
   "theorems": [
    "C18_permutation_any_comparison",
    "C18_sorted_stable",
    "C18_sort_default",
    "C18_sort_by"
   ],
   "note": "arbitrary stateful raising comparison; bounds, buffer size and termination included"
  },
  {
   "property": "C48",
   "status": "partial",
   "theorems": [
    "C48_slice_bang",
    "C48_shift_n_partial",
    "C48_shift_n_refuted",
    "C48_queue_stack"
   ],
   "note": "shift(n) with n above the length removes nothing (shown)"
  },
  {
   "property": "C49",
   "status": "proved",
   "theorems": [
    "C49_bsearch_least",
    "C49_bsearch_safe"
   ],
   "note": ""
  },
  {
   "property": "C50",
   "status": "proved",
   "theorems": [
    "C50_rotate"
   ],
   "note": ""
  },
  {
   "property": "C51",
   "status": "proved",
   "theorems": [
    "C51_flatten",
    "C51_flatten_level",
    "C51_flatten_bang"
   ],
   "note": "finite nestings; cyclic arrays are outside the type"
  },
  {
   "property": "C52",
   "status": "proved",
   "theorems": [
    "C52_transpose",
    "C52_transpose_twice",
    "C52_transpose_never_crashes"
   ],
   "note": ""
  },
  {
   "property": "C53",
   "status": "proved",
   "theorems": [
    "C53_uniq"
   ],
   "note": "for any key equality that is an equivalence"
  },
  {
   "property": "C54",
   "status": "proved",
   "theorems": [
    "C54_dictionary_order",
    "C54_antisymmetric"
   ],
   "note": ""
  },
  {
   "property": "C55",
   "status": "partial",
   "theorems": [
    "C55_join_partial",
    "C55_join_refuted"
   ],
   "note": "leading empty strings lose their separators (shown)"
  },
  {
   "property": "C56",
   "status": "proved",
   "theorems": [
    "C56_zip"
   ],
   "note": ""
  },
  {
   "property": "C41",
   "status": "partial",
   "theorems": [
    "C41_eq_is_byte_equality",
    "C41_cmp_is_dictionary_order",
    "C41_cmp_text",
    "C41_concatenation",
    "C41_append_byte",
    "C41_repetition",
    "C41_keys_partial",
    "C41_canonical_strings",
    "C41_keys_refuted",
    "C41_keys_refuted_slice"
   ],
   "note": "comparison and concatenation proved in full; equal strings are interchangeable as keys only when their representation is canonical, which byte appends and slice!/[]= break (shown)"
  },
  {
   "property": "C44",
   "status": "partial",
   "theorems": [
    "C44_inspect_reads_back_partial",
    "C44_inspect_injective",
    "C44_inspect_refuted"
   ],
   "note": "# followed by {, $ or @ is not escaped and reads back as an interpolation (shown); invalid UTF-8 is printed lossily"
  },
  {
   "property": "C57",
   "status": "partial",
   "theorems": [
    "C57_char_at",
    "C57_substring_partial",
    "C57_substring_refuted",
    "C57_range_partial",
    "C57_exclusive_range_refuted",
    "C57_long_range_refuted"
   ],
   "note": "s[len,n] is nil, exclusive ranges are treated as inclusive, ranges past the end give nil (shown)"
  },
  {
   "property": "C58",
   "status": "partial",
   "theorems": [
    "C58_slice_bang_char",
    "C58_slice_bang_substring",
    "C58_assign_partial",
    "C58_assign_refuted"
   ],
   "note": "slice! proved; []= with length 0 panics and negative positions raise (shown)"
  },
  {
   "property": "C59",
   "status": "proved",
   "theorems": [
    "C59_padding",
    "C59_empty_padding"
   ],
   "note": ""
  },
  {
   "property": "C60",
   "status": "partial",
   "theorems": [
    "C60_strip",
    "C60_chomp_partial",
    "C60_chomp_refuted",
    "C60_search"
   ],
   "note": "chomp removes all trailing separators (shown)"
  },
  {
   "property": "C61",
   "status": "partial",
   "theorems": [
    "C61_split_all",
    "C61_split_default",
    "C61_split_limit",
    "C61_split_blank_refuted",
    "C61_lines"
   ],
   "note": "the blank separator keeps empty pieces (shown); the empty separator and regexp separators are outside"
  },
  {
   "property": "C62",
   "status": "partial",
   "theorems": [
    "C62_succ_counts",
    "C62_succ_refuted"
   ],
   "note": "alphabets other than ASCII and full-width digits are outside; two chars panic (shown)"
  },
  {
   "property": "C63",
   "status": "partial",
   "theorems": [
    "C63_count_partial",
    "C63_count_refuted"
   ],
   "note": "repeated chars in the argument are counted repeatedly (shown)"
  },
  {
   "property": "C19",
   "status": "partial",
   "theorems": [
    "C19_lookup",
    "C19_keys",
    "C19_order_partial",
    "C19_delete_order",
    "C19_order_refuted",
    "C19_identity"
   ],
   "note": "lookup, key set and length for every history; order proved without deletions; delete moves the last entry into the gap (shown)"
  },
  {
   "property": "C20",
   "status": "partial",
   "theorems": [
    "C20_key_equality",
    "C20_hash_key_refuted",
    "C20_transitivity_refuted"
   ],
   "note": "the stated keys (integers, floats, symbols, strings, arrays, ranges, other objects) proved; hashes used as keys break both laws (shown)"
  },
  {
   "property": "C21",
   "status": "proved",
   "theorems": [
    "C21_interning",
    "C21_names_stable"
   ],
   "note": "fewer than 2^32 names"
  },
  {
   "property": "C64",
   "status": "partial",
   "theorems": [
    "C64_select_reject",
    "C64_block_raises",
    "C64_compact",
    "C64_identity_refuted"
   ],
   "note": "select/reject on an identity hash collapse eql keys (shown)"
  },
  {
   "property": "C65",
   "status": "proved",
   "theorems": [
    "C65_merge"
   ],
   "note": "receiver a plain hash"
  },
  {
   "property": "C66",
   "status": "proved",
   "theorems": [
    "C66_invert"
   ],
   "note": ""
  },
  {
   "property": "C67",
   "status": "proved",
   "theorems": [
    "C67_equality"
   ],
   "note": "plain hashes; value equality is the modelled =="
  },
  {
   "property": "C68",
   "status": "proved",
   "theorems": [
    "C68_compare_by_identity"
   ],
   "note": ""
  },
  {
   "property": "C22",
   "status": "proved",
   "theorems": [
    "C22_collection_keeps_reachable_objects"
   ],
   "note": "for every reachable allocator state; how each kind of object lists its references is not modelled"
  },
  {
   "property": "C23",
   "status": "proved",
   "theorems": [
    "C23_collection_reclaims_exactly_the_unreachable"
   ],
   "note": "free list and free pages hold exactly the unreachable cells; counters exact"
  },
  {
   "property": "C24",
   "status": "proved",
   "theorems": [
    "C24_allocation_never_reuses_a_live_cell",
    "C24_memory_holds_every_live_object"
   ],
   "note": "over all histories of allocation, store and collection"
  },
  {
   "property": "C69",
   "status": "proved",
   "theorems": [
    "C69_reclaimed_cells_are_all_reused_before_the_heap_grows"
   ],
   "note": ""
  },
  {
   "property": "C25",
   "status": "partial",
   "theorems": [
    "C25_every_class_has_ancestors",
    "C25_lookup_takes_first_definition",
    "C25_kind_of_agrees_with_ancestors",
    "C25_definition_takes_effect",
    "C25_new_class_extends_superclass",
    "C25_new_module_stands_alone",
    "C25_include_places_module_after_class",
    "C25_prepend_partial",
    "C25_prepend_refuted",
    "C25_include_after_prepend_refuted",
    "C25_singleton_refuted",
    "C25_self_include_refuted"
   ],
   "note": "lookup along the reported ancestors and include proved for every history; prepend holds for subclasses only, singleton classes fall back to Class, self-include diverges (shown)"
  },
  {
   "property": "C26",
   "status": "partial",
   "theorems": [
    "C26_cached_call_is_uncached_lookup_partial",
    "C26_global_cache_is_uncached_lookup_partial",
    "C26_collection_refuted",
    "C26_wrap_refuted"
   ],
   "note": "proved for all histories without collection of classes and fewer than 2^32 version changes; both exceptions shown to break it"
  },
  {
   "property": "C27",
   "status": "partial",
   "theorems": [
    "C27_super_continues_at_next_definition_partial",
    "C27_included_module_refuted",
    "C27_inherited_method_refuted"
   ],
   "note": "holds when the running method is the receiver class's own and no module in between defines it; both other cases shown to fail"
  },
  {
   "property": "C28",
   "status": "partial",
   "theorems": [
    "C28_cached_constant_is_uncached_lookup_partial",
    "C28_assignment_takes_effect",
    "C28_other_self_refuted",
    "C28_include_refuted"
   ],
   "note": "proved for one class of self per read and no include/prepend while reads are cached; both exceptions shown to break it; autoload not modelled"
  },
  {
   "property": "C70",
   "status": "partial",
   "theorems": [
    "C70_constant_in_instance_method_partial",
    "C70_inherited_constant_in_class_body_refuted"
   ],
   "note": "holds when self is a direct instance of the innermost class; fails in class bodies (shown)"
  },
  {
   "property": "C37",
   "status": "partial",
   "theorems": [
    "C37_decimal",
    "C37_hexadecimal",
    "C37_binary_partial",
    "C37_binary_refuted",
    "C37_octal_refuted"
   ],
   "note": "decimal and hexadecimal literals of any length; binary only below 2^63 (refuted above); octal is not implemented (refuted)"
  },
  {
   "property": "C39",
   "status": "partial",
   "theorems": [
    "C39_error_line_partial",
    "C39_last_line_refuted",
    "C39_line_keyword"
   ],
   "note": "every position whose line is ended by a newline; the last unterminated line is always reported as line 1 (refuted)"
  },
  {
   "property": "C40",
   "status": "partial",
   "theorems": [
    "C40_enumeration_partial",
    "C40_include_agrees",
    "C40_exclusive_drops_end_partial",
    "C40_big_bounds_refuted",
    "C40_case_equality_refuted"
   ],
   "note": "machine-word bounds; bignum bounds fail and === is not defined for ranges (both refuted)"
  },
  {
   "property": "C71",
   "status": "partial",
   "theorems": [
    "C71_splat_expands_in_place_partial",
    "C71_array_literal_splat",
    "C71_empty_range_refuted"
   ],
   "note": "calls: proved unless a splatted empty range's bounds touch (refuted) or the stack overflows; array literals: no exception"
  },
  {
   "property": "C36",
   "status": "partial",
   "theorems": [
    "C36_method",
    "C36_method_keywords_partial",
    "C36_discarded_rest_keyword_refuted",
    "C36_keywords_as_hash_refuted",
    "C36_missing_keyword_refuted",
    "C36_block_required",
    "C36_block_partial",
    "C36_block_few_refuted",
    "C36_block_post_first_refuted",
    "C36_block_surplus_refuted",
    "C36_block_splat_refuted",
    "C36_lambda_arity_refuted"
   ],
   "note": "Methods without keyword parameters: proved for every parameter list and argument list. Keywords and blocks: proved outside the listed refuted cases. Default expressions and the argument delegation '...' are not covered."
  },
  {
   "property": "C32",
   "status": "partial",
   "theorems": [
    "C32_instruction",
    "C32_sequence",
    "C32_sequence_unique",
    "C32_sizes",
    "C32_displacement",
    "C32_argument_flags",
    "C32_argument_count_refuted"
   ],
   "note": "every instruction and every sequence round-trips, sizes agree with the table, displacements and flags are read back as written; refuted for sends with 65536 or more arguments (the count is cut to 16 bits)"
  },
  {
   "property": "C29",
   "status": "partial",
   "theorems": [
    "C29_ends_as_source_partial",
    "C29_runs_forever_as_source_partial",
    "C29_no_other_end_partial",
    "C29_no_other_divergence_partial",
    "C29_never_stuck_partial",
    "C29_break_in_operand_refuted",
    "C29_rescue_in_operand_refuted",
    "C29_range_order_refuted"
   ],
   "note": "Both directions (ending, divergence, never stuck) for every tree of the core language that satisfies `ok` (SpecCore.v); what `ok` leaves out is listed there and the main cases are refuted."
  },
  {
   "property": "C31",
   "status": "partial",
   "theorems": [
    "C31_balanced_partial",
    "C31_bignum_statement_refuted",
    "C31_next_grows_stack_refuted"
   ],
   "note": "Proved for every tree that satisfies `ok`, whatever lies on the stack; refuted for an unused Bignum literal and for next in a value position."
  },
  {
   "property": "C33",
   "status": "partial",
   "theorems": [
    "C33_first_match_partial",
    "C33_first_true_partial",
    "C33_duplicate_label_refuted",
    "C33_conditions_all_refuted",
    "C33_float_refuted"
   ],
   "note": "First match and label order proved for computed labels and, where === is identity and no label is repeated, for both dispatch tables; otherwise refuted."
  },
  {
   "property": "C34",
   "status": "partial",
   "theorems": [
    "C34_ensure_runs_partial",
    "C34_ensure_overrides_partial",
    "C34_exception_refuted",
    "C34_exception_in_rescue_refuted",
    "C34_return_in_rescue_refuted",
    "C34_inner_return_refuted",
    "C34_inner_ensure_return_refuted",
    "C34_break_refuted",
    "C34_next_refuted"
   ],
   "note": "Proved for leaving by a value, by a return directly in the body, by an exception when there is a rescue clause and the clause ends normally or none matches; all other ways of leaving skip the ensure clause (refuted)."
  },
  {
   "property": "C35",
   "status": "proved",
   "theorems": [
    "C35_parser_scope",
    "C35_lexical",
    "C35_no_other",
    "C35_separate_slots",
    "C35_declare_keeps",
    "C35_declared",
    "C35_parameter"
   ],
   "note": ""
  },
  {
   "property": "C30",
   "status": "partial",
   "theorems": [
    "C30_same_end",
    "C30_same_divergence",
    "C30_same_stuck",
    "C30_ends_as_source_partial",
    "C30_boundaries",
    "C30_targets",
    "C30_terminates_iff",
    "C30_terminates",
    "C30_terminates_refuted"
   ],
   "note": "Behaviour, boundaries and targets proved for the code of every body of the modelled trees; termination proved exactly for code without cycles of jumps, in particular when no loop condition starts with a jump, and refuted for `while (next; true) do end`."
  },
  {
   "property": "C43",
   "status": "partial",
   "theorems": [
    "C43_survives",
    "C43_distinct",
    "C43_lost_refuted",
    "C43_replaced_refuted",
    "C43_panics_refuted"
   ],
   "note": "Exactly the references that survive are determined: all but code ids from 2^30 to 3*2^30 - 1, for which the claim is refuted."
  },
  {
   "property": "C72",
   "status": "partial",
   "theorems": [
    "C72_follows_partial",
    "C72_returns_partial"
   ],
   "note": "Proved for all runs in which no proc is made while a running sibling block of the activations it keeps stays on the stack; the way non-local break and return choose frames is C76 and C77."
  },
  {
   "property": "C73",
   "status": "partial",
   "theorems": [
    "C73_shared_partial",
    "C73_shared_refuted"
   ],
   "note": "Proved under the same restriction as C72; refuted without it."
  },
  {
   "property": "C76",
   "status": "partial",
   "theorems": [
    "C76_break_partial",
    "C76_yield_refuted"
   ],
   "note": "Proved for blocks run by the builtin function they were given to; refuted for blocks run by yield. Builtin functions that hand a block on to other builtin functions are not covered."
  },
  {
   "property": "C77",
   "status": "partial",
   "theorems": [
    "C77_return_partial",
    "C77_yield_refuted",
    "C77_other_method_refuted",
    "C77_leaks_refuted"
   ],
   "note": "Proved for blocks each run by the builtin function it was given to, if the value of the method is wanted; refuted for yield, for blocks run in other methods, and for calls whose value is not wanted."
  },
  {
   "property": "C78",
   "status": "proved",
   "theorems": [
    "C78_always_goes_on",
    "C78_innermost",
    "C78_rethrown",
    "C78_builtin_fails",
    "C78_uncaught"
   ],
   "note": "Builtin functions on the way are taken to return the error they get."
  },
  {
   "property": "C38",
   "status": "partial",
   "theorems": [
    "C38_reads_partial",
    "C38_round_trip_partial",
    "C38_unambiguous_partial",
    "C38_text_tokens",
    "C38_text_partial",
    "C38_source_partial",
    "C38_method_name",
    "C38_method_name_refuted",
    "C38_compare_refuted",
    "C38_power_refuted",
    "C38_power_literal_refuted",
    "C38_prefix_refuted",
    "C38_prefix_assign_refuted",
    "C38_minus_refuted",
    "C38_argument_refuted",
    "C38_rescue_refuted",
    "C38_rescue_method_refuted",
    "C38_left_side_refuted",
    "C38_op_assign_refuted"
   ],
   "note": "Every written form of every program, as a list of statements, over the operators, assignments, calls with parentheses, indexing, ternary, ranges, and/or and modifiers is read as those statements, with names read as variables or calls as the assignments before them say, except the forms marked FULL in SpecParse.v, for each of which the claim is refuted. The same holds from the source text on: a text with these tokens, separated by blanks where they would run together, is divided into them and parsed as the program. Blocks, strings, hashes, command calls and constructs with their own keyword are not covered."
  },
  {
   "property": "C79",
   "status": "partial",
   "theorems": [
    "C79_parsing_ends",
    "C79_whole_input",
    "C79_no_panic_partial",
    "C79_no_panic_refuted"
   ],
   "note": "Termination proved for every token sequence, and that an accepted program was read to its end; no panic proved unless a minus sign without a number follows one of five tokens directly, refuted otherwise. Constructs outside the model end the run."
  },
  {
   "property": "C42",
   "status": "partial",
   "theorems": [
    "C42_protocol_partial",
    "C42_values_partial",
    "C42_in_order",
    "C42_undefined",
    "C42_active_refuted",
    "C42_break_refuted",
    "C42_first_local_refuted",
    "C42_destructure_refuted",
    "C42_many_refuted"
   ],
   "note": "For every program and every interleaving: control and values go between resume, yield and end as Ruby's protocol says, the code of each fiber is done in order whatever others do, and no stale stack pointer is followed unless an active or dead object is resumed. Hypotheses: the garbage collector keeps active fibers; for the values, blocks have one parameter or no variables and do not break; the other cases are refuted."
  },
  {
   "property": "C80",
   "status": "partial",
   "theorems": [
    "C80_each_partial",
    "C80_map",
    "C80_with_index_partial",
    "C80_next",
    "C80_exhausted",
    "C80_machine",
    "C80_each_result_refuted",
    "C80_with_index_result_refuted",
    "C80_several_values_refuted",
    "C80_block_value_refuted",
    "C80_ensure_refuted",
    "C80_stop_refuted"
   ],
   "note": "Proved for methods that yield one value at a time, do not look at what the block gives, have no ensure clause around the yield and do not end with StopIteration; refuted on each of these, and on the value of each and with_index."
  },
  {
   "property": "C81",
   "status": "partial",
   "theorems": [
    "C81_instance_variables",
    "C81_accessors",
    "C81_packed_refuted",
    "C81_names_refuted"
   ],
   "note": "Proved for every object and every sequence of operations; refuted for receivers that are no heap objects, and instance_variables of a class lists class variables too."
  },
  {
   "property": "C82",
   "status": "partial",
   "theorems": [
    "C82_copy",
    "C82_singleton_refuted",
    "C82_class_refuted",
    "C82_enumerator_refuted",
    "C82_freeze_refuted"
   ],
   "note": "Proved for variables, content and methods found; the copy shares the singleton class and, for a class, the method table; a copied enumerator has no content; freeze does nothing."
  },
  {
   "property": "C83",
   "status": "partial",
   "theorems": [
    "C83_only_there_partial",
    "C83_define",
    "C83_copy_refuted"
   ],
   "note": "Proved for every sequence of operations that does not copy the object or use its singleton class as a class while it has one; refuted with copies."
  },
  {
   "property": "C84",
   "status": "partial",
   "theorems": [
    "C84_get",
    "C84_set",
    "C84_shared",
    "C84_lexical_refuted",
    "C84_singleton_refuted",
    "C84_include_refuted"
   ],
   "note": "Proved for every class graph, with the class of the receiver as the starting point; Ruby starts at the class the code is written in, and a module's variables are copied by include: refuted."
  },
  {
   "property": "C85",
   "status": "partial",
   "theorems": [
    "C85_struct",
    "C85_subclass_refuted",
    "C85_duplicate_refuted"
   ],
   "note": "Proved for every sequence of new, assignments and reads on the objects of one struct class; a subclass of a struct class cannot be instantiated, equal member names are accepted."
  },
  {
   "property": "C86",
   "status": "partial",
   "theorems": [
    "C86_order",
    "C86_laws",
    "C86_raise",
    "C86_incomparable",
    "C86_incomparable_refuted",
    "C86_raise_eq_refuted",
    "C86_big_refuted"
   ],
   "note": "Proved for every <=> that answers a small integer or raises; an answer that is no small integer aborts in < and >, and == loses errors: refuted."
  },
  {
   "property": "C87",
   "status": "partial",
   "theorems": [
    "C87_structure",
    "C87_symmetric",
    "C87_not_equal",
    "C87_when",
    "C87_include",
    "C87_asked",
    "C87_arrays_asked",
    "C87_literal",
    "C87_immediate_refuted",
    "C87_raise_refuted",
    "C87_cyclic_refuted",
    "C87_nan_refuted",
    "C87_big_float_refuted",
    "C87_method_refuted",
    "C87_pattern_refuted"
   ],
   "note": "Proved for data of any depth and for every user-written == that does not raise, between heap objects; immediate operands, raising ==, cyclic arrays, NaN, big integer against float and == called as a method are refuted."
  },
  {
   "property": "C88",
   "status": "partial",
   "theorems": [
    "C88_token",
    "C88_tokens",
    "C88_ends",
    "C88_no_panic_partial",
    "C88_locations",
    "C88_blanks",
    "C88_comment",
    "C88_method_name",
    "C88_no_panic_refuted",
    "C88_power_refuted",
    "C88_group_refuted",
    "C88_global_refuted",
    "C88_ivar_refuted",
    "C88_unicode_name_refuted",
    "C88_tab_refuted",
    "C88_single_refuted",
    "C88_escape_refuted",
    "C88_begin_refuted",
    "C88_method_name_refuted"
   ],
   "note": "Proved for every text that the tokens are those of a relation between spellings and tokens, which says what the lexer accepts; where Ruby differs, and the panics, there are refutations. Regexps, percent literals, heredocs and the rest of an interpolated string are read at the request of the parser and not modelled."
  },
  {
   "property": "C89",
   "status": "partial",
   "theorems": [
    "C89_gsub_partial",
    "C89_gsub_block_partial",
    "C89_sub_partial",
    "C89_sub_block",
    "C89_no_match",
    "C89_gsub_end_refuted",
    "C89_gsub_inside_refuted",
    "C89_gsub_template_refuted",
    "C89_sub_escape_refuted"
   ],
   "note": "Proved for every pattern without a match at the very end whose empty matches are before one-byte characters; gsub's text without backslashes, sub's with backslashes only before digits and backslashes. The rest is refuted."
  },
  {
   "property": "C90",
   "status": "partial",
   "theorems": [
    "C90_scan_partial",
    "C90_scan_refuted",
    "C90_split_partial",
    "C90_split_limit_partial",
    "C90_split_text",
    "C90_split_refuted"
   ],
   "note": "scan for patterns without empty matches (it does not end otherwise); split when all groups take part, with a limit only without groups."
  },
  {
   "property": "C91",
   "status": "partial",
   "theorems": [
    "C91_index_partial",
    "C91_index_refuted",
    "C91_failed_refuted",
    "C91_match_partial",
    "C91_match_refuted",
    "C91_pick_partial",
    "C91_pick_refuted",
    "C91_last_match",
    "C91_slice"
   ],
   "note": "=~ when only ASCII is before the match (it counts bytes); match and negative s[re, n] when all groups take part (they panic otherwise); a failed match keeps the variables."
  },
  {
   "property": "C92",
   "status": "partial",
   "theorems": [
    "C92_tr_partial",
    "C92_tr_whole_text",
    "C92_tr_refuted"
   ],
   "note": "Proved for single characters; otherwise tr replaces the occurrences of a text from left to right, which is proved too."
  },
  {
   "property": "C74",
   "status": "partial",
   "theorems": [
    "C74_nil_partial",
    "C74_call_partial",
    "C74_nil_called_refuted",
    "C74_not_called_refuted",
    "C74_arguments_refuted",
    "C74_statement_refuted"
   ],
   "note": "Proved for calls without arguments whose value is used (also anywhere inside a program, by C29); refuted with arguments and as a statement."
  },
  {
   "property": "C93",
   "status": "partial",
   "theorems": [
    "C93_fresh_partial",
    "C93_outline_partial",
    "C93_fresh_refuted"
   ],
   "note": "Proved for literals without a string directly in an array of constants (such strings are made once, when code is generated); hash literals not modelled."
  },
  {
   "property": "C94",
   "status": "partial",
   "theorems": [
    "C94_call_partial",
    "C94_keywords_partial",
    "C94_empty_refuted",
    "C94_safe_refuted",
    "C94_order_refuted",
    "C94_yield_keyword_refuted",
    "C94_super_refuted"
   ],
   "note": "Proved for the order of the manual (positional, keyword, **, & arguments) and a plain call; refuted for &., for ** before a keyword argument, and for keyword and block arguments of yield and super. Literal blocks are not modelled."
  },
  {
   "property": "C95",
   "status": "partial",
   "theorems": [
    "C95_constant",
    "C95_class_variable",
    "C95_scoped_partial",
    "C95_element",
    "C95_raises",
    "C95_multiple_partial",
    "C95_scope_order_refuted",
    "C95_nil_scope_refuted",
    "C95_toplevel_refuted",
    "C95_or_assign_refuted",
    "C95_attribute_value_refuted",
    "C95_element_twice_refuted",
    "C95_last_first_refuted",
    "C95_padded_value_refuted"
   ],
   "note": "Proved for variables, constants, class variables, elements, p::C with a literal or self on one side, and multiple assignment to different local variables; each of the other parts is refuted. What storing a constant or class variable does is C70 and C84."
  },
  {
   "property": "C96",
   "status": "partial",
   "theorems": [
    "C96_answer_partial",
    "C96_nothing_happens",
    "C96_assignment_partial",
    "C96_assignment_refuted",
    "C96_and_refuted",
    "C96_operand_raises_refuted",
    "C96_operands_left_refuted",
    "C96_receiver_once_refuted",
    "C96_class_variable_refuted"
   ],
   "note": "Proved for receivers that give a value and without &&, || and assignments to local variables; refuted on each of these."
  },
  {
   "property": "C97",
   "status": "partial",
   "theorems": [
    "C97_running_partial",
    "C97_proc_partial",
    "C97_binding_refuted",
    "C97_fiber_refuted",
    "C97_block_refuted"
   ],
   "note": "Proved for frames and procs as far as C72 goes (missing: procs made while a sibling block of theirs is running); refuted for the receiver of a binding and of a fiber that has not started, and for a block that is a proc object."
  },
  {
   "property": "C98",
   "status": "partial",
   "theorems": [
    "C98_kept_partial",
    "C98_owner_refuted",
    "C98_singleton_refuted",
    "C98_exhausted_refuted",
    "C98_builtin_class_refuted",
    "C98_receiver_refuted"
   ],
   "note": "Proved for the operations of SpecKinds.gives; refuted for the owner of a method, the object of a singleton class, the receiver of an exhausted enumerator, the builtin classes once their constants are reassigned, and the receivers and blocks of C97."
  },
  {
   "property": "C99",
   "status": "partial",
   "theorems": [
    "C99_each",
    "C99_map_bang_partial",
    "C99_select_partial",
    "C99_find_index_partial",
    "C99_uniq_partial",
    "C99_flat_map_partial",
    "C99_select_grow_refuted",
    "C99_select_pop_refuted",
    "C99_find_assign_refuted",
    "C99_map_bang_refuted",
    "C99_flat_map_short_refuted",
    "C99_flat_map_optional_refuted"
   ],
   "note": "each, each_index, each_with_index and map: proved for all blocks.  map!: for blocks that do not shorten the array.  The others: for blocks that leave the array alone (or only assign to elements); refuted for blocks that add or remove elements."
  },
  {
   "property": "C100",
   "status": "partial",
   "theorems": [
    "C100_format_partial",
    "C100_errors",
    "C100_negative_refuted",
    "C100_width_refuted",
    "C100_float_refuted",
    "C100_large_refuted",
    "C100_panic_refuted"
   ],
   "note": "Proved for formats of text, %%, %d, %b, %x, %X with optional flag 0 and width, and %s, with fixnums (not negative for b, x, X) and strings; refuted for negative numbers in other bases, precisions of integers, widths of %s, %f without precision, bignums, and huge widths."
  },
  {
   "property": "C101",
   "status": "partial",
   "theorems": [
    "C101_methods",
    "C101_call_partial",
    "C101_questions_agree_partial",
    "C101_instance_method_partial",
    "C101_send_partial",
    "C101_alias",
    "C101_alias_undefined",
    "C101_singleton_refuted",
    "C101_send_missing_refuted",
    "C101_send_keywords_refuted",
    "C101_send_string_refuted",
    "C101_missing_block_refuted",
    "C101_included_modules_refuted",
    "C101_alias_module_refuted"
   ],
   "note": "The lists of methods and alias are proved in full; calls, questions and send for receivers whose class is no singleton class, histories without collections of classes and without wrap-around of the version counter (C26), and without blocks or keyword arguments when method_missing takes over; refuted: singleton classes, send with method_missing, keyword arguments or a string, blocks and keywords for method_missing, included_modules after prepend, alias in a module of a method of Object."
  },
  {
   "property": "C102",
   "status": "partial",
   "theorems": [
    "C102_bsearch_partial",
    "C102_min_partial",
    "C102_max",
    "C102_max_integers",
    "C102_leaving",
    "C102_empty",
    "C102_find_any_refuted",
    "C102_bsearch_shrink_refuted",
    "C102_min_large_refuted",
    "C102_min_types_refuted",
    "C102_max_mixed_refuted"
   ],
   "note": "bsearch proved for blocks that give true, false or nil and leave the array alone, min for integers up to 2^53, max whenever the comparison orders the elements; refuted: blocks that give numbers, blocks that shorten the array, min of larger integers, of bignums, of some floats and of other objects, max of floats and large integers mixed."
  },
  {
   "property": "C103",
   "status": "partial",
   "theorems": [
    "C103_assignments",
    "C103_own_deletion",
    "C103_delete_if",
    "C103_new_keys_partial",
    "C103_table",
    "C103_twice_refuted",
    "C103_deleted_refuted",
    "C103_old_value_refuted",
    "C103_new_keys_refuted"
   ],
   "note": "Proved for blocks that assign to keys the hash has and for blocks that delete the key they were called with, however they end; refuted: deletions of other keys (a key can get two turns, a deleted one is not skipped, a value can be an old one), new keys (no error, freed memory is read)."
  },
  {
   "property": "C104",
   "status": "partial",
   "theorems": [
    "C104_read",
    "C104_to_s",
    "C104_float_partial",
    "C104_integer_partial",
    "C104_to_i_refuted",
    "C104_big_refuted",
    "C104_integer_refuted",
    "C104_float_refuted"
   ],
   "note": "Proved: to_s of all integers, reading of all strings (which are numbers and which are not) within 64 bits, floats whose result is within 64 bits; refuted: numbers with something behind them, larger numbers, Integer() of integers from 2**62 on, floats beyond 64 bits, infinities and NaN."
  },
  {
   "property": "C105",
   "status": "partial",
   "theorems": [
    "C105_glob_partial",
    "C105_hidden_refuted",
    "C105_deep_refuted",
    "C105_slash_refuted",
    "C105_bracket_refuted",
    "C105_unreadable_refuted"
   ],
   "note": "Proved for all trees of readable directories and patterns of ordinary characters, ?, * and **/ that do not begin a name with ? or with * and a dot, repeat **/, or have empty parts; these, brackets and unreadable directories are refuted."
  },
  {
   "property": "C106",
   "status": "partial",
   "theorems": [
    "C106_join",
    "C106_join_two",
    "C106_join_type",
    "C106_join_refuted",
    "C106_names_partial",
    "C106_names_refuted",
    "C106_expand_partial",
    "C106_expand_dir_partial",
    "C106_home",
    "C106_expand_refuted",
    "C106_exist_partial",
    "C106_directory_partial",
    "C106_file_partial",
    "C106_exist_refuted",
    "C106_write_read",
    "C106_lines"
   ],
   "note": "join, write followed by read and readlines are proved for all inputs (join as the code has it for empty first strings, which is refuted as Ruby's). basename, dirname and extname: for paths with a name and without . and .. parts. expand_path: for paths without ~, and ~ at the beginning without .. behind it. exist?, file? and directory?: complete for paths without .. (and, but for directory?, that end with a name); with .. in one direction."
  },
  {
   "property": "C107",
   "status": "partial",
   "theorems": [
    "C107_rescue_partial",
    "C107_clauses_partial",
    "C107_interpreter_errors_partial",
    "C107_message_partial",
    "C107_raise_object_partial",
    "C107_raise_class",
    "C107_raise_text_partial",
    "C107_rescue_module_refuted",
    "C107_rescue_prepended_refuted",
    "C107_interpreter_errors_refuted",
    "C107_raise_text_refuted",
    "C107_raise_class_text_refuted",
    "C107_message_refuted"
   ],
   "note": "Which clause runs is proved for lists of classes that are no modules and have no prepended modules (both exceptions are refuted). Interpreter errors: for all classes but RangeError, LoadError, StopIteration and DomainError (refuted), when the program leaves the constants of the exception classes alone. raise of a class: when Exception has no prepended module. raise of a text: a StandardError with the text (that it is no RuntimeError is refuted)."
  },
  {
   "property": "C108",
   "status": "partial",
   "theorems": [
    "C108_arithmetic",
    "C108_ring",
    "C108_mixed_partial",
    "C108_mixed_refuted",
    "C108_parts",
    "C108_division_partial",
    "C108_division_refuted",
    "C108_int_division_partial",
    "C108_eq_partial",
    "C108_eq_refuted",
    "C108_order_refuted",
    "C108_parts_back_partial",
    "C108_not_real",
    "C108_rect_abs2",
    "C108_inspect_partial",
    "C108_make_refuted"
   ],
   "note": "Complete for +, -, * of two Complex numbers with Integer parts and of an Integer and a Complex; an Integer on the right of a Complex, and making one, for Integers from -2^62 to 2^62-1 (larger ones refuted). Division: where the quotient has Integer parts (else refuted); an Integer divided by a Complex: the floors of the Float parts, within 53 bits. == of Complex numbers and with literals (with Integers in variables refuted). inspect: Integer parts."
  },
  {
   "property": "C109",
   "status": "partial",
   "theorems": [
    "C109_new_class",
    "C109_new_module",
    "C109_reopen_class",
    "C109_reopen_module",
    "C109_superclass",
    "C109_superclass_is_a_class",
    "C109_not_a_class_refuted",
    "C109_singleton_superclass_refuted"
   ],
   "note": "Proved for constants that hold a class or module and bases that are one; others panic (refuted). A singleton class as a superclass is accepted (refuted)."
  },
  {
   "property": "C110",
   "status": "partial",
   "theorems": [
    "C110_compare",
    "C110_compare_other",
    "C110_case",
    "C110_include_p_partial",
    "C110_classes_ordered",
    "C110_compare_classes",
    "C110_const_get",
    "C110_scope_partial",
    "C110_constants_partial",
    "C110_modules_ordered_refuted",
    "C110_modules_transitive_refuted",
    "C110_include_self_refuted",
    "C110_scope_refuted",
    "C110_constants_refuted",
    "C110_const_get_string_refuted"
   ],
   "note": "The order is proved for classes; for modules it fails (refuted). include? is proved for another module than the receiver (refuted for itself). A::X is proved to find only A's own constants (refuted for inherited ones). constants is proved as a set, with Object not prepended to."
  },
  {
   "property": "C111",
   "status": "partial",
   "theorems": [
    "C111_inspect",
    "C111_inspect_injective_partial",
    "C111_to_s",
    "C111_interpolation",
    "C111_p",
    "C111_print",
    "C111_puts_partial",
    "C111_inspect_injective_refuted",
    "C111_cyclic_refuted",
    "C111_puts_refuted"
   ],
   "note": "inspect, to_s, interpolation, p and print are proved for all finite data; that different data look different for symbols whose text has none of the characters , ] } = . and no ranges of ranges (refuted for other symbols); puts for texts that do not end with a newline (refuted otherwise). Cyclic data overflows the stack (refuted). Floats are not modelled."
  },
  {
   "property": "C112",
   "status": "partial",
   "theorems": [
    "C112_once",
    "C112_known",
    "C112_answer",
    "C112_ends",
    "C112_search",
    "C112_absolute",
    "C112_missing",
    "C112_relative",
    "C112_load",
    "C112_error_refuted",
    "C112_dot_refuted",
    "C112_load_refuted"
   ],
   "note": "Proved for names without a dot or ending in .rb and for entries of $: that are not empty; refuted for other names with a dot. A file that raised is not run again (refuted as a promise of require)."
  },
  {
   "property": "C113",
   "status": "partial",
   "theorems": [
    "C113_method_call_partial",
    "C113_bind",
    "C113_undefined",
    "C113_owner_partial",
    "C113_equal",
    "C113_yield_symbol_partial",
    "C113_iterate_partial",
    "C113_symbol_proc_partial",
    "C113_module_function",
    "C113_owner_refuted",
    "C113_bind_type_refuted",
    "C113_bind_call_refuted",
    "C113_unbound_equal_refuted",
    "C113_method_string_refuted",
    "C113_iterate_refuted",
    "C113_symbol_proc_refuted",
    "C113_symbol_proc_empty_refuted"
   ],
   "note": "Proved for receivers without singleton class, owners that are classes without prepended modules, one argument for :m.to_proc, and iterations of Array, Hash and Enumerator; refuted for module owners, bind_call with a block, further arguments of :m.to_proc, and iterations of Range and Integer."
  },
  {
   "property": "C114",
   "status": "partial",
   "theorems": [
    "C114_binary",
    "C114_ordering_partial",
    "C114_calculated",
    "C114_logical",
    "C114_literal",
    "C114_minus",
    "C114_index",
    "C114_index_assign",
    "C114_index_method",
    "C114_equal_partial",
    "C114_case",
    "C114_not_refuted",
    "C114_plus_refuted",
    "C114_tilde_refuted",
    "C114_array_index_refuted",
    "C114_array_set_refuted",
    "C114_array_push_refuted",
    "C114_integer_plus_refuted",
    "C114_not_equal_refuted",
    "C114_case_refuted",
    "C114_equal_refuted",
    "C114_ordering_refuted",
    "C114_equal_immediate",
    "C114_equal_immediate_refuted"
   ],
   "note": "Proved for receivers without singleton class; orderings up to the truth of the answer, == when the method returns; refuted for !, +@, ~, !=, === of own classes, errors inside ==, and methods redefined in Integer and in subclasses of Array."
  },
  {
   "property": "C115",
   "status": "partial",
   "theorems": [
    "C115_evals_partial",
    "C115_shared",
    "C115_receiver",
    "C115_local_variables",
    "C115_resume",
    "C115_new_variables_refuted",
    "C115_many_refuted",
    "C115_nested_refuted"
   ],
   "note": "Proved for histories in which each text brings in at most one new variable and a binding has at most 63; refuted beyond."
  },
  {
   "property": "C116",
   "status": "partial",
   "theorems": [
    "C116_resume",
    "C116_yield",
    "C116_finish",
    "C116_stacks",
    "C116_active_refuted",
    "C116_home_refuted"
   ],
   "note": "Proved for resumes of fibers that are not being run and, on Windows, for code that does not use the home space of new_context; both limits are shown to matter by the two refutations."
  },
  {
   "property": "C117",
   "status": "partial",
   "theorems": [
    "C117_new",
    "C117_in_place",
    "C117_uniq",
    "C117_flatten",
    "C117_flatten_cycle_refuted",
    "C117_concat_self_refuted"
   ],
   "note": "concat is proved for another array than the receiver; concat of the array itself and flatten of an array with a cycle that does not pass through it are refuted."
  },
  {
   "property": "C118",
   "status": "partial",
   "theorems": [
    "C118_q",
    "C118_w",
    "C118_i",
    "C118_Q",
    "C118_words_unique",
    "C118_tab_refuted",
    "C118_escaped_delimiter_refuted",
    "C118_escaped_blank_refuted",
    "C118_kinds_refuted",
    "C118_regexp_option_refuted"
   ],
   "note": "%q, %w, %i, %Q and bare % are proved in both directions; %W, %I, %s and %x are always rejected, a tab does not separate words, \\ before a delimiter stays, and the options of %r are ignored (refuted)."
  },
  {
   "property": "C119",
   "status": "partial",
   "theorems": [
    "C119_document",
    "C119_second",
    "C119_goes_on",
    "C119_nothing_pending",
    "C119_indentation_refuted",
    "C119_locals_refuted",
    "C119_panics_refuted",
    "C119_command_refuted",
    "C119_continued_refuted"
   ],
   "note": "Which lines form the document, where reading goes on, and what the text denotes are proved in both directions. Refuted: <<~ does not dedent, the code knows no local variables, a command with an interpolation and << at the end of the text panic, a continued line runs into the document."
  },
  {
   "property": "C120",
   "status": "partial",
   "theorems": [
    "C120_string",
    "C120_unique",
    "C120_alternate",
    "C120_percent",
    "C120_brackets_refuted",
    "C120_level_refuted",
    "C120_adjacent_refuted"
   ],
   "note": "Proved in both directions for strings in double quotes and for reading percent literals with a mark; for brackets refuted: their count goes wrong behind an interpolation. The code inside is a parameter."
  },
  {
   "property": "C121",
   "status": "partial",
   "theorems": [
    "C121_regexp",
    "C121_options",
    "C121_option_known",
    "C121_group_refuted",
    "C121_group_partial",
    "C121_options_refuted",
    "C121_class_refuted"
   ],
   "note": "Proved for patterns without \\e, \\s and numbers beyond \\1; \\2 to \\7, several options and \\b in brackets behind an interpolation are refuted. The engine is not modelled."
  },
  {
   "property": "C122",
   "status": "partial",
   "theorems": [
    "C122_accepted_in_order",
    "C122_closed",
    "C122_parentheses",
    "C122_bare_partial",
    "C122_bars_partial",
    "C122_reading_ends",
    "C122_slots_partial",
    "C122_slots_refuted",
    "C122_block_default_refuted",
    "C122_keyword_semicolon_refuted",
    "C122_rest_line_refuted",
    "C122_default_assignment_refuted",
    "C122_other_forms_refuted"
   ],
   "note": "Order, names and reading are proved for all lists in parentheses; between bars but for a default in the last parameter, and on a bare line ended by a line end. Refuted: defaults before a bar, a keyword before a semicolon, * before a line, and the numbers of variables when a default assigns to a new one."
  },
  {
   "property": "C123",
   "status": "partial",
   "theorems": [
    "C123_reads_partial",
    "C123_unambiguous_partial",
    "C123_else_refuted",
    "C123_case_without_when_refuted"
   ],
   "note": "Reading is proved for all programs of these statements. Missing: do behind the condition of a loop, for, begin, and these statements as parts of expressions. Refuted: a blank and else, elsif or when behind a method name; case without when is accepted. That reading ends is not proved for these statements."
  }
 ]
}
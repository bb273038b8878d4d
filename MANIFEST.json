{
 "claims": [
  {
   "property": "C01",
   "status": "proved",
   "theorems": [
    "C01_add_exact_or_error",
    "C01_sub_exact_or_error",
    "C01_mod_exact_or_error",
    "C01_neg_exact_or_error",
    "C01_assign_ops_agree",
    "C01_abs_exact_or_error"
   ],
   "note": "Model of values.hh IntVal.  Exact characterisation: result or ArithmeticError, never UB."
  },
  {
   "property": "C02",
   "status": "proved",
   "theorems": [
    "C02_comparisons_are_the_extended_order",
    "C02_total_order",
    "C02_min_max"
   ],
   "note": ""
  },
  {
   "property": "C03",
   "status": "proved",
   "theorems": [
    "C03_pow_exact_or_error",
    "C03_pow_large_exponent",
    "C03_pow_negative_exponent",
    "C03_pow_counter_refuted"
   ],
   "note": "Exponents above INT_MAX with |base|<=1 overflow the int loop counter (C03_pow_counter_refuted)."
  },
  {
   "property": "C04",
   "status": "partial",
   "theorems": [
    "C04_results_well_formed_partial",
    "C04_neg_infinity",
    "C04_plus_minus_absorb_infinity",
    "C04_mul_left_infinity",
    "C04_mul_right_infinity_refuted"
   ],
   "note": "finite*infinite uses the sign of the wrong operand (C04_mul_right_infinity_refuted)."
  },
  {
   "property": "C05",
   "status": "proved",
   "theorems": [
    "C05_from_vector",
    "C05_from_interval",
    "C05_representation_unique",
    "C05_vector_refuted"
   ],
   "note": "Vectors holding LLONG_MAX twice are rejected (C05_vector_refuted)."
  },
  {
   "property": "C06",
   "status": "proved",
   "theorems": [
    "C06_union_exact",
    "C06_intersection_exact",
    "C06_difference_exact",
    "C06_union_edge_refuted",
    "C06_difference_edge_refuted"
   ],
   "note": "Exact, or ArithmeticError when a bound is LLONG_MIN/LLONG_MAX (witnesses: *_edge_refuted).  Intersection is total."
  },
  {
   "property": "C07",
   "status": "proved",
   "theorems": [
    "C07_equal_exact",
    "C07_subset_exact",
    "C07_disjoint_exact",
    "C07_compare_exact",
    "C07_contains_exact",
    "C07_range_subset_exact"
   ],
   "note": ""
  },
  {
   "property": "C08",
   "status": "proved",
   "theorems": [
    "C08_bounded_sets_have_lists",
    "C08_cardinality_exact",
    "C08_card_agrees",
    "C08_cardinality_unbounded",
    "C08_values_in_order",
    "C08_values_edge_refuted"
   ],
   "note": "Iteration over a set holding LLONG_MAX raises ArithmeticError."
  },
  {
   "property": "C09",
   "status": "proved",
   "theorems": [
    "C09_less_is_lexicographic",
    "C09_strict_total_order"
   ],
   "note": ""
  },
  {
   "property": "C10",
   "status": "proved",
   "theorems": [
    "C10_limit_domain_exact",
    "C10_intersect_interval_exact",
    "C10_intersect_domains_exact",
    "C10_domain_equals_exact"
   ],
   "note": ""
  },
  {
   "property": "C11",
   "status": "proved",
   "theorems": [
    "C11_value_preserved",
    "C11_normal_form",
    "C11_succeeds"
   ],
   "note": "std::sort is any function returning a permutation sorted by CmpExpIdx (shown to exist); other expressions are represented by their rank in Expression::compare."
  },
  {
   "property": "C12",
   "status": "proved",
   "theorems": [
    "C12_collect_value",
    "C12_terminates",
    "C12_mklinexp_value"
   ],
   "note": ""
  },
  {
   "property": "C13",
   "status": "proved",
   "theorems": [
    "C13_comparison_equivalent"
   ],
   "note": "get_linexp, bounds and domains are parameters constrained to be sound; floorDiv/ceilDiv are parameters assumed to round correctly (see C15)."
  },
  {
   "property": "C14",
   "status": "partial",
   "theorems": [
    "C14_status_sound_partial",
    "C14_expression_value",
    "C14_large_bound_refuted",
    "C14_set_in_empty_refuted"
   ],
   "note": "All optimisers of OptimizeRegistry.  False for single-variable int_lin_le with operands of 2^53 or more (C14_large_bound_refuted), which the partial theorem excludes."
  },
  {
   "property": "C15",
   "status": "partial",
   "theorems": [
    "C15_floor_ceiling_partial",
    "C15_floor_refuted",
    "C15_ceiling_refuted",
    "C15_overflow_refuted",
    "C15_comparison_equivalent_partial"
   ],
   "note": "Exact for operands below 2^53 in magnitude; false above (C15_floor_refuted, C15_ceiling_refuted, C15_overflow_refuted).  Doubles are the standard library's SpecFloat; the proof uses Flocq and the axioms of the classical reals."
  },
  {
   "property": "C16",
   "status": "partial",
   "theorems": [
    "C16_sound_partial",
    "C16_div_refuted",
    "C16_div_zero_refuted",
    "C16_mod_refuted",
    "C16_call_refuted",
    "C16_absent_refuted"
   ],
   "note": "Proved for well-formed expressions without mod, with div only where the computed bounds of the dividend do not end in 0 and those of the divisor do not have 0 strictly inside, and without calls that declare a result domain and take Boolean arguments. In the excluded cases the property is false of the code: C16_div_refuted, C16_div_zero_refuted, C16_mod_refuted, C16_call_refuted, C16_absent_refuted give witnesses."
  },
  {
   "property": "C17",
   "status": "partial",
   "theorems": [
    "C17_sound_partial",
    "C17_field_refuted",
    "C17_null_refuted"
   ],
   "note": "Proved for set expressions without field accesses. C17_field_refuted and C17_null_refuted show undefined behaviour for a field access and for an operator with an operand without bounds."
  },
  {
   "property": "C18",
   "status": "partial",
   "theorems": [
    "C18_sound_partial",
    "C18_stops_partial",
    "C18_safe_partial",
    "C18_loop_refuted",
    "C18_merge_refuted",
    "C18_control_refuted"
   ],
   "note": "Implication chains (ImpCompressor): soundness when no variable that implies something is an argument of a half-reified predicate; termination without self-implications; no undefined behaviour when clauses have at most one negative literal. Each restriction is needed: C18_control_refuted, C18_loop_refuted, C18_merge_refuted."
  },
  {
   "property": "C19",
   "status": "proved",
   "theorems": [
    "C19_chunks",
    "C19_nul_refuted"
   ],
   "note": "Full, for streams without NUL characters; a NUL hides the rest of its chunk (C19_nul_refuted). If an exception is thrown, everything but the copy of the raw stream agrees. The evaluation of a solution (parser, output items, checker) is a parameter of the theorem."
  },
  {
   "property": "C20",
   "status": "proved",
   "theorems": [
    "C20_lines"
   ],
   "note": "Full. The messages recognised are the standard ones, also when other messages are configured for output."
  },
  {
   "property": "C21",
   "status": "proved",
   "theorems": [
    "C21_solutions",
    "C21_canonical_refuted"
   ],
   "note": "Full. With canonicalisation, two status lines print the list twice (C21_canonical_refuted)."
  },
  {
   "property": "C22",
   "status": "partial",
   "theorems": [
    "C22_collect_partial",
    "C22_alloc",
    "C22_extents",
    "C22_no_dangling",
    "C22_accounting",
    "C22_args_partial",
    "C22_morph",
    "C22_operator_refuted",
    "C22_marker_refuted",
    "C22_abandoned_refuted",
    "C22_args_refuted"
   ],
   "note": "For every heap history of allocations, assignments and collections. Partial: the declaration pointer of operators is not followed by the collector (C22_operator_refuted), the trail is only marked if a marker exists (C22_marker_refuted), an abandoned allocation breaks the accounting (C22_abandoned_refuted) and a second Call::args can change the size of a node (C22_args_refuted)."
  },
  {
   "property": "C23",
   "status": "proved",
   "theorems": [
    "C23_refines",
    "C23_restores"
   ],
   "note": "Full. exceptions that skip untrail are not part of the history."
  },
  {
   "property": "C24",
   "status": "proved",
   "theorems": [
    "C24_roots",
    "C24_markers"
   ],
   "note": "Full, for KeepAlive handles and for markers."
  },
  {
   "property": "C25",
   "status": "partial",
   "theorems": [
    "C25_safe_partial",
    "C25_head_refuted",
    "C25_dangling_refuted"
   ],
   "note": "The full property is false of the code: the reference registered last reads as null (C25_head_refuted) and is not cleared when its target dies (C25_dangling_refuted). Proved for histories in which that reference's target survives each collection."
  },
  {
   "property": "C26",
   "status": "proved",
   "theorems": [
    "C26_integer_round_trip",
    "C26_integer_sharing",
    "C26_packed",
    "C26_packed_distinct",
    "C26_nodes"
   ],
   "note": "64-bit pointers.  Histories of literal creation and collection; that weak map entries of freed literals are cleared is C25."
  },
  {
   "property": "C27",
   "status": "proved",
   "theorems": [
    "C27_float_round_trip",
    "C27_packed",
    "C27_infinities_not_packed"
   ],
   "note": "Doubles are their 64 bits; only finite values (the infinite FloatVals are always boxed and not modelled)."
  },
  {
   "property": "C28",
   "status": "proved",
   "theorems": [
    "C28_location_round_trip",
    "C28_introduced_flag"
   ],
   "note": "64-bit layout; the 32-bit layout is not modelled."
  },
  {
   "property": "C29",
   "status": "proved",
   "theorems": [
    "C29_elements",
    "C29_vector"
   ],
   "note": "Any array built by the constructors, views and slices; elements up to the equality used by compression (Expression::equal), which is a parameter."
  },
  {
   "property": "C30",
   "status": "proved",
   "theorems": [
    "C30_slice",
    "C30_views_defined",
    "C30_set",
    "C30_set_compressed_refuted",
    "C30_make1d_slice_refuted"
   ],
   "note": "Any number of dimensions; sizes up to INT_MAX.  Assigning elements of a compressed array (C30_set_compressed_refuted) and make1d of a slice (C30_make1d_slice_refuted) are wrong in the code."
  },
  {
   "property": "C31",
   "status": "partial",
   "theorems": [
    "C31_in_range",
    "C31_bijective",
    "C31_out_of_range_partial",
    "C31_nonempty_fits",
    "C31_absent_partial",
    "C31_overflow_refuted"
   ],
   "note": "Any array built by constructors, views and slices, any number of dimensions, infinite indices included. Out-of-range accesses of an array without elements whose leading dimensions multiply to more than INT_MAX are undefined (C31_overflow_refuted)."
  },
  {
   "property": "C32",
   "status": "partial",
   "theorems": [
    "C32_indexed_partial",
    "C32_span",
    "C32_empty",
    "C32_truncation_refuted"
   ],
   "note": "Indices in the range of int and at most INT_MAX elements; larger indices are truncated (C32_truncation_refuted)."
  },
  {
   "property": "C33",
   "status": "partial",
   "theorems": [
    "C33_enumerate_partial",
    "C33_thrown_refuted"
   ],
   "note": "Full for evaluations that complete; expressions are parameters that depend on the values of the variables only. If the evaluation throws, generator variables are not restored (C33_thrown_refuted). Where-clauses of var type, which become conditional elements, are not modelled."
  },
  {
   "property": "C34",
   "status": "partial",
   "theorems": [
    "C34_encoding_injective",
    "C34_decode_partial",
    "C34_decode_refuted",
    "C34_cmp_order",
    "C34_eq",
    "C34_cmp_eq",
    "C34_eq_cmp_refuted"
   ],
   "note": "fromInt masks the 16-bit type id with 12 bits (C34_decode_refuted); the flags cv and any are not encoded.  == ignores enum ids, cmp does not (C34_eq_cmp_refuted)."
  },
  {
   "property": "C35",
   "status": "proved",
   "theorems": [
    "C35_reflexive",
    "C35_transitive",
    "C35_declarative",
    "C35_decided",
    "C35_bottom_refuted",
    "C35_strict_refuted"
   ],
   "note": "Registered struct types of any nesting, strict and non-strict.  Not transitive through bottom types (C35_bottom_refuted), and the strict test of EnvI is not transitive (C35_strict_refuted)."
  },
  {
   "property": "C36",
   "status": "partial",
   "theorems": [
    "C36_plain_partial",
    "C36_partial",
    "C36_injective_partial",
    "C36_minus_refuted",
    "C36_intersect_refuted",
    "C36_concat_refuted",
    "C36_unary_refuted",
    "C36_power_refuted",
    "C36_inverse_refuted"
   ],
   "note": "Proved from the printed characters to the tree for integer, Boolean, string and range literals, identifiers, all 28 binary and 3 unary operators, calls, arrays, accesses and conditionals, whenever the printer's parentheses agree with the grammar (C36_partial), in particular for all nestings of the 25 operators other than ^, ++ and intersect (C36_plain_partial). The claim as stated is false for the rest (C36_*_refuted). Not modelled: comprehensions, let, tuples, records, annotations, set literals in braces, multi-dimensional literals."
  },
  {
   "property": "C37",
   "status": "partial",
   "theorems": [
    "C37_partial",
    "C37_return_refuted",
    "C37_nul_refuted"
   ],
   "note": "Proved for strings without NUL and carriage return, in any context. A carriage return is printed raw and breaks the literal (C37_return_refuted)."
  },
  {
   "property": "C38",
   "status": "partial",
   "theorems": [
    "C38_partial",
    "C38_refuted"
   ],
   "note": "Proved for every name that the lexer can return as an identifier, except infinity, variant_record and _, which quoteId leaves bare (C38_refuted)."
  },
  {
   "property": "C39",
   "status": "proved",
   "theorems": [
    "C39_scanned",
    "C39_printed",
    "C39_digits",
    "C39_negated",
    "C39_zero_refuted"
   ],
   "note": "Scanner and parser together, for all 64-bit integers and all digit strings, alone and after a minus sign. The one 64-bit integer that can be written in decimal but is rejected is the smallest with zeros in front of it (C39_zero_refuted)."
  },
  {
   "property": "C40",
   "status": "proved",
   "theorems": [
    "C40_round_trip",
    "C40_standard_encoding",
    "C40_decode_defined",
    "C40_brace_refuted"
   ],
   "note": "The round trip holds for every string and block size.  Decoding other text is undefined if it holds '{' (C40_brace_refuted)."
  },
  {
   "property": "C41",
   "status": "partial",
   "theorems": [
    "C41_round_trip_partial",
    "C41_words",
    "C41_refuted"
   ],
   "note": "Exact characterisation proved: the round trip holds iff the vector is non-empty and no argument holds a control character that is escaped by a letter or a backslash followed by a backslash, a quote or the end. For other vectors the property is false (C41_refuted)."
  },
  {
   "property": "C42",
   "status": "partial",
   "theorems": [
    "C42_exact_partial",
    "C42_clamped",
    "C42_refuted",
    "C42_end_refuted"
   ],
   "note": "Proved for 32-bit integers; larger ones are clamped without a diagnostic (C42_clamped, C42_refuted), and a number that ends the input is dropped (C42_end_refuted)."
  },
  {
   "property": "C43",
   "status": "partial",
   "theorems": [
    "C43_read_partial",
    "C43_written_read",
    "C43_escapes_refuted",
    "C43_planes_refuted",
    "C43_open_refuted"
   ],
   "note": "All of RFC 8259 except the escapes b, f, r and surrogate pairs in even planes, which the code gets wrong (refuted). The round trip with the system's own escaping holds for all byte strings."
  },
  {
   "property": "C44",
   "status": "proved",
   "theorems": [
    "C44_distance",
    "C44_suggestion"
   ],
   "note": "Full (names non-empty and shorter than INT_MAX characters)."
  },
  {
   "property": "C45",
   "status": "proved",
   "theorems": [
    "C45_aggregate",
    "C45_root"
   ],
   "note": "Aggregation of any nesting of and/or/not terminates, keeps the truth value and leaves no nested operator of the same kind; overloaded operators are opaque."
  },
  {
   "property": "C46",
   "status": "proved",
   "theorems": [
    "C46_monotone",
    "C46_antitone",
    "C46_signs",
    "C46_junction",
    "C46_clause",
    "C46_record",
    "C46_order"
   ],
   "note": "Sign composition, contexts of forall/exists/clause arguments, and recording of uses are proved for all contexts, annotations and sequences of uses."
  },
  {
   "property": "C47",
   "status": "partial",
   "theorems": [
    "C47_total",
    "C47_transitive_partial",
    "C47_hash",
    "C47_equal_partial",
    "C47_consistent",
    "C47_equivalence_partial",
    "C47_sets_refuted",
    "C47_compressed_refuted",
    "C47_alias_refuted",
    "C47_unresolved_refuted"
   ],
   "note": "Expressions are trees with types, names, declarations and flat versions; doubles are represented by their rank and types by their integer. Proved for every hash function: compare is antisymmetric and (without mixing kinds of set literals) transitive; equal expressions have equal hashes and compare equal; equal means same structure and is an equivalence relation for uncompressed arrays, resolved identifiers and no two names for one flat variable. Refuted without these conditions. Not modelled: slices, stale hashes."
  },
  {
   "property": "C48",
   "status": "partial",
   "theorems": [
    "C48_find",
    "C48_get",
    "C48_iterate_partial",
    "C48_iterate_refuted",
    "C48_large_refuted"
   ],
   "note": "Identifiers up to 1431655764.  Iteration is wrong for maps with gaps (C48_iterate_refuted), so that part is proved for gap-free maps."
  },
  {
   "property": "C49",
   "status": "proved",
   "theorems": [
    "C49_order",
    "C49_shape",
    "C49_accepts",
    "C49_terminates"
   ],
   "note": "Full. Scopes, name lookup, free names with shadowing, cycle detection, and the final stable sort are modelled; ignoring unknown identifiers and enum/shadowing warnings are not."
  },
  {
   "property": "C50",
   "status": "partial",
   "theorems": [
    "C50_intern_partial",
    "C50_destroy_partial",
    "C50_intern_refuted"
   ],
   "note": "Strings without NUL characters; with NUL, distinct strings can share one interned object (C50_intern_refuted)."
  },
  {
   "property": "C51",
   "status": "partial",
   "theorems": [
    "C51_mul_never_wraps",
    "C51_div_never_wrong",
    "C51_mul_exact_or_error_partial",
    "C51_div_exact_or_error_partial",
    "C51_mul_undefined_iff",
    "C51_div_by_one_refuted"
   ],
   "note": "Never a wrong value; exact away from LLONG_MIN.  The C++ code is undefined for LLONG_MIN operands (C51_mul_undefined_iff, C51_div_by_one_refuted), so the full property is false of the code."
  },
  {
   "property": "C52",
   "status": "proved",
   "theorems": [
    "C52_linexp_call_value",
    "C52_sum_value"
   ],
   "note": ""
  },
  {
   "property": "C53",
   "status": "partial",
   "theorems": [
    "C53_tuple_partial",
    "C53_record_partial",
    "C53_retype",
    "C53_array_partial",
    "C53_id_refuted"
   ],
   "note": "Type ids are stored in 16 bits, so the 65537th tuple type is confused with the first (C53_id_refuted)."
  },
  {
   "property": "C54",
   "status": "partial",
   "theorems": [
    "C54_matches_refuted"
   ],
   "note": "False of the code: the test answers yes for all tuples of one length without bottom fields.  The theorem proves the negation, in general."
  },
  {
   "property": "C55",
   "status": "partial",
   "theorems": [
    "C55_upper_bound_partial",
    "C55_least_partial",
    "C55_set_partial",
    "C55_var_set_refuted",
    "C55_tuple_refuted",
    "C55_strict_refuted"
   ],
   "note": "Types without structs, of equal dimensions, or a par discrete set and a 1-d array.  False for variable sets with arrays, for tuples (par stays par), and least fails in strict mode (see *_refuted)."
  },
  {
   "property": "C56",
   "status": "partial",
   "theorems": [
    "C56_occurrences",
    "C56_remove_count",
    "C56_defined_partial",
    "C56_unify_refuted"
   ],
   "note": "Counts are exact whenever the code is defined; unify reads a dangling reference when the vector grows (C56_unify_refuted).  The index part of VarOccurrences is an instance of C48."
  },
  {
   "property": "C57",
   "status": "proved",
   "theorems": [
    "C57_order",
    "C57_strict_total",
    "C57_equal",
    "C57_begins_ends",
    "C57_substr",
    "C57_find",
    "C57_findLastOf_refuted"
   ],
   "note": "Strings without NUL where C strings are compared; findLastOf is undefined when the character is absent (C57_findLastOf_refuted, no callers)."
  },
  {
   "property": "C58",
   "status": "proved",
   "theorems": [
    "C58_element"
   ],
   "note": "Fewer than 65535 array types (after that ids are truncated, see C53_id_refuted)."
  },
  {
   "property": "C59",
   "status": "proved",
   "theorems": [
    "C59_weak_map",
    "C59_cse"
   ],
   "note": "Full, for maps as lists of entries with distinct keys."
  },
  {
   "property": "C60",
   "status": "partial",
   "theorems": [
    "C60_chunks_partial",
    "C60_filter_partial",
    "C60_crlf_refuted",
    "C60_prompt_refuted"
   ],
   "note": "Partial: for streams in which no line ends with the begin marker unless it is exactly that marker. False in general: a begin marker whose CR and LF arrive in different chunks is not recognised (C60_crlf_refuted), and a marker behind a prompt is recognised only if the prompt arrived before (C60_prompt_refuted)."
  },
  {
   "property": "C61",
   "status": "proved",
   "theorems": [
    "C61_core"
   ],
   "note": "Full for text output; the JSON form of the message is modelled but not stated."
  },
  {
   "property": "C62",
   "status": "partial",
   "theorems": [
    "C62_compare",
    "C62_linear",
    "C62_bool2int",
    "C62_product_partial",
    "C62_quotient_partial",
    "C62_product_refuted",
    "C62_quotient_refuted"
   ],
   "note": "Comparisons, linear expressions and bool2int are proved. Products and quotients are proved when the operands do not change sign (and the divisor excludes 0); without that the property is false (C62_product_refuted, C62_quotient_refuted: the code tests the upper bound instead of the lower one). Missing: modulo, powers, user-declared monotone parameters."
  },
  {
   "property": "C63",
   "status": "partial",
   "theorems": [
    "C63_operator_partial",
    "C63_optional_refuted"
   ],
   "note": "Built-in operators are proved in all contexts. For conjunctions and disjunctions with optional operands the property is false (C63_optional_refuted: the negation is dropped)."
  },
  {
   "property": "C64",
   "status": "partial",
   "theorems": [
    "C64_rectangular_partial",
    "C64_accepted",
    "C64_rejected_partial",
    "C64_empty_refuted",
    "C64_object_refuted"
   ],
   "note": "Soundness and rejection are for arrays without objects inside (an object counts as a level, C64_object_refuted); arrays with an empty dimension can lose dimensions (C64_empty_refuted)."
  },
  {
   "property": "C65",
   "status": "partial",
   "theorems": [
    "C65_data_partial",
    "C65_value",
    "C65_total",
    "C65_enum_refuted",
    "C65_mixed_refuted",
    "C65_empty_refuted",
    "C65_commas_refuted"
   ],
   "note": "Tuple and record types of the declaration, type aliases and float sets in the specification are not covered. Findings: uninitialised variable for incomplete enum constructors, truth values dropped from sets, the empty object rejected, commas optional."
  },
  {
   "property": "C66",
   "status": "partial",
   "theorems": [
    "C66_float_partial",
    "C66_plus_refuted"
   ],
   "note": "Exponents with a plus sign are rejected by the code (C66_plus_refuted). The conversion of the text to a double is the C++ library's."
  },
  {
   "property": "C67",
   "status": "proved",
   "theorems": [
    "C67_total",
    "C67_longest"
   ],
   "note": "Model of lib/lexer.lxx rule by rule (193 rules, eight start conditions), executed with derivatives of regular expressions; C67_longest relates that to the declarative longest-match semantics of flex. Flex itself (generated tables, buffers, include stack, line numbers) is not modelled."
  },
  {
   "property": "C68",
   "status": "partial",
   "theorems": [
    "C68_run_partial",
    "C68_step_partial",
    "C68_sign_refuted",
    "C68_twice_refuted",
    "C68_iterator_refuted"
   ],
   "note": "Integer inequalities (LECompressor). C68_run_partial: the whole run, when the variables fall into groups such that links x <= y stay within a group and every other inequality has at most one variable of a group. C68_step_partial: any single replacement keeps the solutions if the stored entries are right. Without the groups the property is false: C68_sign_refuted (a solution is lost), C68_twice_refuted (a solution is invented), C68_iterator_refuted (use of an erased iterator). Missing: float inequalities and int2float aliases."
  },
  {
   "property": "C69",
   "status": "partial",
   "theorems": [
    "C69_evaluation_partial",
    "C69_typed_partial",
    "C69_history_partial",
    "C69_meaning_unique",
    "C69_boolean_partial"
   ],
   "note": "A relational semantics (EvalSpec.means) is compared with the evaluator. C69_evaluation_partial, C69_typed_partial: result and store; C69_history_partial: sequences of evaluations; C69_meaning_unique; C69_boolean_partial. Missing: arrays, tuples, comprehensions, floats, strings, option types, builtins, operators with a body in the library, implicit coercions, numbers at the end points of the 64-bit range, domains of toplevel declarations, the annotation maybe_partial. Programs that do not terminate or overflow have no meaning, so nothing is said about them."
  },
  {
   "property": "C70",
   "status": "partial",
   "theorems": [
    "C70_accepts",
    "C70_complete",
    "C70_ambiguous",
    "C70_best_partial",
    "C70_order_partial",
    "C70_sort_partial",
    "C70_stable",
    "C70_sibling",
    "C70_order_refuted",
    "C70_best_refuted",
    "C70_tie_refuted",
    "C70_enum_refuted",
    "C70_arity_refuted"
   ],
   "note": "C70_accepts, C70_complete, C70_ambiguous, C70_stable, C70_sibling: any subtype tests, any bucket. C70_best_partial: sorted buckets whose types name no enum. C70_order_partial, C70_sort_partial: the order is a strict weak order without enums, tuples and records. Refuted: C70_order_refuted (cycle of tuple types), C70_best_refuted (less specific declaration chosen), C70_tie_refuted (a tie is not reported), C70_enum_refuted and C70_arity_refuted (a call that only one declaration takes is reported as ambiguous). Missing: enum types and type-inst variables in C70_best_partial, arguments of bottom type, the generation of polymorphic variants."
  },
  {
   "property": "C71",
   "status": "partial",
   "theorems": [
    "C71_binding",
    "C71_positional",
    "C71_accepts",
    "C71_complete",
    "C71_best_partial",
    "C71_confusable",
    "C71_best_refuted",
    "C71_anonymous_refuted"
   ],
   "note": "C71_binding, C71_positional: the order of arguments; C71_accepts, C71_complete; C71_best_partial: if a declaration has more parameters than the call has arguments, or among declarations with the same names at the same positions. C71_confusable: the check of declarations, for named parameters. Refuted: C71_best_refuted (parameters in another order: the less specific declaration is chosen, and a further declaration that does not take the arguments changes the choice), C71_anonymous_refuted."
  },
  {
   "property": "C72",
   "status": "partial",
   "theorems": [
    "C72_outputs_kept_partial",
    "C72_conjunct_lost_refuted",
    "C72_name_lost_refuted"
   ],
   "note": "C72_outputs_kept_partial: phases 1, 2, 3, 4 and 6 of optimize on Boolean variables, for any order of the queues; other constraints are opaque. Missing: models in which a conjunct of a toplevel conjunction is unified with another variable or is the literal false, a constraint is an unfixed name, or a variable declared equal to a name is declared equal to again or equated; other types; phase 5 (see C18, C68); termination of phase 3. Refuted without these conditions: C72_conjunct_lost_refuted, C72_name_lost_refuted."
  },
  {
   "property": "C73",
   "status": "partial",
   "theorems": [
    "C73_union",
    "C73_intersection_sound",
    "C73_intersection_partial",
    "C73_no_overrun",
    "C73_intersection_loops_refuted",
    "C73_intersection_infinite_refuted"
   ],
   "note": "Model: BsetModel.v on top of the set operations of C06. Union exact; whatever array_intersect returns is sound; it ends and is exact without 'overrun' (always so for one set, or if the first set is a single range) up to an arithmetic error near 2^63. Refuted in general: array_intersect([{1,3,5}, 2..6]) never ends; array_intersect([1..infinity]) is an arithmetic error."
  },
  {
   "property": "C74",
   "status": "proved",
   "theorems": [
    "C74_div_covers",
    "C74_div_tight",
    "C74_mod_covers",
    "C74_pow_covers",
    "C74_pow_tight",
    "C74_defined"
   ],
   "note": "Model: DomModel.v; the bounds of the arguments (compute_int_bounds, C16) are parameters. Covered for all bounds whenever the function returns; it returns unless a bound is near the 64-bit edge or a power overflows. Ends are attained for div and pow."
  },
  {
   "property": "C75",
   "status": "partial",
   "theorems": [
    "C75_reshape_partial",
    "C75_open_reshape",
    "C75_bad_index_sets",
    "C75_two_unbounded",
    "C75_list",
    "C75_like_partial",
    "C75_like_refuted",
    "C75_product_refuted",
    "C75_truncated_refuted",
    "C75_division_refuted"
   ],
   "note": "Model: BarrModel.v on the array representation of C29. Proved for all arrays with range index sets within int whose product is below 2^32. Refuted otherwise: array2d(1..65536,1..65536,[]) is accepted, array1d(4294967297..4294967299,[1,2,3]) has index set 1..3, array2d({},1..infinity,[]) divides by zero, arrayXd(x,y) accepts arrays of different sizes."
  },
  {
   "property": "C76",
   "status": "partial",
   "theorems": [
    "C76_concat_partial",
    "C76_concat_mismatch",
    "C76_concat_dimensions",
    "C76_select_set",
    "C76_select_set_outside",
    "C76_select_range_partial",
    "C76_select_nothing",
    "C76_open_selection_refuted",
    "C76_truncated_refuted",
    "C76_concat_overflow_refuted"
   ],
   "note": "Model: BarrModel.v (block loops with their unsigned offsets). Proved for any number of dimensions. Missing because false: select_from_index_1([1,2,3,4,5],10..infinity) returns an array of index set 10..5; selection ends are reduced to 32 bits; concat_index overflows when w0 + max1 exceeds the largest int."
  },
  {
   "property": "C77",
   "status": "partial",
   "theorems": [
    "C77_min",
    "C77_max",
    "C77_arg_min",
    "C77_arg_max",
    "C77_arg_bool",
    "C77_arg_bool_empty",
    "C77_first_error",
    "C77_sum",
    "C77_sum_error",
    "C77_product_partial",
    "C77_product_error",
    "C77_logic",
    "C77_clause",
    "C77_forall_last",
    "C77_exists_last",
    "C77_sum_order_refuted",
    "C77_product_refuted",
    "C77_forall_order_refuted"
   ],
   "note": "Model: RedModel.v on the arrays of C29, with element evaluation as a parameter that may fail. Missing because false: product with an element LLONG_MIN is undefined (C77_product_refuted). C77_sum_order_refuted and C77_forall_order_refuted record that overflow of prefix sums and failing elements make results depend on the order."
  },
  {
   "property": "C78",
   "status": "proved",
   "theorems": [
    "C78_index_set",
    "C78_wrong_dimension",
    "C78_identifier",
    "C78_agree"
   ],
   "note": "Model: RedModel.v. Proved for array literals of any shape and for identifiers under the condition that a finite declared index set is that of the value (declarations are checked elsewhere)."
  },
  {
   "property": "C79",
   "status": "partial",
   "theorems": [
    "C79_sort_by_partial",
    "C79_sort_int",
    "C79_sort_bool",
    "C79_inverse_partial",
    "C79_inverse_undefined",
    "C79_inverse_empty",
    "C79_sort_by_refuted",
    "C79_inverse_negative_refuted",
    "C79_inverse_large_refuted"
   ],
   "note": "Proved for every array and every conforming std::sort. Missing: sort_by with more keys than elements reads out of bounds (C79_sort_by_refuted); inverse wraps negative indices to unsigned (C79_inverse_negative_refuted) and truncates values to int (C79_inverse_large_refuted). Strings and floats as keys, and exceptions thrown inside a comparison, are not modelled."
  },
  {
   "property": "C80",
   "status": "partial",
   "theorems": [
    "C80_set2array",
    "C80_sparse_partial",
    "C80_ranges",
    "C80_to_enum",
    "C80_enum_next",
    "C80_enum_prev",
    "C80_sparse_refuted",
    "C80_enum_next_refuted"
   ],
   "note": "Proved for sets in normal form. Missing: set_to_sparse_inverse truncates the index set to int (C80_sparse_refuted). enum_next is v+1, so on a set with gaps it is undefined although there is a next element (C80_enum_next_refuted)."
  },
  {
   "property": "C81",
   "status": "proved",
   "theorems": [
    "C81_length",
    "C81_characters",
    "C81_any_bytes",
    "C81_split",
    "C81_round_trip",
    "C81_join"
   ],
   "note": "Proved for all byte strings, separators and arrays. The model of string_split uses a bound on iterations that is shown to suffice."
  },
  {
   "property": "C82",
   "status": "partial",
   "theorems": [
    "C82_show_partial",
    "C82_justify_partial",
    "C82_format_partial",
    "C82_format_negative",
    "C82_negative_refuted",
    "C82_width_refuted",
    "C82_characters_refuted",
    "C82_format_length_refuted"
   ],
   "note": "Proved for widths within int except -2147483648, counting bytes. Missing: widths outside int and the smallest int (C82_width_refuted), characters instead of bytes (C82_characters_refuted), the error for a negative maximal length (C82_negative_refuted), the maximal length of integers (C82_format_length_refuted). How values are written as text is a parameter."
  },
  {
   "property": "C83",
   "status": "proved",
   "theorems": [
    "C83_cut",
    "C83_intersect",
    "C83_gaps",
    "C83_check",
    "C83_bounds",
    "C83_split"
   ],
   "note": "Sets of intervals of lib/MIPdomains.cpp: cutting out, intersection, gaps, bounds and splitting keep exactly the right points. Ends are exact numbers; the functions only compare them, apart from the width of gaps."
  },
  {
   "property": "C84",
   "status": "partial",
   "theorems": [
    "C84_same_solutions",
    "C84_ranges",
    "C84_succeeds_partial",
    "C84_flag_domains_partial",
    "C84_succeeds_refuted_fraction",
    "C84_succeeds_refuted_implication",
    "C84_succeeds_refuted_large",
    "C84_flag_domains_refuted"
   ],
   "note": "Whole decomposition of a group of linearly related integer variables: domains and postponed constraints are equivalent to the flags, linear constraints and ranges that replace them. Success is partial (refuted for equalities whose constant is not a value of the reference, for half-reified comparisons, for values outside of int); domains of 0/1 variables fixed to 1 are lost (refuted). Not modelled: equality encodings, float variables, rounding."
  },
  {
   "property": "C85",
   "status": "partial",
   "theorems": [
    "C85_choice",
    "C85_empty",
    "C85_no_default",
    "C85_case",
    "C85_tag_partial",
    "C85_version_partial",
    "C85_default_partial",
    "C85_tag_refuted",
    "C85_version_refuted",
    "C85_default_refuted"
   ],
   "note": "The choice and the refusals are proved in full. The last sentence is proved for tags, ids and versions in lower case without comma and @ (C85_tag_partial, C85_version_partial, C85_default_partial) and refuted for others (C85_tag_refuted, C85_version_refuted, C85_default_refuted). Not modelled: texts ending in .msc, reading the files."
  },
  {
   "property": "C86",
   "status": "proved",
   "theorems": [
    "C86_options",
    "C86_once"
   ],
   "note": "Proved for the entries as read; reading the JSON files is not modelled here."
  },
  {
   "property": "C87",
   "status": "partial",
   "theorems": [
    "C87_values",
    "C87_forbidden",
    "C87_nested_partial",
    "C87_object_partial",
    "C87_nested_refuted_blank",
    "C87_nested_refuted_array",
    "C87_nested_refuted_false"
   ],
   "note": "Proved in full for files without nested objects (C87_values) and for forbidden flags. Nested objects: proved without arrays and for texts without blank, double quote, backslash and control characters, at most three levels (C87_nested_partial, C87_object_partial); refuted for strings with a blank, for arrays (addresses are printed) and for objects with false entries only. The reading of the JSON file is modelled in JsonModel; the text of numbers is given."
  },
  {
   "property": "C88",
   "status": "proved",
   "theorems": [
    "C88_inlines",
    "C88_found",
    "C88_ends",
    "C88_cyclic_refuted"
   ],
   "note": "C88_inlines and C88_found: exactly the replacements that read no file twice are carried out, for argument lists that do not touch the working directory themselves and do not end in an unfinished reference; C88_ends: termination. The last sentence is refuted (C88_cyclic_refuted): a file that is named twice is refused as cyclic."
  },
  {
   "property": "C89",
   "status": "partial",
   "theorems": [
    "C89_constraint",
    "C89_value",
    "C89_taken",
    "C89_tuple_partial",
    "C89_tuple_else",
    "C89_tuple_refuted",
    "C89_tuple_refuted_access"
   ],
   "note": "Constraints (C89_constraint), values and definedness (C89_value) proved against the decompositions of the library; tuples proved for types whose fields are not structs (C89_tuple_partial) and, for the else branch, for all (C89_tuple_else). Refuted for nested tuples: ite_struct_split indexes the then-branches with the number of the field, which gives a field of another branch (C89_tuple_refuted) or reads past the end of a vector (C89_tuple_refuted_access). Optional types, floats and sets take the same path and are not modelled separately."
  },
  {
   "property": "C90",
   "status": "partial",
   "theorems": [
    "C90_value_partial",
    "C90_fixed",
    "C90_ends_partial",
    "C90_absent_refuted",
    "C90_ends_refuted"
   ],
   "note": "Proved for all arrays and indices without an absent index beside a variable one (C90_value_partial), for fixed accesses with absent indices (C90_fixed), and that the flattening ends for non-empty index sets (C90_ends_partial). Refuted: an absent fixed index beside a variable index gives the element at the smallest index instead of absence (C90_absent_refuted); with two empty variable dimensions beside a fixed one the loop does not end (C90_ends_refuted, on unbounded integers; the machine would take 2^63 turns). Arrays of tuples (one access for each field) and the Boolean case (value and definedness joined) are not modelled."
  },
  {
   "property": "C91",
   "status": "partial",
   "theorems": [
    "C91_moved_partial",
    "C91_moved_scoped",
    "C91_forall_partial",
    "C91_exists_partial",
    "C91_sum_partial",
    "C91_array_partial",
    "C91_guard_refuted",
    "C91_sum_refuted"
   ],
   "note": "Proved for the whole path from the comprehension as written through the type checker's rearrangement (move_wheres) to the flattened generators and conditions (flat_gens, conditions), for all generator lists obeying the scoping rules, provided no where part stops the program when evaluated; the array form is up to dropping absent elements. Refuted: a part that moves to an earlier generator loses the guard written before it (C91_guard_refuted), and under sum a par body is evaluated also for elements that are not in the variable set (C91_sum_refuted). Not modelled: libraries that define set2iter, index tuples, undefined generator sets."
  },
  {
   "property": "C92",
   "status": "partial",
   "theorems": [
    "C92_solution_partial",
    "C92_contexts_partial",
    "C92_names",
    "C92_rejects",
    "C92_empty_refuted"
   ],
   "note": "Proved for all nestings when every local variable without a value has a non-empty domain; false for an empty domain (C92_empty_refuted), where the variable is created outside the operator. Right-hand sides contain no lets; promise_total and the monotonicity annotations are not modelled."
  },
  {
   "property": "C93",
   "status": "partial",
   "theorems": [
    "C93_values",
    "C93_interval",
    "C93_member",
    "C93_union",
    "C93_intersection",
    "C93_difference_partial",
    "C93_subset_partial",
    "C93_card_partial",
    "C93_difference_refuted",
    "C93_difference_edge_refuted",
    "C93_subset_refuted"
   ],
   "note": "Doubles are modelled by their rank in the order of the finite doubles. Literals, ranges, membership, union and intersection are exact for every stored set. Difference and the subset test are proved for sets whose neighbouring ranges do not touch and whose bounds are not the extreme doubles (partial); both restrictions are necessary, see the refutations: subtracting a literal with two neighbouring doubles loses every element above them, a difference starting at the smallest double raises an error, and the union of two neighbouring doubles is not recognised as a subset of the literal with the same elements. Comparison operators on par float sets are not modelled (eval_bool hands them to eval_intset)."
  },
  {
   "property": "C94",
   "status": "partial",
   "theorems": [
    "C94_copy_partial",
    "C94_terminates",
    "C94_annotation_refuted"
   ],
   "note": "Copies are equal to the originals node by node, new, injective and, for nodes registered first, unique; the original is untouched; copying ends on guarded cycles. Refuted for annotations on identifiers: all uses of a variable share one identifier in the copy, so an annotation on one use appears on all of them."
  },
  {
   "property": "C95",
   "status": "partial",
   "theorems": [
    "C95_base_type",
    "C95_enum_type_partial",
    "C95_frame",
    "C95_enum_refuted",
    "C95_float_enum_refuted",
    "C95_instances"
   ],
   "note": "Base types: least upper bound at all places. Enumerated types: proved if the first place has none or all agree; refuted for a first place with an enumerated type others do not share (the comparison of types ignores it), where places end up with different types or with a float of enumerated type. Instance numbers and reuse proved for all histories. Tuples and records not modelled."
  },
  {
   "property": "C96",
   "status": "partial",
   "theorems": [
    "C96_mangled",
    "C96_plain",
    "C96_rename_partial",
    "C96_rename_refuted"
   ],
   "note": "Names of instances are injective and reversible; the renamed instances are fresh. Refuted for user functions whose quoted name starts with a backslash: '\\f' is renamed to _f even if the user has a function _f."
  },
  {
   "property": "C97",
   "status": "partial",
   "theorems": [
    "C97_read",
    "C97_meaning",
    "C97_truncated_partial",
    "C97_truncated_refuted",
    "C97_report_partial",
    "C97_failure_refuted",
    "C97_integer_partial",
    "C97_integer_refuted"
   ],
   "note": "Complete files are read exactly; files cut after any line are errors; reports proved for all codes but 500-599. Refuted: a file cut inside the last line can turn infeasible into solved; solver failures (500-599) end in an internal error; integers are truncated, so 2.9999999 is reported as 2."
  },
  {
   "property": "C98",
   "status": "partial",
   "theorems": [
    "C98_log_partial",
    "C98_chunks_refuted"
   ],
   "note": "Proved if every chunk completes the line begun before it; refuted for a line cut into three chunks: it is broken up and its rest is printed without comment mark."
  },
  {
   "property": "C99",
   "status": "partial",
   "theorems": [
    "C99_faithful_partial",
    "C99_readback_partial",
    "C99_columns",
    "C99_release",
    "C99_written_partial",
    "C99_division_meaning",
    "C99_single_refuted",
    "C99_division_refuted",
    "C99_duplicate_refuted"
   ],
   "note": "Proved for models with at least two variables, without integer division, for which the translation's assertions hold. Refuted: bounds of a single variable are not written; integer division is written as real division; x*y=x gives a constraint with a duplicated column. Not stated: which variables the header counts as nonlinear (an experiment that leaves out those of logical constraints survives). Not modelled: int_pow, printing of numbers, objective."
  },
  {
   "property": "C100",
   "status": "partial",
   "theorems": [
    "C100_statistics_partial",
    "C100_comment_partial",
    "C100_core_partial",
    "C100_text",
    "C100_range_refuted",
    "C100_control_refuted"
   ],
   "note": "Proved for statistics JSON can express and texts without control characters other than newlines and tabs. Refuted: ranges reported by solvers; control characters. Not modelled: addRaw, warnings after the message, formatting of numbers."
  }
 ]
}
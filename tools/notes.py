STATUS={"C54":"partial"}
NOTE={
"C01":"Model of values.hh IntVal.  Exact characterisation: result or ArithmeticError, never UB.",
"C51":"Never a wrong value; exact away from LLONG_MIN.  The C++ code is undefined for LLONG_MIN operands (C51_mul_undefined_iff, C51_div_by_one_refuted), so the full property is false of the code.",
"C03":"Exponents above INT_MAX with |base|<=1 overflow the int loop counter (C03_pow_counter_refuted).",
"C04":"finite*infinite uses the sign of the wrong operand (C04_mul_right_infinity_refuted).",
"C05":"Vectors holding LLONG_MAX twice are rejected (C05_vector_refuted).",
"C06":"Exact, or ArithmeticError when a bound is LLONG_MIN/LLONG_MAX (witnesses: *_edge_refuted).  Intersection is total.",
"C08":"Iteration over a set holding LLONG_MAX raises ArithmeticError.",
"C11":"std::sort is any function returning a permutation sorted by CmpExpIdx (shown to exist); other expressions are represented by their rank in Expression::compare.",
"C13":"get_linexp, bounds and domains are parameters constrained to be sound; floorDiv/ceilDiv are parameters assumed to round correctly (see C15).",
"C15":"Exact for operands below 2^53 in magnitude; false above (C15_floor_refuted, C15_ceiling_refuted, C15_overflow_refuted).  Doubles are the standard library's SpecFloat; the proof uses Flocq and the axioms of the classical reals.",
"C14":"All optimisers of OptimizeRegistry.  False for single-variable int_lin_le with operands of 2^53 or more (C14_large_bound_refuted), which the partial theorem excludes.",
"C26":"64-bit pointers.  Histories of literal creation and collection; that weak map entries of freed literals are cleared is C25.",
"C27":"Doubles are their 64 bits; only finite values (the infinite FloatVals are always boxed and not modelled).",
"C28":"64-bit layout; the 32-bit layout is not modelled.",
"C40":"The round trip holds for every string and block size.  Decoding other text is undefined if it holds '{' (C40_brace_refuted).",
"C29":"Any array built by the constructors, views and slices; elements up to the equality used by compression (Expression::equal), which is a parameter.",
"C30":"Any number of dimensions; sizes up to INT_MAX.  Assigning elements of a compressed array (C30_set_compressed_refuted) and make1d of a slice (C30_make1d_slice_refuted) are wrong in the code.",
"C34":"fromInt masks the 16-bit type id with 12 bits (C34_decode_refuted); the flags cv and any are not encoded.  == ignores enum ids, cmp does not (C34_eq_cmp_refuted).",
"C35":"Registered struct types of any nesting, strict and non-strict.  Not transitive through bottom types (C35_bottom_refuted), and the strict test of EnvI is not transitive (C35_strict_refuted).",
"C53":"Type ids are stored in 16 bits, so the 65537th tuple type is confused with the first (C53_id_refuted).",
"C54":"False of the code: the test answers yes for all tuples of one length without bottom fields.  The theorem proves the negation, in general.",
"C55":"Types without structs, of equal dimensions, or a par discrete set and a 1-d array.  False for variable sets with arrays, for tuples (par stays par), and least fails in strict mode (see *_refuted).",
"C48":"Identifiers up to 1431655764.  Iteration is wrong for maps with gaps (C48_iterate_refuted), so that part is proved for gap-free maps.",
"C56":"Counts are exact whenever the code is defined; unify reads a dangling reference when the vector grows (C56_unify_refuted).  The index part of VarOccurrences is an instance of C48.",
"C49":"Full. Scopes, name lookup, free names with shadowing, cycle detection, and the final stable sort are modelled; ignoring unknown identifiers and enum/shadowing warnings are not.",
"C44":"Full (names non-empty and shorter than INT_MAX characters).",
"C50":"Strings without NUL characters; with NUL, distinct strings can share one interned object (C50_intern_refuted).",
"C57":"Strings without NUL where C strings are compared; findLastOf is undefined when the character is absent (C57_findLastOf_refuted, no callers).",
"C58":"Fewer than 65535 array types (after that ids are truncated, see C53_id_refuted).",
"C16":"Proved for well-formed expressions without mod, with div only where the computed bounds of the dividend do not end in 0 and those of the divisor do not have 0 strictly inside, and without calls that declare a result domain and take Boolean arguments. In the excluded cases the property is false of the code: C16_div_refuted, C16_div_zero_refuted, C16_mod_refuted, C16_call_refuted, C16_absent_refuted give witnesses.",
"C17":"Proved for set expressions without field accesses. C17_field_refuted and C17_null_refuted show undefined behaviour for a field access and for an operator with an operand without bounds.",
"C41":"Exact characterisation proved: the round trip holds iff the vector is non-empty and no argument holds a control character that is escaped by a letter or a backslash followed by a backslash, a quote or the end. For other vectors the property is false (C41_refuted).",
"C23":"Full. exceptions that skip untrail are not part of the history.",
"C24":"Full, for KeepAlive handles and for markers.",
"C25":"The full property is false of the code: the reference registered last reads as null (C25_head_refuted) and is not cleared when its target dies (C25_dangling_refuted). Proved for histories in which that reference's target survives each collection.",
"C59":"Full, for maps as lists of entries with distinct keys.",
"C22":"For every heap history of allocations, assignments and collections. Partial: the declaration pointer of operators is not followed by the collector (C22_operator_refuted), the trail is only marked if a marker exists (C22_marker_refuted), an abandoned allocation breaks the accounting (C22_abandoned_refuted) and a second Call::args can change the size of a node (C22_args_refuted).",
"C19":"Full, for streams without NUL characters; a NUL hides the rest of its chunk (C19_nul_refuted). If an exception is thrown, everything but the copy of the raw stream agrees. The evaluation of a solution (parser, output items, checker) is a parameter of the theorem.",
"C20":"Full. The messages recognised are the standard ones, also when other messages are configured for output.",
"C21":"Full. With canonicalisation, two status lines print the list twice (C21_canonical_refuted).",
"C60":"Partial: for streams in which no line ends with the begin marker unless it is exactly that marker. False in general: a begin marker whose CR and LF arrive in different chunks is not recognised (C60_crlf_refuted), and a marker behind a prompt is recognised only if the prompt arrived before (C60_prompt_refuted).",
"C61":"Full for text output; the JSON form of the message is modelled but not stated.",
"C18":"Implication chains (ImpCompressor): soundness when no variable that implies something is an argument of a half-reified predicate; termination without self-implications; no undefined behaviour when clauses have at most one negative literal. Each restriction is needed: C18_control_refuted, C18_loop_refuted, C18_merge_refuted.",
"C31":"Any array built by constructors, views and slices, any number of dimensions, infinite indices included. Out-of-range accesses of an array without elements whose leading dimensions multiply to more than INT_MAX are undefined (C31_overflow_refuted).",
"C32":"Indices in the range of int and at most INT_MAX elements; larger indices are truncated (C32_truncation_refuted).",
"C33":"Full for evaluations that complete; expressions are parameters that depend on the values of the variables only. If the evaluation throws, generator variables are not restored (C33_thrown_refuted). Where-clauses of var type, which become conditional elements, are not modelled.",
"C45":"Aggregation of any nesting of and/or/not terminates, keeps the truth value and leaves no nested operator of the same kind; overloaded operators are opaque.",
"C46":"Sign composition, contexts of forall/exists/clause arguments, and recording of uses are proved for all contexts, annotations and sequences of uses.",
"C62":"Comparisons, linear expressions and bool2int are proved. Products and quotients are proved when the operands do not change sign (and the divisor excludes 0); without that the property is false (C62_product_refuted, C62_quotient_refuted: the code tests the upper bound instead of the lower one). Missing: modulo, powers, user-declared monotone parameters.",
"C63":"Built-in operators are proved in all contexts. For conjunctions and disjunctions with optional operands the property is false (C63_optional_refuted: the negation is dropped).",
"C47":"Expressions are trees with types, names, declarations and flat versions; doubles are represented by their rank and types by their integer. Proved for every hash function: compare is antisymmetric and (without mixing kinds of set literals) transitive; equal expressions have equal hashes and compare equal; equal means same structure and is an equivalence relation for uncompressed arrays, resolved identifiers and no two names for one flat variable. Refuted without these conditions. Not modelled: slices, stale hashes.",
"C42":"Proved for 32-bit integers; larger ones are clamped without a diagnostic (C42_clamped, C42_refuted), and a number that ends the input is dropped (C42_end_refuted).",
"C43":"All of RFC 8259 except the escapes b, f, r and surrogate pairs in even planes, which the code gets wrong (refuted). The round trip with the system's own escaping holds for all byte strings.",
"C64":"Soundness and rejection are for arrays without objects inside (an object counts as a level, C64_object_refuted); arrays with an empty dimension can lose dimensions (C64_empty_refuted).",
"C65":"Tuple and record types of the declaration, type aliases and float sets in the specification are not covered. Findings: uninitialised variable for incomplete enum constructors, truth values dropped from sets, the empty object rejected, commas optional.",
"C66":"Exponents with a plus sign are rejected by the code (C66_plus_refuted). The conversion of the text to a double is the C++ library's.",
"C67":"Model of lib/lexer.lxx rule by rule (193 rules, eight start conditions), executed with derivatives of regular expressions; C67_longest relates that to the declarative longest-match semantics of flex. Flex itself (generated tables, buffers, include stack, line numbers) is not modelled.",
"C37":"Proved for strings without NUL and carriage return, in any context. A carriage return is printed raw and breaks the literal (C37_return_refuted).",
"C38":"Proved for every name that the lexer can return as an identifier, except infinity, variant_record and _, which quoteId leaves bare (C38_refuted).",
"C39":"Scanner and parser together, for all 64-bit integers and all digit strings, alone and after a minus sign. The one 64-bit integer that can be written in decimal but is rejected is the smallest with zeros in front of it (C39_zero_refuted).",
"C36":"Proved from the printed characters to the tree for integer, Boolean, string and range literals, identifiers, all 28 binary and 3 unary operators, calls, arrays, accesses and conditionals, whenever the printer's parentheses agree with the grammar (C36_partial), in particular for all nestings of the 25 operators other than ^, ++ and intersect (C36_plain_partial). The claim as stated is false for the rest (C36_*_refuted). Not modelled: comprehensions, let, tuples, records, annotations, set literals in braces, multi-dimensional literals.",
"C68":"Integer inequalities (LECompressor). C68_run_partial: the whole run, when the variables fall into groups such that links x <= y stay within a group and every other inequality has at most one variable of a group. C68_step_partial: any single replacement keeps the solutions if the stored entries are right. Without the groups the property is false: C68_sign_refuted (a solution is lost), C68_twice_refuted (a solution is invented), C68_iterator_refuted (use of an erased iterator). Missing: float inequalities and int2float aliases.",
"C69":"A relational semantics (EvalSpec.means) is compared with the evaluator. C69_evaluation_partial, C69_typed_partial: result and store; C69_history_partial: sequences of evaluations; C69_meaning_unique; C69_boolean_partial. Missing: arrays, tuples, comprehensions, floats, strings, option types, builtins, operators with a body in the library, implicit coercions, numbers at the end points of the 64-bit range, domains of toplevel declarations, the annotation maybe_partial. Programs that do not terminate or overflow have no meaning, so nothing is said about them.",
"C70":"C70_accepts, C70_complete, C70_ambiguous, C70_stable, C70_sibling: any subtype tests, any bucket. C70_best_partial: sorted buckets whose types name no enum. C70_order_partial, C70_sort_partial: the order is a strict weak order without enums, tuples and records. Refuted: C70_order_refuted (cycle of tuple types), C70_best_refuted (less specific declaration chosen), C70_tie_refuted (a tie is not reported), C70_enum_refuted and C70_arity_refuted (a call that only one declaration takes is reported as ambiguous). Missing: enum types and type-inst variables in C70_best_partial, arguments of bottom type, the generation of polymorphic variants.",
"C71":"C71_binding, C71_positional: the order of arguments; C71_accepts, C71_complete; C71_best_partial: if a declaration has more parameters than the call has arguments, or among declarations with the same names at the same positions. C71_confusable: the check of declarations, for named parameters. Refuted: C71_best_refuted (parameters in another order: the less specific declaration is chosen, and a further declaration that does not take the arguments changes the choice), C71_anonymous_refuted.",
"C72":"C72_outputs_kept_partial: phases 1, 2, 3, 4 and 6 of optimize on Boolean variables, for any order of the queues; other constraints are opaque. Missing: models in which a conjunct of a toplevel conjunction is unified with another variable or is the literal false, a constraint is an unfixed name, or a variable declared equal to a name is declared equal to again or equated; other types; phase 5 (see C18, C68); termination of phase 3. Refuted without these conditions: C72_conjunct_lost_refuted, C72_name_lost_refuted.",
"C73":"Model: BsetModel.v on top of the set operations of C06. Union exact; whatever array_intersect returns is sound; it ends and is exact without 'overrun' (always so for one set, or if the first set is a single range) up to an arithmetic error near 2^63. Refuted in general: array_intersect([{1,3,5}, 2..6]) never ends; array_intersect([1..infinity]) is an arithmetic error.",
"C74":"Model: DomModel.v; the bounds of the arguments (compute_int_bounds, C16) are parameters. Covered for all bounds whenever the function returns; it returns unless a bound is near the 64-bit edge or a power overflows. Ends are attained for div and pow.",
"C75":"Model: BarrModel.v on the array representation of C29. Proved for all arrays with range index sets within int whose product is below 2^32. Refuted otherwise: array2d(1..65536,1..65536,[]) is accepted, array1d(4294967297..4294967299,[1,2,3]) has index set 1..3, array2d({},1..infinity,[]) divides by zero, arrayXd(x,y) accepts arrays of different sizes.",
"C76":"Model: BarrModel.v (block loops with their unsigned offsets). Proved for any number of dimensions. Missing because false: select_from_index_1([1,2,3,4,5],10..infinity) returns an array of index set 10..5; selection ends are reduced to 32 bits; concat_index overflows when w0 + max1 exceeds the largest int.",
"C77":"Model: RedModel.v on the arrays of C29, with element evaluation as a parameter that may fail. Missing because false: product with an element LLONG_MIN is undefined (C77_product_refuted). C77_sum_order_refuted and C77_forall_order_refuted record that overflow of prefix sums and failing elements make results depend on the order.",
"C78":"Model: RedModel.v. Proved for array literals of any shape and for identifiers under the condition that a finite declared index set is that of the value (declarations are checked elsewhere).",
"C79":"Proved for every array and every conforming std::sort. Missing: sort_by with more keys than elements reads out of bounds (C79_sort_by_refuted); inverse wraps negative indices to unsigned (C79_inverse_negative_refuted) and truncates values to int (C79_inverse_large_refuted). Strings and floats as keys, and exceptions thrown inside a comparison, are not modelled.",
"C80":"Proved for sets in normal form. Missing: set_to_sparse_inverse truncates the index set to int (C80_sparse_refuted). enum_next is v+1, so on a set with gaps it is undefined although there is a next element (C80_enum_next_refuted).",
"C81":"Proved for all byte strings, separators and arrays. The model of string_split uses a bound on iterations that is shown to suffice.",
"C82":"Proved for widths within int except -2147483648, counting bytes. Missing: widths outside int and the smallest int (C82_width_refuted), characters instead of bytes (C82_characters_refuted), the error for a negative maximal length (C82_negative_refuted), the maximal length of integers (C82_format_length_refuted). How values are written as text is a parameter.",
"C83":"Sets of intervals of lib/MIPdomains.cpp: cutting out, intersection, gaps, bounds and splitting keep exactly the right points. Ends are exact numbers; the functions only compare them, apart from the width of gaps.",
"C84":"Whole decomposition of a group of linearly related integer variables: domains and postponed constraints are equivalent to the flags, linear constraints and ranges that replace them. Success is partial (refuted for equalities whose constant is not a value of the reference, for half-reified comparisons, for values outside of int); domains of 0/1 variables fixed to 1 are lost (refuted). Not modelled: equality encodings, float variables, rounding.",
"C85":"The choice and the refusals are proved in full. The last sentence is proved for tags, ids and versions in lower case without comma and @ (C85_tag_partial, C85_version_partial, C85_default_partial) and refuted for others (C85_tag_refuted, C85_version_refuted, C85_default_refuted). Not modelled: texts ending in .msc, reading the files.",
"C86":"Proved for the entries as read; reading the JSON files is not modelled here.",
"C87":"Proved in full for files without nested objects (C87_values) and for forbidden flags. Nested objects: proved without arrays and for texts without blank, double quote, backslash and control characters, at most three levels (C87_nested_partial, C87_object_partial); refuted for strings with a blank, for arrays (addresses are printed) and for objects with false entries only. The reading of the JSON file is modelled in JsonModel; the text of numbers is given.",
"C88":"C88_inlines and C88_found: exactly the replacements that read no file twice are carried out, for argument lists that do not touch the working directory themselves and do not end in an unfinished reference; C88_ends: termination. The last sentence is refuted (C88_cyclic_refuted): a file that is named twice is refused as cyclic.",
"C89":"Constraints (C89_constraint), values and definedness (C89_value) proved against the decompositions of the library; tuples proved for types whose fields are not structs (C89_tuple_partial) and, for the else branch, for all (C89_tuple_else). Refuted for nested tuples: ite_struct_split indexes the then-branches with the number of the field, which gives a field of another branch (C89_tuple_refuted) or reads past the end of a vector (C89_tuple_refuted_access). Optional types, floats and sets take the same path and are not modelled separately.",
"C90":"Proved for all arrays and indices without an absent index beside a variable one (C90_value_partial), for fixed accesses with absent indices (C90_fixed), and that the flattening ends for non-empty index sets (C90_ends_partial). Refuted: an absent fixed index beside a variable index gives the element at the smallest index instead of absence (C90_absent_refuted); with two empty variable dimensions beside a fixed one the loop does not end (C90_ends_refuted, on unbounded integers; the machine would take 2^63 turns). Arrays of tuples (one access for each field) and the Boolean case (value and definedness joined) are not modelled.",
"C91":"Proved for the whole path from the comprehension as written through the type checker's rearrangement (move_wheres) to the flattened generators and conditions (flat_gens, conditions), for all generator lists obeying the scoping rules, provided no where part stops the program when evaluated; the array form is up to dropping absent elements. Refuted: a part that moves to an earlier generator loses the guard written before it (C91_guard_refuted), and under sum a par body is evaluated also for elements that are not in the variable set (C91_sum_refuted). Not modelled: libraries that define set2iter, index tuples, undefined generator sets.",
"C92":"Proved for all nestings when every local variable without a value has a non-empty domain; false for an empty domain (C92_empty_refuted), where the variable is created outside the operator. Right-hand sides contain no lets; promise_total and the monotonicity annotations are not modelled.",
"C93":"Doubles are modelled by their rank in the order of the finite doubles. Literals, ranges, membership, union and intersection are exact for every stored set. Difference and the subset test are proved for sets whose neighbouring ranges do not touch and whose bounds are not the extreme doubles (partial); both restrictions are necessary, see the refutations: subtracting a literal with two neighbouring doubles loses every element above them, a difference starting at the smallest double raises an error, and the union of two neighbouring doubles is not recognised as a subset of the literal with the same elements. Comparison operators on par float sets are not modelled (eval_bool hands them to eval_intset).",
"C94":"Copies are equal to the originals node by node, new, injective and, for nodes registered first, unique; the original is untouched; copying ends on guarded cycles. Refuted for annotations on identifiers: all uses of a variable share one identifier in the copy, so an annotation on one use appears on all of them.",
"C95":"Base types: least upper bound at all places. Enumerated types: proved if the first place has none or all agree; refuted for a first place with an enumerated type others do not share (the comparison of types ignores it), where places end up with different types or with a float of enumerated type. Instance numbers and reuse proved for all histories. Tuples and records not modelled.",
"C96":"Names of instances are injective and reversible; the renamed instances are fresh. Refuted for user functions whose quoted name starts with a backslash: '\\f' is renamed to _f even if the user has a function _f.",
"C97":"Complete files are read exactly; files cut after any line are errors; reports proved for all codes but 500-599. Refuted: a file cut inside the last line can turn infeasible into solved; solver failures (500-599) end in an internal error; integers are truncated, so 2.9999999 is reported as 2.",
"C98":"Proved if every chunk completes the line begun before it; refuted for a line cut into three chunks: it is broken up and its rest is printed without comment mark.",
"C99":"Proved for models with at least two variables, without integer division, for which the translation's assertions hold. Refuted: bounds of a single variable are not written; integer division is written as real division; x*y=x gives a constraint with a duplicated column. Not stated: which variables the header counts as nonlinear (an experiment that leaves out those of logical constraints survives). Not modelled: int_pow, printing of numbers, objective.",
"C100":"Proved for statistics JSON can express and texts without control characters other than newlines and tabs. Refuted: ranges reported by solvers; control characters. Not modelled: addRaw, warnings after the message, formatting of numbers.",
}

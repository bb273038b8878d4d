# Formal model of MiniZinc/libminizinc in Rocq (Coq 8.16.1)

This file is the plan written before the proofs and is kept current as they land.

## How the development is organised

* `rocq/theories/<Area>Model.v` - definitions transcribed from `/repo`, function by function.  Every
  definition carries a comment `(* file:lines *)`; simplifications are noted in the same comment.
* `rocq/theories/<Area>Spec.v` (or a `Spec` part at the head of the properties file) - the small
  independent specification used in the statements (sets of integers, extended integers, Boolean
  semantics of clauses, edit scripts, ...).
* `rocq/theories/<Area>Proofs.v` - lemmas.
* `rocq/theories/Properties<Area>.v` - only the property theorems, each followed by
  `Print Assumptions` and by an `Example` that a concrete non-trivial case meets the hypotheses.

Conventions: C++ `long long` values are `Z` with explicit range tests written where the C++ code
tests them (or where the C++ arithmetic would be undefined); exceptions and undefined behaviour are
distinct outcomes of a result type; loops with data-dependent length are structural recursion or
fuel whose exhaustion is a separate outcome excluded by a theorem.

## Plan per property

| id | model | proof |
|----|-------|-------|
| C01 | `IntVal` as (v, infinity) pair; each `safe*` test with explicit 64-bit range | case analysis, `lia`/`nia` over Z |
| C02 | comparison operators | refinement into Z extended with two infinities |
| C03 | the pow loop with its accumulator | induction on the exponent |
| C04 | same model as C01 | positive for plus/minus/negation; refuted for `*` with witness |
| C05-C08 | range lists; the iterator classes as transducers on lists of ranges | induction on the merge measure, membership characterisation |
| C09 | `less`, `lessEq` on range lists | refinement to lexicographic order on element lists |
| C10 | limitDomain/intersectDomain via the same iterators | membership characterisation |
| C11 | simplify_lin over an arbitrary permutation sorted by the comparator | induction, sum over assignments |
| C12 | collect_linexps with explicit work stack | invariant: stack value + collected value constant |
| C13 | decisions of flatten_linexp_binop (constant, bounds, negation for >=,>, strictness) | linear arithmetic over the evaluated sums |
| C14 | each optimiser as a function from constraint + domains to decision | soundness against denotational semantics |
| C15 | double division modelled with Flocq (binary64, round to nearest even) | exact below 2^53; refuted above with witness |
| C16-C17 | ComputeIntBounds / ComputeIntSetBounds as recursive functions on an expression AST | induction on expressions; div/mod refuted where unsound |
| C18 | clause store and its replacement step | resolution-style argument, termination measure |
| C19-C21 | Solns2Out line splitter and state machine on byte lists | induction on chunks; fold invariants |
| C22 | heap as finite map with fields; worklist mark, page sweep | reachability invariant |
| C23 | trail as a list of (location, old value) and marks | invariant by induction over operations |
| C24-C25 | doubly linked lists of handles in a memory | representation invariant |
| C26-C28 | bit-level packing on Z with land/lor/shift | bitwise reasoning |
| C29-C30 | ArrayLit compress/getSlice/origIdx | list induction |
| C31-C33 | eval_arrayaccess, eval_comp | mixed-radix induction, loop invariants |
| C34-C35 | Type record with field widths | exhaustive case analysis in the kernel plus arithmetic for ids |
| C36 | printer to characters, the lexer of C67, and the LALR automaton of the expression rules with its precedence declarations | induction on trees: the automaton reads back the tokens of each tree, the lexer finds them; proved where the printer's parentheses agree with the grammar, refuted elsewhere |
| C37-C39 | character-level printer and lexer, for C39 also the parser | list induction |
| C40 | encoder/decoder state machines | induction 3 bytes at a time, chunk invariance |
| C41 | the two command-line functions | list induction for safe arguments; refuted otherwise |
| C42-C43 | JSON readToken | UTF-8 arithmetic; list induction; refutations |
| C44 | the two-row dynamic program | DP invariant against edit scripts |
| C45 | aggregate_and_or_ops work list | measure + invariant |
| C46 | BCtx tables | algebraic laws, fold order-independence |
| C47 | compare/equal on an expression AST | nested induction; refutations where they disagree |
| C48 | DenseIdMap tables | refinement to a finite map |
| C49 | TopoSorter DFS | DFS invariant |
| C50 | interner with weak table | invariant over histories |
| C51 | the multiplication and division tests of `IntVal` on 64-bit words | case analysis over the quotient tests; exact undefined set |
| C52 | `flatten` of `sum`/linear calls down to `collect_linexps` | value invariant, as C12 |
| C53 | the registry of tuple, record and array types as maps and vectors | invariant by induction over registrations |
| C54 | `matchesBT` | the negation is proved in general: it answers yes too often |
| C55 | `Type::commonType` and the registry | upper bound and leastness by cases; refutations |
| C56 | `VarOccurrences` on top of C48 | refinement to a multiset of occurrences over operation histories |
| C57 | `ASTString` helpers on byte lists | list induction, `strncmp` semantics |
| C58 | array type ids | invariant by induction over registrations |
| C59 | weak maps and the CSE map at a collection | list induction |
| C60 | the interactive filter (`SolnsFilter`-style line state machine) | chunk-independence, fold invariants |
| C61 | the table of assumptions and the core report | list induction |
| C62 | the context computed for operands of arithmetic operators | monotonicity over Z |
| C63 | the flattening of Boolean operators into posted constraints | truth tables with contexts and negation |
| C64 | `coerceArray` on nested JSON arrays | induction on nesting; row-major specification |
| C65 | the JSON recursive-descent reader | relational specification of JSON texts, induction on derivations |
| C66 | the float part of the JSON tokenizer | list induction |
| C67 | every rule and start condition of the lexer, run with derivatives of regular expressions | correctness of derivatives; finite checks over rules and bytes; progress measure |
| C68 | the store of inequalities, its loop and the replacement of a variable (integers only) | one step keeps solutions; invariant of the store for whole runs |
| C69 | eval_int, eval_bool, eval_intset, eval_par with the slots of declarations as mutable state; a relational semantics of values and undefinedness | induction over the semantics: for enough fuel the evaluator returns the value and leaves the slots of local variables unchanged |
| C70 | the order of a bucket of overloads, the scan for the best candidate and its tie breaks; the subtype tests are those of C35 | invariant of the scan (no candidate beats the incumbent); the order equals a lexicographic order of numbers where it is an order |
| C71 | matchFnNamed, the reordering of arguments in vCall, the check of declarations for calls by names | the test of a candidate against the relation `takes_named`; counting of parameters and names |
| C72 | the state of optimize for Boolean variables: declarations, constraints, redirections, occurrences, output model, two queues; each phase a total function, the order of the queues and the counters are parameters | an invariant relates the table of occurrences, the redirections and the queues; each change of the state keeps the satisfying assignments; composed over the phases. Regular models only; two refutations without it |
| C73 | the loops of b_array_union and b_array_intersect over lists of range lists; the while loop has fuel, its theorem gives an amount from which on the result is final | an invariant of the while loop on an order embedding of the bounds: the ranges written are the intersection below min; a measure bounds the rounds. Two refutations: a loop that never ends, an arithmetic error |
| C74 | the three functions on pairs of bounds; the difference iterator is set_diff of C06, powers and quotients are those of C03 | the corners of a box without 0 bound the quotient (monotonicity by sign); |x rem y| < |y| with the sign of x; for powers every value lies between two of the noted values (cases on the sign of the base and the parity of the exponent). The noted values are values, hence tight |
| C75 | arrayXd with its loop over the index sets (int conversions, unsigned product, one open dimension), array1d of a list, arrayXd of two arrays, on the representation of C29 | the loop accumulates the shape and its cardinality modulo 2^32; the result is a view, whose elements C29/C30 give; four false cases refuted |
| C76 | concat_index and select_from_index: dimensions, block sizes, the loops copying into a vector of optional elements | invariant over the outer loop: all blocks so far hold the elements specified (position of an index tuple = block, index, rest); every cell is covered, so the vector is filled; ranges are slices (C30); three false cases refuted |
| C77 | the loops of min, max, arg_min, arg_max, sum, product, forall, exists, clause, xorall, iffall over an array whose elements are evaluated one by one and may fail | each loop is a fold over the list of elements of a built array (C29, C30); induction on the list; order dependence of sum and forall and the undefined product shown by witnesses |
| C78 | b_index_set for array literals and for identifiers with declared index sets, b_index_sets_agree | shape of a built array (C29) and equality of normal-form sets (C07); induction on the dimensions |
| C79 | `SortModel`: stable_sort (by insertion), sort_by_int, sort (with any std::sort), inverse over the array model | invariants of insertion (strongly sorted by key and position), pigeonhole for inverse; refutations by computation |
| C80 | `SortModel`: set2array, set_sparse_inverse, set_to_ranges, to_enum, enum_next, enum_prev over the set model | reduction to C07/C08 and induction over the ranges; refutations by computation |
| C81 | `FmtModel`: string_length, string_split (with std::string::find), join, concat over lists of bytes | induction on code points and on the text; uniqueness of the cut gives the round trip |
| C82 | `FmtModel`: show_padded (show_int, show_float), pad, format_justify_string, format with the written text as a parameter | case analysis on the width; refutations by computation |
| C83 | sets of intervals as ordered lists, iterators as positions (`MipModel`) | each operation characterised by its members, by cases on the positions of the ends; `MipProofs` |
| C84 | projection onto the reference variable, flags, linear constraints, new domains (`MipModel`); meaning of constraints in `MipSpec` | the projected set is the set of values of the reference that satisfy the static constraints; flags pick one interval; each 0/1 variable is the sum of the flags of its intervals; `MipProofs2`-`MipProofs4` |
| C85 | map from tags to solvers, choice by tags and versions (`SelModel`); who meets a request in `SelSpec` | the map lists exactly the solvers called by a tag; narrowing keeps exactly those that meet the requests; the choice is the least of them; `SelProofs` |
| C86 | list of default options with overriding (`SelModel`) | the stored list is the table of first occurrences with last values; `SelProofs` |
| C87 | entries of a parameter file to arguments, nested objects to text (`ParamModel`); meaning of entries in `ParamSpec`, splitting in `CmdModel` | induction over values; the text of an object is a sequence of words and quoted texts, which the splitter of C41 reads back; `ParamProofs2` |
| C88 | loop over the command line that replaces references to parameter files (`ParamModel`); replacement as a relation in `ParamSpec` | the loop on args ++ rest carries out the replacement of args and goes on with rest; each round without a new file shortens the rest; `ParamProofs` |
| C89 | flatten_ite.cpp: splitting of the branches, conditions, bounds and calls; the decompositions of if_then_else and if_then_else_partiality are the meaning of the calls; ite_struct_split | for a fixed assignment there is one branch taken; the first clause whose condition holds is its clause (induction over the conditions); at this clause the rows are equivalent to the branch; nested tuples refuted |
| C90 | flatten_arrayaccess.cpp: filling in fixed indices with the stack loop, composition of accesses, fixed accesses; eval_arrayaccess on unbounded integers; element calls mean the access | the loop enumerates all tuples in row-major order (induction on the dimensions, inner induction on the remaining values); positions of blocks; absent indices and empty dimensions refuted |
| C91 | Generators with where clauses over stores of the generator variables; the type checker's splitting and moving of where parts (FindLatestGen, whereMap, rebuilding), the flattener's replacement of variable sets and variable parts by conditions, and the element built under forall, exists, sum or elsewhere | Every comprehension is run as a list of steps; a where test that ignores later variables commutes with them, so the elements are a filter of the full enumeration; rearranged and flattened versions have the same enumeration and the same conjunction of tests |
| C92 | Boolean expressions with let chains; flattening returns the variables it creates and the remaining formula, the context deciding which free local variables are errors | Induction over the expression with the polarity of the context: in a positive (negative) context the expression is true (false) iff some extension of the store makes the flat formula true (false); solutions of two operands are merged because their local variables are distinct |
| C93 | Sets of floats | `FSetModel`: FloatSetVal and the range iterators at FloatVal, doubles as ranks; direct invariant proofs for union and intersection with a gap parameter, simulation into the integer iterators (C06, C07) for difference and subset; refutations for touching ranges and extreme doubles |
| C94 | deep copy as a function on a heap of nodes with a map from originals to copies, registration before or after the fields as in the code | invariant over nested calls with a list of open copies, simulation relation between original and copy; termination by a lexicographic measure (unregistered nodes, rank of early references) |
| C95 | the loop of least_common_supertype over the occurrences of type-inst variables; the registry of instances as a state machine | invariant over the processed occurrences (one lub per variable, untouched places); registry invariant over all histories |
| C96 | names of instances as strings, the renaming loop with a set of used names | digits contain no `@`; pigeonhole for termination of the renaming; invariant on used names |
| C97 | parser of solution files on lines with the behaviour of getline, stoi and substr at the end of the file; status table; conversion of integers | induction over the parts of the file; case distinction over the part in which the file breaks off |
| C98 | feedRawDataChunk with its flag for unfinished lines | character-wise specification of commented text, induction over chunks |
| C99 | collection of declarations and constraints (bounds with their updates, jacobians, expression graphs), order of variables, file with indices; builds with and without assertions | meaning of FlatZinc and of NL files (prefix expressions) over rationals; every collection step preserves meaning, printing renames variables; deterministic reading of expressions |
| C100 | StatisticsStream (constructor, add, destructor without the warnings after the message), printing of literals and arrays, comment and core messages | JSON values as in RFC 8259 (relation between texts and values); induction over the calls; for the refutations a scanner that accepts every JSON text |

## Trusted base

* Coq 8.16.1: its kernel, including the `vm_compute` conversion used for finite checks over tables
  (lexer rules, type tables, all bytes).  No `native_compute`.
* `Print Assumptions` follows every property theorem in `Properties*.v`, and the build prints its
  answer.  Every theorem is `Closed under the global context` except:
  * C14, C15 (`PropertiesOpt.v`, `PropertiesDouble.v`), which reason about binary64 with Flocq and depend
    on the axioms of the standard library's real numbers:
    `ClassicalDedekindReals.sig_not_dec`, `ClassicalDedekindReals.sig_forall_dec`,
    `FunctionalExtensionality.functional_extensionality_dep`, `Classical_Prop.classic`.
  No axiom is declared in this development, and none of another library is used.
* The hand transcription of C++ into Gallina.  Each definition cites the lines it transcribes and names
  its simplifications.  Nothing checks the transcription mechanically; the theorems hold of the model.
* The C++ semantics assumed: LP64, 8-bit bytes, two's complement, `int` of 32 and `long long` of 64 bits,
  IEEE 754 doubles with round to nearest even; signed overflow, out-of-range indices, null and dangling
  pointers and reads of uninitialised variables are undefined and are the distinct outcome `UB`.
* Library code is assumed to meet its documentation: `std::vector`, `std::unordered_map` (a finite map),
  `std::sort` (some sorted permutation), `std::istringstream` (clamping of integers), `strncmp`,
  bison (the grammar's precedence declarations) and flex (longest match, first rule).

## What is modelled and what is not

| files | modelled in | left out |
|-------|-------------|----------|
| `include/minizinc/values.hh`, `lib/values.cpp` (IntVal, IntSetVal), `include/minizinc/iter.hh` (set iterators) | `IntValModel`, `SetModel` | FloatVal, FloatSetVal, hashing |
| `lib/flatten/flatten_binop.cpp`, `flatten_call.cpp` (linear expressions and comparisons), `include/minizinc/flatten_internal.hh` (simplify_lin, floorDiv, ceilDiv, domains) | `LinModel`, `DoubleModel` | float versions |
| `lib/optimize_constraints.cpp` | `OptModel` | element and clause constraints are covered only as registered there |
| `lib/eval_par.cpp`, `include/minizinc/eval_par.hh` (bounds, array access, comprehensions) | `BoundsModel`, `AccessModel` | general evaluation of calls, float bounds, where-clauses of var type |
| `lib/eval_par.cpp` (evaluation of integers, Booleans, sets of integers; let; calls) | `EvalModel` | arrays, floats, strings, builtins, coercions, flat() chains, maybe_partial, call stack for messages |
| `lib/model.cpp` (overload resolution), `lib/typecheck.cpp` (arguments of calls) | `OvlModel` | arguments of bottom type, polymorphic variants, registration and merging of declarations, matchReif, messages; std::sort is modelled by insertion sort (libstdc++, up to 16 entries) |
| `lib/optimize.cpp` (Boolean variables: unify, phases 1 to 4 and 6) | `BoptModel` | other types, arrays given by name, annotations, bool2int, the order of the queues (any), the counters of unfixed arguments (any) |
| `lib/builtins.cpp:2988-3053` (array_union, array_intersect) | `BsetModel` | evaluation of the elements |
| `lib/builtins.cpp:1119-1187, 1218-1276` (compute_div_bounds, compute_mod_bounds, compute_pow_bounds) | `DomModel` | compute_float_div_bounds |
| `lib/builtins.cpp:1280-1546` (b_arrayXd, b_array1d_list, array_dim_product, b_concat_index, b_select_from_index) | `BarrModel` | types and the flag "flat" of the results; returning the identifier instead of its array |
| `lib/chain_compressor.cpp`, the driver in `lib/optimize.cpp` | `ChainModel`, `LeModel` | float inequalities and int2float aliases |
| `lib/solns2out.cpp` | `SolnModel` | parsing of the assignments, output evaluation, statistics, checkers (parameters) |
| `lib/gc.cpp`, `include/minizinc/gc.hh` | `GcModel`, `RootModel` | thresholds, destructors of non-GC members, 32-bit layout, out of memory |
| `lib/ast.cpp`, `include/minizinc/ast.hh`, `ast.hpp` (literals, locations, ArrayLit, equal, compare, hash) | `LitModel`, `ArrModel`, `CmpModel` | other node classes; the hash combination (a parameter) |
| `include/minizinc/type.hh`, `lib/type.cpp`, `lib/flatten.cpp` (registry of EnvI) | `TypeModel` | the type checker |
| `lib/flatten/flatten_binop.cpp`, `flatten_unop.cpp`, `flatten_call.cpp`, `lib/flatten.cpp` (Boolean operators, contexts) | `CtxModel` | calls, let, if-then-else, domains; only the operator step is modelled |
| `include/minizinc/hash.hh` (DenseIdMap), `lib/optimize.cpp` (VarOccurrences) | `DenseModel` | other maps |
| `lib/json_parser.cpp` | `JsonModel` | file handling, error texts |
| `lib/lexer.lxx`, `include/minizinc/prettyprinter.hh` (quoteId, escapeStringLit) | `LexModel` | locations, include stack, flex buffers |
| `lib/prettyprinter.cpp` (PlainPrinter), `lib/parser.yxx` (rules for expressions) | `ParseModel` | annotations, comprehensions, let, tuples, records, braces, interpolation, open ranges, multi-dimensional literals; items; PrettyPrinter's documents |
| `lib/typecheck.cpp` (TopoSorter, edit distance) | `TopoModel`, `StrModel` | the rest of the type checker |
| `lib/aststring.cpp`, `include/minizinc/aststring.hh` | `StrModel` | the hash function (a parameter) |
| `lib/file_utils.cpp` (command lines, base64), `include/minizinc/_thirdparty/b64` | `CmdModel`, `B64Model` | compression, files |
| `lib/builtins.cpp:117-234, 524-551, 768-880, 1569-1637` (b_int_min/max, b_arg_min/max_bool/int, b_sum_int, b_product_int, b_index_set, b_index_sets_agree, b_forall_par, b_exists_par, b_clause_par, b_xorall_par, b_iffall_par) | `RedModel` | float versions; evaluation of the elements is a parameter |
| `lib/builtins.cpp` (2408-2445, 3055-3187, 3568-3627) | `SortModel` | comparison of strings and floats, exceptions in comparisons, types and messages |
| `lib/builtins.cpp` (2447-2500, 2753-2938, 2962-2986) | `FmtModel` | how a value is written as text (show, operator <<, std::fixed) |
| `lib/MIPdomains.cpp` (SetOfIntervals, DomainDecomp) | `MipModel` | equality encodings, float variables, rounding of doubles (numbers are exact, INT_EPS is 0), building the groups of related variables, statistics |
| `lib/solver_config.cpp` (addConfig, populate, config, solverDefaults, defaultOptions) | `SelModel` | reading of .msc and JSON files, the other functions |
| `lib/param_config.cpp` | `ParamModel` | printing of numbers |
| `lib/solver.cpp` (processOptions: parameter files, 384-456, working directories 913-918, 953-958) | `ParamModel` | the other options |
| `lib/flatten/flatten_ite.cpp` (all), `share/minizinc/std/fzn_if_then_else_*.mzn` | `IteModel` | flattening of the branches themselves (their value, definedness, bounds are parameters with soundness assumed); bounds of floats and sets; optional types; records like tuples |
| `lib/flatten/flatten_arrayaccess.cpp` (24-217, 306-378) | `SliceModel` | following identifiers, arrays of tuples (262-303), the joining of value and definedness for Booleans, warnings |
| `lib/typecheck.cpp` (2413-2569), `lib/flatten/flatten_comp.cpp` (42-277) | `CompModel` | set2iter with a body, index tuples, coercions, the alias for a compound set |
| `lib/flatten/flatten_let.cpp` | `LetModel` | non-Boolean lets, lets inside right-hand sides, promise annotations |
| `include/minizinc/values.hh` (FloatSetVal), `include/minizinc/iter.hh` (FloatVal instances), `lib/eval_par.cpp` (eval_floatset operators) | `FSetModel` | equal, compare, less on float sets (not reached by eval_bool); conversion of int sets to float sets; symmetric difference |
| `lib/copy.cpp` (61-560, CopyMap) | `CopyModel` | followIds = true, maps for shared argument vectors, declarations of removed items, pointers to flat declarations (isFlatModel) |
| `lib/type_specialise.cpp` (instantiated_types, InstanceMap, instance names, type_demonomorphise_library) | `SpecialiseModel` | tuples and records, rewriting of type-insts (walkTIMap, updateReturnTypeInst), retyping of bodies |
| `lib/statistics.cpp`, `include/minizinc/statistics.hh`, `lib/solns2out.cpp` (messages about solver output) | `StatModel.v` | modelled: add, addInternal, constructor, destructor, comments, cores. Not modelled: addRaw (profiling), precision of numbers (texts of numbers are inputs), warnings, parsing of the solver's lines |
| `solvers/nl/nl_file.cpp`, `solvers/nl/nl_components.cpp` (NLBound, tokens, constraints, phase2, printToStream) | `NlFileModel` | int_pow, decimal printing of doubles (exact rationals here), column counts (segment k), objective, output arrays, which variables the header counts as nonlinear (modelled, but no theorem states it); std::map in order of declaration |
| `solvers/nl/nl_solreader.cpp` (parseSolution, feedRawDataChunk) | `NlSolModel` | conversion of text to double (any function), printing of values and arrays |

Not modelled at all: the solver interfaces, the FlatZinc optimiser on other than Boolean variables (beyond single constraints and chains), type checking, compilation
of functions, threads and signals, file system access, error messages.

## Findings

Each is a theorem about the model whose name ends in `_refuted`; the part of the property that holds is
proved beside it.

1. Integers: multiplication and division are undefined for some operands with the smallest integer (C51_div_by_one_refuted, C51_mul_undefined_iff); the counter of `pow` overflows (C03_pow_counter_refuted); finite times infinite has the sign of the wrong operand (C04_mul_right_infinity_refuted); `floorDiv`/`ceilDiv` via double are wrong from 2^53 (C15_*_refuted), and with them the simplification of a linear constraint (C14_large_bound_refuted).
2. Sets at the edges of 64 bits raise errors although the result is representable (C05_vector_refuted, C06_*_edge_refuted, C08_values_edge_refuted); `set_in` with an empty set reads out of bounds (C14_set_in_empty_refuted).
3. Bounds of `div`, `mod`, calls with Boolean arguments and absent branches are wrong or undefined (C16_*_refuted); set bounds of field accesses and of operands without bounds are undefined (C17_*_refuted).
4. Chain compression loops on a self-implication, dereferences past the end of a clause, and loses solutions for controlled variables (C18_*_refuted). Compression of inequalities loses and invents solutions, and uses an erased iterator (C68_*_refuted).
5. Arrays: assignment to an element of a compressed array changes others (C30_set_compressed_refuted); `make1d` of a slice reads out of bounds (C30_make1d_slice_refuted); index arithmetic overflows for arrays with an empty dimension (C31_overflow_refuted); indices of indexed comprehensions are truncated to 32 bits (C32_truncation_refuted); generator variables are not restored when the body throws (C33_thrown_refuted).
6. Types: type ids lose bits (C34_decode_refuted, C53_id_refuted); `==` and `cmp` disagree (C34_eq_cmp_refuted); subtyping with bottom or in strict mode is not transitive (C35_*_refuted); the field-wise base type test always says yes (C54_matches_refuted); common types of variable sets and arrays and of tuples are not upper bounds (C55_*_refuted).
7. Collector: weak references registered last read null and dangle (C25_*_refuted); declarations of operators are not marked, the trail is not marked without markers, an abandoned allocation breaks the accounting, `Call::args` twice changes the size of a node (C22_*_refuted).
8. Output: NUL hides the rest of a chunk (C19_nul_refuted); canonical output is repeated at each status (C21_canonical_refuted); the interactive filter depends on timing (C60_*_refuted).
9. Command lines: splitting and joining are not inverse for backslashes and control characters (C41_refuted).
10. JSON: integers are clamped to 32 bits, a number or open string at the end of the input is dropped, three escapes and half of the surrogate pairs are misread, empty dimensions get lost, objects count as array levels, an uninitialised variable is read, truth values vanish from sets, `{}` is rejected, commas are optional, `1e+5` is rejected (C42_* to C66_*_refuted).
11. `equal`, `hash` and `compare` disagree for sets of different kinds, compressed arrays, aliases and unresolved names (C47_*_refuted).
12. Maps with gaps iterate wrongly, huge identifiers are undefined (C48_*_refuted), and `unify` reads a dangling reference (C56_unify_refuted); interning confuses strings with NUL (C50_intern_refuted); `findLastOf` never stops (C57_findLastOf_refuted).
13. Contexts of products and quotients test the wrong bound (C62_*_refuted); negation is dropped for optional operands (C63_optional_refuted).
14. Lexer and printer: a carriage return in a string is printed raw (C37_return_refuted); the octal escape 400 ends the string (C37_nul_refuted); the names `infinity`, `variant_record` and `_` are printed without quotes (C38_refuted).
15. Printer and grammar disagree about `^`, `++`, `intersect`, unary minus and plus: the printed form is another expression or a syntax error; `f(x)^-1` is read as `f(x)` (C36_*_refuted); `-09223372036854775808` is rejected (C39_zero_refuted).
16. base64: the character `{` indexes past the table (C40_brace_refuted).
17. Overload resolution: the order of declarations is cyclic for tuple types, so std::sort is called without a strict weak order and a call can resolve to a less specific declaration (C70_order_refuted, C70_best_refuted); ties through defaults are not reported (C70_tie_refuted); calls that only one declaration takes are reported as ambiguous (C70_enum_refuted, C70_arity_refuted); a named call can resolve to a less specific declaration, and adding an unrelated overload changes the choice (C71_best_refuted); parameters without a name count as nameable (C71_anonymous_refuted).
18. Optimiser: the conjuncts of a toplevel conjunction are noted by declaration; if later equality constraints unify these declarations with others, the notes are skipped (`lib/optimize.cpp:849`) and the conjunction is still removed, so solutions are invented (C72_conjunct_lost_refuted). A constraint that is an unfixed name is removed although a unit clause makes the name false (C72_name_lost_refuted). Both are models of the optimiser's input format; by reading, the first arises from reified conjunctions and equalities that flattening turns into constraints (`lib/flatten.cpp:4577`), for the second no source model is known.
19. `array_intersect([{1,3,5}, 2..6])` never terminates and its list of ranges grows without bound: the iterator of the first set is never advanced, so the upper end of the interval falls back to the end of the first range, and a restart moves the lower end backwards (C73_intersection_loops_refuted, `lib/builtins.cpp:3014-3043`). `array_intersect([1..infinity])` is an arithmetic error, since 2 is added to the infinite end (C73_intersection_infinite_refuted).
20. Reshaping (`lib/builtins.cpp:1280-1378`): `array2d(1..65536, 1..65536, [])` is accepted (product modulo 2^32); `array1d(4294967297..4294967299, [1,2,3])` has the index set 1..3; `array2d({}, 1..infinity, [])` divides by zero; `arrayXd(x, y)` does not compare the numbers of elements, so that elements of the result may not exist. Theorems `C75_*_refuted`.
21. Selection (`lib/builtins.cpp:1458-1492`): `select_from_index_1([1,2,3,4,5], 10..infinity)` gives an array with the index set 10..5 and 4294967292 elements instead of an error; the ends of a selection are reduced to 32 bits; `concat_index` computes `w0 + max1` in int, which overflows for index sets near the largest int. Theorems `C76_*_refuted`.
22. Reductions: `sum([9223372036854775807, 1, -1])` is an error although the sum fits, because prefix sums are checked (`lib/builtins.cpp:532`); `product([-9223372036854775808])` is undefined behaviour (safeMult, finding on C01/C03); whether an undefined element decides a `forall` depends on its position, because the elements are evaluated from the last to the first. Theorems `C77_*_refuted`.
23. **sort_by, inverse, set_to_sparse_inverse and enum_next (lib/builtins.cpp:3055-3174, 2424-2445, 3585-3627).** `sort_by([10],[2,1])` indexes the array with the positions of the keys without comparing the lengths (C79_sort_by_refuted; the library declares sort_by without an assertion on the lengths). `inverse(array1d(-1..0,[1,2]))` computes `i + min_idx` in unsigned arithmetic and returns 4294967295 (C79_inverse_negative_refuted); `inverse([3000000000])` and `set_to_sparse_inverse({3000000000})` truncate their index set to int (C79_inverse_large_refuted, C80_sparse_refuted). `enum_next({1,3},1)` is undefined, and `enum_next({2,3},1)` is 2 (C80_enum_next_refuted).
24. **format_justify_string, show_int and format (lib/builtins.cpp:2753-2938).** The test `max_length < 0` is on a size_t, so a negative maximal length is ignored although documented as an error (C82_negative_refuted). Widths are truncated to int, and -2147483648 is negated (C82_width_refuted). Widths and lengths count bytes although documented as characters, and a maximal length may cut a UTF-8 character in two (C82_characters_refuted); show2d and show3d compute widths with string_length, which counts code points, so that rows with such characters are misaligned. format(0,1,12) ignores the maximal length (C82_format_length_refuted).
25. MIP domain decomposition (`lib/MIPdomains.cpp`). (a) `b <-> y = 3` with `y = 2x`: the projected constant 1.5 lies inside an interval, and `relateReifFlag` fails with an internal assertion (1724-1732) although the comment at 1568 expects the flag to be set to 0: `C84_succeeds_refuted_fraction`. (b) `b -> y <= 0` with `y = 1 - 2x` fails likewise: `C84_succeeds_refuted_implication`. (c) `cardInt` and `split2Bits` convert bounds to `int`: a domain {3000000000, 3000000002} is undefined behaviour: `C84_succeeds_refuted_large`. (d) When a reified constraint is false, `setVarDomain(varFlag, 0, 0)` replaces the domain of the 0/1 variable without looking at the old one ("need to check if the new range is in the previous bounds", 1756), so a variable fixed to 1 becomes 0 and an unsatisfiable model gets solutions: `C84_flag_domains_refuted`. (e, not modelled) `aux_float_lt_zero_iff_1__POST` is registered with CMPT_LT (511) while the switch handles CMPT_LT_0.
26. Choice of a solver (`lib/solver_config.cpp`). Requests are turned to lower case, tags and versions of solvers are not: (a) a solver with the tag `MIPs` cannot be found by this tag: `C85_tag_refuted`. (b) `cp@2B` silently gives another version although version 2B is there: `C85_version_refuted`. (c) A default solver whose id has capital letters is not found by the empty text, because the map holds its id in lower case: `C85_default_refuted`. (d) The version of the first tag falls back silently to any version (836-841), that of later tags does not: see `meets_first` and the third case of `C85_nonvacuous`.
27. Parameter files (`lib/param_config.cpp`, `lib/solver.cpp`). (a) `{"fzn-flags": {"b": "x y"}}`: strings inside a nested object are not quoted (124), so x and y become separate arguments: `C87_nested_refuted_blank`. (b) An array inside a nested object prints `ss << " " << exp` with `exp` a pointer (113): addresses are passed to the solver: `C87_nested_refuted_array`. (c) An object whose entries are all false ends in `std::out_of_range` from `substr(1)` (142): `C87_nested_refuted_false`. (d) Negated flags are not used inside nested objects (117-121). (e) A parameter file that is named twice is refused as "Cyclic parameter configuration file" (419) although there is no cycle: `C88_cyclic_refuted`. (f, not stated as a theorem) `--pop-working-directory` given by the user empties the stack of directories, and `back()` of an empty vector follows (409, 418).
28. ite_struct_split (flatten_ite.cpp:107) uses `then_decl[i]`, indexed by the field, where `then_decl[j]`, indexed by the branch, is meant. `if c then ((1,2),3) elseif d then ((4,5),6) else ((7,8),9) endif` gives ((1,2),6) when d is taken; `if c then (3,(1,2)) else (6,(4,5)) endif` reads past the end of the vector. Theorems C89_tuple_refuted, C89_tuple_refuted_access.
29. flatten_arrayaccess.cpp:78-80: in an access with a fixed absent index and a variable index, `anyAbsent` is only looked at when no variable index is left, so `x[<>, i]` becomes `x[1, i]` (the smallest index) where the evaluation of fixed accesses gives absence. Theorem C90_absent_refuted. 144-156: for `array[1..2, 1..0, 1..0] of int: x` and `x[1, i, j]` the loop increments an index that starts above its maximum and compares with `==`, so it does not end: C90_ends_refuted.
30. A part of a where clause moves to an earlier generator without the conjuncts written before it: in `[i | i in 1..2, j in 1..2 where j > 5 /\ assert(i < 2, "...")]` the assertion is unreachable as written but fails after type checking (`C91_guard_refuted`). Under `sum`, a par body is multiplied by the condition and so evaluated for every element of the upper bound: `var set of {0,2}: S; constraint sum(i in S)(10 div i) = 5` is unsatisfiable although `S = {2}` is a solution, because `10 div 0` makes the sum undefined (`C91_sum_refuted`); a var body is guarded by an if-then-else and is correct.
31. A local variable without a value is created outside the Boolean operators around its let. With an empty domain the whole model is then unsatisfiable: `b \/ let { var 1..0: y } in true` has no solution although `b` can be true (`C92_empty_refuted`).
32. (C93) FloatSetVal::a(vector) stores one range per value, also for two neighbouring doubles, but Ranges::Diff assumes a gap between the ranges of its second argument: after cutting off the first range it sets the minimum to the next double and the maximum to the double before the second range, and the resulting empty range ends the iteration. `0.0..2.0 diff {1.0, 1.0000000000000002}` therefore loses everything above 1.0. Similarly `{1.0} union {1.0000000000000002}` is stored as one range, so it fails the subset test against `{1.0, 1.0000000000000002}` (a declared domain of that form rejects it) and its card is infinite. A difference whose left operand starts at the smallest finite double throws an overflow error.
33. **An annotation on one use of a variable spreads to all its uses when the program is copied** (`C94_annotation_refuted`). copy.cpp:172-187 makes the declaration's own identifier the copy of every identifier that refers to it, and copy.cpp:410 then adds the annotations of the original use to that shared node. In the copy of `f(x :: a, x)` both arguments carry `a`.
34. **Specialisation mixes an enumerated type with int or float for one type variable** (`C95_enum_refuted`, `C95_float_enum_refuted`). type_specialise.cpp:118 tests `lcs != prevLcs`, but `Type::operator==` (type.hh:272) does not compare the enumerated type of non-struct types, so earlier occurrences keep theirs. For `f($T: x, $T: y)` called with an enum value and an integer the instance is `f(E: x, int: y)` (and a return type `$T` becomes `E`); with an enum value and a float, `type_meet` (:38) keeps the enum's id, and the first parameter becomes a float with an enumerated type. With the arguments in the other order both parameters are `int` or `float`.
35. **A user function whose quoted name starts with a backslash can be renamed to the name of another function** (`C96_rename_refuted`). type_specialise.cpp:862-885 takes every such function for an instance and checks the new name only against names that contain `@`: the functions `'\\f'` and `_f` both end up as `_f`.
36. **A truncated solution file of an NL solver can be read as a solution** (`C97_truncated_refuted`). nl_solreader.cpp:84-89 does not check that the last line is complete: `objno 0 200` (infeasible) cut to `objno 0 20` or `objno 0 2` is SOLVED. Similarly, if the file ends inside the last value without a newline, that value's text is read as the status line.
37. **A failure of an NL solver leads to an internal error** (`C97_failure_refuted`). Codes 500-599 give FAILURE, for which the switch in nl_solreader.cpp:158-262 has no case.
38. **Integer values of NL solvers are truncated** (`C97_integer_refuted`). nl_solreader.cpp:188 and :215 cast the double to an integer, so 2.9999999, which solvers return for 3, is reported as 2.
39. **The log of an NL solver is broken up by chunk boundaries** (`C98_chunks_refuted`). In nl_solreader.cpp:131-133 an unfinished piece of an unfinished line is printed with a line break and the flag stays set, so the rest of the line follows without comment mark.
40. **NL files of models with one variable lack its bounds** (`C99_single_refuted`). nl_file.cpp:1498 writes segments k and b only if there is more than one variable; only k may be left out. `var 1..10: x; solve minimize x;` becomes unbounded.
41. **Integer division is written as real division** (`C99_division_refuted`). nl_file.cpp:953 uses OPDIV instead of OPintDIV, so 7 div 2 = 3 is not a solution. It is reachable with solver libraries that keep int_div (the linear library redefines it).
42. **A product equal to one of its factors is written with a duplicated column** (`C99_duplicate_refuted`). nl_file.cpp:697-708 assumes that the result differs from the operands: for `x*y = x` builds with assertions give up, others list x twice in segment J.
43. **A solver statistic that is a set makes the JSON stream invalid** (`C100_range_refuted`). statistics.cpp:57-64 prints the expression in MiniZinc syntax: `%%%mzn-stat: bounds=1..3` becomes `"bounds": 1..3`. The same holds for tuples, records and two-dimensional arrays.
44. **Control characters are copied into JSON strings** (`C100_control_refuted`). prettyprinter.hh:47-71 escapes newlines, tabs, quotes and backslashes only; a solver comment with a colour code or a carriage return is sent as invalid JSON.

Seen in the code but not proved: `ASTString::operator<` passes a null pointer to `strncmp` for an empty
right-hand side; `equal` on arrays reads the group index of the first without comparing lengths;
comprehension generators are printed without quoting their names; `"/**/"` opens a documentation comment.

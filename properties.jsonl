{"id": "C01", "title": "Integer arithmetic is exact or raises an error", "statement": "For any two finite IntVal values the operators +, -, mod, unary minus, ++, --, +=, -= and abs either return the mathematically exact result (remainder with the sign of the dividend) or raise ArithmeticError, and they raise exactly when the exact result does not fit in 64 bits (mod: when the divisor is 0).", "quantifier": "all pairs of signed 64-bit integers", "why_tests_cant": "2^128 operand pairs; the interesting cases sit on the overflow boundary of each operator", "anchors": ["include/minizinc/values.hh: IntVal::safePlus, safeMinus, safeMult, safeDiv, safeMod, operator+,-,*,/,%"]}
{"id": "C02", "title": "Integer comparison is a total order with infinities at the ends", "statement": "The comparison operators on IntVal agree with the order of the integers extended with -infinity and +infinity: <= is reflexive, antisymmetric, transitive and total, < is its strict part, == is equality, and -infinity <= v <= +infinity for all v.", "quantifier": "all triples of well-formed IntVal values including both infinities", "why_tests_cant": "unbounded triples; transitivity across mixed finite/infinite values cannot be enumerated", "anchors": ["include/minizinc/values.hh: IntVal operator<=, <, >=, >, ==, !="]}
{"id": "C03", "title": "Integer power is exact or raises an error", "statement": "IntVal::pow(b) returns the exact power a^b for b >= 0 (in the range of loop counters), the truncated reciprocal for negative exponents of +1/-1 and otherwise raises an error; it never returns a wrong value.", "quantifier": "all bases and exponents representable as 64-bit integers", "why_tests_cant": "the loop length is data dependent and unbounded; overflow can happen in any iteration", "anchors": ["include/minizinc/values.hh: IntVal::pow"]}
{"id": "C04", "title": "Arithmetic with infinities keeps values well-formed", "statement": "Every IntVal produced by the public operators from well-formed values is again well-formed: it is finite, +infinity or -infinity, and the sign of an infinite result is the mathematically expected one.", "quantifier": "all pairs of extended integers and all operators that accept infinities", "why_tests_cant": "all operand pairs, including the unbounded finite x infinite family", "anchors": ["include/minizinc/values.hh: IntVal::plus, IntVal::minus, operator*, operator-()"]}
{"id": "C05", "title": "Integer sets are always in normal form", "statement": "Every IntSetVal returned by the public constructors and set operations is a strictly increasing list of non-empty ranges with at least one missing integer between neighbouring ranges, so that equality of sets coincides with equality of representations.", "quantifier": "all vectors of integers / all pairs of normal-form sets of any length", "why_tests_cant": "sets have unbounded length; the merge step depends on arbitrary orderings, duplicates and adjacency", "anchors": ["include/minizinc/values.hh: IntSetVal::a, IntSetVal::ai, IntSetVal constructor", "include/minizinc/iter.hh: Union, Inter, Diff"]}
{"id": "C06", "title": "Union, intersection and difference of integer sets are exact", "statement": "x is a member of union/intersection/difference of two sets iff it is a member of one / both / the first but not the second, for all integers x, including sets with infinite bounds; union and difference may instead raise ArithmeticError when a bound is the smallest or largest 64-bit integer.", "quantifier": "all pairs of normal-form range lists, all integers", "why_tests_cant": "iterator merges over unboundedly many interleavings of ranges", "anchors": ["include/minizinc/iter.hh: Ranges::Union, Ranges::Inter, Ranges::Diff"]}
{"id": "C07", "title": "Set predicates decide exactly the set relations", "statement": "Ranges::subset, disjoint and equal and IntSetVal::contains answer true iff the corresponding relation holds between the denoted sets of integers.", "quantifier": "all pairs of normal-form range lists, all integers", "why_tests_cant": "a wrong early exit shows only for particular interleavings of ranges of unbounded number", "anchors": ["include/minizinc/iter.hh: subset, disjoint, equal", "include/minizinc/values.hh: IntSetVal::contains, isSubset"]}
{"id": "C08", "title": "Cardinality and enumeration agree with the set", "statement": "cardinality/card of a set is its number of elements (or +infinity for an unbounded set), and iterating its values yields exactly its members, in increasing order, each once (ArithmeticError when the count does not fit or the set holds the largest integer).", "quantifier": "all normal-form sets", "why_tests_cant": "sums over unboundedly many ranges, each of unbounded width", "anchors": ["include/minizinc/iter.hh: cardinality, ToValues", "include/minizinc/values.hh: IntSetVal::card, RangesIter"]}
{"id": "C09", "title": "Set ordering is a strict total order", "statement": "Ranges::less and Ranges::lessEq order integer sets as the lexicographic order of their sorted element sequences; the order is total and consistent with equality.", "quantifier": "all pairs/triples of finite normal-form sets", "why_tests_cant": "needs all pairs of sets of any length", "anchors": ["include/minizinc/iter.hh: less, less_eq, compare"]}
{"id": "C10", "title": "Domain tightening keeps exactly the allowed values", "statement": "Limiting a variable domain by x < v, x <= v, x > v, x >= v or x != v, or intersecting it with an interval or another domain, keeps exactly the values of the old domain that satisfy the condition.", "quantifier": "all domains, all comparison operators, all bounds", "why_tests_cant": "unbounded domains and bounds falling anywhere within or between ranges", "anchors": ["include/minizinc/flatten_internal.hh: LinearTraits<IntLit>::limitDomain, intersectDomain", "include/minizinc/iter.hh: Bounded"]}
{"id": "C11", "title": "Simplifying a linear expression preserves its value", "statement": "After simplify_lin the sum of coefficient*variable plus constant is the same as before under every assignment of the variables, no coefficient is zero, no term is a literal, and every variable occurs at most once.", "quantifier": "all coefficient/term lists of any length, all assignments, all orders std::sort may return", "why_tests_cant": "requires all lists and all assignments; sort order of equal keys is unspecified", "anchors": ["include/minizinc/flatten_internal.hh: simplify_lin, CmpExpIdx"]}
{"id": "C12", "title": "Collecting a linear expression preserves its value", "statement": "collect_linexps turns any nested +,-,*constant expression into coefficients, terms and constant whose weighted sum equals coefficient times the value of the expression under every assignment.", "quantifier": "all expression trees, all assignments", "why_tests_cant": "unbounded tree depth; explicit stack replaces recursion", "anchors": ["lib/flatten/flatten_binop.cpp: collect_linexps, mklinexp"]}
{"id": "C13", "title": "Linear comparisons are translated equivalently", "statement": "A comparison between two linear expressions holds under an assignment iff the generated linear builtin (or the constant / bound decision taken instead) holds under it, for each of <, <=, >, >=, =, != .", "quantifier": "all linear expressions, comparison operators, assignments within the variables' bounds", "why_tests_cant": "all coefficients, signs and assignments", "anchors": ["lib/flatten/flatten_binop.cpp: flatten_linexp_binop", "include/minizinc/flatten_internal.hh: LinearTraits<IntLit>::constructLinBuiltin"]}
{"id": "C14", "title": "Constraint simplification is sound", "statement": "When the optimiser classifies a FlatZinc constraint as entailed it is true under every assignment within the variable domains, when it classifies it as failed it is false under every such assignment, and when it rewrites it the new constraint is equivalent.", "quantifier": "all constraint instances handled by OptimizeRegistry, all domains, all assignments", "why_tests_cant": "quantifies over assignments and over unbounded arrays", "anchors": ["lib/optimize_constraints.cpp: o_linear, o_lin_exp, o_element, o_clause, o_forall, o_exists, o_not, o_div, o_times, o_set_in, o_int_ne, o_int_le"]}
{"id": "C15", "title": "Rounded division of bounds is exact floor/ceiling", "statement": "floorDiv/ceilDiv of two integers return the mathematical floor/ceiling of the quotient.", "quantifier": "all pairs of 64-bit integers with non-zero divisor", "why_tests_cant": "the computation goes through IEEE doubles; rounding errors occur only for specific huge operands", "anchors": ["include/minizinc/flatten_internal.hh: LinearTraits<IntLit>::floorDiv, ceilDiv", "lib/optimize_constraints.cpp: o_linear"]}
{"id": "C16", "title": "Computed integer bounds contain every possible value", "statement": "If compute_int_bounds reports valid bounds [l,u] for an expression then under every assignment of the variables within their domains for which the expression is defined its value lies in [l,u].", "quantifier": "all integer expressions, all domains, all assignments", "why_tests_cant": "assignments and expressions are unbounded; errors hide inside the box, not at the corners", "anchors": ["lib/eval_par.cpp: ComputeIntBounds, compute_int_bounds"]}
{"id": "C17", "title": "Computed set bounds contain every possible element", "statement": "If compute_intset_bounds returns a set S for a set expression then every value the expression can take is a subset of S.", "quantifier": "all set expressions over union, intersection, difference, symmetric difference, literals, ranges; all assignments", "why_tests_cant": "all assignments of set variables", "anchors": ["lib/eval_par.cpp: ComputeIntSetBounds, compute_intset_bounds"]}
{"id": "C18", "title": "Implication chain compression preserves the solution set", "statement": "Replacing two clauses a->b, b->c by a->c when b occurs nowhere else leaves the set of solutions on the remaining variables unchanged, and the compression terminates.", "quantifier": "all clause sets, all assignments", "why_tests_cant": "solution-set equality over all assignments", "anchors": ["lib/chain_compressor.cpp: ImpCompressor"]}
{"id": "C19", "title": "Solution stream parsing is independent of chunking", "statement": "Feeding the solver output to Solns2Out in any division into chunks produces the same sequence of solutions, status messages, comments and raw text as feeding it in one piece.", "quantifier": "all text streams (no NUL characters), all ways of cutting them into chunks, all states of the processor", "why_tests_cant": "exponentially many chunkings; line endings may be split between chunks", "anchors": ["lib/solns2out.cpp: Solns2Out::feedRawDataChunk"]}
{"id": "C20", "title": "Each recognised status line sets exactly its status", "statement": "A line equal to one of the standard solution-separator/search-complete/unsat/unbounded/unknown/error messages is reported as that status and never as solution text, and all other lines become part of the next solution unmodified (apart from one trailing carriage return).", "quantifier": "all sequences of lines, in all chunkings, all options", "why_tests_cant": "unbounded line sequences", "anchors": ["lib/solns2out.cpp: Solns2Out::feedRawDataChunk, createOutputMap, evalStatus"]}
{"id": "C21", "title": "Unique-solution output never repeats a solution", "statement": "With unique output enabled (and canonicalisation off) no solution text is printed twice and every distinct solution is printed, in order of first occurrence; with it disabled every solution is printed. With canonicalisation each status prints the distinct solutions so far in sorted order.", "quantifier": "all sequences of solutions", "why_tests_cant": "histories of unbounded length", "anchors": ["lib/solns2out.cpp: Solns2Out::evalOutput"]}
{"id": "C22", "title": "Garbage collection keeps everything reachable and reclaims the rest", "statement": "After a collection every node reachable from a root (live model, KeepAlive, trail, markers) is still allocated with unchanged contents and every other node has been returned to a free list; allocated and free memory accounting stays exact.", "quantifier": "all heaps and root sets", "why_tests_cant": "heap graphs of unbounded size with sharing and cycles", "anchors": ["lib/gc.cpp: GC::Heap::mark, sweep, alloc"]}
{"id": "C23", "title": "The trail restores the previous state", "statement": "GC::untrail undoes exactly the trailed writes made since the matching GC::mark, in any nesting.", "quantifier": "all sequences of mark, trailed writes and untrail", "why_tests_cant": "unbounded nesting and repeated writes to one location", "anchors": ["lib/gc.cpp: GC::trail, GC::mark, GC::untrail", "include/minizinc/gc.hh: GC"]}
{"id": "C24", "title": "Root registration is exact", "statement": "After any sequence of creating, copying, assigning, moving and destroying KeepAlive handles the collector's root list contains exactly the live handles.", "quantifier": "all sequences of handle operations", "why_tests_cant": "histories of unbounded length over a doubly linked list", "anchors": ["lib/gc.cpp: KeepAlive, GC::addKeepAlive, GC::removeKeepAlive"]}
{"id": "C25", "title": "Weak references return their target while it is alive and null afterwards", "statement": "Dereferencing a WeakRef yields the referenced node as long as the node has not been collected and null afterwards, never a dangling pointer.", "quantifier": "all sequences of creation, destruction and collections", "why_tests_cant": "histories of operations interleaved with collections", "anchors": ["include/minizinc/gc.hh: WeakRef", "lib/gc.cpp: GC::Heap::mark weak ref processing"]}
{"id": "C26", "title": "Integer literals are stored faithfully", "statement": "IntLit::v(IntLit::a(i)) == i for every integer, whether it is stored as a tagged immediate or boxed; tagged immediates are never confused with node pointers, floats or each other.", "quantifier": "all 64-bit integers and infinities", "why_tests_cant": "2^64 values; bit-level packing boundary at 2^61", "anchors": ["include/minizinc/ast.hpp: IntLit::a, IntLit::v", "include/minizinc/ast.hh: Expression::isUnboxedInt, intToUnboxedInt, unboxedIntToIntVal"]}
{"id": "C27", "title": "Float literals are stored faithfully", "statement": "FloatLit::v(FloatLit::a(f)) is bit-identical to f for every finite double, whether packed into a pointer or boxed.", "quantifier": "all 64-bit double bit patterns", "why_tests_cant": "2^64 bit patterns; exponent re-biasing boundaries", "anchors": ["include/minizinc/ast.hh: Expression::doubleToUnboxedFloatVal, unboxedFloatToFloatVal", "include/minizinc/ast.hpp: FloatLit::a"]}
{"id": "C28", "title": "Source locations survive packing", "statement": "A Location built from file, first/last line and column returns the same file, lines and columns, whether or not they fit the packed representation.", "quantifier": "all line/column quadruples", "why_tests_cant": "combinations over the packing boundary of each field", "anchors": ["lib/ast.cpp: Location::LocVec", "include/minizinc/ast.hh: Location"]}
{"id": "C29", "title": "Array literals return the elements they were built from", "statement": "Element i of an ArrayLit built from a vector is the i-th vector element and the size is the vector's size, although repeated leading elements are stored once.", "quantifier": "all element vectors and indices", "why_tests_cant": "unbounded vectors; compression threshold and off-by-one at the repetition end", "anchors": ["lib/ast.cpp: ArrayLit::compress, ArrayLit::getSlice, ArrayLit::size"]}
{"id": "C30", "title": "Array slices view the right elements", "statement": "Indexing a slice returns the element of the underlying array at the corresponding multi-dimensional index.", "quantifier": "all dimensions, slice bounds and indices", "why_tests_cant": "arbitrary dimension counts and bounds", "anchors": ["lib/ast.cpp: ArrayLit::origIdx, ArrayLit::getSlice, ArrayLit::make1d"]}
{"id": "C31", "title": "Array access is row-major and bounds checked", "statement": "eval_arrayaccess succeeds iff every index lies in its index range, then returns the element at the row-major position; distinct in-range index tuples address distinct positions and every position is addressed.", "quantifier": "all dimension vectors and index tuples", "why_tests_cant": "any number of dimensions, any bounds", "anchors": ["include/minizinc/eval_par.hh: eval_arrayaccess"]}
{"id": "C32", "title": "Indexed comprehensions place every element at its index", "statement": "An indexed array comprehension yields an array whose index sets are the ranges spanned by the generated indices and whose element at each index tuple is the generated value; it raises an error iff some index tuple in the box is missing or generated twice.", "quantifier": "all generated sequences of index tuples and values", "why_tests_cant": "any permutation, duplication or omission of indices of any dimension", "anchors": ["include/minizinc/eval_par.hh: eval_comp"]}
{"id": "C33", "title": "Comprehensions enumerate generators in nested-loop order", "statement": "Evaluating a comprehension produces the values of its body for all generator combinations satisfying the where-clauses, in lexicographic generator order, and leaves all generator variables as they were.", "quantifier": "all generator lists, where-clauses and bodies", "why_tests_cant": "unbounded nesting and set sizes", "anchors": ["include/minizinc/eval_par.hh: eval_comp, eval_comp_set, eval_comp_array"]}
{"id": "C34", "title": "Types are encoded injectively and ordered consistently", "statement": "Type::toInt distinguishes any two types that differ in a compared component, Type::fromInt inverts it, and Type::cmp is a total order compatible with ==.", "quantifier": "all field combinations of a Type", "why_tests_cant": "2^30 combinations of bit fields, pairs and triples of them", "anchors": ["include/minizinc/type.hh: Type::toInt, Type::fromInt, Type::cmp, operator=="]}
{"id": "C35", "title": "Subtyping is a partial order", "statement": "isSubtypeOf is reflexive and transitive on the types of the language so that coercion chains are consistent.", "quantifier": "all triples of types", "why_tests_cant": "triples of bit-field combinations", "anchors": ["include/minizinc/type.hh, lib/type.cpp: Type::isSubtypeOf, Type::btSubtype"]}
{"id": "C36", "title": "Printed expressions parse back to the same expression", "statement": "Printing an operator expression and parsing the text with the MiniZinc grammar yields the same tree.", "quantifier": "all expression trees over the binary and unary operators", "why_tests_cant": "all nestings of 25 operators with 13 precedence levels", "anchors": ["lib/prettyprinter.cpp: precedence, assoc, need_parentheses, PlainPrinter::p", "lib/parser.yxx: %left/%right/%nonassoc declarations, expr", "lib/lexer.lxx"]}
{"id": "C37", "title": "String literals survive printing and lexing", "statement": "Lexing the printed form of a string literal yields the original string.", "quantifier": "all byte strings", "why_tests_cant": "all strings; escapes interact with neighbouring characters", "anchors": ["include/minizinc/prettyprinter.hh: Printer::escapeStringLit", "lib/lexer.lxx: string states"]}
{"id": "C38", "title": "Identifiers survive quoting and lexing", "statement": "Lexing the printed form of an identifier yields the same identifier token.", "quantifier": "all identifier strings the language admits", "why_tests_cant": "all strings against the keyword list and character classes", "anchors": ["include/minizinc/prettyprinter.hh: Printer::quoteId", "lib/lexer.lxx"]}
{"id": "C39", "title": "Integer literals survive printing and parsing", "statement": "Printing any 64-bit integer literal and lexing/parsing it yields the same integer; digit strings that do not fit are rejected.", "quantifier": "all 64-bit integers, all digit strings", "why_tests_cant": "2^64 integers and unboundedly long digit strings", "anchors": ["lib/lexer.lxx: fast_strtointval", "lib/parser.yxx: MZN_MINUS expr", "lib/values.cpp: operator<<"]}
{"id": "C40", "title": "Base64 encoding round-trips", "statement": "decode_base64(encode_base64(s)) == s for every byte string, independently of how the stream is cut into buffers.", "quantifier": "all byte strings, all buffer sizes", "why_tests_cant": "all lengths modulo 3 and all buffer boundaries", "anchors": ["lib/thirdparty/cencode.c", "lib/thirdparty/cdecode.c", "lib/file_utils.cpp: encode_base64, decode_base64"]}
{"id": "C41", "title": "Command lines survive combining and splitting", "statement": "parse_cmd_line(combine_cmd_line(v)) == v for every non-empty argument vector.", "quantifier": "all vectors of strings", "why_tests_cant": "all strings with quotes, blanks and backslashes in any position", "anchors": ["lib/file_utils.cpp: parse_cmd_line, combine_cmd_line"]}
{"id": "C42", "title": "JSON integers are read exactly", "statement": "An integer in JSON data that fits the language's integers is read as that integer.", "quantifier": "all integer texts", "why_tests_cant": "2^64 values", "anchors": ["lib/json_parser.cpp: JSONParser::readToken"]}
{"id": "C43", "title": "JSON strings decode to the intended text", "statement": "Reading a JSON string returns the characters it denotes; strings written by the system's own escaping read back unchanged, and \\u escapes produce the UTF-8 encoding of the code point.", "quantifier": "all strings and code points", "why_tests_cant": "all strings; 1.1 million code points and surrogate pairs", "anchors": ["lib/json_parser.cpp: JSONParser::readToken"]}
{"id": "C44", "title": "Spelling suggestions use the true edit distance", "statement": "ASTString::levenshteinDistance returns the minimum number of single-character insertions, deletions and substitutions between two strings.", "quantifier": "all pairs of strings", "why_tests_cant": "minimum over exponentially many edit scripts", "anchors": ["lib/aststring.cpp: ASTString::levenshteinDistance"]}
{"id": "C45", "title": "Aggregating nested and/or/not preserves truth", "statement": "The forall/exists/clause call built from a nested conjunction or disjunction has the same truth value as the original expression under every assignment, and aggregation terminates.", "quantifier": "all Boolean expression trees, all assignments", "why_tests_cant": "unbounded trees; list rewritten in place while iterating", "anchors": ["lib/flatten/flatten_binop.cpp: aggregate_and_or_ops"]}
{"id": "C46", "title": "Reification contexts compose correctly", "statement": "Positive and negative context operators implement sign composition, and recording several uses of a variable yields the weakest context that covers all uses independent of their order.", "quantifier": "all sequences of context annotations", "why_tests_cant": "histories of annotation updates of any length", "anchors": ["lib/flatten.cpp: operator+(BCtx), operator-(BCtx), EnvI::addCtxAnn"]}
{"id": "C47", "title": "Structural comparison is a total preorder consistent with equality", "statement": "Expression::compare is a total preorder on expressions and returns 0 for expressions that Expression::equal identifies; equal expressions have equal hashes.", "quantifier": "all triples of expressions", "why_tests_cant": "unbounded expression trees", "anchors": ["lib/ast.cpp: Expression::compare, Expression::equalInternal, rehash"]}
{"id": "C48", "title": "Dense identifier maps behave as maps", "statement": "After any sequence of insertions, removals and clears DenseIdMap::find returns the value most recently inserted for the identifier (or the first one, for named identifiers) and iteration visits exactly the present entries.", "quantifier": "all operation sequences", "why_tests_cant": "histories of unbounded length with table growth", "anchors": ["include/minizinc/hash.hh: DenseIdMap"]}
{"id": "C49", "title": "Declarations are ordered before their uses", "statement": "After sorting, every top-level declaration appears after the declarations it depends on, each exactly once, and circular definitions are rejected.", "quantifier": "all dependency graphs", "why_tests_cant": "arbitrary graphs", "anchors": ["lib/typecheck.cpp: TopoSorter::run, TopoSorter::checkId"]}
{"id": "C50", "title": "Interned strings are identical iff equal", "statement": "Two ASTStrings compare equal iff their contents are equal, since construction always returns the one stored node with that content as long as it is alive.", "quantifier": "all sequences of string constructions and collections", "why_tests_cant": "histories of operations", "anchors": ["lib/aststring.cpp: ASTStringData::a", "include/minizinc/aststring.hh"]}
{"id": "C51", "title": "Multiplication and division are exact or raise an error", "statement": "IntVal * and / never return a wrong value: the result is the exact product / truncated quotient, or ArithmeticError is raised (result outside the 64-bit range, division by zero).", "quantifier": "all pairs of signed 64-bit integers", "why_tests_cant": "2^128 operand pairs; overflow tests are themselves computed with 64-bit arithmetic", "anchors": ["include/minizinc/values.hh: IntVal::safeMult, safeDiv, operator*, operator/"]}
{"id": "C52", "title": "sum and linear calls keep their value", "statement": "The expression that a call sum(a) or a linear call is flattened to has the value of the sum (weighted sum) of the arguments under every assignment, although arguments that are themselves defined by linear expressions are inlined and like terms merged.", "quantifier": "all argument arrays, all definitions of the arguments, all assignments", "why_tests_cant": "arrays of unbounded length with arbitrary nested definitions", "anchors": ["lib/flatten/flatten_call.cpp: flatten_linexp_call"]}
{"id": "C53", "title": "Struct and array types are registered once and ids stand for them", "statement": "Registering a tuple, record or array type returns an id from which its field names and field types (element enums) can be looked up; registering it again returns the same id, different types get different ids, and no id ever changes its meaning.", "quantifier": "all sequences of registrations", "why_tests_cant": "histories of unbounded length; the lookup key of arrays and the name table of records are encodings that must be injective", "anchors": ["lib/flatten.cpp: EnvI::registerTupleType, EnvI::registerRecordType, EnvI::registerArrayEnum", "include/minizinc/flatten_internal.hh: TupleType, RecordType"]}
{"id": "C54", "title": "Struct arguments are coerced field by field", "statement": "The test that decides whether a struct value needs a coercion (StructType::matchesBT) answers yes only for structs whose fields have the same base types.", "quantifier": "all pairs of struct types", "why_tests_cant": "struct types of unbounded size and nesting", "anchors": ["lib/flatten.cpp: TupleType::matchesBT, RecordType::matchesBT", "lib/typecheck.cpp: add_coercion"]}
{"id": "C55", "title": "Common types are least upper bounds", "statement": "The type given to an array literal or a conditional (Type::commonType) is a supertype of the types of all its parts, the least one, and it is only rejected if there is none.", "quantifier": "all pairs of types and all registries", "why_tests_cant": "combinations of bit fields and registries of unbounded size", "anchors": ["lib/type.cpp: Type::commonType, Type::arrType, Type::elemType"]}
{"id": "C56", "title": "Variable occurrence counts are exact", "statement": "After any sequence of recording, removing and unifying variables, VarOccurrences::occurrences(v) is the number of distinct items recorded for v or a variable unified with it and not removed since.", "quantifier": "all sequences of add, remove, removeAllOccurrences, unify and clear", "why_tests_cant": "histories of unbounded length; unification merges entries of a growing vector", "anchors": ["lib/optimize.cpp: VarOccurrences", "include/minizinc/optimize.hh: VarOccurrences"]}
{"id": "C57", "title": "Strings compare in dictionary order and the string helpers agree with the mathematical ones", "statement": "For identifier and message strings without NUL characters: a < b holds exactly when a is before b in dictionary order on bytes (a strict total order), equality with std::string and C strings is equality of characters, beginsWith/endsWith hold exactly for prefixes/suffixes, substr(p,n) is the string of at most n characters starting at p, find returns the first occurrence at or after the position.", "quantifier": "all pairs of strings of any length, all positions and counts", "why_tests_cant": "Comparison bugs show on particular lengths, shared prefixes and bytes above 127; transitivity and totality quantify over triples of strings.", "anchors": ["include/minizinc/aststring.hh: ASTString::operator<, operator==, operator!=, beginsWith, endsWith, substr, find, findLastOf"]}
{"id": "C58", "title": "Array types keep their element type and index types", "statement": "The type built for an array from a dimension/index description and an element type has exactly that element type, that number of dimensions and those index types, and building it changes the meaning of no existing type.", "quantifier": "all registries reached by any sequence of registrations, all index descriptions and element types", "why_tests_cant": "The registry is history dependent: sharing or truncating ids gives wrong element types only after particular registrations.", "anchors": ["lib/type.cpp: Type::elemType, Type::arrType", "lib/flatten.cpp: EnvI::registerArrayEnum"]}
{"id": "C59", "title": "Weak maps drop exactly the entries with a collected node", "statement": "A collection removes from a weak node map exactly the entries whose key or value does not survive, and from the common subexpression table exactly the entries whose results are not both surviving nodes; all other entries are kept unchanged.", "quantifier": "all maps and all sets of surviving nodes", "why_tests_cant": "maps of unbounded size, entries removed while iterating", "anchors": ["lib/gc.cpp: GC::Heap::mark (weak maps), ASTNodeWeakMap", "include/minizinc/flatten_internal.hh: CSEMap::fixWeakRefs"]}
{"id": "C60", "title": "The interactive filter shows, processes or drops every line, independently of timing", "statement": "With an interactive solver, lines outside begin/end marker blocks are shown as they are, lines inside blocks are processed as solution text and marker lines are dropped, however the output is cut into chunks.", "quantifier": "all streams of lines, all marker strings, all ways of cutting the stream into chunks", "why_tests_cant": "chunk boundaries depend on timing; text is echoed before its line is complete", "anchors": ["lib/solns2out.cpp: Solns2OutInteractive::feedRawDataChunk, processCompleteLine"]}
{"id": "C61", "title": "Unsatisfiable cores are reported with the user's expressions", "statement": "When a solver reports an unsatisfiable core as a list of variable names and comparisons, one entry is reported for each of them, in order, in which a leading name that stands for an assumption is replaced by its expression and everything else is left as it is.", "quantifier": "all lists of entries, all assumption maps", "why_tests_cant": "unbounded lists and names", "anchors": ["lib/solns2out.cpp: Solns2Out::resolveAssumptionCore, feedRawDataChunk"]}
{"id": "C62", "title": "Arithmetic operands get a sound context", "statement": "When an integer subexpression of a comparison, linear expression, product, quotient or bool2int is replaced by a variable that only bounds it from one side, the enclosing Boolean result still stands correctly for the original in its context.", "quantifier": "every operator, coefficient, context, bounds and value of the operands", "why_tests_cant": "Soundness is a relation between all values of the variable and the expression in all contexts; a test sees one solution of one model, and a wrong sign only shows when the solver picks a value the tests did not.", "anchors": ["lib/flatten/flatten_binop.cpp: BOT_MULT, BOT_IDIV, BOT_LE..BOT_NQ cases", "lib/flatten/flatten_call.cpp: argctx.i, bool2int"]}
{"id": "C63", "title": "Boolean operators keep their meaning when flattened", "statement": "What is flattened in place of a Boolean operator, negated or not, required to hold or not, is true under an assignment exactly when the (negated) operator applied to its operands is, and is used in the same context.", "quantifier": "every operator, operands, context, negation and truth assignment", "why_tests_cant": "The cases multiply: operator, negation, context, known operands; a missing case changes the set of solutions of models that nest them.", "anchors": ["lib/flatten/flatten_binop.cpp: flatten_binop"]}
{"id": "C64", "title": "Nested JSON arrays become multi-dimensional arrays in row-major order", "statement": "When a nested JSON array is read for a parameter that is an array of several dimensions, it is accepted exactly if every level has the same number of elements everywhere; the array then has these lengths and the elements in row-major order.", "quantifier": "every nested array value and every number of dimensions", "why_tests_cant": "there are unboundedly many shapes and depths; raggedness can be anywhere", "anchors": ["lib/json_parser.cpp: JSONParser::coerceArray", "lib/json_parser.cpp: JSONParser::parseArray"]}
{"id": "C65", "title": "A JSON data file assigns the values written in it", "statement": "For any JSON data file and any declared parameters, reading the file yields one assignment per declared parameter in the file, in order, with the value that the JSON text of its field denotes for the declared type (numbers, strings, enum members, sets, arrays, records); undeclared fields are ignored; reading terminates on every input.", "quantifier": "every JSON text, with any layout, nesting and number of fields, and every assignment of types to names", "why_tests_cant": "the language of JSON texts is infinite; only an induction over the grammar covers all nestings", "anchors": ["lib/json_parser.cpp: JSONParser::parseFromString", "lib/json_parser.cpp: JSONParser::parseModel", "lib/json_parser.cpp: JSONParser::parseExp", "lib/json_parser.cpp: JSONParser::parseObject", "lib/json_parser.cpp: JSONParser::parseSet"]}
{"id": "C66", "title": "JSON floats are read as written", "statement": "Every JSON number with a fraction or an exponent is read as a float token with exactly its text, and the text after it is left for the next token.", "quantifier": "every number text and every context", "why_tests_cant": "the number texts are infinite; where a token ends depends on all following characters", "anchors": ["lib/json_parser.cpp: JSONParser::readToken"]}
{"id": "C67", "title": "The lexer reads every text to its end", "statement": "For every sequence of bytes, the lexer stops, having consumed all of it: every byte is part of some token, comment or error token, no byte is echoed to the standard output, and the stack of lexer states never underflows. At each point the token is the longest match, and the first rule among those.", "quantifier": "all byte strings, all lexer states reachable on them", "why_tests_cant": "start conditions, 193 rules and all texts; a rule that matches nothing, or a missing rule in one state, shows only on particular texts", "anchors": ["lib/lexer.lxx: rules, start conditions", "lib/lexer.lxx: YY_INPUT"]}
{"id": "C68", "title": "Compressing chains of inequalities keeps the solutions", "statement": "When the optimiser replaces y by x because of a constraint x <= y and removes that constraint and y, every solution of the old flat model is one of the new model, every solution of the new model becomes one of the old model by choosing values for the removed variables only, no removed variable is output or still mentioned, and the optimisation ends without failing on a satisfiable model.", "quantifier": "every flat model with integer linear inequalities, every order of declarations, every assignment", "why_tests_cant": "solution-set equality over all assignments and all orders in which inequalities are visited", "anchors": ["lib/chain_compressor.cpp: LECompressor::trackItem, LECompressor::compress, LECompressor::leReplaceVar, LECompressor::eqBounds", "lib/optimize.cpp: optimize"]}
{"id": "C69", "title": "Evaluating a par expression gives its mathematical value", "statement": "Evaluation of a fixed expression over integers, Booleans and sets of integers gives the value it has by the language definition: operators mean what mathematics says, let and function calls bind their variables locally also under recursion, every domain of a parameter, local declaration or result is enforced, undefinedness (division by zero, a violated domain or constraint) makes the closest enclosing Boolean expression false and is otherwise reported as an undefined result. The value does not depend on what was evaluated before, and evaluation, also when it ends with an error, leaves all local variables as they were.", "quantifier": "every well-typed program and expression of these types, every state of the declarations, every sequence of evaluations", "why_tests_cant": "quantifies over all programs, recursion depths and earlier evaluations", "anchors": ["lib/eval_par.cpp: eval_int_internal, eval_bool, eval_intset, eval_par, eval_id, eval_call, check_par_domain", "lib/ast.cpp: Let::pushbindings, Let::popbindings"]}
{"id": "C70", "title": "Overload resolution picks the most specific declaration", "statement": "A call resolves to a declaration that takes its arguments, and to none only if no declaration does. No other declaration that takes the arguments is strictly more specific. If two remain that cannot be told apart, and only then, the call is rejected as ambiguous. The result does not depend on the order of the declarations, and resolving the call again gives the same declaration.", "quantifier": "every set of overloaded declarations with any parameter types, names and defaults, in any order, and every list of argument types", "why_tests_cant": "The outcome depends on the sort order of all overloads and on pairs of subtype relations; a wrong choice shows only for particular combinations of overloads, registration orders and type numbers.", "anchors": ["lib/model.cpp: Model::FnEntry::compare, Model::matchFn, at_least_as_specific, same_parameter_names, Model::sortFn", "lib/typecheck.cpp: check_parameter_defaults"]}
{"id": "C71", "title": "Named arguments bind to the parameter of that name", "statement": "In a call with named arguments every positional argument goes to the parameter at its position, every named argument to the parameter of that name, and every other parameter gets its default. The call resolves to a most specific declaration that takes the arguments. Declarations are rejected exactly if a call by names could not tell them apart.", "quantifier": "every set of overloaded declarations and every list of positional and named arguments", "why_tests_cant": "The parameters may be in another order in each overload and defaults may fill any of them; tests cover a few signatures.", "anchors": ["lib/model.cpp: Model::matchFnNamed, ambiguous_named_call, nameable_params", "lib/typecheck.cpp: vCall"]}
{"id": "C72", "title": "Optimising the Boolean part of a flat model keeps its outputs", "statement": "The optimised flat model can print exactly the outputs the flat model can print: unifying variables, propagating fixed Booleans, simplifying and removing conjunctions, disjunctions, clauses and equalities, and deleting variables neither loses nor invents an output. A model is reported as inconsistent only if it has no solution.", "quantifier": "every flat model with Boolean variables and constraints, every order of its items and of the work queues, every choice of the variables to delete", "why_tests_cant": "The optimiser interleaves unification, propagation and deletion through queues and a table of occurrences; a missed update shows only for particular combinations of constraints and orders.", "anchors": ["lib/optimize.cpp: optimize, unify, simplify_constraint, substitute_fixed_vars, simplify_bool_constraint, remove_deleted_items, can_remove_fzn_vardecl", "lib/optimize_constraints.cpp: o_clause, o_forall, o_exists"]}
{"id": "C73", "title": "Unions and intersections of arrays of sets", "statement": "array_union of an array of integer sets is the set of the integers that are in some set of the array; array_intersect of a non-empty array terminates and is the set of the integers that are in all sets of the array.", "quantifier": "every array of integer sets, of any length, with any number of ranges, finite or infinite", "why_tests_cant": "the loop over the ranges of all sets depends on how the gaps of the sets interleave; a test sees a few arrays", "anchors": ["lib/builtins.cpp: b_array_union, b_array_intersect"]}
{"id": "C74", "title": "Domains of quotients, remainders and powers", "statement": "The domain that the compiler computes for the variable that stands for x div y, x mod y or pow(x,y) holds the result for all values of x and y within their bounds for which it is defined, so that no solution is lost; for div and pow the domain is no wider than the results are.", "quantifier": "all bounds of the two arguments, finite or infinite, valid or not, of any sign, and all values within them", "why_tests_cant": "the extreme results are at different corners of the box of arguments depending on signs and parities; tests sample boxes", "anchors": ["lib/builtins.cpp: b_compute_div_bounds, b_compute_mod_bounds, b_compute_pow_bounds", "share/minizinc/std/stdlib/stdlib_internal.mzn: div_t, mod_t, pow_t"]}
{"id": "C75", "title": "Reshaping keeps the elements", "statement": "array1d(S,x) to array6d(S1,...,S6,x) return an array with exactly the given index sets and the elements of x in the same row-major order, for every x (also a slice, a compressed or a reshaped array); if the number of elements does not match, or an index set is not a range, the result is an error. One index set may be l..infinity, its end follows from the number of elements. array1d(x) numbers the elements from 1, arrayXd(x,y) gives y the index sets of x.", "quantifier": "every array and every list of index sets", "why_tests_cant": "the numbers and sizes of dimensions are unbounded, arrays have many internal representations, and wrap-around of the product only shows for huge index sets", "anchors": ["lib/builtins.cpp:b_arrayXd", "lib/builtins.cpp:b_array1d_list", "include/minizinc/ast.hpp:ArrayLit::ArrayLit"]}
{"id": "C76", "title": "Joining and selecting along one dimension", "statement": "concat_index_k(x,y) joins x and y along dimension k: the other index sets are unchanged (and must be equal, otherwise the result is an error), dimension k is numbered from 1 and holds the elements of x followed by those of y. select_from_index_k(x,S) keeps the elements whose k-th index is in S: a range keeps its indices, a set with holes is renumbered from 1 in increasing order, and a set that is not a subset of the index set is an error.", "quantifier": "every pair of arrays of any number of dimensions, every dimension, every selection set", "why_tests_cant": "the copying loops work on blocks of a flattened array: the block sizes depend on all dimensions, and bugs show only for particular combinations", "anchors": ["lib/builtins.cpp:b_concat_index", "lib/builtins.cpp:b_select_from_index", "lib/builtins.cpp:array_dim_product"]}
{"id": "C77", "title": "Reductions of arrays", "statement": "min and max of an array of integers give its least and greatest element, arg_min and arg_max the first index of such an element; all four are undefined for an empty array and otherwise report the error of the first element that fails. sum and product are exact or an error. forall, exists, clause, xorall and iffall are the truth values of the connectives they are named after; if elements fail, forall (exists) has the outcome of the last element that is not true (false).", "quantifier": "all arrays of any shape and size built by the compiler, all (also infinite) integer values, all evaluations of elements including failing ones", "why_tests_cant": "sizes, values, overflow positions and failing elements are unbounded", "anchors": ["lib/builtins.cpp:b_int_min", "lib/builtins.cpp:b_arg_min_int", "lib/builtins.cpp:b_sum_int", "lib/builtins.cpp:b_product_int", "lib/builtins.cpp:b_forall_par", "lib/builtins.cpp:b_clause_par", "lib/builtins.cpp:b_xorall_par"]}
{"id": "C78", "title": "Index sets of arrays", "statement": "index_set_kofn gives the k-th index set of an array, also for an identifier whose declared index set is int, a type variable or unbounded; asking for a dimension the array does not have is an error; index_sets_agree holds exactly if the two arrays have equally many dimensions and the same index set, as a set, in each.", "quantifier": "all arrays of any shape built by the compiler, all dimensions, all declarations", "why_tests_cant": "shapes and numbers of dimensions are unbounded", "anchors": ["lib/builtins.cpp:b_index_set", "lib/builtins.cpp:b_index_sets_agree"]}
{"id": "C79", "title": "Sorting and inverting arrays", "statement": "sort_by(a, keys) returns the elements of a in the order of their keys, keeping the order of elements with equal keys; sort(a) returns the elements of a in non-decreasing order; both results are numbered from 1.  inverse(a), for an array that takes every value of m..m+n-1 exactly once, is the array over m..m+n-1 that maps each value to its index; it is undefined for any other array of integers.", "quantifier": "every array, however built or sliced, with every index set, elements and keys; every implementation of std::sort that meets the C++ standard", "why_tests_cant": "arrays of any length, any ties among the keys and any permutation chosen by std::sort", "anchors": ["lib/builtins.cpp: b_sort_by_int, b_sort, b_inverse"]}
{"id": "C80", "title": "Sets as arrays and steps in enumerated types", "statement": "set2array lists the elements of a set in increasing order; set_to_sparse_inverse maps the k-th element of a set to k over the index set min..max; set_to_ranges gives the ends of the maximal ranges of the set; to_enum accepts exactly the elements of the set; enum_next and enum_prev give the neighbouring element if there is one and are undefined otherwise.", "quantifier": "every finite set of integers in normal form and every integer", "why_tests_cant": "all sets with any number of ranges, and values next to every boundary", "anchors": ["lib/builtins.cpp: b_set2array, b_set_sparse_inverse, b_set_to_ranges_int, b_to_enum, b_enum_next, b_enum_prev"]}
{"id": "C81", "title": "Lengths, splitting and joining of strings", "statement": "string_length of a text in UTF-8 is its number of Unicode code points; string_split with an empty separator gives its code points and loses nothing for any bytes; string_split(s, sep) cuts s from left to right at every occurrence of sep, so that joining the pieces with sep gives s back; join and concat put the strings of an array together in order.", "quantifier": "every string of bytes, every text of code points, every separator and every array of strings", "why_tests_cant": "strings of any length with overlapping occurrences of the separator and characters of one to four bytes", "anchors": ["lib/builtins.cpp: b_string_length, b_string_split, b_join, b_concat"]}
{"id": "C82", "title": "Justified output", "statement": "show_int, show_float, format and format_justify_string fill the text with blanks on the left up to the given width (on the right if the width is negative), never cut text because of the width, cut it at the given maximal length, and refuse a negative maximal length or precision.", "quantifier": "every text, width, maximal length and precision", "why_tests_cant": "all combinations of widths, signs and lengths, including the ends of the ranges of the machine types", "anchors": ["lib/builtins.cpp: b_show_int, b_show_float, b_format, b_format_justify_string"]}
{"id": "C83", "title": "Sets of intervals for MIP domains", "statement": "Removing an open interval, intersecting, cutting gaps around the ends of other intervals, bounding and splitting a set of intervals leave exactly the points they should, as non-empty intervals in increasing order that do not touch.", "quantifier": "all sets of separate intervals with finite or infinite ends, all intervals cut out", "why_tests_cant": "The code keeps iterators into an ordered container while it inserts and erases; tests try a few sets, the cases depend on how the ends of the cut and of all intervals are ordered.", "anchors": ["lib/MIPdomains.cpp: SetOfIntervals::cutOut, intersect, cutDeltas, split2Bits, getBounds, checkFiniteBounds, checkDisjunctStrict"]}
{"id": "C84", "title": "Decomposing domains for MIP solvers keeps the solutions", "statement": "When a model is prepared for a MIP solver, the domains and the (reified) comparisons and set memberships of linearly related integer variables are replaced by 0/1 flags and linear constraints: the values of the original variables that satisfy the constraints are the same before and after, and no solutions are reported only if there are none.", "quantifier": "all groups of linearly related variables, all domains and constraints on them, all values of the variables, all options for splitting domains", "why_tests_cant": "The equivalence is over all assignments of unbounded variables; a wrong flag or a wrong rounding shows only for a particular value.", "anchors": ["lib/MIPdomains.cpp: DomainDecomp::doProcess, projectVariableConstr, convertIntSet, makeRangeDomains, considerDenseEncoding, createDomainFlags, implementPOSTs, relateReifFlag, setVarDomain, addLinConstr"]}
{"id": "C85", "title": "The solver that is chosen meets all requests", "statement": "Choosing a solver by a text such as \"cp,int@1.1\" gives a solver that carries all the tags (its tags, id, last part of the id, name, or \"default\") in the versions asked for, preferring the default solvers of the tags and then the order in which the configurations were found; letter case in the text does not count. The choice is refused only if no solver meets the requests. The version of the first tag is a preference only: if no solver with this tag has it, any version is taken. Every solver can be asked for by each of its tags, with its version, and the default solver by the empty text.", "quantifier": "every list of solver configurations, every table of default solvers and every text", "why_tests_cant": "unit tests use the few solvers installed on one machine; the claim is about every set of configuration files", "anchors": ["lib/solver_config.cpp:SolverConfigs::addConfig", "lib/solver_config.cpp:SolverConfigs::config", "lib/solver_config.cpp:get_tag"]}
{"id": "C86", "title": "Default options of a solver: the last value given wins", "statement": "The default options of a solver taken from all configuration files contain each option once, in the order in which the options are first given, with the value given last; empty texts are left out. Options given for other solvers do not count.", "quantifier": "every sequence of default options over all configuration files and every solver", "why_tests_cant": "the claim is about every sequence of entries over several files", "anchors": ["lib/solver_config.cpp:SolverConfigs::SolverConfigs", "lib/solver_config.cpp:SolverConfigs::defaultOptions"]}
{"id": "C87", "title": "A parameter file gives the arguments its entries stand for", "statement": "Each entry of a parameter configuration file gives its arguments in the order of the file: a true Boolean the flag, a false one the negated flag if there is one, a string or number the flag and the text, an array the arguments of its elements, a nested object its flag and one text that splits into the arguments of its entries. Forbidden flags are refused.", "quantifier": "every parameter file: any entries, nesting and texts", "why_tests_cant": "tests cover a few files; the claim is about every value, nesting and text", "anchors": ["lib/param_config.cpp:ParamConfig::load", "lib/param_config.cpp:ParamConfig::addValue", "lib/param_config.cpp:ParamConfig::modelToString"]}
{"id": "C88", "title": "References to parameter files are replaced in place", "statement": "Each reference to a parameter file in the command line or in a parameter file is replaced, in place, by the arguments of the file, which are read in the directory of that file. The replacement ends for every command line and all files, also if files refer to each other. It is refused as cyclic only if a file refers to itself, directly or through others.", "quantifier": "every command line and every finite set of parameter files", "why_tests_cant": "the claim is about every graph of references between files, including cycles", "anchors": ["lib/solver.cpp:MznSolver::processOptions"]}
{"id": "C89", "title": "An if-then-else means its first true branch", "statement": "Compiling a constraint if c1 then b1 elseif c2 then b2 ... else bn endif gives a flat model satisfied by exactly the assignments (within the declared domains) for which the first branch whose condition holds (else the last) is true; compiling a conditional expression gives a variable that has exactly the value of that branch, and a definedness that is exactly the definedness of that branch, so an undefined branch that is not taken does no harm. This holds whichever conditions are fixed at compile time, however the branches share equations on the same variables, and for tuples and records field by field.", "quantifier": "all lists of conditions (fixed or decided by variables), all branches (conjunctions of equations and other constraints, total or partial), all assignments, all tuple types", "why_tests_cant": "the branches are torn apart into one conditional for each variable that is equated in all or all but one of them, and the conditions are combined with fixed ones, dummy values and bounds; the number of shapes is unbounded", "anchors": ["lib/flatten/flatten_ite.cpp: flatten_ite, classify_conjunct, get_conjuncts, ite_struct_split", "share/minizinc/std/fzn_if_then_else_int.mzn", "share/minizinc/std/fzn_if_then_else_partiality.mzn"]}
{"id": "C90", "title": "A flattened array access has the value of the access", "statement": "When an array access is compiled, fixed indices are filled in and accesses through fixed arrays are merged. For every array and every mix of fixed, variable and nested indices, and for all values of the variables, the resulting access (or fixed element) has the value that the access in the model has, and is undefined exactly where that is undefined; an absent index makes the access absent. The compiler finishes on every access.", "quantifier": "all arrays of any number of dimensions and any index sets, all indices (fixed, absent, variable, accesses to fixed arrays nested to any depth), all assignments", "why_tests_cant": "the number of dimensions, the index sets and the positions of the fixed indices are unbounded, and the loop that collects the slice is driven by an explicit stack", "anchors": ["lib/flatten/flatten_arrayaccess.cpp: flatten_arrayaccess", "include/minizinc/eval_par.hh: eval_arrayaccess"]}
{"id": "C91", "title": "Comprehensions with where clauses and variable sets mean what they say", "statement": "For every comprehension, with any number of generators, assignment generators, where clauses and variable generator sets, the result after type checking and flattening is that of the comprehension as written: the same elements in the same order, and under forall, exists and sum the conjunction, disjunction and sum over exactly the elements whose generator values are in the sets and satisfy the where clauses.", "quantifier": "every list of generators obeying the scoping rules, every where clause, every value of the variable sets below their upper bounds, every body", "why_tests_cant": "the where clauses are cut into parts that move to other generators and variable parts move into the body, for arbitrarily many generators and nested conjunctions", "anchors": ["lib/typecheck.cpp: Typer::vComprehension, FindLatestGen", "lib/flatten/flatten_comp.cpp: flatten_comp", "include/minizinc/eval_par.hh: eval_comp_set, eval_comp_array"]}
{"id": "C92", "title": "Local variables mean what they say", "statement": "For every constraint built from Boolean operators and let expressions, with local variables with and without values, domains and constraints, nested to any depth, and every assignment of the other variables, the constraint holds if and only if the flat model has a solution with that assignment; local variables without a value are rejected exactly where they stand under an odd number of negations or below an equivalence.", "quantifier": "every nesting of Boolean operators and lets, every domain, every assignment of the other variables", "why_tests_cant": "local variables are hoisted out of the operators around them, which is right or wrong depending on the context of every enclosing operator, at any depth", "anchors": ["lib/flatten/flatten_let.cpp: flatten_let", "lib/flatten.cpp: operator+, operator-", "lib/flatten/flatten_binop.cpp: flatten_binop", "lib/flatten/flatten_unop.cpp: flatten_unop"]}
{"id": "C93", "title": "Sets of floats", "statement": "Set literals, comprehensions and ranges of floats evaluate to sets with exactly the doubles they list or span. union, intersect and diff of two sets of float give exactly the doubles they should, `in` answers exactly membership, the subset test used for checking declared domains is exact, and card counts the elements of a set given by its values.", "quantifier": "every list of doubles, every pair of float sets built from literals, ranges and these operations, every double", "why_tests_cant": "There are 2^64 doubles, the sets are unbounded, and the interesting inputs (neighbouring doubles, extreme doubles) are never hit by a sampled test.", "anchors": ["include/minizinc/iter.hh Union, Inter, Diff, overlaps, next_higher, next_lower, subset", "include/minizinc/values.hh FloatSetVal", "lib/eval_par.cpp eval_floatset", "lib/builtins.cpp b_card"]}
{"id": "C94", "title": "Copying a program yields an equal, separate program", "statement": "Copying an expression, an item or a whole model leaves the original unchanged and returns a program made of new nodes (except null pointers and the shared constants), in which every node has the same plain data as its original and refers to the copies of what the original refers to: shared subexpressions stay shared, identifiers refer to the copied declarations, cycles through definitions, annotations and recursive functions are reproduced, and annotations are those of the original. Copying ends for every program whose cycles all pass through a node that is registered before it is explored.", "quantifier": "all program graphs (shared and cyclic), all lists of roots", "why_tests_cant": "the graph can have any shape; a wrong order of registration shows only for particular cycles and sharing patterns", "anchors": ["lib/copy.cpp: copy(EnvI&, CopyMap&, Expression*, ...)", "lib/copy.cpp: copy_ann", "lib/copy.cpp: copy(EnvI&, CopyMap&, Item*, ...)", "lib/copy.cpp: copy(EnvI&, CopyMap&, Model*)", "include/minizinc/copy.hh: CopyMap"]}
{"id": "C95", "title": "Polymorphic functions are instantiated with one common type per type variable", "statement": "When a polymorphic function is specialised for a call, all places governed by the same type-inst variable (elements and index sets of parameters) get the same type: the least one above the types of the arguments, with an enumerated type only if all of them have it; nothing else in the argument types changes. Two calls share an instance exactly if they have the same name, parameter names and types up to var and opt, and an instance is created only for the first such call.", "quantifier": "all parameter lists, all well-typed argument types, all sequences of calls", "why_tests_cant": "arguments can mix types in any order and arrays share variables between index sets and elements; the result depends on the order", "anchors": ["lib/type_specialise.cpp: type_meet, base_type, adapt_to_base_type, least_common_supertype, instantiated_types", "lib/type_specialise.cpp: InstanceMap::getOrInsert", "include/minizinc/type.hh: Type::operator=="]}
{"id": "C96", "title": "Specialised functions have unambiguous names", "statement": "The name of an instance determines the instance number and the function it was made from, and error messages and output can recover the user's name from it; the printable names that replace instance names are different from each other and from every other function name, and all other names are kept.", "quantifier": "all function names, all instance numbers, all lists of functions", "why_tests_cant": "clashes need particular user-chosen names", "anchors": ["lib/type_specialise.cpp: Instantiator::operator()", "lib/type_specialise.cpp: demonomorphise_identifier", "lib/type_specialise.cpp: type_demonomorphise_library"]}
{"id": "C97", "title": "The result of an NL solver is reported faithfully", "statement": "A complete solution file of an NL solver is read as written: the message, the status that its result code stands for and the values of all variables in order; a solution, unsatisfiability or unboundedness is reported only for the codes that say so and every code leads to a report; a file that breaks off (because the solver was killed) is reported as an error; integer variables get the integer the solver means.", "quantifier": "all solution files, all result codes, all points at which the file can break off", "why_tests_cant": "the file can break off anywhere and contain any number of options, duals and values", "anchors": ["solvers/nl/nl_solreader.cpp: NLSol::parseSolution", "solvers/nl/nl_solreader.cpp: NLSolns2Out::parseSolution", "include/minizinc/solvers/nl/nl_solreader.hh: NL_Solver_Status"]}
{"id": "C98", "title": "The log of an NL solver is printed as comments", "statement": "Whatever an NL solver prints appears in the log with every line marked as a comment, independently of how the text is cut into chunks when it is read from the process.", "quantifier": "all texts, all ways to cut them into chunks", "why_tests_cant": "chunk boundaries depend on timing", "anchors": ["solvers/nl/nl_solreader.cpp: NLSolns2Out::feedRawDataChunk", "include/minizinc/process.hh: Process::run"]}
{"id": "C99", "title": "NL files have the solutions of the model", "statement": "The NL file written for an NL solver has exactly the solutions of the FlatZinc model: bounds of variables, linear and nonlinear constraints and comparisons say the same, every variable has one column, integer variables are marked as integer in the header, and values returned by the solver in the order of the columns belong to the variables of the model.", "quantifier": "all FlatZinc models of the supported constraints, all assignments, all interpretations of the transcendental functions", "why_tests_cant": "models can have any number of variables and constraints, and the order of the columns depends on all of them", "anchors": ["solvers/nl/nl_file.cpp: NLFile::analyseConstraint, NLFile::phase2, NLFile::printToStream", "solvers/nl/nl_components.cpp: NLBound, NLToken, NLAlgCons, NLHeader", "solvers/nl/nl_solverinstance.cpp: NLSolverInstance::solve"]}
{"id": "C100", "title": "Messages of a JSON stream are valid JSON", "statement": "With --json-stream every message about statistics, solver comments and unsatisfiable cores is one line that holds one JSON object, with the names, values and texts that the solver or the compiler reported, in their order; without it every statistic is one line of its own.", "quantifier": "all lists of statistics (numbers, strings, solver expressions with nested arrays), all comment lines, all cores", "why_tests_cant": "names, values and texts come from arbitrary solvers; tests see a few of them and none with quotes, nested arrays or control characters", "anchors": ["lib/statistics.cpp: StatisticsStream::add, ~StatisticsStream", "include/minizinc/statistics.hh: StatisticsStream::addInternal", "lib/solns2out.cpp: Solns2Out::parseStatistics, Solns2Out::feedRawDataChunk", "include/minizinc/prettyprinter.hh: Printer::escapeStringLit"]}

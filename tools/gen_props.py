#!/usr/bin/env python3
# Generates /verif/properties.jsonl (kept as a script so that entries stay well-formed JSON).
import json
P=[]
def p(id,title,statement,quantifier,why,anchors):
    P.append(dict(id=id,title=title,statement=statement,quantifier=quantifier,why_tests_cant=why,anchors=anchors))

p("C01","Integer arithmetic is exact or raises an error",
 "For any two finite IntVal values the operators +, -, mod, unary minus, ++, --, +=, -= and abs either return the mathematically exact result (remainder with the sign of the dividend) or raise ArithmeticError, and they raise exactly when the exact result does not fit in 64 bits (mod: when the divisor is 0).",
 "all pairs of signed 64-bit integers","2^128 operand pairs; the interesting cases sit on the overflow boundary of each operator",
 ["include/minizinc/values.hh: IntVal::safePlus, safeMinus, safeMult, safeDiv, safeMod, operator+,-,*,/,%"])
p("C02","Integer comparison is a total order with infinities at the ends",
 "The comparison operators on IntVal agree with the order of the integers extended with -infinity and +infinity: <= is reflexive, antisymmetric, transitive and total, < is its strict part, == is equality, and -infinity <= v <= +infinity for all v.",
 "all triples of well-formed IntVal values including both infinities","unbounded triples; transitivity across mixed finite/infinite values cannot be enumerated",
 ["include/minizinc/values.hh: IntVal operator<=, <, >=, >, ==, !="])
p("C03","Integer power is exact or raises an error",
 "IntVal::pow(b) returns the exact power a^b for b >= 0 (in the range of loop counters), the truncated reciprocal for negative exponents of +1/-1 and otherwise raises an error; it never returns a wrong value.",
 "all bases and exponents representable as 64-bit integers","the loop length is data dependent and unbounded; overflow can happen in any iteration",
 ["include/minizinc/values.hh: IntVal::pow"])
p("C04","Arithmetic with infinities keeps values well-formed",
 "Every IntVal produced by the public operators from well-formed values is again well-formed: it is finite, +infinity or -infinity, and the sign of an infinite result is the mathematically expected one.",
 "all pairs of extended integers and all operators that accept infinities","all operand pairs, including the unbounded finite x infinite family",
 ["include/minizinc/values.hh: IntVal::plus, IntVal::minus, operator*, operator-()"])
p("C05","Integer sets are always in normal form",
 "Every IntSetVal returned by the public constructors and set operations is a strictly increasing list of non-empty ranges with at least one missing integer between neighbouring ranges, so that equality of sets coincides with equality of representations.",
 "all vectors of integers / all pairs of normal-form sets of any length","sets have unbounded length; the merge step depends on arbitrary orderings, duplicates and adjacency",
 ["include/minizinc/values.hh: IntSetVal::a, IntSetVal::ai, IntSetVal constructor","include/minizinc/iter.hh: Union, Inter, Diff"])
p("C06","Union, intersection and difference of integer sets are exact",
 "x is a member of union/intersection/difference of two sets iff it is a member of one / both / the first but not the second, for all integers x, including sets with infinite bounds; union and difference may instead raise ArithmeticError when a bound is the smallest or largest 64-bit integer.",
 "all pairs of normal-form range lists, all integers","iterator merges over unboundedly many interleavings of ranges",
 ["include/minizinc/iter.hh: Ranges::Union, Ranges::Inter, Ranges::Diff"])
p("C07","Set predicates decide exactly the set relations",
 "Ranges::subset, disjoint and equal and IntSetVal::contains answer true iff the corresponding relation holds between the denoted sets of integers.",
 "all pairs of normal-form range lists, all integers","a wrong early exit shows only for particular interleavings of ranges of unbounded number",
 ["include/minizinc/iter.hh: subset, disjoint, equal","include/minizinc/values.hh: IntSetVal::contains, isSubset"])
p("C08","Cardinality and enumeration agree with the set",
 "cardinality/card of a set is its number of elements (or +infinity for an unbounded set), and iterating its values yields exactly its members, in increasing order, each once (ArithmeticError when the count does not fit or the set holds the largest integer).",
 "all normal-form sets","sums over unboundedly many ranges, each of unbounded width",
 ["include/minizinc/iter.hh: cardinality, ToValues","include/minizinc/values.hh: IntSetVal::card, RangesIter"])
p("C09","Set ordering is a strict total order",
 "Ranges::less and Ranges::lessEq order integer sets as the lexicographic order of their sorted element sequences; the order is total and consistent with equality.",
 "all pairs/triples of finite normal-form sets","needs all pairs of sets of any length",
 ["include/minizinc/iter.hh: less, less_eq, compare"])
p("C10","Domain tightening keeps exactly the allowed values",
 "Limiting a variable domain by x < v, x <= v, x > v, x >= v or x != v, or intersecting it with an interval or another domain, keeps exactly the values of the old domain that satisfy the condition.",
 "all domains, all comparison operators, all bounds","unbounded domains and bounds falling anywhere within or between ranges",
 ["include/minizinc/flatten_internal.hh: LinearTraits<IntLit>::limitDomain, intersectDomain","include/minizinc/iter.hh: Bounded"])
p("C11","Simplifying a linear expression preserves its value",
 "After simplify_lin the sum of coefficient*variable plus constant is the same as before under every assignment of the variables, no coefficient is zero, no term is a literal, and every variable occurs at most once.",
 "all coefficient/term lists of any length, all assignments, all orders std::sort may return","requires all lists and all assignments; sort order of equal keys is unspecified",
 ["include/minizinc/flatten_internal.hh: simplify_lin, CmpExpIdx"])
p("C12","Collecting a linear expression preserves its value",
 "collect_linexps turns any nested +,-,*constant expression into coefficients, terms and constant whose weighted sum equals coefficient times the value of the expression under every assignment.",
 "all expression trees, all assignments","unbounded tree depth; explicit stack replaces recursion",
 ["lib/flatten/flatten_binop.cpp: collect_linexps, mklinexp"])
p("C13","Linear comparisons are translated equivalently",
 "A comparison between two linear expressions holds under an assignment iff the generated linear builtin (or the constant / bound decision taken instead) holds under it, for each of <, <=, >, >=, =, != .",
 "all linear expressions, comparison operators, assignments within the variables' bounds","all coefficients, signs and assignments",
 ["lib/flatten/flatten_binop.cpp: flatten_linexp_binop","include/minizinc/flatten_internal.hh: LinearTraits<IntLit>::constructLinBuiltin"])
p("C14","Constraint simplification is sound",
 "When the optimiser classifies a FlatZinc constraint as entailed it is true under every assignment within the variable domains, when it classifies it as failed it is false under every such assignment, and when it rewrites it the new constraint is equivalent.",
 "all constraint instances handled by OptimizeRegistry, all domains, all assignments","quantifies over assignments and over unbounded arrays",
 ["lib/optimize_constraints.cpp: o_linear, o_lin_exp, o_element, o_clause, o_forall, o_exists, o_not, o_div, o_times, o_set_in, o_int_ne, o_int_le"])
p("C15","Rounded division of bounds is exact floor/ceiling",
 "floorDiv/ceilDiv of two integers return the mathematical floor/ceiling of the quotient.",
 "all pairs of 64-bit integers with non-zero divisor","the computation goes through IEEE doubles; rounding errors occur only for specific huge operands",
 ["include/minizinc/flatten_internal.hh: LinearTraits<IntLit>::floorDiv, ceilDiv","lib/optimize_constraints.cpp: o_linear"])
p("C16","Computed integer bounds contain every possible value",
 "If compute_int_bounds reports valid bounds [l,u] for an expression then under every assignment of the variables within their domains for which the expression is defined its value lies in [l,u].",
 "all integer expressions, all domains, all assignments","assignments and expressions are unbounded; errors hide inside the box, not at the corners",
 ["lib/eval_par.cpp: ComputeIntBounds, compute_int_bounds"])
p("C17","Computed set bounds contain every possible element",
 "If compute_intset_bounds returns a set S for a set expression then every value the expression can take is a subset of S.",
 "all set expressions over union, intersection, difference, symmetric difference, literals, ranges; all assignments","all assignments of set variables",
 ["lib/eval_par.cpp: ComputeIntSetBounds, compute_intset_bounds"])
p("C18","Implication chain compression preserves the solution set",
 "Replacing two clauses a->b, b->c by a->c when b occurs nowhere else leaves the set of solutions on the remaining variables unchanged, and the compression terminates.",
 "all clause sets, all assignments","solution-set equality over all assignments",
 ["lib/chain_compressor.cpp: ImpCompressor"])
p("C19","Solution stream parsing is independent of chunking",
 "Feeding the solver output to Solns2Out in any division into chunks produces the same sequence of solutions, status messages, comments and raw text as feeding it in one piece.",
 "all text streams (no NUL characters), all ways of cutting them into chunks, all states of the processor","exponentially many chunkings; line endings may be split between chunks",
 ["lib/solns2out.cpp: Solns2Out::feedRawDataChunk"])
p("C20","Each recognised status line sets exactly its status",
 "A line equal to one of the standard solution-separator/search-complete/unsat/unbounded/unknown/error messages is reported as that status and never as solution text, and all other lines become part of the next solution unmodified (apart from one trailing carriage return).",
 "all sequences of lines, in all chunkings, all options","unbounded line sequences",
 ["lib/solns2out.cpp: Solns2Out::feedRawDataChunk, createOutputMap, evalStatus"])
p("C21","Unique-solution output never repeats a solution",
 "With unique output enabled (and canonicalisation off) no solution text is printed twice and every distinct solution is printed, in order of first occurrence; with it disabled every solution is printed. With canonicalisation each status prints the distinct solutions so far in sorted order.",
 "all sequences of solutions","histories of unbounded length",
 ["lib/solns2out.cpp: Solns2Out::evalOutput"])
p("C22","Garbage collection keeps everything reachable and reclaims the rest",
 "After a collection every node reachable from a root (live model, KeepAlive, trail, markers) is still allocated with unchanged contents and every other node has been returned to a free list; allocated and free memory accounting stays exact.",
 "all heaps and root sets","heap graphs of unbounded size with sharing and cycles",
 ["lib/gc.cpp: GC::Heap::mark, sweep, alloc"])
p("C23","The trail restores the previous state",
 "GC::untrail undoes exactly the trailed writes made since the matching GC::mark, in any nesting.",
 "all sequences of mark, trailed writes and untrail","unbounded nesting and repeated writes to one location",
 ["lib/gc.cpp: GC::trail, GC::mark, GC::untrail","include/minizinc/gc.hh: GC"])
p("C24","Root registration is exact",
 "After any sequence of creating, copying, assigning, moving and destroying KeepAlive handles the collector's root list contains exactly the live handles.",
 "all sequences of handle operations","histories of unbounded length over a doubly linked list",
 ["lib/gc.cpp: KeepAlive, GC::addKeepAlive, GC::removeKeepAlive"])
p("C25","Weak references return their target while it is alive and null afterwards",
 "Dereferencing a WeakRef yields the referenced node as long as the node has not been collected and null afterwards, never a dangling pointer.",
 "all sequences of creation, destruction and collections","histories of operations interleaved with collections",
 ["include/minizinc/gc.hh: WeakRef","lib/gc.cpp: GC::Heap::mark weak ref processing"])
p("C26","Integer literals are stored faithfully",
 "IntLit::v(IntLit::a(i)) == i for every integer, whether it is stored as a tagged immediate or boxed; tagged immediates are never confused with node pointers, floats or each other.",
 "all 64-bit integers and infinities","2^64 values; bit-level packing boundary at 2^61",
 ["include/minizinc/ast.hpp: IntLit::a, IntLit::v","include/minizinc/ast.hh: Expression::isUnboxedInt, intToUnboxedInt, unboxedIntToIntVal"])
p("C27","Float literals are stored faithfully",
 "FloatLit::v(FloatLit::a(f)) is bit-identical to f for every finite double, whether packed into a pointer or boxed.",
 "all 64-bit double bit patterns","2^64 bit patterns; exponent re-biasing boundaries",
 ["include/minizinc/ast.hh: Expression::doubleToUnboxedFloatVal, unboxedFloatToFloatVal","include/minizinc/ast.hpp: FloatLit::a"])
p("C28","Source locations survive packing",
 "A Location built from file, first/last line and column returns the same file, lines and columns, whether or not they fit the packed representation.",
 "all line/column quadruples","combinations over the packing boundary of each field",
 ["lib/ast.cpp: Location::LocVec","include/minizinc/ast.hh: Location"])
p("C29","Array literals return the elements they were built from",
 "Element i of an ArrayLit built from a vector is the i-th vector element and the size is the vector's size, although repeated leading elements are stored once.",
 "all element vectors and indices","unbounded vectors; compression threshold and off-by-one at the repetition end",
 ["lib/ast.cpp: ArrayLit::compress, ArrayLit::getSlice, ArrayLit::size"])
p("C30","Array slices view the right elements",
 "Indexing a slice returns the element of the underlying array at the corresponding multi-dimensional index.",
 "all dimensions, slice bounds and indices","arbitrary dimension counts and bounds",
 ["lib/ast.cpp: ArrayLit::origIdx, ArrayLit::getSlice, ArrayLit::make1d"])
p("C31","Array access is row-major and bounds checked",
 "eval_arrayaccess succeeds iff every index lies in its index range, then returns the element at the row-major position; distinct in-range index tuples address distinct positions and every position is addressed.",
 "all dimension vectors and index tuples","any number of dimensions, any bounds",
 ["include/minizinc/eval_par.hh: eval_arrayaccess"])
p("C32","Indexed comprehensions place every element at its index",
 "An indexed array comprehension yields an array whose index sets are the ranges spanned by the generated indices and whose element at each index tuple is the generated value; it raises an error iff some index tuple in the box is missing or generated twice.",
 "all generated sequences of index tuples and values","any permutation, duplication or omission of indices of any dimension",
 ["include/minizinc/eval_par.hh: eval_comp"])
p("C33","Comprehensions enumerate generators in nested-loop order",
 "Evaluating a comprehension produces the values of its body for all generator combinations satisfying the where-clauses, in lexicographic generator order, and leaves all generator variables as they were.",
 "all generator lists, where-clauses and bodies","unbounded nesting and set sizes",
 ["include/minizinc/eval_par.hh: eval_comp, eval_comp_set, eval_comp_array"])
p("C34","Types are encoded injectively and ordered consistently",
 "Type::toInt distinguishes any two types that differ in a compared component, Type::fromInt inverts it, and Type::cmp is a total order compatible with ==.",
 "all field combinations of a Type","2^30 combinations of bit fields, pairs and triples of them",
 ["include/minizinc/type.hh: Type::toInt, Type::fromInt, Type::cmp, operator=="])
p("C35","Subtyping is a partial order",
 "isSubtypeOf is reflexive and transitive on the types of the language so that coercion chains are consistent.",
 "all triples of types","triples of bit-field combinations",
 ["include/minizinc/type.hh, lib/type.cpp: Type::isSubtypeOf, Type::btSubtype"])
p("C36","Printed expressions parse back to the same expression",
 "Printing an operator expression and parsing the text with the MiniZinc grammar yields the same tree.",
 "all expression trees over the binary and unary operators","all nestings of 25 operators with 13 precedence levels",
 ["lib/prettyprinter.cpp: precedence, assoc, need_parentheses, PlainPrinter::p","lib/parser.yxx: %left/%right/%nonassoc declarations, expr","lib/lexer.lxx"])
p("C37","String literals survive printing and lexing",
 "Lexing the printed form of a string literal yields the original string.",
 "all byte strings","all strings; escapes interact with neighbouring characters",
 ["include/minizinc/prettyprinter.hh: Printer::escapeStringLit","lib/lexer.lxx: string states"])
p("C38","Identifiers survive quoting and lexing",
 "Lexing the printed form of an identifier yields the same identifier token.",
 "all identifier strings the language admits","all strings against the keyword list and character classes",
 ["include/minizinc/prettyprinter.hh: Printer::quoteId","lib/lexer.lxx"])
p("C39","Integer literals survive printing and parsing",
 "Printing any 64-bit integer literal and lexing/parsing it yields the same integer; digit strings that do not fit are rejected.",
 "all 64-bit integers, all digit strings","2^64 integers and unboundedly long digit strings",
 ["lib/lexer.lxx: fast_strtointval","lib/parser.yxx: MZN_MINUS expr","lib/values.cpp: operator<<"])
p("C40","Base64 encoding round-trips",
 "decode_base64(encode_base64(s)) == s for every byte string, independently of how the stream is cut into buffers.",
 "all byte strings, all buffer sizes","all lengths modulo 3 and all buffer boundaries",
 ["lib/thirdparty/cencode.c","lib/thirdparty/cdecode.c","lib/file_utils.cpp: encode_base64, decode_base64"])
p("C41","Command lines survive combining and splitting",
 "parse_cmd_line(combine_cmd_line(v)) == v for every non-empty argument vector.",
 "all vectors of strings","all strings with quotes, blanks and backslashes in any position",
 ["lib/file_utils.cpp: parse_cmd_line, combine_cmd_line"])
p("C42","JSON integers are read exactly",
 "An integer in JSON data that fits the language's integers is read as that integer.",
 "all integer texts","2^64 values",
 ["lib/json_parser.cpp: JSONParser::readToken"])
p("C43","JSON strings decode to the intended text",
 "Reading a JSON string returns the characters it denotes; strings written by the system's own escaping read back unchanged, and \\u escapes produce the UTF-8 encoding of the code point.",
 "all strings and code points","all strings; 1.1 million code points and surrogate pairs",
 ["lib/json_parser.cpp: JSONParser::readToken"])
p("C44","Spelling suggestions use the true edit distance",
 "ASTString::levenshteinDistance returns the minimum number of single-character insertions, deletions and substitutions between two strings.",
 "all pairs of strings","minimum over exponentially many edit scripts",
 ["lib/aststring.cpp: ASTString::levenshteinDistance"])
p("C45","Aggregating nested and/or/not preserves truth",
 "The forall/exists/clause call built from a nested conjunction or disjunction has the same truth value as the original expression under every assignment, and aggregation terminates.",
 "all Boolean expression trees, all assignments","unbounded trees; list rewritten in place while iterating",
 ["lib/flatten/flatten_binop.cpp: aggregate_and_or_ops"])
p("C46","Reification contexts compose correctly",
 "Positive and negative context operators implement sign composition, and recording several uses of a variable yields the weakest context that covers all uses independent of their order.",
 "all sequences of context annotations","histories of annotation updates of any length",
 ["lib/flatten.cpp: operator+(BCtx), operator-(BCtx), EnvI::addCtxAnn"])
p("C47","Structural comparison is a total preorder consistent with equality",
 "Expression::compare is a total preorder on expressions and returns 0 for expressions that Expression::equal identifies; equal expressions have equal hashes.",
 "all triples of expressions","unbounded expression trees",
 ["lib/ast.cpp: Expression::compare, Expression::equalInternal, rehash"])
p("C48","Dense identifier maps behave as maps",
 "After any sequence of insertions, removals and clears DenseIdMap::find returns the value most recently inserted for the identifier (or the first one, for named identifiers) and iteration visits exactly the present entries.",
 "all operation sequences","histories of unbounded length with table growth",
 ["include/minizinc/hash.hh: DenseIdMap"])
p("C49","Declarations are ordered before their uses",
 "After sorting, every top-level declaration appears after the declarations it depends on, each exactly once, and circular definitions are rejected.",
 "all dependency graphs","arbitrary graphs",
 ["lib/typecheck.cpp: TopoSorter::run, TopoSorter::checkId"])
p("C50","Interned strings are identical iff equal",
 "Two ASTStrings compare equal iff their contents are equal, since construction always returns the one stored node with that content as long as it is alive.",
 "all sequences of string constructions and collections","histories of operations",
 ["lib/aststring.cpp: ASTStringData::a","include/minizinc/aststring.hh"])
p("C51","Multiplication and division are exact or raise an error",
 "IntVal * and / never return a wrong value: the result is the exact product / truncated quotient, or ArithmeticError is raised (result outside the 64-bit range, division by zero).",
 "all pairs of signed 64-bit integers","2^128 operand pairs; overflow tests are themselves computed with 64-bit arithmetic",
 ["include/minizinc/values.hh: IntVal::safeMult, safeDiv, operator*, operator/"])
p("C52","sum and linear calls keep their value",
 "The expression that a call sum(a) or a linear call is flattened to has the value of the sum (weighted sum) of the arguments under every assignment, although arguments that are themselves defined by linear expressions are inlined and like terms merged.",
 "all argument arrays, all definitions of the arguments, all assignments","arrays of unbounded length with arbitrary nested definitions",
 ["lib/flatten/flatten_call.cpp: flatten_linexp_call"])
p("C53","Struct and array types are registered once and ids stand for them",
 "Registering a tuple, record or array type returns an id from which its field names and field types (element enums) can be looked up; registering it again returns the same id, different types get different ids, and no id ever changes its meaning.",
 "all sequences of registrations","histories of unbounded length; the lookup key of arrays and the name table of records are encodings that must be injective",
 ["lib/flatten.cpp: EnvI::registerTupleType, EnvI::registerRecordType, EnvI::registerArrayEnum","include/minizinc/flatten_internal.hh: TupleType, RecordType"])
p("C54","Struct arguments are coerced field by field",
 "The test that decides whether a struct value needs a coercion (StructType::matchesBT) answers yes only for structs whose fields have the same base types.",
 "all pairs of struct types","struct types of unbounded size and nesting",
 ["lib/flatten.cpp: TupleType::matchesBT, RecordType::matchesBT","lib/typecheck.cpp: add_coercion"])
p("C55","Common types are least upper bounds",
 "The type given to an array literal or a conditional (Type::commonType) is a supertype of the types of all its parts, the least one, and it is only rejected if there is none.",
 "all pairs of types and all registries","combinations of bit fields and registries of unbounded size",
 ["lib/type.cpp: Type::commonType, Type::arrType, Type::elemType"])
p("C56","Variable occurrence counts are exact",
 "After any sequence of recording, removing and unifying variables, VarOccurrences::occurrences(v) is the number of distinct items recorded for v or a variable unified with it and not removed since.",
 "all sequences of add, remove, removeAllOccurrences, unify and clear","histories of unbounded length; unification merges entries of a growing vector",
 ["lib/optimize.cpp: VarOccurrences","include/minizinc/optimize.hh: VarOccurrences"])
p("C57","Strings compare in dictionary order and the string helpers agree with the mathematical ones",
  "For identifier and message strings without NUL characters: a < b holds exactly when a is before b in dictionary order on bytes (a strict total order), equality with std::string and C strings is equality of characters, beginsWith/endsWith hold exactly for prefixes/suffixes, substr(p,n) is the string of at most n characters starting at p, find returns the first occurrence at or after the position.",
  "all pairs of strings of any length, all positions and counts",
  "Comparison bugs show on particular lengths, shared prefixes and bytes above 127; transitivity and totality quantify over triples of strings.",
  ["include/minizinc/aststring.hh: ASTString::operator<, operator==, operator!=, beginsWith, endsWith, substr, find, findLastOf"])
p("C58","Array types keep their element type and index types",
  "The type built for an array from a dimension/index description and an element type has exactly that element type, that number of dimensions and those index types, and building it changes the meaning of no existing type.",
  "all registries reached by any sequence of registrations, all index descriptions and element types",
  "The registry is history dependent: sharing or truncating ids gives wrong element types only after particular registrations.",
  ["lib/type.cpp: Type::elemType, Type::arrType","lib/flatten.cpp: EnvI::registerArrayEnum"])
p("C59","Weak maps drop exactly the entries with a collected node","A collection removes from a weak node map exactly the entries whose key or value does not survive, and from the common subexpression table exactly the entries whose results are not both surviving nodes; all other entries are kept unchanged.","all maps and all sets of surviving nodes","maps of unbounded size, entries removed while iterating",["lib/gc.cpp: GC::Heap::mark (weak maps), ASTNodeWeakMap","include/minizinc/flatten_internal.hh: CSEMap::fixWeakRefs"])
p("C60","The interactive filter shows, processes or drops every line, independently of timing",
 "With an interactive solver, lines outside begin/end marker blocks are shown as they are, lines inside blocks are processed as solution text and marker lines are dropped, however the output is cut into chunks.",
 "all streams of lines, all marker strings, all ways of cutting the stream into chunks","chunk boundaries depend on timing; text is echoed before its line is complete",
 ["lib/solns2out.cpp: Solns2OutInteractive::feedRawDataChunk, processCompleteLine"])
p("C61","Unsatisfiable cores are reported with the user's expressions",
 "When a solver reports an unsatisfiable core as a list of variable names and comparisons, one entry is reported for each of them, in order, in which a leading name that stands for an assumption is replaced by its expression and everything else is left as it is.",
 "all lists of entries, all assumption maps","unbounded lists and names",
 ["lib/solns2out.cpp: Solns2Out::resolveAssumptionCore, feedRawDataChunk"])
p("C62","Arithmetic operands get a sound context","When an integer subexpression of a comparison, linear expression, product, quotient or bool2int is replaced by a variable that only bounds it from one side, the enclosing Boolean result still stands correctly for the original in its context.","every operator, coefficient, context, bounds and value of the operands","Soundness is a relation between all values of the variable and the expression in all contexts; a test sees one solution of one model, and a wrong sign only shows when the solver picks a value the tests did not.",["lib/flatten/flatten_binop.cpp: BOT_MULT, BOT_IDIV, BOT_LE..BOT_NQ cases","lib/flatten/flatten_call.cpp: argctx.i, bool2int"])
p("C63","Boolean operators keep their meaning when flattened","What is flattened in place of a Boolean operator, negated or not, required to hold or not, is true under an assignment exactly when the (negated) operator applied to its operands is, and is used in the same context.","every operator, operands, context, negation and truth assignment","The cases multiply: operator, negation, context, known operands; a missing case changes the set of solutions of models that nest them.",["lib/flatten/flatten_binop.cpp: flatten_binop"])
p("C64","Nested JSON arrays become multi-dimensional arrays in row-major order","When a nested JSON array is read for a parameter that is an array of several dimensions, it is accepted exactly if every level has the same number of elements everywhere; the array then has these lengths and the elements in row-major order.","every nested array value and every number of dimensions","there are unboundedly many shapes and depths; raggedness can be anywhere",["lib/json_parser.cpp: JSONParser::coerceArray","lib/json_parser.cpp: JSONParser::parseArray"])
p("C65","A JSON data file assigns the values written in it","For any JSON data file and any declared parameters, reading the file yields one assignment per declared parameter in the file, in order, with the value that the JSON text of its field denotes for the declared type (numbers, strings, enum members, sets, arrays, records); undeclared fields are ignored; reading terminates on every input.","every JSON text, with any layout, nesting and number of fields, and every assignment of types to names","the language of JSON texts is infinite; only an induction over the grammar covers all nestings",["lib/json_parser.cpp: JSONParser::parseFromString","lib/json_parser.cpp: JSONParser::parseModel","lib/json_parser.cpp: JSONParser::parseExp","lib/json_parser.cpp: JSONParser::parseObject","lib/json_parser.cpp: JSONParser::parseSet"])
p("C66","JSON floats are read as written","Every JSON number with a fraction or an exponent is read as a float token with exactly its text, and the text after it is left for the next token.","every number text and every context","the number texts are infinite; where a token ends depends on all following characters",["lib/json_parser.cpp: JSONParser::readToken"])
p("C67","The lexer reads every text to its end","For every sequence of bytes, the lexer stops, having consumed all of it: every byte is part of some token, comment or error token, no byte is echoed to the standard output, and the stack of lexer states never underflows. At each point the token is the longest match, and the first rule among those.","all byte strings, all lexer states reachable on them","start conditions, 193 rules and all texts; a rule that matches nothing, or a missing rule in one state, shows only on particular texts",["lib/lexer.lxx: rules, start conditions","lib/lexer.lxx: YY_INPUT"])
p("C68","Compressing chains of inequalities keeps the solutions","When the optimiser replaces y by x because of a constraint x <= y and removes that constraint and y, every solution of the old flat model is one of the new model, every solution of the new model becomes one of the old model by choosing values for the removed variables only, no removed variable is output or still mentioned, and the optimisation ends without failing on a satisfiable model.","every flat model with integer linear inequalities, every order of declarations, every assignment","solution-set equality over all assignments and all orders in which inequalities are visited",["lib/chain_compressor.cpp: LECompressor::trackItem, LECompressor::compress, LECompressor::leReplaceVar, LECompressor::eqBounds","lib/optimize.cpp: optimize"])
p("C69","Evaluating a par expression gives its mathematical value","Evaluation of a fixed expression over integers, Booleans and sets of integers gives the value it has by the language definition: operators mean what mathematics says, let and function calls bind their variables locally also under recursion, every domain of a parameter, local declaration or result is enforced, undefinedness (division by zero, a violated domain or constraint) makes the closest enclosing Boolean expression false and is otherwise reported as an undefined result. The value does not depend on what was evaluated before, and evaluation, also when it ends with an error, leaves all local variables as they were.","every well-typed program and expression of these types, every state of the declarations, every sequence of evaluations","quantifies over all programs, recursion depths and earlier evaluations",["lib/eval_par.cpp: eval_int_internal, eval_bool, eval_intset, eval_par, eval_id, eval_call, check_par_domain","lib/ast.cpp: Let::pushbindings, Let::popbindings"])
p("C70","Overload resolution picks the most specific declaration","A call resolves to a declaration that takes its arguments, and to none only if no declaration does. No other declaration that takes the arguments is strictly more specific. If two remain that cannot be told apart, and only then, the call is rejected as ambiguous. The result does not depend on the order of the declarations, and resolving the call again gives the same declaration.","every set of overloaded declarations with any parameter types, names and defaults, in any order, and every list of argument types","The outcome depends on the sort order of all overloads and on pairs of subtype relations; a wrong choice shows only for particular combinations of overloads, registration orders and type numbers.",["lib/model.cpp: Model::FnEntry::compare, Model::matchFn, at_least_as_specific, same_parameter_names, Model::sortFn","lib/typecheck.cpp: check_parameter_defaults"])
p("C71","Named arguments bind to the parameter of that name","In a call with named arguments every positional argument goes to the parameter at its position, every named argument to the parameter of that name, and every other parameter gets its default. The call resolves to a most specific declaration that takes the arguments. Declarations are rejected exactly if a call by names could not tell them apart.","every set of overloaded declarations and every list of positional and named arguments","The parameters may be in another order in each overload and defaults may fill any of them; tests cover a few signatures.",["lib/model.cpp: Model::matchFnNamed, ambiguous_named_call, nameable_params","lib/typecheck.cpp: vCall"])
p("C72","Optimising the Boolean part of a flat model keeps its outputs","The optimised flat model can print exactly the outputs the flat model can print: unifying variables, propagating fixed Booleans, simplifying and removing conjunctions, disjunctions, clauses and equalities, and deleting variables neither loses nor invents an output. A model is reported as inconsistent only if it has no solution.","every flat model with Boolean variables and constraints, every order of its items and of the work queues, every choice of the variables to delete","The optimiser interleaves unification, propagation and deletion through queues and a table of occurrences; a missed update shows only for particular combinations of constraints and orders.",["lib/optimize.cpp: optimize, unify, simplify_constraint, substitute_fixed_vars, simplify_bool_constraint, remove_deleted_items, can_remove_fzn_vardecl","lib/optimize_constraints.cpp: o_clause, o_forall, o_exists"])
p("C73", "Unions and intersections of arrays of sets", "array_union of an array of integer sets is the set of the integers that are in some set of the array; array_intersect of a non-empty array terminates and is the set of the integers that are in all sets of the array.", "every array of integer sets, of any length, with any number of ranges, finite or infinite", "the loop over the ranges of all sets depends on how the gaps of the sets interleave; a test sees a few arrays", ["lib/builtins.cpp: b_array_union, b_array_intersect"])
p("C74", "Domains of quotients, remainders and powers", "The domain that the compiler computes for the variable that stands for x div y, x mod y or pow(x,y) holds the result for all values of x and y within their bounds for which it is defined, so that no solution is lost; for div and pow the domain is no wider than the results are.", "all bounds of the two arguments, finite or infinite, valid or not, of any sign, and all values within them", "the extreme results are at different corners of the box of arguments depending on signs and parities; tests sample boxes", ["lib/builtins.cpp: b_compute_div_bounds, b_compute_mod_bounds, b_compute_pow_bounds", "share/minizinc/std/stdlib/stdlib_internal.mzn: div_t, mod_t, pow_t"])
p("C75","Reshaping keeps the elements","array1d(S,x) to array6d(S1,...,S6,x) return an array with exactly the given index sets and the elements of x in the same row-major order, for every x (also a slice, a compressed or a reshaped array); if the number of elements does not match, or an index set is not a range, the result is an error. One index set may be l..infinity, its end follows from the number of elements. array1d(x) numbers the elements from 1, arrayXd(x,y) gives y the index sets of x.","every array and every list of index sets","the numbers and sizes of dimensions are unbounded, arrays have many internal representations, and wrap-around of the product only shows for huge index sets",["lib/builtins.cpp:b_arrayXd","lib/builtins.cpp:b_array1d_list","include/minizinc/ast.hpp:ArrayLit::ArrayLit"])
p("C76","Joining and selecting along one dimension","concat_index_k(x,y) joins x and y along dimension k: the other index sets are unchanged (and must be equal, otherwise the result is an error), dimension k is numbered from 1 and holds the elements of x followed by those of y. select_from_index_k(x,S) keeps the elements whose k-th index is in S: a range keeps its indices, a set with holes is renumbered from 1 in increasing order, and a set that is not a subset of the index set is an error.","every pair of arrays of any number of dimensions, every dimension, every selection set","the copying loops work on blocks of a flattened array: the block sizes depend on all dimensions, and bugs show only for particular combinations",["lib/builtins.cpp:b_concat_index","lib/builtins.cpp:b_select_from_index","lib/builtins.cpp:array_dim_product"])
p("C77","Reductions of arrays","min and max of an array of integers give its least and greatest element, arg_min and arg_max the first index of such an element; all four are undefined for an empty array and otherwise report the error of the first element that fails. sum and product are exact or an error. forall, exists, clause, xorall and iffall are the truth values of the connectives they are named after; if elements fail, forall (exists) has the outcome of the last element that is not true (false).","all arrays of any shape and size built by the compiler, all (also infinite) integer values, all evaluations of elements including failing ones","sizes, values, overflow positions and failing elements are unbounded",["lib/builtins.cpp:b_int_min","lib/builtins.cpp:b_arg_min_int","lib/builtins.cpp:b_sum_int","lib/builtins.cpp:b_product_int","lib/builtins.cpp:b_forall_par","lib/builtins.cpp:b_clause_par","lib/builtins.cpp:b_xorall_par"])
p("C78","Index sets of arrays","index_set_kofn gives the k-th index set of an array, also for an identifier whose declared index set is int, a type variable or unbounded; asking for a dimension the array does not have is an error; index_sets_agree holds exactly if the two arrays have equally many dimensions and the same index set, as a set, in each.","all arrays of any shape built by the compiler, all dimensions, all declarations","shapes and numbers of dimensions are unbounded",["lib/builtins.cpp:b_index_set","lib/builtins.cpp:b_index_sets_agree"])
p("C79","Sorting and inverting arrays","sort_by(a, keys) returns the elements of a in the order of their keys, keeping the order of elements with equal keys; sort(a) returns the elements of a in non-decreasing order; both results are numbered from 1.  inverse(a), for an array that takes every value of m..m+n-1 exactly once, is the array over m..m+n-1 that maps each value to its index; it is undefined for any other array of integers.","every array, however built or sliced, with every index set, elements and keys; every implementation of std::sort that meets the C++ standard","arrays of any length, any ties among the keys and any permutation chosen by std::sort",["lib/builtins.cpp: b_sort_by_int, b_sort, b_inverse"])
p("C80","Sets as arrays and steps in enumerated types","set2array lists the elements of a set in increasing order; set_to_sparse_inverse maps the k-th element of a set to k over the index set min..max; set_to_ranges gives the ends of the maximal ranges of the set; to_enum accepts exactly the elements of the set; enum_next and enum_prev give the neighbouring element if there is one and are undefined otherwise.","every finite set of integers in normal form and every integer","all sets with any number of ranges, and values next to every boundary",["lib/builtins.cpp: b_set2array, b_set_sparse_inverse, b_set_to_ranges_int, b_to_enum, b_enum_next, b_enum_prev"])
p("C81","Lengths, splitting and joining of strings","string_length of a text in UTF-8 is its number of Unicode code points; string_split with an empty separator gives its code points and loses nothing for any bytes; string_split(s, sep) cuts s from left to right at every occurrence of sep, so that joining the pieces with sep gives s back; join and concat put the strings of an array together in order.","every string of bytes, every text of code points, every separator and every array of strings","strings of any length with overlapping occurrences of the separator and characters of one to four bytes",["lib/builtins.cpp: b_string_length, b_string_split, b_join, b_concat"])
p("C82","Justified output","show_int, show_float, format and format_justify_string fill the text with blanks on the left up to the given width (on the right if the width is negative), never cut text because of the width, cut it at the given maximal length, and refuse a negative maximal length or precision.","every text, width, maximal length and precision","all combinations of widths, signs and lengths, including the ends of the ranges of the machine types",["lib/builtins.cpp: b_show_int, b_show_float, b_format, b_format_justify_string"])
p("C83","Sets of intervals for MIP domains","Removing an open interval, intersecting, cutting gaps around the ends of other intervals, bounding and splitting a set of intervals leave exactly the points they should, as non-empty intervals in increasing order that do not touch.","all sets of separate intervals with finite or infinite ends, all intervals cut out","The code keeps iterators into an ordered container while it inserts and erases; tests try a few sets, the cases depend on how the ends of the cut and of all intervals are ordered.",["lib/MIPdomains.cpp: SetOfIntervals::cutOut, intersect, cutDeltas, split2Bits, getBounds, checkFiniteBounds, checkDisjunctStrict"])
p("C84","Decomposing domains for MIP solvers keeps the solutions","When a model is prepared for a MIP solver, the domains and the (reified) comparisons and set memberships of linearly related integer variables are replaced by 0/1 flags and linear constraints: the values of the original variables that satisfy the constraints are the same before and after, and no solutions are reported only if there are none.","all groups of linearly related variables, all domains and constraints on them, all values of the variables, all options for splitting domains","The equivalence is over all assignments of unbounded variables; a wrong flag or a wrong rounding shows only for a particular value.",["lib/MIPdomains.cpp: DomainDecomp::doProcess, projectVariableConstr, convertIntSet, makeRangeDomains, considerDenseEncoding, createDomainFlags, implementPOSTs, relateReifFlag, setVarDomain, addLinConstr"])
p("C85","The solver that is chosen meets all requests","Choosing a solver by a text such as \"cp,int@1.1\" gives a solver that carries all the tags (its tags, id, last part of the id, name, or \"default\") in the versions asked for, preferring the default solvers of the tags and then the order in which the configurations were found; letter case in the text does not count. The choice is refused only if no solver meets the requests. The version of the first tag is a preference only: if no solver with this tag has it, any version is taken. Every solver can be asked for by each of its tags, with its version, and the default solver by the empty text.","every list of solver configurations, every table of default solvers and every text","unit tests use the few solvers installed on one machine; the claim is about every set of configuration files",["lib/solver_config.cpp:SolverConfigs::addConfig","lib/solver_config.cpp:SolverConfigs::config","lib/solver_config.cpp:get_tag"])
p("C86","Default options of a solver: the last value given wins","The default options of a solver taken from all configuration files contain each option once, in the order in which the options are first given, with the value given last; empty texts are left out. Options given for other solvers do not count.","every sequence of default options over all configuration files and every solver","the claim is about every sequence of entries over several files",["lib/solver_config.cpp:SolverConfigs::SolverConfigs","lib/solver_config.cpp:SolverConfigs::defaultOptions"])
p("C87","A parameter file gives the arguments its entries stand for","Each entry of a parameter configuration file gives its arguments in the order of the file: a true Boolean the flag, a false one the negated flag if there is one, a string or number the flag and the text, an array the arguments of its elements, a nested object its flag and one text that splits into the arguments of its entries. Forbidden flags are refused.","every parameter file: any entries, nesting and texts","tests cover a few files; the claim is about every value, nesting and text",["lib/param_config.cpp:ParamConfig::load","lib/param_config.cpp:ParamConfig::addValue","lib/param_config.cpp:ParamConfig::modelToString"])
p("C88","References to parameter files are replaced in place","Each reference to a parameter file in the command line or in a parameter file is replaced, in place, by the arguments of the file, which are read in the directory of that file. The replacement ends for every command line and all files, also if files refer to each other. It is refused as cyclic only if a file refers to itself, directly or through others.","every command line and every finite set of parameter files","the claim is about every graph of references between files, including cycles",["lib/solver.cpp:MznSolver::processOptions"])
p("C89","An if-then-else means its first true branch","Compiling a constraint if c1 then b1 elseif c2 then b2 ... else bn endif gives a flat model satisfied by exactly the assignments (within the declared domains) for which the first branch whose condition holds (else the last) is true; compiling a conditional expression gives a variable that has exactly the value of that branch, and a definedness that is exactly the definedness of that branch, so an undefined branch that is not taken does no harm. This holds whichever conditions are fixed at compile time, however the branches share equations on the same variables, and for tuples and records field by field.","all lists of conditions (fixed or decided by variables), all branches (conjunctions of equations and other constraints, total or partial), all assignments, all tuple types","the branches are torn apart into one conditional for each variable that is equated in all or all but one of them, and the conditions are combined with fixed ones, dummy values and bounds; the number of shapes is unbounded",["lib/flatten/flatten_ite.cpp: flatten_ite, classify_conjunct, get_conjuncts, ite_struct_split","share/minizinc/std/fzn_if_then_else_int.mzn","share/minizinc/std/fzn_if_then_else_partiality.mzn"])
p("C90","A flattened array access has the value of the access","When an array access is compiled, fixed indices are filled in and accesses through fixed arrays are merged. For every array and every mix of fixed, variable and nested indices, and for all values of the variables, the resulting access (or fixed element) has the value that the access in the model has, and is undefined exactly where that is undefined; an absent index makes the access absent. The compiler finishes on every access.","all arrays of any number of dimensions and any index sets, all indices (fixed, absent, variable, accesses to fixed arrays nested to any depth), all assignments","the number of dimensions, the index sets and the positions of the fixed indices are unbounded, and the loop that collects the slice is driven by an explicit stack",["lib/flatten/flatten_arrayaccess.cpp: flatten_arrayaccess","include/minizinc/eval_par.hh: eval_arrayaccess"])
p("C91","Comprehensions with where clauses and variable sets mean what they say","For every comprehension, with any number of generators, assignment generators, where clauses and variable generator sets, the result after type checking and flattening is that of the comprehension as written: the same elements in the same order, and under forall, exists and sum the conjunction, disjunction and sum over exactly the elements whose generator values are in the sets and satisfy the where clauses.","every list of generators obeying the scoping rules, every where clause, every value of the variable sets below their upper bounds, every body","the where clauses are cut into parts that move to other generators and variable parts move into the body, for arbitrarily many generators and nested conjunctions",["lib/typecheck.cpp: Typer::vComprehension, FindLatestGen","lib/flatten/flatten_comp.cpp: flatten_comp","include/minizinc/eval_par.hh: eval_comp_set, eval_comp_array"])
p("C92","Local variables mean what they say","For every constraint built from Boolean operators and let expressions, with local variables with and without values, domains and constraints, nested to any depth, and every assignment of the other variables, the constraint holds if and only if the flat model has a solution with that assignment; local variables without a value are rejected exactly where they stand under an odd number of negations or below an equivalence.","every nesting of Boolean operators and lets, every domain, every assignment of the other variables","local variables are hoisted out of the operators around them, which is right or wrong depending on the context of every enclosing operator, at any depth",["lib/flatten/flatten_let.cpp: flatten_let","lib/flatten.cpp: operator+, operator-","lib/flatten/flatten_binop.cpp: flatten_binop","lib/flatten/flatten_unop.cpp: flatten_unop"])
p("C93","Sets of floats","Set literals, comprehensions and ranges of floats evaluate to sets with exactly the doubles they list or span. union, intersect and diff of two sets of float give exactly the doubles they should, `in` answers exactly membership, the subset test used for checking declared domains is exact, and card counts the elements of a set given by its values.","every list of doubles, every pair of float sets built from literals, ranges and these operations, every double","There are 2^64 doubles, the sets are unbounded, and the interesting inputs (neighbouring doubles, extreme doubles) are never hit by a sampled test.",["include/minizinc/iter.hh Union, Inter, Diff, overlaps, next_higher, next_lower, subset","include/minizinc/values.hh FloatSetVal","lib/eval_par.cpp eval_floatset","lib/builtins.cpp b_card"])
p("C94","Copying a program yields an equal, separate program","Copying an expression, an item or a whole model leaves the original unchanged and returns a program made of new nodes (except null pointers and the shared constants), in which every node has the same plain data as its original and refers to the copies of what the original refers to: shared subexpressions stay shared, identifiers refer to the copied declarations, cycles through definitions, annotations and recursive functions are reproduced, and annotations are those of the original. Copying ends for every program whose cycles all pass through a node that is registered before it is explored.","all program graphs (shared and cyclic), all lists of roots","the graph can have any shape; a wrong order of registration shows only for particular cycles and sharing patterns",["lib/copy.cpp: copy(EnvI&, CopyMap&, Expression*, ...)","lib/copy.cpp: copy_ann","lib/copy.cpp: copy(EnvI&, CopyMap&, Item*, ...)","lib/copy.cpp: copy(EnvI&, CopyMap&, Model*)","include/minizinc/copy.hh: CopyMap"])
p("C95","Polymorphic functions are instantiated with one common type per type variable","When a polymorphic function is specialised for a call, all places governed by the same type-inst variable (elements and index sets of parameters) get the same type: the least one above the types of the arguments, with an enumerated type only if all of them have it; nothing else in the argument types changes. Two calls share an instance exactly if they have the same name, parameter names and types up to var and opt, and an instance is created only for the first such call.","all parameter lists, all well-typed argument types, all sequences of calls","arguments can mix types in any order and arrays share variables between index sets and elements; the result depends on the order",["lib/type_specialise.cpp: type_meet, base_type, adapt_to_base_type, least_common_supertype, instantiated_types","lib/type_specialise.cpp: InstanceMap::getOrInsert","include/minizinc/type.hh: Type::operator=="])
p("C96","Specialised functions have unambiguous names","The name of an instance determines the instance number and the function it was made from, and error messages and output can recover the user's name from it; the printable names that replace instance names are different from each other and from every other function name, and all other names are kept.","all function names, all instance numbers, all lists of functions","clashes need particular user-chosen names",["lib/type_specialise.cpp: Instantiator::operator()","lib/type_specialise.cpp: demonomorphise_identifier","lib/type_specialise.cpp: type_demonomorphise_library"])
p("C97","The result of an NL solver is reported faithfully","A complete solution file of an NL solver is read as written: the message, the status that its result code stands for and the values of all variables in order; a solution, unsatisfiability or unboundedness is reported only for the codes that say so and every code leads to a report; a file that breaks off (because the solver was killed) is reported as an error; integer variables get the integer the solver means.","all solution files, all result codes, all points at which the file can break off","the file can break off anywhere and contain any number of options, duals and values",["solvers/nl/nl_solreader.cpp: NLSol::parseSolution","solvers/nl/nl_solreader.cpp: NLSolns2Out::parseSolution","include/minizinc/solvers/nl/nl_solreader.hh: NL_Solver_Status"])
p("C98","The log of an NL solver is printed as comments","Whatever an NL solver prints appears in the log with every line marked as a comment, independently of how the text is cut into chunks when it is read from the process.","all texts, all ways to cut them into chunks","chunk boundaries depend on timing",["solvers/nl/nl_solreader.cpp: NLSolns2Out::feedRawDataChunk","include/minizinc/process.hh: Process::run"])
p("C99","NL files have the solutions of the model","The NL file written for an NL solver has exactly the solutions of the FlatZinc model: bounds of variables, linear and nonlinear constraints and comparisons say the same, every variable has one column, integer variables are marked as integer in the header, and values returned by the solver in the order of the columns belong to the variables of the model.","all FlatZinc models of the supported constraints, all assignments, all interpretations of the transcendental functions","models can have any number of variables and constraints, and the order of the columns depends on all of them",["solvers/nl/nl_file.cpp: NLFile::analyseConstraint, NLFile::phase2, NLFile::printToStream","solvers/nl/nl_components.cpp: NLBound, NLToken, NLAlgCons, NLHeader","solvers/nl/nl_solverinstance.cpp: NLSolverInstance::solve"])
p("C100","Messages of a JSON stream are valid JSON","With --json-stream every message about statistics, solver comments and unsatisfiable cores is one line that holds one JSON object, with the names, values and texts that the solver or the compiler reported, in their order; without it every statistic is one line of its own.","all lists of statistics (numbers, strings, solver expressions with nested arrays), all comment lines, all cores","names, values and texts come from arbitrary solvers; tests see a few of them and none with quotes, nested arrays or control characters",["lib/statistics.cpp: StatisticsStream::add, ~StatisticsStream","include/minizinc/statistics.hh: StatisticsStream::addInternal","lib/solns2out.cpp: Solns2Out::parseStatistics, Solns2Out::feedRawDataChunk","include/minizinc/prettyprinter.hh: Printer::escapeStringLit"])
with open('/verif/properties.jsonl','w') as f:
    for x in P: f.write(json.dumps(x,ensure_ascii=False)+"\n")
print(len(P))

{"id": "C01", "title": "Lexer tiles its input", "statement": "For every source string, the tokens produced by lexer.lex have non-empty, strictly increasing, non-overlapping spans inside the string; the text between two consecutive spans (and before the first, and after the last when lexing finishes) consists only of whitespace and #-comments; each token's value is the one its span's text denotes. If lexing stops with DataShapeSyntaxError, the reported position is exactly the first non-blank character after the last token, and no token pattern matches there.", "quantifier": "every string of Unicode code points", "why_tests_cant": "Infinitely many strings; regex alternation order, greedy matching and comment handling interact.", "anchors": ["datashape/lexer.py:lex", "datashape/lexer.py:_tokens", "datashape/lexer.py:_whitespace"]}
{"id": "C02", "title": "Blanks and comments are insignificant", "statement": "Inserting or changing whitespace and comments between tokens never changes the sequence of (token id, value) pairs, nor the datashape the string parses to; and if the string is rejected, it is rejected with the same exception, for a syntax error with the same message at the corresponding place.", "quantifier": "every token sequence and every choice of blanks/comments between the tokens", "why_tests_cant": "Unbounded number of layouts of unbounded token sequences.", "anchors": ["datashape/lexer.py:lex", "datashape/parser.py:parse"]}
{"id": "C03", "title": "A name is lexed as one token", "statement": "An identifier [a-zA-Z_][a-zA-Z0-9_]* that stands alone is lexed as a single NAME_LOWER/NAME_UPPER/NAME_OTHER token carrying the whole identifier (claimed by docs/source/grammar.rst). Exact boundary: it holds for every identifier that does not start with 'True' or 'False', and fails for every one that does.", "quantifier": "every identifier", "why_tests_cant": "Infinitely many identifiers; the failing ones are those with one of two prefixes.", "anchors": ["datashape/lexer.py:_tokens"]}
{"id": "C04", "title": "Parsing terminates with a datashape or an exception", "statement": "For every input string, parsing terminates: the recursion depth is bounded by the number of tokens (and the nesting of string arguments that are themselves parsed as datashapes by the length of the string), and it either returns a DataShape or raises.", "quantifier": "every string", "why_tests_cant": "Termination over all inputs is not testable.", "anchors": ["datashape/parser.py:DataShapeParser", "datashape/coretypes.py:_launder"]}
{"id": "C05", "title": "The parser only accepts sentences of the grammar", "statement": "If dshape(s) returns, then the whole token sequence of s (no prefix, no trailing garbage) is derivable from the documented datashape grammar, and the result is the datashape that derivation denotes. (Violated by the code: '?' , 'var', '...' and 'A...' can be silently dropped in some positions; the exact extended grammar is given and proved sound.)", "quantifier": "every string", "why_tests_cant": "Every sentence/non-sentence of a recursive grammar.", "anchors": ["datashape/parser.py:DataShapeParser.parse_datashape", "datashape/parser.py:DataShapeParser.parse_datashape_nooption", "datashape/parser.py:DataShapeParser.parse_homogeneous_list", "docs/source/grammar.rst"]}
{"id": "C06", "title": "The parser accepts every sentence of the grammar", "statement": "Every token sequence derivable from the documented grammar (without dimension type constructors, and with keyword names that are not themselves type names) whose semantic actions succeed is accepted, and yields exactly the datashape denoted by the derivation; in particular the grammar is unambiguous on those sentences.", "quantifier": "every derivation of the grammar", "why_tests_cant": "Unboundedly many derivations; greedy lists, one-token lookahead and backtracking must never commit wrongly.", "anchors": ["datashape/parser.py:DataShapeParser", "docs/source/grammar.rst"]}
{"id": "C07", "title": "Everything the parser returns is well formed", "statement": "Every datashape returned by the parser satisfies the class invariants: at least one component, a measure (never a fixed/var dimension) in the last place, no bare measure as a dimension, non-negative fixed dimensions, canonical string encodings and time units, pairwise distinct record field names, tuple components that are DataShapes.", "quantifier": "every string that parses", "why_tests_cant": "Invariant over all parse results.", "anchors": ["datashape/parser.py:parse", "datashape/coretypes.py:DataShape.__init__", "datashape/coretypes.py:Record.__init__"]}
{"id": "C08", "title": "Syntax error positions lie inside the text", "statement": "Every DataShapeSyntaxError raised while lexing or parsing a string carries a position between 0 and the length of that string.", "quantifier": "every string that is rejected", "why_tests_cant": "Every failing input.", "anchors": ["datashape/parser.py:DataShapeParser.raise_error", "datashape/lexer.py:lex"]}
{"id": "C09", "title": "Syntax error line and column are right", "statement": "For every text and every error position in it, the error's line is the lineno-th line of the text, and col_offset is the offset of the error position in that line.", "quantifier": "every text and every position 0..len(text)", "why_tests_cant": "All texts and positions, including positions at newlines and at the end.", "anchors": ["datashape/error.py:DataShapeSyntaxError.__init__"]}
{"id": "C10", "title": "str is a right inverse of dshape", "statement": "For every datashape ds in the printable fragment (nested arbitrarily), dshape(str(ds)) succeeds and returns a datashape equal to ds.", "quantifier": "every printable datashape, any nesting, any field names made of lexable characters, any integers", "why_tests_cant": "Infinite nested domain; printing, quoting, lexing and parsing must agree.", "anchors": ["datashape/coretypes.py:pprint", "datashape/coretypes.py:DataShape.__str__", "datashape/util/__init__.py:dshape"]}
{"id": "C11", "title": "pprint is layout only", "statement": "For every printable datashape and every width (also zero or negative), dshape(pprint(ds, width)) succeeds and equals ds: line breaking never changes the meaning.", "quantifier": "every printable datashape and every integer width", "why_tests_cant": "Every width and nesting.", "anchors": ["datashape/coretypes.py:pprint"]}
{"id": "C12", "title": "Printing is stable", "statement": "For every printable datashape, printing, parsing and printing again gives the same text; and two printable datashapes with the same text are equal.", "quantifier": "every printable datashape / pair", "why_tests_cant": "Infinite domain.", "anchors": ["datashape/coretypes.py:DataShape.__str__"]}
{"id": "C13", "title": "Parsing, printing and parsing again", "statement": "If dshape(s) returns ds, and the strings and field names in ds survive quoting, categoricals have at most ten categories, no option is nested directly in an option, type variables have names the lexer reads as such and no bare dimension or ellipsis stands where a type is expected, then dshape(str(ds)) == ds. (Without these conditions the code violates it: each condition is shown to be needed by a text that dshape accepts and whose result is printed as a text that is rejected or read differently.)", "quantifier": "every string that parses, every Unicode table, every set iteration order of discover, every date parser", "why_tests_cant": "Infinite domain.", "anchors": ["datashape/coretypes.py:pprint", "datashape/internal_utils.py:isidentifier", "datashape/coretypes.py:_format_categories", "datashape/type_symbol_table.py:TypeSymbolTable"]}
{"id": "C14", "title": "Equality of datashapes is an equivalence relation", "statement": "For all datashape objects (other than TypeSet), == is reflexive, symmetric and transitive. (With TypeSets, symmetry is violated: exhibited.)", "quantifier": "all pairs/triples of datashape objects", "why_tests_cant": "All triples of unboundedly nested values.", "anchors": ["datashape/coretypes.py:Mono.__eq__", "datashape/coretypes.py:Fixed.__eq__", "datashape/typesets.py:TypeSet.__eq__"]}
{"id": "C15", "title": "Equality means same shape and same measure", "statement": "Two well-formed datashapes are equal exactly when they have the same sequence of dimensions and the same measure (recursively, ignoring the DataShape wrapper of a lone measure and the registered name); in particular DataShape(x) == x and record field order matters.", "quantifier": "all pairs of well-formed datashapes", "why_tests_cant": "All pairs of nested values.", "anchors": ["datashape/coretypes.py:Mono.__eq__", "datashape/coretypes.py:Mono.info"]}
{"id": "C16", "title": "Equal datashapes have equal hashes", "statement": "For every hash function on strings, integers, classes and tuples, a == b implies hash(a) == hash(b) for datashape objects; and whether x in {a} agrees with equality. (Fixed(n) == n holds for ints but their hashes are computed differently: exhibited.)", "quantifier": "all pairs of datashape objects and all primitive hash functions", "why_tests_cant": "All pairs, all hash seeds.", "anchors": ["datashape/coretypes.py:Mono.__hash__", "datashape/coretypes.py:Fixed.__hash__"]}
{"id": "C17", "title": "Pickling preserves datashapes", "statement": "For every well-formed datashape object, __setstate__(__getstate__()) on a fresh instance gives an object equal to the original with the same hash; everything except a registered DataShape name is restored exactly.", "quantifier": "every well-formed datashape", "why_tests_cant": "Every nested value.", "anchors": ["datashape/coretypes.py:Mono.__getstate__", "datashape/coretypes.py:Mono.__setstate__", "datashape/coretypes.py:DataShape.__setstate__"]}
{"id": "C18", "title": "Records are finite ordered maps", "statement": "A Record can be constructed exactly when its (stringified) names are pairwise distinct and its types are laundered successfully; then names, types, fields keep the given order and rec[name] is the type given for that name; missing names raise KeyError.", "quantifier": "every list of (name, type) fields", "why_tests_cant": "Every field list.", "anchors": ["datashape/coretypes.py:Record.__init__", "datashape/coretypes.py:Record.__getitem__"]}
{"id": "C19", "title": "Adding dimensions with *", "statement": "For every datashape x and dimension d (an int or a dimension type), d * x has shape (d,) + shape and the same measure; any number of dimensions can be prepended, innermost first; a string on either side is parsed first; an int on the right raises TypeError; negative ints are rejected; a bare measure on the left is rejected. (Violated by the code, with witnesses: (a * b) * x cannot be formed for two dimensions a, b; a string on the left of a bare measure swaps the operands; a whole datashape is accepted on the left; a bare Option of an array keeps its own shape.)", "quantifier": "every dimension and datashape", "why_tests_cant": "All operands.", "anchors": ["datashape/coretypes.py:Mono.__mul__", "datashape/coretypes.py:Mono.__rmul__", "datashape/coretypes.py:DataShape.__rmul__"]}
{"id": "C20", "title": "subarray drops exactly the leading dimensions", "statement": "For every DataShape with k dimensions and 0 <= i <= k, subarray(i) has exactly the last k-i dimensions and the same measure; subarray(i).subarray(j) == subarray(i+j); i > k raises IndexError; subarray(1) undoes n * ds.", "quantifier": "every DataShape and every integer", "why_tests_cant": "All shapes and integers.", "anchors": ["datashape/coretypes.py:DataShape.subarray", "datashape/coretypes.py:Mono.subarray"]}
{"id": "C21", "title": "subshape with an integer slice: the length it computes, and when it is Python's", "statement": "For an array whose leading dimension has fixed length n, ds.subshape[start:stop:step] keeps the other dimensions and has leading dimension ceil((stop' - start') / step), the quotient being Python's float division, where a missing or zero bound stands for the end of the dimension on its side and a negative bound counts from the end; a negative length is a ValueError, a quotient beyond the floats an OverflowError, step 0 a ZeroDivisionError. For in-range, ordered bounds (stop not 0) and n <= 2**53 (2**51 for negative steps) this is len(range(n)[start:stop:step]). (It is not for out-of-range bounds, stop=0, empty ranges, open-ended negative steps and lengths above 2**53: each exhibited.)", "quantifier": "all n, start, stop, step and all datashapes", "why_tests_cant": "All integer quadruples.", "anchors": ["datashape/coretypes.py:DataShape._subshape"]}
{"id": "C22", "title": "subshape on records and tuples of indices", "statement": "Integer, name, list and slice indices select the corresponding fields of a record measure; an integer index removes the leading dimension; a list index of length m replaces the leading dimension by m; None adds a dimension of length 1; a tuple of indices acts on successive dimensions (None only inside such a tuple: alone it raises TypeError). A list of names and positions raises ValueError when a name is missing or a field is selected twice, IndexError when a position is outside; a single missing name raises KeyError. A slice among them raises ValueError, or TypeError when every slice selects exactly two fields. A name on something that is not a record raises TypeError, and so does a position or list on something that is neither a dimension nor a record; a slice of a bare non-record measure without step raises IndexError. A slice of a leading dimension of unknown length gives var when an end is open or negative, and otherwise a fixed dimension of the stated length.", "quantifier": "all datashapes and indices", "why_tests_cant": "All index expressions.", "anchors": ["datashape/coretypes.py:DataShape._subshape"]}
{"id": "C23", "title": "cat_dshapes adds leading dimensions", "statement": "cat_dshapes of fixed-leading datashapes with equal trailing parts has leading dimension the sum of the leading dimensions and the same trailing part; otherwise it raises the exception determined by the first offending datashape; it is associative (concatenating concatenations) and insensitive to the order of the list up to equality.", "quantifier": "every list of datashapes", "why_tests_cant": "Every list.", "anchors": ["datashape/util/__init__.py:cat_dshapes"]}
{"id": "C24", "title": "At most one ellipsis per array", "statement": "dshape accepts a parsed datashape exactly when every array reached through arrays, options, functions, maps and categoricals has at most one ellipsis among its dimensions and no ellipsis as its measure; otherwise it raises TypeError. (The stronger claim a user would expect, covering arrays inside record fields and tuple items too, is violated by the code; witnesses are proved.)", "quantifier": "every accepted input", "why_tests_cant": "Every input.", "anchors": ["datashape/validation.py:validate", "datashape/util/__init__.py:dshape"]}
{"id": "C25", "title": "Time units are normalised", "statement": "normalize_time_unit terminates for every string; whatever it returns is one of the ten canonical units; it is idempotent, ignores surrounding blanks, maps every canonical unit to itself and every alias and its plural to its unit; otherwise it raises: IndexError exactly for blank strings and for strings of blanks and letters 's' only that begin, after leading blanks, with 'sss', ValueError for all others.", "quantifier": "every string", "why_tests_cant": "Every string.", "anchors": ["datashape/coretypes.py:normalize_time_unit"]}
{"id": "C26", "title": "Integer decimals fit their NumPy type", "statement": "For every precision p and scale 0, when Decimal(p, 0).to_numpy_dtype() returns an integer dtype, every integer of at most p decimal digits fits in it, and no smaller NumPy integer dtype would do; it raises exactly when no 64-bit dtype can hold them.", "quantifier": "every precision p >= 1", "why_tests_cant": "Infinitely many precisions and values.", "anchors": ["datashape/coretypes.py:Decimal.to_numpy_dtype"]}
{"id": "C27", "title": "NumPy round trip", "statement": "For every NumPy shape and dtype in the exact fragment (booleans, sized integers, floats, complex, object, datetime64[D|us], timedelta64[unit], non-empty fixed strings, structs of those without sub-array fields), to_numpy(from_numpy(shape, dt)) returns the same shape and dtype; and for every datashape in the corresponding fragment from_numpy(*to_numpy(ds)) == ds. (Lossy cases are exhibited.)", "quantifier": "every shape and (nested struct) dtype", "why_tests_cant": "Infinite family of shapes and struct dtypes.", "anchors": ["datashape/coretypes.py:to_numpy", "datashape/coretypes.py:from_numpy", "datashape/coretypes.py:CType.from_numpy_dtype"]}
{"id": "C28", "title": "Type promotion is symmetric and idempotent", "statement": "For numeric/boolean/object scalar types and their options: promote(a, b) == promote(b, a), promote(a, a) == a, the result can hold both operands, and with promote_option it is an Option iff an operand is (unless nothing can be promoted). Associativity is violated: exhibited. A text or object promoted with any scalar gives object (two UTF-8 texts stay text), two texts of fixed length the longer one (ASCII if both are, else U32), dates promote to datetime, time differences to the finer unit; years and months have nothing in common with other units (TypeError). (Time zones and other encodings are lost: exhibited.)", "quantifier": "all pairs/triples of scalar types (numbers, texts, dates, time differences), with and without Option", "why_tests_cant": "All pairs.", "anchors": ["datashape/promote.py:promote", "datashape/promote.py:optionify"]}
{"id": "C29", "title": "maxtype widens within its family", "statement": "maxtype of every scalar type (with or without Option, inside any DataShape) is the widest type of the same family, keeps optionality, is idempotent; Decimals and TimeDeltas are unchanged; anything else raises TypeError (float16 included, although it is a float).", "quantifier": "every datashape", "why_tests_cant": "Every datashape.", "anchors": ["datashape/typesets.py:maxtype", "datashape/typesets.py:supertype", "datashape/typesets.py:matches_typeset"]}
{"id": "C30", "title": "Topological sort is right under every schedule", "statement": "For every graph and every order in which set.pop and set iteration deliver elements, _toposort returns a duplicate-free list of exactly the nodes in which every node precedes its successors, or raises ValueError; it raises exactly when the graph has a cycle.", "quantifier": "every finite graph, every pop/iteration order", "why_tests_cant": "Set iteration order is nondeterministic; all schedules of all graphs.", "anchors": ["datashape/internal_utils.py:_toposort", "datashape/internal_utils.py:reverse_dict"]}
{"id": "C31", "title": "descendents is reachability", "statement": "descendents(d, x) is exactly the set of nodes reachable from x (including x), for every graph, and the loop terminates.", "quantifier": "every finite graph and node", "why_tests_cant": "All graphs.", "anchors": ["datashape/discovery.py:descendents"]}
{"id": "C32", "title": "The lowest common type is a least upper bound, whatever the schedule", "statement": "For every non-empty list of known scalar types and every schedule of the topological sort, lowest_common_dshape returns the least upper bound in the coercion order, the same for every schedule and every ordering of the list; unknown types raise ValueError, and an empty list TypeError.", "quantifier": "every list of scalar types, every schedule", "why_tests_cant": "All lists and schedules.", "anchors": ["datashape/discovery.py:lowest_common_dshape", "datashape/discovery.py:edges"]}
{"id": "C33", "title": "Uniting column types", "statement": "unite_base of scalar types (with nulls) of a column of n values is n * T (or n * ?T when some value is null) where T is an upper bound of all non-null types; it does not depend on the order of the values.", "quantifier": "every list of scalar types", "why_tests_cant": "All lists and permutations.", "anchors": ["datashape/discovery.py:unite_base"]}
{"id": "C34", "title": "discover gives one entry per element", "statement": "For every non-empty list/tuple of discoverable values, discover returns either an array whose leading dimension is the number of elements or a tuple type with one component per element; an empty sequence gives var * string.", "quantifier": "every nested list/tuple/dict of scalars", "why_tests_cant": "All nested values.", "anchors": ["datashape/discovery.py:discover"]}
{"id": "C35", "title": "discover ignores dict insertion order", "statement": "discover of a dict (also nested, also in lists of dicts) does not depend on the insertion order of its keys, and its record has exactly the dict's keys in sorted order; an OrderedDict keeps its own order.", "quantifier": "every nested dict and every permutation of insertion order", "why_tests_cant": "All histories of insertions.", "anchors": ["datashape/discovery.py:_mapping_discover", "datashape/discovery.py:discover"]}
{"id": "C36", "title": "Discovery of a list of records keeps every field", "statement": "discover of a non-empty list of dicts of scalars yields a record with exactly the union of all keys, a field being optional when some dict lacks it. (Violated one level down: a column of records loses the fields absent from its first record; exhibited.)", "quantifier": "every list of dicts", "why_tests_cant": "All lists of dicts.", "anchors": ["datashape/discovery.py:discover", "datashape/discovery.py:unite_base"]}
{"id": "C37", "title": "has_ellipsis / has_var_dim detect every occurrence", "statement": "has_ellipsis(ds) (has_var_dim(ds)) is True exactly when an ellipsis (an ellipsis or var) occurs anywhere in ds, at any depth of records, tuples, options, functions, maps.", "quantifier": "every datashape", "why_tests_cant": "Every nested datashape.", "anchors": ["datashape/util/__init__.py:has", "datashape/util/__init__.py:has_var_dim", "datashape/util/__init__.py:has_ellipsis"]}
{"id": "C38", "title": "isfixed implies no variable dimension", "statement": "isfixed(ds) is True exactly when neither a variable dimension nor a type variable is among the components of the array, of record fields, and recursively of their arrays and records; it has an answer whenever every field type is acceptable to dshape. On arrays and records without ellipses, options, tuples it is True exactly when neither occurs anywhere. (The claim 'isfixed implies no variable dimension' is violated by the code for ellipsis and for variable dimensions under options and tuples; witnesses are proved.)", "quantifier": "every datashape", "why_tests_cant": "Every nested datashape.", "anchors": ["datashape/predicates.py:isfixed", "datashape/util/__init__.py:has_var_dim"]}
{"id": "C39", "title": "Registered type names are never redefined", "statement": "No history of Type.register / CType construction ever changes what Type.lookup_type returns for an already registered name. (Violated by DataShape(..., name=...): exhibited.)", "quantifier": "every history of registrations", "why_tests_cant": "Histories.", "anchors": ["datashape/coretypes.py:Type.register", "datashape/coretypes.py:DataShape.__init__"]}
{"id": "C40", "title": "validate checks arrays elementwise", "statement": "validate(n * ds, seq) for a list/tuple is true iff len(seq) == n and every element validates against ds; validate(var * ds, seq) iff every element validates; a record validates a dict iff every field's value validates. (A tuple shorter or longer than a record validates too: exhibited.) It says yes to exactly the valid values for every schema, and raises only for an ellipsis in the schema, an array without dimensions in the value, or when numpy raises.", "quantifier": "every schema and value", "why_tests_cant": "All nested schemas and values.", "anchors": ["datashape/user.py:validate"]}
{"id": "C41", "title": "assert_dshape_equal accepts equal datashapes and rejects different ones", "statement": "assert_dshape_equal(a, b, **checks) returns exactly when a and b agree under the checks: same structure, dimensions pairwise equal as far as both arrays have them (check_dim), tz / timedelta unit / string encoding / string length equal when checked, record fields matched in order or (without check_record_order) up to permutation, everything else ==. Equal datashapes without Units are accepted under all checks; accepted datashapes of the same ranks are equal; switching checks off never rejects more. (The plain claim 'accepts exactly the equal datashapes' is violated: different numbers of dimensions are accepted, Units are rejected; witnesses are proved.)", "quantifier": "every pair of datashapes", "why_tests_cant": "All pairs.", "anchors": ["datashape/util/testing.py:assert_dshape_equal"]}
{"id": "C42", "title": "collect returns exactly the matching subterms", "statement": "collect(pred, ds) lists, left to right, the outermost subterms satisfying pred; ishomogeneous(ds) raises TypeError exactly when a bare ellipsis is reached without passing through a scalar, and otherwise is True iff all dtypes (outermost non-dimension scalars) are equal and there is at least one.", "quantifier": "every datashape and predicate", "why_tests_cant": "All nested datashapes.", "anchors": ["datashape/util/__init__.py:collect", "datashape/predicates.py:ishomogeneous"]}
{"id": "C43", "title": "Shape predicates classify every datashape", "statement": "isscalar, isrecord, iscollection, istabular, isdimension give the documented answer for every datashape: e.g. istabular iff exactly one dimension over a (possibly optional) record; iscollection iff it has a leading fixed/var/ellipsis dimension; a scalar is never a record or a collection.", "quantifier": "every datashape", "why_tests_cant": "Every nested datashape.", "anchors": ["datashape/predicates.py"]}
{"id": "C44", "title": "Record literals", "statement": "R['a':t, 'b':u, ...] equals Record([('a', t), ('b', u), ...]) when every item is a slice name:type, and raises TypeError when some item is not a slice, has no name, no type, a non-string name or a step.", "quantifier": "every tuple of slices", "why_tests_cant": "All literals.", "anchors": ["datashape/coretypes.py:RecordMeta"]}
{"id": "C45", "title": "String types are canonical", "statement": "Every String that can be constructed has one of the four canonical encodings; two spellings of the same encoding give equal types; String(fixlen, encoding) rebuilt from its own parameters is the same; unsupported encodings raise ValueError.", "quantifier": "all constructor arguments", "why_tests_cant": "All arguments.", "anchors": ["datashape/coretypes.py:String.__init__"]}
{"id": "C46", "title": "Discovery does not depend on hash seeds or set orders", "statement": "For every value, discover returns the same result (or raises the same exception) for every order in which Python's sets pop and iterate inside the library; only the iteration order of sets that are part of the input can matter.", "quantifier": "every nested value, every pair of schedules", "why_tests_cant": "PYTHONHASHSEED and set layout vary between runs; a test sees one schedule.", "anchors": ["datashape/discovery.py:discover", "datashape/discovery.py:lowest_common_dshape", "datashape/internal_utils.py:_toposort"]}
{"id": "C47", "title": "What discover returns is a well-formed, concrete, printable type", "statement": "For every value, discover either raises one of Python's exceptions or returns a datashape that satisfies the class invariants at every depth, is not a bare dimension, contains no type variable, ellipsis, function, map, units, decimal, categorical or json type, never nests options, and whose field names are keys of mappings or array fields in the value. Its recursion always ends. If those names are printable, dshape(str(discover(v))) == discover(v). With this discover in place of the one the Categorical constructor calls, parsing always ends in a well-formed datashape or an exception.", "quantifier": "every nested value (scalars, strings, sequences, mappings, arrays), every set order, every behaviour of Python's own string parsers", "why_tests_cant": "All nested values; a test sees a handful of shapes.", "anchors": ["datashape/discovery.py:discover", "datashape/discovery.py:unite_base", "datashape/discovery.py:unite_merge_dimensions", "datashape/coretypes.py:Categorical.__init__", "datashape/util/__init__.py:dshape"]}
{"id": "C48", "title": "When discover fails on nested data", "statement": "discover returns a datashape (never raises) for every value built from None, numbers, booleans, dates, time differences and strings (other than those reading as a time or as an amount followed by a unit) by nesting lists, tuples, sets and mappings with distinct string keys. On every nested value, if it raises, the exception is one that some leaf raises on its own (strings such as '5 sss': IndexError, '1e30 days': OverflowError; unsupported objects), or it is ValueError and some leaf's type is not one of those the coercion graph knows (complex numbers, bytes, times, ...). (That it does raise for such data, e.g. discover([(1,), (1j,)]), is exhibited.)", "quantifier": "every nested value, every schedule, every behaviour of Python's string parsers", "why_tests_cant": "All nested values; failures sit in rare combinations of column types.", "anchors": ["datashape/discovery.py:discover", "datashape/discovery.py:unite_base", "datashape/discovery.py:lowest_common_dshape"]}
{"id": "C49", "title": "discover on arrays keeps the shape and describes the dtype", "statement": "discover of an ndarray returns a datashape whose dimensions are the array's shape, in order, and whose measure is the datashape of its dtype, in which exactly those object columns whose first five values (in C order) are all strings have become string - so every object column that holds only strings, and no column with another value among the first five; field names and order are kept. (That a column typed string holds only strings is violated: the sixth value is not looked at; exhibited.) NumPy scalars and other objects with shape and dtype give the datashape of their shape and dtype.", "quantifier": "every shape (any rank, zero lengths), every dtype with a datashape, every content of the object columns", "why_tests_cant": "All shapes, dtypes and columns.", "anchors": ["datashape/discovery.py:discover", "datashape/coretypes.py:from_numpy", "datashape/discovery.py:is_string_array"]}
{"id": "C50", "title": "Every datashape can be rebuilt from its parameters", "statement": "For every datashape object t, type(t)(*t.parameters) is an object equal to t (the documented contract of Mono.parameters). Violated for CType, whose name is already registered (TypeError), and for a Categorical over an array.", "quantifier": "every well-formed datashape object of every class but TypeSet", "why_tests_cant": "Objects of unbounded nesting and all field names, units, encodings.", "anchors": ["datashape/coretypes.py:Mono.parameters", "datashape/coretypes.py:DataShape.__init__", "datashape/coretypes.py:CType.__init__"]}
{"id": "C51", "title": "Datashapes behave as sequences", "statement": "len, iteration, integer indexing (negative indices from the right) and slicing of a DataShape agree with the tuple of its dimensions followed by its measure; out-of-range indices raise IndexError, DataShape(*ds) == ds, and any other non-record object behaves as the one-element sequence of itself, in slices too. Records are not sequences: an integer index raises KeyError and a slice TypeError.", "quantifier": "every datashape, every integer index, every slice", "why_tests_cant": "All ranks and all indices.", "anchors": ["datashape/coretypes.py:DataShape.__getitem__", "datashape/coretypes.py:Mono.__getitem__", "datashape/coretypes.py:Mono.__len__"]}
{"id": "C52", "title": "dshape accepts any object and is idempotent", "statement": "dshape of a datashape object is equal to the object, or raises TypeError exactly when the object is a bare dimension or a bare object with an array of two ellipses or an ellipsis as measure, dshape(dshape(o)) is dshape(o), dshape([d1, ..., dn, measure]) is the array with these dimensions, any other object raises TypeError, and dshapes maps dshape over its arguments, raising the first failure.", "quantifier": "every object, string, list of dimensions and list of arguments", "why_tests_cant": "All objects and lists.", "anchors": ["datashape/util/__init__.py:dshape", "datashape/util/__init__.py:dshapes"]}
{"id": "C53", "title": "repr is evaluable", "statement": "For every printable array, record or tuple without quotes and backslashes in its texts, repr(ds) is dshape(L) where L is a Python string literal whose value parses back to a datashape equal to ds. Violated for field names with an apostrophe.", "quantifier": "every printable array, record or tuple", "why_tests_cant": "All nestings and names.", "anchors": ["datashape/coretypes.py:DataShape.__repr__", "datashape/coretypes.py:CollectionPrinter.__repr__"]}
{"id": "C54", "title": "Type sets behave as named sets", "statement": "x in (a | b) iff x in a or x in b; len is the number of distinct types; matching a measure against a type set is membership; supertype finds the family of a numeric type and raises AssertionError for any other (KeyError for records); a name keeps meaning the first type set created with it and reusing it raises TypeError.", "quantifier": "every type set, measure and history of type set creations", "why_tests_cant": "All sets and all creation histories.", "anchors": ["datashape/typesets.py:TypeSet", "datashape/typesets.py:matches_typeset", "datashape/typesets.py:supertype", "datashape/typesets.py:TypesetRegistry"]}
{"id": "C55", "title": "issubschema decides equality of schemas", "statement": "issubschema(a, b) is true exactly when dshape(a) == dshape(b), for strings, lists and datashape objects, and always returns. Violated (infinite recursion) for datashape objects that dshape does not wrap, such as Option.", "quantifier": "every pair of objects", "why_tests_cant": "All pairs; a non-terminating dispatch cannot be exhibited by passing tests.", "anchors": ["datashape/user.py:issubschema", "datashape/util/__init__.py:dshape"]}
{"id": "C56", "title": "A failed assert_dshape_equal names the place of the difference", "statement": "When assert_dshape_equal(a, b) raises AssertionError, the path in its message can be evaluated on both a and b (.measure, .shape[i], ['name'], .ty, .dshapes[i], .argtypes[i], .restype, .slot), the two values found there are different, and the path goes as far as it can: it ends at a dimension or an attribute or at two objects with nothing left to compare. (Violated for a datetime beside a time: the path is missing; exhibited.)", "quantifier": "every pair of well-formed datashapes and every choice of checks", "why_tests_cant": "All pairs of nested datashapes; a wrong path is only visible where the difference sits deep.", "anchors": ["datashape/util/testing.py:assert_dshape_equal", "datashape/util/testing.py:_fmt_path", "datashape/util/testing.py:_check_slots"]}
{"id": "C57", "title": "Symbol tables are consulted only for the names in the text", "statement": "parse(s, sym) (result or error) depends only on what sym binds the names occurring in s to, and on the constructors behind the special syntax; hence adding a name to sym.dtype, sym.dim or sym.dtype_constr never changes how texts that do not mention it are read, and a text that is a new name reads as the type bound to it. The accepted texts and their meaning for any table are those of the grammar over that table.", "quantifier": "every string and every symbol table", "why_tests_cant": "All texts and all tables.", "anchors": ["datashape/parser.py:parse", "datashape/type_symbol_table.py:TypeSymbolTable", "datashape/parser.py:DataShapeParser.syntactic_sugar"]}
{"id": "C58", "title": "groupby, reverse_dict, remove and isidentifier do what their docs say on every input", "statement": "groupby(func, seq) has exactly one entry per value of func on seq, holding the items with that value in their original order; reverse_dict(d) lists under each value the keys of d that mention it, in the order of d, and nothing else; remove(pred, seq) keeps exactly the items failing pred, in order; isidentifier(s) holds exactly for ASCII identifiers (and, as the regex is anchored by $, for an identifier followed by one newline).", "quantifier": "every sequence, key function, dict and string, for keys whose == is an equivalence", "why_tests_cant": "unboundedly many sequences, dicts and strings", "anchors": ["datashape/internal_utils.py: groupby", "datashape/internal_utils.py: reverse_dict", "datashape/internal_utils.py: remove", "datashape/internal_utils.py: isidentifier"]}
{"id": "C59", "title": "discover gives each string exactly the type its text denotes", "statement": "discover(s) is null for the empty string, int64 exactly when s is an integer literal Python's int() takes (blanks around, one sign, digits with single underscores), float64 exactly when it is a float literal but no integer, time exactly for H:M:S[.f] with hours below 24 and minutes and seconds in range, timedelta[unit=u] exactly for a number that is a whole number followed by a word for the unit u, bool exactly for true/True/false/False; only texts of none of these kinds reach dateutil, which decides between date, datetime and string. These kinds never overlap. What str() prints for an integer is found to be int64 (up to Python's digit limit), and each Python scalar gets its own type.", "quantifier": "every string over all of Unicode, every behaviour of dateutil, every Unicode digit/letter table, every order of sets", "why_tests_cant": "infinitely many spellings of numbers, times and durations, each of which could fall in another recogniser", "anchors": ["datashape/discovery.py: discover(str)", "datashape/discovery.py: string_coercions", "datashape/discovery.py: timeparse", "datashape/discovery.py: dateparse", "datashape/discovery.py: deltaparse"]}
{"id": "C60", "title": "Item sizes and alignments are those of NumPy", "statement": "t.itemsize is defined exactly for native scalar types and options of them (anything else raises AttributeError); for every type in every datashape dshape() accepts it is the itemsize, and alignment the alignment, of the NumPy dtype the type converts to; a type made by from_numpy has the dtype's itemsize and alignment or none. Every function type in a parsed datashape splits into argtypes and restype, which together are its parameters.", "quantifier": "every text, every type occurring at any depth, every NumPy dtype", "why_tests_cant": "types nest without bound and dtypes are unboundedly many (byte orders, units, structs)", "anchors": ["datashape/coretypes.py: CType.itemsize", "datashape/coretypes.py: CType.alignment", "datashape/coretypes.py: Option.itemsize", "datashape/coretypes.py: Function.argtypes", "datashape/coretypes.py: Function.restype"]}
{"id": "C61", "title": "The discovered datashape describes the data", "statement": "Every value without an empty dict fits the datashape that discover() returns for it: a list is described by an array of its length (or of variable length where sibling lists differ) whose element type fits every element, or by a tuple item by item; every field of a record fits the dict's value (a missing key counts as None); a leaf has its own type up to the documented coercions, and None only fits options and null. With an empty dict in a column the claim is false (its type swallows the others), and a column of dicts keeps the first dict's keys only.", "quantifier": "every nesting of lists, tuples, sets and dicts of any size over any leaves, every schedule of set iteration, every behaviour of the string parsers", "why_tests_cant": "values nest without bound and mix any types; uniting of columns recurses through records", "anchors": ["datashape/discovery.py: discover", "datashape/discovery.py: unite_base", "datashape/discovery.py: unite_identical", "datashape/discovery.py: unite_merge_dimensions", "datashape/discovery.py: lowest_common_dshape"]}
{"id": "C62", "title": "Regular data: discover finds the expected datashape and validate accepts it", "statement": "For data made of non-empty lists of equally typed items (to any depth), tuples of differently typed items with a scalar among them, and dicts, discover() returns the datashape one would write down: n * t, (t1, ..., tn), {key: t, ...}; rows of different lengths give n * var * t. validate() of such data against their own datashape always answers, and answers true exactly when the leaves are ints, floats, bools, dates, times, strings that do not look like something else or arrays without text columns, in lists or tuples of one type and in dicts. None, complex numbers, number-like strings, sets and mixed lists are rejected by validate for their own datashape.", "quantifier": "every regular value of any depth and size, every schedule, every behaviour of the string parsers and of numpy's issubdtype on other types", "why_tests_cant": "the data nest without bound; discover takes different code paths for rows, dicts and other items that must agree", "anchors": ["datashape/discovery.py: discover", "datashape/discovery.py: unite_identical", "datashape/discovery.py: unite_merge_dimensions", "datashape/user.py: validate"]}
{"id": "C63", "title": "Type constructors: names, arguments, keywords and defaults", "statement": "dshape reads a lower-case name exactly if it is one of the documented type names, as that type. A text name[arguments] is read exactly if name is a documented constructor, the positional and keyword arguments fit its parameters (positional first, no parameter twice, no unknown keyword, every required parameter given, the last value of a repeated keyword counting), and the arguments have a meaning for it; the result is the type the table of meanings gives, with the documented defaults (timedelta in microseconds, scale 0, no time zone, unordered categories with the discovered type, UTF-8, float64 units). Calling a constructor of the symbol table with arguments that do not fit raises TypeError.", "quantifier": "all texts of the form name or name[...], in any layout; all argument lists and keyword dictionaries", "why_tests_cant": "argument lists, their nesting and the texts are unbounded, and 'exactly' excludes every other spelling", "anchors": ["datashape/type_symbol_table.py:_complex,_struct,_funcproto,no_constructor_types,constructor_types,dim_no_constructor,dim_constructor", "datashape/coretypes.py:String,Decimal,Categorical,Units,TimeDelta,_launder", "datashape/parser.py:parse_type_arg_list,parse_type_kwarg"]}
{"id": "C64", "title": "NumPy conversions: exact in both directions", "statement": "from_numpy(shape, dtype) is n1 * ... * nk * m with one fixed dimension per entry of the shape, where m is given by a table: scalars by kind and size, 'S<n>' and 'U<n>' as fixed strings in ASCII and UTF-32, datetime64 in days, weeks, months or years as date and all others as datetime, timedelta64 keeping its unit, structs as records field by field with sub-array fields as arrays, byte order ignored; it fails exactly for dtypes that have no entry. to_numpy and to_numpy_dtype succeed exactly on the datashapes whose dimensions are fixed or type variables (-1) and whose measure has a dtype (decimals the smallest integer or float64, options only of dates, datetimes and timedeltas, records and tuples as structs without inner shapes, maps by their keys), refusing everything else with TypeError (ValueError when an unnamed field gets the name of another). A dtype converted there and back keeps exactly what the table says, and a dtype obtained from a datashape is kept unchanged.", "quantifier": "all NumPy shapes and dtypes, all datashapes", "why_tests_cant": "dtypes and datashapes nest without bound, and 'exactly' speaks about all inputs that must be refused", "anchors": ["datashape/coretypes.py:to_numpy,to_numpy_dtype,from_numpy,CType.from_numpy_dtype,Mono.to_numpy_dtype,String.to_numpy_dtype,Decimal.to_numpy_dtype,Option.to_numpy_dtype,Record.to_numpy_dtype,Tuple.to_numpy_dtype,Map.to_numpy_dtype"]}
{"id": "C65", "title": "repr shows the class and every attribute", "statement": "repr of a string inside a datashape is a Python literal of exactly this string. repr of a datashape object is an expression that names its class and gives every constructor attribute its value (Units, Map, Categorical with at most ten categories shown, ...), recursively; scalars and strings are shown as ctype(\"name\"), arrays, records and tuples as dshape(\"notation\"). The paths in assertion messages are likewise the Python expression that leads to the place, with field names as literals.", "quantifier": "all strings of code points, all datashape objects whose scalars and containers hold quiet texts, all paths", "why_tests_cant": "strings may hold any of 1114112 characters in any combination and objects nest without bound", "anchors": ["datashape/coretypes.py:Mono.__repr__,CType.__repr__,String.__repr__,Ellipsis.__repr__,DataShape.__repr__,CollectionPrinter.__repr__,Categorical.__repr__,Option,Function", "datashape/util/testing.py:_fmt_path"]}
{"id": "C66", "title": "pprint only breaks lines, and only where needed", "statement": "Every datashape has a one-line notation. pprint(ds, width) at every width, and str(ds), are that notation with nothing changed but line breaks: a bracket is kept on its line or has each entry on a line of its own, indented two spaces per level, with the closing bracket indented likewise. If the notation is shorter than the width, pprint returns it on one line; a record, a tuple or an array of them that is not shorter is broken over several lines. At every depth: a bracket is broken exactly when its one-line notation (with the dimensions before it) is not shorter than the width left, which shrinks by the dimensions before each enclosing bracket and the names of the enclosing fields (for datashapes without records inside options, maps and the like).", "quantifier": "all datashapes without names, nested to any depth, all widths", "why_tests_cant": "width and nesting interact: every combination of an arbitrary structure with an arbitrary width", "anchors": ["datashape/coretypes.py:pprint,Record.__str__,DataShape.__repr__"]}
{"id": "C67", "title": "Which exceptions dshape raises on a text", "statement": "On any text, dshape returns a datashape or raises: DataShapeSyntaxError, TypeError, ValueError, IndexError, AttributeError, NotImplementedError, UnboundLocalError, or what discover raises on the categories of a categorical (IndexError, OverflowError, ValueError or what dateutil raises). If the text has no bracket token, every failure is a DataShapeSyntaxError, or a TypeError and the text has two ellipses, or a ValueError and the text has a negative number, the same field label twice, or a string literal that Python refuses.", "quantifier": "all texts; all environments (Unicode tables, discover)", "why_tests_cant": "an exception of another type may hide behind any of infinitely many texts, at any nesting depth", "anchors": ["datashape/parser.py:parse,DataShapeParser", "datashape/type_symbol_table.py", "datashape/util/__init__.py:dshape", "datashape/validation.py:validate"]}
{"id": "C68", "title": "Messages of assert_dshape_equal", "statement": "Whenever assert_dshape_equal raises AssertionError, its message is a headline followed by a line with the path of C56. The first part of the path leads from both arguments to two objects, and the headline says how these two differ, quoting both sides: different classes (str of both), a dimension (and the whole shapes if there are several), an attribute (class name, attribute name, repr of both values), the number of fields, elements or arguments, or the first field name that differs, with its position. Only messages about a datetime beside a time have no path.", "quantifier": "all pairs of well-formed datashapes of any depth, all combinations of checks", "why_tests_cant": "which message appears depends on the first difference in an arbitrarily deep pair of structures", "anchors": ["datashape/util/testing.py:assert_dshape_equal,_check_slots,_base_case,_fmt_path"]}
{"id": "C69", "title": "Predicates read texts", "statement": "isscalar, isrecord, istabular, iscollection, isnumeric, isreal, isboolean, isdatelike, isfixed and ishomogeneous called with a text raise exactly what dshape() raises on that text, and otherwise give the answer they give for the datashape object. isscalar, isrecord, istabular, iscollection, isreal, isboolean and isdatelike then always answer, and the answer is determined by the components of the datashape: one component that is a scalar (possibly optional), one record, one dimension over a record, a leading dimension, a measure of the given class. (isfixed, ishomogeneous and isnumeric raise on some accepted texts; exhibited.)", "quantifier": "every text, every behaviour of the unicode tables and of the discovery of categories", "why_tests_cant": "the docstrings show a few texts per predicate; the claim is about every text, including those with quoted names, options and nested structure", "anchors": ["datashape/predicates.py: isscalar, isrecord, ishomogeneous, isfixed, istabular, iscollection, isnumeric, launder, isreal, isboolean, isdatelike"]}
{"id": "C70", "title": "Syntax error messages tell the truth", "statement": "When dshape(text) raises DataShapeSyntaxError, the message is true of the text at the reported place: e.g. 'Expected a \":\" separating the field name from its datashape' is raised only directly after a field name that no ':' follows, 'Invalid field in struct' only inside braces where neither a field name nor '}' (after a field: neither ',' nor '}') follows, 'Expected a dim or a dtype' only after a dimension and '*' where no datashape can begin, 'Unexpected token in datashape' only when a complete datashape precedes and more tokens follow; and so on for every message of the parser. The error is about the text itself or about a string literal in it that a constructor reads as a datashape. str(error) shows the line with the place, a caret below it and the message. The message about a missing symbol table entry never occurs with the default table.", "quantifier": "every text, every message, every place in the text (any nesting of records, tuples, functions, constructors, lists and strings inside strings)", "why_tests_cant": "the message depends on which of the mutually recursive parsing functions gives up, after any amount of backtracking and dropped tokens; a test sees single texts", "anchors": ["datashape/parser.py:DataShapeParser.raise_error", "datashape/parser.py:parse_homogeneous_list", "datashape/parser.py:syntactic_sugar", "datashape/parser.py:parse", "datashape/error.py:DataShapeSyntaxError"]}
{"id": "C71", "title": "Every other exception of dshape has its cause in the text", "statement": "When dshape(text) raises an exception other than DataShapeSyntaxError, the text contains its cause: a literal that Python refuses (ValueError), or one construct that is refused with exactly this exception - name[arguments] whose arguments do not fit the parameters of the constructor (TypeError) or are refused by it, a record type that gives a field name twice (ValueError), a negative size before '*' (ValueError), a dimension written with arguments (NotImplementedError) - or the text is a correct sentence with misplaced ellipses (TypeError). For each constructor there is a complete table of the arguments it refuses and of the exceptions; nothing in the table is accepted. IndexError, AttributeError, UnboundLocalError and NotImplementedError come only from timedelta[...]/typevar[...], categorical[...]/typevar[...], string[...] and fixed[...]/typevar[...]/ellipsis[...] (or from discover on the categories of a categorical).", "quantifier": "every text, every constructor, all positional and keyword arguments of any type, any nesting, strings inside strings", "why_tests_cant": "an exception raised by a constructor passes through any number of parsing functions and nested texts; that there is no other source of exceptions is a statement about all texts and argument combinations", "anchors": ["datashape/parser.py:DataShapeParser", "datashape/type_symbol_table.py:_complex", "datashape/type_symbol_table.py:_struct", "datashape/type_symbol_table.py:_funcproto", "datashape/coretypes.py:String", "datashape/coretypes.py:TypeVar", "datashape/coretypes.py:TimeDelta", "datashape/coretypes.py:Categorical", "datashape/coretypes.py:Record", "datashape/coretypes.py:Fixed"]}
{"id": "C72", "title": "discover on dicts whose keys are not strings", "statement": "discover of a dict (or mapping proxy) with int, bool, string or None keys does not depend on the insertion order; when any two keys can be compared it gives a record with one field per key in ascending order of the keys, named str(key), never with duplicate names, or the exception of the first value (in that order) that cannot be typed; when two keys cannot be compared it raises TypeError whatever the values. An OrderedDict keeps its own order and accepts any mixture, but raises ValueError when two keys have the same str. A list of dicts of scalars has one field per different key (True and 1 are one key, named by the one met first), ascending, with the column types of C36, or TypeError when two keys in it cannot be compared. With string keys only, all this coincides with the discover of the other properties. Whatever the keys, the result is a well-formed concrete type all of whose field names are names of keys, or one of Python's exceptions; it prints to text that reads back as an equal datashape when the names are printable, as those of ints and None always are (and those of bools never: exhibited).", "quantifier": "every dict, OrderedDict, mapping proxy with any number of int/bool/str/None keys and any values, at any depth; every non-empty list of such dicts", "why_tests_cant": "the set of keys and values is unbounded, and the result depends on sorting, key equality (True == 1) and naming for every combination of keys", "anchors": ["datashape/discovery.py:_mapping_discover", "datashape/discovery.py:discover", "datashape/coretypes.py:Record.__init__"]}

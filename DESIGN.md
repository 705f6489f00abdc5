# Formal model of blaze/datashape in Rocq (Coq 8.16.1)

## 1. What is modelled

Shallow, executable Gallina functions mirroring the Python functions of /repo/datashape branch
by branch; exceptions are values (`res A := Ok a | Raise e`). Python 3 semantics are used
wherever the code distinguishes Python 2 and 3. Every definition of the model cites the file and
lines it models and says what is simplified. Strings are lists of code points (`str`), so every
text is covered, not only ASCII. Files under `rocq/theories`:

| file | content | source |
|---|---|---|
| Base.v | code points, strings, results/exceptions, association lists | (Python builtins) |
| Types.v | datashape objects `ty`, shape/measure/info/cls, `==`, hash | coretypes.py, typesets.py |
| Lexer.v | regular expressions with Python's ordered choice, token table, lexer | lexer.py |
| Printer.v | `str`, quoting, `pprint` | coretypes.py, internal_utils.py |
| Construct.v | constructors, `_launder`, `normalize_time_unit`, type registry values | coretypes.py |
| Parser.v | recursive descent parser, symbol tables, validation, `dshape` | parser.py, type_symbol_table.py, validation.py, util/__init__.py, error.py |
| Ops.v | `*`, subarray, subshape, cat_dshapes, R[...], pickling, binary64 division | coretypes.py, util/__init__.py |
| Preds.v | predicates, collect, has_*, Type registry, assert_dshape_equal | predicates.py, util/__init__.py, util/testing.py, coretypes.py |
| Report.v | the path in the messages of assert_dshape_equal | util/testing.py |
| User.v | validate | user.py |
| Numpy.v | NumPy dtypes, to/from_numpy, promote, maxtype | coretypes.py, promote.py, typesets.py |
| Attrs.v | itemsize, alignment, Function.argtypes/restype | coretypes.py |
| Graph.v / Discovery.v | toposort, descendents, uniting, discover | internal_utils.py, discovery.py |
| Strings.v | CPython's int(), float(), strptime and str.isalpha as discovery uses them | discovery.py (and CPython 3.11) |
| Objects.v | repr, reconstruction, sequence protocol, dshape on any object, type sets, issubschema | coretypes.py, typesets.py, user.py, util/__init__.py |
| Utils.v | groupby, remove, reverse_dict, isidentifier | internal_utils.py |

`Spec_*.v` hold the specifications, written without the model's helpers (inductive grammars,
relations, orders); `Proof_*.v` the proofs; `Prop_*.v` only the property theorems (closed by
`exact` or a few lines, followed by `Print Assumptions`), the non-vacuity examples beside them,
and the `*_refuted` theorems with concrete witnesses where the claim is false of the code.
`Tests_*.v` evaluate the model on the examples of the repository's test suite and docstrings.

## 2. Boundaries of the model

* **Python itself.** The recursion limit, memory, and object identity are not modelled. Sets and
  dicts are association lists up to `==`; where CPython does not fix an order (set.pop, iteration
  of sets) the theorems quantify over a schedule (`sched`, `sc_pop`). Hashes are arbitrary functions
  of the primitive hashes.
* **Oracles** (universally quantified): `e_uni` (Unicode character classes beyond 127 used by
  `\w`, `repr`), `e_disc` (discover inside the parser; the hypothesis `disc_ok` says that it
  returns well-formed types or Python exceptions, and C47_environment discharges it for the
  modelled discover), `strings` (int/float/strptime/isalpha/dateutil used on strings; concretised
  in Strings.v for C59, where only dateutil stays arbitrary; `dates_ok` says dateutil raises
  Python exceptions), `np_sub` (NumPy's subclass checks in validate), `chars` (Unicode tables
  beyond 127 and the int digit limit).
* **`NotModelled` outcomes** mark the places left out; theorems either exclude them by hypothesis or
  show that they are not reached. These are: NumPy dtypes outside the list of Numpy.v and NumPy's
  item size limit; `char` in conversions; slices of Record objects by keys; rebuilding TypeSet
  objects; repr of unnamed TypeSets.
* **NumPy** is modelled by an inductive type of dtypes (bool, sized ints, floats, complexes, bytes,
  unicode, datetime64/timedelta64 with units, object, void, structs with subarrays, byte order) and
  the table of `result_type` on bool/int/uint/float/complex/object, object with texts, dates and time
  differences, pairs of fixed-length texts, and pairs of dates or of time differences in all the units that datashape knows; this is a reading of NumPy's
  documentation, not of its source.
* **Discovery** covers None, int, bool, float, complex, str, bytes, datetime/date/time/timedelta,
  ndarrays and objects with shape and dtype, lists, tuples, sets, dicts with string keys
  (Keys.v: int, bool, str and None keys, used by C72 only),
  OrderedDict, mappingproxy, and unregistered objects, which unittest.mock objects are for it (`DOther`: discovery.py:442-446 raises the same
  NotImplementedError). Dicts with yet other keys (floats, bytes, tuples) are not modelled.
* **Not modelled**: `_version.py`, `py2help.py` (Python 2 shims), `dispatch.py` (multipledispatch:
  the model dispatches by class as the registrations say), text of exception messages other than
  those of DataShapeSyntaxError (messages, positions, carets) and of assert_dshape_equal, `IndexCallable` (the model applies
  `_subshape` directly), `print_unicode_string` beyond quoting.
* C59: CPython 3.11's parsers are modelled from its source by reading; the model was compared
  with CPython on 5371 strings outside /verif. C60: 64-bit Linux sizes.

## 3. Trusted base

* Coq's kernel with vm_compute. No plugin beyond the standard distribution; Flocq is used in
  Proof_Float*.v, Proof_Slice2/3.v and Proof_Strings*.v as the reference for binary64.
* The reading of the Python source, as cited definition by definition (nothing is run).
* `Print Assumptions` (run over all property theorems):
  * `C21_any_size`, `C21_error`, `C22_open_slice`, `C59_exact`, `C59_one_reading`, `C59_numbers`, `C59_times`, `C59_str_of_int`, `C59_long_int_refuted`, `C59_amount_unit`, `C59_hh_mm_ss`, `C59_dates`: `ClassicalDedekindReals.sig_forall_dec`, `ClassicalDedekindReals.sig_not_dec`, `Classical_Prop.classic`, `FunctionalExtensionality.functional_extensionality_dep` (all of the standard library's Reals/Logic).
  * every other property theorem (391 of them): "Closed under the global context".
* vcheck lists further axioms of the standard library (Reals symbols, ssrunder) because it counts what is
  loaded; no property theorem depends on them.
* No axioms, admitted proofs, module types or functors of our own.

## 4. Properties

Model, method of proof, theorems. Status and remarks are in MANIFEST.json.

| id | title | model | proof | theorems |
|---|---|---|---|---|
| C01 | Lexer tiles its input | Lexer: regex engine with ordered choice, token table | induction over the lexer loop | lexer_tiles, lexer_tiles_iff, characters |
| C02 | Blanks and comments are insignificant | Lexer; dshape | scanner lemmas per token class; blank-insensitive parse | blanks_tokens, blank_chars, blanks_dshape |
| C03 | A name is lexed as one token | Lexer | case analysis of the first matching pattern | letters, name_is_one_token, bool_prefixed_is_split, name_refuted |
| C04 | Parsing terminates with a datashape or an exception | fuelled Parser | token-count measure: the fuel given by dshape is never exhausted | dshape_total, string_nesting_bound, parser_depth |
| C05 | The parser only accepts sentences of the grammar | Parser vs inductive grammar with actions (Spec_Grammar) | soundness by fuel induction; refuted witnesses | exact, no_garbage, documented_iff, tidy, var_refuted, ellipsis_refuted, question_refuted, tuple_dim_refuted, comma_refuted, empty_record_refuted, keywords |
| C06 | The parser accepts every sentence of the grammar | Parser vs grammar | completeness by induction on derivations, unambiguity | complete, only_validate, unambiguous, kwarg_names, dim_constr_refuted |
| C07 | Everything the parser returns is well formed | Parser, constructors; class invariants (Spec_WF) | invariant through every parser function | parse_wf |
| C08 | Syntax error positions lie inside the text | Parser positions | invariant over token spans | error_positions, error_place |
| C09 | Syntax error line and column are right | error.py | arithmetic on line starts | caret, line_and_column, dshape_errors |
| C10 | str is a right inverse of dshape | Printer + Lexer + Parser | printed text lexes to the intended tokens, which derive the type; C06 gives the parse | print_parse, exact, bare, bare_option_refuted |
| C11 | pprint is layout only | pprint | layout-closed version of the C10 argument | pprint_parse, width_irrelevant |
| C12 | Printing is stable | Printer | from C10/C11 | stable, stable_pprint, injective |
| C13 | Parsing, printing and parsing again | all three | Writable results are Printable; necessity by witnesses | parse_print_parse, true_refuted, newline_refuted, escape_refuted, option_refuted, categories_refuted, strings_refuted, dimension_refuted, parameter_refuted, typevar_refuted |
| C14 | Equality of datashapes is an equivalence relation | py_eq | strong induction on size | eq_refl, eq_trans, eq_sym, ne, sym_typeset_refuted, fixed_int |
| C15 | Equality means same shape and same measure | py_eq vs canonical trees (Spec_Eq) | induction on size | eq_canonical, canonical_unique, lone_measure, records, arrays, option_shape_refuted |
| C16 | Equal datashapes have equal hashes | hash over arbitrary primitive hashes | induction | hash_consistent, set_membership, fixed_int_refuted |
| C17 | Pickling preserves datashapes | __getstate__/__setstate__ | induction | pickle_restores, pickle_exact, pickle_unnamed, pickle_equal, pickle_hash |
| C18 | Records are finite ordered maps | Record | list lemmas | record_constructor, record_order, record_duplicate, record_lookup |
| C19 | Adding dimensions with * | * | parameter lists | mul_dim, mul_int, mul_many, negative, measure_left, string_right, assoc_refuted, string_left_refuted, string_left, string_swapped, int_right, datashape_left_refuted, option_refuted |
| C20 | subarray drops exactly the leading dimensions | subarray | list lemmas | subarray, subarray_too_many, subarray_compose, subarray_undoes_mul, subarray_negative, subarray_bare |
| C21 | subshape with an integer slice: the length it computes, and when it is Python's | subshape with slices, true division | integers + a binary64 division written in Z; equated with Flocq | python_len, slice_len_exists, python_len_negative, computed, computed_without_step, step_zero, clamp_refuted, stop_zero_refuted, empty_refuted, negative_step_refuted, precision_refuted, any_size, error |
| C22 | subshape on records and tuples of indices | subshape with other indices, relation Select | induction on index lists | subshape_tuple, subshape_single, field_slice, subshape_only_selects, field_exact, fields_exact, missing_field, fields_raise, slice_in_list, invalid_index, measure_slice, open_slice |
| C23 | cat_dshapes adds leading dimensions | cat_dshapes | induction | cat_iff, cat_singleton, cat_empty, cat_raises, cat_error, cat_assoc, cat_perm |
| C24 | At most one ellipsis per array | validation | induction | parse_validated, validate, record_refuted, tuple_refuted |
| C25 | Time units are normalised | normalize_time_unit | exact string specification (Spec_Time) | normalize_spec, normalize_total, normalize_idempotent, normalize_blanks, canonical_fixed, alias_and_plural, normalize_raises, value_error_refuted |
| C26 | Integer decimals fit their NumPy type | Decimal | arithmetic | integer_decimal, scaled_decimal |
| C27 | NumPy round trip | to/from_numpy, inductive dtypes | induction | numpy_roundtrip, datashape_roundtrip, shape, lossy_refuted |
| C28 | Type promotion is symmetric and idempotent | promote, result_type | case analysis lifted to all sizes, induction | promote_scalars, idempotent, symmetric, option_iff, no_option, joined, unjoined, units, attributes_refuted, associative_refuted |
| C29 | maxtype widens within its family | maxtype, supertype | case analysis | widest, decimal_timedelta, idempotent, rejects, records_refuted |
| C30 | Topological sort is right under every schedule | _toposort, nondeterministic pop as oracle | Kahn invariants | toposort, toposort_raises, repeated_refuted |
| C31 | descendents is reachability | descendents | reachability | descendents |
| C32 | The lowest common type is a least upper bound, whatever the schedule | lowest_common_dshape | finite order facts, all schedules | lowest_common, order_schedule, unknown, empty |
| C33 | Uniting column types | unite_base | least upper bounds | unite_base, order, unknown |
| C34 | discover gives one entry per element | discover | induction on values | one_per_element, empty, table, mixed_column, total_refuted, strings_refuted |
| C35 | discover ignores dict insertion order | discover on mappings | permutations, sortedness | order, sorted, ordered, fields |
| C36 | Discovery of a list of records keeps every field | discover on lists of dicts | column characterisation | list_of_dicts, nested_refuted |
| C37 | has_ellipsis / has_var_dim detect every occurrence | has_ellipsis/has_var_dim | induction on types | has_ellipsis, has_var_dim |
| C38 | isfixed implies no variable dimension | isfixed | induction, exact | plain, isfixed, ellipsis_refuted, option_refuted, tuple_refuted |
| C39 | Registered type names are never redefined | Type registry as state machine | invariant over histories | register_keeps, keeps_unless_same_name, register_result, found_iff, named_datashape_refuted, class_refuted |
| C40 | validate checks arrays elementwise | user.validate | induction; relation Valid | exact, raises, validate, fixed, var, record_dict, none_never, tuple_schema, short_tuple_refuted, option_refuted, ellipsis_refuted, scalar_array_refuted |
| C41 | assert_dshape_equal accepts equal datashapes and rejects different ones | assert_dshape_equal | induction, exact | accepts_equal, accepted_are_equal, relaxing_accepts, exact, rank_refuted, units_refuted, fixlen_error_refuted |
| C42 | collect returns exactly the matching subterms | collect, ishomogeneous | induction | collect, collect_fails, ishomogeneous, ellipsis_refuted, typevar_refuted |
| C43 | Shape predicates classify every datashape | predicates | case analysis, exact | isnumeric, isscalar, isrecord, inside_unique, istabular, istabular_bare, iscollection, iscollection_bare, isdimension, isdimension_any, scalar_exclusive, looked, isreal, isboolean, isdatelike |
| C44 | Record literals | Record literals R[...] | induction | record_literal, record_literal_bad |
| C45 | String types are canonical | String | finite table + all lengths | string, canonical, spellings_equal, distinct, rebuild |
| C46 | Discovery does not depend on hash seeds or set orders | discover under all schedules | independence of oracles | schedule, set_order_refuted |
| C47 | What discover returns is a well-formed, concrete, printable type | discover results | invariant D through discovery | discover_finds, roundtrip, roundtrip_array, backslash_refuted, environment, dshape_total |
| C48 | When discover fails on nested data | discover exceptions | invariants att/tot through discovery | total, scalars, strings, cause, leaf_errors, delta_refuted, complex_refuted, times_refuted |
| C49 | discover on arrays keeps the shape and describes the dtype | discover on arrays (Discovery.v), is_string_array on their contents (Arrays.v) | relations Described and Measures (Spec_Arrays.v) | content, text_array, object_array, sixth_refuted, array, exact, like, deterministic |
| C50 | Every datashape can be rebuilt from its parameters | type(obj)(*obj.parameters) | case analysis over classes | reconstructable, ctype_refuted, categorical_refuted |
| C51 | Datashapes behave as sequences | len/index/iterate | list lemmas | datashape, slice, unpack, measure, record_refuted |
| C52 | dshape accepts any object and is idempotent | dshape(o), dshapes | case analysis + parser theorems | object, object_raises, idempotent, list, list_refuted, other, dshapes |
| C53 | repr is evaluable | repr and eval of it | grammar of constructor expressions | eval_repr, quote_refuted |
| C54 | Type sets behave as named sets | TypeSet, matches_typeset, registry | list lemmas | len, or, contains, order_refuted, matches_measure, matches_typesets, matches_refuted, supertype, supertype_raises, supertype_only, float16_refuted, names, name_taken |
| C55 | issubschema decides equality of schemas | issubschema | fuel; divergence for every depth | equality, strings, recursion_refuted |
| C56 | A failed assert_dshape_equal names the place of the difference | path reported by assert_dshape_equal | induction | path, same, follow_unique, clock_refuted, text |
| C57 | Symbol tables are consulted only for the names in the text | symbol tables | parametric parser | local, new_name, alias, grammar |
| C58 | groupby, reverse_dict, remove and isidentifier do what their docs say on every input | internal utils | induction over association lists | groupby, reverse_dict, remove, isidentifier |
| C59 | discover gives each string exactly the type its text denotes | discover on strings; CPython int/float/strptime/isalpha (Strings.v) | exact grammars (Spec_Strings) | exact, one_reading, numbers, times, str_of_int, long_int_refuted, amount_unit, hh_mm_ss, dates, scalars, max_int_refuted |
| C60 | Item sizes and alignments are those of NumPy | itemsize/alignment/Function | tables + induction | itemsize, as_numpy, from_numpy, function |
| C61 | The discovered datashape describes the data | discover; relation Fits (Spec_Fits) | induction on values; uniting relation U | describes, fits_rejects, empty_dict_refuted, all_keys_refuted |
| C62 | Regular data: discover finds the expected datashape and validate accepts it | discover on nested data, user.validate | induction on the form of the data; the row, dict and plain paths of discover agree; validate via the relation Valid of C40 | recovers, unique, ragged, validates, ragged_validates, not_accepted_refuted, ordered_dict_refuted |
| C63 | Type constructors: names, arguments, keywords and defaults | the symbol tables and constructor functions (Construct.v), parser | argument binding is characterised by induction over the parameter list; each constructor is inverted against the relation Meaning; texts via the exact grammar of C05 | names, constructors, string, no_others, call, call_mismatch, call_string, table, dims, decimal |
| C64 | NumPy conversions: exact in both directions | from_numpy, CType.from_numpy_dtype, to_numpy, to_numpy_dtype and the to_numpy_dtype methods (Numpy.v) | strong induction on the size of the datashape, and on the structure of the dtype; the model functions are shown equivalent to the relations FromDtype, AsDtype/AsShaped/Inner and Kept of Spec_NpConv.v | from_numpy, from_numpy_refuses, from_dtype, to_numpy, to_numpy_dtype, method, to_numpy_refuses, dtype_and_back, stable, empty_record_refuted |
| C65 | repr shows the class and every attribute | __repr__ of every class, repr of strings (Objects.v, Printer.v), _fmt_path | induction on the datashape; hexadecimal escapes by induction on the number of digits; Python literals are a relation (Spec_Repr.v) shown functional | string, string_only, repr, ctype, ctype_refuted |
| C66 | pprint only breaks lines, and only where needed | pprint, the __str__ methods (Printer.v) | a layout relation between texts and one-line texts (Spec_Layout.v), proved by induction on the datashape for every printing mode; re-indentation shifts the relation by one level | lines, exact, wider, option_refuted |
| C67 | Which exceptions dshape raises on a text | lexer, parser, constructors, validate (Lexer.v, Parser.v, Construct.v, Preds.v) | invariant of the recursive-descent parser over suffixes of the token stream: every exception raised satisfies a contract, labels of a record are a subsequence of the labels of the stream, ellipses of a result are at most the ellipsis tokens consumed; the contract is instantiated twice (with and without brackets) | errors, plain, categories, refuted |
| C68 | Messages of assert_dshape_equal | assert_dshape_equal with its messages (Messages.v) | lockstep simulation between the model with messages and the model with paths (Report.v), by induction on the depth; the headline is a relation (Spec_Messages.v) | message, same |
| C69 | Predicates read texts | Texts.v: the predicates on any argument (text, datashape, list, other object), on top of dshape and the predicates on objects | from C07 (what dshape returns is well formed) and C38/C43 | rejected, answers, isnumeric, isfixed, text_or_object, raises_refuted, list |
| C70 | Syntax error messages tell the truth | Parser.v with the messages (synmsg), Objects.msg_text/err_str/syntax_str; Spec_Syntax.v says for each message what stands before and after the place, in terms of the grammar of Spec_Grammar.v. | Proof_Syntax.v: a unary invariant over every parser function (each raise carries a Fault, each None a Missing datashape), on top of the soundness lemmas of Proof_Grammar.v; Proof_Syntax2.v: constructors raise only what an inner text raises, transfer between symbol tables, induction on text length. | message_true, table_complete |
| C71 | Every other exception of dshape has its cause in the text | lexer, parser, constructors, validate (Lexer.v, Parser.v, Construct.v, Preds.v); Spec_Raises.v: the table of refusals and the refused constructs, over the grammar of Spec_Grammar.v. | Proof_Raises.v: unary invariant over the parser functions (every exception is one of the lexer or of a construct just read); Proof_Raises2/4.v: the table is complete and disjoint from the meanings of C63; Proof_Raises3.v: sugar never fails because sentences denote well-shaped types (mutual induction on the grammar); Proof_Raises5.v: strings among the arguments are literals of the text, induction on text length. | cause, call, call_refused, string, names |
| C72 | discover on dicts whose keys are not strings | Keys.v: keys (int, bool, str, None), ==, sorted, set.union, str(key), and discover with such keys in place of strings (discovery.py:200-229, 366-374, coretypes.py:1040-1061); Spec_Keys.v: order, equality and names of keys as relations. | Proof_Keys.v: insertion sort on comparable keys, names of comparable keys differ, equality with discover of Discovery.v on string keys by induction on the value; Proof_Keys2.v: lists of dicts, reusing the column lemma of C36; Proof_Keys3.v: well-formedness and round trip, on top of the lemmas of C47; Proof_Keys4.v: permuting dicts at any depth. | string_keys, dict, dict_unsortable, insertion_order, deep_order, ordered, list, list_unsortable, same_name, first_key_refuted, finds, roundtrip, printable_names, bool_key_refuted |

No property is judged inexpressible. Where the code violates the documented claim, the theorem
with suffix `_refuted` gives a witness, and the strongest true statement found is proved next
to it.

## 5. Wrong programs

`seeded/LOG.jsonl` records edits of the model in a scratch copy: the definition, the edit, the claim
it breaks, the theorems that stopped proving, and the theorems added or tightened when none of
the claimed property's did.

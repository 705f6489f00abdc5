{
 "claims": [
  {
   "property": "C01",
   "status": "proved",
   "theorems": [
    "C01_lexer_tiles",
    "C01_lexer_tiles_iff",
    "C01_characters"
   ],
   "note": "Full: lexer result is exactly the tiling of the text."
  },
  {
   "property": "C02",
   "status": "proved",
   "theorems": [
    "C02_blanks_tokens",
    "C02_blank_chars",
    "C02_blanks_dshape"
   ],
   "note": "Token level (iff) and datashape level."
  },
  {
   "property": "C03",
   "status": "proved",
   "theorems": [
    "C03_letters",
    "C03_name_is_one_token",
    "C03_bool_prefixed_is_split",
    "C03_name_refuted"
   ],
   "note": "Exact boundary proved: one token iff not starting with True/False; the documented claim is refuted."
  },
  {
   "property": "C04",
   "status": "proved",
   "theorems": [
    "C04_dshape_total",
    "C04_string_nesting_bound",
    "C04_parser_depth"
   ],
   "note": "For every env whose discover oracle does not itself diverge (disc_ok). Python recursion limit not modelled."
  },
  {
   "property": "C05",
   "status": "proved",
   "theorems": [
    "C05_exact",
    "C05_no_garbage",
    "C05_documented_iff",
    "C05_tidy",
    "C05_var_refuted",
    "C05_ellipsis_refuted",
    "C05_question_refuted",
    "C05_tuple_dim_refuted",
    "C05_comma_refuted",
    "C05_empty_record_refuted",
    "C05_keywords"
   ],
   "note": "The documented grammar is violated by the code (refuted with witnesses). Proved: the exact grammar the parser implements (both directions), and that it coincides with the documented one on texts satisfying a local condition on neighbouring tokens (Tidy), in both directions."
  },
  {
   "property": "C06",
   "status": "proved",
   "theorems": [
    "C06_complete",
    "C06_only_validate",
    "C06_unambiguous",
    "C06_kwarg_names",
    "C06_dim_constr_refuted"
   ],
   "note": "Completeness and unambiguity for the documented grammar without dimension type constructors, which the parser does not implement (refuted with witnesses)."
  },
  {
   "property": "C07",
   "status": "proved",
   "theorems": [
    "C07_parse_wf"
   ],
   "note": "Class invariants on every object occurring in the result."
  },
  {
   "property": "C08",
   "status": "proved",
   "theorems": [
    "C08_error_positions",
    "C08_error_place"
   ],
   "note": ""
  },
  {
   "property": "C09",
   "status": "proved",
   "theorems": [
    "C09_caret",
    "C09_line_and_column",
    "C09_dshape_errors"
   ],
   "note": "For every position in the text, and for every syntax error raised by dshape."
  },
  {
   "property": "C10",
   "status": "proved",
   "theorems": [
    "C10_print_parse",
    "C10_exact",
    "C10_bare",
    "C10_bare_option_refuted"
   ],
   "note": "For every printable datashape (Printable: class invariants plus a local condition Lexable on every object, both in specification files) that validate accepts; also exact equality of objects, and bare measures."
  },
  {
   "property": "C11",
   "status": "proved",
   "theorems": [
    "C11_pprint_parse",
    "C11_width_irrelevant"
   ],
   "note": "Every width, also negative."
  },
  {
   "property": "C12",
   "status": "proved",
   "theorems": [
    "C12_stable",
    "C12_stable_pprint",
    "C12_injective"
   ],
   "note": "Stability and injectivity, for str and pprint at any width."
  },
  {
   "property": "C13",
   "status": "proved",
   "theorems": [
    "C13_parse_print_parse",
    "C13_true_refuted",
    "C13_newline_refuted",
    "C13_escape_refuted",
    "C13_option_refuted",
    "C13_categories_refuted",
    "C13_strings_refuted",
    "C13_dimension_refuted",
    "C13_parameter_refuted",
    "C13_typevar_refuted"
   ],
   "note": "For every text that dshape accepts whose result is Writable (Spec_Print.v): quotable strings and names, at most ten categories, no option of an option, no dimension where a type is expected, readable type variable names. Each of these conditions is shown to be necessary by a C13_..._refuted witness."
  },
  {
   "property": "C14",
   "status": "proved",
   "theorems": [
    "C14_eq_refl",
    "C14_eq_trans",
    "C14_eq_sym",
    "C14_ne",
    "C14_sym_typeset_refuted",
    "C14_fixed_int"
   ],
   "note": "refl/trans for all objects; sym for well-formed TypeSet-free objects; asymmetry with TypeSets exhibited."
  },
  {
   "property": "C15",
   "status": "proved",
   "theorems": [
    "C15_eq_canonical",
    "C15_canonical_unique",
    "C15_lone_measure",
    "C15_records",
    "C15_arrays",
    "C15_option_shape_refuted"
   ],
   "note": "Equality = same canonical tree."
  },
  {
   "property": "C16",
   "status": "proved",
   "theorems": [
    "C16_hash_consistent",
    "C16_set_membership",
    "C16_fixed_int_refuted"
   ],
   "note": "For all primitive hash functions; Fixed vs int exhibited."
  },
  {
   "property": "C17",
   "status": "proved",
   "theorems": [
    "C17_pickle_restores",
    "C17_pickle_exact",
    "C17_pickle_unnamed",
    "C17_pickle_equal",
    "C17_pickle_hash"
   ],
   "note": "All objects; names forgotten exactly."
  },
  {
   "property": "C18",
   "status": "proved",
   "theorems": [
    "C18_record_constructor",
    "C18_record_order",
    "C18_record_duplicate",
    "C18_record_lookup"
   ],
   "note": ""
  },
  {
   "property": "C19",
   "status": "proved",
   "theorems": [
    "C19_mul_dim",
    "C19_mul_int",
    "C19_mul_many",
    "C19_negative",
    "C19_measure_left",
    "C19_string_right",
    "C19_assoc_refuted",
    "C19_string_left_refuted",
    "C19_string_left",
    "C19_string_swapped",
    "C19_int_right",
    "C19_datashape_left_refuted",
    "C19_option_refuted"
   ],
   "note": "Associativity, strings on the left of a bare measure, and bare Option-of-array operands are refuted with witnesses."
  },
  {
   "property": "C20",
   "status": "proved",
   "theorems": [
    "C20_subarray",
    "C20_subarray_too_many",
    "C20_subarray_compose",
    "C20_subarray_undoes_mul",
    "C20_subarray_negative",
    "C20_subarray_bare"
   ],
   "note": ""
  },
  {
   "property": "C21",
   "status": "proved",
   "theorems": [
    "C21_python_len",
    "C21_slice_len_exists",
    "C21_python_len_negative",
    "C21_computed",
    "C21_computed_without_step",
    "C21_step_zero",
    "C21_clamp_refuted",
    "C21_stop_zero_refuted",
    "C21_empty_refuted",
    "C21_negative_step_refuted",
    "C21_precision_refuted",
    "C21_any_size",
    "C21_error"
   ],
   "note": "C21_any_size covers every n, start, stop and step (Flocq binary64 as reference, so it uses the axioms of the standard reals); the coincidence with len(range(n)[start:stop:step]) is proved for in-range ordered bounds and refuted by witnesses outside."
  },
  {
   "property": "C22",
   "status": "proved",
   "theorems": [
    "C22_subshape_tuple",
    "C22_subshape_single",
    "C22_field_slice",
    "C22_subshape_only_selects",
    "C22_field_exact",
    "C22_fields_exact",
    "C22_missing_field",
    "C22_fields_raise",
    "C22_slice_in_list",
    "C22_invalid_index",
    "C22_measure_slice",
    "C22_open_slice"
   ],
   "note": "Relational specification Select; integer slices under the conditions of C21."
  },
  {
   "property": "C23",
   "status": "proved",
   "theorems": [
    "C23_cat_iff",
    "C23_cat_singleton",
    "C23_cat_empty",
    "C23_cat_raises",
    "C23_cat_error",
    "C23_cat_assoc",
    "C23_cat_perm"
   ],
   "note": "Order-insensitivity for measures that are not themselves arrays."
  },
  {
   "property": "C24",
   "status": "proved",
   "theorems": [
    "C24_parse_validated",
    "C24_validate",
    "C24_record_refuted",
    "C24_tuple_refuted"
   ],
   "note": "Exact: accepted iff every reached array has at most one ellipsis and none as measure. Record fields and tuple items are not reached by the code (refuted with witnesses)."
  },
  {
   "property": "C25",
   "status": "proved",
   "theorems": [
    "C25_normalize_spec",
    "C25_normalize_total",
    "C25_normalize_idempotent",
    "C25_normalize_blanks",
    "C25_canonical_fixed",
    "C25_alias_and_plural",
    "C25_normalize_raises",
    "C25_value_error_refuted"
   ],
   "note": "Exact specification of accepted texts; IndexError instead of ValueError exhibited."
  },
  {
   "property": "C26",
   "status": "proved",
   "theorems": [
    "C26_integer_decimal",
    "C26_scaled_decimal"
   ],
   "note": ""
  },
  {
   "property": "C27",
   "status": "proved",
   "theorems": [
    "C27_numpy_roundtrip",
    "C27_datashape_roundtrip",
    "C27_shape",
    "C27_lossy_refuted"
   ],
   "note": "Exact fragment both ways; the lossy cases are exhibited."
  },
  {
   "property": "C28",
   "status": "proved",
   "theorems": [
    "C28_promote_scalars",
    "C28_idempotent",
    "C28_symmetric",
    "C28_option_iff",
    "C28_no_option",
    "C28_joined",
    "C28_unjoined",
    "C28_units",
    "C28_attributes_refuted",
    "C28_associative_refuted"
   ],
   "note": "Scalars: symmetric, covering, minimal. Symmetry/idempotence/option rule for all datashapes for which promotion succeeds in the modelled NumPy fragment (bool, int, uint, float, complex, object, texts, dates, time differences). Associativity refuted."
  },
  {
   "property": "C29",
   "status": "proved",
   "theorems": [
    "C29_widest",
    "C29_decimal_timedelta",
    "C29_idempotent",
    "C29_rejects",
    "C29_records_refuted"
   ],
   "note": "Records raise KeyError instead of TypeError (proved for all records)."
  },
  {
   "property": "C30",
   "status": "proved",
   "theorems": [
    "C30_toposort",
    "C30_toposort_raises",
    "C30_repeated_refuted"
   ],
   "note": "Every graph given as a dict of sets; a repeated successor in a tuple raises AssertionError (refuted with a witness)."
  },
  {
   "property": "C31",
   "status": "proved",
   "theorems": [
    "C31_descendents"
   ],
   "note": ""
  },
  {
   "property": "C32",
   "status": "proved",
   "theorems": [
    "C32_lowest_common",
    "C32_order_schedule",
    "C32_unknown",
    "C32_empty"
   ],
   "note": "Every schedule; unknown scalars raise ValueError."
  },
  {
   "property": "C33",
   "status": "proved",
   "theorems": [
    "C33_unite_base",
    "C33_order",
    "C33_unknown"
   ],
   "note": "Complete characterisation (ColumnType) with uniqueness and order independence."
  },
  {
   "property": "C34",
   "status": "proved",
   "theorems": [
    "C34_one_per_element",
    "C34_empty",
    "C34_table",
    "C34_mixed_column",
    "C34_total_refuted",
    "C34_strings_refuted"
   ],
   "note": "Plus the complete characterisation for tables of scalars; totality refuted with witnesses (mixed columns, strings such as \"1 sss\")."
  },
  {
   "property": "C35",
   "status": "proved",
   "theorems": [
    "C35_order",
    "C35_sorted",
    "C35_ordered",
    "C35_fields"
   ],
   "note": ""
  },
  {
   "property": "C36",
   "status": "proved",
   "theorems": [
    "C36_list_of_dicts",
    "C36_nested_refuted"
   ],
   "note": "Lists of dicts of scalars; nested columns of records lose fields (refuted with a witness)."
  },
  {
   "property": "C37",
   "status": "proved",
   "theorems": [
    "C37_has_ellipsis",
    "C37_has_var_dim"
   ],
   "note": ""
  },
  {
   "property": "C38",
   "status": "proved",
   "theorems": [
    "C38_plain",
    "C38_isfixed",
    "C38_ellipsis_refuted",
    "C38_option_refuted",
    "C38_tuple_refuted"
   ],
   "note": "Exact characterisation for every well-formed datashape (C38_isfixed); the ideal reading is refuted for ellipsis and for var under option/tuple."
  },
  {
   "property": "C39",
   "status": "proved",
   "theorems": [
    "C39_register_keeps",
    "C39_keeps_unless_same_name",
    "C39_register_result",
    "C39_found_iff",
    "C39_named_datashape_refuted",
    "C39_class_refuted"
   ],
   "note": "Plus: what exactly breaks it (class statements and named DataShapes) with witnesses."
  },
  {
   "property": "C40",
   "status": "proved",
   "theorems": [
    "C40_exact",
    "C40_raises",
    "C40_validate",
    "C40_fixed",
    "C40_var",
    "C40_record_dict",
    "C40_none_never",
    "C40_tuple_schema",
    "C40_short_tuple_refuted",
    "C40_option_refuted",
    "C40_ellipsis_refuted",
    "C40_scalar_array_refuted"
   ],
   "note": "validate answers yes exactly on the relation Valid, for every schema (ellipses included), every value and every behaviour of numpy; when it raises is characterised (ellipsis, 0-dimensional array, numpy); elementwise laws; short/long tuples, options and ellipses exhibited."
  },
  {
   "property": "C41",
   "status": "proved",
   "theorems": [
    "C41_accepts_equal",
    "C41_accepted_are_equal",
    "C41_relaxing_accepts",
    "C41_exact",
    "C41_rank_refuted",
    "C41_units_refuted",
    "C41_fixlen_error_refuted"
   ],
   "note": "Exact characterisation of what is accepted under any checks (C41_exact), and the ideal claim under its exact side conditions; refuted otherwise (ranks, Units)."
  },
  {
   "property": "C42",
   "status": "proved",
   "theorems": [
    "C42_collect",
    "C42_collect_fails",
    "C42_ishomogeneous",
    "C42_ellipsis_refuted",
    "C42_typevar_refuted"
   ],
   "note": "collect for every predicate and value (positions, order, completeness, and when it fails); ishomogeneous exactly, including when it raises."
  },
  {
   "property": "C43",
   "status": "proved",
   "theorems": [
    "C43_isnumeric",
    "C43_isscalar",
    "C43_isrecord",
    "C43_inside_unique",
    "C43_istabular",
    "C43_istabular_bare",
    "C43_iscollection",
    "C43_iscollection_bare",
    "C43_isdimension",
    "C43_isdimension_any",
    "C43_scalar_exclusive",
    "C43_looked",
    "C43_isreal",
    "C43_isboolean",
    "C43_isdatelike"
   ],
   "note": "Exact characterisations; surprising answers exhibited."
  },
  {
   "property": "C44",
   "status": "proved",
   "theorems": [
    "C44_record_literal",
    "C44_record_literal_bad"
   ],
   "note": ""
  },
  {
   "property": "C45",
   "status": "proved",
   "theorems": [
    "C45_string",
    "C45_canonical",
    "C45_spellings_equal",
    "C45_distinct",
    "C45_rebuild"
   ],
   "note": ""
  },
  {
   "property": "C46",
   "status": "proved",
   "theorems": [
    "C46_schedule",
    "C46_set_order_refuted"
   ],
   "note": ""
  },
  {
   "property": "C47",
   "status": "proved",
   "theorems": [
    "C47_discover_finds",
    "C47_roundtrip",
    "C47_roundtrip_array",
    "C47_backslash_refuted",
    "C47_environment",
    "C47_dshape_total"
   ],
   "note": "Assumes only that dateutil raises Python exceptions. Discharges the oracle hypothesis disc_ok of the parser theorems for the modelled discover."
  },
  {
   "property": "C48",
   "status": "proved",
   "theorems": [
    "C48_total",
    "C48_scalars",
    "C48_strings",
    "C48_cause",
    "C48_leaf_errors",
    "C48_delta_refuted",
    "C48_complex_refuted",
    "C48_times_refuted"
   ],
   "note": "Totality on leaves of the coercion graph, and the cause of every exception on any nested value; string oracles (int, float, strptime, dateutil) arbitrary, dateutil only assumed to raise Python exceptions."
  },
  {
   "property": "C49",
   "status": "proved",
   "theorems": [
    "C49_content",
    "C49_text_array",
    "C49_object_array",
    "C49_sixth_refuted",
    "C49_array",
    "C49_exact",
    "C49_like",
    "C49_deterministic"
   ],
   "note": "C49_array is stated for any outcome of the test on the object columns; C49_content for the test of the code, which looks at the first five values only (C49_sixth_refuted)."
  },
  {
   "property": "C50",
   "status": "proved",
   "theorems": [
    "C50_reconstructable",
    "C50_ctype_refuted",
    "C50_categorical_refuted"
   ],
   "note": "Violated for CType (every CType) and Categorical over an array: refuted. Calling TypeSet on its parameters is not modelled."
  },
  {
   "property": "C51",
   "status": "proved",
   "theorems": [
    "C51_datashape",
    "C51_slice",
    "C51_unpack",
    "C51_measure",
    "C51_record_refuted"
   ],
   "note": "Slices of records (whose keys are looked up) not modelled."
  },
  {
   "property": "C52",
   "status": "proved",
   "theorems": [
    "C52_object",
    "C52_object_raises",
    "C52_idempotent",
    "C52_list",
    "C52_list_refuted",
    "C52_other",
    "C52_dshapes"
   ],
   "note": "A list whose last item is the text of an array gives a nested array (refuted witness)."
  },
  {
   "property": "C53",
   "status": "proved",
   "theorems": [
    "C53_eval_repr",
    "C53_quote_refuted"
   ],
   "note": "Apostrophes in names break it (refuted)."
  },
  {
   "property": "C54",
   "status": "proved",
   "theorems": [
    "C54_len",
    "C54_or",
    "C54_contains",
    "C54_order_refuted",
    "C54_matches_measure",
    "C54_matches_typesets",
    "C54_matches_refuted",
    "C54_supertype",
    "C54_supertype_raises",
    "C54_supertype_only",
    "C54_float16_refuted",
    "C54_names",
    "C54_name_taken"
   ],
   "note": "Equality of type sets depends on the order, matching of two type sets is positional, float16 is in the map of supertypes but rejected (refuted with witnesses)."
  },
  {
   "property": "C55",
   "status": "proved",
   "theorems": [
    "C55_equality",
    "C55_strings",
    "C55_recursion_refuted"
   ],
   "note": "Violated by endless recursion for every object that dshape does not turn into a DataShape (refuted for every depth)."
  },
  {
   "property": "C56",
   "status": "proved",
   "theorems": [
    "C56_path",
    "C56_same",
    "C56_follow_unique",
    "C56_clock_refuted",
    "C56_text"
   ],
   "note": "Path soundness and depth for every failing comparison; the missing path for datetime vs time is part of the statement and exhibited. The rest of the message: C68."
  },
  {
   "property": "C57",
   "status": "proved",
   "theorems": [
    "C57_local",
    "C57_new_name",
    "C57_alias",
    "C57_grammar"
   ],
   "note": "Locality for arbitrary symbol tables and texts; grammar exactness for tables in which no name is both a dtype and a dimension."
  },
  {
   "property": "C58",
   "status": "proved",
   "theorems": [
    "C58_groupby",
    "C58_reverse_dict",
    "C58_remove",
    "C58_isidentifier"
   ],
   "note": "For keys whose == is an equivalence relation consistent with hash; all Python keywords match the identifier regex, so keyword.iskeyword adds nothing."
  },
  {
   "property": "C59",
   "status": "proved",
   "theorems": [
    "C59_exact",
    "C59_one_reading",
    "C59_numbers",
    "C59_times",
    "C59_str_of_int",
    "C59_long_int_refuted",
    "C59_amount_unit",
    "C59_hh_mm_ss",
    "C59_dates",
    "C59_scalars",
    "C59_max_int_refuted"
   ],
   "note": "int(), float(), strptime and str.isalpha of CPython 3.11 are modelled in Strings.v; dateutil is an arbitrary function; Unicode tables beyond 127 are arbitrary. Two surprises are kept as refuted theorems."
  },
  {
   "property": "C60",
   "status": "proved",
   "theorems": [
    "C60_itemsize",
    "C60_as_numpy",
    "C60_from_numpy",
    "C60_function"
   ],
   "note": "64-bit Linux constants; NumPy itemsize and alignment specified in Spec_Attrs.v. char, which NumPy reads as S1, is left out of the conversion model."
  },
  {
   "property": "C61",
   "status": "proved",
   "theorems": [
    "C61_describes",
    "C61_fits_rejects",
    "C61_empty_dict_refuted",
    "C61_all_keys_refuted"
   ],
   "note": "For values without empty dicts; two refuted theorems show what goes wrong with empty dicts and that a column of dicts loses later keys. What fits is defined in Spec_Fits.v."
  },
  {
   "property": "C62",
   "status": "proved",
   "theorems": [
    "C62_recovers",
    "C62_unique",
    "C62_ragged",
    "C62_validates",
    "C62_ragged_validates",
    "C62_not_accepted_refuted",
    "C62_ordered_dict_refuted"
   ],
   "note": "Exact on regular data (Spec_Regular.v); numpy scalars inside the data are left out of the validate part; what validate rejects is exhibited in refuted theorems."
  },
  {
   "property": "C63",
   "status": "proved",
   "theorems": [
    "C63_names",
    "C63_constructors",
    "C63_string",
    "C63_no_others",
    "C63_call",
    "C63_call_mismatch",
    "C63_call_string",
    "C63_table",
    "C63_dims",
    "C63_decimal"
   ],
   "note": "type names and constructors of the default symbol table: signature, binding of positional and keyword arguments, meaning; for texts in any layout and for calls. Arguments of a kind the model leaves out (non-integer precision, datashapes as categories, bool lengths) count as not accepted"
  },
  {
   "property": "C64",
   "status": "proved",
   "theorems": [
    "C64_from_numpy",
    "C64_from_numpy_refuses",
    "C64_from_dtype",
    "C64_to_numpy",
    "C64_to_numpy_dtype",
    "C64_method",
    "C64_to_numpy_refuses",
    "C64_dtype_and_back",
    "C64_stable",
    "C64_empty_record_refuted"
   ],
   "note": "exact for every dtype of the model (no offsets, titles, sub-array dtypes outside structs) and every datashape; scalar types without a NumPy dtype of their own name (char) and string lengths beyond the NumPy maximum are left out"
  },
  {
   "property": "C65",
   "status": "proved",
   "theorems": [
    "C65_string",
    "C65_string_only",
    "C65_repr",
    "C65_ctype",
    "C65_ctype_refuted"
   ],
   "note": "strings: any code points; objects: scalars, strings, arrays, records and tuples inside must be free of quotes, backslashes and unprintable characters (see C53 for what goes wrong otherwise); type sets are left out"
  },
  {
   "property": "C66",
   "status": "proved",
   "theorems": [
    "C66_lines",
    "C66_exact",
    "C66_wider",
    "C66_option_refuted"
   ],
   "note": "for datashapes without names whose scalar names, type variables and field names hold no newline; the width handed to nested brackets is only characterised through what fits and what does not"
  },
  {
   "property": "C67",
   "status": "proved",
   "theorems": [
    "C67_errors",
    "C67_plain",
    "C67_categories",
    "C67_refuted"
   ],
   "note": "arguments of types the model leaves out (a truth value or list as a length, non-string type variable names, datashapes as categories, ...) are covered only by an explicit NotModelled case; the six exceptions that are not syntax errors do occur (C67_refuted)"
  },
  {
   "property": "C68",
   "status": "proved",
   "theorems": [
    "C68_message",
    "C68_same"
   ],
   "note": "str and repr of the objects are those of C10-C13, C53, C65; repr of unnamed type sets is not modelled"
  },
  {
   "property": "C69",
   "status": "proved",
   "theorems": [
    "C69_rejected",
    "C69_answers",
    "C69_isnumeric",
    "C69_isfixed",
    "C69_text_or_object",
    "C69_raises_refuted",
    "C69_list"
   ],
   "note": "predicates on texts: same exception, same answer, exact characterisation; raising texts exhibited"
  },
  {
   "property": "C70",
   "status": "proved",
   "theorems": [
    "C70_message_true",
    "C70_table_complete"
   ],
   "note": "Every DataShapeSyntaxError of dshape(text): the message is true of the tokens before and after the reported place of the text (or of a string literal inside that was read as a datashape), for each of the twenty messages; the string form shows line, caret and message; the default table never lacks an entry."
  },
  {
   "property": "C71",
   "status": "proved",
   "theorems": [
    "C71_cause",
    "C71_call",
    "C71_call_refused",
    "C71_string",
    "C71_names"
   ],
   "note": "Every non-syntax exception of dshape(text): a refused literal, a refused construct of the text with that very exception, or misplaced ellipses; complete table of refused arguments for all constructors, disjoint from what they accept; the surprising exceptions only from the named constructors."
  },
  {
   "property": "C72",
   "status": "proved",
   "theorems": [
    "C72_string_keys",
    "C72_dict",
    "C72_dict_unsortable",
    "C72_insertion_order",
    "C72_deep_order",
    "C72_ordered",
    "C72_list",
    "C72_list_unsortable",
    "C72_same_name",
    "C72_first_key_refuted",
    "C72_finds",
    "C72_roundtrip",
    "C72_printable_names",
    "C72_bool_key_refuted"
   ],
   "note": "All keys that are ints, bools, strings or None; floats, bytes, tuples and other hashable keys are not modelled. Which of several equal keys names a column depends on the order of the list (exhibited)."
  }
 ]
}
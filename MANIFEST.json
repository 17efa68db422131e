{
 "claims": [
  {
   "property": "C01",
   "status": "proved",
   "theorems": [
    "C01_entity_roundtrip"
   ],
   "note": ""
  },
  {
   "property": "C02",
   "status": "proved",
   "theorems": [
    "C02_escaped_is_safe"
   ],
   "note": ""
  },
  {
   "property": "C03",
   "status": "partial",
   "theorems": [
    "C03_single_pass_partial",
    "C03_single_pass_refuted"
   ],
   "note": "false in general: &#38;lt; is decoded twice; proved when no numeric reference denotes the ampersand"
  },
  {
   "property": "C04",
   "status": "proved",
   "theorems": [
    "C04_serialise_parse"
   ],
   "note": ""
  },
  {
   "property": "C05",
   "status": "proved",
   "theorems": [
    "C05_reserialise_stable"
   ],
   "note": ""
  },
  {
   "property": "C06",
   "status": "partial",
   "theorems": [
    "C06_termination_partial",
    "C06_termination_refuted",
    "C06_step_bound_exact",
    "C06_never_returns",
    "C06_otherwise"
   ],
   "note": "false in general: '<a' loops forever.  C06_never_returns: for texts without U+0000, exactly which ones loop (the text ends inside a start tag and the tags before it are acceptable); C06_otherwise + C07_accepts: every other text gives a document or a syntax error, exactly which"
  },
  {
   "property": "C07",
   "status": "partial",
   "theorems": [
    "C07_balanced_partial",
    "C07_accepted_has_tokens",
    "C07_balanced_refuted",
    "C07_exact",
    "C07_accepts",
    "C07_defects"
   ],
   "note": "end tags are checked; unclosed elements and a nameless top-level end tag are accepted (refuted). C07_exact: exactly which token lists are accepted; C07_defects: those two are the only ways to be accepted unbalanced"
  },
  {
   "property": "C08",
   "status": "proved",
   "theorems": [
    "C08_parsed_well_linked"
   ],
   "note": ""
  },
  {
   "property": "C09",
   "status": "proved",
   "theorems": [
    "C09_set_attribute",
    "C09_delete_attribute"
   ],
   "note": ""
  },
  {
   "property": "C10",
   "status": "proved",
   "theorems": [
    "C10_insert_previous",
    "C10_insert_next",
    "C10_delete_child",
    "C10_replace_with"
   ],
   "note": "the inserted node must not be the receiver's own parent"
  },
  {
   "property": "C11",
   "status": "partial",
   "theorems": [
    "C11_append_child_partial",
    "C11_append_child_refuted"
   ],
   "note": "parent() is not updated by append_child"
  },
  {
   "property": "C12",
   "status": "proved",
   "theorems": [
    "C12_document_order"
   ],
   "note": ""
  },
  {
   "property": "C54",
   "status": "partial",
   "theorems": [
    "C54_edited_well_linked_partial",
    "C54_edited_well_linked_refuted"
   ],
   "note": "false for append_child and for inserting nodes with children or attributes; proved for all histories of the other edits"
  },
  {
   "property": "C13",
   "status": "proved",
   "theorems": [
    "C13_sort_by_doc_order"
   ],
   "note": ""
  },
  {
   "property": "C14",
   "status": "partial",
   "theorems": [
    "C14_union",
    "C14_intersect_except_partial",
    "C14_intersect_except_refuted"
   ],
   "note": "union proved; intersect/except neither sort nor deduplicate; members proved right, and order/uniqueness inherited from the left operand"
  },
  {
   "property": "C15",
   "status": "proved",
   "theorems": [
    "C15_axes_partition"
   ],
   "note": ""
  },
  {
   "property": "C16",
   "status": "partial",
   "theorems": [
    "C16_axes_partial",
    "C16_attribute_refuted",
    "C16_attribute_context"
   ],
   "note": "proved for all non-attribute context nodes and all axes; an attribute context node has no following/preceding nodes in this program"
  },
  {
   "property": "C47",
   "status": "proved",
   "theorems": [
    "C47_namespace_uri",
    "C47_prefix_and_local_name"
   ],
   "note": "for every node of every heap reachable by parsing and any edits; names with an empty prefix (':x') are outside the statement"
  },
  {
   "property": "C50",
   "status": "proved",
   "theorems": [
    "C50_pretty_lines",
    "C50_pretty_reparse"
   ],
   "note": ""
  },
  {
   "property": "C39",
   "status": "proved",
   "theorems": [
    "C39_string_literal"
   ],
   "note": ""
  },
  {
   "property": "C40",
   "status": "proved",
   "theorems": [
    "C40_comment",
    "C40_comment_unique",
    "C40_white_space",
    "C40_tokens_separate"
   ],
   "note": ""
  },
  {
   "property": "C41",
   "status": "partial",
   "theorems": [
    "C41_compile_panics_partial",
    "C41_lexer_panics_iff_no_token",
    "C41_compile_refuted"
   ],
   "note": "false in general: compiling panics exactly on expressions without a token (empty, blanks, comments only)"
  },
  {
   "property": "C42",
   "status": "proved",
   "theorems": [
    "C42_precedence",
    "C42_unambiguous",
    "C42_nonassociative",
    "C42_key_refuted"
   ],
   "note": "The grammar of SpecExpr.v: every construct of XPath 3.1 the parser knows except typed parameters and return types of inline functions, parenthesised, typed-function, schema and union item types, and braced names. The printed form puts a key of a map that is not a literal in parentheses: without them it is a syntax error (C42_key_refuted)."
  },
  {
   "property": "C43",
   "status": "proved",
   "theorems": [
    "C43_parser_terminates",
    "C43_compile_terminates"
   ],
   "note": ""
  },
  {
   "property": "C44",
   "status": "proved",
   "theorems": [
    "C44_all_tokens_consumed",
    "C44_contiguous",
    "C44_trailing_rejected"
   ],
   "note": ""
  },
  {
   "property": "C45",
   "status": "partial",
   "theorems": [
    "C45_keywords_partial",
    "C45_keywords_refuted",
    "C45_words_exact"
   ],
   "note": "C45_words_exact: any name in the place of a keyword compiles to the same tree as the keyword; false in general: the keyword check only fires when the token is neither a name nor the keyword"
  },
  {
   "property": "C46",
   "status": "partial",
   "theorems": [
    "C46_arguments_partial",
    "C46_arguments_refuted",
    "C46_gaps_exact"
   ],
   "note": "C46_gaps_exact: a call with missing arguments compiles to the call with the arguments before the first gap; false in general: elements after an empty element are dropped"
  },
  {
   "property": "C51",
   "status": "partial",
   "theorems": [
    "C51_arity_checked_partial",
    "C51_arrow_refuted",
    "C51_arrow"
   ],
   "note": "a call f(..) is accepted exactly when the table has the entry; REFUTED for arrow calls, which are not checked when compiling: they always compile, and give no value (CantOccur once the arguments are evaluated) when the table has no entry"
  },
  {
   "property": "C23",
   "status": "proved",
   "theorems": [
    "C23_general_comparison",
    "C23_empty"
   ],
   "note": ""
  },
  {
   "property": "C24",
   "status": "partial",
   "theorems": [
    "C24_integers",
    "C24_strings",
    "C24_booleans",
    "C24_empty_partial",
    "C24_empty_refuted",
    "C24_doubles_partial",
    "C24_nan_refuted",
    "C24_numbers",
    "C24_nan",
    "C24_lex_total_order"
   ],
   "note": "the order part is proved for integers, strings/nodes, booleans and (C24_numbers) all numbers, with NaN as in C24_nan; with an empty operand eq/lt/gt give () but ne/le/ge give true, so the empty case of the claim is false"
  },
  {
   "property": "C25",
   "status": "partial",
   "theorems": [
    "C25_exact",
    "C25_idiv_mod",
    "C25_division_by_zero",
    "C25_overflow_refuted",
    "C25_idiv_refuted"
   ],
   "note": "exactness, truncation and division by zero proved for all pairs; overflow and MIN idiv/mod -1 panic"
  },
  {
   "property": "C26",
   "status": "proved",
   "theorems": [
    "C26_promotion",
    "C26_integers_stay",
    "C26_type_error"
   ],
   "note": ""
  },
  {
   "property": "C27",
   "status": "partial",
   "theorems": [
    "C27_range",
    "C27_empty_refuted"
   ],
   "note": "ranges proved; an empty operand is a type error instead of ()"
  },
  {
   "property": "C29",
   "status": "proved",
   "theorems": [
    "C29_contains",
    "C29_starts_with",
    "C29_ends_with",
    "C29_substring_before_after"
   ],
   "note": ""
  },
  {
   "property": "C30",
   "status": "partial",
   "theorems": [
    "C30_translate_partial",
    "C30_translate_last",
    "translates_unique",
    "C30_translate_refuted"
   ],
   "note": "proved when the second argument has no repeated character; otherwise the last occurrence is used"
  },
  {
   "property": "C31",
   "status": "partial",
   "theorems": [
    "C31_normalize_space_partial",
    "C31_normalize_space_words",
    "C31_normalize_space_refuted"
   ],
   "note": "words are joined with no space: proved for at most one word, refuted for every text of two or more"
  },
  {
   "property": "C32",
   "status": "partial",
   "theorems": [
    "C32_reverse",
    "C32_insert_before",
    "C32_insert_before_refuted",
    "C32_remove",
    "C32_head_tail",
    "C32_count_empty_exists",
    "C32_index_of",
    "C32_index_of_total_partial",
    "C32_index_of_refuted",
    "C32_cardinality"
   ],
   "note": "insert-before panics at the least integer; index-of raises an error when some item is not comparable"
  },
  {
   "property": "C33",
   "status": "proved",
   "theorems": [
    "C33_codepoints",
    "C33_codepoint_equal"
   ],
   "note": ""
  },
  {
   "property": "C34",
   "status": "proved",
   "theorems": [
    "C34_sum",
    "C34_avg",
    "C34_max",
    "C34_min",
    "C34_empty",
    "C34_sum_numbers",
    "C34_avg_numbers"
   ],
   "note": "sums: every partial sum must be an i64; with decimals or doubles every addition is the one of C67_exact, from left to right"
  },
  {
   "property": "C35",
   "status": "partial",
   "theorems": [
    "C35_map_get",
    "C35_map_keys_size",
    "C35_key_types_refuted",
    "C35_duplicates_refuted"
   ],
   "note": "proved with keys compared by their string form; 1 and '1' are one key"
  },
  {
   "property": "C36",
   "status": "partial",
   "theorems": [
    "C36_array_get_partial",
    "C36_array_get_refuted",
    "C36_array_apply",
    "C36_size",
    "C36_flatten",
    "flattens_unique"
   ],
   "note": "array:get out of range gives () where $a(i) is an error"
  },
  {
   "property": "C37",
   "status": "partial",
   "theorems": [
    "C37_castable_partial",
    "C37_no_declaration",
    "C37_declaration_refuted"
   ],
   "note": "proved except for a single node with an XML declaration below it, where it is false"
  },
  {
   "property": "C48",
   "status": "partial",
   "theorems": [
    "C48_lang_partial",
    "C48_lang_outermost",
    "C48_lang_none",
    "C48_lang_case_refuted",
    "C48_lang_refuted"
   ],
   "note": "the outermost xml:lang is used; proved when at most one ancestor-or-self carries the attribute"
  },
  {
   "property": "C53",
   "status": "proved",
   "theorems": [
    "C53_concat",
    "C53_string_join",
    "C53_string_length"
   ],
   "note": ""
  },
  {
   "property": "C17",
   "status": "proved",
   "theorems": [
    "C17_text",
    "C17_step",
    "C17_step_predicate",
    "C17_postfix",
    "C17_position"
   ],
   "note": "axis::name[k] on the text of the expression for every axis with elements, all forward and reverse axes; E[k] for any sequence; on trees also for any node test and any predicate with an integer value"
  },
  {
   "property": "C18",
   "status": "partial",
   "theorems": [
    "C18_predicate",
    "C18_boolean_partial",
    "C18_refuted"
   ],
   "note": "proved for predicates whose value is a single boolean/string/node; REFUTED in general: a predicate with two or more nodes drops the item although its effective boolean value is true (C18_refuted)"
  },
  {
   "property": "C19",
   "status": "proved",
   "theorems": [
    "C19_path_nodes",
    "C19_path_atoms",
    "C19_path_atom_left",
    "C19_path_mixed"
   ],
   "note": "every E1 value, every E2 (scoped, see SpecEval); the values that are no node sequences are also covered"
  },
  {
   "property": "C20",
   "status": "partial",
   "theorems": [
    "C20_scope_partial",
    "C20_frame",
    "C20_kept",
    "C20_quantifier_refuted",
    "C20_quantifier_refuted_every"
   ],
   "note": "holds for every expression without some/every, dynamic function calls and fn:for-each/fn:filter. C20_frame and C20_kept: every expression, quantifiers and function calls included, leaves all variables alone that it does not itself bind. REFUTED for some/every, which leave their variable bound"
  },
  {
   "property": "C21",
   "status": "partial",
   "theorems": [
    "C21_for",
    "C21_for_error",
    "C21_quantifier_undecided",
    "C21_quantifier_decided",
    "C21_some",
    "C21_every"
   ],
   "note": "bodies that restore the variables (scoped); for other bodies C20's refutation makes the claim false"
  },
  {
   "property": "C22",
   "status": "proved",
   "theorems": [
    "C22_short_circuit",
    "C22_right",
    "C22_truth",
    "C22_error_left",
    "C22_error_right",
    "C22_no_truth_value",
    "C22_if"
   ],
   "note": "all operands, including failing and panicking ones"
  },
  {
   "property": "C38",
   "status": "proved",
   "theorems": [
    "C38_occurrence",
    "C38_atomic",
    "C38_partial_order",
    "C38_unknown_types_refuted",
    "C38_parenthesized_refuted",
    "C38_instance_terminates"
   ],
   "note": "for the built-in types; names outside the hierarchy and parenthesised item types are refuted and excluded in the statement"
  },
  {
   "property": "C49",
   "status": "proved",
   "theorems": [
    "C49_name_test",
    "C49_attribute_test",
    "C49_any_node",
    "C49_wildcard_prefix_refuted"
   ],
   "note": "`*:name`, which is not part of the statement, matches nothing"
  },
  {
   "property": "C52",
   "status": "partial",
   "theorems": [
    "C52_call",
    "C52_wrong_type",
    "C52_too_many_panics",
    "C52_too_many_refuted",
    "C52_too_few_refuted",
    "C52_closure_refuted"
   ],
   "note": "right number of arguments: proved for bodies that restore the variables; another number of arguments: REFUTED (panic / silently evaluated); return types are not checked; no closures"
  },
  {
   "property": "C28",
   "status": "partial",
   "theorems": [
    "C28_subsequence_partial",
    "C28_subsequence_rest_partial",
    "C28_substring_partial",
    "C28_substring_rest_partial",
    "C28_infinite_length",
    "C28_nan_length",
    "C28_nonfinite_start",
    "C28_negative_infinity_refuted",
    "C28_panic_refuted",
    "C28_rounding_refuted",
    "C28_exact",
    "C28_exact_rest"
   ],
   "note": "what subsequence and substring select is given exactly for every finite double or decimal start and length (saturating positions, the panic exactly when the difference overflows); it is XPath's selection, proved for all start/length doubles, decimals and integers of absolute value below 2^52 except 0.49999999999999994, and for NaN and the infinities; REFUTED outside (panic on overflow, wrong rounding, subsequence(s,-INF)); uses the axioms of Coq's Reals through Flocq"
  },
  {
   "property": "C55",
   "status": "partial",
   "theorems": [
    "C55_floor",
    "C55_ceiling",
    "C55_round_partial",
    "C55_round_refuted",
    "C55_integers",
    "C55_abs_refuted",
    "C55_nonfinite",
    "C55_exact",
    "C55_round",
    "C55_round_large",
    "C55_round_right"
   ],
   "note": "round given exactly for every finite double, and it is XPath's exactly when the number is neither 0.49999999999999994 nor an odd integer of absolute value at least 2^52; floor and ceiling proved exact for every finite double; signs of zero results in C55_exact; round for |x| < 2^52 except 0.49999999999999994, REFUTED for others; abs panics on the least integer; uses the axioms of Coq's Reals through Flocq"
  },
  {
   "property": "C56",
   "status": "partial",
   "theorems": [
    "C56_star_refuted",
    "C56_indicator_refuted",
    "C56_star_symbol_partial"
   ],
   "note": "REFUTED for every operator word: `child::* and 1` is a syntax error, and so are `$a instance of xs:integer* and 1` and `$a?* and 1`; proved for the operators written with symbols"
  },
  {
   "property": "C57",
   "status": "partial",
   "theorems": [
    "C57_literal_partial",
    "C57_literal_refuted",
    "C57_written",
    "C57_cast"
   ],
   "note": "REFUTED for literals of 2^63 and above, which are silently 0; everything else proved"
  },
  {
   "property": "C58",
   "status": "partial",
   "theorems": [
    "C58_cast_refuted",
    "C58_boolean_partial"
   ],
   "note": "REFUTED for xs:integer (0) and xs:double (NaN); proved for xs:boolean"
  },
  {
   "property": "C59",
   "status": "proved",
   "theorems": [
    "C59_read",
    "C59_unique"
   ],
   "note": "the ampersand written as a numeric reference is excluded: C03 shows it is decoded twice"
  },
  {
   "property": "C60",
   "status": "proved",
   "theorems": [
    "C60_navigation",
    "C60_attribute_nodes"
   ],
   "note": ""
  },
  {
   "property": "C61",
   "status": "proved",
   "theorems": [
    "C61_ncname_read",
    "C61_names_are_ncnames",
    "C61_document_names",
    "C61_ascii"
   ],
   "note": ""
  },
  {
   "property": "C62",
   "status": "partial",
   "theorems": [
    "C62_string_partial",
    "C62_total",
    "C62_unique",
    "C62_comment_refuted",
    "C62_exact"
   ],
   "note": "C62_exact gives the string and the typed value of every node of every reachable document, comments, instructions and declarations included. String values are right for nodes without comments and processing instructions below them (and every such node has exactly one); refuted in general: comments, processing instructions and the XML declaration count as text."
  },
  {
   "property": "C63",
   "status": "partial",
   "theorems": [
    "C63_meaning_partial",
    "C63_determined",
    "C63_nodes",
    "C63_values_order_refuted",
    "C63_untyped_refuted",
    "C63_position_refuted",
    "C63_predicate_refuted"
   ],
   "note": "Proved for the rules of SpecSem.v: the grammar of C42 with maps, arrays, lookups, arrows, sequence types, several variables per keyword, functions (inline, name#n, name(.., ?, ..)) bound to variables, called by $f(..), a => $f(..), or given to for-each and filter (restricted: the variables free in the function have the values they had at its definition, since the program has no closures (C52); a function inside a sequence, map or parameter has no rule), 64-bit integers, decimals and doubles (bit-exact arithmetic, comparison, rounding and casts, SpecArith.v), strings, booleans and nodes, 75 functions including those of maps and arrays, variables used hygienically (C20), value-giving last steps only when the nodes are met in document order. Where the program departs from the recommendation is in the refuted theorems."
  },
  {
   "property": "C64",
   "status": "proved",
   "theorems": [
    "C64_terminates",
    "C64_grammar_terminates",
    "C64_terminates_refuted"
   ],
   "note": "Proved for every text whose compiled tree has no computed call (C64_terminates) and for the grammar of C42 without them. In general it is false: functions are dynamically scoped, so let $f := function($n) { $f($n) } return $f(1) never returns (C64_terminates_refuted, for every fuel)."
  },
  {
   "property": "C65",
   "status": "partial",
   "theorems": [
    "C65_no_panic_partial",
    "C65_no_panic_refuted"
   ],
   "note": "False in general: unfinished expressions such as '1 +' compile and panic when evaluated, as do overflow, array{} and calls with too many arguments (C65_no_panic_refuted). Proved for every expression of the grammar of C42 without computed calls, without 64-bit integer arithmetic and without the lookup ?* (which panics for a map with a key that is a map or an array)."
  },
  {
   "property": "C66",
   "status": "proved",
   "theorems": [
    "C66_result_nodes"
   ],
   "note": "For every text, every document of a session, every node and every result."
  },
  {
   "property": "C67",
   "status": "proved",
   "theorems": [
    "C67_add_sub_mul",
    "C67_div",
    "C67_mod",
    "C67_special",
    "C67_division_by_zero",
    "C67_decimal_refuted",
    "C67_exact",
    "C67_exact_unique"
   ],
   "note": "For every pair of numbers in the reals; C67_exact gives the result bit for bit (signs of zeros, infinities, NaN) against SpecArith.v; integer + - * mod are C26 and C27. Decimals are doubles: C67_decimal_refuted shows what XPath's exact decimals would do differently. idiv: C28."
  },
  {
   "property": "C68",
   "status": "partial",
   "theorems": [
    "C68_number",
    "C68_number_of_node",
    "C68_number_of_values",
    "C68_literal",
    "C68_literal_text",
    "C68_cast",
    "C68_number_only_partial",
    "C68_words_refuted"
   ],
   "note": "Decimal notation is read correctly by number(), casts and literals; number() also accepts Rust's words (infinity, +nan, any case) and white space of Unicode, which XPath does not (C68_words_refuted); C68_number_only_partial is the exact converse."
  },
  {
   "property": "C69",
   "status": "partial",
   "theorems": [
    "C69_double",
    "C69_decimal",
    "C69_shortest",
    "C69_nearest",
    "C69_text",
    "C69_notation_refuted",
    "C69_digits_refuted"
   ],
   "note": "Proved for every double and decimal, including shortest digits and, among the shortest, the nearest (SpecPrint.v); REFUTED for XPath's own notation: infinities are written +Infinity and -Infinity, exponents are never used; decimals lose digits beyond those of a double and have a negative zero."
  },
  {
   "property": "C70",
   "status": "partial",
   "theorems": [
    "C70_context",
    "C70_lang",
    "C70_string_length_refuted"
   ],
   "note": "Proved for all ten functions and lang; REFUTED against XPath for string-length() and normalize-space(): of a context node they are type errors, because the node is not turned into its string."
  },
  {
   "property": "C71",
   "status": "proved",
   "theorems": [
    "C71_name",
    "C71_local_name",
    "C71_namespace_uri",
    "C71_root",
    "C71_nilled",
    "C71_nothing",
    "C71_no_node",
    "C71_data"
   ],
   "note": "namespace-uri and root for every document of a session; the string values data() gives are C62."
  },
  {
   "property": "C72",
   "status": "proved",
   "theorems": [
    "C72_compare",
    "C72_compare_empty",
    "C72_case",
    "C72_case_empty"
   ],
   "note": "For other text see C83."
  },
  {
   "property": "C73",
   "status": "partial",
   "theorems": [
    "C73_square",
    "C73_curly",
    "C73_map",
    "C73_key_error",
    "C73_square_error",
    "C73_empty_refuted"
   ],
   "note": "REFUTED for array{}: the empty curly array panics; proved for every other constructor."
  },
  {
   "property": "C74",
   "status": "partial",
   "theorems": [
    "C74_map",
    "C74_map_total",
    "C74_array_partial",
    "C74_array_total",
    "C74_all_map",
    "C74_all_array",
    "C74_type",
    "C74_each",
    "C74_context_refuted"
   ],
   "note": "Keys are compared by their string form (C35). REFUTED: an index out of range is () and not an error, and the key expression of E?(K) sees the map instead of the context item."
  },
  {
   "property": "C75",
   "status": "partial",
   "theorems": [
    "C75_for_each",
    "C75_filter",
    "C75_error",
    "C75_no_function",
    "C75_dynamic_call_refuted",
    "C75_wrong_arity",
    "C75_two_holes",
    "C75_parameter_type",
    "C75_no_parameter_panics",
    "C75_more_parameters_refuted"
   ],
   "note": "Inline functions whose body restores the variables (scoped) and functions other than position, last, for-each, filter; Functions that do not take one argument: errors of PropApply; REFUTED for inline functions without parameters (panic) and with two (the caller's variable is lost), and for direct calls: $f(x) of a named reference or partial call is an error."
  },
  {
   "property": "C76",
   "status": "partial",
   "theorems": [
    "C76_kind_test_partial",
    "C76_attribute_axis",
    "C76_instance_of",
    "C76_document_refuted",
    "C76_document_node_refuted",
    "C76_namespace_axis"
   ],
   "note": "REFUTED for document-node(), which accepts nothing; all other kind tests proved, for context nodes that are no attributes (C16)."
  },
  {
   "property": "C77",
   "status": "partial",
   "theorems": [
    "C77_legal_names",
    "C77_names_read",
    "C77_names_partial",
    "C77_empty_name_refuted"
   ],
   "note": "The tables of the recommendation are typed independently in SpecNames.v. Missing and refuted: an element or an instruction can have no name at all (<1/> is accepted)."
  },
  {
   "property": "C78",
   "status": "partial",
   "theorems": [
    "C78_nodeset",
    "C78_first",
    "C78_each",
    "C78_items",
    "C78_as_nodeptr",
    "C78_nodeset_items",
    "C78_repeatable",
    "C78_order_refuted"
   ],
   "note": "Everything but the documented document order, which is refuted for the comma operator (C19 has it for paths)."
  },
  {
   "property": "C79",
   "status": "partial",
   "theorems": [
    "C79_written",
    "C79_item_written",
    "C79_tells_apart_partial",
    "C79_tells_apart_refuted",
    "C79_nothing_refuted"
   ],
   "note": "The notation is proved for every result without function items, comments, instructions and declarations. Different results have different texts when they are atomic and their strings have no quotation marks; refuted otherwise (quotation marks are not escaped; comments are written as nothing)."
  },
  {
   "property": "C80",
   "status": "partial",
   "theorems": [
    "C80_function_partial",
    "C80_result_types_partial",
    "C80_sound_partial",
    "C80_map_as_function_exact",
    "C80_array_as_function_exact",
    "C80_kinds_refuted",
    "C80_map_function_refuted",
    "C80_sound_refuted"
   ],
   "note": "Exact for all types built from atomic types, item(), the node kinds without names, function(*) and either typed functions or maps/arrays. The full claim is false of the code: element(a) is no subtype of element(a), processing-instruction(a) is one of processing-instruction(b), a map type is compared with function types by wrong rules (exactly characterised), and function items are not instances of item()."
  },
  {
   "property": "C81",
   "status": "partial",
   "theorems": [
    "C81_instance_exact",
    "C81_map",
    "C81_array",
    "C81_named",
    "C81_any_function",
    "C81_functions_refuted"
   ],
   "note": "Exact for every value whose maps have distinct keys and whose functions are inline functions or library references without map or array types, and every type whose function types contain no map or array types. The specification's values are XPath's except in places refuted in C81_functions_refuted: functions are no item(), partial applications have no function type (only function(*), C81_any_function), the parameter and result types of maps and arrays taken as functions, and the number of parameters of partial applications."
  },
  {
   "property": "C82",
   "status": "partial",
   "theorems": [
    "C82_errors_partial",
    "C82_determined",
    "C82_lost_refuted",
    "C82_kind_refuted",
    "C82_saturates_refuted"
   ],
   "note": "SpecErr.v lists where errors come from and that an error of a part that is evaluated is an error of the whole; every expression of the grammar of SpecExpr.v, with the parts evaluated before the error having a value by SpecSem.v, gives exactly that error, including failing calls of functions kept in variables and failing arguments of partial applications. Partial because of the refutations: C82_lost_refuted and C82_saturates_refuted show where the program returns a value although XPath wants an error, C82_kind_refuted where the kind is wrong."
  },
  {
   "property": "C83",
   "status": "proved",
   "theorems": [
    "C83_upper",
    "C83_lower",
    "C83_stable",
    "C83_concat",
    "C83_fold",
    "C83_length",
    "C83_alphabets",
    "C83_caseless"
   ],
   "note": "The case tables are data of the Unicode standard (version 14.0.0, CaseTable.v, generated by tools/casegen.py); which version applies depends on the Rust release.  C83_alphabets and C83_caseless do not mention the tables."
  },
  {
   "property": "C84",
   "status": "proved",
   "theorems": [
    "C84_tokens",
    "C84_unambiguous",
    "C84_tree",
    "C84_complete",
    "C84_one_tree"
   ],
   "note": "for texts without U+0000.  References in text and attribute values are replaced by the function decode_entity, which C01-C03 are about."
  },
  {
   "property": "C85",
   "status": "proved",
   "theorems": [
    "C85_grammar",
    "C85_balanced",
    "C85_precedence",
    "C85_relaxed"
   ],
   "note": "SpecGrammar.v is the grammar (one inductive relation, production numbers of the XPath 3.1 EBNF, extra productions marked RELAXED; C85_relaxed shows that the program really uses them: it accepts texts that are not XPath).  C85_grammar is the soundness direction: accepted implies derived, with that tree.  That standard expressions are accepted with the right tree is C42-C46."
  },
  {
   "property": "C86",
   "status": "partial",
   "theorems": [
    "C86_panics_exactly",
    "C86_ancestors_kept",
    "C86_document_held",
    "C86_session_held",
    "C86_query_results",
    "C86_upward_refuted"
   ],
   "note": "Own.v models the Rc/Weak ownership of src/dom.rs (handles, lists, freeing) over arbitrary programs. An upward operation panics exactly when an ancestor was freed (C86_panics_exactly, all programs); while a well-linked document is held nothing on its nodes panics. REFUTED in general: four short programs that panic (root_element() of a temporary document; append_child and insert from a document that is dropped; a child of a deleted node)."
  },
  {
   "property": "C87",
   "status": "partial",
   "theorems": [
    "C87_reachable_alive",
    "C87_result_kept",
    "C87_alive_exactly",
    "C87_all_freed",
    "C87_session_acyclic",
    "C87_leak_refuted"
   ],
   "note": "Reachable nodes are alive in all programs; freed exactly when unreachable whenever no node is below itself (proved for parse-and-edit sessions). REFUTED without that: a node appended to itself is never freed."
  },
  {
   "property": "C88",
   "status": "proved",
   "theorems": [
    "C88_abbreviations",
    "C88_parentheses",
    "C88_source",
    "C88_nodes"
   ],
   "note": "For any two texts whose trees stand (reads, SpecExpr.v) for e and for full e (SpecSame.v): the outcomes coincide. Inline functions and partial applications are excluded (no_closures): their value carries its own text. C88_example: //b[@c]/.. => count(); C88_not_all: parentheses that change the expression change the outcome."
  },
  {
   "property": "C89",
   "status": "proved",
   "theorems": [
    "C89_same_result",
    "C89_same_text",
    "C89_same_values",
    "C89_same_nodes",
    "C89_places",
    "C89_saved"
   ],
   "note": "For every amount of fuel, so non-termination is covered as well. same_place: the k-th node in document order of either. C89_saved needs clean_doc (as C04: the document can be written as XML at all). C89_example: a document with a deleted node and a freshly parsed one, with different node numbers."
  },
  {
   "property": "C90",
   "status": "partial",
   "theorems": [
    "C90_empty",
    "C90_strings",
    "C90_mistyped",
    "C90_no_number",
    "C90_number_several",
    "C33_any_numbers",
    "C90_refuted",
    "C33_refuted"
   ],
   "note": "Exact for the function library with the arguments of of_empty, string_functions and mistyped (SpecArgs.v) and for codepoints-to-string of every sequence of integers (spells). The full statement is false and refuted: abs((1,2)) and abs('a') are empty, number((1,2)) is 0, contains(., 'a') and upper-case(.) on nodes are type errors instead of atomizing, lang(()) is a string, codepoints-to-string(67174400) is U+10000 and two surrogate numbers make a character. Nodes, texts and truth values as numbers in arithmetic are C44/C34; node functions on non-nodes C71."
  },
  {
   "property": "C91",
   "status": "proved",
   "theorems": [
    "C91_rewrite",
    "C91_source",
    "C91_anywhere"
   ],
   "note": "the 30 laws are the constructors of SpecRewrite.law; expressions whose value may be a piece of program text (inline functions, partial applications) are excluded"
  },
  {
   "property": "C92",
   "status": "partial",
   "theorems": [
    "C92_path",
    "C92_equal",
    "C92_laws",
    "C92_texts"
   ],
   "note": "Existence and exact result for every path of SpecPath.core (denotation: SpecPath.denotes, a relation between nodes). Missing: the tests *:name and document-node() (match nothing in the program), following and preceding from attribute nodes, predicates that are paths leading to several nodes (C18_refuted) or values other than positions, conditions and single nodes, comparisons of numbers. Covered since: general comparisons of string values, predicates that are paths leading to at most one node (C92_example_more). About 50 laws; C92_texts says when the string values that comparisons need exist. Laws: SpecPath.path_law."
  },
  {
   "property": "C93",
   "status": "partial",
   "theorems": [
    "C93_programs",
    "C93_all",
    "C93_distinct",
    "C93_parse",
    "C93_parse_refuted"
   ],
   "note": "C93_programs: in every program that parses texts whose start tags repeat no attribute name and edits them in any way (appending, inserting, deleting, replacing nodes, attributes set and deleted, document order asked) no node ever has two attributes of one name. C93_parse: a parsed document has distinct attribute names exactly if no start tag of the text repeats one. REFUTED for the rest: a tag with a repeated name is accepted (C93_parse_refuted)."
  }
 ]
}
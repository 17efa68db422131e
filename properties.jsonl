{"id": "C01", "title": "Character data escaping round-trips", "statement": "For every string s, un-escaping (as done when a document is read) the escaped form (as written by NodePtr::to_string for text and attribute values) yields exactly s.", "quantifier": "all strings of Unicode scalar values", "why_tests_cant": "infinitely many strings; interactions such as text that itself contains '&lt;' or '&#x41;' must all survive", "anchors": ["src/dom.rs encode_entity", "src/sax.rs decode_entity"]}
{"id": "C02", "title": "Escaped text cannot be mistaken for markup", "statement": "The escaped form of any string contains none of < > \" ', and every & in it begins one of the five predefined entity references.", "quantifier": "all strings", "why_tests_cant": "safety property over all strings; a single missed character permits markup injection", "anchors": ["src/dom.rs encode_entity"]}
{"id": "C03", "title": "Entity decoding decodes each reference exactly once", "statement": "Reading character data replaces each entity or character reference by the character it denotes, in a single pass: the replacement text is never re-scanned. (XML 1.0 §4.4)", "quantifier": "all input strings", "why_tests_cant": "the interaction of successive replacements only appears on nested encodings", "anchors": ["src/sax.rs decode_entity"]}
{"id": "C04", "title": "Serialising then parsing gives the same tree", "statement": "For every document tree built from legal names, with attribute values and non-empty, non-adjacent text nodes free of CR and NUL, comments/PIs without their own terminators, new_document(to_string(tree)) succeeds and yields a tree equal to the original (names, values, attributes, order).", "quantifier": "all such trees, of any depth, width and text content", "why_tests_cant": "unbounded trees and strings", "anchors": ["src/dom.rs new_document, NodePtr::to_string, to_string_with_indent", "src/sax.rs SaxDecoder::raw_token"]}
{"id": "C05", "title": "Parse-serialise is stable", "statement": "Once a clean tree has been serialised, parsing and serialising again reproduces the same text: to_string(new_document(to_string(t))) = to_string(t).", "quantifier": "all such trees", "why_tests_cant": "unbounded trees", "anchors": ["src/dom.rs new_document, to_string"]}
{"id": "C06", "title": "Parsing always terminates", "statement": "new_document returns (Ok or Err) on every input string; it never loops forever.", "quantifier": "all input strings", "why_tests_cant": "non-termination cannot be observed by a finite test and must be excluded for every input", "anchors": ["src/sax.rs SaxDecoder::raw_token", "src/dom.rs new_document"]}
{"id": "C07", "title": "Mismatched end tags are rejected and accepted documents are balanced", "statement": "If new_document accepts an input then every end tag in it closes the most recently opened, still open element of the same name, and every opened element is closed.", "quantifier": "all input strings / token streams", "why_tests_cant": "nesting depth is unbounded", "anchors": ["src/dom.rs new_document"]}
{"id": "C08", "title": "Parsed trees are well linked", "statement": "After new_document, every node other than the document root occurs exactly once in its parent's child or attribute list, and parent() of each listed child or attribute is the node listing it; root() of every node is the document root.", "quantifier": "all accepted inputs, all nodes in the result", "why_tests_cant": "heap-shape invariant over unbounded documents", "anchors": ["src/dom.rs new_document, make_new_child_rc_node, parent, root"]}
{"id": "C09", "title": "Attribute update laws", "statement": "set_attribute(n,v) makes attribute_value(n)=v, leaves every other attribute value and the attribute order unchanged, adds at most one attribute; delete_attribute(n) removes n and leaves others unchanged; names stay unique.", "quantifier": "all elements, all attribute lists without duplicate names, all names and values, all sequences of updates", "why_tests_cant": "must hold for every state reachable by any sequence of updates", "anchors": ["src/dom.rs set_attribute, delete_attribute, attribute_value, find_attribute_index"]}
{"id": "C10", "title": "Child list editing laws", "statement": "insert_as_previous_sibling/insert_as_next_sibling put a copy of the node immediately before/after the receiver in its parent's child list and change nothing else in that list; delete_child removes exactly that child; replace_with puts the node where the receiver was.", "quantifier": "all child lists, positions and nodes", "why_tests_cant": "position arithmetic must be right for every index and length", "anchors": ["src/dom.rs insert_as_previous_sibling, insert_as_next_sibling, delete_child, replace_with, find_child_index"]}
{"id": "C11", "title": "append_child re-parents", "statement": "After p.append_child(c), c is the last child of p and c.parent() is p.", "quantifier": "all parents and children", "why_tests_cant": "aliasing between documents is only visible for particular heap shapes", "anchors": ["src/dom.rs append_child"]}
{"id": "C12", "title": "Document order numbering is preorder", "statement": "document_order() numbers are pairwise distinct inside a document and strictly increase along: node, its attributes, then its children's subtrees in order - i.e. the order in which nodes appear in the serialised document.", "quantifier": "all trees, all pairs of nodes", "why_tests_cant": "all pairs of nodes in unbounded trees", "anchors": ["src/dom.rs document_order, setup_document_order, setup_document_order_sub"]}
{"id": "C13", "title": "Node sequences are sorted and duplicate-free", "statement": "Sorting a node sequence into document order returns each distinct node of the input exactly once, in increasing document order, and nothing else.", "quantifier": "all node sequences with any repetition", "why_tests_cant": "all permutations and multiplicities", "anchors": ["src/xpath_impl/eval.rs sort_by_doc_order"]}
{"id": "C14", "title": "union / intersect / except are set operations", "statement": "A union B contains exactly nodes in A or B, in document order without duplicates; A intersect B exactly those in both; A except B exactly those in A not in B; each in document order without duplicates.", "quantifier": "all pairs of node sequences", "why_tests_cant": "all node sequences", "anchors": ["src/xpath_impl/oper.rs op_union, op_intersect, op_except"]}
{"id": "C15", "title": "Axes partition the document", "statement": "For any node n other than an attribute, self, ancestor, descendant, preceding and following are pairwise disjoint and together contain every non-attribute node of the document exactly once.", "quantifier": "all documents, all context nodes", "why_tests_cant": "all trees and all positions", "anchors": ["src/xpath_impl/eval.rs match_along_axis, array_ancestor, array_descendant, array_following, array_preceding"]}
{"id": "C16", "title": "Axis contents match their definitions", "statement": "child/parent/ancestor/ancestor-or-self/descendant/descendant-or-self/following-sibling/preceding-sibling/following/preceding select exactly the nodes related to the context node as XPath defines, in document order, without duplicates.", "quantifier": "all documents, all context nodes, all axes", "why_tests_cant": "all trees and positions", "anchors": ["src/xpath_impl/eval.rs match_along_axis and array_*"]}
{"id": "C17", "title": "Positional predicates", "statement": "Step[k] selects exactly the k-th node of the step in document order on forward axes, and the k-th from the end on reverse axes; empty if k is out of range.", "quantifier": "all sequences and integers k", "why_tests_cant": "all lengths and positions", "anchors": ["src/xpath_impl/eval.rs filter_by_predicates, filter_by_predicate"]}
{"id": "C18", "title": "Boolean predicates use effective boolean value", "statement": "E[P] with non-numeric P keeps exactly the items for which P has effective boolean value true, in order.", "quantifier": "all sequences, all predicate results", "why_tests_cant": "all value shapes", "anchors": ["src/xpath_impl/eval.rs filter_by_predicate", "src/xpath_impl/xsequence.rs effective_boolean_value"]}
{"id": "C19", "title": "Path results are in document order without duplicates", "statement": "The value of E1/E2, when it consists of nodes, contains no duplicates and is in document order, and contains a node iff E2 selects it from some item of E1.", "quantifier": "all documents and step functions", "why_tests_cant": "all trees, all intermediate sequences", "anchors": ["src/xpath_impl/eval.rs evaluate_xnode (OperatorPath)"]}
{"id": "C20", "title": "Variable bindings are lexically scoped", "statement": "After for/let/some/every expressions complete, the visible variable bindings are the same as before.", "quantifier": "all expressions, environments", "why_tests_cant": "leaks depend on data-dependent early exits", "anchors": ["src/xpath_impl/eval.rs ForVarBind, LetVarBind, SomeVarBind, EveryVarBind, EvalEnv"]}
{"id": "C21", "title": "for / some / every meaning", "statement": "for $x in S return E is the concatenation of E over S in order; some is true iff E holds for at least one element; every is true iff it holds for all.", "quantifier": "all sequences, all bodies", "why_tests_cant": "all sequences", "anchors": ["src/xpath_impl/eval.rs ForVarBind, SomeVarBind, EveryVarBind"]}
{"id": "C22", "title": "Boolean operators short-circuit", "statement": "A and B / A or B have the truth tables of their effective boolean values, B is not evaluated when A decides; if evaluates only the selected branch.", "quantifier": "all operand expressions, including ones whose evaluation fails", "why_tests_cant": "all operands incl. failing ones", "anchors": ["src/xpath_impl/eval.rs OperatorOr, OperatorAnd, IfExpr"]}
{"id": "C23", "title": "General comparison is existential", "statement": "A = B (and !=,<,<=,>,>=) is true iff some pair of atomised items, one from each side, satisfies the corresponding value comparison; false when either side is empty.", "quantifier": "all pairs of sequences", "why_tests_cant": "all sequences", "anchors": ["src/xpath_impl/xsequence.rs general_compare_*, general_comparison"]}
{"id": "C24", "title": "Value comparison", "statement": "On two integers or two strings, eq/ne/lt/le/gt/ge agree with the mathematical/lexicographic order; if either operand is the empty sequence the result is the empty sequence.", "quantifier": "all singleton integer or string operands; all sequences for the empty case", "why_tests_cant": "all values", "anchors": ["src/xpath_impl/xsequence.rs value_compare_*", "src/xpath_impl/xitem.rs xitem_compare"]}
{"id": "C25", "title": "Integer arithmetic", "statement": "Integer +,-,* are exact when the result fits in 64 bits; idiv truncates toward zero and a = (a idiv b)*b + (a mod b); division by zero is reported as an error, never a crash.", "quantifier": "all pairs of xs:integer values", "why_tests_cant": "all 2^128 pairs", "anchors": ["src/xpath_impl/xitem.rs xitem_numeric_*"]}
{"id": "C26", "title": "Numeric type promotion", "statement": "The result type of + - * on numeric operands is the larger of the operand types in integer<decimal<double; unordered operand kinds give a type error.", "quantifier": "all pairs of items", "why_tests_cant": "all pairs of items", "anchors": ["src/xpath_impl/xitem.rs xitem_numeric_operation"]}
{"id": "C27", "title": "Range operator", "statement": "m to n yields exactly m, m+1, ..., n, and the empty sequence when m>n or an operand is empty.", "quantifier": "all integers m,n", "why_tests_cant": "all ranges", "anchors": ["src/xpath_impl/oper.rs op_to"]}
{"id": "C28", "title": "substring / subsequence select exactly the specified positions and never crash", "statement": "subsequence(s,start,len) returns exactly the items at positions p with round(start) <= p < round(start)+round(len), for every start and length including NaN and infinities, and never panics; same for substring.", "quantifier": "all sequences, all doubles start and length", "why_tests_cant": "all doubles, boundary arithmetic", "anchors": ["src/xpath_impl/func.rs fn_subsequence, fn_substring, subcollection_index_sub"]}
{"id": "C29", "title": "Substring search functions", "statement": "contains/starts-with/ends-with decide occurrence as infix/prefix/suffix; when contains(s,t), s = substring-before(s,t) ++ t ++ substring-after(s,t) with t's first occurrence; otherwise both are empty.", "quantifier": "all pairs of strings", "why_tests_cant": "all strings", "anchors": ["src/xpath_impl/func.rs fn_contains, fn_starts_with, fn_ends_with, fn_substring_before, fn_substring_after"]}
{"id": "C30", "title": "translate", "statement": "translate(s,from,to) maps each character by its first occurrence in `from` to the character at the same position of `to`, deletes it when there is none, and leaves others unchanged.", "quantifier": "all strings", "why_tests_cant": "all triples of strings", "anchors": ["src/xpath_impl/func.rs fn_translate"]}
{"id": "C31", "title": "normalize-space", "statement": "normalize-space strips leading and trailing white space and collapses each inner white-space run to a single space.", "quantifier": "all strings", "why_tests_cant": "all strings", "anchors": ["src/xpath_impl/func.rs fn_normalize_space"]}
{"id": "C32", "title": "Sequence functions", "statement": "reverse is an involution; insert-before(s,p,t) keeps s in order with t inserted at position max(1,min(p,n+1)); remove drops exactly position p; head/tail recompose; index-of returns exactly the increasing positions of equal items; count/empty/exists agree.", "quantifier": "all sequences and positions", "why_tests_cant": "all sequences", "anchors": ["src/xpath_impl/func.rs fn_reverse, fn_insert_before, fn_remove, fn_head, fn_tail, fn_index_of, fn_count, fn_empty, fn_exists"]}
{"id": "C33", "title": "Code point conversion round-trips", "statement": "codepoints-to-string(string-to-codepoints(s)) = s for every string s, including characters outside the BMP.", "quantifier": "all strings", "why_tests_cant": "all of Unicode", "anchors": ["src/xpath_impl/func.rs fn_codepoints_to_string, fn_string_to_codepoints"]}
{"id": "C34", "title": "Aggregates", "statement": "sum of integers is their mathematical sum (in range); max/min return a member that is an upper/lower bound; avg = sum div count; sum of the empty sequence is 0 and max/min/avg of it are empty.", "quantifier": "all integer sequences", "why_tests_cant": "all sequences", "anchors": ["src/xpath_impl/func.rs fn_sum, fn_max, fn_min, fn_avg"]}
{"id": "C35", "title": "Map lookup", "statement": "map:get returns the value of the first entry whose key equals the argument, empty otherwise; map:contains is true iff such an entry exists; map:keys and map:size list all entries.", "quantifier": "all maps and keys", "why_tests_cant": "all maps", "anchors": ["src/xpath_impl/xitem.rs map_get, map_contains, map_keys, map_size"]}
{"id": "C36", "title": "Array access and flattening", "statement": "array:get(a,i) is the i-th member for 1<=i<=size and an error otherwise; array:flatten leaves no array item at the top level and preserves the left-to-right order of non-array items.", "quantifier": "all arrays (any nesting), all integers", "why_tests_cant": "unbounded nesting", "anchors": ["src/xpath_impl/xitem.rs array_get, array_flatten", "src/xpath_impl/func.rs fn_array_*"]}
{"id": "C37", "title": "castable as agrees with cast as", "statement": "V castable as T is true iff V cast as T does not raise an error.", "quantifier": "all values and target types", "why_tests_cant": "all values", "anchors": ["src/xpath_impl/xsequence.rs castable_as, cast_as", "src/xpath_impl/xitem.rs cast_as"]}
{"id": "C38", "title": "Occurrence indicators and type derivation", "statement": "A sequence of n items, all matching the (unparenthesised) item type, matches T iff n=1, T? iff n<=1, T+ iff n>=1, T* always; derivation between the built-in atomic types is a partial order (reflexive, transitive, antisymmetric) and every one of them derives from xs:anyType.", "quantifier": "all sequences; all type names", "why_tests_cant": "all lengths / all chains", "anchors": ["src/xpath_impl/eval.rs match_occurence, derives_from, subtype"]}
{"id": "C39", "title": "String literal quoting round-trips", "statement": "For every NUL-free string s, the XPath literal obtained by doubling the quote character and enclosing in quotes lexes to one string token with value s, for both quote characters.", "quantifier": "all strings", "why_tests_cant": "all strings", "anchors": ["src/xpath_impl/lexer.rs fetch_string_literal"]}
{"id": "C40", "title": "Comments and white space between tokens are insignificant", "statement": "Skipping a comment consumes exactly one balanced (: ... :), including nested ones; spaces before a token do not alter it.", "quantifier": "all nesting depths and strings", "why_tests_cant": "unbounded nesting", "anchors": ["src/xpath_impl/lexer.rs skip_comment, get_tok"]}
{"id": "C41", "title": "Compiling an XPath never panics", "statement": "eval_xpath on any string returns Ok or Err; it does not panic in the lexical or syntactic phase.", "quantifier": "all strings", "why_tests_cant": "all strings", "anchors": ["src/xpath_impl/lexer.rs Lexer::new, rewrite_pair_words", "src/xpath_impl/parser.rs compile_xpath"]}
{"id": "C42", "title": "Operator precedence and associativity", "statement": "Printing any expression tree (binary and unary operators, casts and type tests, steps with name and kind tests, predicates, paths with / and //, filters, function, arrow, partial and dynamic calls, named function references and inline functions, array and map constructors, lookups, sequence types, for/let/if/quantified with one or several variables) with the minimum parentheses of the XPath grammar and compiling it yields that tree: operators bind by level, left-associatively (comparison and `to` non-associative), and two different trees never print alike (up to the alternative spellings of the language, such as | and union, or a => f() and f(a)). An operand that ends in the name test `*`, the lookup `?*` or an occurrence indicator is parenthesised before an operator word (see C56), and so is the key of a map entry that is not a literal.", "quantifier": "all expression trees", "why_tests_cant": "unbounded expressions", "anchors": ["src/xpath_impl/parser.rs parse_or_expr .. parse_value_expr, parse_bin_op_sub, parse_path_expr, parse_step_expr"]}
{"id": "C43", "title": "The expression parser terminates", "statement": "Parsing any token stream ends in a tree or an error.", "quantifier": "all token streams", "why_tests_cant": "all inputs", "anchors": ["src/xpath_impl/parser.rs parse_main and callees"]}
{"id": "C44", "title": "No trailing input is ignored", "statement": "If compilation succeeds, all tokens of the expression were consumed.", "quantifier": "all strings", "why_tests_cant": "all inputs", "anchors": ["src/xpath_impl/parser.rs parse_main"]}
{"id": "C45", "title": "Keywords are required", "statement": "for/let without `return`, quantified expressions without `satisfies`/`in`, if without then/else are rejected.", "quantifier": "all token streams", "why_tests_cant": "all inputs", "anchors": ["src/xpath_impl/parser.rs error_if_not_name!"]}
{"id": "C46", "title": "Arguments are not silently dropped", "statement": "A compiled function call has as many arguments as were written between its parentheses.", "quantifier": "all argument lists", "why_tests_cant": "all lists", "anchors": ["src/xpath_impl/parser.rs parse_argument_list_sub"]}
{"id": "C47", "title": "Namespace resolution", "statement": "namespace_uri() is the value of the nearest in-scope xmlns declaration (on the element or its closest ancestor) for the node's prefix, and empty if none.", "quantifier": "all documents, all nodes", "why_tests_cant": "unbounded ancestor chains", "anchors": ["src/dom.rs namespace_uri, space_name, local_name"]}
{"id": "C48", "title": "xml:lang inheritance", "statement": "lang() uses the xml:lang attribute on the nearest ancestor-or-self element.", "quantifier": "all documents and nodes", "why_tests_cant": "unbounded ancestor chains", "anchors": ["src/xpath_impl/func.rs fn_lang"]}
{"id": "C49", "title": "Name tests", "statement": "A name test selects exactly the nodes of the axis's principal kind whose name equals the test, `*` any, `p:*` any with prefix p.", "quantifier": "all names", "why_tests_cant": "all strings", "anchors": ["src/xpath_impl/eval.rs match_name_test"]}
{"id": "C50", "title": "Pretty printing preserves element structure", "statement": "to_pretty_string only inserts white space: removing line breaks and indentation it inserted gives to_string, i.e. elements, attributes, comments and PIs appear in the same order with the same content.", "quantifier": "all trees", "why_tests_cant": "unbounded trees", "anchors": ["src/dom.rs to_pretty_string, to_string_with_indent, nl_if_positive"]}
{"id": "C51", "title": "Function arity checking", "statement": "A static call is accepted iff the function table has an entry of that name and arity; the error is reported at compile time.", "quantifier": "all names and arities", "why_tests_cant": "all names", "anchors": ["src/xpath_impl/func.rs check_function_spec"]}
{"id": "C52", "title": "Inline function application", "statement": "Calling an inline function with as many arguments as parameters evaluates the body with parameters bound to the (type-checked) arguments and restores the environment; with another number of arguments it is an error, not a crash.", "quantifier": "all function items, arguments", "why_tests_cant": "all arities", "anchors": ["src/xpath_impl/eval.rs call_inline_func"]}
{"id": "C53", "title": "string-join / concat / string-length", "statement": "concat and string-join build the concatenation with separators between (not around) items; string-length is additive over concatenation.", "quantifier": "all sequences of strings", "why_tests_cant": "all sequences", "anchors": ["src/xpath_impl/func.rs fn_string_join, fn_concat, fn_string_length"]}
{"id": "C54", "title": "Editing keeps documents well linked", "statement": "After any sequence of attribute, child-list and insertion edits, every node listed as a child or attribute has the node listing it as its parent(), is listed once, and root() of every node is the document root.", "quantifier": "all documents, all edit histories", "why_tests_cant": "all histories", "anchors": ["src/dom.rs append_child, insert_as_previous_sibling, insert_as_next_sibling, delete_child, set_attribute, delete_attribute"]}
{"id": "C55", "title": "floor, ceiling, round and abs are exact", "statement": "floor(x), ceiling(x) and round(x) return the mathematically exact integer (round: nearest, ties toward positive infinity) for every finite double or decimal, are the identity on integers, NaN and the infinities; abs of an integer is its absolute value.", "quantifier": "all doubles, decimals and integers", "why_tests_cant": "2^64 doubles; failures sit at single values (0.49999999999999994, odd numbers above 2^52, the least integer)", "anchors": ["src/xpath_impl/func.rs:fn_floor", "src/xpath_impl/func.rs:fn_ceiling", "src/xpath_impl/func.rs:fn_round", "src/xpath_impl/func.rs:fn_abs"]}
{"id": "C56", "title": "An operator word after the name test *", "statement": "After the name test `*` the words and, or, div, mod, idiv, eq, union, ... are operators, as they are after any other operand: `* and 1` compiles to the same tree as `(*) and 1`.", "quantifier": "all operators, all operands", "why_tests_cant": "every operator in every operand position; the crate's tests use names on the left of operators", "anchors": ["src/xpath_impl/lexer.rs rewrite of operator words (prev_t_types)"]}
{"id": "C57", "title": "Integers in decimal notation", "statement": "A row of digits used as an XPath expression is the integer it denotes; string() and to_string() write an integer in its unique decimal notation without superfluous zeros; casting any integer numeral (with sign, leading zeros, surrounding white space) to xs:integer reads that number back.", "quantifier": "all numerals, all integers", "why_tests_cant": "2^64 integers, infinitely many numerals; the failures start at 2^63", "anchors": ["src/xpath_impl/xitem.rs atoi, cast_as, get_as_raw_string", "src/xpath_impl/eval.rs atoi"]}
{"id": "C58", "title": "Casting text that is no value of the type is an error", "statement": "Casting a string that is not in the lexical space of the target type raises an error, and castable as is false for it.", "quantifier": "all strings, all target types", "why_tests_cant": "all strings", "anchors": ["src/xpath_impl/xitem.rs cast_as, castable_as, atoi, atof, get_as_raw_boolean"]}
{"id": "C59", "title": "Every spelling of a document is read as that document", "statement": "Whatever way a document is written - single or double quotes, white space inside tags and after instruction targets, character and entity references (the ampersand by name), CDATA sections, comments, processing instructions, DOCTYPE declarations with nested brackets, empty-element tags, carriage returns - new_document returns a document with exactly the content the text spells, and a text spells one document only.", "quantifier": "all documents, all spellings", "why_tests_cant": "infinitely many documents and spellings of each", "anchors": ["src/dom.rs new_document", "src/sax.rs raw_token, get_until, get_until_ch, get_name, get_chardata, get_until_matching_bracket, decode_entity"]}
{"id": "C60", "title": "Navigation accessors agree with the document", "statement": "For every node of a document, node_type, name, value, parent, children, first_child, nth_child, attributes, attribute_value, root and root_element answer as the document tree says.", "quantifier": "all documents (parsed or edited), all nodes, all child indices, all attribute names", "why_tests_cant": "all documents and nodes", "anchors": ["src/dom.rs root, root_element, parent, children, first_child, nth_child, attributes, attribute_value"]}
{"id": "C61", "title": "Names in documents and in expressions", "statement": "An XPath name is read as a name exactly when it is an NCName of the XML standard, and every name without a colon that an element or attribute of a document can carry can be written in an XPath expression.", "quantifier": "all names, all characters", "why_tests_cant": "1.1 million characters in all combinations; the two files use different character tables", "anchors": ["src/sax.rs is_name_char, is_name_first_char, is_letter", "src/xpath_impl/lexer.rs is_name_char, is_name_start_char, fetch_name"]}
{"id": "C62", "title": "String values of nodes", "statement": "string(), string(n) and data(n) give the string value of a node: the value of a text or attribute node, the concatenation in document order of the text below an element or the document; every node has exactly one.", "quantifier": "all documents (parsed or edited), all nodes", "why_tests_cant": "all documents and nodes", "anchors": ["src/dom.rs to_string of nodes", "src/xpath_impl/func.rs fn_string, fn_data", "src/xpath_impl/xitem.rs get_as_raw_string"]}
{"id": "C63", "title": "Expressions have the value the XPath recommendation gives them", "statement": "For every expression built from literals, variables, function calls, operators, comparisons, arithmetic, node-set operators, if, for, let, some, every (one or several variables), type operators, axis steps with predicates, filters, paths, map and array constructors, lookups, arrows, functions bound to variables and called, for-each and filter, to which the evaluation rules of XPath give a value at a node of the document, eval_xpath applied to the text of the expression at that node returns that value: a rule-by-rule (big-step) semantics of the whole language, not of single operators.", "quantifier": "all documents (parsed or edited), all nodes, all expressions of the grammar at any nesting depth, all values", "why_tests_cant": "expressions are nested to any depth and combine all operators; the position, the variables and the context change at every level", "anchors": ["src/xpath_impl/eval.rs evaluate_xnode and all it calls", "src/xpath_impl/func.rs", "src/xpath_impl/oper.rs", "src/xpath_impl/parser.rs", "src/xpath_impl/lexer.rs", "src/xpath.rs eval_xpath"]}
{"id": "C64", "title": "Evaluation ends", "statement": "For every XPath text that compiles and neither calls a computed function (e(args)) nor uses for-each or filter, eval_xpath at any node of any document returns (a value, an error or a panic) after finitely many steps; the depth of nested calls is bounded by the size of the expression.", "quantifier": "all documents (parsed or edited), all nodes, all XPath texts", "why_tests_cant": "loops and recursion over all trees, all sequences and all expressions", "anchors": ["src/xpath_impl/eval.rs evaluate_xnode, filter_by_predicate, match_location_path", "src/xpath.rs eval_xpath"]}
{"id": "C65", "title": "Evaluation does not panic", "statement": "Evaluating a compiled expression at a node of a document never panics: whatever goes wrong is reported as an error.", "quantifier": "all documents (parsed or edited), all nodes, all expressions", "why_tests_cant": "every expression, value and node can reach an unwrap, an index or an overflow", "anchors": ["src/xpath_impl/eval.rs evaluate_xnode", "src/xpath_impl/parser.rs parse_bin_op_sub", "src/xpath_impl/xitem.rs", "src/xpath_impl/func.rs"]}
{"id": "C66", "title": "A query returns nodes of the queried document", "statement": "Every node that eval_xpath returns, directly or inside a map or an array, is a node of the document it was asked about, for every text that compiles, dynamic calls included.", "quantifier": "all documents (parsed or edited), all nodes, all XPath texts, all results", "why_tests_cant": "results of any shape over all expressions", "anchors": ["src/xpath_impl/eval.rs", "src/xpath.rs eval_xpath"]}
{"id": "C67", "title": "Decimal and double arithmetic is correctly rounded", "statement": "+, -, * and div of two finite numbers of which at least one is no integer (div: of any two) give the number nearest to the exact result, ties to the even mantissa and too large results to infinity; mod gives the exact remainder with the sign of the dividend; infinities, zeros (with their signs) and NaN follow IEEE 754; dividing by an integer or decimal zero is a dynamic error.", "quantifier": "all pairs of operands, all operators", "why_tests_cant": "2^128 operand pairs per operator", "anchors": ["src/xpath_impl/oper.rs op_numeric_operation", "src/xpath_impl/xitem.rs int_to_dbl"]}
{"id": "C68", "title": "Decimal notation is read as the nearest number", "statement": "number(), a cast to xs:double or xs:decimal, and decimal and double literals turn every text in decimal notation (white space, sign, digits, point, exponent) into the double nearest to the number written there; number() of anything else is NaN.", "quantifier": "all strings, all nodes, all literals", "why_tests_cant": "unbounded texts; the interesting ones are half-way cases", "anchors": ["src/xpath_impl/func.rs fn_number", "src/xpath_impl/xitem.rs atof get_as_raw_double cast_as", "src/xpath_impl/eval.rs atof"]}
{"id": "C69", "title": "A number survives being written", "statement": "string() of a decimal or a double is a text from which number() gives the same number back, sign of zero, infinities and NaN included; finite numbers are written in plain decimal notation without superfluous zeros and with the fewest significant digits that identify them, and of the texts as short the nearest to the number.", "quantifier": "all doubles and decimals", "why_tests_cant": "2^64 doubles, each with its own shortest notation", "anchors": ["src/xpath_impl/func.rs fn_string fn_number", "src/xpath_impl/xitem.rs get_as_raw_string get_as_raw_double"]}
{"id": "C70", "title": "A function without its argument uses the context item", "statement": "name(), local-name(), namespace-uri(), string(), data(), number(), string-length(), normalize-space(), root(), nilled() and lang($t) without the last argument give what they give for the context item.", "quantifier": "all functions with an optional argument, all contexts", "why_tests_cant": "all context items", "anchors": ["src/xpath_impl/func.rs CONTEXT_FUNC_TBL fn_name_0 fn_string_0 fn_lang_1"]}
{"id": "C71", "title": "Node properties in XPath agree with the document", "statement": "name, local-name, namespace-uri, nilled, root and data report of a node what the document says: its name, the part after the colon, the value of the nearest declaration of its prefix, xsi:nil, the document node; of nothing the empty string or nothing; of anything else an error.", "quantifier": "all documents (parsed or edited), all nodes, all sequences", "why_tests_cant": "unbounded documents and nesting of declarations", "anchors": ["src/xpath_impl/func.rs fn_name fn_local_name fn_namespace_uri fn_nilled fn_root fn_data"]}
{"id": "C72", "title": "compare; upper-case and lower-case of ASCII text", "statement": "compare() orders strings by code points and gives -1, 0 or 1, () if an argument is missing; upper-case() and lower-case() of ASCII text change exactly the letters of the other case.", "quantifier": "all pairs of strings; all ASCII strings", "why_tests_cant": "unbounded strings", "anchors": ["src/xpath_impl/func.rs fn_compare fn_upper_case fn_lower_case"]}
{"id": "C73", "title": "Map and array constructors", "statement": "[x1, ..., xn] gives the array whose members are the values of x1, ..., xn; array{x} gives an array with one single-item member per item of x; map{k1: v1, ...} gives the map with those keys and values in order, and is an error when a key is not a single item; the first part that fails is the outcome.", "quantifier": "all member and key expressions, context items and variables", "why_tests_cant": "The number and values of the members are unbounded.", "anchors": ["src/xpath_impl/eval.rs:convert_xnode_to_map_array"]}
{"id": "C74", "title": "Lookup in maps and arrays", "statement": "M?k gives the value of the key k of M, () if there is none; A?i gives member i; ?* gives all values in order; (E)?k concatenates the lookups in the items of E; a lookup in anything else is a type error.", "quantifier": "all maps, arrays, keys, and sequences of them", "why_tests_cant": "Maps, arrays and keys are arbitrary.", "anchors": ["src/xpath_impl/eval.rs:evaluate_xnode", "src/xitem.rs:map_get", "src/xitem.rs:array_get"]}
{"id": "C75", "title": "Functions as arguments", "statement": "for-each(X, F) concatenates F applied to the items of X in order and filter(X, F) keeps the items for which F is true, for F a reference name#1, a partial call name(.., ?, ..) or an inline function; the first application that fails is the outcome; an argument that is no function is a type error.", "quantifier": "all sequences, function items and contexts", "why_tests_cant": "Sequences and functions are arbitrary.", "anchors": ["src/xpath_impl/func.rs:fn_for_each", "src/xpath_impl/func.rs:fn_filter", "src/xpath_impl/eval.rs:call_function", "src/xpath_impl/eval.rs:call_named_func", "src/xpath_impl/eval.rs:call_partial_func"]}
{"id": "C76", "title": "Kind tests", "statement": "axis::element(n, T), attribute(n, T), processing-instruction(n), comment(), text() and node() give exactly the nodes of that kind (and name and type) on the axis, in document order, and instance of uses the same tests; document-node() accepts the document node.", "quantifier": "all documents after any history of edits, nodes, axes and kind tests", "why_tests_cant": "The document and its history are arbitrary.", "anchors": ["src/xpath_impl/eval.rs:match_kind_test", "src/xpath_impl/eval.rs:match_along_axis"]}
{"id": "C77", "title": "Names in documents are the names of XML 1.0", "statement": "new_document accepts every Name of XML 1.0 (fourth edition, productions 4, 5 and appendix B) as the name of an element and of an attribute and keeps it unchanged, and a parsed document contains no other names.", "quantifier": "all names, all XML texts that new_document accepts, all their nodes", "why_tests_cant": "the productions list some 17000 characters in 330 ranges; a wrong bound concerns single characters", "anchors": ["src/sax.rs get_name is_name_char is_name_first_char is_letter is_combining_char is_digit is_extender", "src/dom.rs new_document"]}
{"id": "C78", "title": "The query functions agree", "statement": "get_nodeset gives exactly the nodes among the items eval_xpath gives, in the same order, and fails exactly when it does; get_first_node gives the first of them, or None when there is none or the query fails; each_node calls its closure for each of them in turn; len and get_item enumerate the items, as_nodeptr gives the node of an item that is one; a query asked again gives the same. As documented, get_nodeset is in document order.", "quantifier": "all documents, context nodes, XPath texts, closures and states, all result sequences and positions", "why_tests_cant": "it relates five functions on every text and document; tests look at single queries through one of them", "anchors": ["src/xpath.rs: eval_xpath, get_nodeset, get_first_node, each_node, Sequence, Item", "src/xpath_impl/xsequence.rs: to_nodeset"]}
{"id": "C79", "title": "Results are written in the documented notation", "statement": "Sequence::to_string writes nothing or several items in parentheses with commas and one item alone; an element as its start tag, integers as numerals, decimals with a point, doubles in scientific notation (each standing for a number whose nearest double is the value), strings in quotation marks; Item::to_string likewise. Different results are written differently.", "quantifier": "all result sequences, all doubles, all strings, maps and arrays of any depth", "why_tests_cant": "there are 2^64 doubles and infinitely many sequences; that no two of them share a text is a statement about all pairs", "anchors": ["src/xpath.rs: Sequence::to_string, Item::to_string", "src/xpath_impl/xitem.rs: Display", "src/xpath_impl/xsequence.rs: Display", "src/dom.rs: Debug of NodePtr"]}
{"id": "C80", "title": "Subtypes of sequence types", "statement": "A function item whose declared parameter and result types are known is an instance of function(P1, ...) as R exactly when the declared result type is a subtype of R and every Pi is a subtype of the corresponding declared parameter type, where `subtype` is the relation of XPath 3.1 section 2.5.6 over occurrence indicators, atomic types, item(), the node kinds, functions, maps and arrays; and whenever A is a subtype of B every value that is an instance of A is an instance of B.", "quantifier": "all sequence types A and B (of unbounded nesting), all parameter lists, all values and documents", "why_tests_cant": "types nest without bound and the relation is mutually recursive with contravariance; a finite table of pairs cannot settle it", "anchors": ["src/xpath_impl/eval.rs: subtype, subtype_itemtype, SUBTYPE_TBL, match_sequence_type, match_sequence_typed_function_test"]}
{"id": "C81", "title": "instance of decides structured types", "statement": "`V instance of T` is true exactly when V is a value of the sequence type T: the number of items fits the occurrence indicator and each item is a value of the item type - an atomic value of a derived type, a node of the kind, a map all of whose keys and values, or an array all of whose members, are values of the given types, a function (inline or a reference to a library function) whose declared type is a subtype. It never fails.", "quantifier": "all sequence types of unbounded nesting, all values of unbounded size and nesting, all documents", "why_tests_cant": "types and values nest without bound", "anchors": ["src/xpath_impl/eval.rs: match_sequence_type, match_sequence_typed_function_test, match_map_sequence_type, match_array_sequence_type", "src/xpath_impl/func.rs: FUNC_SIGNATURE_TBL, get_function_signature"]}
{"id": "C82", "title": "Errors are raised, kept and never turned into values", "statement": "When the evaluation of some part of an XPath expression must raise an error - an operand of the wrong type, division by zero, a value without a truth value as a condition, an operand of several items, an index out of range, a lookup in something that is no map or array, a cast of a function - then evaluating the whole expression returns an error of the same kind, however deep that part is nested in operators, paths, predicates, bindings, calls, arrays and maps, provided that part is evaluated (what comes before it has a value, the branch is taken, no earlier item decides); no value is returned instead.", "quantifier": "all expressions of unbounded nesting, all positions of the failing part, all documents reachable by parsing and editing, all context nodes", "why_tests_cant": "the failing part may be anywhere in an expression of any depth, after any number of successful iterations", "anchors": ["src/xpath_impl/eval.rs: evaluate_xnode, filter_by_predicate, match_location_path", "src/xpath_impl/oper.rs", "src/xpath_impl/xitem.rs", "src/xpath.rs: eval_xpath"]}
{"id": "C83", "title": "Case conversion follows Unicode", "statement": "upper-case() and lower-case() give every character its Unicode case mapping, including mappings to several characters and the final form of sigma; both are stable under repetition, upper-case() works on concatenations part by part, texts differing only in case agree after upper-case() (six capitals excepted), caseless text is unchanged and no text disappears.", "quantifier": "all strings", "why_tests_cant": "there are infinitely many strings, and the form of sigma depends on the text on both sides, at any distance", "anchors": ["src/xpath_impl/func.rs: fn_upper_case, fn_lower_case, fn_lang"]}
{"id": "C84", "title": "What every text means to the reader", "statement": "Every text without U+0000, well-formed or not, is cut into tokens in exactly one way given by a small grammar (longest names, first closing delimiter, balanced brackets in declarations, stray characters in tags skipped), and new_document returns exactly the tree those tokens describe: elements left open reach to the end and a nameless end tag outside all elements is skipped.", "quantifier": "all texts without U+0000", "why_tests_cant": "there are infinitely many texts, and the claim is about malformed ones as well, where no test oracle exists", "anchors": ["src/sax.rs: SaxDecoder::raw_token, get_name, get_until, get_until_ch, get_until_matching_bracket, get_chardata, skip_spaces", "src/dom.rs: new_document"]}
{"id": "C85", "title": "Accepted expressions follow the grammar, and operators bind by precedence", "statement": "Every XPath text that compiles is derived, token by token, by an explicit grammar: the EBNF of XPath 3.1 with a short list of marked relaxations (a missing operand, step, predicate, argument or type; any name in the place of a keyword inside if/for/let/some/every/function types). The tree that is evaluated is the one the derivation describes. As consequences, the brackets of every accepted expression are balanced, and in its tree no operator ever has a looser operator as its operand unless that operand was parenthesised (or is inside an argument list, predicate, ...).", "quantifier": "all expression texts", "why_tests_cant": "acceptance and the shape of the tree must be right for every expression of every size; tests try a few hundred expressions", "anchors": ["src/xpath_impl/parser.rs compile_xpath, parse_*", "src/xpath_impl/lexer.rs Lexer::new"]}
{"id": "C86", "title": "parent(), root() and the edits never crash because of a dropped handle", "statement": "Whatever handles a program keeps, clones and drops: parent(), root(), root_element(), namespace_uri(), document_order() and the editing methods of a NodePtr that the program holds return (they do not panic); in particular, while the program holds the document, all of them work on every node of the document and root() is the document.", "quantifier": "all programs: every sequence of parsing, cloning, dropping, navigating and editing, on any number of documents", "why_tests_cant": "whether a node is alive depends on the whole history of handles, lists and edits", "anchors": ["src/dom.rs NodePtr, Node, parent, root, root_element, namespace_uri, clear_document_order, document_order", "std::rc Rc, Weak"]}
{"id": "C87", "title": "A node lives exactly as long as it can be reached", "statement": "A node stays alive as long as a held NodePtr leads to it by children() and attributes(); when no held handle leads to it any more it is freed, so a program that drops all its handles has freed every node.", "quantifier": "all programs, as in C86", "why_tests_cant": "reachability changes with every edit and every dropped handle", "anchors": ["src/dom.rs NodePtr, Node, make_new_child_rc_node, append_child, insert_as_previous_sibling, delete_child, set_attribute", "std::rc Rc, Weak"]}
{"id": "C88", "title": "Abbreviations and parentheses do not change the outcome", "statement": "Two XPath texts that differ only in abbreviations and superfluous parentheses have the same outcomes (value, error or panic, and whether evaluation ends) at every node of every document, and select the same nodes: t and child::t, @t and attribute::t, .. and parent::node(), // and /descendant-or-self::node()/, | and union, a => f(b) and f(a, b), fn:f and f, e?k and e ! ?k, several variables after one for/let/some/every and nested ones, string() and string(.) (likewise the other functions that default to the context).", "quantifier": "all pairs of such texts (without inline functions and partial applications, whose value is the text itself), all documents and context nodes", "why_tests_cant": "a rewriting rule relates the outcomes of two programs on every document; tests compare a few pairs on a few documents", "anchors": ["src/xpath_impl/parser.rs parse_axis_step, parse_step_expr, parse_parenthesized_expr, parse_arrow_expr", "src/xpath_impl/eval.rs evaluate_xnode, match_node_test", "src/xpath_impl/func.rs FUNC_CONTEXT_TBL"]}
{"id": "C89", "title": "XPath depends on the tree of the document only", "statement": "Two documents with the same tree (same kinds, names, values, attributes in order, children in order) answer every XPath text alike, started at corresponding nodes: the same error, panic or non-termination, or sequences of the same length whose items are equal, a node of one being the node at the same position in document order of the other; strings, numbers and booleans are identical and the shown text is the same. It does not matter by which parse and edits the documents came about, nor which deleted nodes are still around; in particular a document saved with to_string and parsed again answers every query as before.", "quantifier": "all pairs of documents with equal trees, all edit histories, all XPath texts, all context nodes", "why_tests_cant": "two unboundedly large documents built along different histories are compared on every query; tests fix both", "anchors": ["src/xpath_impl/eval.rs evaluate_xnode, match_loc_step", "src/xpath_impl/func.rs evaluate_function", "src/xpath_impl/xitem.rs XItem", "src/xpath.rs NodePtr::eval_xpath, get_nodeset, get_first_node", "src/dom.rs NodePtr"]}
{"id": "C90", "title": "Arguments outside a function's parameter types", "statement": "The value of a call whose arguments are not of the types the function expects is the one XPath prescribes: the empty sequence as first argument gives nothing, the empty string, zero, not-a-number or a truth value, function by function, whatever the other arguments are; several items, nodes or numbers where a string, an integer position, a map or an array is wanted are a type error; and codepoints-to-string gives a string exactly for sequences of code points.", "quantifier": "all library functions, all argument values (any items, any number of items), all sequences of integers", "why_tests_cant": "argument values of every type and any length are covered; tests try a few", "anchors": ["src/xpath_impl/func.rs: fn_abs, fn_number, fn_substring, fn_codepoints_to_string, fn_contains, fn_remove", "src/xpath_impl/xsequence.rs: get_singleton_string, get_singleton_integer, get_singleton_item"]}
{"id": "C91", "title": "Expressions may be rewritten by the algebraic laws of XPath", "statement": "Replacing a part of an expression by one that XPath's laws say is equal does not change any outcome, value or error: (a, b), c is a, (b, c); reverse(reverse(a)) is a; head(a) is a[1]; not(a and b) is not(a) or not(b); some is not(every not); if (not(c)) then a else b is if (c) then b else a; for $v in a return $v is a; and so on, anywhere in the expression, any number of times.", "quantifier": "all expressions without inline functions and partial applications, all chains of replacements, all documents and nodes", "why_tests_cant": "laws over all expressions and documents", "anchors": ["src/xpath_impl/eval.rs evaluate_xnode", "src/xpath_impl/func.rs evaluate_function"]}
{"id": "C92", "title": "Location paths lead to exactly the nodes they denote", "statement": "A location path - steps with any axis, node test and predicates, joined by / and //, with . and .., parentheses, unions, intersections and differences, nested in any way - evaluates, at every node of every document, to exactly the nodes reached by going from node to node along it: all of them, each once, in document order; a condition (exists, empty, boolean, not, and, or over paths, general comparisons of the nodes' string values with each other or with a string) evaluates to whether it holds. So two paths that reach the same nodes give the same result: a//t and a/descendant::t, (a/b)/c and a/(b/c), a[p and q] and a[p][q], following::t and ancestor-or-self::node()/following-sibling::node()/descendant-or-self::t, and so on.", "quantifier": "all such paths and conditions, all documents parsed and then edited, all context nodes", "why_tests_cant": "paths, predicates and documents nest without bound; a path that loses, repeats or misorders a node may do so only in some documents", "anchors": ["src/xpath_impl/eval.rs match_location_path, match_loc_step, filter_by_predicates", "src/xpath_impl/oper.rs op_union, op_intersect, op_except", "src/xpath_impl/func.rs fn_exists"]}
{"id": "C93", "title": "Edits keep attribute names distinct", "statement": "If no element of a document has two attributes of the same name, then after any number of edits in any order - setting and deleting attributes, appending, inserting, deleting and replacing nodes, asking for the document order - still no element has. A parsed document has distinct attribute names exactly when no start tag of its text repeats one; XML forbids such tags, so they should be refused. (They are not: a start tag that repeats an attribute name is accepted, and gives an element with two attributes of that name.)", "quantifier": "all texts, all documents, all sequences of edits", "why_tests_cant": "the property is an invariant over every history of edits", "anchors": ["src/dom.rs set_attribute, delete_attribute, append_child, delete_child, replace_with, insert_as_previous_sibling, insert_as_next_sibling, new_document"]}

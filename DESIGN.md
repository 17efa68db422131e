# Formal model of ctjhoa/amxml in Rocq (Coq 8.16.1)

The plan below was written before the proofs; "What is modelled", "Trusted base" and the table are kept current.

## Shape of the development (rocq/theories)

* Model files (`Str`, `Chars`, `Sax`, `Dom`, `Axes`, `Lexer`, `FuncTable`, `Parser`, `Num`, `Item`, `Func`, `Types`, `Eval`)
  hold only executable Gallina definitions, one per Rust function, each with a comment `src/file.rs lines`.
* `*Facts.v` files hold lemmas.
* `Spec*.v` hold small specifications written without reference to the model (relations, list functions).
* `Prop*.v` hold the property theorems, each closed by `exact`/short application of a lemma, followed by
  `Print Assumptions` and by an `Example` showing a concrete non-trivial instance of its hypotheses.

Conventions of the model
* Strings are `list N` of Unicode scalar values (Rust `Vec<char>`/`String` seen through `.chars()`).
* A Rust panic is an explicit outcome (`Panic`), an `Err` is an explicit outcome (`Err kind`); error *messages* are
  not modelled, error *kinds* (the enum of src/xmlerror.rs) are.
* Loops and non-structural recursion take a fuel argument and return an explicit out-of-fuel outcome
  (`Fuel`/`None`); termination theorems state that a computable bound on the fuel is never exhausted, and
  non-termination is stated as "out of fuel for every fuel".
* `i64` arithmetic is `Z` with an explicit overflow outcome (debug-build panic). `f64` arithmetic is the
  axiom-free `Coq.Floats.SpecFloat` (binary64: prec 53, emax 1024).
* The DOM is a heap (arena): `Rc` identity = nat index; `Weak` parent pointers are optional indices.

## Plan per property

| id | modelled by | proof idea |
|----|-------------|-----------|
| C01,C02 | `encode_entity`, `decode_entity` literally (successive `str::replace`) | replacement lemmas; char-wise homomorphism of encode; invariants on where `&` can occur |
| C03 | `decode_entity` | refuted by counter-example (`&#38;lt;`), partial: single-pass equality when no replacement creates a new `&` |
| C04,C05 | full tokenizer `raw_token`, `new_document` on the heap, `to_string` | tokenizer lemma per construct (print;rest), induction over the tree, representation predicate heap↔tree |
| C06 | fuelled tokenizer | refuted: `<a` exhausts every fuel; C06_never_returns: exactly which texts loop, C06_otherwise: all others return; see C84 |
| C07 | `new_document` over the token list | stack invariant; unclosed elements are accepted (refuted part); PropTags.v: exact characterisation of the accepted token lists |
| C08 | heap model of `new_document` | representation predicate as loop invariant |
| C09,C10,C11 | heap model of the mutators | list lemmas, heap frame lemmas; C11 refuted |
| C12 | `setup_document_order_sub` | mutual induction on trees, preorder enumeration |
| C13,C14 | `sort_by_doc_order`, `op_union`.. on (identity, order) | stable sort + adjacent dedup; injectivity of order |
| C15,C16 | axis functions over the heap, for heaps representing a tree | tree addresses (paths), lexicographic order |
| C17,C18 | `filter_by_predicate(s)` | nth lemmas; C18 refuted for multi-item/string/decimal values |
| C19-C22,C52 | evaluator `evaluate_xnode` with fuel | per-construct theorems about the evaluator; C20_frame (PropFrame.v): the walk over the evaluator of SafeEval.v with the bindings of one name as the invariant |
| C23,C24 | `general_comparison`, `value_compare_*` | existential over pairs; C24 refuted for ne/le/ge on empty |
| C25,C26,C27 | `xitem_numeric_*`, `op_to` | Z arithmetic; case analysis; idiv by fraction panics (refuted part) |
| C28 | `subcollection_index_sub`, over SpecFloat | case analysis on floats; for every finite start and length the saturated positions or the panic (PropRound) |
| C29-C34,C53 | `fn_*` on strings and sequences | list induction; C30,C31 refuted + partial |
| C35,C36 | `map_*`, `array_*` | induction on nested arrays |
| C37 | `cast_as`, `castable_as` | case analysis |
| C38 | `match_occurence`, `derives_from` | induction on chains |
| C39,C40,C41 | lexer | induction on strings; C41 refuted by the empty expression |
| C42-C46 | parser with fuel | printing/parsing induction; fuel measure; C45, C46 refuted |
| C47,C48 | `namespace_uri`, `fn_lang` | induction on ancestor chain; C48 refuted |
| C49 | `match_name_test` | case analysis |
| C50 | `to_string_with_indent` | tree induction, erasing inserted white space |
| C51 | function tables, parser, `evaluate_function` | table lookup; an arrow call compiles whatever its arguments, and evaluates to CantOccur when the table has no entry (PropArrow) |

Properties that turn out to be false of the code are stated in full, refuted by a theorem with suffix `_refuted`
on a concrete reachable input, and the strongest true part is proved with suffix `_partial`.

## What is modelled

| code | model | not modelled |
|------|-------|--------------|
| src/sax.rs (all of it) | `Chars`, `Sax` | reading bytes / UTF-8; error messages |
| src/dom.rs (all of it) | `Dom`, `Axes` (the order numbers and axes), `Own` (handles and freeing), `Str` | freeing of nodes in all modules but `Own` (there `Weak::upgrade` fails on a freed node; elsewhere it never fails, which C86_ancestors_kept justifies while the document is held); the contract of `std::rc` is assumed; overflow of the order counter; `Debug` formatting |
| src/xpath.rs (`eval_xpath`, `get_first_node`, `each_node`, `get_nodeset`, `Sequence`, `Item`) | `Eval` (end of the file) | `as_nodeptr` copies |
| src/xpath_impl/lexer.rs | `Lexer` | error messages, `Debug` dumps |
| src/xpath_impl/parser.rs (all productions) | `Parser`, `FuncTable` (arity tables) | error messages |
| src/xpath_impl/eval.rs | `Axes` (axis functions), `Types` (sequence types), `Eval` | error messages |
| src/xpath_impl/oper.rs | `Item` (comparison, arithmetic, union/intersect/except), `Axes` (sorting) | |
| src/xpath_impl/func.rs | `Func` | the Unicode version behind `upper-case`/`lower-case` (tables of 14.0.0, `CaseTable`); `current-dateTime`-like functions do not exist in the crate |
| src/xpath_impl/xitem.rs, xsequence.rs, helpers.rs | `Num`, `Item`, `Types` | `Debug` formatting |
| src/main.rs, tests, doc comments | - | not modelled |

`f64` to string and back (Rust's shortest decimal / correctly rounded parsing) is modelled by the exact search described
in `Num.v`.  `tools/conformance.py` extracts the 647 expectations of the crate's own unit tests, evaluates each with
`vm_compute` on the model and compares: all 647 agree.  That is a test of
the translation, not a proof, and is not part of the theorems.

## Properties added while the model grew

| id | modelled by | proof idea |
|----|-------------|-----------|
| C54 | all DOM mutators | invariant over edit histories; refuted for `append_child` |
| C55 | `fn_floor`, `fn_ceiling`, `fn_round`, `fn_abs` over SpecFloat | Flocq's correctness theorems for binary64 rounding; `round` exactly for every finite number and exactly where it is XPath's (PropRound) |
| C56 | `Lexer` rewriting of operator words | refuted by evaluation for every operator word; symbols by C42 |
| C57, C58 | `atoi`, `fmt_i64`, `cast_item` | Horner evaluation of digit rows; uniqueness of the notation; texts via C42 |
| C59 | `tokenize`, `parse_document` (Sax.v, Dom.v) | SpecRead.v: relation between texts and documents; induction over the spelling, one lemma per construct |
| C60 | accessors of `NodePtr` | induction over the path from the root to the node |
| C61 | `is_name_char` (sax.rs), `fetch_name` (lexer.rs) | inclusion of character ranges; induction over the token list |
| C62 | `string_value`, `get_as_raw_string`, `fn_string`, `fn_data` (SemNode.v, SemLib.v) | induction over the tree; an inductive relation for the string value in SpecSem.v; PropString.v: exact value of every node |
| C63 | the whole path from text to value: lexer, parser (C42), `eval`, functions, operators | SpecSem.v gives the rules of the recommendation as an inductive big-step relation `means` (numbers through SpecArith.v and SpecLib.v, bit for bit); mutual induction over its derivations (SemMain.v `means_yields`) shows that every tree the text can be parsed to evaluates to that value in every environment that agrees with the variables |
| C64 | `eval` with its fuel: the depth of nested Rust calls | an invariant over the whole evaluator (SafeFacts.v, SafeEval.v): with fuel above the size of the tree, no step runs out; refuted by a function that calls itself through its own variable |
| C65 | every panic of the evaluator is an outcome `Panic` of the model | the same invariant with panics forbidden; for grammar expressions the operands are never missing; refuted by '1 +', overflow and others |
| C66 | `eval` over session documents | the same invariant in its loosest form (fuel and panics tolerated): every node in every value is in the document |
| C67 | `op_numeric_operation` on `SpecFloat` binary64 | Flocq's correctness theorems turned into a statement about real numbers (SpecDbl.v: nearest, ties to even, overflow); mod through integer remainders; C67_exact (PropExact.v) adds the signs of zeros through SpecArith.v |
| C68 | `atof` (Rust's f64::from_str), literals, casts | an inductive grammar of decimal notation; the text reader is exact, one division or multiplication rounds; inversion of the reader for the converse |
| C69 | `get_as_raw_string`, Rust's float formatting | 17 digits suffice (error bounds), fewer digits tried first; monotonicity of rounding shows that a failed length admits no number of that length; FloatNear.v: the nearer of the two neighbours is taken, a plain notation is determined by its number, so `number_text` (SpecPrint.v) has one solution, which `string_of` in SpecSem.v uses (C63) |
| C70 | `evaluate_function`: the table of context functions | both calls reduce to the same function of the same sequence |
| C71 | `fn_name`, `fn_local_name`, `fn_namespace_uri`, `fn_nilled`, `fn_root`, `fn_data` | case analysis; the namespace walk is C47's |
| C72 | `fn_compare`, `fn_case` | lexicographic order of C24; character by character |
| C73 | `convert_xnode_to_map_array` | induction on the chain of entries |
| C74 | `lookup_wildcard`, `lookup_expr`, `X_OperatorMap` | `map_finds`/`array_finds` are functional; induction on the keys and members |
| C75 | `for_each_loop`, `filter_fn_loop`, `call_function_body` | the relation `applied` of SpecItem.v describes a call; induction on the items; functions of another number of arguments in PropApply |
| C76 | `match_kind_test`, `axis_nodes` | the test is `kind_matches` of SpecItem.v; the axis part is C16 |
| C77 | `get_name` and its tables, the tokenizer, `new_document` | SpecNames.v has the productions of the recommendation as tables; equality of the tables by computation, names of all tokens and nodes by induction over the tokenizer and the document loop; reading by C59 |
| C78 | `get_nodeset`, `get_first_node`, `each_node` over `eval_xpath`, the accessors of `Sequence` and `Item` | SpecApi.v relates the outcomes of the calls; unfolding, induction over the sequence; repeatability from the monotony of the fuel; document order refuted by a computed query |
| C79 | the `Display` of items and sequences | SpecShow.v is the notation as an inductive relation (numbers by correct rounding, SpecDbl.v); induction over the depth of items; telling apart by the characters a text can contain and by cutting the row at commas |
| C80 | Types.v `subtype`, `subtype_itemtype`, `match_sequence_type` as they are | SpecSub.v gives sequence types as a datatype with its syntax trees and the subtype relation of XPath 3.1; PropSub.v shows that the program decides it (mutual induction on size), that `instance of` on function items follows it, that it is sound for values (mutual induction on the relation), and exact/refuted theorems for the rest |
| C81 | Types.v `match_sequence_type` and helpers, FuncTable.v `func_signature_tbl` as they are | SpecInst.v defines the values of a sequence type by recursion on the type, with the declared types of 80 library functions written out as types; PropInst.v shows by induction on the size of the type that the program decides it (maps with distinct keys; function items inline or library references), using C80 for function items. Where XPath differs: C81_functions_refuted |
| C82 | Eval.v `eval` and all it calls, as they are | SpecErr.v: an inductive relation "raises an error of this kind" beside `means` of SpecSem.v (sources of errors; propagation through every construct). PropErr.v: mutual induction on the derivation, with the values before the failing part from C63 (`means_yields`). C82_determined: at most one error, never an error and a value. Refuted: 'a' idiv 2, 1 = 'a', unbound variables, steps on atomic items, saturating casts |
| C83 | Case.v `to_upper`, `to_lower` (Rust's str::to_uppercase/to_lowercase) on the generated tables of CaseTable.v | SpecCase.v: relations `upper_text`, `lower_text` read off the tables, with the final-sigma rule; case pairs of four alphabets by arithmetic. CaseFacts.v: table sanity (sorted, disjoint) by computation, then all strings by induction; PropCase.v. C48_lang_case_refuted: lang() with a capital letter in its argument is always false. |
| C84 | Sax.v `raw_token`, `attr_loop`, Dom.v `doc_loop` | SpecScan.v: relational grammar `markup`/`scan` of the reader (tags: `tag_rest`, `tag_after`; text that ends inside a tag: `tag_open`, `unfinished`) and relations `content`/`open_content`/`top_content` from tokens to nodes. ScanFacts.v: soundness and completeness of each scanner function; PropScan.v: tokens = grammar, tree = content, plus C06_never_returns, C06_otherwise, C07_accepts. Texts containing U+0000 (which is not an XML character and which the program takes for the end of input) are excluded. |
| C85 | Parser.v (all productions), Lexer.v | SpecGrammar.v: the relation `derives` (grammar and trees), `balanced`, `rank`/`fits`. GrammarFacts.v: every token of the lexer is spelled as its type says; each parsing function is sound for its nonterminal (induction on the fuel of the loops and of the nesting). PropGrammar.v: C85_grammar; induction on derivations for C85_balanced and C85_precedence. |
| C86 | Own.v: the heap of Dom.v with the list of freed cells and the list of held handles; `step` is one operation of a client program, `upgrade` fails on a freed cell | SpecOwn.v (`above`, `kept`, `alive`); invariant "owned cells are live, live cells are owned" kept by every step (OwnFacts.v, PropOwn.v `step_inv`); C86_panics_exactly by cases on the operation; refuted by four executed programs; PropOwn2.v: the nodes an XPath query returns are kept by the document handle |
| C87 | the same; `release` is the cascade of drops, the strong count is `owners` | the cascade keeps the invariant (`release_inv`); alive -> reachable by walking up through distinct owners (`alive_kept`), at most as many as there are cells; sessions list only younger nodes, so they are acyclic; PropOwn2.v: a held result node stays alive |
| C88 | nothing new: evaluation of two trees is compared | trees that stand for e and `full e` evaluate alike up to a constant number of units of fuel (`ek`), closed under every construct (`cong_le`, generalising the monotonicity of the evaluator); PropSame.v |
| C89 | nothing new: evaluation over two heaps is compared | a relation between the cells of two documents with equal erased trees (`peer`, IsoFacts.v) is carried through the axes (IsoWalk.v), items, comparisons, functions, types and display (IsoItem.v) and one step of evaluation (IsoEval.v), then induction on fuel; PropIso.v |
| C90 | nothing new: the library of Func.v | values by the function's name and arguments (`of_empty`, `mistyped`, `spells` in SpecArgs.v); case analysis on the arguments, induction over the number list for codepoints-to-string (UTF-16 units of numbers modulo 2^64); refutations of XPath's rules; PropArgs.v |
| C91 | parser and evaluator, laws in SpecRewrite | each law by unfolding the evaluator on both trees with the fuel of one raised (LawFacts), then congruence through every expression form (RewriteFacts) |
| C92 | evaluator on location paths, denotation in SpecPath | the rules of SpecSem are shown to apply to every path of the fragment (existence of the step results from the axis theorems, finite choice), then C63; the laws are equalities of denotations, following/preceding by induction on the tree frames. What must be known of the document for a predicate to be a path (`k_names`) or for a comparison of nodes (`k_texts`, see C92_texts) is a parameter of the fragment |
| C93 | every text that is parsed and every edit of the DOM (relation worked: the operations of SpecEdit.reachable) | invariant on the attribute names of every cell of the heap, each edit shown to change at most the names of its own node; the parser by induction over the token stream, with an equivalence between the tree built so far and the start tags read |

## Trusted base

* Coq 8.16.1's kernel (`vm_compute` is used for closed examples and refutations, so its conversion machine too).
* `Print Assumptions` is issued after each theorem.  Every theorem is "Closed under the global context" except those
  about binary64 numbers (C28_*, C55_*, C67_*, C68_*, C69_*, C82_*, C24_numbers, C34_sum_numbers, C34_avg_numbers, and C63_* and what is
  proved through it, C62_string_partial among them, because its rules speak of such numbers: files `FloatFacts`, `SpecNum`, `PropNum`, `SpecDbl`,
  `FloatRound`, `FloatText`, `FloatPrint`, `FloatShort`, `FloatArith`, `PropDbl`, `ArithFacts`, `LibNum`, `SemOper`, `SemMore`, `SemMain`, `PropSem`, `PropExact`, `ErrFacts`, `PropErr`), which use the standard library's
  real numbers through Flocq and depend on
  `ClassicalDedekindReals.sig_not_dec`, `ClassicalDedekindReals.sig_forall_dec`,
  `FunctionalExtensionality.functional_extensionality_dep` and `Classical_Prop.classic`.
* The other axioms a loader lists (`Coq.ssr.ssrunder.*`, `Coq.Reals.Rdefinitions.*`) are the opaque fields of standard
  library modules that are merely loaded; no theorem here depends on the former, and the latter are implemented by
  the four axioms above.
* The hand translation from Rust to Gallina, whose simplifications are stated at each definition.
* No axioms, no `Admitted`, no functors or module types, no kernel switches of our own.

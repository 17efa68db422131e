(* Specification: the grammar of the expressions the program accepts, as productions over tokens, and the tree
   each production stands for.  It follows the EBNF of XPath 3.1 (the numbers are its production numbers).
   Where the program accepts more than that grammar, the extra production is marked RELAXED. *)
Require Import Bool List NArith ZArith Ascii String.
From Verif Require Import Str Lexer FuncTable Parser.
Import ListNotations.
Open Scope N_scope.

(* ---- terminals ---- *)
Definition tk (ty : ttype) (s : string) : token := mkTok ty (lit s).
Definition name (s : str) : token := mkTok T_Name s.
Definition SLASH := tk T_Slash "/".        Definition SLASHES := tk T_SlashSlash "//".
Definition LPAR := tk T_LeftParen "(".     Definition RPAR := tk T_RightParen ")".
Definition LSQ := tk T_LeftBracket "[".    Definition RSQ := tk T_RightBracket "]".
Definition LCUR := tk T_LeftCurly "{".     Definition RCUR := tk T_RightCurly "}".
Definition COMMA := tk T_Comma ",".        Definition COLON := tk T_Colon ":".
Definition COLONS := tk T_ColonColon "::". Definition BIND := tk T_Bind ":=".
Definition DOLLAR := tk T_Dollar "$".      Definition QUEST := tk T_Question "?".
Definition STAR := tk T_Asterisk "*".      Definition PLUS := tk T_Plus "+".
Definition MINUS := tk T_Minus "-".        Definition AT := tk T_At "@".
Definition DOT := tk T_Dot ".".            Definition DOTS := tk T_DotDot "..".
Definition ARROW := tk T_Arrow "=>".       Definition SHARP := tk T_Sharp "#".
Definition AS := name (lit "as").

Definition axis_words : list (string * xtype) := [
  ("ancestor", X_AxisAncestor); ("ancestor-or-self", X_AxisAncestorOrSelf); ("attribute", X_AxisAttribute);
  ("child", X_AxisChild); ("descendant", X_AxisDescendant); ("descendant-or-self", X_AxisDescendantOrSelf);
  ("following", X_AxisFollowing); ("following-sibling", X_AxisFollowingSibling); ("parent", X_AxisParent);
  ("preceding", X_AxisPreceding); ("preceding-sibling", X_AxisPrecedingSibling); ("self", X_AxisSelf)]%string.
Definition reversed (ax : xtype) : Prop :=
  In ax [X_AxisParent; X_AxisAncestor; X_AxisAncestorOrSelf; X_AxisPreceding; X_AxisPrecedingSibling].

(* ---- names [112] EQName: an unprefixed name gets the default prefix, if there is one ---- *)
Inductive eqname (dp : string) : list token -> str -> Prop :=
| q_local : forall n, eqname dp [name n] (if string_dec dp "" then n else lit dp ++ lit ":" ++ n)
| q_prefixed : forall p n, eqname dp [name p; COLON; name n] (p ++ lit ":" ++ n)
| q_braced : forall u n, eqname dp [mkTok T_BracedURILiteral u; name n] (u ++ n).

(* ---- [83] KindTest ---- *)
Definition empty_tests : list (ttype * string * xtype) := [
  (T_CommentTest, "comment", X_CommentTest); (T_TextTest, "text", X_TextTest);
  (T_NamespaceNodeTest, "namespace-node", X_NamespaceNodeTest); (T_AnyKindTest, "node", X_AnyKindTest)]%string.
(* [98] SchemaElementTest *)
Inductive schema_element : list token -> xnode -> Prop :=
| se_test : forall c n, eqname "" c n ->
    schema_element (tk T_SchemaElementTest "schema-element" :: LPAR :: c ++ [RPAR]) (leaf X_SchemaElementTest n).
(* the name in [94] ElementTest and [90] AttributeTest *)
Inductive element_name : list token -> str -> Prop :=
| en_name : forall c n, eqname "" c n -> element_name c n
| en_star : element_name [STAR] (lit "*").
(* [94] ElementTest.  Without a type, the type is xs:anyType? *)
Inductive element_test : list token -> xnode -> Prop :=
| et_any : element_test [tk T_ElementTest "element"; LPAR; RPAR]
             (XNode X_ElementTest (lit "*") (leaf X_KindTestTypeName (lit "xs:anyType?")) XNil)
| et_name : forall c n, element_name c n -> element_test (tk T_ElementTest "element" :: LPAR :: c ++ [RPAR])
             (XNode X_ElementTest n (leaf X_KindTestTypeName (lit "xs:anyType?")) XNil)
| et_typed : forall c n d ty, element_name c n -> eqname "xs" d ty ->
    element_test (tk T_ElementTest "element" :: LPAR :: c ++ COMMA :: d ++ [RPAR])
             (XNode X_ElementTest n (leaf X_KindTestTypeName ty) XNil)
| et_nillable : forall c n d ty, element_name c n -> eqname "xs" d ty ->
    element_test (tk T_ElementTest "element" :: LPAR :: c ++ COMMA :: d ++ [QUEST; RPAR])
             (XNode X_ElementTest n (leaf X_KindTestTypeName (ty ++ lit "?")) XNil).
Inductive kind_test : list token -> xnode -> Prop :=
| k_empty : forall ty s x, In (ty, s, x) empty_tests -> kind_test [tk ty s; LPAR; RPAR] (leaf x [])
| k_element : forall c x, element_test c x -> kind_test c x
| k_schema_element : forall c x, schema_element c x -> kind_test c x
| k_schema_attribute : forall c n, eqname "" c n ->
    kind_test (tk T_SchemaAttributeTest "schema-attribute" :: LPAR :: c ++ [RPAR]) (leaf X_SchemaAttributeTest n)
| k_attribute : kind_test [tk T_AttributeTest "attribute"; LPAR; RPAR]
    (XNode X_AttributeTest (lit "*") (leaf X_KindTestTypeName (lit "xs:anyType")) XNil)
| k_attribute_name : forall c n, element_name c n ->
    kind_test (tk T_AttributeTest "attribute" :: LPAR :: c ++ [RPAR])
      (XNode X_AttributeTest n (leaf X_KindTestTypeName (lit "xs:anyType")) XNil)
| k_attribute_typed : forall c n d ty, element_name c n -> eqname "xs" d ty ->
    kind_test (tk T_AttributeTest "attribute" :: LPAR :: c ++ COMMA :: d ++ [RPAR])
      (XNode X_AttributeTest n (leaf X_KindTestTypeName ty) XNil)
| k_document : kind_test [tk T_DocumentTest "document-node"; LPAR; RPAR] (XNode X_DocumentTest [] XNil XNil)
| k_document_element : forall c x, element_test c x \/ schema_element c x ->
    kind_test (tk T_DocumentTest "document-node" :: LPAR :: c ++ [RPAR]) (XNode X_DocumentTest [] x XNil)
| k_pi : kind_test [tk T_PITest "processing-instruction"; LPAR; RPAR] (leaf X_PITest [])
| k_pi_name : forall n, kind_test [tk T_PITest "processing-instruction"; LPAR; name n; RPAR] (leaf X_PITest n)
| k_pi_string : forall n,
    kind_test [tk T_PITest "processing-instruction"; LPAR; mkTok T_StringLiteral n; RPAR] (leaf X_PITest n).

(* ---- [46] NodeTest: the tokens, the name in the step, the kind test under it ---- *)
Inductive node_test : list token -> str -> xnode -> Prop :=
| n_name : forall c n, eqname "" c n -> node_test c n XNil
| n_star : node_test [STAR] (lit "*") XNil
| n_prefix_star : forall p, node_test [name p; tk T_ColonAsterisk ":*"] (p ++ lit ":*") XNil
| n_star_local : forall l, node_test [tk T_AsteriskColon "*:"; name l] (lit "*:" ++ l) XNil
| n_uri_star : forall u, node_test [mkTok T_BracedURILiteral u; STAR] (u ++ lit "*") XNil
| n_kind : forall c x, kind_test c x -> node_test c [] (XNode X_KindTest [] x XNil).
(* ---- [40] ForwardAxis, [43] ReverseAxis and the abbreviations [42] ---- *)
Inductive axis_part : list token -> xtype -> Prop :=
| a_child : axis_part [] X_AxisChild
| a_attribute : axis_part [AT] X_AxisAttribute
| a_named : forall s ax, In (s, ax) axis_words -> axis_part [tk T_AxisName s; COLONS] ax.

(* RELAXED: where a keyword is expected, any name is accepted (also any token written like the keyword) *)
Definition keyword (s : string) (w : token) : Prop := t_type w = T_Name \/ t_name w = lit s.

(* ---- the nonterminals ---- *)
Inductive binder := B_for | B_let | B_some | B_every.
Inductive nt :=
| Expr | ExprSingle | OrExpr | AndExpr | ComparisonExpr | StringConcatExpr | RangeExpr | AdditiveExpr
| MultiplicativeExpr | UnionExpr | IntersectExceptExpr | InstanceofExpr | TreatExpr | CastableExpr | CastExpr
| ArrowExpr | UnaryExpr | SimpleMapExpr | PathExpr | RelativePathExpr | MoreSteps | StepExpr | PostfixExpr
| PrimaryExpr | Lookup | PredicateList (rev : bool) | ArgumentList | Argument | Param | MapEntry
| Commas (item : nt)             (* items separated by commas, linked to one another *)
| MoreCommas (item : nt)
| Entries (ty : xtype) (item : nt)   (* items separated by commas, each below a cell of type ty *)
| MoreEntries (ty : xtype) (item : nt)
| Bindings (b : binder) | Binding (b : binder)
| ItemType | SequenceType | MoreTypes | SingleType.

(* binary operators, from the loosest to the tightest; [operand n]: what the operators of [n] join *)
Definition operand (n : nt) : option nt :=
  match n with
  | Expr => Some ExprSingle
  | OrExpr => Some AndExpr
  | AndExpr => Some ComparisonExpr
  | ComparisonExpr => Some StringConcatExpr
  | StringConcatExpr => Some RangeExpr
  | RangeExpr => Some AdditiveExpr
  | AdditiveExpr => Some MultiplicativeExpr
  | MultiplicativeExpr => Some UnionExpr
  | UnionExpr => Some IntersectExceptExpr
  | IntersectExceptExpr => Some InstanceofExpr
  | SimpleMapExpr => Some PathExpr
  | _ => None
  end.
Definition operators (n : nt) : list (ttype * string * xtype) :=
  match n with
  | Expr => [(T_Comma, ",", X_OperatorConcatenate)]
  | OrExpr => [(T_Or, "or", X_OperatorOr)]
  | AndExpr => [(T_And, "and", X_OperatorAnd)]
  | ComparisonExpr => [
      (T_ValueEQ, "eq", X_OperatorValueEQ); (T_ValueNE, "ne", X_OperatorValueNE); (T_ValueLT, "lt", X_OperatorValueLT);
      (T_ValueGT, "gt", X_OperatorValueGT); (T_ValueLE, "le", X_OperatorValueLE); (T_ValueGE, "ge", X_OperatorValueGE);
      (T_GeneralEQ, "=", X_OperatorGeneralEQ); (T_GeneralNE, "!=", X_OperatorGeneralNE);
      (T_GeneralLT, "<", X_OperatorGeneralLT); (T_GeneralGT, ">", X_OperatorGeneralGT);
      (T_GeneralLE, "<=", X_OperatorGeneralLE); (T_GeneralGE, ">=", X_OperatorGeneralGE);
      (T_IsSameNode, "is", X_OperatorIsSameNode); (T_NodeBefore, "<<", X_OperatorNodeBefore);
      (T_NodeAfter, ">>", X_OperatorNodeAfter)]
  | StringConcatExpr => [(T_OperatorConcat, "||", X_OperatorConcat)]
  | RangeExpr => [(T_To, "to", X_OperatorTo)]
  | AdditiveExpr => [(T_Plus, "+", X_OperatorAdd); (T_Minus, "-", X_OperatorSubtract)]
  | MultiplicativeExpr => [(T_Asterisk, "*", X_OperatorMultiply); (T_Div, "div", X_OperatorDiv);
                           (T_IDiv, "idiv", X_OperatorIDiv); (T_Mod, "mod", X_OperatorMod)]
  | UnionExpr => [(T_Union, "union", X_OperatorUnion); (T_Union, "|", X_OperatorUnion)]
  | IntersectExceptExpr => [(T_Intersect, "intersect", X_OperatorIntersect); (T_Except, "except", X_OperatorExcept)]
  | SimpleMapExpr => [(T_OperatorMap, "!", X_OperatorMap)]
  | _ => []
  end%string.
(* a comparison and a range have at most one operator; the others repeat, to the left *)
Definition repeats (n : nt) : bool := match n with ComparisonExpr | RangeExpr => false | _ => true end.
(* operators with a type on the right: what is on the left, the token (the two words "instance of" and so on are
   one token, which keeps the first word), the kind of type on the right *)
Definition type_operator (n : nt) : option (nt * token * xtype * nt) :=
  match n with
  | InstanceofExpr => Some (TreatExpr, tk T_InstanceOf "instance", X_OperatorInstanceOf, SequenceType)
  | TreatExpr => Some (CastableExpr, tk T_TreatAs "treat", X_OperatorTreatAs, SequenceType)
  | CastableExpr => Some (CastExpr, tk T_CastableAs "castable", X_OperatorCastableAs, SingleType)
  | CastExpr => Some (ArrowExpr, tk T_CastAs "cast", X_OperatorCastAs, SingleType)
  | _ => None
  end.
(* for, let, some, every: the word, its node, the node of a binding, the word before the body *)
Definition binder_word (b : binder) : token * xtype * string * xtype * string :=
  match b with
  | B_for => (tk T_For "for", X_ForExpr, "for", X_ForVarBind, "return")
  | B_let => (tk T_Let "let", X_LetExpr, "let", X_LetVarBind, "return")
  | B_some => (tk T_Some "some", X_SomeExpr, "some", X_SomeVarBind, "satisfies")
  | B_every => (tk T_Every "every", X_EveryExpr, "every", X_EveryVarBind, "satisfies")
  end%string.

(* the cell x with r linked after it; RELAXED: what follows an omitted item of a list is lost *)
Definition linked (x r : xnode) : xnode :=
  match x with XNode t n l _ => XNode t n l r | XNil => XNil end.
(* the types of the cells of a list *)
Fixpoint cells (x : xnode) : list xtype :=
  match x with XNode t _ _ r => t :: cells r | XNil => [] end.
Definition any_items : xnode := XNode X_SequenceType (lit "*") (leaf X_ItemTest []) XNil.
(* the function table has an entry for this name and number of arguments *)
Definition declared (f : str) (n : nat) : Prop :=
  exists ar fid, In (ar, f, fid) (func_context_tbl ++ func_tbl) /\ (ar = None \/ ar = Some n).

(* ---- the grammar: [derives n c x]: the tokens c are an n, whose tree is x.  The tree XNil stands for a missing
   operand.  The text in a path node ([lab]) has no meaning. ---- *)
Inductive derives : nt -> list token -> xnode -> Prop :=
(* [6] Expr, [16]-[24], [33] SimpleMapExpr: binary operators *)
| g_operand : forall n m c x, operand n = Some m -> derives m c x -> derives n c x
| g_operator : forall n m ty s xt c1 x c2 y, operand n = Some m -> In (ty, s, xt) (operators n) ->
    derives (if repeats n then n else m) c1 x -> derives m c2 y ->
    derives n (c1 ++ tk ty s :: c2) (XNode xt (lit s) x y)
(* [25]-[28] *)
| g_untyped : forall n m w xt ty c x, type_operator n = Some (m, w, xt, ty) -> derives m c x -> derives n c x
| g_typed : forall n m w xt ty c1 x c2 s, type_operator n = Some (m, w, xt, ty) -> derives m c1 x ->
    derives ty c2 s -> s <> XNil -> derives n (c1 ++ w :: c2) (XNode xt [] x s)
(* [29] ArrowExpr: the value on the left becomes the first argument *)
| g_no_arrow : forall c x, derives UnaryExpr c x -> derives ArrowExpr c x
| g_arrow : forall c1 x c2 f c3 a, derives ArrowExpr c1 x -> eqname "fn" c2 f -> derives ArgumentList c3 a ->
    derives ArrowExpr (c1 ++ ARROW :: c2 ++ c3) (XNode X_FunctionCall f XNil (XNode X_ArgumentTop [] x a))
| g_arrow_var : forall c1 x c2 v c3 a, derives ArrowExpr c1 x -> eqname "" c2 v -> derives ArgumentList c3 a ->
    derives ArrowExpr (c1 ++ ARROW :: DOLLAR :: c2 ++ c3)
      (XNode X_ApplyArgument [] (leaf X_VarRef v) (XNode X_ArgumentListTop [] (XNode X_ArgumentTop [] x a) XNil))
(* [30] UnaryExpr: at most one sign *)
| g_no_sign : forall c x, derives SimpleMapExpr c x -> derives UnaryExpr c x
| g_minus : forall c x, derives SimpleMapExpr c x -> derives UnaryExpr (MINUS :: c) (XNode X_OperatorUnaryMinus (lit "-") XNil x)
| g_plus : forall c x, derives SimpleMapExpr c x -> derives UnaryExpr (PLUS :: c) (XNode X_OperatorUnaryPlus (lit "+") XNil x)
(* [36] PathExpr *)
| g_relative : forall c x, derives RelativePathExpr c x -> derives PathExpr c x
| g_root : forall lab c x, derives RelativePathExpr c x ->
    derives PathExpr (SLASH :: c) (XNode X_OperatorPath lab (leaf X_AxisRoot (lit "node()")) x)
| g_root_any : forall lab lab' c x, derives RelativePathExpr c x ->
    derives PathExpr (SLASHES :: c) (XNode X_OperatorPath lab (leaf X_AxisRoot (lit "/"))
      (XNode X_OperatorPath lab' (leaf X_AxisDescendantOrSelf (lit "node()")) x))
(* [37] RelativePathExpr: a step and the steps after it; "//" is a step descendant-or-self::node() of its own *)
| g_one_step : forall c x, derives StepExpr c x -> derives RelativePathExpr c x
| g_steps : forall lab c x d r, derives StepExpr c x -> x <> XNil -> derives MoreSteps d r -> r <> XNil ->
    derives RelativePathExpr (c ++ d) (XNode X_OperatorPath lab x r)
| g_last : derives MoreSteps [] XNil
| g_slash : forall lab c x d r, derives StepExpr c x -> derives MoreSteps d r ->
    derives MoreSteps (SLASH :: c ++ d) (XNode X_OperatorPath lab x r)
| g_slashes : forall lab lab' c x d r, derives StepExpr c x -> derives MoreSteps d r ->
    derives MoreSteps (SLASHES :: c ++ d)
      (XNode X_OperatorPath lab (leaf X_AxisDescendantOrSelf (lit "node()")) (XNode X_OperatorPath lab' x r))
(* [38] StepExpr, [39] AxisStep *)
| g_postfix : forall c x, derives PostfixExpr c x -> derives StepExpr c x
| g_axis_step : forall a ax c n k d p rev, axis_part a ax -> node_test c n k -> (rev = true <-> reversed ax) ->
    derives (PredicateList rev) d p -> derives StepExpr (a ++ c ++ d) (XNode ax n k p)
| g_parent : derives StepExpr [DOTS] (leaf X_AxisParent (lit "node()"))
| g_no_step : forall a ax, axis_part a ax -> derives StepExpr a XNil
    (* RELAXED: a step, or what follows "@" or "axis::", may be missing *)
(* [51] PredicateList, [52] Predicate *)
| g_no_predicate : forall rev, derives (PredicateList rev) [] XNil
| g_predicate : forall rev c x d p, derives Expr c x -> x <> XNil -> derives (PredicateList rev) d p ->
    derives (PredicateList rev) (LSQ :: c ++ RSQ :: d)
      (XNode (if rev then X_PredicateRevTop else X_PredicateTop) (lit "Predicate") x p)
| g_empty_predicate : forall rev c, derives Expr c XNil -> derives (PredicateList rev) (LSQ :: c ++ [RSQ]) XNil
    (* RELAXED: a predicate may be empty; it is dropped and is the last *)
(* [49] PostfixExpr *)
| g_primary : forall c x, derives PrimaryExpr c x -> derives PostfixExpr c x
| g_filter : forall c x d e, derives PostfixExpr c x -> derives Expr d e ->
    derives PostfixExpr (c ++ LSQ :: d ++ [RSQ]) (XNode X_ApplyPredicate [] x (XNode X_PredicateTop [] e XNil))
| g_apply : forall c x d a, derives PostfixExpr c x -> derives ArgumentList d a ->
    derives PostfixExpr (c ++ d) (XNode X_ApplyArgument [] x (XNode X_ArgumentListTop [] a XNil))
| g_lookup : forall c x d l, derives PostfixExpr c x -> derives Lookup d l ->
    derives PostfixExpr (c ++ d) (XNode X_OperatorMap [] x l)
(* [53] Lookup, [54] KeySpecifier *)
| g_key_name : forall n, derives Lookup [QUEST; name n] (XNode X_UnaryLookupByExpr [] (leaf X_StringLiteral n) XNil)
| g_key_number : forall n,
    derives Lookup [QUEST; mkTok T_IntegerLiteral n] (XNode X_UnaryLookupByExpr [] (leaf X_IntegerLiteral n) XNil)
| g_key_star : derives Lookup [QUEST; STAR] (leaf X_UnaryLookupByWildcard (lit "*"))
| g_key_expr : forall c x, derives Expr c x -> derives Lookup (QUEST :: LPAR :: c ++ [RPAR])
    (XNode X_UnaryLookupByExpr [] (XNode X_ParenthesizedExpr [] x XNil) XNil)
(* [56] PrimaryExpr, [57] Literal, [59] VarRef, [61] ParenthesizedExpr, [62] ContextItemExpr *)
| g_string : forall n, derives PrimaryExpr [mkTok T_StringLiteral n] (leaf X_StringLiteral n)
| g_integer : forall n, derives PrimaryExpr [mkTok T_IntegerLiteral n] (leaf X_IntegerLiteral n)
| g_decimal : forall n, derives PrimaryExpr [mkTok T_DecimalLiteral n] (leaf X_DecimalLiteral n)
| g_double : forall n, derives PrimaryExpr [mkTok T_DoubleLiteral n] (leaf X_DoubleLiteral n)
| g_var : forall c n, eqname "" c n -> derives PrimaryExpr (DOLLAR :: c) (leaf X_VarRef n)
| g_parens : forall c x, derives Expr c x -> derives PrimaryExpr (LPAR :: c ++ [RPAR]) (XNode X_ParenthesizedExpr [] x XNil)
| g_dot : derives PrimaryExpr [DOT] (leaf X_ContextItem (lit "."))
(* [63] FunctionCall: with a placeholder among the arguments, a partial application *)
| g_call : forall c f d a, eqname "fn" c f -> derives ArgumentList d a -> declared f (List.length (cells a)) ->
    ~ In X_ArgumentPlaceholder (cells a) -> derives PrimaryExpr (c ++ d) (XNode X_FunctionCall f XNil a)
| g_partial_call : forall c f d a, eqname "fn" c f -> derives ArgumentList d a -> declared f (List.length (cells a)) ->
    In X_ArgumentPlaceholder (cells a) -> derives PrimaryExpr (c ++ d) (XNode X_PartialFunctionCall f XNil a)
(* [67] NamedFunctionRef, [68] InlineFunctionExpr *)
| g_function_ref : forall c f n, eqname "fn" c f ->
    derives PrimaryExpr (c ++ [SHARP; mkTok T_IntegerLiteral n]) (leaf X_NamedFunctionRef (f ++ lit "#" ++ n))
| g_inline : forall c ps d b, derives (Commas Param) c ps -> derives Expr d b ->
    derives PrimaryExpr (tk T_Function "function" :: LPAR :: c ++ RPAR :: LCUR :: d ++ [RCUR])
      (XNode X_InlineFunction (lit "(inline function)") b (XNode X_ReturnType [] any_items ps))
| g_inline_typed : forall c ps e rt d b, derives (Commas Param) c ps -> derives SequenceType e rt -> derives Expr d b ->
    derives PrimaryExpr (tk T_Function "function" :: LPAR :: c ++ RPAR :: AS :: e ++ LCUR :: d ++ [RCUR])
      (XNode X_InlineFunction (lit "(inline function)") b (XNode X_ReturnType [] rt ps))
(* [69] MapConstructor, [74] SquareArrayConstructor, [75] CurlyArrayConstructor, [76] UnaryLookup *)
| g_map : forall c e, derives (Entries X_MapConstruct MapEntry) c e ->
    derives PrimaryExpr (tk T_Map "map" :: LCUR :: c ++ [RCUR]) (XNode X_Map [] e XNil)
| g_square : forall c e, derives (Entries X_ArrayEntry ExprSingle) c e ->
    derives PrimaryExpr (LSQ :: c ++ [RSQ]) (XNode X_SquareArray [] e XNil)
| g_curly : forall c x, derives Expr c x ->
    derives PrimaryExpr (tk T_Array "array" :: LCUR :: c ++ [RCUR]) (XNode X_CurlyArray [] x XNil)
| g_unary_lookup : forall c x, derives Lookup c x -> derives PrimaryExpr c x
(* [50] ArgumentList, [64] Argument, [65] ArgumentPlaceholder *)
| g_arguments : forall c a, derives (Commas Argument) c a -> derives ArgumentList (LPAR :: c ++ [RPAR]) a
| g_argument : forall c x, derives ExprSingle c x -> x <> XNil -> derives Argument c (XNode X_ArgumentTop [] x XNil)
| g_placeholder : forall c, derives ExprSingle c XNil -> derives Argument (c ++ [QUEST]) (leaf X_ArgumentPlaceholder (lit "?"))
| g_no_argument : forall c, derives ExprSingle c XNil -> derives Argument c XNil
    (* no argument at all, or RELAXED: an argument may be missing *)
(* [2] ParamList, [3] Param: without a type, item()* *)
| g_param : forall c n, eqname "" c n -> derives Param (DOLLAR :: c) (XNode X_Param n any_items XNil)
| g_param_typed : forall c n d s, eqname "" c n -> derives SequenceType d s ->
    derives Param (DOLLAR :: c ++ AS :: d) (XNode X_Param n s XNil)
| g_no_param : derives Param [] XNil
(* [70] MapConstructorEntry *)
| g_entry : forall c k d v, derives ExprSingle c k -> k <> XNil -> derives ExprSingle d v -> v <> XNil ->
    derives MapEntry (c ++ COLON :: d) (XNode X_MapEntry [] k v)
| g_no_entry : forall c, derives ExprSingle c XNil -> derives MapEntry c XNil
(* lists separated by commas *)
| g_commas_none : forall i c, derives i c XNil -> derives (Commas i) c XNil
| g_commas : forall i c x d r, derives i c x -> x <> XNil -> derives (MoreCommas i) d r ->
    derives (Commas i) (c ++ d) (linked x r)
| g_commas_end : forall i, derives (MoreCommas i) [] XNil
| g_commas_more : forall i c x d r, derives i c x -> derives (MoreCommas i) d r ->
    derives (MoreCommas i) (COMMA :: c ++ d) (linked x r)
| g_entries_none : forall ty i c, derives i c XNil -> derives (Entries ty i) c XNil
| g_entries : forall ty i c x d r, derives i c x -> x <> XNil -> derives (MoreEntries ty i) d r ->
    derives (Entries ty i) (c ++ d) (XNode ty [] x r)
| g_entries_end : forall ty i, derives (MoreEntries ty i) [] XNil
| g_entries_more : forall ty i c x d r, derives i c x -> derives (MoreEntries ty i) d r ->
    derives (MoreEntries ty i) (COMMA :: c ++ d) (XNode ty [] x r)
(* [7] ExprSingle, [15] IfExpr *)
| g_or : forall c x, derives OrExpr c x -> derives ExprSingle c x
| g_if : forall c x d a e b th el, keyword "then" th -> keyword "else" el -> derives Expr c x -> x <> XNil ->
    derives ExprSingle d a -> a <> XNil -> derives ExprSingle e b -> b <> XNil ->
    derives ExprSingle (tk T_If "if" :: LPAR :: c ++ RPAR :: th :: d ++ el :: e)
      (XNode X_IfExpr (lit "if_expr") x (XNode X_IfThenElse (lit "if_then_else") a b))
(* [8] ForExpr, [11] LetExpr, [14] QuantifiedExpr *)
| g_binder : forall b w xt s bt kw c r, binder_word b = (w, xt, s, bt, kw) -> derives (Bindings b) c r ->
    derives ExprSingle (w :: c) (XNode xt (lit s) XNil r)
| g_bindings_last : forall b w xt s bt kw c x k d e, binder_word b = (w, xt, s, bt, kw) -> derives (Binding b) c x ->
    keyword kw k -> derives ExprSingle d e -> derives (Bindings b) (c ++ k :: d) (linked x e)
| g_bindings_more : forall b c x d r, derives (Binding b) c x -> derives (Bindings b) d r ->
    derives (Bindings b) (c ++ COMMA :: d) (linked x r)
| g_bindings_none : forall b w xt s bt kw k d e, binder_word b = (w, xt, s, bt, kw) -> keyword kw k ->
    derives ExprSingle d e -> derives (Bindings b) (k :: d) e
    (* RELAXED: a comma may be followed by no binding *)
| g_binding_in : forall b w xt s bt kw c n i d e, b <> B_let -> binder_word b = (w, xt, s, bt, kw) -> eqname "" c n ->
    keyword "in" i -> derives ExprSingle d e -> derives (Binding b) (DOLLAR :: c ++ i :: d) (XNode bt n e XNil)
| g_binding_let : forall c n d e, eqname "" c n -> derives ExprSingle d e ->
    derives (Binding B_let) (DOLLAR :: c ++ BIND :: d) (XNode X_LetVarBind n e XNil)
(* [79] SequenceType, [80] OccurrenceIndicator *)
| g_empty_sequence : derives SequenceType [tk T_EmptySequence "empty-sequence"; LPAR; RPAR]
    (XNode X_SequenceType [] (leaf X_EmptySequenceTest []) XNil)
| g_one : forall c x, derives ItemType c x -> x <> XNil -> derives SequenceType c (XNode X_SequenceType [] x XNil)
| g_many : forall c x o, In o [QUEST; STAR; PLUS] -> derives ItemType c x -> x <> XNil ->
    derives SequenceType (c ++ [o]) (XNode X_SequenceType (t_name o) x XNil)
| g_no_type : derives SequenceType [] XNil   (* RELAXED: a type may be missing *)
(* [81] ItemType, [82] AtomicOrUnionType, [93] ... [111] *)
| g_kind : forall c x, kind_test c x -> derives ItemType c (XNode X_KindTest [] x XNil)
| g_item : derives ItemType [tk T_Item "item"; LPAR; RPAR] (leaf X_ItemTest [])
| g_any_function : derives ItemType [tk T_Function "function"; LPAR; STAR; RPAR] (leaf X_AnyFunctionTest [])
| g_function_no_params : forall k d s, keyword "as" k -> derives SequenceType d s ->
    derives ItemType (tk T_Function "function" :: LPAR :: RPAR :: k :: d)
      (XNode X_TypedFunctionTest [] XNil (XNode X_ReturnType [] s XNil))
| g_function_params : forall c p e r k d s, derives SequenceType c p -> p <> XNil -> derives MoreTypes e r -> keyword "as" k ->
    derives SequenceType d s -> derives ItemType (tk T_Function "function" :: LPAR :: c ++ e ++ RPAR :: k :: d)
      (XNode X_TypedFunctionTest [] XNil (XNode X_ReturnType [] s (XNode X_Param [] p r)))
| g_types_end : derives MoreTypes [] XNil
| g_types_more : forall c p d r, derives SequenceType c p -> derives MoreTypes d r ->
    derives MoreTypes (COMMA :: c ++ d) (XNode X_Param [] p r)
| g_any_map : derives ItemType [tk T_MapTest "map"; LPAR; STAR; RPAR]
    (XNode X_MapTest [] (leaf X_AtomicOrUnionType (lit "xs:anyAtomicType")) any_items)
| g_map_test : forall c n d s, eqname "xs" c n -> derives SequenceType d s ->
    derives ItemType (tk T_MapTest "map" :: LPAR :: c ++ COMMA :: d ++ [RPAR])
      (XNode X_MapTest [] (leaf X_AtomicOrUnionType n) s)
| g_any_array : derives ItemType [tk T_ArrayTest "array"; LPAR; STAR; RPAR] (XNode X_ArrayTest [] any_items XNil)
| g_array_test : forall d s, derives SequenceType d s ->
    derives ItemType (tk T_ArrayTest "array" :: LPAR :: d ++ [RPAR]) (XNode X_ArrayTest [] s XNil)
| g_atomic : forall c n, eqname "xs" c n -> derives ItemType c (leaf X_AtomicOrUnionType n)
| g_item_parens : forall c x, derives ItemType c x ->
    derives ItemType (LPAR :: c ++ [RPAR]) (XNode X_ParenthesizedItemType [] x XNil)
| g_no_item : derives ItemType [] XNil   (* RELAXED: a type may be missing *)
(* [77] SingleType *)
| g_single_type : forall c n, eqname "" c n -> derives SingleType c (XNode X_SingleType [] (leaf X_TypeName n) XNil)
| g_optional_type : forall c n, eqname "" c n ->
    derives SingleType (c ++ [QUEST]) (XNode X_SingleType [] (leaf X_TypeName (n ++ lit "?")) XNil)
| g_no_single_type : derives SingleType [] XNil.

(* ---- a token as the lexer forms it: a punctuation or keyword token is written in one of these ways ---- *)
Definition spellings (ty : ttype) : list string :=
  match ty with
  | T_SlashSlash => ["//"] | T_Slash => ["/"] | T_DotDot => [".."] | T_Dot => ["."] | T_ColonColon => ["::"]
  | T_Colon => [":"] | T_ValueEQ => ["eq"] | T_ValueNE => ["ne"] | T_ValueGT => ["gt"] | T_ValueGE => ["ge"]
  | T_ValueLT => ["lt"] | T_ValueLE => ["le"] | T_GeneralEQ => ["="] | T_GeneralNE => ["!="] | T_GeneralGT => [">"]
  | T_GeneralGE => [">="] | T_GeneralLT => ["<"] | T_GeneralLE => ["<="] | T_IsSameNode => ["is"]
  | T_NodeBefore => ["<<"] | T_NodeAfter => [">>"] | T_And => ["and"] | T_Or => ["or"] | T_Union => ["union"; "|"]
  | T_Intersect => ["intersect"] | T_Except => ["except"] | T_To => ["to"] | T_InstanceOf => ["instance"]
  | T_TreatAs => ["treat"] | T_CastableAs => ["castable"] | T_CastAs => ["cast"] | T_Plus => ["+"] | T_Minus => ["-"]
  | T_Div => ["div"] | T_IDiv => ["idiv"] | T_Mod => ["mod"] | T_If => ["if"] | T_For => ["for"] | T_Some => ["some"]
  | T_Every => ["every"] | T_Asterisk => ["*"] | T_Dollar => ["$"] | T_LeftBracket => ["["] | T_RightBracket => ["]"]
  | T_LeftParen => ["("] | T_RightParen => [")"] | T_At => ["@"] | T_Question => ["?"] | T_Comma => [","]
  | T_EmptySequence => ["empty-sequence"] | T_Item => ["item"] | T_TypeSwitch => ["typeswitch"] | T_Switch => ["switch"]
  | T_DocumentTest => ["document-node"] | T_ElementTest => ["element"] | T_AttributeTest => ["attribute"]
  | T_SchemaElementTest => ["schema-element"] | T_SchemaAttributeTest => ["schema-attribute"]
  | T_PITest => ["processing-instruction"] | T_CommentTest => ["comment"] | T_TextTest => ["text"]
  | T_NamespaceNodeTest => ["namespace-node"] | T_AnyKindTest => ["node"] | T_MapTest => ["map"] | T_ArrayTest => ["array"]
  | T_OperatorConcat => ["||"] | T_Sharp => ["#"] | T_Bind => [":="] | T_Arrow => ["=>"] | T_LeftCurly => ["{"]
  | T_RightCurly => ["}"] | T_ColonAsterisk => [":*"] | T_AsteriskColon => ["*:"] | T_OperatorMap => ["!"]
  | T_Let => ["let"] | T_Array => ["array"] | T_Map => ["map"] | T_Function => ["function"]
  | T_AxisName => "namespace" :: map fst axis_words
  | T_EOF | T_InnerName | T_Nop | T_Name | T_IntegerLiteral | T_DecimalLiteral | T_DoubleLiteral | T_StringLiteral
  | T_BracedURILiteral => []
  end%string.
Definition spelled (tok : token) : Prop :=
  (spellings (t_type tok) <> [] -> In (t_name tok) (map lit (spellings (t_type tok)))) /\
  (t_type tok = T_Name -> t_name tok <> []) /\ t_type tok <> T_EOF.

(* ---- balanced brackets ---- *)
Definition bracket_types : list ttype :=
  [T_LeftParen; T_RightParen; T_LeftBracket; T_RightBracket; T_LeftCurly; T_RightCurly].
Definition bracket_pairs : list (token * token) := [(LPAR, RPAR); (LSQ, RSQ); (LCUR, RCUR)].
Inductive balanced : list token -> Prop :=
| b_nil : balanced []
| b_token : forall w l, ~ In (t_type w) bracket_types -> balanced l -> balanced (w :: l)
| b_group : forall o c l1 l2, In (o, c) bracket_pairs -> balanced l1 -> balanced l2 -> balanced (o :: l1 ++ c :: l2).

(* ---- precedence: how tightly the operator at the root of a tree binds (no operator: 20) ---- *)
Definition rank (x : xnode) : nat :=
  match x with
  | XNil => 20
  | XNode ty text _ _ =>
      match ty with
      | X_OperatorConcatenate => 0
      | X_IfExpr | X_ForExpr | X_LetExpr | X_SomeExpr | X_EveryExpr => 1
      | X_OperatorOr => 2
      | X_OperatorAnd => 3
      | X_OperatorGeneralEQ | X_OperatorGeneralNE | X_OperatorGeneralLT | X_OperatorGeneralGT | X_OperatorGeneralLE
      | X_OperatorGeneralGE | X_OperatorValueEQ | X_OperatorValueNE | X_OperatorValueLT | X_OperatorValueGT
      | X_OperatorValueLE | X_OperatorValueGE | X_OperatorIsSameNode | X_OperatorNodeBefore | X_OperatorNodeAfter => 4
      | X_OperatorConcat => 5
      | X_OperatorTo => 6
      | X_OperatorAdd | X_OperatorSubtract => 7
      | X_OperatorMultiply | X_OperatorDiv | X_OperatorIDiv | X_OperatorMod => 8
      | X_OperatorUnion => 9
      | X_OperatorIntersect | X_OperatorExcept => 10
      | X_OperatorInstanceOf => 11
      | X_OperatorTreatAs => 12
      | X_OperatorCastableAs => 13
      | X_OperatorCastAs => 14
      | X_OperatorUnaryPlus | X_OperatorUnaryMinus => 16
      | X_OperatorMap => match text with [] => 20 | _ => 17 end  (* "!"; without text, the lookup E?K *)
      | X_OperatorPath => 18
      | _ => 20
      end
  end%nat.
(* the operands of the operator at the root bind at least as tightly as it does; only a parenthesis, which is a
   node of its own, can put a looser operator under a tighter one *)
Definition fits (x : xnode) : Prop :=
  match x with
  | XNil => True
  | XNode ty _ l r =>
      let k := rank x in
      match k with
      | 0 | 2 | 3 | 5 | 7 | 8 | 9 | 10 | 17 => k <= rank l /\ k < rank r      (* to the left *)
      | 4 | 6 => k < rank l /\ k < rank r                                   (* one operator only *)
      | 11 | 12 | 13 | 14 => k < rank l                                     (* a type on the right *)
      | 16 => k < rank r
      | _ => match ty with
             | X_ArgumentTop | X_ArrayEntry => 0 < rank l                    (* no comma in an argument or member *)
             | X_MapEntry | X_IfThenElse | X_ForVarBind | X_LetVarBind | X_SomeVarBind | X_EveryVarBind =>
                 0 < rank l /\ 0 < rank r                                    (* nor in a key, a value, a branch, a body *)
             | _ => True
             end
      end
  end%nat.
Fixpoint everywhere (P : xnode -> Prop) (x : xnode) : Prop :=
  P x /\ match x with XNil => True | XNode _ _ l r => everywhere P l /\ everywhere P r end.

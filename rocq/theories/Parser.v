(* Model of src/xpath_impl/parser.rs: the XPath expression parser.

   Representation.
   - A syntax tree is the inductive [xnode]; the Rust tree is built by mutating shared cells
     (assign_as_left / assign_as_right), and each chain is only extended at its last cell, so the finished
     trees are the same.  [XNil] is the node of type Nil.
   - The lexer state (token vector and index) is the list of tokens from the index to the end, without the
     final EOF sentinel: next_token is EOF when the list is empty, and get_token then does not advance.
     unget_token and restore_marked_index are modelled by going on from the earlier list; the program only
     calls them after reading tokens that are not EOF, where the index has advanced.
   - The functions are written over the parser for one nesting level down ([single] for ExprSingle, [item]
     for ItemType); the knots are [parse_single_fuel] and [parse_item_fuel].
   - Error messages are not modelled. *)
Require Import Bool List NArith ZArith Ascii String.
From Verif Require Import Str Chars Lexer FuncTable.
Import ListNotations.
Open Scope N_scope.

(* parser.rs 21-134: XNodeType (Nil is the constructor XNil of xnode) *)
Inductive xtype : Type :=
| X_Nil | X_OperatorPath | X_AxisRoot | X_AxisAncestor | X_AxisAncestorOrSelf | X_AxisAttribute
 | X_AxisChild | X_AxisDescendant | X_AxisDescendantOrSelf | X_AxisFollowing
 | X_AxisFollowingSibling | X_AxisNamespace | X_AxisParent | X_AxisPreceding
 | X_AxisPrecedingSibling | X_AxisSelf | X_PredicateTop | X_PredicateRevTop | X_OperatorConcatenate
 | X_OperatorOr | X_OperatorAnd | X_OperatorGeneralEQ | X_OperatorGeneralNE | X_OperatorGeneralLT
 | X_OperatorGeneralGT | X_OperatorGeneralLE | X_OperatorGeneralGE | X_OperatorValueEQ
 | X_OperatorValueNE | X_OperatorValueLT | X_OperatorValueGT | X_OperatorValueLE | X_OperatorValueGE
 | X_OperatorAdd | X_OperatorSubtract | X_OperatorUnaryPlus | X_OperatorUnaryMinus
 | X_OperatorMultiply | X_OperatorDiv | X_OperatorIDiv | X_OperatorMod | X_OperatorUnion
 | X_OperatorIntersect | X_OperatorExcept | X_OperatorTo | X_OperatorIsSameNode
 | X_OperatorNodeBefore | X_OperatorNodeAfter | X_OperatorInstanceOf | X_OperatorTreatAs
 | X_OperatorCastableAs | X_OperatorCastAs | X_IfExpr | X_IfThenElse | X_ForExpr | X_SomeExpr
 | X_EveryExpr | X_ForVarBind | X_SomeVarBind | X_EveryVarBind | X_StringLiteral | X_IntegerLiteral
 | X_DecimalLiteral | X_DoubleLiteral | X_ContextItem | X_FunctionCall | X_ArgumentTop | X_VarRef
 | X_ApplyPredicate | X_ApplyArgument | X_KindTest | X_DocumentTest | X_ElementTest
 | X_AttributeTest | X_SchemaElementTest | X_SchemaAttributeTest | X_PITest | X_CommentTest
 | X_TextTest | X_NamespaceNodeTest | X_AnyKindTest | X_KindTestTypeName | X_EmptySequenceTest
 | X_ItemTest | X_TypeName | X_AnyFunctionTest | X_TypedFunctionTest | X_MapTest | X_ArrayTest
 | X_AtomicOrUnionType | X_ParenthesizedItemType | X_SingleType | X_SequenceType | X_OperatorConcat
 | X_OperatorMap | X_LetExpr | X_LetVarBind | X_InlineFunction | X_Param | X_ReturnType
 | X_ArgumentListTop | X_NamedFunctionRef | X_PartialFunctionCall | X_ArgumentPlaceholder | X_Map
 | X_MapConstruct | X_MapEntry | X_SquareArray | X_CurlyArray | X_ArrayEntry | X_UnaryLookupByExpr
 | X_UnaryLookupByWildcard | X_ParenthesizedExpr.
Definition xcode (t : xtype) : nat :=
  match t with
  | X_Nil => 0%nat | X_OperatorPath => 1%nat | X_AxisRoot => 2%nat | X_AxisAncestor => 3%nat
   | X_AxisAncestorOrSelf => 4%nat | X_AxisAttribute => 5%nat | X_AxisChild => 6%nat
   | X_AxisDescendant => 7%nat | X_AxisDescendantOrSelf => 8%nat | X_AxisFollowing => 9%nat
   | X_AxisFollowingSibling => 10%nat | X_AxisNamespace => 11%nat | X_AxisParent => 12%nat
   | X_AxisPreceding => 13%nat | X_AxisPrecedingSibling => 14%nat | X_AxisSelf => 15%nat
   | X_PredicateTop => 16%nat | X_PredicateRevTop => 17%nat | X_OperatorConcatenate => 18%nat
   | X_OperatorOr => 19%nat | X_OperatorAnd => 20%nat | X_OperatorGeneralEQ => 21%nat
   | X_OperatorGeneralNE => 22%nat | X_OperatorGeneralLT => 23%nat | X_OperatorGeneralGT => 24%nat
   | X_OperatorGeneralLE => 25%nat | X_OperatorGeneralGE => 26%nat | X_OperatorValueEQ => 27%nat
   | X_OperatorValueNE => 28%nat | X_OperatorValueLT => 29%nat | X_OperatorValueGT => 30%nat
   | X_OperatorValueLE => 31%nat | X_OperatorValueGE => 32%nat | X_OperatorAdd => 33%nat
   | X_OperatorSubtract => 34%nat | X_OperatorUnaryPlus => 35%nat | X_OperatorUnaryMinus => 36%nat
   | X_OperatorMultiply => 37%nat | X_OperatorDiv => 38%nat | X_OperatorIDiv => 39%nat
   | X_OperatorMod => 40%nat | X_OperatorUnion => 41%nat | X_OperatorIntersect => 42%nat
   | X_OperatorExcept => 43%nat | X_OperatorTo => 44%nat | X_OperatorIsSameNode => 45%nat
   | X_OperatorNodeBefore => 46%nat | X_OperatorNodeAfter => 47%nat | X_OperatorInstanceOf => 48%nat
   | X_OperatorTreatAs => 49%nat | X_OperatorCastableAs => 50%nat | X_OperatorCastAs => 51%nat
   | X_IfExpr => 52%nat | X_IfThenElse => 53%nat | X_ForExpr => 54%nat | X_SomeExpr => 55%nat
   | X_EveryExpr => 56%nat | X_ForVarBind => 57%nat | X_SomeVarBind => 58%nat
   | X_EveryVarBind => 59%nat | X_StringLiteral => 60%nat | X_IntegerLiteral => 61%nat
   | X_DecimalLiteral => 62%nat | X_DoubleLiteral => 63%nat | X_ContextItem => 64%nat
   | X_FunctionCall => 65%nat | X_ArgumentTop => 66%nat | X_VarRef => 67%nat
   | X_ApplyPredicate => 68%nat | X_ApplyArgument => 69%nat | X_KindTest => 70%nat
   | X_DocumentTest => 71%nat | X_ElementTest => 72%nat | X_AttributeTest => 73%nat
   | X_SchemaElementTest => 74%nat | X_SchemaAttributeTest => 75%nat | X_PITest => 76%nat
   | X_CommentTest => 77%nat | X_TextTest => 78%nat | X_NamespaceNodeTest => 79%nat
   | X_AnyKindTest => 80%nat | X_KindTestTypeName => 81%nat | X_EmptySequenceTest => 82%nat
   | X_ItemTest => 83%nat | X_TypeName => 84%nat | X_AnyFunctionTest => 85%nat
   | X_TypedFunctionTest => 86%nat | X_MapTest => 87%nat | X_ArrayTest => 88%nat
   | X_AtomicOrUnionType => 89%nat | X_ParenthesizedItemType => 90%nat | X_SingleType => 91%nat
   | X_SequenceType => 92%nat | X_OperatorConcat => 93%nat | X_OperatorMap => 94%nat
   | X_LetExpr => 95%nat | X_LetVarBind => 96%nat | X_InlineFunction => 97%nat | X_Param => 98%nat
   | X_ReturnType => 99%nat | X_ArgumentListTop => 100%nat | X_NamedFunctionRef => 101%nat
   | X_PartialFunctionCall => 102%nat | X_ArgumentPlaceholder => 103%nat | X_Map => 104%nat
   | X_MapConstruct => 105%nat | X_MapEntry => 106%nat | X_SquareArray => 107%nat
   | X_CurlyArray => 108%nat | X_ArrayEntry => 109%nat | X_UnaryLookupByExpr => 110%nat
   | X_UnaryLookupByWildcard => 111%nat | X_ParenthesizedExpr => 112%nat
  end.
Definition xtypes : list xtype := [
  X_Nil; X_OperatorPath; X_AxisRoot; X_AxisAncestor; X_AxisAncestorOrSelf; X_AxisAttribute
  ; X_AxisChild; X_AxisDescendant; X_AxisDescendantOrSelf; X_AxisFollowing; X_AxisFollowingSibling
  ; X_AxisNamespace; X_AxisParent; X_AxisPreceding; X_AxisPrecedingSibling; X_AxisSelf
  ; X_PredicateTop; X_PredicateRevTop; X_OperatorConcatenate; X_OperatorOr; X_OperatorAnd
  ; X_OperatorGeneralEQ; X_OperatorGeneralNE; X_OperatorGeneralLT; X_OperatorGeneralGT
  ; X_OperatorGeneralLE; X_OperatorGeneralGE; X_OperatorValueEQ; X_OperatorValueNE
  ; X_OperatorValueLT; X_OperatorValueGT; X_OperatorValueLE; X_OperatorValueGE; X_OperatorAdd
  ; X_OperatorSubtract; X_OperatorUnaryPlus; X_OperatorUnaryMinus; X_OperatorMultiply; X_OperatorDiv
  ; X_OperatorIDiv; X_OperatorMod; X_OperatorUnion; X_OperatorIntersect; X_OperatorExcept
  ; X_OperatorTo; X_OperatorIsSameNode; X_OperatorNodeBefore; X_OperatorNodeAfter
  ; X_OperatorInstanceOf; X_OperatorTreatAs; X_OperatorCastableAs; X_OperatorCastAs; X_IfExpr
  ; X_IfThenElse; X_ForExpr; X_SomeExpr; X_EveryExpr; X_ForVarBind; X_SomeVarBind; X_EveryVarBind
  ; X_StringLiteral; X_IntegerLiteral; X_DecimalLiteral; X_DoubleLiteral; X_ContextItem
  ; X_FunctionCall; X_ArgumentTop; X_VarRef; X_ApplyPredicate; X_ApplyArgument; X_KindTest
  ; X_DocumentTest; X_ElementTest; X_AttributeTest; X_SchemaElementTest; X_SchemaAttributeTest
  ; X_PITest; X_CommentTest; X_TextTest; X_NamespaceNodeTest; X_AnyKindTest; X_KindTestTypeName
  ; X_EmptySequenceTest; X_ItemTest; X_TypeName; X_AnyFunctionTest; X_TypedFunctionTest; X_MapTest
  ; X_ArrayTest; X_AtomicOrUnionType; X_ParenthesizedItemType; X_SingleType; X_SequenceType
  ; X_OperatorConcat; X_OperatorMap; X_LetExpr; X_LetVarBind; X_InlineFunction; X_Param
  ; X_ReturnType; X_ArgumentListTop; X_NamedFunctionRef; X_PartialFunctionCall
  ; X_ArgumentPlaceholder; X_Map; X_MapConstruct; X_MapEntry; X_SquareArray; X_CurlyArray
  ; X_ArrayEntry; X_UnaryLookupByExpr; X_UnaryLookupByWildcard; X_ParenthesizedExpr].
Lemma xcode_inv : forall t, nth (xcode t) xtypes X_Nil = t.
Proof. destruct t; reflexivity. Qed.
Lemma xcode_inj : forall a b, xcode a = xcode b -> a = b.
Proof. intros a b H. rewrite <- (xcode_inv a), <- (xcode_inv b), H. reflexivity. Qed.
Definition xtype_eqb (a b : xtype) : bool := Nat.eqb (xcode a) (xcode b).
Lemma xtype_eqb_eq : forall a b, xtype_eqb a b = true <-> a = b.
Proof. intros a b. unfold xtype_eqb. rewrite Nat.eqb_eq. split; [apply xcode_inj|congruence]. Qed.

(* parser.rs 149-160, 2796-2890: XNode, new_xnode, assign_*, getters *)
Inductive xnode : Type :=
| XNil
| XNode (ty : xtype) (name : str) (left right : xnode).
Definition x_type (x : xnode) : xtype := match x with XNil => X_Nil | XNode t _ _ _ => t end.
Definition x_name (x : xnode) : str := match x with XNil => [] | XNode _ n _ _ => n end.
Definition x_left (x : xnode) : xnode := match x with XNil => XNil | XNode _ _ l _ => l end.
Definition x_right (x : xnode) : xnode := match x with XNil => XNil | XNode _ _ _ r => r end.
Definition is_nil (x : xnode) : bool := match x with XNil => true | _ => false end.
Definition leaf (t : xtype) (n : str) : xnode := XNode t n XNil XNil.
(* assign_as_right on a chain cell whose right is not yet assigned; on a Nil node it has no lasting effect *)
Definition set_right (x r : xnode) : xnode :=
  match x with XNil => XNil | XNode t n l _ => XNode t n l r end.

Definition toks := list token.
Definition parser := toks -> res (xnode * toks).

(* lexer.rs 176-197: next_token, get_token (without its value) *)
Definition nxt (t : toks) : token := match t with [] => eof_token | a :: _ => a end.
Definition next_type (t : toks) : ttype := t_type (nxt t).
Definition next_is (ty : ttype) (t : toks) : bool := ttype_eqb (next_type t) ty.
Definition adv (t : toks) : toks := tl t.

(* parser.rs 213-220: error_if_not_ttype! followed by get_token *)
Definition expect (ty : ttype) (t : toks) : res toks :=
  if next_is ty t then Ok (adv t) else Err XPathSyntaxError.
(* parser.rs 230-238: error_if_not_name! followed by get_token.  The condition for the error is a
   conjunction: the next token is not a Name AND its text is not the keyword. *)
Definition expect_name (n : str) (t : toks) : res toks :=
  if negb (next_is T_Name t) && negb (str_eqb (t_name (nxt t)) n) then Err XPathSyntaxError else Ok (adv t).

(* ---- names: parser.rs 2665-2808 ---- *)
(* parser.rs 2725-2750 *)
Definition parse_qname (dp : str) (t : toks) : res (str * toks) :=
  if next_is T_Name t then
    let q := t_name (nxt t) in
    let t1 := adv t in
    if next_is T_Colon t1 then
      let t2 := adv t1 in
      if next_is T_Name t2 then Ok (q ++ t_name (nxt t1) ++ t_name (nxt t2), adv t2)
      else Err XPathSyntaxError
    else Ok ((if str_eqb dp [] then q else dp ++ lit ":" ++ q), t1)
  else Ok ([], t).
(* parser.rs 2686-2710 *)
Definition parse_eqname (dp : str) (t : toks) : res (str * toks) :=
  do (q, t1) <- parse_qname dp t;
  if negb (str_eqb q []) then Ok (q, t1)
  else if next_is T_BracedURILiteral t1 && next_is T_Name (adv t1)
       then Ok (t_name (nxt t1) ++ t_name (nxt (adv t1)), adv (adv t1))
       else Ok ([], t1).
(* parser.rs 2674-2676 *)
Definition parse_static_func_name : toks -> res (str * toks) := parse_eqname (lit "fn").
(* parser.rs 2761-2808 *)
Definition parse_wildcard (t : toks) : str * toks :=
  let a := t_name (nxt t) in
  let t1 := adv t in
  let b := t_name (nxt t1) in
  match next_type t with
  | T_Asterisk => (a, t1)
  | T_Name => if next_is T_ColonAsterisk t1 then (a ++ b, adv t1) else ([], t)
  | T_AsteriskColon => if next_is T_Name t1 then (a ++ b, adv t1) else ([], t)
  | T_BracedURILiteral => if next_is T_Asterisk t1 then (a ++ b, adv t1) else ([], t)
  | _ => ([], t)
  end.

(* ---- kind tests: parser.rs 451-762 ---- *)
(* parser.rs 747-762 *)
Definition parse_kind_test_sub_none (ty : ttype) (x : xtype) : parser := fun t =>
  if next_is ty t then
    do t1 <- expect T_LeftParen (adv t);
    do t2 <- expect T_RightParen t1;
    Ok (leaf x [], t2)
  else Ok (XNil, t).
(* parser.rs 656-676 *)
Definition parse_kind_test_sub_one (ty : ttype) (x : xtype) : parser := fun t =>
  if next_is ty t then
    do t1 <- expect T_LeftParen (adv t);
    do (n, t2) <- parse_eqname [] t1;
    if str_eqb n [] then Err XPathSyntaxError
    else do t3 <- expect T_RightParen t2; Ok (leaf x n, t3)
  else Ok (XNil, t).
(* parser.rs 529-573 and 587-627: element tests and attribute tests; only the first accepts "?" after the type *)
Definition parse_element_like (ty : ttype) (x : xtype) (dflt : str) (question : bool) : parser := fun t =>
  if next_is ty t then
    do t1 <- expect T_LeftParen (adv t);
    do (n, t2) <- parse_eqname [] t1;
    let (n, t2) := if str_eqb n [] && next_is T_Asterisk t2 then (lit "*", adv t2) else (n, t2) in
    do (tn, t3) <-
      (if negb (str_eqb n []) && next_is T_Comma t2 then
         do (tn, t3) <- parse_eqname (lit "xs") (adv t2);
         if str_eqb tn [] then Err XPathSyntaxError
         else if question && next_is T_Question t3 then Ok (tn ++ lit "?", adv t3) else Ok (tn, t3)
       else Ok (dflt, t2));
    let n := if str_eqb n [] then lit "*" else n in
    do t4 <- expect T_RightParen t3;
    Ok (XNode x n (leaf X_KindTestTypeName tn) XNil, t4)
  else Ok (XNil, t).
(* parser.rs 529-573 *)
Definition parse_element_test : parser :=
  parse_element_like T_ElementTest X_ElementTest (lit "xs:anyType?") true.
(* parser.rs 587-627 *)
Definition parse_attribute_test : parser :=
  parse_element_like T_AttributeTest X_AttributeTest (lit "xs:anyType") false.
(* parser.rs 635-638 *)
Definition parse_schema_element_test : parser :=
  parse_kind_test_sub_one T_SchemaElementTest X_SchemaElementTest.
(* parser.rs 646-649 *)
Definition parse_schema_attribute_test : parser :=
  parse_kind_test_sub_one T_SchemaAttributeTest X_SchemaAttributeTest.
(* return_if_non_nil!: parser.rs 250-256 *)
Definition or_else (p q : parser) : parser := fun t =>
  do (x, t1) <- p t; if is_nil x then q t1 else Ok (x, t1).
(* parser.rs 495-514 *)
Definition parse_document_test : parser := fun t =>
  if next_is T_DocumentTest t then
    do t1 <- expect T_LeftParen (adv t);
    do (s, t2) <- or_else parse_element_test parse_schema_element_test t1;
    do t3 <- expect T_RightParen t2;
    Ok (XNode X_DocumentTest [] s XNil, t3)
  else Ok (XNil, t).
(* parser.rs 681-706 *)
Definition parse_pi_test : parser := fun t =>
  if next_is T_PITest t then
    do t1 <- expect T_LeftParen (adv t);
    do (a, t2) <- match next_type t1 with
                  | T_Name | T_StringLiteral => Ok (t_name (nxt t1), adv t1)
                  | T_RightParen => Ok ([], t1)
                  | _ => Err XPathSyntaxError
                  end;
    do t3 <- expect T_RightParen t2;
    Ok (leaf X_PITest a, t3)
  else Ok (XNil, t).
(* 451-490 *)
Definition parse_kind_test : parser := fun t =>
  do (x, t1) <- or_else parse_document_test (or_else parse_element_test (or_else parse_attribute_test
                (or_else parse_schema_element_test (or_else parse_schema_attribute_test (or_else parse_pi_test
                (or_else (parse_kind_test_sub_none T_CommentTest X_CommentTest)
                (or_else (parse_kind_test_sub_none T_TextTest X_TextTest)
                (or_else (parse_kind_test_sub_none T_NamespaceNodeTest X_NamespaceNodeTest)
                         (parse_kind_test_sub_none T_AnyKindTest X_AnyKindTest))))))))) t;
  if is_nil x then Ok (XNil, t1) else Ok (XNode X_KindTest [] x XNil, t1).

(* ---- sequence types: parser.rs 1298-1546 ---- *)
(* parser.rs 2277-2282: item()* *)
Definition default_sequence_type : xnode := XNode X_SequenceType (lit "*") (leaf X_ItemTest []) XNil.
Section ItemType.
  Variable item : parser.
  (* parser.rs 1298-1326 *)
  Definition parse_sequence_type_with : parser := fun t =>
    do (x, t1) <- parse_kind_test_sub_none T_EmptySequence X_EmptySequenceTest t;
    if negb (is_nil x) then Ok (XNode X_SequenceType [] x XNil, t1)
    else
      do (x, t2) <- item t1;
      if is_nil x then Ok (XNil, t2)
      else match next_type t2 with
           | T_Question | T_Asterisk | T_Plus => Ok (XNode X_SequenceType (t_name (nxt t2)) x XNil, adv t2)
           | _ => Ok (XNode X_SequenceType [] x XNil, t2)
           end.
  (* parser.rs 1427-1434: the loop of parse_sequence_type_list; the value is what is linked on the right of curr *)
  Fixpoint parse_types_loop (fuel : nat) : parser := fun t =>
    match fuel with
    | O => Fuel
    | S fuel' =>
        if next_is T_Comma t then
          do (s, t1) <- parse_sequence_type_with (adv t);
          do (r, t2) <- parse_types_loop fuel' t1;
          Ok (XNode X_Param [] s r, t2)
        else Ok (XNil, t)
    end.
  (* parser.rs 1420-1437 *)
  Definition parse_sequence_type_list : parser := fun t =>
    do (s, t1) <- parse_sequence_type_with t;
    if is_nil s then Ok (XNil, t1)
    else do (r, t2) <- parse_types_loop (S (List.length t1)) t1; Ok (XNode X_Param [] s r, t2).
  (* parser.rs 1386-1418 *)
  Definition parse_function_test : parser := fun t =>
    if next_is T_Function t then
      do t1 <- expect T_LeftParen (adv t);
      if next_is T_Asterisk t1 then
        do t2 <- expect T_RightParen (adv t1); Ok (leaf X_AnyFunctionTest [], t2)
      else
        do (l, t2) <- parse_sequence_type_list t1;
        do t3 <- expect T_RightParen t2;
        do t4 <- expect_name (lit "as") t3;
        do (s, t5) <- parse_sequence_type_with t4;
        Ok (XNode X_TypedFunctionTest [] XNil (XNode X_ReturnType [] s l), t5)
    else Ok (XNil, t).
  (* parser.rs 1451-1493 *)
  Definition parse_map_test : parser := fun t =>
    if next_is T_MapTest t then
      do t1 <- expect T_LeftParen (adv t);
      do (x, t2) <-
        (if next_is T_Asterisk t1 then
           Ok (XNode X_MapTest [] (leaf X_AtomicOrUnionType (lit "xs:anyAtomicType")) default_sequence_type, adv t1)
         else
           do (n, t2) <- parse_eqname (lit "xs") t1;
           if str_eqb n [] then Err XPathSyntaxError
           else
             do t3 <- expect T_Comma t2;
             do (s, t4) <- parse_sequence_type_with t3;
             Ok (XNode X_MapTest [] (leaf X_AtomicOrUnionType n) s, t4));
      do t3 <- expect T_RightParen t2;
      Ok (x, t3)
    else Ok (XNil, t).
  (* parser.rs 1506-1529 *)
  Definition parse_array_test : parser := fun t =>
    if next_is T_ArrayTest t then
      do t1 <- expect T_LeftParen (adv t);
      do (s, t2) <- (if next_is T_Asterisk t1 then Ok (default_sequence_type, adv t1)
                     else parse_sequence_type_with t1);
      do t3 <- expect T_RightParen t2;
      Ok (XNode X_ArrayTest [] s XNil, t3)
    else Ok (XNil, t).
  (* parser.rs 1360-1364: AtomicOrUnionType *)
  Definition parse_atomic_type : parser := fun t =>
    do (n, t1) <- parse_eqname (lit "xs") t;
    if str_eqb n [] then Ok (XNil, t1) else Ok (leaf X_AtomicOrUnionType n, t1).
  (* parser.rs 1534-1546 *)
  Definition parse_parenthesized_item_type : parser := fun t =>
    if next_is T_LeftParen t then
      do (x, t1) <- item (adv t);
      do t2 <- expect T_RightParen t1;
      Ok (XNode X_ParenthesizedItemType [] x XNil, t2)
    else Ok (XNil, t).
  (* parser.rs 1343-1370 *)
  Definition parse_item_body : parser :=
    or_else parse_kind_test (or_else (parse_kind_test_sub_none T_Item X_ItemTest)
    (or_else parse_function_test (or_else parse_map_test (or_else parse_array_test
    (or_else parse_atomic_type parse_parenthesized_item_type))))).
End ItemType.
Fixpoint parse_item_fuel (n : nat) : parser :=
  match n with
  | O => fun _ => Fuel
  | S n' => parse_item_body (parse_item_fuel n')
  end.
(* every nesting of types consumes a token (ParserFacts) *)
(* parser.rs 1343-1370 *)
Definition parse_item_type : parser := fun t => parse_item_fuel (S (List.length t)) t.
(* parser.rs 1298-1326 *)
Definition parse_sequence_type : parser := parse_sequence_type_with parse_item_type.
(* parser.rs 1611-1625 *)
Definition parse_single_type : parser := fun t =>
  do (n, t1) <- parse_eqname [] t;
  if str_eqb n [] then Ok (XNil, t1)
  else
    let (n, t2) := if next_is T_Question t1 then (n ++ t_name (nxt t1), adv t1) else (n, t1) in
    Ok (XNode X_SingleType [] (leaf X_TypeName n) XNil, t2).

(* ---- expressions ---- *)
(* parser.rs 1738-1762: parse_bin_op_sub *)
Fixpoint assoc_tt (ty : ttype) (l : list (ttype * xtype)) : option xtype :=
  match l with
  | [] => None
  | (k, v) :: l' => if ttype_eqb ty k then Some v else assoc_tt ty l'
  end.
Fixpoint bin_op_loop (fuel : nat) (sub : parser) (tbl : list (ttype * xtype)) (once : bool) (x : xnode)
  (t : toks) : res (xnode * toks) :=
  match fuel with
  | O => Fuel
  | S fuel' =>
      match assoc_tt (next_type t) tbl with
      | None => Ok (x, t)
      | Some ty =>
          do (y, t1) <- sub (adv t);
          let x' := XNode ty (t_name (nxt t)) x y in
          if once then Ok (x', t1) else bin_op_loop fuel' sub tbl once x' t1
      end
  end.
(* parser.rs 1738-1762 *)
Definition parse_bin_op_sub (sub : parser) (tbl : list (ttype * xtype)) (once : bool) : parser := fun t =>
  do (x, t1) <- sub t;
  bin_op_loop (S (List.length t1)) sub tbl once x t1.

(* the operator tables of parser.rs 820, 1116, 1127, 1143, 1168, 1179, 1191, 1204, 1219, 1233, 1726 *)
Definition tbl_expr := [(T_Comma, X_OperatorConcatenate)].
Definition tbl_or := [(T_Or, X_OperatorOr)].
Definition tbl_and := [(T_And, X_OperatorAnd)].
Definition tbl_comparison := [
  (T_ValueEQ, X_OperatorValueEQ); (T_ValueNE, X_OperatorValueNE); (T_ValueLT, X_OperatorValueLT);
  (T_ValueGT, X_OperatorValueGT); (T_ValueLE, X_OperatorValueLE); (T_ValueGE, X_OperatorValueGE);
  (T_GeneralEQ, X_OperatorGeneralEQ); (T_GeneralNE, X_OperatorGeneralNE); (T_GeneralLT, X_OperatorGeneralLT);
  (T_GeneralGT, X_OperatorGeneralGT); (T_GeneralLE, X_OperatorGeneralLE); (T_GeneralGE, X_OperatorGeneralGE);
  (T_IsSameNode, X_OperatorIsSameNode); (T_NodeBefore, X_OperatorNodeBefore); (T_NodeAfter, X_OperatorNodeAfter)].
Definition tbl_concat := [(T_OperatorConcat, X_OperatorConcat)].
Definition tbl_range := [(T_To, X_OperatorTo)].
Definition tbl_additive := [(T_Plus, X_OperatorAdd); (T_Minus, X_OperatorSubtract)].
Definition tbl_multiplicative := [
  (T_Asterisk, X_OperatorMultiply); (T_Div, X_OperatorDiv); (T_IDiv, X_OperatorIDiv); (T_Mod, X_OperatorMod)].
Definition tbl_union := [(T_Union, X_OperatorUnion)].
Definition tbl_intersect := [(T_Intersect, X_OperatorIntersect); (T_Except, X_OperatorExcept)].
Definition tbl_value := [(T_OperatorMap, X_OperatorMap)].

(* parser.rs 2033-2056 *)
Definition parse_literal : parser := fun t =>
  let n := t_name (nxt t) in
  match next_type t with
  | T_StringLiteral => Ok (leaf X_StringLiteral n, adv t)
  | T_IntegerLiteral => Ok (leaf X_IntegerLiteral n, adv t)
  | T_DecimalLiteral => Ok (leaf X_DecimalLiteral n, adv t)
  | T_DoubleLiteral => Ok (leaf X_DoubleLiteral n, adv t)
  | _ => Ok (XNil, t)
  end.
(* parser.rs 2065-2084 *)
Definition parse_varref : parser := fun t =>
  if next_is T_Dollar t then
    do (n, t1) <- parse_eqname [] (adv t);
    if str_eqb n [] then Err XPathSyntaxError else Ok (leaf X_VarRef n, t1)
  else Ok (XNil, t).
(* parser.rs 2122-2137 *)
Definition parse_context_item_expr : parser := fun t =>
  if next_is T_Dot t then Ok (leaf X_ContextItem (lit "."), adv t) else Ok (XNil, t).
(* parser.rs 2153-2179 *)
Definition parse_named_function_ref : parser := fun t =>
  do (f, t1) <- parse_static_func_name t;
  if str_eqb f [] then Ok (XNil, t)
  else if next_is T_Sharp t1 && next_is T_IntegerLiteral (adv t1)
  then Ok (leaf X_NamedFunctionRef (f ++ lit "#" ++ t_name (nxt (adv t1))), adv (adv t1))
  else Ok (XNil, t).
(* parser.rs 2250-2272 *)
Definition parse_param : parser := fun t =>
  if next_is T_Dollar t then
    do (n, t1) <- parse_eqname [] (adv t);
    if str_eqb n [] then Err XPathSyntaxError
    else if next_is T_Name t1 && str_eqb (t_name (nxt t1)) (lit "as")
    then do (s, t2) <- parse_sequence_type (adv t1); Ok (XNode X_Param n s XNil, t2)
    else Ok (XNode X_Param n default_sequence_type XNil, t1)
  else Ok (XNil, t).
(* parser.rs 2231-2244 and 2628-2641: the loops of parse_param_list and parse_argument_list_sub.  The value is what is
   linked on the right of curr; after an element that is Nil, curr is a detached node and the rest is lost. *)
Fixpoint comma_chain (fuel : nat) (p : parser) : parser := fun t =>
  match fuel with
  | O => Fuel
  | S fuel' =>
      if next_is T_Comma t then
        do (x, t1) <- p (adv t);
        do (r, t2) <- comma_chain fuel' p t1;
        Ok (set_right x r, t2)
      else Ok (XNil, t)
  end.
Definition parse_comma_list (p : parser) : parser := fun t =>
  do (x, t1) <- p t;
  if is_nil x then Ok (XNil, t1)
  else do (r, t2) <- comma_chain (S (List.length t1)) p t1; Ok (set_right x r, t2).
(* parser.rs 2231-2244 *)
Definition parse_param_list : parser := parse_comma_list parse_param.
(* parser.rs 2336-2355 and 2440-2457: the loops of parse_map_constructor_entries and parse_expr_in_array *)
Fixpoint entry_chain (fuel : nat) (ty : xtype) (p : parser) : parser := fun t =>
  match fuel with
  | O => Fuel
  | S fuel' =>
      if next_is T_Comma t then
        do (x, t1) <- p (adv t);
        do (r, t2) <- entry_chain fuel' ty p t1;
        Ok (XNode ty [] x r, t2)
      else Ok (XNil, t)
  end.
Definition parse_entry_list (ty : xtype) (p : parser) : parser := fun t =>
  do (x, t1) <- p t;
  if is_nil x then Ok (XNil, t1)
  else do (r, t2) <- entry_chain (S (List.length t1)) ty p t1; Ok (XNode ty [] x r, t2).

(* 421-429 *)
Definition is_xnode_reverse_axis (t : xtype) : bool :=
  existsb (xtype_eqb t) [X_AxisParent; X_AxisAncestor; X_AxisAncestorOrSelf; X_AxisPreceding; X_AxisPrecedingSibling].
(* 337-351 *)
Definition axis_tbl : list (str * xtype) := [
  (lit "ancestor", X_AxisAncestor); (lit "ancestor-or-self", X_AxisAncestorOrSelf);
  (lit "attribute", X_AxisAttribute); (lit "child", X_AxisChild); (lit "descendant", X_AxisDescendant);
  (lit "descendant-or-self", X_AxisDescendantOrSelf); (lit "following", X_AxisFollowing);
  (lit "following-sibling", X_AxisFollowingSibling); (lit "namespace", X_AxisNamespace);
  (lit "parent", X_AxisParent); (lit "preceding", X_AxisPreceding);
  (lit "preceding-sibling", X_AxisPrecedingSibling); (lit "self", X_AxisSelf)].

(* parser.rs 2568-2577: number of arguments and presence of a placeholder along the chain *)
Fixpoint chain_length (x : xnode) : nat :=
  match x with XNil => 0%nat | XNode _ _ _ r => S (chain_length r) end.
Fixpoint has_placeholder (x : xnode) : bool :=
  match x with XNil => false | XNode t _ _ r => xtype_eqb t X_ArgumentPlaceholder || has_placeholder r end.

Section ExprSingle.
  Variable single : parser.
  (* parser.rs 819-825 *)
  Definition parse_expr_with : parser := parse_bin_op_sub single tbl_expr false.
  (* parser.rs 793-804 *)
  Definition parse_predicate : parser := fun t =>
    if next_is T_LeftBracket t then
      do (x, t1) <- parse_expr_with (adv t);
      do t2 <- expect T_RightBracket t1;
      Ok (x, t2)
    else Ok (XNil, t).
  (* parser.rs 772-788 *)
  Fixpoint predicate_list_loop (fuel : nat) (reverse : bool) : parser := fun t =>
    match fuel with
    | O => Fuel
    | S fuel' =>
        do (x, t1) <- parse_predicate t;
        if is_nil x then Ok (XNil, t1)
        else
          do (r, t2) <- predicate_list_loop fuel' reverse t1;
          Ok (XNode (if reverse then X_PredicateRevTop else X_PredicateTop) (lit "Predicate") x r, t2)
    end.
  (* parser.rs 772-788 *)
  Definition parse_predicate_list (reverse : bool) : parser := fun t =>
    predicate_list_loop (S (List.length t)) reverse t.
  (* parser.rs 391-416 *)
  Definition parse_node_test (axis : xtype) : parser := fun t =>
    let (w, t1) := parse_wildcard t in
    do (n, t2) <- (if str_eqb w [] then parse_eqname [] t1 else Ok (w, t1));
    if negb (str_eqb n []) then
      do (p, t3) <- parse_predicate_list (is_xnode_reverse_axis axis) t2;
      Ok (XNode axis n XNil p, t3)
    else
      do (k, t3) <- parse_kind_test t2;
      if is_nil k then Ok (XNil, t3)
      else
        do (p, t4) <- parse_predicate_list (is_xnode_reverse_axis axis) t3;
        Ok (XNode axis [] k p, t4).
  (* 336-385 *)
  Definition parse_axis_step : parser := fun t =>
    match next_type t with
    | T_AxisName =>
        do t1 <- expect T_ColonColon (adv t);
        match assoc_str (t_name (nxt t)) axis_tbl with
        | None => Err XPathSyntaxError
        | Some X_AxisNamespace => Err Unimplemented
        | Some axis => parse_node_test axis t1
        end
    | T_At => parse_node_test X_AxisAttribute (adv t)
    | T_DotDot => Ok (leaf X_AxisParent (lit "node()"), adv t)
    | _ => parse_node_test X_AxisChild t
    end.
  (* parser.rs 2093-2114 *)
  Definition parse_parenthesized_expr : parser := fun t =>
    if next_is T_LeftParen t then
      do (x, t1) <- parse_expr_with (adv t);
      do t2 <- expect T_RightParen t1;
      Ok (XNode X_ParenthesizedExpr [] x XNil, t2)
    else Ok (XNil, t).
  (* parser.rs 2648-2663 *)
  Definition parse_argument : parser := fun t =>
    do (x, t1) <- single t;
    if is_nil x then
      if next_is T_Question t1 then Ok (leaf X_ArgumentPlaceholder (lit "?"), adv t1) else Ok (XNil, t1)
    else Ok (XNode X_ArgumentTop [] x XNil, t1).
  (* parser.rs 2615-2626 *)
  Definition parse_argument_list : parser := fun t =>
    do t1 <- expect T_LeftParen t;
    do (x, t2) <- parse_comma_list parse_argument t1;
    do t3 <- expect T_RightParen t2;
    Ok (x, t3).
  (* parser.rs 2545-2598 *)
  Definition parse_function_call : parser := fun t =>
    do (f, t1) <- parse_static_func_name t;
    if str_eqb f [] then Ok (XNil, t)
    else if next_is T_LeftParen t1 then
      do (a, t2) <- parse_argument_list t1;
      if check_function_spec f (chain_length a)
      then Ok (XNode (if has_placeholder a then X_PartialFunctionCall else X_FunctionCall) f XNil a, t2)
      else Err XPathSyntaxError
    else Ok (XNil, t).
  (* parser.rs 2288-2298 *)
  Definition parse_function_body : parser := fun t =>
    do t1 <- expect T_LeftCurly t;
    do (x, t2) <- parse_expr_with t1;
    do t3 <- expect T_RightCurly t2;
    Ok (x, t3).
  (* parser.rs 2196-2226 *)
  Definition parse_inline_function_expr : parser := fun t =>
    if next_is T_Function t then
      do t1 <- expect T_LeftParen (adv t);
      do (ps, t2) <- parse_param_list t1;
      do t3 <- expect T_RightParen t2;
      do (rt, t4) <- (if next_is T_Name t3 && str_eqb (t_name (nxt t3)) (lit "as")
                      then parse_sequence_type (adv t3) else Ok (default_sequence_type, t3));
      do (b, t5) <- parse_function_body t4;
      Ok (XNode X_InlineFunction (lit "(inline function)") b (XNode X_ReturnType [] rt ps), t5)
    else Ok (XNil, t).
  (* parser.rs 2364-2379 *)
  Definition parse_map_constructor_entry : parser := fun t =>
    do (k, t1) <- single t;
    if is_nil k then Ok (XNil, t1)
    else
      do t2 <- expect T_Colon t1;
      do (v, t3) <- single t2;
      if is_nil v then Err XPathSyntaxError else Ok (XNode X_MapEntry [] k v, t3).
  (* parser.rs 2314-2330 *)
  Definition parse_map_constructor : parser := fun t =>
    if next_is T_Map t then
      do t1 <- expect T_LeftCurly (adv t);
      do (e, t2) <- parse_entry_list X_MapConstruct parse_map_constructor_entry t1;
      do t3 <- expect T_RightCurly t2;
      Ok (XNode X_Map [] e XNil, t3)
    else Ok (XNil, t).
  (* parser.rs 2396-2409 *)
  Definition parse_square_array_constructor : parser := fun t =>
    if next_is T_LeftBracket t then
      do (e, t1) <- parse_entry_list X_ArrayEntry single (adv t);
      do t2 <- expect T_RightBracket t1;
      Ok (XNode X_SquareArray [] e XNil, t2)
    else Ok (XNil, t).
  (* parser.rs 2415-2431 *)
  Definition parse_curly_array_constructor : parser := fun t =>
    if next_is T_Array t then
      do t1 <- expect T_LeftCurly (adv t);
      do (e, t2) <- parse_expr_with t1;
      do t3 <- expect T_RightCurly t2;
      Ok (XNode X_CurlyArray [] e XNil, t3)
    else Ok (XNil, t).
  (* parser.rs 2491-2532 *)
  Definition parse_unary_lookup : parser := fun t =>
    if next_is T_Question t then
      let t1 := adv t in
      let n := t_name (nxt t1) in
      match next_type t1 with
      | T_Name => Ok (XNode X_UnaryLookupByExpr [] (leaf X_StringLiteral n) XNil, adv t1)
      | T_IntegerLiteral => Ok (XNode X_UnaryLookupByExpr [] (leaf X_IntegerLiteral n) XNil, adv t1)
      | T_Asterisk => Ok (leaf X_UnaryLookupByWildcard (lit "*"), adv t1)
      | T_LeftParen => do (k, t2) <- parse_parenthesized_expr t1; Ok (XNode X_UnaryLookupByExpr [] k XNil, t2)
      | _ => Ok (XNil, t)
      end
    else Ok (XNil, t).
  (* parser.rs 1991-2023, 2143-2148, 2383-2391 *)
  Definition parse_primary_expr : parser :=
    or_else parse_literal (or_else parse_varref (or_else parse_parenthesized_expr
    (or_else parse_context_item_expr (or_else parse_function_call
    (or_else (or_else parse_named_function_ref parse_inline_function_expr)
    (or_else parse_map_constructor
    (or_else (or_else parse_curly_array_constructor parse_square_array_constructor)
             parse_unary_lookup))))))).
  (* parser.rs 1956-1979 *)
  Definition parse_postfix : parser := fun t =>
    match next_type t with
    | T_LeftBracket => do (x, t1) <- parse_predicate t; Ok (XNode X_PredicateTop [] x XNil, t1)
    | T_LeftParen => do (x, t1) <- parse_argument_list t; Ok (XNode X_ArgumentListTop [] x XNil, t1)
    | T_Question => parse_unary_lookup t
    | _ => Ok (XNil, t)
    end.
  (* parser.rs 1927-1948 *)
  Fixpoint postfix_loop (fuel : nat) (x : xnode) (t : toks) : res (xnode * toks) :=
    match fuel with
    | O => Fuel
    | S fuel' =>
        do (p, t1) <- parse_postfix t;
        if is_nil p then Ok (x, t1)
        else
          let ty := match x_type p with
                    | X_PredicateTop => X_ApplyPredicate
                    | X_ArgumentListTop => X_ApplyArgument
                    | _ => X_OperatorMap
                    end in
          postfix_loop fuel' (XNode ty [] x p) t1
    end.
  (* parser.rs 1923-1949 *)
  Definition parse_postfix_expr : parser := fun t =>
    do (x, t1) <- parse_primary_expr t;
    if is_nil x then Ok (XNil, t1) else postfix_loop (S (List.length t1)) x t1.
  (* parser.rs 1893-1899 *)
  Definition parse_step_expr : parser := or_else parse_postfix_expr parse_axis_step.
  (* parser.rs 1842-1875: the loop; the value is what is linked on the right of curr *)
  Fixpoint relative_loop (fuel : nat) (t : toks) : res (xnode * toks) :=
    match fuel with
    | O => Fuel
    | S fuel' =>
        match next_type t with
        | T_Slash =>
            do (s, t1) <- parse_step_expr (adv t);
            do (r, t2) <- relative_loop fuel' t1;
            Ok (XNode X_OperatorPath (lit "parse_relative_path_expr Slash") s r, t2)
        | T_SlashSlash =>
            do (s, t1) <- parse_step_expr (adv t);
            do (r, t2) <- relative_loop fuel' t1;
            Ok (XNode X_OperatorPath (lit "parse_relative_path_expr SlashSlash 1")
                  (leaf X_AxisDescendantOrSelf (lit "node()"))
                  (XNode X_OperatorPath (lit "parse_relative_path_expr SlashSlash 2") s r), t2)
        | _ => Ok (XNil, t)
        end
    end.
  (* parser.rs 1834-1887 *)
  Definition parse_relative_path_expr : parser := fun t =>
    do (s, t1) <- parse_step_expr t;
    if is_nil s then Ok (XNil, t1)
    else
      do (r, t2) <- relative_loop (S (List.length t1)) t1;
      if is_nil r then Ok (s, t2)
      else Ok (XNode X_OperatorPath (lit "parse_relative_path_expr TOP") s r, t2).
  (* parser.rs 1779-1822 *)
  Definition parse_path_expr : parser := fun t =>
    match next_type t with
    | T_Slash =>
        do (r, t1) <- parse_relative_path_expr (adv t);
        Ok (XNode X_OperatorPath (lit "parse_path_expr Slash") (leaf X_AxisRoot (lit "node()")) r, t1)
    | T_SlashSlash =>
        do (r, t1) <- parse_relative_path_expr (adv t);
        Ok (XNode X_OperatorPath (lit "parse_path_expr SlashSlash 1") (leaf X_AxisRoot (lit "/"))
              (XNode X_OperatorPath (lit "parse_path_expr SlashSlash 2")
                 (leaf X_AxisDescendantOrSelf (lit "node()")) r), t1)
    | _ => parse_relative_path_expr t
    end.
  (* parser.rs 1725-1731 *)
  Definition parse_value_expr : parser := parse_bin_op_sub parse_path_expr tbl_value false.
  (* parser.rs 1698-1720 *)
  Definition parse_unary_expr : parser := fun t =>
    match next_type t with
    | T_Minus => do (x, t1) <- parse_value_expr (adv t); Ok (XNode X_OperatorUnaryMinus (lit "-") XNil x, t1)
    | T_Plus => do (x, t1) <- parse_value_expr (adv t); Ok (XNode X_OperatorUnaryPlus (lit "+") XNil x, t1)
    | _ => parse_value_expr t
    end.
  (* parser.rs 1651-1693 *)
  Fixpoint arrow_loop (fuel : nat) (x : xnode) (t : toks) : res (xnode * toks) :=
    match fuel with
    | O => Fuel
    | S fuel' =>
        if next_is T_Arrow t then
          do (f, t1) <- parse_static_func_name (adv t);
          if negb (str_eqb f []) then
            do (a, t2) <- parse_argument_list t1;
            arrow_loop fuel' (XNode X_FunctionCall f XNil (XNode X_ArgumentTop [] x a)) t2
          else
            do (v, t2) <- parse_varref t1;
            if is_nil v then Err XPathSyntaxError
            else
              do (a, t3) <- parse_argument_list t2;
              arrow_loop fuel'
                (XNode X_ApplyArgument [] v (XNode X_ArgumentListTop [] (XNode X_ArgumentTop [] x a) XNil)) t3
        else Ok (x, t)
    end.
  (* parser.rs 1651-1693 *)
  Definition parse_arrow_expr : parser := fun t =>
    do (x, t1) <- parse_unary_expr t;
    arrow_loop (S (List.length t1)) x t1.
  (* parser.rs 1585-1604, 1556-1575, 1267-1285, 1244-1262: an operand optionally followed by a type operator *)
  Definition with_type (sub : parser) (ty : ttype) (tp : parser) (x : xtype) : parser := fun t =>
    do (e, t1) <- sub t;
    if next_is ty t1 then
      do (s, t2) <- tp (adv t1);
      if is_nil s then Err XPathSyntaxError else Ok (XNode x [] e s, t2)
    else Ok (e, t1).
  (* parser.rs 1585-1604 *)
  Definition parse_cast_expr : parser := with_type parse_arrow_expr T_CastAs parse_single_type X_OperatorCastAs.
  (* parser.rs 1556-1575 *)
  Definition parse_castable_expr : parser :=
    with_type parse_cast_expr T_CastableAs parse_single_type X_OperatorCastableAs.
  (* parser.rs 1267-1285 *)
  Definition parse_treat_expr : parser :=
    with_type parse_castable_expr T_TreatAs parse_sequence_type X_OperatorTreatAs.
  (* parser.rs 1244-1262 *)
  Definition parse_instanceof_expr : parser :=
    with_type parse_treat_expr T_InstanceOf parse_sequence_type X_OperatorInstanceOf.
  (* parser.rs 1115-1239 *)
  Definition parse_intersect_except_expr : parser := parse_bin_op_sub parse_instanceof_expr tbl_intersect false.
  (* parser.rs 1218-1226 *)
  Definition parse_union_expr : parser := parse_bin_op_sub parse_intersect_except_expr tbl_union false.
  (* parser.rs 1203-1212 *)
  Definition parse_multiplicative_expr : parser := parse_bin_op_sub parse_union_expr tbl_multiplicative false.
  (* parser.rs 1190-1197 *)
  Definition parse_additive_expr : parser := parse_bin_op_sub parse_multiplicative_expr tbl_additive false.
  (* parser.rs 1178-1184 *)
  Definition parse_range_expr : parser := parse_bin_op_sub parse_additive_expr tbl_range true.
  (* parser.rs 1167-1173 *)
  Definition parse_string_concat_expr : parser := parse_bin_op_sub parse_range_expr tbl_concat false.
  (* parser.rs 1142-1162 *)
  Definition parse_comparison_expr : parser := parse_bin_op_sub parse_string_concat_expr tbl_comparison true.
  (* parser.rs 1126-1132 *)
  Definition parse_and_expr : parser := parse_bin_op_sub parse_comparison_expr tbl_and false.
  (* parser.rs 1115-1121 *)
  Definition parse_or_expr : parser := parse_bin_op_sub parse_and_expr tbl_or false.
  (* parser.rs 1072-1110 *)
  Definition parse_if_expr : parser := fun t =>
    if next_is T_If t then
      do t1 <- expect T_LeftParen (adv t);
      do (c, t2) <- parse_expr_with t1;
      if is_nil c then Err XPathSyntaxError else
      do t3 <- expect T_RightParen t2;
      do t4 <- expect_name (lit "then") t3;
      do (a, t5) <- single t4;
      if is_nil a then Err XPathSyntaxError else
      do t6 <- expect_name (lit "else") t5;
      do (b, t7) <- single t6;
      if is_nil b then Err XPathSyntaxError else
      Ok (XNode X_IfExpr (lit "if_expr") c (XNode X_IfThenElse (lit "if_then_else") a b), t7)
    else Ok (XNil, t).
  (* parser.rs 1041-1061 *)
  Definition parse_simple_binding (ty : xtype) : parser := fun t =>
    if next_is T_Dollar t then
      do (n, t1) <- parse_eqname [] (adv t);
      if str_eqb n [] then Err XPathSyntaxError else
      do t2 <- expect_name (lit "in") t1;
      do (e, t3) <- single t2;
      Ok (XNode ty n e XNil, t3)
    else Ok (XNil, t).
  (* parser.rs 951-972 *)
  Definition parse_simple_let_binding : parser := fun t =>
    if next_is T_Dollar t then
      do (n, t1) <- parse_eqname [] (adv t);
      if str_eqb n [] then Err XPathSyntaxError else
      do t2 <- expect T_Bind t1;
      do (e, t3) <- single t2;
      Ok (XNode X_LetVarBind n e XNil, t3)
    else Ok (XNil, t).
  (* the loop and the end of parse_for_expr 864-886, parse_let_expr 917-939 and parse_quantified_expr
     1006-1028: the value is what is linked on the right of curr *)
  Fixpoint bindings_loop (fuel : nat) (bind1 : parser) (kw : str) (t : toks) : res (xnode * toks) :=
    match fuel with
    | O => Fuel
    | S fuel' =>
        do (b, t1) <- bind1 t;
        if negb (is_nil b) && next_is T_Comma t1
        then do (r, t2) <- bindings_loop fuel' bind1 kw (adv t1); Ok (set_right b r, t2)
        else
          do t2 <- expect_name kw t1;
          do (e, t3) <- single t2;
          Ok ((if is_nil b then e else set_right b e), t3)
    end.
  Definition parse_binding_expr (ty : ttype) (x : xtype) (name : str) (bind1 : parser) (kw : str) : parser := fun t =>
    if next_is ty t then
      do (r, t1) <- bindings_loop (S (List.length t)) bind1 kw (adv t);
      Ok (XNode x name XNil r, t1)
    else Ok (XNil, t).
  (* parser.rs 859-887, 912-940, 986-1029 *)
  Definition parse_for_expr : parser :=
    parse_binding_expr T_For X_ForExpr (lit "for") (parse_simple_binding X_ForVarBind) (lit "return").
  (* parser.rs 912-940 *)
  Definition parse_let_expr : parser :=
    parse_binding_expr T_Let X_LetExpr (lit "let") parse_simple_let_binding (lit "return").
  (* parser.rs 986-1029 *)
  Definition parse_quantified_expr : parser :=
    or_else
      (parse_binding_expr T_Some X_SomeExpr (lit "some") (parse_simple_binding X_SomeVarBind) (lit "satisfies"))
      (parse_binding_expr T_Every X_EveryExpr (lit "every") (parse_simple_binding X_EveryVarBind) (lit "satisfies")).
  (* parser.rs 834-848 *)
  Definition parse_single_body : parser :=
    or_else parse_for_expr (or_else parse_let_expr (or_else parse_quantified_expr
    (or_else parse_if_expr parse_or_expr))).
End ExprSingle.
Fixpoint parse_single_fuel (n : nat) : parser :=
  match n with
  | O => fun _ => Fuel
  | S n' => parse_single_body (parse_single_fuel n')
  end.
(* every nesting of expressions consumes a token (ParserFacts) *)
(* parser.rs 834-848 *)
Definition parse_expr_single : parser := fun t => parse_single_fuel (S (List.length t)) t.
(* parser.rs 819-825 *)
Definition parse_expr : parser := parse_expr_with parse_expr_single.

(* parser.rs 285-302: compile_xpath, parse_main.  [tokens_of] drops the EOF sentinels of the token vector. *)
Definition parse_main (t : toks) : res xnode :=
  do (x, t1) <- parse_expr t;
  if next_is T_EOF t1 then Ok x else Err XPathSyntaxError.
Definition tokens_of (v : list token) : toks := removelast (tl v).
(* parser.rs 285-289 *)
Definition compile_xpath (s : str) : res xnode :=
  do v <- lexer_new s;
  parse_main (tokens_of v).

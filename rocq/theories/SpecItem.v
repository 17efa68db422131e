(* Specification of maps, arrays, lookups, function items passed to functions, and kind tests. *)
Require Import Bool List NArith ZArith Ascii String.
From Verif Require Import Str Sax Dom SpecEdit Lexer Parser Num Item Eval SpecOper SpecFunc SpecTypes SpecEval.
Import ListNotations.
Open Scope nat_scope.

(* ---- the trees of  map { k1 : v1, ... }   [ x1, ... ]   array { x }   E ? (K)   E ? * ---- *)
Fixpoint entry_chain (ty : xtype) (xs : list xnode) : xnode :=
  match xs with
  | [] => XNil
  | x :: r => XNode ty [] x (entry_chain ty r)
  end.
Definition map_constructor (es : list (xnode * xnode)) : xnode :=
  XNode X_Map [] (entry_chain X_MapConstruct (map (fun p => XNode X_MapEntry [] (fst p) (snd p)) es)) XNil.
Definition square_array (xs : list xnode) : xnode := XNode X_SquareArray [] (entry_chain X_ArrayEntry xs) XNil.
Definition curly_array (x : xnode) : xnode := XNode X_CurlyArray [] x XNil.
Definition key_lookup (K : xnode) : xnode := XNode X_UnaryLookupByExpr [] K XNil.
Definition all_lookup : xnode := XNode X_UnaryLookupByWildcard (lit "*") XNil XNil.
Definition postfix_lookup (E L : xnode) : xnode := XNode X_OperatorMap [] E L.
(* the expressions k1, v1, k2, v2, ... of a map constructor, and their values *)
Definition in_turn (es : list (xnode * xnode)) : list xnode := flat_map (fun p => [fst p; snd p]) es.
Definition key_values (m : list (xitem * xseq)) : list xseq := flat_map (fun p => [[fst p]; snd p]) m.
(* the first of the expressions that fails, evaluated from left to right, fails with [o] *)
Inductive fails (h : heap) (c : xseq) : list xnode -> env -> res (xseq * env) -> Prop :=
| fl_here : forall x xs e o, outcome h c x e o -> (forall r, o <> Ok r) -> fails h c (x :: xs) e o
| fl_later : forall x xs e v e1 o, outcome h c x e (Ok (v, e1)) -> fails h c xs e1 o -> fails h c (x :: xs) e o.

(* ---- function items and the functions they are passed to ---- *)
Definition fn_call (name : str) (args : list xnode) : xnode := XNode X_FunctionCall name XNil (arg_chain args).
(* name#arity *)
Definition function_ref (name arity : str) : xnode := XNode X_NamedFunctionRef (name ++ lit "#" ++ arity) XNil XNil.
(* name(a1, ..., ?, ...): [None] is the question mark *)
Fixpoint hole_chain (xs : list (option xnode)) : xnode :=
  match xs with
  | [] => XNil
  | Some x :: r => XNode X_ArgumentTop [] x (hole_chain r)
  | None :: r => XNode X_ArgumentPlaceholder (lit "?") XNil (hole_chain r)
  end.
Definition partial_call (name : str) (xs : list (option xnode)) : xnode :=
  XNode X_PartialFunctionCall name XNil (hole_chain xs).

(* ---- kind tests ---- *)
Inductive kindtest : Type :=
| K_document (t : option (str * str))   (* document-node(), document-node(element(n, T)) *)
| K_element (n T : str)                 (* element(n, T); n may be "*", T may end in "?" *)
| K_attribute (n T : str)               (* attribute(n, T) *)
| K_pi (n : str)                        (* processing-instruction(n), or () if n is empty *)
| K_comment | K_text | K_namespace | K_node
| K_schema_element (n : str) | K_schema_attribute (n : str).
Definition kind_tree (k : kindtest) : xnode :=
  XNode X_KindTest []
    match k with
    | K_document None => XNode X_DocumentTest [] XNil XNil
    | K_document (Some (n, T)) =>
        XNode X_DocumentTest [] (XNode X_ElementTest n (XNode X_KindTestTypeName T XNil XNil) XNil) XNil
    | K_element n T => XNode X_ElementTest n (XNode X_KindTestTypeName T XNil XNil) XNil
    | K_attribute n T => XNode X_AttributeTest n (XNode X_KindTestTypeName T XNil XNil) XNil
    | K_pi n => XNode X_PITest n XNil XNil
    | K_comment => XNode X_CommentTest [] XNil XNil
    | K_text => XNode X_TextTest [] XNil XNil
    | K_namespace => XNode X_NamespaceNodeTest [] XNil XNil
    | K_node => XNode X_AnyKindTest [] XNil XNil
    | K_schema_element n => XNode X_SchemaElementTest n XNil XNil
    | K_schema_attribute n => XNode X_SchemaAttributeTest n XNil XNil
    end XNil.
Definition name_or_any (n m : str) : Prop := n = lit "*" \/ n = m.
(* an element is nilled if it has the attribute xsi:nil="true" *)
Definition is_nilled (h : heap) (i : nat) : Prop := attribute_value h i (lit "xsi:nil") = Some (lit "true").
(* The kind tests of XPath 3.1 (2.5.5) for documents without a schema: elements have the type xs:untyped and
   attributes xs:untypedAtomic; there are no namespace nodes and no declarations. *)
Inductive kind_matches (h : heap) : nat -> kindtest -> Prop :=
| km_document : forall i, n_type (Dom.get h i) = DocumentRoot -> kind_matches h i (K_document None)
| km_document_element : forall i e n T, n_type (Dom.get h i) = DocumentRoot ->
    filter (fun c => node_type_eqb (n_type (Dom.get h c)) Element) (children h i) = [e] ->
    kind_matches h e (K_element n T) -> kind_matches h i (K_document (Some (n, T)))
| km_element : forall i n T, n_type (Dom.get h i) = Element -> name_or_any n (n_name (Dom.get h i)) ->
    derives (lit "xs:untyped") T -> ~ is_nilled h i -> kind_matches h i (K_element n T)
| km_element_nillable : forall i n T, n_type (Dom.get h i) = Element -> name_or_any n (n_name (Dom.get h i)) ->
    derives (lit "xs:untyped") T -> kind_matches h i (K_element n (T ++ lit "?"))
| km_attribute : forall i n T, n_type (Dom.get h i) = Attribute -> name_or_any n (n_name (Dom.get h i)) ->
    derives (lit "xs:untypedAtomic") T -> kind_matches h i (K_attribute n T)
| km_pi : forall i n, n_type (Dom.get h i) = Instruction -> n = [] \/ n = n_name (Dom.get h i) -> kind_matches h i (K_pi n)
| km_comment : forall i, n_type (Dom.get h i) = Comment -> kind_matches h i K_comment
| km_text : forall i, n_type (Dom.get h i) = Text -> kind_matches h i K_text
| km_node : forall i, kind_matches h i K_node.

(* ---- the application of a function item to argument values ---- *)
(* the arguments of a partial call: the expressions are evaluated (at the call), the holes take the given values in turn *)
Inductive filled (h : heap) (c : xseq) : list (option xnode) -> list xseq -> env -> list xseq -> env -> Prop :=
| fi_nil : forall e, filled h c [] [] e [] e
| fi_expr : forall x xs given e v e1 vs e2, outcome h c x e (Ok (v, e1)) -> filled h c xs given e1 vs e2 ->
    filled h c (Some x :: xs) given e (v :: vs) e2
| fi_hole : forall xs v given e vs e2, filled h c xs given e vs e2 -> filled h c (None :: xs) (v :: given) e (v :: vs) e2.
(* [applied h c fx vs e o]: the function item [fx], applied to [vs], gives [o]; the variables are left as they were *)
Inductive applied (h : heap) (c : xseq) : xnode -> list xseq -> env -> res xseq -> Prop :=
| ap_ref : forall name arity vs e o, ~ In name contextual -> ~ In 35%N name -> ~ In 35%N arity ->
    atoi arity = Z.of_nat (List.length vs) -> fn_value h c name vs o -> applied h c (function_ref name arity) vs e o
| ap_partial : forall name xs vs ws e o, ~ In name contextual -> filled h c xs vs e ws e -> fn_value h c name ws o ->
    applied h c (partial_call name xs) vs e o
| ap_inline : forall nm ps R body vs e o, List.length vs = List.length ps ->
    Forall2 (fun p v => type_test h v (snd p) (Ok true)) ps vs -> scoped body ->
    outcome h c body (with_params e ps vs) o -> applied h c (inline_function nm ps R body) vs e (do (v, _) <- o; Ok v).

(* Model of the type-matching part of src/xpath_impl/eval.rs (lines 1042-1243 and 1579-2371):
   node tests, sequence types, subtypes. *)
Require Import Bool List NArith ZArith Ascii String.
From Verif Require Import Str Sax Dom Axes Lexer FuncTable Parser Num Item.
Import ListNotations.

(* the number of constructors of a syntax tree, used as recursion fuel *)
Fixpoint xsize (x : xnode) : nat :=
  match x with XNil => 0 | XNode _ _ l r => S (xsize l + xsize r) end.
(* the loop `while ! is_nil_xnode(&curr) { v.push(get_left(&curr)); curr = get_right(&curr); }` *)
Fixpoint lefts (x : xnode) : list xnode :=
  match x with XNil => [] | XNode _ _ l r => l :: lefts r end.
(* the same with get_xnode_name *)
Fixpoint names (x : xnode) : list str :=
  match x with XNil => [] | XNode _ n _ r => n :: names r end.

(* ---- eval.rs 2343-2371: derives_from ---- *)
Definition derives_tbl : list (str * str) := [
  (lit "xs:integer", lit "xs:decimal");
  (lit "xs:decimal", lit "xs:numeric");
  (lit "xs:double", lit "xs:numeric");
  (lit "xs:numeric", lit "xs:anyAtomicType");
  (lit "xs:string", lit "xs:anyAtomicType");
  (lit "xs:anyURI", lit "xs:string");
  (lit "xs:boolean", lit "xs:anyAtomicType");
  (lit "xs:untypedAtomic", lit "xs:anyAtomicType");
  (lit "xs:anyAtomicType", lit "xs:anySimpleType");
  (lit "xs:anySimpleType", lit "xs:anyType");
  (lit "xs:untyped", lit "xs:anyType")].
Fixpoint assoc (k : str) (l : list (str * str)) : option str :=
  match l with
  | [] => None
  | (a, b) :: l' => if str_eqb a k then Some b else assoc k l'
  end.
Definition base_type (t : str) : option str := assoc t derives_tbl.
(* The Rust `loop` has no bound; the table has no cycle, so 12 rounds are more than it can make
   (TypeFacts.derives_from_unfold shows that the bound is never reached). *)
Fixpoint derives_loop (fuel : nat) (a b : str) : bool :=
  match fuel with
  | O => false
  | S fuel' =>
      if str_eqb a b then true
      else match base_type a with Some s => derives_loop fuel' s b | None => false end
  end.
(* eval.rs 2343-2370 *)
Definition derives_from (a b : str) : bool := derives_loop (S (List.length derives_tbl)) a b.

(* ---- eval.rs 1042-1085: match_name_test ---- *)
Definition match_name_test (h : heap) (i : nat) (x : xnode) : bool :=
  let pat := x_name x in
  if str_eqb pat (lit "node()") then true
  else
    let main := if xtype_eqb (x_type x) X_AxisAttribute then Attribute else Element in
    if negb (node_type_eqb main (n_type (get h i))) then false
    else if str_eqb pat (n_name (get h i)) then true
    else if str_eqb pat (lit "*") then true
    else match split_once (lit ":") pat with
         | Some (p, l) => str_eqb l (lit "*") && str_eqb (space_name h i) p
         | None => false
         end.

(* ---- eval.rs 1135-1243: match_kind_test ---- *)
Definition match_kind_test (h : heap) (i : nat) (x : xnode) : bool :=
  let nt := n_type (get h i) in
  let nm := n_name (get h i) in
  let t := x_left x in
  match x_type t with
  | X_ElementTest =>
      if negb (node_type_eqb nt Element) then false
      else if negb (str_eqb (x_name t) (lit "*")) && negb (str_eqb (x_name t) nm) then false
      else
        let ex := x_name (x_left t) in
        if negb (derives_from (lit "xs:untyped") (trim_q ex)) then false
        else if ends_with_q ex then true
        else match attribute_value h i (lit "xsi:nil") with
             | Some p => negb (str_eqb p (lit "true"))
             | None => true
             end
  | X_AttributeTest =>
      if negb (node_type_eqb nt Attribute) then false
      else if negb (str_eqb (x_name t) (lit "*")) && negb (str_eqb (x_name t) nm) then false
      else derives_from (lit "xs:untypedAtomic") (x_name (x_left t))
  | X_PITest =>
      node_type_eqb nt Instruction && (str_eqb (x_name t) [] || str_eqb (x_name t) nm)
  | X_CommentTest => node_type_eqb nt Comment
  | X_TextTest => node_type_eqb nt Text
  | X_AnyKindTest => true
  | _ => false
  end.

(* ---- eval.rs 1020-1037: match_node_test ---- *)
Definition match_node_test (h : heap) (i : nat) (x : xnode) : bool :=
  if is_nil (x_left x) then match_name_test h i x else match_kind_test h i (x_left x).

(* ---- eval.rs 1993-2036: SUBTYPE_TBL, subtype_entry ---- *)
Inductive sentry : Type := S_EMPTY_SEQ | S_OCCUR_Q | S_OCCUR_A | S_OCCUR_1 | S_OCCUR_P | S_XS_ERROR.
Inductive sverdict : Type := V_No | V_Yes | V_Item.   (* the 0, 1 and 9 of the table *)
Definition subtype_tbl (a b : sentry) : sverdict :=
  match a, b with
  | S_EMPTY_SEQ, (S_EMPTY_SEQ | S_OCCUR_Q | S_OCCUR_A) => V_Yes
  | S_EMPTY_SEQ, _ => V_No
  | S_OCCUR_Q, (S_OCCUR_Q | S_OCCUR_A) => V_Item
  | S_OCCUR_Q, _ => V_No
  | S_OCCUR_A, S_OCCUR_A => V_Item
  | S_OCCUR_A, _ => V_No
  | S_OCCUR_1, (S_OCCUR_Q | S_OCCUR_A | S_OCCUR_1 | S_OCCUR_P) => V_Item
  | S_OCCUR_1, _ => V_No
  | S_OCCUR_P, (S_OCCUR_A | S_OCCUR_P) => V_Item
  | S_OCCUR_P, _ => V_No
  | S_XS_ERROR, _ => V_Yes
  end.
(* eval.rs 2010-2035 *)
Definition subtype_entry (x : xnode) : sentry :=
  let t := x_left x in
  if xtype_eqb (x_type t) X_EmptySequenceTest then S_EMPTY_SEQ
  else if xtype_eqb (x_type t) X_AtomicOrUnionType && str_eqb (x_name t) (lit "xs:error") then
    if str_eqb (x_name x) (lit "?") || str_eqb (x_name x) (lit "*") then S_EMPTY_SEQ else S_XS_ERROR
  else if str_eqb (x_name x) (lit "?") then S_OCCUR_Q
  else if str_eqb (x_name x) (lit "*") then S_OCCUR_A
  else if str_eqb (x_name x) (lit "+") then S_OCCUR_P
  else S_OCCUR_1.

(* `f(a[i], b[i])` for every i, all of them evaluated, as in the loop of 2168-2172 *)
Fixpoint all2 (f : xnode -> xnode -> res bool) (l m : list xnode) : res bool :=
  match l, m with
  | a :: l', b :: m' => do x <- f a b; do y <- all2 f l' m'; Ok (x && y)
  | _, _ => Ok true
  end.
(* `if c { return true; }` for a condition computed by a recursive call, then what follows *)
Definition or_res (c : res bool) (k : res bool) : res bool := do b <- c; if b then Ok true else k.

(* ---- eval.rs 2002-2339: subtype, subtype_itemtype.  The two functions call each other on the
   sub-trees of their arguments; the fuel bounds that recursion (TypeFacts.subtype_total shows that
   it is enough). ---- *)
Section Itemtype.
  Variable subtype : xnode -> xnode -> res bool.
  Variable itemtype : xnode -> xnode -> res bool.
  (* 2080-2128: rules 5-10 *)
  Definition kind_rule (ai bi : xnode) : bool :=
    if xtype_eqb (x_type bi) X_KindTest && xtype_eqb (x_type ai) X_KindTest then
      match x_type (x_left bi) with
      | X_AnyKindTest => true
      | X_TextTest => xtype_eqb (x_type (x_left ai)) X_TextTest
      | X_CommentTest => xtype_eqb (x_type (x_left ai)) X_CommentTest
      | X_NamespaceNodeTest => xtype_eqb (x_type (x_left ai)) X_NamespaceNodeTest
      | X_PITest =>
          xtype_eqb (x_type (x_left ai)) X_PITest &&
          (str_eqb (x_name bi) [] || str_eqb (x_name (x_left ai)) (x_name bi))
      | _ => false
      end
    else false.
  (* 2144-2181: rule 26 *)
  Definition function_rule (ai bi : xnode) : res bool :=
    if xtype_eqb (x_type bi) X_TypedFunctionTest && xtype_eqb (x_type ai) X_TypedFunctionTest then
      let bs := lefts (x_right bi) in
      let ats := lefts (x_right ai) in
      if (List.length bs =? List.length ats)%nat then
        match ats, bs with
        | a :: ats', b :: bs' => do x <- subtype a b; do y <- all2 subtype bs' ats'; Ok (x && y)
        | _, _ => Panic
        end
      else Ok false
    else Ok false.
  (* `subtype_itemtype(&ka, &kb) && subtype(&va, &vb)` with Rust's short circuit *)
  Definition both (ka kb va vb : xnode) : res bool :=
    do x <- itemtype ka kb; if x then subtype va vb else Ok false.
  Definition itemtype_body (ai bi : xnode) : res bool :=
    let ta := x_type ai in
    let tb := x_type bi in
    if xtype_eqb ta X_AtomicOrUnionType && xtype_eqb tb X_AtomicOrUnionType &&
       (derives_from (x_name ai) (x_name bi) || str_eqb (x_name ai) (lit "xs:error")) then Ok true
    else if xtype_eqb tb X_ItemTest then Ok true
    else if kind_rule ai bi then Ok true
    else if xtype_eqb tb X_AnyFunctionTest &&
            (xtype_eqb ta X_AnyFunctionTest || xtype_eqb ta X_TypedFunctionTest) then Ok true
    else or_res (function_rule ai bi)
   (or_res (if xtype_eqb ta X_MapTest && xtype_eqb tb X_MapTest                                (* 27, 28 *)
            then both (x_left ai) (x_left bi) (x_right ai) (x_right bi) else Ok false)
   (if xtype_eqb ta X_MapTest && xtype_eqb tb X_AnyFunctionTest then Ok true                    (* 29 *)
    else or_res (if xtype_eqb ta X_MapTest && xtype_eqb tb X_TypedFunctionTest                  (* 30, 35 *)
                 then both (x_left ai) (x_left (x_left (x_right (x_right bi))))
                           (x_right ai) (x_left (x_right bi)) else Ok false)
   (or_res (if xtype_eqb ta X_ArrayTest && xtype_eqb tb X_ArrayTest                             (* 31, 32 *)
            then subtype (x_left ai) (x_left bi) else Ok false)
   (if xtype_eqb ta X_ArrayTest && xtype_eqb tb X_AnyFunctionTest then Ok true                  (* 33 *)
    else if xtype_eqb ta X_ArrayTest && xtype_eqb tb X_TypedFunctionTest &&                     (* 34, 36 *)
            derives_from (lit "xs:integer") (x_name (x_left (x_left (x_right (x_right bi)))))
         then subtype (x_left ai) (x_left (x_right bi))
         else Ok false)))).
  (* 2002-2008 *)
  Definition subtype_body (a b : xnode) : res bool :=
    match subtype_tbl (subtype_entry a) (subtype_entry b) with
    | V_No => Ok false
    | V_Yes => Ok true
    | V_Item => itemtype (x_left a) (x_left b)
    end.
End Itemtype.
Fixpoint itemtype_fuel (n : nat) (a b : xnode) : res bool :=
  match n with
  | O => Fuel
  | S n' => itemtype_body (subtype_body (itemtype_fuel n')) (itemtype_fuel n') a b
  end.
(* eval.rs 2044-2339 *)
Definition subtype_itemtype (a b : xnode) : res bool := itemtype_fuel (S (xsize a + xsize b)) a b.
(* eval.rs 2002-2008 *)
Definition subtype (a b : xnode) : res bool :=
  subtype_body (itemtype_fuel (S (xsize a + xsize b))) a b.

(* ---- eval.rs 1969-1981: match_occurence ---- *)
Definition match_occurence (s : xseq) (ind : str) : res bool :=
  let n := List.length s in
  if str_eqb ind (lit "?") then Ok (n <=? 1)%nat
  else if str_eqb ind (lit "*") then Ok true
  else if str_eqb ind (lit "+") then Ok (1 <=? n)%nat
  else if str_eqb ind [] then Ok (n =? 1)%nat
  else Err CantOccur.

(* a Rust loop over the items that returns Ok(false) at the first one that does not match *)
Fixpoint forall_res {A} (f : A -> res bool) (l : list A) : res bool :=
  match l with
  | [] => Ok true
  | a :: l' => do b <- f a; if b then forall_res f l' else Ok false
  end.

(* ---- eval.rs 1675-1686: match_sequence_kind_test ---- *)
Definition match_sequence_kind_test (h : heap) (s : xseq) (t : xnode) : bool :=
  forallb (fun it => match it with XINode i => match_kind_test h i t | _ => false end) s.
(* ---- 1694-1701: match_sequence_item_test ---- *)
Definition match_sequence_item_test (s : xseq) : bool := forallb is_item s.
(* ---- 1709-1735: match_sequence_any_function_test ---- *)
Definition is_function_item (it : xitem) : bool :=
  match it with
  | XIFun x => match x_type x with
               | X_InlineFunction | X_NamedFunctionRef | X_PartialFunctionCall => true
               | _ => false
               end
  | XIArray _ | XIMap _ => true
  | _ => false
  end.
(* eval.rs 1708-1732 *)
Definition match_sequence_any_function_test (s : xseq) : bool := forallb is_function_item s.
(* ---- 1955-1963: match_sequence_atomic_or_union_type ---- *)
Definition match_sequence_atomic_or_union_type (s : xseq) (t : xnode) : bool :=
  forallb (fun it => derives_from (xs_type it) (x_name t)) s.

(* ---- 1790-1812: comparing the signature of a function item with the wanted one; [first] says
   that the return type (i == 0) is next ---- *)
Fixpoint match_signature (first : bool) (wanted : list xnode) (cur : list xnode) : res bool :=
  match cur, wanted with
  | [], [] => Ok true
  | [], _ :: _ => Ok false
  | _ :: _, [] => Ok false
  | c :: cur', w :: wanted' =>
      do b <- (if first then subtype c w else subtype w c);
      if b then match_signature false wanted' cur' else Ok false
  end.
(* ---- 1761-1789: the signature of a function item; None is `return Ok(false)` ---- *)
Definition signature_of (x : xnode) : res (option xnode) :=
  match x_type x with
  | X_NamedFunctionRef =>
      let sg := get_function_signature (x_name x) in
      if str_eqb sg [] then Ok None
      else
        do v <- lexer_new sg;
        do (t, _) <- parse_function_test parse_item_type (tokens_of v);
        Ok (Some t)
  | X_InlineFunction | X_PartialFunctionCall => Ok (Some x)
  | _ => Ok None
  end.

(* ---- 1597-1668 match_sequence_type, 1741-1855 match_sequence_typed_function_test, 1864-1876
   match_sequence_array_test, 1881-1893 match_array_sequence_type, 1902-1915 match_sequence_map_test,
   1921-1938 match_map_sequence_type.  They recurse on the type tree; the fuel bounds that recursion
   (TypeFacts.match_sequence_type_total shows that it is enough). ---- *)
Section SeqType.
  Variable h : heap.
  Variable mst : xseq -> xnode -> res bool.
  (* eval.rs 1893-1905 *)
  Definition match_array_sequence_type (a : list xseq) (t : xnode) : res bool :=
    forall_res (fun k => match xarray_get h a (XIInteger (Z.of_nat k)) with
                         | Some v => mst v t
                         | None => Ok false
                         end) (seq 1 (List.length a)).
  (* eval.rs 1933-1949 *)
  Definition match_map_sequence_type (m : list (xitem * xseq)) (kt : str) (vt : xnode) : res bool :=
    forall_res (fun key => if negb (derives_from (xs_type key) kt) then Ok false
                           else match xmap_get h m key with
                                | Some v => mst v vt
                                | None => Ok false
                                end) (xmap_keys m).
  (* eval.rs 1876-1888 *)
  Definition match_sequence_array_test (s : xseq) (t : xnode) : res bool :=
    forall_res (fun it => match it with
                          | XIArray a => match_array_sequence_type a (x_left t)
                          | _ => Ok false
                          end) s.
  (* eval.rs 1914-1927 *)
  Definition match_sequence_map_test (s : xseq) (t : xnode) : res bool :=
    forall_res (fun it => match it with
                          | XIMap m => match_map_sequence_type m (x_name (x_left t)) (x_right t)
                          | _ => Ok false
                          end) s.
  (* eval.rs 1738-1867 *)
  Definition match_sequence_typed_function_test (s : xseq) (t : xnode) : res bool :=
    let sg := lefts (x_right t) in
    forall_res (fun it =>
      match it with
      | XIFun x =>
          do o <- signature_of x;
          match o with
          | None => Ok false
          | Some sx => match_signature true sg (lefts (x_right sx))
          end
      | XIMap m =>
          match sg with
          | [r; k] => match_map_sequence_type m (x_name (x_left k)) r
          | _ => Ok false
          end
      | XIArray a =>
          match sg with
          | [r; k] => do b <- mst [XIInteger 1] k;
                      if b then match_array_sequence_type a r else Ok false
          | _ => Ok false
          end
      | _ => Ok false
      end) s.
  (* eval.rs 1597-1665 *)
  Definition match_sequence_type_body (s : xseq) (x : xnode) : res bool :=
    if negb (xtype_eqb (x_type x) X_SequenceType) then Err CantOccur
    else
      let t := x_left x in
      if xtype_eqb (x_type t) X_EmptySequenceTest then Ok (match s with [] => true | _ => false end)
      else
        do o <- match_occurence s (x_name x);
        if negb o then Ok false
        else match x_type t with
             | X_KindTest => Ok (match_sequence_kind_test h s t)
             | X_ItemTest => Ok (match_sequence_item_test s)
             | X_AnyFunctionTest => Ok (match_sequence_any_function_test s)
             | X_TypedFunctionTest => match_sequence_typed_function_test s t
             | X_ArrayTest => match_sequence_array_test s t
             | X_MapTest => match_sequence_map_test s t
             | X_AtomicOrUnionType => Ok (match_sequence_atomic_or_union_type s t)
             | X_ParenthesizedItemType => Ok false
             | _ => Err CantOccur
             end.
End SeqType.
Fixpoint mst_fuel (h : heap) (n : nat) (s : xseq) (x : xnode) : res bool :=
  match n with
  | O => Fuel
  | S n' => match_sequence_type_body h (mst_fuel h n') s x
  end.
(* eval.rs 1597-1665 *)
Definition match_sequence_type (h : heap) (s : xseq) (x : xnode) : res bool :=
  mst_fuel h (S (xsize x)) s x.

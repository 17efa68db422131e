(* Specification of sequence types: occurrence indicators, derivation of atomic types. *)
Require Import Bool List NArith ZArith Ascii String.
From Verif Require Import Str Dom Lexer Parser Num Item Eval SpecOper.
Import ListNotations.
Open Scope nat_scope.

(* how many items T, T?, T* and T+ allow *)
Inductive occurs : str -> nat -> Prop :=
| oc_one : occurs [] 1
| oc_none : occurs (lit "?") 0
| oc_opt : occurs (lit "?") 1
| oc_any : forall n, occurs (lit "*") n
| oc_some : forall n, n > 0 -> occurs (lit "+") n.
Definition indicator (s : str) : Prop := In s [[]; lit "?"; lit "*"; lit "+"].

(* the expression `A instance of T ind` *)
Definition instance_of (A T : xnode) (ind : str) : xnode :=
  XNode X_OperatorInstanceOf [] A (XNode X_SequenceType ind T XNil).
(* `$x instance of T`, when $x holds the one item [it], ends with [b] *)
Definition item_test (h : heap) (it : xitem) (T : xnode) (b : bool) : Prop :=
  exists e', outcome h [] (instance_of (XNode X_VarRef (lit "x") XNil XNil) T [])
                          (mkEnv 0 0 [(lit "x", [it])]) (Ok ([XIBoolean b], e')).
(* the item types of the grammar except the parenthesised ones *)
Definition item_type (T : xnode) : Prop :=
  In (x_type T) [X_KindTest; X_ItemTest; X_AnyFunctionTest; X_TypedFunctionTest; X_ArrayTest; X_MapTest;
                 X_AtomicOrUnionType].

(* the type hierarchy: which type is directly derived from which *)
Inductive derived : str -> str -> Prop :=
| d_integer : derived (lit "xs:integer") (lit "xs:decimal")
| d_decimal : derived (lit "xs:decimal") (lit "xs:numeric")
| d_double : derived (lit "xs:double") (lit "xs:numeric")
| d_numeric : derived (lit "xs:numeric") (lit "xs:anyAtomicType")
| d_string : derived (lit "xs:string") (lit "xs:anyAtomicType")
| d_uri : derived (lit "xs:anyURI") (lit "xs:string")
| d_boolean : derived (lit "xs:boolean") (lit "xs:anyAtomicType")
| d_untypedAtomic : derived (lit "xs:untypedAtomic") (lit "xs:anyAtomicType")
| d_atomic : derived (lit "xs:anyAtomicType") (lit "xs:anySimpleType")
| d_simple : derived (lit "xs:anySimpleType") (lit "xs:anyType")
| d_untyped : derived (lit "xs:untyped") (lit "xs:anyType").
(* one of the types of the hierarchy *)
Definition known_type (t : str) : Prop := t = lit "xs:anyType" \/ exists u, derived t u.
(* derivation in any number of steps *)
Inductive derives : str -> str -> Prop :=
| dv_refl : forall a, derives a a
| dv_step : forall a b c, derived a b -> derives b c -> derives a c.
(* the type of an atomic value *)
Inductive has_type : xitem -> str -> Prop :=
| ht_string : forall s, has_type (XIString s) (lit "xs:string")
| ht_integer : forall z, has_type (XIInteger z) (lit "xs:integer")
| ht_decimal : forall f, has_type (XIDecimal f) (lit "xs:decimal")
| ht_double : forall f, has_type (XIDouble f) (lit "xs:double")
| ht_boolean : forall b, has_type (XIBoolean b) (lit "xs:boolean").

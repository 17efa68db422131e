(* Specification of how results are written (Sequence::to_string, Item::to_string), after the documentation of
   src/xpath.rs: "(<elem attr="val">, 1, 2.0, 3e0, "str", true)". *)
Require Import Bool List NArith ZArith Reals Ascii String.
Require Import Coq.Floats.SpecFloat.
From Verif Require Import Str Sax Dom Num Item SpecNum SpecInt SpecDbl.
Import ListNotations.
Open Scope N_scope.

(* ---- numbers ---- *)
(* a minus sign or none *)
Definition signed_text (P : str -> Prop) (s : str) : Prop := P s \/ exists t, s = 45 :: t /\ P t.
(* 2.0, 0.25: digits, a point, digits *)
Definition with_fraction (s : str) : Prop :=
  exists d f, s = d ++ 46 :: f /\ whole_notation d /\ all_digits f /\ f <> [].
(* 3e0, 3.25e-7: one digit, or one digit, a point and digits; the letter e; an integer *)
Definition scientific (s : str) : Prop :=
  exists c f t z, 48 <= c <= 57 /\ (f = [] \/ exists g, f = 46 :: g /\ fraction_notation g) /\ notation_of z t /\
    s = c :: f ++ 101 :: t.
(* the text stands for a number, [x] is the double nearest to it; -0 is written with the minus sign *)
Definition stands_for (s : str) (x : f64) : Prop :=
  exists neg m e, decimal_text s neg m e /\ correctly_rounded (decimal_value neg m e) x /\
    (forall b, x = S754_zero b -> neg = b).

(* ---- nodes: an element as its start tag, an attribute as name="value", a text as itself ---- *)
Inductive attribute_text (h : heap) : nat -> str -> Prop :=
| at_of : forall a, attribute_text h a (n_name (Dom.get h a) ++ lit "=" ++ [34] ++ n_value (Dom.get h a) ++ [34]).
Inductive tag_attributes (h : heap) : list nat -> str -> Prop :=
| ta_nil : tag_attributes h [] []
| ta_cons : forall a l s t, attribute_text h a s -> tag_attributes h l t -> tag_attributes h (a :: l) (lit " " ++ s ++ t).
Inductive node_text (h : heap) : nat -> str -> Prop :=
| nt_element : forall i s, n_type (Dom.get h i) = Element -> tag_attributes h (n_attrs (Dom.get h i)) s ->
    node_text h i (lit "<" ++ n_name (Dom.get h i) ++ s ++ lit ">")
| nt_attribute : forall i s, n_type (Dom.get h i) = Attribute -> attribute_text h i s -> node_text h i s
| nt_text : forall i, n_type (Dom.get h i) = Text -> node_text h i (n_value (Dom.get h i))
| nt_document : forall i, n_type (Dom.get h i) = DocumentRoot -> node_text h i (lit "(DocumentRoot)").
(* comments, processing instructions and declarations have no text here *)

(* ---- items and sequences ---- *)
Inductive item_text (h : heap) : xitem -> str -> Prop :=
| it_node : forall i s, node_text h i s -> item_text h (XINode i) s
| it_string : forall s, item_text h (XIString s) ([34] ++ s ++ [34])
| it_integer : forall z s, notation_of z s -> item_text h (XIInteger z) s
| it_true : item_text h (XIBoolean true) (lit "true")
| it_false : item_text h (XIBoolean false) (lit "false")
| it_decimal : forall x s, signed_text with_fraction s -> stands_for s x -> item_text h (XIDecimal x) s
| it_double : forall x s, signed_text scientific s -> stands_for s x -> item_text h (XIDouble x) s
| it_nan : item_text h (XIDouble S754_nan) (lit "NaN")
| it_infinity : item_text h (XIDouble (S754_infinity false)) (lit "+Infinity")
| it_minus_infinity : item_text h (XIDouble (S754_infinity true)) (lit "-Infinity")
| it_map : forall m s, entries_text h m s -> item_text h (XIMap m) (lit "{" ++ s ++ lit "}")
| it_array : forall a s, members_text h a s -> item_text h (XIArray a) (lit "[" ++ s ++ lit "]")
(* one item stands alone; none or several in parentheses, with commas *)
with sequence_text (h : heap) : list xitem -> str -> Prop :=
| st_none : sequence_text h [] (lit "()")
| st_one : forall it s, item_text h it s -> sequence_text h [it] s
| st_more : forall it l s t, item_text h it s -> l <> [] -> rest_text h l t ->
    sequence_text h (it :: l) (lit "(" ++ s ++ t ++ lit ")")
with rest_text (h : heap) : list xitem -> str -> Prop :=
| rt_nil : rest_text h [] []
| rt_cons : forall it l s t, item_text h it s -> rest_text h l t -> rest_text h (it :: l) (lit ", " ++ s ++ t)
(* key => value, ... *)
with entries_text (h : heap) : list (xitem * list xitem) -> str -> Prop :=
| et_none : entries_text h [] []
| et_one : forall k v s t, item_text h k s -> sequence_text h v t -> entries_text h [(k, v)] (s ++ lit " => " ++ t)
| et_more : forall k v m s t u, item_text h k s -> sequence_text h v t -> m <> [] -> entries_text h m u ->
    entries_text h ((k, v) :: m) (s ++ lit " => " ++ t ++ lit ", " ++ u)
with members_text (h : heap) : list (list xitem) -> str -> Prop :=
| mt_none : members_text h [] []
| mt_one : forall v s, sequence_text h v s -> members_text h [v] s
| mt_more : forall v a s t, sequence_text h v s -> a <> [] -> members_text h a t -> members_text h (v :: a) (s ++ lit ", " ++ t).

(* ---- the values considered: doubles of the format, finite decimals, no function items, and of the nodes those
   with a text ---- *)
Inductive showable (h : heap) : xitem -> Prop :=
| sw_node : forall i, In (n_type (Dom.get h i)) [Element; Attribute; Text; DocumentRoot] -> showable h (XINode i)
| sw_string : forall s, showable h (XIString s)
| sw_integer : forall z, showable h (XIInteger z)
| sw_boolean : forall b, showable h (XIBoolean b)
| sw_decimal : forall x, is_f64 x -> finite x -> showable h (XIDecimal x)
| sw_double : forall x, is_f64 x -> showable h (XIDouble x)
| sw_map : forall m, (forall k v, In (k, v) m -> showable h k /\ forall it, In it v -> showable h it) -> showable h (XIMap m)
| sw_array : forall a, (forall v it, In v a -> In it v -> showable h it) -> showable h (XIArray a).
(* atomic values; strings without quotation marks *)
Inductive plain_atom : xitem -> Prop :=
| pa_string : forall s, ~ In 34 s -> plain_atom (XIString s)
| pa_integer : forall z, plain_atom (XIInteger z)
| pa_boolean : forall b, plain_atom (XIBoolean b)
| pa_decimal : forall x, is_f64 x -> finite x -> plain_atom (XIDecimal x)
| pa_double : forall x, is_f64 x -> plain_atom (XIDouble x).

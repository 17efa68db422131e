(* Independent specification of XML character data: what text is safe to emit between tags and what
   a well-formed piece of character data (XML 1.0, productions [14], [66], [67], [68]) denotes. *)
Require Import Bool List NArith Ascii String.
From Verif Require Import Str.
Import ListNotations.
Open Scope N_scope.

(* the five predefined entities: name and the character it stands for *)
Definition predefined : list (str * char) :=
  [ (lit "lt", 60); (lit "gt", 62); (lit "amp", 38); (lit "quot", 34); (lit "apos", 39) ].

Definition special (c : char) : Prop := c = 60 \/ c = 62 \/ c = 38 \/ c = 34 \/ c = 39.

(* text in which the five special characters occur only as predefined entity references *)
Inductive safe_text : str -> Prop :=
| safe_nil : safe_text []
| safe_char : forall c s, ~ special c -> safe_text s -> safe_text (c :: s)
| safe_ref : forall name c s, In (name, c) predefined -> safe_text s ->
             safe_text (38 :: name ++ 59 :: s).

(* hexadecimal / decimal numerals *)
Definition hex_digit_value (c : char) : option N :=
  if (48 <=? c) && (c <=? 57) then Some (c - 48)
  else if (97 <=? c) && (c <=? 102) then Some (c - 97 + 10)
  else if (65 <=? c) && (c <=? 70) then Some (c - 65 + 10)
  else None.
Definition dec_digit_value (c : char) : option N :=
  if (48 <=? c) && (c <=? 57) then Some (c - 48) else None.

(* the number denoted by a digit string, most significant digit first *)
Inductive numeral (base : N) (digit : char -> option N) : str -> N -> Prop :=
| num_one : forall c d, digit c = Some d -> numeral base digit [c] d
| num_snoc : forall s v c d, numeral base digit s v -> digit c = Some d ->
             numeral base digit (s ++ [c]) (v * base + d).

Definition scalar_value (v : N) : Prop := v < 55296 \/ (57344 <= v /\ v < 1114112).

(* one item of character data and the character it denotes; [P] restricts the values that may be
   written as numeric references (XML 1.0: no restriction) *)
Inductive item (P : N -> Prop) : str -> char -> Prop :=
| item_plain : forall c, c <> 38 -> item P [c] c
| item_entity : forall name c, In (name, c) predefined -> item P (38 :: name ++ [59]) c
| item_hex : forall ds v, numeral 16 hex_digit_value ds v -> scalar_value v -> P v ->
             item P (38 :: 35 :: 120 :: ds ++ [59]) v
| item_dec : forall ds v, numeral 10 dec_digit_value ds v -> scalar_value v -> P v ->
             item P (38 :: 35 :: ds ++ [59]) v.

(* well-formed character data [s] denotes the string [d] *)
Inductive denotes (P : N -> Prop) : str -> str -> Prop :=
| den_nil : denotes P [] []
| den_cons : forall i c s d, item P i c -> denotes P s d -> denotes P (i ++ s) (c :: d).

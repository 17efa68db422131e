(* Specification of case conversion: what the Unicode standard says, with the tables of the standard
   (CaseTable.v) as given data. *)
Require Import List NArith.
Require Import Verif.Str Verif.CaseTable.
Import ListNotations.
Open Scope N_scope.

(* row (a, b, st, e) says: a, a+st, a+2st, ... up to b have the images e, e+st, e+2st, ... *)
Definition maps_to (t : list (N * N * N * N)) (c d : char) : Prop :=
  exists a b st e k, In (a, b, st, e) t /\ c = a + k * st /\ c <= b /\ d = e + k * st.
Definition in_table (t : list (N * N)) (c : char) : Prop := exists a b, In (a, b) t /\ a <= c <= b.

(* the upper case form of a character *)
Inductive upper_char_is : char -> str -> Prop :=
| uc_one : forall c d, maps_to upper_ranges c d -> upper_char_is c [d]
| uc_many : forall c w, In (c, w) upper_multi -> upper_char_is c w
| uc_same : forall c, (forall d, ~ maps_to upper_ranges c d) -> (forall w, ~ In (c, w) upper_multi) -> upper_char_is c [c].
(* the lower case form of a character on its own *)
Inductive lower_char_is : char -> str -> Prop :=
| lc_one : forall c d, maps_to lower_ranges c d -> lower_char_is c [d]
| lc_many : forall c w, In (c, w) lower_multi -> lower_char_is c w
| lc_same : forall c, (forall d, ~ maps_to lower_ranges c d) -> (forall w, ~ In (c, w) lower_multi) -> lower_char_is c [c].

Inductive upper_text : str -> str -> Prop :=
| ut_nil : upper_text [] []
| ut_cons : forall c w s r, upper_char_is c w -> upper_text s r -> upper_text (c :: s) (w ++ r).

(* A letter comes right before / right after, not counting marks that are ignored for case. *)
Definition letter_before (b : str) : Prop :=
  exists u c v, b = u ++ c :: v /\ in_table cased_ranges c /\ Forall (in_table ignorable_ranges) v.
Definition letter_after (s : str) : Prop :=
  exists u c v, s = u ++ c :: v /\ Forall (in_table ignorable_ranges) u /\ in_table cased_ranges c.
(* [lower_text b s r]: r is the lower case form of s standing after b.  Capital sigma, the one letter
   whose form depends on its place, becomes final sigma at the end of a word. *)
Inductive lower_text : str -> str -> str -> Prop :=
| lt_nil : forall b, lower_text b [] []
| lt_cons : forall b c w s r, c <> 931 -> lower_char_is c w -> lower_text (b ++ [c]) s r -> lower_text b (c :: s) (w ++ r)
| lt_final : forall b s r, letter_before b -> ~ letter_after s -> lower_text (b ++ [931]) s r -> lower_text b (931 :: s) (962 :: r)
| lt_inner : forall b s r, ~ (letter_before b /\ ~ letter_after s) -> lower_text (b ++ [931]) s r -> lower_text b (931 :: s) (963 :: r).

(* Four alphabets spelled out, independently of the tables: (small, capital). *)
Inductive case_pair : char -> char -> Prop :=
| cp_latin : forall c, 97 <= c <= 122 -> case_pair c (c - 32)
| cp_latin1 : forall c, 224 <= c <= 254 -> c <> 247 -> case_pair c (c - 32)
| cp_greek : forall c, 945 <= c <= 969 -> c <> 962 -> case_pair c (c - 32)
| cp_cyrillic : forall c, 1072 <= c <= 1103 -> case_pair c (c - 32)
| cp_cyrillic2 : forall c, 1104 <= c <= 1119 -> case_pair c (c - 80)
| cp_wide : forall c, 65345 <= c <= 65370 -> case_pair c (c - 32).
(* Characters of scripts without case: ASCII digits and signs, Hebrew to Thai, CJK, Hangul. *)
Definition caseless (c : char) : Prop :=
  c <= 64 \/ 91 <= c <= 96 \/ 123 <= c <= 180 \/ 1425 <= c <= 4255 \/ 11744 <= c <= 42559 \/ 44032 <= c <= 55203.

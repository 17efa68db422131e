(* Specification of integers in decimal notation. *)
Require Import List NArith ZArith.
From Verif Require Import Str.
Import ListNotations.
Open Scope N_scope.

(* the digits 0 to 9 are the characters 48 to 57 *)
Definition all_digits (s : str) : Prop := Forall (fun c => 48 <= c <= 57) s.
(* the number a row of digits stands for *)
Definition numeral (s : str) : N := fold_left (fun v c => 10 * v + (c - 48)) s 0.
(* the notation of a number: no superfluous zeros, "-" before negative ones *)
Definition canonical (s : str) : Prop := s = [48] \/ (exists c r, s = c :: r /\ c <> 48).
Definition notation_of (z : Z) (s : str) : Prop :=
  exists d, all_digits d /\ d <> [] /\ canonical d /\
    ((0 <= z)%Z /\ s = d /\ Z.of_N (numeral d) = z \/ (z < 0)%Z /\ s = 45 :: d /\ Z.of_N (numeral d) = (- z)%Z).
(* integer numerals a program may be given: white space around, an optional sign, digits (zeros allowed) *)
Inductive integer_text : str -> Z -> Prop :=
| it_plain : forall d, all_digits d -> d <> [] -> integer_text d (Z.of_N (numeral d))
| it_plus : forall d, all_digits d -> d <> [] -> integer_text (43 :: d) (Z.of_N (numeral d))
| it_minus : forall d, all_digits d -> d <> [] -> integer_text (45 :: d) (- Z.of_N (numeral d))
| it_before : forall c s z, In c [9; 10; 13; 32] -> integer_text s z -> integer_text (c :: s) z
| it_after : forall c s z, In c [9; 10; 13; 32] -> integer_text s z -> integer_text (s ++ [c]) z.

(* Specification of the text of a decimal or double number. *)
Require Import Bool List NArith ZArith Reals.
Require Import Coq.Floats.SpecFloat.
From Verif Require Import Str Num Item SpecNum SpecInt SpecOper SpecDbl SpecArith.
Import ListNotations.
Open Scope R_scope.

(* a plain notation (no exponent, no superfluous zeros) and the number m * 10^e it stands for *)
Inductive plain_digits : str -> N -> Z -> Prop :=
| pd_whole : forall d, whole_notation d -> plain_digits d (numeral d) 0
| pd_point : forall d f, whole_notation d -> fraction_notation f ->
    plain_digits (d ++ 46%N :: f) (numeral (d ++ f)) (- Z.of_nat (List.length f)).
Inductive plain_value : str -> bool -> N -> Z -> Prop :=
| pv_plus : forall s m e, plain_digits s m e -> plain_value s false m e
| pv_minus : forall s m e, plain_digits s m e -> plain_value (45%N :: s) true m e.

(* [s] is the text of the number [x]: of the decimal numbers that are rounded to x one with the fewest significant
   digits, and of those the nearest *)
Definition number_text (x : f64) (s : str) : Prop :=
  exists neg m e n, plain_value s neg m e /\ rounded (decimal_value neg m e) neg x /\ fits n m /\
    forall neg' m' e', correctly_rounded (decimal_value neg' m' e') x ->
      (forall n', fits n' m' -> (n <= n')%nat) /\
      (fits n m' -> decimal_value neg' m' e' = decimal_value neg m e \/
                    Rabs (val x - decimal_value neg m e) < Rabs (val x - decimal_value neg' m' e')).

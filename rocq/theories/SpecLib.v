(* Specification of further library functions: case of letters, rounding, sums. *)
Require Import Bool List NArith ZArith Ascii String Reals.
Require Import Coq.Floats.SpecFloat.
From Verif Require Import Str Lexer SpecExpr Num Item SpecNum SpecOper SpecInt SpecDbl SpecArith.
Import ListNotations.
Open Scope Z_scope.

(* ---- upper-case() and lower-case() of ASCII text ---- *)
Definition small_letter (c : char) : Prop := (97 <= c <= 122)%N.
Definition capital_letter (c : char) : Prop := (65 <= c <= 90)%N.
Inductive upper_of : char -> char -> Prop :=
| up_letter : forall c, small_letter c -> upper_of c (c - 32)%N
| up_other : forall c, ~ small_letter c -> upper_of c c.
Inductive lower_of : char -> char -> Prop :=
| lo_letter : forall c, capital_letter c -> lower_of c (c + 32)%N
| lo_other : forall c, ~ capital_letter c -> lower_of c c.

(* ---- floor, ceiling, round and abs of a double or decimal x: y ---- *)
(* a zero keeps the sign of the argument, as IEEE 754 has it; a rounded decimal is never -0 *)
Inductive rounding (double : bool) : str -> f64 -> f64 -> Prop :=
| ro_floor : forall x r y, is_f64 x -> floor_of x r -> rounded (IZR r) (negative x) y -> rounding double (lit "floor") x y
| ro_ceiling : forall x r y, is_f64 x -> ceiling_of x r -> rounded (IZR r) (negative x) y -> rounding double (lit "ceiling") x y
| ro_round : forall x r y, moderate_f64 x ->                                (* restricted: see [moderate_f64] *)
    nearest x r -> rounded (IZR r) (double && negative x) y -> rounding double (lit "round") x y
| ro_abs : forall x, rounding double (lit "abs") x (SFabs x)
(* infinities and NaN *)
| ro_other : forall n x, double = true -> In n [lit "floor"; lit "ceiling"; lit "round"] -> ~ finite x -> rounding double n x x.
(* the integer towards zero *)
Definition truncates (x : f64) (r : Z) : Prop := if negative x then ceiling_of x r else floor_of x r.

(* ---- sums ---- *)
Inductive adds : xitem -> xitem -> xitem -> Prop :=
| ad_integers : forall a b, is_i64 (a + b) -> adds (XIInteger a) (XIInteger b) (XIInteger (a + b))
| ad_numbers : forall x y z, number_op O_add x y z -> adds x y z.
(* [sum_from x l z]: x + l1 + l2 + ... = z, from left to right *)
Inductive sum_from : xitem -> xseq -> xitem -> Prop :=
| sf_nil : forall x, sum_from x [] x
| sf_cons : forall x y z l r, adds x y z -> sum_from z l r -> sum_from x (y :: l) r.

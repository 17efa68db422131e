(* Specification of double arithmetic: the value of a double as a real number and correct rounding. *)
Require Import Bool List NArith ZArith Reals.
Require Import Coq.Floats.SpecFloat.
From Verif Require Import Str Num Item SpecNum SpecInt SpecOper.
Import ListNotations.
Open Scope R_scope.

Definition finite (x : f64) : Prop := (exists s, x = S754_zero s) \/ (exists s m e, x = S754_finite s m e).
(* (-1)^s * m * 2^e *)
Definition val (x : f64) : R :=
  match x with
  | S754_finite s m e => IZR (if s then Z.neg m else Z.pos m) * powerRZ 2 e
  | _ => 0
  end.
Definition even_mantissa (x : f64) : Prop :=
  match x with S754_finite _ m _ => Z.even (Z.pos m) = true | _ => True end.
(* half way between the greatest double and 2^1024: from here on a value counts as infinite *)
Definition too_big : R := powerRZ 2 1024 - powerRZ 2 970.
(* [x] is the double the real number [v] is rounded to: the nearest one, of two that are equally near the one with
   the even mantissa; infinity if the value is too big (IEEE 754, roundTiesToEven) *)
Definition correctly_rounded (v : R) (x : f64) : Prop :=
  is_f64 x /\
  ((finite x /\ Rabs v < too_big /\
    forall y, is_f64 y -> finite y ->
      Rabs (v - val x) < Rabs (v - val y) \/ (Rabs (v - val x) = Rabs (v - val y) /\ (val x = val y \/ even_mantissa x)))
   \/ (too_big <= v /\ x = S754_infinity false)
   \/ (v <= - too_big /\ x = S754_infinity true)).

(* ---- decimal notation: (-1)^neg * m * 10^e ---- *)
Definition decimal_value (neg : bool) (m : N) (e : Z) : R := (if neg then - IZR (Z.of_N m) else IZR (Z.of_N m)) * powerRZ 10 e.
(* digits, with or without a point *)
Inductive mantissa_text : str -> N -> Z -> Prop :=
| mt_whole : forall d, all_digits d -> d <> [] -> mantissa_text d (numeral d) 0
| mt_point : forall d f, all_digits d -> all_digits f -> d ++ f <> [] ->
    mantissa_text (d ++ 46%N :: f) (numeral (d ++ f)) (- Z.of_nat (List.length f)).
Inductive exponent_text : str -> Z -> Prop :=
| et_plain : forall d, all_digits d -> d <> [] -> exponent_text d (Z.of_N (numeral d))
| et_plus : forall d, all_digits d -> d <> [] -> exponent_text (43%N :: d) (Z.of_N (numeral d))
| et_minus : forall d, all_digits d -> d <> [] -> exponent_text (45%N :: d) (- Z.of_N (numeral d)).
Inductive unsigned_text : str -> N -> Z -> Prop :=
| ut_mantissa : forall s m e, mantissa_text s m e -> unsigned_text s m e
| ut_exponent : forall s m e c t k, mantissa_text s m e -> c = 101%N \/ c = 69%N -> exponent_text t k ->
    unsigned_text (s ++ c :: t) m (e + k).
(* white space around, an optional sign *)
Inductive decimal_text : str -> bool -> N -> Z -> Prop :=
| dt_plain : forall s m e, unsigned_text s m e -> decimal_text s false m e
| dt_plus : forall s m e, unsigned_text s m e -> decimal_text (43%N :: s) false m e
| dt_minus : forall s m e, unsigned_text s m e -> decimal_text (45%N :: s) true m e
| dt_before : forall c s b m e, In c [9; 10; 13; 32]%N -> decimal_text s b m e -> decimal_text (c :: s) b m e
| dt_after : forall c s b m e, In c [9; 10; 13; 32]%N -> decimal_text s b m e -> decimal_text (s ++ [c]) b m e.

(* ---- numbers as operands: an integer counts as the double nearest to it ---- *)
Definition operand (it : xitem) (x : f64) : Prop :=
  match it with
  | XIInteger z => correctly_rounded (IZR z) x
  | XIDecimal f | XIDouble f => x = f
  | _ => False
  end.
(* a result of rank 1 is a decimal, of rank 2 a double *)
Definition result (rank : nat) (x : f64) (it : xitem) : Prop :=
  (rank = 1%nat /\ it = XIDecimal x) \/ (rank = 2%nat /\ it = XIDouble x).

(* ---- the order of the doubles, without NaN ---- *)
Definition same_number (x y : f64) : Prop :=
  (finite x /\ finite y /\ val x = val y) \/ (exists s, x = S754_infinity s /\ y = S754_infinity s).
Definition less_number (x y : f64) : Prop :=
  (finite x /\ finite y /\ val x < val y) \/
  (x = S754_infinity true /\ (finite y \/ y = S754_infinity false)) \/
  (y = S754_infinity false /\ (finite x \/ x = S754_infinity true)).

Definition rel_number (op : cmpop) (a b : f64) : Prop :=
  match op with
  | CEq => same_number a b | CNe => ~ same_number a b | CLt => less_number a b | CLe => less_number a b \/ same_number a b
  | CGt => less_number b a | CGe => less_number b a \/ same_number a b
  end.

(* ---- other texts number() knows: an optional sign and inf, infinity or nan in any case ---- *)
Definition letter_of (small c : char) : Prop := c = small \/ (c = small - 32)%N.
Definition word_of (w s : str) : Prop := Forall2 letter_of w s.
Inductive bare_word : str -> f64 -> Prop :=
| bw_inf : forall s, word_of [105; 110; 102]%N s -> bare_word s (S754_infinity false)
| bw_infinity : forall s, word_of [105; 110; 102; 105; 110; 105; 116; 121]%N s -> bare_word s (S754_infinity false)
| bw_nan : forall s, word_of [110; 97; 110]%N s -> bare_word s S754_nan.
Inductive number_word : str -> f64 -> Prop :=
| nw_bare : forall s x, bare_word s x -> number_word s x
| nw_plus : forall s x, bare_word s x -> number_word (43%N :: s) x
| nw_minus : forall s x, bare_word s x -> number_word (45%N :: s) (SFopp x).
(* white space of Unicode *)
Definition white (c : char) : Prop :=
  (9 <= c <= 13 \/ c = 32 \/ c = 133 \/ c = 160 \/ c = 5760 \/ 8192 <= c <= 8202 \/ c = 8232 \/ c = 8233 \/ c = 8239 \/
   c = 8287 \/ c = 12288)%N.

(* ---- plain decimal notation: an optional minus sign, digits without superfluous zeros in front, and possibly a
   point and more digits, the last of them not zero ---- *)
Definition whole_notation (d : str) : Prop := all_digits d /\ (d = [48%N] \/ exists c r, d = c :: r /\ c <> 48%N).
Definition fraction_notation (f : str) : Prop := all_digits f /\ exists r c, f = r ++ [c] /\ c <> 48%N.
Inductive plain_notation : str -> Prop :=
| pn_whole : forall d, whole_notation d -> plain_notation d
| pn_whole_minus : forall d, whole_notation d -> plain_notation (45%N :: d)
| pn_point : forall d f, whole_notation d -> fraction_notation f -> plain_notation (d ++ 46%N :: f)
| pn_point_minus : forall d f, whole_notation d -> fraction_notation f -> plain_notation (45%N :: d ++ 46%N :: f).

(* m can be written with n significant digits *)
Definition fits (n : nat) (m : N) : Prop := exists c j, m = (c * 10 ^ j)%N /\ (c < 10 ^ N.of_nat n)%N.

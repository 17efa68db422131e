(* Specification of arithmetic on numbers that are not all integers, bit for bit (IEEE 754 with the numeric type promotion
   of XPath), and of their comparison. *)
Require Import Bool List NArith ZArith Reals.
Require Import Coq.Floats.SpecFloat.
From Verif Require Import Str Num Item SpecNum SpecInt SpecOper SpecExpr SpecDbl.
Import ListNotations.
Open Scope R_scope.

Definition negative (x : f64) : bool :=
  match x with S754_zero s | S754_infinity s | S754_finite s _ _ => s | S754_nan => false end.
(* [x] is the double [v] is rounded to; it has the sign of [v], and if [v] is zero the sign [zs] *)
Definition rounded (v : R) (zs : bool) (x : f64) : Prop :=
  correctly_rounded v x /\ (v < 0 -> negative x = true) /\ (0 < v -> negative x = false) /\ (v = 0 -> negative x = zs).

(* the number an item stands for in an operation with a double or a decimal *)
Inductive number_of : xitem -> f64 -> Prop :=
| no_integer : forall z x, rounded (IZR z) false x -> number_of (XIInteger z) x
| no_decimal : forall x, is_f64 x -> finite x -> number_of (XIDecimal x) x
| no_double : forall x, is_f64 x -> number_of (XIDouble x) x.
(* integer < decimal < double *)
Definition num_rank (it : xitem) : nat := match it with XIInteger _ => 0 | XIDecimal _ => 1 | _ => 2 end.

(* ---- finite operands: the exact result, rounded ---- *)
Inductive exact_op : binop -> R -> R -> R -> Prop :=
| eo_add : forall a b, exact_op O_add a b (a + b)
| eo_sub : forall a b, exact_op O_sub a b (a - b)
| eo_mul : forall a b, exact_op O_mul a b (a * b)
| eo_div : forall a b, b <> 0 -> exact_op O_div a b (a / b).
(* the sign of a result that is exactly zero *)
Definition zero_sign (o : binop) (a b : f64) : bool :=
  match o with
  | O_add => negative a && negative b
  | O_sub => negative a && negb (negative b)
  | _ => xorb (negative a) (negative b)
  end.
(* ---- infinities, NaN, division by zero ---- *)
Inductive special_op : binop -> f64 -> f64 -> f64 -> Prop :=
| so_nan_l : forall o b, special_op o S754_nan b S754_nan
| so_nan_r : forall o a, special_op o a S754_nan S754_nan
| so_add_inf_l : forall s b, finite b -> special_op O_add (S754_infinity s) b (S754_infinity s)
| so_add_inf_r : forall s a, finite a -> special_op O_add a (S754_infinity s) (S754_infinity s)
| so_add_inf : forall s, special_op O_add (S754_infinity s) (S754_infinity s) (S754_infinity s)
| so_add_nan : forall s, special_op O_add (S754_infinity s) (S754_infinity (negb s)) S754_nan
| so_sub_inf_l : forall s b, finite b -> special_op O_sub (S754_infinity s) b (S754_infinity s)
| so_sub_inf_r : forall s a, finite a -> special_op O_sub a (S754_infinity s) (S754_infinity (negb s))
| so_sub_inf : forall s, special_op O_sub (S754_infinity s) (S754_infinity (negb s)) (S754_infinity s)
| so_sub_nan : forall s, special_op O_sub (S754_infinity s) (S754_infinity s) S754_nan
| so_mul_inf : forall s t, special_op O_mul (S754_infinity s) (S754_infinity t) (S754_infinity (xorb s t))
| so_mul_inf_l : forall s t m e, special_op O_mul (S754_infinity s) (S754_finite t m e) (S754_infinity (xorb s t))
| so_mul_inf_r : forall s t m e, special_op O_mul (S754_finite t m e) (S754_infinity s) (S754_infinity (xorb t s))
| so_mul_nan_l : forall s t, special_op O_mul (S754_infinity s) (S754_zero t) S754_nan
| so_mul_nan_r : forall s t, special_op O_mul (S754_zero s) (S754_infinity t) S754_nan
| so_div_zero : forall s m e t, special_op O_div (S754_finite s m e) (S754_zero t) (S754_infinity (xorb s t))
| so_div_zero_zero : forall s t, special_op O_div (S754_zero s) (S754_zero t) S754_nan
| so_div_inf_zero : forall s t, special_op O_div (S754_infinity s) (S754_zero t) (S754_infinity (xorb s t))
| so_div_inf_l : forall s t m e, special_op O_div (S754_infinity s) (S754_finite t m e) (S754_infinity (xorb s t))
| so_div_inf_r : forall s t m e, special_op O_div (S754_finite s m e) (S754_infinity t) (S754_zero (xorb s t))
| so_div_zero_inf : forall s t, special_op O_div (S754_zero s) (S754_infinity t) (S754_zero (xorb s t))
| so_div_nan : forall s t, special_op O_div (S754_infinity s) (S754_infinity t) S754_nan
| so_mod_zero : forall a s, special_op O_mod a (S754_zero s) S754_nan
| so_mod_inf_l : forall s b, special_op O_mod (S754_infinity s) b S754_nan
| so_mod_inf_r : forall a s, finite a -> special_op O_mod a (S754_infinity s) a.
Definition arithmetic (o : binop) : Prop := In o [O_add; O_sub; O_mul; O_div; O_mod].
Inductive ieee_op : binop -> f64 -> f64 -> f64 -> Prop :=
| fo_exact : forall o a b v d, finite a -> finite b -> exact_op o (val a) (val b) v -> rounded v (zero_sign o a b) d -> ieee_op o a b d
(* a - q * b, nearer to zero than b, with the sign of a *)
| fo_mod : forall a b q d, finite a -> finite b -> val b <> 0 -> is_f64 d -> finite d -> val d = val a - IZR q * val b ->
    Rabs (val d) < Rabs (val b) -> negative d = negative a -> ieee_op O_mod a b d
| fo_special : forall o a b d, arithmetic o -> special_op o a b d -> ieee_op o a b d.

(* [x o y] is [it]: not both operands are integers, or they are divided; the result is a double if an operand is one, otherwise a
   decimal.  The operations on decimals are those of doubles (XPath asks for more digits), without infinities. *)
Inductive number_op (o : binop) (x y : xitem) : xitem -> Prop :=
| op_double : forall a b d, number_of x a -> number_of y b -> Nat.max (num_rank x) (num_rank y) = 2%nat ->
    (num_rank y <> 2%nat -> o = O_div \/ o = O_mod -> val b <> 0) ->        (* an integer or decimal zero is no divisor *)
    ieee_op o a b d -> number_op o x y (XIDouble d)
| op_decimal : forall a b d, number_of x a -> number_of y b -> Nat.max (num_rank x) (num_rank y) = 1%nat -> finite d ->
    (o = O_div \/ o = O_mod -> val b <> 0) -> ieee_op o a b d -> number_op o x y (XIDecimal d)
| op_quotient : forall m n a b d, x = XIInteger m -> y = XIInteger n -> number_of x a -> number_of y b -> o = O_div -> val b <> 0 -> finite d ->
    ieee_op O_div a b d -> number_op o x y (XIDecimal d).

(* ---- comparison ---- *)
Inductive number_rel (op : cmpop) (x y : xitem) (t : bool) : Prop :=
| nr_numbers : forall a b, number_of x a -> number_of y b -> (0 < Nat.max (num_rank x) (num_rank y))%nat -> a <> S754_nan -> b <> S754_nan ->
    (t = true <-> rel_number op a b) -> number_rel op x y t
(* NaN differs from everything (le and ge are left out: the program takes them for true) *)
| nr_nan : forall a b, number_of x a -> number_of y b -> a = S754_nan \/ b = S754_nan -> op <> CLe -> op <> CGe ->
    (t = true <-> op = CNe) -> number_rel op x y t.

(* Specification of numbers: the value of an f64, XPath rounding, selection by position. *)
Require Import Bool List NArith ZArith.
Require Import Coq.Floats.SpecFloat.
From Verif Require Import Str Num Item.
Import ListNotations.
Open Scope Z_scope.

(* the representations of the model that are binary64 numbers *)
Definition is_f64 (x : spec_float) : Prop := valid_binary 53 1024 x = true.
(* lo <= v < hi, half of these integers, where v is the value of the number x = (-1)^s * m * 2^e:
   [half_between lo x hi] is lo/2 <= v < hi/2 *)
Definition half_between (lo : Z) (x : spec_float) (hi : Z) : Prop :=
  match x with
  | S754_zero _ => lo <= 0 < hi
  | S754_finite s m e =>
      let n := if s then Z.neg m else Z.pos m in
      if 0 <=? e then lo <= 2 * n * 2 ^ e < hi else lo * 2 ^ (- e) <= 2 * n < hi * 2 ^ (- e)
  | _ => False
  end.
(* XPath rounding: the nearest integer, a tie goes up: r - 1/2 <= x < r + 1/2 *)
Definition nearest (x : spec_float) (r : Z) : Prop := half_between (2 * r - 1) x (2 * r + 1).
(* floor: r <= x < r + 1 *)
Definition floor_of (x : spec_float) (r : Z) : Prop := half_between (2 * r) x (2 * r + 2).
(* ceiling: r - 1 < x <= r *)
Definition ceiling_of (x : spec_float) (r : Z) : Prop := floor_of (SFopp x) (- r).
(* the number is the integer r *)
Definition has_value (x : spec_float) (r : Z) : Prop :=
  match x with
  | S754_zero _ => r = 0
  | S754_finite s m e =>
      let n := if s then Z.neg m else Z.pos m in if 0 <=? e then r = n * 2 ^ e else n = r * 2 ^ (- e)
  | _ => False
  end.

(* the numeric items, and the integer an item rounds to *)
Definition rounds (it : xitem) (r : Z) : Prop :=
  match it with
  | XIInteger z => r = z
  | XIDecimal x | XIDouble x => nearest x r
  | _ => False
  end.
(* numbers strictly between -2^52 and 2^52, except 0.49999999999999994 *)
Definition moderate_f64 (x : spec_float) : Prop :=
  is_f64 x /\ half_between (- 2 ^ 53 + 1) x (2 ^ 53) /\ x <> S754_finite false 9007199254740991 (-54).
Definition moderate (it : xitem) : Prop :=
  match it with
  | XIInteger z => - 2 ^ 52 < z < 2 ^ 52
  | XIDecimal x | XIDouble x => moderate_f64 x
  | _ => False
  end.
Definition double_or_decimal (it : xitem) (x : spec_float) : Prop := it = XIDouble x \/ it = XIDecimal x.

(* the members of l whose position (counted from p) satisfies the condition *)
Fixpoint positions_from {A} (p : Z) (keep : Z -> bool) (l : list A) : list A :=
  match l with
  | [] => []
  | x :: r => if keep p then x :: positions_from (p + 1) keep r else positions_from (p + 1) keep r
  end.
Definition at_positions {A} (keep : Z -> bool) (l : list A) : list A := positions_from 1 keep l.

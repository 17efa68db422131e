(* Numbers: Rust i64 and f64, their conversions from and to text.

   - An i64 is a [Z] inside [i64_min, i64_max]; every arithmetic operation of the program goes through
     [chk], which is a panic outside that range (a debug build; a release build would wrap).
   - An f64 is a [spec_float] of the standard library (IEEE 754 binary64: 53 bits of precision, maximal
     exponent 1024), with the library's correctly rounded operations.  NaN payloads are not modelled.
   - `str::parse::<f64>` and the float formatting of Rust's core library are modelled from their
     documentation: correct rounding to nearest-even; the shortest decimal that reads back as the same
     number, the closest one if there are several. *)
Require Import Bool List NArith ZArith Ascii String.
Require Decimal DecimalN.
Require Import Coq.Floats.SpecFloat.
From Verif Require Import Str.
Import ListNotations.
Open Scope Z_scope.

(* ------------------------------------------------------------------ i64 *)
Definition i64_min : Z := - 2 ^ 63.
Definition i64_max : Z := 2 ^ 63 - 1.
Definition in_i64 (z : Z) : bool := (i64_min <=? z) && (z <=? i64_max).
(* overflow check of a debug build *)
Definition chk (z : Z) : res Z := if in_i64 z then Ok z else Panic.

(* ------------------------------------------------------------------ f64 *)
Notation f64 := spec_float (only parsing).
Definition prec64 : Z := 53.
Definition emax64 : Z := 1024.

Definition fadd : f64 -> f64 -> f64 := SFadd prec64 emax64.
Definition fsub : f64 -> f64 -> f64 := SFsub prec64 emax64.
Definition fmul : f64 -> f64 -> f64 := SFmul prec64 emax64.
Definition fdiv : f64 -> f64 -> f64 := SFdiv prec64 emax64.
Definition fneg : f64 -> f64 := SFopp.
Definition fabs : f64 -> f64 := SFabs.
Definition feqb : f64 -> f64 -> bool := SFeqb.
Definition fltb : f64 -> f64 -> bool := SFltb.
Definition fgtb (a b : f64) : bool := SFltb b a.
Definition fleb : f64 -> f64 -> bool := SFleb.

Definition f_of_Z (z : Z) : f64 := binary_normalize prec64 emax64 z 0 false.
Definition f_zero : f64 := S754_zero false.
Definition f_negzero : f64 := S754_zero true.
Definition f_nan : f64 := S754_nan.
Definition f_inf : f64 := S754_infinity false.
Definition f_neginf : f64 := S754_infinity true.
Definition f_one : f64 := f_of_Z 1.
Definition f_half : f64 := binary_normalize prec64 emax64 1 (-1) false.

Definition is_nan (x : f64) : bool := match x with S754_nan => true | _ => false end.
Definition is_infinite (x : f64) : bool := match x with S754_infinity _ => true | _ => false end.
Definition is_finite (x : f64) : bool := match x with S754_finite _ _ _ | S754_zero _ => true | _ => false end.
(* f64::is_sign_negative; the sign bit of NaN is taken to be 0 *)
Definition is_sign_negative (x : f64) : bool :=
  match x with
  | S754_zero s | S754_infinity s | S754_finite s _ _ => s
  | S754_nan => false
  end.

Definition signed (s : bool) (m : Z) : Z := if s then - m else m.

(* f64::floor / f64::ceil *)
Definition ffloor (x : f64) : f64 :=
  match x with
  | S754_finite s m e =>
      if 0 <=? e then x
      else binary_normalize prec64 emax64 (signed s (Zpos m) / 2 ^ (- e)) 0 s
  | _ => x
  end.
Definition fceil (x : f64) : f64 :=
  match x with
  | S754_finite s m e =>
      if 0 <=? e then x
      else binary_normalize prec64 emax64 (- (- signed s (Zpos m) / 2 ^ (- e))) 0 s
  | _ => x
  end.

(* `f as i64` (src/xpath_impl/xitem.rs 31-34: f64_to_i64): truncation toward zero, saturating, NaN is 0
   (the semantics fixed in Rust 1.45; before that an out-of-range cast was undefined) *)
Definition clamp_i64 (z : Z) : Z := Z.max i64_min (Z.min i64_max z).
(* xitem.rs 31-34 *)
Definition f64_to_i64 (x : f64) : Z :=
  match x with
  | S754_finite s m e =>
      clamp_i64 (signed s (if 0 <=? e then Zpos m * 2 ^ e else Zpos m / 2 ^ (- e)))
  | S754_zero _ => 0
  | S754_infinity false => i64_max
  | S754_infinity true => i64_min
  | S754_nan => 0
  end.
(* xitem.rs 36-38: i64_to_f64, `n as f64` (round to nearest even) *)
Definition i64_to_f64 (n : Z) : f64 := f_of_Z n.

(* `a.rem(b)` on f64, C's fmod: exact remainder of the division truncated toward zero *)
Definition frem (x y : f64) : f64 :=
  match x, y with
  | S754_nan, _ | _, S754_nan | S754_infinity _, _ | _, S754_zero _ => S754_nan
  | _, S754_infinity _ => x
  | S754_zero _, S754_finite _ _ _ => x
  | S754_finite s m1 e1, S754_finite _ m2 e2 =>
      let e := Z.min e1 e2 in
      let r := (Zpos m1 * 2 ^ (e1 - e)) mod (Zpos m2 * 2 ^ (e2 - e)) in
      binary_normalize prec64 emax64 (signed s r) e s
  end.

(* ------------------------------------------------------------------ text *)
(* char::is_whitespace: the Unicode White_Space property *)
Definition is_white (c : char) : bool :=
  ((9 <=? c) && (c <=? 13) || (c =? 32) || (c =? 133) || (c =? 160) || (c =? 5760)
   || ((8192 <=? c) && (c <=? 8202)) || (c =? 8232) || (c =? 8233) || (c =? 8239) || (c =? 8287)
   || (c =? 12288))%N.
(* str::trim *)
Fixpoint trim_left (s : str) : str :=
  match s with
  | [] => []
  | c :: s' => if is_white c then trim_left s' else s
  end.
Definition trim (s : str) : str := rev (trim_left (rev (trim_left s))).

Definition digit_of (c : char) : option N :=
  if ((48 <=? c) && (c <=? 57))%N then Some (c - 48)%N else None.

(* decimal digits of a natural number *)
Fixpoint uint_str (u : Decimal.uint) : str :=
  match u with
  | Decimal.Nil => []
  | Decimal.D0 u => 48%N :: uint_str u | Decimal.D1 u => 49%N :: uint_str u | Decimal.D2 u => 50%N :: uint_str u
  | Decimal.D3 u => 51%N :: uint_str u | Decimal.D4 u => 52%N :: uint_str u | Decimal.D5 u => 53%N :: uint_str u
  | Decimal.D6 u => 54%N :: uint_str u | Decimal.D7 u => 55%N :: uint_str u | Decimal.D8 u => 56%N :: uint_str u
  | Decimal.D9 u => 57%N :: uint_str u
  end.
Definition fmt_N (n : N) : str := uint_str (N.to_uint n).
(* format!("{}", n) for an i64 *)
Definition fmt_i64 (z : Z) : str := if z <? 0 then 45%N :: fmt_N (Z.to_N (- z)) else fmt_N (Z.to_N z).

(* reads as many digits as there are: value, number of digits, rest *)
Fixpoint read_digits (acc : N) (cnt : nat) (s : str) : N * nat * str :=
  match s with
  | [] => (acc, cnt, s)
  | c :: s' => match digit_of c with
               | Some d => read_digits (acc * 10 + d)%N (S cnt) s'
               | None => (acc, cnt, s)
               end
  end.
(* an optional sign *)
Definition read_sign (s : str) : bool * str :=
  match s with
  | c :: s' => if (c =? 45)%N then (true, s') else if (c =? 43)%N then (false, s') else (false, s)
  | [] => (false, [])
  end.

(* i64::from_str: optional sign, digits, in range *)
Definition parse_i64 (s : str) : option Z :=
  let (neg, r) := read_sign s in
  let '(v, cnt, rest) := read_digits 0 0 r in
  match cnt, rest with
  | O, _ => None
  | _, _ :: _ => None
  | _, [] => let z := signed neg (Z.of_N v) in if in_i64 z then Some z else None
  end.
(* xitem.rs 27-29, eval.rs 37-39: atoi *)
Definition atoi (s : str) : Z := match parse_i64 (trim s) with Some z => z | None => 0 end.

(* the f64 nearest to (-1)^s * m * 10^e *)
Definition dec_to_f64 (s : bool) (m : N) (e : Z) : f64 :=
  match m with
  | N0 => S754_zero s
  | Npos p =>
      if 0 <=? e then binary_normalize prec64 emax64 (signed s (Zpos p * 10 ^ e)) 0 s
      else let '(q, e', l) := SFdiv_core_binary prec64 emax64 (Zpos p) 0 (10 ^ (- e)) 0 in
           binary_round_aux prec64 emax64 s q e' l
  end.

Definition lower_ascii (c : char) : char := if ((65 <=? c) && (c <=? 90))%N then (c + 32)%N else c.

(* f64::from_str: [sign] (inf | infinity | nan | digits [. digits] [exp] | . digits [exp]), the words in
   any case (Rust 1.55 and later) *)
Definition parse_exp (s : str) : option Z :=
  match s with
  | [] => Some 0
  | c :: s' =>
      if ((c =? 101) || (c =? 69))%N then
        let (neg, r) := read_sign s' in
        let '(v, cnt, rest) := read_digits 0 0 r in
        match cnt, rest with
        | S _, [] => Some (signed neg (Z.of_N v))
        | _, _ => None
        end
      else None
  end.
Definition parse_f64 (s : str) : option f64 :=
  let (neg, r) := read_sign s in
  let w := map lower_ascii r in
  if str_eqb w (lit "inf") || str_eqb w (lit "infinity") then Some (S754_infinity neg)
  else if str_eqb w (lit "nan") then Some S754_nan
  else
    let '(v1, n1, r1) := read_digits 0 0 r in
    let '(v2, n2, r2) :=
      match r1 with
      | c :: r' => if (c =? 46)%N then read_digits v1 0 r' else (v1, O, r1)
      | [] => (v1, O, r1)
      end in
    match (n1 + n2)%nat with
    | O => None
    | S _ => match parse_exp r2 with
             | Some e => Some (dec_to_f64 neg v2 (e - Z.of_nat n2))
             | None => None
             end
    end.
(* xitem.rs 23-25, eval.rs 33-35: atof *)
Definition atof (s : str) : f64 := match parse_f64 (trim s) with Some x => x | None => S754_nan end.

(* xitem.rs 40-50: int_to_dec, dec_to_dbl, int_to_dbl *)
Definition int_to_dec (n : Z) : f64 := atof (fmt_i64 n ++ lit ".0").
(* xitem.rs 44-46 *)
Definition dec_to_dbl (x : f64) : f64 := x.
(* xitem.rs 48-50 *)
Definition int_to_dbl (n : Z) : f64 := atof (fmt_i64 n ++ lit ".0").

(* ---- formatting of finite numbers ---- *)
(* the fraction num/den = m * 2^e *)
Definition frac_of (m : positive) (e : Z) : Z * Z :=
  if 0 <=? e then (Zpos m * 2 ^ e, 1) else (Zpos m, 2 ^ (- e)).

(* the exponent k with 10^k <= num/den < 10^(k+1) *)
Fixpoint dec_exp_down (fuel : nat) (num den : Z) (j : Z) : Z :=
  match fuel with
  | O => - j
  | S f => if den <=? num then - j else dec_exp_down f (num * 10) den (j + 1)
  end.
Definition dec_exp (num den : Z) : Z :=
  if den <=? num then Z.of_nat (List.length (fmt_N (Z.to_N (num / den)))) - 1
  else dec_exp_down 400 num den 0.

(* try n significant digits: the two neighbours of the value with n digits, those that read back as the
   same number, the closer one first (the larger one in a tie) *)
Definition try_digits (x : f64) (num den : Z) (k : Z) : option Z :=
  let (n', d') := if 0 <=? k then (num, den * 10 ^ k) else (num * 10 ^ (- k), den) in
  let q := n' / d' in
  let ok c := feqb (dec_to_f64 false (Z.to_N c) k) x in
  let up := ok (q + 1) in
  if ok q then if up && (d' <=? 2 * (n' - q * d')) then Some (q + 1) else Some q
  else if up then Some (q + 1) else None.
Fixpoint shortest_loop (fuel : nat) (x : f64) (num den : Z) (k : Z) : Z * Z :=
  match fuel with
  | O => (num / den, 0)
  | S f => match try_digits x num den k with
           | Some d => (d, k)
           | None => shortest_loop f x num den (k - 1)
           end
  end.
(* trailing zeros of the digits are moved into the exponent *)
Fixpoint strip_zeros (fuel : nat) (d k : Z) : Z * Z :=
  match fuel with
  | O => (d, k)
  | S f => if (d mod 10 =? 0) && (0 <? d) then strip_zeros f (d / 10) (k + 1) else (d, k)
  end.
(* digits and exponent: the value is digits * 10^exponent *)
Definition shortest (m : positive) (e : Z) : Z * Z :=
  let (num, den) := frac_of m e in
  let k := dec_exp num den in
  let (d, k') := shortest_loop 17 (S754_finite false m e) num den k in
  strip_zeros 20 d k'.

Definition sign_str (s : bool) : str := if s then lit "-" else [].
(* format!("{}", x): positional, no exponent *)
Definition fmt_f64 (x : f64) : str :=
  match x with
  | S754_nan => lit "NaN"
  | S754_infinity s => sign_str s ++ lit "inf"
  | S754_zero s => sign_str s ++ lit "0"
  | S754_finite s m e =>
      let (d, k) := shortest m e in
      let ds := fmt_N (Z.to_N d) in
      let n := Z.of_nat (List.length ds) in
      sign_str s ++
      (if 0 <=? k then ds ++ repeat 48%N (Z.to_nat k)
       else if 0 <? n + k
            then firstn (Z.to_nat (n + k)) ds ++ lit "." ++ skipn (Z.to_nat (n + k)) ds
            else lit "0." ++ repeat 48%N (Z.to_nat (- (n + k))) ++ ds)
  end.
(* format!("{:e}", x) *)
Definition fmt_f64_exp (x : f64) : str :=
  match x with
  | S754_nan => lit "NaN"
  | S754_infinity s => sign_str s ++ lit "inf"
  | S754_zero s => sign_str s ++ lit "0e0"
  | S754_finite s m e =>
      let (d, k) := shortest m e in
      let ds := fmt_N (Z.to_N d) in
      let n := Z.of_nat (List.length ds) in
      sign_str s ++
      match ds with
      | [] => []
      | [a] => [a]
      | a :: r => a :: lit "." ++ r
      end ++ lit "e" ++ fmt_i64 (k + n - 1)
  end.

(* Model of src/xpath_impl/xitem.rs, xsequence.rs and oper.rs: items, sequences and operators.

   - A sequence is a list of items.
   - The error messages (which format the items) are not modelled, only the kind of the error.
   - Rust's `<` on String compares UTF-8 bytes, which is the order of the code points. *)
Require Import Bool List NArith ZArith Ascii String.
Require Import Coq.Floats.SpecFloat.
From Verif Require Import Str Chars Sax Dom Axes Lexer Parser Num.
Import ListNotations.
Open Scope Z_scope.

(* xitem.rs 58-129, 141-143, 186-188; xsequence.rs 26-28 *)
Inductive xitem : Type :=
| XIFun (x : xnode)
| XIMap (m : list (xitem * list xitem))
| XIArray (a : list (list xitem))
| XINode (i : nat)
| XIString (s : str)
| XIInteger (z : Z)
| XIDecimal (f : f64)
| XIDouble (f : f64)
| XIBoolean (b : bool).
Notation xseq := (list xitem) (only parsing).

(* xitem.rs 295-312: string_value.  The fuel bounds the depth; [S (length h)] is more than the depth of any
   tree in [h] (ItemFacts.string_value_unfold). *)
Fixpoint string_value_fuel (fuel : nat) (h : heap) (i : nat) : str :=
  match fuel with
  | O => []
  | S fuel' =>
      let n := get h i in
      match n_type n with
      | DocumentRoot | Element => flat_map (string_value_fuel fuel' h) (n_children n)
      | Text | Attribute | Comment => n_value n
      | XMLDecl | Instruction => n_name n ++ lit " " ++ n_value n
      | Directive => []
      end
  end.
(* xitem.rs 295-312 *)
Definition string_value (h : heap) (i : nat) : str := string_value_fuel (S (List.length h)) h i.

(* xitem.rs 340-370: typed_value *)
Fixpoint typed_value_fuel (fuel : nat) (h : heap) (i : nat) : str :=
  match fuel with
  | O => []
  | S fuel' =>
      let n := get h i in
      match n_type n with
      | DocumentRoot | Element => flat_map (typed_value_fuel fuel' h) (n_children n)
      | Text | Attribute | Comment => n_value n
      | Instruction => n_name n ++ lit " " ++ n_value n
      | XMLDecl | Directive => []
      end
  end.
(* xitem.rs 338-368 *)
Definition typed_value (h : heap) (i : nat) : str := typed_value_fuel (S (List.length h)) h i.

(* xitem.rs 435-450: xs_type *)
Definition xs_type (it : xitem) : str :=
  match it with
  | XIFun _ => lit "function(*)"
  | XIMap _ => lit "map(*)"
  | XIArray _ => lit "array(*)"
  | XINode _ => lit "node"
  | XIString _ => lit "xs:string"
  | XIInteger _ => lit "xs:integer"
  | XIDecimal _ => lit "xs:decimal"
  | XIDouble _ => lit "xs:double"
  | XIBoolean _ => lit "xs:boolean"
  end.

(* xitem.rs 469-478: atomize (an item) *)
Definition atomize1 (h : heap) (it : xitem) : xitem :=
  match it with
  | XINode i => XIString (typed_value h i)
  | _ => it
  end.

(* xitem.rs 483-488: is_item; 492-499: is_numeric *)
Definition is_item (it : xitem) : bool := match it with XIFun _ => false | _ => true end.
(* xitem.rs 492-499 *)
Definition is_numeric (it : xitem) : bool :=
  match it with XIInteger _ | XIDecimal _ | XIDouble _ => true | _ => false end.

Definition bool_str (b : bool) : str := if b then lit "true" else lit "false".

(* xitem.rs 621-657: get_as_raw_string *)
Definition get_as_raw_string (h : heap) (it : xitem) : res str :=
  match it with
  | XINode i => Ok (string_value h i)
  | XIString s => Ok s
  | XIInteger z => Ok (fmt_i64 z)
  | XIDecimal f => Ok (fmt_f64 f)
  | XIDouble f =>
      match f with
      | S754_nan => Ok (lit "NaN")
      | S754_infinity false => Ok (lit "+Infinity")
      | S754_infinity true => Ok (lit "-Infinity")
      | _ => Ok (fmt_f64 f)
      end
  | XIBoolean b => Ok (bool_str b)
  | XIFun _ | XIMap _ | XIArray _ => Err TypeError
  end.

(* xitem.rs 661-685: get_as_raw_double; 689-713: get_as_raw_decimal (the same text) *)
Definition get_as_raw_double (h : heap) (it : xitem) : res f64 :=
  match it with
  | XINode i => Ok (atof (string_value h i))
  | XIString s => Ok (atof s)
  | XIInteger z => Ok (i64_to_f64 z)
  | XIDecimal f => Ok f
  | XIDouble f => Ok f
  | XIBoolean b => Ok (if b then f_one else f_zero)
  | XIFun _ | XIMap _ | XIArray _ => Err TypeError
  end.
(* xitem.rs 691-715 *)
Definition get_as_raw_decimal := get_as_raw_double.

(* xitem.rs 717-743: get_as_raw_integer *)
Definition get_as_raw_integer (h : heap) (it : xitem) : res Z :=
  match it with
  | XINode i => Ok (atoi (string_value h i))
  | XIString s => Ok (atoi s)
  | XIInteger z => Ok z
  | XIDecimal f => Ok (f64_to_i64 f)
  | XIDouble f => Ok (f64_to_i64 f)
  | XIBoolean b => Ok (if b then 1 else 0)
  | XIFun _ | XIMap _ | XIArray _ => Err TypeError
  end.

(* xitem.rs 747-786: get_as_raw_boolean *)
Definition bool_of_str (s : str) : res bool :=
  if str_eqb s (lit "true") || str_eqb s (lit "1") then Ok true
  else if str_eqb s (lit "false") || str_eqb s (lit "0") then Ok false
  else Err TypeError.
Definition bool_of_f64 (f : f64) : bool := negb (feqb f f_zero || is_nan f).
(* xitem.rs 747-785 *)
Definition get_as_raw_boolean (h : heap) (it : xitem) : res bool :=
  match it with
  | XINode i => bool_of_str (string_value h i)
  | XIString s => bool_of_str s
  | XIInteger z => Ok (negb (z =? 0))
  | XIDecimal f => Ok (bool_of_f64 f)
  | XIDouble f => Ok (bool_of_f64 f)
  | XIBoolean b => Ok b
  | XIFun _ | XIMap _ | XIArray _ => Err TypeError
  end.

(* xitem.rs 518-532: op_same_key *)
Definition op_same_key (h : heap) (a b : xitem) : bool :=
  match get_as_raw_string h a, get_as_raw_string h b with
  | Ok s, Ok t => str_eqb s t
  | _, _ => false
  end.

(* xitem.rs 162-183: map_keys, map_contains, map_get *)
Definition xmap_keys (m : list (xitem * xseq)) : xseq := map fst m.
Definition xmap_contains (h : heap) (m : list (xitem * xseq)) (key : xitem) : bool :=
  existsb (fun e => op_same_key h (fst e) key) m.
Definition xmap_get (h : heap) (m : list (xitem * xseq)) (key : xitem) : option xseq :=
  option_map snd (find (fun e => op_same_key h (fst e) key) m).

(* xitem.rs 207-218: array_get *)
Definition xarray_get (h : heap) (a : list xseq) (index : xitem) : option xseq :=
  match get_as_raw_integer h index with
  | Ok i => if (1 <=? i) && (i <=? Z.of_nat (List.length a)) then nth_error a (Z.to_nat (i - 1)) else None
  | _ => None
  end.

(* xitem.rs 220-235: array_flatten *)
Fixpoint flatten1 (it : xitem) : xseq :=
  match it with
  | XIArray a => flat_map (fun s => flat_map flatten1 s) a
  | _ => [it]
  end.
Definition xarray_flatten (a : list xseq) : xseq := flat_map (fun s => flat_map flatten1 s) a.

(* xitem.rs 547-583: cast_as (an item) *)
Definition cast_item (h : heap) (it : xitem) (ty : str) : res xitem :=
  if str_eqb ty (lit "string") || str_eqb ty (lit "xs:string")
  then do s <- get_as_raw_string h it; Ok (XIString s)
  else if str_eqb ty (lit "double") || str_eqb ty (lit "xs:double")
  then do d <- get_as_raw_double h it; Ok (XIDouble d)
  else if str_eqb ty (lit "decimal") || str_eqb ty (lit "xs:decimal")
  then do d <- get_as_raw_decimal h it; Ok (XIDecimal d)
  else if str_eqb ty (lit "integer") || str_eqb ty (lit "xs:integer")
  then do i <- get_as_raw_integer h it; Ok (XIInteger i)
  else if str_eqb ty (lit "boolean") || str_eqb ty (lit "xs:boolean")
  then do b <- get_as_raw_boolean h it; Ok (XIBoolean b)
  else Err TypeError.
(* xitem.rs 537-542: castable_as (an item) *)
Definition castable_item (h : heap) (it : xitem) (ty : str) : bool :=
  match cast_item h it ty with Ok _ => true | _ => false end.

(* String's PartialOrd *)
Fixpoint str_ltb (a b : str) : bool :=
  match a, b with
  | [], _ :: _ => true
  | _, [] => false
  | x :: a', y :: b' => if (x <? y)%N then true else if (y <? x)%N then false else str_ltb a' b'
  end.
Definition str_cmp (a b : str) : Z := if str_ltb a b then -1 else if str_eqb a b then 0 else 1.

(* xitem.rs 791-811: xitem_compare *)
Definition xitem_compare (l r : xitem) : res Z :=
  match l, r with
  | XIString a, XIString b => Ok (str_cmp a b)
  | _, _ => Err TypeError
  end.

(* xitem.rs 952-1001: xitem_numeric_operation *)
Definition xitem_numeric_operation (int_op : Z -> Z -> res Z) (dec_op dbl_op : f64 -> f64 -> f64)
    (l r : xitem) : res xitem :=
  match l, r with
  | XIInteger a, XIInteger b => do z <- int_op a b; Ok (XIInteger z)
  | XIInteger a, XIDecimal b => Ok (XIDecimal (dec_op (int_to_dec a) b))
  | XIInteger a, XIDouble b => Ok (XIDouble (dbl_op (int_to_dbl a) b))
  | XIDecimal a, XIInteger b => Ok (XIDecimal (dec_op a (int_to_dec b)))
  | XIDecimal a, XIDecimal b => Ok (XIDecimal (dec_op a b))
  | XIDecimal a, XIDouble b => Ok (XIDouble (dec_op (dec_to_dbl a) b))
  | XIDouble a, XIInteger b => Ok (XIDouble (dbl_op a (int_to_dbl b)))
  | XIDouble a, XIDecimal b => Ok (XIDouble (dbl_op a (dec_to_dbl b)))
  | XIDouble a, XIDouble b => Ok (XIDouble (dbl_op a b))
  | _, _ => Err TypeError
  end.

(* xitem.rs 814-833 *)
Definition xitem_numeric_add := xitem_numeric_operation (fun a b => chk (a + b)) fadd fadd.
(* xitem.rs 821-826 *)
Definition xitem_numeric_subtract := xitem_numeric_operation (fun a b => chk (a - b)) fsub fsub.
(* xitem.rs 828-833 *)
Definition xitem_numeric_multiply := xitem_numeric_operation (fun a b => chk (a * b)) fmul fmul.

(* i64 `/` and `%`: division by zero panics, MIN / -1 overflows *)
Definition i64_div (a b : Z) : res Z := if b =? 0 then Panic else chk (Z.quot a b).
Definition i64_rem (a b : Z) : res Z :=
  if b =? 0 then Panic else if (a =? i64_min) && (b =? -1) then Panic else Ok (Z.rem a b).

(* xitem.rs 837-859: xitem_numeric_divide *)
Definition xitem_numeric_divide (l r : xitem) : res xitem :=
  do r' <- match r with
           | XIInteger b => if b =? 0 then Err DynamicError else Ok (XIDecimal (i64_to_f64 b))
           | XIDecimal b => if feqb b f_zero then Err DynamicError else Ok (XIDecimal b)
           | XIDouble b => Ok (XIDouble b)
           | _ => Err CantOccur
           end;
  xitem_numeric_operation i64_div fdiv fdiv l r'.

(* xitem.rs 863-901: xitem_numeric_integer_divide *)
Definition to_i64_or_0 (it : xitem) : Z :=
  match it with
  | XIInteger z => z
  | XIDecimal f => f64_to_i64 f
  | XIDouble f => f64_to_i64 f
  | _ => 0
  end.
(* xitem.rs 863-901 *)
Definition xitem_numeric_integer_divide (l r : xitem) : res xitem :=
  let bad_l := match l with XIDouble f => is_nan f || negb (is_finite f) | _ => false end in
  let bad_r := match r with XIDouble f => is_nan f | _ => false end in
  if bad_l then Err DynamicError
  else if bad_r then Err DynamicError
  else let a := to_i64_or_0 l in
       let b := to_i64_or_0 r in
       if negb (b =? 0) then do z <- i64_div a b; Ok (XIInteger z) else Err DynamicError.

(* xitem.rs 905-924: xitem_numeric_mod *)
Definition xitem_numeric_mod (l r : xitem) : res xitem :=
  let zero := match r with
              | XIInteger b => b =? 0
              | XIDecimal b => feqb b f_zero
              | _ => false
              end in
  if zero then Err DynamicError
  else xitem_numeric_operation i64_rem frem frem l r.

(* xitem.rs 928-948 *)
Definition xitem_numeric_unary_plus (it : xitem) : res xitem :=
  match it with
  | XIInteger _ | XIDecimal _ | XIDouble _ => Ok it
  | _ => Err TypeError
  end.
(* xitem.rs 939-948 *)
Definition xitem_numeric_unary_minus (it : xitem) : res xitem :=
  match it with
  | XIInteger z => do z' <- chk (- z); Ok (XIInteger z')
  | XIDecimal f => Ok (XIDecimal (fneg f))
  | XIDouble f => Ok (XIDouble (fneg f))
  | _ => Err TypeError
  end.

(* xitem.rs 1032-1084: xitem_numeric_comparison *)
Definition xitem_numeric_comparison (int_op : Z -> Z -> bool) (dec_op dbl_op : f64 -> f64 -> bool)
    (l r : xitem) : res bool :=
  match l, r with
  | XIInteger a, XIInteger b => Ok (int_op a b)
  | XIInteger a, XIDecimal b => Ok (dec_op (int_to_dec a) b)
  | XIInteger a, XIDouble b => Ok (dbl_op (int_to_dbl a) b)
  | XIDecimal a, XIInteger b => Ok (dec_op a (int_to_dec b))
  | XIDecimal a, XIDecimal b => Ok (dec_op a b)
  | XIDecimal a, XIDouble b => Ok (dbl_op (dec_to_dbl a) b)
  | XIDouble a, XIInteger b => Ok (dbl_op a (int_to_dbl b))
  | XIDouble a, XIDecimal b => Ok (dbl_op a (dec_to_dbl b))
  | XIDouble a, XIDouble b => Ok (dbl_op a b)
  | _, _ => Err TypeError
  end.
(* xitem.rs 1005-1028 *)
Definition xitem_numeric_equal := xitem_numeric_comparison Z.eqb feqb feqb.
(* xitem.rs 1015-1020 *)
Definition xitem_numeric_less_than := xitem_numeric_comparison Z.ltb fltb fltb.
(* xitem.rs 1022-1027 *)
Definition xitem_numeric_greater_than := xitem_numeric_comparison Z.gtb fgtb fgtb.

(* xitem.rs 1088-1114 *)
Definition xitem_boolean_op (f : bool -> bool -> bool) (l r : xitem) : res bool :=
  match l, r with
  | XIBoolean a, XIBoolean b => Ok (f a b)
  | _, _ => Err TypeError
  end.
(* xitem.rs 1088-1095 *)
Definition xitem_boolean_equal := xitem_boolean_op Bool.eqb.
(* xitem.rs 1097-1104 *)
Definition xitem_boolean_less_than := xitem_boolean_op (fun a b => negb a && b).
(* xitem.rs 1106-1113 *)
Definition xitem_boolean_greater_than := xitem_boolean_op (fun a b => a && negb b).

(* ================================================================== sequences *)
Definition sing_bool (b : bool) : xseq := [XIBoolean b].

(* xsequence.rs 107-204: get_singleton_* *)
Definition get_singleton_item (s : xseq) : res xitem :=
  match s with [it] => Ok it | _ => Err TypeError end.
(* xsequence.rs 118-126 *)
Definition get_singleton_xnodeptr (s : xseq) : res xnode :=
  match s with [XIFun x] => Ok x | _ => Err TypeError end.
(* xsequence.rs 131-139 *)
Definition get_singleton_node (s : xseq) : res nat :=
  match s with [XINode i] => Ok i | _ => Err TypeError end.
(* xsequence.rs 144-152 *)
Definition get_singleton_map (s : xseq) : res (list (xitem * xseq)) :=
  match s with [XIMap m] => Ok m | _ => Err TypeError end.
(* xsequence.rs 157-165 *)
Definition get_singleton_array (s : xseq) : res (list xseq) :=
  match s with [XIArray a] => Ok a | _ => Err TypeError end.
(* xsequence.rs 170-178 *)
Definition get_singleton_string (s : xseq) : res str :=
  match s with [XIString t] => Ok t | _ => Err TypeError end.
(* xsequence.rs 183-191 *)
Definition get_singleton_integer (s : xseq) : res Z :=
  match s with [XIInteger z] => Ok z | _ => Err TypeError end.
(* xsequence.rs 196-204 *)
Definition get_singleton_boolean (s : xseq) : res bool :=
  match s with [XIBoolean b] => Ok b | _ => Err TypeError end.

(* xsequence.rs 209-238: effective_boolean_value *)
Definition effective_boolean_value (s : xseq) : res bool :=
  match s with
  | [] => Ok false
  | XINode _ :: _ => Ok true
  | [XIBoolean b] => Ok b
  | [XIString t] => Ok (negb (str_eqb t []))
  | [XIDouble f] => Ok (negb (feqb f f_zero) && negb (is_nan f))
  | [XIDecimal f] => Ok (negb (feqb f f_zero) && negb (is_nan f))
  | [XIInteger z] => Ok (negb (z =? 0))
  | _ => Err TypeError
  end.

(* xsequence.rs 242-248: atomize *)
Definition atomize (h : heap) (s : xseq) : xseq := map (atomize1 h) s.

(* xsequence.rs 266-276: is_no_atom; 360-368: to_nodeset; 42-48: new_xsequence_from_node_array *)
Definition is_node (it : xitem) : bool := match it with XINode _ => true | _ => false end.
(* xsequence.rs 266-276 *)
Definition is_no_atom (s : xseq) : bool := forallb is_node s.
(* xsequence.rs 360-368 *)
Definition to_nodeset (s : xseq) : list nat :=
  flat_map (fun it => match it with XINode i => [i] | _ => [] end) s.
Definition seq_of_nodes (l : list nat) : xseq := map XINode l.

(* str::ends_with("?"), trim_right_matches('?') *)
Definition ends_with_q (s : str) : bool := match rev s with c :: _ => (c =? 63)%N | [] => false end.
Fixpoint drop_q (s : str) : str :=
  match s with
  | c :: s' => if (c =? 63)%N then drop_q s' else s
  | [] => []
  end.
Definition trim_q (s : str) : str := rev (drop_q (rev s)).

(* xsequence.rs 320-330: castable_as; 340-356: cast_as *)
Definition castable_as (h : heap) (s : xseq) (ty : str) : bool :=
  match s with
  | [] => ends_with_q ty
  | [it] => castable_item h it (trim_q ty)
  | _ => false
  end.
(* xitem.rs 547-578 *)
Definition cast_as (h : heap) (s : xseq) (ty : str) : res xseq :=
  match s with
  | [] => if ends_with_q ty then Ok [] else Err TypeError
  | [it] => match cast_item h (atomize1 h it) (trim_q ty) with
            | Ok r => Ok [r]
            | _ => Err TypeError
            end
  | _ => Err TypeError
  end.

(* func.rs 1065-1068: fn_not *)
Definition fn_not (s : xseq) : res xseq := do b <- effective_boolean_value s; Ok (sing_bool (negb b)).
(* func.rs 639-661: fn_compare (two arguments) *)
Definition fn_compare (l r : xseq) : res xseq :=
  match l, r with
  | [], _ | _, [] => Ok []
  | _, _ => do a <- get_singleton_string l; do b <- get_singleton_string r; Ok [XIInteger (str_cmp a b)]
  end.

(* oper.rs 77-101: op_numeric_comparison and its instances *)
Definition op_numeric_comparison (f : xitem -> xitem -> res bool) (l r : xseq) : res xseq :=
  do a <- get_singleton_item l; do b <- get_singleton_item r; do x <- f a b; Ok (sing_bool x).
(* oper.rs 111-132: op_boolean_* *)
Definition op_boolean (f : bool -> bool -> bool) (l r : xseq) : res xseq :=
  do a <- get_singleton_boolean l; do b <- get_singleton_boolean r; Ok (sing_bool (f a b)).

(* xsequence.rs 414-446: value_comparison *)
Definition value_comparison (h : heap) (num_op : xseq -> xseq -> res xseq) (scmp : Z -> bool)
    (bool_op : xseq -> xseq -> res xseq) (l r : xseq) : res xseq :=
  match l, r with
  | [], _ | _, [] => Ok []
  | [_], [_] =>
      let l := atomize h l in
      let r := atomize h r in
      match num_op l r with
      | Ok x => Ok x
      | _ =>
          match fn_compare l r with
          | Ok x => do n <- get_singleton_integer x; Ok (sing_bool (scmp n))
          | _ => match bool_op l r with
                 | Ok x => Ok x
                 | _ => Err TypeError
                 end
          end
      end
  | _, _ => Err TypeError
  end.
(* xsequence.rs 376-410 *)
Definition value_compare_eq (h : heap) : xseq -> xseq -> res xseq :=
  value_comparison h (op_numeric_comparison xitem_numeric_equal) (fun n => n =? 0) (op_boolean Bool.eqb).
(* xsequence.rs 383-386 *)
Definition value_compare_ne (h : heap) (l r : xseq) : res xseq := do x <- value_compare_eq h l r; fn_not x.
(* xsequence.rs 388-393 *)
Definition value_compare_lt (h : heap) : xseq -> xseq -> res xseq :=
  value_comparison h (op_numeric_comparison xitem_numeric_less_than) (fun n => n <? 0)
    (op_boolean (fun a b => negb a && b)).
(* xsequence.rs 400-405 *)
Definition value_compare_gt (h : heap) : xseq -> xseq -> res xseq :=
  value_comparison h (op_numeric_comparison xitem_numeric_greater_than) (fun n => n >? 0)
    (op_boolean (fun a b => a && negb b)).
(* xsequence.rs 395-398 *)
Definition value_compare_le (h : heap) (l r : xseq) : res xseq := do x <- value_compare_gt h l r; fn_not x.
(* xsequence.rs 407-410 *)
Definition value_compare_ge (h : heap) (l r : xseq) : res xseq := do x <- value_compare_lt h l r; fn_not x.

(* xsequence.rs 500-531: general_comparison; the test of one pair *)
Definition is_ok_true (r : res bool) : bool := match r with Ok true => true | _ => false end.
Definition general_pair (num_op : xitem -> xitem -> res bool) (scmp : Z -> bool)
    (bool_op : xitem -> xitem -> res bool) (a b : xitem) : bool :=
  is_ok_true (num_op a b)
  || match xitem_compare a b with Ok n => scmp n | _ => false end
  || is_ok_true (bool_op a b).
(* xsequence.rs 500-529 *)
Definition general_comparison (h : heap) (num_op : xitem -> xitem -> res bool) (scmp : Z -> bool)
    (bool_op : xitem -> xitem -> res bool) (l r : xseq) : res xseq :=
  Ok (sing_bool (existsb (fun a => existsb (general_pair num_op scmp bool_op a) (atomize h r)) (atomize h l))).
Definition not_res (f : xitem -> xitem -> res bool) (a b : xitem) : res bool := do x <- f a b; Ok (negb x).
(* xsequence.rs 456-496 *)
Definition general_compare_eq (h : heap) :=
  general_comparison h xitem_numeric_equal (fun n => n =? 0) xitem_boolean_equal.
(* xsequence.rs 463-468 *)
Definition general_compare_ne (h : heap) :=
  general_comparison h (not_res xitem_numeric_equal) (fun n => negb (n =? 0)) (not_res xitem_boolean_equal).
(* xsequence.rs 470-475 *)
Definition general_compare_lt (h : heap) :=
  general_comparison h xitem_numeric_less_than (fun n => n <? 0) xitem_boolean_less_than.
(* xsequence.rs 477-482 *)
Definition general_compare_le (h : heap) :=
  general_comparison h (not_res xitem_numeric_greater_than) (fun n => n <=? 0)
    (not_res xitem_boolean_greater_than).
(* xsequence.rs 484-489 *)
Definition general_compare_gt (h : heap) :=
  general_comparison h xitem_numeric_greater_than (fun n => n >? 0) xitem_boolean_greater_than.
(* xsequence.rs 491-496 *)
Definition general_compare_ge (h : heap) :=
  general_comparison h (not_res xitem_numeric_less_than) (fun n => n >=? 0)
    (not_res xitem_boolean_less_than).

(* ================================================================== operators *)
(* oper.rs 66-74: op_numeric_operation; 28-62 its instances *)
Definition op_numeric_operation (f : xitem -> xitem -> res xitem) (l r : xseq) : res xseq :=
  do a <- get_singleton_item l; do b <- get_singleton_item r; do x <- f a b; Ok [x].
Definition op_numeric_unary (f : xitem -> res xitem) (s : xseq) : res xseq :=
  do a <- get_singleton_item s; do x <- f a; Ok [x].

(* oper.rs 183-189: op_node_compare *)
Definition op_node_compare (h : heap) (c : comparison) (l r : xseq) : res xseq :=
  do a <- get_singleton_node l; do b <- get_singleton_node r;
  do x <- node_compare h a b;
  Ok (sing_bool (match x, c with Eq, Eq | Lt, Lt | Gt, Gt => true | _, _ => false end)).

(* oper.rs 210-245 *)
Definition op_union (h : heap) (l r : xseq) : res xseq :=
  do ns <- nodes_union h (to_nodeset l) (to_nodeset r); Ok (seq_of_nodes ns).
(* oper.rs 222-232 *)
Definition op_intersect (l r : xseq) : res xseq :=
  Ok (seq_of_nodes (nodes_intersect (to_nodeset l) (to_nodeset r))).
(* oper.rs 234-244 *)
Definition op_except (l r : xseq) : res xseq :=
  Ok (seq_of_nodes (nodes_except (to_nodeset l) (to_nodeset r))).

(* oper.rs 251-259: op_to; `for n in first ..= last` *)
Fixpoint count_up (n : nat) (z : Z) : xseq :=
  match n with
  | O => []
  | S n' => XIInteger z :: count_up n' (z + 1)
  end.
(* oper.rs 251-259 *)
Definition op_to (l r : xseq) : res xseq :=
  do a <- get_singleton_integer l; do b <- get_singleton_integer r;
  Ok (count_up (Z.to_nat (b - a + 1)) a).

(* ================================================================== Display *)
(* `s.contains(".")` *)
Definition with_point (s : str) : str := if mem_char 46%N s then s else s ++ lit ".0".
Fixpoint join (sep : str) (l : list str) : str :=
  match l with
  | [] => []
  | [x] => x
  | x :: l' => x ++ sep ++ join sep l'
  end.
Definition parens (n : nat) (s : str) : str := match n with 1%nat => s | _ => lit "(" ++ s ++ lit ")" end.
(* dom.rs 51-86: the Debug (and Display) form of a node *)
Definition show_attr (h : heap) (a : nat) : str :=
  n_name (get h a) ++ lit "=" ++ [34%N] ++ n_value (get h a) ++ [34%N].
Definition show_node (h : heap) (i : nat) : str :=
  let n := get h i in
  match n_type n with
  | DocumentRoot => lit "(DocumentRoot)"
  | Element => lit "<" ++ n_name n ++ flat_map (fun a => 32%N :: show_attr h a) (n_attrs n) ++ lit ">"
  | Text => n_value n
  | Attribute => show_attr h i
  | _ => []
  end.
(* parser.rs 17-134, 140-144: the name of a variant, as derived by #[derive(Debug)]. *)
Definition xtype_name (t : xtype) : str :=
  match t with
  | X_Nil => lit "Nil"
  | X_OperatorPath => lit "OperatorPath"
  | X_AxisRoot => lit "AxisRoot"
  | X_AxisAncestor => lit "AxisAncestor"
  | X_AxisAncestorOrSelf => lit "AxisAncestorOrSelf"
  | X_AxisAttribute => lit "AxisAttribute"
  | X_AxisChild => lit "AxisChild"
  | X_AxisDescendant => lit "AxisDescendant"
  | X_AxisDescendantOrSelf => lit "AxisDescendantOrSelf"
  | X_AxisFollowing => lit "AxisFollowing"
  | X_AxisFollowingSibling => lit "AxisFollowingSibling"
  | X_AxisNamespace => lit "AxisNamespace"
  | X_AxisParent => lit "AxisParent"
  | X_AxisPreceding => lit "AxisPreceding"
  | X_AxisPrecedingSibling => lit "AxisPrecedingSibling"
  | X_AxisSelf => lit "AxisSelf"
  | X_PredicateTop => lit "PredicateTop"
  | X_PredicateRevTop => lit "PredicateRevTop"
  | X_OperatorConcatenate => lit "OperatorConcatenate"
  | X_OperatorOr => lit "OperatorOr"
  | X_OperatorAnd => lit "OperatorAnd"
  | X_OperatorGeneralEQ => lit "OperatorGeneralEQ"
  | X_OperatorGeneralNE => lit "OperatorGeneralNE"
  | X_OperatorGeneralLT => lit "OperatorGeneralLT"
  | X_OperatorGeneralGT => lit "OperatorGeneralGT"
  | X_OperatorGeneralLE => lit "OperatorGeneralLE"
  | X_OperatorGeneralGE => lit "OperatorGeneralGE"
  | X_OperatorValueEQ => lit "OperatorValueEQ"
  | X_OperatorValueNE => lit "OperatorValueNE"
  | X_OperatorValueLT => lit "OperatorValueLT"
  | X_OperatorValueGT => lit "OperatorValueGT"
  | X_OperatorValueLE => lit "OperatorValueLE"
  | X_OperatorValueGE => lit "OperatorValueGE"
  | X_OperatorAdd => lit "OperatorAdd"
  | X_OperatorSubtract => lit "OperatorSubtract"
  | X_OperatorUnaryPlus => lit "OperatorUnaryPlus"
  | X_OperatorUnaryMinus => lit "OperatorUnaryMinus"
  | X_OperatorMultiply => lit "OperatorMultiply"
  | X_OperatorDiv => lit "OperatorDiv"
  | X_OperatorIDiv => lit "OperatorIDiv"
  | X_OperatorMod => lit "OperatorMod"
  | X_OperatorUnion => lit "OperatorUnion"
  | X_OperatorIntersect => lit "OperatorIntersect"
  | X_OperatorExcept => lit "OperatorExcept"
  | X_OperatorTo => lit "OperatorTo"
  | X_OperatorIsSameNode => lit "OperatorIsSameNode"
  | X_OperatorNodeBefore => lit "OperatorNodeBefore"
  | X_OperatorNodeAfter => lit "OperatorNodeAfter"
  | X_OperatorInstanceOf => lit "OperatorInstanceOf"
  | X_OperatorTreatAs => lit "OperatorTreatAs"
  | X_OperatorCastableAs => lit "OperatorCastableAs"
  | X_OperatorCastAs => lit "OperatorCastAs"
  | X_IfExpr => lit "IfExpr"
  | X_IfThenElse => lit "IfThenElse"
  | X_ForExpr => lit "ForExpr"
  | X_SomeExpr => lit "SomeExpr"
  | X_EveryExpr => lit "EveryExpr"
  | X_ForVarBind => lit "ForVarBind"
  | X_SomeVarBind => lit "SomeVarBind"
  | X_EveryVarBind => lit "EveryVarBind"
  | X_StringLiteral => lit "StringLiteral"
  | X_IntegerLiteral => lit "IntegerLiteral"
  | X_DecimalLiteral => lit "DecimalLiteral"
  | X_DoubleLiteral => lit "DoubleLiteral"
  | X_ContextItem => lit "ContextItem"
  | X_FunctionCall => lit "FunctionCall"
  | X_ArgumentTop => lit "ArgumentTop"
  | X_VarRef => lit "VarRef"
  | X_ApplyPredicate => lit "ApplyPredicate"
  | X_ApplyArgument => lit "ApplyArgument"
  | X_KindTest => lit "KindTest"
  | X_DocumentTest => lit "DocumentTest"
  | X_ElementTest => lit "ElementTest"
  | X_AttributeTest => lit "AttributeTest"
  | X_SchemaElementTest => lit "SchemaElementTest"
  | X_SchemaAttributeTest => lit "SchemaAttributeTest"
  | X_PITest => lit "PITest"
  | X_CommentTest => lit "CommentTest"
  | X_TextTest => lit "TextTest"
  | X_NamespaceNodeTest => lit "NamespaceNodeTest"
  | X_AnyKindTest => lit "AnyKindTest"
  | X_KindTestTypeName => lit "KindTestTypeName"
  | X_EmptySequenceTest => lit "EmptySequenceTest"
  | X_ItemTest => lit "ItemTest"
  | X_TypeName => lit "TypeName"
  | X_AnyFunctionTest => lit "AnyFunctionTest"
  | X_TypedFunctionTest => lit "TypedFunctionTest"
  | X_MapTest => lit "MapTest"
  | X_ArrayTest => lit "ArrayTest"
  | X_AtomicOrUnionType => lit "AtomicOrUnionType"
  | X_ParenthesizedItemType => lit "ParenthesizedItemType"
  | X_SingleType => lit "SingleType"
  | X_SequenceType => lit "SequenceType"
  | X_OperatorConcat => lit "OperatorConcat"
  | X_OperatorMap => lit "OperatorMap"
  | X_LetExpr => lit "LetExpr"
  | X_LetVarBind => lit "LetVarBind"
  | X_InlineFunction => lit "InlineFunction"
  | X_Param => lit "Param"
  | X_ReturnType => lit "ReturnType"
  | X_ArgumentListTop => lit "ArgumentListTop"
  | X_NamedFunctionRef => lit "NamedFunctionRef"
  | X_PartialFunctionCall => lit "PartialFunctionCall"
  | X_ArgumentPlaceholder => lit "ArgumentPlaceholder"
  | X_Map => lit "Map"
  | X_MapConstruct => lit "MapConstruct"
  | X_MapEntry => lit "MapEntry"
  | X_SquareArray => lit "SquareArray"
  | X_CurlyArray => lit "CurlyArray"
  | X_ArrayEntry => lit "ArrayEntry"
  | X_UnaryLookupByExpr => lit "UnaryLookupByExpr"
  | X_UnaryLookupByWildcard => lit "UnaryLookupByWildcard"
  | X_ParenthesizedExpr => lit "ParenthesizedExpr"
  end.
(* parser.rs 179-200: xnode_dump, xnode_dump_sub (step is 4 in every call). *)
Fixpoint xnode_dump_sub (x : xnode) (indent : nat) (pref : str) : str :=
  match x with
  | XNil => repeat 32%N indent ++ pref ++ lit " [" ++ xtype_name X_Nil ++ lit "] " ++ [10%N]
  | XNode t n l r =>
      repeat 32%N indent ++ pref ++ lit " [" ++ xtype_name t ++ lit "] " ++ n ++ [10%N]
      ++ (match l with XNil => [] | _ => xnode_dump_sub l (indent + 4) (lit "L") end)
      ++ (match r with XNil => [] | _ => xnode_dump_sub r (indent + 4) (lit "R") end)
  end.
(* parser.rs 179-181 *)
Definition xnode_dump (x : xnode) : str := xnode_dump_sub x 0 (lit "T").
(* xitem.rs 375-427, 135-147, 188-200, xsequence.rs 78-95. *)
Fixpoint show_item (h : heap) (it : xitem) : str :=
  match it with
  | XINode i => show_node h i
  | XIString s => 34%N :: s ++ [34%N]
  | XIInteger z => fmt_i64 z
  | XIDecimal f => with_point (fmt_f64 f)
  | XIDouble f =>
      match f with
      | S754_nan => lit "NaN"
      | S754_infinity false => lit "+Infinity"
      | S754_infinity true => lit "-Infinity"
      | S754_zero true => lit "-0e0"
      | _ => fmt_f64_exp f
      end
  | XIBoolean b => bool_str b
  | XIFun x => xnode_dump x
  | XIMap m =>
      lit "{" ++ join (lit ", ") (map (fun e => show_item h (fst e) ++ lit " => "
        ++ parens (List.length (snd e)) (join (lit ", ") (map (show_item h) (snd e)))) m) ++ lit "}"
  | XIArray a =>
      lit "[" ++ join (lit ", ") (map (fun s => parens (List.length s)
        (join (lit ", ") (map (show_item h) s))) a) ++ lit "]"
  end.
Definition show_seq (h : heap) (s : xseq) : str :=
  parens (List.length s) (join (lit ", ") (map (show_item h) s)).

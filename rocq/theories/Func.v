(* Model of src/xpath_impl/func.rs: the built-in functions that do not need the evaluator.
   Arguments are the evaluated argument sequences; [args[k]] out of range is a panic in [call_fn]. *)
Require Import Bool List NArith ZArith Ascii String.
Require Import Coq.Floats.SpecFloat.
From Verif Require Import Str Case Chars Sax Dom Axes Lexer FuncTable Parser Num Item.
Import ListNotations.
Open Scope Z_scope.

Definition zlen {A} (l : list A) : Z := Z.of_nat (List.length l).
Definition sing_str (s : str) : xseq := [XIString s].
Definition sing_int (z : Z) : xseq := [XIInteger z].

(* func.rs 356-379: fn_nilled *)
Definition fn_nilled (h : heap) (s : xseq) : res xseq :=
  match s with
  | [] => Ok []
  | _ => match get_singleton_node s with
         | Ok i =>
             if node_type_eqb (n_type (get h i)) Element
             then match attribute_value h i (lit "xsi:nil") with
                  | Some v => Ok (sing_bool (str_eqb v (lit "true")))
                  | None => Ok (sing_bool false)
                  end
             else Ok []
         | _ => Err TypeError
         end
  end.

(* func.rs 394-402: fn_string; 414-416: fn_data *)
Definition fn_string (h : heap) (s : xseq) : res xseq :=
  match s with
  | [] => Ok (sing_str [])
  | _ => do it <- get_singleton_item s; do t <- get_as_raw_string h it; Ok (sing_str t)
  end.
(* func.rs 414-416 *)
Definition fn_data (h : heap) (s : xseq) : res xseq := Ok (atomize h s).

(* func.rs 483-508: ceil_x, floor_x, round_x *)
Definition neg_zero (x : f64) : bool := match x with S754_zero true => true | _ => false end.
Definition f_minus_one : f64 := f_of_Z (-1).
Definition f_minus_half : f64 := fneg f_half.
(* func.rs 485-492 *)
Definition ceil_x (x : f64) : f64 :=
  if neg_zero x || (fltb f_minus_one x && fltb x f_zero) then fdiv f_one f_neginf else fceil x.
(* func.rs 494-500 *)
Definition floor_x (x : f64) : f64 := if neg_zero x then fdiv f_one f_neginf else ffloor x.
(* func.rs 502-509 *)
Definition round_x (x : f64) : f64 :=
  if neg_zero x || (fleb f_minus_half x && fltb x f_zero) then fdiv f_one f_neginf
  else ffloor (fadd x f_half).

(* func.rs 512-533: fn_numeric_unary *)
Definition fn_numeric_unary (int_op : Z -> res Z) (dec_op dbl_op : f64 -> f64) (s : xseq) : res xseq :=
  match s with
  | [XIInteger z] => do x <- int_op z; Ok [XIInteger x]
  | [XIDecimal f] => Ok [XIDecimal (dec_op f)]
  | [XIDouble f] => Ok [XIDouble (dbl_op f)]
  | _ => Ok []
  end.
(* func.rs 437-480 *)
Definition fn_abs := fn_numeric_unary (fun z => chk (Z.abs z)) fabs fabs.
(* func.rs 449-454 *)
Definition fn_ceiling := fn_numeric_unary (fun z => Ok z) fceil ceil_x.
(* func.rs 461-466 *)
Definition fn_floor := fn_numeric_unary (fun z => Ok z) ffloor floor_x.
(* func.rs 473-480 *)
Definition fn_round := fn_numeric_unary (fun z => Ok z) (fun f => ffloor (fadd f f_half)) round_x.

(* func.rs 545-554: fn_number *)
Definition fn_number (h : heap) (s : xseq) : res xseq :=
  match s with
  | [] => Ok [XIDouble f_nan]
  | [it] => do d <- get_as_raw_double h it; Ok [XIDouble d]
  | _ => Ok [XIDouble f_zero]
  end.

(* String::from_utf16 *)
Fixpoint from_utf16 (v : list N) : option str :=
  match v with
  | [] => Some []
  | u :: v' =>
      if ((55296 <=? u) && (u <=? 56319))%N then
        match v' with
        | l :: v'' => if ((56320 <=? l) && (l <=? 57343))%N
                      then option_map (cons (65536 + (u - 55296) * 1024 + (l - 56320))%N) (from_utf16 v'')
                      else None
        | [] => None
        end
      else if ((56320 <=? u) && (u <=? 57343))%N then None
      else option_map (cons u) (from_utf16 v')
  end.
(* func.rs 569-578: the UTF-16 units of one number (`as u64`, `as u16` truncate) *)
Definition utf16_units (z : Z) : list N :=
  let uni := z mod 2 ^ 64 in
  if 65536 <=? uni
  then [Z.to_N (((uni - 65536) / 1024 + 55296) mod 65536); Z.to_N (((uni - 65536) mod 1024 + 56320) mod 65536)]
  else [Z.to_N uni].
(* func.rs 566-583: fn_codepoints_to_string *)
Definition fn_codepoints_to_string (h : heap) (s : xseq) : res xseq :=
  do zs <- map_res (get_as_raw_integer h) s;
  match from_utf16 (flat_map utf16_units zs) with
  | Some t => Ok (sing_str t)
  | None => Err DynamicError
  end.

(* char::encode_utf16 into a zeroed buffer of two units *)
Definition encode_utf16 (c : char) : N * N :=
  if (c <? 65536)%N then (c, 0%N)
  else ((55296 + (c - 65536) / 1024)%N, (56320 + (c - 65536) mod 1024)%N).
(* func.rs 603-619: string_to_codepoints_sub *)
Definition codepoint_of (c : char) : N :=
  let (hi, lo) := encode_utf16 c in
  if ((55296 <=? hi) && (hi <=? 56319) && (56320 <=? lo) && (lo <=? 57343))%N
  then (65536 + (hi - 55296) * 1024 + (lo - 56320))%N
  else hi.
(* func.rs 603-620 *)
Definition string_to_codepoints_sub (s : str) : list N := map codepoint_of s.
(* func.rs 589-601: fn_string_to_codepoints *)
Definition fn_string_to_codepoints (s : xseq) : res xseq :=
  match s with
  | [] => Ok []
  | _ => do t <- get_singleton_string s;
         Ok (map (fun n => XIInteger (Z.of_N n)) (string_to_codepoints_sub t))
  end.

(* func.rs 686-701: codepoint_equal_sub; 669-679: fn_codepoint_equal *)
Definition codepoint_equal_sub (a b : str) : bool :=
  str_eqb (string_to_codepoints_sub a) (string_to_codepoints_sub b).
(* func.rs 662-671 *)
Definition fn_codepoint_equal (l r : xseq) : res xseq :=
  match l, r with
  | [], _ | _, [] => Ok []
  | _, _ => do a <- get_singleton_string l; do b <- get_singleton_string r;
            Ok (sing_bool (codepoint_equal_sub a b))
  end.

(* func.rs 714-722: fn_concat *)
Fixpoint concat_args (h : heap) (args : list xseq) : res str :=
  match args with
  | [] => Ok []
  | [] :: args' => concat_args h args'
  | a :: args' => do it <- get_singleton_item a; do s <- get_as_raw_string h it;
                  do r <- concat_args h args'; Ok (s ++ r)
  end.
(* func.rs 714-722 *)
Definition fn_concat (h : heap) (args : list xseq) : res xseq :=
  do s <- concat_args h args; Ok (sing_str s).

(* func.rs 729-745: fn_string_join *)
Definition fn_string_join (h : heap) (s : xseq) (sep : option xseq) : res xseq :=
  do sp <- match sep with None => Ok [] | Some x => get_singleton_string x end;
  do l <- map_res (get_as_raw_string h) s;
  Ok (sing_str (join sp l)).

(* func.rs 1699-1737: subcollection_index_sub *)
Definition subcollection_index_sub (len : nat) (start length : f64) : res (Z * Z) :=
  let n := Z.of_nat len in
  if is_nan start || is_infinite start then Ok (0, 0)
  else
    let beg_pos := f64_to_i64 (round_x start) in
    do b0 <- chk (beg_pos - 1);
    let b1 := if b0 <? 0 then 0 else b0 in
    let b := if n <=? b1 then n else b1 in
    if is_infinite length && negb (is_sign_negative length) then Ok (b, n)
    else if is_nan length || is_sign_negative length then Ok (0, 0)
    else
      let len_str := if is_infinite length then n else f64_to_i64 (round_x length) in
      do e0 <- chk (beg_pos + len_str);
      do e1 <- chk (e0 - 1);
      let e2 := if e1 <? b then b else e1 in
      let e := if n <=? e2 then n else e2 in
      Ok (b, e).
(* `for i in b..e { result.push(v[i]) }` *)
Definition slice {A} (l : list A) (b e : Z) : list A := firstn (Z.to_nat (e - b)) (skipn (Z.to_nat b) l).

Definition get_length (h : heap) (len : option xseq) : res f64 :=
  match len with
  | None => Ok f_inf
  | Some l => do it <- get_singleton_item l; get_as_raw_double h it
  end.
Definition start_of (h : heap) (start : xseq) : res f64 :=
  do it <- get_singleton_item start; get_as_raw_double h it.

(* func.rs 761-783: fn_substring *)
Definition fn_substring (h : heap) (s start : xseq) (len : option xseq) : res xseq :=
  match s with
  | [] => Ok (sing_str [])
  | _ => do t <- get_singleton_string s;
         do st <- start_of h start;
         do ln <- get_length h len;
         do (b, e) <- subcollection_index_sub (List.length t) st ln;
         Ok (sing_str (slice t b e))
  end.

(* func.rs 796-806: fn_string_length *)
Definition fn_string_length (s : xseq) : res xseq :=
  match s with
  | [] => Ok (sing_int 0)
  | _ => do t <- get_singleton_string s; Ok (sing_int (zlen t))
  end.

(* str::split_whitespace: the maximal runs of non-white characters *)
Fixpoint split_white (cur : str) (s : str) : list str :=
  match s with
  | [] => match cur with [] => [] | _ => [rev cur] end
  | c :: s' => if is_white c
               then match cur with [] => split_white [] s' | _ => rev cur :: split_white [] s' end
               else split_white (c :: cur) s'
  end.
(* func.rs 818-830: fn_normalize_space *)
Definition fn_normalize_space (s : xseq) : res xseq :=
  match s with
  | [] => Ok (sing_str [])
  | _ => do t <- get_singleton_string s; Ok (sing_str (List.concat (split_white [] t)))
  end.

(* func.rs 836-857: fn_upper_case, fn_lower_case *)
Definition fn_case (f : str -> str) (s : xseq) : res xseq :=
  match s with
  | [] => Ok (sing_str [])
  | _ => do t <- get_singleton_string s; Ok (sing_str (f t))
  end.

(* func.rs 879-884: the index found by the inner loop, which does not stop at the first match *)
Fixpoint last_index (c : char) (from : str) (i : nat) (found : option nat) : option nat :=
  match from with
  | [] => found
  | d :: from' => last_index c from' (S i) (if (c =? d)%N then Some i else found)
  end.
Definition translate_char (from to : str) (c : char) : str :=
  match last_index c from 0 None with
  | Some i => match nth_error to i with Some d => [d] | None => [] end
  | None => [c]
  end.
(* func.rs 862-896: fn_translate *)
Definition fn_translate (s from to : xseq) : res xseq :=
  match s with
  | [] => Ok (sing_str [])
  | _ => do t <- get_singleton_string s; do f <- get_singleton_string from; do g <- get_singleton_string to;
         Ok (sing_str (flat_map (translate_char f g) t))
  end.

(* func.rs 908-916 and alike: an empty sequence counts as the empty string *)
Definition opt_string (s : xseq) : res str := match s with [] => Ok [] | _ => get_singleton_string s end.
(* str::contains *)
Definition str_contains (s pat : str) : bool := match split_once pat s with Some _ => true | None => false end.
(* func.rs 905-1015 *)
Definition fn_contains (l r : xseq) : res xseq :=
  do a <- opt_string l; do b <- opt_string r; Ok (sing_bool (str_contains a b)).
(* func.rs 927-940 *)
Definition fn_starts_with (l r : xseq) : res xseq :=
  do a <- opt_string l; do b <- opt_string r; Ok (sing_bool (starts_with a b)).
(* func.rs 949-962 *)
Definition fn_ends_with (l r : xseq) : res xseq :=
  do a <- opt_string l; do b <- opt_string r; Ok (sing_bool (starts_with (rev a) (rev b))).
(* func.rs 971-988 *)
Definition fn_substring_before (l r : xseq) : res xseq :=
  do a <- opt_string l; do b <- opt_string r;
  Ok (sing_str (match split_once b a with Some (x, _) => x | None => [] end)).
(* func.rs 997-1014 *)
Definition fn_substring_after (l r : xseq) : res xseq :=
  do a <- opt_string l; do b <- opt_string r;
  Ok (sing_str (match split_once b a with Some (_, y) => y | None => [] end)).

(* func.rs 1054-1058: fn_boolean *)
Definition fn_boolean (s : xseq) : res xseq := do b <- effective_boolean_value s; Ok (sing_bool b).

(* func.rs 1104-1157: fn_name, fn_local_name, fn_namespace_uri *)
Definition fn_of_node (f : nat -> res str) (s : xseq) : res xseq :=
  match s with
  | [] => Ok (sing_str [])
  | _ => match get_singleton_node s with
         | Ok i => do t <- f i; Ok (sing_str t)
         | _ => Err DynamicError
         end
  end.
(* func.rs 1094-1103 *)
Definition fn_name (h : heap) := fn_of_node (fun i => Ok (n_name (get h i))).
(* func.rs 1115-1124 *)
Definition fn_local_name (h : heap) := fn_of_node (fun i => Ok (local_name h i)).
(* func.rs 1136-1145 *)
Definition fn_namespace_uri (h : heap) := fn_of_node (namespace_uri h).

(* func.rs 1179-1186: the first ancestor-or-self (from the root) with an xml:lang attribute *)
Fixpoint first_lang (h : heap) (l : list nat) : str :=
  match l with
  | [] => []
  | i :: l' => match attribute_value h i (lit "xml:lang") with
               | Some v => to_lower v
               | None => first_lang h l'
               end
  end.
(* func.rs 1157-1176: fn_lang *)
Definition fn_lang (h : heap) (lang node : xseq) : res xseq :=
  match lang with
  | [] => Ok (sing_str [])
  | _ => do t <- get_singleton_string lang;
         do i <- get_singleton_node node;
         do anc <- array_ancestor_or_self h i;
         let v := first_lang h anc in
         let v0 := match split_once (lit "-") v with Some (x, _) => x | None => v end in
         Ok (sing_bool (str_eqb v0 t))
  end.

(* func.rs 1188-1200: fn_root *)
Definition fn_root (h : heap) (s : xseq) : res xseq :=
  match s with
  | [] => Ok []
  | _ => match get_singleton_node s with
         | Ok i => do r <- root h i; Ok [XINode r]
         | _ => Err DynamicError
         end
  end.

(* func.rs 1212-1214: fn_empty, fn_exists, fn_head, fn_tail *)
Definition fn_empty (s : xseq) : res xseq := Ok (sing_bool (List.length s =? 0)%nat).
(* func.rs 1220-1222 *)
Definition fn_exists (s : xseq) : res xseq := Ok (sing_bool (negb (List.length s =? 0)%nat)).
(* func.rs 1228-1235 *)
Definition fn_head (s : xseq) : res xseq := Ok (match s with [] => [] | it :: _ => [it] end).
(* func.rs 1241-1251 *)
Definition fn_tail (s : xseq) : res xseq := Ok (match s with [] => [] | _ :: r => r end).

(* func.rs 1259-1280: fn_insert_before *)
Definition fn_insert_before (target pos inserts : xseq) : res xseq :=
  do p <- get_singleton_integer pos;
  do p1 <- chk (p - 1);
  let p2 := if p1 <=? 0 then 0 else p1 in
  let p3 := if zlen target <=? p2 then zlen target else p2 in
  let k := Z.to_nat p3 in
  Ok (firstn k target ++ inserts ++ skipn k target).

(* func.rs 1286-1296: fn_remove *)
Fixpoint remove_loop (n : nat) (p : Z) (l : xseq) : xseq :=
  match l with
  | [] => []
  | it :: l' => if Z.of_nat (n + 1) =? p then remove_loop (S n) p l' else it :: remove_loop (S n) p l'
  end.
(* func.rs 1286-1296 *)
Definition fn_remove (target pos : xseq) : res xseq :=
  do p <- get_singleton_integer pos; Ok (remove_loop 0 (p mod 2 ^ 64) target).

(* func.rs 1302-1306: fn_reverse *)
Definition fn_reverse (s : xseq) : res xseq := Ok (rev s).

(* func.rs 1316-1338: fn_subsequence *)
Definition fn_subsequence (h : heap) (s start : xseq) (len : option xseq) : res xseq :=
  match s with
  | [] => Ok []
  | _ => do st <- start_of h start;
         do ln <- get_length h len;
         do (b, e) <- subcollection_index_sub (List.length s) st ln;
         Ok (slice s b e)
  end.

(* func.rs 1351-1361: fn_index_of *)
Fixpoint index_of_loop (h : heap) (i : Z) (l : xseq) (srch : xseq) : res xseq :=
  match l with
  | [] => Ok []
  | v :: l' => do x <- value_compare_eq h [v] srch;
               do b <- get_singleton_boolean x;
               do r <- index_of_loop h (i + 1) l' srch;
               Ok (if b then XIInteger (i + 1) :: r else r)
  end.
(* func.rs 1351-1361 *)
Definition fn_index_of (h : heap) (s srch : xseq) : res xseq := index_of_loop h 0 s srch.

(* func.rs 1370-1399 *)
Definition fn_zero_or_one (s : xseq) : res xseq := if (List.length s <=? 1)%nat then Ok s else Err DynamicError.
(* func.rs 1382-1388 *)
Definition fn_one_or_more (s : xseq) : res xseq := if (1 <=? List.length s)%nat then Ok s else Err DynamicError.
(* func.rs 1394-1400 *)
Definition fn_exactly_one (s : xseq) : res xseq := if (List.length s =? 1)%nat then Ok s else Err DynamicError.

(* func.rs 1409-1411: fn_count *)
Definition fn_count (s : xseq) : res xseq := Ok (sing_int (zlen s)).

(* func.rs 1483-1503: fn_sum *)
Fixpoint sum_loop (h : heap) (val : xitem) (l : xseq) : res xitem :=
  match l with
  | [] => Ok val
  | n :: l' => do v <- (if is_numeric n then xitem_numeric_add val n
                        else do d <- cast_item h n (lit "double"); xitem_numeric_add val d);
               sum_loop h v l'
  end.
(* func.rs 1483-1503 *)
Definition fn_sum (h : heap) (s : xseq) (zero : option xseq) : res xseq :=
  match s with
  | [] => match zero with None => Ok (sing_int 0) | Some z => Ok z end
  | _ => do v <- sum_loop h (XIInteger 0) s; Ok [v]
  end.
(* func.rs 1421-1431: fn_avg *)
Definition fn_avg (h : heap) (s : xseq) : res xseq :=
  match s with
  | [] => Ok []
  | _ => do t <- fn_sum h s None;
         do v <- get_singleton_item t;
         do a <- xitem_numeric_divide v (XIInteger (zlen s));
         Ok [a]
  end.
(* func.rs 1438-1475: fn_max, fn_min *)
Fixpoint extremum_loop (cmp : xseq -> xseq -> res xseq) (m : xitem) (l : xseq) : res xitem :=
  match l with
  | [] => Ok m
  | it :: l' => do b <- cmp [m] [it];
                do t <- effective_boolean_value b;
                extremum_loop cmp (if t then it else m) l'
  end.
Definition fn_extremum (cmp : xseq -> xseq -> res xseq) (s : xseq) : res xseq :=
  match s with
  | [] => Ok []
  | m :: _ => do x <- extremum_loop cmp m s; Ok [x]
  end.
(* func.rs 1438-1452 *)
Definition fn_max (h : heap) := fn_extremum (value_compare_lt h).
(* func.rs 1459-1473 *)
Definition fn_min (h : heap) := fn_extremum (value_compare_gt h).

(* func.rs 1589-1630: map functions *)
Definition fn_map_size (s : xseq) : res xseq := do m <- get_singleton_map s; Ok (sing_int (zlen m)).
Definition fn_map_keys (s : xseq) : res xseq := do m <- get_singleton_map s; Ok (xmap_keys m).
Definition fn_map_contains (h : heap) (s k : xseq) : res xseq :=
  do m <- get_singleton_map s; do key <- get_singleton_item k; Ok (sing_bool (xmap_contains h m key)).
Definition fn_map_get (h : heap) (s k : xseq) : res xseq :=
  do m <- get_singleton_map s; do key <- get_singleton_item k;
  Ok (match xmap_get h m key with Some v => v | None => [] end).

(* func.rs 1640-1676: array functions *)
Definition fn_array_size (s : xseq) : res xseq := do a <- get_singleton_array s; Ok (sing_int (zlen a)).
Definition fn_array_get (h : heap) (s k : xseq) : res xseq :=
  do a <- get_singleton_array s; do index <- get_singleton_item k;
  Ok (match xarray_get h a index with Some v => v | None => [] end).
Definition fn_array_flatten (s : xseq) : res xseq :=
  Ok (flat_map (fun it => match it with XIArray a => xarray_flatten a | _ => [it] end) s).

(* func.rs 319-333: the call through FUNC_TBL *)
Definition arg (k : nat) (args : list xseq) (f : xseq -> res xseq) : res xseq :=
  match nth_error args k with Some s => f s | None => Panic end.
Definition call_fn (h : heap) (f : fid) (args : list xseq) : res xseq :=
  let a0 := arg 0 args in
  let a1 := arg 1 args in
  let a2 := arg 2 args in
  let opt k := nth_error args k in
  match f with
  | F_nilled => a0 (fn_nilled h)
  | F_string => a0 (fn_string h)
  | F_data => a0 (fn_data h)
  | F_abs => a0 fn_abs
  | F_ceiling => a0 fn_ceiling
  | F_floor => a0 fn_floor
  | F_round => a0 fn_round
  | F_number => a0 (fn_number h)
  | F_codepoints_to_string => a0 (fn_codepoints_to_string h)
  | F_string_to_codepoints => a0 fn_string_to_codepoints
  | F_compare => a0 (fun x => a1 (fun y => fn_compare x y))
  | F_codepoint_equal => a0 (fun x => a1 (fun y => fn_codepoint_equal x y))
  | F_concat => fn_concat h args
  | F_string_join => a0 (fun x => fn_string_join h x (opt 1%nat))
  | F_substring => a0 (fun x => a1 (fun y => fn_substring h x y (opt 2%nat)))
  | F_string_length => a0 fn_string_length
  | F_normalize_space => a0 fn_normalize_space
  | F_upper_case => a0 (fn_case to_upper)
  | F_lower_case => a0 (fn_case to_lower)
  | F_translate => a0 (fun x => a1 (fun y => a2 (fun z => fn_translate x y z)))
  | F_contains => a0 (fun x => a1 (fun y => fn_contains x y))
  | F_starts_with => a0 (fun x => a1 (fun y => fn_starts_with x y))
  | F_ends_with => a0 (fun x => a1 (fun y => fn_ends_with x y))
  | F_substring_before => a0 (fun x => a1 (fun y => fn_substring_before x y))
  | F_substring_after => a0 (fun x => a1 (fun y => fn_substring_after x y))
  | F_true => Ok (sing_bool true)
  | F_false => Ok (sing_bool false)
  | F_boolean => a0 fn_boolean
  | F_not => a0 fn_not
  | F_name => a0 (fn_name h)
  | F_local_name => a0 (fn_local_name h)
  | F_namespace_uri => a0 (fn_namespace_uri h)
  | F_lang => a0 (fun x => a1 (fun y => fn_lang h x y))
  | F_root => a0 (fn_root h)
  | F_empty => a0 fn_empty
  | F_exists => a0 fn_exists
  | F_head => a0 fn_head
  | F_tail => a0 fn_tail
  | F_insert_before => a0 (fun x => a1 (fun y => a2 (fun z => fn_insert_before x y z)))
  | F_remove => a0 (fun x => a1 (fun y => fn_remove x y))
  | F_reverse => a0 fn_reverse
  | F_subsequence => a0 (fun x => a1 (fun y => fn_subsequence h x y (opt 2%nat)))
  | F_index_of => a0 (fun x => a1 (fun y => fn_index_of h x y))
  | F_zero_or_one => a0 fn_zero_or_one
  | F_one_or_more => a0 fn_one_or_more
  | F_exactly_one => a0 fn_exactly_one
  | F_count => a0 fn_count
  | F_avg => a0 (fn_avg h)
  | F_max => a0 (fn_max h)
  | F_min => a0 (fn_min h)
  | F_sum => a0 (fun x => fn_sum h x (opt 1%nat))
  | F_map_size => a0 fn_map_size
  | F_map_keys => a0 fn_map_keys
  | F_map_contains => a0 (fun x => a1 (fun y => fn_map_contains h x y))
  | F_map_get => a0 (fun x => a1 (fun y => fn_map_get h x y))
  | F_array_size => a0 fn_array_size
  | F_array_get => a0 (fun x => a1 (fun y => fn_array_get h x y))
  | F_array_flatten => a0 fn_array_flatten
  | _ => Err CantOccur
  end.

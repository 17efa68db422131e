(* Specification of the values of function calls outside the ordinary arguments: the empty sequence, items of another type,
   and numbers that are no code points. *)
Require Import Bool List NArith ZArith Ascii String.
Require Import Coq.Floats.SpecFloat.
From Verif Require Import Str Sax Dom Lexer Parser Num Item SpecNum.
Import ListNotations.
Open Scope Z_scope.

(* ---- C33: what codepoints-to-string() makes of integers ---- *)
Definition high_surrogate (u : Z) : Prop := 55296 <= u < 56320.
Definition low_surrogate (u : Z) : Prop := 56320 <= u < 57344.
(* the number is taken as a 64-bit one without sign; below 2^16 it is one UTF-16 unit, above it the units of a pair, the first one cut to 16 bits *)
Inductive spells : list Z -> str -> Prop :=
| sp_end : spells [] []
| sp_unit : forall z zs s, z mod 2 ^ 64 < 65536 -> ~ high_surrogate (z mod 2 ^ 64) -> ~ low_surrogate (z mod 2 ^ 64) -> spells zs s ->
    spells (z :: zs) (Z.to_N (z mod 2 ^ 64) :: s)
| sp_halves : forall y z zs s, high_surrogate (y mod 2 ^ 64) -> low_surrogate (z mod 2 ^ 64) -> spells zs s ->
    spells (y :: z :: zs) (Z.to_N (65536 + (y mod 2 ^ 64 - 55296) * 1024 + (z mod 2 ^ 64 - 56320)) :: s)
| sp_wide : forall z zs s, 65536 <= z mod 2 ^ 64 -> (z mod 2 ^ 64 - 65536) mod 2 ^ 26 < 2 ^ 20 -> spells zs s ->
    spells (z :: zs) (Z.to_N (65536 + (z mod 2 ^ 64 - 65536) mod 2 ^ 26) :: s).

(* ---- C90: arguments of other types ---- *)
Definition a_string (v : xseq) : Prop := exists s, v = [XIString s].
(* the functions all of whose parameters are strings, with the number of them *)
Definition string_functions : list (str * nat) :=
  [(lit "fn:compare", 2); (lit "fn:codepoint-equal", 2); (lit "fn:string-length", 1); (lit "fn:string-to-codepoints", 1);
   (lit "fn:normalize-space", 1); (lit "fn:upper-case", 1); (lit "fn:lower-case", 1); (lit "fn:translate", 3);
   (lit "fn:contains", 2); (lit "fn:starts-with", 2); (lit "fn:ends-with", 2); (lit "fn:substring-before", 2); (lit "fn:substring-after", 2)]%nat.
(* the value of a call whose first argument is the empty sequence *)
Inductive of_empty : str -> list xseq -> res xseq -> Prop :=
(* nothing from nothing *)
| oe_nothing : forall f, In f [lit "fn:data"; lit "fn:abs"; lit "fn:ceiling"; lit "fn:floor"; lit "fn:round"; lit "fn:root"; lit "fn:nilled";
    lit "fn:head"; lit "fn:tail"; lit "fn:reverse"; lit "fn:avg"; lit "fn:max"; lit "fn:min"; lit "fn:string-to-codepoints";
    lit "fn:zero-or-one"; lit "array:flatten"] -> of_empty f [] (Ok [])
| oe_nothing2 : forall f x, In f [lit "fn:compare"; lit "fn:codepoint-equal"; lit "fn:subsequence"; lit "fn:index-of"] -> of_empty f [x] (Ok [])
| oe_subsequence3 : forall x y, of_empty (lit "fn:subsequence") [x; y] (Ok [])
(* the empty string *)
| oe_text : forall f, In f [lit "fn:string"; lit "fn:codepoints-to-string"; lit "fn:string-join"; lit "fn:normalize-space"; lit "fn:upper-case";
    lit "fn:lower-case"; lit "fn:name"; lit "fn:local-name"; lit "fn:namespace-uri"] -> of_empty f [] (Ok [XIString []])
| oe_join : forall s, of_empty (lit "fn:string-join") [[XIString s]] (Ok [XIString []])
| oe_substring : forall x, of_empty (lit "fn:substring") [x] (Ok [XIString []])
| oe_substring3 : forall x y, of_empty (lit "fn:substring") [x; y] (Ok [XIString []])
| oe_translate : forall x y, of_empty (lit "fn:translate") [x; y] (Ok [XIString []])
(* numbers and truth values *)
| oe_number : of_empty (lit "fn:number") [] (Ok [XIDouble f_nan])
| oe_zero : forall f, In f [lit "fn:string-length"; lit "fn:count"; lit "fn:sum"] -> of_empty f [] (Ok [XIInteger 0])
| oe_sum2 : forall z, of_empty (lit "fn:sum") [z] (Ok z)
| oe_false : forall f, In f [lit "fn:boolean"; lit "fn:exists"] -> of_empty f [] (Ok [XIBoolean false])
| oe_true : forall f, In f [lit "fn:not"; lit "fn:empty"] -> of_empty f [] (Ok [XIBoolean true])
(* an integer position is needed even so *)
| oe_remove : forall p, of_empty (lit "fn:remove") [[XIInteger p]] (Ok [])
| oe_insert : forall p x, - 2 ^ 63 < p < 2 ^ 63 -> of_empty (lit "fn:insert-before") [[XIInteger p]; x] (Ok x)
(* errors *)
| oe_one : forall f, In f [lit "fn:one-or-more"; lit "fn:exactly-one"] -> of_empty f [] (Err DynamicError)
| oe_collection : forall f, In f [lit "map:size"; lit "map:keys"; lit "array:size"] -> of_empty f [] (Err TypeError)
| oe_lookup : forall f x, In f [lit "map:contains"; lit "map:get"; lit "array:get"] -> of_empty f [x] (Err TypeError).
(* the functions for which the empty sequence is as good as the empty string *)
Definition lenient_functions : list str :=
  [lit "fn:contains"; lit "fn:starts-with"; lit "fn:ends-with"; lit "fn:substring-before"; lit "fn:substring-after"].
Definition an_integer (v : xseq) : Prop := exists z, v = [XIInteger z].
Definition a_map (v : xseq) : Prop := exists m, v = [XIMap m].
Definition an_array (v : xseq) : Prop := exists a, v = [XIArray a].
Definition a_number (v : xseq) : Prop := an_integer v \/ (exists d, v = [XIDecimal d]) \/ (exists d, v = [XIDouble d]).
Definition several (v : xseq) : Prop := exists a b r, v = a :: b :: r.
(* calls in which an argument has no type the parameter allows, not even after conversion *)
Inductive mistyped : str -> list xseq -> Prop :=
| mt_lenient1 : forall f x y, In f lenient_functions -> x <> [] -> ~ a_string x -> mistyped f [x; y]
| mt_lenient2 : forall f x y, In f lenient_functions -> y <> [] -> ~ a_string y -> mistyped f [x; y]
| mt_translate2 : forall x y z, x <> [] -> ~ a_string y -> mistyped (lit "fn:translate") [x; y; z]
| mt_translate3 : forall x y z, x <> [] -> ~ a_string z -> mistyped (lit "fn:translate") [x; y; z]
| mt_substring : forall x y, x <> [] -> ~ a_string x -> mistyped (lit "fn:substring") [x; y]
| mt_substring3 : forall x y z, x <> [] -> ~ a_string x -> mistyped (lit "fn:substring") [x; y; z]
| mt_start : forall s y, y = [] \/ several y -> mistyped (lit "fn:substring") [[XIString s]; y]
| mt_start2 : forall x y, x <> [] -> y = [] \/ several y -> mistyped (lit "fn:subsequence") [x; y]
| mt_separator : forall x y, ~ a_string y -> mistyped (lit "fn:string-join") [x; y]
| mt_string : forall x, several x -> mistyped (lit "fn:string") [x]
| mt_concat : forall x y, several x -> mistyped (lit "fn:concat") [x; y]
| mt_remove : forall x y, ~ an_integer y -> mistyped (lit "fn:remove") [x; y]
| mt_insert : forall x y z, ~ an_integer y -> mistyped (lit "fn:insert-before") [x; y; z]
| mt_map1 : forall f x, In f [lit "map:size"; lit "map:keys"] -> ~ a_map x -> mistyped f [x]
| mt_map2 : forall f x y, In f [lit "map:contains"; lit "map:get"] -> ~ a_map x -> mistyped f [x; y]
| mt_key : forall f m y, In f [lit "map:contains"; lit "map:get"] -> y = [] \/ several y -> mistyped f [[XIMap m]; y]
| mt_array1 : forall x, ~ an_array x -> mistyped (lit "array:size") [x]
| mt_array2 : forall x y, ~ an_array x -> mistyped (lit "array:get") [x; y]
| mt_index : forall a y, y = [] \/ several y -> mistyped (lit "array:get") [[XIArray a]; y]
| mt_nilled : forall x, x <> [] -> (forall i, x <> [XINode i]) -> mistyped (lit "fn:nilled") [x].

(* ---- C55: what round() makes of a finite number ---- *)
(* below 2^52 the nearest integer, except for the number just below one half; from 2^52 on every number is an integer, and the odd ones go up by one *)
Inductive program_rounds : f64 -> Z -> Prop :=
| pr_moderate : forall x r, moderate_f64 x -> nearest x r -> program_rounds x r
| pr_below_half : program_rounds (S754_finite false 9007199254740991 (-54)) 1
| pr_even : forall x z, is_f64 x -> has_value x z -> 2 ^ 52 <= Z.abs z -> Z.Even z -> program_rounds x z
| pr_odd : forall x z, is_f64 x -> has_value x z -> 2 ^ 52 <= Z.abs z -> Z.Odd z -> program_rounds x (z + 1).
(* ---- C28: what `as i64` makes of an integer: the nearest one of 64 bits ---- *)
Definition saturated (z : Z) : Z := Z.max (- 2 ^ 63) (Z.min (2 ^ 63 - 1) z).
(* the least position, or the sum of position and length, does not fit in 64 bits *)
Definition overflows (i j : Z) : Prop := saturated i = - 2 ^ 63 \/ 2 ^ 63 <= saturated i + saturated j.

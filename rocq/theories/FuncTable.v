(* Model of the tables of src/xpath_impl/func.rs: which functions exist, with which numbers of arguments. *)
Require Import Bool List NArith Ascii String.
From Verif Require Import Str.
Import ListNotations.

(* one constructor per Rust function named in the tables of func.rs 153-277; the C_ ones come from
   FUNC_CONTEXT_TBL and receive the context sequence and the environment *)
Inductive fid : Type :=
| C_nilled_0 | C_string_0 | C_data_0 | C_number_0 | C_string_length_0 | C_normalize_space_0
 | C_name_0 | C_local_name_0 | C_namespace_uri_0 | C_lang_1 | C_root_0 | C_position | C_last
 | C_for_each | C_filter | F_nilled | F_string | F_data | F_abs | F_ceiling | F_floor | F_round
 | F_number | F_codepoints_to_string | F_string_to_codepoints | F_compare | F_codepoint_equal
 | F_concat | F_string_join | F_substring | F_string_length | F_normalize_space | F_upper_case
 | F_lower_case | F_translate | F_contains | F_starts_with | F_ends_with | F_substring_before
 | F_substring_after | F_true | F_false | F_boolean | F_not | F_name | F_local_name
 | F_namespace_uri | F_lang | F_root | F_empty | F_exists | F_head | F_tail | F_insert_before
 | F_remove | F_reverse | F_subsequence | F_index_of | F_zero_or_one | F_one_or_more | F_exactly_one
 | F_count | F_avg | F_max | F_min | F_sum | F_map_size | F_map_keys | F_map_contains | F_map_get
 | F_array_size | F_array_get | F_array_flatten.

(* func.rs 153-187: FUNC_CONTEXT_TBL.  [None] stands for M = usize::MAX, "any number". *)
Definition func_context_tbl : list (option nat * str * fid) := [
  (Some 0%nat, lit "fn:nilled", C_nilled_0);
  (Some 0%nat, lit "fn:string", C_string_0);
  (Some 0%nat, lit "fn:data", C_data_0);
  (Some 0%nat, lit "fn:number", C_number_0);
  (Some 0%nat, lit "fn:string-length", C_string_length_0);
  (Some 0%nat, lit "fn:normalize-space", C_normalize_space_0);
  (Some 0%nat, lit "fn:name", C_name_0);
  (Some 0%nat, lit "fn:local-name", C_local_name_0);
  (Some 0%nat, lit "fn:namespace-uri", C_namespace_uri_0);
  (Some 1%nat, lit "fn:lang", C_lang_1);
  (Some 0%nat, lit "fn:root", C_root_0);
  (Some 0%nat, lit "fn:position", C_position);
  (Some 0%nat, lit "fn:last", C_last);
  (Some 2%nat, lit "fn:for-each", C_for_each);
  (Some 2%nat, lit "fn:filter", C_filter)].
(* func.rs 191-275: FUNC_TBL *)
Definition func_tbl : list (option nat * str * fid) := [
  (Some 1%nat, lit "fn:nilled", F_nilled);
  (Some 1%nat, lit "fn:string", F_string);
  (Some 1%nat, lit "fn:data", F_data);
  (Some 1%nat, lit "fn:abs", F_abs);
  (Some 1%nat, lit "fn:ceiling", F_ceiling);
  (Some 1%nat, lit "fn:floor", F_floor);
  (Some 1%nat, lit "fn:round", F_round);
  (Some 1%nat, lit "fn:number", F_number);
  (Some 1%nat, lit "fn:codepoints-to-string", F_codepoints_to_string);
  (Some 1%nat, lit "fn:string-to-codepoints", F_string_to_codepoints);
  (Some 2%nat, lit "fn:compare", F_compare);
  (Some 2%nat, lit "fn:codepoint-equal", F_codepoint_equal);
  (None, lit "fn:concat", F_concat);
  (Some 1%nat, lit "fn:string-join", F_string_join);
  (Some 2%nat, lit "fn:string-join", F_string_join);
  (Some 2%nat, lit "fn:substring", F_substring);
  (Some 3%nat, lit "fn:substring", F_substring);
  (Some 1%nat, lit "fn:string-length", F_string_length);
  (Some 1%nat, lit "fn:normalize-space", F_normalize_space);
  (Some 1%nat, lit "fn:upper-case", F_upper_case);
  (Some 1%nat, lit "fn:lower-case", F_lower_case);
  (Some 3%nat, lit "fn:translate", F_translate);
  (Some 2%nat, lit "fn:contains", F_contains);
  (Some 2%nat, lit "fn:starts-with", F_starts_with);
  (Some 2%nat, lit "fn:ends-with", F_ends_with);
  (Some 2%nat, lit "fn:substring-before", F_substring_before);
  (Some 2%nat, lit "fn:substring-after", F_substring_after);
  (Some 0%nat, lit "fn:true", F_true);
  (Some 0%nat, lit "fn:false", F_false);
  (Some 1%nat, lit "fn:boolean", F_boolean);
  (Some 1%nat, lit "fn:not", F_not);
  (Some 1%nat, lit "fn:name", F_name);
  (Some 1%nat, lit "fn:local-name", F_local_name);
  (Some 1%nat, lit "fn:namespace-uri", F_namespace_uri);
  (Some 2%nat, lit "fn:lang", F_lang);
  (Some 1%nat, lit "fn:root", F_root);
  (Some 1%nat, lit "fn:empty", F_empty);
  (Some 1%nat, lit "fn:exists", F_exists);
  (Some 1%nat, lit "fn:head", F_head);
  (Some 1%nat, lit "fn:tail", F_tail);
  (Some 3%nat, lit "fn:insert-before", F_insert_before);
  (Some 2%nat, lit "fn:remove", F_remove);
  (Some 1%nat, lit "fn:reverse", F_reverse);
  (Some 2%nat, lit "fn:subsequence", F_subsequence);
  (Some 3%nat, lit "fn:subsequence", F_subsequence);
  (Some 2%nat, lit "fn:index-of", F_index_of);
  (Some 1%nat, lit "fn:zero-or-one", F_zero_or_one);
  (Some 1%nat, lit "fn:one-or-more", F_one_or_more);
  (Some 1%nat, lit "fn:exactly-one", F_exactly_one);
  (Some 1%nat, lit "fn:count", F_count);
  (Some 1%nat, lit "fn:avg", F_avg);
  (Some 1%nat, lit "fn:max", F_max);
  (Some 1%nat, lit "fn:min", F_min);
  (Some 1%nat, lit "fn:sum", F_sum);
  (Some 2%nat, lit "fn:sum", F_sum);
  (Some 1%nat, lit "map:size", F_map_size);
  (Some 1%nat, lit "map:keys", F_map_keys);
  (Some 2%nat, lit "map:contains", F_map_contains);
  (Some 2%nat, lit "map:get", F_map_get);
  (Some 1%nat, lit "array:size", F_array_size);
  (Some 2%nat, lit "array:get", F_array_get);
  (Some 1%nat, lit "array:flatten", F_array_flatten)].

(* func.rs 279-297: check_function_spec, and 319-333, the same search returning the function *)
Definition row_matches (name : str) (n : nat) (row : option nat * str * fid) : bool :=
  let '(k, m, _) := row in
  match k with
  | Some k => Nat.eqb k n && str_eqb m name
  | None => str_eqb m name
  end.
Definition find_function (name : str) (n : nat) : option fid :=
  match find (row_matches name n) (func_context_tbl ++ func_tbl) with
  | Some (_, _, f) => Some f
  | None => None
  end.
Definition check_function_spec (name : str) (n : nat) : bool :=
  match find_function name n with Some _ => true | None => false end.

(* func.rs 28-119: FUNC_SIGNATURE_TBL *)
Definition func_signature_tbl : list (str * str) := [
  (lit "fn:nilled#0", lit "function() as xs:boolean?");
  (lit "fn:nilled#1", lit "function(node()?) as xs:boolean?");
  (lit "fn:string#0", lit "function() as xs:string");
  (lit "fn:string#1", lit "function(item()?) as xs:string");
  (lit "fn:data#0", lit "function() as xs:anyAtomicType*");
  (lit "fn:data#1", lit "function(item()*) as xs:anyAtomicType*");
  (lit "fn:abs#1", lit "function(numeric?) as numeric?");
  (lit "fn:ceiling#1", lit "function(numeric?) as numeric?");
  (lit "fn:floor#1", lit "function(numeric?) as numeric?");
  (lit "fn:round#1", lit "function(numeric?) as numeric?");
  (lit "fn:number#0", lit "function() as xs:double");
  (lit "fn:number#1", lit "function(xs:anyAtomicType?) as xs:double");
  (lit "fn:codepoints-to-string#1", lit "function(xs:integer*) as xs:string");
  (lit "fn:string-to-codepoints#1", lit "function(xs:string*) as xs:integer*");
  (lit "fn:compare#2", lit "function(xs:string?, xs:string?) as xs:integer?");
  (lit "fn:compare#3", lit "function(xs:string?, xs:string?, xs:string) as xs:integer?");
  (lit "fn:codepoint-equal#2", lit "function(xs:string?, xs:string?) as xs:boolean?");
  (lit "fn:concat#2", lit "function(xs:anyAtomicType?, xs:anyAtomicType?) as xs:string");
  (lit "fn:string-join#1", lit "function(xs:string*) as xs:string");
  (lit "fn:string-join#2", lit "function(xs:string*, xs:string) as xs:string");
  (lit "fn:substring#2", lit "function(xs:string?, xs:double) as xs:string");
  (lit "fn:substring#3", lit "function(xs:string?, xs:double, xs:double) as xs:string");
  (lit "fn:string-length#0", lit "function() as xs:integer");
  (lit "fn:string-length#1", lit "function(xs:string?) as xs:integer");
  (lit "fn:normalize-space#0", lit "function() as xs:integer");
  (lit "fn:normalize-space#1", lit "function(xs:string?) as xs:integer");
  (lit "fn:upper-case#1", lit "function(xs:string?) as xs:string");
  (lit "fn:lower-case#1", lit "function(xs:string?) as xs:string");
  (lit "fn:translate#3", lit "function(xs:string?, xs:string, xs:string) as xs:string");
  (lit "fn:contains#2", lit "function(xs:string?, xs:string?) as xs:boolean");
  (lit "fn:contains#3", lit "function(xs:string?, xs:string?, xs:string) as xs:boolean");
  (lit "fn:starts-with#2", lit "function(xs:string?, xs:string?) as xs:boolean");
  (lit "fn:starts-with#3", lit "function(xs:string?, xs:string?, xs:string) as xs:boolean");
  (lit "fn:ends-with#2", lit "function(xs:string?, xs:string?) as xs:boolean");
  (lit "fn:ends-with#3", lit "function(xs:string?, xs:string?, xs:string) as xs:boolean");
  (lit "fn:substring-before#2", lit "function(xs:string?, xs:string?) as xs:string");
  (lit "fn:substring-before#3", lit "function(xs:string?, xs:string?, xs:string) as xs:string");
  (lit "fn:substring-after#2", lit "function(xs:string?, xs:string?) as xs:string");
  (lit "fn:substring-after#3", lit "function(xs:string?, xs:string?, xs:string) as xs:string");
  (lit "fn:true#0", lit "function() as xs:boolean");
  (lit "fn:false#0", lit "function() as xs:boolean");
  (lit "fn:boolean#1", lit "function(item()*) as xs:boolean");
  (lit "fn:not#1", lit "function(item()*) as xs:boolean");
  (lit "fn:name#0", lit "function() as xs:string");
  (lit "fn:name#1", lit "function(node()?) as xs:string");
  (lit "fn:local-name#0", lit "function() as xs:string");
  (lit "fn:local-name#1", lit "function(node()?) as xs:string");
  (lit "fn:namespace-uri#0", lit "function() as xs:anyURI");
  (lit "fn:namespace-uri#1", lit "function(node()?) as xs:anyURI");
  (lit "fn:lang#1", lit "function(xs:string?) as xs:boolean");
  (lit "fn:lang#2", lit "function(xs:string?, node()) as xs:boolean");
  (lit "fn:root#0", lit "function() as node()");
  (lit "fn:root#1", lit "function(node()?) as node()?");
  (lit "fn:empty#1", lit "function(item()*) as xs:boolean");
  (lit "fn:exists#1", lit "function(item()*) as xs:boolean");
  (lit "fn:head#1", lit "function(item()*) as item()?");
  (lit "fn:tail#1", lit "function(item()*) as item()*");
  (lit "fn:insert-before#3", lit "function(item()*, xs:integer, item()*) as item()*");
  (lit "fn:remove#2", lit "function(item()*, xs:integer) as item()*");
  (lit "fn:reverse#1", lit "function(item()*) as item()*");
  (lit "fn:subsequence#2", lit "function(item()*, xs:double) as item()*");
  (lit "fn:subsequence#3", lit "function(item()*, xs:double, xs:double) as item()*");
  (lit "fn:index-of#2", lit "function(xs:anyAtomicType*, xs:anyAtomicType) as xs:integer*");
  (lit "fn:index-of#3", lit "function(xs:anyAtomicType*, xs:anyAtomicType, xs:string) as xs:integer*");
  (lit "fn:zero-or-one#1", lit "function(item()*) as item()?");
  (lit "fn:one-or-more#1", lit "function(item()*) as item()?");
  (lit "fn:exactly-one#1", lit "function(item()*) as item()?");
  (lit "fn:count#1", lit "function(item()*) as xs:integer");
  (lit "fn:avg#1", lit "function(xs:anyAtomicType*) as xs:anyAtomicType?");
  (lit "fn:max#1", lit "function(xs:anyAtomicType*) as xs:anyAtomicType?");
  (lit "fn:max#2", lit "function(xs:anyAtomicType*, xs:string) as xs:anyAtomicType?");
  (lit "fn:min#1", lit "function(xs:anyAtomicType*) as xs:anyAtomicType?");
  (lit "fn:min#2", lit "function(xs:anyAtomicType*, xs:string) as xs:anyAtomicType?");
  (lit "fn:sum#1", lit "function(xs:anyAtomicType*) as xs:anyAtomicType?");
  (lit "fn:sum#2", lit "function(xs:anyAtomicType*, xs:anyAtomicType?) as xs:anyAtomicType?");
  (lit "fn:position#0", lit "function() as xs:integer");
  (lit "fn:last#0", lit "function() as xs:integer");
  (lit "fn:for-each#2", lit "function(item()*, function(item()) as item()*) as item()*");
  (lit "fn:filter#2", lit "function(item()*, function(item()) as xs:boolean) as item()*");
  (lit "map:size#1", lit "function(map(*)) as xs:integer");
  (lit "map:keys#1", lit "function(map(*)) as xs:anyAtomicType*");
  (lit "map:contains#2", lit "function(map(*), xs:anyAtomicType) as xs:boolean");
  (lit "map:get#2", lit "function(map(*), xs:anyAtomicType) as item()*");
  (lit "array:size#1", lit "function(array(*)) as xs:integer");
  (lit "array:get#2", lit "function(array(*), xs:integer) as item()*");
  (lit "array:flatten#1", lit "function(item()*) as item()*")].
(* func.rs 123-130: get_function_signature *)
Fixpoint signature_lookup (n : str) (l : list (str * str)) : str :=
  match l with
  | [] => []
  | (m, s) :: l' => if str_eqb m n then s else signature_lookup n l'
  end.
Definition get_function_signature (n : str) : str := signature_lookup n func_signature_tbl.

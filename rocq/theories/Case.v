(* Case conversion of strings, as done by Rust's str::to_uppercase and str::to_lowercase, which
   amxml calls in src/xpath_impl/func.rs 840, 853 and 1168.  The mappings themselves are data of the
   Unicode standard (CaseTable.v, generated from version 14.0.0; the Rust release amxml is built with
   decides which version applies). *)
Require Import Bool List NArith.
Require Import Verif.Str Verif.CaseTable.
Import ListNotations.
Open Scope N_scope.

(* a character's single-character mapping *)
Fixpoint range_map (t : list (N * N * N * N)) (c : char) : option char :=
  match t with
  | [] => None
  | (a, b, st, d) :: t' =>
      if ((a <=? c) && (c <=? b) && ((c - a) mod st =? 0)) then Some (d + (c - a)) else range_map t' c
  end.
(* a character's mapping to several characters *)
Fixpoint multi_map (t : list (N * list N)) (c : char) : option str :=
  match t with
  | [] => None
  | (a, w) :: t' => if c =? a then Some w else multi_map t' c
  end.
Definition case_map (t : list (N * N * N * N)) (m : list (N * list N)) (c : char) : str :=
  match range_map t c with
  | Some d => [d]
  | None => match multi_map m c with Some w => w | None => [c] end
  end.
(* func.rs 840, 853, 1168 through Rust's char::to_uppercase, char::to_lowercase *)
Definition upper_char : char -> str := case_map upper_ranges upper_multi.
Definition lower_char : char -> str := case_map lower_ranges lower_multi.
(* func.rs 840: str::to_uppercase *)
Definition to_upper (s : str) : str := flat_map upper_char s.

Definition in_ranges (t : list (N * N)) (c : char) : bool := existsb (fun p => (fst p <=? c) && (c <=? snd p)) t.
(* func.rs 853, 1168: the final sigma rule of Rust's str::to_lowercase (case_ignorable_then_cased) *)
Fixpoint then_cased (s : str) : bool :=
  match s with
  | [] => false
  | c :: r => if in_ranges ignorable_ranges c then then_cased r else in_ranges cased_ranges c
  end.
(* func.rs 853, 1168: str::to_lowercase; [before] is the text read so far, last character first *)
Fixpoint lower_from (before s : str) : str :=
  match s with
  | [] => []
  | c :: r =>
      (if c =? 931 then [if then_cased before && negb (then_cased r) then 962 else 963] else lower_char c)
      ++ lower_from (c :: before) r
  end.
Definition to_lower (s : str) : str := lower_from [] s.

(* Strings and the few Rust std string operations the crate uses.
   A Rust `char` is a Unicode scalar value, here a binary natural [N]; a Rust `String`/`&str`
   is seen through `.chars()`, i.e. as a list of scalar values.  (UTF-8 encoding is not modelled:
   every operation used by the crate is defined character-wise.) *)
Require Import Bool List NArith Ascii String.
Import ListNotations.
Open Scope N_scope.

Notation char := N (only parsing).
Notation str := (list N) (only parsing).

(* ASCII literals: [lit "abc"] is the list of the three code points. *)
Fixpoint lit (s : string) : str :=
  match s with
  | EmptyString => []
  | String a r => N_of_ascii a :: lit r
  end.

Definition ch (a : ascii) : char := N_of_ascii a.

Fixpoint str_eqb (a b : str) : bool :=
  match a, b with
  | [], [] => true
  | x :: a', y :: b' => N.eqb x y && str_eqb a' b'
  | _, _ => false
  end.

(* Outcome of a Rust function: `Ok`, `Err` with the kind of src/xmlerror.rs lines 16-24,
   a panic (out-of-bounds index, `unwrap` on `None`, integer overflow / division by zero in a
   debug build), or out of fuel (the model did not finish within the given number of steps). *)
Inductive errkind :=
| CantOccur | Unimplemented | XmlSyntaxError | XPathSyntaxError
| StaticError | DynamicError | TypeError.

Inductive res (A : Type) :=
| Ok (a : A)
| Err (e : errkind)
| Panic
| Fuel.
Arguments Ok {A} a.
Arguments Err {A} e.
Arguments Panic {A}.
Arguments Fuel {A}.

Definition bind {A B} (r : res A) (f : A -> res B) : res B :=
  match r with
  | Ok a => f a
  | Err e => Err e
  | Panic => Panic
  | Fuel => Fuel
  end.
Notation "'do' x <- r ; k" := (bind r (fun x => k))
  (at level 200, x pattern, r at level 100, k at level 200).

(* str::strip_prefix / starts_with *)
Fixpoint strip_prefix (pat s : str) : option str :=
  match pat, s with
  | [], _ => Some s
  | p :: pat', c :: s' => if N.eqb p c then strip_prefix pat' s' else None
  | _ :: _, [] => None
  end.

Definition starts_with (s pat : str) : bool :=
  match strip_prefix pat s with Some _ => true | None => false end.

(* s.splitn(2, pat): [Some (before, after)] around the first occurrence of [pat],
   [None] when the pattern does not occur (the Rust vector then has length 1). *)
Fixpoint split_once (pat s : str) : option (str * str) :=
  match strip_prefix pat s with
  | Some r => Some ([], r)
  | None =>
      match s with
      | [] => None
      | c :: s' =>
          match split_once pat s' with
          | Some (b, a) => Some (c :: b, a)
          | None => None
          end
      end
  end.

(* str::replace(pat, rep) for a non-empty pattern: leftmost, non-overlapping occurrences.
   [skip] is the number of characters of the current occurrence still to be dropped. *)
Fixpoint replace_aux (pat rep : str) (skip : nat) (s : str) : str :=
  match s with
  | [] => []
  | c :: s' =>
      match skip with
      | S k => replace_aux pat rep k s'
      | O => if starts_with s pat
             then rep ++ replace_aux pat rep (List.length pat - 1) s'
             else c :: replace_aux pat rep 0 s'
      end
  end.
Definition replace (pat rep s : str) : str := replace_aux pat rep 0 s.

Definition mem_char (c : char) (s : str) : bool := existsb (N.eqb c) s.

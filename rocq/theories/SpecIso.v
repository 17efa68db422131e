(* What it means for two results, from two documents, to be the same up to the identity of the nodes. *)
Require Import Bool List NArith ZArith.
From Verif Require Import Str Sax Dom SpecTree Parser Num Item.
Import ListNotations.
Open Scope nat_scope.

(* node [i] of the first document and node [j] of the second are at the same place: the [k]th in document order *)
Definition same_place (t t' : tree) (i j : nat) : Prop :=
  exists k, nth_error (ids t) k = Some i /\ nth_error (ids t') k = Some j.

(* two items are the same, a node being the same as the node at the same place *)
Inductive same_item (N : nat -> nat -> Prop) : xitem -> xitem -> Prop :=
| si_node : forall i j, N i j -> same_item N (XINode i) (XINode j)
| si_function : forall x, same_item N (XIFun x) (XIFun x)
| si_map : forall m m', Forall2 (fun e e' => same_item N (fst e) (fst e') /\ Forall2 (same_item N) (snd e) (snd e')) m m' ->
    same_item N (XIMap m) (XIMap m')
| si_array : forall a a', Forall2 (Forall2 (same_item N)) a a' -> same_item N (XIArray a) (XIArray a')
| si_string : forall s, same_item N (XIString s) (XIString s)
| si_integer : forall z, same_item N (XIInteger z) (XIInteger z)
| si_decimal : forall f, same_item N (XIDecimal f) (XIDecimal f)
| si_double : forall f, same_item N (XIDouble f) (XIDouble f)
| si_boolean : forall b, same_item N (XIBoolean b) (XIBoolean b).

(* two outcomes are the same: related values, or the same error, or both a panic, or both still running *)
Definition same_outcome {A B} (P : A -> B -> Prop) (r : res A) (r' : res B) : Prop :=
  match r, r' with
  | Ok a, Ok b => P a b
  | Err k, Err k' => k = k'
  | Panic, Panic | Fuel, Fuel => True
  | _, _ => False
  end.

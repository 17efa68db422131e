(* Specification-level notions about token streams and terminated markup. *)
Require Import Bool List NArith ZArith.
From Verif Require Import Str Sax.
Import ListNotations.

(* [open_tags ts st]: reading [ts], every end tag closes the most recently opened, still open element
   and carries its name; [st] lists the elements still open at the end, innermost first. *)
Inductive open_tags : list token -> list str -> Prop :=
| ot_nil : open_tags [] []
| ot_start : forall ts st n a, open_tags ts st -> open_tags (ts ++ [TStart n a]) (n :: st)
| ot_end : forall ts st n, open_tags ts (n :: st) -> open_tags (ts ++ [TEnd n]) st
| ot_other : forall ts st t, open_tags ts st ->
    (forall n a, t <> TStart n a) -> (forall n, t <> TEnd n) -> open_tags (ts ++ [t]) st.

Definition balanced (ts : list token) : Prop := open_tags ts [].

(* Every < is followed, somewhere later, by a > after which no quote occurs. *)
Definition terminated (s : str) : Prop :=
  forall u v, s = u ++ 60%N :: v ->
  exists v1 v2, v = v1 ++ 62%N :: v2 /\ ~ In 34%N v2 /\ ~ In 39%N v2.

Definition without_cr (s : str) : str := filter (fun c => negb (N.eqb c 13)) s.

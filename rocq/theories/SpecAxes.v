(* Specification of document order and of the XPath axes, in terms of parent(), children() and
   attributes() only. *)
Require Import Bool List NArith ZArith Sorted.
From Verif Require Import Str Dom SpecEdit.
Import ListNotations.
Open Scope nat_scope.

(* the non-attribute nodes below (and including) [i], in document order *)
Inductive node_order (h : heap) : nat -> list nat -> Prop :=
| no_node : forall i ls, node_orders h (children h i) ls -> node_order h i (i :: ls)
with node_orders (h : heap) : list nat -> list nat -> Prop :=
| no_nil : node_orders h [] []
| no_cons : forall c cs l ls, node_order h c l -> node_orders h cs ls -> node_orders h (c :: cs) (l ++ ls).

Inductive ancestor (h : heap) : nat -> nat -> Prop :=
| anc_parent : forall n p, parent h n = Some p -> ancestor h p n
| anc_up : forall n p a, parent h n = Some p -> ancestor h a p -> ancestor h a n.
Inductive descendant (h : heap) : nat -> nat -> Prop :=
| desc_child : forall n c, In c (children h n) -> descendant h c n
| desc_down : forall n c d, In c (children h n) -> descendant h d c -> descendant h d n.

(* [order] is the list of all non-attribute nodes of the document in document order *)
Definition following_of (h : heap) (order : list nat) (x n : nat) : Prop :=
  before order n x /\ ~ descendant h x n.
Definition preceding_of (h : heap) (order : list nat) (x n : nat) : Prop :=
  before order x n /\ ~ ancestor h x n.
Definition following_sibling_of (h : heap) (x n : nat) : Prop :=
  exists p, parent h n = Some p /\ before (children h p) n x.
Definition preceding_sibling_of (h : heap) (x n : nat) : Prop :=
  exists p, parent h n = Some p /\ before (children h p) x n.

(* [l] lists exactly the nodes satisfying [P], in document order and without repetition *)
Definition exactly (order : list nat) (P : nat -> Prop) (l : list nat) : Prop :=
  (forall x, In x l <-> P x) /\ StronglySorted (before order) l.

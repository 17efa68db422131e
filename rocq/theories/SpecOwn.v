(* Specification vocabulary for the lifetime of nodes. *)
Require Import List.
From Verif Require Import Str Sax Dom Own.
Import ListNotations.

(* what can be reached from a node by children() and attributes() *)
Inductive reaches (h : heap) (i : nat) : nat -> Prop :=
| reaches_self : reaches h i i
| reaches_down : forall j c, reaches h i j -> In c (children h j ++ attributes h j) -> reaches h i c.
(* kept: reachable from a handle the program holds *)
Definition kept (w : world) (j : nat) : Prop := exists i, In i (w_held w) /\ reaches (w_heap w) i j.
(* a node is alive until it is freed *)
Definition alive (w : world) (j : nat) : Prop := j < List.length (w_heap w) /\ ~ In j (w_freed w).
(* the ancestors of a node, by its upward pointers *)
Inductive above (h : heap) : nat -> nat -> Prop :=
| above_parent : forall i p, parent h i = Some p -> above h i p
| above_up : forall i p a, parent h i = Some p -> above h p a -> above h i a.
(* no node is below itself *)
Definition acyclic (h : heap) : Prop := forall i c, In c (children h i ++ attributes h i) -> ~ reaches h c i.
(* the operations that follow upward pointers, and the node they start from *)
Definition climbs (o : op) : option nat :=
  match o with
  | Parse _ | Clone _ | Drop _ | Child _ _ | Attr _ _ => None
  | Up i | Root i | RootElement i | Append i _ | InsertPrev i _ | InsertNext i _ | DeleteChild i _ | ReplaceWith i _
  | SetAttr i _ _ | DelAttr i _ | Order i => Some i
  end.

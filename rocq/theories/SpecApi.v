(* Specification of the query functions of the API: eval_xpath, get_nodeset, get_first_node, each_node, and the
   accessors of Sequence and Item. *)
Require Import Bool List NArith ZArith Ascii String.
From Verif Require Import Str Sax Dom Num Item Eval SpecOper.
Import ListNotations.

(* [l]: the nodes among the items, in their order *)
Inductive nodes_among : list xitem -> list nat -> Prop :=
| na_nil : nodes_among [] []
| na_node : forall i v l, nodes_among v l -> nodes_among (XINode i :: v) (i :: l)
| na_other : forall it v l, (forall i, it <> XINode i) -> nodes_among v l -> nodes_among (it :: v) l.
(* the closure, called for each of [l] in turn, takes the state [a] to [b] *)
Inductive called {A} (func : A -> nat -> A) : A -> list nat -> A -> Prop :=
| cl_nil : forall a, called func a [] a
| cl_cons : forall a i l b, called func (func a i) l b -> called func a (i :: l) b.
(* the call ends with [o] *)
Definition nodeset_gives (h : heap) (i : nat) (s : str) (o : res (list nat)) : Prop :=
  o <> Fuel /\ exists n, get_nodeset n h i s = o.
Definition first_gives (h : heap) (i : nat) (s : str) (o : res (option nat)) : Prop :=
  o <> Fuel /\ exists n, get_first_node n h i s = o.
Definition each_gives {A} (h : heap) (i : nat) (s : str) (func : A -> nat -> A) (a : A) (o : res A) : Prop :=
  o <> Fuel /\ exists n, each_node n h i s func a = o.

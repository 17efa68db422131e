(* Specification of prefix and namespace resolution. *)
Require Import Bool List NArith ZArith Ascii String.
From Verif Require Import Str Dom.
Import ListNotations.
Open Scope nat_scope.

(* [i], parent of [i], grandparent, ... up to the document root (or a node without parent) *)
Inductive ancestry (h : heap) : nat -> list nat -> Prop :=
| an_top : forall i, parent h i = None \/ n_type (get h i) = DocumentRoot -> ancestry h i [i]
| an_up : forall i p l, n_type (get h i) <> DocumentRoot -> parent h i = Some p -> ancestry h p l -> ancestry h i (i :: l).

(* element [e] carries attribute [name] with value [v] (the document root is not an element) *)
Definition declares (h : heap) (name : str) (e : nat) (v : str) : Prop :=
  n_type (get h e) <> DocumentRoot /\ attribute_value h e name = Some v.

(* the declaration an element or attribute name refers to *)
Inductive declaration_name : str -> str -> Prop :=
| dn_plain : forall n, ~ In 58%N n -> declaration_name n (lit "xmlns")
| dn_prefix : forall p l, p <> [] -> ~ In 58%N p -> declaration_name (p ++ lit ":" ++ l) (lit "xmlns:" ++ p).

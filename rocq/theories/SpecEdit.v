(* Specification vocabulary for DOM editing. *)
Require Import Bool List NArith ZArith.
From Verif Require Import Str Sax Dom.
Import ListNotations.
Open Scope nat_scope.

(* Node cells are only ever created below an existing parent and list existing cells. *)
Definition heap_ok (h : heap) : Prop := forall j, j < List.length h ->
  (forall p, parent h j = Some p -> p < j) /\
  (forall c, In c (children h j ++ attributes h j) -> c < List.length h).

(* what a user can see of a node, i.e. everything except its document-order number *)
Definition same_node (a b : node) : Prop :=
  n_type a = n_type b /\ n_name a = n_name b /\ n_value a = n_value b /\
  n_parent a = n_parent b /\ n_children a = n_children b /\ n_attrs a = n_attrs b.

Definition unchanged_except (h h' : heap) (except : nat -> Prop) : Prop :=
  forall j, j < List.length h -> ~ except j -> same_node (get h' j) (get h j).

Definition attr_names (h : heap) (i : nat) : list str :=
  map (fun a => n_name (get h a)) (attributes h i).

(* names after setting attribute [n]: in place if present, appended otherwise *)
Definition names_after_set (n : str) (names : list str) : list str :=
  if existsb (str_eqb n) names then names else names ++ [n].

Fixpoint remove_first (n : str) (names : list str) : list str :=
  match names with
  | [] => []
  | m :: r => if str_eqb n m then r else m :: remove_first n r
  end.

(* Every heap a program can have built: documents parsed (into a heap that already holds others) and
   any sequence of edits with arguments that are existing nodes. *)
Inductive reachable : heap -> Prop :=
| reach_empty : reachable []
| reach_parse : forall h h' xml fuel, reachable h ->
    doc_loop fuel (sax_new xml) (fst (make_new_rc_node h DocumentRoot None [] [])) (List.length h) = Ok h' ->
    reachable h'
| reach_append : forall h h' i c, reachable h -> i < List.length h -> c < List.length h ->
    append_child h i c = Ok h' -> reachable h'
| reach_prev : forall h h' i c, reachable h -> i < List.length h -> c < List.length h ->
    insert_as_previous_sibling h i c = Ok h' -> reachable h'
| reach_next : forall h h' i c, reachable h -> i < List.length h -> c < List.length h ->
    insert_as_next_sibling h i c = Ok h' -> reachable h'
| reach_delete : forall h h' i c, reachable h -> i < List.length h -> c < List.length h ->
    delete_child h i c = Ok h' -> reachable h'
| reach_replace : forall h h' i c, reachable h -> i < List.length h -> c < List.length h ->
    replace_with h i c = Ok h' -> reachable h'
| reach_set_attr : forall h h' i n v, reachable h -> i < List.length h ->
    set_attribute h i n v = Ok h' -> reachable h'
| reach_del_attr : forall h h' i n, reachable h -> i < List.length h ->
    delete_attribute h i n = Ok h' -> reachable h'
| reach_order : forall h h' i z, reachable h -> i < List.length h ->
    document_order h i = Ok (z, h') -> reachable h'.

(* the attribute list of an element after setting / deleting an attribute *)
Fixpoint set_pair (n v : str) (l : list (str * str)) : list (str * str) :=
  match l with
  | [] => [(n, v)]
  | (m, w) :: r => if str_eqb n m then (n, v) :: r else (m, w) :: set_pair n v r
  end.
Fixpoint drop_pair (n : str) (l : list (str * str)) : list (str * str) :=
  match l with
  | [] => []
  | (m, w) :: r => if str_eqb n m then r else (m, w) :: drop_pair n r
  end.

(* nodes that can be reached from the document root [r] by children() *)
Inductive attached (h : heap) (r : nat) : nat -> Prop :=
| att_root : attached h r r
| att_child : forall p c, attached h r p -> In c (children h p) -> attached h r c.
(* ... and the attributes of such nodes: all nodes of the document *)
Definition in_document (h : heap) (r i : nat) : Prop :=
  attached h r i \/ exists p, attached h r p /\ In i (attributes h p).

(* A program that parses a document and then edits it: attributes are set and deleted, children
   deleted, nodes without children and attributes inserted, and document-order numbers queried,
   in any order and any number of times. *)
Inductive session : heap -> Prop :=
| ses_parse : forall xml h, new_document xml = Ok h -> session h
| ses_set : forall h h' i n v, session h -> attached h 0 i -> set_attribute h i n v = Ok h' -> session h'
| ses_del_attr : forall h h' i n, session h -> attached h 0 i -> delete_attribute h i n = Ok h' -> session h'
| ses_delete : forall h h' i c, session h -> attached h 0 i -> delete_child h i c = Ok h' -> session h'
| ses_prev : forall h h' i x, session h -> attached h 0 i -> x < List.length h ->
    children h x = [] -> attributes h x = [] ->
    insert_as_previous_sibling h i x = Ok h' -> session h'
| ses_next : forall h h' i x, session h -> attached h 0 i -> x < List.length h ->
    children h x = [] -> attributes h x = [] ->
    insert_as_next_sibling h i x = Ok h' -> session h'
| ses_order : forall h h' i z, session h -> in_document h 0 i ->
    document_order h i = Ok (z, h') -> session h'.

(* preorder of the document below node [i], computed from children() and attributes() only *)
Inductive preorder (h : heap) : nat -> list nat -> Prop :=
| pre_node : forall i ls, preorders h (children h i) ls -> preorder h i (i :: attributes h i ++ ls)
with preorders (h : heap) : list nat -> list nat -> Prop :=
| pre_nil : preorders h [] []
| pre_cons : forall c cs l ls, preorder h c l -> preorders h cs ls -> preorders h (c :: cs) (l ++ ls).
(* [i] comes before [j] in list [l] *)
Definition before (l : list nat) (i j : nat) : Prop := exists a b c, l = a ++ i :: b ++ j :: c.

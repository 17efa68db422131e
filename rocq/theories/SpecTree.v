(* Specification-level trees: what it means for a heap of nodes to be a document, what its abstract
   content is, and which contents can be written as XML text at all. *)
Require Import Bool List NArith ZArith Ascii String.
From Verif Require Import Str Chars Dom.
Import ListNotations.
Open Scope nat_scope.

(* A document tree: node identity, kind, name, value, attributes (identity, name, value), children. *)
Inductive tree : Type :=
| T (id : nat) (ty : node_type) (name value : str)
    (attrs : list (nat * (str * str))) (kids : list tree).

Definition tid (t : tree) : nat := let (i, _, _, _, _, _) := t in i.
Definition tty (t : tree) : node_type := let (_, y, _, _, _, _) := t in y.
Definition tname (t : tree) : str := let (_, _, n, _, _, _) := t in n.
Definition tvalue (t : tree) : str := let (_, _, _, v, _, _) := t in v.
Definition tattrs (t : tree) : list (nat * (str * str)) := let (_, _, _, _, a, _) := t in a.
Definition tkids (t : tree) : list tree := let (_, _, _, _, _, k) := t in k.

(* preorder: the node, its attributes, then its children's subtrees *)
Fixpoint ids (t : tree) : list nat :=
  match t with T i _ _ _ ats ks => i :: map fst ats ++ flat_map ids ks end.

(* the node cell of an attribute of element [e] *)
Definition attr_rep (h : heap) (e : nat) (a : nat * (str * str)) : Prop :=
  fst a < List.length h /\
  exists o, get h (fst a) = mkNode Attribute o (fst (snd a)) (snd (snd a)) (Some e) [] [].

(* [rep h par t]: in heap [h], cell [tid t] is the root of a tree [t] hanging below [par]: kinds, names,
   values, child and attribute lists agree with [t], and every child's and attribute's parent pointer
   is the node that lists it.  Document-order numbers are unconstrained. *)
Inductive rep (h : heap) (par : option nat) : tree -> Prop :=
| rep_T : forall i ty nm v ats ks o,
    i < List.length h ->
    get h i = mkNode ty o nm v par (map tid ks) (map fst ats) ->
    Forall (attr_rep h i) ats ->
    Forall (rep h (Some i)) ks ->
    rep h par (T i ty nm v ats ks).

(* A well-linked document: the tree hangs below nothing and no node occurs twice. *)
Definition document (h : heap) (t : tree) : Prop := rep h None t /\ NoDup (ids t).

(* Content without node identity. *)
Inductive xtree : Type :=
| X (ty : node_type) (name value : str) (attrs : list (str * str)) (kids : list xtree).

Fixpoint erase (t : tree) : xtree :=
  match t with T _ ty nm v ats ks => X ty nm v (map snd ats) (map erase ks) end.

Definition xty (x : xtree) : node_type := let (y, _, _, _, _) := x in y.

(* ---- contents that can be written as XML text ---- *)
Definition no_char (c : N) (s : str) : Prop := ~ In c s.
(* representable characters: no U+0000 (not an XML character) and no carriage return (normalised away
   by every XML reader) *)
Definition text_ok (s : str) : Prop := no_char 0%N s /\ no_char 13%N s.
Definition contains (p s : str) : Prop := exists u v, s = u ++ p ++ v.
Definition legal_name (n : str) : Prop :=
  match n with
  | [] => False
  | c :: r => is_name_first_char c = true /\ Forall (fun x => is_name_char x = true) r
  end.
Definition starts_with_space (s : str) : Prop :=
  match s with [] => False | c :: _ => is_space c = true end.

Definition is_text (x : xtree) : Prop := xty x = Text.

Fixpoint no_adjacent_text (l : list xtree) : Prop :=
  match l with
  | [] => True
  | x :: l' => match l' with
               | [] => True
               | y :: _ => ~ (is_text x /\ is_text y) /\ no_adjacent_text l'
               end
  end.

Inductive clean : xtree -> Prop :=
| clean_elem : forall nm ats ks,
    legal_name nm ->
    Forall (fun a => legal_name (fst a) /\ text_ok (snd a)) ats ->
    Forall clean ks -> no_adjacent_text ks ->
    clean (X Element nm [] ats ks)
| clean_text : forall v, v <> [] -> text_ok v -> clean (X Text [] v [] [])
| clean_comment : forall v, text_ok v -> ~ contains (lit "-->") v -> clean (X Comment [] v [] [])
| clean_decl : forall v, text_ok v -> ~ contains (lit "?>") v -> ~ starts_with_space v ->
    clean (X XMLDecl (lit "xml") v [] [])
| clean_pi : forall nm v, legal_name nm -> nm <> lit "xml" ->
    text_ok v -> ~ contains (lit "?>") v -> ~ starts_with_space v ->
    clean (X Instruction nm v [] []).

Inductive clean_doc : xtree -> Prop :=
| clean_root : forall ks, Forall clean ks -> no_adjacent_text ks ->
    clean_doc (X DocumentRoot [] [] [] ks).

(* What a user of the DOM sees of a well-linked document with root [r] whose nodes are those in [dom],
   in terms of parent(), children(), attributes() and root() only. *)
Record well_linked (h : heap) (r : nat) (dom : nat -> Prop) : Prop := mkWL {
  wl_root : dom r /\ parent h r = None;
  (* everything listed is a node of the document, and its parent() is the node listing it *)
  wl_down : forall p c, dom p -> In c (children h p ++ attributes h p) -> dom c /\ parent h c = Some p;
  (* nothing is listed twice *)
  wl_once : forall p, dom p -> NoDup (children h p ++ attributes h p);
  (* every node but the root is listed by its parent() *)
  wl_up : forall c, dom c -> c <> r ->
          exists p, dom p /\ parent h c = Some p /\ In c (children h p ++ attributes h p);
  (* root() of every node is the root *)
  wl_reach : forall c, dom c -> root h c = Ok r
}.

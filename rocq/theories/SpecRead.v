(* Specification of XML text: which texts spell which document (XML 1.0, productions 1, 15, 16, 18-21, 27, 28, 39-44).
   Carriage returns are taken to be removed beforehand. *)
Require Import Bool List NArith Ascii String.
From Verif Require Import Str Chars Dom SpecText SpecTree.
Import ListNotations.
Open Scope N_scope.

Definition spaces_text (w : str) : Prop := Forall (fun c => c = 32 \/ c = 9 \/ c = 10) w.
(* character data and attribute values: references as in SpecText; the ampersand is not written as a numeric reference *)
Definition stands_for (s v : str) : Prop := denotes (fun u => u <> 38) s v /\ ~ In 0 s.

(* name = 'value', after at least one space *)
Inductive attribute_text : str * str -> str -> Prop :=
| at_text : forall w1 n w2 w3 q s v, w1 <> [] -> spaces_text w1 -> legal_name n -> spaces_text w2 -> spaces_text w3 ->
    q = 34 \/ q = 39 -> ~ In q s -> stands_for s v ->
    attribute_text (n, v) (w1 ++ n ++ w2 ++ 61 :: w3 ++ q :: s ++ [q]).
Inductive attributes_text : list (str * str) -> str -> Prop :=
| ats_nil : attributes_text [] []
| ats_cons : forall a l s t, attribute_text a s -> attributes_text l t -> attributes_text (a :: l) (s ++ t).

(* the inside of a declaration <!...>: brackets are balanced *)
Inductive bracketed : str -> Prop :=
| br_nil : bracketed []
| br_char : forall c s, c <> 0 -> c <> 60 -> c <> 62 -> bracketed s -> bracketed (c :: s)
| br_nest : forall s t, bracketed s -> bracketed t -> bracketed (60 :: s ++ 62 :: t).

(* [node_text x plain s]: s spells the node x; plain: as character data that goes on until the next "<".
   [nodes_text l starts s]: s spells the nodes l; starts: with character data. *)
Inductive node_text : xtree -> bool -> str -> Prop :=
| nt_chars : forall s v, s <> [] -> ~ In 60 s -> stands_for s v -> node_text (X Text [] v [] []) true s
| nt_cdata : forall v, ~ In 0 v -> ~ contains (lit "]]>") v ->
    node_text (X Text [] v [] []) false (lit "<![CDATA[" ++ v ++ lit "]]>")
| nt_comment : forall v, ~ In 0 v -> ~ contains (lit "-->") v ->
    node_text (X Comment [] v [] []) false (lit "<!--" ++ v ++ lit "-->")
| nt_pi : forall n w v, legal_name n -> n <> lit "xml" -> w <> [] -> spaces_text w -> ~ starts_with_space v -> ~ In 0 v ->
    ~ contains (lit "?>") v -> node_text (X Instruction n v [] []) false (lit "<?" ++ n ++ w ++ v ++ lit "?>")
| nt_decl : forall w v, w <> [] -> spaces_text w -> ~ starts_with_space v -> ~ In 0 v ->
    ~ contains (lit "?>") v -> node_text (X XMLDecl (lit "xml") v [] []) false (lit "<?xml" ++ w ++ v ++ lit "?>")
| nt_empty : forall n ats s w, legal_name n -> attributes_text ats s -> spaces_text w ->
    node_text (X Element n [] ats []) false ([60] ++ n ++ s ++ w ++ lit "/>")
| nt_element : forall n ats s w l b t w', legal_name n -> attributes_text ats s -> spaces_text w ->
    nodes_text l b t -> spaces_text w' ->
    node_text (X Element n [] ats l) false ([60] ++ n ++ s ++ w ++ [62] ++ t ++ lit "</" ++ n ++ w' ++ [62])
with nodes_text : list xtree -> bool -> str -> Prop :=
| ns_nil : nodes_text [] false []
| ns_node : forall x p s l b t, node_text x p s -> nodes_text l b t -> (p = true -> b = false) ->
    nodes_text (x :: l) p (s ++ t)
| ns_declaration : forall c d l b t, is_name_first_char c = true -> bracketed d -> nodes_text l b t ->
    nodes_text l false (lit "<!" ++ c :: d ++ [62] ++ t).

(* a document: any sequence of nodes *)
Definition document_text (x : xtree) (s : str) : Prop :=
  exists l b, x = X DocumentRoot [] [] [] l /\ nodes_text l b s.

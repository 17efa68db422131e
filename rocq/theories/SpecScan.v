(* Specification of the reader's own grammar: how ANY text (not only well-formed XML) is cut into tokens, and when a start tag is
   still unfinished at the end of the text.  Compare the XML productions quoted in src/sax.rs 178-241.  Carriage returns are taken
   to be removed beforehand; the texts considered contain no U+0000. *)
Require Import Bool List NArith Ascii String.
From Verif Require Import Str Chars Sax Dom SpecTree SpecRead.
Import ListNotations.
Open Scope N_scope.

Definition starts_with_name (s : str) : Prop := match s with [] => False | c :: _ => is_name_first_char c = true end.
Definition starts_with_name_char (s : str) : Prop := match s with [] => False | c :: _ => is_name_char c = true end.

(* the text n ++ k begins with the name n and n is as long as possible; n is empty when no name begins there *)
Definition name_then (n k : str) : Prop :=
  (n = [] /\ ~ starts_with_name k) \/ (legal_name n /\ ~ starts_with_name_char k).

(* name = "value" or name = 'value'; spaces around the = are allowed; [x] is the value as written *)
Inductive attr_spelled (n x : str) : str -> Prop :=
| as_spelled : forall w1 w2 q, legal_name n -> spaces_text w1 -> spaces_text w2 -> q = 34 \/ q = 39 -> ~ In q x ->
    attr_spelled n x (n ++ w1 ++ 61 :: w2 ++ q :: x ++ [q]).

(* The part of a start tag after its name.  [tag_rest l empty s k]: s goes on to the end of the tag and k follows it; l are the
   attributes (name, value as written); [empty]: the tag ends in />.  Between attributes ONE character of any kind is passed over
   (that is how the program steps over the space), so stray characters are ignored. *)
Inductive tag_rest : list (str * str) -> bool -> str -> str -> Prop :=
| tr_none : forall w s l b k, spaces_text w -> ~ starts_with_space s -> ~ starts_with_name s ->
    tag_after l b s k -> tag_rest l b (w ++ s) k
| tr_attr : forall w n x t s l b k, spaces_text w -> attr_spelled n x t ->
    tag_after l b s k -> tag_rest ((n, x) :: l) b (w ++ t ++ s) k
with tag_after : list (str * str) -> bool -> str -> str -> Prop :=
| ta_close : forall k, tag_after [] false (62 :: k) k
| ta_empty : forall k, tag_after [] true (47 :: 62 :: k) k
| ta_step : forall c l b s k, c <> 62 -> c <> 47 -> tag_rest l b s k -> tag_after l b (c :: s) k.

(* ... and the part of a start tag after its name when the text ends before the tag does *)
Inductive tag_open : str -> Prop :=
| to_none : forall w s, spaces_text w -> ~ starts_with_space s -> ~ starts_with_name s -> tag_open_after s -> tag_open (w ++ s)
| to_attr : forall w n x t s, spaces_text w -> attr_spelled n x t -> tag_open_after s -> tag_open (w ++ t ++ s)
with tag_open_after : str -> Prop :=
| toa_end : tag_open_after []
| toa_step : forall c s, c <> 62 -> c <> 47 -> tag_open s -> tag_open_after (c :: s).

(* what follows < in a start tag *)
Definition start_like (s : str) : Prop := match s with [] => False | c :: _ => c <> 47 /\ c <> 63 /\ c <> 33 end.

(* [markup ts s k]: s begins with one piece of text or markup, which gives the tokens ts; k follows it.  [dec] replaces the
   references in a text (C01, C02, C03). *)
Inductive markup (dec : str -> str) : list token -> str -> str -> Prop :=
| mk_text : forall x k, x <> [] -> ~ In 60 x -> k = [] \/ (exists k', k = 60 :: k') -> markup dec [TChar (dec x)] (x ++ k) k
| mk_cdata : forall x k, ~ contains (lit "]]>") x -> markup dec [TChar x] (lit "<![CDATA[" ++ x ++ lit "]]>" ++ k) k
| mk_comment : forall x k, ~ contains (lit "-->") x -> markup dec [TComment x] (lit "<!--" ++ x ++ lit "-->" ++ k) k
| mk_pi : forall n w x k, name_then n (w ++ x ++ lit "?>" ++ k) -> spaces_text w -> ~ starts_with_space x ->
    ~ contains (lit "?>") x -> markup dec [TPI n x] (lit "<?" ++ n ++ w ++ x ++ lit "?>" ++ k) k
| mk_declaration : forall c d k, c <> 45 -> c <> 91 -> bracketed d ->
    markup dec [TDirective (lit "<!" ++ c :: d ++ [62])] (lit "<!" ++ c :: d ++ [62] ++ k) k
| mk_end : forall n x k, name_then n (x ++ [62] ++ k) -> ~ In 62 x -> markup dec [TEnd n] (lit "</" ++ n ++ x ++ [62] ++ k) k
| mk_start : forall n s l k, start_like (n ++ s) -> name_then n s -> tag_rest l false s k ->
    markup dec [TStart n (map (fun a => (fst a, dec (snd a))) l)] ([60] ++ n ++ s) k
| mk_empty : forall n s l k, start_like (n ++ s) -> name_then n s -> tag_rest l true s k -> n <> [] ->
    markup dec [TStart n (map (fun a => (fst a, dec (snd a))) l); TEnd n] ([60] ++ n ++ s) k
| mk_nameless : forall s l k, start_like s -> ~ starts_with_name s -> tag_rest l true s k ->
    markup dec [TStart [] (map (fun a => (fst a, dec (snd a))) l)] ([60] ++ s) k.

(* [scan ts s k]: reading s gives the tokens ts, up to the point where k is left *)
Inductive scan (dec : str -> str) : list token -> str -> str -> Prop :=
| sc_nil : forall s, scan dec [] s s
| sc_more : forall ts s k us r, markup dec ts s k -> scan dec us k r -> scan dec (ts ++ us) s r.

(* the text ends inside a start tag *)
Definition unfinished (s : str) : Prop := exists n r, s = [60] ++ n ++ r /\ start_like (n ++ r) /\ name_then n r /\ tag_open r.

(* The nodes that a sequence of tokens describes.  [content]: every element is closed. *)
Inductive content : list token -> list xtree -> Prop :=
| ct_nil : content [] []
| ct_text : forall s ts l, content ts l -> content (TChar s :: ts) (X Text [] s [] [] :: l)
| ct_comment : forall s ts l, content ts l -> content (TComment s :: ts) (X Comment [] s [] [] :: l)
| ct_decl : forall s ts l, content ts l -> content (TPI (lit "xml") s :: ts) (X XMLDecl (lit "xml") s [] [] :: l)
| ct_pi : forall n s ts l, n <> lit "xml" -> content ts l -> content (TPI n s :: ts) (X Instruction n s [] [] :: l)
| ct_declaration : forall s ts l, content ts l -> content (TDirective s :: ts) l
| ct_element : forall n a ts l us m, content ts l -> content us m ->
    content (TStart n a :: ts ++ TEnd n :: us) (X Element n [] a l :: m).
(* elements may be left open at the end: they reach to the end *)
Inductive open_content : list token -> list xtree -> Prop :=
| oc_closed : forall ts l, content ts l -> open_content ts l
| oc_open : forall ts l n a us m, content ts l -> open_content us m ->
    open_content (ts ++ TStart n a :: us) (l ++ [X Element n [] a m]).
(* outside all elements a nameless end tag is passed over *)
Inductive top_content : list token -> list xtree -> Prop :=
| tc_open : forall ts l, open_content ts l -> top_content ts l
| tc_stray : forall ts l us m, content ts l -> top_content us m -> top_content (ts ++ TEnd [] :: us) (l ++ m).

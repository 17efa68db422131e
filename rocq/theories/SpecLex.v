(* Specification of XPath string literals, white space and comments, from the grammar alone. *)
Require Import Bool List NArith ZArith Ascii String.
From Verif Require Import Str.
Import ListNotations.
Open Scope N_scope.

(* [116] StringLiteral: enclose in the quote character [q], doubling every occurrence of it *)
Definition quote (q : char) (s : str) : str :=
  q :: flat_map (fun c => if c =? q then [q; q] else [c]) s ++ [q].

(* [121] Comment ::= "(:" (CommentContents | Comment)* ":)".  A content character must not begin a
   delimiter together with what follows it. *)
Definition begins (p s : str) : Prop := exists r, s = p ++ r.
Inductive comment : str -> Prop :=
| cm_comment : forall b, comment_body b -> comment (lit "(:" ++ b ++ lit ":)")
with comment_body : str -> Prop :=
| cb_nil : comment_body []
| cb_comment : forall c b, comment c -> comment_body b -> comment_body (c ++ b)
| cb_char : forall c b, c <> 0 -> comment_body b ->
    ~ begins (lit "(:") (c :: b ++ lit ":)") -> ~ begins (lit ":)") (c :: b ++ lit ":)") ->
    comment_body (c :: b).
Scheme comment_mind := Induction for comment Sort Prop
  with comment_body_mind := Induction for comment_body Sort Prop.

Definition space_char (c : char) : Prop := c = 32 \/ c = 9 \/ c = 13 \/ c = 10.
(* any mixture of white space and comments *)
Inductive ignorable : str -> Prop :=
| ig_nil : ignorable []
| ig_space : forall c w, space_char c -> ignorable w -> ignorable (c :: w)
| ig_comment : forall c w, comment c -> ignorable w -> ignorable (c ++ w).

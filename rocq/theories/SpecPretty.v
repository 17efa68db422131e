(* What pretty printing may do to a document: only white space around tags and text may differ. *)
Require Import Bool List NArith ZArith Ascii String.
From Verif Require Import Str Chars Dom SpecTree.
Import ListNotations.
Open Scope N_scope.

Fixpoint drop_space (s : str) : str :=
  match s with
  | [] => []
  | c :: s' => if is_space c then drop_space s' else s
  end.
Definition trim (s : str) : str := rev (drop_space (rev (drop_space s))).

Definition blank_text (x : xtree) : bool :=
  match x with X Text _ [] _ _ => true | _ => false end.
(* text trimmed, white-space-only text removed; everything else as it is *)
Fixpoint normal (x : xtree) : xtree :=
  match x with
  | X ty nm v ats ks =>
      X ty nm (if node_type_eqb ty Text then trim v else v) ats
        (filter (fun k => negb (blank_text k)) (map normal ks))
  end.

(* The pieces a document is written in, each with its depth: a tag, a text, a comment, ... *)
Definition attr_text (a : str * str) : str :=
  lit " " ++ fst a ++ lit "=" ++ [34] ++ encode_entity (snd a) ++ [34].
Fixpoint pieces (d : nat) (x : xtree) : list (nat * str) :=
  match x with
  | X ty nm v ats ks =>
      match ty with
      | DocumentRoot => flat_map (pieces d) ks
      | Element =>
          let start := lit "<" ++ nm ++ flat_map attr_text ats in
          match ks with
          | [] => [(d, start ++ lit "/>")]
          | _ => (d, start ++ lit ">") :: flat_map (pieces (S d)) ks ++ [(d, lit "</" ++ nm ++ lit ">")]
          end
      | Text => [(d, encode_entity v)]
      | Comment => [(d, lit "<!--" ++ v ++ lit "-->")]
      | XMLDecl => [(d, lit "<?xml " ++ v ++ lit "?>")]
      | Instruction => [(d, lit "<?" ++ nm ++ lit " " ++ v ++ lit "?>")]
      | Attribute | Directive => []
      end
  end.
(* one piece per line, indented by four spaces per level *)
Definition line (p : nat * str) : str := repeat 32 (4 * fst p) ++ snd p ++ [10].

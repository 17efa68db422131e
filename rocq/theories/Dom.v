(* Model of src/dom.rs: the document object model.

   Representation: an `Rc<Node>` is an index into a heap (a list of node records, allocation appends);
   `Rc::ptr_eq` is equality of indices; a `Weak<Node>` parent pointer is an index too.
   Simplification: deallocation is not modelled (a heap cell is never freed), so `upgrade().unwrap()`
   on a parent pointer always succeeds in the model.
   Loops that follow parent pointers or recurse into children carry fuel; [S (length h)] is always
   enough when the pointers form a tree (DomFacts). *)
Require Import Bool List NArith ZArith Ascii String.
From Verif Require Import Str Chars Sax.
Import ListNotations.
Open Scope nat_scope.

(* src/dom.rs 102-112 *)
Inductive node_type :=
| DocumentRoot | Element | Text | Comment | XMLDecl | Instruction | Attribute | Directive.

Definition node_type_eqb (a b : node_type) : bool :=
  match a, b with
  | DocumentRoot, DocumentRoot | Element, Element | Text, Text | Comment, Comment
  | XMLDecl, XMLDecl | Instruction, Instruction | Attribute, Attribute
  | Directive, Directive => true
  | _, _ => false
  end.

(* src/dom.rs 117-125 *)
Record node := mkNode {
  n_type : node_type;
  n_order : Z;
  n_name : str;
  n_value : str;
  n_parent : option nat;
  n_children : list nat;
  n_attrs : list nat
}.

Definition heap := list node.

Definition dummy_node : node := mkNode DocumentRoot 0 [] [] None [] [].
Definition get (h : heap) (i : nat) : node := nth i h dummy_node.

Fixpoint upd (h : heap) (i : nat) (f : node -> node) : heap :=
  match h, i with
  | [], _ => []
  | n :: h', O => f n :: h'
  | n :: h', S i' => n :: upd h' i' f
  end.

Definition set_children (l : list nat) (n : node) : node :=
  mkNode (n_type n) (n_order n) (n_name n) (n_value n) (n_parent n) l (n_attrs n).
Definition set_attrs (l : list nat) (n : node) : node :=
  mkNode (n_type n) (n_order n) (n_name n) (n_value n) (n_parent n) (n_children n) l.
Definition set_order (z : Z) (n : node) : node :=
  mkNode (n_type n) z (n_name n) (n_value n) (n_parent n) (n_children n) (n_attrs n).

(* Vec::insert / Vec::remove (indices checked by the callers) *)
Definition vec_insert {A} (k : nat) (x : A) (l : list A) : list A := firstn k l ++ x :: skipn k l.
Definition vec_remove {A} (k : nat) (l : list A) : list A := firstn k l ++ skipn (S k) l.

(* src/dom.rs 130-147: make_new_rc_node *)
Definition make_new_rc_node (h : heap) (t : node_type) (parent : option nat) (name value : str)
  : heap * nat :=
  (h ++ [mkNode t 0 name value parent [] []], List.length h).

(* src/dom.rs 152-164: make_new_child_rc_node; [hint = None] stands for usize::MAX *)
Definition make_new_child_rc_node (h : heap) (t : node_type) (parent : nat) (name value : str)
    (hint : option nat) : heap * nat :=
  let (h1, id) := make_new_rc_node h t (Some parent) name value in
  let cs := n_children (get h1 parent) in
  let cs' := match hint with
             | Some k => if k <=? List.length cs then vec_insert k id cs else cs ++ [id]
             | None => cs ++ [id]
             end in
  (upd h1 parent (set_children cs'), id).

(* src/dom.rs 196-201: the attribute nodes of a start tag *)
Fixpoint push_attrs (h : heap) (e : nat) (ats : list (str * str)) : heap :=
  match ats with
  | [] => h
  | (n, v) :: ats' =>
      let (h1, a) := make_new_rc_node h Attribute (Some e) n v in
      push_attrs (upd h1 e (set_attrs (n_attrs (get h1 e) ++ [a]))) e ats'
  end.

(* src/dom.rs 184-237: the body of the loop for one token; the current node is [curr] *)
Definition doc_step (h : heap) (curr : nat) (t : token) : res (heap * nat) :=
  match t with
  | TEOF => Ok (h, curr)
  | TStart name attr =>
      let (h1, e) := make_new_child_rc_node h Element curr name [] None in
      Ok (push_attrs h1 e attr, e)
  | TEnd name =>
      if str_eqb (n_name (get h curr)) name
      then Ok (h, match n_parent (get h curr) with Some p => p | None => curr end)
      else Err XmlSyntaxError
  | TChar s => Ok (fst (make_new_child_rc_node h Text curr [] s None), curr)
  | TPI target inst =>
      if str_eqb target (lit "xml")
      then Ok (fst (make_new_child_rc_node h XMLDecl curr (lit "xml") inst None), curr)
      else Ok (fst (make_new_child_rc_node h Instruction curr target inst None), curr)
  | TComment c => Ok (fst (make_new_child_rc_node h Comment curr [] c None), curr)
  | TDirective _ => Ok (h, curr)
  end.

(* src/dom.rs 183-238: the loop.  Any tokenizer error is re-raised as XmlSyntaxError. *)
Fixpoint doc_loop (fuel : nat) (d : decoder) (h : heap) (curr : nat) : res heap :=
  match fuel with
  | O => Fuel
  | S fuel' =>
      match raw_token fuel d with
      | Ok (TEOF, _) => Ok h
      | Ok (t, d') => do (h', curr') <- doc_step h curr t; doc_loop fuel' d' h' curr'
      | Err _ => Err XmlSyntaxError
      | Panic => Panic
      | Fuel => Fuel
      end
  end.

(* src/dom.rs 177-240: new_document; the returned NodePtr is heap cell 0, the document root *)
Definition new_document_fuel (fuel : nat) (xml : str) : res heap :=
  let (h, root) := make_new_rc_node [] DocumentRoot None [] [] in
  doc_loop fuel (sax_new xml) h root.

(* enough fuel for every input on which the program returns (PropSax.C06) *)
Definition doc_fuel (xml : str) : nat := 2 * List.length xml + 3.
(* dom.rs 177-240 *)
Definition new_document (xml : str) : res heap := new_document_fuel (doc_fuel xml) xml.

(* src/dom.rs 999-1012: encode_entity *)
Definition encode_entity (s : str) : str :=
  let s1 := replace (lit "&") (lit "&amp;") s in
  let s2 := replace (lit ">") (lit "&gt;") s1 in
  let s3 := replace (lit "<") (lit "&lt;") s2 in
  let s4 := replace [cDQ] (lit "&quot;") s3 in
  replace (lit "'") (lit "&apos;") s4.

(* src/dom.rs 1016-1018 *)
Definition nl_if_positive (n : nat) : str := match n with O => [] | S _ => [10%N] end.

Definition spaces (n : nat) : str := repeat 32%N n.

(* src/dom.rs 949-952 *)
Fixpoint attrs_string (h : heap) (ats : list nat) : str :=
  match ats with
  | [] => []
  | a :: ats' =>
      lit " " ++ n_name (get h a) ++ lit "=" ++ [cDQ] ++ encode_entity (n_value (get h a)) ++ [cDQ]
        ++ attrs_string h ats'
  end.

Fixpoint concat_opt (l : list (option str)) : option str :=
  match l with
  | [] => Some []
  | Some s :: l' => match concat_opt l' with Some r => Some (s ++ r) | None => None end
  | None :: _ => None
  end.

(* src/dom.rs 939-995: to_string_with_indent.  [None]: recursion deeper than the fuel. *)
Fixpoint to_string_with_indent (fuel : nat) (h : heap) (i : nat) (indent step : nat) : option str :=
  match fuel with
  | O => None
  | S fuel' =>
      let n := get h i in
      match n_type n with
      | DocumentRoot =>
          concat_opt (map (fun c => to_string_with_indent fuel' h c indent step) (n_children n))
      | Element =>
          let start := spaces indent ++ lit "<" ++ n_name n ++ attrs_string h (n_attrs n) in
          match n_children n with
          | [] => Some (start ++ lit "/>" ++ nl_if_positive step)
          | _ :: _ =>
              match concat_opt (map (fun c => to_string_with_indent fuel' h c (indent + step) step)
                                    (n_children n)) with
              | Some body =>
                  Some (start ++ lit ">" ++ nl_if_positive step ++ body
                        ++ spaces indent ++ lit "</" ++ n_name n ++ lit ">" ++ nl_if_positive step)
              | None => None
              end
          end
      | Text => Some (spaces indent ++ encode_entity (n_value n) ++ nl_if_positive step)
      | Comment =>
          Some (spaces indent ++ lit "<!--" ++ n_value n ++ lit "-->" ++ nl_if_positive step)
      | XMLDecl =>
          Some (spaces indent ++ lit "<?xml " ++ n_value n ++ lit "?>" ++ nl_if_positive step)
      | Instruction =>
          Some (spaces indent ++ lit "<?" ++ n_name n ++ lit " " ++ n_value n ++ lit "?>"
                ++ nl_if_positive step)
      | Attribute | Directive => Some []
      end
  end.

(* src/dom.rs 271-273, 297-299, 315-321 *)
Definition to_string (h : heap) (i : nat) : option str :=
  to_string_with_indent (S (List.length h)) h i 0 0.
(* dom.rs 297-299 *)
Definition to_pretty_string (h : heap) (i : nat) : option str :=
  to_string_with_indent (S (List.length h)) h i 0 4.
(* dom.rs 315-321 *)
Definition inner_xml (h : heap) (i : nat) : option str :=
  concat_opt (map (to_string h) (n_children (get h i))).

(* src/dom.rs 380-388: local_name; 403-411: space_name *)
Definition local_name (h : heap) (i : nat) : str :=
  match split_once (lit ":") (n_name (get h i)) with
  | Some (_, l) => l
  | None => n_name (get h i)
  end.
(* dom.rs 403-411 *)
Definition space_name (h : heap) (i : nat) : str :=
  match split_once (lit ":") (n_name (get h i)) with
  | Some (p, _) => p
  | None => []
  end.

(* src/dom.rs 871-879: find_attribute_index (None = usize::MAX) *)
Fixpoint find_attr (h : heap) (ats : list nat) (name : str) : option nat :=
  match ats with
  | [] => None
  | a :: ats' =>
      if str_eqb (n_name (get h a)) name then Some 0
      else option_map S (find_attr h ats' name)
  end.
(* dom.rs 871-879 *)
Definition find_attribute_index (h : heap) (i : nat) (name : str) : option nat :=
  find_attr h (n_attrs (get h i)) name.

(* src/dom.rs 800-808: attribute_value *)
Definition attribute_value (h : heap) (i : nat) (name : str) : option str :=
  match find_attribute_index h i name with
  | Some k => Some (n_value (get h (nth k (n_attrs (get h i)) 0)))
  | None => None
  end.

(* src/dom.rs 429-450: namespace_uri *)
Fixpoint namespace_uri_loop (fuel : nat) (h : heap) (i : nat) (xmlns_attr : str) : res str :=
  match fuel with
  | O => Fuel
  | S fuel' =>
      if node_type_eqb (n_type (get h i)) DocumentRoot then Ok []
      else match attribute_value h i xmlns_attr with
           | Some v => Ok v
           | None => match n_parent (get h i) with
                     | Some p => namespace_uri_loop fuel' h p xmlns_attr
                     | None => Ok []
                     end
           end
  end.
(* dom.rs 429-449 *)
Definition namespace_uri (h : heap) (i : nat) : res str :=
  let space := space_name h i in
  let xmlns_attr := match space with
                    | [] => lit "xmlns"
                    | _ => lit "xmlns" ++ lit ":" ++ space
                    end in
  namespace_uri_loop (S (List.length h)) h i xmlns_attr.

(* src/dom.rs 466-474: root *)
Fixpoint root_loop (fuel : nat) (h : heap) (i : nat) : res nat :=
  match fuel with
  | O => Fuel
  | S fuel' => match n_parent (get h i) with
               | Some p => root_loop fuel' h p
               | None => Ok i
               end
  end.
(* dom.rs 466-474 *)
Definition root (h : heap) (i : nat) : res nat := root_loop (S (List.length h)) h i.

(* src/dom.rs 492-500: root_element *)
Definition root_element (h : heap) (i : nat) : res nat :=
  do r <- root h i;
  match find (fun c => node_type_eqb (n_type (get h c)) Element) (n_children (get h r)) with
  | Some c => Ok c
  | None => Ok r
  end.

(* src/dom.rs 517-525, 530-537, 542-549, 555-557, 581-588 *)
Definition parent (h : heap) (i : nat) : option nat := n_parent (get h i).
(* dom.rs 530-537 *)
Definition children (h : heap) (i : nat) : list nat := n_children (get h i).
(* dom.rs 542-549 *)
Definition attributes (h : heap) (i : nat) : list nat := n_attrs (get h i).
(* dom.rs 581-588 *)
Definition nth_child (h : heap) (i n : nat) : option nat := nth_error (n_children (get h i)) n.
(* dom.rs 555-557 *)
Definition first_child (h : heap) (i : nat) : option nat := nth_child h i 0.

(* src/dom.rs 883-886: clear_document_order *)
Definition clear_document_order (h : heap) (i : nat) : res heap :=
  do r <- root h i; Ok (upd h r (set_order 0)).

(* src/dom.rs 614-619: append_child *)
Definition append_child (h : heap) (i new_child : nat) : res heap :=
  clear_document_order (upd h i (set_children (n_children (get h i) ++ [new_child]))) i.

(* src/dom.rs 774-783: find_child_index (None = usize::MAX) *)
Fixpoint find_index (x : nat) (l : list nat) : option nat :=
  match l with
  | [] => None
  | y :: l' => if Nat.eqb y x then Some 0 else option_map S (find_index x l')
  end.
(* dom.rs 774-783 *)
Definition find_child_index (h : heap) (i target : nat) : option nat :=
  find_index target (n_children (get h i)).

(* src/dom.rs 244-251: shallow_copy_rc_rels *)
Definition shallow_copy_rc_rels (h : heap) (target source : nat) : heap :=
  let src := get h source in
  let h1 := upd h target (set_children (n_children (get h target) ++ n_children src)) in
  upd h1 target (set_attrs (n_attrs (get h1 target) ++ n_attrs src)).

(* src/dom.rs 644-664 (delta = 0) and 688-708 (delta = 1) *)
Definition insert_as_sibling (delta : nat) (h : heap) (i new_node : nat) : res heap :=
  match parent h i with
  | None => Ok h
  | Some p =>
      let h' :=
        match find_child_index h p i with
        | Some n =>
            let nn := get h new_node in
            let (h1, dup) := make_new_child_rc_node h (n_type nn) p (n_name nn) (n_value nn)
                                                    (Some (n + delta)) in
            shallow_copy_rc_rels h1 dup new_node
        | None => h
        end in
      clear_document_order h' i
  end.
(* dom.rs 644-663 *)
Definition insert_as_previous_sibling := insert_as_sibling 0.
(* dom.rs 688-707 *)
Definition insert_as_next_sibling := insert_as_sibling 1.

(* src/dom.rs 730-737: delete_child *)
Definition delete_child (h : heap) (i target : nat) : res heap :=
  let h' := match find_child_index h i target with
            | Some n => upd h i (set_children (vec_remove n (n_children (get h i))))
            | None => h
            end in
  clear_document_order h' i.

(* src/dom.rs 761-769: replace_with *)
Definition replace_with (h : heap) (i new_node : nat) : res heap :=
  match parent h i with
  | None => Ok h
  | Some p =>
      do h1 <- insert_as_previous_sibling h i new_node;
      do h2 <- delete_child h1 p i;
      clear_document_order h2 i
  end.

(* src/dom.rs 829-843: set_attribute *)
Definition set_attribute (h : heap) (i : nat) (name value : str) : res heap :=
  let (h1, a) := make_new_rc_node h Attribute (Some i) name value in
  let ats := n_attrs (get h1 i) in
  let ats' := match find_attribute_index h1 i name with
              | Some k => vec_insert k a (vec_remove k ats)
              | None => ats ++ [a]
              end in
  clear_document_order (upd h1 i (set_attrs ats')) i.

(* src/dom.rs 860-867: delete_attribute *)
Definition delete_attribute (h : heap) (i : nat) (name : str) : res heap :=
  let h' := match find_attribute_index h i name with
            | Some k => upd h i (set_attrs (vec_remove k (n_attrs (get h i))))
            | None => h
            end in
  clear_document_order h' i.

(* src/dom.rs 911-914: the attribute part of setup_document_order_sub *)
Fixpoint order_attrs (h : heap) (ats : list nat) (order : Z) : heap * Z :=
  match ats with
  | [] => (h, order)
  | a :: ats' => order_attrs (upd h a (set_order order)) ats' (order + 1)%Z
  end.

(* src/dom.rs 907-920: setup_document_order_sub.  i64 overflow of the counter is not modelled
   (it needs 2^63 nodes). *)
Fixpoint setup_document_order_sub (fuel : nat) (h : heap) (i : nat) (order_beg : Z)
  : res (heap * Z) :=
  match fuel with
  | O => Fuel
  | S fuel' =>
      let h1 := upd h i (set_order order_beg) in
      let (h2, order) := order_attrs h1 (n_attrs (get h1 i)) (order_beg + 1)%Z in
      (fix kids (cs : list nat) (h : heap) (order : Z) : res (heap * Z) :=
         match cs with
         | [] => Ok (h, order)
         | c :: cs' =>
             do (h', order') <- setup_document_order_sub fuel' h c (order + 1)%Z;
             kids cs' h' order'
         end) (n_children (get h2 i)) h2 order
  end.

(* src/dom.rs 891-903: document_order; returns the number and the heap (orders may be recomputed) *)
Definition document_order (h : heap) (i : nat) : res (Z * heap) :=
  do r <- root h i;
  do h' <- (if Z.eqb (n_order (get h r)) 0
            then do (h1, _) <- setup_document_order_sub (S (List.length h)) h r 1%Z; Ok h1
            else Ok h);
  Ok (n_order (get h' i), h').

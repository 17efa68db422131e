(* Model of the ownership structure of src/dom.rs: who keeps a node alive, and what happens to the upward
   pointers when nobody does.

   src/dom.rs 38-43, 117-125: a NodePtr owns an Rc<Node>; a Node owns the Rc's of its children and attributes; the
   parent pointer is a Weak<Node>.  Contract of std::rc: a cell is freed when the last Rc that points to it is
   dropped; freeing it drops the Rc's it owns; Weak::upgrade() gives None exactly when the cell was freed.
   Representation: the heap of Dom.v, the list of freed cells, and the list of the NodePtr's the client program holds
   (a node held twice is listed twice).  The strong count of a cell is computed: [owners].
   Not modelled: the stack depth of a recursive drop; the temporary Rc's that live only inside one call. *)
Require Import Bool List NArith ZArith Ascii String PeanoNat.
From Verif Require Import Str Chars Sax Dom.
Import ListNotations.
Open Scope nat_scope.

Record world := mkWorld { w_heap : heap; w_freed : list nat; w_held : list nat }.

Definition mem (i : nat) (l : list nat) : bool := existsb (Nat.eqb i) l.
(* src/dom.rs 123-124: the Rc's a node owns *)
Definition owned_by (h : heap) (j : nat) : list nat := children h j ++ attributes h j.
(* Rc::strong_count *)
Definition owners (h : heap) (freed held : list nat) (i : nat) : nat :=
  count_occ Nat.eq_dec held i +
  list_sum (map (fun j => if mem j freed then 0 else count_occ Nat.eq_dec (owned_by h j) i) (seq 0 (List.length h))).

(* Drop for Rc<Node> (std::rc) and for Node (src/dom.rs 117-125, derived): the Rc's on [work] are being dropped.
   Every round drops one Rc, so [release_fuel] rounds are enough (OwnFacts.release_enough). *)
Fixpoint release (fuel : nat) (h : heap) (held freed work : list nat) : list nat :=
  match fuel with
  | O => freed
  | S fuel' =>
      match work with
      | [] => freed
      | i :: rest =>
          if negb (mem i freed) && (owners h freed held i =? 0)
          then release fuel' h held (i :: freed) (owned_by h i ++ rest)
          else release fuel' h held freed rest
      end
  end.
Definition release_fuel (h : heap) (work : list nat) : nat :=
  S (List.length work + list_sum (map (fun j => List.length (owned_by h j)) (seq 0 (List.length h)))).
Definition drop_all (h : heap) (held freed work : list nat) : list nat := release (release_fuel h work) h held freed work.

(* p.borrow().upgrade().unwrap() *)
Definition upgrade (freed : list nat) (p : nat) : res nat := if mem p freed then Panic else Ok p.

(* src/dom.rs 517-525: parent *)
Definition parent_up (w : world) (i : nat) : res (option nat) :=
  match n_parent (get (w_heap w) i) with
  | Some p => do q <- upgrade (w_freed w) p; Ok (Some q)
  | None => Ok None
  end.
(* src/dom.rs 466-474: root *)
Fixpoint root_up_loop (fuel : nat) (h : heap) (freed : list nat) (i : nat) : res nat :=
  match fuel with
  | O => Fuel
  | S fuel' => match n_parent (get h i) with
               | Some p => do q <- upgrade freed p; root_up_loop fuel' h freed q
               | None => Ok i
               end
  end.
Definition root_up (w : world) (i : nat) : res nat := root_up_loop (S (List.length (w_heap w))) (w_heap w) (w_freed w) i.
(* src/dom.rs 492-500: root_element *)
Definition root_element_up (w : world) (i : nat) : res nat :=
  do r <- root_up w i;
  match find (fun c => node_type_eqb (n_type (get (w_heap w) c)) Element) (children (w_heap w) r) with
  | Some c => Ok c
  | None => Ok r
  end.
(* src/dom.rs 429-450: namespace_uri *)
Fixpoint namespace_up_loop (fuel : nat) (h : heap) (freed : list nat) (i : nat) (xmlns_attr : str) : res str :=
  match fuel with
  | O => Fuel
  | S fuel' =>
      if node_type_eqb (n_type (get h i)) DocumentRoot then Ok []
      else match attribute_value h i xmlns_attr with
           | Some v => Ok v
           | None => match n_parent (get h i) with
                     | Some p => do q <- upgrade freed p; namespace_up_loop fuel' h freed q xmlns_attr
                     | None => Ok []
                     end
           end
  end.
Definition namespace_up (w : world) (i : nat) : res str :=
  let space := space_name (w_heap w) i in
  let xmlns_attr := match space with
                    | [] => lit "xmlns"
                    | _ => lit "xmlns" ++ lit ":" ++ space
                    end in
  namespace_up_loop (S (List.length (w_heap w))) (w_heap w) (w_freed w) i xmlns_attr.

(* What a client program can do with the handles it holds. *)
Inductive op :=
| Parse (xml : str)              (* new_document, src/dom.rs 177-240 *)
| Clone (i : nat)                (* NodePtr::clone, rc_clone, src/dom.rs 38, 924-928 *)
| Drop (i : nat)                 (* a NodePtr goes out of scope *)
| Child (i k : nat)              (* children, nth_child, first_child, src/dom.rs 530-537, 555-588 *)
| Attr (i k : nat)               (* attributes, src/dom.rs 542-549 *)
| Up (i : nat)                   (* parent, src/dom.rs 517-525 *)
| Root (i : nat)                 (* root, src/dom.rs 466-474 *)
| RootElement (i : nat)          (* root_element, src/dom.rs 492-500 *)
| Append (i c : nat)             (* append_child, src/dom.rs 614-619 *)
| InsertPrev (i c : nat)         (* insert_as_previous_sibling, src/dom.rs 644-664 *)
| InsertNext (i c : nat)         (* insert_as_next_sibling, src/dom.rs 688-708 *)
| DeleteChild (i c : nat)        (* delete_child, src/dom.rs 730-737 *)
| ReplaceWith (i c : nat)        (* replace_with, src/dom.rs 761-769 *)
| SetAttr (i : nat) (n v : str)  (* set_attribute, src/dom.rs 829-843 *)
| DelAttr (i : nat) (n : str)    (* delete_attribute, src/dom.rs 860-867 *)
| Order (i : nat).               (* document_order, src/dom.rs 891-903 *)

(* one NodePtr more *)
Definition hold (w : world) (i : nat) : world := mkWorld (w_heap w) (w_freed w) (i :: w_held w).
Fixpoint remove_one (i : nat) (l : list nat) : list nat :=
  match l with
  | [] => []
  | x :: r => if x =? i then r else x :: remove_one i r
  end.
(* an edit of the tree by the functions of Dom.v; [out]: the Rc's taken out of the tree by it.  All edits end with
   clear_document_order (src/dom.rs 883-886), which walks up to the root: the walk is done first here, since after a
   panic the program does nothing more and an edit changes no parent pointer of an existing node. *)
Definition edit (w : world) (i : nat) (out : list nat) (r : heap -> res heap) : res world :=
  do _ <- root_up w i;
  do h' <- r (w_heap w);
  Ok (mkWorld h' (drop_all h' (w_held w) (w_freed w) out) (w_held w)).
(* the attribute that set_attribute / delete_attribute takes out *)
Definition old_attr (h : heap) (i : nat) (n : str) : list nat :=
  match find_attribute_index h i n with
  | Some k => [nth k (attributes h i) 0]
  | None => []
  end.

Definition step (w : world) (o : op) : res world :=
  let h := w_heap w in
  match o with
  | Parse xml =>
      match doc_loop (doc_fuel xml) (sax_new xml) (fst (make_new_rc_node h DocumentRoot None [] [])) (List.length h) with
      | Ok h' => Ok (hold (mkWorld h' (w_freed w) (w_held w)) (List.length h))
      | Err _ => Ok w
      | Panic => Panic
      | Fuel => Fuel
      end
  | Clone i => Ok (hold w i)
  | Drop i => let held := remove_one i (w_held w) in Ok (mkWorld h (drop_all h held (w_freed w) [i]) held)
  | Child i k => match nth_error (children h i) k with Some c => Ok (hold w c) | None => Ok w end
  | Attr i k => match nth_error (attributes h i) k with Some c => Ok (hold w c) | None => Ok w end
  | Up i => do p <- parent_up w i; match p with Some q => Ok (hold w q) | None => Ok w end
  | Root i => do r <- root_up w i; Ok (hold w r)
  | RootElement i => do r <- root_element_up w i; Ok (hold w r)
  | Append i c => edit w i [] (fun h => append_child h i c)
  | InsertPrev i c => edit w i [] (fun h => insert_as_previous_sibling h i c)
  | InsertNext i c => edit w i [] (fun h => insert_as_next_sibling h i c)
  | DeleteChild i c => edit w i [c] (fun h => delete_child h i c)
  | ReplaceWith i c => edit w i [i] (fun h => replace_with h i c)
  | SetAttr i n v => edit w i (old_attr h i n) (fun h => set_attribute h i n v)
  | DelAttr i n => edit w i (old_attr h i n) (fun h => delete_attribute h i n)
  | Order i => edit w i [] (fun h => do (_, h') <- document_order h i; Ok h')
  end.

(* the handles an operation uses *)
Definition uses (o : op) : list nat :=
  match o with
  | Parse _ => []
  | Clone i | Drop i | Child i _ | Attr i _ | Up i | Root i | RootElement i | SetAttr i _ _ | DelAttr i _ | Order i => [i]
  | Append i c | InsertPrev i c | InsertNext i c | DeleteChild i c | ReplaceWith i c => [i; c]
  end.

(* a whole program; it can only use handles it holds *)
Inductive runs : list op -> world -> Prop :=
| runs_start : runs [] (mkWorld [] [] [])
| runs_step : forall os w o w', runs os w -> incl (uses o) (w_held w) -> step w o = Ok w' -> runs (os ++ [o]) w'.

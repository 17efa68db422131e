(* Model of document-order sorting, node-set operators and axes:
   src/xpath_impl/eval.rs 76-99, 794-1018 and src/xpath_impl/oper.rs 199-245.

   Simplification: document_order() caches its numbers inside the nodes; here the number is recomputed
   from the unnumbered heap each time ([doc_num]).  OrderFacts.doc_num_cached proves that this gives the
   same numbers as threading the cache through. *)
Require Import Bool List NArith ZArith Ascii String.
From Verif Require Import Str Chars Sax Dom.
Import ListNotations.
Open Scope nat_scope.

Definition doc_num (h : heap) (i : nat) : res Z := do (z, _) <- document_order h i; Ok z.

Fixpoint map_res {A B} (f : A -> res B) (l : list A) : res (list B) :=
  match l with
  | [] => Ok []
  | x :: l' => do y <- f x; do ys <- map_res f l'; Ok (y :: ys)
  end.

(* Vec::sort_by is a stable sort; the stable sorted permutation is unique, so insertion sort stands
   for it *)
Fixpoint insert_key (x : Z * nat) (l : list (Z * nat)) : list (Z * nat) :=
  match l with
  | [] => [x]
  | y :: l' => if Z.leb (fst x) (fst y) then x :: l else y :: insert_key x l'
  end.
Fixpoint sort_keys (l : list (Z * nat)) : list (Z * nat) :=
  match l with
  | [] => []
  | x :: l' => insert_key x (sort_keys l')
  end.

(* eval.rs 83-89: the loop that walks from the end and drops an element equal to its predecessor *)
Fixpoint dedup_adjacent (l : list nat) : list nat :=
  match l with
  | [] => []
  | x :: l' => match dedup_adjacent l' with
               | [] => [x]
               | y :: l'' => if Nat.eqb y x then x :: l'' else x :: y :: l''
               end
  end.

(* eval.rs 76-90, 95-99 *)
Definition sort_by_doc_order (h : heap) (l : list nat) : res (list nat) :=
  if List.length l <=? 1 then Ok l
  else do ks <- map_res (doc_num h) l;
       Ok (dedup_adjacent (map snd (sort_keys (combine ks l)))).

(* Vec::contains on NodePtr *)
Definition contains_node (l : list nat) (x : nat) : bool := existsb (Nat.eqb x) l.

(* oper.rs 210-245, on the node sequences of the operands *)
Definition nodes_union (h : heap) (l r : list nat) : res (list nat) := sort_by_doc_order h (l ++ r).
Definition nodes_intersect (l r : list nat) : list nat := filter (contains_node r) l.
Definition nodes_except (l r : list nat) : list nat := filter (fun x => negb (contains_node r x)) l.

(* oper.rs 183-189 *)
Definition node_compare (h : heap) (a b : nat) : res comparison :=
  do x <- doc_num h a; do y <- doc_num h b; Ok (Z.compare x y).

(* ---- axes ---- *)
(* eval.rs 895-902 *)
Fixpoint ancestors_fuel (fuel : nat) (h : heap) (i : nat) : res (list nat) :=
  match fuel with
  | O => Fuel
  | S fuel' => match parent h i with
               | Some p => do l <- ancestors_fuel fuel' h p; Ok (l ++ [p])
               | None => Ok []
               end
  end.
(* eval.rs 895-902 *)
Definition array_ancestor (h : heap) (i : nat) : res (list nat) := ancestors_fuel (S (List.length h)) h i.
(* eval.rs 907-912 *)
Definition array_ancestor_or_self (h : heap) (i : nat) : res (list nat) :=
  do l <- array_ancestor h i; Ok (l ++ [i]).
(* eval.rs 917-924 *)
Fixpoint descendants_fuel (fuel : nat) (h : heap) (i : nat) : res (list nat) :=
  match fuel with
  | O => Fuel
  | S fuel' =>
      (fix kids (cs : list nat) : res (list nat) :=
         match cs with
         | [] => Ok []
         | c :: cs' => do l <- descendants_fuel fuel' h c; do r <- kids cs'; Ok (c :: l ++ r)
         end) (children h i)
  end.
(* eval.rs 917-924 *)
Definition array_descendant (h : heap) (i : nat) : res (list nat) := descendants_fuel (S (List.length h)) h i.
(* eval.rs 929-934 *)
Definition array_descendant_or_self (h : heap) (i : nat) : res (list nat) :=
  do l <- array_descendant h i; Ok (i :: l).

Definition is_attribute (h : heap) (i : nat) : bool := node_type_eqb (n_type (get h i)) Attribute.

(* eval.rs 944-952: collect, after the node itself has been seen, whatever is not a descendant *)
Fixpoint following_loop (self : nat) (dos : list nat) (occurred : bool) (l : list nat) : list nat :=
  match l with
  | [] => []
  | ch :: l' =>
      let rest := following_loop self dos (occurred || Nat.eqb ch self) l' in
      if occurred && negb (contains_node dos ch) then ch :: rest else rest
  end.
(* eval.rs 939-955 *)
Definition array_following (h : heap) (i : nat) : res (list nat) :=
  if is_attribute h i then Ok []
  else do r <- root h i;
       do all <- array_descendant_or_self h r;
       do dos <- array_descendant_or_self h i;
       Ok (following_loop i dos false all).
(* eval.rs 964-972 and 1006-1014 *)
Fixpoint after_self (self : nat) (occurred : bool) (l : list nat) : list nat :=
  match l with
  | [] => []
  | ch :: l' =>
      let rest := after_self self (occurred || Nat.eqb ch self) l' in
      if occurred then ch :: rest else rest
  end.
Fixpoint before_self (self : nat) (occurred : bool) (l : list nat) : list nat :=
  match l with
  | [] => []
  | ch :: l' =>
      let occurred' := occurred || Nat.eqb ch self in
      let rest := before_self self occurred' l' in
      if occurred' then rest else ch :: rest
  end.
(* eval.rs 960-976 *)
Definition array_following_sibling (h : heap) (i : nat) : list nat :=
  if is_attribute h i then []
  else match parent h i with
       | Some p => after_self i false (children h p)
       | None => []
       end.
(* eval.rs 986-994 *)
Fixpoint preceding_loop (self : nat) (anc : list nat) (occurred : bool) (l : list nat) : list nat :=
  match l with
  | [] => []
  | ch :: l' =>
      let occurred' := occurred || Nat.eqb ch self in
      let rest := preceding_loop self anc occurred' l' in
      if negb occurred' && negb (contains_node anc ch) then ch :: rest else rest
  end.
(* eval.rs 981-997 *)
Definition array_preceding (h : heap) (i : nat) : res (list nat) :=
  if is_attribute h i then Ok []
  else do r <- root h i;
       do all <- array_descendant_or_self h r;
       do anc <- array_ancestor h i;
       Ok (preceding_loop i anc false all).
(* eval.rs 1002-1018 *)
Definition array_preceding_sibling (h : heap) (i : nat) : list nat :=
  if is_attribute h i then []
  else match parent h i with
       | Some p => before_self i false (children h p)
       | None => []
       end.
(* eval.rs 832-838 (before the node test) *)
Definition array_parent (h : heap) (i : nat) : list nat :=
  match parent h i with Some p => [p] | None => [] end.

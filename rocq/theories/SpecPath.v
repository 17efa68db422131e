(* Specification: location paths as relations between nodes.  A path expression leads from a node to a set of nodes, a
   condition is true or false at a node; nothing is said about lists, duplicates, order of evaluation or context sizes. *)
Require Import Bool List NArith ZArith Ascii String.
From Verif Require Import Str Dom SpecEdit SpecAxes Lexer Parser SpecExpr SpecInt SpecOper SpecSem.
Import ListNotations.
Open Scope nat_scope.

(* what an expression denotes at a node: the nodes it leads to, or a truth value *)
Inductive denotation : Type := D_nodes (P : nat -> Prop) | D_truth (Q : Prop).
Definition member (d : denotation) (x : nat) : Prop := match d with D_nodes P => P x | D_truth _ => False end.
(* a set of nodes counts as true when it is not empty *)
Definition truth (d : denotation) : Prop := match d with D_nodes P => exists x, P x | D_truth Q => Q end.

(* is the predicate a number, or last()? *)
Definition is_place (q : expr) : bool :=
  match q with
  | ELit L_integer _ => true
  | ECall f [] => if list_eq_dec N.eq_dec f (lit "last") then true else false
  | _ => false
  end.

Section Path.
  Variable h : heap.
  Variable order : list nat.      (* all nodes of the document in document order *)

  (* x is, in the direction of the axis, the node of P at the place q *)
  Definition placed (backwards : bool) (P : nat -> Prop) (q : expr) (x : nat) : Prop :=
    exists l k, exactly order P l /\ nth_error (if backwards then rev l else l) k = Some x /\
      match q with ELit _ d => numeral d = N.of_nat (S k) | _ => S k = List.length l end.

  (* the text of an operand of a comparison: a string literal, or the string value of one of the nodes *)
  Definition text_from (d : denotation) (e : expr) (s : str) : Prop :=
    match e with ELit L_string s0 => s = s0 | _ => exists x, member d x /\ string_value_of h x s end.

  Fixpoint denotes (e : expr) (n : nat) : denotation :=
    (* the nodes of P that the predicates leave *)
    let fix left (backwards : bool) (P : nat -> Prop) (ps : list expr) : nat -> Prop :=
      match ps with
      | [] => P
      | q :: r => left backwards (fun x => P x /\ (if is_place q then placed backwards P q x else truth (denotes q x))) r
      end in
    match e with
    | EDot => D_nodes (fun x => x = n)
    | EParent => D_nodes (fun x => parent h n = Some x)
    | ERoot => D_nodes (fun x => x = 0)
    | EStep f t ps =>
        D_nodes (left (reverse_axis (form_axis f)) (fun x => axis_has h order (form_axis f) x n /\ passes h (form_axis f) t x) ps)
    | EFilter a q =>
        let P := member (denotes a n) in
        D_nodes (fun x => P x /\ (if is_place q then placed false P q x else truth (denotes q x)))
    | EPath s a rest =>
        let start y :=
          match s with
          | S_here => member (denotes a n) y
          | S_root => member (denotes a 0) y
          | S_all => exists k, (k = 0 \/ descendant h k 0) /\ member (denotes a k) y
          end in
        D_nodes (
          (fix go (from : nat -> Prop) (rest : list (bool * expr)) : nat -> Prop :=
             match rest with
             | [] => from
             | (deep, b) :: r =>
                 go (fun y => exists m k, from m /\ (k = m \/ deep = true /\ descendant h k m) /\ member (denotes b k) y) r
             end) start rest)
    | EBin o a b =>
        match general_op o, o with
        | Some op, _ => D_truth (exists s t, text_from (denotes a n) a s /\ text_from (denotes b n) b t /\ rel_str op s t)
        | None, O_union | None, O_bar => D_nodes (fun x => member (denotes a n) x \/ member (denotes b n) x)
        | None, O_intersect => D_nodes (fun x => member (denotes a n) x /\ member (denotes b n) x)
        | None, O_except => D_nodes (fun x => member (denotes a n) x /\ ~ member (denotes b n) x)
        | None, O_and => D_truth (truth (denotes a n) /\ truth (denotes b n))
        | None, O_or => D_truth (truth (denotes a n) \/ truth (denotes b n))
        | None, _ => D_truth False
        end
    | ECall f [a] =>
        D_truth ((f = lit "boolean" \/ f = lit "exists") /\ truth (denotes a n) \/
                 (f = lit "not" \/ f = lit "empty") /\ ~ truth (denotes a n))
    | _ => D_truth False
    end.
End Path.

(* ---- the expressions meant ---- *)
(* does the expression give a truth value? *)
Definition condition (e : expr) : bool := 
  match e with
  | ECall _ _ | EBin O_and _ _ | EBin O_or _ _ => true
  | EBin o _ _ => match general_op o with Some _ => true | None => false end
  | _ => false
  end.
(* can the nodes be attribute nodes, when the context node is one (c) or not? *)
Fixpoint attrs (e : expr) (c : bool) : bool :=
  match e with
  | EDot => c
  | EStep f _ _ =>
      match form_axis f with A_attribute => true | A_self | A_ancestor_or_self | A_descendant_or_self => c | _ => false end
  | EFilter a _ => attrs a c
  | EPath s a rest =>
      (fix go (c : bool) (rest : list (bool * expr)) : bool := match rest with [] => c | x :: r => go (attrs (snd x) c) r end)
        (attrs a (match s with S_here => c | _ => false end)) rest
  | EBin _ a b => attrs a c || attrs b c
  | _ => false
  end.
(* are the nodes attribute nodes only? *)
Fixpoint only_attrs (e : expr) : bool :=
  match e with
  | EStep f _ _ => match form_axis f with A_attribute => true | _ => false end
  | EFilter a _ => only_attrs a
  | EPath _ a rest =>
      (fix go (o : bool) (rest : list (bool * expr)) : bool := match rest with [] => o | x :: r => go (only_attrs (snd x)) r end)
        (only_attrs a) rest
  | EBin O_union a b | EBin O_bar a b => only_attrs a && only_attrs b
  | _ => false
  end.
(* what may be known of the document: the attributes of an element have different names; all nodes have string values
   (that is: no comments and no processing instructions) *)
Record known : Type := mkKnown { k_names : bool; k_texts : bool }.
Definition known_of (h : heap) (k : known) : Prop :=
  (k_names k = true -> forall p, in_document h 0 p -> NoDup (map (fun a => n_name (Dom.get h a)) (attributes h p))) /\
  (k_texts k = true -> forall i, in_document h 0 i -> exists s, string_value_of h i s).
(* is there at most one node? *)
Fixpoint single (k : known) (e : expr) : bool :=
  match e with
  | EDot | EParent | ERoot => true
  | EStep f t ps =>
      is_place (last ps EDot) ||
      match form_axis f, t with
      | A_self, _ | A_parent, _ => true
      | A_attribute, N_name _ | A_attribute, N_qname _ _ => k_names k
      | _, _ => false
      end
  | EFilter a q => is_place q || single k a
  | EPath s a rest =>
      match s with S_all => false | _ => true end && single k a && forallb (fun x => negb (fst x) && single k (snd x)) rest
  | EBin O_intersect a b => single k a || single k b
  | EBin O_except a _ => single k a
  | _ => false
  end.
(* Steps with any axis and test (restricted: not the tests *:name and document-node(), and no following or preceding axis
   from a node that may be an attribute node), parentheses, the paths /, //, .. and ., unions, intersections and differences;
   predicates are positions, conditions - exists, empty, boolean and not of a path or condition, comparisons of the string
   values of nodes with each other or with a string literal (restricted: of attribute nodes, unless all nodes are known to have
   string values), joined with and and or - or paths (restricted: paths that lead to one node at most). *)
Definition is_text (e : expr) : bool := match e with ELit L_string _ => true | _ => false end.
Definition place_ok (q : expr) : Prop := match q with ELit _ d => (Z.of_N (numeral d) < 2 ^ 63)%Z | _ => True end.
Section Core.
Variable k : known.
Fixpoint core (e : expr) (c : bool) : Prop :=
  match e with
  | EDot | EParent | ERoot => True
  | EStep f t ps =>
      ordinary_test t /\ (c = true -> form_axis f <> A_following /\ form_axis f <> A_preceding) /\
      (fix all (ps : list expr) : Prop :=
         match ps with
         | [] => True
         | q :: r => (if is_place q then place_ok q else (condition q = true \/ single k q = true) /\ core q (attrs (EStep f t []) c)) /\ all r
         end) ps
  | EFilter a q =>
      condition a = false /\ core a c /\ (if is_place q then place_ok q else (condition q = true \/ single k q = true) /\ core q (attrs a c))
  | EPath s a rest =>
      let c0 := match s with S_here => c | _ => false end in
      condition a = false /\ core a c0 /\
      (fix go (c : bool) (rest : list (bool * expr)) : Prop :=
         match rest with
         | [] => True
         | x :: r => condition (snd x) = false /\ core (snd x) c /\ go (attrs (snd x) c) r
         end) (attrs a c0) rest
  | EBin o a b =>
      match general_op o, o with
      | Some _, _ =>
          (if is_text a then True else condition a = false /\ core a c /\ k_texts k || only_attrs a = true) /\
          (if is_text b then True else condition b = false /\ core b c /\ k_texts k || only_attrs b = true)
      | None, O_union | None, O_bar | None, O_intersect | None, O_except =>
          condition a = false /\ condition b = false /\ core a c /\ core b c
      | None, O_and | None, O_or => core a c /\ core b c
      | None, _ => False
      end
  | ECall f [a] => In f [lit "boolean"; lit "exists"; lit "not"; lit "empty"] /\ core a c /\
                   (f = lit "exists" \/ f = lit "empty" -> condition a = false)
  | _ => False
  end.
End Core.

(* ---- laws of paths ---- *)
Definition slash (a b : expr) : expr := EPath S_here a [(false, b)].             (* a/b *)
Definition step (a : axis) (t : nodetest) : expr := EStep (F_axis a) t [].
Definition any (a : axis) : expr := step a N_node.                               (* a::node() *)
Definition fn (f : string) (a : expr) : expr := ECall (lit f) [a].
Inductive path_law : expr -> expr -> Prop :=
(* a//t is a/descendant::t; //t is /descendant::t, and a step without an axis is on the child axis *)
| pl_deep : forall a t f, form_axis f = A_child -> path_law (EPath S_here a [(true, EStep f t [])]) (slash a (step A_descendant t))
| pl_all : forall t f, form_axis f = A_child -> path_law (EPath S_all (EStep f t []) []) (EPath S_root (step A_descendant t) [])
| pl_child : forall t ps, path_law (EStep F_child t ps) (EStep (F_axis A_child) t ps)
| pl_at : forall t ps, path_law (EStep F_at t ps) (EStep (F_axis A_attribute) t ps)
| pl_dot : path_law EDot (any A_self)
| pl_up : path_law EParent (any A_parent)
(* the axes in terms of one another *)
| pl_descendant : forall t, path_law (step A_descendant t) (slash (any A_child) (step A_descendant_or_self t))
| pl_descendant_self : forall t,
    path_law (step A_descendant_or_self t) (EBin O_bar (step A_self t) (step A_descendant t))
| pl_ancestor : forall t, path_law (step A_ancestor t) (slash EParent (step A_ancestor_or_self t))
| pl_ancestor_self : forall t, path_law (step A_ancestor_or_self t) (EBin O_bar (step A_self t) (step A_ancestor t))
| pl_following : forall t,
    path_law (step A_following t) (slash (slash (any A_ancestor_or_self) (any A_following_sibling)) (step A_descendant_or_self t))
| pl_preceding : forall t,
    path_law (step A_preceding t) (slash (slash (any A_ancestor_or_self) (any A_preceding_sibling)) (step A_descendant_or_self t))
| pl_self_filter : forall t, path_law (step A_descendant_or_self t) (slash (any A_descendant_or_self) (step A_self t))
| pl_down_up : forall t, path_law (slash (step A_child t) EParent) (EFilter EDot (fn "exists" (step A_child t)))
(* composition *)
| pl_left : forall a b c, path_law (slash (slash a b) c) (slash a (slash b c))
| pl_chain : forall a b c, path_law (EPath S_here a [(false, b); (false, c)]) (slash (slash a b) c)
| pl_here : forall a, path_law (slash EDot a) a
| pl_stay : forall a, path_law (slash a EDot) a
| pl_dots : forall a b c, path_law (slash (EBin O_bar a b) c) (EBin O_bar (slash a c) (slash b c))
| pl_fork : forall a b c, path_law (slash a (EBin O_bar b c)) (EBin O_bar (slash a b) (slash a c))
(* conditions *)
| pl_bare : forall a p, path_law (EFilter a p) (EFilter a (fn "exists" p))
| pl_and : forall a p q, path_law (EFilter a (EBin O_and p q)) (EFilter (EFilter a p) q)
| pl_or : forall a p q, path_law (EFilter a (EBin O_or p q)) (EBin O_bar (EFilter a p) (EFilter a q))
| pl_not : forall a p, path_law (EFilter a (fn "not" p)) (EBin O_except a (EFilter a p))
| pl_exists : forall a b, path_law (fn "exists" (slash a b)) (fn "exists" (EFilter a (fn "exists" b)))
| pl_intersect : forall a b, path_law (EBin O_intersect a b) (EBin O_except a (EBin O_except a b))
| pl_empty : forall a, path_law (fn "empty" a) (fn "not" (fn "exists" a))
| pl_not_not : forall p, path_law (fn "not" (fn "not" p)) (fn "boolean" p)
| pl_not_or : forall p q, path_law (fn "not" (EBin O_or p q)) (EBin O_and (fn "not" p) (fn "not" q))
| pl_not_and : forall p q, path_law (fn "not" (EBin O_and p q)) (EBin O_or (fn "not" p) (fn "not" q))
| pl_exists_either : forall a b, path_law (fn "exists" (EBin O_bar a b)) (EBin O_or (fn "exists" a) (fn "exists" b))
(* filters that are no positions: in any order, once or twice, inside a path or around it, in a step or around it *)
| pl_swap : forall a p q, is_place p = false -> is_place q = false -> path_law (EFilter (EFilter a p) q) (EFilter (EFilter a q) p)
| pl_twice : forall a p, is_place p = false -> path_law (EFilter (EFilter a p) p) (EFilter a p)
| pl_inside : forall a b p, is_place p = false -> path_law (EFilter (slash a b) p) (slash a (EFilter b p))
| pl_step_filter : forall f t q, is_place q = false -> path_law (EStep f t [q]) (EFilter (EStep f t []) q)
(* a position in a step counts as around it, when the axis is not a reverse axis *)
| pl_step_place : forall f t q, reverse_axis (form_axis f) = false -> path_law (EStep f t [q]) (EFilter (EStep f t []) q)
(* ... and so do more of them, one after the other *)
| pl_last_filter : forall f t ps q, reverse_axis (form_axis f) = false \/ is_place q = false ->
    path_law (EStep f t (ps ++ [q])) (EFilter (EStep f t ps) q)
(* what // stands for *)
| pl_slashes : forall a b, path_law (EPath S_here a [(true, b)]) (slash (slash a (any A_descendant_or_self)) b)
| pl_all_slashes : forall b, path_law (EPath S_all b []) (slash (slash ERoot (any A_descendant_or_self)) b)
| pl_first : forall a d b r, path_law (EPath S_here a ((d, b) :: r)) (EPath S_here (EPath S_here a [(d, b)]) r)
| pl_root : forall a, path_law (EPath S_root a []) (slash ERoot a)
(* sets *)
| pl_bar : forall a b, path_law (EBin O_union a b) (EBin O_bar a b)
| pl_bar_comm : forall a b, path_law (EBin O_bar a b) (EBin O_bar b a)
| pl_bar_assoc : forall a b c, path_law (EBin O_bar (EBin O_bar a b) c) (EBin O_bar a (EBin O_bar b c))
| pl_bar_self : forall a, path_law (EBin O_bar a a) a
| pl_meet_comm : forall a b, path_law (EBin O_intersect a b) (EBin O_intersect b a)
| pl_meet_bar : forall a b c,
    path_law (EBin O_intersect a (EBin O_bar b c)) (EBin O_bar (EBin O_intersect a b) (EBin O_intersect a c))
| pl_except_bar : forall a b c, path_law (EBin O_except a (EBin O_bar b c)) (EBin O_except (EBin O_except a b) c)
(* comparisons read backwards, and with a union *)
| pl_converse : forall o o' a b,
    In (o, o') [(O_geq, O_geq); (O_gne, O_gne); (O_glt, O_ggt); (O_ggt, O_glt); (O_gle, O_gge); (O_gge, O_gle)] ->
    path_law (EBin o a b) (EBin o' b a)
| pl_compare_bar : forall o a b c, general_op o <> None ->
    path_law (EBin o (EBin O_bar a b) c) (EBin O_or (EBin o a c) (EBin o b c)).

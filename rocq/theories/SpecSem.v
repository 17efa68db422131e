(* Specification: the value of an XPath expression, by the rules of the XPath recommendation.  The rules are
   those of XPath 3.1, restricted (where the comments say so) to the cases in which this program follows it;
   an expression to which no rule applies has no meaning here. *)
Require Import Bool List NArith ZArith Ascii String Sorted Reals.
Require Import Coq.Floats.SpecFloat.
From Verif Require Import Str SpecCase Sax SpecText Dom SpecEdit SpecAxes SpecNs Lexer FuncTable Parser SpecExpr Num Item SpecOper SpecFunc SpecTypes
  SpecEval SpecNum SpecInt SpecDbl SpecArith SpecPrint SpecLib.
Import ListNotations.
Open Scope nat_scope.

(* A program that parses a document and then edits it (see [session]), where no attribute node is inserted
   among the children of an element. *)
Inductive ordinary : heap -> Prop :=
| or_parse : forall xml h, new_document xml = Ok h -> ordinary h
| or_set : forall h h' i n v, ordinary h -> attached h 0 i -> set_attribute h i n v = Ok h' -> ordinary h'
| or_del_attr : forall h h' i n, ordinary h -> attached h 0 i -> delete_attribute h i n = Ok h' -> ordinary h'
| or_delete : forall h h' i c, ordinary h -> attached h 0 i -> delete_child h i c = Ok h' -> ordinary h'
| or_insert : forall h h' i x, ordinary h -> attached h 0 i -> x < List.length h -> n_type (Dom.get h x) <> Attribute ->
    children h x = [] -> attributes h x = [] ->
    insert_as_previous_sibling h i x = Ok h' \/ insert_as_next_sibling h i x = Ok h' -> ordinary h'
| or_order : forall h h' i z, ordinary h -> in_document h 0 i -> document_order h i = Ok (z, h') -> ordinary h'.

(* the focus: context item, context position, context size *)
Record focus : Type := mkFocus { f_item : xitem; f_pos : nat; f_size : nat }.
(* the variables in scope *)
(* a variable is bound to a value without functions, or to a function (its expression, and the variables where it was defined) *)
Inductive bound : Type :=
| Bval (v : xseq)
| Bfn (fe : expr) (ev : str -> option bound).
Definition vars : Type := str -> option bound.
Definition no_vars : vars := fun _ => None.
Definition bind_var (v : str) (s : xseq) (vs : vars) : vars :=
  fun n => if list_eq_dec N.eq_dec n v then Some (Bval s) else vs n.
Definition bind_fun (v : str) (fe : expr) (ev vs : vars) : vars :=
  fun n => if list_eq_dec N.eq_dec n v then Some (Bfn fe ev) else vs n.
Fixpoint bind_vars (ns : list str) (l : list xseq) (vs : vars) : vars :=
  match ns, l with n :: ns, s :: l => bind_vars ns l (bind_var n s vs) | _, _ => vs end.

(* an item, or an item inside it if it is a map or an array *)
Inductive within (x : xitem) : xitem -> Prop :=
| wi_self : within x x
| wi_member : forall a v it, In v a -> In it v -> within x it -> within x (XIArray a)
| wi_key : forall m p, In p m -> within x (fst p) -> within x (XIMap m)
| wi_value : forall m p it, In p m -> In it (snd p) -> within x it -> within x (XIMap m).
Definition value_op (o : binop) : option cmpop :=
  match o with
  | O_eq => Some CEq | O_ne => Some CNe | O_lt => Some CLt | O_le => Some CLe | O_gt => Some CGt | O_ge => Some CGe
  | _ => None
  end.
Definition general_op (o : binop) : option cmpop :=
  match o with
  | O_geq => Some CEq | O_gne => Some CNe | O_glt => Some CLt | O_gle => Some CLe | O_ggt => Some CGt | O_gge => Some CGe
  | _ => None
  end.
(* integer arithmetic: idiv truncates, mod has the sign of the dividend *)
Definition computes (o : binop) (a b z : Z) : Prop :=
  match o with
  | O_add => z = (a + b)%Z
  | O_sub => z = (a - b)%Z
  | O_mul => z = (a * b)%Z
  | O_idiv => exists r, (a = z * b + r /\ Z.abs r < Z.abs b /\ 0 <= a * r)%Z
  | O_mod => exists q, (a = q * b + z /\ Z.abs z < Z.abs b /\ 0 <= a * z)%Z
  | _ => False
  end.
(* the items of [l] whose position (from 1) is marked *)
Definition pick {A} (keep : nat -> bool) (l : list A) : list A :=
  map snd (filter (fun p => keep (fst p)) (combine (seq 1 (List.length l)) l)).
(* is the item at the position [p] kept by a predicate with the value [v]?  A number is compared with the
   position, otherwise the effective boolean value counts (restricted: strings, decimals and doubles, and
   sequences of several nodes) *)
Inductive predicate_truth : xseq -> nat -> bool -> Prop :=
| pt_number : forall z p b, (b = true <-> z = Z.of_nat p) -> predicate_truth [XIInteger z] p b
| pt_boolean : forall b p, predicate_truth [XIBoolean b] p b
| pt_node : forall i p, predicate_truth [XINode i] p true
| pt_empty : forall p, predicate_truth [] p false.
Definition nodes (l : list nat) : xseq := map XINode l.
Definition atomic (it : xitem) : Prop := forall i, it <> XINode i.
Inductive bool_text : str -> bool -> Prop :=
| bx_true : bool_text (lit "true") true
| bx_one : bool_text (lit "1") true
| bx_false : bool_text (lit "false") false
| bx_zero : bool_text (lit "0") false.
Inductive double_word : str -> f64 -> Prop :=
| dw_inf : double_word (lit "INF") (S754_infinity false)
| dw_minus : double_word (lit "-INF") (S754_infinity true)
| dw_nan : double_word (lit "NaN") S754_nan.

(* some and every leave their variable behind (C20).  [hygienic stale e]: no variable is used that a finished
   some or every (with a variable in the list) may have left behind, and none of them is bound again by a some or every
   within the scope of a binding of the same name. *)
Fixpoint hygienic (stale : list str) (e : expr) : Prop :=
  let all := fix all l := match l with [] => True | a :: r => hygienic stale a /\ all r end in
  let without v := filter (fun n => if list_eq_dec N.eq_dec n v then false else true) stale in
  match e with
  | ELit _ _ | EDot | EEmpty | EParent | ERoot => True
  | EVar n => ~ In n stale
  | ECall _ args => all args
  | EBin _ a b => hygienic stale a /\ hygienic stale b
  | ESign _ a | EType _ a _ | ECast _ a _ => hygienic stale a
  | EIf c a b => hygienic stale c /\ hygienic stale a /\ hygienic stale b
  | EBind q v a b => hygienic stale a /\ hygienic (without v) b /\ (q = Q_for \/ In v stale)
  | ELet v a b => hygienic stale a /\ hygienic (without v) b
  | EStep _ _ ps => all ps
  | EFilter a p => hygienic stale a /\ hygienic stale p
  | EDyn a args => hygienic stale a /\ all args
  | EPath _ a rest => hygienic stale a /\
      (fix all l := match l with [] => True | x :: r => hygienic stale (snd x) /\ all r end) rest
  | EKey _ | ERef _ _ => True
  | ESquare es => all es
  | ECurly a | EKeyOf a | ELook a _ | EInst _ a _ => hygienic stale a
  | EMap es => (fix all l := match l with [] => True | x :: r => (hygienic stale (fst x) /\ hygienic stale (snd x)) /\ all r end) es
  | ELookOf a k => hygienic stale a /\ hygienic stale k
  | EFun ps b => hygienic (filter (fun n => if in_dec (list_eq_dec N.eq_dec) n ps then false else true) stale) b
  | EArrow var a f args => (var = true -> ~ In f stale) /\ hygienic stale a /\ all args
  | EPCall _ _ args => all args
  | EPart _ args =>
      (fix all l := match l with [] => True | x :: r => match x with Some a => hygienic stale a | None => True end /\ all r end) args
  | EMulti q bs b =>
      (fix all stale l :=
         match l with
         | [] => hygienic stale b
         | x :: r => hygienic stale (snd x) /\ (q = Some Q_for \/ q = None \/ In (fst x) stale) /\
                     all (filter (fun n => if list_eq_dec N.eq_dec n (fst x) then false else true) stale) r
         end) stale bs
  end.

(* the variables free in an expression *)
Definition minus (l : list str) (v : str) : list str := filter (fun n => if list_eq_dec N.eq_dec n v then false else true) l.
Fixpoint free (e : expr) : list str :=
  match e with
  | ELit _ _ | EDot | EEmpty | EParent | ERoot | EKey _ | ERef _ _ => []
  | EVar n => [n]
  | ECall _ args | EPCall _ _ args | ESquare args | EStep _ _ args => flat_map free args
  | EBin _ a b | EFilter a b | ELookOf a b => free a ++ free b
  | ESign _ a | EType _ a _ | ECast _ a _ | ECurly a | EKeyOf a | ELook a _ | EInst _ a _ => free a
  | EIf c a b => free c ++ free a ++ free b
  | EBind _ v a b | ELet v a b => free a ++ minus (free b) v
  | EDyn a args => free a ++ flat_map free args
  | EPath _ a rest => free a ++ flat_map (fun x => free (snd x)) rest
  | EMap es => flat_map (fun x => free (fst x) ++ free (snd x)) es
  | EFun ps b => fold_left minus ps (free b)
  | EArrow var a f args => (if var then [f] else []) ++ free a ++ flat_map free args
  | EPart _ args => flat_map (fun x => match x with Some a => free a | None => [] end) args
  | EMulti _ bs b => fold_right (fun x l => free (snd x) ++ minus l (fst x)) (free b) bs
  end.
Definition is_function (e : expr) : Prop := match e with EFun _ _ | ERef _ _ | EPart _ _ => True | _ => False end.
(* [function_at vs e fe ev]: the value of e is the function that the expression fe defines where the variables are ev *)
Inductive function_at (vs : vars) : expr -> expr -> vars -> Prop :=
| fa_self : forall e, is_function e -> function_at vs e e vs
| fa_var : forall n fe ev, vs n = Some (Bfn fe ev) -> function_at vs (EVar n) fe ev.
(* restricted: the variables free in the function are what they were where it was defined (see C52) *)
Definition same_scope (fe : expr) (ev vs : vars) : Prop := forall n, In n (free fe) -> vs n = ev n.

Section Meaning.
  Variable h : heap.
  Variable order : list nat.      (* all nodes of the document in document order *)
  Definition kind (i : nat) : node_type := n_type (Dom.get h i).

  (* the string value of a node (restricted: no comment or processing instruction among the descendants, no
     XML declaration) *)
  Inductive string_value_of : nat -> str -> Prop :=
  | sv_leaf : forall i, kind i = Text \/ kind i = Attribute \/ kind i = Comment ->
      string_value_of i (n_value (Dom.get h i))
  | sv_tree : forall i s, kind i = DocumentRoot \/ kind i = Element -> string_values_of (children h i) s ->
      string_value_of i s
  with string_values_of : list nat -> str -> Prop :=
  | sn_nil : string_values_of [] []
  | sn_cons : forall c cs s t, kind c = Element \/ kind c = Text -> string_value_of c s -> string_values_of cs t ->
      string_values_of (c :: cs) (s ++ t)
  | sn_doctype : forall c cs t, kind c = Directive -> string_values_of cs t -> string_values_of (c :: cs) t.
  (* the item as a string (restricted: no infinity, no double that is written with an exponent, no decimal with more
     digits than the program keeps; no decimal that is a negative zero, which XPath does not have) *)
  Inductive string_of : xitem -> str -> Prop :=
  | so_string : forall s, string_of (XIString s) s
  | so_node : forall i s, string_value_of i s -> string_of (XINode i) s
  | so_integer : forall z s, notation_of z s -> string_of (XIInteger z) s
  | so_true : string_of (XIBoolean true) (lit "true")
  | so_false : string_of (XIBoolean false) (lit "false")
  | so_decimal : forall x s, finite x -> (Rabs (val x) < 10 ^ 15)%R -> x <> S754_zero true -> number_text x s -> string_of (XIDecimal x) s
  | so_double : forall x s, finite x -> (val x = 0 \/ / 10 ^ 6 <= Rabs (val x) < 10 ^ 6)%R -> number_text x s -> string_of (XIDouble x) s
  | so_nan : string_of (XIDouble S754_nan) (lit "NaN").
  (* an argument that may be empty *)
  Inductive text_arg : xseq -> str -> Prop :=
  | ta_empty : text_arg [] []
  | ta_item : forall it s, string_of it s -> text_arg [it] s.
  (* strings, and nodes, which are atomized to their string value *)
  Inductive text_item : xitem -> str -> Prop :=
  | ti_string : forall s, text_item (XIString s) s
  | ti_node : forall i s, string_value_of i s -> text_item (XINode i) s.
  Inductive compares (op : cmpop) : xitem -> xitem -> bool -> Prop :=
  | cp_integers : forall a b t, (t = true <-> rel_Z op a b) -> compares op (XIInteger a) (XIInteger b) t
  | cp_booleans : forall a b t, (t = true <-> rel_bool op a b) -> compares op (XIBoolean a) (XIBoolean b) t
  | cp_texts : forall x y a b t, text_item x a -> text_item y b -> (t = true <-> rel_str op a b) -> compares op x y t
  | cp_numbers : forall x y t, number_rel op x y t -> compares op x y t.
  Inductive casts : xitem -> str -> xitem -> Prop :=
  | ca_string : forall it s, string_of it s -> casts it (lit "string") (XIString s)
  | ca_integer : forall it s z, text_item it s -> integer_text s z -> is_i64 z -> casts it (lit "integer") (XIInteger z)
  | ca_integer_same : forall z, casts (XIInteger z) (lit "integer") (XIInteger z)
  | ca_integer_true : casts (XIBoolean true) (lit "integer") (XIInteger 1)
  | ca_integer_false : casts (XIBoolean false) (lit "integer") (XIInteger 0)
  | ca_boolean : forall it s b, text_item it s -> bool_text s b -> casts it (lit "boolean") (XIBoolean b)
  | ca_boolean_same : forall b, casts (XIBoolean b) (lit "boolean") (XIBoolean b)
  | ca_boolean_number : forall z b, (b = true <-> z <> 0%Z) -> casts (XIInteger z) (lit "boolean") (XIBoolean b)
  | ca_boolean_float : forall it x b, double_or_decimal it x -> (b = true <-> ~ is_zero_or_nan x) -> casts it (lit "boolean") (XIBoolean b)
  | ca_integer_float : forall it x r, double_or_decimal it x -> truncates x r -> is_i64 r -> casts it (lit "integer") (XIInteger r)
  | ca_double : forall it s neg m e x, text_item it s -> decimal_text s neg m e -> rounded (decimal_value neg m e) neg x ->
      casts it (lit "double") (XIDouble x)
  | ca_double_word : forall it s x, text_item it s -> double_word s x -> casts it (lit "double") (XIDouble x)
  | ca_double_number : forall it x, number_of it x -> casts it (lit "double") (XIDouble x)
  | ca_double_boolean : forall (b : bool) x, number_of (XIInteger (if b then 1 else 0)%Z) x -> casts (XIBoolean b) (lit "double") (XIDouble x)
  | ca_decimal : forall it s neg m e x, text_item it s -> decimal_text s neg m e -> ~ In 101%N s -> ~ In 69%N s ->   (* no exponent *)
      rounded (decimal_value neg m e) neg x -> finite x -> casts it (lit "decimal") (XIDecimal x)
  | ca_decimal_number : forall it x, number_of it x -> finite x -> casts it (lit "decimal") (XIDecimal x)
  | ca_decimal_boolean : forall (b : bool) x, number_of (XIInteger (if b then 1 else 0)%Z) x -> casts (XIBoolean b) (lit "decimal") (XIDecimal x).

  (* the nodes x on the axis of n *)
  Definition axis_has (a : axis) (x n : nat) : Prop :=
    match a with
    | A_ancestor => ancestor h x n
    | A_ancestor_or_self => x = n \/ ancestor h x n
    | A_attribute => In x (attributes h n)
    | A_child => In x (children h n)
    | A_descendant => descendant h x n
    | A_descendant_or_self => x = n \/ descendant h x n
    | A_following => before order n x /\ ~ descendant h x n /\ kind x <> Attribute
    | A_following_sibling => following_sibling_of h x n
    | A_parent => parent h n = Some x
    | A_preceding => before order x n /\ ~ ancestor h x n /\ kind x <> Attribute
    | A_preceding_sibling => preceding_sibling_of h x n
    | A_self => x = n
    end.
  Definition passes (a : axis) (t : nodetest) (x : nat) : Prop :=
    let principal := match a with A_attribute => Attribute | _ => Element end in
    match t with
    | N_name n => kind x = principal /\ n_name (Dom.get h x) = n
    | N_any => kind x = principal
    | N_node => True
    | N_text => kind x = Text
    | N_comment => kind x = Comment
    | N_qname p n => kind x = principal /\ n_name (Dom.get h x) = p ++ lit ":" ++ n
    | N_prefix p => kind x = principal /\ exists l, n_name (Dom.get h x) = p ++ lit ":" ++ l
    | N_local n => kind x = principal /\ (n_name (Dom.get h x) = n \/ exists p, ~ In 58%N p /\ n_name (Dom.get h x) = p ++ lit ":" ++ n)
    | N_pi n => kind x = Instruction /\ (n = None \/ n = Some (n_name (Dom.get h x)))
    | N_element n => kind x = Element /\ (n = None \/ n = Some (n_name (Dom.get h x)))
    | N_attribute n => kind x = Attribute /\ (n = None \/ n = Some (n_name (Dom.get h x)))
    | N_document => kind x = DocumentRoot
    | N_namespace => False                       (* there are no namespace nodes *)
    end.
  (* the tests of which the program has its own idea *)
  Definition ordinary_test (t : nodetest) : Prop := match t with N_local _ | N_document => False | _ => True end.

  (* the entry of a map for a key; a key not in the map gives nothing (restricted: the keys are told apart by
     their texts, so 1 and '1' must not meet, and there is no negative zero); the member of an array (restricted: an index in range) *)
  Definition other_key (a b : xitem) : Prop := exists s t, string_of a s /\ string_of b t /\ s <> t /\
    a <> XIDouble (S754_zero true) /\ b <> XIDouble (S754_zero true).
  Definition map_or_array (it : xitem) : Prop := (exists m, it = XIMap m) \/ exists a, it = XIArray a.
  Inductive looks : xitem -> xitem -> xseq -> Prop :=
  | lk_entry : forall pre k v post s, string_of k s -> (forall p, In p pre -> other_key (fst p) k) ->
      looks (XIMap (pre ++ (k, v) :: post)) k v
  | lk_none : forall m k, (forall p, In p m -> other_key (fst p) k) -> looks (XIMap m) k []
  | lk_member : forall a n v, nth_error a n = Some v -> looks (XIArray a) (XIInteger (Z.of_nat n + 1)) v.
  (* a map all of whose keys differ *)
  Inductive keys_differ : list (xitem * xseq) -> Prop :=
  | kd_nil : keys_differ []
  | kd_cons : forall k v m s, string_of k s -> (forall p, In p m -> other_key (fst p) k) -> keys_differ m ->
      keys_differ ((k, v) :: m).
  Inductive looks_up : xitem -> lookup -> xseq -> Prop :=
  | lu_name : forall it n v, looks it (XIString n) v -> looks_up it (K_name n) v
  | lu_number : forall it d v, (Z.of_N (numeral d) < 2 ^ 63)%Z -> looks it (XIInteger (Z.of_N (numeral d))) v ->
      looks_up it (K_number d) v
  | lu_map : forall m, keys_differ m -> looks_up (XIMap m) K_all (flat_map snd m)
  | lu_array : forall a, looks_up (XIArray a) K_all (List.concat a).

  (* is the item of the type?  (Function items, other than maps and arrays, have no meaning here.) *)
  Inductive item_is : xitem -> itemtype -> bool -> Prop :=
  | ii_item : forall it, item_is it I_item true
  | ii_atomic : forall it t n b, has_type it t -> known_type (lit "xs:" ++ n) -> (b = true <-> derives t (lit "xs:" ++ n)) ->
      item_is it (I_atomic n) b
  | ii_no_atomic : forall it n, (forall t, ~ has_type it t) -> known_type (lit "xs:" ++ n) -> item_is it (I_atomic n) false
  | ii_node : forall i t b, ordinary_test t -> (b = true <-> passes A_child t i) -> item_is (XINode i) (I_test t) b
  | ii_no_node : forall it t, atomic it -> item_is it (I_test t) false
  | ii_function : forall it b, (b = true <-> map_or_array it) ->
      item_is it I_function b                                              (* maps and arrays are functions *)
  | ii_map : forall m, (forall p, In p m -> exists t, has_type (fst p) t) -> keys_differ m -> item_is (XIMap m) I_map true
  | ii_no_map : forall it, (forall m, it <> XIMap m) -> item_is it I_map false
  | ii_array : forall a, item_is (XIArray a) I_array true
  | ii_no_array : forall it, (forall a, it <> XIArray a) -> item_is it I_array false.
  Definition allowed (c : occurrence) (n : nat) : bool :=
    match c with C_one => n =? 1 | C_opt => n <=? 1 | C_many => true | C_some => 1 <=? n end.
  Inductive of_type : xseq -> seqtype -> bool -> Prop :=
  | ot_empty : forall v b, (b = true <-> v = []) -> of_type v T_empty b
  | ot_items : forall v t c k, (forall it, In it v -> item_is it t (k it)) ->
      of_type v (T_of t c) (allowed c (List.length v) && forallb k v).

  (* the functions (a selection): [library f name args v] *)
  Inductive library (f : focus) : str -> list xseq -> xseq -> Prop :=
  | lb_true : library f (lit "true") [] [XIBoolean true]
  | lb_false : library f (lit "false") [] [XIBoolean false]
  | lb_not : forall v b, ebv v b -> library f (lit "not") [v] [XIBoolean (negb b)]
  | lb_boolean : forall v b, ebv v b -> library f (lit "boolean") [v] [XIBoolean b]
  | lb_position : library f (lit "position") [] [XIInteger (Z.of_nat (f_pos f))]
  | lb_last : library f (lit "last") [] [XIInteger (Z.of_nat (f_size f))]
  | lb_count : forall v, library f (lit "count") [v] [XIInteger (Z.of_nat (List.length v))]
  | lb_empty : forall v b, (b = true <-> v = []) -> library f (lit "empty") [v] [XIBoolean b]
  | lb_exists : forall v b, (b = true <-> v <> []) -> library f (lit "exists") [v] [XIBoolean b]
  | lb_string : forall v s, text_arg v s -> library f (lit "string") [v] [XIString s]
  | lb_string0 : forall s, string_of (f_item f) s -> library f (lit "string") [] [XIString s]
  | lb_concat : forall vs ss, 2 <= List.length vs -> Forall2 text_arg vs ss ->
      library f (lit "concat") vs [XIString (List.concat ss)]
  | lb_string_join : forall v ss sep, Forall2 string_of v ss ->
      library f (lit "string-join") [v; [XIString sep]] [XIString (sep_by sep ss)]
  | lb_string_length : forall v s, string_arg v s -> library f (lit "string-length") [v] [XIInteger (Z.of_nat (List.length s))]
  | lb_contains : forall v w s t b, string_arg v s -> string_arg w t -> (b = true <-> exists l r, s = l ++ t ++ r) ->
      library f (lit "contains") [v; w] [XIBoolean b]
  | lb_starts_with : forall v w s t b, string_arg v s -> string_arg w t -> (b = true <-> exists r, s = t ++ r) ->
      library f (lit "starts-with") [v; w] [XIBoolean b]
  | lb_ends_with : forall v w s t b, string_arg v s -> string_arg w t -> (b = true <-> exists l, s = l ++ t) ->
      library f (lit "ends-with") [v; w] [XIBoolean b]
  | lb_substring_before : forall v w s t l r, string_arg v s -> string_arg w t -> s = l ++ t ++ r ->
      (forall l' r', s = l' ++ t ++ r' -> List.length l <= List.length l') -> library f (lit "substring-before") [v; w] [XIString l]
  | lb_substring_after : forall v w s t l r, string_arg v s -> string_arg w t -> s = l ++ t ++ r ->
      (forall l' r', s = l' ++ t ++ r' -> List.length l <= List.length l') -> library f (lit "substring-after") [v; w] [XIString r]
  | lb_substring_none : forall n v w s t, n = lit "substring-before" \/ n = lit "substring-after" -> string_arg v s -> string_arg w t ->
      (forall l r, s <> l ++ t ++ r) -> library f n [v; w] [XIString []]
  | lb_name : forall i, library f (lit "name") [[XINode i]] [XIString (n_name (Dom.get h i))]
  | lb_name0 : forall i, f_item f = XINode i -> library f (lit "name") [] [XIString (n_name (Dom.get h i))]
  | lb_local_name : forall i p l, ~ In 58%N p -> n_name (Dom.get h i) = p ++ lit ":" ++ l -> library f (lit "local-name") [[XINode i]] [XIString l]
  | lb_local_name_plain : forall i, ~ In 58%N (n_name (Dom.get h i)) ->
      library f (lit "local-name") [[XINode i]] [XIString (n_name (Dom.get h i))]
  | lb_root : forall i, library f (lit "root") [[XINode i]] [XINode 0]
  | lb_reverse : forall v, library f (lit "reverse") [v] (rev v)
  | lb_head : forall it v, library f (lit "head") [it :: v] [it]
  | lb_head0 : library f (lit "head") [[]] []
  | lb_tail : forall it v, library f (lit "tail") [it :: v] v
  | lb_tail0 : library f (lit "tail") [[]] []
  | lb_data : forall v ss, Forall2 text_item v ss -> library f (lit "data") [v] (map XIString ss)
  | lb_sum : forall l, (forall k, is_i64 (fold_right Z.add 0%Z (firstn k l))) ->
      library f (lit "sum") [map XIInteger l] [XIInteger (fold_right Z.add 0%Z l)]
  | lb_max : forall l m, In m l -> (forall z, In z l -> (z <= m)%Z) ->
      library f (lit "max") [map XIInteger l] [XIInteger m]
  | lb_min : forall l m, In m l -> (forall z, In z l -> (m <= z)%Z) ->
      library f (lit "min") [map XIInteger l] [XIInteger m].
  (* more functions: numbers, *)
  Inductive more_library (f : focus) : str -> list xseq -> xseq -> Prop :=
  | ml_number_text : forall it s neg m e x, text_item it s -> decimal_text s neg m e -> rounded (decimal_value neg m e) neg x ->
      more_library f (lit "number") [[it]] [XIDouble x]
  | ml_number : forall it x, number_of it x -> more_library f (lit "number") [[it]] [XIDouble x]
  | ml_number_boolean : forall (b : bool) x, number_of (XIInteger (if b then 1 else 0)%Z) x -> more_library f (lit "number") [[XIBoolean b]] [XIDouble x]
  | ml_number_empty : more_library f (lit "number") [[]] [XIDouble S754_nan]
  | ml_number0 : forall r, more_library f (lit "number") [[f_item f]] r -> more_library f (lit "number") [] r
  | ml_rounding_double : forall n x y, rounding true n x y -> more_library f n [[XIDouble x]] [XIDouble y]
  | ml_rounding_decimal : forall n x y, rounding false n x y -> more_library f n [[XIDecimal x]] [XIDecimal y]
  | ml_rounding_integer : forall n z, In n [lit "floor"; lit "ceiling"; lit "round"] -> more_library f n [[XIInteger z]] [XIInteger z]
  | ml_abs : forall z, is_i64 (Z.abs z) -> more_library f (lit "abs") [[XIInteger z]] [XIInteger (Z.abs z)]
  | ml_rounding_empty : forall n, In n [lit "floor"; lit "ceiling"; lit "round"; lit "abs"] -> more_library f n [[]] []
  | ml_sum : forall v r, v <> [] -> sum_from (XIInteger 0) v r -> more_library f (lit "sum") [v] [r]
  | ml_sum_zero : forall z, more_library f (lit "sum") [[]; z] z
  | ml_sum_more : forall v z r, v <> [] -> sum_from (XIInteger 0) v r -> more_library f (lit "sum") [v; z] [r]
  | ml_avg : forall v s r, v <> [] -> sum_from (XIInteger 0) v s -> number_op O_div s (XIInteger (Z.of_nat (List.length v))) r ->
      more_library f (lit "avg") [v] [r]
  | ml_none : forall n, In n [lit "avg"; lit "max"; lit "min"] -> more_library f n [[]] []
  (* strings, *)
  | ml_upper : forall v s r, string_arg v s -> upper_text s r ->
      more_library f (lit "upper-case") [v] [XIString r]
  | ml_lower : forall v s r, string_arg v s -> lower_text [] s r ->
      more_library f (lit "lower-case") [v] [XIString r]
  | ml_compare : forall s t z, (z = -1 /\ lex_lt s t \/ z = 0 /\ s = t \/ z = 1 /\ lex_lt t s)%Z ->
      more_library f (lit "compare") [[XIString s]; [XIString t]] [XIInteger z]
  | ml_codepoint_equal : forall s t b, Forall scalar_value s -> Forall scalar_value t -> (b = true <-> s = t) ->
      more_library f (lit "codepoint-equal") [[XIString s]; [XIString t]] [XIBoolean b]
  | ml_compare_empty : forall n v w, In n [lit "compare"; lit "codepoint-equal"] -> v = [] \/ w = [] -> more_library f n [v; w] []
  | ml_translate : forall v s from to r, string_arg v s -> NoDup from ->           (* restricted: NoDup *)
      translates from to s r -> more_library f (lit "translate") [v; [XIString from]; [XIString to]] [XIString r]
  (* restricted: see [moderate] *)
  | ml_substring : forall s a b i j, moderate a -> moderate b -> rounds a i -> rounds b j ->
      more_library f (lit "substring") [[XIString s]; [a]; [b]] [XIString (at_positions (fun p => (i <=? p)%Z && (p <? i + j)%Z) s)]
  | ml_substring_rest : forall s a i, moderate a -> rounds a i ->
      more_library f (lit "substring") [[XIString s]; [a]] [XIString (at_positions (fun p => i <=? p)%Z s)]
  | ml_to_codepoints : forall v s, string_arg v s -> Forall scalar_value s ->
      more_library f (lit "string-to-codepoints") [v] (map (fun c => XIInteger (Z.of_N c)) s)
  | ml_of_codepoints : forall s, Forall scalar_value s ->
      more_library f (lit "codepoints-to-string") [map (fun c => XIInteger (Z.of_N c)) s] [XIString s]
  (* sequences, *)
  | ml_subsequence : forall v a b i j, moderate a -> moderate b -> rounds a i -> rounds b j ->
      more_library f (lit "subsequence") [v; [a]; [b]] (at_positions (fun p => (i <=? p)%Z && (p <? i + j)%Z) v)
  | ml_subsequence_rest : forall v a i, moderate a -> rounds a i ->
      more_library f (lit "subsequence") [v; [a]] (at_positions (fun p => i <=? p)%Z v)
  | ml_index_of : forall v y k, (forall x, In x v -> compares CEq x y (k x)) ->
      more_library f (lit "index-of") [v; [y]]
        (map (fun p => XIInteger (Z.of_nat (fst p))) (filter (fun p => k (snd p)) (combine (seq 1 (List.length v)) v)))
  | ml_insert_before : forall v p w k, (- 2 ^ 63 < p < 2 ^ 63)%Z -> (Z.of_nat k + 1 = Z.max 1 (Z.min p (Z.of_nat (List.length v) + 1)))%Z ->
      more_library f (lit "insert-before") [v; [XIInteger p]; w] (firstn k v ++ w ++ skipn k v)
  | ml_remove : forall v p, is_i64 p -> (Z.of_nat (List.length v) < 2 ^ 63)%Z ->
      more_library f (lit "remove") [v; [XIInteger p]] (at_positions (fun q => negb (q =? p)%Z) v)
  | ml_zero_or_one : forall v, List.length v <= 1 -> more_library f (lit "zero-or-one") [v] v
  | ml_one_or_more : forall v, 1 <= List.length v -> more_library f (lit "one-or-more") [v] v
  | ml_exactly_one : forall it, more_library f (lit "exactly-one") [[it]] [it]
  | ml_data : forall v, (forall it, In it v -> exists t, has_type it t) -> more_library f (lit "data") [v] v
  (* nodes *)
  (* restricted: elements whose name has not the prefix xml *)
  | ml_namespace_uri : forall i name l1 x l2 v, kind i = Element -> name <> lit "xmlns:xml" ->
      declaration_name (n_name (Dom.get h i)) name -> ancestry h i (l1 ++ x :: l2) ->
      declares h name x v -> (forall y w, In y l1 -> ~ declares h name y w) ->
      more_library f (lit "namespace-uri") [[XINode i]] [XIString v]
  | ml_no_namespace : forall i name l, kind i = Element -> name <> lit "xmlns:xml" ->
      declaration_name (n_name (Dom.get h i)) name -> ancestry h i l ->
      (forall y w, In y l -> ~ declares h name y w) -> more_library f (lit "namespace-uri") [[XINode i]] [XIString []]
  | ml_nilled : forall i b, kind i = Element -> (b = true <-> attribute_value h i (lit "xsi:nil") = Some (lit "true")) ->
      more_library f (lit "nilled") [[XINode i]] [XIBoolean b].
  Inductive function_value (f : focus) (name : str) (args : list xseq) (v : xseq) : Prop :=
  | fv_library : library f name args v -> function_value f name args v
  | fv_more : more_library f name args v -> function_value f name args v.
  (* the functions of maps and arrays *)
  Inductive item_library : str -> str -> list xseq -> xseq -> Prop :=
  | il_map_get : forall m k v, looks (XIMap m) k v -> item_library (lit "map") (lit "get") [[XIMap m]; [k]] v
  | il_contains : forall pre k v post s, string_of k s -> item_library (lit "map") (lit "contains") [[XIMap (pre ++ (k, v) :: post)]; [k]] [XIBoolean true]
  | il_contains_not : forall m k, (forall p, In p m -> other_key (fst p) k) -> item_library (lit "map") (lit "contains") [[XIMap m]; [k]] [XIBoolean false]
  | il_keys : forall m, item_library (lit "map") (lit "keys") [[XIMap m]] (map fst m)
  | il_map_size : forall m, item_library (lit "map") (lit "size") [[XIMap m]] [XIInteger (Z.of_nat (List.length m))]
  | il_array_get : forall a k v, looks (XIArray a) k v -> item_library (lit "array") (lit "get") [[XIArray a]; [k]] v
  | il_array_size : forall a, item_library (lit "array") (lit "size") [[XIArray a]] [XIInteger (Z.of_nat (List.length a))]
  | il_flatten : forall v r, flattens v r -> item_library (lit "array") (lit "flatten") [v] r.

  Inductive means : focus -> vars -> expr -> xseq -> Prop :=
  | m_string : forall f vs s, means f vs (ELit L_string s) [XIString s]
  | m_integer : forall f vs d, (Z.of_N (numeral d) < 2 ^ 63)%Z ->          (* restricted: 64 bits *)
      means f vs (ELit L_integer d) [XIInteger (Z.of_N (numeral d))]
  | m_decimal : forall f vs d m e x, decimal_text d false m e -> rounded (decimal_value false m e) false x ->
      finite x ->                                                          (* restricted: XPath has more digits *)
      means f vs (ELit L_decimal d) [XIDecimal x]
  | m_double : forall f vs d m e x, decimal_text d false m e -> rounded (decimal_value false m e) false x ->
      means f vs (ELit L_double d) [XIDouble x]
  | m_var : forall f vs n v, vs n = Some (Bval v) -> means f vs (EVar n) v
  | m_dot : forall f vs, means f vs EDot [f_item f]
  | m_empty : forall f vs, means f vs EEmpty []
  | m_comma : forall f vs a b v w, means f vs a v -> means f vs b w -> means f vs (EBin O_comma a b) (v ++ w)
  | m_or_left : forall f vs a b v, means f vs a v -> ebv v true -> means f vs (EBin O_or a b) [XIBoolean true]
  | m_or_right : forall f vs a b v w t, means f vs a v -> ebv v false -> means f vs b w -> ebv w t ->
      means f vs (EBin O_or a b) [XIBoolean t]
  | m_and_left : forall f vs a b v, means f vs a v -> ebv v false -> means f vs (EBin O_and a b) [XIBoolean false]
  | m_and_right : forall f vs a b v w t, means f vs a v -> ebv v true -> means f vs b w -> ebv w t ->
      means f vs (EBin O_and a b) [XIBoolean t]
  | m_value : forall f vs o op a b x y t, value_op o = Some op -> means f vs a [x] -> means f vs b [y] ->
      compares op x y t -> means f vs (EBin o a b) [XIBoolean t]
  | m_general_true : forall f vs o op a b v w x y, general_op o = Some op -> means f vs a v -> means f vs b w ->
      In x v -> In y w -> compares op x y true -> means f vs (EBin o a b) [XIBoolean true]
  | m_general_false : forall f vs o op a b v w, general_op o = Some op -> means f vs a v -> means f vs b w ->
      (forall x y, In x v -> In y w -> compares op x y false) -> means f vs (EBin o a b) [XIBoolean false]
  | m_is : forall f vs a b i j t, means f vs a [XINode i] -> means f vs b [XINode j] -> (t = true <-> i = j) ->
      means f vs (EBin O_is a b) [XIBoolean t]
  | m_before : forall f vs a b i j t, means f vs a [XINode i] -> means f vs b [XINode j] ->
      (t = true <-> before order i j) -> means f vs (EBin O_before a b) [XIBoolean t]
  | m_after : forall f vs a b i j t, means f vs a [XINode i] -> means f vs b [XINode j] ->
      (t = true <-> before order j i) -> means f vs (EBin O_after a b) [XIBoolean t]
  | m_concat : forall f vs a b v w s t, means f vs a v -> means f vs b w -> text_arg v s -> text_arg w t ->
      means f vs (EBin O_concat a b) [XIString (s ++ t)]
  | m_to : forall f vs a b m n l, means f vs a [XIInteger m] -> means f vs b [XIInteger n] ->
      (forall k, In k l <-> (m <= k <= n)%Z) -> StronglySorted Z.lt l ->
      means f vs (EBin O_to a b) (map XIInteger l)
  | m_arith : forall f vs o a b x y z, means f vs a [XIInteger x] -> means f vs b [XIInteger y] ->
      computes o x y z -> is_i64 x -> is_i64 y -> is_i64 z ->              (* restricted: 64 bits *)
      ~ (o = O_mod /\ x = (- 2 ^ 63)%Z /\ y = (-1)%Z) -> means f vs (EBin o a b) [XIInteger z]
  | m_number_op : forall f vs o a b x y z, means f vs a [x] -> means f vs b [y] -> number_op o x y z -> means f vs (EBin o a b) [z]
  | m_union : forall f vs o a b l r u, o = O_union \/ o = O_bar -> means f vs a (nodes l) -> means f vs b (nodes r) ->
      exactly order (fun x => In x l \/ In x r) u -> means f vs (EBin o a b) (nodes u)
  | m_intersect : forall f vs a b l r u, means f vs a (nodes l) -> means f vs b (nodes r) ->
      StronglySorted (before order) l ->                                   (* restricted *)
      exactly order (fun x => In x l /\ In x r) u -> means f vs (EBin O_intersect a b) (nodes u)
  | m_except : forall f vs a b l r u, means f vs a (nodes l) -> means f vs b (nodes r) ->
      StronglySorted (before order) l ->                                   (* restricted *)
      exactly order (fun x => In x l /\ ~ In x r) u -> means f vs (EBin O_except a b) (nodes u)
  | m_map : forall f vs a b l g, means f vs a l ->
      (forall it p n, In it l -> means (mkFocus it p n) vs b (g it)) ->    (* restricted: whatever the position *)
      means f vs (EBin O_map a b) (flat_map g l)
  | m_plus : forall f vs a z, means f vs a [XIInteger z] -> means f vs (ESign false a) [XIInteger z]
  | m_minus : forall f vs a z, means f vs a [XIInteger z] -> is_i64 (- z) -> means f vs (ESign true a) [XIInteger (- z)]
  | m_plus_number : forall f vs a it x, means f vs a [it] -> double_or_decimal it x -> means f vs (ESign false a) [it]
  | m_minus_double : forall f vs a x, means f vs a [XIDouble x] -> means f vs (ESign true a) [XIDouble (SFopp x)]
  | m_minus_decimal : forall f vs a x, means f vs a [XIDecimal x] -> means f vs (ESign true a) [XIDecimal (SFopp x)]
  | m_instance : forall f vs a n it t b, means f vs a [it] -> has_type it t -> known_type (lit "xs:" ++ n) ->
      (b = true <-> derives t (lit "xs:" ++ n)) -> means f vs (EType Y_instance a n) [XIBoolean b]
  | m_instance0 : forall f vs a n, means f vs a [] -> known_type (lit "xs:" ++ n) ->
      means f vs (EType Y_instance a n) [XIBoolean true]
  | m_instance2 : forall f vs a n v, means f vs a v -> 1 < List.length v -> known_type (lit "xs:" ++ n) ->
      means f vs (EType Y_instance a n) [XIBoolean false]
  | m_cast : forall f vs a n it r, means f vs a [it] -> casts it n r -> means f vs (ECast false a n) [r]
  | m_cast1 : forall f vs a n it r, means f vs a [it] -> casts it n r -> means f vs (EType Y_cast a n) [r]
  | m_cast0 : forall f vs a n, means f vs a [] -> means f vs (EType Y_cast a n) []
  | m_castable : forall f vs a n it r, means f vs a [it] -> casts it n r -> means f vs (ECast true a n) [XIBoolean true]
  | m_castable1 : forall f vs a n it r, means f vs a [it] -> casts it n r -> means f vs (EType Y_castable a n) [XIBoolean true]
  | m_castable10 : forall f vs a n, means f vs a [] -> means f vs (EType Y_castable a n) [XIBoolean true]
  | m_castable12 : forall f vs a n v, means f vs a v -> 1 < List.length v -> means f vs (EType Y_castable a n) [XIBoolean false]
  | m_castable0 : forall f vs a n, means f vs a [] -> means f vs (ECast true a n) [XIBoolean false]
  | m_castable2 : forall f vs a n v, means f vs a v -> 1 < List.length v -> means f vs (ECast true a n) [XIBoolean false]
  | m_if_true : forall f vs c a b v w, means f vs c v -> ebv v true -> means f vs a w -> means f vs (EIf c a b) w
  | m_if_false : forall f vs c a b v w, means f vs c v -> ebv v false -> means f vs b w -> means f vs (EIf c a b) w
  | m_for : forall f vs v e b l g, means f vs e l -> (forall it, In it l -> means f (bind_var v [it] vs) b (g it)) ->
      means f vs (EBind Q_for v e b) (flat_map g l)
  | m_some : forall f vs v e b l g t, means f vs e l -> (forall it, In it l -> means f (bind_var v [it] vs) b (g it)) ->
      (forall it, In it l -> ebv (g it) (t it)) -> means f vs (EBind Q_some v e b) [XIBoolean (existsb t l)]
  | m_every : forall f vs v e b l g t, means f vs e l -> (forall it, In it l -> means f (bind_var v [it] vs) b (g it)) ->
      (forall it, In it l -> ebv (g it) (t it)) -> means f vs (EBind Q_every v e b) [XIBoolean (forallb t l)]
  | m_let : forall f vs v e b l r, means f vs e l -> means f (bind_var v l vs) b r -> means f vs (ELet v e b) r
  | m_step : forall p s vs n sf t ps l r,
      (kind n = Attribute -> form_axis sf <> A_following /\ form_axis sf <> A_preceding) ->   (* restricted *)
      exactly order (fun x => axis_has (form_axis sf) x n /\ passes (form_axis sf) t x) l ->
      narrows vs (reverse_axis (form_axis sf)) ps (nodes l) r ->
      ordinary_test t ->                                                                      (* restricted *)
      means (mkFocus (XINode n) p s) vs (EStep sf t ps) r
  | m_parent : forall p s vs n q, parent h n = Some q -> means (mkFocus (XINode n) p s) vs EParent [XINode q]
  | m_parent0 : forall p s vs n, parent h n = None -> means (mkFocus (XINode n) p s) vs EParent []
  | m_filter : forall f vs a p l r, means f vs a l -> narrows vs false [p] l r -> means f vs (EFilter a p) r
  | m_root : forall p s vs n, means (mkFocus (XINode n) p s) vs ERoot [XINode 0]
  | m_path : forall f vs a rest l r, means f vs a (nodes l) -> walks vs rest l r ->
      means f vs (EPath S_here a rest) (nodes r)
  | m_path_root : forall p s vs n a rest r, walks vs ((false, a) :: rest) [0] r ->
      means (mkFocus (XINode n) p s) vs (EPath S_root a rest) (nodes r)
  | m_path_all : forall p s vs n a rest r, walks vs ((true, a) :: rest) [0] r ->
      means (mkFocus (XINode n) p s) vs (EPath S_all a rest) (nodes r)
  | m_path_values : forall f vs a rest l r, means f vs a (nodes l) -> pours vs rest l r ->
      means f vs (EPath S_here a rest) r
  | m_path_root_values : forall p s vs n a rest r, pours vs ((false, a) :: rest) [0] r ->
      means (mkFocus (XINode n) p s) vs (EPath S_root a rest) r
  | m_path_all_values : forall p s vs n a rest r, pours vs ((true, a) :: rest) [0] r ->
      means (mkFocus (XINode n) p s) vs (EPath S_all a rest) r
  | m_call : forall f vs name args vals r, means_all f vs args vals -> function_value f name vals r ->
      means f vs (ECall name args) r
  | m_fn_call : forall f vs name args vals r, means_all f vs args vals -> function_value f name vals r ->
      means f vs (EPCall (lit "fn") name args) r
  | m_arrow : forall f vs a name args vals r, means_all f vs (a :: args) vals -> function_value f name vals r ->
      means f vs (EArrow false a name args) r
  | m_item_call : forall f vs p name args vals r, means_all f vs args vals -> item_library p name vals r ->
      means f vs (EPCall p name args) r
  | m_square : forall f vs es vals, means_all f vs es vals -> means f vs (ESquare es) [XIArray vals]
  | m_curly : forall f vs a v, means f vs a v -> means f vs (ECurly a) [XIArray (map (fun it => [it]) v)]
  | m_mapping : forall f vs es m, means_all f vs (map fst es) (map (fun p => [fst p]) m) -> means_all f vs (map snd es) (map snd m) ->
      keys_differ m -> (forall p, In p m -> atomic (fst p)) -> means f vs (EMap es) [XIMap m]
  | m_key : forall f vs k v, looks_up (f_item f) k v -> means f vs (EKey k) v
  | m_key_of : forall f vs k ks vals, means f vs k ks -> map_or_array (f_item f) -> Forall2 (looks (f_item f)) ks vals ->
      means f vs (EKeyOf k) (List.concat vals)
  | m_look : forall f vs a k l g, means f vs a l -> (forall it, In it l -> looks_up it k (g it)) ->
      means f vs (ELook a k) (flat_map g l)
  | m_look_of : forall f vs a k l ks g, means f vs a l -> means f vs k ks ->
      (forall it p n, In it l -> means (mkFocus it p n) vs k ks) ->        (* restricted: whatever the focus *)
      (forall it, In it l -> map_or_array it /\ Forall2 (looks it) ks (g it)) ->
      means f vs (ELookOf a k) (flat_map (fun it => List.concat (g it)) l)
  | m_apply_key : forall f vs a k it key v, means f vs a [it] -> means f vs k [key] -> looks it key v ->
      (forall m, it = XIMap m -> exists p, In p m /\ fst p = key) ->        (* restricted: a key of the map *)
      means f vs (EDyn a [k]) v
  | m_let_fun : forall f vs v e fe ev b r, function_at vs e fe ev -> hygienic [] fe ->   (* restricted: no some, no every in the function *)
      means f (bind_fun v fe ev vs) b r -> means f vs (ELet v e b) r
  | m_apply : forall f vs e ps b ev args vals r, function_at vs e (EFun ps b) ev -> same_scope (EFun ps b) ev vs ->
      means_all f vs args vals -> applies vs (EFun ps b) vals r -> means f vs (EDyn e args) r
  | m_arrow_apply : forall f vs a n ps b ev args vals r, vs n = Some (Bfn (EFun ps b) ev) -> same_scope (EFun ps b) ev vs ->
      means_all f vs (a :: args) vals -> applies vs (EFun ps b) vals r -> means f vs (EArrow true a n args) r
  | m_for_each : forall f vs a e fe ev l g, means f vs a l -> function_at vs e fe ev -> same_scope fe ev vs ->
      (forall it, In it l -> applies vs fe [[it]] (g it)) ->
      means f vs (ECall (lit "for-each") [a; e]) (flat_map g l)
  | m_filter_each : forall f vs a e fe ev l g t, means f vs a l -> function_at vs e fe ev -> same_scope fe ev vs ->
      (forall it, In it l -> applies vs fe [[it]] (g it)) -> (forall it, In it l -> ebv (g it) (t it)) ->
      means f vs (ECall (lit "filter") [a; e]) (filter t l)
  | m_of_type : forall f vs a t v b, means f vs a v -> of_type v t b -> means f vs (EInst false a t) [XIBoolean b]
  | m_multi : forall f vs q bs b r, bs <> [] -> binds f vs q bs b r -> means f vs (EMulti q bs b) r
  (* [applies vs fe vals r]: the function fe, with the free variables vs, gives r for the arguments vals *)
  with applies : vars -> expr -> list xseq -> xseq -> Prop :=
  | ap_inline : forall vs ps b vals r, List.length ps = List.length vals -> NoDup ps ->
      (forall f, means f (bind_vars ps vals vs) b r) ->                    (* a function body has no focus *)
      applies vs (EFun ps b) vals r
  | ap_named : forall vs name d vals r, numeral d = N.of_nat (List.length vals) -> (Z.of_N (numeral d) < 2 ^ 63)%Z ->
      (forall f, function_value f name vals r) ->                          (* restricted: whatever the focus *)
      applies vs (ERef name d) vals r
  | ap_partial : forall vs name os vals all r, (forall f, fills f vs os vals all) ->
      (forall f, function_value f name all r) ->                           (* restricted: whatever the focus *)
      applies vs (EPart name os) vals r
  (* [fills f vs os vals all]: the arguments os, with the values vals where there is a "?" *)
  with fills : focus -> vars -> list (option expr) -> list xseq -> list xseq -> Prop :=
  | fl_nil : forall f vs, fills f vs [] [] []
  | fl_value : forall f vs e os v vals all, means f vs e v -> fills f vs os vals all -> fills f vs (Some e :: os) vals (v :: all)
  | fl_open : forall f vs os v vals all, fills f vs os vals all -> fills f vs (None :: os) (v :: vals) (v :: all)
  (* the variables of one keyword are bound one after the other *)
  with binds : focus -> vars -> option quant -> list (str * expr) -> expr -> xseq -> Prop :=
  | bd_body : forall f vs q b r, q = Some Q_for \/ q = None -> means f vs b r -> binds f vs q [] b r
  | bd_truth : forall f vs q b r t, q = Some Q_some \/ q = Some Q_every -> means f vs b r -> ebv r t -> binds f vs q [] b [XIBoolean t]
  | bd_for : forall f vs v e bs b l g, means f vs e l -> (forall it, In it l -> binds f (bind_var v [it] vs) (Some Q_for) bs b (g it)) ->
      binds f vs (Some Q_for) ((v, e) :: bs) b (flat_map g l)
  | bd_let : forall f vs v e bs b l r, means f vs e l -> binds f (bind_var v l vs) None bs b r ->
      binds f vs None ((v, e) :: bs) b r
  | bd_let_fun : forall f vs v e fe ev bs b r, function_at vs e fe ev -> hygienic [] fe ->
      binds f (bind_fun v fe ev vs) None bs b r -> binds f vs None ((v, e) :: bs) b r
  | bd_some : forall f vs v e bs b l t, means f vs e l ->
      (forall it, In it l -> binds f (bind_var v [it] vs) (Some Q_some) bs b [XIBoolean (t it)]) ->
      binds f vs (Some Q_some) ((v, e) :: bs) b [XIBoolean (existsb t l)]
  | bd_every : forall f vs v e bs b l t, means f vs e l ->
      (forall it, In it l -> binds f (bind_var v [it] vs) (Some Q_every) bs b [XIBoolean (t it)]) ->
      binds f vs (Some Q_every) ((v, e) :: bs) b [XIBoolean (forallb t l)]
  (* the arguments of a call *)
  with means_all : focus -> vars -> list expr -> list xseq -> Prop :=
  | ma_nil : forall f vs, means_all f vs [] []
  | ma_cons : forall f vs e es v l, means f vs e v -> means_all f vs es l -> means_all f vs (e :: es) (v :: l)
  (* [narrows vs rev ps l r]: the predicates ps leave r of l; positions count from the end for reverse axes *)
  with narrows : vars -> bool -> list expr -> xseq -> xseq -> Prop :=
  | nr_nil : forall vs rev l, narrows vs rev [] l l
  | nr_cons : forall vs (rev : bool) p ps l vals keep r,
      (forall k it, nth_error l k = Some it ->
         means (mkFocus it (if rev then List.length l - k else S k) (List.length l)) vs p (vals (S k))) ->
      (forall k, k < List.length l -> predicate_truth (vals (S k)) (if rev then List.length l - k else S k) (keep (S k))) ->
      narrows vs rev ps (pick keep l) r -> narrows vs rev (p :: ps) l r
  (* [walks vs steps l r]: the steps lead from the nodes l to the nodes r, in document order *)
  with walks : vars -> list (bool * expr) -> list nat -> list nat -> Prop :=
  | w_last : forall vs e l g r,
      (forall n p s, In n l -> means (mkFocus (XINode n) p s) vs e (nodes (g n))) ->
      exactly order (fun x => exists n, In n l /\ In x (g n)) r -> walks vs [(false, e)] l r
  | w_slash : forall vs e rest l g l' r, rest <> [] ->
      (forall n p s, In n l -> means (mkFocus (XINode n) p s) vs e (nodes (g n))) ->
      exactly order (fun x => exists n, In n l /\ In x (g n)) l' -> walks vs rest l' r -> walks vs ((false, e) :: rest) l r
  | w_deep : forall vs e rest l l' r,
      exactly order (fun x => exists n, In n l /\ (x = n \/ descendant h x n)) l' ->
      walks vs ((false, e) :: rest) l' r -> walks vs ((true, e) :: rest) l r
  (* the same when the last step gives atomic values (restricted: the nodes met on the way are met in document order) *)
  with pours : vars -> list (bool * expr) -> list nat -> xseq -> Prop :=
  | p_last : forall vs e l g, (forall n p s, In n l -> means (mkFocus (XINode n) p s) vs e (g n)) ->
      (forall n it, In n l -> In it (g n) -> atomic it) -> pours vs [(false, e)] l (flat_map g l)
  | p_slash : forall vs e rest l g r, rest <> [] ->
      (forall n p s, In n l -> means (mkFocus (XINode n) p s) vs e (nodes (g n))) ->
      StronglySorted (before order) (flat_map g l) -> pours vs rest (flat_map g l) r -> pours vs ((false, e) :: rest) l r
  | p_deep : forall vs e rest l g r,
      (forall n, In n l -> exactly order (fun x => x = n \/ descendant h x n) (g n)) ->
      StronglySorted (before order) (flat_map g l) ->
      pours vs ((false, e) :: rest) (flat_map g l) r -> pours vs ((true, e) :: rest) l r.
End Meaning.

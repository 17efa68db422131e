(* Specification for C82: which errors the evaluation of an expression raises, by the rules of the XPath recommendation.
   [raises h order f vs e k]: evaluating e in the focus f with the variables vs raises an error of the kind k.  The first
   group of rules says where errors come from, the second that an error inside an expression is an error of the whole,
   with the same kind.  What has been evaluated before the error has a value ([means], SpecSem.v).  An expression to which
   no rule applies raises nothing here; the rules leave out the places (C82_lost_refuted) where this program raises no
   error although XPath wants one. *)
Require Import Bool List NArith ZArith Ascii String Sorted.
Require Import Coq.Floats.SpecFloat.
From Verif Require Import Str Dom SpecEdit SpecAxes Lexer Parser SpecExpr Num Item SpecOper SpecEval SpecInt SpecSem.
Import ListNotations.
Open Scope nat_scope.

Definition a_number (it : xitem) : Prop := match it with XIInteger _ | XIDecimal _ | XIDouble _ => True | _ => False end.
(* an item that no rule converts to a number *)
Definition no_number (it : xitem) : Prop := match it with XIString _ | XIBoolean _ | XIMap _ | XIFun _ => True | _ => False end.
Definition no_integer (it : xitem) : Prop := no_number it \/ match it with XIDecimal _ | XIDouble _ => True | _ => False end.
Definition a_node (it : xitem) : Prop := match it with XINode _ => True | _ => False end.
Definition an_atom (it : xitem) : Prop := match it with XINode _ | XIMap _ | XIArray _ | XIFun _ => False | _ => True end.
(* the integer or decimal zero *)
Definition a_zero (it : xitem) : Prop := it = XIInteger 0 \/ exists s, it = XIDecimal (S754_zero s).
(* no finite number *)
Definition special (it : xitem) : Prop := it = XIDouble S754_nan \/ exists s, it = XIDouble (S754_infinity s).
(* numbers, texts (strings and nodes), truth values, things without order; arrays are left out *)
Inductive class : Type := C_number | C_text | C_truth | C_none.
Definition class_of (it : xitem) : option class :=
  match it with
  | XIInteger _ | XIDecimal _ | XIDouble _ => Some C_number
  | XIString _ | XINode _ => Some C_text
  | XIBoolean _ => Some C_truth
  | XIMap _ | XIFun _ => Some C_none
  | XIArray _ => None
  end.
Definition unlike (x y : xitem) : Prop :=
  exists a b, class_of x = Some a /\ class_of y = Some b /\ (a <> b \/ a = C_none).
(* values without an effective boolean value *)
Definition no_truth (v : xseq) : Prop :=
  (exists x y r, v = x :: y :: r /\ ~ a_node x) \/ (exists x, v = [x] /\ ~ a_node x /\ ~ an_atom x).
Definition several {A} (v : list A) : Prop := 1 < List.length v.

Inductive library_error : str -> list xseq -> errkind -> Prop :=
| le_exactly : forall v, List.length v <> 1 -> library_error (lit "exactly-one") [v] DynamicError
| le_zero : forall v, several v -> library_error (lit "zero-or-one") [v] DynamicError
| le_more : library_error (lit "one-or-more") [[]] DynamicError
| le_boolean : forall v, no_truth v -> library_error (lit "boolean") [v] TypeError
| le_not : forall v, no_truth v -> library_error (lit "not") [v] TypeError.

Section Errors.
  Variable h : heap.
  Variable order : list nat.
  Notation means := (means h order).
  Notation means_all := (means_all h order).

  Inductive raises : focus -> vars -> expr -> errkind -> Prop :=
  (* ---- where errors come from ---- *)
  | x_many : forall f vs o a b v w, In o [O_add; O_sub; O_mul; O_div; O_idiv; O_mod] -> means f vs a v -> means f vs b w ->
      v <> [] -> w <> [] -> several v \/ several w -> raises f vs (EBin o a b) TypeError
  | x_operand : forall f vs o a b x y, In o [O_add; O_sub; O_mul] -> means f vs a [x] -> means f vs b [y] ->
      no_number x \/ no_number y -> raises f vs (EBin o a b) TypeError
  | x_dividend : forall f vs o a b x y, In o [O_div; O_mod] -> means f vs a [x] -> means f vs b [y] ->
      no_number x -> a_number y -> ~ a_zero y -> raises f vs (EBin o a b) TypeError
  | x_divisor : forall f vs a b x y, means f vs a [x] -> means f vs b [y] -> no_number y -> raises f vs (EBin O_mod a b) TypeError
  | x_zero : forall f vs o a b x y, In o [O_div; O_idiv; O_mod] -> means f vs a [x] -> means f vs b [y] ->
      a_number x -> a_zero y -> raises f vs (EBin o a b) DynamicError
  | x_special : forall f vs a b x y, means f vs a [x] -> means f vs b [y] -> a_number x -> a_number y ->
      special x \/ y = XIDouble S754_nan -> raises f vs (EBin O_idiv a b) DynamicError
  | x_sign : forall f vs m a v, means f vs a v -> several v \/ (exists x, v = [x] /\ no_number x) -> raises f vs (ESign m a) TypeError
  | x_value_many : forall f vs o op a b v w, value_op o = Some op -> means f vs a v -> means f vs b w ->
      v <> [] -> w <> [] -> several v \/ several w -> raises f vs (EBin o a b) TypeError
  | x_value : forall f vs o op a b x y, value_op o = Some op -> means f vs a [x] -> means f vs b [y] ->
      unlike x y -> raises f vs (EBin o a b) TypeError
  | x_to : forall f vs a b v w, means f vs a v -> means f vs b w -> v <> [] -> w <> [] ->
      several v \/ several w \/ (exists x, v = [x] /\ no_integer x) \/ (exists x, w = [x] /\ no_integer x) ->
      raises f vs (EBin O_to a b) TypeError
  | x_node : forall f vs o a b v w, In o [O_is; O_before; O_after] -> means f vs a v -> means f vs b w -> v <> [] -> w <> [] ->
      several v \/ several w \/ (exists x, v = [x] /\ ~ a_node x) \/ (exists x, w = [x] /\ ~ a_node x) ->
      raises f vs (EBin o a b) TypeError
  | x_logic_left : forall f vs o a b v, o = O_or \/ o = O_and -> means f vs a v -> no_truth v -> raises f vs (EBin o a b) TypeError
  | x_or_right : forall f vs a b v w, means f vs a v -> ebv v false -> means f vs b w -> no_truth w -> raises f vs (EBin O_or a b) TypeError
  | x_and_right : forall f vs a b v w, means f vs a v -> ebv v true -> means f vs b w -> no_truth w -> raises f vs (EBin O_and a b) TypeError
  | x_if : forall f vs c a b v, means f vs c v -> no_truth v -> raises f vs (EIf c a b) TypeError
  | x_cast_many : forall f vs a n v, means f vs a v -> several v -> raises f vs (ECast false a n) TypeError
  | x_cast_many1 : forall f vs a n v, means f vs a v -> several v -> raises f vs (EType Y_cast a n) TypeError
  | x_cast_none : forall f vs a n, means f vs a [] -> raises f vs (ECast false a n) TypeError
  | x_cast_fun : forall f vs a n it, means f vs a [it] -> class_of it = Some C_none -> raises f vs (ECast false a n) TypeError
  | x_cast_fun1 : forall f vs a n it, means f vs a [it] -> class_of it = Some C_none -> raises f vs (EType Y_cast a n) TypeError
  | x_path : forall f vs a rest v it, rest <> [] -> means f vs a v -> In it v -> ~ a_node it -> raises f vs (EPath S_here a rest) TypeError
  | x_index : forall f vs a k l i, means f vs a [XIArray l] -> means f vs k [XIInteger i] ->
      ~ (1 <= i <= Z.of_nat (List.length l))%Z -> raises f vs (EDyn a [k]) DynamicError
  | x_key : forall f vs k, ~ map_or_array (f_item f) -> raises f vs (EKey k) TypeError
  | x_key_of : forall f vs k v, means f vs k v -> ~ map_or_array (f_item f) -> raises f vs (EKeyOf k) TypeError
  | x_look : forall f vs a k l1 it l2, means f vs a (l1 ++ it :: l2) -> (forall x, In x l1 -> exists v, looks_up h x k v) ->
      ~ map_or_array it -> raises f vs (ELook a k) TypeError
  | x_map_key : forall f vs es1 k v es2 m w, means_all f vs (map fst es1) (map (fun p => [fst p]) m) -> means_all f vs (map snd es1) (map snd m) ->
      means f vs k w -> List.length w <> 1 -> raises f vs (EMap (es1 ++ (k, v) :: es2)) TypeError
  | x_function : forall f vs name args vals k, means_all f vs args vals -> library_error name vals k -> raises f vs (ECall name args) k
  | x_fn_function : forall f vs name args vals k, means_all f vs args vals -> library_error name vals k -> raises f vs (EPCall (lit "fn") name args) k
  | x_arrow : forall f vs a name args vals k, means_all f vs (a :: args) vals -> library_error name vals k -> raises f vs (EArrow false a name args) k
  (* ---- an error inside is an error of the whole ---- *)
  | r_left : forall f vs o a b k, raises f vs a k -> raises f vs (EBin o a b) k
  | r_right : forall f vs o a b v k, o <> O_or -> o <> O_and -> o <> O_map -> means f vs a v -> raises f vs b k -> raises f vs (EBin o a b) k
  | r_or : forall f vs a b v k, means f vs a v -> ebv v false -> raises f vs b k -> raises f vs (EBin O_or a b) k
  | r_and : forall f vs a b v k, means f vs a v -> ebv v true -> raises f vs b k -> raises f vs (EBin O_and a b) k
  | r_map : forall f vs a b l1 it l2 k, means f vs a (l1 ++ it :: l2) ->
      (forall x, In x l1 -> exists v, forall p n, means (mkFocus x p n) vs b v) ->
      (forall p n, raises (mkFocus it p n) vs b k) -> raises f vs (EBin O_map a b) k
  | r_sign : forall f vs m a k, raises f vs a k -> raises f vs (ESign m a) k
  | r_type : forall f vs o a n k, o <> Y_treat -> raises f vs a k -> raises f vs (EType o a n) k
  | r_cast : forall f vs c a n k, raises f vs a k -> raises f vs (ECast c a n) k
  | r_inst : forall f vs a t k, raises f vs a k -> raises f vs (EInst false a t) k
  | r_cond : forall f vs c a b k, raises f vs c k -> raises f vs (EIf c a b) k
  | r_then : forall f vs c a b v k, means f vs c v -> ebv v true -> raises f vs a k -> raises f vs (EIf c a b) k
  | r_else : forall f vs c a b v k, means f vs c v -> ebv v false -> raises f vs b k -> raises f vs (EIf c a b) k
  | r_bind : forall f vs q v e b k, binds_raise f vs (Some q) [(v, e)] b k -> raises f vs (EBind q v e b) k
  | r_let : forall f vs v e b k, binds_raise f vs None [(v, e)] b k -> raises f vs (ELet v e b) k
  | r_multi : forall f vs q bs b k, bs <> [] -> binds_raise f vs q bs b k -> raises f vs (EMulti q bs b) k
  | r_base : forall f vs a p k, raises f vs a k -> raises f vs (EFilter a p) k
  | r_filter : forall f vs a p l1 it l2 k, means f vs a (l1 ++ it :: l2) ->
      (forall j x, nth_error l1 j = Some x -> exists v, means (mkFocus x (S j) (List.length (l1 ++ it :: l2))) vs p v) ->
      raises (mkFocus it (S (List.length l1)) (List.length (l1 ++ it :: l2))) vs p k -> raises f vs (EFilter a p) k
  | r_step : forall p s vs n sf t ps1 q ps2 l l1 it l2 k,
      (kind h n = Attribute -> form_axis sf <> A_following /\ form_axis sf <> A_preceding) -> ordinary_test t ->
      exactly order (fun x => axis_has h order (form_axis sf) x n /\ passes h (form_axis sf) t x) l ->
      narrows h order vs (reverse_axis (form_axis sf)) ps1 (nodes l) (l1 ++ it :: l2) ->
      (forall j x, nth_error l1 j = Some x -> exists v,
         means (mkFocus x (if reverse_axis (form_axis sf) then List.length (l1 ++ it :: l2) - j else S j) (List.length (l1 ++ it :: l2))) vs q v) ->
      raises (mkFocus it (if reverse_axis (form_axis sf) then List.length (l1 ++ it :: l2) - List.length l1 else S (List.length l1))
                      (List.length (l1 ++ it :: l2))) vs q k ->
      raises (mkFocus (XINode n) p s) vs (EStep sf t (ps1 ++ q :: ps2)) k
  | r_start : forall f vs a rest k, raises f vs a k -> raises f vs (EPath S_here a rest) k
  | r_path : forall f vs a rest l k, means f vs a (nodes l) -> steps_raise vs rest l k -> raises f vs (EPath S_here a rest) k
  | r_path_root : forall p s vs n a rest k, steps_raise vs ((false, a) :: rest) [0] k -> raises (mkFocus (XINode n) p s) vs (EPath S_root a rest) k
  | r_path_all : forall p s vs n a rest k, steps_raise vs ((true, a) :: rest) [0] k -> raises (mkFocus (XINode n) p s) vs (EPath S_all a rest) k
  | r_call : forall f vs name es1 e es2 vals k, means_all f vs es1 vals -> raises f vs e k -> raises f vs (ECall name (es1 ++ e :: es2)) k
  | r_pcall : forall f vs p name es1 e es2 vals k, means_all f vs es1 vals -> raises f vs e k -> raises f vs (EPCall p name (es1 ++ e :: es2)) k
  | r_arrow : forall f vs name a args es1 e es2 vals k, a :: args = es1 ++ e :: es2 -> means_all f vs es1 vals -> raises f vs e k ->
      raises f vs (EArrow false a name args) k
  | r_square : forall f vs es1 e es2 vals k, means_all f vs es1 vals -> raises f vs e k -> raises f vs (ESquare (es1 ++ e :: es2)) k
  | r_curly : forall f vs e k, raises f vs e k -> raises f vs (ECurly e) k
  | r_entry_key : forall f vs es1 key val es2 m k, means_all f vs (map fst es1) (map (fun p => [fst p]) m) -> means_all f vs (map snd es1) (map snd m) ->
      raises f vs key k -> raises f vs (EMap (es1 ++ (key, val) :: es2)) k
  | r_entry : forall f vs es1 key val es2 m x k, means_all f vs (map fst es1) (map (fun p => [fst p]) m) -> means_all f vs (map snd es1) (map snd m) ->
      means f vs key [x] -> raises f vs val k -> raises f vs (EMap (es1 ++ (key, val) :: es2)) k
  | r_key_of : forall f vs e k, raises f vs e k -> raises f vs (EKeyOf e) k
  | r_look : forall f vs a key k, raises f vs a k -> raises f vs (ELook a key) k
  | r_look_of : forall f vs a e k, raises f vs a k -> raises f vs (ELookOf a e) k
  | r_function : forall f vs a args k, raises f vs a k -> raises f vs (EDyn a args) k
  | r_apply_key : forall f vs a key v k, means f vs a v -> raises f vs key k -> raises f vs (EDyn a [key]) k
  | r_argument : forall f vs a fe ev es1 e es2 vals k, function_at vs a fe ev -> means_all f vs es1 vals -> raises f vs e k ->
      raises f vs (EDyn a (es1 ++ e :: es2)) k
  | r_body : forall f vs a ps b ev args vals k, function_at vs a (EFun ps b) ev -> same_scope (EFun ps b) ev vs ->
      means_all f vs args vals -> refuses vs (EFun ps b) vals k -> raises f vs (EDyn a args) k
  | r_arrow_argument : forall f vs n fe ev a args es1 e es2 vals k, vs n = Some (Bfn fe ev) -> a :: args = es1 ++ e :: es2 ->
      means_all f vs es1 vals -> raises f vs e k -> raises f vs (EArrow true a n args) k
  | r_arrow_body : forall f vs n ps b ev a args vals k, vs n = Some (Bfn (EFun ps b) ev) -> same_scope (EFun ps b) ev vs ->
      means_all f vs (a :: args) vals -> refuses vs (EFun ps b) vals k -> raises f vs (EArrow true a n args) k
  | r_for_each : forall f vs a e fe ev l1 it l2 k, means f vs a (l1 ++ it :: l2) -> function_at vs e fe ev -> same_scope fe ev vs ->
      (forall x, In x l1 -> exists v, applies h order vs fe [[x]] v) ->
      refuses vs fe [[it]] k -> raises f vs (ECall (lit "for-each") [a; e]) k
  | r_filter_each : forall f vs a e fe ev l1 it l2 k, means f vs a (l1 ++ it :: l2) -> function_at vs e fe ev -> same_scope fe ev vs ->
      (forall x, In x l1 -> exists v t, applies h order vs fe [[x]] v /\ ebv v t) ->
      refuses vs fe [[it]] k -> raises f vs (ECall (lit "filter") [a; e]) k
  | r_filter_truth : forall f vs a e fe ev l1 it l2 w, means f vs a (l1 ++ it :: l2) -> function_at vs e fe ev -> same_scope fe ev vs ->
      (forall x, In x l1 -> exists v t, applies h order vs fe [[x]] v /\ ebv v t) ->
      applies h order vs fe [[it]] w -> no_truth w -> raises f vs (ECall (lit "filter") [a; e]) TypeError
  (* ---- a function fails: in its body, in the arguments it was given in advance, or because it is a library function that fails ---- *)
  with refuses : vars -> expr -> list xseq -> errkind -> Prop :=
  | rf_body : forall vs ps b vals k, List.length ps = List.length vals -> NoDup ps ->
      (forall f, raises f (bind_vars ps vals vs) b k) -> refuses vs (EFun ps b) vals k
  | rf_named : forall vs name d vals k, numeral d = N.of_nat (List.length vals) -> (Z.of_N (numeral d) < 2 ^ 63)%Z -> library_error name vals k ->
      refuses vs (ERef name d) vals k
  | rf_arity : forall vs name d vals, numeral d <> N.of_nat (List.length vals) -> (Z.of_N (numeral d) < 2 ^ 63)%Z ->
      refuses vs (ERef name d) vals TypeError
  | rf_partial : forall vs name os vals all k, (forall f, fills h order f vs os vals all) -> library_error name all k ->
      refuses vs (EPart name os) vals k
  | rf_given : forall vs name os1 e os2 vals1 vals2 all1 k, (forall f, fills h order f vs os1 vals1 all1) ->
      (forall f, raises f vs e k) -> refuses vs (EPart name (os1 ++ Some e :: os2)) (vals1 ++ vals2) k
  (* ---- the variables of one keyword: an error in a range, or in what follows for one of the items; some and every
     look no further than the first item that decides ---- *)
  with binds_raise : focus -> vars -> option quant -> list (str * expr) -> expr -> errkind -> Prop :=
  | b_body : forall f vs q b k, raises f vs b k -> binds_raise f vs q [] b k
  | b_truth : forall f vs q b r, q = Q_some \/ q = Q_every -> means f vs b r -> no_truth r -> binds_raise f vs (Some q) [] b TypeError
  | b_range : forall f vs q v e bs b k, raises f vs e k -> binds_raise f vs q ((v, e) :: bs) b k
  | b_let : forall f vs v e bs b l k, means f vs e l -> binds_raise f (bind_var v l vs) None bs b k -> binds_raise f vs None ((v, e) :: bs) b k
  | b_let_fun : forall f vs v e fe ev bs b k, function_at vs e fe ev -> hygienic [] fe ->
      binds_raise f (bind_fun v fe ev vs) None bs b k -> binds_raise f vs None ((v, e) :: bs) b k
  | b_for : forall f vs v e bs b l1 it l2 k, means f vs e (l1 ++ it :: l2) ->
      (forall x, In x l1 -> exists r, binds h order f (bind_var v [x] vs) (Some Q_for) bs b r) ->
      binds_raise f (bind_var v [it] vs) (Some Q_for) bs b k -> binds_raise f vs (Some Q_for) ((v, e) :: bs) b k
  | b_some : forall f vs v e bs b l1 it l2 k, means f vs e (l1 ++ it :: l2) ->
      (forall x, In x l1 -> binds h order f (bind_var v [x] vs) (Some Q_some) bs b [XIBoolean false]) ->
      binds_raise f (bind_var v [it] vs) (Some Q_some) bs b k -> binds_raise f vs (Some Q_some) ((v, e) :: bs) b k
  | b_every : forall f vs v e bs b l1 it l2 k, means f vs e (l1 ++ it :: l2) ->
      (forall x, In x l1 -> binds h order f (bind_var v [x] vs) (Some Q_every) bs b [XIBoolean true]) ->
      binds_raise f (bind_var v [it] vs) (Some Q_every) bs b k -> binds_raise f vs (Some Q_every) ((v, e) :: bs) b k
  (* ---- the steps of a path from the nodes of a list, one after the other ---- *)
  with steps_raise : vars -> list (bool * expr) -> list nat -> errkind -> Prop :=
  | s_here : forall vs st l1 n l2 k, (forall m, In m l1 -> exists r, walks h order vs st [m] r) -> step_raises vs st n k ->
      steps_raise vs st (l1 ++ n :: l2) k
  with step_raises : vars -> list (bool * expr) -> nat -> errkind -> Prop :=
  | s_step : forall vs e rest n k, (forall p s, raises (mkFocus (XINode n) p s) vs e k) -> step_raises vs ((false, e) :: rest) n k
  | s_next : forall vs e rest n l k, rest <> [] -> (forall p s, means (mkFocus (XINode n) p s) vs e (nodes l)) ->
      steps_raise vs rest l k -> step_raises vs ((false, e) :: rest) n k
  | s_deep : forall vs e rest n l k, exactly order (fun x => x = n \/ descendant h x n) l ->
      steps_raise vs ((false, e) :: rest) l k -> step_raises vs ((true, e) :: rest) n k.
End Errors.

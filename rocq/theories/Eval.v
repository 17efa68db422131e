(* Model of the evaluator: src/xpath_impl/eval.rs lines 45-1577 and 2373-2467, evaluate_function and
   the context functions of src/xpath_impl/func.rs, and the API of src/xpath.rs. *)
Require Import Bool List NArith ZArith Ascii String.
From Verif Require Import Str Sax Dom Axes Lexer FuncTable Parser Num Item Func Types.
Import ListNotations.

(* ---- eval.rs 45-165: EvalEnv.  var_vec is a list of (name, value), the newest first.
   A Rust function that returns Err leaves the environment in some state, but every caller
   propagates the error up to match_xpath, which drops the environment; so the model returns an
   environment only with Ok. ---- *)
Record env : Type := mkEnv { e_pos : nat; e_last : nat; e_vars : list (str * xseq) }.
(* 60-66: new_eval_env *)
Definition new_eval_env : env := mkEnv 0 0 [].
(* 103-117: set_var, set_var_item *)
Definition set_var (e : env) (n : str) (v : xseq) : env := mkEnv (e_pos e) (e_last e) ((n, v) :: e_vars e).
(* 121-133: remove_var removes the newest entry of that name *)
Fixpoint remove_first (n : str) (l : list (str * xseq)) : list (str * xseq) :=
  match l with
  | [] => []
  | (m, v) :: l' => if str_eqb m n then l' else (m, v) :: remove_first n l'
  end.
(* eval.rs 121-132 *)
Definition remove_var (e : env) (n : str) : env := mkEnv (e_pos e) (e_last e) (remove_first n (e_vars e)).
(* 137-144: get_var *)
Fixpoint lookup_var (n : str) (l : list (str * xseq)) : option xseq :=
  match l with
  | [] => None
  | (m, v) :: l' => if str_eqb m n then Some v else lookup_var n l'
  end.
(* eval.rs 136-143 *)
Definition get_var (e : env) (n : str) : option xseq := lookup_var n (e_vars e).
(* 148-157: set_position, set_last *)
Definition set_pos_last (e : env) (p l : nat) : env := mkEnv p l (e_vars e).

(* ---- eval.rs 794-873: the axis part of match_loc_step; filtering by match_node_test is
   match_along_axis (879-890).  None is `cant_occur!`. ---- *)
Definition along (h : heap) (x : xnode) (l : list nat) : list nat := filter (fun n => match_node_test h n x) l.
Definition axis_nodes (h : heap) (i : nat) (x : xnode) : res (list nat) :=
  match x_type x with
  | X_AxisAncestor => do l <- array_ancestor h i; Ok (along h x l)
  | X_AxisAncestorOrSelf => do l <- array_ancestor_or_self h i; Ok (along h x l)
  | X_AxisAttribute => Ok (along h x (attributes h i))
  | X_AxisChild => Ok (along h x (children h i))
  | X_AxisDescendant => do l <- array_descendant h i; Ok (along h x l)
  | X_AxisDescendantOrSelf => do l <- array_descendant_or_self h i; Ok (along h x l)
  | X_AxisFollowing => do l <- array_following h i; Ok (along h x l)
  | X_AxisFollowingSibling => Ok (along h x (array_following_sibling h i))
  | X_AxisParent => Ok (along h x (array_parent h i))
  | X_AxisPreceding => do l <- array_preceding h i; Ok (along h x l)
  | X_AxisPrecedingSibling => Ok (along h x (array_preceding_sibling h i))
  | X_AxisRoot => do r <- root h i; Ok [r]
  | X_AxisSelf => Ok (along h x [i])
  | _ => Err CantOccur
  end.

(* 1307-1320: does a predicate value keep the item at this position? *)
Definition keeps (v : xseq) (position : nat) : bool :=
  match v with
  | [XIInteger z] => (z =? Z.of_nat position)%Z
  | [XINode _] => true
  | [XIBoolean b] => b
  | _ => false
  end.

(* 1470-1472: func_name.split("#") *)
Definition split_hash (s : str) : option (str * str) :=
  match split_once (lit "#") s with
  | None => None
  | Some (a, b) => match split_once (lit "#") b with None => Some (a, b) | Some (c, _) => Some (a, c) end
  end.

(* Everything that evaluates sub-expressions, over the recursive call [ev] to evaluate_xnode. *)
Section Step.
  Variable h : heap.
  Variable ev : xseq -> xnode -> env -> res (xseq * env).

  (* eval.rs 1282-1326: filter_by_predicate; [i] is the index of the head of [l], [n] the length *)
  Fixpoint filter_loop (x : xnode) (reverse : bool) (n i : nat) (l : xseq) (e : env) : res (xseq * env) :=
    match l with
    | [] => Ok ([], e)
    | it :: l' =>
        let position := (if reverse then n - i else i + 1)%nat in
        do (v, e1) <- ev [it] x (set_pos_last e position n);
        let e2 := set_pos_last e1 (e_pos e) (e_last e) in
        do (r, e3) <- filter_loop x reverse n (S i) l' e2;
        Ok ((if keeps v position then it :: r else r), e3)
    end.
  (* eval.rs 1282-1327 *)
  Definition filter_by_predicate (s : xseq) (x : xnode) (reverse : bool) (e : env) : res (xseq * env) :=
    if is_nil x then Err CantOccur else filter_loop x reverse (List.length s) 0 s e.

  (* eval.rs 1250-1277: filter_by_predicates *)
  Fixpoint filter_by_predicates (x : xnode) (s : xseq) (e : env) : res (xseq * env) :=
    match x with
    | XNil => Ok (s, e)
    | XNode ty _ l r =>
        match ty with
        | X_PredicateTop => do (s1, e1) <- filter_by_predicate s l false e; filter_by_predicates r s1 e1
        | X_PredicateRevTop => do (s1, e1) <- filter_by_predicate s l true e; filter_by_predicates r s1 e1
        | _ => Err CantOccur
        end
    end.

  (* eval.rs 794-873: match_loc_step *)
  Definition match_loc_step (i : nat) (x : xnode) (e : env) : res (xseq * env) :=
    do l <- axis_nodes h i x;
    if is_nil (x_right x) then Ok (seq_of_nodes l, e)
    else filter_by_predicates (x_right x) (seq_of_nodes l) e.

  (* eval.rs 777-788: match_location_path *)
  Fixpoint loc_path_loop (x : xnode) (l : list nat) (e : env) : res (list nat * env) :=
    match l with
    | [] => Ok ([], e)
    | i :: l' =>
        do (s, e1) <- match_loc_step i x e;
        do (r, e2) <- loc_path_loop x l' e1;
        Ok (to_nodeset s ++ r, e2)
    end.
  (* eval.rs 777-787 *)
  Definition match_location_path (s : xseq) (x : xnode) (e : env) : res (xseq * env) :=
    do (l, e1) <- loc_path_loop x (to_nodeset s) e;
    Ok (seq_of_nodes l, e1).

  (* eval.rs 219-250: step (2) of OperatorPath; the state is (node_exists, atom_exists, result_seq) *)
  Fixpoint path_loop (x : xnode) (l : xseq) (nodes atoms : bool) (acc : xseq) (e : env)
    : res (bool * xseq * env) :=
    match l with
    | [] => Ok (nodes, acc, e)
    | it :: l' =>
        do (v, e1) <- ev [it] x e;
        match v with
        | [] => path_loop x l' nodes atoms acc e1
        | _ =>
            let nodes' := nodes || is_no_atom v in
            let atoms' := atoms || negb (is_no_atom v) in
            if nodes' && atoms' then Err TypeError
            else path_loop x l' nodes' atoms' (acc ++ v) e1
        end
    end.
  (* eval.rs 283-287: step (2) of OperatorMap *)
  Fixpoint map_loop (x : xnode) (l : xseq) (e : env) : res (xseq * env) :=
    match l with
    | [] => Ok ([], e)
    | it :: l' =>
        do (v, e1) <- ev [it] x e;
        do (r, e2) <- map_loop x l' e1;
        Ok (v ++ r, e2)
    end.
  (* eval.rs 196-203 and 269-276: the left operand of / and ! *)
  Definition eval_left (c : xseq) (x : xnode) (e : env) : res (xseq * env) :=
    if is_nil (x_left x) then Ok ([], e) else ev c (x_left x) e.

  (* eval.rs 531-539: ForVarBind *)
  Fixpoint for_loop (c : xseq) (v : str) (body : xnode) (l : xseq) (e : env) : res (xseq * env) :=
    match l with
    | [] => Ok ([], e)
    | it :: l' =>
        do (r, e1) <- ev c body (set_var e v [it]);
        do (s, e2) <- for_loop c v body l' (remove_var e1 v);
        Ok (r ++ s, e2)
    end.
  (* eval.rs 565-575 SomeVarBind ([stop] = true) and 584-593 EveryVarBind ([stop] = false) *)
  Fixpoint quant_loop (stop : bool) (c : xseq) (v : str) (body : xnode) (l : xseq) (e : env)
    : res (xseq * env) :=
    match l with
    | [] => Ok (sing_bool (negb stop), e)
    | it :: l' =>
        do (r, e1) <- ev c body (set_var e v [it]);
        do b <- effective_boolean_value r;
        if Bool.eqb b stop then Ok (sing_bool stop, e1)
        else quant_loop stop c v body l' (remove_var e1 v)
    end.

  (* eval.rs 627-641: the arguments of a FunctionCall *)
  Fixpoint eval_args (c : xseq) (x : xnode) (e : env) : res (list xseq * env) :=
    match x with
    | XNil => Ok ([], e)
    | XNode ty _ l r =>
        if xtype_eqb ty X_ArgumentTop then
          do (v, e1) <- ev c l e;
          do (vs, e2) <- eval_args c r e1;
          Ok (v :: vs, e2)
        else Err CantOccur
    end.
  (* eval.rs 1367-1374: the arguments of a dynamic call; the kind of chain node is not looked at *)
  Fixpoint eval_dyn_args (c : xseq) (x : xnode) (e : env) : res (list xseq * env) :=
    match x with
    | XNil => Ok ([], e)
    | XNode _ _ l r =>
        do (v, e1) <- ev c l e;
        do (vs, e2) <- eval_dyn_args c r e1;
        Ok (v :: vs, e2)
    end.
  (* eval.rs 1521-1540: the arguments of a partial call *)
  Fixpoint eval_partial_args (c : xseq) (x : xnode) (given : list xseq) (e : env) : res (list xseq * env) :=
    match x with
    | XNil => Ok ([], e)
    | XNode ty _ l r =>
        match ty with
        | X_ArgumentTop =>
            do (v, e1) <- ev c l e;
            do (vs, e2) <- eval_partial_args c r given e1;
            Ok (v :: vs, e2)
        | X_ArgumentPlaceholder =>
            match given with
            | [] => Err DynamicError
            | v :: given' => do (vs, e1) <- eval_partial_args c r given' e; Ok (v :: vs, e1)
            end
        | _ => Err CantOccur
        end
    end.

  (* eval.rs 1445-1453: binding the arguments.  `sequence_types[i]` panics when there are more
     arguments than parameters. *)
  Fixpoint bind_args (types : list xnode) (ns : list str) (args : list xseq) (e : env) : res env :=
    match args with
    | [] => Ok e
    | v :: args' =>
        match types, ns with
        | t :: types', n :: ns' =>
            do b <- match_sequence_type h v t;
            if b then bind_args types' ns' args' (set_var e n v) else Err TypeError
        | _, _ => Panic
        end
    end.
  (* eval.rs 1421-1471: call_inline_func *)
  Definition call_inline_func (f : xnode) (args : list xseq) (c : xseq) (e : env) : res (xseq * env) :=
    let params := x_right (x_right f) in
    do e1 <- bind_args (lefts params) (names params) args e;
    do (v, e2) <- ev c (x_left f) e1;
    Ok (v, fold_left remove_var (rev (names params)) e2).

  (* func.rs 304-333: evaluate_function, with the higher-order functions of func.rs 1543-1577 over
     [call], the call_function of eval.rs 1556-1577 *)
  Fixpoint for_each_loop (call : list xseq -> env -> res (xseq * env)) (l : xseq) (e : env) : res (xseq * env) :=
    match l with
    | [] => Ok ([], e)
    | it :: l' =>
        do (v, e1) <- call [[it]] e;
        do (r, e2) <- for_each_loop call l' e1;
        Ok (v ++ r, e2)
    end.
  Fixpoint filter_fn_loop (call : list xseq -> env -> res (xseq * env)) (l : xseq) (e : env) : res (xseq * env) :=
    match l with
    | [] => Ok ([], e)
    | it :: l' =>
        do (v, e1) <- call [[it]] e;
        do b <- effective_boolean_value v;
        do (r, e2) <- filter_fn_loop call l' e1;
        Ok ((if b then it :: r else r), e2)
    end.
  (* func.rs 352-1186: the 0-argument variants pass the context sequence to the ordinary function;
     1152-1155 fn_lang_1; 1522-1533 fn_position, fn_last *)
  Definition pure (e : env) (r : res xseq) : res (xseq * env) := do v <- r; Ok (v, e).
  Section Fun.
    Variable callf : xnode -> list xseq -> xseq -> env -> res (xseq * env).
    (* func.rs 305-332 *)
    Definition evaluate_function (name : str) (args : list xseq) (c : xseq) (e : env) : res (xseq * env) :=
      match find_function name (List.length args) with
      | None => Err CantOccur
      | Some f =>
          match f with
          | C_nilled_0 => pure e (call_fn h F_nilled [c])
          | C_string_0 => pure e (call_fn h F_string [c])
          | C_data_0 => pure e (call_fn h F_data [c])
          | C_number_0 => pure e (call_fn h F_number [c])
          | C_string_length_0 => pure e (call_fn h F_string_length [c])
          | C_normalize_space_0 => pure e (call_fn h F_normalize_space [c])
          | C_name_0 => pure e (call_fn h F_name [c])
          | C_local_name_0 => pure e (call_fn h F_local_name [c])
          | C_namespace_uri_0 => pure e (call_fn h F_namespace_uri [c])
          | C_root_0 => pure e (call_fn h F_root [c])
          | C_lang_1 => match args with a :: _ => pure e (call_fn h F_lang [a; c]) | [] => Panic end
          | C_position => Ok ([XIInteger (Z.of_nat (e_pos e))], e)
          | C_last => Ok ([XIInteger (Z.of_nat (e_last e))], e)
          | C_for_each =>
              match args with
              | [s; f] => do fx <- get_singleton_xnodeptr f; for_each_loop (fun a => callf fx a c) s e
              | _ => Panic
              end
          | C_filter =>
              match args with
              | [s; f] => do fx <- get_singleton_xnodeptr f; filter_fn_loop (fun a => callf fx a c) s e
              | _ => Panic
              end
          | _ => pure e (call_fn h f args)
          end
      end.
    (* eval.rs 1464-1486: call_named_func.  `atoi(v[1]) as usize` of a negative number is above 2^63,
       which is no length of a Vec. *)
    Definition call_named_func (f : xnode) (args : list xseq) (c : xseq) (e : env) : res (xseq * env) :=
      match split_hash (x_name f) with
      | None => Panic
      | Some (n, a) =>
          if (atoi a =? Z.of_nat (List.length args))%Z then evaluate_function n args c e else Err TypeError
      end.
    (* eval.rs 1515-1549: call_partial_func *)
    Definition call_partial_func (f : xnode) (args : list xseq) (c : xseq) (e : env) : res (xseq * env) :=
      do (vs, e1) <- eval_partial_args c (x_right f) args e;
      evaluate_function (x_name f) vs c e1.
    (* eval.rs 1556-1577: call_function *)
    Definition call_function_body (f : xnode) (args : list xseq) (c : xseq) (e : env) : res (xseq * env) :=
      match x_type f with
      | X_InlineFunction => call_inline_func f args c e
      | X_NamedFunctionRef => call_named_func f args c e
      | X_PartialFunctionCall => call_partial_func f args c e
      | _ => Err CantOccur
      end.
  End Fun.

  (* eval.rs 1360-1417: apply_argument *)
  Definition apply_argument (c f : xseq) (x : xnode) (e : env) : res (xseq * env) :=
    do (args, e1) <- eval_dyn_args c (x_left x) e;
    match f with
    | [XIFun fx] => if xtype_eqb (x_type fx) X_InlineFunction then call_inline_func fx args c e1
                    else Err CantOccur
    | [XIMap m] =>
        match args with
        | [] => Panic
        | k :: _ => do key <- get_singleton_item k;
                    match xmap_get h m key with Some v => Ok (v, e1) | None => Err DynamicError end
        end
    | [XIArray a] =>
        match args with
        | [] => Panic
        | k :: _ => do index <- get_singleton_item k;
                    match xarray_get h a index with Some v => Ok (v, e1) | None => Err DynamicError end
        end
    | _ => Err CantOccur
    end.

  (* eval.rs 2376-2467: convert_xnode_to_map_array *)
  Fixpoint map_entries (c : xseq) (x : xnode) (e : env) : res (list (xitem * xseq) * env) :=
    match x with
    | XNil => Ok ([], e)
    | XNode ty _ l r =>
        if negb (xtype_eqb ty X_MapConstruct) then Err CantOccur
        else if negb (xtype_eqb (x_type l) X_MapEntry) then Err CantOccur
        else
          do (k, e1) <- ev c (x_left l) e;
          do key <- get_singleton_item k;
          do (v, e2) <- ev c (x_right l) e1;
          do (m, e3) <- map_entries c r e2;
          Ok ((key, v) :: m, e3)
    end.
  Fixpoint array_entries (c : xseq) (x : xnode) (e : env) : res (list xseq * env) :=
    match x with
    | XNil => Ok ([], e)
    | XNode ty _ l r =>
        if negb (xtype_eqb ty X_ArrayEntry) then Err CantOccur
        else
          do (v, e1) <- ev c l e;
          do (a, e2) <- array_entries c r e1;
          Ok (v :: a, e2)
    end.
  (* eval.rs 2376-2467 *)
  Definition convert_xnode_to_map_array (x : xnode) (c : xseq) (e : env) : res (xitem * env) :=
    match x_type x with
    | X_Map => do (m, e1) <- map_entries c (x_left x) e; Ok (XIMap m, e1)
    | X_SquareArray => do (a, e1) <- array_entries c (x_left x) e; Ok (XIArray a, e1)
    | X_CurlyArray => do (s, e1) <- ev c (x_left x) e; Ok (XIArray (map (fun it => [it]) s), e1)
    | _ => Err CantOccur
    end.

  (* eval.rs 672-693: UnaryLookupByWildcard; `unwrap` on None panics *)
  Fixpoint unwrap_all (l : list (option xseq)) : res xseq :=
    match l with
    | [] => Ok []
    | Some v :: l' => do r <- unwrap_all l'; Ok (v ++ r)
    | None :: _ => Panic
    end.
  Definition lookup_wildcard (c : xseq) : res xseq :=
    match c with
    | [XIMap m] => unwrap_all (map (xmap_get h m) (xmap_keys m))
    | [XIArray a] => unwrap_all (map (fun k => xarray_get h a (XIInteger (Z.of_nat k))) (seq 1 (List.length a)))
    | _ => Err TypeError
    end.
  (* eval.rs 695-723: UnaryLookupByExpr, after the key expression *)
  Definition lookup_expr (c : xseq) (keys : xseq) : res xseq :=
    match c with
    | [XIMap m] => Ok (flat_map (fun k => match xmap_get h m k with Some v => v | None => [] end) keys)
    | [XIArray a] => Ok (flat_map (fun k => match xarray_get h a k with Some v => v | None => [] end) keys)
    | _ => Err TypeError
    end.

  (* the many operators of eval.rs 327-508 that evaluate both operands and combine the values *)
  Definition binary (c : xseq) (x : xnode) (e : env) (f : xseq -> xseq -> res xseq) : res (xseq * env) :=
    do (l, e1) <- ev c (x_left x) e;
    do (r, e2) <- ev c (x_right x) e1;
    do v <- f l r;
    Ok (v, e2).
  Definition unary (c : xseq) (x : xnode) (e : env) (f : xseq -> res xseq) : res (xseq * env) :=
    do (r, e1) <- ev c (x_right x) e;
    do v <- f r;
    Ok (v, e1).
  (* eval.rs 334-356: OperatorOr ([stop] = true), OperatorAnd ([stop] = false) *)
  Definition logical (stop : bool) (c : xseq) (x : xnode) (e : env) : res (xseq * env) :=
    do (l, e1) <- ev c (x_left x) e;
    do lb <- effective_boolean_value l;
    if Bool.eqb lb stop then Ok (sing_bool stop, e1)
    else
      do (r, e2) <- ev c (x_right x) e1;
      do rb <- effective_boolean_value r;
      Ok (sing_bool rb, e2).

  (* eval.rs 182-771: evaluate_xnode *)
  Definition eval_step (callf : xnode -> list xseq -> xseq -> env -> res (xseq * env))
             (c : xseq) (x : xnode) (e : env) : res (xseq * env) :=
    match x_type x with
    | X_Nil => Panic
    | X_OperatorPath =>
        do (l, e1) <- eval_left c x e;
        if is_nil (x_right x) then Ok (l, e1)
        else if negb (is_no_atom l) then Err TypeError
        else
          do (p, e2) <- path_loop (x_right x) l false false [] e1;
          let (nodes, acc) := p : bool * xseq in
          if nodes then do s <- sort_by_doc_order h (to_nodeset acc); Ok (seq_of_nodes s, e2)
          else Ok (acc, e2)
    | X_OperatorMap =>
        do (l, e1) <- eval_left c x e;
        if is_nil (x_right x) then Ok (l, e1) else map_loop (x_right x) l e1
    | X_AxisAncestor | X_AxisAncestorOrSelf | X_AxisAttribute | X_AxisChild | X_AxisDescendant
    | X_AxisDescendantOrSelf | X_AxisFollowing | X_AxisFollowingSibling | X_AxisParent | X_AxisPreceding
    | X_AxisPrecedingSibling | X_AxisRoot | X_AxisSelf => match_location_path c x e
    | X_ContextItem => Ok (c, e)
    | X_ApplyPredicate =>
        do (p, e1) <- ev c (x_left x) e;
        filter_by_predicate p (x_left (x_right x)) false e1
    | X_ApplyArgument =>
        do (p, e1) <- ev c (x_left x) e;
        apply_argument c p (x_right x) e1
    | X_OperatorConcatenate => binary c x e (fun l r => Ok (l ++ r))
    | X_OperatorOr => logical true c x e
    | X_OperatorAnd => logical false c x e
    | X_OperatorGeneralEQ => binary c x e (general_compare_eq h)
    | X_OperatorGeneralNE => binary c x e (general_compare_ne h)
    | X_OperatorGeneralLT => binary c x e (general_compare_lt h)
    | X_OperatorGeneralLE => binary c x e (general_compare_le h)
    | X_OperatorGeneralGT => binary c x e (general_compare_gt h)
    | X_OperatorGeneralGE => binary c x e (general_compare_ge h)
    | X_OperatorValueEQ => binary c x e (value_compare_eq h)
    | X_OperatorValueNE => binary c x e (value_compare_ne h)
    | X_OperatorValueLT => binary c x e (value_compare_lt h)
    | X_OperatorValueLE => binary c x e (value_compare_le h)
    | X_OperatorValueGT => binary c x e (value_compare_gt h)
    | X_OperatorValueGE => binary c x e (value_compare_ge h)
    | X_OperatorAdd => binary c x e (op_numeric_operation xitem_numeric_add)
    | X_OperatorSubtract => binary c x e (op_numeric_operation xitem_numeric_subtract)
    | X_OperatorUnaryPlus => unary c x e (op_numeric_unary xitem_numeric_unary_plus)
    | X_OperatorUnaryMinus => unary c x e (op_numeric_unary xitem_numeric_unary_minus)
    | X_OperatorMultiply => binary c x e (op_numeric_operation xitem_numeric_multiply)
    | X_OperatorDiv => binary c x e (op_numeric_operation xitem_numeric_divide)
    | X_OperatorIDiv => binary c x e (op_numeric_operation xitem_numeric_integer_divide)
    | X_OperatorMod => binary c x e (op_numeric_operation xitem_numeric_mod)
    | X_OperatorConcat => binary c x e (fun l r => fn_concat h [l; r])
    | X_OperatorUnion => binary c x e (op_union h)
    | X_OperatorIntersect => binary c x e op_intersect
    | X_OperatorExcept => binary c x e op_except
    | X_OperatorTo => binary c x e op_to
    | X_OperatorIsSameNode => binary c x e (op_node_compare h Eq)
    | X_OperatorNodeBefore => binary c x e (op_node_compare h Lt)
    | X_OperatorNodeAfter => binary c x e (op_node_compare h Gt)
    | X_IfExpr =>
        do (v, e1) <- ev c (x_left x) e;
        let t := x_right x in
        if negb (xtype_eqb (x_type t) X_IfThenElse) then Err CantOccur
        else
          do b <- effective_boolean_value v;
          if b : bool then ev c (x_left t) e1 else ev c (x_right t) e1
    | X_ForExpr | X_LetExpr | X_SomeExpr | X_EveryExpr => ev c (x_right x) e
    | X_ForVarBind =>
        do (range, e1) <- ev c (x_left x) e;
        for_loop c (x_name x) (x_right x) range e1
    | X_LetVarBind =>
        do (v, e1) <- ev c (x_left x) e;
        do (r, e2) <- ev c (x_right x) (set_var e1 (x_name x) v);
        Ok (r, remove_var e2 (x_name x))
    | X_SomeVarBind =>
        do (range, e1) <- ev c (x_left x) e;
        quant_loop true c (x_name x) (x_right x) range e1
    | X_EveryVarBind =>
        do (range, e1) <- ev c (x_left x) e;
        quant_loop false c (x_name x) (x_right x) range e1
    | X_OperatorInstanceOf =>
        do (v, e1) <- ev c (x_left x) e;
        do b <- match_sequence_type h v (x_right x);
        Ok (sing_bool b, e1)
    | X_OperatorCastableAs =>
        do (v, e1) <- ev c (x_left x) e;
        Ok (sing_bool (castable_as h v (x_name (x_left (x_right x)))), e1)
    | X_OperatorCastAs =>
        do (v, e1) <- ev c (x_left x) e;
        do r <- cast_as h v (x_name (x_left (x_right x)));
        Ok (r, e1)
    | X_FunctionCall =>
        do (args, e1) <- eval_args c (x_right x) e;
        evaluate_function callf (x_name x) args c e1
    | X_StringLiteral => Ok ([XIString (x_name x)], e)
    | X_IntegerLiteral => Ok ([XIInteger (atoi (x_name x))], e)
    | X_DecimalLiteral => Ok ([XIDecimal (atof (x_name x))], e)
    | X_DoubleLiteral => Ok ([XIDouble (atof (x_name x))], e)
    | X_InlineFunction | X_NamedFunctionRef | X_PartialFunctionCall => Ok ([XIFun x], e)
    | X_Map | X_SquareArray | X_CurlyArray =>
        do (it, e1) <- convert_xnode_to_map_array x c e; Ok ([it], e1)
    | X_UnaryLookupByWildcard => pure e (lookup_wildcard c)
    | X_UnaryLookupByExpr =>
        do (k, e1) <- ev c (x_left x) e;
        do v <- lookup_expr c k;
        Ok (v, e1)
    | X_VarRef => Ok (match get_var e (x_name x) with Some v => v | None => [] end, e)
    | X_ParenthesizedExpr => if is_nil (x_left x) then Ok ([], e) else ev c (x_left x) e
    | _ => Err CantOccur
    end.
End Step.

(* Inline functions are dynamically scoped, so an expression can call itself through a variable and
   evaluation need not terminate: the fuel is the depth of nested Rust calls of evaluate_xnode and
   call_function. *)
Fixpoint eval (h : heap) (fuel : nat) (c : xseq) (x : xnode) (e : env) : res (xseq * env) :=
  match fuel with
  | O => Fuel
  | S n => eval_step h (eval h n) (call_function h n) c x e
  end
(* eval.rs 1557-1577 *)
with call_function (h : heap) (fuel : nat) (f : xnode) (args : list xseq) (c : xseq) (e : env)
  : res (xseq * env) :=
  match fuel with
  | O => Fuel
  | S n => call_function_body h (eval h n) (call_function h n) f args c e
  end.

(* eval.rs 170-176: match_xpath *)
Definition match_xpath (h : heap) (fuel : nat) (start : nat) (x : xnode) : res xseq :=
  do (v, _) <- eval h fuel [XINode start] x new_eval_env; Ok v.
(* xpath.rs 99-103: NodePtr::eval_xpath; the value is the sequence inside `Sequence` *)
Definition eval_xpath (fuel : nat) (h : heap) (i : nat) (xpath : str) : res xseq :=
  do x <- compile_xpath xpath; match_xpath h fuel i x.
(* xpath.rs 190-197: get_nodeset *)
Definition get_nodeset (fuel : nat) (h : heap) (i : nat) (xpath : str) : res (list nat) :=
  do x <- compile_xpath xpath;
  do v <- match_xpath h fuel i x;
  Ok (to_nodeset v).
(* xpath.rs 126-136: get_first_node turns every error into None *)
Definition get_first_node (fuel : nat) (h : heap) (i : nat) (xpath : str) : res (option nat) :=
  match get_nodeset fuel h i xpath with
  | Ok (n :: _) => Ok (Some n)
  | Ok [] => Ok None
  | Err _ => Ok None
  | Panic => Panic
  | Fuel => Fuel
  end.
(* xpath.rs 160-168: each_node; the closure is a state transformer on some state A (which may be the
   document itself) *)
Definition each_node {A} (fuel : nat) (h : heap) (i : nat) (xpath : str) (func : A -> nat -> A) (a : A) : res A :=
  do l <- get_nodeset fuel h i xpath;
  Ok (fold_left func l a).
(* xpath.rs 211-296: Sequence::to_string, len, get_item; Item::as_nodeptr *)
Definition seq_to_string (h : heap) (s : xseq) : str := show_seq h s.
Definition seq_len (s : xseq) : nat := List.length s.
Definition seq_get_item (s : xseq) (pos : nat) : res xitem :=
  match nth_error s pos with Some it => Ok it | None => Panic end.
Definition item_as_nodeptr (it : xitem) : option nat := match it with XINode i => Some i | _ => None end.
(* xpath.rs 270-272: Item::to_string *)
Definition item_to_string (h : heap) (it : xitem) : str := show_item h it.

(* Function calls: from the call expression to the function of the library. *)
Require Import Bool List NArith ZArith Ascii String Lia.
From Verif Require Import Str StrFacts Sax Dom Axes Lexer FuncTable Parser Num Item Func Types Eval EvalFacts SpecOper
  ItemFacts SpecFunc.
Import ListNotations.
Open Scope nat_scope.

Lemma var_name_eqb : forall j k, str_eqb (var_name j) (var_name k) = Nat.eqb j k.
Proof.
  intros j k. destruct (Nat.eqb_spec j k) as [->|N]; [apply str_eqb_refl|]. apply str_eqb_neq. intro E.
  apply (f_equal (@List.length _)) in E. unfold var_name in E. rewrite !repeat_length in E. lia.
Qed.
Lemma lookup_bindings : forall vs k j, lookup_var (var_name (j + k)) (bindings k vs) = nth_error vs j.
Proof.
  induction vs as [|v vs IH]; intros k j; [destruct j; reflexivity|]. cbn [bindings lookup_var].
  rewrite var_name_eqb. destruct j as [|j].
  - cbn [Nat.add]. rewrite Nat.eqb_refl. reflexivity.
  - destruct (Nat.eqb_spec k (S j + k)); [lia|]. cbn [nth_error]. rewrite <- (IH (S k) j). f_equal. f_equal. lia.
Qed.
Lemma eval_var_args : forall h n c vs all, n >= 1 -> forall k, (forall j, nth_error vs j = nth_error all (j + k)) ->
  eval_args (eval h n) c (var_args k (List.length vs)) (mkEnv 0 0 (bindings 0 all)) = Ok (vs, mkEnv 0 0 (bindings 0 all)).
Proof.
  intros h n c vs all N. destruct n as [|n]; [lia|]. induction vs as [|v vs IH]; intros k H; [reflexivity|].
  cbn [List.length var_args eval_args].
  change (xtype_eqb X_ArgumentTop X_ArgumentTop) with true. cbn iota.
  rewrite eval_S. unfold eval_step. cbn [x_type x_name]. unfold get_var. cbn [e_vars].
  assert (L : lookup_var (var_name k) (bindings 0 all) = Some v).
  { replace k with (k + 0) by lia. rewrite lookup_bindings. specialize (H 0). cbn [Nat.add] in H. rewrite <- H. reflexivity. }
  rewrite L. cbn [bind]. rewrite IH; [reflexivity|]. intro j. specialize (H (S j)). cbn [nth_error] in H.
  rewrite H. f_equal. lia.
Qed.
Lemma fn_value_fn : forall h c name vs o,
  (forall callf e, evaluate_function h callf name vs c e = pure e o) -> o <> Fuel -> fn_value h c name vs o.
Proof.
  intros h c name vs o H N. unfold fn_value. apply eval_outcome with (n := 2).
  - rewrite eval_S. unfold eval_step. cbn [x_type x_name x_right].
    rewrite (eval_var_args h 1 c vs vs) by (auto; intro j; f_equal; lia). cbn [bind]. rewrite H. reflexivity.
  - destruct o; cbn [bind]; congruence.
Qed.
Lemma fn_value_unique : forall h c name vs o o', fn_value h c name vs o -> fn_value h c name vs o' -> o = o'.
Proof.
  intros h c name vs o o' H H'. assert (D := outcome_det _ _ _ _ _ _ H H'). 
  destruct o, o'; cbn [bind] in D; congruence.
Qed.
(* A function call evaluates its arguments from left to right and then depends on their values only. *)
Lemma evaluated_args : forall h c xs e vs e2, evaluated h c xs e vs e2 ->
  exists n, forall m, n <= m -> eval_args (eval h m) c (arg_chain xs) e = Ok (vs, e2).
Proof.
  intros h c xs e vs e2 H. induction H as [|x xs e v e1 vs e2 O E [n IH]].
  - exists 0. intros. reflexivity.
  - destruct (outcome_eval _ _ _ _ _ O) as [k K]. exists (Nat.max n k). intros m L. cbn [arg_chain eval_args].
    change (xtype_eqb X_ArgumentTop X_ArgumentTop) with true. cbn iota. rewrite K by lia. cbn [bind].
    rewrite IH by lia. reflexivity.
Qed.
Lemma evaluated_length : forall h c xs e vs e2, evaluated h c xs e vs e2 -> List.length vs = List.length xs.
Proof. intros h c xs e vs e2 H. induction H; cbn; auto. Qed.

Lemma find_row_name : forall name n f, find_function name n = Some f ->
  In (name, f) (map (fun r => (snd (fst r), snd r)) (func_context_tbl ++ func_tbl)).
Proof.
  intros name n f H. unfold find_function in H.
  destruct (find (row_matches name n) (func_context_tbl ++ func_tbl)) as [[[k m] g]|] eqn:E; [|discriminate].
  inversion H; subst. apply find_some in E. destruct E as [I M].
  apply in_map_iff. exists (k, m, f). split; [|exact I]. cbn. f_equal.
  unfold row_matches in M. destruct k; [apply andb_true_iff in M; destruct M as [_ M]|]; apply str_eqb_eq in M; auto.
Qed.
Definition ctx_fid (f : fid) : bool := match f with C_position | C_last | C_for_each | C_filter => true | _ => false end.
Lemma ctx_names : forallb (fun r : option nat * str * fid =>
    implb (ctx_fid (snd r)) (existsb (str_eqb (snd (fst r))) contextual)) (func_context_tbl ++ func_tbl) = true.
Proof. vm_compute. reflexivity. Qed.
Lemma not_contextual : forall name n f, find_function name n = Some f -> ~ In name contextual -> ctx_fid f = false.
Proof.
  intros name n f H N. apply find_row_name in H. apply in_map_iff in H. destruct H as [r [E I]].
  assert (C := ctx_names). rewrite forallb_forall in C. specialize (C r I). inversion E; subst.
  destruct (ctx_fid (snd r)); auto. exfalso. apply N. apply existsb_exists in C. destruct C as [x [X Y]].
  apply str_eqb_eq in Y. rewrite Y. exact X.
Qed.
Lemma evaluate_function_pure : forall h name vs c, ~ In name contextual ->
  exists o, forall callf e, evaluate_function h callf name vs c e = pure e o.
Proof.
  intros h name vs c N. unfold evaluate_function. destruct (find_function name (List.length vs)) as [f|] eqn:F.
  - assert (C := not_contextual _ _ _ F N). destruct f; try discriminate C; try (eexists; intros; reflexivity).
    destruct vs; eexists; intros; [|reflexivity]. instantiate (1 := Panic). reflexivity.
  - exists (Err CantOccur). reflexivity.
Qed.
Theorem call_by_value : forall h c name xs e vs e2 o nm, evaluated h c xs e vs e2 -> ~ In name contextual ->
  fn_value h c name vs o -> outcome h c (XNode X_FunctionCall name nm (arg_chain xs)) e (do v <- o; Ok (v, e2)).
Proof.
  intros h c name xs e vs e2 o nm E N V. destruct (evaluated_args _ _ _ _ _ _ E) as [n A].
  destruct (evaluate_function_pure h name vs c N) as [o' P].
  assert (F : o' <> Fuel).
  { intro X. subst o'. destruct V as [V [m M]]. assert (M' : eval h (S (S m)) c (XNode X_FunctionCall name XNil
      (var_args 0 (List.length vs))) (mkEnv 0 0 (bindings 0 vs)) = do v <- o; Ok (v, mkEnv 0 0 (bindings 0 vs)))
      by (eapply eval_fuel; eauto). rewrite eval_S in M'. unfold eval_step in M'. cbn [x_type x_name x_right] in M'.
    rewrite (eval_var_args h (S m) c vs vs) in M' by (try lia; intro j; f_equal; lia).
    cbn [bind] in M'. rewrite P in M'. cbn [pure bind] in M'. symmetry in M'. contradiction. }
  assert (o = o') by (eapply fn_value_unique; [exact V|apply fn_value_fn; assumption]). subst o'.
  apply eval_outcome with (n := S n).
  - rewrite eval_S. unfold eval_step. cbn [x_type x_name x_right]. rewrite A by lia. cbn [bind]. rewrite P. reflexivity.
  - destruct o; cbn [bind]; congruence.
Qed.

Definition is_plain (f : fid) : bool :=
  match f with
  | C_nilled_0 | C_string_0 | C_data_0 | C_number_0 | C_string_length_0 | C_normalize_space_0
  | C_name_0 | C_local_name_0 | C_namespace_uri_0 | C_lang_1 | C_root_0 | C_position | C_last
  | C_for_each | C_filter => false
  | _ => true
  end.
Lemma fn_value_call : forall h c name vs f o, find_function name (List.length vs) = Some f -> is_plain f = true ->
  call_fn h f vs = o -> o <> Fuel -> fn_value h c name vs o.
Proof.
  intros h c name vs f o F P C N. apply fn_value_fn; [|exact N]. intros callf e. unfold evaluate_function. rewrite F, <- C.
  destruct f; try discriminate P; reflexivity.
Qed.
Ltac fnv := eapply fn_value_call; [vm_compute; reflexivity|reflexivity|cbn [call_fn arg nth_error]|try discriminate].

(* C75: functions that are given to for-each and filter and do not take one argument. *)
Require Import Bool List NArith ZArith Ascii String Lia Sorted.
From Verif Require Import Str StrFacts Sax Dom Axes SpecEdit SpecAxes AxesFacts PropAxes Lexer FuncTable Parser Num Item Func Types Eval EvalFacts
  SpecOper ItemFacts SpecTypes TypeFacts SpecFunc FuncFacts SpecEval EnvFacts PropDom PropTypes PropEval PropEval2 PropEval3 PropOper PropFunc
  PropFunc2 PropFunc3 SpecItem PropItem.
Import ListNotations.
Open Scope nat_scope.

Lemma first_fails : forall h c name X F e it s e1 fx e2 (o : res (xseq * env)), name = lit "fn:for-each" \/ name = lit "fn:filter" ->
  outcome h c X e (Ok (it :: s, e1)) -> outcome h c F e1 (Ok ([XIFun fx], e2)) -> o <> Fuel -> (forall v, o <> Ok v) ->
  (exists n, forall m, n <= m -> call_function h m fx [[it]] c e2 = o) -> outcome h c (fn_call name [X; F]) e o.
Proof.
  intros h c name X F e it s e1 fx e2 o NM OX OF NF NO [k K]. destruct (higher_order h c _ X F e _ e1 fx e2 NM OX OF) as [n N].
  apply eval_outcome with (n := S (Nat.max n k)); [|exact NF]. rewrite N by lia.
  assert (A : for_each_loop (fun a => call_function h (Nat.max n k) fx a c) (it :: s) e2 = o).
  { cbn [for_each_loop]. rewrite K by lia. destruct o as [v| | |]; try reflexivity. destruct (NO v); reflexivity. }
  assert (B : filter_fn_loop (fun a => call_function h (Nat.max n k) fx a c) (it :: s) e2 = o).
  { cbn [filter_fn_loop]. rewrite K by lia. destruct o as [v| | |]; try reflexivity. destruct (NO v); reflexivity. }
  destruct (str_eqb name (lit "fn:for-each")); assumption.
Qed.
(* a named function of another arity: an error at the first item *)
Theorem C75_wrong_arity : forall h c name X F e it s e1 f d e2, name = lit "fn:for-each" \/ name = lit "fn:filter" ->
  outcome h c X e (Ok (it :: s, e1)) -> outcome h c F e1 (Ok ([XIFun (function_ref f d)], e2)) ->
  ~ In 35%N f -> ~ In 35%N d -> atoi d <> 1%Z -> outcome h c (fn_call name [X; F]) e (Err TypeError).
Proof.
  intros h c name X F e it s e1 f d e2 NM OX OF Hf Hd A.
  eapply first_fails; eauto; try discriminate. exists 1. intros [|m] M; [lia|]. rewrite call_S.
  unfold call_function_body, function_ref. cbn [x_type]. unfold call_named_func. cbn [x_name]. unfold split_hash.
  rewrite hash_yes by auto. rewrite hash_no by auto. cbn [List.length].
  destruct (Z.eqb_spec (atoi d) (Z.of_nat 1)) as [E|_]; [contradiction|reflexivity].
Qed.
(* a partial application with a second place left open *)
Lemma second_hole : forall h c pre ws e it vs e2 post, filled h c pre [it] e vs e2 -> ~ In None post \/ True ->
  In None pre -> forall mid us e3, mid = post -> filled h c mid [] e2 us e3 ->
  exists n, forall m, n <= m -> eval_partial_args (eval h m) c (hole_chain (pre ++ mid ++ [None] ++ ws)) [it] e = Err DynamicError.
Proof.
  intros h c pre ws e it vs e2 post F _ I mid us e3 _ G.
  assert (B : exists n, forall m, n <= m -> eval_partial_args (eval h m) c (hole_chain (mid ++ [None] ++ ws)) [] e2 = Err DynamicError).
  { clear - G. remember [] as g eqn:Eg. revert Eg. induction G as [e|x xs given e v e1 vs e2 O H IH|xs v given e vs e2 H IH]; intro Eg; subst.
    - exists 0. intros. reflexivity.
    - destruct IH as [n IH]; [reflexivity|]. destruct (outcome_eval _ _ _ _ _ O) as [k K]. exists (Nat.max n k). intros m L.
      cbn [app hole_chain eval_partial_args]. rewrite K by lia. cbn [bind]. cbn [app] in IH. rewrite IH by lia. reflexivity.
    - discriminate. }
  assert (Z : exists n, forall m, n <= m -> forall g, g = [] \/ g = [it] -> True) by (exists 0; auto). clear Z.
  remember [it] as g eqn:Eg. revert it Eg. induction F as [e|x xs given e v e1 vs e2 O H IH|xs v given e vs e2 H IH]; intros it Eg.
  - destruct I.
  - destruct I as [I|I]; [discriminate|]. destruct (IH I G B it Eg) as [n IHn]. destruct (outcome_eval _ _ _ _ _ O) as [k K].
    exists (Nat.max n k). intros m L. cbn [app hole_chain eval_partial_args]. rewrite K by lia. cbn [bind]. cbn [app] in IHn.
    rewrite IHn by lia. reflexivity.
  - injection Eg as -> ->. clear IH I.
    assert (C : exists n, forall m, n <= m -> eval_partial_args (eval h m) c (hole_chain (xs ++ mid ++ [None] ++ ws)) [] e = Err DynamicError).
    { clear - H B. remember [] as g eqn:Eg. revert Eg. induction H as [e|x xs given e v e1 vs e2 O H IH|xs v given e vs e2 H IH]; intro Eg; subst.
      - exact B.
      - destruct (IH B eq_refl) as [n IHn]. destruct (outcome_eval _ _ _ _ _ O) as [k K]. exists (Nat.max n k). intros m L.
        cbn [app hole_chain eval_partial_args]. rewrite K by lia. cbn [bind]. cbn [app] in IHn. rewrite IHn by lia. reflexivity.
      - discriminate. }
    destruct C as [n C]. exists n. intros m L. cbn [app hole_chain eval_partial_args]. cbn [app] in C. rewrite C by lia. reflexivity.
Qed.
Theorem C75_two_holes : forall h c name X F e it s e1 f e2 pre mid post vs e3 us e4, name = lit "fn:for-each" \/ name = lit "fn:filter" ->
  outcome h c X e (Ok (it :: s, e1)) -> outcome h c F e1 (Ok ([XIFun (partial_call f (pre ++ mid ++ [None] ++ post))], e2)) ->
  In None pre -> filled h c pre [[it]] e2 vs e3 -> filled h c mid [] e3 us e4 ->
  outcome h c (fn_call name [X; F]) e (Err DynamicError).
Proof.
  intros h c name X F e it s e1 f e2 pre mid post vs e3 us e4 NM OX OF I A B.
  destruct (second_hole h c pre post e2 [it] vs e3 mid A (or_intror Logic.I) I mid us e4 eq_refl B) as [n N].
  eapply first_fails; eauto; try discriminate. exists (S n). intros [|m] M; [lia|]. rewrite call_S.
  unfold call_function_body, partial_call. cbn [x_type]. unfold call_partial_func. cbn [x_name x_right]. rewrite N by lia. reflexivity.
Qed.
(* an inline function whose parameter has a type the item is not of *)
Theorem C75_parameter_type : forall h c name X F e it s e1 nm p ps R body e2, name = lit "fn:for-each" \/ name = lit "fn:filter" ->
  outcome h c X e (Ok (it :: s, e1)) -> outcome h c F e1 (Ok ([XIFun (inline_function nm (p :: ps) R body)], e2)) ->
  type_test h [it] (snd p) (Ok false) -> outcome h c (fn_call name [X; F]) e (Err TypeError).
Proof.
  intros h c name X F e it s e1 nm p ps R body e2 NM OX OF T.
  eapply first_fails; eauto; try discriminate. exists 1. intros [|m] M; [lia|]. rewrite call_S.
  unfold call_function_body, inline_function. cbn [x_type]. unfold call_inline_func. cbn [x_left x_right].
  destruct (chain_lefts (p :: ps)) as [-> ->]. cbn [map bind_args]. apply type_test_iff in T; [|discriminate]. rewrite T. reflexivity.
Qed.
(* an inline function without parameters makes the program panic *)
Theorem C75_no_parameter_panics : forall h c name X F e it s e1 nm R body e2, name = lit "fn:for-each" \/ name = lit "fn:filter" ->
  outcome h c X e (Ok (it :: s, e1)) -> outcome h c F e1 (Ok ([XIFun (inline_function nm [] R body)], e2)) ->
  outcome h c (fn_call name [X; F]) e Panic.
Proof.
  intros h c name X F e it s e1 nm R body e2 NM OX OF.
  eapply first_fails; eauto; try discriminate. exists 1. intros [|m] M; [lia|]. reflexivity.
Qed.
(* With a second parameter the function is called, and takes away the caller's variable of that name. *)
Theorem C75_more_parameters_refuted :
  xpath_gives [] 0 (lit "let $b := 5 return (for-each(1, function($a, $b) { $a }), $b)") (Ok [XIInteger 1]) /\
  xpath_gives [] 0 (lit "let $b := 5 return (for-each(1, function($a) { $a }), $b)") (Ok [XIInteger 1; XIInteger 5]) /\
  xpath_gives [] 0 (lit "for-each(1, function() { 1 })") Panic.
Proof. repeat match goal with |- _ /\ _ => split end; (split; [discriminate|]; exists 30; vm_compute; reflexivity). Qed.
Example C75_apply_example :
  xpath_gives [] 0 (lit "for-each((1, 2), concat#2)") (Err TypeError) /\
  xpath_gives [] 0 (lit "filter((1, 2), concat(?, 'a', ?))") (Err DynamicError) /\
  xpath_gives [] 0 (lit "for-each('a', function($a as xs:integer) { $a })") (Err TypeError) /\
  parsed "concat#2" = function_ref (lit "fn:concat") (lit "2") /\
  parsed "concat(?, 'a', ?)" = partial_call (lit "fn:concat") ([None] ++ [Some (parsed "'a'")] ++ [None] ++ []) /\
  filled [] [] [None] [[XIInteger 1]] new_eval_env [[XIInteger 1]] new_eval_env /\
  filled [] [] [Some (parsed "'a'")] [] new_eval_env [[XIString (lit "a")]] new_eval_env.
Proof.
  split; [split; [discriminate|]; exists 30; vm_compute; reflexivity|].
  split; [split; [discriminate|]; exists 30; vm_compute; reflexivity|].
  split; [split; [discriminate|]; exists 30; vm_compute; reflexivity|].
  split; [vm_compute; reflexivity|]. split; [vm_compute; reflexivity|].
  split; [constructor; constructor|]. econstructor; [|constructor]. split; [discriminate|]. exists 5. vm_compute. reflexivity.
Qed.
Print Assumptions C75_wrong_arity.
Print Assumptions C75_two_holes.
Print Assumptions C75_parameter_type.
Print Assumptions C75_no_parameter_panics.
Print Assumptions C75_more_parameters_refuted.

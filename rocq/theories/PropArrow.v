(* C51: what becomes of the calls whose number of arguments is not checked, a => f(b, ...). *)
Require Import Bool List NArith ZArith Ascii String Lia.
From Verif Require Import Str Chars Dom Lexer LexFacts FuncTable Parser SpecExpr PrecFacts LexPrint PropParse Num Item Func Types Eval EvalFacts
  SpecOper ItemFacts SpecFunc FuncFacts.
Import ListNotations.
Open Scope nat_scope.

Lemma arrow_args : forall x es, reads_args x es -> exists xs, x = arg_chain xs /\ Forall2 reads xs es.
Proof.
  intros x es. revert x. induction es as [|e es IH]; intros x H; inversion H; subst.
  - exists []. split; [reflexivity|constructor].
  - match goal with R : reads_args _ es |- _ => destruct (IH _ R) as [xs [E F]] end. subst.
    eexists (_ :: xs). split; [reflexivity|]. constructor; eauto.
Qed.
(* A call a => f(b, ...) compiles whatever the name and however many arguments it has: to a call of fn:f with the
   arguments a, b, ....  If the function table has no entry of that name and number, evaluating it never gives a
   value, whatever the document and the context; if the arguments have values it fails with CantOccur. *)
Theorem C51_arrow : forall f a args, plain_name f -> wf a -> Forall wf args ->
  exists nm xs, compile_xpath (source (EArrow false a f args)) = Ok (XNode X_FunctionCall (lit "fn:" ++ f) nm (arg_chain xs)) /\
    Forall2 reads xs (a :: args) /\
    (~ has_entry (lit "fn:" ++ f) (S (List.length args)) ->
     forall h c e, (forall v e2, ~ outcome h c (XNode X_FunctionCall (lit "fn:" ++ f) nm (arg_chain xs)) e (Ok (v, e2))) /\
       (forall vs e2, evaluated h c xs e vs e2 ->
          outcome h c (XNode X_FunctionCall (lit "fn:" ++ f) nm (arg_chain xs)) e (Err CantOccur))).
Proof.
  intros f a args Pf Wa W. assert (Wf : wf (EArrow false a f args)).
  { split; auto. split; auto. clear Wa. induction W; cbn; auto. }
  assert (Q : compile_xpath (source (EArrow false a f args)) = Ok (XNode X_FunctionCall (lit "fn:" ++ f) XNil (XNode X_ArgumentTop [] (trk 15 a) (argt args)))
     /\ reads (XNode X_FunctionCall (lit "fn:" ++ f) XNil (XNode X_ArgumentTop [] (trk 15 a) (argt args))) (EArrow false a f args)).
  { assert (T : trk 0 (EArrow false a f args) = XNode X_FunctionCall (lit "fn:" ++ f) XNil (XNode X_ArgumentTop [] (trk 15 a) (argt args))) by reflexivity.
    rewrite <- T. split; [|apply reads_trk; auto]. unfold compile_xpath. rewrite lexer_print by auto. cbn [bind].
    unfold tokens_of. cbn [tl]. rewrite removelast_last. apply parse_print. auto. }
  destruct Q as [Q R]. inversion R; subst;
    try (match goal with H : reads_args _ (_ :: _) |- _ => destruct (arrow_args _ _ H) as [xs [E F]] end; rewrite E in *;
         exists XNil, xs; split; [exact Q|]; split; [exact F|]).
  assert (L : List.length xs = S (List.length args)) by (clear - F; change (S (List.length args)) with (List.length (a :: args)); induction F; cbn [List.length]; lia).
  intros N h c e. assert (C : find_function (lit "fn:" ++ f) (List.length xs) = None).
  { destruct (find_function _ _) eqn:C; auto. exfalso. apply N. rewrite <- L. apply check_has_entry.
    unfold check_function_spec. rewrite C. reflexivity. }
  assert (LE : forall ev l e0 vs e2, eval_args ev c (arg_chain l) e0 = Ok (vs, e2) -> List.length vs = List.length l).
  { intro ev. induction l as [|y l IH]; intros e0 vs e2 H; cbn [arg_chain eval_args] in H.
    - injection H as <- _. reflexivity.
    - change (xtype_eqb X_ArgumentTop X_ArgumentTop) with true in H. cbn iota in H.
      destruct (ev c y e0) as [[v e1]| | |]; cbn [bind] in H; try discriminate.
      destruct (eval_args ev c (arg_chain l) e1) as [[r e3]| | |] eqn:E1; cbn [bind] in H; try discriminate.
      injection H as <- _. cbn [List.length]. erewrite IH; eauto. }
  split.
  - intros v e2 O. destruct (outcome_eval _ _ _ _ _ O) as [n K]. specialize (K (S n) ltac:(lia)).
    rewrite eval_S in K. unfold eval_step in K. cbn [x_type x_name x_right] in K.
    destruct (eval_args (eval h n) c (arg_chain xs) e) as [[vs e3]| | |] eqn:E1; cbn [bind] in K; try discriminate.
    apply LE in E1. unfold evaluate_function in K. rewrite E1, C in K. discriminate.
  - intros vs e2 V. destruct (evaluated_args _ _ _ _ _ _ V) as [n A]. apply eval_outcome with (n := S n); [|discriminate].
    rewrite eval_S. unfold eval_step. cbn [x_type x_name x_right]. rewrite A by lia. cbn [bind].
    unfold evaluate_function. rewrite (evaluated_length _ _ _ _ _ _ V), C. reflexivity.
Qed.
Print Assumptions C51_arrow.
Example C51_arrow_example : plain_name (lit "count") /\ wf (ELit L_integer (lit "1")) /\ Forall wf [ELit L_integer (lit "2")] /\
  ~ has_entry (lit "fn:count") 2 /\ source (EArrow false (ELit L_integer (lit "1")) (lit "count") [ELit L_integer (lit "2")]) = lit "1 => count ( 2 ) " /\
  forall h c e, evaluated h c [XNode X_IntegerLiteral (lit "1") XNil XNil; XNode X_IntegerLiteral (lit "2") XNil XNil] e
    [[XIInteger 1]; [XIInteger 2]] e.
Proof.
  split; [pname|]. split; [repeat constructor; discriminate|].
  split; [constructor; [repeat constructor; discriminate|constructor]|].
  split; [intro H; apply check_has_entry in H; vm_compute in H; discriminate|].
  split; [reflexivity|]. intros h c e.
  econstructor; [apply eval_outcome with (n := 1); [reflexivity|discriminate]|].
  econstructor; [apply eval_outcome with (n := 1); [reflexivity|discriminate]|]. constructor.
Qed.

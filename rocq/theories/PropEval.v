(* C17-C22, C49, C52: evaluation of expressions. *)
Require Import Bool List NArith ZArith Ascii String Lia Sorted.
Require Import Coq.Floats.SpecFloat.
From Verif Require Import Str StrFacts Sax Dom Axes SpecEdit SpecAxes PropAxes Lexer FuncTable Parser Num Item Func Types Eval EvalFacts
  SpecOper ItemFacts SpecTypes TypeFacts SpecFunc FuncFacts SpecEval EnvFacts PropDom.
Import ListNotations.
Open Scope nat_scope.

Lemma gives_eval : forall h c x e v, scoped x -> gives h c x e v -> exists n, forall m, n <= m -> eval h m c x e = Ok (v, e).
Proof. intros h c x e v S G. apply outcome_eval. apply gives_outcome; auto. Qed.
Lemma gives_det : forall h c x e v w, gives h c x e v -> gives h c x e w -> v = w.
Proof. intros h c x e v w [e1 H] [e2 K]. assert (D := outcome_det _ _ _ _ _ _ H K). congruence. Qed.

(* ------------------------------------------------------------------ C20 *)
(* Expressions with for, let, if, predicates, paths and calls of library functions - anything but quantifiers and
   calls of function items - leave the variables, the position and the size as they were. *)
Theorem C20_scope_partial : forall h c x e v e', scoped x -> outcome h c x e (Ok (v, e')) -> e' = e.
Proof. exact outcome_quiet. Qed.
(* The property fails for quantifiers: the variable of a `some` that is true stays bound. *)
Theorem C20_quantifier_refuted : exists v,
  xpath_gives [] 0 (lit "let $x := 1 return ((some $x in 5 satisfies true()), $x)") (Ok v) /\
  v = [XIBoolean true; XIInteger 5].
Proof. eexists. split; [|reflexivity]. split; [discriminate|]. exists 30. vm_compute. reflexivity. Qed.
Theorem C20_quantifier_refuted_every : exists v,
  xpath_gives [] 0 (lit "let $x := 1 return ((every $x in 5 satisfies false()), $x)") (Ok v) /\
  v = [XIBoolean false; XIInteger 5].
Proof. eexists. split; [|reflexivity]. split; [discriminate|]. exists 30. vm_compute. reflexivity. Qed.
Definition parsed (s : string) : xnode := match compile_xpath (lit s) with Ok x => x | _ => XNil end.
Example C20_example : forall h c e,
  let x := parsed "for $x in (1, 2) return let $y := $x + 1 return ($x, $y)[. > 1]" in
  scoped x /\ outcome h c x e (Ok ([XIInteger 2; XIInteger 2; XIInteger 3], e)).
Proof.
  intros h c e x. assert (S : scoped x) by (vm_compute; repeat split; discriminate). split; [exact S|].
  split; [discriminate|]. exists 20. destruct e. vm_compute. reflexivity.
Qed.

(* ------------------------------------------------------------------ C21 *)
Definition for_in (n1 v : str) (A B : xnode) : xnode := XNode X_ForExpr n1 XNil (XNode X_ForVarBind v A B).
Definition quantified (every : bool) (n1 v : str) (A B : xnode) : xnode :=
  XNode (if every then X_EveryExpr else X_SomeExpr) n1 XNil (XNode (if every then X_EveryVarBind else X_SomeVarBind) v A B).

Lemma for_loop_spec : forall h c v B e f s, scoped B ->
  (forall it, In it s -> gives h c B (set_var e v [it]) (f it)) ->
  exists n, forall m, n <= m -> for_loop (eval h m) c v B s e = Ok (flat_map f s, e).
Proof.
  intros h c v B e f s S. induction s as [|it s IH]; intro H; cbn [for_loop flat_map].
  - exists 0. reflexivity.
  - destruct IH as [n IH]; [intros; apply H; right; auto|].
    destruct (gives_eval _ _ _ _ _ S (H it (or_introl eq_refl))) as [k K].
    exists (Nat.max n k). intros m L. rewrite K by lia. cbn [bind]. rewrite remove_set.
    rewrite IH by lia. reflexivity.
Qed.
Theorem C21_for : forall h c n1 v A B e s e1 f, outcome h c A e (Ok (s, e1)) -> scoped B ->
  (forall it, In it s -> gives h c B (set_var e1 v [it]) (f it)) ->
  outcome h c (for_in n1 v A B) e (Ok (flat_map f s, e1)).
Proof.
  intros h c n1 v A B e s e1 f HA SB HB. destruct (outcome_eval _ _ _ _ _ HA) as [n N].
  destruct (for_loop_spec h c v B e1 f s SB HB) as [k K].
  apply eval_outcome with (n := S (S (Nat.max n k))); [|discriminate].
  rewrite eval_S. unfold eval_step, for_in. cbn [x_type x_right]. rewrite eval_S. unfold eval_step. cbn [x_type x_left x_right x_name].
  rewrite N by lia. cbn [bind]. rewrite K by lia. reflexivity.
Qed.
(* a failure of the body for the first item that fails is the outcome *)
Theorem C21_for_error : forall h c n1 v A B e s e1 f pre it post x, outcome h c A e (Ok (s, e1)) -> scoped B ->
  s = pre ++ it :: post -> (forall j, In j pre -> gives h c B (set_var e1 v [j]) (f j)) ->
  outcome h c B (set_var e1 v [it]) x -> (forall r, x <> Ok r) ->
  outcome h c (for_in n1 v A B) e x.
Proof.
  intros h c n1 v A B e s e1 f pre it post x HA SB -> HB HX NX. destruct (outcome_eval _ _ _ _ _ HA) as [n N].
  destruct (outcome_eval _ _ _ _ _ HX) as [k K].
  assert (L : exists q, forall m, q <= m -> for_loop (eval h m) c v B (pre ++ it :: post) e1 = x).
  { clear HA N. induction pre as [|j pre IH]; cbn [app for_loop].
    - exists k. intros m M. rewrite K by lia. destruct x as [[? ?]| | |]; try reflexivity. destruct (NX (l, e0)). reflexivity.
    - destruct IH as [q IH]; [intros; apply HB; right; auto|].
      destruct (gives_eval _ _ _ _ _ SB (HB j (or_introl eq_refl))) as [k2 K2].
      exists (Nat.max q k2). intros m M. rewrite K2 by lia. cbn [bind]. rewrite remove_set. rewrite IH by lia.
      destruct x as [r| | |]; try reflexivity. destruct (NX r). reflexivity. }
  destruct L as [q L]. apply eval_outcome with (n := S (S (Nat.max n q))); [|apply HX].
  rewrite eval_S. unfold eval_step, for_in. cbn [x_type x_right]. rewrite eval_S. unfold eval_step. cbn [x_type x_left x_right x_name].
  rewrite N by lia. cbn [bind]. rewrite L by lia. destruct x as [r| | |]; try reflexivity.
Qed.

Lemma quant_loop_spec : forall h c v B e stop s, scoped B ->
  (forall it, In it s -> exists r, gives h c B (set_var e v [it]) r /\ ebv r (negb stop)) ->
  exists n, forall m, n <= m -> forall post,
    quant_loop (eval h m) stop c v B (s ++ post) e = quant_loop (eval h m) stop c v B post e.
Proof.
  intros h c v B e stop s S. induction s as [|it s IH]; intro H.
  - exists 0. reflexivity.
  - destruct IH as [n IH]; [intros; apply H; right; auto|].
    destruct (H it (or_introl eq_refl)) as [r [G E]].
    destruct (gives_eval _ _ _ _ _ S G) as [k K]. apply ebv_iff in E.
    exists (Nat.max n k). intros m L post. cbn [app quant_loop]. rewrite K by lia. cbn [bind]. rewrite E. cbn [bind].
    rewrite eqb_negb1. rewrite remove_set. apply IH. lia.
Qed.
Definition quantifier_stops (every : bool) : bool := negb every.
Lemma quantified_eval : forall h c every n1 v A B e s e1 m, eval h m c A e = Ok (s, e1) ->
  eval h (S (S m)) c (quantified every n1 v A B) e = quant_loop (eval h m) (negb every) c v B s e1.
Proof.
  intros h c every n1 v A B e s e1 m H. rewrite eval_S. unfold quantified, eval_step.
  destruct every; cbn [x_type x_right]; rewrite eval_S; unfold eval_step; cbn [x_type x_left x_right x_name]; rewrite H; reflexivity.
Qed.
(* `some` is false, and `every` true, when no item decides otherwise; then the environment is restored *)
Theorem C21_quantifier_undecided : forall h c every n1 v A B e s e1, outcome h c A e (Ok (s, e1)) -> scoped B ->
  (forall it, In it s -> exists r, gives h c B (set_var e1 v [it]) r /\ ebv r every) ->
  outcome h c (quantified every n1 v A B) e (Ok ([XIBoolean every], e1)).
Proof.
  intros h c every n1 v A B e s e1 HA SB HB. destruct (outcome_eval _ _ _ _ _ HA) as [n N].
  destruct (quant_loop_spec h c v B e1 (negb every) s SB) as [k K].
  { intros it I. rewrite negb_involutive. auto. }
  apply eval_outcome with (n := S (S (Nat.max n k))); [|discriminate].
  rewrite (quantified_eval h c every n1 v A B e s e1) by (apply N; lia).
  rewrite <- (app_nil_r s). rewrite K by lia. cbn [quant_loop]. rewrite negb_involutive. reflexivity.
Qed.
(* the first item with the other truth value decides, whatever the body does on the items after it; its binding stays *)
Theorem C21_quantifier_decided : forall h c every n1 v A B e s e1 pre it post r, outcome h c A e (Ok (s, e1)) -> scoped B ->
  s = pre ++ it :: post ->
  (forall j, In j pre -> exists w, gives h c B (set_var e1 v [j]) w /\ ebv w every) ->
  gives h c B (set_var e1 v [it]) r -> ebv r (negb every) ->
  outcome h c (quantified every n1 v A B) e (Ok ([XIBoolean (negb every)], set_var e1 v [it])).
Proof.
  intros h c every n1 v A B e s e1 pre it post r HA SB -> HB G E. destruct (outcome_eval _ _ _ _ _ HA) as [n N].
  destruct (quant_loop_spec h c v B e1 (negb every) pre SB) as [k K].
  { intros j I. rewrite negb_involutive. auto. }
  destruct (gives_eval _ _ _ _ _ SB G) as [q Q]. apply ebv_iff in E.
  apply eval_outcome with (n := S (S (Nat.max n (Nat.max k q)))); [|discriminate].
  rewrite (quantified_eval h c every n1 v A B e (pre ++ it :: post) e1) by (apply N; lia).
  rewrite K by lia. cbn [quant_loop]. rewrite Q by lia. cbn [bind]. rewrite E. cbn [bind].
  rewrite Bool.eqb_reflx. reflexivity.
Qed.
(* together: when the body has a truth value for every item *)
Theorem C21_some : forall h c n1 v A B e s e1 t, outcome h c A e (Ok (s, e1)) -> scoped B ->
  (forall it, In it s -> exists r, gives h c B (set_var e1 v [it]) r /\ ebv r (t it)) ->
  exists b e', outcome h c (quantified false n1 v A B) e (Ok ([XIBoolean b], e')) /\
            (b = true <-> exists it, In it s /\ t it = true).
Proof.
  intros h c n1 v A B e s e1 t HA SB HB.
  assert (D : (forall it, In it s -> t it = false) \/
              exists pre it post, s = pre ++ it :: post /\ (forall j, In j pre -> t j = false) /\ t it = true).
  { clear HA HB. induction s as [|x s IH]; [left; intros ? []|]. destruct (t x) eqn:T.
    - right. exists [], x, s. repeat split; auto; try (intros ? []).
    - destruct IH as [IH|[pre [it [post [-> [F U]]]]]].
      + left. intros it [<-|I]; auto.
      + right. exists (x :: pre), it, post. repeat split; auto. intros j [<-|I]; auto. }
  destruct D as [D|[pre [it [post [E [F U]]]]]].
  - exists false, e1. split.
    + apply C21_quantifier_undecided with (s := s); auto. intros it I. rewrite <- (D it I). auto.
    + split; [discriminate|]. intros [it [I T]]. rewrite D in T; auto.
  - assert (I : In it s) by (subst; apply in_elt). destruct (HB it I) as [r [G V]]. rewrite U in V.
    exists true, (set_var e1 v [it]). split.
    + apply (C21_quantifier_decided h c false n1 v A B e s e1 pre it post r); auto.
      intros j J. rewrite <- (F j J). apply HB. subst. apply in_or_app. auto.
    + split; auto. intros _. eauto.
Qed.
Theorem C21_every : forall h c n1 v A B e s e1 t, outcome h c A e (Ok (s, e1)) -> scoped B ->
  (forall it, In it s -> exists r, gives h c B (set_var e1 v [it]) r /\ ebv r (t it)) ->
  exists b e', outcome h c (quantified true n1 v A B) e (Ok ([XIBoolean b], e')) /\
            (b = true <-> forall it, In it s -> t it = true).
Proof.
  intros h c n1 v A B e s e1 t HA SB HB.
  assert (D : (forall it, In it s -> t it = true) \/
              exists pre it post, s = pre ++ it :: post /\ (forall j, In j pre -> t j = true) /\ t it = false).
  { clear HA HB. induction s as [|x s IH]; [left; intros ? []|]. destruct (t x) eqn:T.
    - destruct IH as [IH|[pre [it [post [-> [F U]]]]]].
      + left. intros it [<-|I]; auto.
      + right. exists (x :: pre), it, post. repeat split; auto. intros j [<-|I]; auto.
    - right. exists [], x, s. repeat split; auto; try (intros ? []). }
  destruct D as [D|[pre [it [post [E [F U]]]]]].
  - exists true, e1. split; [|tauto].
    apply C21_quantifier_undecided with (s := s); auto. intros it I. rewrite <- (D it I). auto.
  - assert (I : In it s) by (subst; apply in_elt). destruct (HB it I) as [r [G V]]. rewrite U in V.
    exists false, (set_var e1 v [it]). split.
    + apply (C21_quantifier_decided h c true n1 v A B e s e1 pre it post r); auto.
      intros j J. rewrite <- (F j J). apply HB. subst. apply in_or_app. auto.
    + split; [discriminate|]. intro K. rewrite K in U; auto.
Qed.
Example C21_example :
  parsed "for $x in (1, 2) return $x + 1" =
    for_in (lit "for") (lit "x") (parsed "(1, 2)") (parsed "$x + 1") /\
  scoped (parsed "$x + 1") /\
  parsed "some $x in (1, 2) satisfies $x = 2" =
    quantified false (lit "some") (lit "x") (parsed "(1, 2)") (parsed "$x = 2") /\
  eval_xpath 20 [] 0 (lit "for $x in (1, 2) return ($x, $x * 10)") =
    Ok [XIInteger 1; XIInteger 10; XIInteger 2; XIInteger 20] /\
  eval_xpath 20 [] 0 (lit "some $x in (1, 2, 'a') satisfies $x + 1 eq 3") = Ok [XIBoolean true].
Proof.
  split; [vm_compute; reflexivity|]. split; [vm_compute; repeat split; discriminate|].
  split; [vm_compute; reflexivity|]. split; vm_compute; reflexivity.
Qed.

(* ------------------------------------------------------------------ C22 *)
(* [or] = true: A or B; [or] = false: A and B *)
Definition logic (or : bool) (n1 : str) (A B : xnode) : xnode := XNode (if or then X_OperatorOr else X_OperatorAnd) n1 A B.
Lemma logic_eval : forall h c or n1 A B e n,
  eval h (S n) c (logic or n1 A B) e = logical (eval h n) or c (XNode X_OperatorOr n1 A B) e.
Proof. intros. rewrite eval_S. unfold logic, eval_step. destruct or; reflexivity. Qed.
(* A decides: B is not evaluated (nothing is assumed of it) *)
Theorem C22_short_circuit : forall h c or n1 A B e l e1, outcome h c A e (Ok (l, e1)) -> ebv l or ->
  outcome h c (logic or n1 A B) e (Ok ([XIBoolean or], e1)).
Proof.
  intros h c or n1 A B e l e1 HA E. destruct (outcome_eval _ _ _ _ _ HA) as [n N]. apply ebv_iff in E.
  apply eval_outcome with (n := S n); [|discriminate]. rewrite logic_eval. unfold logical. cbn [x_left x_right].
  rewrite N by lia. cbn [bind]. rewrite E. cbn [bind]. rewrite Bool.eqb_reflx. reflexivity.
Qed.
Theorem C22_right : forall h c or n1 A B e l e1 r e2 b, outcome h c A e (Ok (l, e1)) -> ebv l (negb or) ->
  outcome h c B e1 (Ok (r, e2)) -> ebv r b ->
  outcome h c (logic or n1 A B) e (Ok ([XIBoolean b], e2)).
Proof.
  intros h c or n1 A B e l e1 r e2 b HA E HB F. destruct (outcome_eval _ _ _ _ _ HA) as [n N]. apply ebv_iff in E, F.
  destruct (outcome_eval _ _ _ _ _ HB) as [k K].
  apply eval_outcome with (n := S (Nat.max n k)); [|discriminate]. rewrite logic_eval. unfold logical. cbn [x_left x_right].
  rewrite N by lia. cbn [bind]. rewrite E. cbn [bind]. rewrite eqb_negb1. rewrite K by lia. cbn [bind]. rewrite F. reflexivity.
Qed.
(* truth tables *)
Theorem C22_truth : forall h c or n1 A B e l e1 r e2 a b, outcome h c A e (Ok (l, e1)) -> ebv l a ->
  outcome h c B e1 (Ok (r, e2)) -> ebv r b ->
  exists e', outcome h c (logic or n1 A B) e (Ok ([XIBoolean (if or then a || b else a && b)], e')).
Proof.
  intros h c or n1 A B e l e1 r e2 a b HA E HB F. destruct (Bool.bool_dec a or) as [->|N].
  - exists e1. replace (if or then or || b else or && b) with or by (destruct or; reflexivity).
    eapply C22_short_circuit; eauto.
  - exists e2. assert (a = negb or) by (destruct a, or; cbn; congruence). subst a.
    replace (if or then negb or || b else negb or && b) with b by (destruct or; reflexivity).
    eapply C22_right; eauto.
Qed.
(* errors: of A; of B when A does not decide; and values without a truth value *)
Theorem C22_error_left : forall h c or n1 A B e x, outcome h c A e x -> (forall r, x <> Ok r) ->
  outcome h c (logic or n1 A B) e x.
Proof.
  intros h c or n1 A B e x HA NX. destruct (outcome_eval _ _ _ _ _ HA) as [n N].
  apply eval_outcome with (n := S n); [|apply HA]. rewrite logic_eval. unfold logical. cbn [x_left x_right].
  rewrite N by lia. destruct x as [r| | |]; try reflexivity. destruct (NX r). reflexivity.
Qed.
Theorem C22_error_right : forall h c or n1 A B e l e1 x, outcome h c A e (Ok (l, e1)) -> ebv l (negb or) ->
  outcome h c B e1 x -> (forall r, x <> Ok r) -> outcome h c (logic or n1 A B) e x.
Proof.
  intros h c or n1 A B e l e1 x HA E HB NX. destruct (outcome_eval _ _ _ _ _ HA) as [n N]. apply ebv_iff in E.
  destruct (outcome_eval _ _ _ _ _ HB) as [k K].
  apply eval_outcome with (n := S (Nat.max n k)); [|apply HB]. rewrite logic_eval. unfold logical. cbn [x_left x_right].
  rewrite N by lia. cbn [bind]. rewrite E. cbn [bind]. rewrite eqb_negb1. rewrite K by lia.
  destruct x as [r| | |]; try reflexivity. destruct (NX r). reflexivity.
Qed.
Lemma no_ebv : forall s, (forall b, ~ ebv s b) -> effective_boolean_value s = Err TypeError.
Proof.
  intros s H. destruct (effective_boolean_value s) as [b|x| |] eqn:E.
  - destruct (H b). apply ebv_iff; auto.
  - unfold effective_boolean_value in E. destruct s as [|[] [|]]; congruence.
  - unfold effective_boolean_value in E. destruct s as [|[] [|]]; discriminate.
  - destruct (ebv_fuel s E).
Qed.
Theorem C22_no_truth_value : forall h c or n1 A B e l e1, outcome h c A e (Ok (l, e1)) -> (forall b, ~ ebv l b) ->
  outcome h c (logic or n1 A B) e (Err TypeError).
Proof.
  intros h c or n1 A B e l e1 HA E. destruct (outcome_eval _ _ _ _ _ HA) as [n N]. apply no_ebv in E.
  apply eval_outcome with (n := S n); [|discriminate]. rewrite logic_eval. unfold logical. cbn [x_left x_right].
  rewrite N by lia. cbn [bind]. rewrite E. reflexivity.
Qed.
(* if: only the selected branch is evaluated *)
Definition if_then_else (n1 n2 : str) (C A B : xnode) : xnode := XNode X_IfExpr n1 C (XNode X_IfThenElse n2 A B).
Theorem C22_if : forall h c n1 n2 C A B e v e1 (b : bool) x, outcome h c C e (Ok (v, e1)) -> ebv v b ->
  outcome h c (if b then A else B) e1 x ->
  outcome h c (if_then_else n1 n2 C A B) e x.
Proof.
  intros h c n1 n2 C A B e v e1 b x HC E HB. destruct (outcome_eval _ _ _ _ _ HC) as [n N]. apply ebv_iff in E.
  destruct (outcome_eval _ _ _ _ _ HB) as [k K].
  apply eval_outcome with (n := S (Nat.max n k)); [|apply HB]. rewrite eval_S. unfold eval_step, if_then_else.
  cbn [x_type x_left x_right]. rewrite N by lia. cbn [bind]. change (negb (xtype_eqb X_IfThenElse X_IfThenElse)) with false.
  cbn iota. rewrite E. cbn [bind]. destruct b; apply K; lia.
Qed.
Example C22_example :
  parsed "1 or 2" = logic true (lit "or") (parsed "1") (parsed "2") /\
  eval_xpath 20 [] 0 (lit "1 = 1 or 1 div 0 = 1") = Ok [XIBoolean true] /\
  eval_xpath 20 [] 0 (lit "1 = 2 or 1 div 0 = 1") = Err DynamicError /\
  eval_xpath 20 [] 0 (lit "if (1 = 1) then 5 else 1 div 0") = Ok [XIInteger 5].
Proof. repeat split; vm_compute; reflexivity. Qed.

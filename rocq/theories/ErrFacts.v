(* Evaluation follows the rules for errors (SpecErr.v). *)
Require Import Bool List NArith ZArith Ascii String Lia Sorted.
From Verif Require Import Str StrFacts Sax Dom Axes SpecEdit SpecAxes SessionFacts Lexer FuncTable Parser SpecExpr Num Item Func Types Eval EvalFacts
  SpecOper ItemFacts SpecFunc FuncFacts SpecTypes SpecEval EnvFacts SpecInt IntFacts PropInt SpecDbl SpecArith ArithFacts LibNum SpecSem SemFacts SemNode SemLib SemOper SemIn SemItem SemMore SemMain SpecErr.
Import ListNotations.
Open Scope nat_scope.

Definition fails (h : heap) (D : list str) (f : focus) (vs : vars) (x : xnode) (k : errkind) : Prop :=
  forall e, at_focus f e -> agree D vs e -> exists N, forall m, N <= m -> eval h m [f_item f] x e = Err k.
Lemma fails_S : forall h D f vs x k, (forall e, at_focus f e -> agree D vs e -> exists N, forall m, N <= m ->
  eval_step h (eval h m) (call_function h m) [f_item f] x e = Err k) -> fails h D f vs x k.
Proof. intros h D f vs x k H e F A. destruct (H e F A) as [N E]. exists (S N). intros [|m] L; [lia|]. rewrite eval_S. apply E. lia. Qed.
Lemma fails_paren : forall h D f vs x k, x <> XNil -> fails h D f vs x k -> fails h D f vs (XNode X_ParenthesizedExpr [] x XNil) k.
Proof.
  intros h D f vs x k NX H. apply fails_S. intros e F A. destruct (H e F A) as [N E]. exists N. intros m L. unfold eval_step. cbn [x_type x_left].
  destruct x; [congruence|]. cbn [is_nil]. apply E. auto.
Qed.
Lemma reads_fails : forall h D f vs e k x, reads x e -> (forall y, reads y e -> bare y e -> fails h D f vs y k) -> fails h D f vs x k.
Proof. intros h D f vs e k x R H. apply (reads_bared (fun x => fails h D f vs x k)) with (e := e); auto. intros. apply fails_paren; auto. Qed.
Lemma reads_op_fails : forall h D f vs e k x, reads_op x e -> (forall y, reads y e -> fails h D f vs y k) -> fails h D f vs x k.
Proof. intros h D f vs e k x R H. destruct R; auto. apply fails_paren; [eapply reads_nonnil; eauto|auto]. Qed.
(* the failing part is evaluated first *)
Lemma fails_via : forall h D f vs x X k, fails h D f vs x k ->
  (forall m e, eval h m [f_item f] x e = Err k -> eval_step h (eval h m) (call_function h m) [f_item f] X e = Err k) -> fails h D f vs X k.
Proof. intros h D f vs x X k H HX. apply fails_S. intros e F A. destruct (H e F A) as [N E]. exists N. intros m L. apply HX. auto. Qed.
(* what comes first has a value, then something goes wrong *)
Lemma yields_fails : forall h D f vs x v X k, yields h D f vs x v ->
  (forall m e e1, eval h m [f_item f] x e = Ok (v, e1) -> eval_step h (eval h m) (call_function h m) [f_item f] X e = Err k) -> fails h D f vs X k.
Proof.
  intros h D f vs x v X k H HX. apply fails_S. intros e F A. destruct (H e F A) as [e1 [[N E] _]]. exists N. intros m L. eapply HX. eauto.
Qed.
(* what comes first has a value, what comes second fails *)
Lemma yields_then_fails : forall h D f vs x v y X k, yields h D f vs x v -> fails h D f vs y k ->
  (forall m e e1, eval h m [f_item f] x e = Ok (v, e1) -> eval h m [f_item f] y e1 = Err k ->
     eval_step h (eval h m) (call_function h m) [f_item f] X e = Err k) -> fails h D f vs X k.
Proof.
  intros h D f vs x v y X k HX HY H. apply fails_S. intros e F A. destruct (HX e F A) as [e1 [[N1 E1] S1]].
  destruct (HY e1 (at_focus_same _ _ _ _ F S1) (agree_same _ _ _ _ A S1)) as [N2 E2]. exists (N1 + N2). intros m L. eapply H; [apply E1; lia|apply E2; lia].
Qed.
Lemma fails_operands : forall h D f vs x y ty nm l r fn k, yields h D f vs x l -> yields h D f vs y r ->
  (forall ev cf c x e, x_type x = ty -> eval_step h ev cf c x e = binary ev c x e fn) -> fn l r = Err k ->
  fails h D f vs (XNode ty nm x y) k.
Proof.
  intros h D f vs x y ty nm l r fn k HX HY ST FN. apply fails_S. intros e F A. destruct (HX e F A) as [e1 [[N1 E1] S1]].
  destruct (HY e1 (at_focus_same _ _ _ _ F S1) (agree_same _ _ _ _ A S1)) as [e2 [[N2 E2] S2]].
  exists (N1 + N2). intros m L.
  rewrite ST by reflexivity. unfold binary. cbn [x_left x_right]. rewrite E1 by lia. cbn [bind]. rewrite E2 by lia. cbn [bind].
  rewrite FN. reflexivity.
Qed.

(* loops: the items before the failing one have values *)
Lemma map_loop_fails : forall h D vs x p n it l2 k l1,
  (forall i, In i l1 -> exists v, yields h D (mkFocus i p n) vs x v) -> fails h D (mkFocus it p n) vs x k ->
  forall e, e_pos e = p -> e_last e = n -> agree D vs e ->
  exists N, forall m, N <= m -> map_loop (eval h m) x (l1 ++ it :: l2) e = Err k.
Proof.
  intros h D vs x p n it l2 k l1. induction l1 as [|i l1 IH]; intros H HF e P L A.
  - destruct (HF e (conj P L) A) as [N E]. exists N. intros m M. cbn [app map_loop]. cbn [f_item] in E. rewrite E by lia. reflexivity.
  - destruct (H i (or_introl eq_refl)) as [v HV]. destruct (HV e (conj P L) A) as [e1 [[N1 E1] S1]].
    destruct (IH (fun j I => H j (or_intror I)) HF e1) as [N2 E2].
    + destruct S1 as [Q _]. congruence.
    + destruct S1 as [_ [Q _]]. congruence.
    + eapply agree_same; eauto.
    + exists (N1 + N2). intros m M. cbn [app map_loop]. cbn [f_item] in E1. rewrite E1 by lia. cbn [bind]. rewrite E2 by lia. reflexivity.
Qed.
Lemma for_loop_fails : forall h D f vs x v it l2 k l1,
  (forall i, In i l1 -> exists w, yields h (without D v) f (bind_var v [i] vs) x w) -> fails h (without D v) f (bind_var v [it] vs) x k ->
  forall e, at_focus f e -> agree D vs e -> exists N, forall m, N <= m -> for_loop (eval h m) [f_item f] v x (l1 ++ it :: l2) e = Err k.
Proof.
  intros h D f vs x v it l2 k l1. induction l1 as [|i l1 IH]; intros H HF e F A.
  - destruct (HF (set_var e v [it]) F (agree_bind _ _ _ _ _ A)) as [N E]. exists N. intros m M. cbn [app for_loop]. rewrite E by lia. reflexivity.
  - destruct (H i (or_introl eq_refl)) as [w HV]. destruct (HV (set_var e v [i]) F (agree_bind _ _ _ _ _ A)) as [e1 [[N1 E1] S1]].
    apply same_unbind in S1. destruct (IH (fun j I => H j (or_intror I)) HF (remove_var e1 v)) as [N2 E2].
    + eapply at_focus_same; eauto.
    + eapply agree_same; eauto.
    + exists (N1 + N2). intros m M. cbn [app for_loop]. rewrite E1 by lia. cbn [bind]. rewrite E2 by lia. reflexivity.
Qed.
(* a body of some or every goes wrong: it fails, or its value has no truth *)
Definition truth_fails (h : heap) (D : list str) (f : focus) (vs : vars) (x : xnode) (k : errkind) : Prop :=
  fails h D f vs x k \/ (k = TypeError /\ exists v, yields h D f vs x v /\ effective_boolean_value v = Err TypeError).
Lemma truth_fails_eval : forall h D f vs x k, truth_fails h D f vs x k -> forall e, at_focus f e -> agree D vs e ->
  exists N, forall m, N <= m -> (do (r, e1) <- eval h m [f_item f] x e; do b <- effective_boolean_value r; Ok (b, e1)) = Err k.
Proof.
  intros h D f vs x k [H|[-> [v [H B]]]] e F A.
  - destruct (H e F A) as [N E]. exists N. intros m M. rewrite E by lia. reflexivity.
  - destruct (H e F A) as [e1 [[N E] _]]. exists N. intros m M. rewrite E by lia. cbn [bind]. rewrite B. reflexivity.
Qed.
Lemma quant_loop_fails : forall h D f vs x v (stop : bool) it l2 k l1, 
  (forall i, In i l1 -> exists w, yields h (without D v) f (bind_var v [i] vs) x w /\ ebv w (negb stop)) ->
  truth_fails h (without D v) f (bind_var v [it] vs) x k ->
  forall e, at_focus f e -> agree D vs e -> exists N, forall m, N <= m -> quant_loop (eval h m) stop [f_item f] v x (l1 ++ it :: l2) e = Err k.
Proof.
  intros h D f vs x v stop it l2 k l1. induction l1 as [|i l1 IH]; intros H HF e F A.
  - destruct (truth_fails_eval _ _ _ _ _ _ HF (set_var e v [it]) F (agree_bind _ _ _ _ _ A)) as [N E]. exists N. intros m M. cbn [app quant_loop].
    specialize (E m M). destruct (eval h m [f_item f] x (set_var e v [it])) as [[r e1]| | |]; cbn [bind] in *; try congruence.
    destruct (effective_boolean_value r); cbn [bind] in *; congruence.
  - destruct (H i (or_introl eq_refl)) as [w [HV T]]. destruct (HV (set_var e v [i]) F (agree_bind _ _ _ _ _ A)) as [e1 [[N1 E1] S1]].
    apply same_unbind in S1. destruct (IH (fun j I => H j (or_intror I)) HF (remove_var e1 v)) as [N2 E2].
    + eapply at_focus_same; eauto.
    + eapply agree_same; eauto.
    + exists (N1 + N2). intros m M. cbn [app quant_loop]. rewrite E1 by lia. cbn [bind]. apply ebv_iff in T. rewrite T. cbn [bind].
      replace (Bool.eqb (negb stop) stop) with false by (destruct stop; reflexivity). rewrite E2 by lia. reflexivity.
Qed.
Lemma filter_loop_fails : forall h D vs x rv n it l2 k l1 i,
  (forall j y, nth_error l1 j = Some y -> exists v, yields h D (mkFocus y (position rv n (i + j)) n) vs x v) ->
  fails h D (mkFocus it (position rv n (i + List.length l1)) n) vs x k ->
  forall e, agree D vs e -> exists N, forall m, N <= m -> filter_loop (eval h m) x rv n i (l1 ++ it :: l2) e = Err k.
Proof.
  intros h D vs x rv n it l2 k l1. induction l1 as [|y l1 IH]; intros i H HF e A.
  - cbn [List.length] in HF. replace (i + 0) with i in HF by lia.
    destruct (HF (set_pos_last e (position rv n i) n) (conj eq_refl eq_refl) (agree_pos _ _ _ _ _ A)) as [N E]. exists N. intros m M. cbn [app filter_loop].
    replace (if rv then n - i else i + 1) with (position rv n i) by (unfold position; destruct rv; lia).
    cbn [f_item] in E. rewrite E by lia. reflexivity.
  - destruct (H 0 y eq_refl) as [v HV]. replace (i + 0) with i in HV by lia.
    destruct (HV (set_pos_last e (position rv n i) n) (conj eq_refl eq_refl) (agree_pos _ _ _ _ _ A)) as [e1 [[N1 E1] S1]]. apply same_pos in S1.
    destruct (IH (S i)) with (e := set_pos_last e1 (e_pos e) (e_last e)) as [N2 E2].
    + intros j z E. destruct (H (S j) z E) as [w HW]. exists w. replace (S i + j) with (i + S j) by lia. exact HW.
    + cbn [List.length] in HF. replace (S i + List.length l1) with (i + S (List.length l1)) by lia. exact HF.
    + eapply agree_same; eauto.
    + exists (N1 + N2). intros m M. cbn [app filter_loop].
      replace (if rv then n - i else i + 1) with (position rv n i) by (unfold position; destruct rv; lia).
      cbn [f_item] in E1. rewrite E1 by lia. cbn [bind]. rewrite E2 by lia. reflexivity.
Qed.
Lemma path_loop_fails : forall h D vs y p s n l2 k l1,
  (forall i, In i l1 -> exists r, yields h D (mkFocus (XINode i) p s) vs y (nodes r)) -> fails h D (mkFocus (XINode n) p s) vs y k ->
  forall e b acc, e_pos e = p -> e_last e = s -> agree D vs e ->
  exists N, forall m, N <= m -> path_loop (eval h m) y (nodes (l1 ++ n :: l2)) b false acc e = Err k.
Proof.
  intros h D vs y p s n l2 k l1. induction l1 as [|i l1 IH]; intros H HF e b acc P L A.
  - destruct (HF e (conj P L) A) as [N E]. exists N. intros m M. cbn [app nodes map path_loop]. cbn [f_item] in E. rewrite E by lia. reflexivity.
  - destruct (H i (or_introl eq_refl)) as [r HV]. destruct (HV e (conj P L) A) as [e1 [[N1 E1] S1]].
    assert (G : forall b acc, exists N, forall m, N <= m -> path_loop (eval h m) y (nodes (l1 ++ n :: l2)) b false acc e1 = Err k).
    { intros b' acc'. apply (IH (fun j I => H j (or_intror I)) HF e1).
      - destruct S1 as [Q _]. congruence.
      - destruct S1 as [_ [Q _]]. congruence.
      - eapply agree_same; eauto. }
    destruct r as [|q r].
    + destruct (G b acc) as [N2 E2]. exists (N1 + N2). intros m M. cbn [app nodes map path_loop]. cbn [f_item] in E1. rewrite E1 by lia. cbn [bind nodes map].
      apply E2. lia.
    + destruct (G true (acc ++ nodes (q :: r))) as [N2 E2]. exists (N1 + N2). intros m M. cbn [app nodes map path_loop]. cbn [f_item] in E1. rewrite E1 by lia. cbn [bind].
      rewrite nodes_no_atom. cbn [negb orb andb]. rewrite orb_true_r. cbn [andb]. cbn [nodes map]. apply E2. lia.
Qed.

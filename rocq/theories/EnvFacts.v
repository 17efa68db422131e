(* Evaluation and the environment: expressions without quantifiers and calls of function items leave it as it was. *)
Require Import Bool List NArith ZArith Ascii String Lia.
Require Import Coq.Floats.SpecFloat.
From Verif Require Import Str StrFacts Sax Dom Axes Lexer FuncTable Parser Num Item Func Types Eval EvalFacts SpecOper
  ItemFacts SpecTypes TypeFacts SpecFunc FuncFacts SpecEval.
Import ListNotations.
Open Scope nat_scope.

Lemma feqb_zero : forall f, feqb f f_zero = true <-> exists s, f = S754_zero s.
Proof.
  intro f. unfold feqb, f_zero. destruct f as [s|s| |s m e]; cbn; split; intro H; try discriminate; eauto;
    try (destruct H; discriminate); destruct s; discriminate.
Qed.
Lemma is_nan_iff : forall f, is_nan f = true <-> f = S754_nan.
Proof. intro f; destruct f; cbn; split; congruence. Qed.
Lemma zero_nan_bool : forall f, negb (feqb f f_zero) && negb (is_nan f) = false <-> is_zero_or_nan f.
Proof.
  intro f. unfold is_zero_or_nan. rewrite <- feqb_zero, <- is_nan_iff.
  destruct (feqb f f_zero), (is_nan f); cbn; intuition congruence.
Qed.
Lemma ebv_iff : forall s b, effective_boolean_value s = Ok b <-> ebv s b.
Proof.
  intros s b. split.
  - intro H. unfold effective_boolean_value in H. destruct s as [|it s]; [injection H as <-; constructor|].
    destruct it; try (destruct s; discriminate H); try (injection H as <-; constructor);
      (destruct s; [|discriminate H]); injection H as <-.
    + destruct (str_eqb s0 []) eqn:E; cbn [negb].
      * apply str_eqb_eq in E. subst. constructor.
      * constructor. intros ->. discriminate E.
    + destruct (Z.eqb_spec z 0) as [->|N]; cbn [negb]; constructor; auto.
    + destruct (negb (feqb f f_zero) && negb (is_nan f)) eqn:E; constructor.
      * rewrite <- zero_nan_bool, E. discriminate.
      * apply zero_nan_bool; auto.
    + destruct (negb (feqb f f_zero) && negb (is_nan f)) eqn:E; constructor.
      * rewrite <- zero_nan_bool, E. discriminate.
      * apply zero_nan_bool; auto.
    + constructor.
  - intro H. destruct H; cbn; try reflexivity.
    + destruct s; [congruence|]. reflexivity.
    + destruct (Z.eqb_spec z 0); [congruence|reflexivity].
    + rewrite <- zero_nan_bool in H. destruct (negb _ && negb _); congruence.
    + rewrite <- zero_nan_bool in H. rewrite H. reflexivity.
    + rewrite <- zero_nan_bool in H. destruct (negb _ && negb _); congruence.
    + rewrite <- zero_nan_bool in H. rewrite H. reflexivity.
Qed.
Lemma ebv_fuel : forall s, effective_boolean_value s <> Fuel.
Proof. intro s. unfold effective_boolean_value. destruct s as [|[] [|]]; discriminate. Qed.
Lemma ebv_det : forall s b b', ebv s b -> ebv s b' -> b = b'.
Proof. intros s b b' H K. apply ebv_iff in H, K. congruence. Qed.

(* [bd H]: H is a bind that gives Ok; the first part gives Ok too.  [bp H e]: the same for a pair with an environment *)
Tactic Notation "bd" hyp(H) "as" simple_intropattern(p) ident(E) :=
  match type of H with bind ?r _ = Ok _ => destruct r as [p| | |] eqn:E; cbn [bind] in H; try discriminate H end.

(* an evaluation function that leaves the environment alone on scoped expressions *)
Definition quiet (ev : xseq -> xnode -> env -> res (xseq * env)) : Prop :=
  forall c x e v e', scoped x -> ev c x e = Ok (v, e') -> e' = e.
Lemma calls_names : forallb (fun r : option nat * str * fid =>
    implb (match snd r with C_for_each | C_filter => true | _ => false end)
          (calls_items X_FunctionCall (snd (fst r)))) (func_context_tbl ++ func_tbl) = true.
Proof. vm_compute. reflexivity. Qed.
Section Quiet.
  Variable h : heap.
  Variable ev : xseq -> xnode -> env -> res (xseq * env).
  Variable cf : xnode -> list xseq -> xseq -> env -> res (xseq * env).
  Hypothesis Q : quiet ev.

  Lemma env_eta : forall e, set_pos_last e (e_pos e) (e_last e) = e.
  Proof. destruct e; reflexivity. Qed.
  Lemma filter_loop_quiet : forall x rv n l i e v e', scoped x -> filter_loop ev x rv n i l e = Ok (v, e') -> e' = e.
  Proof.
    intros x rv n l. induction l as [|it l IH]; intros i e v e' S H; cbn [filter_loop] in H; [congruence|].
    bd H as [w e1] BE. apply Q in BE; auto. subst e1. cbn [set_pos_last e_pos e_last e_vars] in H.
    unfold set_pos_last in H at 1 2. cbn [e_pos e_last e_vars] in H.
    bd H as [r e3] BE. injection H as <- <-. apply IH in BE; auto. subst e3. destruct e; reflexivity.
  Qed.
  Lemma filter_by_predicate_quiet : forall s x rv e v e', scoped x -> filter_by_predicate ev s x rv e = Ok (v, e') -> e' = e.
  Proof.
    intros s x rv e v e' S H. unfold filter_by_predicate in H. destruct (is_nil x); [discriminate|].
    eapply filter_loop_quiet; eauto.
  Qed.
  Lemma filter_by_predicates_quiet : forall x s e v e', scoped x -> filter_by_predicates ev x s e = Ok (v, e') -> e' = e.
  Proof.
    induction x as [|ty n l _ r IH]; intros s e v e' S H; cbn [filter_by_predicates] in H; [congruence|].
    destruct ty; try discriminate H;
      (destruct S as [_ [_ [_ [S1 S2]]]]; bd H as [s1 e1] BE;
       apply filter_by_predicate_quiet in BE; auto; subst e1; eapply IH; eauto).
  Qed.
  Lemma match_loc_step_quiet : forall i x e v e', scoped (x_right x) -> match_loc_step h ev i x e = Ok (v, e') -> e' = e.
  Proof.
    intros i x e v e' S H. unfold match_loc_step in H. bd H as ? BE2. destruct (is_nil (x_right x)); [congruence|].
    eapply filter_by_predicates_quiet; eauto.
  Qed.
  Lemma loc_path_loop_quiet : forall x l e v e', scoped (x_right x) -> loc_path_loop h ev x l e = Ok (v, e') -> e' = e.
  Proof.
    intros x l. induction l as [|i l IH]; intros e v e' S H; cbn [loc_path_loop] in H; [congruence|].
    bd H as [w e1] BE. apply match_loc_step_quiet in BE; auto. subst e1. bd H as [r e2] BE.
    apply IH in BE; auto. congruence.
  Qed.
  Lemma match_location_path_quiet : forall s x e v e', scoped (x_right x) -> match_location_path h ev s x e = Ok (v, e') -> e' = e.
  Proof.
    intros s x e v e' S H. unfold match_location_path in H. bd H as [l e1] BE.
    apply loc_path_loop_quiet in BE; auto. congruence.
  Qed.
  Lemma path_loop_quiet : forall x l a b acc e r s e', scoped x -> path_loop ev x l a b acc e = Ok (r, s, e') -> e' = e.
  Proof.
    intros x l. induction l as [|it l IH]; intros a b acc e r s e' S H; cbn [path_loop] in H; [congruence|].
    bd H as [w e1] BE. apply Q in BE; auto. subst e1. destruct w; [eapply IH; eauto|].
    destruct (_ && _); [discriminate|]. eapply IH; eauto.
  Qed.
  Lemma map_loop_quiet : forall x l e v e', scoped x -> map_loop ev x l e = Ok (v, e') -> e' = e.
  Proof.
    intros x l. induction l as [|it l IH]; intros e v e' S H; cbn [map_loop] in H; [congruence|].
    bd H as [w e1] BE. apply Q in BE; auto. subst e1. bd H as [r e2] BE.
    apply IH in BE; auto. congruence.
  Qed.
  Lemma remove_set : forall e n v, remove_var (set_var e n v) n = e.
  Proof.
    intros e n v. unfold remove_var, set_var. cbn [e_vars e_pos e_last remove_first]. rewrite str_eqb_refl.
    destruct e; reflexivity.
  Qed.
  Lemma for_loop_quiet : forall c v b l e r e', scoped b -> for_loop ev c v b l e = Ok (r, e') -> e' = e.
  Proof.
    intros c v b l. induction l as [|it l IH]; intros e r e' S H; cbn [for_loop] in H; [congruence|].
    bd H as [w e1] BE. apply Q in BE; auto. subst e1. rewrite remove_set in H. bd H as [u e2] BE.
    apply IH in BE; auto. congruence.
  Qed.
  Lemma eval_args_quiet : forall c x e v e', scoped x -> eval_args ev c x e = Ok (v, e') -> e' = e.
  Proof.
    intros c x. induction x as [|ty n l _ r IH]; intros e v e' S H; cbn [eval_args] in H; [congruence|].
    destruct (xtype_eqb ty X_ArgumentTop) eqn:T; [|discriminate]. apply xtype_eqb_eq in T. subst ty.
    destruct S as [_ [_ [_ [S1 S2]]]].
    bd H as [w e1] BE. apply Q in BE; auto. subst e1. bd H as [u e2] BE.
    apply IH in BE; auto. congruence.
  Qed.
  Lemma map_entries_quiet : forall c x e v e', scoped x -> map_entries ev c x e = Ok (v, e') -> e' = e.
  Proof.
    intros c x. induction x as [|ty n l _ r IH]; intros e v e' S H; cbn [map_entries] in H; [congruence|].
    destruct (negb (xtype_eqb ty X_MapConstruct)) eqn:T; [discriminate|]. apply negb_false_iff, xtype_eqb_eq in T. subst ty.
    destruct S as [_ [_ [_ [S1 S2]]]].
    destruct (negb (xtype_eqb (x_type l) X_MapEntry)) eqn:T; [discriminate|]. apply negb_false_iff, xtype_eqb_eq in T.
    destruct l as [|ty' n' k w]; [discriminate|]. cbn [x_type x_left x_right] in *. subst ty'.
    destruct S1 as [_ [_ [_ [S1 S3]]]].
    bd H as [kv e1] BE. apply Q in BE; auto. subst e1. bd H as ? BE2.
    bd H as [wv e1] BE. apply Q in BE; auto. subst e1. bd H as [m e2] BE.
    apply IH in BE; auto. congruence.
  Qed.
  Lemma array_entries_quiet : forall c x e v e', scoped x -> array_entries ev c x e = Ok (v, e') -> e' = e.
  Proof.
    intros c x. induction x as [|ty n l _ r IH]; intros e v e' S H; cbn [array_entries] in H; [congruence|].
    destruct (negb (xtype_eqb ty X_ArrayEntry)) eqn:T; [discriminate|]. apply negb_false_iff, xtype_eqb_eq in T. subst ty.
    destruct S as [_ [_ [_ [S1 S2]]]].
    bd H as [w e1] BE. apply Q in BE; auto. subst e1. bd H as [u e2] BE.
    apply IH in BE; auto. congruence.
  Qed.
  Lemma pure_quiet : forall e r v e', pure e r = Ok (v, e') -> e' = e.
  Proof. intros e r v e' H. unfold pure in H. bd H as ? BE2. congruence. Qed.
  Lemma binary_quiet : forall c x e f v e', scoped (x_left x) -> scoped (x_right x) ->
    binary ev c x e f = Ok (v, e') -> e' = e.
  Proof.
    intros c x e f v e' S1 S2 H. unfold binary in H. bd H as [l e1] BE. apply Q in BE; auto. subst e1.
    bd H as [r e2] BE. apply Q in BE; auto. subst e2. bd H as ? BE2. congruence.
  Qed.
  Lemma unary_quiet : forall c x e f v e', scoped (x_right x) -> unary ev c x e f = Ok (v, e') -> e' = e.
  Proof. intros c x e f v e' S H. unfold unary in H. bd H as [l e1] BE. apply Q in BE; auto. subst e1. bd H as ? BE2. congruence. Qed.
  Lemma logical_quiet : forall st c x e v e', scoped (x_left x) -> scoped (x_right x) ->
    logical ev st c x e = Ok (v, e') -> e' = e.
  Proof.
    intros st c x e v e' S1 S2 H. unfold logical in H. bd H as [l e1] BE. apply Q in BE; auto. subst e1.
    bd H as b BE3. destruct (Bool.eqb b st); [congruence|]. bd H as [r e2] BE. apply Q in BE; auto. subst e2. bd H as ? BE2. congruence.
  Qed.
  Lemma eval_left_quiet : forall c x e v e', scoped (x_left x) -> eval_left ev c x e = Ok (v, e') -> e' = e.
  Proof. intros c x e v e' S H. unfold eval_left in H. destruct (is_nil (x_left x)); [congruence|]. eapply Q; eauto. Qed.
  Lemma evaluate_function_quiet : forall nm args c e v e',
    calls_items X_FunctionCall nm = false -> evaluate_function h cf nm args c e = Ok (v, e') -> e' = e.
  Proof.
    intros nm args c e v e' S H. unfold evaluate_function in H.
    destruct (find_function nm (List.length args)) as [f|] eqn:F; [|discriminate].
    assert (NI : f <> C_for_each /\ f <> C_filter).
    { apply find_row_name in F. apply in_map_iff in F. destruct F as [r [E I]].
      assert (C := calls_names). rewrite forallb_forall in C. specialize (C r I). injection E as E1 E2. subst nm f.
      rewrite S in C. split; intro K; rewrite K in C; discriminate C. }
    destruct NI as [N1 N2].
    destruct f; try congruence; try (eapply pure_quiet; eauto; fail).
    destruct args; [discriminate|]. eapply pure_quiet; eauto.
  Qed.
End Quiet.


Lemma scoped_left : forall x, scoped x -> scoped (x_left x).
Proof. intros [|ty n l r] S; [exact I|]. destruct S as [_ [_ [_ [S _]]]]. exact S. Qed.
Lemma scoped_right : forall x, scoped x -> scoped (x_right x).
Proof. intros [|ty n l r] S; [exact I|]. destruct S as [_ [_ [_ [_ S]]]]. exact S. Qed.
Lemma convert_quiet : forall ev x c e v e', quiet ev -> scoped x -> convert_xnode_to_map_array ev x c e = Ok (v, e') -> e' = e.
Proof.
  intros ev x c e v e' Q S H. apply scoped_left in S. unfold convert_xnode_to_map_array in H.
  destruct (x_type x); try discriminate H; bd H as [w e1] BE; injection H as <- <-.
  - eapply map_entries_quiet; eauto.
  - eapply array_entries_quiet; eauto.
  - eapply Q; eauto.
Qed.
Lemma eval_step_quiet : forall h ev cf, quiet ev -> quiet (eval_step h ev cf).
Proof.
  intros h ev cf Q c x e v e' S H. unfold eval_step in H. assert (S' := S). destruct x as [|ty nm l r]; [discriminate|].
  cbn [x_type x_left x_right x_name] in H. destruct S as [S0 [S3 [S4 [S1 S2]]]].
  destruct ty; try discriminate H;
    try (injection H as <- <-; reflexivity);
    try (eapply binary_quiet; [exact Q| | |exact H]; assumption);
    try (eapply unary_quiet; [exact Q| |exact H]; assumption);
    try (eapply logical_quiet; [exact Q| | |exact H]; assumption);
    try (eapply match_location_path_quiet; [exact Q| |exact H]; assumption);
    try (eapply pure_quiet; exact H);
    try (eapply Q; [|exact H]; assumption);
    try (bd H as [w e1] BE; eapply convert_quiet in BE; eauto; congruence);
    try congruence; try discriminate S0.
  all: try (bd H as [w e1] BE; apply Q in BE; [|assumption]; subst e1).
  - bd H as [w e1] BE. eapply eval_left_quiet in BE; eauto. subst e1.
    destruct (is_nil r); [congruence|]. destruct (negb _); [discriminate|]. bd H as [[a b] e2] BE2.
    eapply path_loop_quiet in BE2; eauto. subst e2. destruct a; [bd H as ? BE3|]; congruence.
  - bd H as b BE2. congruence.
  - congruence.
  - bd H as b BE2. congruence.
  - destruct (negb _) eqn:T; [discriminate|]. bd H as b BE2.
    destruct b; (eapply Q; [|exact H]); [apply scoped_left|apply scoped_right]; assumption.
  - eapply for_loop_quiet; [exact Q| |exact H]; assumption.
  - bd H as [args e1] BE. eapply eval_args_quiet in BE; eauto. subst e1. eapply evaluate_function_quiet; [|exact H]. exact S0.
  - eapply filter_by_predicate_quiet; [exact Q| |exact H]. apply scoped_left; assumption.
  - bd H as [w e1] BE. eapply eval_left_quiet in BE; eauto. subst e1.
    destruct (is_nil r); [congruence|]. eapply map_loop_quiet; [exact Q| |exact H]; assumption.
  - bd H as [u e2] BE2. apply Q in BE2; [|assumption]. subst e2. rewrite remove_set in H. congruence.
  - bd H as b BE2. congruence.
  - destruct (is_nil l); [congruence|]. exact (Q _ _ _ _ _ S1 H).
Qed.
Lemma eval_quiet : forall h n, quiet (eval h n).
Proof.
  induction n as [|n IH]; intros c x e v e' S H; [discriminate|]. rewrite eval_S in H.
  eapply eval_step_quiet; eauto.
Qed.
Lemma outcome_quiet : forall h c x e v e', scoped x -> outcome h c x e (Ok (v, e')) -> e' = e.
Proof. intros h c x e v e' S [_ [n H]]. eapply eval_quiet; eauto. Qed.
Lemma gives_outcome : forall h c x e v, scoped x -> gives h c x e v -> outcome h c x e (Ok (v, e)).
Proof. intros h c x e v S [e' H]. assert (K := outcome_quiet _ _ _ _ _ _ S H). subst. exact H. Qed.

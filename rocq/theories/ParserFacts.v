(* Termination, fuel independence and absence of panics for the parser. *)
Require Import Bool List NArith ZArith Ascii String Lia.
From Verif Require Import Str StrFacts Chars Lexer FuncTable Parser.
Import ListNotations.

(* ---- a result that is not a panic nor out of fuel, whose value satisfies Q ---- *)
Definition wp {A} (r : res A) (Q : A -> Prop) : Prop :=
  match r with Ok a => Q a | Err _ => True | Panic => False | Fuel => False end.
Lemma wp_bind : forall A B (r : res A) (f : A -> res B) (P : A -> Prop) Q,
  wp r P -> (forall a, P a -> wp (f a) Q) -> wp (bind r f) Q.
Proof. intros A B [a|e| |] f P Q H K; cbn in *; auto. Qed.
Lemma wp_conseq : forall A (r : res A) (P Q : A -> Prop), wp r P -> (forall a, P a -> Q a) -> wp r Q.
Proof. intros A [a|e| |] P Q H K; cbn in *; auto. Qed.

Notation len := (@List.length token).
Definition post (t : toks) (r : xnode * toks) : Prop :=
  (len (snd r) <= len t)%nat /\ (fst r <> XNil -> (len (snd r) < len t)%nat).
(* the value of parsing any list shorter than n *)
Definition good (n : nat) (p : parser) : Prop := forall t, (len t < n)%nat -> wp (p t) (post t).

Lemma next_is_adv : forall ty t, ty <> T_EOF -> next_is ty t = true -> (len (adv t) < len t)%nat.
Proof.
  intros ty [|a t] H E; [|cbn; lia].
  unfold next_is in E. apply ttype_eqb_eq in E. cbn in E. congruence.
Qed.
Lemma next_type_adv : forall t, next_type t <> T_EOF -> (len (adv t) < len t)%nat.
Proof. intros [|a t] H; cbn in *; [congruence|lia]. Qed.
Lemma adv_le : forall t, (len (adv t) <= len t)%nat.
Proof. intros [|a t]; cbn; lia. Qed.
Lemma expect_wp : forall ty t, ty <> T_EOF -> wp (expect ty t) (fun t1 => (len t1 < len t)%nat).
Proof.
  intros ty t H. unfold expect. destruct (next_is ty t) eqn:E; cbn; auto. eapply next_is_adv; eauto.
Qed.
Lemma expect_name_wp : forall n t, n <> [] -> wp (expect_name n t) (fun t1 => (len t1 < len t)%nat).
Proof.
  intros n t H. unfold expect_name.
  destruct (next_is T_Name t) eqn:E; cbn [negb andb].
  - cbn. eapply next_is_adv; [|eauto]. discriminate.
  - destruct t as [|a t]; cbn.
    + destruct n; [congruence|]. cbn. auto.
    + destruct (str_eqb (t_name a) n); cbn; auto.
Qed.
Lemma parse_qname_wp : forall dp t, wp (parse_qname dp t)
  (fun r => (len (snd r) <= len t)%nat /\ (fst r <> [] -> (len (snd r) < len t)%nat)).
Proof.
  intros dp t. unfold parse_qname. destruct (next_is T_Name t) eqn:E; [|cbn; split; [lia|congruence]].
  apply next_is_adv in E; [|discriminate]. pose proof (adv_le (adv t)). pose proof (adv_le (adv (adv t))).
  destruct (next_is T_Colon (adv t)); [destruct (next_is T_Name (adv (adv t)))|]; cbn; auto; split; intros; lia.
Qed.
Lemma parse_eqname_wp : forall dp t, wp (parse_eqname dp t)
  (fun r => (len (snd r) <= len t)%nat /\ (fst r <> [] -> (len (snd r) < len t)%nat)).
Proof.
  intros dp t. unfold parse_eqname. eapply wp_bind; [apply parse_qname_wp|]. intros [q t1] [H1 H2]. cbn [fst snd] in *.
  destruct (negb (str_eqb q [])); [cbn; auto|].
  destruct (next_is T_BracedURILiteral t1) eqn:E; cbn [andb]; [|cbn; split; auto; congruence].
  apply next_is_adv in E; [|discriminate]. pose proof (adv_le (adv t1)).
  destruct (next_is T_Name (adv t1)); cbn; split; intros; try lia; congruence.
Qed.
Lemma static_func_name_wp : forall t, wp (parse_static_func_name t)
  (fun r => (len (snd r) <= len t)%nat /\ (fst r <> [] -> (len (snd r) < len t)%nat)).
Proof. intros. apply parse_eqname_wp. Qed.
Lemma str_eqb_nil : forall s : str, str_eqb s [] = false -> s <> [].
Proof. intros s H ->. discriminate. Qed.
Lemma str_eqb_nil_true : forall s : str, str_eqb s [] = true -> s = [].
Proof. intros [|a s] H; [auto|discriminate]. Qed.
Lemma is_nil_false : forall x, is_nil x = false -> x <> XNil.
Proof. intros x H ->. discriminate. Qed.
Lemma is_nil_true : forall x, is_nil x = true -> x = XNil.
Proof. intros [|] H; [auto|discriminate]. Qed.
Lemma set_right_nil : forall x r, set_right x r <> XNil -> x <> XNil.
Proof. intros [|] r H; cbn in *; congruence. Qed.
Lemma parse_wildcard_le : forall t, (len (snd (parse_wildcard t)) <= len t)%nat /\
  (fst (parse_wildcard t) <> [] -> (len (snd (parse_wildcard t)) < len t)%nat).
Proof.
  intros [|a t]; [cbn; split; [lia|congruence]|]. unfold parse_wildcard, next_type, nxt, adv, tl.
  pose proof (adv_le t).
  destruct (t_type a); try (cbn; split; [lia|congruence]); try (cbn; split; intros; lia);
    match goal with |- context [if next_is ?ty ?u then _ else _] => destruct (next_is ty u) end;
    unfold adv in *; cbn [fst snd List.length] in *; split; intros; try lia; try congruence; destruct t; cbn in *; lia.
Qed.
Lemma good_le : forall n m p, (m <= n)%nat -> good n p -> good m p.
Proof. intros n m p L H t Ht. apply H. lia. Qed.

(* ---- automation ---- *)
Lemma bind_assoc : forall A B C (r : res A) (f : A -> res B) (g : B -> res C),
  bind (bind r f) g = bind r (fun a => bind (f a) g).
Proof. intros A B C [a|e| |] f g; reflexivity. Qed.
Ltac clean := cbn [fst snd] in *.
Ltac nn := match goal with |- _ <> [] => discriminate | |- _ <> T_EOF => discriminate | _ => idtac end.
Ltac facts := cbv beta in *;
  repeat match goal with
  | H : next_is ?ty ?t = true |- _ =>
      lazymatch goal with
      | _ : (len (adv t) < len t)%nat |- _ => fail
      | _ => let K := fresh in assert (K : (len (adv t) < len t)%nat) by (eapply next_is_adv; [|exact H]; discriminate)
      end
  | H : next_type ?t = ?ty |- _ =>
      lazymatch goal with
      | _ : (len (adv t) < len t)%nat |- _ => fail
      | _ => let K := fresh in
             assert (K : (len (adv t) < len t)%nat) by (apply next_type_adv; rewrite H; discriminate)
      end
  | H : str_eqb _ [] = false |- _ => apply str_eqb_nil in H
  | H : str_eqb _ [] = true |- _ => apply str_eqb_nil_true in H; try subst
  | H : is_nil _ = false |- _ => apply is_nil_false in H
  | H : is_nil _ = true |- _ => apply is_nil_true in H; try subst
  | H : ?x <> ?y -> (_ < _)%nat, K : ?x <> ?y |- _ => specialize (H K)
  | H : negb _ = true |- _ => apply negb_true_iff in H
  | H : negb _ = false |- _ => apply negb_false_iff in H
  | H : andb _ _ = true |- _ => apply andb_true_iff in H; destruct H
  | H : post _ (_, _) |- _ => destruct H as [? ?]; clean
  | H : (_ /\ _) |- _ => destruct H
  end.
Ltac fin :=
  facts; repeat match goal with |- context [adv ?t] =>
      lazymatch goal with
      | _ : (len (adv t) <= len t)%nat |- _ => fail
      | _ => pose proof (adv_le t)
      end end;
  unfold post; clean; try split; intros; facts;
  try lia; try congruence; auto.
(* one step through the program text *)
Ltac step spec :=
  match goal with
  | |- wp (bind (expect _ _) _) _ => eapply wp_bind; [apply expect_wp; discriminate|intros ? ?]
  | |- wp (bind (expect_name _ _) _) _ => eapply wp_bind; [apply expect_name_wp; discriminate|intros ? ?]
  | |- wp (bind (parse_eqname _ _) _) _ => eapply wp_bind; [apply parse_eqname_wp|intros [? ?] ?; facts; clean]
  | |- wp (bind (parse_static_func_name _) _) _ =>
      eapply wp_bind; [apply static_func_name_wp|intros [? ?] ?; facts; clean]
  | |- wp (bind (if ?b then _ else _) _) _ => destruct b eqn:?
  | |- wp (bind (Ok _) _) _ => cbn [bind]
  | |- wp (bind (Err _) _) _ => exact I
  | |- wp (bind (bind _ _) _) _ => rewrite bind_assoc
  | |- wp (bind _ _) _ => eapply wp_bind; [spec; fin|intros [? ?] ?; facts; clean]
  | |- wp (let (_, _) := (if ?b then _ else _) in _) _ => destruct b eqn:?
  | |- wp (if ?b then _ else _) _ => destruct b eqn:?
  | |- wp (match next_type ?t with _ => _ end) _ => destruct (next_type t) eqn:?
  | |- wp (Ok _) _ => cbn [wp]; solve [fin]
  | |- wp (Err _) _ => exact I
  | |- wp _ (post _) => eapply wp_conseq; [spec; fin|intros [? ?] ?; fin]
  end.
Ltac steps spec := repeat (step spec).

Ltac ln := facts; lia.
Lemma or_else_good : forall n p q, good n p -> good n q -> good n (or_else p q).
Proof.
  intros n p q Hp Hq t Ht. unfold or_else. eapply wp_bind; [apply Hp; auto|]. intros [x t1] [L S]. clean.
  destruct (is_nil x) eqn:E; [|cbn; fin].
  eapply wp_conseq; [apply Hq; ln|]. intros [y t2] [L2 S2]. fin.
Qed.
Lemma sub_none_good : forall n ty x, ty <> T_EOF -> good n (parse_kind_test_sub_none ty x).
Proof.
  intros n ty x Hty t Ht. unfold parse_kind_test_sub_none. destruct (next_is ty t) eqn:E; [|cbn; fin].
  apply next_is_adv in E; auto. steps idtac.
Qed.
Lemma sub_one_good : forall n ty x, ty <> T_EOF -> good n (parse_kind_test_sub_one ty x).
Proof.
  intros n ty x Hty t Ht. unfold parse_kind_test_sub_one. destruct (next_is ty t) eqn:E; [|cbn; fin].
  apply next_is_adv in E; auto. steps idtac.
Qed.
Lemma element_like_good : forall n ty x d q, ty <> T_EOF -> good n (parse_element_like ty x d q).
Proof.
  intros n ty x d q Hty t Ht. unfold parse_element_like. destruct (next_is ty t) eqn:E; [|cbn; fin].
  apply next_is_adv in E; auto. steps idtac.
Qed.
Lemma document_test_good : forall n, good n parse_document_test.
Proof.
  intros n t Ht. unfold parse_document_test.
  assert (G : good n (or_else parse_element_test parse_schema_element_test)).
  { apply or_else_good; [apply element_like_good; discriminate|apply sub_one_good; discriminate]. }
  steps ltac:(apply G).
Qed.
Lemma pi_test_good : forall n, good n parse_pi_test.
Proof.
  intros n t Ht. unfold parse_pi_test. destruct (next_is T_PITest t) eqn:E; [|cbn; fin].
  step idtac.
  eapply wp_bind with (P := fun r : str * toks => (len (snd r) <= len a)%nat).
  - pose proof (adv_le a). destruct (next_type a); cbn; auto.
  - intros [s t2] QQ2. steps idtac.
Qed.
Lemma kind_test_good : forall n, good n parse_kind_test.
Proof.
  intros n t Ht. unfold parse_kind_test. eapply wp_bind.
  - match goal with |- wp (?p t) _ => assert (G : good n p) end; [|apply G; auto].
    repeat apply or_else_good;
      first [apply document_test_good | apply element_like_good; discriminate | apply sub_one_good; discriminate
            | apply pi_test_good | apply sub_none_good; discriminate].
  - intros [x t1] QQ. steps idtac.
Qed.

(* ---- types ---- *)
Section Types.
  Variable n : nat.
  Variable item : parser.
  Hypothesis Hi : good n item.
  Lemma sequence_type_with_good : good n (parse_sequence_type_with item).
  Proof.
    intros t Ht. unfold parse_sequence_type_with.
    eapply wp_bind; [apply (sub_none_good n); [discriminate|auto]|]. intros [x t1] QQ. facts; clean.
    steps ltac:(apply Hi).
  Qed.
  Lemma types_loop_good : forall f t, (len t < f)%nat -> (len t < n)%nat -> wp (parse_types_loop item f t) (post t).
  Proof.
    induction f as [|f IH]; intros t Hf Ht; [ln|]. cbn [parse_types_loop].
    destruct (next_is T_Comma t) eqn:E; [|cbn; fin]. facts.
    eapply wp_bind; [apply sequence_type_with_good; ln|]. intros [s t1] QQ1. facts; clean.
    eapply wp_bind; [apply IH; ln|]. intros [r t2] QQ2. steps idtac.
  Qed.
  Lemma sequence_type_list_good : good n (parse_sequence_type_list item).
  Proof.
    intros t Ht. unfold parse_sequence_type_list.
    eapply wp_bind; [apply sequence_type_with_good; ln|]. intros [s t1] QQ1. facts; clean.
    destruct (is_nil s) eqn:E; [cbn; fin|].
    eapply wp_bind; [apply types_loop_good; ln|]. intros [r t2] QQ2. steps idtac.
  Qed.
  Lemma function_test_good : good (S n) (parse_function_test item).
  Proof.
    intros t Ht. unfold parse_function_test. destruct (next_is T_Function t) eqn:E; [|cbn; fin].
    step idtac. step idtac; [steps idtac|].
    eapply wp_bind; [apply sequence_type_list_good; fin|]. intros [s t1] QQ1. facts; clean.
    step idtac. step idtac.
    eapply wp_bind; [apply sequence_type_with_good; ln|]. intros [r t2] QQ2. steps idtac.
  Qed.
  Lemma map_test_good : good (S n) (parse_map_test item).
  Proof.
    intros t Ht. unfold parse_map_test. destruct (next_is T_MapTest t) eqn:E; [|cbn; fin].
    steps ltac:(apply sequence_type_with_good).
  Qed.
  Lemma array_test_good : good (S n) (parse_array_test item).
  Proof.
    intros t Ht. unfold parse_array_test. destruct (next_is T_ArrayTest t) eqn:E; [|cbn; fin].
    steps ltac:(apply sequence_type_with_good).
  Qed.
  Lemma item_body_good : good (S n) (parse_item_body item).
  Proof.
    unfold parse_item_body. repeat apply or_else_good.
    - apply kind_test_good.
    - apply sub_none_good; discriminate.
    - apply function_test_good.
    - apply map_test_good.
    - apply array_test_good.
    - intros t Ht. unfold parse_atomic_type. steps idtac.
    - intros t Ht. unfold parse_parenthesized_item_type. steps ltac:(apply Hi).
  Qed.
End Types.
Lemma item_fuel_good : forall n, good n (parse_item_fuel n).
Proof. induction n as [|n IH]; [intros t H; ln|]. cbn [parse_item_fuel]. apply item_body_good. auto. Qed.
Lemma item_type_good : forall n, good n parse_item_type.
Proof. intros n t _. unfold parse_item_type. apply item_fuel_good. ln. Qed.
Lemma sequence_type_good : forall n, good n parse_sequence_type.
Proof. intros n. apply sequence_type_with_good. apply item_type_good. Qed.
Lemma single_type_good : forall n, good n parse_single_type.
Proof. intros n t Ht. unfold parse_single_type. steps idtac. Qed.

(* ---- expressions ---- *)
Lemma bin_op_loop_good : forall n sub tbl once, good n sub -> assoc_tt T_EOF tbl = None ->
  forall f x t, (len t < f)%nat -> (len t < n)%nat ->
  wp (bin_op_loop f sub tbl once x t) (fun r => (len (snd r) <= len t)%nat /\ (fst r <> x -> (len (snd r) < len t)%nat)).
Proof.
  intros n sub tbl once Hs Hn. induction f as [|f IH]; intros x t Hf Ht; [ln|]. cbn [bin_op_loop].
  destruct (assoc_tt (next_type t) tbl) as [ty|] eqn:E; [|cbn; split; [ln|congruence]].
  assert (K : (len (adv t) < len t)%nat) by (apply next_type_adv; intro Q; rewrite Q in E; congruence).
  eapply wp_bind; [apply Hs; ln|]. intros [y t1] QQ1. facts; clean.
  destruct once; [cbn; split; intros; ln|].
  eapply wp_conseq; [apply IH; ln|]. intros [z t2] QQ2. clean. split; intros; ln.
Qed.
Lemma bin_op_sub_good : forall n sub tbl once, good n sub -> assoc_tt T_EOF tbl = None -> good n (parse_bin_op_sub sub tbl once).
Proof.
  intros n sub tbl once Hs Hn t Ht. unfold parse_bin_op_sub. eapply wp_bind; [apply Hs; auto|].
  intros [x t1] [L S]. clean. eapply wp_conseq; [apply (bin_op_loop_good n); auto; ln|].
  intros [y t2] [L2 S2]. clean. split; clean; [ln|].
  intros Hy. destruct x as [|ty nm l r].
  - assert (len t2 < len t1)%nat by auto. ln.
  - assert (len t1 < len t)%nat by (apply S; discriminate). ln.
Qed.
Lemma comma_chain_good : forall n p, good n p -> forall f t, (len t < f)%nat -> (len t <= n)%nat -> wp (comma_chain f p t) (post t).
Proof.
  intros n p Hp. induction f as [|f IH]; intros t Hf Ht; [ln|]. cbn [comma_chain].
  destruct (next_is T_Comma t) eqn:E; [|cbn; fin]. facts.
  eapply wp_bind; [apply Hp; ln|]. intros [x t1] QQ1. facts; clean.
  eapply wp_bind; [apply IH; ln|]. intros [r t2] QQ2. steps idtac.
Qed.
Lemma comma_list_good : forall n p, good n p -> good n (parse_comma_list p).
Proof.
  intros n p Hp t Ht. unfold parse_comma_list. eapply wp_bind; [apply Hp; ln|]. intros [x t1] QQ1. facts; clean.
  destruct (is_nil x) eqn:E; [cbn; fin|].
  eapply wp_bind; [apply (comma_chain_good n); auto; ln|]. intros [r t2] QQ2. steps idtac.
Qed.
Lemma entry_chain_good : forall n ty p, good n p -> forall f t, (len t < f)%nat -> (len t <= n)%nat -> wp (entry_chain f ty p t) (post t).
Proof.
  intros n ty p Hp. induction f as [|f IH]; intros t Hf Ht; [ln|]. cbn [entry_chain].
  destruct (next_is T_Comma t) eqn:E; [|cbn; fin]. facts.
  eapply wp_bind; [apply Hp; ln|]. intros [x t1] QQ1. facts; clean.
  eapply wp_bind; [apply IH; ln|]. intros [r t2] QQ2. steps idtac.
Qed.
Lemma entry_list_good : forall n ty p, good n p -> good n (parse_entry_list ty p).
Proof.
  intros n ty p Hp t Ht. unfold parse_entry_list. eapply wp_bind; [apply Hp; ln|]. intros [x t1] QQ1. facts; clean.
  destruct (is_nil x) eqn:E; [cbn; fin|].
  eapply wp_bind; [apply (entry_chain_good n); auto; ln|]. intros [r t2] QQ2. steps idtac.
Qed.
Lemma literal_good : forall n, good n parse_literal.
Proof.
  intros n t Ht. unfold parse_literal. pose proof (next_type_adv t).
  destruct (next_type t) eqn:E; try (cbn; fin; fail); cbn [wp]; split; cbn [fst snd]; intros; assert (len (adv t) < len t)%nat by (apply H; discriminate); ln.
Qed.
Lemma varref_good : forall n, good n parse_varref.
Proof. intros n t Ht. unfold parse_varref. steps idtac. Qed.
Lemma context_item_good : forall n, good n parse_context_item_expr.
Proof. intros n t Ht. unfold parse_context_item_expr. steps idtac. Qed.
Lemma named_function_ref_good : forall n, good n parse_named_function_ref.
Proof. intros n t Ht. unfold parse_named_function_ref. steps idtac. Qed.
Lemma param_good : forall n, good n parse_param.
Proof. intros n t Ht. unfold parse_param. steps ltac:(apply (sequence_type_good n)). Qed.

Section Single.
  Variable n : nat.
  Variable single : parser.
  Hypothesis Hs : good n single.
  Lemma expr_with_good : good n (parse_expr_with single).
  Proof. apply bin_op_sub_good; auto. Qed.
  Ltac se := apply expr_with_good.
  Lemma predicate_good : good (S n) (parse_predicate single).
  Proof. intros t Ht. unfold parse_predicate. steps se. Qed.
  Lemma predicate_loop_good : forall rv f t, (len t < f)%nat -> (len t < S n)%nat ->
    wp (predicate_list_loop single f rv t) (post t).
  Proof.
    intro rv. induction f as [|f IH]; intros t Hf Ht; [ln|]. cbn [predicate_list_loop].
    eapply wp_bind; [apply predicate_good; ln|]. intros [x t1] QQ1. facts; clean.
    destruct (is_nil x) eqn:E; [cbn; fin|]. facts.
    eapply wp_bind; [apply IH; ln|]. intros [r t2] QQ2. steps idtac.
  Qed.
  Lemma predicate_list_good : forall rv, good (S n) (parse_predicate_list single rv).
  Proof. intros rv t Ht. apply predicate_loop_good; ln. Qed.
  Lemma node_test_good : forall ax, good (S n) (parse_node_test single ax).
  Proof.
    intros ax t Ht. unfold parse_node_test. pose proof (parse_wildcard_le t) as [W1 W2].
    destruct (parse_wildcard t) as [w t1]. clean.
    eapply wp_bind with (P := fun r : str * toks => (len (snd r) <= len t)%nat /\ (fst r <> [] -> (len (snd r) < len t)%nat)).
    - destruct (str_eqb w []) eqn:E; [|cbn; fin].
      eapply wp_conseq; [apply parse_eqname_wp|]. intros [q t2] QQ. fin.
    - intros [q t2] QQ. facts; clean. destruct (negb (str_eqb q [])) eqn:E.
      + steps ltac:(apply predicate_list_good).
      + eapply wp_bind; [apply (kind_test_good (S n)); ln|]. intros [k t3] QQ3. facts; clean.
        steps ltac:(apply predicate_list_good).
  Qed.
  Lemma axis_step_good : good (S n) (parse_axis_step single).
  Proof.
    intros t Ht. unfold parse_axis_step.
    assert (D : forall t' ax, (len t' <= len t)%nat -> wp (parse_node_test single ax t') (post t)).
    { intros t' ax L. eapply wp_conseq; [apply node_test_good; ln|]. intros [x t1] QQ1. fin. }
    destruct (next_type t) eqn:E; try (apply D; auto; fail).
    - facts. step idtac.
      destruct (assoc_str (t_name (nxt t)) axis_tbl) as [ax|]; [|exact I].
      destruct ax; try exact I; apply D; ln.
    - facts. steps idtac.
    - apply D. apply adv_le.
  Qed.
  Lemma parenthesized_good : good (S n) (parse_parenthesized_expr single).
  Proof. intros t Ht. unfold parse_parenthesized_expr. steps se. Qed.
  Lemma argument_good : good n (parse_argument single).
  Proof. intros t Ht. unfold parse_argument. steps ltac:(apply Hs). Qed.
  Lemma argument_list_wp : forall t, (len t < S n)%nat -> wp (parse_argument_list single t) (fun r => (len (snd r) < len t)%nat).
  Proof.
    intros t Ht. unfold parse_argument_list. step idtac.
    eapply wp_bind; [apply (comma_list_good n); [apply argument_good|ln]|]. intros [x t1] QQ1. facts; clean.
    step idtac. cbn. ln.
  Qed.
  Lemma function_call_good : good (S n) (parse_function_call single).
  Proof.
    intros t Ht. unfold parse_function_call. step idtac. step idtac; [steps idtac|]. step idtac; [|steps idtac].
    eapply wp_bind; [apply argument_list_wp; ln|]. intros [x t1] QQ1. clean. steps idtac.
  Qed.
  Lemma function_body_wp : forall t, (len t < S n)%nat -> wp (parse_function_body single t) (fun r => (len (snd r) < len t)%nat).
  Proof.
    intros t Ht. unfold parse_function_body. step idtac.
    eapply wp_bind; [apply expr_with_good; ln|]. intros [x t1] QQ1. facts; clean. step idtac. cbn. ln.
  Qed.
  Lemma inline_function_good : good (S n) (parse_inline_function_expr single).
  Proof.
    intros t Ht. unfold parse_inline_function_expr. destruct (next_is T_Function t) eqn:E; [|cbn; fin]. step idtac.
    eapply wp_bind; [apply (comma_list_good (S n)); [apply param_good|fin]|]. intros [x t1] QQ1. facts; clean.
    step idtac.
    eapply wp_bind with (P := fun r : xnode * toks => (len (snd r) <= len a0)%nat).
    - pose proof (adv_le a0). destruct (next_is T_Name a0 && _); [|cbn; auto].
      eapply wp_conseq; [apply (sequence_type_good (S n)); ln|]. intros [y t2] QQ2. facts; clean. ln.
    - intros [y t2] QQ2. clean. eapply wp_bind; [apply function_body_wp; ln|]. intros [z t3] QQ3. clean. steps idtac.
  Qed.
  Lemma map_entry_good : good n (parse_map_constructor_entry single).
  Proof. intros t Ht. unfold parse_map_constructor_entry. steps ltac:(apply Hs). Qed.
  Lemma map_constructor_good : good (S n) (parse_map_constructor single).
  Proof. intros t Ht. unfold parse_map_constructor. steps ltac:(apply (entry_list_good n); [apply map_entry_good|]). Qed.
  Lemma square_array_good : good (S n) (parse_square_array_constructor single).
  Proof. intros t Ht. unfold parse_square_array_constructor. steps ltac:(apply (entry_list_good n); [exact Hs|]). Qed.
  Lemma curly_array_good : good (S n) (parse_curly_array_constructor single).
  Proof. intros t Ht. unfold parse_curly_array_constructor. steps se. Qed.
  Lemma unary_lookup_good : good (S n) (parse_unary_lookup single).
  Proof. intros t Ht. unfold parse_unary_lookup. steps ltac:(apply parenthesized_good). Qed.
  Lemma primary_good : good (S n) (parse_primary_expr single).
  Proof.
    unfold parse_primary_expr. repeat apply or_else_good.
    - apply literal_good. - apply varref_good. - apply parenthesized_good. - apply context_item_good.
    - apply function_call_good. - apply named_function_ref_good. - apply inline_function_good.
    - apply map_constructor_good. - apply curly_array_good. - apply square_array_good. - apply unary_lookup_good.
  Qed.
  Lemma postfix_good : good (S n) (parse_postfix single).
  Proof.
    intros t Ht. unfold parse_postfix. destruct (next_type t) eqn:E; try (cbn; fin; fail).
    - unfold parse_predicate. unfold next_is. rewrite E. cbn [ttype_eqb tcode Nat.eqb]. rewrite bind_assoc. facts.
      steps se.
    - eapply wp_bind; [apply argument_list_wp; ln|]. intros [x t1] QQ1. clean. steps idtac.
    - apply unary_lookup_good; auto.
  Qed.
  Lemma postfix_loop_wp : forall f x t, (len t < f)%nat -> (len t < S n)%nat ->
    wp (postfix_loop single f x t) (fun r => (len (snd r) <= len t)%nat).
  Proof.
    induction f as [|f IH]; intros x t Hf Ht; [ln|]. cbn [postfix_loop].
    eapply wp_bind; [apply postfix_good; ln|]. intros [p t1] QQ1. facts; clean.
    destruct (is_nil p) eqn:E; [cbn; ln|]. facts. eapply wp_conseq; [apply IH; ln|]. intros [y t2] QQ2. clean. ln.
  Qed.
  Lemma postfix_expr_good : good (S n) (parse_postfix_expr single).
  Proof.
    intros t Ht. unfold parse_postfix_expr. eapply wp_bind; [apply primary_good; ln|]. intros [x t1] QQ1. facts; clean.
    destruct (is_nil x) eqn:E; [cbn; fin|]. facts.
    eapply wp_conseq; [apply postfix_loop_wp; ln|]. intros [y t2] QQ2. fin.
  Qed.
  Lemma step_expr_good : good (S n) (parse_step_expr single).
  Proof. apply or_else_good; [apply postfix_expr_good|apply axis_step_good]. Qed.
  Lemma relative_loop_good : forall f t, (len t < f)%nat -> (len t < S n)%nat ->
    wp (relative_loop single f t) (post t).
  Proof.
    induction f as [|f IH]; intros t Hf Ht; [ln|]. cbn [relative_loop].
    destruct (next_type t) eqn:E; try (cbn; fin; fail); facts;
      (eapply wp_bind; [apply step_expr_good; ln|]; intros [s t1] QQ1; facts; clean;
       eapply wp_bind; [apply IH; ln|]; intros [r t2] QQ2; steps idtac).
  Qed.
  Lemma relative_path_good : good (S n) (parse_relative_path_expr single).
  Proof.
    intros t Ht. unfold parse_relative_path_expr. eapply wp_bind; [apply step_expr_good; ln|]. intros [x t1] QQ1. facts; clean.
    destruct (is_nil x) eqn:E; [cbn; fin|]. facts.
    eapply wp_bind; [apply relative_loop_good; ln|]. intros [r t2] QQ2. steps idtac.
  Qed.
  Lemma path_good : good (S n) (parse_path_expr single).
  Proof.
    intros t Ht. unfold parse_path_expr.
    destruct (next_type t) eqn:E; try (apply relative_path_good; auto; fail); facts; steps ltac:(apply relative_path_good).
  Qed.
  Lemma value_good : good (S n) (parse_value_expr single).
  Proof. apply bin_op_sub_good; [apply path_good|reflexivity]. Qed.
  Lemma unary_good : good (S n) (parse_unary_expr single).
  Proof.
    intros t Ht. unfold parse_unary_expr.
    destruct (next_type t) eqn:E; try (apply value_good; auto; fail); facts; steps ltac:(apply value_good).
  Qed.
  Lemma arrow_loop_wp : forall f x t, (len t < f)%nat -> (len t < S n)%nat ->
    wp (arrow_loop single f x t) (fun r => (len (snd r) <= len t)%nat /\ (fst r <> x -> (len (snd r) < len t)%nat)).
  Proof.
    induction f as [|f IH]; intros x t Hf Ht; [ln|]. cbn [arrow_loop].
    destruct (next_is T_Arrow t) eqn:E; [|cbn; split; [ln|congruence]]. facts.
    eapply wp_bind; [apply static_func_name_wp|intros [s t1] QQ1; facts; clean].
    destruct (negb (str_eqb s [])) eqn:E2.
    - eapply wp_bind; [apply argument_list_wp; ln|]. intros [a t2] QQ2. clean.
      eapply wp_conseq; [apply IH; ln|]. intros [y t3] QQ3. clean. split; intros; ln.
    - eapply wp_bind; [apply (varref_good (S n)); ln|]. intros [v t2] QQ2. facts; clean.
      destruct (is_nil v); [exact I|].
      eapply wp_bind; [apply argument_list_wp; ln|]. intros [a t3] QQ3. clean.
      eapply wp_conseq; [apply IH; ln|]. intros [y t4] QQ4. clean. split; intros; ln.
  Qed.
  Lemma arrow_good : good (S n) (parse_arrow_expr single).
  Proof.
    intros t Ht. unfold parse_arrow_expr. eapply wp_bind; [apply unary_good; ln|]. intros [x t1] [L S]. clean.
    eapply wp_conseq; [apply arrow_loop_wp; ln|]. intros [y t2] [L2 S2]. clean. split; clean; [ln|].
    intros Hy. destruct x as [|ty nm l r].
    - assert (len t2 < len t1)%nat by auto. ln.
    - assert (len t1 < len t)%nat by (apply S; discriminate). ln.
  Qed.
  Lemma with_type_good : forall m sub ty tp x, good m sub -> good m tp -> good m (with_type sub ty tp x).
  Proof.
    intros m sub ty tp x H1 H2 t Ht. unfold with_type. eapply wp_bind; [apply H1; ln|]. intros [e t1] K1. facts; clean.
    destruct (next_is ty t1) eqn:E; [|cbn; fin].
    pose proof (adv_le t1). eapply wp_bind; [apply H2; ln|]. intros [s t2] K2. facts; clean. steps idtac.
  Qed.
  Lemma or_expr_good : good (S n) (parse_or_expr single).
  Proof.
    repeat (apply bin_op_sub_good; [|reflexivity]).
    repeat apply with_type_good; auto using sequence_type_good, single_type_good. apply arrow_good.
  Qed.
  Lemma if_good : good (S n) (parse_if_expr single).
  Proof.
    intros t Ht. unfold parse_if_expr. destruct (next_is T_If t) eqn:E; [|cbn; fin]. step idtac.
    eapply wp_bind; [apply expr_with_good; fin|]. intros [c t1] QQ1. facts; clean.
    steps ltac:(apply Hs).
  Qed.
  Lemma bindings_wp : forall b1 kw, good (S n) b1 -> kw <> [] -> forall f t, (len t < f)%nat -> (len t < S n)%nat ->
    wp (bindings_loop single f b1 kw t) (fun r => (len (snd r) <= len t)%nat).
  Proof.
    intros b1 kw Hb Hk. induction f as [|f IH]; intros t Hf Ht; [ln|]. cbn [bindings_loop].
    eapply wp_bind; [apply Hb; ln|]. intros [b t1] QQ1. facts; clean.
    destruct (negb (is_nil b) && next_is T_Comma t1) eqn:E.
    - facts. eapply wp_bind; [apply IH; ln|]. intros [r t2] QQ2. clean. cbn. ln.
    - eapply wp_bind; [apply expect_name_wp; auto|]. intros t2 H2. 
      eapply wp_bind; [apply Hs; ln|]. intros [e t3] QQ3. facts; clean. cbn. ln.
  Qed.
  Lemma binding_expr_good : forall ty x nm b1 kw, ty <> T_EOF -> good (S n) b1 -> kw <> [] ->
    good (S n) (parse_binding_expr single ty x nm b1 kw).
  Proof.
    intros ty x nm b1 kw Hty Hb Hk t Ht. unfold parse_binding_expr. destruct (next_is ty t) eqn:E; [|cbn; fin].
    apply next_is_adv in E; auto. eapply wp_bind; [apply bindings_wp; auto; ln|]. intros [r t1] QQ1. clean. cbn. fin.
  Qed.
  Lemma simple_binding_good : forall ty, good (S n) (parse_simple_binding single ty).
  Proof. intros ty t Ht. unfold parse_simple_binding. steps ltac:(apply Hs). Qed.
  Lemma simple_let_good : good (S n) (parse_simple_let_binding single).
  Proof. intros t Ht. unfold parse_simple_let_binding. steps ltac:(apply Hs). Qed.
  Lemma single_body_good : good (S n) (parse_single_body single).
  Proof.
    unfold parse_single_body. repeat apply or_else_good;
    try (apply binding_expr_good; [discriminate|auto using simple_binding_good, simple_let_good|discriminate]).
    - apply if_good. - apply or_expr_good.
  Qed.
End Single.
Lemma single_fuel_good : forall n, good n (parse_single_fuel n).
Proof. induction n as [|n IH]; [intros t H; ln|]. cbn [parse_single_fuel]. apply single_body_good. auto. Qed.
Lemma expr_single_good : forall n, good n parse_expr_single.
Proof. intros n t _. unfold parse_expr_single. apply single_fuel_good. ln. Qed.
Lemma expr_good : forall n, good n parse_expr.
Proof. intros n. apply bin_op_sub_good; [apply expr_single_good|reflexivity]. Qed.
Lemma parse_main_wp : forall t, wp (parse_main t) (fun _ => True).
Proof.
  intros t. unfold parse_main. eapply wp_bind; [apply (expr_good (S (len t))); ln|]. intros [x t1] _.
  destruct (next_is T_EOF t1); exact I.
Qed.

(* The parser does not depend on the amount of fuel: the unfolding equations of the two knots. *)
Require Import Bool List NArith ZArith Ascii String Lia.
From Verif Require Import Str StrFacts Chars Lexer FuncTable Parser ParserFacts.
Import ListNotations.

Definition fle {A} (r q : res A) : Prop := r = Fuel \/ r = q.
Lemma fle_refl : forall A (r : res A), fle r r.
Proof. right. auto. Qed.
Lemma fle_bind : forall A B (r q : res A) (f g : A -> res B), fle r q -> (forall a, fle (f a) (g a)) -> fle (bind r f) (bind q g).
Proof. intros A B r q f g [->| ->] H; [left; auto|]. destruct q; cbn; auto using fle_refl. Qed.
Definition ple (p q : parser) : Prop := forall t, fle (p t) (q t).

Ltac mono ih :=
  repeat match goal with
  | |- fle ?x ?x => apply fle_refl
  | |- fle (bind _ _) (bind _ _) => apply fle_bind; [|intro]
  | |- fle (let (_, _) := ?p in _) _ => destruct p
  | |- fle (if ?b then _ else _) _ => destruct b
  | |- fle (match ?b with _ => _ end) _ => destruct b
  | _ => ih
  end.
Lemma or_else_mono : forall p q p' q', ple p p' -> ple q q' -> ple (or_else p q) (or_else p' q').
Proof. intros p q p' q' H K t. unfold or_else. mono ltac:(first [apply H | apply K]). Qed.
Lemma bin_loop_mono : forall f sub sub' tbl once, ple sub sub' -> forall x t,
  fle (bin_op_loop f sub tbl once x t) (bin_op_loop f sub' tbl once x t).
Proof. induction f; intros sub sub' tbl once H x t; [left; auto|]. cbn [bin_op_loop]. mono ltac:(first [apply H | apply IHf; auto]). Qed.
Lemma bin_op_mono : forall sub sub' tbl once, ple sub sub' -> ple (parse_bin_op_sub sub tbl once) (parse_bin_op_sub sub' tbl once).
Proof. intros sub sub' tbl once H t. unfold parse_bin_op_sub. mono ltac:(first [apply H | apply bin_loop_mono; auto]). Qed.
Lemma comma_chain_mono : forall f p q, ple p q -> ple (comma_chain f p) (comma_chain f q).
Proof. induction f; intros p q H t; [left; auto|]. cbn [comma_chain]. mono ltac:(first [apply H | apply IHf; auto]). Qed.
Lemma comma_list_mono : forall p q, ple p q -> ple (parse_comma_list p) (parse_comma_list q).
Proof. intros p q H t. unfold parse_comma_list. mono ltac:(first [apply H | apply comma_chain_mono; auto]). Qed.
Lemma entry_chain_mono : forall f ty p q, ple p q -> ple (entry_chain f ty p) (entry_chain f ty q).
Proof. induction f; intros ty p q H t; [left; auto|]. cbn [entry_chain]. mono ltac:(first [apply H | apply IHf; auto]). Qed.
Lemma entry_list_mono : forall ty p q, ple p q -> ple (parse_entry_list ty p) (parse_entry_list ty q).
Proof. intros ty p q H t. unfold parse_entry_list. mono ltac:(first [apply H | apply entry_chain_mono; auto]). Qed.
Lemma with_type_mono : forall ty tp x p q, ple p q -> ple (with_type p ty tp x) (with_type q ty tp x).
Proof. intros ty tp x p q H t. unfold with_type. mono ltac:(apply H). Qed.

Section Types.
  Variables p q : parser.
  Hypothesis H : ple p q.
  Lemma sequence_type_mono : ple (parse_sequence_type_with p) (parse_sequence_type_with q).
  Proof. intro t. unfold parse_sequence_type_with. mono ltac:(apply H). Qed.
  Lemma types_loop_mono : forall f, ple (parse_types_loop p f) (parse_types_loop q f).
  Proof. induction f; intro t; [left; auto|]. cbn [parse_types_loop]. mono ltac:(first [apply sequence_type_mono | apply IHf]). Qed.
  Lemma item_body_mono : ple (parse_item_body p) (parse_item_body q).
  Proof.
    unfold parse_item_body. repeat apply or_else_mono; try (intro; apply fle_refl); intro t.
    - unfold parse_function_test, parse_sequence_type_list. mono ltac:(first [apply sequence_type_mono | apply types_loop_mono]).
    - unfold parse_map_test. mono ltac:(apply sequence_type_mono).
    - unfold parse_array_test. mono ltac:(apply sequence_type_mono).
    - unfold parse_parenthesized_item_type. mono ltac:(apply H).
  Qed.
End Types.

Section Single.
  Variables p q : parser.
  Hypothesis H : ple p q.
  Lemma expr_with_mono : ple (parse_expr_with p) (parse_expr_with q).
  Proof. apply bin_op_mono. auto. Qed.
  Lemma predicate_mono : ple (parse_predicate p) (parse_predicate q).
  Proof. intro t. unfold parse_predicate. mono ltac:(apply expr_with_mono). Qed.
  Lemma predicate_loop_mono : forall f rv, ple (predicate_list_loop p f rv) (predicate_list_loop q f rv).
  Proof. induction f; intros rv t; [left; auto|]. cbn [predicate_list_loop]. mono ltac:(first [apply predicate_mono | apply IHf]). Qed.
  Lemma node_test_mono : forall ax, ple (parse_node_test p ax) (parse_node_test q ax).
  Proof. intros ax t. unfold parse_node_test, parse_predicate_list. mono ltac:(apply predicate_loop_mono). Qed.
  Lemma axis_step_mono : ple (parse_axis_step p) (parse_axis_step q).
  Proof. intro t. unfold parse_axis_step. mono ltac:(apply node_test_mono). Qed.
  Lemma parenthesized_mono : ple (parse_parenthesized_expr p) (parse_parenthesized_expr q).
  Proof. intro t. unfold parse_parenthesized_expr. mono ltac:(apply expr_with_mono). Qed.
  Lemma argument_list_mono : ple (parse_argument_list p) (parse_argument_list q).
  Proof.
    intro t. unfold parse_argument_list. mono ltac:(apply comma_list_mono; intro; unfold parse_argument; mono ltac:(apply H)).
  Qed.
  Lemma unary_lookup_mono : ple (parse_unary_lookup p) (parse_unary_lookup q).
  Proof. intro t. unfold parse_unary_lookup. mono ltac:(apply parenthesized_mono). Qed.
  Lemma map_entry_mono : ple (parse_map_constructor_entry p) (parse_map_constructor_entry q).
  Proof. intro t. unfold parse_map_constructor_entry. mono ltac:(apply H). Qed.
  Lemma primary_mono : ple (parse_primary_expr p) (parse_primary_expr q).
  Proof.
    unfold parse_primary_expr. repeat apply or_else_mono; try (intro; apply fle_refl); try apply parenthesized_mono;
      try apply unary_lookup_mono; intro t.
    - unfold parse_function_call. mono ltac:(apply argument_list_mono).
    - unfold parse_inline_function_expr, parse_function_body. mono ltac:(apply expr_with_mono).
    - unfold parse_map_constructor. mono ltac:(apply entry_list_mono; apply map_entry_mono).
    - unfold parse_curly_array_constructor. mono ltac:(apply expr_with_mono).
    - unfold parse_square_array_constructor. mono ltac:(apply entry_list_mono; apply H).
  Qed.
  Lemma postfix_mono : ple (parse_postfix p) (parse_postfix q).
  Proof. intro t. unfold parse_postfix. mono ltac:(first [apply predicate_mono | apply argument_list_mono | apply unary_lookup_mono]). Qed.
  Lemma postfix_loop_mono : forall f x t, fle (postfix_loop p f x t) (postfix_loop q f x t).
  Proof. induction f; intros x t; [left; auto|]. cbn [postfix_loop]. mono ltac:(first [apply postfix_mono | apply IHf]). Qed.
  Lemma step_mono : ple (parse_step_expr p) (parse_step_expr q).
  Proof.
    apply or_else_mono; [|apply axis_step_mono]. intro t. unfold parse_postfix_expr.
    mono ltac:(first [apply primary_mono | apply postfix_loop_mono]).
  Qed.
  Lemma relative_loop_mono : forall f, ple (relative_loop p f) (relative_loop q f).
  Proof. induction f; intros t; [left; auto|]. cbn [relative_loop]. mono ltac:(first [apply step_mono | apply IHf]). Qed.
  Lemma relative_mono : ple (parse_relative_path_expr p) (parse_relative_path_expr q).
  Proof. intro t. unfold parse_relative_path_expr. mono ltac:(first [apply step_mono | apply relative_loop_mono]). Qed.
  Lemma path_mono : ple (parse_path_expr p) (parse_path_expr q).
  Proof. intro t. unfold parse_path_expr. mono ltac:(apply relative_mono). Qed.
  Lemma value_mono : ple (parse_value_expr p) (parse_value_expr q).
  Proof. apply bin_op_mono, path_mono. Qed.
  Lemma arrow_loop_mono : forall f x t, fle (arrow_loop p f x t) (arrow_loop q f x t).
  Proof. induction f; intros x t; [left; auto|]. cbn [arrow_loop]. mono ltac:(first [apply argument_list_mono | apply IHf]). Qed.
  Lemma arrow_mono : ple (parse_arrow_expr p) (parse_arrow_expr q).
  Proof.
    intro t. unfold parse_arrow_expr, parse_unary_expr. mono ltac:(first [apply value_mono | apply arrow_loop_mono]).
  Qed.
  Lemma or_expr_mono : ple (parse_or_expr p) (parse_or_expr q).
  Proof. repeat apply bin_op_mono. repeat apply with_type_mono. apply arrow_mono. Qed.
  Lemma bindings_mono : forall f b b' kw, ple b b' -> ple (bindings_loop p f b kw) (bindings_loop q f b' kw).
  Proof. induction f; intros b b' kw Hb t; [left; auto|]. cbn [bindings_loop]. mono ltac:(first [apply Hb | apply H | apply IHf; auto]). Qed.
  Lemma binding_expr_mono : forall ty x nm b b' kw, ple b b' ->
    ple (parse_binding_expr p ty x nm b kw) (parse_binding_expr q ty x nm b' kw).
  Proof. intros ty x nm b b' kw Hb t. unfold parse_binding_expr. mono ltac:(apply bindings_mono; auto). Qed.
  Lemma single_body_mono : ple (parse_single_body p) (parse_single_body q).
  Proof.
    unfold parse_single_body. repeat apply or_else_mono;
      try (apply binding_expr_mono; intro t; unfold parse_simple_binding, parse_simple_let_binding; mono ltac:(apply H)).
    - intro t. unfold parse_if_expr. mono ltac:(first [apply expr_with_mono | apply H]).
    - apply or_expr_mono.
  Qed.
End Single.

Lemma item_fuel_mono : forall n m, (n <= m)%nat -> ple (parse_item_fuel n) (parse_item_fuel m).
Proof.
  induction n as [|n IH]; intros m L t; [left; reflexivity|]. destruct m as [|m]; [lia|]. cbn [parse_item_fuel].
  apply item_body_mono. apply IH. lia.
Qed.
Lemma single_fuel_mono : forall n m, (n <= m)%nat -> ple (parse_single_fuel n) (parse_single_fuel m).
Proof.
  induction n as [|n IH]; intros m L t; [left; reflexivity|]. destruct m as [|m]; [lia|]. cbn [parse_single_fuel].
  apply single_body_mono. apply IH. lia.
Qed.
Lemma not_fuel : forall n p t, good n p -> (len t < n)%nat -> p t <> Fuel.
Proof. intros n p t G L E. specialize (G t L). rewrite E in G. exact G. Qed.
Lemma item_fuel_eq : forall n t, (len t < n)%nat -> parse_item_fuel n t = parse_item_type t.
Proof.
  intros n t L. unfold parse_item_type. destruct (item_fuel_mono (S (len t)) n ltac:(lia) t) as [E|E]; auto.
  exfalso. exact (not_fuel (S (len t)) _ t (item_fuel_good _) ltac:(lia) E).
Qed.
Lemma single_fuel_eq : forall n t, (len t < n)%nat -> parse_single_fuel n t = parse_expr_single t.
Proof.
  intros n t L. unfold parse_expr_single. destruct (single_fuel_mono (S (len t)) n ltac:(lia) t) as [E|E]; auto.
  exfalso. exact (not_fuel (S (len t)) _ t (single_fuel_good _) ltac:(lia) E).
Qed.
(* [parse_single_fuel n] below [parse_expr_single] everywhere *)
Lemma single_fuel_le : forall n, ple (parse_single_fuel n) parse_expr_single.
Proof.
  intros n t. destruct (Nat.lt_ge_cases (len t) n) as [L|L]; [right; apply single_fuel_eq; auto|].
  unfold parse_expr_single. apply single_fuel_mono. lia.
Qed.
Lemma item_fuel_le : forall n, ple (parse_item_fuel n) parse_item_type.
Proof.
  intros n t. destruct (Nat.lt_ge_cases (len t) n) as [L|L]; [right; apply item_fuel_eq; auto|].
  unfold parse_item_type. apply item_fuel_mono. lia.
Qed.
Theorem parse_expr_single_unfold : forall t, parse_expr_single t = parse_single_body parse_expr_single t.
Proof.
  intro t. rewrite <- (single_fuel_eq (S (S (len t))) t) by lia. change (parse_single_fuel (S (S (len t)))) with (parse_single_body (parse_single_fuel (S (len t)))).
  destruct (single_body_mono _ _ (single_fuel_le (S (len t))) t) as [E|E]; [|exact E].
  exfalso. refine (not_fuel (S (S (len t))) _ t _ _ E); [|lia]. apply single_body_good. apply single_fuel_good.
Qed.
Theorem parse_item_type_unfold : forall t, parse_item_type t = parse_item_body parse_item_type t.
Proof.
  intro t. rewrite <- (item_fuel_eq (S (S (len t))) t) by lia. change (parse_item_fuel (S (S (len t)))) with (parse_item_body (parse_item_fuel (S (len t)))).
  destruct (item_body_mono _ _ (item_fuel_le (S (len t))) t) as [E|E]; [|exact E].
  exfalso. refine (not_fuel (S (S (len t))) _ t _ _ E); [|lia]. apply item_body_good. apply item_fuel_good.
Qed.

(* Every parser leaves a suffix of the tokens it was given. *)
Require Import Bool List NArith ZArith Ascii String Lia.
From Verif Require Import Str StrFacts Chars Lexer FuncTable Parser.
Import ListNotations.
Open Scope N_scope.

Definition sfx (r t : toks) : Prop := exists c, t = c ++ r.
Lemma sfx_refl : forall t, sfx t t.
Proof. intro t. exists []. reflexivity. Qed.
Lemma sfx_adv : forall r t, sfx r t -> sfx (adv r) t.
Proof.
  intros r t [c ->]. destruct r as [|a r]; [exists c; reflexivity|]. exists (c ++ [a]). rewrite <- app_assoc. reflexivity.
Qed.
Lemma sfx_trans : forall a b c, sfx a b -> sfx b c -> sfx a c.
Proof. intros a b c [x ->] [y ->]. exists (y ++ x). rewrite app_assoc. reflexivity. Qed.
Definition sf {A} (t : toks) (r : res (A * toks)) : Prop := match r with Ok (_, t1) => sfx t1 t | _ => True end.
Lemma sf_bind : forall A B t (r : res (A * toks)) (f : A * toks -> res (B * toks)), sf t r ->
  (forall a t1, sfx t1 t -> sf t (f (a, t1))) -> sf t (bind r f).
Proof. intros A B t [[a t1]|e| |] f H K; cbn in *; auto. Qed.
Lemma sf_bind1 : forall B t (r : res toks) (f : toks -> res (B * toks)),
  (forall t1, r = Ok t1 -> sfx t1 t) -> (forall t1, sfx t1 t -> sf t (f t1)) -> sf t (bind r f).
Proof. intros B t [t1|e| |] f H K; cbn in *; auto. Qed.
Lemma sf_weaken : forall A t t1 (r : res (A * toks)), sfx t1 t -> sf t1 r -> sf t r.
Proof. intros A t t1 [[a t2]|e| |] H K; cbn in *; auto. eapply sfx_trans; eauto. Qed.
Lemma expect_sfx : forall ty t1 t t2, sfx t1 t -> expect ty t1 = Ok t2 -> sfx t2 t.
Proof. unfold expect. intros ty t1 t t2 H E. destruct (next_is ty t1); [|discriminate]. injection E as <-. apply sfx_adv; auto. Qed.
Lemma expect_name_sfx : forall n t1 t t2, sfx t1 t -> expect_name n t1 = Ok t2 -> sfx t2 t.
Proof. unfold expect_name. intros n t1 t t2 H E. destruct (_ && _); [discriminate|]. injection E as <-. apply sfx_adv; auto. Qed.
Definition sfp (p : parser) : Prop := forall t, sf t (p t).

Ltac sx := solve [repeat first [assumption | apply sfx_refl | apply sfx_adv]].
Ltac sstep spec :=
  match goal with
  | |- sf _ (Ok (_, _)) => cbn [sf]; sx
  | |- sf _ (Err _) => exact I
  | |- sf _ Fuel => exact I
  | |- sf _ (bind (expect _ _) _) => apply sf_bind1; [intros ? ?; eapply expect_sfx; [|eassumption]; sx|intros ? ?]
  | |- sf _ (bind (expect_name _ _) _) => apply sf_bind1; [intros ? ?; eapply expect_name_sfx; [|eassumption]; sx|intros ? ?]
  | |- sf _ (bind _ _) => apply sf_bind; [|intros ? ? ?]
  | |- sf _ (let (_, _) := (if ?b then _ else _) in _) => destruct b
  | |- sf _ (if ?b then _ else _) => destruct b
  | |- sf _ (match next_type ?t with _ => _ end) => destruct (next_type t)
  | |- sf _ (match ?x with _ => _ end) => destruct x
  | |- sf _ _ => eapply sf_weaken; [|spec]; sx
  end.
Ltac go spec := repeat (sstep spec).

Lemma qname_sf : forall dp t, sf t (parse_qname dp t).
Proof. intros. unfold parse_qname. cbv zeta. go fail. Qed.
Lemma eqname_sf : forall dp t, sf t (parse_eqname dp t).
Proof. intros. unfold parse_eqname. go ltac:(apply qname_sf). Qed.
Lemma func_name_sf : forall t, sf t (parse_static_func_name t).
Proof. intros. apply eqname_sf. Qed.
Lemma wildcard_sf : forall t, sfx (snd (parse_wildcard t)) t.
Proof. intro t. unfold parse_wildcard. destruct (next_type t); cbn [snd]; try destruct (next_is _ _); cbn [snd]; sx. Qed.
Lemma none_sf : forall ty x, sfp (parse_kind_test_sub_none ty x).
Proof. intros ty x t. unfold parse_kind_test_sub_none. go fail. Qed.
Lemma one_sf : forall ty x, sfp (parse_kind_test_sub_one ty x).
Proof. intros ty x t. unfold parse_kind_test_sub_one. go ltac:(apply eqname_sf). Qed.
Lemma element_like_sf : forall ty x d q, sfp (parse_element_like ty x d q).
Proof. intros ty x d q t. unfold parse_element_like. cbv zeta. go ltac:(apply eqname_sf). Qed.
Lemma or_else_sf : forall p q, sfp p -> sfp q -> sfp (or_else p q).
Proof. intros p q Hp Hq t. unfold or_else. go ltac:(first [apply Hp | apply Hq]). Qed.
Lemma document_sf : sfp parse_document_test.
Proof. intro t. unfold parse_document_test. go ltac:(apply or_else_sf; [apply element_like_sf|apply one_sf]). Qed.
Lemma pi_sf : sfp parse_pi_test.
Proof. intro t. unfold parse_pi_test. go fail. Qed.
Lemma kind_sf : sfp parse_kind_test.
Proof.
  intro t. unfold parse_kind_test.
  go ltac:(repeat first [apply or_else_sf | apply document_sf | apply element_like_sf | apply one_sf | apply pi_sf | apply none_sf]).
Qed.
Section Item.
  Variable item : parser.
  Hypothesis Hi : sfp item.
  Lemma seq_sf : sfp (parse_sequence_type_with item).
  Proof. intro t. unfold parse_sequence_type_with. go ltac:(first [apply none_sf | apply Hi]). Qed.
  Lemma types_loop_sf : forall f, sfp (parse_types_loop item f).
  Proof. induction f as [|f IH]; intro t; cbn [parse_types_loop]; go ltac:(first [apply IH | apply seq_sf]). Qed.
  Lemma type_list_sf : sfp (parse_sequence_type_list item).
  Proof. intro t. unfold parse_sequence_type_list. go ltac:(first [apply types_loop_sf | apply seq_sf]). Qed.
  Lemma item_body_sf : sfp (parse_item_body item).
  Proof.
    unfold parse_item_body. repeat apply or_else_sf; try apply kind_sf; try apply none_sf; intro t.
    - unfold parse_function_test. go ltac:(first [apply type_list_sf | apply seq_sf]).
    - unfold parse_map_test. go ltac:(first [apply eqname_sf | apply seq_sf]).
    - unfold parse_array_test. go ltac:(first [apply eqname_sf | apply seq_sf]).
    - unfold parse_atomic_type. go ltac:(apply eqname_sf).
    - unfold parse_parenthesized_item_type. go ltac:(apply Hi).
  Qed.
End Item.
Lemma item_fuel_sf : forall n, sfp (parse_item_fuel n).
Proof. induction n; [intro; exact I|]. cbn [parse_item_fuel]. apply item_body_sf; auto. Qed.
Lemma item_sf : sfp parse_item_type.
Proof. intro t. apply item_fuel_sf. Qed.
Lemma seqtype_sf : sfp parse_sequence_type.
Proof. apply seq_sf. apply item_sf. Qed.
Lemma single_type_sf : sfp parse_single_type.
Proof. intro t. unfold parse_single_type. go ltac:(apply eqname_sf). Qed.
Lemma bin_loop_sf : forall f sub tbl once, sfp sub -> forall x t, sf t (bin_op_loop f sub tbl once x t).
Proof. intros f sub tbl once H. induction f as [|f IH]; intros x t; cbn [bin_op_loop]; cbv zeta; go ltac:(first [apply IH | apply H]). Qed.
Lemma bin_sf : forall sub tbl once, sfp sub -> sfp (parse_bin_op_sub sub tbl once).
Proof. intros sub tbl once H t. unfold parse_bin_op_sub. go ltac:(first [apply bin_loop_sf; auto | apply H]). Qed.
Lemma comma_chain_sf : forall f p, sfp p -> sfp (comma_chain f p).
Proof. intros f p H. induction f as [|f IH]; intros t; cbn [comma_chain]; go ltac:(first [apply IH | apply H]). Qed.
Lemma comma_list_sf : forall p, sfp p -> sfp (parse_comma_list p).
Proof. intros p H t. unfold parse_comma_list. go ltac:(first [apply comma_chain_sf; auto | apply H]). Qed.
Lemma entry_chain_sf : forall f ty p, sfp p -> sfp (entry_chain f ty p).
Proof. intros f ty p H. induction f as [|f IH]; intros t; cbn [entry_chain]; go ltac:(first [apply IH | apply H]). Qed.
Lemma entry_list_sf : forall ty p, sfp p -> sfp (parse_entry_list ty p).
Proof. intros ty p H t. unfold parse_entry_list. go ltac:(first [apply entry_chain_sf; auto | apply H]). Qed.
Lemma varref_sf : sfp parse_varref.
Proof. intro t. unfold parse_varref. go ltac:(apply eqname_sf). Qed.
Lemma param_sf : sfp parse_param.
Proof. intro t. unfold parse_param. go ltac:(first [apply eqname_sf | apply seqtype_sf]). Qed.
Lemma with_type_sf : forall sub ty tp x, sfp sub -> sfp tp -> sfp (with_type sub ty tp x).
Proof. intros sub ty tp x H1 H2 t. unfold with_type. go ltac:(first [apply H1 | apply H2]). Qed.
Section Single.
  Variable single : parser.
  Hypothesis Hs : sfp single.
  Lemma expr_with_sf : sfp (parse_expr_with single).
  Proof. apply bin_sf; auto. Qed.
  Lemma predicate_sf : sfp (parse_predicate single).
  Proof. intro t. unfold parse_predicate. go ltac:(apply expr_with_sf). Qed.
  Lemma pred_loop_sf : forall f rv, sfp (predicate_list_loop single f rv).
  Proof. intros f rv. induction f as [|f IH]; intro t; cbn [predicate_list_loop]; go ltac:(first [apply IH | apply predicate_sf]). Qed.
  Lemma pred_list_sf : forall rv, sfp (parse_predicate_list single rv).
  Proof. intros rv t. apply pred_loop_sf. Qed.
  Lemma node_test_sf : forall ax, sfp (parse_node_test single ax).
  Proof.
    intros ax t. unfold parse_node_test. assert (W := wildcard_sf t). destruct (parse_wildcard t) as [w t1]. cbn [snd] in W.
    go ltac:(first [apply eqname_sf | apply pred_list_sf | apply kind_sf]).
  Qed.
  Lemma axis_step_sf : sfp (parse_axis_step single).
  Proof.
    intro t. unfold parse_axis_step. cbv zeta. destruct (next_type t); go ltac:(apply node_test_sf).
  Qed.
  Lemma paren_sf : sfp (parse_parenthesized_expr single).
  Proof. intro t. unfold parse_parenthesized_expr. go ltac:(apply expr_with_sf). Qed.
  Lemma argument_sf : sfp (parse_argument single).
  Proof. intro t. unfold parse_argument. go ltac:(apply Hs). Qed.
  Lemma arg_list_sf : sfp (parse_argument_list single).
  Proof. intro t. unfold parse_argument_list. go ltac:(apply comma_list_sf; apply argument_sf). Qed.
  Lemma lookup_sf : sfp (parse_unary_lookup single).
  Proof. intro t. unfold parse_unary_lookup. cbv zeta. go ltac:(apply paren_sf). Qed.
  Lemma primary_sf : sfp (parse_primary_expr single).
  Proof.
    unfold parse_primary_expr. repeat apply or_else_sf; try apply varref_sf; try apply paren_sf; try apply lookup_sf; intro t.
    - unfold parse_literal. cbv zeta. go fail.
    - unfold parse_context_item_expr. go fail.
    - unfold parse_function_call. go ltac:(first [apply func_name_sf | apply arg_list_sf]).
    - unfold parse_named_function_ref. go ltac:(apply func_name_sf).
    - unfold parse_inline_function_expr, parse_function_body.
      go ltac:(first [apply comma_list_sf; apply param_sf | apply seqtype_sf | apply expr_with_sf]).
    - unfold parse_map_constructor. go ltac:(apply entry_list_sf; intro; unfold parse_map_constructor_entry; go ltac:(apply Hs)).
    - unfold parse_curly_array_constructor. go ltac:(apply expr_with_sf).
    - unfold parse_square_array_constructor. go ltac:(apply entry_list_sf; apply Hs).
  Qed.
  Lemma postfix_sf : sfp (parse_postfix single).
  Proof. intro t. unfold parse_postfix. go ltac:(first [apply predicate_sf | apply arg_list_sf | apply lookup_sf]). Qed.
  Lemma postfix_loop_sf : forall f x t, sf t (postfix_loop single f x t).
  Proof. induction f as [|f IH]; intros x t; cbn [postfix_loop]; cbv zeta; go ltac:(first [apply IH | apply postfix_sf]). Qed.
  Lemma step_sf : sfp (parse_step_expr single).
  Proof.
    apply or_else_sf; [|apply axis_step_sf]. intro t. unfold parse_postfix_expr.
    go ltac:(first [apply primary_sf | apply postfix_loop_sf]).
  Qed.
  Lemma rel_loop_sf : forall f, sfp (relative_loop single f).
  Proof. induction f as [|f IH]; intros t; cbn [relative_loop]; [exact I|]. destruct (next_type t); go ltac:(first [apply IH | apply step_sf]). Qed.
  Lemma rel_sf : sfp (parse_relative_path_expr single).
  Proof. intro t. unfold parse_relative_path_expr. go ltac:(first [apply step_sf | apply rel_loop_sf]). Qed.
  Lemma path_sf : sfp (parse_path_expr single).
  Proof. intro t. unfold parse_path_expr. destruct (next_type t); go ltac:(apply rel_sf). Qed.
  Lemma value_sf : sfp (parse_value_expr single).
  Proof. apply bin_sf, path_sf. Qed.
  Lemma unary_sf : sfp (parse_unary_expr single).
  Proof. intro t. unfold parse_unary_expr. destruct (next_type t); go ltac:(apply value_sf). Qed.
  Lemma arrow_loop_sf : forall f x t, sf t (arrow_loop single f x t).
  Proof.
    induction f as [|f IH]; intros x t; cbn [arrow_loop];
      go ltac:(first [apply IH | apply func_name_sf | apply arg_list_sf | apply varref_sf]).
  Qed.
  Lemma or_sf : sfp (parse_or_expr single).
  Proof.
    unfold parse_or_expr, parse_and_expr, parse_comparison_expr, parse_string_concat_expr, parse_range_expr,
       parse_additive_expr, parse_multiplicative_expr, parse_union_expr, parse_intersect_except_expr,
       parse_instanceof_expr, parse_treat_expr, parse_castable_expr, parse_cast_expr.
    repeat first [apply bin_sf | apply with_type_sf | apply seqtype_sf | apply single_type_sf].
    intro t. unfold parse_arrow_expr. go ltac:(first [apply unary_sf | apply arrow_loop_sf]).
  Qed.
  Lemma if_sf : sfp (parse_if_expr single).
  Proof. intro t. unfold parse_if_expr. go ltac:(first [apply expr_with_sf | apply Hs]). Qed.
  Lemma bindings_sf : forall f b kw, sfp b -> sfp (bindings_loop single f b kw).
  Proof. intros f b kw Hb. induction f as [|f IH]; intro t; cbn [bindings_loop]; go ltac:(first [apply IH | apply Hb | apply Hs]). Qed.
  Lemma binding_sf : forall ty x nm b kw, sfp b -> sfp (parse_binding_expr single ty x nm b kw).
  Proof. intros ty x nm b kw Hb t. unfold parse_binding_expr. go ltac:(apply bindings_sf; auto). Qed.
  Lemma simple_sf : forall ty, sfp (parse_simple_binding single ty).
  Proof. intros ty t. unfold parse_simple_binding. go ltac:(first [apply eqname_sf | apply Hs]). Qed.
  Lemma let_sf : sfp (parse_simple_let_binding single).
  Proof. intros t. unfold parse_simple_let_binding. go ltac:(first [apply eqname_sf | apply Hs]). Qed.
  Lemma single_body_sf : sfp (parse_single_body single).
  Proof.
    unfold parse_single_body. repeat apply or_else_sf; try apply if_sf; try apply or_sf; try apply binding_sf;
      try apply simple_sf; apply let_sf.
  Qed.
End Single.
Lemma single_fuel_sf : forall n, sfp (parse_single_fuel n).
Proof. induction n; [intro; exact I|]. cbn [parse_single_fuel]. apply single_body_sf; auto. Qed.
Theorem expr_sf : forall t x r, parse_expr t = Ok (x, r) -> exists c, t = c ++ r.
Proof.
  intros t x r E. assert (H : sfp parse_expr) by (apply expr_with_sf; intro u; apply single_fuel_sf).
  specialize (H t). rewrite E in H. exact H.
Qed.

(* Facts about items: string values, comparison of strings, general comparison. *)
Require Import Bool List NArith ZArith Ascii String Lia.
Require Import Coq.Floats.SpecFloat.
From Verif Require Import Str StrFacts Chars Sax Dom Axes Lexer FuncTable Parser Num Item Func Types Eval EvalFacts SpecOper.
Import ListNotations.
Open Scope Z_scope.

Lemma is_i64_in : forall z, is_i64 z <-> in_i64 z = true.
Proof.
  intro z. unfold is_i64, in_i64, i64_min, i64_max. rewrite andb_true_iff, !Z.leb_le. tauto.
Qed.
Lemma chk_ok : forall z, is_i64 z -> chk z = Ok z.
Proof. intros z H. unfold chk. apply is_i64_in in H. rewrite H. reflexivity. Qed.
Lemma chk_panic : forall z, ~ is_i64 z -> chk z = Panic.
Proof. intros z H. unfold chk. destruct (in_i64 z) eqn:E; auto. apply is_i64_in in E. tauto. Qed.

(* strings *)
Lemma str_ltb_lex : forall a b, str_ltb a b = true <-> lex_lt a b.
Proof.
  induction a as [|x a IH]; intros [|y b]; cbn [str_ltb].
  - split; [discriminate|intro H; inversion H].
  - split; [constructor|reflexivity].
  - split; [discriminate|intro H; inversion H].
  - destruct (N.ltb_spec x y) as [L|L].
    + split; [constructor; auto|reflexivity].
    + destruct (N.ltb_spec y x) as [L'|L'].
      * split; [discriminate|intro H; inversion H; subst; lia].
      * assert (x = y) by lia. subst y. rewrite IH. split; [apply lex_tail|].
        intro H; inversion H; subst; auto; lia.
Qed.
Lemma str_ltb_trich : forall a b, (str_ltb a b || str_eqb a b || str_ltb b a) = true.
Proof.
  induction a as [|x a IH]; intros [|y b]; cbn [str_ltb str_eqb]; auto.
  destruct (N.ltb_spec x y) as [L|L]; auto. destruct (N.ltb_spec y x) as [L'|L'].
  - destruct (N.eqb_spec x y); [lia|]. cbn. rewrite ?orb_true_r. auto.
  - assert (x = y) by lia. subst y. rewrite N.eqb_refl. cbn. apply IH.
Qed.
Lemma lex_irrefl : forall a, ~ lex_lt a a.
Proof. induction a; intro H; inversion H; subst; auto; lia. Qed.
Lemma lex_trans : forall a b c, lex_lt a b -> lex_lt b c -> lex_lt a c.
Proof.
  intros a b c H. revert c. induction H; intros d H2; inversion H2; subst; try constructor; auto; lia.
Qed.
Lemma lex_total : forall a b, lex_lt a b \/ a = b \/ lex_lt b a.
Proof.
  intros a b. assert (H := str_ltb_trich a b). rewrite !orb_true_iff in H. destruct H as [[H|H]|H].
  - left. apply str_ltb_lex; auto.
  - right; left. apply str_eqb_eq; auto.
  - right; right. apply str_ltb_lex; auto.
Qed.
Lemma str_cmp_spec : forall a b,
  (str_cmp a b = -1 /\ lex_lt a b) \/ (str_cmp a b = 0 /\ a = b) \/ (str_cmp a b = 1 /\ lex_lt b a).
Proof.
  intros a b. unfold str_cmp. destruct (str_ltb a b) eqn:L.
  - left. split; auto. apply str_ltb_lex; auto.
  - destruct (str_eqb a b) eqn:E.
    + right; left. split; auto. apply str_eqb_eq; auto.
    + right; right. split; auto. assert (H := str_ltb_trich a b). rewrite L, E in H. cbn in H. apply str_ltb_lex; auto.
Qed.

(* outcomes *)
Lemma outcome_det : forall h c x e o o', outcome h c x e o -> outcome h c x e o' -> o = o'.
Proof.
  intros h c x e o o' [N [n E]] [N' [m E']]. destruct (Nat.le_ge_cases n m) as [L|L].
  - rewrite (eval_fuel h n m c x e o E N L) in E'. auto.
  - rewrite (eval_fuel h m n c x e o' E' N' L) in E. auto.
Qed.
Lemma outcome_eval : forall h c x e o, outcome h c x e o -> exists n, forall m, (n <= m)%nat -> eval h m c x e = o.
Proof. intros h c x e o [N [n E]]. exists n. intros m L. eapply eval_fuel; eauto. Qed.
Lemma eval_outcome : forall h n c x e o, eval h n c x e = o -> o <> Fuel -> outcome h c x e o.
Proof. intros h n c x e o E N. split; eauto. Qed.
Lemma operands_eval : forall h c A B e l r e2, operands h c A B e l r e2 ->
  exists n e1, eval h n c A e = Ok (l, e1) /\ eval h n c B e1 = Ok (r, e2).
Proof.
  intros h c A B e l r e2 [e1 [HA HB]]. apply outcome_eval in HA; apply outcome_eval in HB.
  destruct HA as [n HA], HB as [m HB]. exists (Nat.max n m), e1. split; [apply HA|apply HB]; lia.
Qed.
(* operands of a binary operator *)
Lemma outcome_operands : forall h c A B e l r e2 ty nm f o,
  operands h c A B e l r e2 ->
  (forall ev cf c x e, x_type x = ty -> eval_step h ev cf c x e = binary ev c x e f) ->
  f l r = o -> o <> Fuel -> outcome h c (XNode ty nm A B) e (do v <- o; Ok (v, e2)).
Proof.
  intros h c A B e l r e2 ty nm f o H S E N. destruct (operands_eval h c A B e l r e2 H) as [n [e1 [HA HB]]].
  apply eval_outcome with (n := Datatypes.S n).
  - rewrite eval_S, S by reflexivity. unfold binary. cbn [x_left x_right]. rewrite HA. cbn [bind]. rewrite HB.
    cbn [bind]. rewrite E. reflexivity.
  - destruct o; cbn [bind]; congruence.
Qed.
Ltac step_tac := let x := fresh "x" in let H := fresh in intros ? ? ? x ? H; unfold eval_step; rewrite H; reflexivity.

Definition general_fn (op : cmpop) (h : heap) : xseq -> xseq -> res xseq :=
  match op with
  | CEq => general_compare_eq h | CNe => general_compare_ne h | CLt => general_compare_lt h
  | CLe => general_compare_le h | CGt => general_compare_gt h | CGe => general_compare_ge h
  end.
Definition value_fn (op : cmpop) (h : heap) : xseq -> xseq -> res xseq :=
  match op with
  | CEq => value_compare_eq h | CNe => value_compare_ne h | CLt => value_compare_lt h
  | CLe => value_compare_le h | CGt => value_compare_gt h | CGe => value_compare_ge h
  end.
Lemma outcome_general : forall op h c A B e l r e2 nm o,
  operands h c A B e l r e2 -> general_fn op h l r = o -> o <> Fuel ->
  outcome h c (XNode (general_node op) nm A B) e (do v <- o; Ok (v, e2)).
Proof. intros op h c A B e l r e2 nm o H E N. eapply outcome_operands; eauto. destruct op; step_tac. Qed.
Lemma outcome_value : forall op h c A B e l r e2 nm o,
  operands h c A B e l r e2 -> value_fn op h l r = o -> o <> Fuel ->
  outcome h c (XNode (value_node op) nm A B) e (do v <- o; Ok (v, e2)).
Proof. intros op h c A B e l r e2 nm o H E N. eapply outcome_operands; eauto. destruct op; step_tac. Qed.

Lemma fn_not_fuel : forall s, fn_not s <> Fuel.
Proof.
  intro s. unfold fn_not. destruct (effective_boolean_value s) eqn:E; cbn [bind]; try discriminate.
  unfold effective_boolean_value in E. destruct s as [|[] [|]]; discriminate E.
Qed.
Lemma bind_fuel : forall A B (r : res A) (f : A -> res B), r <> Fuel -> (forall a, f a <> Fuel) -> bind r f <> Fuel.
Proof. intros A B [] f H F; cbn [bind]; auto; congruence. Qed.
Lemma value_comparison_fuel : forall h f g k l r, value_comparison h f g k l r <> Fuel.
Proof.
  intros h f g k l r. unfold value_comparison. destruct l as [|a [|]]; destruct r as [|b [|]]; try discriminate.
  destruct (f (atomize h [a]) (atomize h [b])); try discriminate;
    destruct (fn_compare (atomize h [a]) (atomize h [b])) as [y| | |] eqn:E; try discriminate;
    try (destruct (k (atomize h [a]) (atomize h [b])); discriminate);
    (apply bind_fuel; [destruct y as [|[] [|]]; discriminate|discriminate]).
Qed.
Lemma value_fn_fuel : forall op h l r, value_fn op h l r <> Fuel.
Proof.
  intros op h l r. destruct op; cbn [value_fn]; unfold value_compare_ne, value_compare_le, value_compare_ge;
    try apply value_comparison_fuel; apply bind_fuel; try apply value_comparison_fuel; apply fn_not_fuel.
Qed.
Lemma value_holds_fn : forall h op x y, value_holds h op x y <-> value_fn op h [x] [y] = Ok [XIBoolean true].
Proof.
  intros h op x y. unfold value_holds.
  set (e := mkEnv 0 0 [(lit "x", [x]); (lit "y", [y])]).
  assert (O : operands h [] (XNode X_VarRef (lit "x") XNil XNil) (XNode X_VarRef (lit "y") XNil XNil) e [x] [y] e)
    by (exists e; split; (split; [discriminate|exists 1%nat; reflexivity])).
  assert (H := outcome_value op h [] _ _ e [x] [y] e [] _ O eq_refl (value_fn_fuel op h [x] [y])). split.
  - intros [e' H']. assert (D := outcome_det _ _ _ _ _ _ H H').
    destruct (value_fn op h [x] [y]) as [v| | |]; cbn [bind] in D; congruence.
  - intro E. rewrite E in H. exists e. exact H.
Qed.

(* the test of one pair in a general comparison is the value comparison of the two items *)
Definition pair_fn (op : cmpop) : xitem -> xitem -> bool :=
  match op with
  | CEq => general_pair xitem_numeric_equal (fun n => n =? 0) xitem_boolean_equal
  | CNe => general_pair (not_res xitem_numeric_equal) (fun n => negb (n =? 0)) (not_res xitem_boolean_equal)
  | CLt => general_pair xitem_numeric_less_than (fun n => n <? 0) xitem_boolean_less_than
  | CLe => general_pair (not_res xitem_numeric_greater_than) (fun n => n <=? 0) (not_res xitem_boolean_greater_than)
  | CGt => general_pair xitem_numeric_greater_than (fun n => n >? 0) xitem_boolean_greater_than
  | CGe => general_pair (not_res xitem_numeric_less_than) (fun n => n >=? 0) (not_res xitem_boolean_less_than)
  end.
Lemma general_fn_pairs : forall op h l r, general_fn op h l r =
  Ok [XIBoolean (existsb (fun a => existsb (pair_fn op a) (atomize h r)) (atomize h l))].
Proof. intros [] h l r; reflexivity. Qed.

Lemma str_cmp_cases : forall a b, str_cmp a b = -1 \/ str_cmp a b = 0 \/ str_cmp a b = 1.
Proof. intros a b. destruct (str_cmp_spec a b) as [[H _]|[[H _]|[H _]]]; auto. Qed.

Lemma pair_value : forall op h a b,
  pair_fn op (atomize1 h a) (atomize1 h b) = true <-> value_fn op h [a] [b] = Ok [XIBoolean true].
Proof.
  intros op h a b.
  assert (A : atomize h [a] = [atomize1 h a]) by reflexivity.
  assert (B : atomize h [b] = [atomize1 h b]) by reflexivity.
  destruct op; unfold value_fn, value_compare_ne, value_compare_le, value_compare_ge, value_compare_eq,
    value_compare_lt, value_compare_gt, value_comparison; rewrite A, B; clear A B;
    destruct (atomize1 h a) as [?|?|?|?|s|x|x|x|p]; destruct (atomize1 h b) as [?|?|?|?|t|y|y|y|q];
    unfold pair_fn, general_pair, not_res, xitem_numeric_equal, xitem_numeric_less_than, xitem_numeric_greater_than,
      xitem_boolean_equal, xitem_boolean_less_than, xitem_boolean_greater_than, xitem_boolean_op,
      sing_bool, op_numeric_comparison, op_boolean, fn_compare, xitem_compare, fn_not;
    cbn [xitem_numeric_comparison get_singleton_item get_singleton_string get_singleton_boolean get_singleton_integer
         bind is_ok_true effective_boolean_value orb];
    try (split; discriminate).
  all: unfold sing_bool; cbn [effective_boolean_value bind].
  all: try (match goal with |- context [str_cmp ?a ?b] => destruct (str_cmp_cases a b) as [E|[E|E]]; rewrite E; cbn; split; congruence end).
  all: try (match goal with |- context [Z.eqb ?u ?v] => destruct (Z.eqb u v) | |- context [Z.ltb ?u ?v] => destruct (Z.ltb u v)
       | |- context [Z.gtb ?u ?v] => destruct (Z.gtb u v) | |- context [feqb ?u ?v] => destruct (feqb u v)
       | |- context [fltb ?u ?v] => destruct (fltb u v) | |- context [fgtb ?u ?v] => destruct (fgtb u v) end; cbn; split; congruence).
  all: destruct p, q; cbn; split; congruence.
Qed.

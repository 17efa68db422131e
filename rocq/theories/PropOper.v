(* C23-C27, C37: operators on values. *)
Require Import Bool List NArith ZArith Ascii String Lia Sorted.
Require Import Coq.Floats.SpecFloat.
From Verif Require Import Str StrFacts Chars Sax Dom Axes Lexer FuncTable Parser Num Item Func Types Eval EvalFacts
  SpecOper ItemFacts.
Import ListNotations.
Open Scope Z_scope.

(* ------------------------------------------------------------------ C23 *)
Theorem C23_general_comparison : forall op h c A B e l r e2 nm, operands h c A B e l r e2 ->
  exists b, outcome h c (XNode (general_node op) nm A B) e (Ok ([XIBoolean b], e2)) /\
            (b = true <-> exists x y, In x l /\ In y r /\ value_holds h op x y).
Proof.
  intros op h c A B e l r e2 nm O. eexists. split.
  - apply (outcome_general op h c A B e l r e2 nm _ O (general_fn_pairs op h l r)). discriminate.
  - rewrite existsb_exists. unfold atomize. split.
    + intros [x' [Hx Hy]]. apply in_map_iff in Hx. destruct Hx as [x [<- Hx]].
      apply existsb_exists in Hy. destruct Hy as [y' [Hy P]]. apply in_map_iff in Hy. destruct Hy as [y [<- Hy]].
      exists x, y. repeat split; auto. apply value_holds_fn. apply pair_value. exact P.
    + intros [x [y [Hx [Hy V]]]]. exists (atomize1 h x). split; [apply in_map; auto|].
      apply existsb_exists. exists (atomize1 h y). split; [apply in_map; auto|].
      apply pair_value. apply value_holds_fn. exact V.
Qed.
Theorem C23_empty : forall op h c A B e l r e2 nm, operands h c A B e l r e2 -> l = [] \/ r = [] ->
  outcome h c (XNode (general_node op) nm A B) e (Ok ([XIBoolean false], e2)).
Proof.
  intros op h c A B e l r e2 nm O H.
  destruct (C23_general_comparison op h c A B e l r e2 nm O) as [b [R I]].
  destruct b; [|exact R]. exfalso. destruct I as [I _]. destruct (I eq_refl) as [x [y [Hx [Hy _]]]].
  destruct H; subst; [destruct Hx|destruct Hy].
Qed.
Example C23_example :
  eval_xpath 20 [] 0 (lit "(1, 5, 7) > (6, 9)") = Ok [XIBoolean true] /\
  eval_xpath 20 [] 0 (lit "(1, 5, 7) > (8, 'a')") = Ok [XIBoolean false].
Proof. split; vm_compute; reflexivity. Qed.

(* ------------------------------------------------------------------ C24 *)
Lemma gtb_rel : forall a b, (a >? b) = true <-> a > b.
Proof. intros. rewrite Z.gtb_lt. lia. Qed.
Theorem C24_integers : forall op h c A B e a b e2 nm, operands h c A B e [XIInteger a] [XIInteger b] e2 ->
  exists v, outcome h c (XNode (value_node op) nm A B) e (Ok ([XIBoolean v], e2)) /\ (v = true <-> rel_Z op a b).
Proof.
  intros op h c A B e a b e2 nm O.
  assert (F : exists v, value_fn op h [XIInteger a] [XIInteger b] = Ok [XIBoolean v] /\ (v = true <-> rel_Z op a b)).
  { destruct op; cbn; eexists; (split; [reflexivity|]); rewrite ?negb_true_iff, <- ?not_true_iff_false,
      ?Z.eqb_eq, ?Z.ltb_lt, ?gtb_rel; lia. }
  destruct F as [v [F S]]. exists v. split; [|exact S].
  apply (outcome_value op h c A B e _ _ e2 nm _ O F). discriminate.
Qed.
(* a string, or a node standing for its (typed) value *)
Definition string_item (h : heap) (it : xitem) (s : str) : Prop :=
  it = XIString s \/ exists i, it = XINode i /\ typed_value h i = s.
Theorem C24_strings : forall op h c A B e x y a b e2 nm, operands h c A B e [x] [y] e2 ->
  string_item h x a -> string_item h y b ->
  exists v, outcome h c (XNode (value_node op) nm A B) e (Ok ([XIBoolean v], e2)) /\ (v = true <-> rel_str op a b).
Proof.
  intros op h c A B e x y a b e2 nm O X Y.
  assert (AX : atomize h [x] = [XIString a]) by (destruct X as [->|[i [-> <-]]]; reflexivity).
  assert (AY : atomize h [y] = [XIString b]) by (destruct Y as [->|[i [-> <-]]]; reflexivity).
  assert (F : exists v, value_fn op h [x] [y] = Ok [XIBoolean v] /\ (v = true <-> rel_str op a b)).
  { destruct op; unfold value_fn, value_compare_ne, value_compare_le, value_compare_ge, value_compare_eq,
      value_compare_lt, value_compare_gt, value_comparison; rewrite AX, AY; cbn;
      (eexists; split; [reflexivity|]);
      destruct (str_cmp_spec a b) as [[E L]|[[E L]|[E L]]]; rewrite E; cbn;
      assert (I1 := lex_irrefl a); assert (I2 : lex_lt a b -> lex_lt b a -> False)
        by (intros U V; exact (lex_irrefl _ (lex_trans _ _ _ U V)));
      (split; intro H; [try discriminate H|try reflexivity; exfalso]);
      try (subst b); tauto || (intro; subst; tauto) || (destruct H; subst; tauto) || (subst; tauto). }
  destruct F as [v [F S]]. exists v. split; [|exact S].
  apply (outcome_value op h c A B e _ _ e2 nm _ O F). discriminate.
Qed.
Theorem C24_booleans : forall op h c A B e a b e2 nm, operands h c A B e [XIBoolean a] [XIBoolean b] e2 ->
  exists v, outcome h c (XNode (value_node op) nm A B) e (Ok ([XIBoolean v], e2)) /\ (v = true <-> rel_bool op a b).
Proof.
  intros op h c A B e a b e2 nm O.
  assert (F : exists v, value_fn op h [XIBoolean a] [XIBoolean b] = Ok [XIBoolean v] /\ (v = true <-> rel_bool op a b)).
  { destruct op, a, b; cbn; eexists; (split; [reflexivity|]); split; intro H; try reflexivity; try discriminate H;
      unfold rel_bool, rel_Z in *; cbn in *; try lia; try congruence. }
  destruct F as [v [F S]]. exists v. split; [|exact S].
  apply (outcome_value op h c A B e _ _ e2 nm _ O F). discriminate.
Qed.
(* The lexicographic order is a strict total order on strings. *)
Theorem C24_lex_total_order : (forall a, ~ lex_lt a a) /\ (forall a b c, lex_lt a b -> lex_lt b c -> lex_lt a c) /\
  (forall a b, lex_lt a b \/ a = b \/ lex_lt b a).
Proof. split; [exact lex_irrefl|]. split; [exact lex_trans|exact lex_total]. Qed.
(* With an empty operand eq, lt and gt give the empty sequence, *)
Theorem C24_empty_partial : forall op h c A B e l r e2 nm, operands h c A B e l r e2 -> l = [] \/ r = [] ->
  op = CEq \/ op = CLt \/ op = CGt ->
  outcome h c (XNode (value_node op) nm A B) e (Ok ([], e2)).
Proof.
  intros op h c A B e l r e2 nm O H P.
  apply (outcome_value op h c A B e l r e2 nm (Ok []) O); [|discriminate].
  destruct P as [->|[->| ->]]; (destruct H as [->| ->]; [reflexivity|destruct l as [|? [|]]; reflexivity]).
Qed.
(* but ne, le and ge give true: the claim is false for them. *)
Theorem C24_empty_refuted : forall op h c A B e l r e2 nm, operands h c A B e l r e2 -> l = [] \/ r = [] ->
  op = CNe \/ op = CLe \/ op = CGe ->
  outcome h c (XNode (value_node op) nm A B) e (Ok ([XIBoolean true], e2)).
Proof.
  intros op h c A B e l r e2 nm O H P.
  apply (outcome_value op h c A B e l r e2 nm (Ok [XIBoolean true]) O); [|discriminate].
  destruct P as [->|[->| ->]]; (destruct H as [->| ->]; [reflexivity|destruct l as [|? [|]]; reflexivity]).
Qed.
Example C24_examples :
  eval_xpath 20 [] 0 (lit "-3 le 4") = Ok [XIBoolean true] /\
  eval_xpath 20 [] 0 (lit "'abc' lt 'abd'") = Ok [XIBoolean true] /\
  eval_xpath 20 [] 0 (lit "'abc' ge 'abca'") = Ok [XIBoolean false] /\
  eval_xpath 20 [] 0 (lit "() eq 1") = Ok [] /\
  eval_xpath 20 [] 0 (lit "() ne 1") = Ok [XIBoolean true].
Proof. repeat split; vm_compute; reflexivity. Qed.
(* Two doubles: eq, lt and gt are the IEEE comparisons; le and ge are the negations of gt and lt, so that
   NaN le 1 is true. *)
Theorem C24_doubles_partial : forall op h c A B e a b e2 nm, operands h c A B e [XIDouble a] [XIDouble b] e2 ->
  outcome h c (XNode (value_node op) nm A B) e
    (Ok ([XIBoolean match op with
                    | CEq => SFeqb a b | CNe => negb (SFeqb a b) | CLt => SFltb a b | CGt => SFltb b a
                    | CLe => negb (SFltb b a) | CGe => negb (SFltb a b)
                    end], e2)).
Proof.
  intros op h c A B e a b e2 nm O.
  refine (outcome_value op h c A B e _ _ e2 nm (Ok [XIBoolean _]) O _ _); [|discriminate].
  destruct op; reflexivity.
Qed.
Theorem C24_nan_refuted : eval_xpath 20 [] 0 (lit "('NaN' cast as xs:double) le 1e0") = Ok [XIBoolean true] /\
  SFleb S754_nan (f_of_Z 1) = false.
Proof. split; vm_compute; reflexivity. Qed.

(* ------------------------------------------------------------------ C25 *)
Inductive arith : Type := Add | Sub | Mul | IDiv | Mod | Div.
Definition arith_node (o : arith) : xtype :=
  match o with
  | Add => X_OperatorAdd | Sub => X_OperatorSubtract | Mul => X_OperatorMultiply
  | IDiv => X_OperatorIDiv | Mod => X_OperatorMod | Div => X_OperatorDiv
  end.
Definition arith_fn (o : arith) : xitem -> xitem -> res xitem :=
  match o with
  | Add => xitem_numeric_add | Sub => xitem_numeric_subtract | Mul => xitem_numeric_multiply
  | IDiv => xitem_numeric_integer_divide | Mod => xitem_numeric_mod | Div => xitem_numeric_divide
  end.
Lemma outcome_arith : forall o h c A B e l r e2 nm v, operands h c A B e l r e2 ->
  op_numeric_operation (arith_fn o) l r = v -> v <> Fuel ->
  outcome h c (XNode (arith_node o) nm A B) e (do v <- v; Ok (v, e2)).
Proof. intros o h c A B e l r e2 nm v H E N. eapply outcome_operands; eauto. destruct o; step_tac. Qed.

(* +, - and * are exact when the result is an i64, *)
Theorem C25_exact : forall o h c A B e a b e2 nm z, operands h c A B e [XIInteger a] [XIInteger b] e2 ->
  (o = Add /\ z = a + b) \/ (o = Sub /\ z = a - b) \/ (o = Mul /\ z = a * b) -> is_i64 z ->
  outcome h c (XNode (arith_node o) nm A B) e (Ok ([XIInteger z], e2)).
Proof.
  intros o h c A B e a b e2 nm z O H I.
  apply (outcome_arith o h c A B e _ _ e2 nm (Ok [XIInteger z]) O); [|discriminate].
  destruct H as [[-> ->]|[[-> ->]|[-> ->]]]; cbn [arith_fn]; unfold op_numeric_operation; cbn [get_singleton_item bind];
    unfold xitem_numeric_add, xitem_numeric_subtract, xitem_numeric_multiply, xitem_numeric_operation;
    rewrite (chk_ok _ I); reflexivity.
Qed.
(* and a panic (in a build with overflow checks) when it is not. *)
Theorem C25_overflow_refuted : forall o h c A B e a b e2 nm z, operands h c A B e [XIInteger a] [XIInteger b] e2 ->
  (o = Add /\ z = a + b) \/ (o = Sub /\ z = a - b) \/ (o = Mul /\ z = a * b) -> ~ is_i64 z ->
  outcome h c (XNode (arith_node o) nm A B) e Panic.
Proof.
  intros o h c A B e a b e2 nm z O H I.
  apply (outcome_arith o h c A B e _ _ e2 nm Panic O); [|discriminate].
  destruct H as [[-> ->]|[[-> ->]|[-> ->]]]; cbn [arith_fn]; unfold op_numeric_operation; cbn [get_singleton_item bind];
    unfold xitem_numeric_add, xitem_numeric_subtract, xitem_numeric_multiply, xitem_numeric_operation;
    rewrite (chk_panic _ I); reflexivity.
Qed.
(* idiv and mod: the quotient truncated toward zero and its remainder, which has the sign of the dividend *)
Theorem C25_idiv_mod : forall h c A B e a b e2 nm nm', operands h c A B e [XIInteger a] [XIInteger b] e2 ->
  is_i64 a -> is_i64 b -> b <> 0 -> ~ (a = - 2 ^ 63 /\ b = -1) ->
  exists q r, outcome h c (XNode X_OperatorIDiv nm A B) e (Ok ([XIInteger q], e2)) /\
              outcome h c (XNode X_OperatorMod nm' A B) e (Ok ([XIInteger r], e2)) /\
              a = q * b + r /\ Z.abs r < Z.abs b /\ 0 <= a * r /\ is_i64 q /\ is_i64 r.
Proof.
  intros h c A B e a b e2 nm nm' O Ia Ib Nb Nm. exists (Z.quot a b), (Z.rem a b).
  assert (QR := Z.quot_rem' a b). assert (RB := Z.rem_bound_abs a b Nb). assert (RS := Z.rem_sign_mul a b Nb).
  assert (Iq : is_i64 (Z.quot a b)).
  { unfold is_i64 in *.
    assert (QA : Z.abs (Z.quot a b) = Z.quot (Z.abs a) (Z.abs b)) by (rewrite <- Z.quot_abs; auto).
    destruct (Z.eq_dec (Z.abs b) 1) as [E|E].
    - assert (b = 1 \/ b = -1) as [->| ->] by lia; [rewrite Z.quot_1_r; lia|].
      change (-1) with (- (1)). rewrite Z.quot_opp_r, Z.quot_1_r by lia.
      destruct (Z.eq_dec a (- 2 ^ 63)) as [->|]; [exfalso; apply Nm; auto|lia].
    - destruct (Z.eq_dec a 0) as [->|Na]; [rewrite Z.quot_0_l by auto; lia|].
      assert (Z.quot (Z.abs a) (Z.abs b) < Z.abs a) by (apply Z.quot_lt; lia). lia. }
  assert (Ir : is_i64 (Z.rem a b)) by (unfold is_i64 in *; lia).
  assert (E0 : (b =? 0) = false) by (apply Z.eqb_neq; auto).
  repeat split; try (exact (proj1 Iq)); try (exact (proj2 Iq)); try (exact (proj1 Ir)); try (exact (proj2 Ir)).
  - discriminate.
  - apply (outcome_arith IDiv h c A B e _ _ e2 nm (Ok [XIInteger (Z.quot a b)]) O); [|discriminate].
    cbn. unfold xitem_numeric_integer_divide. cbn. unfold i64_div. rewrite E0. cbn. rewrite (chk_ok _ Iq). reflexivity.
  - discriminate.
  - apply (outcome_arith Mod h c A B e _ _ e2 nm' (Ok [XIInteger (Z.rem a b)]) O); [|discriminate].
    cbn. unfold xitem_numeric_mod. rewrite E0. cbn. unfold i64_rem. rewrite E0.
    destruct ((a =? i64_min) && (b =? -1)) eqn:M; [|reflexivity].
    apply andb_true_iff in M. rewrite !Z.eqb_eq in M. tauto.
  - lia.
  - exact RB.
  - lia.
Qed.
(* division by zero is an error, never a crash *)
Theorem C25_division_by_zero : forall o h c A B e a e2 nm, operands h c A B e [XIInteger a] [XIInteger 0] e2 ->
  o = IDiv \/ o = Mod \/ o = Div -> outcome h c (XNode (arith_node o) nm A B) e (Err DynamicError).
Proof.
  intros o h c A B e a e2 nm O H.
  apply (outcome_arith o h c A B e _ _ e2 nm (Err DynamicError) O); [|discriminate].
  destruct H as [->|[->| ->]]; reflexivity.
Qed.
(* the remaining pair crashes *)
Theorem C25_idiv_refuted : forall o h c A B e e2 nm, operands h c A B e [XIInteger (- 2 ^ 63)] [XIInteger (-1)] e2 ->
  o = IDiv \/ o = Mod -> outcome h c (XNode (arith_node o) nm A B) e Panic.
Proof.
  intros o h c A B e e2 nm O H.
  apply (outcome_arith o h c A B e _ _ e2 nm Panic O); [|discriminate].
  destruct H as [->| ->]; reflexivity.
Qed.
Example C25_examples :
  eval_xpath 20 [] 0 (lit "9223372036854775806 + 1") = Ok [XIInteger (2 ^ 63 - 1)] /\
  eval_xpath 20 [] 0 (lit "9223372036854775807 + 1") = Panic /\
  eval_xpath 20 [] 0 (lit "(-7) idiv 2, (-7) mod 2") = Ok [XIInteger (-3); XIInteger (-1)] /\
  eval_xpath 20 [] 0 (lit "7 idiv 0") = Err DynamicError /\
  eval_xpath 20 [] 0 (lit "(-9223372036854775807 - 1) idiv -1") = Panic.
Proof. repeat split; vm_compute; reflexivity. Qed.

(* ------------------------------------------------------------------ C26 *)
(* the floating-point operation *)
Definition float_op (o : arith) : f64 -> f64 -> f64 :=
  match o with Add => fadd | Sub => fsub | Mul => fmul | _ => fun _ _ => S754_nan end.
Theorem C26_promotion : forall o h c A B e x y e2 nm rx ry, operands h c A B e [x] [y] e2 ->
  o = Add \/ o = Sub \/ o = Mul -> rank x = Some rx -> rank y = Some ry -> (0 < Nat.max rx ry)%nat ->
  exists v, outcome h c (XNode (arith_node o) nm A B) e (Ok ([v], e2)) /\ rank v = Some (Nat.max rx ry) /\
            as_f64 v = float_op o (promote x) (promote y).
Proof.
  intros o h c A B e x y e2 nm rx ry O H X Y N.
  assert (F : exists v, arith_fn o x y = Ok v /\ rank v = Some (Nat.max rx ry) /\
                        as_f64 v = float_op o (promote x) (promote y)).
  { destruct x; cbn in X; inversion X; subst; destruct y; cbn in Y; inversion Y; subst;
      try (cbn in N; lia); destruct H as [->|[->| ->]]; eexists; (split; [reflexivity|split; reflexivity]). }
  destruct F as [v [F [R V]]]. exists v. split; [|auto].
  apply (outcome_arith o h c A B e [x] [y] e2 nm (Ok [v]) O); [|discriminate].
  unfold op_numeric_operation. cbn [get_singleton_item bind]. rewrite F. reflexivity.
Qed.
Theorem C26_integers_stay : forall o h c A B e a b e2 nm, operands h c A B e [XIInteger a] [XIInteger b] e2 ->
  o = Add \/ o = Sub \/ o = Mul ->
  (exists z, outcome h c (XNode (arith_node o) nm A B) e (Ok ([XIInteger z], e2))) \/
  outcome h c (XNode (arith_node o) nm A B) e Panic.
Proof.
  intros o h c A B e a b e2 nm O H.
  assert (D : forall z, is_i64 z \/ ~ is_i64 z) by (intro z; unfold is_i64; lia).
  destruct H as [->|[->| ->]];
    [destruct (D (a + b))|destruct (D (a - b))|destruct (D (a * b))].
  all: try (left; eexists; eapply C25_exact; eauto; fail).
  all: right; eapply C25_overflow_refuted; eauto.
Qed.
Theorem C26_type_error : forall o h c A B e l r e2 nm, operands h c A B e l r e2 ->
  o = Add \/ o = Sub \/ o = Mul ->
  ~ (exists x y, l = [x] /\ r = [y] /\ rank x <> None /\ rank y <> None) ->
  outcome h c (XNode (arith_node o) nm A B) e (Err TypeError).
Proof.
  intros o h c A B e l r e2 nm O H N.
  apply (outcome_arith o h c A B e l r e2 nm (Err TypeError) O); [|discriminate].
  unfold op_numeric_operation. destruct l as [|x [|]]; try reflexivity. cbn [get_singleton_item bind].
  destruct r as [|y [|]]; try reflexivity. cbn [get_singleton_item bind].
  assert (N' : rank x = None \/ rank y = None).
  { destruct (rank x) eqn:X; auto. destruct (rank y) eqn:Y; auto. exfalso. apply N. exists x, y. rewrite X, Y.
    repeat split; discriminate. }
  destruct H as [->|[->| ->]]; destruct x, y; cbn in N'; try (destruct N'; discriminate); reflexivity.
Qed.
Example C26_examples :
  eval_xpath 20 [] 0 (lit "1 + 2.5") = Ok [XIDecimal (atof (lit "3.5"))] /\
  eval_xpath 20 [] 0 (lit "2.5 * 1e1") = Ok [XIDouble (atof (lit "25"))] /\
  eval_xpath 20 [] 0 (lit "1 + 'a'") = Err TypeError.
Proof. repeat split; vm_compute; reflexivity. Qed.

(* ------------------------------------------------------------------ C27 *)
Lemma count_up_map : forall n z, exists l, count_up n z = map XIInteger l /\
  (forall k, In k l <-> z <= k < z + Z.of_nat n) /\ StronglySorted Z.lt l.
Proof.
  induction n as [|n IH]; intro z.
  - exists []. repeat split; try constructor; intros; try contradiction. lia.
  - destruct (IH (z + 1)) as [l [E [M S]]]. exists (z :: l). split; [cbn [count_up map]; rewrite E; reflexivity|]. split.
    + intro k. cbn [In]. rewrite M. lia.
    + constructor; auto. apply Forall_forall. intros k K. apply M in K. lia.
Qed.
Theorem C27_range : forall h c A B e m n e2 nm, operands h c A B e [XIInteger m] [XIInteger n] e2 ->
  exists l, outcome h c (XNode X_OperatorTo nm A B) e (Ok (map XIInteger l, e2)) /\
            (forall k, In k l <-> m <= k <= n) /\ StronglySorted Z.lt l.
Proof.
  intros h c A B e m n e2 nm O. destruct (count_up_map (Z.to_nat (n - m + 1)) m) as [l [E [M S]]].
  exists l. split; [|split; [|exact S]].
  - assert (F : op_to [XIInteger m] [XIInteger n] = Ok (map XIInteger l)) by (cbn; rewrite E; reflexivity).
    apply (outcome_operands h c A B e _ _ e2 X_OperatorTo nm op_to _ O ltac:(step_tac) F). discriminate.
  - intro k. rewrite M. lia.
Qed.
(* an empty operand is an error, where the claim (and XPath) says the empty sequence *)
Theorem C27_empty_refuted : forall h c A B e l r e2 nm, operands h c A B e l r e2 -> l = [] \/ r = [] ->
  outcome h c (XNode X_OperatorTo nm A B) e (Err TypeError).
Proof.
  intros h c A B e l r e2 nm O H.
  apply (outcome_operands h c A B e l r e2 X_OperatorTo nm op_to (Err TypeError) O ltac:(step_tac)); [|discriminate].
  destruct H; subst; [reflexivity|]. unfold op_to. destruct (get_singleton_integer l) as [z| | |] eqn:E; cbn [bind]; auto;
    destruct l as [|[] [|]]; cbn in E; congruence.
Qed.
Example C27_examples :
  eval_xpath 20 [] 0 (lit "-1 to 2") = Ok (map XIInteger [-1; 0; 1; 2]) /\
  eval_xpath 20 [] 0 (lit "2 to 1") = Ok [] /\
  eval_xpath 20 [] 0 (lit "() to 1") = Err TypeError.
Proof. repeat split; vm_compute; reflexivity. Qed.

(* ------------------------------------------------------------------ C37 *)
Lemma cast_item_kinds : forall h it ty, (exists v, cast_item h it ty = Ok v) \/ (exists k, cast_item h it ty = Err k).
Proof.
  intros h it ty. unfold cast_item, get_as_raw_decimal. repeat match goal with |- context [if ?b then _ else _] => destruct b end; eauto;
    destruct it as [| | | | | | |[|[]| |]|]; cbn; eauto; unfold bool_of_str;
    repeat match goal with |- context [if ?b then _ else _] => destruct b end; cbn; eauto.
Qed.
Lemma cast_item_same : forall h it ty, (forall i, it = XINode i -> string_value h i = typed_value h i) ->
  (exists v, cast_item h (atomize1 h it) ty = Ok v) <-> (exists v, cast_item h it ty = Ok v).
Proof.
  intros h it ty H. destruct it; cbn [atomize1]; try tauto.
  assert (E : cast_item h (XINode i) ty = cast_item h (XIString (typed_value h i)) ty).
  { unfold cast_item, get_as_raw_string, get_as_raw_double, get_as_raw_decimal, get_as_raw_double, get_as_raw_integer,
      get_as_raw_boolean. rewrite (H i eq_refl). reflexivity. }
  rewrite E. tauto.
Qed.
Theorem C37_castable_partial : forall h c A e l e1 nm nm' T, outcome h c A e (Ok (l, e1)) ->
  (forall i, l = [XINode i] -> string_value h i = typed_value h i) ->
  exists b, outcome h c (XNode X_OperatorCastableAs nm A T) e (Ok ([XIBoolean b], e1)) /\
    (b = true <-> exists v, outcome h c (XNode X_OperatorCastAs nm' A T) e (Ok (v, e1))) /\
    (b = false <-> outcome h c (XNode X_OperatorCastAs nm' A T) e (Err TypeError)).
Proof.
  intros h c A e l e1 nm nm' T O H. set (ty := x_name (x_left T)).
  exists (castable_as h l ty). destruct O as [_ [n O]].
  assert (P : outcome h c (XNode X_OperatorCastableAs nm A T) e (Ok ([XIBoolean (castable_as h l ty)], e1))).
  { apply eval_outcome with (n := S n); [|discriminate]. rewrite eval_S. unfold eval_step. cbn [x_type x_left x_right].
    rewrite O. reflexivity. }
  assert (Q : forall o, cast_as h l ty = o -> o <> Fuel ->
    outcome h c (XNode X_OperatorCastAs nm' A T) e (do r <- o; Ok (r, e1))).
  { intros o E N. apply eval_outcome with (n := S n); [|destruct o; cbn; congruence]. rewrite eval_S. unfold eval_step.
    cbn [x_type x_left x_right]. rewrite O. cbn [bind]. fold ty. rewrite E. reflexivity. }
  split; [exact P|].
  assert (K : (castable_as h l ty = true /\ exists v, cast_as h l ty = Ok v) \/
              (castable_as h l ty = false /\ cast_as h l ty = Err TypeError)).
  { destruct l as [|it [|]]; cbn [castable_as cast_as].
    - destruct (ends_with_q ty); eauto.
    - assert (S := cast_item_same h it (trim_q ty)). specialize (S ltac:(intros i ->; apply H; reflexivity)).
      unfold castable_item. destruct (cast_item_kinds h it (trim_q ty)) as [[v V]|[k V]]; rewrite V.
      + left. destruct S as [_ S]. destruct (S (ex_intro _ v V)) as [w W]. rewrite W. eauto.
      + right. destruct (cast_item_kinds h (atomize1 h it) (trim_q ty)) as [[w W]|[k' W]]; rewrite W; auto.
        destruct S as [S _]. destruct (S (ex_intro _ w W)) as [u U]. congruence.
    - auto. }
  destruct K as [[-> [v V]]|[-> V]].
  - specialize (Q _ V ltac:(discriminate)). cbn [bind] in Q. split; split; intro X; eauto; try discriminate.
    assert (D := outcome_det _ _ _ _ _ _ Q X). discriminate D.
  - specialize (Q _ V ltac:(discriminate)). cbn [bind] in Q. split; split; intro X; eauto; try discriminate.
    destruct X as [v X]. assert (D := outcome_det _ _ _ _ _ _ Q X). discriminate D.
Qed.
(* The two values of a node are equal unless there is an XML declaration among its descendants. *)
Lemma typed_string_value : forall h i, (forall j, n_type (Dom.get h j) <> XMLDecl) -> string_value h i = typed_value h i.
Proof.
  intros h i H. unfold string_value, typed_value. generalize (S (List.length h)) as n. intro n. revert i.
  induction n as [|n IH]; intro i; [reflexivity|]. cbn [string_value_fuel typed_value_fuel].
  specialize (H i) as Hi. destruct (n_type (Dom.get h i)); try reflexivity; try congruence;
    apply flat_map_ext; exact IH.
Qed.
Theorem C37_no_declaration : forall h c A e l e1 nm nm' T, outcome h c A e (Ok (l, e1)) ->
  (forall j, n_type (Dom.get h j) <> XMLDecl) ->
  exists b, outcome h c (XNode X_OperatorCastableAs nm A T) e (Ok ([XIBoolean b], e1)) /\
    (b = true <-> exists v, outcome h c (XNode X_OperatorCastAs nm' A T) e (Ok (v, e1))).
Proof.
  intros h c A e l e1 nm nm' T O H.
  destruct (C37_castable_partial h c A e l e1 nm nm' T O (fun i _ => typed_string_value h i H)) as [b [P [Q _]]].
  exists b. auto.
Qed.
(* With an XML declaration the claim is false. *)
Theorem C37_declaration_refuted :
  exists h, new_document (lit "<?xml version='1.0'?><a>1</a>") = Ok h /\
    eval_xpath 20 h 0 (lit "/ castable as xs:boolean") = Ok [XIBoolean false] /\
    eval_xpath 20 h 0 (lit "/ cast as xs:boolean") = Ok [XIBoolean true].
Proof. eexists. repeat split; vm_compute; reflexivity. Qed.
Example C37_examples :
  eval_xpath 20 [] 0 (lit "'12' castable as xs:boolean") = Ok [XIBoolean false] /\
  eval_xpath 20 [] 0 (lit "'12' cast as xs:boolean") = Err TypeError /\
  eval_xpath 20 [] 0 (lit "() castable as xs:integer?") = Ok [XIBoolean true] /\
  eval_xpath 20 [] 0 (lit "'12' cast as xs:integer") = Ok [XIInteger 12].
Proof. repeat split; vm_compute; reflexivity. Qed.

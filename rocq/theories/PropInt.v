(* C57 (integers in decimal notation), C58 (casts of text that is no number), C17 on the text of expressions. *)
Require Import Bool List NArith ZArith Ascii String Lia Sorted.
Require Import Coq.Floats.SpecFloat.
From Verif Require Import Str StrFacts Sax Dom Axes SpecEdit SpecAxes Lexer FuncTable Parser SpecExpr PropParse Num Item Func Types Eval EvalFacts
  SpecOper ItemFacts SpecFunc FuncFacts SpecEval PropEval PropEval2 PropEval3 SpecInt IntFacts.
Import ListNotations.
Open Scope N_scope.

(* from the text of an expression to its tree *)
Lemma text_gives : forall h n e o, wf e -> o <> Fuel ->
  (forall x, reads x e -> exists v, outcome h [XINode n] x new_eval_env v /\ (do (r, _) <- v; Ok r) = o) ->
  xpath_gives h n (source e) o.
Proof.
  intros h n e o W N H. destruct (C42_precedence e W) as [x [C R]]. destruct (H x R) as [v [[NF [m E]] Q]].
  split; auto. exists m. unfold eval_xpath, match_xpath. rewrite C. cbn [bind]. rewrite E. exact Q.
Qed.
Lemma digits_all : forall s, digits s <-> all_digits s.
Proof.
  intro s. unfold digits, all_digits. rewrite !Forall_forall. split; intros H c I; specialize (H c I); unfold xis_digit in *.
  - apply andb_true_iff in H. rewrite !N.leb_le in H. exact H.
  - apply andb_true_iff. rewrite !N.leb_le. exact H.
Qed.
Lemma paren_outcome : forall h c x e o, outcome h c x e o -> x <> XNil -> outcome h c (XNode X_ParenthesizedExpr [] x XNil) e o.
Proof.
  intros h c x e o [N [m E]] NX. split; auto. exists (S m). rewrite eval_S. unfold eval_step. cbn [x_type x_left].
  unfold eval_left. cbn [x_left]. destruct x as [|ty nm l r]; [congruence|]. cbn [is_nil]. exact E.
Qed.
Lemma reads_not_nil : forall x e, reads x e -> x <> XNil.
Proof. intros x e R. destruct R; discriminate. Qed.
(* parentheses do not matter *)
Lemma reads_bare : forall h c en o e x, reads x e ->
  (forall y, reads y e -> x_type y <> X_ParenthesizedExpr \/ e = EEmpty -> outcome h c y en o) -> outcome h c x en o.
Proof.
  intros h c en o. fix IH 3. intros e x R H. destruct R.
  1: { apply paren_outcome; [exact (IH _ _ R H)|eapply reads_not_nil; eauto]. }
  all: apply H; [econstructor; eassumption|]; cbn [leaf x_type].
  all: try (left; discriminate).
  - left. destruct k; discriminate.
  - right. reflexivity.
  - left. destruct o0; discriminate.
  - left. destruct m; discriminate.
  - left. destruct o0; discriminate.
  - left. destruct c0; discriminate.
  - left. destruct q; discriminate.
  - left. destruct (form_axis f); discriminate.
  - left. destruct treat; discriminate.
  - left. destruct q as [[]|]; discriminate.
Qed.
Lemma reads_lit : forall x k s, reads x (ELit k s) -> forall h c e v, (forall m, eval h (S m) c (leaf (lnode k) s) e = Ok (v, e)) ->
  outcome h c x e (Ok (v, e)).
Proof.
  intros x k s R h c e v V. eapply reads_bare; eauto. intros y Y [P|P]; [|discriminate P].
  inversion Y; subst; [destruct P; reflexivity|]. split; [discriminate|]. exists 1%nat. apply V.
Qed.

(* ------------------------------------------------------------------ C57 *)
(* A row of digits, as an XPath expression, is the integer it denotes, if that is an i64 ... *)
Theorem C57_literal_partial : forall h n d, all_digits d -> d <> [] -> (Z.of_N (numeral d) < 2 ^ 63)%Z ->
  xpath_gives h n (source (ELit L_integer d)) (Ok [XIInteger (Z.of_N (numeral d))]).
Proof.
  intros h n d D N B. apply text_gives; [constructor; auto; apply digits_all; auto|discriminate|]. intros x R.
  exists (Ok ([XIInteger (Z.of_N (numeral d))], new_eval_env)). split; [|reflexivity].
  eapply reads_lit; eauto. intro m. rewrite eval_S. unfold eval_step, leaf. cbn [x_type lnode x_name].
  rewrite (atoi_text d (Z.of_N (numeral d))) by (constructor; auto).
  replace (in_i64 (Z.of_N (numeral d))) with true; [reflexivity|]. symmetry. unfold in_i64, i64_min, i64_max.
  apply andb_true_iff. rewrite !Z.leb_le. lia.
Qed.
Print Assumptions C57_literal_partial.
(* ... and silently 0 otherwise. *)
Theorem C57_literal_refuted : forall h n d, all_digits d -> (2 ^ 63 <= Z.of_N (numeral d))%Z ->
  xpath_gives h n (source (ELit L_integer d)) (Ok [XIInteger 0]).
Proof.
  intros h n d D B. assert (N : d <> []) by (intros ->; cbn in B; lia).
  apply text_gives; [constructor; auto; apply digits_all; auto|discriminate|]. intros x R.
  exists (Ok ([XIInteger 0], new_eval_env)). split; [|reflexivity].
  eapply reads_lit; eauto. intro m. rewrite eval_S. unfold eval_step, leaf. cbn [x_type lnode x_name].
  rewrite (atoi_text d (Z.of_N (numeral d))) by (constructor; auto).
  replace (in_i64 (Z.of_N (numeral d))) with false; [reflexivity|]. symmetry. unfold in_i64, i64_min, i64_max.
  apply andb_false_iff. rewrite !Z.leb_gt. lia.
Qed.
Print Assumptions C57_literal_refuted.
Example C57_literal_example :
  all_digits (lit "00042") /\ numeral (lit "00042") = 42 /\ source (ELit L_integer (lit "00042")) = lit "00042 " /\
  all_digits (lit "9223372036854775808") /\ (2 ^ 63 <= Z.of_N (numeral (lit "9223372036854775808")))%Z.
Proof. split; [repeat constructor; discriminate|]. split; [reflexivity|]. split; [reflexivity|]. split; [repeat constructor; discriminate|vm_compute; discriminate]. Qed.

(* An integer is written, by string() and by to_string() of a result, in its one decimal notation ... *)
Theorem C57_written : forall h c z, exists s, notation_of z s /\ (forall t, notation_of z t -> t = s) /\
  fn_value h c (lit "fn:string") [[XIInteger z]] (Ok [XIString s]) /\ seq_to_string h [XIInteger z] = s.
Proof.
  intros h c z. exists (fmt_i64 z). split; [apply fmt_i64_notation|].
  split; [intros t T; eapply notation_unique; eauto; apply fmt_i64_notation|]. split; [fnv; reflexivity|]. reflexivity.
Qed.
Print Assumptions C57_written.
(* ... and is read back from every integer numeral, in particular from that one. *)
Theorem C57_cast : forall h n s z, integer_text s z -> is_i64 z ->
  xpath_gives h n (source (ECast false (ELit L_string s) (lit "integer"))) (Ok [XIInteger z]).
Proof.
  intros h n s z T B.
  assert (NZ : ~ In 0 s).
  { clear B. induction T as [d D _|d D _|d D _|a s z W T IH|a s z W T IH].
    1-3: unfold all_digits in D; rewrite Forall_forall in D. 1: intro I; apply D in I; lia.
    1-2: intros [I|I]; [discriminate I|apply D in I; lia].
    - intros [->|I]; [|auto]. cbn in W. intuition discriminate.
    - intro I. apply in_app_or in I. destruct I as [I|[->|[]]]; auto. cbn in W. intuition discriminate. }
  apply text_gives; [|discriminate|].
  - split; [constructor; auto|pname].
  - intros x R. exists (Ok ([XIInteger z], new_eval_env)). split; [|reflexivity].
    eapply reads_bare; eauto. intros y Y [P|P]; [|discriminate P]. inversion Y; subst; [destruct P; reflexivity|].
    destruct (reads_lit x0 _ _ ltac:(eassumption) h [XINode n] new_eval_env [XIString s]) as [_ [m E]].
    { intro m. reflexivity. }
    split; [discriminate|]. exists (S m). rewrite eval_S. unfold eval_step. cbn [x_type x_left x_right leaf x_name]. rewrite E. cbn [bind].
    unfold cast_as. cbn [atomize1]. change (trim_q _) with (lit "xs:integer").
    change (cast_item h (XIString s) _) with (Ok (XIInteger (atoi s))).
    rewrite (atoi_text s z T). replace (in_i64 z) with true; [reflexivity|].
    symmetry. unfold in_i64, i64_min, i64_max. unfold is_i64 in B. apply andb_true_iff. rewrite !Z.leb_le. lia.
Qed.
Print Assumptions C57_cast.
Example C57_cast_example : integer_text (lit " -007 ") (-7) /\ is_i64 (-7) /\ notation_of (-7) (lit "-7").
Proof.
  split; [|split; [unfold is_i64; lia|]].
  - apply (it_before 32 (lit "-007 ")); [cbn; tauto|]. apply (it_after 32 (lit "-007")); [cbn; tauto|].
    apply (it_minus (lit "007")); [repeat constructor; discriminate|discriminate].
  - exists (lit "7"). split; [repeat constructor; discriminate|]. split; [discriminate|]. split; [right; do 2 eexists; split; [reflexivity|discriminate]|].
    right. split; [lia|]. split; reflexivity.
Qed.

(* ------------------------------------------------------------------ C58 *)
(* The text of a string literal cast to a number: whatever the text, the cast succeeds; text that is no
   integer becomes 0 and text that is no number becomes NaN. *)
Theorem C58_cast_refuted : forall h n,
  xpath_gives h n (lit "'abc' cast as xs:integer") (Ok [XIInteger 0]) /\
  xpath_gives h n (lit "'1.5' castable as xs:integer") (Ok [XIBoolean true]) /\
  xpath_gives h n (lit "'99999999999999999999' cast as xs:integer") (Ok [XIInteger 0]) /\
  xpath_gives h n (lit "'abc' castable as xs:double") (Ok [XIBoolean true]).
Proof.
  intros h n. split; [split; [discriminate|]; exists 9%nat; vm_compute; reflexivity|].
  split; [split; [discriminate|]; exists 9%nat; vm_compute; reflexivity|].
  split; split; try discriminate; exists 9%nat; vm_compute; reflexivity.
Qed.
Print Assumptions C58_cast_refuted.
(* The cast to a boolean does reject every text that is no boolean. *)
Inductive boolean_text : str -> bool -> Prop :=
| bt_true : boolean_text (lit "true") true
| bt_one : boolean_text (lit "1") true
| bt_false : boolean_text (lit "false") false
| bt_zero : boolean_text (lit "0") false.
Lemma cast_boolean_text : forall h n s, ~ In 0 s ->
  xpath_gives h n (source (ECast false (ELit L_string s) (lit "boolean"))) 
    (match bool_of_str s with Ok b => Ok [XIBoolean b] | _ => Err TypeError end).
Proof.
  intros h n s NZ. apply text_gives.
  - split; [constructor; auto|pname].
  - destruct (bool_of_str s); discriminate.
  - intros x R. exists (match bool_of_str s with Ok b => Ok ([XIBoolean b], new_eval_env) | _ => Err TypeError end).
    split; [|destruct (bool_of_str s); reflexivity].
    eapply reads_bare; eauto. intros y Y [P|P]; [|discriminate P]. inversion Y; subst; [destruct P; reflexivity|].
    destruct (reads_lit x0 _ _ ltac:(eassumption) h [XINode n] new_eval_env [XIString s]) as [_ [m E]].
    { intro m. reflexivity. }
    split; [destruct (bool_of_str s); discriminate|].
    exists (S m). rewrite eval_S. unfold eval_step. cbn [x_type x_left x_right leaf x_name]. rewrite E. cbn [bind].
    unfold cast_as. cbn [atomize1]. change (trim_q _) with (lit "xs:boolean").
    change (cast_item h (XIString s) _) with (do b <- bool_of_str s; Ok (XIBoolean b)).
    destruct (bool_of_str s) as [b| | |]; reflexivity.
Qed.
Theorem C58_boolean_partial : forall h n s, ~ In 0 s ->
  (forall b, boolean_text s b ->
     xpath_gives h n (source (ECast false (ELit L_string s) (lit "boolean"))) (Ok [XIBoolean b])) /\
  ((forall b, ~ boolean_text s b) ->
     xpath_gives h n (source (ECast false (ELit L_string s) (lit "boolean"))) (Err TypeError)).
Proof.
  intros h n s NZ. assert (H := cast_boolean_text h n s NZ). unfold bool_of_str in H. split.
  - intros b B. destruct B; exact H.
  - intro B. destruct (str_eqb s (lit "true") || str_eqb s (lit "1")) eqn:E1.
    { apply orb_true_iff in E1. destruct E1 as [E|E]; apply str_eqb_eq in E; destruct (B true); rewrite E; constructor. }
    destruct (str_eqb s (lit "false") || str_eqb s (lit "0")) eqn:E2.
    { apply orb_true_iff in E2. destruct E2 as [E|E]; apply str_eqb_eq in E; destruct (B false); rewrite E; constructor. }
    exact H.
Qed.
Print Assumptions C58_boolean_partial.
Example C58_example : boolean_text (lit "1") true /\ forall b, ~ boolean_text (lit "yes") b.
Proof. split; [constructor|]. intros b H. inversion H. Qed.

(* ------------------------------------------------------------------ C17 on the text *)
Lemma anode_axis : forall a, In (anode a) axis_types.
Proof. intros []; cbn; tauto. Qed.
Lemma anode_principal : forall a, a <> A_attribute -> anode a <> X_AxisAttribute.
Proof. intros [] H; try discriminate; congruence. Qed.
(* axis::t[k], for a name t and a number k: the k-th of the elements of that name on the axis, in document order
   for a forward axis and in reverse document order for a reverse axis; nothing, if there are fewer. *)
Theorem C17_text : forall h n order f t k, session h -> attached h 0 n -> n_type (Dom.get h n) <> Attribute ->
  node_order h 0 order -> form_axis f <> A_attribute -> plain_name t ->
  all_digits k -> k <> [] -> (Z.of_N (numeral k) < 2 ^ 63)%Z ->
  exists l r,
    exactly order (fun x => on_axis h order (anode (form_axis f)) x n /\
                            (n_type (Dom.get h x) = Element /\ n_name (Dom.get h x) = t)) l /\
    xpath_gives h n (source (EStep f (N_name t) [ELit L_integer k])) (Ok r) /\
    item_at (Z.of_N (numeral k)) (seq_of_nodes (if reverse_axis (form_axis f) then rev l else l)) r.
Proof.
  intros h n order f t k S A T O NA PT DK NK BK.
  assert (T1 : t <> lit "node()") by (apply (node_name (N_name t)); exact PT).
  assert (TC : ~ In 58 t).
  { destruct PT as [NC _]. intro I. destruct t as [|c t]; [destruct I|]. destruct NC as [N1 N2]. rewrite Forall_forall in N2.
    destruct I as [->|I]; [vm_compute in N1; discriminate N1|]. apply N2 in I. vm_compute in I. discriminate I. }
  assert (T2 : t <> lit ":*") by (intros ->; apply TC; left; auto).
  assert (T3 : t <> lit "*") by (apply plain_no_star; exact PT).
  destruct (C49_name_test h n order (anode (form_axis f)) t new_eval_env S A T O (anode_axis _) (anode_principal _ NA) T1 T2) as [l [G X]].
  set (rv := reverse_axis (form_axis f)).
  assert (AT : atoi k = Z.of_N (numeral k)).
  { rewrite (atoi_text k (Z.of_N (numeral k))) by (constructor; auto). replace (in_i64 (Z.of_N (numeral k))) with true; [reflexivity|].
    symmetry. unfold in_i64, i64_min, i64_max. apply andb_true_iff. rewrite !Z.leb_le. lia. }
  assert (PV : forall y n2, reads y (ELit L_integer k) -> exists r,
     outcome h [XINode n] (step (anode (form_axis f)) t XNil (predicate rv n2 y XNil)) new_eval_env (Ok (r, new_eval_env)) /\
     item_at (Z.of_N (numeral k)) (seq_of_nodes (if rv then rev l else l)) r).
  { intros y n2 Y.
    destruct (C17_position h n (anode (form_axis f)) t XNil rv n2 y new_eval_env (seq_of_nodes l) (Z.of_N (numeral k)) (anode_axis _)) as [r [R I]].
    - exists new_eval_env. exact G.
    - clear - Y. remember (ELit L_integer k) as q eqn:Q. revert y q Y Q. fix IH 3. intros y q Y Q. destruct Y; try discriminate Q.
      + split; [reflexivity|]. split; [discriminate|]. split; [discriminate|]. split; [exact (IH _ _ Y Q)|exact I].
      + injection Q as -> ->. cbn. split; [reflexivity|]. split; [discriminate|]. split; [discriminate|]. split; exact I.
    - eapply reads_not_nil; eauto.
    - intros j it J. eexists. eapply (reads_lit _ _ _ Y). intro m. rewrite eval_S. unfold eval_step, leaf. cbn [x_type lnode x_name]. rewrite AT. reflexivity.
    - exists r. split; [exact R|]. destruct rv; [|exact I]. unfold seq_of_nodes in *. rewrite map_rev. exact I. }
  assert (W : wf (EStep f (N_name t) [ELit L_integer k])).
  { split; [exact PT|]. split; [constructor; auto; apply digits_all; auto|exact I]. }
  destruct (C42_precedence _ W) as [x [_ R0]].
  (* the literal without parentheses gives r *)
  destruct (PV (leaf X_IntegerLiteral k) [] (rd_lit L_integer k)) as [r [_ RI]]. exists l, r.
  split; [|split; [|exact RI]].
  - destruct X as [X1 X2]. split; auto. intro x0. rewrite X1. split; intros [H1 [H2 H3]]; split; auto; split; auto.
    + inversion H3; subst; auto; [congruence|]. destruct TC. apply in_or_app. right. left. reflexivity.
    + rewrite H3. constructor.
  - apply text_gives; auto; [discriminate|]. intros x' R'. exists (Ok (r, new_eval_env)). split; [|reflexivity].
    eapply reads_bare; eauto. intros y Y [P|P]; [|discriminate P]. inversion Y; subst; [destruct P; reflexivity|].
    match goal with H : reads_preds _ _ _ |- _ => inversion H; subst end.
    match goal with H : reads_preds _ _ [] |- _ => inversion H; subst end.
    match goal with H : reads ?p (ELit _ _) |- _ => destruct (PV p nm H) as [r' [Q1 Q2]] end.
    assert (r' = r) as ->.
    { clear - RI Q2. destruct RI as [[i1 [L1 [N1 ->]]]|[L1 ->]], Q2 as [[i2 [L2 [N2 ->]]]|[L2 ->]]; auto.
      - congruence.
      - assert (nth_error (seq_of_nodes (if rv then rev l else l)) (Z.to_nat (Z.of_N (numeral k)) - 1) <> None) by congruence.
        apply nth_error_Some in H. lia.
      - assert (nth_error (seq_of_nodes (if rv then rev l else l)) (Z.to_nat (Z.of_N (numeral k)) - 1) <> None) by congruence.
        apply nth_error_Some in H. lia. }
    exact Q1.
Qed.
Print Assumptions C17_text.
Example C17_text_example : plain_name (lit "b") /\ form_axis (F_axis A_preceding_sibling) <> A_attribute /\
  source (EStep (F_axis A_preceding_sibling) (N_name (lit "b")) [ELit L_integer (lit "1")]) = lit "preceding-sibling :: b [ 1 ] " /\
  source (EStep F_child (N_name (lit "b")) [ELit L_integer (lit "12")]) = lit "b [ 12 ] ".
Proof. split; [pname|]. split; [discriminate|]. split; reflexivity. Qed.

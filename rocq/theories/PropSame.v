(* C88: abbreviations, other spellings and superfluous parentheses do not change what an XPath does. *)
Require Import Bool List NArith ZArith Ascii String Lia.
From Verif Require Import Str StrFacts Sax Dom Axes Lexer FuncTable Parser SpecExpr PrecFacts PropParse Num Item Func Types Eval
  EvalFacts SpecOper SpecSame SameFacts.
Import ListNotations.
Open Scope nat_scope.

Lemma same_xpath : forall s s' x x', compile_xpath s = Ok x -> compile_xpath s' = Ok x' -> same x x' ->
  exists k, forall n h i, le_res (eval_xpath n h i s) (eval_xpath (k + n) h i s') /\ le_res (eval_xpath n h i s') (eval_xpath (k + n) h i s).
Proof.
  intros s s' x x' C C' [k (_ & _ & A & B)]. exists k. intros n h i. unfold eval_xpath, match_xpath. rewrite C, C'. cbn [bind].
  split; (apply le_bind; [first [apply A|apply B]|intros [? ?]; apply le_refl]).
Qed.
Lemma same_gives : forall s s' x x', compile_xpath s = Ok x -> compile_xpath s' = Ok x' -> same x x' ->
  forall h i o, xpath_gives h i s o <-> xpath_gives h i s' o.
Proof.
  intros s s' x x' C C' S h i o. destruct (same_xpath _ _ _ _ C C' S) as [k K].
  split; intros [F [n E]]; (split; [exact F|]; exists (k + n)); destruct (K n h i) as [[A|A] [B|B]]; congruence.
Qed.

(* Two texts, one for an expression and one for its form without abbreviations, with any superfluous parentheses in
   either: every outcome of one, for any document and node, is an outcome of the other. *)
Theorem C88_abbreviations : forall s s' x x' e, compile_xpath s = Ok x -> reads x e -> compile_xpath s' = Ok x' -> reads x' (full e) ->
  no_closures e = true -> forall h i o, xpath_gives h i s o <-> xpath_gives h i s' o.
Proof. intros s s' x x' e C R C' R' N. eapply same_gives; eauto. eapply reads_full_same; eauto. Qed.
(* two texts that differ in superfluous parentheses only *)
Theorem C88_parentheses : forall s s' x x' e, compile_xpath s = Ok x -> reads x e -> compile_xpath s' = Ok x' -> reads x' e ->
  no_closures e = true -> forall h i o, xpath_gives h i s o <-> xpath_gives h i s' o.
Proof. intros s s' x x' e C R C' R' N. eapply same_gives; eauto. eapply reads_both_same; eauto. Qed.
(* the texts the grammar gives for an expression and for its full form *)
Theorem C88_source : forall e, wf e -> wf (full e) -> no_closures e = true ->
  forall h i o, xpath_gives h i (source e) o <-> xpath_gives h i (source (full e)) o.
Proof.
  intros e W W' N h i o. destruct (C42_precedence _ W) as (x & C & R). destruct (C42_precedence _ W') as (x' & C' & R').
  eapply C88_abbreviations; eauto.
Qed.
(* the node lists are the same as well *)
Theorem C88_nodes : forall s s' x x' e, compile_xpath s = Ok x -> reads x e -> compile_xpath s' = Ok x' -> reads x' (full e) ->
  no_closures e = true -> forall h i r, r <> Fuel ->
  ((exists n, get_nodeset n h i s = r) <-> (exists n, get_nodeset n h i s' = r)) /\
  (forall a b, (exists n, get_first_node n h i s = Ok a) -> (exists n, get_first_node n h i s' = Ok b) -> a = b).
Proof.
  intros s s' x x' e C R C' R' N h i r F. destruct (reads_full_same _ _ _ R R' N) as [k (_ & _ & A & B)].
  assert (G : forall n, le_res (get_nodeset n h i s) (get_nodeset (k + n) h i s') /\ le_res (get_nodeset n h i s') (get_nodeset (k + n) h i s)).
  { intro n. unfold get_nodeset, match_xpath. rewrite C, C'. cbn [bind].
    split; (apply le_bind; [apply le_bind; [first [apply A|apply B]|intros [? ?]; apply le_refl]|intro; apply le_refl]). }
  split.
  - split; intros [n E]; exists (k + n); destruct (G n) as [[P|P] [Q|Q]]; congruence.
  - intros a b [n E] [m E'].
    assert (X : exists z, le_res (get_nodeset n h i s) z /\ le_res (get_nodeset m h i s') z).
    { assert (M : forall p q t, p <= q -> le_res (get_nodeset p h i t) (get_nodeset q h i t)).
      { intros p q t L. unfold get_nodeset, match_xpath. apply le_bind; [apply le_refl|intro y].
        apply le_bind; [apply le_bind; [apply eval_mono; auto|intros [? ?]; apply le_refl]|intro; apply le_refl]. }
      exists (get_nodeset (k + (n + m)) h i s'). split; [|apply M; lia].
      eapply le_trans; [apply (M n (n + m)); lia|]. apply G. }
    destruct X as (z & [X|X] & [Y|Y]); unfold get_first_node in E, E'; rewrite ?X in E; rewrite ?Y in E'; try discriminate; congruence.
Qed.
Print Assumptions C88_abbreviations.
Print Assumptions C88_parentheses.
Print Assumptions C88_source.
Print Assumptions C88_nodes.

(* //b[@c]/.. => count()   and   count((/descendant-or-self::node()/(child::b[(attribute::c)])/parent::node())) *)
Definition same_e : expr :=
  EArrow false (EPath S_all (EStep F_child (N_name (lit "b")) [EStep F_at (N_name (lit "c")) []]) [(false, EParent)]) (lit "count") [].
Ltac reads := repeat first [apply rd_paren | apply (rd_call (lit "count")) | apply ra_cons | apply ra_nil | apply rd_path_root
  | apply rd_path_all | apply rr_more | apply rt_slash | apply rt_nil | apply (rp_cons false) | apply rp_nil
  | apply (rd_step (F_axis A_child) (N_name (lit "b"))) | apply (rd_step (F_axis A_attribute) (N_name (lit "c")))
  | apply (rd_step (F_axis A_descendant_or_self) N_node) | apply (rd_step (F_axis A_parent) N_node)
  | apply (rd_step F_child (N_name (lit "b"))) | apply (rd_step F_at (N_name (lit "c"))) | apply rd_parent | apply (rd_arrow (lit "count"))
  | apply ro_same; [|cbn; lia] | discriminate].
Example C88_example : forall h i o,
  xpath_gives h i (lit "//b[@c]/.. => count()") o <->
  xpath_gives h i (lit "count((/descendant-or-self::node()/(child::b[(attribute::c)])/parent::node()))") o.
Proof.
  destruct (compile_xpath (lit "//b[@c]/.. => count()")) as [x| | |] eqn:C; try (vm_compute in C; discriminate C).
  destruct (compile_xpath (lit "count((/descendant-or-self::node()/(child::b[(attribute::c)])/parent::node()))")) as [x'| | |] eqn:C';
    try (vm_compute in C'; discriminate C').
  apply (C88_abbreviations _ _ x x' same_e); auto.
  - vm_compute in C. injection C as <-. reads.
  - vm_compute in C'. injection C' as <-. cbn [same_e full map flat_map with_context app fst snd form_axis]. reads.
Qed.
(* Parentheses that change the expression change the outcome: //b[1] selects every first b, (//b)[1] one node. *)
Example C88_not_all : exists h i o,
  xpath_gives h i (lit "count(//b[1])") o /\ ~ xpath_gives h i (lit "count((//b)[1])") o.
Proof.
  destruct (new_document (lit "<r><a><b/></a><a><b/></a></r>")) as [h| | |] eqn:E; try (vm_compute in E; discriminate E).
  exists h, 0, (Ok [XIInteger 2]). split.
  - split; [discriminate|]. exists 40. vm_compute in E. injection E as <-. vm_compute. reflexivity.
  - intros [_ [n H]].
    assert (K : eval_xpath 40 h 0 (lit "count((//b)[1])") = Ok [XIInteger 1])
      by (vm_compute in E; injection E as <-; vm_compute; reflexivity).
    assert (K1 := eval_xpath_fuel _ _ (n + 40) _ _ _ K ltac:(discriminate) ltac:(lia)).
    assert (K2 := eval_xpath_fuel _ _ (n + 40) _ _ _ H ltac:(discriminate) ltac:(lia)). congruence.
Qed.

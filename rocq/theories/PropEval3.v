(* C19, C49, C52 and the examples of C17. *)
Require Import Bool List NArith ZArith Ascii String Lia Sorted.
Require Import Coq.Floats.SpecFloat.
From Verif Require Import Str StrFacts Sax Dom Axes SpecEdit SpecAxes AxesFacts PropAxes Lexer FuncTable Parser Num Item Func Types Eval EvalFacts
  SpecOper ItemFacts SpecTypes TypeFacts SpecFunc FuncFacts SpecEval EnvFacts PropDom PropTypes PropEval PropEval2.
Import ListNotations.
Open Scope nat_scope.

(* ------------------------------------------------------------------ C49 *)
Lemma node_type_eqb_eq : forall a b, node_type_eqb a b = true <-> a = b.
Proof. intros [] []; cbn; split; congruence. Qed.
Lemma name_test_spec : forall h i ax test kind preds, In ax axis_types -> kind = XNil ->
  test <> lit "node()" -> test <> lit ":*" ->
  match_node_test h i (step ax test kind preds) = true <->
  n_type (Dom.get h i) = principal ax /\ name_matches test (n_name (Dom.get h i)).
Proof.
  intros h i ax test kind preds A -> T1 T2. unfold match_node_test, step. cbn [x_left is_nil].
  unfold match_name_test. cbn [x_name x_type].
  destruct (str_eqb test (lit "node()")) eqn:E; [apply str_eqb_eq in E; congruence|]. clear E.
  assert (P : (if xtype_eqb ax X_AxisAttribute then Attribute else Element) = principal ax).
  { unfold axis_types in A. repeat (destruct A as [<-|A]; [reflexivity|]). destruct A. }
  rewrite P. destruct (node_type_eqb (principal ax) (n_type (Dom.get h i))) eqn:N; cbn [negb].
  2: { split; [discriminate|]. intros [X _]. rewrite X in N.
       assert (node_type_eqb (principal ax) (principal ax) = true) by (apply node_type_eqb_eq; auto). congruence. }
  apply node_type_eqb_eq in N. rewrite <- N. set (nm := n_name (Dom.get h i)).
  destruct (str_eqb test nm) eqn:E.
  { apply str_eqb_eq in E. split; auto. intros _. split; auto. rewrite E. constructor. }
  destruct (str_eqb test (lit "*")) eqn:F.
  { apply str_eqb_eq in F. split; auto. intros _. split; auto. rewrite F. constructor. }
  destruct (split_once (lit ":") test) as [[p l]|] eqn:SO.
  - rewrite andb_true_iff, !str_eqb_eq. split.
    + intros [-> SP]. split; auto. apply split_once_some in SO. subst test.
      unfold space_name in SP. fold nm in SP. destruct (split_once (lit ":") nm) as [[q l]|] eqn:SN.
      * subst q. assert (SN' := SN). apply split_once_some in SN. rewrite SN. change (lit ":" ++ lit "*") with (lit ":*").
        apply nm_prefix. intro I. apply in_split in I. destruct I as [u [v ->]].
        rewrite SN in SN'. rewrite <- app_assoc in SN'. cbn [app] in SN'.
        assert (K := split_once_first _ _ _ _ SN' u (v ++ lit ":" ++ l) eq_refl).
        rewrite app_length in K. cbn [List.length] in K. lia.
      * subst p. destruct (T2 eq_refl).
    + intros [_ M]. inversion M as [m Em Em2|m Em Em2|q l2 Hq Em Em2]; subst test.
      * rewrite <- Em2, str_eqb_refl in E. discriminate.
      * discriminate F.
      * assert (S2 := split_once_colon q (lit "*") Hq). change (lit ":" ++ lit "*") with (lit ":*") in S2.
        rewrite S2 in SO. injection SO as <- <-. split; auto.
        unfold space_name. fold nm. rewrite <- Em2.
        change (58%N :: l2) with (lit ":" ++ l2). rewrite split_once_colon by auto. reflexivity.
  - split; [discriminate|]. intros [_ M]. inversion M as [m Em Em2|m Em Em2|q l2 Hq Em Em2]; subst test.
    + rewrite <- Em2, str_eqb_refl in E. discriminate.
    + discriminate F.
    + assert (S2 := split_once_colon q (lit "*") Hq). change (lit ":" ++ lit "*") with (lit ":*") in S2. congruence.
Qed.

Lemma exactly_filter : forall order P l p (Q : nat -> Prop), exactly order P l -> (forall x, p x = true <-> Q x) ->
  exactly order (fun x => P x /\ Q x) (filter p l).
Proof.
  intros order P l p Q [I S] H. split.
  - intro x. rewrite filter_In, I, H. reflexivity.
  - apply SS_filter. exact S.
Qed.
Lemma self_exactly : forall order n, exactly order (fun x => x = n) [n].
Proof. intros. split; [intro x; cbn; intuition|]. constructor; constructor. Qed.
(* the axis part of a step, for any node test *)
Lemma axis_exactly : forall h n order ax x (Q : nat -> Prop), session h -> attached h 0 n -> n_type (Dom.get h n) <> Attribute ->
  node_order h 0 order -> In ax axis_types -> ax <> X_AxisAttribute -> x_type x = ax ->
  (forall j, match_node_test h j x = true <-> Q j) ->
  exists l, axis_nodes h n x = Ok l /\ exactly order (fun j => on_axis h order ax j n /\ Q j) l.
Proof.
  intros h n order ax x Q S A T O AX NA TX M.
  destruct (C16_axes_partial h n order S A T O) as
    [[l1 [E1 X1]] [[l2 [E2 X2]] [[l3 [E3 X3]] [[l4 [E4 X4]] [[l5 [E5 X5]] [[l6 [E6 X6]] [X7 [X8 [X9 X10]]]]]]]]].
  unfold axis_nodes. rewrite TX. unfold axis_types in AX.
  repeat (destruct AX as [AX|AX]; [rewrite <- AX in *|]); [| | | | | | | | | | | |destruct AX].
  all: cbn [on_axis].
  all: try (rewrite ?E1, ?E2, ?E3, ?E4, ?E5, ?E6; cbn [bind]; eexists; split; [reflexivity|];
            unfold along; apply exactly_filter; [assumption|exact M]).
  - congruence.
  - eexists. split; [reflexivity|]. unfold along. apply exactly_filter; [apply self_exactly|exact M].
Qed.
(* A step with a name test gives, in document order, exactly the elements of that name on the axis. *)
Theorem C49_name_test : forall h n order ax test e, session h -> attached h 0 n -> n_type (Dom.get h n) <> Attribute ->
  node_order h 0 order -> In ax axis_types -> ax <> X_AxisAttribute -> test <> lit "node()" -> test <> lit ":*" ->
  exists l, outcome h [XINode n] (step ax test XNil XNil) e (Ok (seq_of_nodes l, e)) /\
    exactly order (fun x => on_axis h order ax x n /\
                            (n_type (Dom.get h x) = Element /\ name_matches test (n_name (Dom.get h x)))) l.
Proof.
  intros h n order ax test e S A T O AX NA T1 T2.
  destruct (axis_exactly h n order ax (step ax test XNil XNil)
     (fun x => n_type (Dom.get h x) = principal ax /\ name_matches test (n_name (Dom.get h x))) S A T O AX NA eq_refl) as [l [E X]].
  - intro j. apply name_test_spec; auto.
  - exists l. split.
    + assert (G : gives h [XINode n] (step ax test XNil XNil) e (seq_of_nodes l)) by (apply step_nodes; eauto).
      apply gives_outcome; auto. cbn. repeat split; auto; try discriminate;
        unfold axis_types in AX; repeat (destruct AX as [<-|AX]; [first [discriminate|reflexivity]|]); destruct AX.
    + replace (principal ax) with Element in X; auto. destruct ax; try reflexivity; congruence.
Qed.
(* ... and on the attribute axis the attributes of that name *)
Theorem C49_attribute_test : forall h n test e, test <> lit "node()" -> test <> lit ":*" ->
  exists l, outcome h [XINode n] (step X_AxisAttribute test XNil XNil) e (Ok (seq_of_nodes l, e)) /\
    exactly (attributes h n) (fun x => In x (attributes h n) /\
               (n_type (Dom.get h x) = Attribute /\ name_matches test (n_name (Dom.get h x)))) l.
Proof.
  intros h n test e T1 T2.
  exists (along h (step X_AxisAttribute test XNil XNil) (attributes h n)). split.
  - split; [discriminate|]. exists 1. cbn [eval]. unfold eval_step, step. cbn [x_type].
    unfold match_location_path. cbn [to_nodeset flat_map app loc_path_loop]. unfold match_loc_step, axis_nodes.
    cbn [x_type x_right is_nil bind]. rewrite to_nodeset_of, app_nil_r. reflexivity.
  - unfold along. apply exactly_filter.
    + split; [tauto|]. apply SS_before_self.
    + intro x. apply (name_test_spec h x X_AxisAttribute test XNil XNil); auto. cbn; tauto.
Qed.
(* the abbreviations // and .. use the test "node()", which every node passes *)
Theorem C49_any_node : forall h n order ax e, session h -> attached h 0 n -> n_type (Dom.get h n) <> Attribute ->
  node_order h 0 order -> In ax axis_types -> ax <> X_AxisAttribute ->
  exists l, outcome h [XINode n] (step ax (lit "node()") XNil XNil) e (Ok (seq_of_nodes l, e)) /\
    exactly order (fun x => on_axis h order ax x n) l.
Proof.
  intros h n order ax e S A T O AX NA.
  destruct (axis_exactly h n order ax (step ax (lit "node()") XNil XNil) (fun x => True) S A T O AX NA eq_refl) as [l [E X]].
  - intro j. split; auto.
  - exists l. split.
    + assert (G : gives h [XINode n] (step ax (lit "node()") XNil XNil) e (seq_of_nodes l)) by (apply step_nodes; eauto).
      apply gives_outcome; auto. cbn. repeat split; auto; try discriminate;
        unfold axis_types in AX; repeat (destruct AX as [<-|AX]; [first [discriminate|reflexivity]|]); destruct AX.
    + destruct X as [I SS]. split; auto. intro x. rewrite I. tauto.
Qed.
(* *:name is not recognised: it is compared with the whole name of the node *)
Theorem C49_wildcard_prefix_refuted : exists h, session h /\
  xpath_gives h 0 (lit "count(/p:a/p:b)") (Ok [XIInteger 1]) /\
  xpath_gives h 0 (lit "count(/p:a/p:*)") (Ok [XIInteger 1]) /\
  xpath_gives h 0 (lit "count(/p:a/*:b)") (Ok [XIInteger 0]).
Proof.
  destruct (new_document (lit "<p:a xmlns:p='u'><p:b/></p:a>")) as [h| | |] eqn:E; try (vm_compute in E; discriminate E).
  exists h. split; [eapply ses_parse; eauto|]. vm_compute in E. injection E as <-.
  split; [split; [discriminate|exists 20; vm_compute; reflexivity]|].
  split; (split; [discriminate|exists 20; vm_compute; reflexivity]).
Qed.

(* ------------------------------------------------------------------ C19 *)
Definition path (nm : str) (A B : xnode) : xnode := XNode X_OperatorPath nm A B.
Definition all_nodes (v : xseq) : Prop := forall it, In it v -> exists i, it = XINode i.
Lemma all_nodes_iff : forall v, is_no_atom v = true <-> all_nodes v.
Proof.
  intro v. unfold is_no_atom, all_nodes. rewrite forallb_forall. split; intros H it I; specialize (H it I).
  - destruct it; try discriminate. eauto.
  - destruct H as [i ->]. reflexivity.
Qed.
Lemma in_to_nodeset : forall v x, In x (to_nodeset v) <-> In (XINode x) v.
Proof.
  intros v x. unfold to_nodeset. rewrite in_flat_map. split.
  - intros [it [I J]]. destruct it; cbn in J; try contradiction. destruct J as [->|[]]. exact I.
  - intro I. exists (XINode x). split; [exact I|left; reflexivity].
Qed.
(* nodes: one flag; atoms: the other *)
Lemma path_loop_spec : forall h B e f (nodal : bool) l, scoped B ->
  (forall it, In it l -> gives h [it] B e (f it)) ->
  (forall it, In it l -> f it = [] \/ is_no_atom (f it) = nodal) ->
  exists N, forall m, N <= m -> forall post a b acc, (if nodal then b else a) = false ->
    path_loop (eval h m) B (l ++ post) a b acc e =
    path_loop (eval h m) B post (a || (nodal && negb (Nat.eqb (List.length (flat_map f l)) 0)))
                       (b || (negb nodal && negb (Nat.eqb (List.length (flat_map f l)) 0))) (acc ++ flat_map f l) e.
Proof.
  intros h B e f nodal l S. induction l as [|it l IH]; intros G K.
  - exists 0. intros m M post a b acc F. cbn [app flat_map List.length Nat.eqb negb]. rewrite !andb_false_r, !orb_false_r, app_nil_r. reflexivity.
  - destruct IH as [N IH]; [intros; apply G; right; auto|intros; apply K; right; auto|].
    destruct (gives_eval _ _ _ _ _ S (G it (or_introl eq_refl))) as [k E].
    exists (Nat.max N k). intros m M post a b acc F. cbn [app path_loop flat_map]. rewrite E by lia. cbn [bind].
    destruct (f it) as [|y v] eqn:V.
    + rewrite IH by (auto; lia). reflexivity.
    + destruct (K it (or_introl eq_refl)) as [X|X]; [congruence|]. rewrite <- V. rewrite X.
      assert (LEN : Nat.eqb (List.length (f it ++ flat_map f l)) 0 = false) by (rewrite V; reflexivity).
      rewrite LEN. cbn [negb]. rewrite !andb_true_r.
      assert (Z : (a || nodal) && (b || negb nodal) = false) by (destruct nodal, a, b; auto; discriminate).
      rewrite Z, IH by (try lia; destruct nodal, a, b; auto; discriminate). f_equal.
      * destruct nodal, a; cbn; auto.
      * destruct nodal, b; cbn; auto.
      * rewrite app_assoc. reflexivity.
Qed.
Lemma path_eval : forall h c nm A B e l e1 m, eval h m c A e = Ok (l, e1) -> A <> XNil -> B <> XNil -> all_nodes l ->
  eval h (S m) c (path nm A B) e =
  do (p, e2) <- path_loop (eval h m) B l false false [] e1;
  let (nodes, acc) := p : bool * xseq in
  if nodes then do s <- sort_by_doc_order h (to_nodeset acc); Ok (seq_of_nodes s, e2) else Ok (acc, e2).
Proof.
  intros h c nm A B e l e1 m E NA NB L. rewrite eval_S. unfold eval_step, path. cbn [x_type x_right].
  unfold eval_left. cbn [x_left]. destruct A as [|]; [congruence|]. cbn [is_nil]. rewrite E. cbn [bind].
  destruct B as [|]; [congruence|]. cbn [is_nil]. apply all_nodes_iff in L. rewrite L. reflexivity.
Qed.
Lemma outcome_not_nil : forall h c e r, ~ outcome h c XNil e (Ok r).
Proof. intros h c e r [_ [n H]]. destruct n; discriminate H. Qed.
(* E1/E2 for nodes: in document order, without repetition, the nodes E2 selects from some item of E1 *)
Theorem C19_path_nodes : forall h c nm A B e l e1 f, session h -> outcome h c A e (Ok (l, e1)) -> all_nodes l ->
  scoped B -> B <> XNil -> (forall it, In it l -> gives h [it] B e1 (f it)) -> (forall it, In it l -> all_nodes (f it)) ->
  (forall it x, In it l -> In (XINode x) (f it) -> in_document h 0 x) ->
  exists order r, preorder h 0 order /\ outcome h c (path nm A B) e (Ok (seq_of_nodes r, e1)) /\
    exactly order (fun x => exists it, In it l /\ In (XINode x) (f it)) r /\ NoDup r.
Proof.
  intros h c nm A B e l e1 f SE HA L SB NB G AN D.
  assert (D' : forall x, In x (to_nodeset (flat_map f l)) -> in_document h 0 x).
  { intros x I. apply in_to_nodeset, in_flat_map in I. destruct I as [it [I J]]. eauto. }
  destruct (C13_sort_by_doc_order h _ SE D') as [order [r [PO [NO [ES [X NR]]]]]].
  exists order, r. split; [exact PO|].
  assert (X' : exactly order (fun x => exists it, In it l /\ In (XINode x) (f it)) r).
  { destruct X as [I SS]. split; auto. intro x. rewrite I, in_to_nodeset, in_flat_map. reflexivity. }
  split; [|auto].
  destruct (path_loop_spec h B e1 f true l SB G) as [N E].
  { intros it I. right. apply all_nodes_iff. auto. }
  destruct (outcome_eval _ _ _ _ _ HA) as [k K].
  apply eval_outcome with (n := S (Nat.max N k)); [|discriminate].
  rewrite (path_eval h c nm A B e l e1); [|apply K; lia|intros ->; exact (outcome_not_nil _ _ _ _ HA)|exact NB|exact L].
  assert (E' := E (Nat.max N k) ltac:(lia) [] false false [] eq_refl). rewrite app_nil_r in E'. rewrite E'. cbn [path_loop bind orb andb negb].
  destruct (flat_map f l) as [|y v] eqn:FM; cbn [List.length Nat.eqb negb app].
  - cbn [to_nodeset flat_map] in ES. vm_compute in ES. injection ES as <-. reflexivity.
  - rewrite ES. reflexivity.
Qed.
(* ... for atomic values: concatenated in the order of E1 *)
Theorem C19_path_atoms : forall h c nm A B e l e1 f, outcome h c A e (Ok (l, e1)) -> all_nodes l ->
  scoped B -> B <> XNil -> (forall it, In it l -> gives h [it] B e1 (f it)) ->
  (forall it, In it l -> f it = [] \/ ~ all_nodes (f it)) ->
  outcome h c (path nm A B) e (Ok (flat_map f l, e1)).
Proof.
  intros h c nm A B e l e1 f HA L SB NB G AN.
  destruct (path_loop_spec h B e1 f false l SB G) as [N E].
  { intros it I. destruct (AN it I) as [|X]; auto. right. rewrite <- all_nodes_iff in X. destruct (is_no_atom (f it)); congruence. }
  destruct (outcome_eval _ _ _ _ _ HA) as [k K].
  apply eval_outcome with (n := S (Nat.max N k)); [|discriminate].
  rewrite (path_eval h c nm A B e l e1); [|apply K; lia|intros ->; exact (outcome_not_nil _ _ _ _ HA)|exact NB|exact L].
  assert (E' := E (Nat.max N k) ltac:(lia) [] false false [] eq_refl). rewrite app_nil_r in E'. rewrite E'. cbn [path_loop bind orb andb negb]. reflexivity.
Qed.
(* ... a mixture is a type error, and so are atoms in E1 *)
Theorem C19_path_atom_left : forall h c nm A B e l e1, outcome h c A e (Ok (l, e1)) -> ~ all_nodes l -> B <> XNil ->
  outcome h c (path nm A B) e (Err TypeError).
Proof.
  intros h c nm A B e l e1 HA L NB. destruct (outcome_eval _ _ _ _ _ HA) as [k K].
  apply eval_outcome with (n := S k); [|discriminate]. rewrite eval_S. unfold eval_step, path. cbn [x_type x_right].
  unfold eval_left. cbn [x_left]. destruct A as [|]; [destruct (outcome_not_nil _ _ _ _ HA)|]. cbn [is_nil].
  rewrite K by lia. cbn [bind]. destruct B as [|]; [congruence|]. cbn [is_nil].
  rewrite <- all_nodes_iff in L. destruct (is_no_atom l); [congruence|]. reflexivity.
Qed.
Theorem C19_path_mixed : forall h c nm A B e l e1 f, outcome h c A e (Ok (l, e1)) -> all_nodes l ->
  scoped B -> B <> XNil -> (forall it, In it l -> gives h [it] B e1 (f it)) ->
  (exists it, In it l /\ f it <> [] /\ all_nodes (f it)) -> (exists it, In it l /\ ~ all_nodes (f it)) ->
  outcome h c (path nm A B) e (Err TypeError).
Proof.
  intros h c nm A B e l e1 f HA L SB NB G M1 M2.
  assert (P : exists N, forall m, N <= m -> path_loop (eval h m) B l false false [] e1 = Err TypeError).
  { assert (Gen : forall l a b acc, (forall it, In it l -> gives h [it] B e1 (f it)) ->
      (a = true \/ exists it, In it l /\ f it <> [] /\ all_nodes (f it)) ->
      (b = true \/ exists it, In it l /\ ~ all_nodes (f it)) -> a && b = false ->
      exists N, forall m, N <= m -> path_loop (eval h m) B l a b acc e1 = Err TypeError).
    { clear - SB. induction l as [|it l IH]; intros a b acc G M1 M2 AB.
      - destruct M1 as [->|[it [[] _]]]. destruct M2 as [->|[it [[] _]]]. discriminate.
      - destruct (gives_eval _ _ _ _ _ SB (G it (or_introl eq_refl))) as [k E].
        destruct (f it) as [|y v] eqn:V.
        + destruct (IH a b acc) as [N F]; auto.
          * intros; apply G; right; auto.
          * destruct M1 as [|[j [[<-|J] [X Y]]]]; [auto|congruence|right; exists j; auto].
          * destruct M2 as [|[j [[<-|J] X]]]; auto; [|right; exists j; auto]. exfalso. apply X. rewrite V. intros ? [].
          * exists (Nat.max N k). intros m M. cbn [path_loop]. rewrite E by lia. cbn [bind]. apply F. lia.
        + destruct ((a || is_no_atom (f it)) && (b || negb (is_no_atom (f it)))) eqn:Z.
          * exists k. intros m M. cbn [path_loop]. rewrite E by lia. cbn [bind]. rewrite V in Z. rewrite Z. reflexivity.
          * destruct (IH (a || is_no_atom (f it)) (b || negb (is_no_atom (f it))) (acc ++ y :: v)) as [N F]; auto.
            -- intros; apply G; right; auto.
            -- destruct M1 as [->|[j [[<-|J] [X Y]]]]; [auto| |right; exists j; auto].
               apply all_nodes_iff in Y. rewrite Y. left. apply orb_true_r.
            -- destruct M2 as [->|[j [[<-|J] X]]]; [auto| |right; exists j; auto].
               rewrite <- all_nodes_iff in X. destruct (is_no_atom (f it)); [congruence|]. left. apply orb_true_r.
            -- exists (Nat.max N k). intros m M. cbn [path_loop]. rewrite E by lia. cbn [bind]. rewrite V in Z, F. rewrite Z. apply F. lia. }
    apply Gen; auto. }
  destruct P as [N P]. destruct (outcome_eval _ _ _ _ _ HA) as [k K].
  apply eval_outcome with (n := S (Nat.max N k)); [|discriminate].
  rewrite (path_eval h c nm A B e l e1); [|apply K; lia|intros ->; exact (outcome_not_nil _ _ _ _ HA)|exact NB|exact L].
  rewrite P by lia. reflexivity.
Qed.

Example C19_example :
  xpath_gives two_b 0 (lit "count(//node()/ancestor-or-self::node())") (Ok [XIInteger 5]) /\
  (exists nm1 nm2, parsed "*/.." = path nm1 (parsed "*") (path nm2 (parsed "..") XNil) /\
                   scoped (path nm2 (parsed "..") XNil) /\ path nm2 (parsed "..") XNil <> XNil) /\
  xpath_gives two_b 0 (lit "/r/*/(if (self::a) then (b, ..) else 1)") (Ok [XINode 1; XINode 3; XINode 4]) /\
  xpath_gives two_b 0 (lit "//*/(if (self::a) then b else 1)") (Err TypeError) /\
  (* a mixture within one value of E2 is not noticed *)
  xpath_gives two_b 0 (lit "/r/(., 1)") (Ok [XINode 1; XIInteger 1]).
Proof.
  split; [split; [discriminate|exists 20; vm_compute; reflexivity]|].
  split; [do 2 eexists; split; [vm_compute; reflexivity|split; [vm_compute; repeat split; discriminate|discriminate]]|].
  split; [split; [discriminate|exists 20; vm_compute; reflexivity]|].
  split; [split; [discriminate|exists 20; vm_compute; reflexivity]|].
  split; [discriminate|exists 20; vm_compute; reflexivity].
Qed.

(* ------------------------------------------------------------------ C17, with the nodes of the step spelled out *)
(* On a node of a document: axis::test[k] is the k-th of the elements of that name on the axis, in document order,
   counted from the end when the predicate is marked as one of a reverse axis. *)
Theorem C17_step : forall h n order ax test rv n2 k e, session h -> attached h 0 n -> n_type (Dom.get h n) <> Attribute ->
  node_order h 0 order -> In ax axis_types -> ax <> X_AxisAttribute -> test <> lit "node()" -> test <> lit ":*" ->
  exists l r,
    exactly order (fun x => on_axis h order ax x n /\
                            (n_type (Dom.get h x) = Element /\ name_matches test (n_name (Dom.get h x)))) l /\
    outcome h [XINode n] (step ax test XNil (predicate rv n2 (XNode X_IntegerLiteral k XNil XNil) XNil)) e (Ok (r, e)) /\
    item_at (atoi k) (seq_of_nodes (if rv : bool then rev l else l)) r.
Proof.
  intros h n order ax test rv n2 k e S A T O AX NA T1 T2.
  destruct (C49_name_test h n order ax test e S A T O AX NA T1 T2) as [l [G X]]. exists l.
  destruct (C17_position h n ax test XNil rv n2 (XNode X_IntegerLiteral k XNil XNil) e (seq_of_nodes l) (atoi k) AX) as [r [R I]].
  - exists e. exact G.
  - cbn. repeat split; auto; discriminate.
  - discriminate.
  - apply literal_value. reflexivity.
  - exists r. split; [exact X|]. split; [exact R|]. destruct rv; [|exact I].
    unfold seq_of_nodes in *. rewrite map_rev. exact I.
Qed.
(* the parser marks the predicates of the reverse axes, and only those *)
Example C17_example :
  parsed "ancestor::a[2]" =
    step X_AxisAncestor (lit "a") XNil (predicate true (lit "Predicate") (parsed "2") XNil) /\
  parsed "child::a[2]" =
    step X_AxisChild (lit "a") XNil (predicate false (lit "Predicate") (parsed "2") XNil) /\
  xpath_gives two_b 0 (lit "count(/r/a/b[2]/preceding-sibling::b[1])") (Ok [XIInteger 1]) /\
  xpath_gives two_b 0 (lit "name(//b[2]/ancestor::*[2])") (Ok [XIString (lit "r")]) /\
  xpath_gives two_b 0 (lit "count(//b[3])") (Ok [XIInteger 0]).
Proof.
  split; [vm_compute; reflexivity|]. split; [vm_compute; reflexivity|].
  repeat split; try discriminate; exists 20; vm_compute; reflexivity.
Qed.

(* ------------------------------------------------------------------ C52 *)
Lemma type_test_iff : forall h v T o, o <> Fuel -> type_test h v T o <-> match_sequence_type h v T = o.
Proof.
  intros h v T o N. unfold type_test. set (e := mkEnv 0 0 [(lit "x", v)]).
  assert (H : outcome h [] (XNode X_OperatorInstanceOf [] (XNode X_VarRef (lit "x") XNil XNil) T) e
    (do b <- match_sequence_type h v T; Ok ([XIBoolean b], e))).
  { apply eval_outcome with (n := 2).
    - rewrite eval_S. reflexivity.
    - apply bind_fuel; [apply match_sequence_type_total|discriminate]. }
  split.
  - intro K. assert (D := outcome_det _ _ _ _ _ _ H K).
    destruct (match_sequence_type h v T), o; cbn [bind] in D; congruence.
  - intros <-. exact H.
Qed.
Lemma dyn_args : forall h c xs e vs e2, evaluated h c xs e vs e2 ->
  exists n, forall m, n <= m -> eval_dyn_args (eval h m) c (arg_chain xs) e = Ok (vs, e2).
Proof.
  intros h c xs e vs e2 H. induction H as [e|x xs e v e1 vs e2 O _ [n IH]].
  - exists 0. reflexivity.
  - destruct (outcome_eval _ _ _ _ _ O) as [k K]. exists (Nat.max n k). intros m L. cbn [arg_chain eval_dyn_args].
    rewrite K by lia. cbn [bind]. rewrite IH by lia. reflexivity.
Qed.
Lemma chain_lefts : forall ps, lefts (param_chain ps) = map snd ps /\ names (param_chain ps) = map fst ps.
Proof. induction ps as [|[n t] ps [A B]]; cbn; [auto|]. rewrite A, B. auto. Qed.
Lemma bind_args_ok : forall h ps vs e, List.length vs = List.length ps ->
  Forall2 (fun p v => match_sequence_type h v (snd p) = Ok true) ps vs ->
  bind_args h (map snd ps) (map fst ps) vs e = Ok (with_params e ps vs).
Proof.
  intros h ps vs e _ F. revert e. induction F as [|[n t] v ps vs M F IH]; intro e; [reflexivity|].
  cbn [map bind_args fst snd] in *. rewrite M. cbn [bind]. rewrite IH. reflexivity.
Qed.
Lemma with_params_app : forall e ps v p w, List.length ps = List.length v ->
  with_params e (ps ++ [p]) (v ++ [w]) = set_var (with_params e ps v) (fst p) w.
Proof.
  intros e ps v p w L. unfold with_params. rewrite map_app. cbn [map].
  assert (C : combine (map fst ps ++ [fst p]) (v ++ [w]) = combine (map fst ps) v ++ [(fst p, w)]).
  { revert v L. induction ps as [|q ps IH]; intros [|x v] L; try discriminate L; cbn; auto. f_equal. apply IH. auto. }
  rewrite C, fold_left_app. reflexivity.
Qed.
Lemma remove_params : forall ps vs e, List.length ps = List.length vs ->
  fold_left remove_var (rev (map fst ps)) (with_params e ps vs) = e.
Proof.
  induction ps as [|p ps IH] using rev_ind; intros vs e L.
  - reflexivity.
  - rewrite app_length in L. cbn in L. destruct vs as [|w vs] using rev_ind; [cbn in L; lia|]. clear IHvs.
    rewrite app_length in L. cbn in L. rewrite map_app, rev_app_distr. cbn [map rev app fold_left].
    rewrite with_params_app by lia. rewrite remove_set. apply IH. lia.
Qed.
Lemma call_eval : forall h c F xs e fx e1 vs e2, outcome h c F e (Ok ([XIFun fx], e1)) ->
  x_type fx = X_InlineFunction -> evaluated h c xs e1 vs e2 ->
  exists n, forall m, n <= m -> eval h (S m) c (call_with F xs) e = call_inline_func h (eval h m) fx vs c e2.
Proof.
  intros h c F xs e fx e1 vs e2 HF T E. destruct (outcome_eval _ _ _ _ _ HF) as [n N].
  destruct (dyn_args _ _ _ _ _ _ E) as [k K]. exists (Nat.max n k). intros m L. rewrite eval_S.
  unfold eval_step, call_with. cbn [x_type x_left x_right]. rewrite N by lia. cbn [bind].
  unfold apply_argument. cbn [x_left]. rewrite K by lia. cbn [bind]. rewrite T.
  change (xtype_eqb X_InlineFunction X_InlineFunction) with true. reflexivity.
Qed.
(* As many arguments as parameters, of the right types: the body, with the parameters bound; then the variables are
   what they were before the call. *)
Theorem C52_call : forall h c F xs e nm ps R body e1 vs e2 o,
  outcome h c F e (Ok ([XIFun (inline_function nm ps R body)], e1)) -> evaluated h c xs e1 vs e2 ->
  List.length vs = List.length ps -> Forall2 (fun p v => type_test h v (snd p) (Ok true)) ps vs -> scoped body ->
  outcome h c body (with_params e2 ps vs) o ->
  outcome h c (call_with F xs) e (do (v, _) <- o; Ok (v, e2)).
Proof.
  intros h c F xs e nm ps R body e1 vs e2 o HF E L M SB HB.
  destruct (call_eval _ _ _ _ _ _ _ _ _ HF eq_refl E) as [n N]. destruct (outcome_eval _ _ _ _ _ HB) as [k K].
  apply eval_outcome with (n := S (Nat.max n k)).
  - rewrite N by lia. unfold call_inline_func, inline_function. cbn [x_left x_right].
    destruct (chain_lefts ps) as [-> ->]. rewrite bind_args_ok; auto.
    + cbn [bind]. rewrite K by lia. destruct o as [[v e']| | |]; cbn [bind]; auto.
      assert (e' = with_params e2 ps vs) by (eapply outcome_quiet; eauto). subst e'. rewrite remove_params by auto. reflexivity.
    + clear - M. induction M; constructor; auto. apply type_test_iff; [discriminate|auto].
  - destruct HB as [HB _]. destruct o as [[v e']| | |]; cbn [bind]; congruence.
Qed.
(* an argument of the wrong type is an error *)
Theorem C52_wrong_type : forall h c F xs e nm ps R body e1 vs e2 ps1 p ps2 vs1 v vs2,
  outcome h c F e (Ok ([XIFun (inline_function nm ps R body)], e1)) -> evaluated h c xs e1 vs e2 ->
  ps = ps1 ++ p :: ps2 -> vs = vs1 ++ v :: vs2 ->
  Forall2 (fun p v => type_test h v (snd p) (Ok true)) ps1 vs1 -> type_test h v (snd p) (Ok false) ->
  outcome h c (call_with F xs) e (Err TypeError).
Proof.
  intros h c F xs e nm ps R body e1 vs e2 ps1 p ps2 vs1 v vs2 HF E -> -> M W.
  destruct (call_eval _ _ _ _ _ _ _ _ _ HF eq_refl E) as [n N]. apply eval_outcome with (n := S n); [|discriminate].
  rewrite N by lia. unfold call_inline_func, inline_function. cbn [x_left x_right].
  destruct (chain_lefts (ps1 ++ p :: ps2)) as [-> ->].
  assert (B : forall e, bind_args h (map snd (ps1 ++ p :: ps2)) (map fst (ps1 ++ p :: ps2)) (vs1 ++ v :: vs2) e = Err TypeError).
  { clear - M W. induction M as [|q w ps1 vs1 Q M IH]; intro e.
    - cbn [app map bind_args]. apply type_test_iff in W; [|discriminate]. rewrite W. reflexivity.
    - cbn [app map bind_args]. apply type_test_iff in Q; [|discriminate]. rewrite Q. cbn [bind]. apply IH. }
  rewrite B. reflexivity.
Qed.
(* Another number of arguments is no error: too many make the program panic, and with too few the body is evaluated
   and variables of the caller with the names of the missing parameters are removed. *)
Theorem C52_too_many_refuted : xpath_gives [] 0 (lit "let $f := function($a) { $a } return $f(1, 2)") Panic.
Proof. split; [discriminate|]. exists 20. vm_compute. reflexivity. Qed.
Theorem C52_too_many_panics : forall h c F xs e nm ps R body e1 vs e2,
  outcome h c F e (Ok ([XIFun (inline_function nm ps R body)], e1)) -> evaluated h c xs e1 vs e2 ->
  List.length ps < List.length vs ->
  Forall2 (fun p v => type_test h v (snd p) (Ok true)) ps (firstn (List.length ps) vs) ->
  outcome h c (call_with F xs) e Panic.
Proof.
  intros h c F xs e nm ps R body e1 vs e2 HF E L M.
  destruct (call_eval _ _ _ _ _ _ _ _ _ HF eq_refl E) as [n N]. apply eval_outcome with (n := S n); [|discriminate].
  rewrite N by lia. unfold call_inline_func, inline_function. cbn [x_left x_right].
  destruct (chain_lefts ps) as [-> ->].
  assert (B : forall e, bind_args h (map snd ps) (map fst ps) vs e = Panic).
  { clear - M L. revert vs L M. induction ps as [|p ps IH]; intros [|v vs] L M e; cbn [List.length] in L; try lia.
    - reflexivity.
    - cbn [List.length firstn] in M. inversion M as [|? ? ? ? Q M']; subst. apply type_test_iff in Q; [|discriminate].
      cbn [map bind_args]. rewrite Q. cbn [bind]. apply IH; auto. lia. }
  rewrite B. reflexivity.
Qed.
Theorem C52_too_few_refuted :
  xpath_gives [] 0 (lit "let $b := 7 return let $f := function($a, $b) { $a } return ($f(1), $b)") (Ok [XIInteger 1]).
Proof. split; [discriminate|]. exists 20. vm_compute. reflexivity. Qed.
(* Function items have no closure: a free variable of the body is looked up where the function is called. *)
Theorem C52_closure_refuted :
  xpath_gives [] 0 (lit "let $x := 1 return let $f := function() { $x } return let $x := 2 return $f()") (Ok [XIInteger 2]).
Proof. split; [discriminate|]. exists 20. vm_compute. reflexivity. Qed.
Example C52_example :
  parsed "$f(1, 'b')" = call_with (parsed "$f") [parsed "1"; parsed "'b'"] /\
  (exists R T body, parsed "function($a, $b) { $a || $b }" =
     inline_function (lit "(inline function)") [(lit "a", T); (lit "b", T)] R body /\ scoped body) /\
  xpath_gives [] 0 (lit "let $a := 0 return let $f := function($a, $b) { $a || $b } return ($f(1, 'b'), $a)")
    (Ok [XIString (lit "1b"); XIInteger 0]).
Proof.
  split; [vm_compute; reflexivity|]. split.
  - do 3 eexists. split; [vm_compute; reflexivity|]. vm_compute; repeat split; discriminate.
  - split; [discriminate|]. exists 20. vm_compute. reflexivity.
Qed.

(* Every heap a program can build satisfies heap_ok (SpecEdit). *)
Require Import Bool List NArith ZArith Ascii String Lia.
From Verif Require Import Str StrFacts Chars Sax Dom SpecTree SpecEdit HeapFacts EditFacts.
Import ListNotations.
Open Scope nat_scope.

Lemma same_node_sym : forall a b, same_node a b -> same_node b a.
Proof. unfold same_node. intuition congruence. Qed.

Lemma child_node_ok : forall h t p n v hint h' id, heap_ok h -> p < List.length h ->
  make_new_child_rc_node h t p n v hint = (h', id) ->
  heap_ok h' /\ id = List.length h /\ List.length h' = S (List.length h).
Proof.
  intros h t p n v hint h' id H Hp E. unfold make_new_child_rc_node, make_new_rc_node in E.
  injection E as <- <-.
  assert (O1 : heap_ok (h ++ [mkNode t 0 n v (Some p) [] []])) by (apply heap_ok_alloc; auto).
  split; [|split; auto].
  - apply heap_ok_children; auto. rewrite app_length. cbn [List.length].
    rewrite get_app_old by auto.
    assert (Q : forall c, In c (n_children (get h p)) -> c < List.length h + 1).
    { intros c Hc. apply (heap_ok_child_lt h p c H) in Hc. lia. }
    assert (Q2 : forall c, In c (n_children (get h p) ++ [List.length h]) -> c < List.length h + 1).
    { intros c Hc. apply in_app_or in Hc. destruct Hc as [Hc|[<-|[]]]; auto. lia. }
    destruct hint as [k|]; auto. destruct (k <=? List.length (n_children (get h p))); auto.
    intros c Hc. apply In_vec_insert in Hc. destruct Hc as [->|Hc]; [lia|auto].
  - rewrite upd_length, app_length. cbn. lia.
Qed.

Lemma push_attrs_ok : forall ats h e, heap_ok h -> e < List.length h ->
  heap_ok (push_attrs h e ats) /\ List.length h <= List.length (push_attrs h e ats).
Proof.
  induction ats as [|[n v] ats IH]; intros h e H He; cbn [push_attrs]; [auto|].
  unfold make_new_rc_node.
  set (h1 := h ++ [mkNode Attribute 0 n v (Some e) [] []]).
  assert (O1 : heap_ok h1) by (apply heap_ok_alloc; auto).
  assert (L1 : List.length h1 = S (List.length h)) by (unfold h1; rewrite app_length; cbn; lia).
  set (h2 := upd h1 e (set_attrs (n_attrs (get h1 e) ++ [List.length h]))).
  assert (O2 : heap_ok h2).
  { apply heap_ok_attrs; auto. intros c Hc. apply in_app_or in Hc. destruct Hc as [Hc|[<-|[]]]; [|lia].
    eapply heap_ok_attr_lt; eauto. }
  assert (L2 : List.length h2 = S (List.length h)) by (unfold h2; rewrite upd_length; auto).
  destruct (IH h2 e O2 ltac:(lia)) as [I1 I2]. split; auto. lia.
Qed.

Lemma doc_step_ok : forall h curr t h' curr', heap_ok h -> curr < List.length h ->
  doc_step h curr t = Ok (h', curr') -> heap_ok h' /\ curr' < List.length h'.
Proof.
  intros h curr t h' curr' H Hc E.
  assert (Leaf : forall ty n v, heap_ok (fst (make_new_child_rc_node h ty curr n v None)) /\
             curr < List.length (fst (make_new_child_rc_node h ty curr n v None))).
  { intros ty n v. destruct (make_new_child_rc_node h ty curr n v None) as [h1 e] eqn:E1.
    destruct (child_node_ok _ _ _ _ _ _ _ _ H Hc E1) as [O1 [_ L1]]. cbn [fst]. split; auto. lia. }
  destruct t as [|nm at0|nm|s|tg inst|s|s]; cbn [doc_step] in E.
  all: try (destruct (make_new_child_rc_node h Element curr nm [] None) as [h1 e] eqn:E1;
            destruct (child_node_ok _ _ _ _ _ _ _ _ H Hc E1) as [O1 [-> L1]];
            injection E as <- <-;
            destruct (push_attrs_ok at0 h1 (List.length h) O1 ltac:(lia)); split; [auto|lia]).
  - injection E as <- <-. auto.
  - destruct (str_eqb _ _); [|discriminate]. injection E as <- <-. split; auto.
    destruct (n_parent (get h curr)) as [p|] eqn:Ep; auto.
    destruct (heap_ok_parent h curr p H Ep). lia.
  - injection E as <- <-; apply Leaf.
  - destruct (str_eqb _ _); injection E as <- <-; apply Leaf.
  - injection E as <- <-; apply Leaf.
  - injection E as <- <-; auto.
Qed.

Lemma doc_loop_ok : forall fuel d h curr h', heap_ok h -> curr < List.length h ->
  doc_loop fuel d h curr = Ok h' -> heap_ok h'.
Proof.
  induction fuel as [|fuel IH]; intros d h curr h' H Hc E; cbn [doc_loop] in E; [discriminate|].
  destruct (raw_token (S fuel) d) as [[t d']|e| |] eqn:Et; try discriminate.
  assert (G : (do (h1, curr1) <- doc_step h curr t; doc_loop fuel d' h1 curr1) = Ok h' -> heap_ok h').
  { intro E2. destruct (doc_step h curr t) as [[h1 c1]|e| |] eqn:Es; try discriminate. cbn [bind] in E2.
    destruct (doc_step_ok _ _ _ _ _ H Hc Es) as [O1 L1]. apply (IH _ _ _ _ O1 L1 E2). }
  destruct t; auto. injection E as <-. auto.
Qed.

Lemma clear_order_heap_ok : forall h i h', heap_ok h -> clear_document_order h i = Ok h' -> heap_ok h'.
Proof.
  intros h i h' H E. unfold clear_document_order in E. destruct (root h i); try discriminate.
  cbn [bind] in E. injection E as <-. apply heap_ok_order. auto.
Qed.

Lemma insert_heap_ok : forall delta h i x h', heap_ok h -> insert_as_sibling delta h i x = Ok h' -> heap_ok h'.
Proof.
  intros delta h i x h' H E. unfold insert_as_sibling in E.
  destruct (parent h i) as [p|] eqn:Ep; [|injection E as <-; auto].
  destruct (heap_ok_parent h i p H Ep) as [L1 L2].
  eapply clear_order_heap_ok; [|exact E]. destruct (find_child_index h p i) as [n|]; auto.
  destruct (make_new_child_rc_node _ _ _ _ _ _) as [h1 d] eqn:E1.
  destruct (child_node_ok _ _ _ _ _ _ _ _ H (Nat.lt_trans _ _ _ L1 L2) E1) as [O1 [-> L3]].
  unfold shallow_copy_rc_rels. apply heap_ok_attrs.
  - apply heap_ok_children; auto. intros c Hc. apply in_app_or in Hc. destruct Hc as [Hc|Hc];
      eapply heap_ok_child_lt; eauto.
  - rewrite upd_length. intros c Hc. apply in_app_or in Hc. destruct Hc as [Hc|Hc].
    + rewrite get_upd_same in Hc by lia. cbn [set_children n_attrs] in Hc. eapply heap_ok_attr_lt; eauto.
    + eapply heap_ok_attr_lt; eauto.
Qed.

Lemma delete_child_heap_ok : forall h i c h', heap_ok h -> delete_child h i c = Ok h' -> heap_ok h'.
Proof.
  intros h i c h' H E. unfold delete_child in E. eapply clear_order_heap_ok; [|exact E].
  destruct (find_child_index h i c); auto. apply heap_ok_children; auto. intros x Hx.
  apply In_vec_remove in Hx. eapply heap_ok_child_lt; eauto.
Qed.

(* computing document-order numbers changes nothing else *)
Lemma order_attrs_same : forall ats h z h' z', order_attrs h ats z = (h', z') ->
  List.length h' = List.length h /\ forall j, same_node (get h' j) (get h j).
Proof.
  induction ats as [|a ats IH]; intros h z h' z' E; cbn [order_attrs] in E.
  - injection E as <- <-. split; auto using same_node_refl.
  - destruct (IH _ _ _ _ E) as [L S]. rewrite upd_length in L. split; auto.
    intro j. eapply same_node_trans; [apply S|]. apply get_upd_order.
Qed.

Lemma setup_same : forall fuel h i z h' z', setup_document_order_sub fuel h i z = Ok (h', z') ->
  List.length h' = List.length h /\ forall j, same_node (get h' j) (get h j).
Proof.
  induction fuel as [|fuel IH]; intros h i z h' z' E; cbn [setup_document_order_sub] in E; [discriminate|].
  set (h1 := upd h i (set_order z)) in *.
  destruct (order_attrs h1 (n_attrs (get h1 i)) (z + 1)%Z) as [h2 o] eqn:Ea.
  destruct (order_attrs_same _ _ _ _ _ Ea) as [L2 S2].
  assert (Base : List.length h2 = List.length h /\ forall j, same_node (get h2 j) (get h j)).
  { unfold h1 in *. rewrite upd_length in L2. split; auto. intro j. eapply same_node_trans; [apply S2|].
    apply get_upd_order. }
  revert E Base. generalize (n_children (get h2 i)) as cs. generalize h2. generalize o. clear - IH.
  intros o h2 cs. revert o h2. induction cs as [|c cs IHc]; intros o h2 E Base.
  - injection E as <- <-. exact Base.
  - destruct (setup_document_order_sub fuel h2 c (o + 1)%Z) as [[h3 o3]|e| |] eqn:E3; try discriminate.
    cbn [bind] in E. destruct (IH _ _ _ _ _ E3) as [L3 S3]. apply (IHc o3 h3 E).
    destruct Base as [L S]. split; [lia|]. intro j. eapply same_node_trans; eauto.
Qed.

Lemma document_order_same : forall h i z h', document_order h i = Ok (z, h') ->
  List.length h' = List.length h /\ forall j, same_node (get h' j) (get h j).
Proof.
  intros h i z h' E. unfold document_order in E. destruct (root h i) as [r|e| |]; try discriminate.
  cbn [bind] in E. destruct (Z.eqb _ _).
  - destruct (setup_document_order_sub _ _ _ _) as [[h1 z1]|e| |] eqn:E1; try discriminate.
    cbn [bind] in E. injection E as <- <-. eapply setup_same; eauto.
  - cbn [bind] in E. injection E as <- <-. auto using same_node_refl.
Qed.

Lemma heap_ok_nil : heap_ok [].
Proof. intros j Hj. cbn in Hj. lia. Qed.

Theorem reachable_ok : forall h, reachable h -> heap_ok h.
Proof.
  intros h R. induction R as [|h h' xml fuel R IH E|h h' i c R IH Hi Hc E|h h' i c R IH Hi Hc E
    |h h' i c R IH Hi Hc E|h h' i c R IH Hi Hc E|h h' i c R IH Hi Hc E|h h' i n v R IH Hi E
    |h h' i n R IH Hi E|h h' i z R IH Hi E].
  - apply heap_ok_nil.
  - unfold make_new_rc_node in E. cbn [fst] in E. eapply doc_loop_ok; [| |exact E].
    + apply heap_ok_alloc; auto.
    + rewrite app_length. cbn. lia.
  - unfold append_child in E. eapply clear_order_heap_ok; [|exact E]. apply heap_ok_children; auto.
    intros x Hx. apply in_app_or in Hx. destruct Hx as [Hx|[<-|[]]]; auto. eapply heap_ok_child_lt; eauto.
  - eapply insert_heap_ok; eauto.
  - eapply insert_heap_ok; eauto.
  - eapply delete_child_heap_ok; eauto.
  - unfold replace_with in E. destruct (parent h i); [|injection E as <-; auto].
    destruct (insert_as_previous_sibling h i c) as [h1|e| |] eqn:E1; try discriminate. cbn [bind] in E.
    destruct (delete_child h1 n i) as [h2|e| |] eqn:E2; try discriminate. cbn [bind] in E.
    eapply clear_order_heap_ok; [|exact E]. eapply delete_child_heap_ok; [|exact E2].
    eapply insert_heap_ok; eauto.
  - destruct (set_attribute_spec h i n v IH Hi) as [h2 [E2 [O2 _]]]. rewrite E in E2. injection E2 as ->. auto.
  - destruct (delete_attribute_spec h i n IH Hi) as [h2 [E2 [O2 _]]]. rewrite E in E2. injection E2 as ->. auto.
  - destruct (document_order_same _ _ _ _ E) as [L S]. apply heap_ok_same with h; auto.
Qed.

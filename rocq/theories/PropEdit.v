(* C09-C12, C54: editing the tree and document order. *)
Require Import Bool List NArith ZArith Ascii String Lia Sorted.
From Verif Require Import Str StrFacts Chars Sax Dom SpecTree SpecEdit HeapFacts BuildFacts DocFacts
  EditFacts ReachFacts DocEdit OrderFacts SessionFacts.
Import ListNotations.
Open Scope nat_scope.

(* C09: set_attribute and delete_attribute, on any element a program can have. *)
Theorem C09_set_attribute : forall h i n v, reachable h -> i < List.length h ->
  exists h', set_attribute h i n v = Ok h' /\ reachable h' /\
    attribute_value h' i n = Some v /\
    (forall m, m <> n -> attribute_value h' i m = attribute_value h i m) /\
    attr_names h' i = names_after_set n (attr_names h i) /\
    (NoDup (attr_names h i) -> NoDup (attr_names h' i)) /\
    children h' i = children h i /\ parent h' i = parent h i /\
    unchanged_except h h' (fun j => j = i).
Proof.
  intros h i n v R Hi. destruct (set_attribute_spec h i n v (reachable_ok h R) Hi)
    as [h' [E [_ [A [B [C [D [F [_ [_ [_ U]]]]]]]]]]].
  exists h'. split; [exact E|]. split; [eapply reach_set_attr; eauto|].
  repeat (split; [assumption|]). split; [|auto].
  rewrite C. unfold names_after_set. destruct (existsb (str_eqb n) (attr_names h i)) eqn:X; auto.
  intro N. apply NoDup_app; auto.
  - repeat constructor. auto.
  - intros x Hx [<-|[]]. apply existsb_names in Hx. congruence.
Qed.
Print Assumptions C09_set_attribute.

Theorem C09_delete_attribute : forall h i n, reachable h -> i < List.length h ->
  NoDup (attr_names h i) ->
  exists h', delete_attribute h i n = Ok h' /\ reachable h' /\
    attribute_value h' i n = None /\
    (forall m, m <> n -> attribute_value h' i m = attribute_value h i m) /\
    attr_names h' i = remove_first n (attr_names h i) /\
    NoDup (attr_names h' i) /\
    children h' i = children h i /\ parent h' i = parent h i /\
    unchanged_except h h' (fun j => j = i).
Proof.
  intros h i n R Hi Nd. destruct (delete_attribute_spec h i n (reachable_ok h R) Hi) as [h' H].
  destruct H as [E [_ [A [B [C H]]]]]. destruct H as [D [F [_ [_ [_ U]]]]].
  exists h'. split; [exact E|]. split; [eapply reach_del_attr; eauto|]. split; [auto|].
  repeat (split; [assumption|]). split; [|auto]. rewrite C. clear - Nd.
  induction (attr_names h i) as [|m l IH]; cbn [remove_first]; auto.
  inversion Nd; subst. destruct (str_eqb n m); auto. constructor; auto.
  intro Hin. apply H1. clear - Hin. induction l as [|k l IH]; cbn [remove_first] in *; auto.
  destruct (str_eqb n k); cbn in *; intuition.
Qed.
Print Assumptions C09_delete_attribute.

(* a parsed document, cell 1 being the element a with two attributes *)
Definition edit_heap : heap :=
  match new_document (lit "<a x='1' y='2'><b/>t<c><d/></c></a>") with Ok h => h | _ => [] end.
Lemma edit_heap_reachable : reachable edit_heap.
Proof.
  eapply reach_parse with (h := []) (xml := lit "<a x='1' y='2'><b/>t<c><d/></c></a>") (fuel := 100).
  - apply reach_empty.
  - vm_compute. reflexivity.
Qed.
Example C09_example : reachable edit_heap /\ 1 < List.length edit_heap /\
  attr_names edit_heap 1 = [lit "x"; lit "y"] /\ NoDup (attr_names edit_heap 1).
Proof.
  split; [apply edit_heap_reachable|]. split; [vm_compute; lia|]. split; [vm_compute; reflexivity|].
  vm_compute. repeat constructor; cbn; intuition discriminate.
Qed.

(* C10: the copy is cell [length h], allocated by the call. *)
Definition copied (h h' : heap) (x p : nat) : Prop :=
  let c := get h' (List.length h) in let s := get h x in
  n_type c = n_type s /\ n_name c = n_name s /\ n_value c = n_value s /\
  n_children c = n_children s /\ n_attrs c = n_attrs s /\ n_parent c = Some p.

Theorem C10_insert_previous : forall h i p x l r, reachable h ->
  parent h i = Some p -> children h p = l ++ i :: r -> ~ In i l -> x < List.length h -> x <> p ->
  exists h', insert_as_previous_sibling h i x = Ok h' /\
    children h' p = l ++ [List.length h; i] ++ r /\ copied h h' x p /\
    attributes h' p = attributes h p /\ unchanged_except h h' (fun j => j = p).
Proof.
  intros h i p x l r R Ep Ec Hn Hx Hxp.
  destruct (insert_sibling_spec 0 h i p x l r ltac:(lia) (reachable_ok h R) Ep Ec Hn Hx Hxp)
    as [h' [E [_ [_ [C [A [_ [N U]]]]]]]].
  exists h'. cbn [Nat.eqb] in C. rewrite <- app_assoc in C. auto.
Qed.
Print Assumptions C10_insert_previous.

Theorem C10_insert_next : forall h i p x l r, reachable h ->
  parent h i = Some p -> children h p = l ++ i :: r -> ~ In i l -> x < List.length h -> x <> p ->
  exists h', insert_as_next_sibling h i x = Ok h' /\
    children h' p = l ++ [i; List.length h] ++ r /\ copied h h' x p /\
    attributes h' p = attributes h p /\ unchanged_except h h' (fun j => j = p).
Proof.
  intros h i p x l r R Ep Ec Hn Hx Hxp.
  destruct (insert_sibling_spec 1 h i p x l r ltac:(lia) (reachable_ok h R) Ep Ec Hn Hx Hxp)
    as [h' [E [_ [_ [C [A [_ [N U]]]]]]]].
  exists h'. cbn [Nat.eqb] in C. rewrite <- app_assoc in C. auto.
Qed.
Print Assumptions C10_insert_next.

Theorem C10_delete_child : forall h p c, reachable h -> p < List.length h ->
  exists h', delete_child h p c = Ok h' /\
    (forall l r, children h p = l ++ c :: r -> ~ In c l -> children h' p = l ++ r) /\
    (~ In c (children h p) -> children h' p = children h p) /\
    attributes h' p = attributes h p /\ unchanged_except h h' (fun j => j = p).
Proof.
  intros h p c R Hp. destruct (delete_child_spec h p c (reachable_ok h R) Hp)
    as [h' [E [_ [A [B [C [_ U]]]]]]]. exists h'. auto.
Qed.
Print Assumptions C10_delete_child.

Theorem C10_replace_with : forall h i p x l r, reachable h ->
  parent h i = Some p -> children h p = l ++ i :: r -> ~ In i l -> x < List.length h -> x <> p ->
  exists h', replace_with h i x = Ok h' /\
    children h' p = l ++ [List.length h] ++ r /\ copied h h' x p /\
    attributes h' p = attributes h p /\ unchanged_except h h' (fun j => j = p).
Proof.
  intros h i p x l r R Ep Ec Hn Hx Hxp.
  destruct (replace_with_spec h i p x l r (reachable_ok h R) Ep Ec Hn Hx Hxp)
    as [h' [E [_ [_ [C [A [_ [N U]]]]]]]].
  exists h'. auto.
Qed.
Print Assumptions C10_replace_with.

(* cell 5 (the text t) is the middle child of cell 1; cell 6 is the element c *)
Example C10_example : reachable edit_heap /\ parent edit_heap 5 = Some 1 /\
  children edit_heap 1 = [4] ++ 5 :: [6] /\ ~ In 5 [4] /\ 6 < List.length edit_heap /\ 6 <> 1.
Proof.
  split; [apply edit_heap_reachable|]. split; [vm_compute; reflexivity|].
  split; [vm_compute; reflexivity|]. split; [cbn; lia|]. split; [vm_compute; lia|lia].
Qed.

(* C11 in full: after p.append_child(c), c is p's last child and c.parent() is p.  The second half is
   false: append_child leaves the parent pointer alone. *)
Theorem C11_append_child_refuted : exists h p c h', reachable h /\ p < List.length h /\ c < List.length h /\
  append_child h p c = Ok h' /\ parent h' c <> Some p.
Proof.
  exists edit_heap, 4, 5. eexists. split; [apply edit_heap_reachable|].
  split; [vm_compute; lia|]. split; [vm_compute; lia|]. split; [vm_compute; reflexivity|].
  vm_compute. discriminate.
Qed.
Print Assumptions C11_append_child_refuted.

(* Missing: c.parent() = p; what holds is that c becomes the last child and that parent() does not change
   (so parent() = p exactly when it was p already). *)
Theorem C11_append_child_partial : forall h p c, reachable h -> p < List.length h -> c < List.length h ->
  exists h', append_child h p c = Ok h' /\ children h' p = children h p ++ [c] /\
    parent h' c = parent h c /\ attributes h' p = attributes h p /\
    unchanged_except h h' (fun j => j = p).
Proof.
  intros h p c R Hp Hc. destruct (append_child_spec h p c (reachable_ok h R) Hp Hc)
    as [h' [E [_ [A [B [C U]]]]]]. exists h'. auto.
Qed.
Print Assumptions C11_append_child_partial.

(* C12: after any history of edits and queries on a document, asking for the document-order numbers of
   two nodes gives numbers that compare as the nodes' positions in the document's preorder (node,
   attributes, children's subtrees); asking never changes anything else. *)
Theorem C12_document_order : forall h, session h -> exists l, preorder h 0 l /\ NoDup l /\
  (forall i, In i l <-> in_document h 0 i) /\
  forall i j, In i l -> In j l -> exists zi zj h1,
    document_order h i = Ok (zi, h1) /\ document_order h1 j = Ok (zj, h1) /\
    ((zi < zj)%Z <-> before l i j) /\ (zi = zj <-> i = j) /\
    unchanged_except h h1 (fun _ => False).
Proof.
  intros h S. destruct (session_document h S) as [t [D [T0 O]]]. exists (ids t).
  rewrite <- T0. split; [eapply preorder_rep; apply D|]. split; [apply D|].
  split; [intro i; symmetry; apply in_document_ids; auto|].
  intros i j Hi Hj.
  destruct (document_order_spec h t i D O Hi) as [zi [h1 [E1 [D1 [O1 [S1 [Z1 [P1 _]]]]]]]].
  destruct (document_order_spec h1 t j D1 O1 Hj) as [zj [h2 [E2 [D2 [O2 [S2 [Z2 [P2 Q2]]]]]]]].
  assert (h2 = h1) by (apply Q2; lia). subst h2.
  exists zi, zj, h1. split; [exact E1|]. split; [exact E2|]. subst zi zj.
  split; [apply sorted_before; auto|]. split.
  - split; [|congruence]. intro Eq.
    destruct (Nat.eq_dec i j) as [|Hne]; auto. exfalso.
    assert (B : before (ids t) i j \/ before (ids t) j i).
    { clear - Hi Hj Hne. apply in_split in Hi. destruct Hi as [a [b Et]]. rewrite Et in *.
      apply in_app_or in Hj. destruct Hj as [Hj|[Hj|Hj]]; [right|congruence|left].
      - apply in_split in Hj. destruct Hj as [c [d ->]]. exists c, d, b. rewrite <- app_assoc. reflexivity.
      - apply in_split in Hj. destruct Hj as [c [d ->]]. exists a, c, d. reflexivity. }
    destruct B as [B|B]; apply (sorted_before h1 (ids t)) in B; auto; lia.
  - intros k Hk _. apply (document_order_same _ _ _ _ E1).
Qed.
Print Assumptions C12_document_order.

Example C12_example : session edit_heap /\
  preorder edit_heap 0 [0; 1; 2; 3; 4; 5; 6; 7] /\
  exists h', set_attribute edit_heap 6 (lit "q") (lit "v") = Ok h' /\ session h' /\
    preorder h' 0 [0; 1; 2; 3; 4; 5; 6; 8; 7].
Proof.
  assert (S : session edit_heap).
  { eapply ses_parse with (xml := lit "<a x='1' y='2'><b/>t<c><d/></c></a>"). vm_compute. reflexivity. }
  assert (P : forall h i l ls, attributes h i = l -> preorders h (children h i) ls ->
                preorder h i (i :: l ++ ls)) by (intros; subst; constructor; auto).
  split; [exact S|]. split.
  - apply (P _ 0 [] [1;2;3;4;5;6;7]); [reflexivity|].
    apply (pre_cons edit_heap 1 [] [1;2;3;4;5;6;7] []); [|constructor].
    apply (P _ 1 [2;3] [4;5;6;7]); [reflexivity|].
    apply (pre_cons edit_heap 4 [5;6] [4] [5;6;7]); [apply (P _ 4 [] []); [reflexivity|constructor]|].
    apply (pre_cons edit_heap 5 [6] [5] [6;7]); [apply (P _ 5 [] []); [reflexivity|constructor]|].
    apply (pre_cons edit_heap 6 [] [6;7] []); [|constructor].
    apply (P _ 6 [] [7]); [reflexivity|].
    apply (pre_cons edit_heap 7 [] [7] []); [apply (P _ 7 [] []); [reflexivity|constructor]|constructor].
  - destruct (set_attribute edit_heap 6 (lit "q") (lit "v")) as [h'|e| |] eqn:E; try (vm_compute in E; discriminate).
    exists h'. split; [reflexivity|]. split.
    + eapply ses_set with (i := 6) (n := lit "q") (v := lit "v"); [exact S| |exact E].
      apply att_child with (p := 1); [|vm_compute; auto].
      apply att_child with (p := 0); [apply att_root|vm_compute; auto].
    + vm_compute in E. injection E as <-.
      match goal with |- preorder ?h _ _ => set (H := h) end.
      apply (P _ 0 [] [1;2;3;4;5;6;8;7]); [reflexivity|].
      apply (pre_cons H 1 [] [1;2;3;4;5;6;8;7] []); [|constructor].
      apply (P _ 1 [2;3] [4;5;6;8;7]); [reflexivity|].
      apply (pre_cons H 4 [5;6] [4] [5;6;8;7]); [apply (P _ 4 [] []); [reflexivity|constructor]|].
      apply (pre_cons H 5 [6] [5] [6;8;7]); [apply (P _ 5 [] []); [reflexivity|constructor]|].
      apply (pre_cons H 6 [] [6;8;7] []); [|constructor].
      apply (P _ 6 [8] [7]); [reflexivity|].
      apply (pre_cons H 7 [] [7] []); [apply (P _ 7 [] []); [reflexivity|constructor]|constructor].
Qed.

(* C54: editing keeps a document well linked.  In full this is false: append_child leaves the old parent
   pointer, and inserting a node that has children shares them between the original and the copy. *)
Theorem C54_edited_well_linked_refuted :
  (exists h h' p c, session h /\ attached h 0 p /\ attached h 0 c /\ append_child h p c = Ok h' /\
     ~ well_linked h' 0 (in_document h' 0)) /\
  (exists h h' i x, session h /\ attached h 0 i /\ attached h 0 x /\
     insert_as_previous_sibling h i x = Ok h' /\ ~ well_linked h' 0 (in_document h' 0)).
Proof.
  assert (S : session edit_heap).
  { eapply ses_parse with (xml := lit "<a x='1' y='2'><b/>t<c><d/></c></a>"). vm_compute. reflexivity. }
  assert (A1 : attached edit_heap 0 1) by (apply att_child with (p := 0); [apply att_root|vm_compute; auto]).
  assert (A4 : attached edit_heap 0 4) by (apply att_child with (p := 1); [auto|vm_compute; auto]).
  assert (A5 : attached edit_heap 0 5) by (apply att_child with (p := 1); [auto|vm_compute; auto]).
  assert (A6 : attached edit_heap 0 6) by (apply att_child with (p := 1); [auto|vm_compute; auto]).
  split.
  - destruct (append_child edit_heap 4 5) as [h'|e| |] eqn:E; try (vm_compute in E; discriminate).
    exists edit_heap, h', 4, 5. repeat (split; [assumption|]). vm_compute in E. injection E as <-.
    intro W. destruct (wl_down _ _ _ W 4 5) as [_ B].
    + left. apply att_child with (p := 1); [|vm_compute; auto].
      apply att_child with (p := 0); [apply att_root|vm_compute; auto].
    + vm_compute. auto.
    + vm_compute in B. discriminate.
  - destruct (insert_as_previous_sibling edit_heap 5 6) as [h'|e| |] eqn:E; try (vm_compute in E; discriminate).
    exists edit_heap, h', 5, 6. repeat (split; [assumption|]). vm_compute in E. injection E as <-.
    intro W. destruct (wl_down _ _ _ W 8 7) as [_ B].
    + left. apply att_child with (p := 1); [|vm_compute; auto].
      apply att_child with (p := 0); [apply att_root|vm_compute; auto].
    + vm_compute. auto.
    + vm_compute in B. discriminate.
Qed.
Print Assumptions C54_edited_well_linked_refuted.

(* Missing: append_child, and inserting nodes that have children or attributes. *)
Theorem C54_edited_well_linked_partial : forall h, session h -> well_linked h 0 (in_document h 0).
Proof.
  intros h S. destruct (session_document h S) as [t [D [T0 _]]].
  pose proof (document_well_linked h t D) as [W1 W2 W3 W4 W5]. rewrite T0 in *.
  assert (Q : forall i, in_document h 0 i <-> In i (ids t)).
  { intro i. rewrite <- T0. apply in_document_ids. auto. }
  constructor.
  - destruct W1 as [A B]. split; auto. apply Q. auto.
  - intros p c Hp Hc. apply Q in Hp. destruct (W2 p c Hp Hc). split; auto. apply Q. auto.
  - intros p Hp. apply W3. apply Q. auto.
  - intros c Hc Hn. apply Q in Hc. destruct (W4 c Hc Hn) as [p [Hp H]]. exists p. split; auto. apply Q. auto.
  - intros c Hc. apply W5. apply Q. auto.
Qed.
Print Assumptions C54_edited_well_linked_partial.

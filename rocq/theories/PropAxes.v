(* C13-C16: document order of node sequences, node-set operators, axes. *)
Require Import Bool List NArith ZArith Ascii String Lia Sorted Permutation.
From Verif Require Import Str StrFacts Chars Sax Dom SpecTree SpecEdit HeapFacts BuildFacts SaxFacts DocFacts
  EditFacts ReachFacts DocEdit OrderFacts SessionFacts Axes SpecAxes AxesFacts PropEdit.
Import ListNotations.
Open Scope nat_scope.

(* C13: [order] is the preorder (nodes and attributes) of the document. *)
Theorem C13_sort_by_doc_order : forall h l, session h -> (forall x, In x l -> in_document h 0 x) ->
  exists order l', preorder h 0 order /\ NoDup order /\
    sort_by_doc_order h l = Ok l' /\ exactly order (fun x => In x l) l' /\ NoDup l'.
Proof.
  intros h l S Hl. destruct (session_document h S) as [t [D [T0 K]]].
  destruct (sort_spec h t l D K) as [l' [E [I SS]]].
  { intros x Hx. apply (in_document_ids h t x D). rewrite T0. auto. }
  exists (ids t), l'. split; [rewrite <- T0; eapply preorder_rep; apply D|]. split; [apply D|].
  split; auto. split; [split; auto|].
  clear - SS D. induction SS as [|a l SS IH F]; constructor; auto.
  intro Hin. rewrite Forall_forall in F. apply F in Hin.
  destruct (before_NoDup (ids t) a a (proj2 D) Hin). auto.
Qed.
Print Assumptions C13_sort_by_doc_order.

Lemma edit_heap_session : session edit_heap.
Proof. eapply ses_parse with (xml := lit "<a x='1' y='2'><b/>t<c><d/></c></a>"). vm_compute. reflexivity. Qed.
Lemma edit_heap_nodes : forall x, In x [0; 1; 4; 5; 6; 7] -> attached edit_heap 0 x.
Proof.
  assert (A1 : attached edit_heap 0 1) by (apply att_child with (p := 0); [apply att_root|vm_compute; auto]).
  assert (A6 : attached edit_heap 0 6) by (apply att_child with (p := 1); [auto|vm_compute; auto]).
  intros x Hx. cbn in Hx. intuition subst; auto.
  - apply att_root.
  - apply att_child with (p := 1); [auto|vm_compute; auto].
  - apply att_child with (p := 1); [auto|vm_compute; auto].
  - apply att_child with (p := 6); [auto|vm_compute; auto].
Qed.
Lemma edit_heap_attr : forall x, In x [2; 3] -> in_document edit_heap 0 x.
Proof.
  intros x Hx. right. exists 1. split; [apply edit_heap_nodes; cbn; auto|]. cbn in Hx. vm_compute. intuition.
Qed.
Example C13_example : session edit_heap /\ (forall x, In x [7; 2; 7; 4; 2] -> in_document edit_heap 0 x) /\
  sort_by_doc_order edit_heap [7; 2; 7; 4; 2] = Ok [2; 4; 7].
Proof.
  split; [apply edit_heap_session|]. split; [|vm_compute; reflexivity].
  intros x Hx. cbn in Hx. intuition subst.
  1,3,4: left; apply edit_heap_nodes; cbn; auto 10.
  all: apply edit_heap_attr; cbn; auto.
Qed.

(* C14 *)
Theorem C14_union : forall h l r, session h -> (forall x, In x (l ++ r) -> in_document h 0 x) ->
  exists order u, preorder h 0 order /\ nodes_union h l r = Ok u /\
    exactly order (fun x => In x l \/ In x r) u /\ NoDup u.
Proof.
  intros h l r S H. destruct (C13_sort_by_doc_order h (l ++ r) S H) as [o [u [P [_ [E [[I SS] N]]]]]].
  exists o, u. repeat split; auto.
  - intro Hx. apply I in Hx. apply in_app_or. auto.
  - intro Hx. apply I. apply in_or_app. auto.
Qed.
Print Assumptions C14_union.

(* In full, intersect and except would also sort and deduplicate any operands.  They do not. *)
Theorem C14_intersect_except_refuted :
  session edit_heap /\ (forall x, In x [6; 4; 4] -> in_document edit_heap 0 x) /\
  (forall order, preorder edit_heap 0 order ->
     ~ exactly order (fun x => In x [6; 4; 4] /\ In x [4; 6]) (nodes_intersect [6; 4; 4] [4; 6]) /\
     ~ exactly order (fun x => In x [6; 4; 4] /\ ~ In x [5]) (nodes_except [6; 4; 4] [5])).
Proof.
  split; [apply edit_heap_session|]. split.
  - intros x Hx. left. apply edit_heap_nodes. cbn in *. intuition.
  - intros order P. destruct C12_example as [_ [P0 _]].
    rewrite (preorder_fun _ _ _ P _ P0).
    assert (N : ~ before [0; 1; 2; 3; 4; 5; 6; 7] 6 4).
    { intro B. destruct (before_NoDup [0; 1; 2; 3; 4; 5; 6; 7] 6 4) as [_ Q]; auto.
      - repeat constructor; cbn; intuition discriminate.
      - apply Q. exists [0;1;2;3], [5], [7]. reflexivity. }
    split; intros [_ SS]; vm_compute in SS; inversion SS as [|? ? _ F]; subst; inversion F; auto.
Qed.
Print Assumptions C14_intersect_except_refuted.

(* What holds: the members are right, and sorted duplicate-free left operands (such as path results)
   give sorted duplicate-free results.  Missing: sorting of unsorted left operands. *)
Theorem C14_intersect_except_partial : forall l r,
  (forall x, In x (nodes_intersect l r) <-> In x l /\ In x r) /\
  (forall x, In x (nodes_except l r) <-> In x l /\ ~ In x r) /\
  (forall order, StronglySorted (before order) l ->
     exactly order (fun x => In x l /\ In x r) (nodes_intersect l r) /\
     exactly order (fun x => In x l /\ ~ In x r) (nodes_except l r)) /\
  (NoDup l -> NoDup (nodes_intersect l r) /\ NoDup (nodes_except l r)).
Proof.
  intros l r.
  assert (I : forall x, In x (nodes_intersect l r) <-> In x l /\ In x r).
  { intro x. unfold nodes_intersect. rewrite filter_In, contains_node_In. tauto. }
  assert (X : forall x, In x (nodes_except l r) <-> In x l /\ ~ In x r).
  { intro x. unfold nodes_except. rewrite filter_In, negb_true_iff, contains_node_notin. tauto. }
  split; auto. split; auto. split.
  - intros order SS. split; (split; [auto|apply SS_filter; auto]).
  - intro N. split; apply NoDup_filter; auto.
Qed.
Print Assumptions C14_intersect_except_partial.
Example C14_example : (forall x, In x ([6; 4] ++ [5; 4]) -> in_document edit_heap 0 x) /\
  nodes_union edit_heap [6; 4] [5; 4] = Ok [4; 5; 6] /\
  StronglySorted (before [0; 1; 2; 3; 4; 5; 6; 7]) [4; 5; 6].
Proof.
  split; [|split; [vm_compute; reflexivity|]].
  - intros x Hx. left. apply edit_heap_nodes. cbn in *. intuition.
  - apply (SS_before_segment [0; 1; 2; 3] [4; 5; 6] [7]).
Qed.

(* C15 *)
Theorem C15_axes_partition : forall h n, session h -> attached h 0 n -> n_type (get h n) <> Attribute ->
  exists order anc desc prec foll, node_order h 0 order /\ NoDup order /\
    (forall x, In x order <-> attached h 0 x) /\
    array_ancestor h n = Ok anc /\ array_descendant h n = Ok desc /\
    array_preceding h n = Ok prec /\ array_following h n = Ok foll /\
    Permutation order (n :: anc ++ desc ++ prec ++ foll).
Proof.
  intros h n S A Ty. destruct (session_document h S) as [t [D [T0 K]]]. rewrite <- T0 in *.
  destruct (attached_context h t n D A) as [fs [s [E <-]]].
  assert (C : context_ok h fs s).
  { split; [rewrite <- E; auto|]. destruct (fill_get h fs s) as [o [_ [Hg _]]]; [rewrite <- E; apply D|].
    rewrite Hg in Ty. exact Ty. }
  pose proof C as [D' _].
  exists (node_ids t), (rev (map f_id fs)), (flat_map node_ids (tkids s)),
    (filter (fun x => negb (contains_node (rev (map f_id fs)) x)) (nb fs)), (na fs).
  split; [eapply node_order_rep; apply D|].
  assert (Nd : NoDup (node_ids t)) by (apply NoDup_node_ids; apply D).
  split; auto. split.
  { intro x. split.
    - intro Hx. destruct (node_context t x Hx) as [gs [u [-> <-]]]. apply context_attached. auto.
    - intro Hx. destruct (attached_context h t x D Hx) as [gs [u [-> <-]]]. apply node_ids_fill. }
  split; [apply ancestors_document; auto|]. split; [apply (descendants_document h fs s); auto|].
  split; [apply preceding_document; auto|]. split; [apply following_document; auto|].
  rewrite E in *. rewrite node_ids_split in *. rewrite (node_ids_head s) in *.
  set (anc := rev (map f_id fs)). set (p := fun x => negb (contains_node anc x)).
  assert (Pn : Permutation (nb fs) (anc ++ filter p (nb fs))).
  { apply NoDup_app_inv in Nd. destruct Nd as [Nb _]. apply NoDup_Permutation; auto.
    - apply NoDup_app.
      + pose proof (SS_ancestors fs []) as SS. rewrite app_nil_r in SS. fold anc in SS. clear - SS Nb.
        induction SS as [|a l SS IH F]; constructor; auto. intro Hin. rewrite Forall_forall in F.
        apply F in Hin. destruct (before_NoDup _ _ _ Nb Hin). auto.
      + apply NoDup_filter. auto.
      + intros x Hx Hf. apply filter_In in Hf. destruct Hf as [_ Hf]. unfold p in Hf.
        apply negb_true_iff, contains_node_notin in Hf. auto.
    - intro x. rewrite in_app_iff, filter_In. unfold p. rewrite negb_true_iff, contains_node_notin. split.
      + intro Hx. destruct (in_dec Nat.eq_dec x anc); auto.
      + intros [Hx|Hx]; [|tauto]. unfold anc in Hx. apply in_rev in Hx. apply frames_in_nb. auto. }
  rewrite Pn at 1. rewrite <- !app_assoc. cbn [app].
  rewrite (Permutation_app_comm (filter p (nb fs)) (tid s :: flat_map node_ids (tkids s) ++ na fs)).
  cbn [app]. rewrite <- Permutation_middle. constructor. apply Permutation_app_head.
  rewrite <- app_assoc. apply Permutation_app_head. apply Permutation_app_comm.
Qed.
Print Assumptions C15_axes_partition.

Example C15_example : session edit_heap /\ attached edit_heap 0 6 /\ n_type (get edit_heap 6) <> Attribute /\
  array_ancestor edit_heap 6 = Ok [0; 1] /\ array_preceding edit_heap 6 = Ok [4; 5] /\
  array_descendant edit_heap 6 = Ok [7] /\ array_following edit_heap 4 = Ok [5; 6; 7].
Proof.
  split; [apply edit_heap_session|]. split; [apply edit_heap_nodes; cbn; auto 10|].
  split; [vm_compute; discriminate|]. repeat split; vm_compute; reflexivity.
Qed.

(* C16, for every non-attribute context node and every axis.  [order]: all non-attribute nodes of the
   document in document order.  Missing: attribute context nodes on the following and preceding axes
   (C16_attribute_refuted). *)
Theorem C16_axes_partial : forall h n order, session h -> attached h 0 n -> n_type (get h n) <> Attribute ->
  node_order h 0 order ->
  (exists l, array_ancestor h n = Ok l /\ exactly order (fun x => ancestor h x n) l) /\
  (exists l, array_ancestor_or_self h n = Ok l /\ exactly order (fun x => x = n \/ ancestor h x n) l) /\
  (exists l, array_descendant h n = Ok l /\ exactly order (fun x => descendant h x n) l) /\
  (exists l, array_descendant_or_self h n = Ok l /\ exactly order (fun x => x = n \/ descendant h x n) l) /\
  (exists l, array_following h n = Ok l /\ exactly order (fun x => following_of h order x n) l) /\
  (exists l, array_preceding h n = Ok l /\ exactly order (fun x => preceding_of h order x n) l) /\
  exactly order (fun x => following_sibling_of h x n) (array_following_sibling h n) /\
  exactly order (fun x => preceding_sibling_of h x n) (array_preceding_sibling h n) /\
  exactly order (fun x => parent h n = Some x) (array_parent h n) /\
  exactly order (fun x => In x (children h n)) (children h n).
Proof.
  intros h n order S A Ty O. destruct (session_document h S) as [t [D [T0 K]]]. rewrite <- T0 in *.
  destruct (attached_context h t n D A) as [fs [s [E <-]]].
  assert (C : context_ok h fs s).
  { split; [rewrite <- E; auto|]. destruct (fill_get h fs s) as [o [_ [Hg _]]]; [rewrite <- E; apply D|].
    rewrite Hg in Ty. exact Ty. }
  rewrite (node_order_fun h _ _ O _ (node_order_rep t h None (proj1 D))) in *. clear O order.
  rewrite E in *. clear t E. pose proof (NoDup_node_ids _ (proj2 D)) as Nd. pose proof (proj1 D) as R.
  pose proof (node_ids_split fs s) as Sp. pose proof (node_ids_head s) as Hd.
  set (order := node_ids (fill fs s)) in *.
  assert (Sp2 : order = nb fs ++ tid s :: (flat_map node_ids (tkids s) ++ na fs)).
  { rewrite Sp, Hd. reflexivity. }
  assert (Bm : forall x, (before order (tid s) x <-> In x (flat_map node_ids (tkids s) ++ na fs)) /\
                         (before order x (tid s) <-> In x (nb fs))).
  { intro x. rewrite Sp2. apply before_mid. rewrite <- Sp2. exact Nd. }
  assert (An : forall x, ancestor h x (tid s) <-> In x (map f_id fs)) by (intro; apply ancestor_fill; auto).
  assert (De : forall x, descendant h x (tid s) <-> In x (flat_map node_ids (tkids s))) by (intro; apply (descendant_fill fs); auto).
  assert (SA : StronglySorted (before order) (rev (map f_id fs))).
  { rewrite Sp. apply SS_ancestors. }
  assert (Dis : forall x, In x (flat_map node_ids (tkids s)) -> ~ In x (na fs)).
  { intros x Hx Hx'. rewrite Sp2 in Nd. apply NoDup_app_inv in Nd. destruct Nd as [_ [N2 _]].
    inversion N2 as [|? ? _ N3]; subst. apply NoDup_app_inv in N3. destruct N3 as [_ [_ N4]]. apply (N4 x); auto. }
  split; [|split; [|split; [|split; [|split; [|split; [|split; [|split; [|split]]]]]]]].
  - eexists. split; [exact (ancestors_document h fs s D)|]. split; [|exact SA].
    intro x. rewrite An. symmetry. apply in_rev.
  - eexists. split; [unfold array_ancestor_or_self; rewrite (ancestors_document h fs s D); reflexivity|]. split.
    + intro x. rewrite An, in_app_iff, <- in_rev. cbn. intuition.
    + apply SS_app_gen; auto; [repeat constructor|]. intros x y Hx [<-|[]]. apply Bm.
      apply in_rev in Hx. apply frames_in_nb. auto.
  - eexists. split; [apply (descendants_document h fs s D)|]. split; [intro; rewrite De; tauto|].
    rewrite Sp2. replace (nb fs ++ tid s :: flat_map node_ids (tkids s) ++ na fs)
      with ((nb fs ++ [tid s]) ++ flat_map node_ids (tkids s) ++ na fs) by (rewrite <- app_assoc; reflexivity).
    apply SS_before_segment.
  - eexists. split; [apply (descendants_document h fs s D)|]. split.
    + intro x. rewrite De, Hd. cbn. intuition.
    + rewrite Sp. apply SS_before_segment.
  - eexists. split; [eapply following_document; eauto|]. split.
    + intro x. unfold following_of. rewrite De. destruct (Bm x) as [B1 _]. rewrite B1, in_app_iff. split.
      * intro Hx. split; auto. intro Hx'. apply (Dis x); auto.
      * intros [[Hx|Hx] Hn]; auto. contradiction.
    + rewrite Sp. replace (nb fs ++ node_ids s ++ na fs) with ((nb fs ++ node_ids s) ++ na fs ++ [])
        by (rewrite app_nil_r, <- app_assoc; reflexivity).
      apply SS_before_segment.
  - eexists. split; [eapply preceding_document; eauto|]. split.
    + intro x. unfold preceding_of. rewrite An. destruct (Bm x) as [_ B2]. rewrite B2, filter_In.
      rewrite negb_true_iff, contains_node_notin, <- in_rev. tauto.
    + apply SS_filter. rewrite Sp. change (nb fs ++ node_ids s ++ na fs) with ([] ++ nb fs ++ (node_ids s ++ na fs)).
      apply SS_before_segment.
  - unfold array_following_sibling. rewrite (not_attribute h fs s C). destruct fs as [|f fs].
    + destruct (fill_get h [] s R) as [o [_ [Hg _]]].
      assert (P : parent h (tid s) = None) by (unfold parent; rewrite Hg; reflexivity). rewrite P.
      split; [|constructor]. intro x. split; [intros []|]. intros [p [E _]]. congruence.
    + destruct (fill_get h (f :: fs) s R) as [o [_ [Hg _]]].
      assert (P : parent h (tid s) = Some (f_id f)) by (unfold parent; rewrite Hg; reflexivity). rewrite P.
      destruct (fill_get h fs (plug f s) R) as [o2 [_ [Hg2 _]]].
      assert (Ec : children h (f_id f) = map tid (f_left f) ++ tid s :: map tid (f_right f)).
      { unfold children. unfold plug in Hg2. cbn [tid tkids] in Hg2. rewrite Hg2. cbn [n_children].
        rewrite map_app. reflexivity. }
      assert (Nc : NoDup (map tid (f_left f) ++ tid s :: map tid (f_right f))).
      { rewrite <- Ec. pose proof (wl_once _ _ _ (document_well_linked h _ D) (f_id f)) as Q.
        apply NoDup_app_inv in Q; [tauto|]. apply (frame_ids_in (f :: fs) s). simpl. auto. }
      rewrite Ec, after_self_false by (apply NoDup_remove_2 in Nc; intro Hin; apply Nc; apply in_or_app; auto).
      split.
      * intro x. unfold following_sibling_of. split.
        -- intro Hx. exists (f_id f). split; auto. rewrite Ec. apply before_mid; auto.
        -- intros [p [Ep B]]. rewrite P in Ep. injection Ep as <-. rewrite Ec in B. apply before_mid in B; auto.
      * rewrite Sp. cbn [na nb]. rewrite <- app_assoc. rewrite app_assoc. rewrite (app_assoc _ _ (flat_map node_ids (f_right f) ++ na fs)). apply SS_tids.
  - unfold array_preceding_sibling. rewrite (not_attribute h fs s C). destruct fs as [|f fs].
    + destruct (fill_get h [] s R) as [o [_ [Hg _]]].
      assert (P : parent h (tid s) = None) by (unfold parent; rewrite Hg; reflexivity). rewrite P.
      split; [|constructor]. intro x. split; [intros []|]. intros [p [E _]]. congruence.
    + destruct (fill_get h (f :: fs) s R) as [o [_ [Hg _]]].
      assert (P : parent h (tid s) = Some (f_id f)) by (unfold parent; rewrite Hg; reflexivity). rewrite P.
      destruct (fill_get h fs (plug f s) R) as [o2 [_ [Hg2 _]]].
      assert (Ec : children h (f_id f) = map tid (f_left f) ++ tid s :: map tid (f_right f)).
      { unfold children. unfold plug in Hg2. cbn [tid tkids] in Hg2. rewrite Hg2. cbn [n_children].
        rewrite map_app. reflexivity. }
      assert (Nc : NoDup (map tid (f_left f) ++ tid s :: map tid (f_right f))).
      { rewrite <- Ec. pose proof (wl_once _ _ _ (document_well_linked h _ D) (f_id f)) as Q.
        apply NoDup_app_inv in Q; [tauto|]. apply (frame_ids_in (f :: fs) s). simpl. auto. }
      rewrite Ec, before_self_false by (apply NoDup_remove_2 in Nc; intro Hin; apply Nc; apply in_or_app; auto).
      split.
      * intro x. unfold preceding_sibling_of. split.
        -- intro Hx. exists (f_id f). split; auto. rewrite Ec. apply before_mid; auto.
        -- intros [p [Ep B]]. rewrite P in Ep. injection Ep as <-. rewrite Ec in B. apply before_mid in B; auto.
      * rewrite Sp. cbn [na nb]. rewrite <- app_assoc. cbn [app].
        replace (nb fs ++ f_id f :: flat_map node_ids (f_left f) ++ node_ids s ++ flat_map node_ids (f_right f) ++ na fs)
          with ((nb fs ++ [f_id f]) ++ flat_map node_ids (f_left f) ++ (node_ids s ++ flat_map node_ids (f_right f) ++ na fs))
          by (rewrite <- app_assoc; reflexivity).
        apply SS_tids.
  - unfold array_parent. destruct (parent h (tid s)) as [p|] eqn:P; (split; [|repeat constructor]).
    + intro x. cbn. split; [intros [<-|[]]; auto|intro Q; injection Q; auto].
    + intro x. cbn. split; [intros []|discriminate].
  - split; [tauto|]. destruct (fill_get h fs s R) as [o [_ [Hg _]]]. unfold children. rewrite Hg. cbn [n_children].
    rewrite Sp2. replace (nb fs ++ tid s :: flat_map node_ids (tkids s) ++ na fs)
      with ((nb fs ++ [tid s]) ++ flat_map node_ids (tkids s) ++ na fs) by (rewrite <- app_assoc; reflexivity).
    apply SS_tids.
Qed.
Print Assumptions C16_axes_partial.
Example C16_example : session edit_heap /\ attached edit_heap 0 5 /\ n_type (get edit_heap 5) <> Attribute /\
  node_order edit_heap 0 [0; 1; 4; 5; 6; 7].
Proof.
  split; [apply edit_heap_session|]. split; [apply edit_heap_nodes; cbn; auto 10|].
  split; [vm_compute; discriminate|].
  destruct (C15_axes_partition edit_heap 6 edit_heap_session) as [o [a [b [c [d [O _]]]]]].
  - apply edit_heap_nodes; cbn; auto 10.
  - vm_compute; discriminate.
  - assert (X : forall h i ls, node_orders h (children h i) ls -> node_order h i (i :: ls)) by (intros; constructor; auto).
    apply (X _ 0 [1;4;5;6;7]). apply (no_cons edit_heap 1 [] [1;4;5;6;7] []); [|constructor].
    apply (X _ 1 [4;5;6;7]). apply (no_cons edit_heap 4 [5;6] [4] [5;6;7]); [apply (X _ 4 []); constructor|].
    apply (no_cons edit_heap 5 [6] [5] [6;7]); [apply (X _ 5 []); constructor|].
    apply (no_cons edit_heap 6 [] [6;7] []); [|constructor].
    apply (X _ 6 [7]). apply (no_cons edit_heap 7 [] [7] []); [apply (X _ 7 []); constructor|constructor].
Qed.

(* An attribute as context node: XPath's following axis has every later non-attribute node that is not a
   descendant; this program returns nothing.  Here attribute x (cell 2) precedes element b (cell 4). *)
Theorem C16_attribute_refuted : exists h a x order, session h /\ in_document h 0 a /\ preorder h 0 order /\
  before order a x /\ ~ descendant h x a /\ attached h 0 x /\ array_following h a = Ok [].
Proof.
  exists edit_heap, 2, 4, [0; 1; 2; 3; 4; 5; 6; 7]. split; [apply edit_heap_session|].
  split; [apply edit_heap_attr; cbn; auto|]. split; [apply C12_example|].
  split; [exists [0;1], [3], [5;6;7]; reflexivity|]. split.
  - intro H. inversion H as [n c Hc|n c d Hc _]; subst; vm_compute in Hc; contradiction.
  - split; [apply edit_heap_nodes; cbn; auto|vm_compute; reflexivity].
Qed.
Print Assumptions C16_attribute_refuted.

(* what attribute context nodes do get: the upward axes are right, the others are empty *)
Theorem C16_attribute_context : forall h p a, session h -> attached h 0 p -> In a (attributes h p) ->
  (exists l, array_ancestor h a = Ok l /\ (forall x, In x l <-> ancestor h x a)) /\
  array_parent h a = [p] /\ array_descendant h a = Ok [] /\
  array_following_sibling h a = [] /\ array_preceding_sibling h a = [].
Proof.
  intros h p a S A Ha. destruct (session_document h S) as [t [D [T0 K]]]. rewrite <- T0 in *.
  destruct (attached_context h t p D A) as [fs [s [E <-]]]. subst t. pose proof (proj1 D) as R.
  destruct (fill_get h fs s R) as [o [_ [Hg _]]].
  assert (Ha' : In a (map fst (tattrs s))) by (unfold attributes in Ha; rewrite Hg in Ha; exact Ha).
  destruct (fill_attr_get h fs s a R Ha') as [oa [n [v [_ [_ Hga]]]]].
  assert (P : parent h a = Some (tid s)) by (unfold parent; rewrite Hga; reflexivity).
  assert (At : is_attribute h a = true) by (unfold is_attribute; rewrite Hga; reflexivity).
  split.
  - unfold array_ancestor. cbn [ancestors_fuel]. rewrite P. rewrite (ancestors_loop fs h s).
    + cbn [bind]. eexists. split; [reflexivity|]. intro x. rewrite in_app_iff, <- in_rev. cbn.
      rewrite <- (ancestor_fill fs h s x R). split.
      * intros [Hx|[<-|[]]]; [eapply anc_up; eauto|apply anc_parent; auto].
      * intro Hx. inversion Hx as [n0 q E|n0 q b E A']; subst; rewrite P in E; injection E as <-; auto.
    + exact R.
    + pose proof (document_size _ _ D). pose proof (fill_depth_attr fs s a Ha'). lia.
  - unfold array_parent, array_following_sibling, array_preceding_sibling. rewrite P, At.
    repeat split; auto. unfold array_descendant. cbn [descendants_fuel]. unfold children. rewrite Hga. reflexivity.
Qed.
Print Assumptions C16_attribute_context.

(* Histories of edits on one document (SpecEdit.session). *)
Require Import Bool List NArith ZArith Ascii String Lia Sorted.
From Verif Require Import Str StrFacts Chars Sax Dom SpecTree SpecEdit HeapFacts BuildFacts SaxFacts DocFacts EditFacts ReachFacts DocEdit OrderFacts.
Import ListNotations.
Open Scope nat_scope.

(* attached nodes of a document are the non-attribute nodes of its tree *)
Lemma node_ids_fill : forall fs s, In (tid s) (node_ids (fill fs s)).
Proof.
  induction fs as [|f fs IH]; intro s; cbn [fill].
  - destruct s. simpl. auto.
  - destruct (node_context (fill fs (plug f s)) (tid (plug f s)) (IH _)) as [gs [u _]]. clear gs u.
    specialize (IH (plug f s)).
    assert (Q : forall fs (u : tree) i, In i (node_ids u) -> In i (node_ids (fill fs u))).
    { clear. induction fs as [|g fs IH]; intros u i H; cbn [fill]; auto. apply IH.
      unfold plug. cbn [node_ids]. right. apply in_flat_map. exists u. split; auto.
      apply in_or_app. simpl. auto. }
    apply Q. unfold plug. cbn [node_ids]. right. apply in_flat_map. exists s. split.
    + apply in_or_app. simpl. auto.
    + destruct s. simpl. auto.
Qed.

Lemma attached_context : forall h t i, document h t -> attached h (tid t) i ->
  exists fs s, t = fill fs s /\ tid s = i.
Proof.
  intros h t i D A. induction A as [|p c A IH Hc].
  - exists [], t. auto.
  - destruct IH as [fs [s [E Ep]]]. subst t p. destruct (fill_get _ _ _ (proj1 D)) as [o [_ [Hg _]]].
    unfold children in Hc. rewrite Hg in Hc. cbn [n_children] in Hc.
    apply in_map_iff in Hc. destruct Hc as [k [<- Hk]]. destruct (fill_kid fs s k Hk) as [f [E _]].
    exists (f :: fs), k. auto.
Qed.

Lemma context_attached : forall fs h s, document h (fill fs s) -> attached h (tid (fill fs s)) (tid s).
Proof.
  induction fs as [|f fs IH]; intros h s D; cbn [fill] in *.
  - apply att_root.
  - pose proof (IH h (plug f s) D) as A. apply att_child with (p := tid (plug f s)); auto.
    destruct (fill_get _ _ _ (proj1 D)) as [o [_ [Hg _]]]. unfold children. rewrite Hg.
    cbn [n_children plug tkids]. rewrite map_app. apply in_or_app. simpl. auto.
Qed.

Lemma in_document_ids : forall h t i, document h t -> (in_document h (tid t) i <-> In i (ids t)).
Proof.
  intros h t i D. split.
  - intros [A|[p [A Hi]]].
    + destruct (attached_context h t i D A) as [fs [s [-> <-]]]. apply fill_ids_in, tid_in_ids.
    + destruct (attached_context h t p D A) as [fs [s [-> <-]]].
      destruct (fill_get _ _ _ (proj1 D)) as [o [_ [Hg _]]]. unfold attributes in Hi. rewrite Hg in Hi.
      apply fill_ids_in. destruct s. simpl in *. right. apply in_or_app. auto.
  - intro H. destruct (ids_cases t i H) as [[fs [s [-> <-]]]|[fs [s [-> Ha]]]].
    + left. apply context_attached. auto.
    + right. exists (tid s). split; [apply context_attached; auto|].
      destruct (fill_get _ _ _ (proj1 D)) as [o [_ [Hg _]]]. unfold attributes. rewrite Hg. exact Ha.
Qed.

Lemma preorder_rep : forall t h par, rep h par t -> preorder h (tid t) (ids t).
Proof.
  induction t as [i ty nm v ats ks IH] using tree_ind'. intros h par R. apply rep_inv in R.
  destruct R as [o [_ [Hg [_ Hks]]]]. cbn [tid ids].
  assert (Ea : attributes h i = map fst ats) by (unfold attributes; rewrite Hg; reflexivity).
  rewrite <- Ea. apply pre_node.
  assert (Ec : children h i = map tid ks) by (unfold children; rewrite Hg; reflexivity).
  rewrite Ec. clear - IH Hks. induction ks as [|k ks IHk]; cbn [map flat_map]; [constructor|].
  inversion IH; inversion Hks; subst. constructor; eauto.
Qed.

Scheme preorder_ind2 := Minimality for preorder Sort Prop
with preorders_ind2 := Minimality for preorders Sort Prop.

Lemma preorder_fun : forall h i l, preorder h i l -> forall l', preorder h i l' -> l = l'.
Proof.
  intros h. apply (preorder_ind2 h (fun i l => forall l', preorder h i l' -> l = l')
                                   (fun cs l => forall l', preorders h cs l' -> l = l')).
  - intros i ls H IH l' H'. inversion H'; subst. f_equal. f_equal. auto.
  - intros l' H'. inversion H'; auto.
  - intros c cs l ls H1 IH1 H2 IH2 l' H'. inversion H'; subst. f_equal; auto.
Qed.

(* every freshly parsed node is unnumbered *)
Definition unnumbered (h : heap) : Prop := forall j, n_order (get h j) = 0%Z.
Lemma unnumbered_alloc : forall h ty n v p, unnumbered h -> unnumbered (h ++ [mkNode ty 0 n v p [] []]).
Proof.
  intros h ty n v p H j. destruct (Nat.lt_trichotomy j (List.length h)) as [L|[->|L]].
  - rewrite get_app_old by auto. apply H.
  - rewrite get_app_new. reflexivity.
  - rewrite get_out; [reflexivity|]. rewrite app_length. cbn. lia.
Qed.
Lemma unnumbered_upd : forall h i f, unnumbered h -> (forall n, n_order (f n) = n_order n) -> unnumbered (upd h i f).
Proof.
  intros h i f H Hf j. destruct (Nat.eq_dec i j) as [->|Hn].
  - destruct (Nat.lt_ge_cases j (List.length h)) as [L|L].
    + rewrite get_upd_same by auto. rewrite Hf. apply H.
    + rewrite upd_out by auto. apply H.
  - rewrite get_upd_other by auto. apply H.
Qed.
Lemma unnumbered_child : forall h ty p n v hint, unnumbered h -> unnumbered (fst (make_new_child_rc_node h ty p n v hint)).
Proof.
  intros. unfold make_new_child_rc_node, make_new_rc_node. cbn [fst]. apply unnumbered_upd; auto.
  apply unnumbered_alloc; auto.
Qed.
Lemma unnumbered_push : forall ats h e, unnumbered h -> unnumbered (push_attrs h e ats).
Proof.
  induction ats as [|[n v] ats IH]; intros h e H; cbn [push_attrs]; auto.
  unfold make_new_rc_node. apply IH. apply unnumbered_upd; auto. apply unnumbered_alloc; auto.
Qed.
Lemma unnumbered_step : forall h c t h' c', unnumbered h -> doc_step h c t = Ok (h', c') -> unnumbered h'.
Proof.
  intros h c t h' c' H E. destruct t as [|nm at0|nm|s|tg inst|s|s]; cbn [doc_step] in E.
  - injection E as <- <-. auto.
  - pose proof (unnumbered_child h Element c nm [] None H) as Q.
    destruct (make_new_child_rc_node h Element c nm [] None) as [h1 e]. injection E as <- <-.
    apply unnumbered_push. exact Q.
  - destruct (str_eqb _ _); [|discriminate]. injection E as <- <-. auto.
  - injection E as <- <-. exact (unnumbered_child h Text c [] s None H).
  - destruct (str_eqb _ _); injection E as <- <-.
    + exact (unnumbered_child h XMLDecl c (lit "xml") inst None H).
    + exact (unnumbered_child h Instruction c tg inst None H).
  - injection E as <- <-. exact (unnumbered_child h Comment c [] s None H).
  - injection E as <- <-. auto.
Qed.
Lemma unnumbered_loop : forall fuel d h c h', unnumbered h -> doc_loop fuel d h c = Ok h' -> unnumbered h'.
Proof.
  induction fuel as [|fuel IH]; intros d h c h' H E; cbn [doc_loop] in E; [discriminate|].
  destruct (raw_token (S fuel) d) as [[t d']|e| |]; try discriminate.
  assert (G : (do (h1, curr1) <- doc_step h c t; doc_loop fuel d' h1 curr1) = Ok h' -> unnumbered h').
  { intro E2. destruct (doc_step h c t) as [[h1 c1]|e| |] eqn:Es; try discriminate. cbn [bind] in E2.
    eapply IH; [|exact E2]. eapply unnumbered_step; eauto. }
  destruct t; auto. injection E as <-. auto.
Qed.
Lemma new_document_unnumbered : forall xml h, new_document xml = Ok h -> unnumbered h.
Proof.
  intros xml h E. unfold new_document, new_document_fuel, make_new_rc_node in E.
  eapply unnumbered_loop; [|exact E]. intros [|[|j]]; reflexivity.
Qed.

Lemma new_document_document : forall xml h, new_document xml = Ok h ->
  exists t, document h t /\ tid t = 0 /\ tty t = DocumentRoot /\ ids t = seq 0 (List.length h).
Proof.
  intros xml h E. destruct (new_document_tree _ _ _ E) as [t [R [I [Ty Ti]]]].
  exists t. repeat split; auto. rewrite I. apply seq_NoDup.
Qed.

Lemma tid_fill_zero : forall fs s s', tid s = tid s' -> tid (fill fs s) = 0 -> tid (fill fs s') = 0.
Proof. intros fs s s' E H. rewrite <- H. symmetry. apply tid_fill_same. auto. Qed.

Theorem session_document : forall h, session h -> exists t, document h t /\ tid t = 0 /\ order_ok h t.
Proof.
  intros h S. induction S as [xml h E|h h' i n v S IH A E|h h' i n S IH A E|h h' i c S IH A E
    |h h' i x S IH A Hx Hc Ha E|h h' i x S IH A Hx Hc Ha E|h h' i z S IH A E].
  - destruct (new_document_document _ _ E) as [t [D [T0 _]]]. exists t. split; auto. split; auto.
    left. apply (new_document_unnumbered _ _ E).
  - destruct IH as [t [D [T0 O]]]. rewrite <- T0 in A.
    destruct (attached_context h t i D A) as [fs [[si ty nm val ats ks] [-> Es]]]. cbn [tid] in Es. subst si.
    destruct (set_attribute_document _ _ _ _ _ _ _ _ n v D) as [h2 [ats' [E2 [D2 [_ Z2]]]]].
    rewrite E in E2. injection E2 as ->. eexists. split; [exact D2|]. split; [|left; exact Z2].
    eapply tid_fill_zero; [|exact T0]. reflexivity.
  - destruct IH as [t [D [T0 O]]]. rewrite <- T0 in A.
    destruct (attached_context h t i D A) as [fs [[si ty nm val ats ks] [-> Es]]]. cbn [tid] in Es. subst si.
    destruct (delete_attribute_document _ _ _ _ _ _ _ _ n D) as [h2 [ats' [E2 [D2 [_ Z2]]]]].
    rewrite E in E2. injection E2 as ->. eexists. split; [exact D2|]. split; [|left; exact Z2].
    eapply tid_fill_zero; [|exact T0]. reflexivity.
  - destruct IH as [t [D [T0 O]]]. rewrite <- T0 in A.
    destruct (attached_context h t i D A) as [fs [[si ty nm val ats ks] [-> Es]]]. cbn [tid] in Es. subst si.
    destruct (in_dec Nat.eq_dec c (map tid ks)) as [Hin|Hin].
    + apply in_map_iff in Hin. destruct Hin as [k [<- Hk]]. apply in_split in Hk. destruct Hk as [l [r ->]].
      destruct (delete_child_document _ _ _ _ _ _ _ _ _ _ D) as [h2 [E2 [D2 Z2]]].
      rewrite E in E2. injection E2 as ->. eexists. split; [exact D2|]. split; [|left; exact Z2].
      eapply tid_fill_zero; [|exact T0]. reflexivity.
    + destruct (fill_get _ _ _ (proj1 D)) as [o [_ [Hg _]]]. cbn [tid tkids] in Hg.
      unfold delete_child, find_child_index in E. rewrite Hg in E. cbn [n_children] in E.
      rewrite find_index_none in E by auto.
      destruct (clear_document h _ i D) as [h2 [E2 [D2 [Z2 _]]]]; [apply fill_ids_in; simpl; auto|].
      rewrite E in E2. injection E2 as ->. eexists. split; [exact D2|]. split; auto. left. auto.
  - destruct IH as [t [D [T0 O]]]. rewrite <- T0 in A.
    destruct (attached_context h t i D A) as [fs [s [-> Es]]]. subst i. destruct fs as [|f fs].
    + destruct (fill_get _ _ _ (proj1 D)) as [o [_ [Hg _]]].
      unfold insert_as_previous_sibling, insert_as_sibling, parent in E. rewrite Hg in E.
      cbn [n_parent hole_parent] in E. injection E as <-. eauto.
    + cbn [fill plug] in D. destruct (insert_leaf_document 0 _ _ _ _ _ _ _ _ _ _ x (Nat.le_0_l 1) D Hx Hc Ha)
        as [h2 [E2 [D2 Z2]]].
      unfold insert_as_previous_sibling in E. rewrite E in E2. injection E2 as ->. eexists. split; [exact D2|].
      split; [|left; exact Z2]. eapply tid_fill_zero; [|exact T0]. reflexivity.
  - destruct IH as [t [D [T0 O]]]. rewrite <- T0 in A.
    destruct (attached_context h t i D A) as [fs [s [-> Es]]]. subst i. destruct fs as [|f fs].
    + destruct (fill_get _ _ _ (proj1 D)) as [o [_ [Hg _]]].
      unfold insert_as_next_sibling, insert_as_sibling, parent in E. rewrite Hg in E.
      cbn [n_parent hole_parent] in E. injection E as <-. eauto.
    + cbn [fill plug] in D. destruct (insert_leaf_document 1 _ _ _ _ _ _ _ _ _ _ x (Nat.le_refl 1) D Hx Hc Ha)
        as [h2 [E2 [D2 Z2]]].
      unfold insert_as_next_sibling in E. rewrite E in E2. injection E2 as ->. eexists. split; [exact D2|].
      split; [|left; exact Z2]. eapply tid_fill_zero; [|exact T0]. reflexivity.
  - destruct IH as [t [D [T0 O]]]. rewrite <- T0 in A. apply (in_document_ids h t i D) in A.
    destruct (document_order_spec h t i D O A) as [z2 [h2 [E2 [D2 [O2 _]]]]].
    rewrite E in E2. injection E2 as <- <-. eauto.
Qed.

(* comparing numbers = comparing positions *)
Lemma sorted_before : forall h l i j, StronglySorted Z.lt (orders h l) -> In i l -> In j l ->
  ((n_order (get h i) < n_order (get h j))%Z <-> before l i j).
Proof.
  intros h l i j SS Hi Hj. unfold orders in SS. split.
  - intro Hlt. apply in_split in Hi. destruct Hi as [a [b ->]].
    assert (Hj' : In j b).
    { apply in_app_or in Hj. destruct Hj as [Hj|[<-|Hj]]; auto; [exfalso|lia].
      rewrite map_app in SS. cbn [map] in SS. clear - SS Hj Hlt.
      induction a as [|x a IH]; [contradiction|]. cbn [map app] in SS. inversion SS as [|? ? S1 F]; subst.
      destruct Hj as [->|Hj]; [|auto]. rewrite Forall_forall in F.
      specialize (F (n_order (get h i))). rewrite in_app_iff in F. simpl in F. lia. }
    apply in_split in Hj'. destruct Hj' as [b1 [b2 ->]]. exists a, b1, b2. reflexivity.
  - intros [a [b [c ->]]]. rewrite map_app in SS. clear Hi Hj. induction a as [|x a IH].
    + cbn [map app] in SS. inversion SS as [|? ? S1 F]; subst. rewrite Forall_forall in F.
      apply F. rewrite map_app. cbn [map]. apply in_or_app. simpl. auto.
    + cbn [map app] in SS. inversion SS; subst. auto.
Qed.

Lemma before_total : forall l a b, In a l -> In b l -> a <> b -> before l a b \/ before l b a.
Proof.
  intros l i j Hi Hj Hne. apply in_split in Hi. destruct Hi as [a [b Et]]. rewrite Et in *.
  apply in_app_or in Hj. destruct Hj as [Hj|[Hj|Hj]]; [right|congruence|left].
  - apply in_split in Hj. destruct Hj as [c [d ->]]. exists c, d, b. rewrite <- app_assoc. reflexivity.
  - apply in_split in Hj. destruct Hj as [c [d ->]]. exists a, c, d. reflexivity.
Qed.
Lemma before_NoDup : forall l a b, NoDup l -> before l a b -> a <> b /\ ~ before l b a.
Proof.
  intros l a b Nd [u [v [w ->]]].
  assert (G : forall u v w, NoDup (u ++ a :: v ++ b :: w) -> a <> b /\ ~ before (u ++ a :: v ++ b :: w) b a).
  { clear. induction u as [|x u IH]; intros v w Nd.
    - cbn [app] in *. inversion Nd as [|? ? Hn Nd']; subst. split.
      + intros ->. apply Hn. apply in_or_app. simpl. auto.
      + intros [p [q [r E]]]. destruct p as [|y p]; cbn [app] in E; injection E as E1 E2.
        * apply Hn. rewrite E1. apply in_or_app. simpl. auto.
        * apply Hn. rewrite E2. rewrite !in_app_iff. simpl. rewrite in_app_iff. simpl. auto.
    - cbn [app] in *. inversion Nd as [|? ? Hn Nd']; subst. destruct (IH v w Nd') as [I1 I2]. split; auto.
      intros [p [q [r E]]]. destruct p as [|y p]; cbn [app] in E; injection E as E1 E2.
      + apply Hn. rewrite E1. rewrite !in_app_iff. simpl. rewrite in_app_iff. simpl. auto.
      + apply I2. exists p, q, r. exact E2. }
  apply G; auto.
Qed.

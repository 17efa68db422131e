(* The effect of DOM edits on a well-linked document, as an edit of its tree. *)
Require Import Bool List NArith ZArith Ascii String Lia.
From Verif Require Import Str StrFacts Chars Sax Dom SpecTree SpecEdit HeapFacts BuildFacts SaxFacts DocFacts EditFacts.
Import ListNotations.
Open Scope nat_scope.

Lemma same_but_order_upd : forall h r z j, same_but_order (get (upd h r (set_order z)) j) (get h j).
Proof.
  intros h r z j. destruct (Nat.eq_dec r j) as [->|Hn].
  - destruct (Nat.lt_ge_cases j (List.length h)) as [L|L].
    + rewrite get_upd_same by auto. reflexivity.
    + rewrite upd_out by auto. reflexivity.
  - rewrite get_upd_other by auto. reflexivity.
Qed.

Lemma document_bound : forall h t i, document h t -> In i (ids t) -> i < List.length h.
Proof. intros h t i [R _] Hi. eapply rep_bound; eauto. Qed.

Lemma clear_document : forall h t i, document h t -> In i (ids t) -> exists h',
  clear_document_order h i = Ok h' /\ document h' t /\ n_order (get h' (tid t)) = 0%Z /\
  List.length h' = List.length h.
Proof.
  intros h t i D Hi. unfold clear_document_order. rewrite (root_document h t i D Hi). cbn [bind].
  eexists. split; [reflexivity|]. split; [|split].
  - split; [|apply D]. apply rep_order with h; [apply D|rewrite upd_length; auto|].
    intros. apply same_but_order_upd.
  - rewrite get_upd_same; [reflexivity|]. eapply document_bound; eauto. apply tid_in_ids.
  - apply upd_length.
Qed.

Lemma ctx_disjoint : forall fs s i, NoDup (ids (fill fs s)) -> In i (ctx_before fs ++ ctx_after fs) ->
  ~ In i (ids s).
Proof.
  intros fs s i Nd Hi Hs. rewrite ids_fill in Nd. apply NoDup_app_inv in Nd. destruct Nd as [_ [N2 N3]].
  apply NoDup_app_inv in N2. destruct N2 as [_ [_ N4]]. apply in_app_or in Hi. destruct Hi as [Hi|Hi].
  - apply (N3 i Hi). apply in_or_app. auto.
  - apply (N4 i Hs Hi).
Qed.

Lemma NoDup_fill_sub : forall fs s s', NoDup (ids (fill fs s)) -> NoDup (ids s') ->
  (forall i, In i (ids s') -> ~ In i (ctx_before fs ++ ctx_after fs)) -> NoDup (ids (fill fs s')).
Proof.
  intros fs s s' Nd Ns Hd. rewrite ids_fill in *. apply NoDup_app_inv in Nd. destruct Nd as [N1 [N2 N3]].
  apply NoDup_app_inv in N2. destruct N2 as [_ [N4 _]].
  apply NoDup_app; auto.
  - apply NoDup_app; auto. intros x Hx Hx'. apply (Hd x Hx). apply in_or_app. auto.
  - intros x Hx Hx'. apply in_app_or in Hx'. destruct Hx' as [Hx'|Hx'].
    + apply (Hd x Hx'). apply in_or_app. auto.
    + apply (N3 x Hx). apply in_or_app. auto.
Qed.

(* rewriting the record of one node: new attribute and child lists, whose members are old or fresh *)
Lemma document_relist : forall h h' fs i ty nm v ats ks ats' ks',
  document h (fill fs (T i ty nm v ats ks)) ->
  List.length h <= List.length h' ->
  (forall j, j < List.length h -> j <> i -> same_but_order (get h' j) (get h j)) ->
  (exists o p, get h' i = mkNode ty o nm v p (map tid ks') (map fst ats') /\ p = n_parent (get h i)) ->
  (forall a, In a ats' -> In a ats \/ (List.length h <= fst a /\ attr_rep h' i a)) ->
  (forall k, In k ks' -> In k ks \/ (Forall (fun j => List.length h <= j) (ids k) /\ rep h' (Some i) k)) ->
  NoDup (ids (T i ty nm v ats' ks')) ->
  document h' (fill fs (T i ty nm v ats' ks')).
Proof.
  intros h h' fs i ty nm v ats ks ats' ks' D L Same [o [p [G Ep]]] Ha Hk Nd'.
  pose proof D as [R Nd]. pose proof (subtree_nodup _ _ Nd) as Ns.
  assert (Bd : forall j, In j (ids (fill fs (T i ty nm v ats ks))) -> j < List.length h)
    by (intros; eapply document_bound; eauto).
  assert (Ii : In i (ids (T i ty nm v ats ks))) by (simpl; auto).
  assert (Ctx : forall j, In j (ctx_before fs ++ ctx_after fs) -> j < List.length h /\ j <> i).
  { intros j Hj. split.
    - apply Bd. rewrite ids_fill. apply in_app_or in Hj. apply in_or_app. destruct Hj; [auto|].
      right. apply in_or_app. auto.
    - intros ->. apply (ctx_disjoint _ _ _ Nd Hj Ii). }
  split.
  - eapply rep_fill with (h := h); [exact R|exact L|reflexivity| |].
    + intros j Hj. destruct (Ctx j Hj). auto.
    + intros q Hq. apply rep_inv in Hq. destruct Hq as [o0 [Hi [Hg [Hat Hks]]]].
      simpl in Ns. inversion Ns as [|? ? Hni Ns']; subst.
      eapply rep_T with (o := o).
      * lia.
      * rewrite G, Hg. reflexivity.
      * apply Forall_forall. intros a Hin. destruct (Ha a Hin) as [Hold|[_ Hnew]]; auto.
        rewrite Forall_forall in Hat. destruct (Hat a Hold) as [Hb [oa Hoa]]. split; [lia|].
        assert (fst a <> i).
        { intro E. apply Hni. apply in_or_app. left. rewrite <- E. apply in_map. auto. }
        pose proof (Same (fst a) Hb H) as E. rewrite Hoa in E. apply same_but_order_mk in E. exact E.
      * apply Forall_forall. intros k Hin. destruct (Hk k Hin) as [Hold|[_ Hnew]]; auto.
        rewrite Forall_forall in Hks. apply rep_order with h; auto. intros j Hj.
        apply Same; [apply (rep_bound h (Some i) k); auto|]. intro Ej. subst j. apply Hni. apply in_or_app. right.
        apply in_flat_map. eauto.
  - eapply NoDup_fill_sub; [exact Nd|exact Nd'|].
    intros j Hj Hc. destruct (Ctx j Hc) as [C1 C2]. simpl in Hj. destruct Hj as [Hj|Hj]; [congruence|].
    apply in_app_or in Hj. destruct Hj as [Hj|Hj].
    + apply in_map_iff in Hj. destruct Hj as [a [<- Hin]]. destruct (Ha a Hin) as [Hold|[Hnew _]]; [|lia].
      apply (ctx_disjoint _ _ _ Nd Hc). simpl. right. apply in_or_app. left. apply in_map. auto.
    + apply in_flat_map in Hj. destruct Hj as [k [Hin Hjk]]. destruct (Hk k Hin) as [Hold|[Hnew _]].
      * apply (ctx_disjoint _ _ _ Nd Hc). simpl. right. apply in_or_app. right. apply in_flat_map. eauto.
      * rewrite Forall_forall in Hnew. apply Hnew in Hjk. lia.
Qed.

(* ---- attributes ---- *)
Lemma find_attr_rep : forall h i ats n, Forall (attr_rep h i) ats ->
  match find_attr h (map fst ats) n with
  | Some k => exists l a v r, ats = l ++ (a, (n, v)) :: r /\ k = List.length l /\
                ~ In n (map (fun x => fst (snd x)) l)
  | None => ~ In n (map (fun x => fst (snd x)) ats)
  end.
Proof.
  intros h i ats n H. induction H as [|[a [m v]] ats Ha Hats IH]; cbn [map find_attr fst snd]; [auto|].
  destruct Ha as [_ [o Ho]]. cbn [fst snd] in Ho. rewrite Ho. cbn [n_name].
  destruct (str_eqb m n) eqn:E.
  - apply str_eqb_eq in E. subst. exists [], a, v, ats. auto.
  - apply str_eqb_neq in E. destruct (find_attr h (map fst ats) n) as [k|]; cbn [option_map].
    + destruct IH as [l [b [w [r [-> [-> Hn]]]]]]. exists ((a, (m, v)) :: l), b, w, r.
      repeat split; auto. cbn. intros [Hx|Hx]; auto.
    + cbn. intros [Hx|Hx]; auto.
Qed.

Lemma set_pair_mid : forall n v l w r, ~ In n (map fst l) -> set_pair n v (l ++ (n, w) :: r) = l ++ (n, v) :: r.
Proof.
  induction l as [|[m u] l IH]; intros w r H; cbn [app set_pair].
  - rewrite str_eqb_refl. reflexivity.
  - cbn in H. assert (E : str_eqb n m = false) by (apply str_eqb_neq; intro; subst; auto).
    rewrite E, IH; auto.
Qed.
Lemma set_pair_none : forall n v l, ~ In n (map fst l) -> set_pair n v l = l ++ [(n, v)].
Proof.
  induction l as [|[m u] l IH]; intros H; cbn [app set_pair]; auto.
  cbn in H. assert (E : str_eqb n m = false) by (apply str_eqb_neq; intro; subst; auto).
  rewrite E, IH; auto.
Qed.
Lemma drop_pair_mid : forall n l w r, ~ In n (map fst l) -> drop_pair n (l ++ (n, w) :: r) = l ++ r.
Proof.
  induction l as [|[m u] l IH]; intros w r H; cbn [app drop_pair].
  - rewrite str_eqb_refl. reflexivity.
  - cbn in H. assert (E : str_eqb n m = false) by (apply str_eqb_neq; intro; subst; auto).
    rewrite E, IH; auto.
Qed.
Lemma drop_pair_none : forall n l, ~ In n (map fst l) -> drop_pair n l = l.
Proof.
  induction l as [|[m u] l IH]; intros H; cbn [drop_pair]; auto.
  cbn in H. assert (E : str_eqb n m = false) by (apply str_eqb_neq; intro; subst; auto).
  rewrite E, IH; auto.
Qed.

Lemma set_attribute_document : forall h fs i ty nm val ats ks n v,
  document h (fill fs (T i ty nm val ats ks)) ->
  exists h' ats', set_attribute h i n v = Ok h' /\ document h' (fill fs (T i ty nm val ats' ks)) /\
    map snd ats' = set_pair n v (map snd ats) /\
    n_order (get h' (tid (fill fs (T i ty nm val ats' ks)))) = 0%Z.
Proof.
  intros h fs i ty nm val ats ks n v D. pose proof D as [R Nd].
  destruct (fill_get _ _ _ R) as [o [Hi [Hg [Hat Hks]]]]. cbn [tid tty tname tvalue tkids tattrs] in *.
  unfold set_attribute, make_new_rc_node, find_attribute_index.
  set (new := mkNode Attribute 0 n v (Some i) [] []). set (h1 := h ++ [new]).
  assert (L1 : List.length h1 = S (List.length h)) by (unfold h1; rewrite app_length; simpl; lia).
  assert (G1 : forall j, j < List.length h -> get h1 j = get h j) by (intros; apply get_app_old; auto).
  assert (GN : get h1 (List.length h) = new) by apply get_app_new.
  assert (Hat1 : Forall (attr_rep h1 i) ats).
  { rewrite Forall_forall in *. intros a Ha. destruct (Hat a Ha) as [B [oa Ea]]. split; [lia|].
    exists oa. rewrite G1; auto. }
  rewrite (G1 i Hi), Hg. cbn [n_attrs].
  pose proof (find_attr_rep h1 i ats n Hat1) as F.
  assert (X : exists ats', map fst ats' = match find_attr h1 (map fst ats) n with
               | Some k => vec_insert k (List.length h) (vec_remove k (map fst ats))
               | None => map fst ats ++ [List.length h]
               end /\ map snd ats' = set_pair n v (map snd ats) /\
               (forall a, In a ats' -> In a ats \/ a = (List.length h, (n, v))) /\
               (NoDup (map fst ats) -> NoDup (map fst ats')) /\
               (forall x, In x (map fst ats') -> In x (map fst ats) \/ x = List.length h)).
  { assert (Fresh : ~ In (List.length h) (map fst ats)).
    { intro Hin. apply in_map_iff in Hin. destruct Hin as [a [Ea Ha]].
      rewrite Forall_forall in Hat. destruct (Hat a Ha) as [B _]. lia. }
    destruct (find_attr h1 (map fst ats) n) as [k|].
    - destruct F as [l [a [w [r [-> [-> Hn]]]]]]. exists (l ++ (List.length h, (n, v)) :: r).
      rewrite !map_app in *. cbn [map fst snd] in *. split; [|split; [|split; [|split]]].
      + rewrite <- (map_length fst l). rewrite vec_replace. reflexivity.
      + symmetry. apply set_pair_mid. rewrite map_map. exact Hn.
      + intros b Hb. apply in_app_or in Hb. destruct Hb as [Hb|[Hb|Hb]]; auto;
          left; apply in_or_app; simpl; auto.
      + intro N0. apply NoDup_remove in N0. destruct N0 as [N1 N2].
        apply NoDup_Add with (a := List.length h) (l := map fst l ++ map fst r).
        * apply Add_app.
        * split; auto. intro Hin. apply Fresh. apply in_app_or in Hin. apply in_or_app. simpl.
          destruct Hin; auto.
      + intros x Hx. apply in_app_or in Hx. destruct Hx as [Hx|[Hx|Hx]]; auto; left; apply in_or_app; simpl; auto.
    - exists (ats ++ [(List.length h, (n, v))]). rewrite !map_app. cbn [map fst snd].
      split; [reflexivity|]. split; [symmetry; apply set_pair_none; rewrite map_map; exact F|].
      split; [|split].
      + intros b Hb. apply in_app_or in Hb. destruct Hb as [Hb|[Hb|[]]]; auto.
      + intro N0. apply NoDup_app; auto. repeat constructor; auto. intros x Hx [<-|[]]. auto.
      + intros x Hx. apply in_app_or in Hx. destruct Hx as [Hx|[Hx|[]]]; auto. }
  destruct X as [ats' [E1 [E2 [E3 [E4 E5]]]]]. rewrite <- E1.
  set (h2 := upd h1 i (set_attrs (map fst ats'))).
  assert (L2 : List.length h2 = S (List.length h)) by (unfold h2; rewrite upd_length; auto).
  pose proof (subtree_nodup _ _ Nd) as Ns. simpl in Ns. inversion Ns as [|? ? Hni Ns']; subst.
  apply NoDup_app_inv in Ns'. destruct Ns' as [Ns1 [Ns2 Ns3]].
  assert (Bk : forall x, In x (flat_map ids ks) -> x < List.length h).
  { intros x Hx. apply (document_bound _ _ _ D). apply fill_ids_in. simpl. right. apply in_or_app. auto. }
  assert (D2 : document h2 (fill fs (T i ty nm val ats' ks))).
  { eapply document_relist with (h := h) (ats := ats) (ks := ks); auto.
    - lia.
    - intros j Hj Hne. unfold h2. rewrite get_upd_other by auto. rewrite G1 by auto. reflexivity.
    - exists o, (n_parent (get h i)). unfold h2. rewrite get_upd_same by lia. rewrite G1 by auto.
      rewrite Hg. split; reflexivity.
    - intros a Ha. destruct (E3 a Ha) as [|Ha']; auto. subst a. right. cbn [fst]. split; [lia|].
      split; cbn [fst snd]; [lia|]. exists 0%Z. unfold h2. rewrite get_upd_other by lia. exact GN.
    - simpl. constructor.
      + intro Hin. apply in_app_or in Hin. destruct Hin as [Hin|Hin].
        * destruct (E5 i Hin) as [Hin'|Hin']; [|lia]. apply Hni. apply in_or_app. auto.
        * apply Hni. apply in_or_app. auto.
      + apply NoDup_app; auto. intros x Hx Hx'. destruct (E5 x Hx) as [Hin'| ->]; [apply (Ns3 x); auto|].
        apply Bk in Hx'. lia. }
  destruct (clear_document h2 _ i D2) as [h3 [E [D3 [Z3 _]]]].
  { apply fill_ids_in. simpl. auto. }
  exists h3, ats'. auto.
Qed.

Lemma delete_attribute_document : forall h fs i ty nm val ats ks n,
  document h (fill fs (T i ty nm val ats ks)) ->
  exists h' ats', delete_attribute h i n = Ok h' /\ document h' (fill fs (T i ty nm val ats' ks)) /\
    map snd ats' = drop_pair n (map snd ats) /\
    n_order (get h' (tid (fill fs (T i ty nm val ats' ks)))) = 0%Z.
Proof.
  intros h fs i ty nm val ats ks n D. pose proof D as [R Nd].
  destruct (fill_get _ _ _ R) as [o [Hi [Hg [Hat Hks]]]]. cbn [tid tty tname tvalue tkids tattrs] in *.
  unfold delete_attribute, find_attribute_index. rewrite Hg. cbn [n_attrs].
  pose proof (find_attr_rep h i ats n Hat) as F.
  assert (Ii : forall l, In i (ids (fill fs (T i ty nm val l ks)))) by (intro; apply fill_ids_in; simpl; auto).
  destruct (find_attr h (map fst ats) n) as [k|].
  - destruct F as [l [a [w [r [-> [-> Hn]]]]]].
    set (h2 := upd h i _).
    assert (D2 : document h2 (fill fs (T i ty nm val (l ++ r) ks))).
    { eapply document_relist with (h := h) (ats := l ++ (a, (n, w)) :: r) (ks := ks); auto.
      - unfold h2. rewrite upd_length. auto.
      - intros j Hj Hne. unfold h2. rewrite get_upd_other by auto. reflexivity.
      - exists o, (n_parent (get h i)). unfold h2. rewrite get_upd_same by auto. rewrite Hg.
        split; auto. unfold set_attrs. cbn [n_type n_order n_name n_value n_parent n_children].
        rewrite !map_app. cbn [map fst]. rewrite <- (map_length fst l), vec_remove_mid. reflexivity.
      - intros b Hb. left. apply in_app_or in Hb. apply in_or_app. simpl. destruct Hb; auto.
      - apply subtree_nodup in Nd. simpl in *. rewrite !map_app in *. cbn [map fst] in Nd.
        inversion Nd as [|? ? H1 H2]; subst. constructor.
        + intro Hin. apply H1. rewrite !in_app_iff in *. simpl. tauto.
        + rewrite <- app_assoc in *. cbn [app] in H2. apply NoDup_remove_1 in H2. exact H2. }
    destruct (clear_document h2 _ i D2 (Ii _)) as [h3 [E [D3 [Z3 _]]]].
    exists h3, (l ++ r). split; [exact E|]. split; auto. split; auto. rewrite !map_app. cbn [map snd].
    symmetry. apply drop_pair_mid. rewrite map_map. exact Hn.
  - destruct (clear_document h _ i D (Ii _)) as [h3 [E [D3 [Z3 _]]]]. exists h3, ats. split; [exact E|].
    split; auto. split; auto. symmetry. apply drop_pair_none. rewrite map_map. exact F.
Qed.

Lemma delete_child_document : forall h fs i ty nm val ats l k r,
  document h (fill fs (T i ty nm val ats (l ++ k :: r))) ->
  exists h', delete_child h i (tid k) = Ok h' /\ document h' (fill fs (T i ty nm val ats (l ++ r))) /\
    n_order (get h' (tid (fill fs (T i ty nm val ats (l ++ r))))) = 0%Z.
Proof.
  intros h fs i ty nm val ats l k r D. pose proof D as [R Nd].
  destruct (fill_get _ _ _ R) as [o [Hi [Hg [Hat Hks]]]]. cbn [tid tty tname tvalue tkids tattrs] in *.
  unfold delete_child, find_child_index. rewrite Hg. cbn [n_children].
  pose proof (subtree_nodup _ _ Nd) as Ns. simpl in Ns. inversion Ns as [|? ? Hni Ns']; subst.
  apply NoDup_app_inv in Ns'. destruct Ns' as [Ns1 [Ns2 Ns3]].
  pose proof (NoDup_tids _ Ns2) as Nt. rewrite map_app in *. cbn [map] in *.
  assert (Hk : ~ In (tid k) (map tid l)).
  { apply NoDup_remove_2 in Nt. intro Hin. apply Nt. apply in_or_app. auto. }
  rewrite find_index_mid by auto.
  set (h2 := upd h i _).
  assert (D2 : document h2 (fill fs (T i ty nm val ats (l ++ r)))).
  { eapply document_relist with (h := h) (ats := ats) (ks := l ++ k :: r); auto.
    - unfold h2. rewrite upd_length. auto.
    - intros j Hj Hne. unfold h2. rewrite get_upd_other by auto. reflexivity.
    - exists o, (n_parent (get h i)). unfold h2. rewrite get_upd_same by auto. rewrite Hg.
      split; auto. unfold set_children. cbn [n_type n_order n_name n_value n_parent n_attrs].
      rewrite vec_remove_mid, map_app. reflexivity.
    - intros b Hb. left. apply in_app_or in Hb. apply in_or_app. simpl. destruct Hb; auto.
    - simpl. rewrite flat_map_app in *. cbn [flat_map] in *. constructor.
      + intro Hin. apply Hni. rewrite !in_app_iff in *. tauto.
      + apply NoDup_app; auto.
        * apply NoDup_app_inv in Ns2. destruct Ns2 as [A1 [A2 A3]]. apply NoDup_app_inv in A2.
          destruct A2 as [_ [A4 _]]. apply NoDup_app; auto. intros x Hx Hx'. apply (A3 x Hx).
          apply in_or_app. auto.
        * intros x Hx Hx'. apply (Ns3 x Hx). rewrite !in_app_iff in *. tauto. }
  destruct (clear_document h2 _ i D2) as [h3 [E [D3 [Z3 _]]]].
  { apply fill_ids_in. simpl. auto. }
  exists h3. auto.
Qed.

(* Inserting a node without children and attributes.  (The copy of a node with children or attributes
   shares them with the original, and their parent() remains the original: C54_insert_refuted.) *)
Lemma insert_leaf_document : forall delta h fs i ty nm val ats l k r x, delta <= 1 ->
  document h (fill fs (T i ty nm val ats (l ++ k :: r))) ->
  x < List.length h -> children h x = [] -> attributes h x = [] ->
  let new := T (List.length h) (n_type (get h x)) (n_name (get h x)) (n_value (get h x)) [] [] in
  exists h', insert_as_sibling delta h (tid k) x = Ok h' /\
    document h' (fill fs (T i ty nm val ats (l ++ (if Nat.eqb delta 0 then [new; k] else [k; new]) ++ r))) /\
    n_order (get h' (tid (fill fs (T i ty nm val ats (l ++ (if Nat.eqb delta 0 then [new; k] else [k; new]) ++ r))))) = 0%Z.
Proof.
  intros delta h fs i ty nm val ats l k r x Hd D Hx Hxc Hxa new. pose proof D as [R Nd].
  destruct (fill_get _ _ _ R) as [o [Hi [Hg [Hat Hks]]]]. cbn [tid tty tname tvalue tkids tattrs] in *.
  assert (Hkid : get h (tid k) = get h (tid k)) by reflexivity.
  assert (Pk : parent h (tid k) = Some i).
  { rewrite Forall_forall in Hks. assert (Hin : In k (l ++ k :: r)) by (apply in_or_app; simpl; auto).
    destruct (rep_get _ _ _ (Hks k Hin)) as [ok [_ [Hgk _]]]. unfold parent. rewrite Hgk. reflexivity. }
  unfold insert_as_sibling. rewrite Pk. unfold find_child_index. rewrite Hg. cbn [n_children].
  pose proof (subtree_nodup _ _ Nd) as Ns. simpl in Ns. inversion Ns as [|? ? Hni Ns']; subst.
  apply NoDup_app_inv in Ns'. destruct Ns' as [Ns1 [Ns2 Ns3]].
  pose proof (NoDup_tids _ Ns2) as Nt. rewrite map_app in *. cbn [map] in *.
  assert (Hk : ~ In (tid k) (map tid l)).
  { apply NoDup_remove_2 in Nt. intro Hin. apply Nt. apply in_or_app. auto. }
  rewrite find_index_mid by auto. rewrite map_length.
  unfold make_new_child_rc_node, make_new_rc_node.
  set (nw := mkNode (n_type (get h x)) 0 (n_name (get h x)) (n_value (get h x)) (Some i) [] []).
  set (h1 := h ++ [nw]).
  assert (L1 : List.length h1 = S (List.length h)) by (unfold h1; rewrite app_length; simpl; lia).
  assert (G1 : forall j, j < List.length h -> get h1 j = get h j) by (intros; apply get_app_old; auto).
  assert (GN : get h1 (List.length h) = nw) by apply get_app_new.
  rewrite (G1 i Hi), Hg. cbn [n_children].
  set (ks' := l ++ (if Nat.eqb delta 0 then [new; k] else [k; new]) ++ r).
  match goal with |- context [if ?b then vec_insert _ _ _ else _] => set (cs' := if b then _ else _) end.
  assert (Ecs : cs' = map tid ks').
  { unfold cs', ks'. replace (Nat.leb (List.length l + delta) (List.length (map tid l ++ tid k :: map tid r))) with true
      by (symmetry; apply Nat.leb_le; rewrite app_length, map_length; simpl; lia).
    destruct delta as [|[|?]]; [| |lia]; cbn [Nat.eqb]; rewrite !map_app; cbn [map tid new app].
    - rewrite Nat.add_0_r, <- (map_length tid l), vec_insert_at. reflexivity.
    - replace (List.length l + 1) with (List.length (map tid l ++ [tid k])) by (rewrite app_length, map_length; reflexivity).
      replace (map tid l ++ tid k :: map tid r) with ((map tid l ++ [tid k]) ++ map tid r) by (rewrite <- app_assoc; reflexivity).
      rewrite vec_insert_at, <- !app_assoc. reflexivity. }
  rewrite Ecs. clear cs' Ecs.
  set (h2 := upd h1 i (set_children (map tid ks'))).
  assert (L2 : List.length h2 = S (List.length h)) by (unfold h2; rewrite upd_length; auto).
  assert (Hxi : x <> i).
  { intros ->. unfold children in Hxc. rewrite Hg in Hxc. cbn in Hxc. destruct l; discriminate. }
  assert (G2x : get h2 x = get h x) by (unfold h2; rewrite get_upd_other by congruence; auto).
  assert (G2n : get h2 (List.length h) = nw) by (unfold h2; rewrite get_upd_other by lia; auto).
  unfold shallow_copy_rc_rels. rewrite G2x, G2n. unfold children, attributes in Hxc, Hxa.
  rewrite Hxc, Hxa. cbn [app n_children nw]. rewrite app_nil_r.
  set (h3 := upd h2 (List.length h) _). set (h4 := upd h3 (List.length h) _).
  assert (G3 : get h3 (List.length h) = nw).
  { unfold h3. rewrite get_upd_same by lia. rewrite G2n. reflexivity. }
  assert (L3 : List.length h3 = S (List.length h)) by (unfold h3; rewrite upd_length; auto).
  assert (G4 : get h4 (List.length h) = nw).
  { unfold h4. rewrite get_upd_same by lia. rewrite G3. reflexivity. }
  assert (L4 : List.length h4 = S (List.length h)) by (unfold h4; rewrite upd_length; auto).
  assert (G4o : forall j, j < List.length h -> get h4 j = get h2 j).
  { intros j Hj. unfold h4, h3. rewrite !get_upd_other by lia. reflexivity. }
  assert (Bk : forall z, In z (map fst ats ++ flat_map ids (l ++ k :: r)) -> z < List.length h).
  { intros z Hz. apply (document_bound _ _ _ D). apply fill_ids_in. simpl. right. auto. }
  assert (Pids : forall z, In z (flat_map ids ks') -> In z (flat_map ids (l ++ k :: r)) \/ z = List.length h).
  { intros z Hz. unfold ks' in Hz. rewrite !flat_map_app in *. cbn [flat_map] in *.
    destruct (Nat.eqb delta 0); cbn [flat_map ids map new] in Hz; rewrite !in_app_iff in *; simpl in Hz; intuition. }
  assert (Nks : NoDup (flat_map ids ks')).
  { assert (Fr : ~ In (List.length h) (flat_map ids (l ++ k :: r))).
    { intro Hin. assert (List.length h < List.length h); [|lia]. apply Bk. apply in_or_app. auto. }
    unfold ks'. rewrite flat_map_app in *. cbn [flat_map] in *. rewrite !in_app_iff in Fr.
    rewrite flat_map_app. destruct (Nat.eqb delta 0); cbn [flat_map ids map new app].
    - apply NoDup_Add with (a := List.length h) (l := flat_map ids l ++ ids k ++ flat_map ids r).
      + rewrite app_nil_r. apply Add_app.
      + split; auto. rewrite !in_app_iff. tauto.
    - rewrite app_assoc in Ns2. rewrite <- app_assoc. cbn [app]. rewrite app_assoc.
      apply NoDup_Add with (a := List.length h) (l := (flat_map ids l ++ ids k) ++ flat_map ids r).
      + apply Add_app.
      + split; auto. rewrite !in_app_iff. tauto. }
  assert (D4 : document h4 (fill fs (T i ty nm val ats ks'))).
  { eapply document_relist with (h := h) (ats := ats) (ks := l ++ k :: r); auto.
    - lia.
    - intros j Hj Hne. rewrite G4o by auto. unfold h2. rewrite get_upd_other by auto. rewrite G1; auto. reflexivity.
    - exists o, (n_parent (get h i)). rewrite G4o by auto. unfold h2. rewrite get_upd_same by lia. rewrite G1 by auto.
      rewrite Hg. split; reflexivity.
    - intros b Hb. assert (Hc : In b (l ++ k :: r) \/ b = new).
      { unfold ks' in Hb. destruct (Nat.eqb delta 0); rewrite !in_app_iff in *; simpl in *; intuition. }
      destruct Hc as [Hc| ->]; auto. right. split.
      + repeat constructor.
      + eapply rep_T with (o := 0%Z); auto. lia.
    - simpl. constructor.
      + intro Hin. apply in_app_or in Hin. destruct Hin as [Hin|Hin].
        * apply Hni. apply in_or_app. auto.
        * apply Pids in Hin. destruct Hin as [Hin|Hin]; [|lia]. apply Hni. apply in_or_app. auto.
      + apply NoDup_app; auto. intros z Hz Hz'. apply Pids in Hz'. destruct Hz' as [Hz'| ->].
        * apply (Ns3 z Hz Hz').
        * assert (List.length h < List.length h); [|lia]. apply Bk. apply in_or_app. auto. }
  destruct (clear_document h4 _ (tid k) D4) as [h5 [E [D5 [Z5 _]]]].
  { apply fill_ids_in. simpl. right. apply in_or_app. right. apply map_tid_incl. unfold ks'.
    rewrite !map_app. apply in_or_app. right. destruct (Nat.eqb delta 0); simpl; auto. }
  exists h5. auto.
Qed.

(* Sorting into document order, node-set operators, axes. *)
Require Import Bool List NArith ZArith Ascii String Lia Sorted Permutation.
From Verif Require Import Str StrFacts Chars Sax Dom SpecTree SpecEdit HeapFacts BuildFacts SaxFacts DocFacts EditFacts ReachFacts DocEdit OrderFacts SessionFacts Axes SpecAxes.
Import ListNotations.
Open Scope nat_scope.

(* ---------------- numbers ---------------- *)
Lemma document_order_all : forall h t, document h t -> order_ok h t -> exists h1,
  document h1 t /\ StronglySorted Z.lt (orders h1 (ids t)) /\
  forall i, In i (ids t) -> document_order h i = Ok (n_order (get h1 i), h1).
Proof.
  intros h t D K. assert (Ht : In (tid t) (ids t)) by apply tid_in_ids.
  destruct (document_order_spec h t (tid t) D K Ht) as [z [h1 [E [D1 [_ [SS _]]]]]].
  exists h1. split; auto. split; auto. intros i Hi.
  unfold document_order in *. rewrite (root_document h t _ D Ht) in E. rewrite (root_document h t _ D Hi).
  cbn [bind] in *.
  destruct (if Z.eqb (n_order (get h (tid t))) 0 then _ else _) as [h2|e| |]; try discriminate.
  cbn [bind] in *. injection E as <- <-. reflexivity.
Qed.

(* the pure number equals the one obtained by threading the cache through any earlier query *)
Theorem doc_num_cached : forall h, session h -> forall i j zi h1,
  in_document h 0 i -> in_document h 0 j -> document_order h i = Ok (zi, h1) ->
  exists zj, document_order h1 j = Ok (zj, h1) /\ doc_num h j = Ok zj.
Proof.
  intros h S i j zi h1 Hi Hj E. destruct (session_document h S) as [t [D [T0 K]]].
  rewrite <- T0 in Hi, Hj. apply (in_document_ids h t) in Hi; auto. apply (in_document_ids h t) in Hj; auto.
  destruct (document_order_all h t D K) as [h2 [D2 [SS2 All]]].
  rewrite (All i Hi) in E. injection E as <- <-. exists (n_order (get h2 j)).
  destruct (document_order_spec h t i D K Hi) as [z [h3 [E3 [D3 [K3 [_ [_ [P3 _]]]]]]]].
  rewrite (All i Hi) in E3. injection E3 as <- <-.
  destruct (document_order_spec h2 t j D3 K3 Hj) as [z4 [h4 [E4 [_ [_ [_ [Z4 [_ Q]]]]]]]].
  rewrite Q in E4, Z4 by lia. rewrite E4, Z4. split; auto. unfold doc_num. rewrite (All j Hj). reflexivity.
Qed.

(* ---------------- sorting ---------------- *)
Lemma insert_key_perm : forall x l, Permutation (insert_key x l) (x :: l).
Proof.
  intros x l. induction l as [|y l IH]; cbn [insert_key]; auto.
  destruct (Z.leb (fst x) (fst y)); auto. rewrite IH. apply perm_swap.
Qed.
Lemma sort_keys_perm : forall l, Permutation (sort_keys l) l.
Proof. induction l as [|x l IH]; cbn [sort_keys]; auto. rewrite insert_key_perm. auto. Qed.

Definition kle (a b : Z * nat) : Prop := (fst a <= fst b)%Z.
Lemma insert_key_sorted : forall x l, StronglySorted kle l -> StronglySorted kle (insert_key x l).
Proof.
  intros x l H. induction H as [|y l Hl IH Hy]; cbn [insert_key].
  - repeat constructor.
  - destruct (Z.leb_spec (fst x) (fst y)) as [L|L].
    + constructor; [constructor; auto|]. constructor; [exact L|]. eapply Forall_impl; [|exact Hy].
      unfold kle. cbn. intros. lia.
    + constructor; auto. apply Forall_forall. intros z Hz.
      apply (Permutation_in _ (insert_key_perm x l)) in Hz. destruct Hz as [<-|Hz].
      * unfold kle. lia.
      * rewrite Forall_forall in Hy. auto.
Qed.
Lemma sort_keys_sorted : forall l, StronglySorted kle (sort_keys l).
Proof. induction l; cbn [sort_keys]; [constructor|]. apply insert_key_sorted. auto. Qed.

(* with an injective key, removing adjacent repetitions removes all *)
Lemma dedup_incl : forall l x, In x (dedup_adjacent l) <-> In x l.
Proof.
  induction l as [|a l IH]; intro x; cbn [dedup_adjacent]; [tauto|].
  destruct (dedup_adjacent l) as [|y l''] eqn:E.
  - cbn [In] in *. specialize (IH x). cbn in IH. tauto.
  - destruct (Nat.eqb_spec y a) as [->|Hn]; cbn [In] in *; specialize (IH x); cbn in IH; tauto.
Qed.

Lemma dedup_sorted : forall (k : nat -> Z) l,
  (forall a b, In a l -> In b l -> k a = k b -> a = b) ->
  StronglySorted (fun a b => (k a <= k b)%Z) l ->
  StronglySorted (fun a b => (k a < k b)%Z) (dedup_adjacent l).
Proof.
  intros k l Inj SS. induction SS as [|a l SS IH Fa]; cbn [dedup_adjacent]; [constructor|].
  assert (IH' : StronglySorted (fun a b => (k a < k b)%Z) (dedup_adjacent l)).
  { apply IH. intros. apply Inj; simpl; auto. }
  destruct (dedup_adjacent l) as [|y l''] eqn:E.
  - repeat constructor.
  - inversion IH' as [|? ? S2 F2]; subst.
    assert (Hy : In y l) by (apply dedup_incl; rewrite E; simpl; auto).
    rewrite Forall_forall in Fa. pose proof (Fa y Hy) as Hay.
    destruct (Nat.eqb_spec y a) as [->|Hn].
    + constructor; auto.
    + assert (k a < k y)%Z.
      { assert (k a <> k y) by (intro Eq; apply Hn; symmetry; apply Inj; simpl; auto). lia. }
      constructor; [constructor; auto|]. constructor; auto.
      eapply Forall_impl; [|exact F2]. cbn. intros. lia.
Qed.

Lemma map_res_ok : forall (A B : Type) (f : A -> res B) (g : A -> B) l,
  (forall x, In x l -> f x = Ok (g x)) -> map_res f l = Ok (map g l).
Proof.
  intros A B f g l H. induction l as [|x l IH]; auto. cbn [map_res map].
  rewrite (H x) by (simpl; auto). cbn [bind]. rewrite IH by (intros; apply H; simpl; auto). reflexivity.
Qed.

Lemma combine_map : forall (A B : Type) (g : A -> B) l, combine (map g l) l = map (fun x => (g x, x)) l.
Proof. intros A B g l. induction l as [|x l IH]; auto. cbn. rewrite IH. reflexivity. Qed.

Lemma SS_map : forall (A B : Type) (f : A -> B) (R : A -> A -> Prop) (Q : B -> B -> Prop) l,
  (forall a b, In a l -> In b l -> R a b -> Q (f a) (f b)) ->
  StronglySorted R l -> StronglySorted Q (map f l).
Proof.
  intros A B f R Q l H S. induction S as [|a l S IH F]; cbn [map]; constructor.
  - apply IH. intros. apply H; simpl; auto.
  - apply Forall_map. rewrite Forall_forall in *. intros. apply H; simpl; auto.
Qed.
Lemma SS_impl : forall (A : Type) (R Q : A -> A -> Prop) l,
  (forall a b, In a l -> In b l -> R a b -> Q a b) -> StronglySorted R l -> StronglySorted Q l.
Proof. intros A R Q l H S. rewrite <- (map_id l). eapply SS_map; eauto. Qed.

Theorem sort_spec : forall h t l, document h t -> order_ok h t -> (forall x, In x l -> In x (ids t)) ->
  exists l', sort_by_doc_order h l = Ok l' /\ (forall x, In x l' <-> In x l) /\
    StronglySorted (before (ids t)) l'.
Proof.
  intros h t l D K Hl. unfold sort_by_doc_order.
  destruct (Nat.leb_spec (List.length l) 1) as [L|L].
  - exists l. split; auto. split; [tauto|]. destruct l as [|a [|b l]]; [constructor|repeat constructor|].
    cbn in L. lia.
  - destruct (document_order_all h t D K) as [h1 [D1 [SS All]]].
    set (k := fun i => n_order (get h1 i)).
    rewrite (map_res_ok _ _ (doc_num h) k).
    2: { intros x Hx. unfold doc_num. rewrite (All x (Hl x Hx)). reflexivity. }
    cbn [bind]. rewrite combine_map.
    set (s := sort_keys (map (fun x => (k x, x)) l)).
    assert (P : Permutation (map snd s) l).
    { unfold s. rewrite (Permutation_map snd (sort_keys_perm _)). rewrite map_map. cbn. rewrite map_id. auto. }
    assert (Keys : forall p, In p s -> fst p = k (snd p)).
    { intros p Hp. apply (Permutation_in _ (sort_keys_perm _)) in Hp. apply in_map_iff in Hp.
      destruct Hp as [x [<- _]]. reflexivity. }
    exists (dedup_adjacent (map snd s)). split; auto.
    assert (In1 : forall x, In x (dedup_adjacent (map snd s)) <-> In x l).
    { intro x. rewrite dedup_incl. split; apply Permutation_in; auto using Permutation_sym. }
    split; auto.
    eapply SS_impl; [|apply (dedup_sorted k)].
    + intros a b Ha Hb Hlt. apply In1 in Ha, Hb.
      apply (sorted_before h1 (ids t) a b SS); auto.
    + intros a b Ha Hb Eq. apply (Permutation_in _ P) in Ha, Hb.
      destruct (Nat.eq_dec a b) as [|Hne]; auto. exfalso.
      destruct (before_total (ids t) a b) as [B|B]; auto;
        apply (sorted_before h1 (ids t)) in B; auto; unfold k in Eq; lia.
    + eapply SS_map; [|apply sort_keys_sorted]. unfold kle. intros a b Ha Hb Hab.
      rewrite <- !Keys; auto.
Qed.

(* ---------------- axes ---------------- *)
Scheme node_order_ind2 := Minimality for node_order Sort Prop
with node_orders_ind2 := Minimality for node_orders Sort Prop.

Lemma node_order_fun : forall h i l, node_order h i l -> forall l', node_order h i l' -> l = l'.
Proof.
  intros h. apply (node_order_ind2 h (fun i l => forall l', node_order h i l' -> l = l')
                                     (fun cs l => forall l', node_orders h cs l' -> l = l')).
  - intros i ls H IH l' H'. inversion H'; subst. f_equal. auto.
  - intros l' H'. inversion H'; auto.
  - intros c cs l ls H1 IH1 H2 IH2 l' H'. inversion H'; subst. f_equal; auto.
Qed.

Lemma node_order_rep : forall t h par, rep h par t -> node_order h (tid t) (node_ids t).
Proof.
  induction t as [i ty nm v ats ks IH] using tree_ind'. intros h par R. apply rep_inv in R.
  destruct R as [o [_ [Hg [_ Hks]]]]. cbn [tid node_ids]. apply no_node.
  assert (Ec : children h i = map tid ks) by (unfold children; rewrite Hg; reflexivity).
  rewrite Ec. clear - IH Hks. induction ks as [|k ks IHk]; cbn [map flat_map]; [constructor|].
  inversion IH; inversion Hks; subst. constructor; eauto.
Qed.

Lemma node_ids_head : forall t, node_ids t = tid t :: flat_map node_ids (tkids t).
Proof. destruct t; reflexivity. Qed.

Lemma NoDup_node_ids : forall t, NoDup (ids t) -> NoDup (node_ids t).
Proof.
  induction t as [i ty nm v ats ks IH] using tree_ind'. intro Nd. cbn [ids node_ids] in *.
  inversion Nd as [|? ? Hn Nd']; subst. apply NoDup_app_inv in Nd'. destruct Nd' as [_ [Nk _]].
  constructor.
  - intro Hin. apply Hn. apply in_or_app. right. apply in_flat_map in Hin. destruct Hin as [k [Hk Hi]].
    apply in_flat_map. exists k. split; auto. apply node_ids_ids. auto.
  - clear Hn Nd. induction ks as [|k ks IHk]; cbn [flat_map] in *; [constructor|].
    apply NoDup_app_inv in Nk. destruct Nk as [N1 [N2 N3]]. inversion IH; subst.
    apply NoDup_app; auto. intros x Hx Hx'. apply (N3 x).
    + apply node_ids_ids. auto.
    + apply in_flat_map in Hx'. destruct Hx' as [k' [Hk' Hi]]. apply in_flat_map. exists k'. split; auto.
      apply node_ids_ids. auto.
Qed.

(* context of a node in the list of non-attribute nodes *)
Fixpoint nb (fs : list frame) : list nat :=
  match fs with
  | [] => []
  | f :: fs' => nb fs' ++ f_id f :: flat_map node_ids (f_left f)
  end.
Fixpoint na (fs : list frame) : list nat :=
  match fs with
  | [] => []
  | f :: fs' => flat_map node_ids (f_right f) ++ na fs'
  end.
Lemma node_ids_split : forall fs s, node_ids (fill fs s) = nb fs ++ node_ids s ++ na fs.
Proof.
  induction fs as [|f fs IH]; intro s; cbn [fill nb na].
  - rewrite app_nil_r. reflexivity.
  - rewrite IH. unfold plug. cbn [node_ids]. rewrite flat_map_app. cbn [flat_map].
    rewrite <- !app_assoc. cbn [app]. rewrite <- !app_assoc. reflexivity.
Qed.

Lemma descendants_rep : forall t h par fuel, rep h par t -> depth t <= fuel ->
  descendants_fuel fuel h (tid t) = Ok (flat_map node_ids (tkids t)).
Proof.
  induction t as [i ty nm v ats ks IH] using tree_ind'. intros h par fuel R Hf.
  destruct fuel as [|fuel]; [cbn in Hf; lia|]. apply rep_inv in R. destruct R as [o [_ [Hg [_ Hks]]]].
  cbn [tid tkids descendants_fuel].
  assert (Ec : children h i = map tid ks) by (unfold children; rewrite Hg; reflexivity).
  rewrite Ec.
  assert (Hd : Forall (fun k => depth k <= fuel) ks).
  { apply Forall_forall. intros k Hk. cbn [depth] in Hf.
    assert (depth k <= list_max (map depth ks)) by (apply list_max_in, in_map; auto). lia. }
  clear - IH Hks Hd. induction ks as [|k ks IHk]; [reflexivity|].
  inversion IH as [|? ? I1 I2]; inversion Hks as [|? ? R1 R2]; inversion Hd as [|? ? D1 D2]; subst.
  cbn [map]. rewrite (I1 _ _ _ R1 D1). cbn [bind]. rewrite (IHk I2 R2 D2). cbn [bind flat_map].
  rewrite (node_ids_head k). reflexivity.
Qed.

Lemma descendants_document : forall h fs s, document h (fill fs s) ->
  array_descendant h (tid s) = Ok (flat_map node_ids (tkids s)) /\
  array_descendant_or_self h (tid s) = Ok (node_ids s).
Proof.
  intros h fs s D. assert (E : array_descendant h (tid s) = Ok (flat_map node_ids (tkids s))).
  { unfold array_descendant. eapply descendants_rep; [apply (rep_fill_hole fs); apply D|].
    pose proof (depth_ids s). pose proof (document_size _ _ D) as L.
    rewrite ids_fill, !app_length in L. lia. }
  split; auto. unfold array_descendant_or_self. rewrite E. cbn [bind]. rewrite (node_ids_head s). reflexivity.
Qed.

Lemma ancestors_loop : forall fs h s fuel, rep h None (fill fs s) -> List.length fs < fuel ->
  ancestors_fuel fuel h (tid s) = Ok (rev (map f_id fs)).
Proof.
  induction fs as [|f fs IH]; intros h s fuel H Hf.
  - destruct fuel; [cbn in Hf; lia|]. cbn [fill ancestors_fuel].
    destruct (fill_get h [] s H) as [o [_ [Hg _]]]. unfold parent. rewrite Hg. reflexivity.
  - destruct fuel; [cbn in Hf; lia|]. cbn [ancestors_fuel].
    destruct (fill_get h (f :: fs) s H) as [o [_ [Hg _]]]. unfold parent. rewrite Hg. cbn [n_parent hole_parent].
    change (f_id f) with (tid (plug f s)) at 1. rewrite (IH h (plug f s)).
    + reflexivity.
    + exact H.
    + cbn in Hf. lia.
Qed.
Lemma ancestors_document : forall h fs s, document h (fill fs s) ->
  array_ancestor h (tid s) = Ok (rev (map f_id fs)).
Proof.
  intros h fs s D. unfold array_ancestor. apply ancestors_loop; [apply D|].
  pose proof (document_size _ _ D). pose proof (fill_depth fs s). lia.
Qed.

Lemma contains_node_In : forall l x, contains_node l x = true <-> In x l.
Proof.
  intros l x. unfold contains_node. rewrite existsb_exists. split.
  - intros [y [Hy E]]. apply Nat.eqb_eq in E. subst. auto.
  - intro H. exists x. split; auto. apply Nat.eqb_refl.
Qed.
Lemma contains_node_notin : forall l x, contains_node l x = false <-> ~ In x l.
Proof.
  intros l x. rewrite <- contains_node_In. destruct (contains_node l x); split; intro H; auto; try discriminate.
  exfalso. auto.
Qed.

Lemma following_loop_true : forall n dos l, following_loop n dos true l = filter (fun x => negb (contains_node dos x)) l.
Proof.
  intros n dos l. induction l as [|x l IH]; auto. cbn [following_loop filter orb andb]. rewrite IH. reflexivity.
Qed.
Lemma following_loop_false : forall n dos a r, ~ In n a ->
  following_loop n dos false (a ++ n :: r) = filter (fun x => negb (contains_node dos x)) r.
Proof.
  intros n dos a r. induction a as [|x a IH]; intro H; cbn [app following_loop orb andb].
  - rewrite Nat.eqb_refl. apply following_loop_true.
  - destruct (Nat.eqb_spec x n) as [->|Hn]; [exfalso; apply H; simpl; auto|]. apply IH.
    intro. apply H. simpl. auto.
Qed.
Lemma preceding_loop_true : forall n anc l, preceding_loop n anc true l = [].
Proof. intros n anc l. induction l as [|x l IH]; auto. Qed.
Lemma preceding_loop_false : forall n anc a r, ~ In n a ->
  preceding_loop n anc false (a ++ n :: r) = filter (fun x => negb (contains_node anc x)) a.
Proof.
  intros n anc a r. induction a as [|x a IH]; intro H; cbn [app preceding_loop orb andb filter].
  - rewrite Nat.eqb_refl. cbn [negb andb]. apply preceding_loop_true.
  - destruct (Nat.eqb_spec x n) as [->|Hn]; [exfalso; apply H; simpl; auto|]. cbn [negb andb].
    rewrite IH; auto. intro. apply H. simpl. auto.
Qed.
Lemma after_self_true : forall n l, after_self n true l = l.
Proof. intros n l. induction l as [|x l IH]; auto. cbn [after_self orb]. rewrite IH. reflexivity. Qed.
Lemma after_self_false : forall n a r, ~ In n a -> after_self n false (a ++ n :: r) = r.
Proof.
  intros n a r. induction a as [|x a IH]; intro H; cbn [app after_self orb].
  - rewrite Nat.eqb_refl. apply after_self_true.
  - destruct (Nat.eqb_spec x n) as [->|Hn]; [exfalso; apply H; simpl; auto|]. apply IH. intro. apply H. simpl. auto.
Qed.
Lemma before_self_true : forall n l, before_self n true l = [].
Proof. intros n l. induction l as [|x l IH]; auto. Qed.
Lemma before_self_false : forall n a r, ~ In n a -> before_self n false (a ++ n :: r) = a.
Proof.
  intros n a r. induction a as [|x a IH]; intro H; cbn [app before_self orb].
  - rewrite Nat.eqb_refl. apply before_self_true.
  - destruct (Nat.eqb_spec x n) as [->|Hn]; [exfalso; apply H; simpl; auto|]. rewrite IH; auto. intro. apply H. simpl. auto.
Qed.

Lemma filter_none : forall (A : Type) (p : A -> bool) l, (forall x, In x l -> p x = false) -> filter p l = [].
Proof.
  intros A p l H. induction l as [|x l IH]; auto. cbn [filter]. rewrite (H x) by (simpl; auto).
  apply IH. intros. apply H. simpl; auto.
Qed.
Lemma filter_all : forall (A : Type) (p : A -> bool) l, (forall x, In x l -> p x = true) -> filter p l = l.
Proof.
  intros A p l H. induction l as [|x l IH]; auto. cbn [filter]. rewrite (H x) by (simpl; auto).
  rewrite IH; auto. intros. apply H. simpl; auto.
Qed.

Definition context_ok (h : heap) (fs : list frame) (s : tree) : Prop :=
  document h (fill fs s) /\ tty s <> Attribute.

Lemma not_attribute : forall h fs s, context_ok h fs s -> is_attribute h (tid s) = false.
Proof.
  intros h fs s [D T]. destruct (fill_get _ _ _ (proj1 D)) as [o [_ [Hg _]]]. unfold is_attribute. rewrite Hg.
  cbn [n_type]. destruct (tty s); auto. congruence.
Qed.

Lemma following_document : forall h fs s, context_ok h fs s -> array_following h (tid s) = Ok (na fs).
Proof.
  intros h fs s C. pose proof C as [D T]. unfold array_following. rewrite (not_attribute h fs s C).
  rewrite (root_fill h fs s D). cbn [bind].
  destruct (descendants_document h [] (fill fs s) D) as [_ E1]. rewrite E1. cbn [bind].
  destruct (descendants_document h fs s D) as [_ E2]. rewrite E2. cbn [bind]. f_equal.
  pose proof (NoDup_node_ids _ (proj2 D)) as Nd. rewrite node_ids_split in *. rewrite (node_ids_head s) in *.
  cbn [app] in *. rewrite following_loop_false.
  - rewrite filter_app. rewrite filter_none, filter_all; auto.
    + intros x Hx. apply negb_true_iff, contains_node_notin. intro Hin.
      apply NoDup_app_inv in Nd. destruct Nd as [_ [N2 _]].
      change (tid s :: flat_map node_ids (tkids s) ++ na fs) with ((tid s :: flat_map node_ids (tkids s)) ++ na fs) in N2.
      apply NoDup_app_inv in N2. destruct N2 as [_ [_ N3]]. apply (N3 x); auto.
    + intros x Hx. apply negb_false_iff, contains_node_In. simpl. auto.
  - apply NoDup_remove_2 in Nd. intro Hin. apply Nd. apply in_or_app. auto.
Qed.

Lemma preceding_document : forall h fs s, context_ok h fs s ->
  array_preceding h (tid s) = Ok (filter (fun x => negb (contains_node (rev (map f_id fs)) x)) (nb fs)).
Proof.
  intros h fs s C. pose proof C as [D T]. unfold array_preceding. rewrite (not_attribute h fs s C).
  rewrite (root_fill h fs s D). cbn [bind].
  destruct (descendants_document h [] (fill fs s) D) as [_ E1]. rewrite E1. cbn [bind].
  rewrite (ancestors_document h fs s D). cbn [bind]. f_equal.
  pose proof (NoDup_node_ids _ (proj2 D)) as Nd. rewrite node_ids_split in *. rewrite (node_ids_head s) in *.
  cbn [app] in *. apply preceding_loop_false.
  apply NoDup_remove_2 in Nd. intro Hin. apply Nd. apply in_or_app. auto.
Qed.

(* ---- what the relations of SpecAxes mean in a context ---- *)
Lemma ancestor_fill : forall fs h s a, rep h None (fill fs s) ->
  (ancestor h a (tid s) <-> In a (map f_id fs)).
Proof.
  induction fs as [|f fs IH]; intros h s a R.
  - destruct (fill_get h [] s R) as [o [_ [Hg _]]]. split; [|intros []].
    intro A. inversion A as [n p E|n p b E _]; subst; unfold parent in E; rewrite Hg in E; discriminate.
  - destruct (fill_get h (f :: fs) s R) as [o [_ [Hg _]]].
    assert (P : parent h (tid s) = Some (tid (plug f s))) by (unfold parent; rewrite Hg; reflexivity).
    cbn [map]. change (f_id f) with (tid (plug f s)). split.
    + intro A. inversion A as [n p E|n p b E A']; subst; rewrite P in E; injection E as <-.
      * simpl. auto.
      * right. apply (IH h (plug f s)); auto.
    + intros [<-|Hin].
      * apply anc_parent. auto.
      * eapply anc_up; [exact P|]. apply (IH h (plug f s)); auto.
Qed.

Lemma descendant_rep : forall t h par d, rep h par t ->
  (descendant h d (tid t) <-> In d (flat_map node_ids (tkids t))).
Proof.
  induction t as [i ty nm v ats ks IH] using tree_ind'. intros h par d R. apply rep_inv in R.
  destruct R as [o [_ [Hg [_ Hks]]]]. cbn [tid tkids].
  assert (Ec : children h i = map tid ks) by (unfold children; rewrite Hg; reflexivity).
  rewrite Forall_forall in IH, Hks. split.
  - intro Hd. inversion Hd as [n c Hc|n c e Hc Hd']; subst; rewrite Ec in Hc;
      apply in_map_iff in Hc; destruct Hc as [k [<- Hk]]; apply in_flat_map; exists k; (split; [auto|]);
      rewrite node_ids_head.
    + simpl. auto.
    + right. apply (IH k Hk h (Some i)); auto.
  - intro Hin. apply in_flat_map in Hin. destruct Hin as [k [Hk Hin]]. rewrite node_ids_head in Hin.
    assert (Hc : In (tid k) (children h i)) by (rewrite Ec; apply in_map; auto).
    destruct Hin as [<-|Hin].
    + apply desc_child. auto.
    + eapply desc_down; [exact Hc|]. apply (IH k Hk h (Some i)); auto.
Qed.
Lemma descendant_fill : forall fs h s d, rep h None (fill fs s) ->
  (descendant h d (tid s) <-> In d (flat_map node_ids (tkids s))).
Proof. intros fs h s d R. eapply descendant_rep. apply (rep_fill_hole fs). exact R. Qed.

Lemma before_mid : forall a n r x, NoDup (a ++ n :: r) ->
  (before (a ++ n :: r) n x <-> In x r) /\ (before (a ++ n :: r) x n <-> In x a).
Proof.
  intros a n r x Nd. split; split.
  - intros [u [v [w E]]].
    assert (Q : forall a u, a ++ n :: r = u ++ n :: v ++ x :: w -> NoDup (a ++ n :: r) -> In x r).
    { clear. induction a as [|y a IH]; intros u E Nd.
      - destruct u as [|z u]; cbn [app] in E.
        + injection E as E2. rewrite E2. apply in_or_app. simpl. auto.
        + injection E as E1 E2. exfalso. cbn [app] in Nd. inversion Nd as [|? ? Hn _]; subst. apply Hn. apply in_or_app. simpl. auto.
      - destruct u as [|z u]; cbn [app] in E; injection E as E1 E2.
        + exfalso. cbn [app] in Nd. inversion Nd as [|? ? Hn _]; subst. apply Hn. apply in_or_app. simpl. auto.
        + eapply IH; [exact E2|]. cbn [app] in Nd. inversion Nd; auto. }
    eapply Q; eauto.
  - intro H. apply in_split in H. destruct H as [v [w ->]]. exists a, v, w. reflexivity.
  - intros [u [v [w E]]].
    assert (Q : forall a u, a ++ n :: r = u ++ x :: v ++ n :: w -> NoDup (a ++ n :: r) -> In x a).
    { clear. induction a as [|y a IH]; intros u E Nd.
      - exfalso. cbn [app] in *. destruct u as [|z u]; cbn [app] in E; injection E as E1 E2;
          inversion Nd as [|? ? Hn _]; subst; apply Hn.
        + apply in_or_app. simpl. auto.
        + apply in_or_app. right. simpl. right. apply in_or_app. simpl. auto.
      - destruct u as [|z u]; cbn [app] in E; injection E as E1 E2.
        + left. auto.
        + right. eapply IH; [exact E2|]. cbn [app] in Nd. inversion Nd; auto. }
    eapply Q; eauto.
  - intro H. apply in_split in H. destruct H as [v [w ->]]. exists v, w, r. rewrite <- app_assoc. reflexivity.
Qed.

(* a segment of the document is in document order *)
Lemma before_mono : forall a l c x y, before l x y -> before (a ++ l ++ c) x y.
Proof.
  intros a l c x y [u [v [w ->]]]. exists (a ++ u), v, (w ++ c). rewrite <- !app_assoc. cbn [app].
  rewrite <- !app_assoc. reflexivity.
Qed.
Lemma SS_before_self : forall l, StronglySorted (before l) l.
Proof.
  induction l as [|x l IH]; constructor.
  - eapply SS_impl; [|exact IH]. intros a b _ _ H. pose proof (before_mono [x] l [] a b H) as Q.
    rewrite app_nil_r in Q. exact Q.
  - apply Forall_forall. intros y Hy. apply in_split in Hy. destruct Hy as [u [v ->]]. exists [], u, v. reflexivity.
Qed.
Lemma SS_before_segment : forall a l c, StronglySorted (before (a ++ l ++ c)) l.
Proof.
  intros a l c. eapply SS_impl; [|apply SS_before_self]. intros x y _ _ H. apply before_mono. exact H.
Qed.
Lemma SS_filter : forall (A : Type) (R : A -> A -> Prop) p l, StronglySorted R l -> StronglySorted R (filter p l).
Proof.
  intros A R p l S. induction S as [|a l S IH F]; cbn [filter]; [constructor|].
  destruct (p a); auto. constructor; auto. apply Forall_forall. intros x Hx. apply filter_In in Hx.
  rewrite Forall_forall in F. apply F. tauto.
Qed.
Lemma SS_app_gen : forall (A : Type) (R : A -> A -> Prop) l r, StronglySorted R l -> StronglySorted R r ->
  (forall x y, In x l -> In y r -> R x y) -> StronglySorted R (l ++ r).
Proof.
  intros A R l r Hl Hr H. induction Hl as [|a l Hl IH Ha]; auto. cbn [app]. constructor.
  - apply IH. intros. apply H; simpl; auto.
  - apply Forall_app. split; auto. apply Forall_forall. intros y Hy. apply H; simpl; auto.
Qed.

Lemma frames_in_nb : forall fs a, In a (map f_id fs) -> In a (nb fs).
Proof.
  induction fs as [|f fs IH]; intros a H; [contradiction|]. cbn [map nb] in *. apply in_or_app.
  destruct H as [<-|H]; [right; simpl; auto|left; auto].
Qed.
Lemma SS_ancestors : forall fs c, StronglySorted (before (nb fs ++ c)) (rev (map f_id fs)).
Proof.
  induction fs as [|f fs IH]; intro c; cbn [map rev nb]; [constructor|].
  apply SS_app_gen.
  - rewrite <- app_assoc. apply IH.
  - repeat constructor.
  - intros x y Hx [<-|[]]. apply in_rev in Hx. apply frames_in_nb in Hx. apply in_split in Hx.
    destruct Hx as [u [v E]]. rewrite E. exists u, v, (flat_map node_ids (f_left f) ++ c).
    rewrite <- !app_assoc. cbn [app]. reflexivity.
Qed.
Lemma SS_tids : forall ks a c, StronglySorted (before (a ++ flat_map node_ids ks ++ c)) (map tid ks).
Proof.
  induction ks as [|k ks IH]; intros a c; cbn [map flat_map]; [constructor|]. constructor.
  - specialize (IH (a ++ node_ids k) c). rewrite <- app_assoc in *. exact IH.
  - apply Forall_forall. intros y Hy.
    assert (In y (flat_map node_ids ks)).
    { apply in_map_iff in Hy. destruct Hy as [k' [<- Hk']]. apply in_flat_map. exists k'. split; auto.
      rewrite node_ids_head. simpl. auto. }
    apply in_split in H. destruct H as [u [v E]]. rewrite (node_ids_head k), E. cbn [app].
    exists a, (flat_map node_ids (tkids k) ++ u), (v ++ c). rewrite <- !app_assoc. reflexivity.
Qed.

(* Document-order numbering: src/dom.rs 891-920 *)
Require Import Bool List NArith ZArith Ascii String Lia Sorted.
From Verif Require Import Str StrFacts Chars Sax Dom SpecTree SpecEdit HeapFacts BuildFacts SaxFacts DocFacts EditFacts ReachFacts DocEdit.
Import ListNotations.
Open Scope nat_scope.

Definition orders (h : heap) (l : list nat) : list Z := map (fun i => n_order (get h i)) l.

Lemma SS_app : forall l r, StronglySorted Z.lt l -> StronglySorted Z.lt r ->
  (forall x y, In x l -> In y r -> (x < y)%Z) -> StronglySorted Z.lt (l ++ r).
Proof.
  intros l r Hl Hr H. induction Hl as [|a l Hl IH Ha]; auto. cbn [app]. constructor.
  - apply IH. intros. apply H; simpl; auto.
  - apply Forall_app. split; auto. apply Forall_forall. intros y Hy. apply H; simpl; auto.
Qed.

Lemma orders_ext : forall h h' l, (forall i, In i l -> get h' i = get h i) -> orders h' l = orders h l.
Proof. intros h h' l H. apply map_ext_in. intros a Ha. rewrite H; auto. Qed.

Lemma same_order_trans : forall a b c, same_but_order a b -> same_but_order b c -> same_but_order a c.
Proof. unfold same_but_order. congruence. Qed.

Lemma order_attrs_spec : forall ats h z h' z', order_attrs h ats z = (h', z') -> NoDup ats ->
  (forall a, In a ats -> a < List.length h) ->
  List.length h' = List.length h /\ (forall j, ~ In j ats -> get h' j = get h j) /\
  (forall j, same_but_order (get h' j) (get h j)) /\
  StronglySorted Z.lt (orders h' ats) /\ Forall (fun o => (z <= o < z')%Z) (orders h' ats) /\ (z <= z')%Z.
Proof.
  induction ats as [|a ats IH]; intros h z h' z' E Nd B; cbn [order_attrs] in E.
  - injection E as <- <-. repeat split; auto; try constructor; try reflexivity; try lia.
  - inversion Nd as [|? ? Hn Nd']; subst.
    destruct (IH _ _ _ _ E Nd') as [L [G [S [SS [F Le]]]]].
    { intros b Hb. rewrite upd_length. apply B. simpl; auto. }
    rewrite upd_length in L. split; [exact L|]. split; [|split; [|split; [|split]]].
    + intros j Hj. rewrite G by (simpl in Hj; tauto). apply get_upd_other. simpl in Hj. tauto.
    + intro j. eapply same_order_trans; [apply S|]. apply same_but_order_upd.
    + cbn [orders map]. constructor; [exact SS|]. rewrite G by auto.
      rewrite get_upd_same by (apply B; simpl; auto). cbn [set_order n_order].
      eapply Forall_impl; [|exact F]. cbn. intros. lia.
    + cbn [orders map]. constructor.
      * rewrite G by auto. rewrite get_upd_same by (apply B; simpl; auto). cbn. lia.
      * eapply Forall_impl; [|exact F]. cbn. intros. lia.
    + lia.
Qed.

Definition numbered (h h' : heap) (l : list nat) (z z' : Z) : Prop :=
  List.length h' = List.length h /\ (forall j, ~ In j l -> get h' j = get h j) /\
  (forall j, same_but_order (get h' j) (get h j)) /\
  StronglySorted Z.lt (orders h' l) /\ Forall (fun o => (z <= o < z')%Z) (orders h' l) /\ (z <= z')%Z.

Lemma numbered_app : forall h h1 h2 l r a b c, numbered h h1 l a b -> forall b', (b <= b')%Z ->
  numbered h1 h2 r b' c -> (forall x, In x l -> ~ In x r) -> numbered h h2 (l ++ r) a c.
Proof.
  intros h h1 h2 l r a b c [L1 [G1 [S1 [O1 [F1 Z1]]]]] b' Hb [L2 [G2 [S2 [O2 [F2 Z2]]]]] D.
  assert (E : orders h2 l = orders h1 l) by (apply orders_ext; intros; apply G2; auto).
  unfold numbered. unfold orders in *.
  split; [lia|]. split; [|split; [|split; [|split]]].
  - intros j Hj. rewrite in_app_iff in Hj. rewrite G2, G1; tauto.
  - intro j. eapply same_order_trans; eauto.
  - rewrite map_app, E. apply SS_app; auto. rewrite Forall_forall in F1, F2.
    intros x y Hx Hy. specialize (F1 x Hx). specialize (F2 y Hy). cbn in *. lia.
  - rewrite map_app, E. apply Forall_app. split.
    + eapply Forall_impl; [|exact F1]. cbn. intros. lia.
    + eapply Forall_impl; [|exact F2]. cbn. intros. lia.
  - lia.
Qed.

Lemma numbered_refl : forall h z, numbered h h [] z z.
Proof. intros. repeat split; auto; try constructor; try lia. Qed.

Lemma setup_spec : forall t par fuel h z, rep h par t -> NoDup (ids t) -> depth t <= fuel ->
  exists h' z', setup_document_order_sub fuel h (tid t) z = Ok (h', z') /\ numbered h h' (ids t) z z'.
Proof.
  induction t as [i ty nm v ats ks IH] using tree_ind'. intros par fuel h z R Nd Hf.
  destruct fuel as [|fuel]; [cbn in Hf; lia|].
  apply rep_inv in R. destruct R as [o [Hi [Hg [Hat Hks]]]].
  cbn [tid setup_document_order_sub].
  set (h1 := upd h i (set_order z)).
  assert (G1 : get h1 i = set_order z (get h i)) by (unfold h1; apply get_upd_same; auto).
  assert (Ea : n_attrs (get h1 i) = map fst ats) by (rewrite G1, Hg; reflexivity).
  destruct (order_attrs h1 (n_attrs (get h1 i)) (z + 1)%Z) as [h2 z2] eqn:E2. rewrite Ea in E2.
  cbn [ids] in *. inversion Nd as [|? ? Hni Nd']; subst.
  apply NoDup_app_inv in Nd'. destruct Nd' as [Na [Nk Ndis]].
  assert (N1 : numbered h h1 [i] z (z + 1)%Z).
  { split; [apply upd_length|]. split; [|split; [|split; [|split]]].
    - intros j Hj. apply get_upd_other. simpl in Hj. tauto.
    - intro j. apply same_but_order_upd.
    - repeat constructor.
    - constructor; [|constructor]. rewrite G1. cbn. lia.
    - lia. }
  assert (N2 : numbered h1 h2 (map fst ats) (z + 1)%Z z2).
  { apply (order_attrs_spec (map fst ats) h1 (z + 1)%Z h2 z2 E2 Na).
    intros a Ha. apply in_map_iff in Ha. destruct Ha as [b [<- Hb]]. rewrite Forall_forall in Hat.
    destruct (Hat b Hb) as [B _]. unfold h1. rewrite upd_length. auto. }
  assert (N12 : numbered h h2 (i :: map fst ats) z z2).
  { apply (numbered_app h h1 h2 [i] (map fst ats) z (z + 1)%Z z2 N1 (z + 1)%Z); [lia|exact N2|].
    intros x [<-|[]] Hin. apply Hni. apply in_or_app. auto. }
  assert (Ec : n_children (get h2 i) = map tid ks).
  { destruct N12 as [_ [_ [S _]]]. specialize (S i). rewrite Hg in S.
    apply same_but_order_mk in S. destruct S as [o2 ->]. reflexivity. }
  rewrite Ec.
  assert (Kids : forall ks0 hc zc, Forall (fun k => rep hc (Some i) k) ks0 ->
            Forall (fun t => forall par fuel h z, rep h par t -> NoDup (ids t) -> depth t <= fuel ->
               exists h' z', setup_document_order_sub fuel h (tid t) z = Ok (h', z') /\ numbered h h' (ids t) z z') ks0 ->
            NoDup (flat_map ids ks0) ->
            Forall (fun k => depth k <= fuel) ks0 ->
            exists h' z', (fix kids (cs : list nat) (h : heap) (order : Z) : res (heap * Z) :=
               match cs with
               | [] => Ok (h, order)
               | c :: cs' =>
                   do (h', order') <- setup_document_order_sub fuel h c (order + 1)%Z;
                   kids cs' h' order'
               end) (map tid ks0) hc zc = Ok (h', z') /\ numbered hc h' (flat_map ids ks0) zc z').
  { clear. induction ks0 as [|k ks0 IHk]; intros hc zc R IH Nd Hf.
    - exists hc, zc. split; [reflexivity|apply numbered_refl].
    - inversion R as [|? ? R1 R2]; subst. inversion IH as [|? ? I1 I2]; subst.
      inversion Hf as [|? ? F1 F2]; subst. cbn [flat_map] in Nd. apply NoDup_app_inv in Nd.
      destruct Nd as [Nd1 [Nd2 Nd3]].
      destruct (I1 (Some i) fuel hc (zc + 1)%Z R1 Nd1 F1) as [h1 [z1 [E1 N1]]].
      cbn [map]. rewrite E1. cbn [bind].
      destruct (IHk h1 z1) as [h2 [z2 [E2 N2]]]; auto.
      + eapply Forall_impl; [|exact R2]. intros k' Rk. apply rep_order with hc; auto.
        * destruct N1 as [L _]. lia.
        * intros j _. apply N1.
      + exists h2, z2. split; [exact E2|]. cbn [flat_map].
        assert (N0 : numbered hc hc [] zc zc) by apply numbered_refl.
        apply (numbered_app hc hc h2 [] (ids k ++ flat_map ids ks0) zc zc z2 N0 (zc + 1)%Z); [lia| |intros ? []].
        apply (numbered_app hc h1 h2 (ids k) (flat_map ids ks0) (zc + 1)%Z z1 z2 N1 z1); auto. lia. }
  destruct (Kids ks h2 z2) as [h3 [z3 [E3 N3]]]; auto.
  - eapply Forall_impl; [|exact Hks]. intros k Rk. apply rep_order with h; auto.
    + destruct N12 as [L _]. lia.
    + intros j _. apply N12.
  - apply Forall_forall. intros k Hk. cbn [depth] in Hf.
    assert (depth k <= list_max (map depth ks)) by (apply list_max_in, in_map; auto). lia.
  - exists h3, z3. split; [exact E3|].
    change (i :: map fst ats ++ flat_map ids ks) with ((i :: map fst ats) ++ flat_map ids ks).
    apply (numbered_app h h2 h3 (i :: map fst ats) (flat_map ids ks) z z2 z3 N12 z2); [lia|exact N3|].
    intros x [<-|Hx] Hx'; [apply Hni; apply in_or_app; auto|]. apply (Ndis x Hx Hx').
Qed.

(* A document whose numbers are either absent (root numbered 0) or already strictly increasing. *)
Definition order_ok (h : heap) (t : tree) : Prop :=
  n_order (get h (tid t)) = 0%Z \/
  ((0 < n_order (get h (tid t)))%Z /\ StronglySorted Z.lt (orders h (ids t))).

Theorem document_order_spec : forall h t i, document h t -> order_ok h t -> In i (ids t) ->
  exists z h', document_order h i = Ok (z, h') /\ document h' t /\ order_ok h' t /\
    StronglySorted Z.lt (orders h' (ids t)) /\ z = n_order (get h' i) /\
    (0 < n_order (get h' (tid t)))%Z /\
    (n_order (get h (tid t)) <> 0%Z -> h' = h).
Proof.
  intros h t i D K Hi. unfold document_order. rewrite (root_document h t i D Hi). cbn [bind].
  destruct (Z.eqb_spec (n_order (get h (tid t))) 0%Z) as [E|E].
  - destruct (setup_spec t None (S (List.length h)) h 1%Z (proj1 D) (proj2 D)) as [h' [z' [E1 N]]].
    { pose proof (depth_ids t). pose proof (document_size _ _ D). lia. }
    rewrite E1. cbn [bind]. exists (n_order (get h' i)), h'.
    destruct N as [L [_ [S [SS [F _]]]]].
    assert (D' : document h' t).
    { split; [|apply D]. apply rep_order with h; [apply D|lia|]. intros; apply S. }
    assert (P : (0 < n_order (get h' (tid t)))%Z).
    { rewrite Forall_forall in F. assert (In (n_order (get h' (tid t))) (orders h' (ids t))) as Hin.
      { unfold orders. apply in_map with (f := fun i => n_order (get h' i)). apply tid_in_ids. }
      specialize (F _ Hin). cbn in F. lia. }
    repeat split; auto; try apply D'. right. auto. congruence.
  - cbn [bind]. exists (n_order (get h i)), h. destruct K as [K|[K1 K2]]; [contradiction|].
    repeat split; auto; try apply D. right. auto.
Qed.

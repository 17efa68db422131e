(* new_document's tree construction: src/dom.rs 177-240 *)
Require Import Bool List NArith ZArith Ascii String Lia.
From Verif Require Import Str StrFacts Chars Sax Dom SpecTree HeapFacts.
Import ListNotations.
Open Scope nat_scope.

Definition add_kid (c k : tree) : tree :=
  match c with T i ty nm v ats ks => T i ty nm v ats (ks ++ [k]) end.
Definition add_attr (c : tree) (a : nat * (str * str)) : tree :=
  match c with T i ty nm v ats ks => T i ty nm v (ats ++ [a]) ks end.

(* Building state: the tree so far is [fill fs c], the current node is the root of [c] on the rightmost
   branch, and cells are numbered in preorder. *)
Record building (h : heap) (fs : list frame) (c : tree) : Prop := mkB {
  b_rep : rep h None (fill fs c);
  b_right : Forall (fun f => f_right f = []) fs;
  b_ids : ids (fill fs c) = seq 0 (List.length h)
}.

Lemma ctx_after_right : forall fs, Forall (fun f => f_right f = []) fs -> ctx_after fs = [].
Proof.
  induction fs as [|f fs IH]; intro H; simpl; auto. inversion H as [|? ? Hf Hfs]; subst.
  unfold frame_after. rewrite Hf. simpl. auto.
Qed.

Lemma building_nodup : forall h fs c, building h fs c -> NoDup (ids (fill fs c)).
Proof. intros h fs c [_ _ H]. rewrite H. apply seq_NoDup. Qed.

Lemma building_ctx : forall h fs c, building h fs c ->
  forall i, In i (ctx_before fs ++ ctx_after fs) -> i < List.length h /\ ~ In i (ids c).
Proof.
  intros h fs c H i Hi. split.
  - eapply rep_bound; [apply (b_rep _ _ _ H)|]. rewrite ids_fill.
    apply in_app_or in Hi. apply in_or_app. destruct Hi as [?|?]; auto.
    right. apply in_or_app. auto.
  - pose proof (building_nodup _ _ _ H) as Hd. rewrite ids_fill in Hd.
    apply NoDup_app_inv in Hd. destruct Hd as [_ [Hd Hx]].
    apply NoDup_app_inv in Hd. destruct Hd as [_ [_ Hy]].
    intro Hc. apply in_app_or in Hi. destruct Hi as [Hi|Hi].
    + apply (Hx i Hi). apply in_or_app. auto.
    + apply (Hy i Hc Hi).
Qed.

Lemma tid_in_ids : forall t, In (tid t) (ids t).
Proof. destruct t; simpl; auto. Qed.

Lemma ids_add_kid : forall c k, ids (add_kid c k) = ids c ++ ids k.
Proof.
  destruct c. intro k. simpl. f_equal. rewrite flat_map_app. simpl. rewrite app_nil_r.
  rewrite <- app_assoc. reflexivity.
Qed.
Lemma tid_add_kid : forall c k, tid (add_kid c k) = tid c.
Proof. destruct c; reflexivity. Qed.
Lemma tid_add_attr : forall c k, tid (add_attr c k) = tid c.
Proof. destruct c; reflexivity. Qed.
Lemma ids_add_attr : forall c a, tkids c = [] -> ids (add_attr c a) = ids c ++ [fst a].
Proof.
  destruct c. simpl. intros a ->. simpl. rewrite !app_nil_r, map_app. reflexivity.
Qed.

(* the root cell of [c] is not repeated inside [c] *)
Lemma building_cur : forall h fs c, building h fs c ->
  tid c < List.length h /\ NoDup (ids c).
Proof.
  intros h fs c H. split.
  - eapply rep_bound; [apply (b_rep _ _ _ H)|]. rewrite ids_fill. apply in_or_app. right.
    apply in_or_app. left. apply tid_in_ids.
  - pose proof (building_nodup _ _ _ H) as Hd. rewrite ids_fill in Hd.
    apply NoDup_app_inv in Hd. destruct Hd as [_ [Hd _]]. apply NoDup_app_inv in Hd. tauto.
Qed.

Lemma same_refl : forall n, same_but_order n n.
Proof. reflexivity. Qed.

(* make_new_child_rc_node with index_hint = usize::MAX at the current node *)
Lemma building_child : forall h fs c ty nm v h' id,
  building h fs c ->
  make_new_child_rc_node h ty (tid c) nm v None = (h', id) ->
  id = List.length h /\ building h' fs (add_kid c (T id ty nm v [] [])).
Proof.
  intros h fs c ty nm v h' id H E. unfold make_new_child_rc_node, make_new_rc_node in E.
  injection E as <- <-. split; auto.
  destruct (building_cur _ _ _ H) as [Hlt Hd].
  set (new := mkNode ty 0 nm v (Some (tid c)) [] []).
  set (h1 := h ++ [new]).
  set (cs' := n_children (get h1 (tid c)) ++ [List.length h]).
  assert (Hl1 : List.length (upd h1 (tid c) (set_children cs')) = S (List.length h)).
  { rewrite upd_length. unfold h1. rewrite app_length. simpl. lia. }
  assert (Hold : forall i, i < List.length h -> i <> tid c ->
             get (upd h1 (tid c) (set_children cs')) i = get h i).
  { intros i Hi Hn. rewrite get_upd_other by auto. apply get_app_old. auto. }
  constructor.
  - eapply rep_fill with (h := h) (t := c).
    + apply (b_rep _ _ _ H).
    + lia.
    + symmetry. apply tid_add_kid.
    + intros i Hi. destruct (building_ctx _ _ _ H i Hi) as [Hb Hni].
      rewrite Hold; auto using same_refl. intro. subst. apply Hni. apply tid_in_ids.
    + intros p Hp. destruct c as [ci cty cnm cv cats cks]. simpl tid in *.
      apply rep_inv in Hp. destruct Hp as [o [Hi [Hg [Ha Hk]]]]. cbn [add_kid].
      simpl in Hd. inversion Hd as [|? ? Hn Hd']; subst.
      eapply rep_T with (o := o).
      * lia.
      * rewrite get_upd_same by (unfold h1; rewrite app_length; simpl; lia).
        unfold cs', h1. rewrite get_app_old by auto. rewrite Hg. unfold set_children. simpl.
        rewrite map_app. reflexivity.
      * rewrite Forall_forall in *. intros a Hin. destruct (Ha a Hin) as [Hb [o' Ho]].
        split; [lia|]. exists o'. rewrite Hold; auto.
        intro. apply Hn. apply in_or_app. left. apply in_map_iff. exists a. auto.
      * apply Forall_app. split.
        -- rewrite Forall_forall in *. intros k Hin. eapply rep_frame; eauto; [lia|].
           intros j Hj. apply Hold.
           ++ eapply rep_bound; eauto.
           ++ intro. subst. apply Hn. apply in_or_app. right. apply in_flat_map. eauto.
        -- constructor; [|constructor]. eapply rep_T with (o := 0%Z).
           ++ lia.
           ++ rewrite get_upd_other by lia. unfold h1. rewrite get_app_new. reflexivity.
           ++ constructor.
           ++ constructor.
  - apply (b_right _ _ _ H).
  - rewrite ids_fill, ids_add_kid. rewrite (ctx_after_right fs) by apply (b_right _ _ _ H).
    pose proof (b_ids _ _ _ H) as E. rewrite ids_fill in E.
    rewrite (ctx_after_right fs) in E by apply (b_right _ _ _ H).
    rewrite app_nil_r in *. rewrite app_assoc, E, Hl1.
    rewrite <- (Nat.add_1_r (List.length h)), seq_app. reflexivity.
Qed.

(* one attribute node *)
Lemma building_attr : forall h fs c n v,
  building h fs c -> tkids c = [] ->
  building (upd (h ++ [mkNode Attribute 0 n v (Some (tid c)) [] []]) (tid c)
              (set_attrs (n_attrs (get (h ++ [mkNode Attribute 0 n v (Some (tid c)) [] []]) (tid c))
                          ++ [List.length h])))
           fs (add_attr c (List.length h, (n, v))).
Proof.
  intros h fs c n v H Hks.
  destruct (building_cur _ _ _ H) as [Hlt Hd].
  set (new := mkNode Attribute 0 n v (Some (tid c)) [] []).
  set (h1 := h ++ [new]).
  set (as' := n_attrs (get h1 (tid c)) ++ [List.length h]).
  assert (Hl1 : List.length (upd h1 (tid c) (set_attrs as')) = S (List.length h)).
  { rewrite upd_length. unfold h1. rewrite app_length. simpl. lia. }
  assert (Hold : forall i, i < List.length h -> i <> tid c ->
             get (upd h1 (tid c) (set_attrs as')) i = get h i).
  { intros i Hi Hn. rewrite get_upd_other by auto. apply get_app_old. auto. }
  constructor.
  - eapply rep_fill with (h := h) (t := c).
    + apply (b_rep _ _ _ H).
    + lia.
    + symmetry. apply tid_add_attr.
    + intros i Hi. destruct (building_ctx _ _ _ H i Hi) as [Hb Hni].
      rewrite Hold; auto using same_refl. intro. subst. apply Hni. apply tid_in_ids.
    + intros p Hp. destruct c as [ci cty cnm cv cats cks]. simpl tid in *. simpl in Hks. subst cks.
      apply rep_inv in Hp. destruct Hp as [o [Hi [Hg [Ha Hk]]]]. cbn [add_attr].
      simpl in Hd. inversion Hd as [|? ? Hn Hd']; subst.
      eapply rep_T with (o := o).
      * lia.
      * rewrite get_upd_same by (unfold h1; rewrite app_length; simpl; lia).
        unfold as', h1. rewrite get_app_old by auto. rewrite Hg. unfold set_attrs. simpl.
        rewrite map_app. reflexivity.
      * apply Forall_app. split.
        -- rewrite Forall_forall in *. intros a Hin. destruct (Ha a Hin) as [Hb [o' Ho]].
           split; [lia|]. exists o'. rewrite Hold; auto.
           intro. apply Hn. apply in_or_app. left. apply in_map_iff. exists a. auto.
        -- constructor; [|constructor]. split; simpl fst; [lia|]. exists 0%Z.
           rewrite get_upd_other by lia. unfold h1. rewrite get_app_new. reflexivity.
      * constructor.
  - apply (b_right _ _ _ H).
  - rewrite ids_fill, ids_add_attr by auto. rewrite (ctx_after_right fs) by apply (b_right _ _ _ H).
    pose proof (b_ids _ _ _ H) as E. rewrite ids_fill in E.
    rewrite (ctx_after_right fs) in E by apply (b_right _ _ _ H).
    rewrite app_nil_r in *. rewrite app_assoc, E, Hl1. cbn [fst].
    rewrite <- (Nat.add_1_r (List.length h)), seq_app. reflexivity.
Qed.

Lemma building_attrs : forall ats h fs c,
  building h fs c -> tkids c = [] ->
  exists c', building (push_attrs h (tid c) ats) fs c' /\
    tid c' = tid c /\ tkids c' = [] /\ tty c' = tty c /\ tname c' = tname c /\ tvalue c' = tvalue c /\
    map snd (tattrs c') = map snd (tattrs c) ++ ats.
Proof.
  induction ats as [|[n v] ats IH]; intros h fs c H Hk; simpl.
  - exists c. rewrite app_nil_r. auto 10.
  - pose proof (building_attr h fs c n v H Hk) as H1.
    destruct (IH _ fs _ H1) as [c' [B [E1 [E2 [E3 [E4 [E5 E6]]]]]]].
    { destruct c; auto. }
    rewrite tid_add_attr in *. exists c'. split; [exact B|].
    repeat split; auto.
    + rewrite E3. destruct c; auto.
    + rewrite E4. destruct c; auto.
    + rewrite E5. destruct c; auto.
    + rewrite E6. destruct c; simpl. rewrite map_app, <- app_assoc. reflexivity.
Qed.

(* entering a freshly added last child *)
Lemma building_enter : forall h fs i ty nm v ats ks k,
  building h fs (add_kid (T i ty nm v ats ks) k) ->
  building h (Fr i ty nm v ats ks [] :: fs) k.
Proof.
  intros h fs i ty nm v ats ks k H. destruct H as [H1 H2 H3]. constructor; simpl; auto.
Qed.

Lemma building_leave : forall h f fs c,
  building h (f :: fs) c -> building h fs (plug f c).
Proof.
  intros h f fs c H. destruct H as [H1 H2 H3]. inversion H2; subst. constructor; simpl; auto.
Qed.

Lemma building_get : forall h fs c, building h fs c ->
  exists o, get h (tid c) =
    mkNode (tty c) o (tname c) (tvalue c)
           (match fs with [] => None | f :: _ => Some (f_id f) end)
           (map tid (tkids c)) (map fst (tattrs c)).
Proof.
  intros h fs c H. pose proof (b_rep _ _ _ H) as Hr. apply rep_fill_hole in Hr.
  apply rep_get in Hr. destruct Hr as [o [_ [Hg _]]]. eauto.
Qed.

Lemma building_init : building (fst (make_new_rc_node [] DocumentRoot None [] []))
                               [] (T 0 DocumentRoot [] [] [] []).
Proof.
  constructor; simpl; auto. eapply rep_T with (o := 0%Z); simpl; auto.
Qed.

(* The state seen as a whole: the root of the tree is a DocumentRoot node with empty name. *)
Definition rootish (fs : list frame) (c : tree) : Prop :=
  tty (fill fs c) = DocumentRoot /\ tid (fill fs c) = 0.

Lemma rootish_same : forall fs c c', rootish fs c -> tid c' = tid c -> tty c' = tty c ->
  rootish fs c'.
Proof.
  intros fs c c' [H1 H2] Hi Ht. split.
  - destruct fs as [|f fs]; simpl in *; [congruence|].
    clear H2. revert f c c' H1 Hi Ht. induction fs as [|g fs IH]; intros f c c' H1 Hi Ht; simpl in *.
    + exact H1.
    + eapply IH; eauto.
  - rewrite (tid_fill_same fs c' c); auto.
Qed.

(* Every step of the loop keeps the heap a well-linked tree in preorder. *)
Lemma doc_step_building : forall h fs c t h' curr',
  building h fs c -> rootish fs c -> doc_step h (tid c) t = Ok (h', curr') ->
  exists fs' c', building h' fs' c' /\ rootish fs' c' /\ curr' = tid c'.
Proof.
  intros h fs c t h' curr' B R E.
  assert (Hleaf : forall ty nm v,
     exists fs' c', building (fst (make_new_child_rc_node h ty (tid c) nm v None)) fs' c' /\
                    rootish fs' c' /\ tid c = tid c').
  { intros ty nm v. destruct (make_new_child_rc_node h ty (tid c) nm v None) as [h1 id] eqn:E1.
    destruct (building_child _ _ _ _ _ _ _ _ B E1) as [-> B1].
    exists fs, (add_kid c (T (List.length h) ty nm v [] [])). split; [exact B1|].
    split; [|symmetry; apply tid_add_kid].
    eapply rootish_same; eauto. apply tid_add_kid. destruct c; auto. }
  destruct t as [|name attr|name|s|target inst|cm|dr]; cbn [doc_step] in E.
  - injection E as <- <-. exists fs, c. auto.
  - destruct (make_new_child_rc_node h Element (tid c) name [] None) as [h1 id] eqn:E1.
    destruct (building_child _ _ _ _ _ _ _ _ B E1) as [-> B1].
    destruct c as [i ty nm v ats ks].
    assert (R1 : rootish fs (add_kid (T i ty nm v ats ks) (T (List.length h) Element name [] [] []))).
    { eapply rootish_same; eauto. }
    apply building_enter in B1.
    destruct (building_attrs attr _ _ _ B1 eq_refl) as [c' [B2 [E2 [E3 [E4 [E5 [E6 E7]]]]]]].
    injection E as <- <-. simpl in E2.
    exists (Fr i ty nm v ats ks [] :: fs), c'. split; [exact B2|]. split; auto.
    eapply rootish_same with (c := T (List.length h) Element name [] [] []); auto.
  - destruct (str_eqb (n_name (get h (tid c))) name); [|discriminate].
    injection E as <- <-. destruct (building_get _ _ _ B) as [o Hg]. rewrite Hg. simpl.
    destruct fs as [|f fs].
    + exists [], c. auto.
    + exists fs, (plug f c). split; [apply building_leave; auto|]. split; auto.
  - injection E as <- <-. apply Hleaf.
  - destruct (str_eqb target (lit "xml")); injection E as <- <-; apply Hleaf.
  - injection E as <- <-. apply Hleaf.
  - injection E as <- <-. exists fs, c. auto.
Qed.

Lemma doc_loop_building : forall fuel d h fs c h',
  building h fs c -> rootish fs c -> doc_loop fuel d h (tid c) = Ok h' ->
  exists fs' c', building h' fs' c' /\ rootish fs' c'.
Proof.
  induction fuel as [|fuel IH]; intros d h fs c h' B R E; cbn [doc_loop] in E; [discriminate|].
  destruct (raw_token (S fuel) d) as [[t d']|e| |]; try discriminate.
  assert (G : (exists h1 curr1, doc_step h (tid c) t = Ok (h1, curr1) /\
               doc_loop fuel d' h1 curr1 = Ok h') \/ Ok h = Ok h').
  { destruct t; auto; left.
    all: match type of E with bind (doc_step ?a ?b ?c) _ = _ =>
           destruct (doc_step a b c) as [[h1 curr1]|?| |] eqn:E1 end;
         try discriminate; simpl in E; eauto. }
  destruct G as [[h1 [curr1 [E1 E2]]]|G].
  - destruct (doc_step_building _ _ _ _ _ _ B R E1) as [fs' [c' [B' [R' ->]]]].
    eapply IH; eauto.
  - injection G as <-. eauto.
Qed.

Lemma new_document_tree : forall fuel xml h, new_document_fuel fuel xml = Ok h ->
  exists t, rep h None t /\ ids t = seq 0 (List.length h) /\ tty t = DocumentRoot /\ tid t = 0.
Proof.
  intros fuel xml h E. unfold new_document_fuel in E. simpl in E.
  destruct (doc_loop_building fuel (sax_new xml)
              (fst (make_new_rc_node [] DocumentRoot None [] [])) []
              (T 0 DocumentRoot [] [] [] []) h building_init) as [fs [c [B R]]].
  - split; reflexivity.
  - exact E.
  - exists (fill fs c). destruct B as [B1 B2 B3]. destruct R. auto.
Qed.

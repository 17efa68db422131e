(* C93: edits never give an element two attributes of the same name. *)
Require Import Bool List NArith ZArith Ascii String Lia.
From Verif Require Import Str StrFacts Sax SaxFacts Dom SpecTree SpecTokens HeapFacts BuildFacts TermFacts DocFacts SpecEdit EditFacts ReachFacts DocEdit OrderFacts SessionFacts SpecSem SemNode SemKind PropSem.
Import ListNotations.
Open Scope nat_scope.

(* no node of the document has two attributes of the same name *)
Definition distinct (h : heap) : Prop := forall p, in_document h 0 p -> NoDup (attr_names h p).
(* h is h0 after some edits of the document, in any number and order: the edits of a session (SpecEdit) *)
Inductive edited (h0 : heap) : heap -> Prop :=
| ed_none : edited h0 h0
| ed_set : forall h h' i n v, edited h0 h -> attached h 0 i -> set_attribute h i n v = Ok h' -> edited h0 h'
| ed_del_attr : forall h h' i n, edited h0 h -> attached h 0 i -> delete_attribute h i n = Ok h' -> edited h0 h'
| ed_delete : forall h h' i c, edited h0 h -> attached h 0 i -> delete_child h i c = Ok h' -> edited h0 h'
| ed_insert : forall h h' i x, edited h0 h -> attached h 0 i -> x < List.length h -> children h x = [] -> attributes h x = [] ->
    insert_as_previous_sibling h i x = Ok h' \/ insert_as_next_sibling h i x = Ok h' -> edited h0 h'
| ed_order : forall h h' i z, edited h0 h -> in_document h 0 i -> document_order h i = Ok (z, h') -> edited h0 h'.

Inductive Td : tree -> Prop :=
| td_tree : forall i ty nm v ats ks, NoDup (map fst (map snd ats)) -> Forall Td ks -> Td (T i ty nm v ats ks).
Lemma td_fill : forall fs s, Td (fill fs s) -> Td s /\ forall s', Td s' -> Td (fill fs s').
Proof.
  induction fs as [|f fs IH]; intros s D; [split; auto|]. cbn [fill] in *. apply IH in D. destruct D as [D C].
  unfold plug in D. inversion D as [i ty nm v ats ks N F]; subst. apply Forall_app in F. destruct F as [F1 F2]. inversion F2 as [|? ? F3 F4]; subst.
  split; [exact F3|]. intros s' D'. apply C. constructor; [exact N|]. apply Forall_app. split; auto.
Qed.
Lemma names_fill : forall h fs s, document h (fill fs s) -> attr_names h (tid s) = map fst (map snd (tattrs s)).
Proof.
  intros h fs s D. destruct (fill_get h fs s (proj1 D)) as [o [_ [Hg [Hat _]]]]. unfold attr_names, attributes. rewrite Hg. cbn [n_attrs].
  rewrite map_map, map_map. apply map_ext_in. intros a I. rewrite Forall_forall in Hat. destruct (Hat a I) as [_ [oa E]]. rewrite E. reflexivity.
Qed.
Lemma td_of : forall h s fs, document h (fill fs s) -> tid (fill fs s) = 0 -> distinct h -> Td s.
Proof.
  intros h. induction s as [i ty nm v ats ks IH] using tree_ind'. intros fs D T0 N. constructor.
  - assert (A : attached h 0 i) by (rewrite <- T0; apply (context_attached fs h (T i ty nm v ats ks)); auto).
    assert (G := N i (or_introl A)). assert (Q := names_fill h fs (T i ty nm v ats ks) D). cbn [tid tattrs] in Q. rewrite Q in G. exact G.
  - rewrite Forall_forall in *. intros k I. destruct (in_split _ _ I) as [l [r E]]. subst ks.
    apply (IH k I (Fr i ty nm v ats l r :: fs)); auto.
Qed.
Lemma distinct_of : forall h t, session h -> document h t -> tid t = 0 -> Td t -> distinct h.
Proof.
  intros h t SE D T0 N p [A|[q [A I]]].
  - rewrite <- T0 in A. destruct (attached_context h t p D A) as [fs [s [-> <-]]]. rewrite (names_fill h fs s D).
    apply td_fill in N. destruct N as [N _]. destruct N. assumption.
  - destruct (attribute_cell h q p SE A I) as [o [nm [v E]]]. unfold attr_names, attributes. rewrite E. constructor.
Qed.
Lemma set_pair_names : forall n v l, NoDup (map fst l) -> NoDup (map fst (set_pair n v l)) /\ forall m, In m (map fst (set_pair n v l)) -> m = n \/ In m (map fst l).
Proof.
  intros n v. induction l as [|[m w] l IH]; intro N; cbn [set_pair map fst].
  - split; [repeat constructor; intros []|]. intros m [->|[]]. auto.
  - inversion N as [|? ? N1 N2]; subst. destruct (str_eqb n m) eqn:E.
    + apply str_eqb_eq in E. subst m. split; [constructor; auto|]. intros k I. cbn [map fst In] in *. destruct I; auto.
    + apply str_eqb_neq in E. destruct (IH N2) as [A B]. cbn [map fst]. split.
      * constructor; auto. intro I. apply B in I. destruct I; congruence.
      * intros k I. cbn [In] in *. destruct I as [I|I]; auto. apply B in I. destruct I; auto.
Qed.
Lemma drop_pair_names : forall n l, NoDup (map fst l) -> NoDup (map fst (drop_pair n l)) /\ forall m, In m (map fst (drop_pair n l)) -> In m (map fst l).
Proof.
  intros n. induction l as [|[m w] l IH]; intro N; cbn [drop_pair map fst]; [auto|].
  inversion N as [|? ? N1 N2]; subst. destruct (str_eqb n m); [split; [exact N2|cbn [In]; auto]|]. destruct (IH N2) as [A B]. cbn [map fst]. split.
  - constructor; auto.
  - intros k I. cbn [In] in *. destruct I; auto.
Qed.
Lemma edited_tree : forall h0 t0, session h0 -> document h0 t0 -> tid t0 = 0 -> order_ok h0 t0 -> Td t0 -> forall h, edited h0 h ->
  session h /\ exists t, document h t /\ tid t = 0 /\ order_ok h t /\ Td t.
Proof.
  intros h0 t0 S0 D0 Z0 O0 N0 h ED.
  induction ED as [|h h' i n v S IH A E|h h' i n S IH A E|h h' i c S IH A E|h h' i x S IH A Hx Hc Ha E|h h' i z S IH A E].
  - split; [exact S0|]. exists t0. auto.
  - destruct IH as [SE [t [D [T0 [O N]]]]]. split; [eapply ses_set; eauto|]. rewrite <- T0 in A.
    destruct (attached_context h t i D A) as [fs [[si ty nm val ats ks] [-> Es]]]. cbn [tid] in Es. subst si.
    destruct (set_attribute_document _ _ _ _ _ _ _ _ n v D) as [h2 [ats' [E2 [D2 [P2 Z2]]]]].
    rewrite E in E2. injection E2 as ->. eexists. split; [exact D2|]. split; [eapply tid_fill_zero; [|exact T0]; reflexivity|]. split; [left; exact Z2|].
    destruct (td_fill _ _ N) as [N1 N2]. apply N2. inversion N1 as [? ? ? ? ? ? N3 N4]; subst. constructor; [|exact N4]. rewrite P2. apply set_pair_names. exact N3.
  - destruct IH as [SE [t [D [T0 [O N]]]]]. split; [eapply ses_del_attr; eauto|]. rewrite <- T0 in A.
    destruct (attached_context h t i D A) as [fs [[si ty nm val ats ks] [-> Es]]]. cbn [tid] in Es. subst si.
    destruct (delete_attribute_document _ _ _ _ _ _ _ _ n D) as [h2 [ats' [E2 [D2 [P2 Z2]]]]].
    rewrite E in E2. injection E2 as ->. eexists. split; [exact D2|]. split; [eapply tid_fill_zero; [|exact T0]; reflexivity|]. split; [left; exact Z2|].
    destruct (td_fill _ _ N) as [N1 N2]. apply N2. inversion N1 as [? ? ? ? ? ? N3 N4]; subst. constructor; [|exact N4]. rewrite P2. apply drop_pair_names. exact N3.
  - destruct IH as [SE [t [D [T0 [O N]]]]]. split; [eapply ses_delete; eauto|]. rewrite <- T0 in A.
    destruct (attached_context h t i D A) as [fs [[si ty nm val ats ks] [-> Es]]]. cbn [tid] in Es. subst si.
    destruct (in_dec Nat.eq_dec c (map tid ks)) as [Hin|Hin].
    + apply in_map_iff in Hin. destruct Hin as [k [<- Hk]]. apply in_split in Hk. destruct Hk as [l [r ->]].
      destruct (delete_child_document _ _ _ _ _ _ _ _ _ _ D) as [h2 [E2 [D2 Z2]]].
      rewrite E in E2. injection E2 as ->. eexists. split; [exact D2|]. split; [eapply tid_fill_zero; [|exact T0]; reflexivity|]. split; [left; exact Z2|].
      destruct (td_fill _ _ N) as [N1 N2]. apply N2. inversion N1 as [? ? ? ? ? ? N3 N4]; subst. constructor; [exact N3|].
      apply Forall_app in N4. destruct N4 as [N4 N5]. inversion N5; subst. apply Forall_app. auto.
    + destruct (fill_get _ _ _ (proj1 D)) as [o [_ [Hg _]]]. cbn [tid tkids] in Hg.
      unfold delete_child, find_child_index in E. rewrite Hg in E. cbn [n_children] in E.
      rewrite find_index_none in E by auto.
      destruct (clear_document h _ i D) as [h2 [E2 [D2 [Z2 _]]]]; [apply fill_ids_in; simpl; auto|].
      rewrite E in E2. injection E2 as ->. eexists. split; [exact D2|]. split; auto. split; [left; auto|exact N].
  - destruct IH as [SE [t [D [T0 [O N]]]]]. split; [destruct E as [E|E]; [eapply ses_prev|eapply ses_next]; eauto|]. rewrite <- T0 in A.
    destruct (attached_context h t i D A) as [fs [s [-> Es]]]. subst i.
    assert (NW : forall ty nm v, Td (T (List.length h) ty nm v [] [])) by (intros; constructor; constructor).
    destruct E as [E|E]; (destruct fs as [|f fs];
      [destruct (fill_get _ _ _ (proj1 D)) as [o [_ [Hg _]]]; unfold insert_as_previous_sibling, insert_as_next_sibling, insert_as_sibling, parent in E; rewrite Hg in E;
       cbn [n_parent hole_parent] in E; injection E as <-; eauto 6|]); cbn [fill plug] in D.
    + destruct (insert_leaf_document 0 _ _ _ _ _ _ _ _ _ _ x (Nat.le_0_l 1) D Hx Hc Ha) as [h2 [E2 [D2 Z2]]].
      unfold insert_as_previous_sibling in E. rewrite E in E2. injection E2 as ->. eexists. split; [exact D2|].
      split; [eapply tid_fill_zero; [|exact T0]; reflexivity|]. split; [left; exact Z2|]. cbn [fill] in N.
      destruct (td_fill _ _ N) as [N1 N2]. apply N2. unfold plug in N1. inversion N1 as [? ? ? ? ? ? N3 N4]; subst. constructor; [exact N3|].
      apply Forall_app in N4. destruct N4 as [N4 N5]. inversion N5; subst. apply Forall_app. split; [auto|]. cbn [Nat.eqb app]. repeat (constructor; auto).
    + destruct (insert_leaf_document 1 _ _ _ _ _ _ _ _ _ _ x (Nat.le_refl 1) D Hx Hc Ha) as [h2 [E2 [D2 Z2]]].
      unfold insert_as_next_sibling in E. rewrite E in E2. injection E2 as ->. eexists. split; [exact D2|].
      split; [eapply tid_fill_zero; [|exact T0]; reflexivity|]. split; [left; exact Z2|]. cbn [fill] in N.
      destruct (td_fill _ _ N) as [N1 N2]. apply N2. unfold plug in N1. inversion N1 as [? ? ? ? ? ? N3 N4]; subst. constructor; [exact N3|].
      apply Forall_app in N4. destruct N4 as [N4 N5]. inversion N5; subst. apply Forall_app. split; [auto|]. cbn [Nat.eqb app]. repeat (constructor; auto).
  - destruct IH as [SE [t [D [T0 [O N]]]]]. split; [eapply ses_order; eauto|]. rewrite <- T0 in A. apply (in_document_ids h t i D) in A.
    destruct (document_order_spec h t i D O A) as [z2 [h2 [E2 [D2 [O2 _]]]]].
    rewrite E in E2. injection E2 as <- <-. eauto 6.
Qed.
(* However a document with distinct attribute names is edited, its attribute names stay distinct. *)
Theorem C93_distinct : forall h0 h, session h0 -> distinct h0 -> edited h0 h -> distinct h.
Proof.
  intros h0 h SE N ED. destruct (session_document h0 SE) as [t [D [T0 O]]].
  destruct (edited_tree h0 t SE D T0 O (td_of h0 t [] D T0 N) h ED) as [SE' [t' [D' [T0' [O' N']]]]]. eapply distinct_of; eauto.
Qed.
Print Assumptions C93_distinct.
(* no start tag of the token stream repeats an attribute name (XML 1.0, 3.1, "Unique Att Spec") *)
Definition tags_distinct (ts : list token) : Prop := forall name ats, In (TStart name ats) ts -> NoDup (map fst ats).

Definition tok_distinct (t : token) : Prop := match t with TStart _ ats => NoDup (map fst ats) | _ => True end.
Lemma td_fill_iff : forall fs s s' P, (Td s' <-> Td s /\ P) -> (Td (fill fs s') <-> Td (fill fs s) /\ P).
Proof.
  intros fs s s' P H. split.
  - intro D. destruct (td_fill _ _ D) as [D1 D2]. apply H in D1. destruct D1 as [D1 HP]. auto.
  - intros [D HP]. destruct (td_fill _ _ D) as [D1 D2]. apply D2. apply H. auto.
Qed.
Lemma td_add_kid : forall c k P, (Td k <-> P) -> (Td (add_kid c k) <-> Td c /\ P).
Proof.
  intros [i ty nm v ats ks] k P H. cbn [add_kid]. split.
  - intro D. inversion D as [? ? ? ? ? ? N F]; subst. apply Forall_app in F. destruct F as [F1 F2]. inversion F2; subst. split; [constructor; auto|]. apply H. assumption.
  - intros [D HP]. inversion D as [? ? ? ? ? ? N F]; subst. constructor; [exact N|]. apply Forall_app. split; [exact F|]. constructor; [|constructor]. apply H. exact HP.
Qed.
Lemma doc_step_td : forall h fs c t h' curr',
  building h fs c -> doc_step h (tid c) t = Ok (h', curr') ->
  exists fs' c', building h' fs' c' /\ tid (fill fs' c') = tid (fill fs c) /\ curr' = tid c' /\
    (Td (fill fs' c') <-> Td (fill fs c) /\ tok_distinct t).
Proof.
  intros h fs c t h' curr' B E.
  assert (Hleaf : forall ty nm v,
     exists fs' c', building (fst (make_new_child_rc_node h ty (tid c) nm v None)) fs' c' /\
                    tid (fill fs' c') = tid (fill fs c) /\ tid c = tid c' /\ (Td (fill fs' c') <-> Td (fill fs c) /\ True)).
  { intros ty nm v. destruct (make_new_child_rc_node h ty (tid c) nm v None) as [h1 id] eqn:E1.
    destruct (building_child _ _ _ _ _ _ _ _ B E1) as [-> B1].
    exists fs, (add_kid c (T (List.length h) ty nm v [] [])). split; [exact B1|].
    split; [apply tid_fill_same; apply tid_add_kid|].
    split; [symmetry; apply tid_add_kid|]. apply td_fill_iff. apply td_add_kid. split; [auto|]. intros _. constructor; constructor. }
  destruct t as [|name attr|name|s|target inst|cm|dr]; cbn [doc_step tok_distinct] in *.
  - injection E as <- <-. exists fs, c. tauto.
  - destruct (make_new_child_rc_node h Element (tid c) name [] None) as [h1 id] eqn:E1.
    destruct (building_child _ _ _ _ _ _ _ _ B E1) as [-> B1].
    destruct c as [i ty nm v ats ks]. apply building_enter in B1.
    destruct (building_attrs attr _ _ _ B1 eq_refl) as [c' [B2 [E2 [E3 [E4 [E5 [E6 E7]]]]]]].
    injection E as <- <-. simpl in E2. exists (Fr i ty nm v ats ks [] :: fs), c'. split; [exact B2|].
    split; [cbn [fill]; apply tid_fill_same; reflexivity|]. split; [auto|].
    change (fill (Fr i ty nm v ats ks [] :: fs) c') with (fill fs (add_kid (T i ty nm v ats ks) c')).
    apply td_fill_iff. apply td_add_kid. destruct c' as [i' ty' nm' v' ats' ks']. cbn [tkids tattrs] in *. subst ks'. cbn [map app] in E7.
    rewrite <- E7. split; [intro D; inversion D; assumption|intro; constructor; [assumption|constructor]].
  - destruct (str_eqb (n_name (get h (tid c))) name); [|discriminate].
    injection E as <- <-. destruct (building_get _ _ _ B) as [o Hg]. rewrite Hg. simpl.
    destruct fs as [|f fs].
    + exists [], c. tauto.
    + exists fs, (plug f c). split; [apply building_leave; auto|]. split; [reflexivity|]. split; [reflexivity|]. cbn [fill]. tauto.
  - injection E as <- <-. apply Hleaf.
  - destruct (str_eqb target (lit "xml")); injection E as <- <-; apply Hleaf.
  - injection E as <- <-. apply Hleaf.
  - injection E as <- <-. exists fs, c. tauto.
Qed.
Lemma doc_steps_td : forall ts h fs c h' curr',
  building h fs c -> doc_steps h (tid c) ts = Ok (h', curr') ->
  exists fs' c', building h' fs' c' /\ tid (fill fs' c') = tid (fill fs c) /\ (Td (fill fs' c') <-> Td (fill fs c) /\ Forall tok_distinct ts).
Proof.
  induction ts as [|t ts IH]; intros h fs c h' curr' B E; cbn [doc_steps] in E.
  - injection E as <- <-. exists fs, c. split; [exact B|]. split; [reflexivity|]. split; [auto|tauto].
  - destruct (doc_step h (tid c) t) as [[h1 curr1]|?| |] eqn:E1; cbn [bind] in E; try discriminate.
    destruct (doc_step_td _ _ _ _ _ _ B E1) as [fs1 [c1 [B1 [T1 [-> I1]]]]].
    destruct (IH _ _ _ _ _ B1 E) as [fs2 [c2 [B2 [T2 I2]]]]. exists fs2, c2. split; [exact B2|]. split; [congruence|].
    rewrite I2, I1. split; [intros [[X Y] Z]; auto|intros [X Y]; inversion Y; auto].
Qed.
Lemma tags_distinct_forall : forall ts, tags_distinct ts <-> Forall tok_distinct ts.
Proof.
  intro ts. rewrite Forall_forall. split.
  - intros H t I. destruct t; cbn [tok_distinct]; auto. eapply H; eauto.
  - intros H name ats I. apply (H _ I).
Qed.
(* A text that is read gives a document with distinct attribute names exactly if none of its start tags repeats one;
   and then every document that edits lead to has distinct attribute names too. *)
Theorem C93_parse : forall xml h, new_document xml = Ok h ->
  exists ts, tokens (doc_fuel xml) (sax_new xml) = Ok ts /\
    (distinct h <-> tags_distinct ts) /\ (tags_distinct ts -> forall h', edited h h' -> distinct h').
Proof.
  intros xml h E. destruct (new_document_ok_tokens _ _ E) as [ts Et]. exists ts. split; [exact Et|].
  assert (SE : session h) by (eapply ses_parse; eauto).
  assert (Q : distinct h <-> tags_distinct ts).
  { unfold new_document, new_document_fuel in E. cbn [make_new_rc_node fst tid app List.length] in E. rewrite (doc_loop_tokens _ _ _ _ _ Et) in E.
    destruct (doc_steps [mkNode DocumentRoot 0 [] [] None [] []] 0 ts) as [[h1 cr]|?| |] eqn:E1; cbn [bind] in E; try discriminate. injection E as ->.
    destruct (doc_steps_td ts _ [] (T 0 DocumentRoot [] [] [] []) h cr building_init E1) as [fs [c [[B1 B2 B3] [Z I]]]]. cbn [fill tid] in Z.
    assert (D : document h (fill fs c)) by (split; [exact B1|rewrite B3; apply seq_NoDup]).
    rewrite tags_distinct_forall. split.
    - intro N. apply I. exact (td_of h (fill fs c) [] D Z N).
    - intro F. eapply distinct_of; eauto. apply I. split; [constructor; constructor|exact F]. }
  split; [exact Q|]. intros F h' ED. apply Q in F. eapply C93_distinct; eauto.
Qed.
Print Assumptions C93_parse.
Theorem C93_example_parse : exists h ts, new_document (lit "<r x=""1"" y=""2""><a x=""3""/></r>") = Ok h /\
  tokens (doc_fuel (lit "<r x=""1"" y=""2""><a x=""3""/></r>")) (sax_new (lit "<r x=""1"" y=""2""><a x=""3""/></r>")) = Ok ts /\ tags_distinct ts /\ distinct h /\ attr_names h 1 = [lit "x"; lit "y"].
Proof.
  destruct (new_document (lit "<r x=""1"" y=""2""><a x=""3""/></r>")) as [h|?| |] eqn:E; [|vm_compute in E; discriminate..].
  destruct (C93_parse _ _ E) as [ts [Et [Q _]]]. exists h, ts. split; [reflexivity|]. split; [exact Et|].
  assert (F : tags_distinct ts).
  { vm_compute in Et. injection Et as <-. intros n a I. cbn [In] in I. destruct I as [I|[I|[I|[I|[]]]]]; try discriminate; injection I as <- <-; vm_compute; repeat (constructor; [cbn [In]; intro X; repeat destruct X as [X|X]; try discriminate X; auto|]); constructor. }
  split; [exact F|]. split; [apply Q; exact F|]. vm_compute in E. injection E as <-. reflexivity.
Qed.
(* the same for every node there is, in a document or not *)
Definition all_distinct (h : heap) : Prop := forall p, NoDup (attr_names h p).
(* everything a program can do to the documents it holds (SpecEdit.reachable), with texts whose start tags repeat no name *)
Inductive worked (h0 : heap) : heap -> Prop :=
| wk_none : worked h0 h0
| wk_parse : forall h h' xml fuel ts, worked h0 h -> tokens fuel (sax_new xml) = Ok ts -> tags_distinct ts ->
    doc_loop fuel (sax_new xml) (fst (make_new_rc_node h DocumentRoot None [] [])) (List.length h) = Ok h' -> worked h0 h'
| wk_append : forall h h' i c, worked h0 h -> i < List.length h -> c < List.length h -> append_child h i c = Ok h' -> worked h0 h'
| wk_prev : forall h h' i c, worked h0 h -> i < List.length h -> c < List.length h -> insert_as_previous_sibling h i c = Ok h' -> worked h0 h'
| wk_next : forall h h' i c, worked h0 h -> i < List.length h -> c < List.length h -> insert_as_next_sibling h i c = Ok h' -> worked h0 h'
| wk_delete : forall h h' i c, worked h0 h -> i < List.length h -> c < List.length h -> delete_child h i c = Ok h' -> worked h0 h'
| wk_replace : forall h h' i c, worked h0 h -> i < List.length h -> c < List.length h -> replace_with h i c = Ok h' -> worked h0 h'
| wk_set : forall h h' i n v, worked h0 h -> i < List.length h -> set_attribute h i n v = Ok h' -> worked h0 h'
| wk_del_attr : forall h h' i n, worked h0 h -> i < List.length h -> delete_attribute h i n = Ok h' -> worked h0 h'
| wk_order : forall h h' i z, worked h0 h -> i < List.length h -> document_order h i = Ok (z, h') -> worked h0 h'.

Lemma name_upd : forall h i f, (forall n, n_name (f n) = n_name n) -> forall j, n_name (get (upd h i f) j) = n_name (get h j).
Proof.
  intros h i f H j. destruct (Nat.eq_dec i j) as [->|N]; [|rewrite get_upd_other by auto; reflexivity].
  destruct (Nat.lt_ge_cases j (List.length h)) as [L|L]; [rewrite get_upd_same by auto; apply H|rewrite upd_out by auto; reflexivity].
Qed.
Lemma names_upd : forall h i f, (forall n, n_name (f n) = n_name n) -> (forall n, n_attrs (f n) = n_attrs n) ->
  forall p, attr_names (upd h i f) p = attr_names h p.
Proof.
  intros h i f H1 H2 p. unfold attr_names, attributes. replace (n_attrs (get (upd h i f) p)) with (n_attrs (get h p)).
  - apply map_ext. intro a. apply name_upd. exact H1.
  - destruct (Nat.eq_dec i p) as [->|N]; [|rewrite get_upd_other by auto; reflexivity].
    destruct (Nat.lt_ge_cases p (List.length h)) as [L|L]; [rewrite get_upd_same by auto; symmetry; apply H2|rewrite upd_out by auto; reflexivity].
Qed.
Lemma names_attrs : forall h i l p, i < List.length h ->
  attr_names (upd h i (set_attrs l)) p = if Nat.eq_dec i p then map (fun a => n_name (get h a)) l else attr_names h p.
Proof.
  intros h i l p L. unfold attr_names, attributes.
  assert (E : forall m, map (fun a => n_name (get (upd h i (set_attrs l)) a)) m = map (fun a => n_name (get h a)) m) by (intro m; apply map_ext; intro a; apply name_upd; reflexivity).
  rewrite E. destruct (Nat.eq_dec i p) as [->|N]; [rewrite get_upd_same by auto; reflexivity|rewrite get_upd_other by auto; reflexivity].
Qed.
Lemma names_alloc : forall h t n v par p, heap_ok h -> attr_names (h ++ [mkNode t 0 n v par [] []]) p = attr_names h p.
Proof.
  intros h t n v par p H. unfold attr_names, attributes. destruct (Nat.lt_ge_cases p (List.length h)) as [L|L].
  - rewrite (get_app_old h _ p L). apply map_ext_in. intros a I. rewrite get_app_old; [reflexivity|]. eapply heap_ok_attr_lt; eauto.
  - rewrite (get_out h p L). destruct (Nat.eq_dec p (List.length h)) as [->|N]; [rewrite get_app_new; reflexivity|].
    rewrite get_out; [reflexivity|]. rewrite app_length. cbn. lia.
Qed.
Lemma names_clear : forall h i h' p, clear_document_order h i = Ok h' -> attr_names h' p = attr_names h p.
Proof.
  intros h i h' p E. unfold clear_document_order in E. destruct (root h i) as [r|?| |]; try discriminate. cbn [bind] in E. injection E as <-.
  apply names_upd; reflexivity.
Qed.
Lemma names_child : forall h t par n v hint p, heap_ok h -> attr_names (fst (make_new_child_rc_node h t par n v hint)) p = attr_names h p.
Proof. intros h t par n v hint p H. unfold make_new_child_rc_node, make_new_rc_node. cbn [fst]. rewrite names_upd by reflexivity. apply names_alloc. exact H. Qed.
Lemma push_attrs_distinct : forall ats h e, heap_ok h -> e < List.length h -> all_distinct h -> NoDup (attr_names h e ++ map fst ats) -> all_distinct (push_attrs h e ats).
Proof.
  induction ats as [|[n v] ats IH]; intros h e H L A N; [exact A|]. destruct (push_attrs_ok [(n, v)] h e H L) as [O2 L2].
  cbn [push_attrs] in *. unfold make_new_rc_node in *. set (h1 := h ++ [mkNode Attribute 0 n v (Some e) [] []]) in *.
  assert (L1 : e < List.length h1) by (unfold h1; rewrite app_length; lia).
  assert (Q : forall p, attr_names (upd h1 e (set_attrs (n_attrs (get h1 e) ++ [List.length h]))) p = if Nat.eq_dec e p then attr_names h e ++ [n] else attr_names h p).
  { intro p. rewrite names_attrs by exact L1. destruct (Nat.eq_dec e p) as [<-|X]; [|apply names_alloc; exact H]. rewrite map_app. f_equal.
    - change (attr_names h1 e = attr_names h e). apply names_alloc. exact H.
    - cbn [map]. unfold h1. rewrite get_app_new. reflexivity. }
  apply IH; [exact O2|lia| |].
  - intro p. rewrite Q. destruct (Nat.eq_dec e p) as [<-|X]; [|apply A]. cbn [map fst] in N.
    replace (attr_names h e ++ n :: map fst ats) with ((attr_names h e ++ [n]) ++ map fst ats) in N by (rewrite <- app_assoc; reflexivity).
    apply NoDup_app_inv in N. tauto.
  - rewrite Q. destruct (Nat.eq_dec e e) as [_|X]; [|congruence]. rewrite <- app_assoc. exact N.
Qed.
Lemma doc_step_distinct : forall h c t h' c', heap_ok h -> c < List.length h -> all_distinct h -> tok_distinct t -> doc_step h c t = Ok (h', c') -> all_distinct h'.
Proof.
  intros h c t h' c' H L A D E.
  assert (Leaf : forall ty n v, all_distinct (fst (make_new_child_rc_node h ty c n v None))) by (intros ty n v p; rewrite names_child by exact H; apply A).
  destruct t as [|name attr|name|s|target inst|cm|dr]; cbn [doc_step tok_distinct] in *.
  - injection E as <- <-. exact A.
  - destruct (make_new_child_rc_node h Element c name [] None) as [h1 id] eqn:E1. destruct (child_node_ok _ _ _ _ _ _ _ _ H L E1) as [O1 [-> L1]]. injection E as <- <-.
    assert (Q : forall p, attr_names h1 p = attr_names h p) by (intro p; change h1 with (fst (h1, List.length h)); rewrite <- E1; apply names_child; exact H).
    apply push_attrs_distinct; [exact O1|lia|intro p; rewrite Q; apply A|]. rewrite Q. unfold attr_names, attributes. rewrite get_out by lia. exact D.
  - destruct (str_eqb _ _); [|discriminate]. injection E as <- <-. exact A.
  - injection E as <- <-. apply Leaf.
  - destruct (str_eqb _ _); injection E as <- <-; apply Leaf.
  - injection E as <- <-. apply Leaf.
  - injection E as <- <-. exact A.
Qed.
Lemma doc_steps_distinct : forall ts h c h' c', heap_ok h -> c < List.length h -> all_distinct h -> Forall tok_distinct ts -> doc_steps h c ts = Ok (h', c') ->
  all_distinct h' /\ heap_ok h'.
Proof.
  induction ts as [|t ts IH]; intros h c h' c' H L A F E; cbn [doc_steps] in E; [injection E as <- <-; auto|].
  destruct (doc_step h c t) as [[h1 c1]|?| |] eqn:E1; cbn [bind] in E; try discriminate. inversion F; subst.
  destruct (doc_step_ok _ _ _ _ _ H L E1). eapply IH; [| | | |exact E]; auto. eapply doc_step_distinct; [exact H|exact L|exact A| |exact E1]. assumption.
Qed.
Lemma insert_distinct : forall delta h i x h', heap_ok h -> all_distinct h -> insert_as_sibling delta h i x = Ok h' -> all_distinct h'.
Proof.
  intros delta h i x h' H A E. unfold insert_as_sibling in E. destruct (parent h i) as [p|] eqn:Ep; [|injection E as <-; auto].
  destruct (heap_ok_parent h i p H Ep) as [L1 L2]. intro q. rewrite (names_clear _ _ _ q E). clear E. revert q.
  destruct (find_child_index h p i) as [n|]; [|exact A].
  destruct (make_new_child_rc_node _ _ _ _ _ _) as [h1 d] eqn:E1.
  destruct (child_node_ok _ _ _ _ _ _ _ _ H (Nat.lt_trans _ _ _ L1 L2) E1) as [O1 [-> L3]].
  assert (Q : forall q, attr_names h1 q = attr_names h q) by (intro q; change h1 with (fst (h1, List.length h)); rewrite <- E1; apply names_child; exact H).
  unfold shallow_copy_rc_rels. set (h2 := upd h1 (List.length h) _). assert (Q2 : forall q, attr_names h2 q = attr_names h q) by (intro q; unfold h2; rewrite names_upd by reflexivity; apply Q).
  intro q. rewrite names_attrs by (unfold h2; rewrite upd_length; lia). destruct (Nat.eq_dec (List.length h) q) as [<-|N]; [|rewrite Q2; apply A].
  rewrite map_app. change (map (fun a => n_name (get h2 a)) (n_attrs (get h2 (List.length h)))) with (attr_names h2 (List.length h)). rewrite Q2.
  unfold attr_names at 1, attributes at 1. rewrite get_out by lia. cbn [n_attrs dummy_node map app].
  replace (map (fun a => n_name (get h2 a)) (n_attrs (get h1 x))) with (attr_names h1 x); [rewrite Q; apply A|].
  unfold attr_names, attributes. apply map_ext. intro a. unfold h2. symmetry. apply name_upd. reflexivity.
Qed.
Lemma delete_distinct : forall h i c h', all_distinct h -> delete_child h i c = Ok h' -> all_distinct h'.
Proof.
  intros h i c h' A E q. unfold delete_child in E. rewrite (names_clear _ _ _ q E). destruct (find_child_index h i c); [rewrite names_upd by reflexivity|]; apply A.
Qed.
Lemma after_set_nodup : forall n l, NoDup l -> NoDup (names_after_set n l).
Proof.
  intros n l N. unfold names_after_set. destruct (existsb (str_eqb n) l) eqn:E; [exact N|].
  assert (X : ~ In n l). { intro I. assert (existsb (str_eqb n) l = true); [|congruence]. apply existsb_exists. exists n. split; [exact I|apply str_eqb_refl]. }
  clear E. induction l as [|m l IH]; cbn [app]; [repeat constructor; intros []|]. inversion N as [|? ? N1 N2]; subst. constructor.
  - intro I. apply in_app_or in I. destruct I as [I|[I|[]]]; [auto|]. apply X. left. auto.
  - apply IH; auto. intro I. apply X. right. exact I.
Qed.
Lemma remove_nodup : forall n l, NoDup l -> NoDup (remove_first n l) /\ forall m, In m (remove_first n l) -> In m l.
Proof.
  intros n. induction l as [|m l IH]; intro N; cbn [remove_first]; [auto|]. inversion N as [|? ? N1 N2]; subst.
  destruct (str_eqb n m); [split; [exact N2|cbn [In]; auto]|]. destruct (IH N2) as [A B]. split; [constructor; auto|]. intros k [I|I]; cbn [In]; auto.
Qed.
Lemma worked_distinct : forall h0, heap_ok h0 -> all_distinct h0 -> forall h, worked h0 h -> heap_ok h /\ all_distinct h.
Proof.
  intros h0 H0 A0 h W. induction W as [|h h' xml fuel ts W [H A] Et D E|h h' i c W [H A] Hi Hc E|h h' i c W [H A] Hi Hc E|h h' i c W [H A] Hi Hc E
    |h h' i c W [H A] Hi Hc E|h h' i c W [H A] Hi Hc E|h h' i n v W [H A] Hi E|h h' i n W [H A] Hi E|h h' i z W [H A] Hi E].
  - auto.
  - rewrite (doc_loop_tokens _ _ _ _ _ Et) in E. unfold make_new_rc_node in E. cbn [fst] in E.
    destruct (doc_steps _ _ ts) as [[h1 cr]|?| |] eqn:E1; cbn [bind] in E; try discriminate. injection E as ->.
    apply and_comm. eapply doc_steps_distinct; [| | | |exact E1].
    + apply heap_ok_alloc; auto.
    + rewrite app_length. cbn. lia.
    + intro p. rewrite names_alloc by exact H. apply A.
    + apply tags_distinct_forall. exact D.
  - unfold append_child in E. split.
    + eapply clear_order_heap_ok; [|exact E]. apply heap_ok_children; auto.
      intros x Hx. apply in_app_or in Hx. destruct Hx as [Hx|[<-|[]]]; auto. eapply heap_ok_child_lt; eauto.
    + intro p. rewrite (names_clear _ _ _ p E), names_upd by reflexivity. apply A.
  - split; [eapply insert_heap_ok|eapply insert_distinct]; eauto.
  - split; [eapply insert_heap_ok|eapply insert_distinct]; eauto.
  - split; [eapply delete_child_heap_ok|eapply delete_distinct]; eauto.
  - unfold replace_with in E. destruct (parent h i) as [q|]; [|injection E as <-; auto].
    destruct (insert_as_previous_sibling h i c) as [h1|e| |] eqn:E1; try discriminate. cbn [bind] in E.
    destruct (delete_child h1 q i) as [h2|e| |] eqn:E2; try discriminate. cbn [bind] in E. split.
    + eapply clear_order_heap_ok; [|exact E]. eapply delete_child_heap_ok; [|exact E2]. eapply insert_heap_ok; eauto.
    + intro p. rewrite (names_clear _ _ _ p E). revert p. eapply delete_distinct; [|exact E2]. eapply insert_distinct; [exact H|exact A|exact E1].
  - destruct (set_attribute_spec h i n v H Hi) as [h2 [E2 [O2 [_ [_ [Q _]]]]]]. rewrite E in E2. injection E2 as <-. split; [exact O2|].
    intro p. destruct (Nat.eq_dec i p) as [<-|N]; [rewrite Q; apply after_set_nodup; apply A|].
    unfold set_attribute, make_new_rc_node in E. rewrite (names_clear _ _ _ p E), names_attrs by (rewrite app_length; lia).
    destruct (Nat.eq_dec i p); [contradiction|]. rewrite names_alloc by exact H. apply A.
  - destruct (delete_attribute_spec h i n H Hi) as [h2 [E2 [O2 [_ [_ [Q _]]]]]]. rewrite E in E2. injection E2 as <-. split; [exact O2|].
    intro p. destruct (Nat.eq_dec i p) as [<-|N]; [rewrite Q; apply remove_nodup; apply A|].
    unfold delete_attribute in E. rewrite (names_clear _ _ _ p E). destruct (find_attribute_index h i n); [|apply A]. rewrite names_attrs by exact Hi.
    destruct (Nat.eq_dec i p); [contradiction|]. apply A.
  - destruct (document_order_same _ _ _ _ E) as [L S]. split; [apply heap_ok_same with h; auto|]. intro p.
    replace (attr_names h' p) with (attr_names h p); [apply A|]. unfold attr_names, attributes. destruct (S p) as [_ [_ [_ [_ [_ ->]]]]].
    apply map_ext. intro a. destruct (S a) as [_ [-> _]]. reflexivity.
Qed.
(* Whatever a program does - parsing texts whose tags repeat no name, appending, inserting, deleting and replacing nodes,
   setting and deleting attributes - no node ever has two attributes of the same name. *)
Theorem C93_all : forall h0 h, reachable h0 -> all_distinct h0 -> worked h0 h -> all_distinct h.
Proof. intros h0 h R A W. eapply worked_distinct; [apply reachable_ok; exact R|exact A|exact W]. Qed.
Theorem C93_programs : forall h, worked [] h -> forall p, NoDup (attr_names h p).
Proof. intros h W. apply (C93_all [] h); [apply reach_empty| |exact W]. intros [|p]; constructor. Qed.
Print Assumptions C93_programs.
Theorem C93_example_all : exists h, worked [] h /\ attr_names h 1 = [lit "y"; lit "z"] /\ children h 4 = [1] /\ attr_names h 5 = [lit "x"; lit "y"].
Proof.
  eexists. split; [|split; [|split]].
  - eapply wk_set with (i := 1) (n := lit "z") (v := lit "5");
    [eapply wk_del_attr with (i := 1) (n := lit "x");
     [eapply wk_append with (i := 4) (c := 1);
      [eapply wk_prev with (i := 4) (c := 1);
       [eapply wk_parse with (xml := lit "<r x=""1"" y=""2""><a/></r>") (fuel := 99);
         [apply wk_none|vm_compute; reflexivity| |vm_compute; reflexivity]
       | | |vm_compute; reflexivity]| | |vm_compute; reflexivity]| |vm_compute; reflexivity]| |vm_compute; reflexivity]; try (vm_compute; lia).
    intros n a I. cbn [In] in I. repeat (destruct I as [I|I]; [try discriminate I; injection I as <- <-; vm_compute; repeat (constructor; [cbn [In]; intro X; repeat destruct X as [X|X]; try discriminate X; auto|]); constructor|]). destruct I.
  - vm_compute. reflexivity.
  - vm_compute. reflexivity.
  - vm_compute. reflexivity.
Qed.
(* An XML document with two attributes of the same name in a tag is not well-formed, but it is read. *)
Theorem C93_parse_refuted : exists xml h, new_document xml = Ok h /\ ~ distinct h.
Proof.
  exists (lit "<r x=""1"" x=""2""/>"). eexists. split; [vm_compute; reflexivity|]. intro N.
  assert (A : in_document (match new_document (lit "<r x=""1"" x=""2""/>") with Ok h => h | _ => [] end) 0 1).
  { left. apply att_child with (p := 0); [constructor|left; reflexivity]. }
  apply N in A. vm_compute in A. inversion A as [|? ? X _]; subst. apply X. left. reflexivity.
Qed.
Theorem C93_example : session sem_heap /\ distinct sem_heap /\
  exists h, edited sem_heap h /\ attr_names h 5 = [lit "x"; lit "y"] /\ attr_names sem_heap 5 = [lit "x"].
Proof.
  split; [exact (proj1 (ordinary_session _ sem_parsed))|].
  split. { intros p _. do 10 (destruct p as [|p]; [vm_compute; repeat (constructor; try (intros []))|]). destruct p; constructor. }
  eexists. split; [|split; [|reflexivity]].
  - eapply ed_set with (i := 5) (n := lit "y") (v := lit "3"); [eapply ed_set with (i := 5) (n := lit "x") (v := lit "7"); [apply ed_none| |vm_compute; reflexivity]| |vm_compute; reflexivity].
    + apply (proj1 (Forall_forall _ _) sem_attached). vm_compute. tauto.
    + apply att_child with (p := 1); [apply att_child with (p := 0); [constructor|left; reflexivity]|right; left; reflexivity].
  - vm_compute. reflexivity.
Qed.

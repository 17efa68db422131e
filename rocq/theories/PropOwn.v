(* C86, C87: what keeps a node alive; the upward operations of NodePtr fail exactly when an ancestor was freed. *)
Require Import Bool List NArith ZArith Lia PeanoNat String.
From Verif Require Import Str Chars Sax Dom SpecTree HeapFacts SpecEdit EditFacts ReachFacts SessionFacts PropEdit Own SpecOwn OwnFacts.
Import ListNotations.
Open Scope nat_scope.

(* ---- the walk to the root ---- *)
Lemma upgrade_ok : forall freed p, ~ In p freed -> upgrade freed p = Ok p.
Proof. intros freed p N. unfold upgrade. apply mem_not in N. rewrite N. reflexivity. Qed.
Lemma upgrade_panic : forall freed p, In p freed -> upgrade freed p = Panic.
Proof. intros freed p N. unfold upgrade. apply mem_In in N. rewrite N. reflexivity. Qed.
Lemma above_inv : forall h i a, above h i a -> exists p, parent h i = Some p /\ (a = p \/ above h p a).
Proof. intros h i a X. destruct X as [i p E|i p a E X]; exists p; auto. Qed.
Lemma root_walk : forall h freed, heap_ok h -> forall fuel i, i < fuel ->
  ((forall a, above h i a -> ~ In a freed) /\ root_up_loop fuel h freed i = root_loop fuel h i) \/
  ((exists a, above h i a /\ In a freed) /\ root_up_loop fuel h freed i = Panic).
Proof.
  intros h freed HO. induction fuel as [|fuel IH]; intros i L; [lia|]. cbn [root_up_loop root_loop].
  destruct (n_parent (get h i)) as [p|] eqn:E.
  - destruct (heap_ok_parent h i p HO E) as [P _]. destruct (in_dec Nat.eq_dec p freed) as [F|F].
    + right. split; [exists p; split; [constructor; exact E|exact F]|]. rewrite upgrade_panic by exact F. reflexivity.
    + rewrite upgrade_ok by exact F. cbn [bind]. destruct (IH p ltac:(lia)) as [[A B]|[[a [A F']] B]].
      * left. split; [|exact B]. intros a X. destruct (above_inv h i a X) as [q [Q X']]. unfold parent in Q. rewrite E in Q. injection Q as <-.
        destruct X' as [->|X']; [exact F|exact (A a X')].
      * right. split; [|exact B]. exists a. split; [eapply above_up; [exact E|exact A]|exact F'].
  - left. split; [|reflexivity]. intros a X. destruct (above_inv h i a X) as [q [Q _]]. unfold parent in Q. congruence.
Qed.
Lemma root_up_cases : forall w i, heap_ok (w_heap w) -> i < List.length (w_heap w) ->
  ((forall a, above (w_heap w) i a -> ~ In a (w_freed w)) /\ root_up w i = root (w_heap w) i /\ exists r, root_up w i = Ok r) \/
  ((exists a, above (w_heap w) i a /\ In a (w_freed w)) /\ root_up w i = Panic).
Proof.
  intros w i HO L. unfold root_up, root. destruct (root_walk (w_heap w) (w_freed w) HO (S (List.length (w_heap w))) i ltac:(lia)) as [[A B]|C]; [left|right; exact C].
  split; [exact A|]. split; [exact B|]. rewrite B. destruct (root_ok (w_heap w) i HO L) as [r [E _]]. exists r. exact E.
Qed.

(* ---- every step keeps the invariant ---- *)
Definition inv (w : world) : Prop := invw (w_heap w) (w_freed w) (w_held w) [].
Lemma inv_hold : forall w i, inv w -> i < List.length (w_heap w) -> ~ In i (w_freed w) -> inv (hold w i).
Proof.
  intros w i [HO HF HH HW HS HU] L F. unfold inv, hold. cbn [w_heap w_freed w_held]. split; auto.
  - intros j [<-|J]; auto.
  - intros j [[<-|J]|X]; [exact F|apply HS; left; exact J|apply HS; right; exact X].
  - intros j Lj Fj. destruct (HU j Lj Fj) as [[J|X]|[]]; left; [left; right; exact J|right; exact X].
Qed.
Lemma remove_one_In : forall i l j, In j (remove_one i l) -> In j l.
Proof.
  induction l as [|x l IH]; intros j J; [exact J|]. cbn [remove_one] in J. destruct (x =? i); [right; exact J|].
  destruct J as [->|J]; [left; reflexivity|right; apply IH; exact J].
Qed.
Lemma remove_one_other : forall i l j, In j l -> j = i \/ In j (remove_one i l).
Proof.
  induction l as [|x l IH]; intros j J; [destruct J|]. cbn [remove_one]. destruct (Nat.eqb_spec x i) as [->|N].
  - destruct J as [<-|J]; auto.
  - destruct J as [<-|J]; [right; left; reflexivity|]. destruct (IH j J) as [E|E]; [left; exact E|right; right; exact E].
Qed.
Lemma edit_ok : forall w i out r w', edit w i out r = Ok w' -> exists q h', root_up w i = Ok q /\ r (w_heap w) = Ok h' /\
  w' = mkWorld h' (drop_all h' (w_held w) (w_freed w) out) (w_held w).
Proof.
  intros w i out r w' E. unfold edit in E. destruct (root_up w i) as [q| | |] eqn:R; try discriminate E. cbn [bind] in E.
  destruct (r (w_heap w)) as [h'| | |] eqn:H; try discriminate E. cbn [bind] in E. injection E as <-. exists q, h'. auto.
Qed.
Lemma inv_edit : forall w i out r w', edit w i out r = Ok w' -> (forall h', r (w_heap w) = Ok h' -> invw h' (w_freed w) (w_held w) out) -> inv w'.
Proof.
  intros w i out r w' E H. destruct (edit_ok _ _ _ _ _ E) as [q [h' [R [R' ->]]]]. unfold inv. cbn [w_heap w_freed w_held]. apply drop_inv. auto.
Qed.
Lemma step_inv : forall w o w', inv w -> incl (uses o) (w_held w) -> step w o = Ok w' -> inv w'.
Proof.
  intros w o w' V U E. pose proof (iv_heap _ _ _ _ V) as HO.
  assert (H1 : forall i, In i (uses o) -> i < List.length (w_heap w) /\ ~ In i (w_freed w)).
  { intros i I. apply (inv_held _ _ (w_held w)); [exact V|]. apply U, I. }
  assert (UPS : forall i r, i < List.length (w_heap w) -> root_up w i = Ok r -> forall a, above (w_heap w) i a -> ~ In a (w_freed w)).
  { intros i r L R. destruct (root_up_cases w i HO L) as [[A _]|[_ B]]; [exact A|congruence]. }
  destruct o as [xml|i|i|i k|i k|i|i|i|i c|i c|i c|i c|i c|i n v|i n|i]; cbn [step uses] in *.
  - destruct (doc_loop _ _ _ _) as [h'| | |] eqn:D; try discriminate E; injection E as <-; [|exact V].
    unfold inv, hold. cbn [w_heap w_freed w_held]. eapply inv_parse; [exact V|exact D].
  - injection E as <-. apply inv_hold; [exact V|apply H1..]; left; reflexivity.
  - injection E as <-. unfold inv. cbn [w_heap w_freed w_held]. apply drop_inv. destruct V as [_ HF HH HW HS HU]. split; [exact HO|exact HF| | | |].
    + intros j J. apply HH. eapply remove_one_In. exact J.
    + intros j [<-|[]]. apply H1. left. reflexivity.
    + intros j [J|X]; [apply HS; left; eapply remove_one_In; exact J|apply HS; right; exact X].
    + intros j Lj Fj. destruct (HU j Lj Fj) as [[J|X]|[]]; [|left; right; exact X].
      destruct (remove_one_other i _ _ J) as [->|K]; [right; left; reflexivity|left; left; exact K].
  - destruct (H1 i (or_introl eq_refl)) as [L F]. destruct (nth_error _ k) as [c|] eqn:N; injection E as <-; [|exact V].
    apply nth_error_In in N. assert (I : In c (owned_by (w_heap w) i)) by (apply in_or_app; left; exact N).
    apply inv_hold; [exact V|eapply owned_by_lt; eauto|exact (inv_live _ _ _ i c V L F I)].
  - destruct (H1 i (or_introl eq_refl)) as [L F]. destruct (nth_error _ k) as [c|] eqn:N; injection E as <-; [|exact V].
    apply nth_error_In in N. assert (I : In c (owned_by (w_heap w) i)) by (apply in_or_app; right; exact N).
    apply inv_hold; [exact V|eapply owned_by_lt; eauto|exact (inv_live _ _ _ i c V L F I)].
  - unfold parent_up in E. destruct (n_parent (get (w_heap w) i)) as [p|] eqn:P; [|injection E as <-; exact V].
    unfold upgrade in E. destruct (mem p (w_freed w)) eqn:M; [discriminate E|]. injection E as <-.
    destruct (heap_ok_parent _ i p HO P) as [P1 P2]. apply inv_hold; [exact V|lia|apply mem_not; exact M].
  - destruct (H1 i (or_introl eq_refl)) as [L F]. destruct (root_up w i) as [r| | |] eqn:R; try discriminate E. injection E as <-.
    destruct (root_ok (w_heap w) i HO L) as [r' [R' [Lr _]]]. destruct (root_up_cases w i HO L) as [[A [B _]]|[_ B]]; [|congruence].
    assert (r = r') by congruence. subst r'. apply inv_hold; [exact V|lia|].
    unfold root_up in R. revert R. clear - A F. generalize (S (List.length (w_heap w))) as fuel. intro fuel. revert i A F.
    induction fuel as [|fuel IH]; intros i A F R; [discriminate R|]. cbn [root_up_loop] in R. destruct (n_parent (get (w_heap w) i)) as [p|] eqn:P.
    + unfold upgrade in R. destruct (mem p (w_freed w)) eqn:M; [discriminate R|]. cbn [bind] in R. apply (IH p); [|apply mem_not; exact M|exact R].
      intros a X. apply A. eapply above_up; [exact P|exact X].
    + injection R as <-. exact F.
  - destruct (H1 i (or_introl eq_refl)) as [L F]. unfold root_element_up in E. destruct (root_up w i) as [r| | |] eqn:R; try discriminate E. cbn [bind] in E.
    assert (G : r < List.length (w_heap w) /\ ~ In r (w_freed w)).
    { destruct (root_ok (w_heap w) i HO L) as [r' [R' [Lr _]]]. destruct (root_up_cases w i HO L) as [[A [B _]]|[_ B]]; [|congruence].
      assert (r = r') by congruence. subst r'. split; [lia|].
      unfold root_up in R. revert R. clear - A F. generalize (S (List.length (w_heap w))) as fuel. intro fuel. revert i A F.
      induction fuel as [|fuel IH]; intros i A F R; [discriminate R|]. cbn [root_up_loop] in R. destruct (n_parent (get (w_heap w) i)) as [p|] eqn:P.
      - unfold upgrade in R. destruct (mem p (w_freed w)) eqn:M; [discriminate R|]. cbn [bind] in R. apply (IH p); [|apply mem_not; exact M|exact R].
        intros a X. apply A. eapply above_up; [exact P|exact X].
      - injection R as <-. exact F. }
    destruct G as [Lr Fr]. destruct (find _ _) as [c|] eqn:FD; injection E as <-; [|apply inv_hold; auto].
    apply find_some in FD. destruct FD as [I _]. assert (I' : In c (owned_by (w_heap w) r)) by (apply in_or_app; left; exact I).
    apply inv_hold; [exact V|eapply owned_by_lt; eauto|exact (inv_live _ _ _ r c V Lr Fr I')].
  - apply (inv_edit _ _ _ _ _ E). intros h' R. eapply inv_append; [exact V|apply U; left; reflexivity|apply U; right; left; reflexivity|exact R].
  - apply (inv_edit _ _ _ _ _ E). intros h' R. destruct (edit_ok _ _ _ _ _ E) as [q [_ [Q _]]].
    eapply inv_insert; [exact V|apply U; right; left; reflexivity| |exact R]. intros p P. apply (UPS i q); [apply H1; left; reflexivity|exact Q|constructor; exact P].
  - apply (inv_edit _ _ _ _ _ E). intros h' R. destruct (edit_ok _ _ _ _ _ E) as [q [_ [Q _]]].
    eapply inv_insert; [exact V|apply U; right; left; reflexivity| |exact R]. intros p P. apply (UPS i q); [apply H1; left; reflexivity|exact Q|constructor; exact P].
  - apply (inv_edit _ _ _ _ _ E). intros h' R. eapply inv_delete; [exact V|apply H1; left; reflexivity|apply H1; right; left; reflexivity|exact R].
  - apply (inv_edit _ _ _ _ _ E). intros h' R. destruct (edit_ok _ _ _ _ _ E) as [q [_ [Q _]]].
    destruct (H1 i (or_introl eq_refl)) as [L F]. unfold replace_with in R. destruct (parent (w_heap w) i) as [p|] eqn:P.
    + destruct (heap_ok_parent _ i p HO P) as [P1 P2].
      destruct (insert_as_previous_sibling (w_heap w) i c) as [h1| | |] eqn:R1; try discriminate R. cbn [bind] in R.
      destruct (delete_child h1 p i) as [h2| | |] eqn:R2; try discriminate R. cbn [bind] in R.
      eapply inv_clear; [|exact R].
      assert (V1 : invw h1 (w_freed w) (w_held w) []).
      { eapply inv_insert; [exact V|apply U; right; left; reflexivity| |exact R1]. intros p' P'. apply (UPS i q); [exact L|exact Q|constructor; exact P']. }
      assert (L1 : List.length (w_heap w) <= List.length h1).
      { destruct (insert_owned _ _ _ _ _ HO (proj1 (H1 c (or_intror (or_introl eq_refl)))) R1) as [[X _]|[p' [_ [_ [X _]]]]]; lia. }
      apply (inv_delete h1 _ _ p i); [exact V1|lia|lia|exact R2].
    + injection R as <-. destruct V as [A B C D F1 G]. split; auto; [intros j [<-|[]]; exact L|]. intros j Lj Nj. destruct (G j Lj Nj) as [X|[]]. left. exact X.
  - apply (inv_edit _ _ _ _ _ E). intros h' R. eapply inv_set; [exact V|apply U; left; reflexivity|exact R].
  - apply (inv_edit _ _ _ _ _ E). intros h' R. eapply inv_del_attr; [exact V|apply H1; left; reflexivity|exact R].
  - apply (inv_edit _ _ _ _ _ E). intros h' R. destruct (document_order (w_heap w) i) as [[z h1]| | |] eqn:D; try discriminate R. cbn [bind] in R. injection R as <-.
    destruct (document_order_same _ _ _ _ D) as [L S]. apply (inv_same (w_heap w)); [exact V| |exact L|intro k; apply owned_by_same, S].
    eapply heap_ok_same; [symmetry; exact L| |exact HO]. intro j. apply S.
Qed.
Lemma runs_inv : forall os w, runs os w -> inv w.
Proof.
  intros os w R. induction R as [|os w o w' R IH U E].
  - unfold inv. cbn [w_heap w_freed w_held]. split; [exact heap_ok_nil|intros j []..| |].
    + intros j [[]|[k [H _]]]. inversion H.
    + intros j L. inversion L.
  - exact (step_inv w o w' IH U E).
Qed.

(* ---- C87: a node lives exactly as long as it can be reached from a handle ---- *)
Lemma kept_alive : forall w j, inv w -> kept w j -> alive w j.
Proof.
  intros w j V [i [I R]]. induction R as [|j c R IH C]; [apply (inv_held _ _ (w_held w)); [exact V|exact I]|].
  destruct IH as [L F]. split; [eapply owned_by_lt; [apply (iv_heap _ _ _ _ V)|exact C]|exact (inv_live _ _ _ j c V L F C)].
Qed.
Lemma reaches_trans : forall h i j k, reaches h i j -> reaches h j k -> reaches h i k.
Proof. intros h i j k A B. induction B as [|k c B IH C]; [exact A|]. eapply reaches_down; [exact IH|exact C]. Qed.
Lemma alive_kept : forall w, inv w -> acyclic (w_heap w) -> forall n visited j,
  List.length visited + n = List.length (w_heap w) -> NoDup visited -> (forall v, In v visited -> v < List.length (w_heap w)) ->
  (forall v, In v visited -> reaches (w_heap w) j v) -> ~ In j visited -> alive w j -> kept w j.
Proof.
  intros w V AC. induction n as [|n IH]; intros visited j LV ND LT RV NV [L F].
  - exfalso. assert (NI : NoDup (j :: visited)) by (constructor; auto).
    assert (IL := NoDup_incl_length NI (l' := seq 0 (List.length (w_heap w)))). rewrite seq_length in IL. cbn [List.length] in IL.
    assert (Q : incl (j :: visited) (seq 0 (List.length (w_heap w)))) by (intros x [<-|X]; apply in_seq; [lia|specialize (LT x X); lia]).
    specialize (IL Q). lia.
  - destruct (iv_used _ _ _ _ V j L F) as [[H|[k [Lk [Fk Ik]]]]|[]]; [exists j; split; [exact H|constructor]|].
    assert (NK : ~ In k (j :: visited)).
    { intros [<-|X]; [exact (AC j j Ik (reaches_self _ _))|]. exact (AC k j Ik (RV k X)). }
    destruct (IH (j :: visited) k) as [i [I R]].
    + cbn [List.length]. lia.
    + constructor; auto.
    + intros v [<-|X]; auto.
    + assert (S : reaches (w_heap w) k j) by (eapply reaches_down; [constructor|exact Ik]). intros v [<-|X]; [exact S|eapply reaches_trans; [exact S|apply RV; exact X]].
    + exact NK.
    + split; auto.
    + exists i. split; [exact I|]. eapply reaches_down; [exact R|exact Ik].
Qed.
Theorem C87_reachable_alive : forall os w, runs os w -> forall j, kept w j -> alive w j.
Proof. intros os w R j K. apply kept_alive; [exact (runs_inv os w R)|exact K]. Qed.
Theorem C87_alive_exactly : forall os w, runs os w -> acyclic (w_heap w) -> forall j, alive w j <-> kept w j.
Proof.
  intros os w R AC j. split; [|apply (C87_reachable_alive os w R)]. intro A.
  apply (alive_kept w (runs_inv os w R) AC (List.length (w_heap w)) [] j); auto; try (intros v []). constructor.
Qed.
(* a program that holds no handle any more has freed every node it ever made *)
Theorem C87_all_freed : forall os w, runs os w -> acyclic (w_heap w) -> w_held w = [] -> forall j, j < List.length (w_heap w) -> In j (w_freed w).
Proof.
  intros os w R AC H j L. destruct (in_dec Nat.eq_dec j (w_freed w)) as [F|F]; [exact F|].
  exfalso. destruct (proj1 (C87_alive_exactly os w R AC j) (conj L F)) as [i [I _]]. rewrite H in I. exact I.
Qed.

(* in a session every node is younger than the node listing it *)
Lemma owned_by_over : forall h k, List.length h <= k -> owned_by h k = [].
Proof. intros h k L. unfold owned_by, children, attributes, get. rewrite (nth_overflow h dummy_node L). reflexivity. Qed.
Definition young (h : heap) : Prop := forall k c, In c (owned_by h k) -> k < c.
Lemma young_acyclic : forall h, young h -> acyclic h.
Proof.
  intros h Y i c I R. assert (L : c <= i); [|specialize (Y i c I); lia]. clear I. induction R as [|j d R IH C]; [lia|]. specialize (Y j d C). lia.
Qed.
Lemma young_same : forall h h', young h -> (forall k, owned_by h' k = owned_by h k) -> young h'.
Proof. intros h h' Y E k c I. rewrite E in I. exact (Y k c I). Qed.
Lemma parse_young : forall xml h, new_document xml = Ok h -> young h /\ heap_ok h.
Proof.
  intros xml h E. unfold new_document, new_document_fuel in E. cbn [make_new_rc_node List.length app] in E.
  assert (B0 : built 0 [mkNode DocumentRoot 0 [] [] None [] []]).
  { split.
    - intros [|k] c _ L I; [destruct I|cbn in L; lia].
    - intros j A B. cbn in B. lia.
    - reflexivity.
    - intros j p A B. cbn in B. lia. }
  assert (O0 : heap_ok [mkNode DocumentRoot 0 [] [] None [] []]).
  { intros [|j] L; [|cbn in L; lia]. split; [intros p Q; discriminate Q|intros c []]. }
  destruct (loop_built _ _ 0 _ 0 h B0 O0 (le_n _) (le_n _) E) as [[B1 _ _ _] [_ [_ HO]]]. split; [|exact HO].
  intros k c I. destruct (Nat.lt_ge_cases k (List.length h)) as [L|L]; [exact (B1 k c (Nat.le_0_l _) L I)|]. rewrite owned_by_over in I by exact L. destruct I.
Qed.
Lemma young_clear : forall h i h', young h -> heap_ok h -> clear_document_order h i = Ok h' -> young h' /\ heap_ok h'.
Proof.
  intros h i h' Y HO E. split; [|eapply clear_order_heap_ok; eauto]. destruct (clear_same h i h' E) as [_ S].
  apply (young_same h); [exact Y|]. intro k. apply owned_by_same, S.
Qed.
Lemma young_upd : forall h i f, young h -> i < List.length h -> (forall c, In c (owned_by (upd h i f) i) -> In c (owned_by h i) \/ i < c) -> young (upd h i f).
Proof.
  intros h i f Y L H k c I. destruct (Nat.eq_dec k i) as [->|N]; [destruct (H c I) as [J|J]; [exact (Y i c J)|exact J]|].
  rewrite upd_owned_other in I by exact N. exact (Y k c I).
Qed.
Lemma session_young : forall h, session h -> young h /\ heap_ok h.
Proof.
  assert (AT : forall h i, heap_ok h -> 0 < List.length h -> attached h 0 i -> i < List.length h).
  { intros h i HO L A. induction A as [|p c A IH I]; [exact L|]. eapply heap_ok_child_lt; eauto. }
  assert (NE : forall h, session h -> heap_ok h -> 0 < List.length h).
  { intros h S HO. destruct (session_document h S) as [t [[RT _] [E _]]]. destruct RT as [i ty n v ats ks D1 D2 D3 D4 D5]. cbn [tid] in E. subst. lia. }
  assert (INS : forall delta h i x h', young h -> heap_ok h -> x < List.length h -> children h x = [] -> attributes h x = [] ->
     insert_as_sibling delta h i x = Ok h' -> young h').
  { intros delta h i x h' Y HO L C1 C2 E. destruct (insert_owned _ _ _ _ _ HO L E) as [[_ S]|[p [_ [Lp [L' [A1 [A2 [A3 A4]]]]]]]]; [apply (young_same h); auto|].
    intros k c I. destruct (Nat.eq_dec k p) as [->|N].
    - apply A1 in I. destruct I as [->|I]; [exact Lp|exact (Y p c I)].
    - destruct (Nat.lt_trichotomy k (List.length h)) as [B|[->|B]].
      + rewrite A2 in I by auto. exact (Y k c I).
      + exfalso. destruct (A3 c I) as [[_ ->]|J]; [rewrite C1 in A4; exact A4|]. unfold owned_by in J. rewrite C1, C2 in J. exact J.
      + rewrite owned_by_over in I by lia. destruct I. }
  intros h SS. induction SS as [xml h E|h h' i n v SS [Y HO] A E|h h' i n SS [Y HO] A E|h h' i c SS [Y HO] A E|h h' i x SS [Y HO] A L C1 C2 E|h h' i x SS [Y HO] A L C1 C2 E|h h' i z SS [Y HO] A E].
  - exact (parse_young xml h E).
  - assert (Li : i < List.length h) by (apply AT; auto). unfold set_attribute, make_new_rc_node in E.
    set (h1 := h ++ [mkNode Attribute 0 n v (Some i) [] []]) in E.
    assert (HO1 : heap_ok h1) by (apply heap_ok_alloc; [exact HO|exact Li]).
    assert (L1 : List.length h1 = S (List.length h)) by (unfold h1; rewrite app_length; cbn; lia).
    assert (Y1 : young h1).
    { intros k c I. destruct (Nat.lt_trichotomy k (List.length h)) as [B|[->|B]].
      - unfold h1 in I. rewrite app_owned_old in I by exact B. exact (Y k c I).
      - unfold h1 in I. rewrite app_owned_new in I by reflexivity. destruct I.
      - rewrite owned_by_over in I by lia. destruct I. }
    set (ats' := match find_attribute_index h1 i n with Some k => _ | None => _ end) in E.
    assert (A1 : forall c, In c ats' -> c = List.length h \/ In c (attributes h1 i)).
    { unfold ats'. intros c I. destruct (find_attribute_index h1 i n) as [k|].
      - apply In_vec_insert in I. destruct I as [->|I]; [left; reflexivity|right; apply In_vec_remove in I; exact I].
      - apply in_app_or in I. destruct I as [I|[<-|[]]]; auto. }
    apply (young_clear _ _ _) in E; [exact E| |].
    + apply young_upd; [exact Y1|lia|]. rewrite upd_owned_attrs by lia. intros c I. apply in_app_or in I. unfold owned_by. rewrite in_app_iff.
      destruct I as [I|I]; [tauto|]. destruct (A1 c I) as [->|J]; [right; exact Li|tauto].
    + apply heap_ok_attrs; [exact HO1|]. intros c I. destruct (A1 c I) as [->|J]; [lia|]. eapply heap_ok_attr_lt; eauto.
  - assert (Li : i < List.length h) by (apply AT; auto). unfold delete_attribute in E. apply (young_clear _ _ _) in E; [exact E| |].
    + destruct (find_attribute_index h i n) as [k|]; [|exact Y]. apply young_upd; [exact Y|exact Li|]. rewrite upd_owned_attrs by exact Li.
      intros c I. left. apply in_app_or in I. unfold owned_by. apply in_or_app. destruct I as [I|I]; [left; exact I|right; apply In_vec_remove in I; exact I].
    + destruct (find_attribute_index h i n) as [k|]; [|exact HO]. apply heap_ok_attrs; [exact HO|]. intros c I. apply In_vec_remove in I. eapply heap_ok_attr_lt; eauto.
  - assert (Li : i < List.length h) by (apply AT; auto). unfold delete_child in E. apply (young_clear _ _ _) in E; [exact E| |].
    + destruct (find_child_index h i c) as [k|]; [|exact Y]. apply young_upd; [exact Y|exact Li|]. rewrite upd_owned_children by exact Li.
      intros d I. left. apply in_app_or in I. unfold owned_by. apply in_or_app. destruct I as [I|I]; [left; apply In_vec_remove in I; exact I|right; exact I].
    + destruct (find_child_index h i c) as [k|]; [|exact HO]. apply heap_ok_children; [exact HO|]. intros d I. apply In_vec_remove in I. eapply heap_ok_child_lt; eauto.
  - split; [|eapply insert_heap_ok; eauto]. exact (INS 0 h i x h' Y HO L C1 C2 E).
  - split; [|eapply insert_heap_ok; eauto]. exact (INS 1 h i x h' Y HO L C1 C2 E).
  - destruct (document_order_same _ _ _ _ E) as [L2 S2]. split; [apply (young_same h); [exact Y|intro k; apply owned_by_same, S2]|].
    eapply heap_ok_same; [symmetry; exact L2|exact S2|exact HO].
Qed.
Theorem C87_session_acyclic : forall h, session h -> acyclic h.
Proof. intros h S. apply young_acyclic, session_young, S. Qed.

(* ---- C86: the upward operations ---- *)
Lemma alive_dec : forall w a, inv w -> a < List.length (w_heap w) -> (In a (w_freed w) <-> ~ alive w a).
Proof.
  intros w a V L. unfold alive. split; [intros F [_ N]; exact (N F)|]. intro N. destruct (in_dec Nat.eq_dec a (w_freed w)) as [F|F]; [exact F|]. exfalso. apply N. auto.
Qed.
Lemma above_lt : forall h i a, heap_ok h -> above h i a -> a < i.
Proof.
  intros h i a HO X. induction X as [i p E|i p a E X IH]; destruct (heap_ok_parent h i p HO E); lia.
Qed.
Lemma no_panic_clear : forall h i, clear_document_order h i <> Panic.
Proof.
  intros h i. unfold clear_document_order, root. generalize (S (List.length h)) as n. intro n.
  assert (R : forall m j, root_loop m h j <> Panic).
  { induction m as [|m IH]; intro j; cbn [root_loop]; [discriminate|]. destruct (n_parent (get h j)); [apply IH|discriminate]. }
  specialize (R n i). destruct (root_loop n h i); cbn [bind]; congruence.
Qed.
Lemma no_panic_setup : forall fuel h i z, setup_document_order_sub fuel h i z <> Panic.
Proof.
  induction fuel as [|fuel IH]; intros h i z; cbn [setup_document_order_sub]; [discriminate|].
  destruct (order_attrs _ _ _) as [h2 order]. generalize (n_children (get h2 i)) as cs. intro cs. generalize order as o. generalize h2 as g. clear h2 order.
  induction cs as [|c cs IHc]; intros g o; [discriminate|]. specialize (IH g c (o + 1)%Z). destruct (setup_document_order_sub fuel g c (o + 1)%Z) as [[g' o']| | |]; cbn [bind]; first [apply IHc|congruence].
Qed.
Lemma no_panic_root : forall h i, root h i <> Panic.
Proof.
  intros h i. unfold root. generalize (S (List.length h)) as m. intro m. revert i. induction m as [|m IH]; intro j; cbn [root_loop]; [discriminate|].
  destruct (n_parent (get h j)); [apply IH|discriminate].
Qed.
Lemma no_panic_insert : forall d h i c, insert_as_sibling d h i c <> Panic.
Proof. intros d h i c. unfold insert_as_sibling. destruct (parent h i) as [p|]; [|discriminate]. apply no_panic_clear. Qed.
Lemma no_panic_order : forall h i, document_order h i <> Panic.
Proof.
  intros h i. unfold document_order. pose proof (no_panic_root h i) as R. destruct (root h i) as [r| | |]; cbn [bind]; try congruence.
  destruct (Z.eqb _ _); [|discriminate]. pose proof (no_panic_setup (S (List.length h)) h r 1%Z) as S. destruct (setup_document_order_sub _ _ _ _) as [[a b]| | |]; cbn [bind]; congruence.
Qed.
Lemma no_panic_token : forall fuel d, raw_token fuel d <> Panic.
Proof.
  assert (U : forall p s, get_until p s <> Panic).
  { intros p s. induction s as [|c s IH]; cbn [get_until]; destruct (look_ahead_keyword p _); try discriminate. destruct (c =? cNUL)%N; [discriminate|].
    destruct (get_until p s) as [[r k]| | |]; cbn [bind]; congruence. }
  assert (C : forall p s, get_until_ch p s <> Panic).
  { intros p s. induction s as [|c s IH]; cbn [get_until_ch]; try discriminate. destruct (c =? cNUL)%N; [discriminate|]. destruct (c =? p)%N; [discriminate|].
    destruct (get_until_ch p s) as [[r k]| | |]; cbn [bind]; congruence. }
  assert (M : forall s n, get_until_matching_bracket n s <> Panic).
  { induction s as [|c s IH]; intro n; cbn [get_until_matching_bracket]; [discriminate|]. destruct (c =? cNUL)%N; [discriminate|]. destruct (c =? cLT)%N.
    - specialize (IH (S n)). destruct (get_until_matching_bracket (S n) s) as [[r k]| | |]; cbn [bind]; congruence.
    - destruct (c =? cGT)%N; [destruct n as [|n]; [discriminate|]|].
      + specialize (IH n). destruct (get_until_matching_bracket n s) as [[r k]| | |]; cbn [bind]; congruence.
      + specialize (IH n). destruct (get_until_matching_bracket n s) as [[r k]| | |]; cbn [bind]; congruence. }
  assert (A : forall fuel acc s, attr_loop fuel acc s <> Panic).
  { induction fuel as [|fuel IH]; intros acc s; cbn [attr_loop]; [discriminate|]. destruct (get_name (skip_spaces s)) as [an s2].
    assert (REST : forall acc' s', (let (c, s'') := getchar s' in if (c =? cGT)%N then Ok (acc', false, s'') else if (c =? cSLASH)%N then
        let (c2, s3) := getchar s'' in if (c2 =? cGT)%N then Ok (acc', true, s3) else Err XmlSyntaxError else attr_loop fuel acc' s'') <> Panic).
    { intros acc' s'. destruct (getchar s') as [c s'']. destruct (c =? cGT)%N; [discriminate|]. destruct (c =? cSLASH)%N; [|apply IH]. destruct (getchar s'') as [c2 s3]. destruct (c2 =? cGT)%N; discriminate. }
    destruct an as [|a an]; [cbn [bind]; apply REST|]. destruct (getchar (skip_spaces s2)) as [c s4]. destruct (c =? cEQ)%N.
    - destruct (getchar (skip_spaces s4)) as [q s6]. destruct ((q =? cDQ)%N || (q =? cSQ)%N).
      + pose proof (C q s6) as K. destruct (get_until_ch q s6) as [[r k]| | |]; cbn [bind]; try congruence. apply REST.
      + pose proof (C cGT s6) as K. destruct (get_until_ch cGT s6) as [[r k]| | |]; cbn [bind]; congruence.
    - pose proof (C cGT s4) as K. destruct (get_until_ch cGT s4) as [[r k]| | |]; cbn [bind]; congruence. }
  intros fuel d. unfold raw_token. destruct (to_close d); [|discriminate]. destruct (getchar (rest d)) as [c s1]. destruct (c =? cNUL)%N; [discriminate|].
  destruct (c =? cLT)%N; [|destruct (get_chardata _); discriminate]. destruct (getchar s1) as [c2 s2]. destruct (c2 =? cNUL)%N; [discriminate|]. destruct (c2 =? cSLASH)%N.
  { destruct (get_name s2) as [nm s3]. pose proof (C cGT s3) as K. destruct (get_until_ch cGT s3) as [[r k]| | |]; cbn [bind]; congruence. }
  destruct (c2 =? cQUEST)%N.
  { destruct (get_name s2) as [nm s3]. pose proof (U (lit "?>") (skip_spaces s3)) as K. destruct (get_until (lit "?>") (skip_spaces s3)) as [[r k]| | |]; cbn [bind]; congruence. }
  destruct (c2 =? cBANG)%N.
  { destruct (getchar s2) as [c3 s3]. destruct (c3 =? cMINUS)%N.
    - destruct (getchar s3) as [c4 s4]. destruct (c4 =? cMINUS)%N; [|discriminate]. pose proof (U (lit "-->") s4) as K. destruct (get_until (lit "-->") s4) as [[r k]| | |]; cbn [bind]; congruence.
    - destruct (c3 =? cLBRACK)%N.
      + destruct (look_ahead_keyword (lit "CDATA[") s3) as [s4|]; [|discriminate]. pose proof (U (lit "]]>") s4) as K. destruct (get_until (lit "]]>") s4) as [[r k]| | |]; cbn [bind]; congruence.
      + pose proof (M s3 0) as K. destruct (get_until_matching_bracket 0 s3) as [[r k]| | |]; cbn [bind]; congruence. }
  destruct (get_name s1) as [nm s3]. pose proof (A fuel [] s3) as K. destruct (attr_loop fuel [] s3) as [[[a b] k]| | |]; cbn [bind]; congruence.
Qed.
Lemma no_panic_loop : forall fuel d h c, doc_loop fuel d h c <> Panic.
Proof.
  induction fuel as [|fuel IH]; intros d h c; cbn [doc_loop]; [discriminate|]. pose proof (no_panic_token (S fuel) d) as K.
  destruct (raw_token (S fuel) d) as [[t d']| | |]; try congruence.
  assert (Q : doc_step h c t <> Panic).
  { destruct t; cbn [doc_step]; try discriminate.
    all: destruct (str_eqb _ _); discriminate. }
  destruct (doc_step h c t) as [[h' c']| | |] eqn:E; destruct t; cbn [bind]; try discriminate; try congruence; apply IH.
Qed.
Lemma edit_panic : forall w i out r, r (w_heap w) <> Panic -> (edit w i out r = Panic <-> root_up w i = Panic).
Proof.
  intros w i out r N. unfold edit. destruct (root_up w i); cbn [bind]; split; try congruence; try discriminate.
  destruct (r (w_heap w)); cbn [bind]; congruence.
Qed.

(* An upward operation panics exactly when an ancestor of the node was freed; parent() needs only the parent.  No other
   operation panics. *)
Theorem C86_panics_exactly : forall os w o, runs os w -> incl (uses o) (w_held w) ->
  step w o = Panic <->
  exists i, climbs o = Some i /\
    if match o with Up _ => true | _ => false end
    then exists p, parent (w_heap w) i = Some p /\ ~ alive w p
    else exists a, above (w_heap w) i a /\ ~ alive w a.
Proof.
  intros os w o R U. pose proof (runs_inv os w R) as V. pose proof (iv_heap _ _ _ _ V) as HO.
  assert (LT : forall i, In i (uses o) -> i < List.length (w_heap w)).
  { intros i I. apply (iv_held _ _ _ _ V), U, I. }
  assert (NONE : climbs o = None -> step w o <> Panic -> step w o = Panic <-> exists i, climbs o = Some i /\
    if match o with Up _ => true | _ => false end then exists p, parent (w_heap w) i = Some p /\ ~ alive w p else exists a, above (w_heap w) i a /\ ~ alive w a).
  { intros C N. split; [contradiction|]. intros [i [E _]]. congruence. }
  assert (CL : forall i, i < List.length (w_heap w) -> (root_up w i = Panic <-> exists a, above (w_heap w) i a /\ ~ alive w a)).
  { intros i L. destruct (root_up_cases w i HO L) as [[A [B [r C]]]|[[a [A F]] B]].
    - split; [congruence|]. intros [a [X N]]. exfalso. pose proof (above_lt _ _ _ HO X). apply N. split; [lia|exact (A a X)].
    - split; [|auto]. intros _. exists a. split; [exact A|]. intros [_ N]. exact (N F). }
  assert (SOME : forall i, In i (uses o) -> climbs o = Some i -> (match o with Up _ => true | _ => false end) = false -> (step w o = Panic <-> root_up w i = Panic) ->
    step w o = Panic <-> exists i, climbs o = Some i /\
    if match o with Up _ => true | _ => false end then exists p, parent (w_heap w) i = Some p /\ ~ alive w p else exists a, above (w_heap w) i a /\ ~ alive w a).
  { intros i I C NU E. rewrite NU. rewrite E, (CL i (LT i I)). split; [intro X; exists i; auto|]. intros [i' [C' X]]. assert (i' = i) by congruence. subst. exact X. }
  destruct o as [xml|i|i|i k|i k|i|i|i|i c|i c|i c|i c|i c|i n v|i n|i].
  - apply NONE; [reflexivity|]. cbn [step]. pose proof (no_panic_loop (doc_fuel xml) (sax_new xml) (fst (make_new_rc_node (w_heap w) DocumentRoot None [] [])) (List.length (w_heap w))) as N.
    destruct (doc_loop _ _ _ _); congruence.
  - apply NONE; [reflexivity|discriminate].
  - apply NONE; [reflexivity|discriminate].
  - apply NONE; [reflexivity|]. cbn [step]. destruct (nth_error _ _); discriminate.
  - apply NONE; [reflexivity|]. cbn [step]. destruct (nth_error _ _); discriminate.
  - cbn [step climbs uses] in *. unfold parent_up. destruct (n_parent (get (w_heap w) i)) as [p|] eqn:P.
    + destruct (heap_ok_parent _ i p HO P) as [P1 P2]. assert (Lp : p < List.length (w_heap w)) by lia.
      destruct (in_dec Nat.eq_dec p (w_freed w)) as [F|F].
      * rewrite upgrade_panic by exact F. cbn [bind]. split; [intros _|reflexivity]. exists i. split; [reflexivity|]. exists p. split; [exact P|]. apply (alive_dec w p V Lp). exact F.
      * rewrite upgrade_ok by exact F. cbn [bind]. split; [discriminate|]. intros [i' [E [q [Q N]]]]. injection E as <-. unfold parent in Q. rewrite P in Q. injection Q as <-. exfalso. apply N. split; auto.
    + cbn [bind]. split; [discriminate|]. intros [i' [E [q [Q N]]]]. injection E as <-. unfold parent in Q. congruence.
  - apply (SOME i); [left; reflexivity|reflexivity|reflexivity|]. cbn [step]. destruct (root_up w i); cbn [bind]; split; congruence.
  - apply (SOME i); [left; reflexivity|reflexivity|reflexivity|]. cbn [step]. unfold root_element_up. destruct (root_up w i); cbn [bind]; split; try congruence; destruct (find _ _); cbn [bind]; discriminate.
  - apply (SOME i); [left; reflexivity|reflexivity|reflexivity|]. apply edit_panic. apply no_panic_clear.
  - apply (SOME i); [left; reflexivity|reflexivity|reflexivity|]. apply edit_panic. apply no_panic_insert.
  - apply (SOME i); [left; reflexivity|reflexivity|reflexivity|]. apply edit_panic. apply no_panic_insert.
  - apply (SOME i); [left; reflexivity|reflexivity|reflexivity|]. apply edit_panic. apply no_panic_clear.
  - apply (SOME i); [left; reflexivity|reflexivity|reflexivity|]. apply edit_panic. unfold replace_with. destruct (parent (w_heap w) i) as [p|]; [|discriminate].
    pose proof (no_panic_insert 0 (w_heap w) i c) as N1. unfold insert_as_previous_sibling. destruct (insert_as_sibling 0 (w_heap w) i c) as [h1| | |]; cbn [bind]; try congruence.
    assert (N2 : delete_child h1 p i <> Panic) by apply no_panic_clear. destruct (delete_child h1 p i) as [h2| | |]; cbn [bind]; try congruence. apply no_panic_clear.
  - apply (SOME i); [left; reflexivity|reflexivity|reflexivity|]. apply edit_panic. apply no_panic_clear.
  - apply (SOME i); [left; reflexivity|reflexivity|reflexivity|]. apply edit_panic. apply no_panic_clear.
  - apply (SOME i); [left; reflexivity|reflexivity|reflexivity|]. apply edit_panic. pose proof (no_panic_order (w_heap w) i) as N. destruct (document_order (w_heap w) i) as [[z h']| | |]; cbn [bind]; congruence.
Qed.

(* While every ancestor of a node can still be reached from a handle, the upward operations give what the plain model of
   Dom.v (in which nothing is ever freed) gives, and nothing panics. *)
Lemma namespace_walk : forall h freed x, heap_ok h -> forall fuel i, (forall a, above h i a -> ~ In a freed) ->
  namespace_up_loop fuel h freed i x = namespace_uri_loop fuel h i x.
Proof.
  intros h freed x HO. induction fuel as [|fuel IH]; intros i A; [reflexivity|]. cbn [namespace_up_loop namespace_uri_loop].
  destruct (node_type_eqb _ _); [reflexivity|]. destruct (attribute_value h i x); [reflexivity|]. destruct (n_parent (get h i)) as [p|] eqn:P; [|reflexivity].
  rewrite upgrade_ok by (apply A; constructor; exact P). cbn [bind]. apply IH. intros a X. apply A. eapply above_up; [exact P|exact X].
Qed.
Theorem C86_ancestors_kept : forall os w i, runs os w -> In i (w_held w) -> (forall a, above (w_heap w) i a -> kept w a) ->
  parent_up w i = Ok (parent (w_heap w) i) /\ root_up w i = root (w_heap w) i /\ root_element_up w i = root_element (w_heap w) i /\
  namespace_up w i = namespace_uri (w_heap w) i /\
  forall o, climbs o = Some i -> incl (uses o) (w_held w) -> step w o <> Panic.
Proof.
  intros os w i R I A. pose proof (runs_inv os w R) as V. pose proof (iv_heap _ _ _ _ V) as HO.
  assert (AL : forall a, above (w_heap w) i a -> alive w a) by (intros a X; apply (C87_reachable_alive os w R), A, X).
  assert (RU : root_up w i = root (w_heap w) i).
  { destruct (root_up_cases w i HO (iv_held _ _ _ _ V i I)) as [[_ [B _]]|[[a [X F]] _]]; [exact B|]. exfalso. exact (proj2 (AL a X) F). }
  split; [|split; [exact RU|split; [|split]]].
  - unfold parent_up, parent. destruct (n_parent (get (w_heap w) i)) as [p|] eqn:P; [|reflexivity].
    rewrite upgrade_ok by (apply AL; constructor; exact P). reflexivity.
  - unfold root_element_up, root_element. rewrite RU. reflexivity.
  - unfold namespace_up, namespace_uri. apply namespace_walk; [exact HO|]. intros a X. apply AL, X.
  - intros o C U P. apply (C86_panics_exactly os w o R U) in P. destruct P as [j [C' X]]. assert (j = i) by congruence. subst j.
    destruct (match o with Up _ => true | _ => false end).
    + destruct X as [p [Q N]]. apply N, AL. constructor. exact Q.
    + destruct X as [a [Q N]]. apply N, AL, Q.
Qed.

(* A program that holds the root of a well-linked document (for example one it parsed, and edited as in C54): no operation
   on a node of the document panics, and root() finds the root. *)
Theorem C86_document_held : forall os w r i, runs os w -> well_linked (w_heap w) r (in_document (w_heap w) r) -> In r (w_held w) ->
  In i (w_held w) -> in_document (w_heap w) r i ->
  parent_up w i = Ok (parent (w_heap w) i) /\ root_up w i = Ok r /\ root_element_up w i = root_element (w_heap w) i /\
  namespace_up w i = namespace_uri (w_heap w) i /\
  forall o, climbs o = Some i -> incl (uses o) (w_held w) -> step w o <> Panic.
Proof.
  intros os w r i R [WR _ _ WU WL] H0 I D.
  assert (AT : forall j, attached (w_heap w) r j -> reaches (w_heap w) r j).
  { intros j A. induction A as [|p c A IH C]; [constructor|]. eapply reaches_down; [exact IH|]. apply in_or_app. left. exact C. }
  assert (KP : forall j, in_document (w_heap w) r j -> kept w j).
  { intros j J. exists r. split; [exact H0|]. destruct J as [A|[p [A C]]]; [exact (AT j A)|]. eapply reaches_down; [exact (AT p A)|]. apply in_or_app. right. exact C. }
  assert (UP : forall j a, above (w_heap w) j a -> in_document (w_heap w) r j -> in_document (w_heap w) r a).
  { assert (ST : forall j p, parent (w_heap w) j = Some p -> in_document (w_heap w) r j -> in_document (w_heap w) r p).
    { intros j p P J. destruct (Nat.eq_dec j r) as [->|N]; [destruct WR; congruence|]. destruct (WU j J N) as [q [Q [P' _]]]. congruence. }
    intros j a X. induction X as [j p P|j p a P X IH]; intro J; [exact (ST j p P J)|]. apply IH. exact (ST j p P J). }
  destruct (C86_ancestors_kept os w i R I) as [A1 [A2 A3]]; [intros a X; apply KP; exact (UP i a X D)|].
  split; [exact A1|]. split; [rewrite A2; exact (WL i D)|exact A3].
Qed.
Corollary C86_session_held : forall os w i, runs os w -> session (w_heap w) -> In 0 (w_held w) -> In i (w_held w) -> in_document (w_heap w) 0 i ->
  forall o, climbs o = Some i -> incl (uses o) (w_held w) -> step w o <> Panic.
Proof. intros os w i R S H0 I D. apply (C86_document_held os w 0 i R (C54_edited_well_linked_partial _ S) H0 I D). Qed.

(* ---- programs ---- *)
Fixpoint exec (w : world) (os : list op) : res world :=
  match os with
  | [] => Ok w
  | o :: os' => if forallb (fun i => mem i (w_held w)) (uses o) then do w' <- step w o; exec w' os' else Err CantOccur
  end.
Lemma exec_runs : forall os os0 w w', runs os0 w -> exec w os = Ok w' -> runs (os0 ++ os) w'.
Proof.
  induction os as [|o os IH]; intros os0 w w' R E; cbn [exec] in E; [injection E as <-; rewrite app_nil_r; exact R|].
  destruct (forallb _ _) eqn:F; [|discriminate E]. destruct (step w o) as [w1| | |] eqn:S; try discriminate E. cbn [bind] in E.
  change (o :: os) with ([o] ++ os). rewrite app_assoc. apply (IH (os0 ++ [o]) w1 w'); [|exact E].
  apply (runs_step os0 w o w1 R); [|exact S]. intros i I. rewrite forallb_forall in F. apply mem_In, F, I.
Qed.
Definition empty_world : world := mkWorld [] [] [].
Lemma exec_start : forall os w, exec empty_world os = Ok w -> runs os w.
Proof. intros os w E. apply (exec_runs os [] empty_world w); [constructor|exact E]. Qed.

(* let e = new_document("<a><b/></a>").unwrap().root_element(); e.parent(): the document is dropped at the end of the first
   statement *)
Definition own_p1 : list op := [Parse (lit "<a><b/></a>"); RootElement 0; Drop 0].
(* elem_c of a second document is appended to the first; the second document is dropped; elem_c.parent() *)
Definition own_p2 : list op := [Parse (lit "<a><b/></a>"); RootElement 0; Parse (lit "<c/>"); RootElement 3; Append 1 4; Drop 3].
(* a node is inserted with its child before b; its handle and its document are dropped; the child of the copy is looked at *)
Definition own_p3 : list op := [Parse (lit "<a><b/></a>"); RootElement 0; Child 1 0; Parse (lit "<c>x</c>"); RootElement 3; InsertPrev 2 4; Drop 4; Drop 3; Child 1 0; Child 6 0].
(* b is deleted and dropped while its child is held *)
Definition own_p4 : list op := [Parse (lit "<a><b>x</b></a>"); RootElement 0; Child 1 0; Child 2 0; DeleteChild 1 2; Drop 2].
Theorem C86_upward_refuted :
  (exists w, runs own_p1 w /\ In 1 (w_held w) /\ parent (w_heap w) 1 = Some 0 /\ step w (Up 1) = Panic /\ step w (Root 1) = Panic) /\
  (exists w, runs own_p2 w /\ In 0 (w_held w) /\ In 4 (children (w_heap w) 1) /\ step w (Up 4) = Panic) /\
  (exists w, runs own_p3 w /\ In 0 (w_held w) /\ children (w_heap w) 1 = [6; 2] /\ children (w_heap w) 6 = [5] /\ step w (Up 5) = Panic) /\
  (exists w, runs own_p4 w /\ In 0 (w_held w) /\ In 3 (w_held w) /\ step w (Up 3) = Panic).
Proof.
  repeat split.
  - eexists. split; [apply exec_start; vm_compute; reflexivity|]. repeat (split; [vm_compute; tauto|]). vm_compute. reflexivity.
  - eexists. split; [apply exec_start; vm_compute; reflexivity|]. repeat (split; [vm_compute; tauto|]). vm_compute. reflexivity.
  - eexists. split; [apply exec_start; vm_compute; reflexivity|]. repeat (split; [vm_compute; tauto|]). vm_compute. reflexivity.
  - eexists. split; [apply exec_start; vm_compute; reflexivity|]. repeat (split; [vm_compute; tauto|]). vm_compute. reflexivity.
Qed.
(* a node appended to itself is never freed *)
Definition own_p5 : list op := [Parse (lit "<a/>"); RootElement 0; Append 1 1; Drop 1; Drop 0].
Theorem C87_leak_refuted : exists w, runs own_p5 w /\ w_held w = [] /\ alive w 1 /\ ~ kept w 1.
Proof.
  eexists. split; [apply exec_start; vm_compute; reflexivity|]. split; [reflexivity|]. split.
  - split; [vm_compute; lia|]. vm_compute. intros [Q|[]]. discriminate Q.
  - intros [i [I _]]. exact I.
Qed.
(* a program of the kind C86_document_held and C87_alive_exactly speak of: an attribute is set, a child deleted and dropped
   (freed, with the text below it), the other handles still work; when all is dropped, all is freed *)
Definition own_p6 : list op := [Parse (lit "<a><b>x</b><c/></a>"); RootElement 0; SetAttr 1 (lit "k") (lit "v"); Child 1 0; DeleteChild 1 2; Drop 2; Child 1 0].
Example C86_example : exists w, runs own_p6 w /\ session (w_heap w) /\ In 0 (w_held w) /\ In 4 (w_held w) /\ in_document (w_heap w) 0 4 /\
  parent_up w 4 = Ok (Some 1) /\ root_up w 4 = Ok 0 /\ ~ alive w 2 /\ ~ alive w 3 /\ acyclic (w_heap w) /\
  exists w', runs (own_p6 ++ [Drop 1; Drop 4; Drop 0]) w' /\ w_held w' = [] /\ incl [0; 1; 2; 3; 4; 5] (w_freed w').
Proof.
  assert (E : exists w, exec empty_world own_p6 = Ok w) by (eexists; vm_compute; reflexivity). destruct E as [w E]. exists w.
  assert (S : session (w_heap w)).
  { assert (N : exists h0, new_document (lit "<a><b>x</b><c/></a>") = Ok h0) by (eexists; vm_compute; reflexivity). destruct N as [h0 N].
    assert (N1 : exists h1, set_attribute h0 1 (lit "k") (lit "v") = Ok h1 /\ delete_child h1 1 2 = Ok (w_heap w)).
    { vm_compute in N. injection N as <-. vm_compute in E. injection E as <-. eexists. split; vm_compute; reflexivity. }
    destruct N1 as [h1 [N1 N2]]. eapply ses_delete; [|apply (att_child _ _ 0); [constructor|]|exact N2].
    - eapply ses_set; [exact (ses_parse _ _ N)|apply (att_child _ _ 0); [constructor|]|exact N1]. vm_compute in N. injection N as <-. vm_compute. tauto.
    - vm_compute in N. injection N as <-. vm_compute in N1. injection N1 as <-. vm_compute. tauto. }
  split; [apply exec_start; exact E|]. split; [exact S|]. pose proof (C87_session_acyclic _ S) as AC. clear S. vm_compute in E. injection E as <-.
  split; [vm_compute; tauto|]. split; [vm_compute; tauto|]. split.
  { left. apply (att_child _ _ 1); [apply (att_child _ _ 0); [constructor|]|]; vm_compute; tauto. }
  split; [vm_compute; reflexivity|]. split; [vm_compute; reflexivity|].
  split; [intros [_ N]; apply N; vm_compute; tauto|]. split; [intros [_ N]; apply N; vm_compute; tauto|]. split; [exact AC|].
  eexists. split; [apply exec_start; vm_compute; reflexivity|]. split; [reflexivity|]. intros x X. vm_compute in X |- *. tauto.
Qed.
Print Assumptions C86_panics_exactly.
Print Assumptions C87_alive_exactly.
Print Assumptions C86_upward_refuted.

(* Facts for the meaning of expressions: string values, document order of all nodes, steps. *)
Require Import Bool List NArith ZArith Ascii String Lia Sorted.
From Verif Require Import Str StrFacts Sax Dom SpecTree HeapFacts BuildFacts SaxFacts DocFacts SpecEdit OrderFacts SessionFacts Axes SpecAxes
  AxesFacts PropAxes Lexer FuncTable Parser SpecExpr PropParse Num Item Func Types Eval EvalFacts SpecOper ItemFacts SpecFunc SpecEval
  PropEval2 PropEval3 PropInt SpecSem SemFacts.
Import ListNotations.
Open Scope nat_scope.

(* ---- string values ---- *)
Fixpoint tree_string (decl : bool) (t : tree) : str :=
  match t with
  | T _ ty nm v _ ks =>
      match ty with
      | DocumentRoot | Element => flat_map (tree_string decl) ks
      | Text | Attribute | Comment => v
      | Instruction => nm ++ lit " " ++ v
      | XMLDecl => if decl then nm ++ lit " " ++ v else []
      | Directive => []
      end
  end.
Lemma flat_map_eq_in : forall (A B C : Type) (f : A -> list C) (g : B -> list C) (k : B -> A) l,
  (forall x, In x l -> f (k x) = g x) -> flat_map f (map k l) = flat_map g l.
Proof.
  intros A B C f g k l. induction l as [|x l IH]; intro H; auto. cbn [map flat_map]. rewrite H by (left; auto). f_equal.
  apply IH. intros. apply H. right. auto.
Qed.
Lemma string_value_rep : forall t h par fuel, rep h par t -> depth t <= fuel ->
  string_value_fuel fuel h (tid t) = tree_string true t /\ typed_value_fuel fuel h (tid t) = tree_string false t.
Proof.
  induction t as [i ty nm v ats ks IH] using tree_ind'. intros h par fuel R Hf.
  destruct fuel as [|fuel]; [cbn in Hf; lia|]. apply rep_inv in R. destruct R as [o [_ [Hg [_ Hks]]]].
  cbn [tid string_value_fuel typed_value_fuel tree_string]. rewrite Hg. cbn [n_type n_children n_name n_value].
  assert (K : forall k, In k ks -> string_value_fuel fuel h (tid k) = tree_string true k /\ typed_value_fuel fuel h (tid k) = tree_string false k).
  { intros k Ik. rewrite Forall_forall in IH, Hks. apply (IH k Ik h (Some i)); auto.
    cbn [depth] in Hf. assert (depth k <= list_max (map depth ks)) by (apply list_max_in, in_map; auto). lia. }
  destruct ty; auto; split; apply flat_map_eq_in; intros k Ik; apply (K k Ik).
Qed.
Lemma string_value_fill : forall h fs s, document h (fill fs s) ->
  string_value h (tid s) = tree_string true s /\ typed_value h (tid s) = tree_string false s.
Proof.
  intros h fs s D. unfold string_value, typed_value. eapply string_value_rep.
  - eapply rep_fill_hole. apply D.
  - pose proof (document_size _ _ D). pose proof (depth_ids s). assert (List.length (ids s) <= List.length (ids (fill fs s))).
    { rewrite ids_fill, !app_length. lia. } lia.
Qed.
Lemma string_value_tree : forall h t par s, rep h par t -> string_value_of h (tid t) s -> tree_string true t = s /\ tree_string false t = s.
Proof.
  intros h. induction t as [i ty nm v ats ks IH] using tree_ind'. intros par s R SV.
  apply rep_inv in R. destruct R as [o [_ [Hg [_ Hks]]]]. cbn [tid] in SV. cbn [tree_string].
  inversion SV as [j K|j s' K SS]; subst; unfold kind in K; rewrite Hg in K; cbn [n_type] in K.
  - rewrite Hg. cbn [n_value]. destruct K as [->|[->| ->]]; auto.
  - unfold children in SS. rewrite Hg in SS. cbn [n_children] in SS.
    assert (G : flat_map (tree_string true) ks = s /\ flat_map (tree_string false) ks = s).
    { clear - IH Hks SS. revert s SS. induction ks as [|k ks IHk]; intros s SS.
      - cbn [map] in SS. inversion SS. auto.
      - inversion IH as [|? ? I1 I2]; inversion Hks as [|? ? R1 R2]; subst. cbn [map] in SS. inversion SS as [|c cs a b KC S1 S2|c cs b KC S2]; subst.
        + destruct (I1 _ _ R1 S1) as [A1 A2]. destruct (IHk I2 R2 _ S2) as [B1 B2]. cbn [flat_map]. rewrite A1, A2, B1, B2. auto.
        + destruct (IHk I2 R2 _ S2) as [B1 B2]. cbn [flat_map].
          destruct (rep_get _ _ _ R1) as [o' [_ [Hg' _]]]. unfold kind in KC. rewrite Hg' in KC. cbn [n_type] in KC.
          destruct k as [ki kty knm kv kats kks]. cbn [tty] in KC. subst kty. cbn [tree_string app]. auto. }
    destruct K as [->| ->]; exact G.
Qed.
Lemma attribute_cell : forall h p a, session h -> attached h 0 p -> In a (attributes h p) ->
  exists o n v, Dom.get h a = mkNode Attribute o n v (Some p) [] [].
Proof.
  intros h p a S A I. destruct (session_document h S) as [t [D [T0 K]]]. rewrite <- T0 in *.
  destruct (attached_context h t p D A) as [fs [s [E <-]]]. subst t. pose proof (proj1 D) as R.
  destruct (fill_get h fs s R) as [o [_ [Hg _]]].
  assert (Ha' : In a (map fst (tattrs s))) by (unfold attributes in I; rewrite Hg in I; exact I).
  destruct (fill_attr_get h fs s a R Ha') as [oa [n [v [_ [_ Hga]]]]]. eauto.
Qed.
Theorem string_value_spec : forall h n s, session h -> in_document h 0 n -> string_value_of h n s ->
  string_value h n = s /\ typed_value h n = s.
Proof.
  intros h n s S I SV. destruct I as [A|[p [A I]]].
  - destruct (session_document h S) as [t [D [T0 K]]]. rewrite <- T0 in *.
    destruct (attached_context h t n D A) as [fs [u [E <-]]]. subst t.
    destruct (string_value_fill h fs u D) as [-> ->]. eapply string_value_tree; eauto. eapply rep_fill_hole. apply D.
  - destruct (attribute_cell h p n S A I) as [o [nm [v Hg]]].
    inversion SV as [j K|j s' K SS]; subst; unfold kind in K; rewrite Hg in K; cbn [n_type] in K; [|destruct K; discriminate].
    unfold string_value, typed_value. cbn [string_value_fuel typed_value_fuel]. rewrite Hg. auto.
Qed.

(* ---- the order of all nodes and the order of the non-attribute nodes ---- *)
Inductive sub : list nat -> list nat -> Prop :=
| sub_nil : forall l, sub [] l
| sub_take : forall x l m, sub l m -> sub (x :: l) (x :: m)
| sub_skip : forall x l m, sub l m -> sub l (x :: m).
Lemma sub_refl : forall l, sub l l.
Proof. induction l; constructor; auto. Qed.
Lemma sub_pre : forall p l m, sub l m -> sub l (p ++ m).
Proof. induction p; intros; auto. constructor. auto. Qed.
Lemma sub_app : forall l m l' m', sub l m -> sub l' m' -> sub (l ++ l') (m ++ m').
Proof. intros l m l' m' H. induction H; intro K; cbn [app]; [apply sub_pre; auto|constructor; auto|constructor; auto]. Qed.
Lemma sub_in : forall l m x, sub l m -> In x l -> In x m.
Proof. intros l m x H. induction H; intro I; [destruct I|destruct I; [left; auto|right; auto]|right; auto]. Qed.
Lemma before_cons : forall z l x y, before (z :: l) x y <-> (z = x /\ In y l) \/ before l x y.
Proof.
  intros z l x y. split.
  - intros [a [b [c E]]]. destruct a as [|w a]; cbn [app] in E; injection E as -> E.
    + left. split; auto. rewrite E. apply in_or_app. right. left. auto.
    + right. exists a, b, c. auto.
  - intros [[-> I]|[a [b [c E]]]].
    + apply in_split in I. destruct I as [b [c ->]]. exists [], b, c. reflexivity.
    + exists (z :: a), b, c. rewrite E. reflexivity.
Qed.
Lemma sub_before : forall l m x y, sub l m -> before l x y -> before m x y.
Proof.
  intros l m x y H. induction H as [l|z l m H IH|z l m H IH]; intro B.
  - destruct B as [a [b [c E]]]. destruct a; discriminate.
  - apply before_cons in B. apply before_cons. destruct B as [[-> I]|B]; [left; split; auto; eapply sub_in; eauto|right; auto].
  - apply before_cons. right. auto.
Qed.
Lemma node_ids_sub : forall t, sub (node_ids t) (ids t).
Proof.
  induction t as [i ty nm v ats ks IH] using tree_ind'. cbn [node_ids ids]. constructor. apply sub_pre.
  induction ks as [|k ks IHk]; [constructor|]. inversion IH; subst. cbn [flat_map]. apply sub_app; auto.
Qed.
Lemma before_in : forall l x y, before l x y -> In x l /\ In y l.
Proof. intros l x y [a [b [c ->]]]. split; apply in_or_app; right; [left; auto|right; apply in_or_app; right; left; auto]. Qed.
Lemma before_trans : forall l x y z, NoDup l -> before l x y -> before l y z -> before l x z.
Proof.
  induction l as [|w l IH]; intros x y z N B C; [destruct B as [[|] [? [? E]]]; discriminate|].
  inversion N as [|? ? W N']; subst. apply before_cons in B. apply before_cons in C. apply before_cons.
  destruct B as [[-> I]|B]; destruct C as [[E I']|C].
  - left. split; [reflexivity|exact I'].
  - left. split; [reflexivity|]. apply before_in in C. tauto.
  - subst. apply before_in in B. destruct B. contradiction.
  - right. eauto.
Qed.

Lemma axis_eq_attr : forall a, a = A_attribute \/ a <> A_attribute.
Proof. intros []; auto; right; discriminate. Qed.
(* what the theorem assumes of the document: [order] lists its nodes in document order; no attribute node was made a child *)
Definition apart (h : heap) : Prop := forall n, attached h 0 n -> kind h n <> Attribute.
Section Doc.
  Variable h : heap.
  Variable order : list nat.
  Hypothesis SE : session h.
  Hypothesis PO : preorder h 0 order.
  Hypothesis AP : apart h.

  Lemma order_facts : exists t, document h t /\ tid t = 0 /\ order_ok h t /\ order = ids t /\ node_order h 0 (node_ids t).
  Proof.
    destruct (session_document h SE) as [t [D [T0 K]]]. exists t. split; auto. split; auto. split; auto. split.
    - eapply preorder_fun; eauto. rewrite <- T0. eapply preorder_rep. apply D.
    - rewrite <- T0. eapply node_order_rep. apply D.
  Qed.
  Lemma order_NoDup : NoDup order.
  Proof. destruct order_facts as [t [D [T0 [K [-> _]]]]]. apply D. Qed.
  Lemma order_In : forall x, In x order <-> in_document h 0 x.
  Proof. destruct order_facts as [t [D [T0 [K [-> _]]]]]. intro x. rewrite <- T0. symmetry. apply in_document_ids; auto. Qed.
  Lemma exactly_sorted : forall P l, exactly order P l -> NoDup l.
  Proof.
    intros P l [_ S]. induction S as [|x l S IH F]; constructor; auto. intro I. rewrite Forall_forall in F. specialize (F x I).
    destruct (before_NoDup order x x order_NoDup F). congruence.
  Qed.
  Lemma sorted_unique : forall l m, StronglySorted (before order) l -> StronglySorted (before order) m -> (forall x, In x l <-> In x m) -> l = m.
  Proof.
    assert (NS : forall x, ~ before order x x) by (intros x B; destruct (before_NoDup order x x order_NoDup B); congruence).
    assert (AS : forall x y, before order x y -> ~ before order y x) by (intros x y B; apply (before_NoDup order x y order_NoDup B)).
    induction l as [|x l IH]; intros m S1 S2 E.
    - destruct m as [|y m]; auto. destruct (proj2 (E y) (or_introl eq_refl)).
    - destruct m as [|y m]; [destruct (proj1 (E x) (or_introl eq_refl))|].
      inversion S1 as [|? ? S1' F1]; inversion S2 as [|? ? S2' F2]; subst. rewrite Forall_forall in F1, F2.
      assert (x = y) as <-.
      { destruct (proj1 (E x) (or_introl eq_refl)) as [->|I1]; auto. destruct (proj2 (E y) (or_introl eq_refl)) as [->|I2]; auto.
        destruct (AS x y); auto. }
      f_equal. apply IH; auto. intro z. split; intro I.
      + destruct (proj1 (E z) (or_intror I)) as [->|]; auto. destruct (NS z). auto.
      + destruct (proj2 (E z) (or_intror I)) as [->|]; auto. destruct (NS z). auto.
  Qed.
  Lemma exactly_unique : forall P l m, exactly order P l -> exactly order P m -> l = m.
  Proof. intros P l m [I S] [J T]. apply sorted_unique; auto. intro x. rewrite I, J. reflexivity. Qed.
  Lemma exactly_ext : forall (P Q : nat -> Prop) l, (forall x, P x <-> Q x) -> exactly order P l -> exactly order Q l.
  Proof. intros P Q l H [I S]. split; auto. intro x. rewrite I. apply H. Qed.
  (* sorting *)
  Lemma sort_exactly : forall l, (forall x, In x l -> in_document h 0 x) ->
    exists r, sort_by_doc_order h l = Ok r /\ exactly order (fun x => In x l) r.
  Proof.
    intros l H. destruct (C13_sort_by_doc_order h l SE H) as [order' [l' [O [_ [E [X _]]]]]].
    assert (order' = order) as -> by (eapply preorder_fun; eauto). exists l'. auto.
  Qed.
  Lemma sort_gives : forall l r, (forall x, In x l -> in_document h 0 x) -> exactly order (fun x => In x l) r -> sort_by_doc_order h l = Ok r.
  Proof. intros l r H X. destruct (sort_exactly l H) as [r' [E X']]. rewrite E. f_equal. eapply exactly_unique; eauto. Qed.
  Lemma doc_num_before : forall i j a b, in_document h 0 i -> in_document h 0 j -> doc_num h i = Ok a -> doc_num h j = Ok b ->
    ((a < b)%Z <-> before order i j) /\ ((a = b)%Z <-> i = j).
  Proof.
    intros i j a b I J A B. destruct order_facts as [t [D [T0 [K [EO _]]]]].
    destruct (document_order_all h t D K) as [h1 [D1 [SS DO]]].
    assert (Ii : In i (ids t)) by (rewrite <- EO; apply order_In; auto). assert (Ij : In j (ids t)) by (rewrite <- EO; apply order_In; auto).
    unfold doc_num in A, B. rewrite (DO i Ii) in A. rewrite (DO j Ij) in B. cbn [bind] in A, B. injection A as <-. injection B as <-.
    assert (SB := sorted_before h1 (ids t) i j SS Ii Ij). rewrite EO. split; [exact SB|]. split; [|intros ->; reflexivity].
    intro Q. destruct (Nat.eq_dec i j) as [|NE]; auto. exfalso.
    destruct (before_total (ids t) i j Ii Ij NE) as [X|X].
    - apply SB in X. lia.
    - apply (sorted_before h1 (ids t) j i SS Ij Ii) in X. lia.
  Qed.
  Lemma doc_num_ok : forall i, in_document h 0 i -> exists a, doc_num h i = Ok a.
  Proof.
    intros i I. destruct order_facts as [t [D [T0 [K [EO _]]]]]. destruct (document_order_all h t D K) as [h1 [D1 [SS DO]]].
    unfold doc_num. rewrite DO by (rewrite <- EO; apply order_In; auto). cbn [bind]. eauto.
  Qed.

  Lemma node_order_In : forall l x, node_order h 0 l -> (In x l <-> attached h 0 x).
  Proof.
    intros l x O. destruct order_facts as [t [D [T0 [K [EO NO]]]]]. rewrite (node_order_fun _ _ _ O _ NO). rewrite <- T0. split.
    - intro I. assert (IO := node_ids_ids _ _ I). 
      assert (G : forall fs s, document h (fill fs s) -> In x (node_ids s) -> exists gs u, fill fs s = fill gs u /\ tid u = x).
      { intros fs s. revert fs. induction s as [i ty nm v ats ks IH] using tree_ind'. intros fs DF J. cbn [node_ids] in J.
        destruct J as [->|J]; [exists fs, (T x ty nm v ats ks); auto|]. apply in_flat_map in J. destruct J as [k [Hk J]].
        destruct (fill_kid fs (T i ty nm v ats ks) k Hk) as [f [E _]]. rewrite Forall_forall in IH.
        destruct (IH k Hk (f :: fs)) as [gs [u [E' U]]]; auto; [rewrite <- E; auto|]. exists gs, u. split; auto. congruence. }
      destruct (G [] t D I) as [gs [u [E <-]]]. cbn [fill] in E. subst t. apply context_attached. auto.
    - intro A. destruct (attached_context h t x D A) as [fs [s [-> <-]]]. apply node_ids_fill.
  Qed.
  Lemma in_doc_kind : forall x, in_document h 0 x -> (kind h x <> Attribute <-> attached h 0 x).
  Proof.
    intros x [A|[p [A I]]].
    - split; auto.
    - destruct (attribute_cell h p x SE A I) as [o [n [v E]]]. unfold kind. rewrite E. cbn [n_type]. split; [congruence|].
      intro A'. exfalso. apply (AP x A'). unfold kind. rewrite E. reflexivity.
  Qed.
  Lemma exactly_node_order : forall l0 P l, node_order h 0 l0 -> exactly l0 P l -> exactly order P l.
  Proof.
    intros l0 P l O [I S]. split; auto. destruct order_facts as [t [D [T0 [K [EO NO]]]]].
    rewrite (node_order_fun _ _ _ O _ NO) in S. rewrite EO. eapply SS_impl; [|exact S]. intros a b _ _ B. eapply sub_before; [apply node_ids_sub|exact B].
  Qed.
  Lemma before_node_order : forall l0 x y, node_order h 0 l0 -> attached h 0 x -> attached h 0 y -> (before l0 x y <-> before order x y).
  Proof.
    intros l0 x y O AX AY. destruct order_facts as [t [D [T0 [K [EO NO]]]]]. rewrite (node_order_fun _ _ _ O _ NO).
    assert (M : forall x y, before (node_ids t) x y -> before order x y) by (intros u v B; rewrite EO; eapply sub_before; [apply node_ids_sub|exact B]).
    split; [apply M|]. intro B. destruct (before_NoDup _ _ _ order_NoDup B) as [NE NB].
    destruct (before_total (node_ids t) x y) as [X|X]; auto.
    - apply (node_order_In _ x NO). auto.
    - apply (node_order_In _ y NO). auto.
    - apply M in X. contradiction.
  Qed.
  Lemma on_axis_has : forall l0 a x n, node_order h 0 l0 -> attached h 0 n -> (on_axis h l0 (anode a) x n <-> axis_has h order a x n).
  Proof.
    intros l0 a x n O A. destruct a; cbn [anode on_axis axis_has]; try reflexivity.
    - unfold following_of. split.
      + intros [B ND]. assert (AX : attached h 0 x) by (apply (node_order_In l0); auto; apply before_in in B; tauto).
        apply before_node_order in B; auto.
      + intros [B [ND KX]]. assert (AX : attached h 0 x) by (apply in_doc_kind; auto; apply order_In; apply before_in in B; tauto).
        split; auto. apply before_node_order; auto.
    - unfold preceding_of. split.
      + intros [B ND]. assert (AX : attached h 0 x) by (apply (node_order_In l0); auto; apply before_in in B; tauto).
        apply before_node_order in B; auto.
      + intros [B [ND KX]]. assert (AX : attached h 0 x) by (apply in_doc_kind; auto; apply order_In; apply before_in in B; tauto).
        split; auto. apply before_node_order; auto.
  Qed.

  (* node tests *)
  Definition test_ok (t : nodetest) : Prop := wf_test t /\ ordinary_test t.
  Lemma plain_no_colon : forall t, plain_name t -> ~ In 58%N t.
  Proof.
    intros t [NC _] I. destruct t as [|c t]; [destruct I|]. destruct NC as [N1 N2]. rewrite Forall_forall in N2.
    destruct I as [->|I]; [vm_compute in N1; discriminate N1|]. apply N2 in I. vm_compute in I. discriminate I.
  Qed.
  Lemma principal_axis : forall a, principal (anode a) = match a with A_attribute => Attribute | _ => Element end.
  Proof. intros []; reflexivity. Qed.
  Lemma test_passes : forall a t px j, test_ok t ->
    (match_node_test h j (XNode (anode a) (test_name t) (test_tree t) px) = true <-> passes h a t j).
  Proof.
    intros a t px j [W OT]. unfold passes, kind. destruct t as [n| | | | |p n|p|n|n|n|n| |]; cbn [test_name test_tree wf_test] in *;
      try destruct OT.
    - assert (TC := plain_no_colon n W).
      assert (T1 : n <> lit "node()") by (apply (node_name (N_name n)); exact W).
      assert (T2 : n <> lit ":*") by (intros ->; apply TC; left; auto).
      assert (T3 : n <> lit "*") by (apply plain_no_star; exact W).
      change (XNode (anode a) n XNil px) with (step (anode a) n XNil px).
      rewrite (name_test_spec h j (anode a) n XNil px (anode_axis a) eq_refl T1 T2), principal_axis.
      split; intros [H1 H2]; split; auto.
      + inversion H2; subst; auto; [congruence|]. destruct TC. apply in_or_app. right. left. reflexivity.
      + rewrite H2. constructor.
    - change (XNode (anode a) (lit "*") XNil px) with (step (anode a) (lit "*") XNil px).
      rewrite (name_test_spec h j (anode a) (lit "*") XNil px (anode_axis a) eq_refl ltac:(discriminate) ltac:(discriminate)), principal_axis.
      split; [tauto|]. intro H. split; auto. constructor.
    - split; auto.
    - cbn. apply node_type_eqb_eq.
    - cbn. apply node_type_eqb_eq.
    - destruct W as [Wp Wn]. change (XNode (anode a) (p ++ lit ":" ++ n) XNil px) with (step (anode a) (p ++ lit ":" ++ n) XNil px).
      assert (T1 : p ++ lit ":" ++ n <> lit "node()") by (apply (node_name (N_qname p n)); split; auto).
      assert (T2 : p ++ lit ":" ++ n <> lit ":*").
      { destruct p as [|c p]; [destruct Wp as [[] _]|]. intro E. injection E as E _. apply (plain_no_colon _ Wp). left. exact E. }
      rewrite (name_test_spec h j (anode a) _ XNil px (anode_axis a) eq_refl T1 T2), principal_axis.
      split; intros [H1 H2]; split; auto; [|rewrite H2; constructor].
      remember (p ++ lit ":" ++ n) as t eqn:Et. destruct H2 as [m|m|q l Q]; auto.
      + destruct p as [|c p]; [destruct Wp as [[] _]|]. exfalso. apply (f_equal (@List.length N)) in Et. cbn in Et. rewrite app_length in Et. cbn in Et. lia.
      + exfalso. apply (f_equal (cut 58)) in Et. change (lit ":*") with (58%N :: lit "*") in Et. rewrite (cut_app 58 q (lit "*") Q) in Et.
        change (lit ":" ++ n) with (58%N :: n) in Et. rewrite (cut_app 58 p n (plain_no_colon p Wp)) in Et.
        injection Et as _ Et. apply (plain_no_star n Wn). auto.
    - change (XNode (anode a) (p ++ lit ":*") XNil px) with (step (anode a) (p ++ lit ":*") XNil px).
      assert (T1 : p ++ lit ":*" <> lit "node()") by (apply (node_name (N_prefix p)); auto).
      assert (T2 : p ++ lit ":*" <> lit ":*").
      { destruct p as [|c p]; [destruct W as [[] _]|]. intro E. injection E as E _. apply (plain_no_colon _ W). left. exact E. }
      rewrite (name_test_spec h j (anode a) _ XNil px (anode_axis a) eq_refl T1 T2), principal_axis.
      split; intros [H1 H2]; split; auto.
      + remember (p ++ lit ":*") as t eqn:Et. destruct H2 as [m|m|q l Q].
        * exists (lit "*"). exact Et.
        * destruct p as [|c p]; [destruct W as [[] _]|]. exfalso. apply (f_equal (@List.length N)) in Et. cbn in Et. rewrite app_length in Et. cbn in Et. lia.
        * apply app_inv_tail in Et. subst q. eauto.
      + destruct H2 as [l ->]. apply nm_prefix. apply plain_no_colon. auto.
    - unfold match_node_test. cbn [x_left is_nil]. unfold match_kind_test. cbn [x_left x_type x_name leaf].
      rewrite andb_true_iff, orb_true_iff, !str_eqb_eq, node_type_eqb_eq. destruct n as [n|].
      + split; intros [H1 H2]; split; auto.
        * destruct H2 as [-> |H2]; [destruct W as [[] _]|right; f_equal; auto].
        * destruct H2 as [H2|H2]; [discriminate H2|right; injection H2; auto].
      + tauto.
    - unfold match_node_test. cbn [x_left is_nil]. unfold match_kind_test. cbn [x_left x_type x_name leaf].
      assert (D : derives_from (lit "xs:untyped") (trim_q (lit "xs:anyType?")) = true) by (vm_compute; reflexivity).
      rewrite D. cbn [negb]. destruct (node_type_eqb (n_type (Dom.get h j)) Element) eqn:E; cbn [negb].
      2: { split; [discriminate|]. intros [H1 _]. rewrite H1 in E. discriminate E. }
      apply node_type_eqb_eq in E. destruct n as [n|].
      + assert (N1 : str_eqb n (lit "*") = false) by (apply str_eqb_neq, plain_no_star; auto). rewrite N1. cbn [negb andb].
        destruct (str_eqb n (n_name (Dom.get h j))) eqn:E2; cbn [negb].
        * apply str_eqb_eq in E2. split; [|reflexivity]. intros _. split; auto. right. f_equal. auto.
        * split; [discriminate|]. intros [_ [H|H]]; [discriminate H|]. injection H as ->. rewrite str_eqb_refl in E2. discriminate.
      + cbn [andb negb]. rewrite str_eqb_refl. cbn [negb andb]. split; auto.
    - unfold match_node_test. cbn [x_left is_nil]. unfold match_kind_test. cbn [x_left x_type x_name leaf].
      assert (D : derives_from (lit "xs:untypedAtomic") (lit "xs:anyType") = true) by (vm_compute; reflexivity).
      rewrite D. cbn [negb]. destruct (node_type_eqb (n_type (Dom.get h j)) Attribute) eqn:E; cbn [negb].
      2: { split; [discriminate|]. intros [H1 _]. rewrite H1 in E. discriminate E. }
      apply node_type_eqb_eq in E. destruct n as [n|].
      + assert (N1 : str_eqb n (lit "*") = false) by (apply str_eqb_neq, plain_no_star; auto). rewrite N1. cbn [negb andb].
        destruct (str_eqb n (n_name (Dom.get h j))) eqn:E2; cbn [negb].
        * apply str_eqb_eq in E2. split; [|reflexivity]. intros _. split; auto. right. f_equal. auto.
        * split; [discriminate|]. intros [_ [H|H]]; [discriminate H|]. injection H as ->. rewrite str_eqb_refl in E2. discriminate.
      + rewrite str_eqb_refl. cbn [negb andb]. split; auto.
    - split; [discriminate|intros []].
  Qed.

  Lemma attributes_sub : forall n, attached h 0 n -> sub (attributes h n) order.
  Proof.
    intros n A. destruct order_facts as [t [D [T0 [K [EO NO]]]]]. rewrite EO. rewrite <- T0 in A.
    destruct (attached_context h t n D A) as [fs [s [-> <-]]]. destruct (fill_get h fs s (proj1 D)) as [o [_ [Hg _]]].
    unfold attributes. rewrite Hg. cbn [n_attrs]. rewrite ids_fill. apply sub_pre.
    assert (G : forall l m, sub l m -> forall k, sub l (m ++ k)) by (intros l m H k; rewrite <- (app_nil_r l); apply sub_app; auto; constructor).
    apply G. destruct s as [i ty nm v ats ks]. cbn [ids tattrs]. constructor. apply G. apply sub_refl.
  Qed.
  Lemma sub_sorted : forall l m, sub l m -> StronglySorted (before m) l.
  Proof. intros l m H. eapply SS_impl; [|apply SS_before_self]. intros a b _ _ B. eapply sub_before; eauto. Qed.
  Lemma along_exactly : forall a t px l P, test_ok t -> exactly order P l ->
    exactly order (fun x => P x /\ passes h a t x) (along h (XNode (anode a) (test_name t) (test_tree t) px) l).
  Proof. intros a t px l P W X. unfold along. apply exactly_filter; auto. intro x. apply test_passes. auto. Qed.

  (* an attribute node *)
  Lemma attribute_no_kid : forall p a, attached h 0 p -> In a (attributes h p) -> forall q, attached h 0 q -> ~ In a (children h q).
  Proof.
    intros p a A I q Q C. assert (AA : attached h 0 a) by (eapply att_child; eauto).
    destruct (attribute_cell h p a SE A I) as [o [n [v E]]]. apply (AP a AA). unfold kind. rewrite E. reflexivity.
  Qed.
  Lemma ancestors_exactly : forall n, attached h 0 n -> exactly order (fun x => x = n \/ ancestor h x n)
    (match array_ancestor_or_self h n with Ok l => l | _ => [] end) /\ exists l, array_ancestor h n = Ok l.
  Proof.
    intros n A. destruct order_facts as [t [D [T0 [K [EO NO]]]]].
    destruct (C16_axes_partial h n (node_ids t) SE A (AP n A) NO) as [[l1 [E1 X1]] [[l2 [E2 X2]] _]].
    rewrite E2. split; eauto. eapply exactly_node_order; eauto.
  Qed.
  Lemma attribute_ancestors : forall p a, attached h 0 p -> In a (attributes h p) ->
    array_ancestor h a = array_ancestor_or_self h p /\ parent h a = Some p.
  Proof.
    intros p a A I. destruct (attribute_cell h p a SE A I) as [o [n [v E]]].
    assert (P : parent h a = Some p) by (unfold parent; rewrite E; reflexivity). split; auto.
    destruct (session_document h SE) as [t [D [T0 K]]]. rewrite <- T0 in *.
    destruct (attached_context h t p D A) as [fs [s [Et <-]]]. subst t. pose proof (proj1 D) as R.
    destruct (fill_get h fs s R) as [os [_ [Hg _]]].
    assert (Ha' : In a (map fst (tattrs s))) by (unfold attributes in I; rewrite Hg in I; exact I).
    unfold array_ancestor_or_self, array_ancestor. cbn [ancestors_fuel]. rewrite P.
    pose proof (document_size _ _ D). pose proof (fill_depth_attr fs s a Ha').
    rewrite (ancestors_loop fs h s) by (auto; lia).
    change (match parent h (tid s) with Some p => do l <- ancestors_fuel (List.length h) h p; Ok (l ++ [p]) | None => Ok [] end)
      with (ancestors_fuel (S (List.length h)) h (tid s)).
    rewrite (ancestors_loop fs h s) by (auto; lia). reflexivity.
  Qed.
  Lemma parent_before : forall p a, attached h 0 p -> In a (attributes h p) -> before order p a.
  Proof.
    intros p a A I. destruct order_facts as [t [D [T0 [K [EO NO]]]]]. rewrite EO. rewrite <- T0 in A.
    destruct (attached_context h t p D A) as [fs [s [-> <-]]]. destruct (fill_get h fs s (proj1 D)) as [o [_ [Hg _]]].
    unfold attributes in I. rewrite Hg in I. cbn [n_attrs] in I. rewrite ids_fill. apply before_mono.
    destruct s as [i ty nm v ats ks]. cbn [ids tattrs tid] in *. apply before_cons. left. split; auto. apply in_or_app. auto.
  Qed.
  Lemma attribute_axis : forall p n a t px, attached h 0 p -> In n (attributes h p) -> test_ok t ->
    a <> A_following -> a <> A_preceding ->
    exists l, axis_nodes h n (XNode (anode a) (test_name t) (test_tree t) px) = Ok l /\
      exactly order (fun x => axis_has h order a x n /\ passes h a t x) l.
  Proof.
    intros p n a t px A I W NF NP.
    destruct (attribute_cell h p n SE A I) as [o [nm [v E]]].
    destruct (attribute_ancestors p n A I) as [AA P].
    destruct (ancestors_exactly p A) as [XA [la LA]].
    assert (LS : array_ancestor_or_self h p = Ok (la ++ [p])) by (unfold array_ancestor_or_self; rewrite LA; reflexivity).
    rewrite LS in *.
    assert (CH : children h n = []) by (unfold children; rewrite E; reflexivity).
    assert (AT : attributes h n = []) by (unfold attributes; rewrite E; reflexivity).
    assert (IA : is_attribute h n = true) by (unfold is_attribute; rewrite E; reflexivity).
    assert (DN : forall x, ~ descendant h x n) by (intros x H; inversion H; subst; rewrite CH in *; contradiction).
    assert (AN : forall x, ancestor h x n <-> x = p \/ ancestor h x p).
    { intro x. split.
      - intro H. inversion H as [n0 q E0|n0 q b E0 A']; subst; rewrite P in E0; injection E0 as <-; auto.
      - intros [->|H]; [apply anc_parent; auto|eapply anc_up; eauto]. }
    assert (X1 : exactly order (fun x => ancestor h x n) (la ++ [p])) by (eapply exactly_ext; [intro x; symmetry; apply AN|exact XA]).
    assert (DD : array_descendant h n = Ok []) by (unfold array_descendant; cbn [descendants_fuel]; rewrite CH; reflexivity).
    assert (X0 : forall (Q : nat -> Prop), (forall x, ~ Q x) -> exactly order Q []).
    { intros Q H. split; [|constructor]. intro x. split; [intros []|intro q; exact (H x q)]. }
    assert (XS : exactly order (fun x => x = n) [n]) by (split; [intro x; split; [intros [->|[]]; auto|intros ->; left; auto]|repeat constructor]).
    assert (SIB : forall q x, parent h n = Some q -> ~ before (children h q) n x /\ ~ before (children h q) x n).
    { intros q x Q. rewrite P in Q. injection Q as <-. assert (NK := attribute_no_kid p n A I p A). split; intro B; apply before_in in B; tauto. }
    unfold axis_nodes. cbn [x_type]. destruct a; cbn [anode axis_has]; try congruence.
    - rewrite AA. cbn [bind]. eexists. split; [reflexivity|]. apply (along_exactly A_ancestor t px); auto.
    - unfold array_ancestor_or_self. rewrite AA. cbn [bind]. eexists. split; [reflexivity|]. apply (along_exactly A_ancestor_or_self t px); auto.
      destruct X1 as [Y1 Y2]. split.
      + intro x. rewrite in_app_iff, Y1. cbn. split; [intros [H|[->|[]]]; auto|intros [->|H]; auto].
      + apply SS_app_gen; auto; [repeat constructor|]. intros x y IX [<-|[]].
        assert (PB := parent_before p n A I). destruct XA as [Z1 Z2].
        apply in_app_or in IX. destruct IX as [IX|[<-|[]]]; auto. eapply before_trans; [apply order_NoDup|  |exact PB].
        clear - Z2 IX. induction la as [|z la IH]; [destruct IX|]. cbn [app] in Z2. inversion Z2 as [|? ? S' F]; subst. destruct IX as [->|IX]; auto.
        rewrite Forall_forall in F. apply F. apply in_or_app. right. left. auto.
    - rewrite AT. eexists. split; [reflexivity|]. apply X0. intros x [[] _].
    - rewrite CH. eexists. split; [reflexivity|]. apply X0. intros x [[] _].
    - rewrite DD. cbn [bind]. eexists. split; [reflexivity|]. apply X0. intros x [H _]. eapply DN; eauto.
    - unfold array_descendant_or_self. rewrite DD. cbn [bind]. eexists. split; [reflexivity|]. apply (along_exactly A_descendant_or_self t px); auto.
      eapply exactly_ext; [|exact XS]. intro x. split; auto. intros [->|H]; auto. destruct (DN _ H).
    - unfold array_following_sibling. rewrite IA. eexists. split; [reflexivity|]. apply X0. intros x [[q [Q B]] _]. destruct (SIB q x Q). contradiction.
    - unfold array_parent. rewrite P. eexists. split; [reflexivity|]. apply (along_exactly A_parent t px); auto.
      split; [|repeat constructor]. intro x. split; [intros [->|[]]; auto|]. intro H. injection H as ->. left. auto.
    - unfold array_preceding_sibling. rewrite IA. eexists. split; [reflexivity|]. apply X0. intros x [[q [Q B]] _]. destruct (SIB q x Q). contradiction.
    - eexists. split; [reflexivity|]. apply (along_exactly A_self t px); auto.
  Qed.
  (* the axis part of a step *)
  Lemma step_exactly : forall n a t px, in_document h 0 n -> test_ok t ->
    (kind h n = Attribute -> a <> A_following /\ a <> A_preceding) ->
    exists l, axis_nodes h n (XNode (anode a) (test_name t) (test_tree t) px) = Ok l /\
      exactly order (fun x => axis_has h order a x n /\ passes h a t x) l.
  Proof.
    intros n a t px [A|[p [A I]]] W R.
    - destruct order_facts as [tr [D [T0 [K [EO NO]]]]].
      destruct (axis_eq_attr a) as [->|NA].
      + exists (along h (XNode X_AxisAttribute (test_name t) (test_tree t) px) (attributes h n)). split; [reflexivity|].
        apply (along_exactly A_attribute t px); auto. split; [reflexivity|]. apply sub_sorted, attributes_sub. auto.
      + destruct (axis_exactly h n (node_ids tr) (anode a) (XNode (anode a) (test_name t) (test_tree t) px) (passes h a t)
          SE A (AP n A) NO (anode_axis a) (anode_principal a NA) eq_refl) as [l [E X]].
        { intro j. apply test_passes. auto. }
        exists l. split; auto. apply exactly_node_order in X; auto. eapply exactly_ext; [|exact X]. intro x. cbn beta.
        rewrite (on_axis_has (node_ids tr) a x n NO A). reflexivity.
    - destruct R as [R1 R2].
      + destruct (attribute_cell h p n SE A I) as [o [nm [v E]]]. unfold kind. rewrite E. reflexivity.
      + eapply attribute_axis; eauto.
  Qed.
  (* and its nodes are nodes of the document *)
  Lemma axis_in_document : forall a x n, in_document h 0 n -> axis_has h order a x n -> in_document h 0 x.
  Proof.
    assert (PA : forall n p, in_document h 0 n -> parent h n = Some p -> attached h 0 p).
    { intros n p [A|[q [A I]]] P.
      - destruct (session_document h SE) as [t [D [T0 K]]]. rewrite <- T0 in *.
        destruct (attached_context h t n D A) as [fs [s [Et <-]]]. subst t. destruct fs as [|f fs].
        + destruct (fill_get h [] s (proj1 D)) as [o [_ [Hg _]]]. unfold parent in P. rewrite Hg in P. discriminate P.
        + destruct (fill_get h (f :: fs) s (proj1 D)) as [o [_ [Hg _]]]. unfold parent in P. rewrite Hg in P. cbn in P. injection P as <-.
          cbn [fill] in *. apply (context_attached fs h (plug f s)). auto.
      - destruct (attribute_cell h q n SE A I) as [o [nm [v E]]]. unfold parent in P. rewrite E in P. injection P as <-. auto. }
    assert (AA : forall x n, ancestor h x n -> in_document h 0 n -> attached h 0 x).
    { intros x n H. induction H as [n p P|n p a P H IH]; intro I; [eapply PA; eauto|]. apply IH. left. eapply PA; eauto. }
    assert (CH : forall n c, in_document h 0 n -> In c (children h n) -> attached h 0 c).
    { intros n c [A|[q [A I]]] H; [eapply att_child; eauto|]. destruct (attribute_cell h q n SE A I) as [o [nm [v E]]].
      unfold children in H. rewrite E in H. destruct H. }
    assert (DE : forall x n, descendant h x n -> in_document h 0 n -> attached h 0 x).
    { intros x n H. induction H as [n c C|n c d C H IH]; intro I; [eapply CH; eauto|]. apply IH. left. eapply CH; eauto. }
    intros a x n I H. destruct a; cbn [axis_has] in H.
    - left. eapply AA; eauto.
    - destruct H as [->|H]; auto. left. eapply AA; eauto.
    - destruct I as [A|[p [A I]]]; [right; eauto|]. destruct (attribute_cell h p n SE A I) as [o [nm [v E]]].
      unfold attributes in H. rewrite E in H. destruct H.
    - left. eapply CH; eauto.
    - left. eapply DE; eauto.
    - destruct H as [->|H]; auto. left. eapply DE; eauto.
    - apply order_In. destruct H as [H _]. apply before_in in H. tauto.
    - destruct H as [p [P B]]. left. eapply CH; [left; eapply PA; eauto|]. apply before_in in B. apply B.
    - left. eapply PA; eauto.
    - apply order_In. destruct H as [H _]. apply before_in in H. tauto.
    - destruct H as [p [P B]]. left. eapply CH; [left; eapply PA; eauto|]. apply before_in in B. apply B.
    - subst. auto.
  Qed.
  Lemma root_zero : forall n, in_document h 0 n -> Dom.root h n = Ok 0.
  Proof.
    intros n I. destruct (session_document h SE) as [t [D [T0 K]]]. rewrite <- T0 in *.
    apply root_document; auto. apply (in_document_ids h t n D). exact I.
  Qed.
End Doc.

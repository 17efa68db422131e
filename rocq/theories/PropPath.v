(* C92: location paths lead to the nodes they denote, all of them, once, in document order. *)
Require Import Bool List NArith ZArith Ascii String Lia Sorted Classical.
From Verif Require Import Str StrFacts Sax Dom SpecTree HeapFacts BuildFacts DocFacts Axes SpecEdit SpecAxes AxesFacts SessionFacts Lexer FuncTable Parser SpecExpr PrecFacts PropParse Num Item Func Types Eval EvalFacts
  SpecOper ItemFacts SpecFunc FuncFacts SpecTypes SpecEval EnvFacts SpecInt IntFacts PropEval3 PropInt SpecSem SemFacts SemNode SemLib SemOper SemIn SemMain SemKind PropSem SpecPath PathFacts.
Import ListNotations.
Open Scope nat_scope.

Lemma core_hygienic : forall k e c D, core k e c -> hygienic D e.
Proof.
  assert (PQ : forall q D, is_place q = true -> hygienic D q).
  { intros q D P. destruct q as [k0 d| | | |f [|ar args] | | | | | | | | | | | | | | | | | | | | | | | | | | | ]; try discriminate P; exact Logic.I. }
  assert (TX : forall q D, is_text q = true -> hygienic D q).
  { intros q D P. destruct q as [k0 d| | | |f [|ar args] | | | | | | | | | | | | | | | | | | | | | | | | | | | ]; try discriminate P; exact Logic.I. }
  intro kn. induction e using expr_ind2; intros cc D C; try (destruct C; fail); try exact Logic.I.
  - destruct args as [|a [|]]; try (destruct C; fail). inversion H as [|? ? Ma _]; subst. destruct C as [_ [C _]]. split; [apply (Ma cc); auto|exact Logic.I].
  - cbn [hygienic]. cbn [core] in C. destruct (general_op o) eqn:GO.
    + destruct C as [C1 C2]. split; [destruct (is_text e1) eqn:T1|destruct (is_text e2) eqn:T2]; auto; [apply (IHe1 cc)|apply (IHe2 cc)]; tauto.
    + destruct o; try (destruct C; fail); split; (apply (IHe1 cc) + apply (IHe2 cc)); tauto.
  - destruct C as [_ [_ C]]. cbn [hygienic]. generalize dependent C. generalize (attrs (EStep f t []) cc). induction H as [|q ps Mq F IH]; intros d C; [exact Logic.I|].
    destruct C as [Cq C]. split; [|apply (IH d); exact C]. destruct (is_place q) eqn:IP; [apply PQ; auto|]. apply (Mq d). apply Cq.
  - destruct C as [_ [C1 C2]]. split; [apply (IHe1 cc); auto|]. destruct (is_place e2) eqn:IP; [apply PQ; auto|]. apply (IHe2 (attrs e1 cc)). apply C2.
  - destruct C as [_ [C1 C2]]. split; [eapply IHe; eauto|]. revert C2. generalize (attrs e (match s with S_here => cc | _ => false end)).
    induction H as [|x rest Mx F IH]; intros d C2; [exact Logic.I|]. destruct C2 as [_ [C2 C3]]. split; [eapply Mx; eauto|eapply IH; eauto].
Qed.

(* For EVERY path or condition (SpecPath: any axes, tests, /, //, . and .., parentheses, unions, intersections, differences,
   predicates that are positions or conditions, nested in any way), every document that was parsed and then edited, and every
   node in it: the evaluation of its text ends, with exactly the nodes denoted - in document order, each once - or with the
   truth value denoted. *)
Theorem C92_path : forall h order k n e, ordinary h -> preorder h 0 order -> known_of h k -> in_document h 0 n -> wf e ->
  core k e (match kind h n with Attribute => true | _ => false end) ->
  match denotes h order e n with
  | D_nodes P => exists l, exactly order P l /\ (forall x, In x l -> in_document h 0 x) /\ xpath_gives h n (source e) (Ok (map XINode l))
  | D_truth Q => exists b, (b = true <-> Q) /\ xpath_gives h n (source e) (Ok [XIBoolean b])
  end.
Proof.
  intros h order k n e O PO KN I W C. destruct (ordinary_session h O) as [SE AP].
  assert (G := all_meant h order SE PO AP k KN e _ n C W). unfold given in G.
  assert (S : safe h (match kind h n with Attribute => true | _ => false end) n) by (split; [exact I|intros ->; reflexivity]).
  specialize (G S). assert (HY := core_hygienic k e _ [] C).
  destruct (denotes h order e n) as [P|Q].
  - destruct G as [_ [l [X [SF M]]]]. exists l. split; [exact X|]. split; [intros x J; apply X in J; apply (SF x J)|].
    apply (C63_meaning_partial h order n e (nodes l) []); auto.
  - destruct G as [_ [b [B M]]]. exists b. split; [exact B|]. apply (C63_meaning_partial h order n e [XIBoolean b] []); auto.
Qed.
Print Assumptions C92_path.
(* so two paths that denote the same nodes, and two conditions that denote the same truth, give the same *)
Definition same_denotation (d1 d2 : denotation) : Prop :=
  match d1, d2 with
  | D_nodes P, D_nodes Q => forall x, P x <-> Q x
  | D_truth P, D_truth Q => P <-> Q
  | _, _ => False
  end.
Theorem C92_equal : forall h order k n e1 e2, ordinary h -> preorder h 0 order -> known_of h k -> in_document h 0 n -> wf e1 -> wf e2 ->
  core k e1 (match kind h n with Attribute => true | _ => false end) ->
  core k e2 (match kind h n with Attribute => true | _ => false end) ->
  same_denotation (denotes h order e1 n) (denotes h order e2 n) ->
  exists o, xpath_gives h n (source e1) o /\ xpath_gives h n (source e2) o.
Proof.
  intros h order k n e1 e2 O PO KN I W1 W2 C1 C2 S.
  assert (G1 := C92_path h order k n e1 O PO KN I W1 C1). assert (G2 := C92_path h order k n e2 O PO KN I W2 C2).
  destruct (denotes h order e1 n) as [P|P], (denotes h order e2 n) as [Q|Q]; try (destruct S; fail); cbn in S.
  - destruct G1 as [l1 [X1 [_ G1]]], G2 as [l2 [X2 [_ G2]]]. assert (l1 = l2).
    { destruct (ordinary_session h O) as [SE AP]. apply (SemNode.exactly_unique h order SE PO P); auto.
      apply (exactly_ext order Q P); auto. intro x. symmetry. apply S. }
    subst. eauto.
  - destruct G1 as [b1 [B1 G1]], G2 as [b2 [B2 G2]]. assert (b1 = b2) by (destruct b1, b2; auto; [symmetry|]; tauto). subst. eauto.
Qed.

Lemma ancestor_or_parent : forall h x n, ancestor h x n <-> exists p, parent h n = Some p /\ (x = p \/ ancestor h x p).
Proof.
  intros h x n. split.
  - intro A. inversion A; subst; eexists; (split; [eassumption|]); auto.
  - intros [p [P [->|A]]]; [apply anc_parent; auto|eapply anc_up; eauto].
Qed.
Lemma descendant_or_child : forall h x n, descendant h x n <-> exists c, In c (children h n) /\ (x = c \/ descendant h x c).
Proof.
  intros h x n. split.
  - intro D. inversion D; subst; eexists; (split; [eassumption|]); auto.
  - intros [c [C [->|D]]]; [apply desc_child; auto|eapply desc_down; eauto].
Qed.
Lemma descendant_parent : forall h x n, descendant h x n <-> exists m, (m = n \/ descendant h m n) /\ In x (children h m).
Proof.
  intros h x n. split.
  - intro D. induction D as [n c C|n c d C D IH]; [exists n; auto|]. destruct IH as [m [[->|M] I]]; [exists c|exists m]; (split; [|exact I]); right;
      [apply desc_child; auto|eapply desc_down; eauto].
  - intros [m [[->|M] I]]; [apply desc_child; auto|]. induction M as [n c C|n c d C M IH]; eapply desc_down; eauto. apply desc_child. auto.
Qed.
Lemma core_place : forall k e c, core k e c -> is_place e = false.
Proof.
  intros k e c C. destruct e as [k0 d| | | |f [|ar args] | | | | | | | | | | | | | | | | | | | | | | | | | | | ]; try reflexivity; destruct C.
Qed.
Lemma is_fn : forall f a, is_place (ECall f [a]) = false.
Proof. reflexivity. Qed.
Lemma member_truth : forall d, (exists x, member d x) -> truth d.
Proof. intros [P|Q] [x M]; [exists x; auto|destruct M]. Qed.
Lemma kid_parent : forall h n m, session h -> in_document h 0 n -> In m (children h n) -> parent h m = Some n.
Proof.
  intros h n m SE I K. destruct (session_document h SE) as [t [D [T0 KK]]].
  assert (W := document_well_linked h t D). apply (wl_down _ _ _ W n m).
  - apply (in_document_ids h t n D). rewrite T0. exact I.
  - apply in_or_app. left. exact K.
Qed.
Lemma not_attribute_attached : forall h c n, session h -> safe h c n -> c = false -> attached h 0 n.
Proof.
  intros h c n SE [[A|[p [A I]]] K] E; [exact A|]. exfalso. destruct (attribute_cell h p n SE A I) as [o [nm [v G]]].
  rewrite K in E; [discriminate E|]. unfold kind. rewrite G. reflexivity.
Qed.
Lemma left_app : forall h order bw ps q P x, left_of h order bw P (ps ++ [q]) x <->
  left_of h order bw P ps x /\ (if is_place q then placed order bw (left_of h order bw P ps) q x else truth (denotes h order q x)).
Proof. intros h order bw. induction ps as [|p ps IH]; intros q P x; [reflexivity|]. cbn [app left_of]. apply IH. Qed.
Lemma last_filter : forall h order f t ps q n, reverse_axis (form_axis f) = false \/ is_place q = false ->
  same_denotation (denotes h order (EStep f t (ps ++ [q])) n) (denotes h order (EFilter (EStep f t ps) q) n).
Proof.
  intros h order f t ps q n R. change (denotes h order (EFilter (EStep f t ps) q) n) with (D_nodes (fun x => member (denotes h order (EStep f t ps) n) x /\
    (if is_place q then placed order false (member (denotes h order (EStep f t ps) n)) q x else truth (denotes h order q x)))).
  rewrite !denotes_step. cbn [same_denotation member]. intro x.
  rewrite left_app. destruct (is_place q); [|reflexivity]. destruct R as [R|R]; [rewrite R; reflexivity|discriminate R].
Qed.
Theorem law_denotes : forall h order kn n e1 e2 c, session h -> preorder h 0 order -> apart h -> known_of h kn -> safe h c n -> core kn e1 c -> core kn e2 c -> wf e1 -> wf e2 ->
  path_law e1 e2 -> same_denotation (denotes h order e1 n) (denotes h order e2 n).
Proof.
  intros h order kn n e1 e2 cc SE PO AP KN S C1 C2 W1 W2 L. 
  assert (GM : forall a d m, core kn a d -> condition a = false -> wf a -> safe h d m -> exists P, denotes h order a m = D_nodes P /\
     (forall x, P x -> safe h (attrs a d) x) /\ exists l, exactly order P l).
  { intros a d m C CF W S'. assert (G := all_meant h order SE PO AP kn KN a d m C W S'). unfold given in G. destruct (denotes h order a m) as [P|Q].
    - destruct G as [_ [l [X [SF _]]]]. exists P. split; auto. split; [intros x Px; apply (SF x Px)|eauto].
    - destruct G. congruence. }
  assert (CN : forall a d, core kn a d -> condition a = false -> wf a -> safe h d n -> exists P, denotes h order a n = D_nodes P).
  { intros a d C CF W S'. assert (G := all_meant h order SE PO AP kn KN a d n C W S'). unfold given in G. destruct (denotes h order a n) as [P|Q]; eauto. destruct G. congruence. }
  assert (TD : forall a d, core kn a d -> wf a -> safe h d n -> truth (denotes h order a n) \/ ~ truth (denotes h order a n)).
  { intros a d C W S'. apply classic. }
  destruct L; unfold slash, any, step, fn in *; cbn [denotes same_denotation member truth form_axis reverse_axis general_op] in *.
  all: try (rewrite H; clear H).
  - intro x. cbn [axis_has]. split.
    + intros [m [k [M [K [A T]]]]]. exists m, m. split; auto. split; auto. split; [|exact T]. apply descendant_parent. exists k. split; auto. destruct K as [->|[_ K]]; auto.
    + intros [m [k [M [[->|[K _]] [A T]]]]]; [|discriminate K]. apply descendant_parent in A. destruct A as [j [J I]]. exists m, j. split; auto. split; auto. destruct J; auto.
  - intro x. cbn [axis_has]. split.
    + intros [k [K [A T]]]. split; [|exact T]. apply descendant_parent. exists k. auto.
    + intros [A T]. apply descendant_parent in A. destruct A as [j [J I]]. exists j. auto.
  - reflexivity.
  - reflexivity.
  - intro x. cbn [axis_has passes]. tauto.
  - intro x. cbn [axis_has passes]. tauto.
  - intro x. cbn [axis_has passes]. split.
    + intros [A T]. apply descendant_or_child in A. destruct A as [k [K A]]. exists k, k. auto 6.
    + intros [m [k [[M _] [[->|[K _]] [A T]]]]]; [|discriminate K]. split; [|exact T]. apply descendant_or_child. exists m. auto.
  - intro x. cbn [axis_has]. destruct t; cbn [passes]; tauto.
  - intro x. cbn [axis_has]. split.
    + intros [A T]. apply ancestor_or_parent in A. destruct A as [k [K A]]. exists k, k. auto.
    + intros [m [k [M [[->|[K _]] [A T]]]]]; [|discriminate K]. split; [|exact T]. apply ancestor_or_parent. exists m. auto.
  - intro x. cbn [axis_has]. destruct t; cbn [passes]; tauto.
  - intro x. assert (AT : attached h 0 n).
    { apply not_attribute_attached with (c := cc); auto. destruct C1 as [_ [N _]]. destruct cc; auto. destruct (N eq_refl) as [N1 _]. destruct N1. reflexivity. }
    rewrite (following_siblings h order SE PO AP n x AT). cbn [axis_has passes]. split.
    + intros [[m [y [M [F D]]]] T]. exists y, y. split; [|auto]. exists m, m. split; [split; auto|]. auto.
    + intros [y [y' [[m [m' [[M _] [Km [F _]]]]] [Ky [D T]]]]]. destruct Km as [->|[K _]]; [|discriminate K]. destruct Ky as [->|[K _]]; [|discriminate K].
      split; [|exact T]. exists m, y. auto.
  - intro x. assert (AT : attached h 0 n).
    { apply not_attribute_attached with (c := cc); auto. destruct C1 as [_ [N _]]. destruct cc; auto. destruct (N eq_refl) as [_ N1]. destruct N1. reflexivity. }
    rewrite (preceding_siblings h order SE PO AP n x AT). cbn [axis_has passes]. split.
    + intros [[m [y [M [F D]]]] T]. exists y, y. split; [|auto]. exists m, m. split; [split; auto|]. auto.
    + intros [y [y' [[m [m' [[M _] [Km [F _]]]]] [Ky [D T]]]]]. destruct Km as [->|[K _]]; [|discriminate K]. destruct Ky as [->|[K _]]; [|discriminate K].
      split; [|exact T]. exists m, y. auto.
  - intro x. cbn [axis_has]. split.
    + intros [A T]. exists x, x. split; [split; [exact A|exact Logic.I]|]. auto.
    + intros [m [k [[A _] [[->|[K _]] [-> T]]]]]; [|discriminate K]. auto.
  - (* child::t/.. *) intro x. rewrite is_fn. cbn [member truth denotes form_axis reverse_axis]. split.
    + intros [m [k [[A T] [[->|[K _]] P]]]]; [|discriminate K]. cbn [axis_has] in A. rewrite (kid_parent h n m SE (proj1 S) A) in P. injection P as <-.
      split; auto. left. split; auto. exists m. auto.
    + intros [-> [[_ [m [A T]]]|[[N|N] _]]]; try discriminate N. exists m, m. split; auto. split; auto. apply (kid_parent h n m SE (proj1 S) A).
  - intro x. split.
    + intros [m [k [[m' [k' [A [K' B]]]] [K C]]]]. destruct K as [->|[K _]]; [|discriminate K]. destruct K' as [->|[K _]]; [|discriminate K].
      exists m', m'. split; auto. split; auto. exists m, m. auto.
    + intros [m [k [A [K [m' [k' [B [K' C]]]]]]]]. destruct K as [->|[K _]]; [|discriminate K]. destruct K' as [->|[K _]]; [|discriminate K].
      exists m', m'. split; auto. exists m, m. auto.
  - intro x. split; intros [m [k [[m' [k' [A [K' B]]]] [K C]]]]; exists m, k; (split; [exists m', k'; auto|auto]).
  - destruct C1 as [_ [_ [CA [C1 _]]]]. destruct (CN a cc C2 CA W2 S) as [P E]. rewrite E. intro x. split.
    + intros [m [k [-> [[->|[K _]] M]]]]; [|discriminate K]. rewrite E in M. exact M.
    + intro M. exists n, n. rewrite E. auto.
  - destruct C1 as [CA _]. destruct (CN a cc C2 CA W2 S) as [P E]. rewrite E. intro x. split.
    + intros [m [k [M [[->|[K _]] ->]]]]; [exact M|discriminate K].
    + intro M. exists x, x. auto.
  - intro x. split.
    + intros [m [k [[A|B] R]]]; [left|right]; exists m, k; auto.
    + intros [[m [k [M R]]]|[m [k [M R]]]]; exists m, k; auto.
  - intro x. split.
    + intros [m [k [A [K [B|B]]]]]; [left|right]; exists m, k; auto.
    + intros [[m [k [M [K R]]]]|[m [k [M [K R]]]]]; exists m, k; auto.
  - destruct C2 as [_ [_ [_ [_ [Cp _]]]]]. rewrite (core_place kn p _ Cp). intro x. cbn [is_place denotes truth general_op]. split.
    + intros [M T]. split; [exact M|]. left. auto.
    + intros [M [[_ T]|[[N|N] _]]]; try discriminate N. auto.
  - destruct C1 as [CA [C1 [_ [Cp Cq]]]]. rewrite (core_place kn p _ Cp), (core_place kn q _ Cq). intro x. cbn [is_place denotes truth general_op]. tauto.
  - destruct C1 as [CA [C1 [_ [Cp Cq]]]]. rewrite (core_place kn p _ Cp), (core_place kn q _ Cq). intro x. cbn [is_place denotes truth general_op]. tauto.
  - destruct C1 as [CA [C1 [_ [_ [Cp _]]]]]. rewrite (core_place kn p _ Cp). intro x. rewrite is_fn. cbn [truth denotes]. split.
    + intros [M [[[N|N] _]|[_ N]]]; try discriminate N. tauto.
    + intros [M N]. split; auto. right. split; auto.
  - split.
    + intros [[_ [x [m [k [A [K B]]]]]]|[[N|N] _]]; try discriminate N. left. split; auto. exists m. split; auto. rewrite is_fn. cbn [truth denotes].
      destruct K as [->|[K _]]; [|discriminate K]. left. split; auto. apply member_truth. eauto.
    + intros [[_ [m [A B]]]|[[N|N] _]]; try discriminate N. rewrite is_fn in B. cbn [truth denotes] in B. left. split; auto.
      destruct B as [[_ B]|[[N|N] _]]; try discriminate N.
      destruct C1 as [_ [[CF [C1 [CFb [C1b _]]]] _]]. destruct W1 as [_ [_ [[_ [Wa [Wb _]]] _]]]. cbn [snd] in *.
      destruct (GM a cc n C1 CF Wa S) as [P [E [SF _]]]. rewrite E in A. destruct (GM b _ m C1b CFb Wb (SF m A)) as [Q [EQ _]].
      rewrite EQ in B. destruct B as [x Bx]. exists x, m, m. rewrite E, EQ. auto.
  - intro x. split; [tauto|]. intros [A N]. split; auto. destruct C1 as [CA [CB [C1a C1b]]]. destruct W1 as [_ [Wb _]].
    destruct (GM b cc n C1b CB Wb S) as [P [E [_ [l [X _]]]]]. rewrite E in *. cbn [member] in *.
    destruct (in_dec Nat.eq_dec x l) as [J|J]; [apply X; exact J|]. exfalso. apply N. split; auto. intro Q. apply J. apply X. exact Q.
  - split.
    + intros [[[N|N] _]|[_ N]]; try discriminate N. right. split; auto. intros [[_ A]|[[M|M] _]]; try discriminate M. auto.
    + intros [[[N|N] _]|[_ N]]; try discriminate N. right. split; auto. intro T. apply N. left. auto.
  - (* not(not(p)) *) destruct (TD p cc) as [D|D]; [apply C2|apply W2|exact S| |]; cbn [truth] in *; split.
    + intros _. left. auto.
    + intros _. right. split; auto. intros [[[N|N] _]|[_ N]]; try discriminate N. auto.
    + intros [[[N|N] _]|[_ N]]; try discriminate N. exfalso. apply N. right. auto.
    + intros [[_ N]|[[N|N] _]]; try discriminate N. contradiction.
  - (* not(p or q) *) split.
    + intros [[[N|N] _]|[_ N]]; try discriminate N. split; right; (split; [auto|]); intro T; apply N; auto.
    + intros [[[[N|N] _]|[_ N]] [[[M|M] _]|[_ M]]]; try discriminate N; try discriminate M. right. split; auto. tauto.
  - (* not(p and q) *) destruct C1 as [_ [[Cp Cq] _]]. destruct W1 as [_ [_ [[Wp [Wq _]] _]]]. cbn [truth] in *. split.
    + intros [[[N|N] _]|[_ N]]; try discriminate N. destruct (TD p cc Cp Wp S) as [D|D]; [right|left]; right; (split; [auto|]); tauto.
    + intros [[[[N|N] _]|[_ N]]|[[[N|N] _]|[_ N]]]; try discriminate N; right; (split; [auto|]); tauto.
  - (* exists(a | b) *) split.
    + intros [[_ [x [X|X]]]|[[N|N] _]]; try discriminate N; [left|right]; left; (split; [auto|]); apply member_truth; eauto.
    + destruct C1 as [_ [[CA [CB [C1a C1b]]] _]]. destruct W1 as [_ [_ [[Wa [Wb _]] _]]].
      destruct (CN a cc C1a CA Wa S) as [P EP]. destruct (CN b cc C1b CB Wb S) as [Q EQ]. rewrite EP, EQ. cbn [truth member].
      intros [[[_ [x X]]|[[N|N] _]]|[[_ [x X]]|[[N|N] _]]]; try discriminate N; left; (split; [auto|]); exists x; auto.
  - rewrite H0. intro x. tauto.
  - intro x. tauto.
  - intro x. split.
    + intros [[m [k [A [K B]]]] T]. exists m, k. auto.
    + intros [m [k [A [K [B T]]]]]. split; auto. exists m, k. auto.
  - reflexivity.
  - reflexivity.
  - exact (last_filter h order f t ps q n H).
  - intro x. cbn [axis_has passes]. split.
    + intros [m [k [M [K B]]]]. exists k, k. split; [|auto]. exists m, m. split; [exact M|]. split; [left; reflexivity|]. tauto.
    + intros [m [k [[m' [k' [M [[->|[K _]] [D _]]]]] [[->|[K' _]] B]]]]; try discriminate K; try discriminate K'. exists m', m. split; auto. split; [tauto|auto].
  - intro x. cbn [axis_has passes]. split.
    + intros [k [K B]]. exists k, k. split; [|auto]. exists 0, 0. split; [reflexivity|]. split; [left; reflexivity|]. tauto.
    + intros [m [k [[m' [k' [-> [[->|[K _]] [D _]]]]] [[->|[K' _]] B]]]]; try discriminate K; try discriminate K'. exists m. split; [tauto|auto].
  - reflexivity.
  - intro x. split.
    + intro M. exists 0, 0. auto.
    + intros [m [k [-> [[->|[K _]] M]]]]; [exact M|discriminate K].
  - reflexivity.
  - intro x. tauto.
  - intro x. tauto.
  - destruct C1 as [CA [_ [C1 _]]]. destruct W1 as [Wa _]. destruct (CN a cc C1 CA Wa S) as [P EP]. rewrite EP. intro x. cbn [member]. tauto.
  - intro x. tauto.
  - intro x. tauto.
  - intro x. tauto.
  - repeat (destruct H as [H|H]; [injection H as <- <-; cbn [denotes general_op same_denotation]; split; intros [s [t [X [Y R]]]]; exists t, s;
      (split; [exact Y|split; [exact X|cbn [rel_str] in *; intuition congruence]])|]). destruct H.
  - destruct (general_op o) as [op|] eqn:GO; [clear H|congruence]. cbn [core] in C1. rewrite GO in C1. cbn [is_text condition] in C1.
    destruct C1 as [[_ [[CA [CB [C1a C1b]]] _]] _].
    assert (TF : forall e d s, core kn e cc -> text_from h d e s <-> exists x, member d x /\ string_value_of h x s).
    { intros e d s C. destruct e as [k0 d0| | | |f [|ar args] | | | | | | | | | | | | | | | | | | | | | | | | | | | ]; try reflexivity. destruct C. }
    cbn [same_denotation truth]. split.
    + intros [s [t [X [Y R]]]]. cbn [text_from member] in X. destruct X as [x [[X|X] V]]; [left|right]; exists s, t; (split; [apply TF; eauto|auto]).
    + intros [[s [t [X [Y R]]]]|[s [t [X [Y R]]]]]; exists s, t; (split; [|auto]); apply TF in X; auto; destruct X as [x [X V]]; exists x; cbn [member]; auto.
Qed.

(* Two sides of a law give the same value, at every node of every such document, whatever paths and conditions stand for the letters. *)
Theorem C92_laws : forall h order k n e1 e2, ordinary h -> preorder h 0 order -> known_of h k -> in_document h 0 n -> wf e1 -> wf e2 ->
  core k e1 (match kind h n with Attribute => true | _ => false end) ->
  core k e2 (match kind h n with Attribute => true | _ => false end) ->
  path_law e1 e2 -> exists o, xpath_gives h n (source e1) o /\ xpath_gives h n (source e2) o.
Proof.
  intros h order k n e1 e2 O PO KN I W1 W2 C1 C2 L. apply (C92_equal h order k n e1 e2 O PO KN I W1 W2 C1 C2).
  destruct (ordinary_session h O) as [SE AP]. eapply law_denotes; eauto. split; [exact I|]. intros ->. reflexivity.
Qed.
Print Assumptions C92_laws.
(* ---- examples ---- *)
(* //b[not(exists(c))][1]/@*[last()] *)
Definition path_e1 : expr :=
  EPath S_all (EStep F_child (N_name (lit "b")) [fn "not" (fn "exists" (EStep F_child (N_name (lit "c")) [])); ELit L_integer (lit "1")])
    [(false, EStep F_at N_any [ECall (lit "last") []])].
(* //b[1] and /descendant::b[1] are not the same: the law for // is for steps without predicates *)
Definition path_e2 : expr := EPath S_all (EStep F_child (N_name (lit "b")) [ELit L_integer (lit "1")]) [].
Definition path_e3 : expr := EPath S_root (EStep (F_axis A_descendant) (N_name (lit "b")) [ELit L_integer (lit "1")]) [].
Definition path_e4 : expr := step A_preceding N_any.
Definition path_e5 : expr := slash (slash (any A_ancestor_or_self) (any A_preceding_sibling)) (step A_descendant_or_self N_any).
(* nothing is known of the document *)
Definition plain : known := mkKnown false false.
Ltac wfs := repeat match goal with
  | |- _ /\ _ => split
  | |- True => exact Logic.I
  | |- plain_name _ => pname
  | |- _ = S_here -> _ => intros; discriminate
  | |- check_function_spec _ _ = true => reflexivity
  | |- lexical _ _ => constructor; [discriminate|repeat constructor]
  end.
Theorem C92_example :
  wf path_e1 /\ core plain path_e1 false /\ xpath_gives sem_heap 9 (source path_e1) (Ok [XINode 4]) /\
  core plain path_e2 false /\ core plain path_e3 false /\
  xpath_gives sem_heap 9 (source path_e2) (Ok [XINode 3; XINode 5]) /\ xpath_gives sem_heap 9 (source path_e3) (Ok [XINode 3]) /\
  path_law path_e4 path_e5 /\ wf path_e4 /\ wf path_e5 /\ core plain path_e4 false /\ core plain path_e5 false /\
  xpath_gives sem_heap 9 (source path_e4) (Ok [XINode 2; XINode 3; XINode 8]) /\
  xpath_gives sem_heap 9 (source path_e5) (Ok [XINode 2; XINode 3; XINode 8]).
Proof.
  assert (G : forall e v, eval_xpath 1000 sem_heap 9 (source e) = Ok v -> xpath_gives sem_heap 9 (source e) (Ok v)) by (intros e v E; split; [discriminate|eauto]).
  split; [cbn [path_e1 wf fn snd wf_test]; wfs|].
  split. { cbn. intuition (first [discriminate|lia]). }
  split; [apply G; vm_compute; reflexivity|].
  split. { cbn. intuition (first [discriminate|lia]). }
  split. { cbn. intuition (first [discriminate|lia]). }
  split; [apply G; vm_compute; reflexivity|]. split; [apply G; vm_compute; reflexivity|].
  split; [apply pl_preceding|].
  split; [cbn; wfs|]. split; [cbn; wfs; intros _; discriminate|].
  split. { cbn. intuition (first [discriminate|lia]). }
  split. { cbn. intuition (first [discriminate|lia]). }
  split; apply G; vm_compute; reflexivity.
Qed.
(* //b[@x][@x = '2'] : a predicate that is a path, where no element has two attributes of the same name, and a comparison *)
Definition path_e6 : expr :=
  EPath S_all (EStep F_child (N_name (lit "b"))
    [EStep F_at (N_name (lit "x")) []; EBin O_geq (EStep F_at (N_name (lit "x")) []) (ELit L_string (lit "2"))]) [].
(* a comparison of nodes with nodes: .//b/@x != .//b/@x *)
Definition path_e7 : expr :=
  let xs := EPath S_here EDot [(true, EStep F_child (N_name (lit "b")) []); (false, EStep F_at (N_name (lit "x")) [])] in EBin O_gne xs xs.
Definition names_differ : known := mkKnown true false.
Theorem C92_example_more :
  known_of sem_heap names_differ /\ wf path_e6 /\ core names_differ path_e6 false /\ ~ core plain path_e6 false /\
  xpath_gives sem_heap 9 (source path_e6) (Ok [XINode 5]) /\
  wf path_e7 /\ core plain path_e7 false /\
  xpath_gives sem_heap 0 (source path_e7) (Ok [XIBoolean true]) /\ xpath_gives sem_heap 5 (source path_e7) (Ok [XIBoolean false]).
Proof.
  assert (G : forall n e v, eval_xpath 1000 sem_heap n (source e) = Ok v -> xpath_gives sem_heap n (source e) (Ok v)) by (intros n e v E; split; [discriminate|eauto]).
  split. { split; [|discriminate]. intros _ p _. do 10 (destruct p as [|p]; [cbn; repeat (constructor; try (intros []))|]). destruct p; constructor. }
  split. { cbn [path_e6 wf snd wf_test]. wfs; try (intros; first [discriminate|reflexivity]). constructor. intro X. cbn in X. intuition discriminate. }
  split. { cbn. intuition (first [discriminate|lia]). }
  split. { intro C. destruct C as [_ [[_ [_ [[[D|D] _] _]]] _]]; discriminate D. }
  split; [apply G; vm_compute; reflexivity|].
  split; [cbn; wfs; intros; first [discriminate|reflexivity]|].
  split. { cbn. intuition (first [discriminate|lia]). }
  split; apply G; vm_compute; reflexivity.
Qed.
(* a position in a step on a reverse axis and the same position around the step are not the same: the law is for the other axes *)
Definition path_e8 : expr := EStep (F_axis A_preceding) N_any [ELit L_integer (lit "1")].
Definition path_e9 : expr := EFilter (EStep (F_axis A_preceding) N_any []) (ELit L_integer (lit "1")).
(* (@x | @y) < '2' is @x < '2' or @y < '2', and '2' > (@x | @y) *)
Definition at_x : expr := EStep F_at (N_name (lit "x")) [].
Definition at_y : expr := EStep F_at (N_name (lit "y")) [].
Definition two : expr := ELit L_string (lit "2").
Definition path_e10 : expr := EBin O_glt (EBin O_bar at_x at_y) two.
Definition path_e11 : expr := EBin O_or (EBin O_glt at_x two) (EBin O_glt at_y two).
Definition path_e12 : expr := EBin O_ggt two (EBin O_bar at_x at_y).
Theorem C92_example_laws :
  core plain path_e8 false /\ core plain path_e9 false /\
  xpath_gives sem_heap 9 (source path_e8) (Ok [XINode 8]) /\ xpath_gives sem_heap 9 (source path_e9) (Ok [XINode 2]) /\
  path_law path_e10 path_e11 /\ path_law path_e10 path_e12 /\
  wf path_e10 /\ wf path_e11 /\ wf path_e12 /\ core plain path_e10 false /\ core plain path_e11 false /\ core plain path_e12 false /\
  xpath_gives sem_heap 3 (source path_e10) (Ok [XIBoolean true]) /\ xpath_gives sem_heap 5 (source path_e10) (Ok [XIBoolean false]) /\
  xpath_gives sem_heap 3 (source path_e11) (Ok [XIBoolean true]) /\ xpath_gives sem_heap 5 (source path_e12) (Ok [XIBoolean false]).
Proof.
  assert (G : forall n e v, eval_xpath 1000 sem_heap n (source e) = Ok v -> xpath_gives sem_heap n (source e) (Ok v)) by (intros n e v E; split; [discriminate|eauto]).
  split. { cbn. intuition (first [discriminate|lia]). }
  split. { cbn. intuition (first [discriminate|lia]). }
  split; [apply G; vm_compute; reflexivity|]. split; [apply G; vm_compute; reflexivity|].
  split. { apply pl_compare_bar. discriminate. }
  split. { apply pl_converse. right. right. left. reflexivity. }
  assert (LX : lexical L_string (lit "2")) by (constructor; intro X; cbn in X; intuition discriminate).
  do 3 (split; [cbn [path_e10 path_e11 path_e12 at_x at_y two wf snd wf_test]; wfs; try exact LX; intros; first [discriminate|reflexivity]|]).
  do 3 (split; [cbn; intuition (first [discriminate|lia])|]).
  split; [apply G; vm_compute; reflexivity|]. split; [apply G; vm_compute; reflexivity|].
  split; apply G; vm_compute; reflexivity.
Qed.
(* What may be known of a document: where all nodes below the root are elements and texts, every node has a string value. *)
Lemma below_below : forall h x y z, descendant h x y -> descendant h y z -> descendant h x z.
Proof.
  intros h x y z X Y. induction Y as [n c C|n c d C Y IH]; [eapply desc_down; eauto|]. eapply desc_down; [exact C|]. apply IH. exact X.
Qed.
Lemma attached_below : forall h x, attached h 0 x -> x = 0 \/ descendant h x 0.
Proof.
  intros h x A. induction A as [|p c A IH C]; auto. right. destruct IH as [->|D]; [apply desc_child; exact C|]. eapply below_below; [apply desc_child; exact C|exact D].
Qed.
Theorem C92_texts : forall h, ordinary h -> kind h 0 = DocumentRoot -> (forall i, descendant h i 0 -> kind h i = Element \/ kind h i = Text) ->
  known_of h (mkKnown false true).
Proof.
  intros h O K0 P. destruct (ordinary_session h O) as [SE AP]. split; [discriminate|]. intros _ i [A|[p [A I]]].
  - apply C62_total; auto; [left; exact A|]. apply attached_below in A.
    assert (K : kind h i = DocumentRoot \/ kind h i = Element \/ kind h i = Text).
    { destruct A as [->|D]; auto. }
    repeat (split; [destruct K as [K|[K|K]]; rewrite K; discriminate|]). intros d D. apply P. destruct A as [->|A]; [exact D|]. eapply below_below; eauto.
  - destruct (attribute_cell h p i SE A I) as [o [nm [v G]]]. exists (n_value (Dom.get h i)). constructor. right. left. unfold kind. rewrite G. reflexivity.
Qed.
(* the string value of an element: //b = 'tu' *)
Definition path_e13 : expr := EBin O_geq (EPath S_all (EStep F_child (N_name (lit "b")) []) []) (ELit L_string (lit "tu")).
Theorem C92_example_texts :
  known_of sem_heap (mkKnown false true) /\ core (mkKnown false true) path_e13 false /\ ~ core plain path_e13 false /\ wf path_e13 /\
  xpath_gives sem_heap 0 (source path_e13) (Ok [XIBoolean true]).
Proof.
  split. { apply C92_texts; [exact sem_parsed|reflexivity|]. intros d D.
    destruct (sem_step 0 A_descendant N_node [1; 2; 3; 5; 7; 8; 9]) as [X _]; [vm_compute; tauto|split; exact Logic.I|vm_compute; reflexivity|].
    assert (J : In d [1; 2; 3; 5; 7; 8; 9]) by (apply X; split; [exact D|exact Logic.I]).
    repeat (destruct J as [<-|J]; [vm_compute; auto|]). destruct J. }
  split. { cbn. intuition (first [discriminate|lia]). }
  split. { intro C. destruct C as [[_ [_ D]] _]. discriminate D. }
  split. { assert (LX : lexical L_string (lit "tu")) by (constructor; intro X; cbn in X; intuition discriminate).
    cbn [path_e13 wf snd wf_test]. wfs; try exact LX; intros; first [discriminate|reflexivity]. }
  split; [discriminate|]. exists 1000. vm_compute. reflexivity.
Qed.

(* Two documents with the same tree: the axes, the items, the comparisons, the functions and the types. *)
Require Import Bool List NArith ZArith Ascii String Lia Sorted.
From Verif Require Import Str StrFacts Chars Sax Dom SpecTree SpecEdit HeapFacts BuildFacts SaxFacts DocFacts EditFacts OrderFacts SessionFacts
  Axes SpecAxes AxesFacts Lexer FuncTable Parser Num Item Func Types Eval SemNode SafeFacts SpecIso IsoFacts.
Import ListNotations.
Open Scope nat_scope.

Notation so := same_outcome (only parsing).
Lemma so_bind : forall A A' B B' (P : A -> A' -> Prop) (Q : B -> B' -> Prop) r r' f f', so P r r' ->
  (forall a a', P a a' -> so Q (f a) (f' a')) -> so Q (bind r f) (bind r' f').
Proof. intros A A' B B' P Q [a|k| |] [a'|k'| |] f f' H K; cbn in *; auto; contradiction. Qed.
Lemma so_eq : forall A (r r' : res A), r = r' -> so eq r r'.
Proof. intros A r r' <-. destruct r; cbn; auto. Qed.
Lemma so_bind_eq : forall A B B' (Q : B -> B' -> Prop) (r r' : res A) f f', r = r' -> (forall a, so Q (f a) (f' a)) -> so Q (bind r f) (bind r' f').
Proof. intros A B B' Q r r' f f' E H. eapply so_bind; [apply so_eq; exact E|]. intros a a' <-. apply H. Qed.
Lemma eq_bind : forall A A' B (P : A -> A' -> Prop) (r : res A) (r' : res A') (f : A -> res B) f', so P r r' -> (forall a a', P a a' -> f a = f' a') -> bind r f = bind r' f'.
Proof. intros A A' B P [a|k| |] [a'|k'| |] f f' H K; cbn in *; auto; try contradiction. congruence. Qed.
Lemma so_impl : forall A B (P Q : A -> B -> Prop) r r', so P r r' -> (forall a b, P a b -> Q a b) -> so Q r r'.
Proof. intros A B P Q [] [] H K; cbn in *; auto. Qed.
Lemma so_map_res : forall A A' B B' (P : A -> A' -> Prop) (Q : B -> B' -> Prop) f f' l l', Forall2 P l l' ->
  (forall a a', P a a' -> so Q (f a) (f' a')) -> so (Forall2 Q) (map_res f l) (map_res f' l').
Proof.
  intros A A' B B' P Q f f' l l' F H. induction F as [|a a' l l' Pa F IH]; cbn [map_res]; [constructor|].
  eapply so_bind; [apply H; auto|]. intros b b' Qb. eapply so_bind; [exact IH|]. intros bs bs' Qbs. cbn. constructor; auto.
Qed.
Lemma eq_map_res : forall A A' B (P : A -> A' -> Prop) (f : A -> res B) f' l l', Forall2 P l l' -> (forall a a', P a a' -> f a = f' a') -> map_res f l = map_res f' l'.
Proof. intros A A' B P f f' l l' F H. induction F as [|a a' l l' Pa F IH]; cbn [map_res]; auto. rewrite (H _ _ Pa), IH. reflexivity. Qed.
Lemma f2_length : forall A B (P : A -> B -> Prop) l l', Forall2 P l l' -> List.length l = List.length l'.
Proof. intros A B P l l' F. induction F; cbn; auto. Qed.
Lemma f2_firstn : forall A B (P : A -> B -> Prop) n l l', Forall2 P l l' -> Forall2 P (firstn n l) (firstn n l').
Proof. induction n as [|n IH]; intros l l' F; [constructor|]. destruct F; cbn; auto. Qed.
Lemma f2_skipn : forall A B (P : A -> B -> Prop) n l l', Forall2 P l l' -> Forall2 P (skipn n l) (skipn n l').
Proof. induction n as [|n IH]; intros l l' F; [exact F|]. destruct F; cbn; auto. Qed.
Lemma f2_app : forall A B (P : A -> B -> Prop) a a' b b', Forall2 P a a' -> Forall2 P b b' -> Forall2 P (a ++ b) (a' ++ b').
Proof. intros A B P a a' b b' F G. induction F; cbn; auto. Qed.
Lemma f2_rev : forall A B (P : A -> B -> Prop) a a', Forall2 P a a' -> Forall2 P (rev a) (rev a').
Proof. intros A B P a a' F. induction F; cbn; auto. apply f2_app; auto. Qed.
Lemma f2_flat_map : forall A A' B B' (P : A -> A' -> Prop) (Q : B -> B' -> Prop) f f' l l', Forall2 P l l' -> (forall a a', P a a' -> Forall2 Q (f a) (f' a')) ->
  Forall2 Q (flat_map f l) (flat_map f' l').
Proof. intros A A' B B' P Q f f' l l' F H. induction F; cbn; [constructor|]. apply f2_app; auto. Qed.
Lemma f2_nth : forall A B (P : A -> B -> Prop) n l l', Forall2 P l l' -> match nth_error l n, nth_error l' n with Some a, Some b => P a b | None, None => True | _, _ => False end.
Proof. induction n as [|n IH]; intros l l' F; destruct F; cbn; auto. apply IH. auto. Qed.
Lemma f2_filter : forall A B (P : A -> B -> Prop) p q l l', Forall2 P l l' -> (forall a b, P a b -> p a = q b) -> Forall2 P (filter p l) (filter q l').
Proof. intros A B P p q l l' F H. induction F as [|a b l l' Pa F IH]; cbn; auto. rewrite (H _ _ Pa). destruct (q b); auto. Qed.
Lemma f2_existsb : forall A B (P : A -> B -> Prop) p q l l', Forall2 P l l' -> (forall a b, P a b -> p a = q b) -> existsb p l = existsb q l'.
Proof. intros A B P p q l l' F H. induction F as [|a b l l' Pa F IH]; cbn; auto. rewrite (H _ _ Pa), IH. reflexivity. Qed.
Lemma f2_forallb : forall A B (P : A -> B -> Prop) p q l l', Forall2 P l l' -> (forall a b, P a b -> p a = q b) -> forallb p l = forallb q l'.
Proof. intros A B P p q l l' F H. induction F as [|a b l l' Pa F IH]; cbn; auto. rewrite (H _ _ Pa), IH. reflexivity. Qed.
Lemma f2_forall_res : forall A B (P : A -> B -> Prop) p q l l', Forall2 P l l' -> (forall a b, P a b -> p a = q b) -> forall_res p l = forall_res q l'.
Proof. intros A B P p q l l' F H. induction F as [|a b l l' Pa F IH]; cbn [forall_res]; auto. rewrite (H _ _ Pa), IH. reflexivity. Qed.
Lemma f2_map : forall A A' B B' (P : A -> A' -> Prop) (Q : B -> B' -> Prop) f f' l l', Forall2 P l l' -> (forall a a', P a a' -> Q (f a) (f' a')) -> Forall2 Q (map f l) (map f' l').
Proof. intros A A' B B' P Q f f' l l' F H. induction F; cbn; constructor; auto. Qed.
Lemma f2_map_eq : forall A A' B (P : A -> A' -> Prop) (f : A -> B) f' l l', Forall2 P l l' -> (forall a a', P a a' -> f a = f' a') -> map f l = map f' l'.
Proof. intros A A' B P f f' l l' F H. induction F as [|a b l l' Pa F IH]; cbn; auto. rewrite (H _ _ Pa), IH. reflexivity. Qed.
Definition orel {A B} (P : A -> B -> Prop) (o : option A) (o' : option B) : Prop :=
  match o, o' with Some a, Some b => P a b | None, None => True | _, _ => False end.

Section Walk.
  Variables h h' : heap.
  Variables t t' : tree.
  Hypothesis D : document h t.
  Hypothesis D' : document h' t'.
  Hypothesis OK : order_ok h t.
  Hypothesis OK' : order_ok h' t'.
  Hypothesis E : erase t = erase t'.
  Notation R := (peer t t') (only parsing).

  Lemma peer_in : forall i j, R i j -> In i (ids t) /\ In j (ids t').
  Proof. intros i j P. split; [eapply in_combine_l|eapply in_combine_r]; exact P. Qed.
  Lemma peer_alike : forall i j, R i j -> alike h h' R i j.
  Proof. intros i j P. apply (cells h h' t t' None None E (proj1 D) (proj1 D') i j P). Qed.
  Lemma peer_parent : forall i j, R i j -> orel R (parent h i) (parent h' j).
  Proof.
    intros i j P. unfold parent. destruct (cells h h' t t' None None E (proj1 D) (proj1 D') i j P) as [_ [[[-> [-> [-> ->]]]|(p & p' & -> & -> & Q)] _]]; cbn; auto.
  Qed.
  Lemma peer_string : forall i j, R i j -> string_value h i = string_value h' j /\ typed_value h i = typed_value h' j.
  Proof.
    intros i j P. unfold string_value, typed_value. apply (cells h h' t t' None None E (proj1 D) (proj1 D') i j P).
    - pose proof (document_size _ _ D). pose proof (depth_ids t). lia.
    - pose proof (document_size _ _ D'). pose proof (depth_ids t'). lia.
  Qed.
  Lemma peer_eqb : forall a a' b b', R a a' -> R b b' -> Nat.eqb a b = Nat.eqb a' b'.
  Proof.
    intros a a' b b' P Q. destruct (Nat.eqb_spec a b) as [<-|N].
    - rewrite (combine_fun _ _ _ _ _ (proj2 D) P Q), Nat.eqb_refl. reflexivity.
    - destruct (Nat.eqb_spec a' b') as [<-|N']; auto. exfalso. apply N. eapply combine_inj; [apply D'|exact P|exact Q].
  Qed.
  Lemma peer_before : forall i i' j j', R i i' -> R j j' -> (before (ids t) i j <-> before (ids t') i' j').
  Proof.
    intros i i' j j' P Q. assert (L := erase_ids _ _ E).
    assert (SW : forall a b, In (a, b) (combine (ids t) (ids t')) -> In (b, a) (combine (ids t') (ids t))).
    { intros a b H. apply combine_in_nth in H. destruct H as [k [K1 K2]]. eapply combine_nth_in; eauto. }
    split; intro B; eapply combine_before; try exact B; auto; try apply D; try apply D'; first [exact P|exact Q|apply SW; exact P|apply SW; exact Q].
  Qed.
  Lemma peer_contains : forall l l' a a', Forall2 R l l' -> R a a' -> contains_node l a = contains_node l' a'.
  Proof. intros l l' a a' F P. unfold contains_node. eapply f2_existsb; [exact F|]. intros b b' Q. apply peer_eqb; auto. Qed.
  Lemma peer_name : forall i j, R i j -> n_name (Dom.get h i) = n_name (Dom.get h' j).
  Proof. intros i j P. apply (al_name _ _ _ _ _ (peer_alike i j P)). Qed.
  Lemma peer_type : forall i j, R i j -> n_type (Dom.get h i) = n_type (Dom.get h' j).
  Proof. intros i j P. apply (al_type _ _ _ _ _ (peer_alike i j P)). Qed.
  Lemma peer_value : forall i j, R i j -> n_value (Dom.get h i) = n_value (Dom.get h' j).
  Proof. intros i j P. apply (al_value _ _ _ _ _ (peer_alike i j P)). Qed.
  Lemma peer_kids : forall i j, R i j -> Forall2 R (children h i) (children h' j).
  Proof. intros i j P. apply (al_kids _ _ _ _ _ (peer_alike i j P)). Qed.
  Lemma peer_attrs : forall i j, R i j -> Forall2 R (attributes h i) (attributes h' j).
  Proof. intros i j P. apply (al_attrs _ _ _ _ _ (peer_alike i j P)). Qed.
  Lemma peer_local : forall i j, R i j -> local_name h i = local_name h' j.
  Proof. intros i j P. unfold local_name. rewrite (peer_name i j P). reflexivity. Qed.
  Lemma peer_space : forall i j, R i j -> space_name h i = space_name h' j.
  Proof. intros i j P. unfold space_name. rewrite (peer_name i j P). reflexivity. Qed.
  Lemma peer_attribute : forall i j nm, R i j -> attribute_value h i nm = attribute_value h' j nm.
  Proof.
    intros i j nm P. unfold attribute_value, find_attribute_index. assert (F := peer_attrs i j P). unfold attributes in F.
    induction F as [|a a' l l' Pa F IH]; cbn [find_attr]; auto. rewrite (peer_name a a' Pa). destruct (str_eqb _ _).
    - cbn [nth]. rewrite (peer_value a a' Pa). reflexivity.
    - destruct (find_attr h l nm), (find_attr h' l' nm); cbn [option_map nth] in *; auto; discriminate.
  Qed.
  Lemma peer_namespace : forall i j, R i j -> namespace_uri h i = namespace_uri h' j.
  Proof.
    intros i j P. destruct (peer_in i j P) as [Pi Pj]. destruct (namespace_ok h t D i Pi) as [s S]. destruct (namespace_ok h' t' D' j Pj) as [s' S'].
    rewrite S, S'. f_equal. unfold namespace_uri in *. cbv zeta in *. rewrite (peer_space i j P) in S. revert S S'.
    match goal with |- namespace_uri_loop _ _ _ ?x = _ -> _ => generalize x end. intro x.
    generalize (S (List.length h)), (S (List.length h')). clear Pi Pj. intro n. revert i j P. induction n as [|n IH]; intros i j P [|m] S S'; try discriminate.
    cbn [namespace_uri_loop] in *. rewrite (peer_type i j P), (peer_attribute i j x P) in S. destruct (node_type_eqb _ _); [congruence|].
    destruct (attribute_value _ _ _); [congruence|]. assert (Q := peer_parent i j P). unfold parent in Q.
    destruct (n_parent (Dom.get h i)), (n_parent (Dom.get h' j)); cbn in Q; try contradiction; [eapply IH; eauto|congruence].
  Qed.
  Lemma peer_root : forall i j, R i j -> so R (Dom.root h i) (Dom.root h' j).
  Proof.
    intros i j P. destruct (peer_in i j P) as [Pi Pj]. destruct (root_inside h t D i Pi) as [-> _]. destruct (root_inside h' t' D' j Pj) as [-> _]. apply peer_tid.
  Qed.
  Lemma peer_ancestors : forall i j, R i j -> so (Forall2 R) (array_ancestor h i) (array_ancestor h' j).
  Proof.
    intros i j P. destruct (peer_in i j P) as [Pi Pj]. destruct (ancestors_ok h t D i Pi) as [l [S _]]. destruct (ancestors_ok h' t' D' j Pj) as [l' [S' _]].
    rewrite S, S'. cbn. unfold array_ancestor in *. revert S S'. generalize (S (List.length h)), (S (List.length h')). clear Pi Pj. intro n. revert i j P l l'.
    induction n as [|n IH]; intros i j P l l' [|m] S S'; try discriminate. cbn [ancestors_fuel] in *. assert (Q := peer_parent i j P).
    destruct (parent h i) as [p|], (parent h' j) as [p'|]; cbn in Q; try contradiction; [|injection S as <-; injection S' as <-; constructor].
    destruct (ancestors_fuel n h p) eqn:A; try discriminate. destruct (ancestors_fuel m h' p') eqn:A'; try discriminate. cbn in S, S'.
    injection S as <-. injection S' as <-. apply f2_app; [eapply IH; eauto|auto].
  Qed.
  Lemma peer_ancestors_self : forall i j, R i j -> so (Forall2 R) (array_ancestor_or_self h i) (array_ancestor_or_self h' j).
  Proof.
    intros i j P. unfold array_ancestor_or_self. eapply so_bind; [apply peer_ancestors; exact P|]. intros l l' F. cbn. apply f2_app; auto.
  Qed.
  Lemma peer_descendants : forall i j, R i j -> so (Forall2 R) (array_descendant h i) (array_descendant h' j).
  Proof.
    intros i j P. destruct (peer_in i j P) as [Pi Pj]. destruct (descendants_ok h t D i Pi) as [l [S _]]. destruct (descendants_ok h' t' D' j Pj) as [l' [S' _]].
    rewrite S, S'. cbn. unfold array_descendant in *. revert S S'. generalize (S (List.length h)), (S (List.length h')). clear Pi Pj. intro n. revert i j P l l'.
    induction n as [|n IH]; intros i j P l l' [|m] S S'; try discriminate. cbn [descendants_fuel] in *. assert (F := peer_kids i j P).
    revert l l' S S'. induction F as [|c c' cs cs' Pc F IHF]; intros l l' S S'; [injection S as <-; injection S' as <-; constructor|].
    destruct (descendants_fuel n h c) as [a| | |] eqn:A; try discriminate. destruct (descendants_fuel m h' c') as [a'| | |] eqn:A'; try discriminate. cbn [bind] in S, S'.
    destruct ((fix kids (cs0 : list nat) : res (list nat) := _) cs) as [r| | |]; try discriminate.
    destruct ((fix kids (cs0 : list nat) : res (list nat) := _) cs') as [r'| | |]; try discriminate. cbn [bind] in S, S'.
    injection S as <-. injection S' as <-. constructor; auto. apply f2_app; [eapply IH; eauto|apply IHF; auto].
  Qed.
  Lemma peer_descendants_self : forall i j, R i j -> so (Forall2 R) (array_descendant_or_self h i) (array_descendant_or_self h' j).
  Proof.
    intros i j P. unfold array_descendant_or_self. eapply so_bind; [apply peer_descendants; exact P|]. intros l l' F. cbn. auto.
  Qed.
  Lemma following_peer : forall s s' d d', R s s' -> Forall2 R d d' -> forall l l', Forall2 R l l' -> forall oc, Forall2 R (following_loop s d oc l) (following_loop s' d' oc l').
  Proof.
    intros s s' d d' P Fd l l' F. induction F as [|c c' l l' Pc F IH]; intro oc; cbn [following_loop]; auto. cbv zeta.
    rewrite (peer_eqb c c' s s' Pc P), (peer_contains d d' c c' Fd Pc). destruct (_ && _); auto.
  Qed.
  Lemma preceding_peer : forall s s' d d', R s s' -> Forall2 R d d' -> forall l l', Forall2 R l l' -> forall oc, Forall2 R (preceding_loop s d oc l) (preceding_loop s' d' oc l').
  Proof.
    intros s s' d d' P Fd l l' F. induction F as [|c c' l l' Pc F IH]; intro oc; cbn [preceding_loop]; auto. cbv zeta.
    rewrite (peer_eqb c c' s s' Pc P), (peer_contains d d' c c' Fd Pc). destruct (_ && _); auto.
  Qed.
  Lemma after_peer : forall s s', R s s' -> forall l l', Forall2 R l l' -> forall oc, Forall2 R (after_self s oc l) (after_self s' oc l').
  Proof.
    intros s s' P l l' F. induction F as [|c c' l l' Pc F IH]; intro oc; cbn [after_self]; auto. cbv zeta. rewrite (peer_eqb c c' s s' Pc P). destruct oc; auto.
  Qed.
  Lemma before_peer : forall s s', R s s' -> forall l l', Forall2 R l l' -> forall oc, Forall2 R (before_self s oc l) (before_self s' oc l').
  Proof.
    intros s s' P l l' F. induction F as [|c c' l l' Pc F IH]; intro oc; cbn [before_self]; auto. cbv zeta. rewrite (peer_eqb c c' s s' Pc P). destruct (_ || _); auto.
  Qed.
  Lemma name_test_peer : forall i j x, R i j -> match_name_test h i x = match_name_test h' j x.
  Proof. intros i j x P. unfold match_name_test. rewrite (peer_type i j P), (peer_name i j P), (peer_space i j P). reflexivity. Qed.
  Lemma kind_test_peer : forall i j x, R i j -> match_kind_test h i x = match_kind_test h' j x.
  Proof. intros i j x P. unfold match_kind_test. rewrite (peer_type i j P), (peer_name i j P), (peer_attribute i j _ P). reflexivity. Qed.
  Lemma node_test_peer : forall i j x, R i j -> match_node_test h i x = match_node_test h' j x.
  Proof. intros i j x P. unfold match_node_test. rewrite (name_test_peer i j x P), (kind_test_peer i j _ P). reflexivity. Qed.
  Lemma along_peer : forall x l l', Forall2 R l l' -> Forall2 R (along h x l) (along h' x l').
  Proof. intros x l l' F. unfold along. apply f2_filter; auto. intros. apply node_test_peer. auto. Qed.
  Lemma is_attribute_peer : forall i j, R i j -> is_attribute h i = is_attribute h' j.
  Proof. intros i j P. unfold is_attribute. rewrite (peer_type i j P). reflexivity. Qed.
  Lemma axis_peer : forall i j x, R i j -> so (Forall2 R) (axis_nodes h i x) (axis_nodes h' j x).
  Proof.
    intros i j x P. unfold axis_nodes.
    assert (AL : forall r r', so (Forall2 R) r r' -> so (Forall2 R) (do l <- r; Ok (along h x l)) (do l <- r'; Ok (along h' x l))).
    { intros r r' H. eapply so_bind; [exact H|]. intros. cbn. apply along_peer. auto. }
    assert (Q := peer_parent i j P).
    destruct (x_type x); try reflexivity; try (apply AL); try (cbn; apply along_peer); auto using peer_kids, peer_attrs, peer_ancestors, peer_ancestors_self,
      peer_descendants, peer_descendants_self.
    - eapply so_bind; [apply peer_root; exact P|]. intros r r' Pr. cbn. auto.
    - unfold array_following. rewrite (is_attribute_peer i j P). destruct (is_attribute h' j); [constructor|].
      eapply so_bind; [apply peer_root; exact P|]. intros r r' Pr. eapply so_bind; [apply peer_descendants_self; exact Pr|]. intros a a' Fa.
      eapply so_bind; [apply peer_descendants_self; exact P|]. intros b b' Fb. cbn. apply following_peer; auto.
    - unfold array_following_sibling. rewrite (is_attribute_peer i j P). destruct (is_attribute h' j); [constructor|].
      destruct (parent h i) as [p|], (parent h' j) as [p'|]; cbn in Q; try contradiction; [|constructor]. apply after_peer; auto using peer_kids.
    - unfold array_parent. destruct (parent h i) as [p|], (parent h' j) as [p'|]; cbn in Q; try contradiction; auto.
    - unfold array_preceding. rewrite (is_attribute_peer i j P). destruct (is_attribute h' j); [constructor|].
      eapply so_bind; [apply peer_root; exact P|]. intros r r' Pr. eapply so_bind; [apply peer_descendants_self; exact Pr|]. intros a a' Fa.
      eapply so_bind; [apply peer_ancestors; exact P|]. intros b b' Fb. cbn. apply preceding_peer; auto.
    - unfold array_preceding_sibling. rewrite (is_attribute_peer i j P). destruct (is_attribute h' j); [constructor|].
      destruct (parent h i) as [p|], (parent h' j) as [p'|]; cbn in Q; try contradiction; [|constructor]. apply before_peer; auto using peer_kids.
    - unfold same_outcome. apply along_peer. auto.
  Qed.
  (* two strictly sorted lists with corresponding members correspond *)
  Lemma sorted_peer : forall l l', (forall x, In x l -> exists y, In y l' /\ R x y) -> (forall y, In y l' -> exists x, In x l /\ R x y) ->
    StronglySorted (before (ids t)) l -> StronglySorted (before (ids t')) l' -> Forall2 R l l'.
  Proof.
    induction l as [|a l IH]; intros [|b l'] F G S S'.
    - constructor.
    - destruct (G b (or_introl eq_refl)) as [x [[] _]].
    - destruct (F a (or_introl eq_refl)) as [x [[] _]].
    - inversion S as [|? ? S1 B]; inversion S' as [|? ? S1' B']; subst. rewrite Forall_forall in B, B'.
      assert (AB : R a b).
      { destruct (F a (or_introl eq_refl)) as [y [[<-|Iy] Py]]; [exact Py|]. destruct (G b (or_introl eq_refl)) as [x [[<-|Ix] Px]]; [exact Px|].
        exfalso. assert (X := B x Ix). apply (peer_before a y x b Py Px) in X. exact (proj2 (before_NoDup _ _ _ (proj2 D') X) (B' y Iy)). }
      constructor; [exact AB|]. apply IH; auto.
      + intros x Ix. destruct (F x (or_intror Ix)) as [y [[<-|Iy] Py]]; [|eauto]. exfalso.
        rewrite (combine_inj _ _ _ _ _ (proj2 D') AB Py) in B. exact (proj1 (before_NoDup _ _ _ (proj2 D) (B x Ix)) eq_refl).
      + intros y Iy. destruct (G y (or_intror Iy)) as [x [[<-|Ix] Px]]; [|eauto]. exfalso.
        rewrite (combine_fun _ _ _ _ _ (proj2 D) AB Px) in B'. exact (proj1 (before_NoDup _ _ _ (proj2 D') (B' y Iy)) eq_refl).
  Qed.
  Lemma f2_in_l : forall l l' x, Forall2 R l l' -> In x l -> exists y, In y l' /\ R x y.
  Proof. intros l l' x F. induction F; cbn; intros H0; [tauto|]. destruct H0 as [<-|H0]; [eauto|]. destruct (IHF H0) as [z Z]. exists z. tauto. Qed.
  Lemma f2_in_r : forall l l' y, Forall2 R l l' -> In y l' -> exists x, In x l /\ R x y.
  Proof. intros l l' x F. induction F; cbn; intros H0; [tauto|]. destruct H0 as [<-|H0]; [eauto|]. destruct (IHF H0) as [z Z]. exists z. tauto. Qed.
  Lemma sort_peer : forall l l', Forall2 R l l' -> so (Forall2 R) (sort_by_doc_order h l) (sort_by_doc_order h' l').
  Proof.
    intros l l' F.
    destruct (sort_spec h t l D OK) as [s [-> [M S]]]. { intros x X. destruct (f2_in_l l l' x F X) as [y [_ P]]. apply (peer_in x y P). }
    destruct (sort_spec h' t' l' D' OK') as [s' [-> [M' S']]]. { intros y Y. destruct (f2_in_r l l' y F Y) as [x [_ P]]. apply (peer_in x y P). }
    cbn. apply sorted_peer; auto.
    - intros x X. apply M in X. destruct (f2_in_l l l' x F X) as [y [Y P]]. exists y. split; [apply M'; auto|auto].
    - intros y Y. apply M' in Y. destruct (f2_in_r l l' y F Y) as [x [X P]]. exists x. split; [apply M; auto|auto].
  Qed.
  Lemma compare_num : forall h t, document h t -> order_ok h t -> forall i j, In i (ids t) -> In j (ids t) ->
    exists c, node_compare h i j = Ok c /\ (c = Eq <-> i = j) /\ (c = Lt <-> before (ids t) i j).
  Proof.
    clear. intros h t D OK i j Hi Hj. destruct (document_order_all h t D OK) as [h1 [D1 [SS DN]]]. unfold node_compare, doc_num.
    rewrite (DN i Hi), (DN j Hj). cbn [bind]. eexists. split; [reflexivity|]. assert (LT := fun a b => sorted_before h1 (ids t) a b SS).
    split; [|rewrite Z.compare_lt_iff; apply LT; auto].
    rewrite Z.compare_eq_iff. split; [|congruence]. intro X. destruct (Nat.eq_dec i j) as [|N]; auto. exfalso.
    destruct (before_total (ids t) i j Hi Hj N) as [B|B]; apply LT in B; auto; lia.
  Qed.
  Lemma node_compare_peer : forall i i' j j', R i i' -> R j j' -> node_compare h i j = node_compare h' i' j'.
  Proof.
    intros i i' j j' P Q. destruct (peer_in _ _ P), (peer_in _ _ Q). destruct (compare_num h t D OK i j) as [c [-> [C1 C2]]]; auto.
    destruct (compare_num h' t' D' OK' i' j') as [c' [-> [C1' C2']]]; auto. f_equal. assert (B := peer_before _ _ _ _ P Q).
    assert (EQ : i = j <-> i' = j').
    { split; intros <-; [eapply combine_fun; [apply D|exact P|exact Q]|eapply combine_inj; [apply D'|exact P|exact Q]]. }
    destruct c, c'; try reflexivity; exfalso; try tauto.
    all: repeat match goal with H : ?x = ?x <-> _ |- _ => destruct H as [H _]; specialize (H eq_refl) | H : Eq = Lt <-> _ |- _ => destruct H as [_ H] | H : Lt = Eq <-> _ |- _ => destruct H as [_ H] | H : Gt = Lt <-> _ |- _ => destruct H as [_ H] | H : Gt = Eq <-> _ |- _ => destruct H as [_ H] end;
      try (rewrite EQ in *); try (rewrite B in *); intuition discriminate.
  Qed.
End Walk.

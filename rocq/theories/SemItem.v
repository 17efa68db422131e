(* Maps, arrays, lookups and sequence types in the meaning of expressions. *)
Require Import Bool List NArith ZArith Ascii String Lia Sorted.
From Verif Require Import Str StrFacts Sax Dom Axes SpecEdit SpecAxes SessionFacts Lexer FuncTable Parser SpecExpr Num Item Func Types Eval EvalFacts
  SpecOper ItemFacts SpecFunc FuncFacts SpecTypes TypeFacts PropTypes SpecEval EnvFacts SpecInt IntFacts PropInt PropFunc PropFunc2 SpecItem PropItem SpecSem SemFacts SemNode SemLib SemOper.
Import ListNotations.
Open Scope nat_scope.

Section Items.
  Variable h : heap.
  Variable order : list nat.
  Hypothesis SE : session h.
  Hypothesis PO : preorder h 0 order.

  Lemma map_key_in : forall m p, item_in h (XIMap m) -> In p m -> item_in h (fst p).
  Proof. intros m p IM I. exact (proj1 (proj1 (item_map h m) IM p I)). Qed.
  Lemma other_key_no : forall a b, item_in h a -> item_in h b -> other_key h a b -> op_same_key h a b = false.
  Proof.
    intros a b IA IB [s [t [A [B [N _]]]]]. unfold op_same_key. rewrite (string_of_raw h SE a s IA A), (string_of_raw h SE b t IB B).
    destruct (str_eqb s t) eqn:E; auto. apply str_eqb_eq in E. congruence.
  Qed.
  Lemma same_key_self : forall a s, item_in h a -> string_of h a s -> op_same_key h a a = true.
  Proof. intros a s IA A. unfold op_same_key. rewrite (string_of_raw h SE a s IA A). apply str_eqb_refl. Qed.
  Lemma get_other : forall m k, item_in h k -> item_in h (XIMap m) -> (forall p, In p m -> other_key h (fst p) k) -> xmap_get h m k = None.
  Proof.
    intros m k IK IM H. unfold xmap_get. destruct (find _ m) as [p|] eqn:E; [|reflexivity]. apply find_some in E. destruct E as [I E]. exfalso.
    assert (F : op_same_key h (fst p) k = false); [|congruence].
    apply other_key_no; auto. exact (map_key_in m p IM I).
  Qed.
  Lemma get_entry : forall pre k v post s, item_in h (XIMap (pre ++ (k, v) :: post)) -> string_of h k s ->
    (forall p, In p pre -> other_key h (fst p) k) -> xmap_get h (pre ++ (k, v) :: post) k = Some v.
  Proof.
    intros pre k v post s IM S H. assert (IK : item_in h k).
    { apply (map_key_in _ (k, v) IM). apply in_or_app. right. left. reflexivity. }
    unfold xmap_get. induction pre as [|p pre IH].
    - cbn [app find fst]. rewrite (same_key_self k s IK S). reflexivity.
    - cbn [app find]. rewrite other_key_no; [|apply (map_key_in _ p IM); left; reflexivity|exact IK|apply H; left; reflexivity].
      apply IH; [|intros q Q; apply H; right; exact Q]. apply item_map. intros q Q. apply (proj1 (item_map h _) IM q). right. exact Q.
  Qed.
  Lemma get_member : forall (a : list xseq) n v, nth_error a n = Some v -> xarray_get h a (XIInteger (Z.of_nat n + 1)) = Some v.
  Proof.
    intros a n v E. assert (n < List.length a) by (apply nth_error_Some; congruence). unfold xarray_get. cbn [get_as_raw_integer].
    replace ((1 <=? Z.of_nat n + 1)%Z) with true by (symmetry; apply Z.leb_le; lia).
    replace ((Z.of_nat n + 1 <=? Z.of_nat (List.length a))%Z) with true by (symmetry; apply Z.leb_le; lia). cbn [andb].
    replace (Z.to_nat (Z.of_nat n + 1 - 1)) with n by lia. exact E.
  Qed.
  Lemma looks_ok : forall it ks vals, item_in h it -> (forall k, In k ks -> item_in h k) -> Forall2 (looks h it) ks vals ->
    map_or_array it -> lookup_expr h [it] ks = Ok (List.concat vals).
  Proof.
    intros it ks vals II IK F N.
    assert (G : forall k v, item_in h k -> looks h it k v ->
      (exists m, it = XIMap m /\ match xmap_get h m k with Some v => v | None => [] end = v) \/
      (exists a, it = XIArray a /\ match xarray_get h a k with Some v => v | None => [] end = v)).
    { intros k v I L. destruct L as [pre k v post s S O|m k O|a n v E].
      - left. eexists. split; [reflexivity|]. rewrite (get_entry pre k v post s); auto.
      - left. eexists. split; [reflexivity|]. rewrite get_other; auto.
      - right. eexists. split; [reflexivity|]. rewrite (get_member a n v E). reflexivity. }
    destruct N as [[m ->]|[a ->]].
    - cbn [lookup_expr]. f_equal. induction F as [|k v ks vals L F IH]; auto. cbn [flat_map List.concat].
         rewrite IH by (intros; apply IK; right; auto). f_equal.
         destruct (G k v (IK k (or_introl eq_refl)) L) as [[m' [Q E]]|[a' [Q E]]]; [injection Q as <-; exact E|discriminate Q].
    - cbn [lookup_expr]. f_equal. induction F as [|k v ks vals L F IH]; auto. cbn [flat_map List.concat].
         rewrite IH by (intros; apply IK; right; auto). f_equal.
         destruct (G k v (IK k (or_introl eq_refl)) L) as [[m' [Q E]]|[a' [Q E]]]; [discriminate Q|injection Q as <-; exact E].
  Qed.
  Lemma differ_keyed : forall m, item_in h (XIMap m) -> keys_differ h m -> keyed h m.
  Proof.
    intros m IM K. unfold keyed. induction K as [|k v m s S O K IH].
    - exists []. split; constructor.
    - destruct IH as [names [ND F]]. { apply item_map. intros q Q. apply (proj1 (item_map h _) IM q). right. exact Q. }
      assert (IK : item_in h k) by (apply (map_key_in _ (k, v) IM); left; reflexivity).
      exists (s :: names). split.
      + constructor; auto. intro I. clear - I F O S IM IK SE. induction F as [|p t m names SF F IH]; [destruct I|].
        destruct I as [->|I].
        * destruct (O p (or_introl eq_refl)) as [s1 [s2 [A [B [N _]]]]].
          assert (IP : item_in h (fst p)) by (apply (map_key_in _ p IM); right; left; reflexivity).
          apply (string_of_raw h SE _ _ IP) in A. apply (string_of_raw h SE _ _ IK) in B. apply (string_of_raw h SE _ _ IK) in S.
          apply string_form_raw in SF. congruence.
        * apply IH; auto; [|intros q Q; apply O; right; exact Q]. apply item_map. intros q Q. apply (proj1 (item_map h _) IM q).
          destruct Q as [<-|Q]; [left; reflexivity|right; right; exact Q].
      + constructor; auto. cbn [fst]. apply string_form_raw. apply (string_of_raw h SE _ _ IK S).
  Qed.

  (* sequence types *)
  Lemma item_yes : forall v, seq_in h v -> forallb is_item v = true.
  Proof.
    intros v V. apply forallb_forall. intros it I. specialize (V it I). destruct it; auto. destruct (item_fun h x V).
  Qed.
  Lemma default_yes : forall n v, seq_in h v -> mst_fuel h (S n) v default_sequence_type = Ok true.
  Proof. intros n v V. cbn. unfold match_sequence_item_test. rewrite item_yes by auto. reflexivity. Qed.
  Lemma get_found : forall m p, item_in h (XIMap m) -> keys_differ h m -> In p m -> exists q, In q m /\ xmap_get h m (fst p) = Some (snd q).
  Proof.
    intros m p IM K I. unfold xmap_get. destruct (find (fun e => op_same_key h (fst e) (fst p)) m) as [q|] eqn:E.
    - apply find_some in E. exists q. split; [apply E|reflexivity].
    - exfalso. apply (find_none _ _ E) in I as F. cbn beta in F. assert (IK := map_key_in m p IM I).
      assert (exists s, string_of h (fst p) s) as [s S].
      { clear - K I. induction K as [|k v m s S O K IH]; [destruct I|]. destruct I as [<-|I]; [exists s; exact S|auto]. }
      rewrite (same_key_self (fst p) s IK S) in F. discriminate F.
  Qed.
  Lemma no_type_none : forall it n, (forall t, ~ has_type it t) -> known_type (lit "xs:" ++ n) -> derives_from (xs_type it) (lit "xs:" ++ n) = false.
  Proof.
    intros it n N K. destruct (derives_from _ _) eqn:E; auto. exfalso. apply derives_from_derives in E.
    assert (NB : forall t u, derived t u -> t <> lit "function(*)" /\ t <> lit "map(*)" /\ t <> lit "array(*)" /\ t <> lit "node").
    { intros t u D. destruct D; repeat split; discriminate. }
    remember (xs_type it) as t eqn:T. destruct E as [a|a b c D E].
    - destruct K as [K|[u K]].
      + destruct it; cbn in T; try (eapply N; constructor); rewrite K in T; discriminate T.
      + apply NB in K. destruct it; cbn in T; try (eapply N; constructor); intuition congruence.
    - apply NB in D. destruct it; cbn in T; try (eapply N; constructor); intuition congruence.
  Qed.
  Lemma item_is_ok : forall n it t b, item_in h it -> wf_item t -> item_is h it t b -> one_item h (mst_fuel h (S n)) (item_tree t) [it] = Ok b.
  Proof.
    intros n it t b IT W H. destruct H as [it|it t n' b HT KT D|it n' NT KT|i t b OT P|it t NA|it b P|m HK KD|it NM|a|it NA].
    - cbn. assert (E := item_yes [it]). cbn in E. rewrite E; [reflexivity|]. intros x [<-|[]]. exact IT.
    - unfold one_item. cbn [item_tree x_type leaf]. unfold match_sequence_atomic_or_union_type. rewrite forallb_one. cbn [x_name leaf].
      assert (E : derives_from t (lit "xs:" ++ n') = b) by (eapply bool_iff; [apply derives_from_derives|exact D]).
      destruct HT; rewrite <- E; reflexivity.
    - unfold one_item. cbn [item_tree x_type leaf]. unfold match_sequence_atomic_or_union_type. rewrite forallb_one. cbn [x_name leaf].
      rewrite no_type_none by auto. reflexivity.
    - assert (T := test_passes h A_child t XNil i).
      assert (E : x_type (test_tree t) = X_KindTest /\ (match_kind_test h i (test_tree t) = true <-> passes h A_child t i)).
      { destruct W as [KT W]. specialize (T (conj W OT)). unfold match_node_test in T. cbn [x_left] in T.
        destruct t; try destruct KT; (split; [reflexivity|]); exact T. }
      destruct E as [E1 E2]. unfold one_item. cbn [item_tree]. rewrite E1. unfold match_sequence_kind_test. rewrite forallb_one. f_equal.
      eapply bool_iff; eauto.
    - assert (E1 : x_type (test_tree t) = X_KindTest) by (destruct W as [KT W]; destruct t; try destruct KT; reflexivity).
      unfold one_item. cbn [item_tree]. rewrite E1. unfold match_sequence_kind_test. rewrite forallb_one. destruct it; auto. destruct (NA i). reflexivity.
    - cbn. rewrite andb_true_r. f_equal. eapply bool_iff; [|exact P]. unfold map_or_array.
      destruct it; cbn [is_function_item]; try (split; [discriminate|intros [[? Q]|[? Q]]; discriminate Q]).
      + destruct (item_fun h x IT).
      + split; eauto.
      + split; eauto.
    - unfold one_item. cbn [item_tree x_type]. unfold match_sequence_map_test. cbn [forall_res x_left x_right x_name leaf].
      assert (F : match_map_sequence_type h (mst_fuel h (S n)) m (lit "xs:anyAtomicType") default_sequence_type = Ok true); [|rewrite F; reflexivity].
      unfold match_map_sequence_type.
      assert (G : forall ks, (forall k, In k ks -> exists p, In p m /\ fst p = k) -> forall_res (fun key => if negb (derives_from (xs_type key) (lit "xs:anyAtomicType")) then Ok false
                           else match xmap_get h m key with
                                | Some v => mst_fuel h (S n) v default_sequence_type
                                | None => Ok false
                                end) ks = Ok true).
      { induction ks as [|k ks IH]; intro Q; auto. cbn [forall_res]. destruct (Q k (or_introl eq_refl)) as [p [P <-]].
        destruct (HK p P) as [t T]. replace (derives_from (xs_type (fst p)) (lit "xs:anyAtomicType")) with true by (destruct T; vm_compute; reflexivity).
        cbn [negb]. destruct (get_found m p IT KD P) as [q [J E]]. rewrite E, default_yes.
        - cbn [bind]. apply IH. intros k K. apply Q. right. exact K.
        - exact (proj2 (proj1 (item_map h m) IT q J)). }
      apply G. intros k K. apply in_map_iff in K. destruct K as [p [E P]]. eauto.
    - unfold one_item. cbn [item_tree x_type]. unfold match_sequence_map_test. cbn [forall_res]. destruct it; auto. destruct (NM m). reflexivity.
    - unfold one_item. cbn [item_tree x_type]. unfold match_sequence_array_test. cbn [forall_res x_left x_right x_name leaf].
      assert (F : match_array_sequence_type h (mst_fuel h (S n)) a default_sequence_type = Ok true); [|rewrite F; reflexivity].
      unfold match_array_sequence_type.
      assert (G : forall ks, (forall k, In k ks -> 1 <= k <= List.length a) -> forall_res (fun k => match xarray_get h a (XIInteger (Z.of_nat k)) with
                         | Some v => mst_fuel h (S n) v default_sequence_type
                         | None => Ok false
                         end) ks = Ok true).
      { induction ks as [|k ks IH]; intro Q; auto. cbn [forall_res]. destruct k as [|k]; [specialize (Q 0 (or_introl eq_refl)); lia|].
        destruct (nth_error a k) as [v|] eqn:E; [|apply nth_error_None in E; specialize (Q (S k) (or_introl eq_refl)); lia].
        replace (Z.of_nat (S k)) with (Z.of_nat k + 1)%Z by lia. rewrite (get_member a k v E), default_yes.
        - cbn [bind]. apply IH. intros j K. apply Q. right. exact K.
        - apply (proj1 (item_array h a) IT). eapply nth_error_In; eauto. }
      apply G. intros k K. apply in_seq in K. lia.
    - unfold one_item. cbn [item_tree x_type]. unfold match_sequence_array_test. cbn [forall_res]. destruct it; auto. destruct (NA a). reflexivity.
  Qed.
  Lemma item_tree_type : forall t, wf_item t -> item_type (item_tree t).
  Proof. intros t W. unfold item_type. destruct t as [|n|t| | |]; cbn; auto 10. destruct W as [KT W]. destruct t; try destruct KT; cbn; auto. Qed.
  Lemma of_type_ok : forall v t b, seq_in h v -> wf_seq t -> of_type h v t b -> match_sequence_type h v (seq_tree t) = Ok b.
  Proof.
    intros v t b V W H. destruct H as [v b P|v t c k K].
    - cbn. f_equal. destruct v, b; auto; [symmetry; apply P; reflexivity|].
      discriminate (proj1 P eq_refl).
    - cbn [seq_tree]. assert (I := item_tree_type t W). rewrite mst_unfold by exact I.
      replace (match_occurence v (occ_name c)) with (Ok (allowed c (List.length v))) by (destruct c; reflexivity). cbn [bind].
      destruct (allowed c (List.length v)); cbn [negb andb]; [|reflexivity].
      assert (E : forall it, In it v -> one_item h (mst_fuel h (S (xsize (item_tree t)))) (item_tree t) [it] = Ok (k it)).
      { intros it J. apply item_is_ok; auto. }
      destruct (one_item_all h (mst_fuel h (S (xsize (item_tree t)))) (item_tree t) v I) as [b [F B]].
      { intros it J. eauto. }
      rewrite F. f_equal. eapply bool_iff; [exact B|]. rewrite forallb_forall. split; intros G it J.
      + rewrite (E it J), (G it J). reflexivity.
      + specialize (G it J). rewrite (E it J) in G. congruence.
  Qed.
End Items.

(* More of the function library in the meaning of expressions. *)
Require Import Bool List NArith ZArith Ascii String Lia Sorted Reals.
Require Import Coq.Floats.SpecFloat.
From Verif Require Import Str StrFacts CaseTable Case SpecCase CaseFacts Sax SpecText SpecTree Dom Axes SpecEdit SpecAxes SpecNs HeapFacts EditFacts ReachFacts DocEdit SessionFacts PropDom Lexer FuncTable Parser
  SpecExpr Num Item Func Types Eval EvalFacts SpecOper ItemFacts SpecFunc FuncFacts SpecTypes SpecEval EnvFacts PropEval3 SpecInt IntFacts PropFunc PropFunc2
  SpecNum PropNum PropFunc3 SpecDbl SpecArith ArithFacts SpecLib LibNum SpecSem SemFacts SemNode SemLib SemOper SemItem.
Import ListNotations.
Open Scope nat_scope.

Lemma attached_bound : forall h i, session h -> in_document h 0 i -> i < List.length h.
Proof.
  intros h i S A. destruct (session_document h S) as [t [D [T0 _]]]. apply (document_bound h t i D). apply (in_document_ids h t i D).
  rewrite T0. exact A.
Qed.
Lemma session_ok : forall h, session h -> heap_ok h.
Proof.
  intros h S. induction S as [xml h E|h h' i n v S IH A E|h h' i n S IH A E|h h' i c S IH A E|h h' i x S IH A X C1 C2 E|h h' i x S IH A X C1 C2 E|h h' i z S IH A E].
  - apply reachable_ok. apply (reach_parse [] h xml (doc_fuel xml) reach_empty E).
  - destruct (set_attribute_spec h i n v IH) as (h2 & E2 & K & _); [apply attached_bound; auto; left; auto|]. rewrite E in E2. injection E2 as ->. exact K.
  - destruct (delete_attribute_spec h i n IH) as (h2 & E2 & K & _); [apply attached_bound; auto; left; auto|]. rewrite E in E2. injection E2 as ->. exact K.
  - eapply delete_child_heap_ok; eauto.
  - eapply insert_heap_ok; eauto.
  - eapply insert_heap_ok; eauto.
  - apply document_order_same in E. destruct E as [L N]. apply (heap_ok_same h h'); auto.
Qed.
Lemma ancestry_unique : forall h i l, ancestry h i l -> forall l', ancestry h i l' -> l = l'.
Proof.
  intros h i l A. induction A as [i T|i p l T P A IH]; intros l' B; inversion B; subst; auto.
  - destruct T; congruence.
  - destruct H; congruence.
  - f_equal. apply IH. congruence.
Qed.
Lemma declares_unique h n e v w : declares h n e v -> declares h n e w -> v = w.
Proof. intros [_ A] [_ B]. congruence. Qed.
Lemma first_unique {A} (P : A -> Prop) (a1 b1 : list A) x y a2 b2 : a1 ++ x :: a2 = b1 ++ y :: b2 -> P x -> P y ->
  (forall z, In z a1 -> ~ P z) -> (forall z, In z b1 -> ~ P z) -> x = y.
Proof.
  revert b1. induction a1 as [|a a1 IH]; intros [|b b1] E X Y N M; cbn in E; injection E as E1 E2; subst; auto.
  - destruct (M b); cbn; auto.
  - destruct (N y); cbn; auto.
  - eapply IH; eauto; intros z I; [apply N|apply M]; cbn; auto.
Qed.

Lemma lex_asym s t : ~ (lex_lt s t /\ lex_lt t s).
Proof. intros [A B]. exact (lex_irrefl s (lex_trans s t s A B)). Qed.

Section M.
  Variable h : heap.
  Variable order : list nat.
  Hypothesis SE : session h.
  Hypothesis PO : preorder h 0 order.

  Lemma namespace_ok i l name : in_document h 0 i -> declaration_name (n_name (Dom.get h i)) name -> ancestry h i l ->
    (exists l1 e l2 v, l = l1 ++ e :: l2 /\ declares h name e v /\ (forall x w, In x l1 -> ~ declares h name x w) /\ namespace_uri h i = Ok v) \/
    ((forall x w, In x l -> ~ declares h name x w) /\ namespace_uri h i = Ok []).
  Proof.
    intros I Hn A. destruct (heap_ok_ancestry h (session_ok h SE) (S (List.length h)) i) as [l' [A' L]].
    { assert (B := attached_bound h i SE I). lia. } { apply attached_bound; auto. }
    rewrite (ancestry_unique h i l' A' l A) in L. unfold namespace_uri.
    replace (match space_name h i with [] => lit "xmlns" | _ => lit "xmlns" ++ lit ":" ++ space_name h i end) with name.
    - apply namespace_loop; auto.
    - destruct (C47_prefix_and_local_name h i) as [H1 H2]. inversion Hn as [n Hc E1 E2|p l0 Hp Hc E1 E2].
      + destruct H2 as [-> _]; [congruence|]. reflexivity.
      + destruct (H1 p l0) as [-> _]; auto. destruct p; [congruence|]. reflexivity.
  Qed.
  Lemma via c name vs v : (exists o, forall callf e, evaluate_function h callf name vs c e = pure e o) -> fn_value h c name vs (Ok v) ->
    forall callf e, evaluate_function h callf name vs c e = Ok (v, e).
  Proof. intros [o E] V callf e. rewrite E. rewrite <- (fn_value_inv _ _ _ _ _ _ E V). reflexivity. Qed.
  Ltac via T := apply via; [eexists; intros; erewrite evaluate_found by (vm_compute; reflexivity); cbv iota beta; reflexivity|apply T; auto].
  Ltac fnd f := match goal with |- evaluate_function _ _ _ ?args _ _ = _ =>
      unfold evaluate_function; match goal with |- context [find_function ?n ?k] => change (find_function n k) with (Some f) || replace (find_function n k) with (Some f) by (vm_compute; reflexivity) end;
      cbn iota; cbn [call_fn arg nth_error] end.
  Lemma index_ok : forall (y : xitem) (k : xitem -> bool), item_in h y -> forall v n, seq_in h v ->
    (forall x, In x v -> compares h CEq x y (k x)) ->
    index_of_loop h (Z.of_nat n) v [y]
    = Ok (map (fun p => XIInteger (Z.of_nat (fst p))) (filter (fun p => k (snd p)) (combine (seq (S n) (List.length v)) v))).
  Proof.
    intros y k Y. induction v as [|x v IH]; intros n V C; [reflexivity|]. cbn [index_of_loop List.length seq combine filter snd].
    assert (E : value_compare_eq h [x] [y] = Ok [XIBoolean (k x)]).
    { apply (value_ok h SE CEq); auto; [apply V|apply C]; left; auto. }
    rewrite E. cbn [bind get_singleton_boolean get_singleton_item]. replace (Z.of_nat n + 1)%Z with (Z.of_nat (S n)) by lia.
    rewrite IH; [|intros z I; apply V; right; auto|intros z I; apply C; right; auto]. cbn [bind]. destruct (k x); reflexivity.
  Qed.
  Lemma remove_positions : forall l n p, (Z.of_nat n + Z.of_nat (List.length l) < 2 ^ 63)%Z -> is_i64 p ->
    remove_loop n (p mod 2 ^ 64) l = positions_from (Z.of_nat n + 1) (fun q => negb (q =? p)%Z) l.
  Proof.
    induction l as [|x l IH]; intros n p L P; [reflexivity|]. cbn [remove_loop positions_from List.length] in *.
    rewrite IH by (auto; lia). replace (Z.of_nat (S n) + 1)%Z with (Z.of_nat n + 1 + 1)%Z by lia.
    assert (E : (Z.of_nat (n + 1) =? p mod 2 ^ 64)%Z = (Z.of_nat n + 1 =? p)%Z).
    { replace (Z.of_nat (n + 1)) with (Z.of_nat n + 1)%Z by lia. unfold is_i64 in P. destruct (Z_le_gt_dec 0 p).
      - rewrite Z.mod_small by lia. reflexivity.
      - replace (p mod 2 ^ 64)%Z with (p + 2 ^ 64)%Z.
        + destruct (Z.eqb_spec (Z.of_nat n + 1) (p + 2 ^ 64)), (Z.eqb_spec (Z.of_nat n + 1) p); auto; lia.
        + apply Z.mod_unique with (q := (-1)%Z); lia. }
    rewrite E. destruct (Z.of_nat n + 1 =? p)%Z; reflexivity.
  Qed.
  Lemma atomize_typed v : (forall it, In it v -> exists t, has_type it t) -> atomize h v = v.
  Proof.
    intro H. unfold atomize. rewrite <- (map_id v) at 2. apply map_ext_in. intros it I. destruct (H it I) as [t T]. destruct T; reflexivity.
  Qed.
  Lemma text_double it s x : item_in h it -> text_item h it s -> atof s = x -> get_as_raw_double h it = Ok x.
  Proof.
    intros I T A. destruct T as [s|i s T]; cbn [get_as_raw_double]; [congruence|].
    assert (R := proj1 (text_item_in h SE (XINode i) s I (ti_node h i s T))). cbn [get_as_raw_string] in R. congruence.
  Qed.
  Lemma rounding_name d n x y : rounding d n x y -> In n [lit "floor"; lit "ceiling"; lit "round"; lit "abs"].
  Proof. intro H. destruct H as [| | | |n x D I N]; cbn [In] in *; intuition. Qed.
  Ltac case_names H := cbn [In] in H; repeat (destruct H as [<-|H]); [..|destruct H].
  Lemma more_ok : forall f name args v, more_library h f name args v -> item_in h (f_item f) -> (forall a, In a args -> seq_in h a) ->
    forall callf e, evaluate_function h callf (lit "fn:" ++ name) args [f_item f] e = Ok (v, e).
  Proof.
    intros f name args v L FI. induction L; intros AI callf en.
    - fnd F_number. unfold fn_number. assert (E : get_as_raw_double h it = Ok x).
      { eapply text_double; eauto; [apply (AI [it]); cbn; auto|eapply atof_rounded; eauto]. }
      rewrite E. reflexivity.
    - fnd F_number. unfold fn_number. rewrite (number_raw h it x); auto.
    - fnd F_number. unfold fn_number. cbn [get_as_raw_double bind]. rewrite (number_bool b x); auto.
    - fnd F_number. reflexivity.
    - assert (Q := IHL ltac:(intros a [<-|[]] it [<-|[]]; exact FI) callf en). revert Q.
      change (lit "fn:" ++ lit "number") with (lit "fn:number").
      erewrite (evaluate_found h _ [[f_item f]]) by (vm_compute; reflexivity). erewrite (evaluate_found h _ []) by (vm_compute; reflexivity). auto.
    - assert (E := rounding_ok _ _ _ _ H). assert (N := rounding_name _ _ _ _ H). clear H. case_names N.
      + fnd F_floor. change (rounding_fn true (lit "floor") x) with (floor_x x) in E. rewrite <- E. reflexivity.
      + fnd F_ceiling. change (rounding_fn true (lit "ceiling") x) with (ceil_x x) in E. rewrite <- E. reflexivity.
      + fnd F_round. change (rounding_fn true (lit "round") x) with (round_x x) in E. rewrite <- E. reflexivity.
      + fnd F_abs. change (rounding_fn true (lit "abs") x) with (fabs x) in E. rewrite <- E. reflexivity.
    - assert (E := rounding_ok _ _ _ _ H). assert (N := rounding_name _ _ _ _ H). clear H. case_names N.
      + fnd F_floor. change (rounding_fn false (lit "floor") x) with (ffloor x) in E. rewrite <- E. reflexivity.
      + fnd F_ceiling. change (rounding_fn false (lit "ceiling") x) with (fceil x) in E. rewrite <- E. reflexivity.
      + fnd F_round. change (rounding_fn false (lit "round") x) with (ffloor (fadd x f_half)) in E. rewrite <- E. reflexivity.
      + fnd F_abs. change (rounding_fn false (lit "abs") x) with (fabs x) in E. rewrite <- E. reflexivity.
    - case_names H; [fnd F_floor|fnd F_ceiling|fnd F_round]; reflexivity.
    - fnd F_abs. unfold fn_abs, fn_numeric_unary. rewrite (chk_ok _ H). reflexivity.
    - case_names H; [fnd F_floor|fnd F_ceiling|fnd F_round|fnd F_abs]; reflexivity.
    - fnd F_sum. destruct v as [|x v]; [congruence|]. unfold fn_sum. rewrite (sum_from_ok h _ _ _ H0). reflexivity.
    - fnd F_sum. reflexivity.
    - fnd F_sum. destruct v as [|x v]; [congruence|]. unfold fn_sum. rewrite (sum_from_ok h _ _ _ H0). reflexivity.
    - fnd F_avg. destruct v as [|x v]; [congruence|]. unfold fn_avg, fn_sum. rewrite (sum_from_ok h _ _ _ H0). cbn [bind get_singleton_item].
      assert (E := number_op_ok O_div _ _ _ H1). change (item_op O_div) with xitem_numeric_divide in E. unfold zlen. rewrite E. reflexivity.
    - case_names H; [fnd F_avg|fnd F_max|fnd F_min]; reflexivity.
    - fnd F_upper_case. apply to_upper_iff in H0. subst r. destruct H as [->|[-> ->]]; reflexivity.
    - fnd F_lower_case. apply to_lower_iff in H0. subst r. destruct H as [->|[-> ->]]; reflexivity.
    - destruct (C72_compare h [f_item f] s t) as [z' [V Z']].
      assert (E : z = z').
      { assert (X : forall u, ~ lex_lt u u) by apply lex_irrefl. assert (Y : ~ (lex_lt s t /\ lex_lt t s)) by apply lex_asym.
        destruct H as [[-> A]|[[-> A]|[-> A]]], Z' as [[-> B]|[[-> B]|[-> B]]]; auto; exfalso; subst; eauto. }
      subst z'. via V.
    - destruct (C33_codepoint_equal h [f_item f] s t H H0) as [b' [V B]].
      assert (E : b' = b) by (eapply bool_iff; eauto). subst b'. via V.
    - case_names H; [fnd F_compare|fnd F_codepoint_equal]; destruct H0 as [->| ->]; try reflexivity; destruct v; reflexivity.
    - fnd F_translate. assert (E : r = flat_map (translate_char from to) s).
      { apply (translates_unique from to s); auto. apply translate_spec; auto. }
      subst r. destruct H as [->|[-> ->]]; reflexivity.
    - via C28_substring_partial.
    - via C28_substring_rest_partial.
    - destruct H as [->|[-> ->]]; [via C33_codepoints|fnd F_string_to_codepoints; reflexivity].
    - via C33_codepoints.
    - via C28_subsequence_partial.
    - via C28_subsequence_rest_partial.
    - fnd F_index_of. unfold fn_index_of. change 0%Z with (Z.of_nat 0). rewrite (index_ok y k); auto.
      + apply (AI [y]); cbn; auto.
      + apply AI. cbn; auto.
    - destruct (C32_insert_before h [f_item f] v p w) as [k' [V K]]; [unfold is_i64; lia|lia|]. unfold zlen in K.
      assert (k' = k) by lia. subst k'. via V.
    - fnd F_remove. unfold fn_remove. cbn [get_singleton_integer get_singleton_item bind].
      rewrite (remove_positions v 0 p) by (auto; lia). reflexivity.
    - fnd F_zero_or_one. unfold fn_zero_or_one. apply Nat.leb_le in H. rewrite H. reflexivity.
    - fnd F_one_or_more. unfold fn_one_or_more. apply Nat.leb_le in H. rewrite H. reflexivity.
    - fnd F_exactly_one. reflexivity.
    - fnd F_data. unfold fn_data. rewrite atomize_typed; auto.
    - fnd F_namespace_uri. unfold fn_namespace_uri, fn_of_node. cbn [get_singleton_node bind].
      destruct (namespace_ok i (l1 ++ x :: l2) name) as [(a1 & y & a2 & w & E & De & N & ->)|[N _]]; auto.
      + apply item_node_in. apply (AI [XINode i]); cbn; auto.
      + assert (X : x = y) by (eapply (first_unique (fun z => exists w, declares h name z w)); [exact E|eauto|eauto| |]; intros z I [w' W]; firstorder).
        subst y. rewrite (declares_unique _ _ _ _ _ De H3). reflexivity.
      + destruct (N x v); auto. apply in_or_app. right. left. reflexivity.
    - fnd F_namespace_uri. unfold fn_namespace_uri, fn_of_node. cbn [get_singleton_node bind].
      destruct (namespace_ok i l name) as [(a1 & y & a2 & w & E & De & N & _)|[N ->]]; auto.
      + apply item_node_in. apply (AI [XINode i]); cbn; auto.
      + exfalso. apply (H3 y w); auto. rewrite E. apply in_or_app. right. left. reflexivity.
    - destruct (proj1 (C71_nilled h [f_item f] i) H) as [b' [V B]]. assert (E : b' = b) by (eapply bool_iff; eauto). subst b'. via V.
  Qed.
  Lemma function_value_ok : forall f name args v, function_value h f name args v -> item_in h (f_item f) -> (forall a, In a args -> seq_in h a) ->
    forall callf e, at_focus f e -> evaluate_function h callf (lit "fn:" ++ name) args [f_item f] e = Ok (v, e).
  Proof.
    intros f name args v [L|L] FI AI callf e AF; [eapply library_ok; eauto|eapply more_ok; eauto].
  Qed.
  Lemma looks_get it k v : looks h it k v -> item_in h it -> item_in h k ->
    match it with
    | XIMap m => match xmap_get h m k with Some w => w | None => [] end = v
    | XIArray a => match xarray_get h a k with Some w => w | None => [] end = v
    | _ => True
    end.
  Proof.
    intros L I K. destruct L as [pre k v post s S N|m k N|a n v E].
    - rewrite (get_entry h SE pre k v post s); auto.
    - rewrite (get_other h SE m k); auto.
    - rewrite (get_member h a n v E). reflexivity.
  Qed.
  Lemma item_library_ok : forall c prefix name args v, item_library h prefix name args v -> (forall a, In a args -> seq_in h a) ->
    forall callf e, evaluate_function h callf (prefix ++ lit ":" ++ name) args c e = Ok (v, e).
  Proof.
    intros c prefix name args v L AI callf e. destruct L as [m k v L|pre k v post s S|m k N|m|m|a k v L|a|v r F].
    - fnd F_map_get. unfold fn_map_get. cbn [get_singleton_map get_singleton_item bind].
      rewrite (looks_get (XIMap m) k v L); [reflexivity|apply (AI [XIMap m]); cbn; auto|apply (AI [k]); cbn; auto].
    - assert (IM : item_in h (XIMap (pre ++ (k, v) :: post))) by (apply (AI [XIMap (pre ++ (k, v) :: post)]); cbn; auto).
      assert (IK : item_in h k) by (apply (AI [k]); cbn; auto).
      fnd F_map_contains. unfold fn_map_contains. cbn [get_singleton_map get_singleton_item bind pure]. unfold xmap_contains.
      rewrite existsb_app. cbn [existsb fst]. rewrite (same_key_self h SE k s IK S), orb_true_r. reflexivity.
    - assert (IM : item_in h (XIMap m)) by (apply (AI [XIMap m]); cbn; auto).
      assert (IK : item_in h k) by (apply (AI [k]); cbn; auto).
      fnd F_map_contains. unfold fn_map_contains. cbn [get_singleton_map get_singleton_item bind pure]. unfold xmap_contains.
      assert (E : existsb (fun e0 => op_same_key h (fst e0) k) m = false).
      { apply not_true_is_false. intro Q. apply existsb_exists in Q. destruct Q as [p [P Q]].
        rewrite (other_key_no h SE (fst p) k) in Q; auto; [discriminate|]. exact (map_key_in h m p IM P). }
      rewrite E. reflexivity.
    - fnd F_map_keys. reflexivity.
    - fnd F_map_size. reflexivity.
    - fnd F_array_get. unfold fn_array_get. cbn [get_singleton_array get_singleton_item bind].
      rewrite (looks_get (XIArray a) k v L); [reflexivity|apply (AI [XIArray a]); cbn; auto|apply (AI [k]); cbn; auto].
    - fnd F_array_size. reflexivity.
    - destruct (C36_flatten h c v) as [r' [V [F' _]]]. rewrite (flattens_unique v r F r' F') . via V.
  Qed.
End M.

(* DOM editing: src/dom.rs 614-886 *)
Require Import Bool List NArith ZArith Ascii String Lia.
From Verif Require Import Str StrFacts Chars Sax Dom SpecTree SpecEdit HeapFacts.
Import ListNotations.
Open Scope nat_scope.

Lemma same_node_refl : forall n, same_node n n.
Proof. unfold same_node. tauto. Qed.
Lemma same_node_trans : forall a b c, same_node a b -> same_node b c -> same_node a c.
Proof. unfold same_node. intuition congruence. Qed.
Lemma same_node_order : forall n z, same_node (set_order z n) n.
Proof. unfold same_node. simpl. tauto. Qed.

Lemma heap_ok_parent : forall h j p, heap_ok h -> parent h j = Some p -> p < j /\ j < List.length h.
Proof.
  intros h j p H E. destruct (Nat.lt_ge_cases j (List.length h)) as [L|L].
  - split; auto. apply (H j L). auto.
  - unfold parent in E. rewrite get_out in E by auto. discriminate.
Qed.

Lemma root_loop_ok : forall h, heap_ok h -> forall fuel i, i < fuel -> exists r,
  root_loop fuel h i = Ok r /\ r <= i /\ parent h r = None.
Proof.
  intros h H. induction fuel as [|fuel IH]; intros i Hi; [lia|]. cbn [root_loop].
  destruct (n_parent (get h i)) as [p|] eqn:E.
  - destruct (heap_ok_parent h i p H E) as [Hp _]. destruct (IH p) as [r [E1 [E2 E3]]]; [lia|].
    exists r. split; auto. split; auto. lia.
  - exists i. auto.
Qed.

Lemma root_ok : forall h i, heap_ok h -> i < List.length h -> exists r,
  root h i = Ok r /\ r <= i /\ parent h r = None.
Proof. intros h i H Hi. apply root_loop_ok; auto. Qed.

Lemma clear_order_ok : forall h i, heap_ok h -> i < List.length h -> exists r,
  clear_document_order h i = Ok (upd h r (set_order 0)) /\ r < List.length h /\ root h i = Ok r.
Proof.
  intros h i H Hi. destruct (root_ok h i H Hi) as [r [E [L _]]].
  exists r. unfold clear_document_order. rewrite E. cbn. split; auto. split; auto. lia.
Qed.

Lemma get_upd_order : forall h r z j, same_node (get (upd h r (set_order z)) j) (get h j).
Proof.
  intros h r z j. destruct (Nat.eq_dec r j) as [->|Hn].
  - destruct (Nat.lt_ge_cases j (List.length h)) as [L|L].
    + rewrite get_upd_same by auto. apply same_node_order.
    + rewrite upd_out by auto. apply same_node_refl.
  - rewrite get_upd_other by auto. apply same_node_refl.
Qed.

Lemma heap_ok_same : forall h h', List.length h = List.length h' ->
  (forall j, same_node (get h' j) (get h j)) -> heap_ok h -> heap_ok h'.
Proof.
  intros h h' L S H j Hj. destruct (S j) as [_ [_ [_ [E1 [E2 E3]]]]].
  unfold parent, children, attributes. rewrite E1, E2, E3, <- L. apply H. lia.
Qed.

Lemma heap_ok_order : forall h r z, heap_ok h -> heap_ok (upd h r (set_order z)).
Proof.
  intros. apply heap_ok_same with h; auto.
  - rewrite upd_length. auto.
  - intro. apply get_upd_order.
Qed.

(* replacing the child / attribute list of one node by lists of existing cells *)
Lemma heap_ok_children : forall h i l, heap_ok h -> (forall c, In c l -> c < List.length h) ->
  heap_ok (upd h i (set_children l)).
Proof.
  intros h i l H Hl j Hj. rewrite upd_length in *. destruct (H j Hj) as [H1 H2].
  unfold parent, children, attributes in *. destruct (Nat.eq_dec i j) as [->|Hn].
  - rewrite get_upd_same by auto. unfold set_children. cbn [n_parent n_children n_attrs].
    split; auto. intros c Hc. apply in_app_or in Hc. destruct Hc as [Hc|Hc]; auto.
    apply H2. apply in_or_app. auto.
  - rewrite get_upd_other by auto. auto.
Qed.
Lemma heap_ok_attrs : forall h i l, heap_ok h -> (forall c, In c l -> c < List.length h) ->
  heap_ok (upd h i (set_attrs l)).
Proof.
  intros h i l H Hl j Hj. rewrite upd_length in *. destruct (H j Hj) as [H1 H2].
  unfold parent, children, attributes in *. destruct (Nat.eq_dec i j) as [->|Hn].
  - rewrite get_upd_same by auto. unfold set_attrs. cbn [n_parent n_children n_attrs].
    split; auto. intros c Hc. apply in_app_or in Hc. destruct Hc as [Hc|Hc]; auto.
    apply H2. apply in_or_app. auto.
  - rewrite get_upd_other by auto. auto.
Qed.

Lemma heap_ok_alloc : forall h t p n v, heap_ok h ->
  (match p with Some q => q < List.length h | None => True end) ->
  heap_ok (h ++ [mkNode t 0 n v p [] []]).
Proof.
  intros h t p n v H Hp j Hj. rewrite app_length in *. simpl in *.
  destruct (Nat.eq_dec j (List.length h)) as [->|Hn].
  - unfold parent, children, attributes. rewrite get_app_new. simpl. split; [|contradiction].
    intros q E. subst p. exact Hp.
  - assert (L : j < List.length h) by lia. destruct (H j L) as [H1 H2].
    unfold parent, children, attributes in *. rewrite get_app_old by auto. split; auto.
    intros c Hc. apply H2 in Hc. lia.
Qed.

Lemma heap_ok_child_lt : forall h i c, heap_ok h -> In c (children h i) -> c < List.length h.
Proof.
  intros h i c H Hc. destruct (Nat.lt_ge_cases i (List.length h)) as [L|L].
  - apply (H i L). apply in_or_app. auto.
  - unfold children in Hc. rewrite get_out in Hc by auto. contradiction.
Qed.
Lemma heap_ok_attr_lt : forall h i c, heap_ok h -> In c (attributes h i) -> c < List.length h.
Proof.
  intros h i c H Hc. destruct (Nat.lt_ge_cases i (List.length h)) as [L|L].
  - apply (H i L). apply in_or_app. auto.
  - unfold attributes in Hc. rewrite get_out in Hc by auto. contradiction.
Qed.

Lemma In_vec_insert : forall (A : Type) k (x : A) l y, In y (vec_insert k x l) -> y = x \/ In y l.
Proof.
  intros A k x l y H. unfold vec_insert in H. apply in_app_or in H. destruct H as [H|[H|H]]; auto.
  - right. rewrite <- (firstn_skipn k l). apply in_or_app. auto.
  - right. rewrite <- (firstn_skipn k l). apply in_or_app. auto.
Qed.
Lemma skipn_S_In : forall (A : Type) k (l : list A) y, In y (skipn (S k) l) -> In y (skipn k l).
Proof.
  intros A k. induction k as [|k IH]; intros l y H.
  - destruct l; simpl in *; auto.
  - destruct l as [|x l]; [exact H|]. exact (IH l y H).
Qed.
Lemma In_vec_remove : forall (A : Type) k (l : list A) y, In y (vec_remove k l) -> In y l.
Proof.
  intros A k l y H. unfold vec_remove in H. rewrite <- (firstn_skipn k l).
  apply in_app_or in H. apply in_or_app. destruct H as [H|H]; auto. right. apply skipn_S_In. auto.
Qed.

(* ---------------- attributes ---------------- *)
Lemma find_attr_spec : forall h ats n,
  match find_attr h ats n with
  | Some k => exists a l r, ats = l ++ a :: r /\ k = List.length l /\ n_name (get h a) = n /\
                Forall (fun b => n_name (get h b) <> n) l
  | None => Forall (fun b => n_name (get h b) <> n) ats
  end.
Proof.
  intros h ats n. induction ats as [|a ats IH]; cbn [find_attr]; [constructor|].
  destruct (str_eqb (n_name (get h a)) n) eqn:E.
  - apply str_eqb_eq in E. exists a, [], ats. repeat split; auto.
  - apply str_eqb_neq in E. destruct (find_attr h ats n) as [k|]; cbn [option_map].
    + destruct IH as [b [l [r [-> [-> [H1 H2]]]]]]. exists b, (a :: l), r. repeat split; auto.
    + constructor; auto.
Qed.

Lemma find_attr_app : forall h l a r n, Forall (fun b => n_name (get h b) <> n) l ->
  n_name (get h a) = n -> find_attr h (l ++ a :: r) n = Some (List.length l).
Proof.
  intros h l a r n Hl Ha. induction l as [|b l IH]; cbn [app find_attr].
  - rewrite Ha, str_eqb_refl. reflexivity.
  - inversion Hl as [|? ? Hb Hl']; subst. apply str_eqb_neq in Hb. rewrite Hb, IH by auto. reflexivity.
Qed.
Lemma find_attr_none : forall h l n, Forall (fun b => n_name (get h b) <> n) l -> find_attr h l n = None.
Proof.
  intros h l n H. induction H as [|b l Hb Hl IH]; auto. cbn [find_attr].
  apply str_eqb_neq in Hb. rewrite Hb, IH. reflexivity.
Qed.

Lemma nth_app_len : forall (A : Type) (l : list A) a r d, nth (List.length l) (l ++ a :: r) d = a.
Proof. induction l; simpl; auto. Qed.

(* attribute_value as a first-match lookup *)
Fixpoint lookup_attr (h : heap) (ats : list nat) (n : str) : option str :=
  match ats with
  | [] => None
  | a :: r => if str_eqb (n_name (get h a)) n then Some (n_value (get h a)) else lookup_attr h r n
  end.
Lemma attribute_value_lookup : forall h i n, attribute_value h i n = lookup_attr h (attributes h i) n.
Proof.
  intros h i n. unfold attribute_value, find_attribute_index, attributes.
  induction (n_attrs (get h i)) as [|a l IH]; auto. cbn [find_attr lookup_attr].
  destruct (str_eqb (n_name (get h a)) n); auto.
  destruct (find_attr h l n) as [k|]; cbn [option_map] in *; auto.
Qed.

Lemma lookup_app_none : forall h l r n, Forall (fun b => n_name (get h b) <> n) l ->
  lookup_attr h (l ++ r) n = lookup_attr h r n.
Proof.
  intros h l r n H. induction H as [|b l Hb Hl IH]; auto. cbn [app lookup_attr].
  apply str_eqb_neq in Hb. rewrite Hb. auto.
Qed.
Lemma lookup_skip : forall h l a r m, n_name (get h a) <> m ->
  lookup_attr h (l ++ a :: r) m = lookup_attr h (l ++ r) m.
Proof.
  intros h l a r m H. induction l as [|b l IH]; cbn [app lookup_attr].
  - apply str_eqb_neq in H. rewrite H. reflexivity.
  - destruct (str_eqb (n_name (get h b)) m); auto.
Qed.
Lemma lookup_same : forall h h' l n, (forall a, In a l -> same_node (get h' a) (get h a)) ->
  lookup_attr h' l n = lookup_attr h l n.
Proof.
  intros h h' l n H. induction l as [|a l IH]; auto. cbn [lookup_attr].
  destruct (H a (or_introl eq_refl)) as [_ [E1 [E2 _]]]. rewrite E1, E2, IH; auto.
  intros. apply H. simpl; auto.
Qed.

Lemma skipn_S_mid : forall (A : Type) (l : list A) a r, skipn (S (List.length l)) (l ++ a :: r) = r.
Proof. intros A l a r. induction l as [|b l IH]; [reflexivity|]. exact IH. Qed.

Lemma vec_replace : forall (A : Type) (l : list A) a b r,
  vec_insert (List.length l) b (vec_remove (List.length l) (l ++ a :: r)) = l ++ b :: r.
Proof.
  intros A l a b r. unfold vec_insert, vec_remove.
  assert (E1 : firstn (List.length l) (l ++ a :: r) = l).
  { rewrite firstn_app, Nat.sub_diag, firstn_all. simpl. apply app_nil_r. }
  assert (E2 : skipn (S (List.length l)) (l ++ a :: r) = r).
  { apply skipn_S_mid. }
  rewrite E1, E2. rewrite firstn_app, Nat.sub_diag, firstn_all, skipn_app, Nat.sub_diag, skipn_all.
  simpl. rewrite app_nil_r. reflexivity.
Qed.
Lemma vec_remove_mid : forall (A : Type) (l : list A) a r,
  vec_remove (List.length l) (l ++ a :: r) = l ++ r.
Proof.
  intros A l a r. unfold vec_remove.
  assert (E1 : firstn (List.length l) (l ++ a :: r) = l).
  { rewrite firstn_app, Nat.sub_diag, firstn_all. simpl. apply app_nil_r. }
  assert (E2 : skipn (S (List.length l)) (l ++ a :: r) = r).
  { apply skipn_S_mid. }
  rewrite E1, E2. reflexivity.
Qed.

Lemma existsb_names : forall n l, existsb (str_eqb n) l = true <-> In n l.
Proof.
  intros n l. rewrite existsb_exists. split.
  - intros [x [Hx E]]. apply str_eqb_eq in E. subst. auto.
  - intro H. exists n. split; auto. apply str_eqb_refl.
Qed.

Lemma map_names_same : forall h h' l, (forall a, In a l -> same_node (get h' a) (get h a)) ->
  map (fun a => n_name (get h' a)) l = map (fun a => n_name (get h a)) l.
Proof.
  intros h h' l H. apply map_ext_in. intros a Ha. destruct (H a Ha) as [_ [E _]]. exact E.
Qed.

(* the attribute cells other than the node itself are untouched by an attribute edit;
   so is the node's own name and value *)
Lemma same_but_lists_get : forall h i l j, j < List.length h ->
  n_name (get (upd h i (set_attrs l)) j) = n_name (get h j) /\
  n_value (get (upd h i (set_attrs l)) j) = n_value (get h j).
Proof.
  intros h i l j Hj. destruct (Nat.eq_dec i j) as [->|Hn].
  - rewrite get_upd_same by auto. split; reflexivity.
  - rewrite get_upd_other by auto. auto.
Qed.

Lemma lookup_same' : forall h h' l n,
  (forall a, In a l -> n_name (get h' a) = n_name (get h a) /\ n_value (get h' a) = n_value (get h a)) ->
  lookup_attr h' l n = lookup_attr h l n.
Proof.
  intros h h' l n H. induction l as [|a l IH]; auto. cbn [lookup_attr].
  destruct (H a (or_introl eq_refl)) as [E1 E2]. rewrite E1, E2, IH; auto.
  intros. apply H. simpl; auto.
Qed.

Theorem set_attribute_spec : forall h i n v, heap_ok h -> i < List.length h ->
  exists h', set_attribute h i n v = Ok h' /\ heap_ok h' /\
    attribute_value h' i n = Some v /\
    (forall m, m <> n -> attribute_value h' i m = attribute_value h i m) /\
    attr_names h' i = names_after_set n (attr_names h i) /\
    children h' i = children h i /\ parent h' i = parent h i /\
    n_type (get h' i) = n_type (get h i) /\ n_name (get h' i) = n_name (get h i) /\
    n_value (get h' i) = n_value (get h i) /\
    unchanged_except h h' (fun j => j = i).
Proof.
  intros h i n v H Hi. unfold set_attribute, make_new_rc_node.
  set (new := mkNode Attribute 0 n v (Some i) [] []). set (h1 := h ++ [new]).
  assert (L1 : List.length h1 = S (List.length h)) by (unfold h1; rewrite app_length; simpl; lia).
  assert (G1 : forall j, j < List.length h -> get h1 j = get h j) by (intros; apply get_app_old; auto).
  assert (GN : get h1 (List.length h) = new) by apply get_app_new.
  assert (O1 : heap_ok h1) by (apply heap_ok_alloc; simpl; auto).
  set (ats := n_attrs (get h1 i)).
  assert (A0 : ats = attributes h i) by (unfold ats; rewrite G1 by auto; reflexivity).
  assert (AL : forall a, In a ats -> a < List.length h).
  { intros a Ha. rewrite A0 in Ha. eapply heap_ok_attr_lt; eauto. }
  set (ats' := match find_attribute_index h1 i n with
               | Some k => vec_insert k (List.length h) (vec_remove k ats)
               | None => ats ++ [List.length h]
               end).
  assert (AL' : forall a, In a ats' -> a < List.length h1).
  { intros a Ha. unfold ats' in Ha. destruct (find_attribute_index h1 i n).
    - apply In_vec_insert in Ha. destruct Ha as [->|Ha]; [lia|]. apply In_vec_remove in Ha.
      apply AL in Ha. lia.
    - apply in_app_or in Ha. destruct Ha as [Ha|[<-|[]]]; [apply AL in Ha; lia|lia]. }
  set (h2 := upd h1 i (set_attrs ats')).
  assert (L2 : List.length h2 = S (List.length h)) by (unfold h2; rewrite upd_length; auto).
  assert (O2 : heap_ok h2) by (apply heap_ok_attrs; auto).
  destruct (clear_order_ok h2 i O2 ltac:(lia)) as [r [EC [Lr _]]].
  exists (upd h2 r (set_order 0)). split; [exact EC|].
  set (h3 := upd h2 r (set_order 0)).
  assert (S3 : forall j, same_node (get h3 j) (get h2 j)) by (intro; apply get_upd_order).
  assert (G2 : get h2 i = set_attrs ats' (get h i)).
  { unfold h2. rewrite get_upd_same by lia. rewrite G1 by auto. reflexivity. }
  assert (NV : forall a, In a ats' -> n_name (get h3 a) = n_name (get h1 a) /\
                                     n_value (get h3 a) = n_value (get h1 a)).
  { intros a Ha. destruct (S3 a) as [_ [E1 [E2 _]]]. rewrite E1, E2. apply same_but_lists_get. auto. }
  assert (NV1 : forall a, In a ats -> n_name (get h1 a) = n_name (get h a) /\
                                     n_value (get h1 a) = n_value (get h a)).
  { intros a Ha. rewrite G1 by auto. auto. }
  assert (A3 : attributes h3 i = ats').
  { unfold attributes. destruct (S3 i) as [_ [_ [_ [_ [_ E]]]]]. rewrite E, G2. reflexivity. }
  destruct (S3 i) as [T1 [T2 [T3 [T4 [T5 T6]]]]]. rewrite G2 in T1, T2, T3, T4, T5. cbn in T1, T2, T3, T4, T5.
  assert (Vals : forall m, attribute_value h3 i m = lookup_attr h1 ats' m).
  { intro m. rewrite attribute_value_lookup, A3. apply lookup_same'. auto. }
  assert (Vals0 : forall m, attribute_value h i m = lookup_attr h1 ats m).
  { intro m. rewrite attribute_value_lookup, <- A0. symmetry. apply lookup_same'. auto. }
  assert (Names3 : attr_names h3 i = map (fun a => n_name (get h1 a)) ats').
  { unfold attr_names. rewrite A3. apply map_ext_in. intros a Ha. apply NV. auto. }
  assert (Names0 : attr_names h i = map (fun a => n_name (get h1 a)) ats).
  { unfold attr_names. rewrite <- A0. apply map_ext_in. intros a Ha. symmetry. apply NV1. auto. }
  pose proof (find_attr_spec h1 ats n) as F.
  change (find_attribute_index h1 i n) with (find_attr h1 ats n) in ats'.
  split; [apply heap_ok_order; auto|].
  assert (Main : lookup_attr h1 ats' n = Some v /\
                 (forall m, m <> n -> lookup_attr h1 ats' m = lookup_attr h1 ats m) /\
                 map (fun a => n_name (get h1 a)) ats' =
                 names_after_set n (map (fun a => n_name (get h1 a)) ats)).
  { unfold ats', names_after_set. destruct (find_attr h1 ats n) as [k|].
    - destruct F as [a [l [r0 [E [-> [Ea Hl]]]]]]. rewrite E, vec_replace. split; [|split].
      + rewrite lookup_app_none by auto. cbn [lookup_attr]. rewrite GN. cbn. rewrite str_eqb_refl. reflexivity.
      + intros m Hm. rewrite !lookup_skip; auto; [congruence|]. rewrite GN. cbn. auto.
      + replace (existsb (str_eqb n) (map (fun a0 => n_name (get h1 a0)) (l ++ a :: r0))) with true.
        * rewrite !map_app. cbn [map]. rewrite GN, Ea. reflexivity.
        * symmetry. apply existsb_names. apply in_map_iff. exists a. split; auto.
          apply in_or_app. simpl. auto.
    - split; [|split].
      + rewrite lookup_app_none by auto. cbn [lookup_attr]. rewrite GN. cbn. rewrite str_eqb_refl. reflexivity.
      + intros m Hm. rewrite lookup_skip by (rewrite GN; cbn; auto). rewrite app_nil_r. reflexivity.
      + replace (existsb (str_eqb n) (map (fun a0 => n_name (get h1 a0)) ats)) with false.
        * rewrite map_app. cbn [map]. rewrite GN. reflexivity.
        * symmetry. apply not_true_is_false. intro Hx. apply existsb_names in Hx.
          apply in_map_iff in Hx. destruct Hx as [a [Ea Ha]]. rewrite Forall_forall in F.
          apply (F a Ha). auto. }
  destruct Main as [M1 [M2 M3]].
  split; [rewrite Vals; exact M1|]. split; [intros m Hm; rewrite Vals, Vals0; auto|].
  split; [rewrite Names3, Names0; exact M3|].
  unfold children, parent. repeat split; auto.
  all: try (intros j Hj Hne).
  all: destruct (S3 j) as [X1 [X2 [X3 [X4 [X5 X6]]]]];
       assert (Ej : get h2 j = get h j) by (unfold h2; rewrite get_upd_other by congruence; apply G1; auto);
       rewrite Ej in *; assumption.
Qed.

Lemma remove_first_mid : forall n l r, ~ In n l -> remove_first n (l ++ n :: r) = l ++ r.
Proof.
  intros n l r H. induction l as [|m l IH]; cbn [app remove_first].
  - rewrite str_eqb_refl. reflexivity.
  - destruct (str_eqb n m) eqn:E; [apply str_eqb_eq in E; subst; exfalso; apply H; simpl; auto|].
    rewrite IH; auto. intro. apply H. simpl; auto.
Qed.
Lemma remove_first_none : forall n l, ~ In n l -> remove_first n l = l.
Proof.
  intros n l H. induction l as [|m l IH]; auto. cbn [remove_first].
  destruct (str_eqb n m) eqn:E; [apply str_eqb_eq in E; subst; exfalso; apply H; simpl; auto|].
  rewrite IH; auto. intro. apply H. simpl; auto.
Qed.

Lemma lookup_none : forall h l n, ~ In n (map (fun a => n_name (get h a)) l) -> lookup_attr h l n = None.
Proof.
  intros h l n H. induction l as [|a l IH]; auto. cbn [lookup_attr].
  destruct (str_eqb (n_name (get h a)) n) eqn:E.
  - apply str_eqb_eq in E. exfalso. apply H. simpl. auto.
  - apply IH. intro. apply H. simpl. auto.
Qed.

Theorem delete_attribute_spec : forall h i n, heap_ok h -> i < List.length h ->
  exists h', delete_attribute h i n = Ok h' /\ heap_ok h' /\
    (NoDup (attr_names h i) -> attribute_value h' i n = None) /\
    (forall m, m <> n -> attribute_value h' i m = attribute_value h i m) /\
    attr_names h' i = remove_first n (attr_names h i) /\
    children h' i = children h i /\ parent h' i = parent h i /\
    n_type (get h' i) = n_type (get h i) /\ n_name (get h' i) = n_name (get h i) /\
    n_value (get h' i) = n_value (get h i) /\
    unchanged_except h h' (fun j => j = i).
Proof.
  intros h i n H Hi. unfold delete_attribute.
  set (ats := n_attrs (get h i)).
  assert (AL : forall a, In a ats -> a < List.length h).
  { intros a Ha. eapply heap_ok_attr_lt; eauto. }
  set (ats' := match find_attribute_index h i n with
               | Some k => vec_remove k ats
               | None => ats
               end).
  set (h2 := match find_attribute_index h i n with
             | Some k => upd h i (set_attrs (vec_remove k ats))
             | None => h
             end).
  assert (AL' : forall a, In a ats' -> In a ats).
  { intros a Ha. unfold ats' in Ha. destruct (find_attribute_index h i n); auto.
    apply In_vec_remove in Ha. auto. }
  assert (E2 : h2 = upd h i (set_attrs ats')).
  { unfold h2, ats'. destruct (find_attribute_index h i n); auto.
    clear. assert (forall h i, upd h i (set_attrs (n_attrs (get h i))) = h) as Q.
    { unfold get. clear. induction h as [|n h IH]; intros [|i]; cbn [upd nth]; auto.
      - f_equal. destruct n; reflexivity.
      - f_equal. apply IH. }
    symmetry. apply Q. }
  assert (O2 : heap_ok h2) by (rewrite E2; apply heap_ok_attrs; auto).
  assert (L2 : List.length h2 = List.length h) by (rewrite E2; apply upd_length).
  destruct (clear_order_ok h2 i O2 ltac:(lia)) as [r [EC [Lr _]]].
  exists (upd h2 r (set_order 0)). split; [exact EC|].
  set (h3 := upd h2 r (set_order 0)).
  assert (S3 : forall j, same_node (get h3 j) (get h2 j)) by (intro; apply get_upd_order).
  assert (G2 : get h2 i = set_attrs ats' (get h i)).
  { rewrite E2, get_upd_same by auto. reflexivity. }
  assert (NV : forall a, In a ats' -> n_name (get h3 a) = n_name (get h a) /\
                                     n_value (get h3 a) = n_value (get h a)).
  { intros a Ha. destruct (S3 a) as [_ [E3 [E4 _]]]. rewrite E3, E4, E2.
    apply same_but_lists_get. auto. }
  assert (A3 : attributes h3 i = ats').
  { unfold attributes. destruct (S3 i) as [_ [_ [_ [_ [_ E]]]]]. rewrite E, G2. reflexivity. }
  destruct (S3 i) as [T1 [T2 [T3 [T4 [T5 T6]]]]]. rewrite G2 in T1, T2, T3, T4, T5. cbn in T1, T2, T3, T4, T5.
  assert (Vals : forall m, attribute_value h3 i m = lookup_attr h ats' m).
  { intro m. rewrite attribute_value_lookup, A3. apply lookup_same'. auto. }
  assert (Names3 : attr_names h3 i = map (fun a => n_name (get h a)) ats').
  { unfold attr_names. rewrite A3. apply map_ext_in. intros a Ha. apply NV. auto. }
  assert (Names0 : attr_names h i = map (fun a => n_name (get h a)) ats) by reflexivity.
  pose proof (find_attr_spec h ats n) as F.
  change (find_attribute_index h i n) with (find_attr h ats n) in ats'.
  split; [apply heap_ok_order; auto|].
  assert (Main : (NoDup (map (fun a => n_name (get h a)) ats) -> lookup_attr h ats' n = None) /\
                 (forall m, m <> n -> lookup_attr h ats' m = lookup_attr h ats m) /\
                 map (fun a => n_name (get h a)) ats' =
                 remove_first n (map (fun a => n_name (get h a)) ats)).
  { unfold ats'. destruct (find_attr h ats n) as [k|].
    - destruct F as [a [l [r0 [E [-> [Ea Hl]]]]]]. rewrite E, vec_remove_mid.
      assert (Hl' : ~ In n (map (fun b => n_name (get h b)) l)).
      { intro Hin. apply in_map_iff in Hin. destruct Hin as [b [Eb Hb]].
        rewrite Forall_forall in Hl. apply (Hl b Hb). auto. }
      split; [|split].
      + intro Nd. apply lookup_none. rewrite map_app in *. cbn [map] in Nd.
        apply NoDup_remove_2 in Nd. rewrite Ea in Nd. exact Nd.
      + intros m Hm. symmetry. apply lookup_skip. congruence.
      + rewrite !map_app. cbn [map]. rewrite Ea. rewrite remove_first_mid; auto.
    - assert (Hn : ~ In n (map (fun b => n_name (get h b)) ats)).
      { intro Hin. apply in_map_iff in Hin. destruct Hin as [b [Eb Hb]].
        rewrite Forall_forall in F. apply (F b Hb). auto. }
      split; [|split]; auto.
      + intros _. apply lookup_none. auto.
      + rewrite remove_first_none; auto. }
  destruct Main as [M1 [M2 M3]].
  split; [intro Nd; rewrite Vals; apply M1; exact Nd|].
  split; [intros m Hm; rewrite Vals, attribute_value_lookup; auto|].
  split; [rewrite Names3, Names0; exact M3|].
  unfold children, parent. repeat split; auto.
  all: try (intros j Hj Hne).
  all: destruct (S3 j) as [X1 [X2 [X3 [X4 [X5 X6]]]]];
       assert (Ej : get h2 j = get h j) by (rewrite E2, get_upd_other by congruence; auto);
       rewrite Ej in *; assumption.
Qed.

(* ---------------- children ---------------- *)
Lemma find_index_mid : forall l x r, ~ In x l -> find_index x (l ++ x :: r) = Some (List.length l).
Proof.
  intros l x r H. induction l as [|y l IH]; cbn [app find_index].
  - rewrite Nat.eqb_refl. reflexivity.
  - destruct (Nat.eqb_spec y x); [subst; exfalso; apply H; simpl; auto|]. rewrite IH; auto.
    intro. apply H. simpl; auto.
Qed.
Lemma find_index_none : forall l x, ~ In x l -> find_index x l = None.
Proof.
  intros l x H. induction l as [|y l IH]; auto. cbn [find_index].
  destruct (Nat.eqb_spec y x); [subst; exfalso; apply H; simpl; auto|]. rewrite IH; auto.
  intro. apply H. simpl; auto.
Qed.

Theorem append_child_spec : forall h p c, heap_ok h -> p < List.length h -> c < List.length h ->
  exists h', append_child h p c = Ok h' /\ heap_ok h' /\
    children h' p = children h p ++ [c] /\ attributes h' p = attributes h p /\
    parent h' c = parent h c /\
    unchanged_except h h' (fun j => j = p).
Proof.
  intros h p c H Hp Hc. unfold append_child.
  set (h2 := upd h p (set_children (n_children (get h p) ++ [c]))).
  assert (O2 : heap_ok h2).
  { apply heap_ok_children; auto. intros x Hx. apply in_app_or in Hx. destruct Hx as [Hx|[<-|[]]]; auto.
    eapply heap_ok_child_lt; eauto. }
  assert (L2 : List.length h2 = List.length h) by apply upd_length.
  destruct (clear_order_ok h2 p O2 ltac:(lia)) as [r [EC [Lr _]]].
  exists (upd h2 r (set_order 0)). split; [exact EC|].
  assert (S3 : forall j, same_node (get (upd h2 r (set_order 0)) j) (get h2 j)) by (intro; apply get_upd_order).
  assert (G2 : get h2 p = set_children (n_children (get h p) ++ [c]) (get h p)).
  { unfold h2. rewrite get_upd_same by auto. reflexivity. }
  assert (U : unchanged_except h (upd h2 r (set_order 0)) (fun j => j = p)).
  { intros j Hj Hne. eapply same_node_trans; [apply S3|]. unfold h2. rewrite get_upd_other by congruence.
    apply same_node_refl. }
  split; [apply heap_ok_order; auto|]. unfold children, attributes, parent.
  destruct (S3 p) as [T1 [T2 [T3 [T4 [T5 T6]]]]]. rewrite G2 in T4, T5, T6. cbn in T4, T5, T6.
  split; [exact T5|]. split; [exact T6|]. split; [|exact U].
  destruct (Nat.eq_dec c p) as [->|Hn]; [exact T4|]. apply (U c Hc Hn).
Qed.

Theorem delete_child_spec : forall h p c, heap_ok h -> p < List.length h ->
  exists h', delete_child h p c = Ok h' /\ heap_ok h' /\
    (forall l r, children h p = l ++ c :: r -> ~ In c l -> children h' p = l ++ r) /\
    (~ In c (children h p) -> children h' p = children h p) /\
    attributes h' p = attributes h p /\ parent h' p = parent h p /\
    unchanged_except h h' (fun j => j = p).
Proof.
  intros h p c H Hp. unfold delete_child, find_child_index.
  set (cs := n_children (get h p)).
  set (cs' := match find_index c cs with Some n => vec_remove n cs | None => cs end).
  set (h2 := match find_index c cs with
             | Some n => upd h p (set_children (vec_remove n cs))
             | None => h
             end).
  assert (E2 : h2 = upd h p (set_children cs')).
  { unfold h2, cs'. destruct (find_index c cs); auto.
    assert (forall h i, upd h i (set_children (n_children (get h i))) = h) as Q.
    { unfold get. clear. induction h as [|n h IH]; intros [|i]; cbn [upd nth]; auto.
      - f_equal. destruct n; reflexivity.
      - f_equal. apply IH. }
    symmetry. apply Q. }
  assert (O2 : heap_ok h2).
  { rewrite E2. apply heap_ok_children; auto. intros x Hx. unfold cs' in Hx.
    destruct (find_index c cs); [apply In_vec_remove in Hx|]; eapply heap_ok_child_lt; eauto. }
  assert (L2 : List.length h2 = List.length h) by (rewrite E2; apply upd_length).
  destruct (clear_order_ok h2 p O2 ltac:(lia)) as [r [EC [Lr _]]].
  exists (upd h2 r (set_order 0)). split; [exact EC|].
  assert (S3 : forall j, same_node (get (upd h2 r (set_order 0)) j) (get h2 j)) by (intro; apply get_upd_order).
  assert (G2 : get h2 p = set_children cs' (get h p)).
  { rewrite E2, get_upd_same by auto. reflexivity. }
  split; [apply heap_ok_order; auto|]. unfold children, attributes, parent.
  destruct (S3 p) as [T1 [T2 [T3 [T4 [T5 T6]]]]]. rewrite G2 in T4, T5, T6. cbn in T4, T5, T6.
  rewrite T4, T5, T6. repeat split; auto.
  - intros l r0 E Hl. unfold cs'. unfold cs. rewrite E, find_index_mid by auto. apply vec_remove_mid.
  - intro Hn. unfold cs'. rewrite find_index_none; auto.
  - apply (same_node_trans _ _ _ (S3 j)). rewrite E2, get_upd_other by congruence. apply same_node_refl.
  - apply (same_node_trans _ _ _ (S3 j)). rewrite E2, get_upd_other by congruence. apply same_node_refl.
  - apply (same_node_trans _ _ _ (S3 j)). rewrite E2, get_upd_other by congruence. apply same_node_refl.
  - apply (same_node_trans _ _ _ (S3 j)). rewrite E2, get_upd_other by congruence. apply same_node_refl.
  - apply (same_node_trans _ _ _ (S3 j)). rewrite E2, get_upd_other by congruence. apply same_node_refl.
  - apply (same_node_trans _ _ _ (S3 j)). rewrite E2, get_upd_other by congruence. apply same_node_refl.
Qed.

Lemma vec_insert_at : forall (A : Type) (l r : list A) x, vec_insert (List.length l) x (l ++ r) = l ++ x :: r.
Proof.
  intros. unfold vec_insert. rewrite firstn_app, Nat.sub_diag, firstn_all, skipn_app, Nat.sub_diag, skipn_all.
  simpl. rewrite app_nil_r. reflexivity.
Qed.

(* one insertion: delta = 0 before, delta = 1 after the receiver *)
Theorem insert_sibling_spec : forall delta h i p x l r, delta <= 1 ->
  heap_ok h -> parent h i = Some p -> children h p = l ++ i :: r -> ~ In i l ->
  x < List.length h -> x <> p ->
  exists h', insert_as_sibling delta h i x = Ok h' /\ heap_ok h' /\
    List.length h' = S (List.length h) /\
    children h' p = (if Nat.eqb delta 0 then l ++ [List.length h; i] else l ++ [i; List.length h]) ++ r /\
    attributes h' p = attributes h p /\ parent h' p = parent h p /\
    (let c := get h' (List.length h) in
     n_type c = n_type (get h x) /\ n_name c = n_name (get h x) /\ n_value c = n_value (get h x) /\
     n_children c = n_children (get h x) /\ n_attrs c = n_attrs (get h x) /\ n_parent c = Some p) /\
    unchanged_except h h' (fun j => j = p).
Proof.
  intros delta h i p x l r Hd H Epar Ech Hl Hx Hxp.
  destruct (heap_ok_parent h i p H Epar) as [Hpi Hi].
  assert (Hp : p < List.length h) by lia.
  unfold insert_as_sibling. rewrite Epar. unfold find_child_index.
  change (n_children (get h p)) with (children h p). rewrite Ech, find_index_mid by auto.
  unfold make_new_child_rc_node, make_new_rc_node.
  set (new := mkNode (n_type (get h x)) 0 (n_name (get h x)) (n_value (get h x)) (Some p) [] []).
  set (h1 := h ++ [new]).
  assert (L1 : List.length h1 = S (List.length h)) by (unfold h1; rewrite app_length; simpl; lia).
  assert (G1 : forall j, j < List.length h -> get h1 j = get h j) by (intros; apply get_app_old; auto).
  assert (GN : get h1 (List.length h) = new) by apply get_app_new.
  assert (O1 : heap_ok h1) by (apply heap_ok_alloc; auto).
  rewrite (G1 p Hp). change (n_children (get h p)) with (children h p). rewrite Ech.
  set (cs' := if Nat.leb (List.length l + delta) (List.length (l ++ i :: r))
              then vec_insert (List.length l + delta) (List.length h) (l ++ i :: r)
              else (l ++ i :: r) ++ [List.length h]).
  assert (Ecs : cs' = (if Nat.eqb delta 0 then l ++ [List.length h; i] else l ++ [i; List.length h]) ++ r).
  { unfold cs'. replace (Nat.leb (List.length l + delta) (List.length (l ++ i :: r))) with true
      by (symmetry; apply Nat.leb_le; rewrite app_length; simpl; lia).
    destruct delta as [|[|?]]; [| |lia]; cbn [Nat.eqb].
    - rewrite Nat.add_0_r, vec_insert_at, <- app_assoc. reflexivity.
    - replace (List.length l + 1) with (List.length (l ++ [i])) by (rewrite app_length; reflexivity).
      replace (l ++ i :: r) with ((l ++ [i]) ++ r) by (rewrite <- app_assoc; reflexivity).
      rewrite vec_insert_at, <- !app_assoc. reflexivity. }
  set (h2 := upd h1 p (set_children cs')).
  assert (L2 : List.length h2 = S (List.length h)) by (unfold h2; rewrite upd_length; auto).
  assert (O2 : heap_ok h2).
  { apply heap_ok_children; auto. rewrite L1. intros c Hc. rewrite Ecs in Hc.
    assert (Hin : c = List.length h \/ In c (children h p)).
    { rewrite Ech. destruct (Nat.eqb delta 0); repeat (apply in_app_or in Hc; destruct Hc as [Hc|Hc]);
        simpl in *; rewrite in_app_iff; simpl; intuition. }
    destruct Hin as [->|Hin]; [lia|]. apply (heap_ok_child_lt h p c H) in Hin. lia. }
  assert (G2n : get h2 (List.length h) = new) by (unfold h2; rewrite get_upd_other by lia; auto).
  assert (G2x : get h2 x = get h x) by (unfold h2; rewrite get_upd_other by congruence; auto).
  unfold shallow_copy_rc_rels. rewrite G2x, G2n. cbn [n_children app new].
  set (h3 := upd h2 (List.length h) (set_children (n_children (get h x)))).
  assert (L3 : List.length h3 = S (List.length h)) by (unfold h3; rewrite upd_length; auto).
  assert (O3 : heap_ok h3).
  { apply heap_ok_children; auto. intros c Hc. apply (heap_ok_child_lt h x c H) in Hc. lia. }
  assert (G3n : get h3 (List.length h) = set_children (n_children (get h x)) new).
  { unfold h3. rewrite get_upd_same by lia. rewrite G2n. reflexivity. }
  rewrite G3n. cbn [set_children n_attrs new app].
  set (h4 := upd h3 (List.length h) (set_attrs (n_attrs (get h x)))).
  assert (L4 : List.length h4 = S (List.length h)) by (unfold h4; rewrite upd_length; auto).
  assert (O4 : heap_ok h4).
  { apply heap_ok_attrs; auto. intros c Hc. apply (heap_ok_attr_lt h x c H) in Hc. lia. }
  destruct (clear_order_ok h4 i O4 ltac:(lia)) as [rt [EC [Lr _]]].
  exists (upd h4 rt (set_order 0)). split; [exact EC|].
  assert (S5 : forall j, same_node (get (upd h4 rt (set_order 0)) j) (get h4 j)) by (intro; apply get_upd_order).
  assert (G4n : get h4 (List.length h) = set_attrs (n_attrs (get h x)) (set_children (n_children (get h x)) new)).
  { unfold h4. rewrite get_upd_same by lia. rewrite G3n. reflexivity. }
  assert (G4 : forall j, j < List.length h -> get h4 j = get h2 j).
  { intros j Hj. unfold h4, h3. rewrite !get_upd_other by lia. reflexivity. }
  split; [apply heap_ok_order; auto|]. split; [rewrite upd_length; auto|].
  unfold children, attributes, parent.
  destruct (S5 p) as [T1 [T2 [T3 [T4 [T5 T6]]]]]. rewrite G4 in T4, T5, T6 by auto.
  unfold h2 in T4, T5, T6. rewrite get_upd_same in T4, T5, T6 by lia. cbn in T4, T5, T6.
  rewrite G1 in T4, T6 by auto. rewrite T4, T5, T6.
  split; [exact Ecs|]. split; [reflexivity|]. split; [reflexivity|]. split.
  - destruct (S5 (List.length h)) as [X1 [X2 [X3 [X4 [X5 X6]]]]]. rewrite G4n in *. cbn in *. auto 10.
  - intros j Hj Hne. eapply same_node_trans; [apply S5|]. rewrite G4 by auto. unfold h2.
    rewrite get_upd_other by congruence. rewrite G1 by auto. apply same_node_refl.
Qed.

Theorem replace_with_spec : forall h i p x l r,
  heap_ok h -> parent h i = Some p -> children h p = l ++ i :: r -> ~ In i l ->
  x < List.length h -> x <> p ->
  exists h', replace_with h i x = Ok h' /\ heap_ok h' /\
    List.length h' = S (List.length h) /\
    children h' p = l ++ List.length h :: r /\
    attributes h' p = attributes h p /\ parent h' p = parent h p /\
    (let c := get h' (List.length h) in
     n_type c = n_type (get h x) /\ n_name c = n_name (get h x) /\ n_value c = n_value (get h x) /\
     n_children c = n_children (get h x) /\ n_attrs c = n_attrs (get h x) /\ n_parent c = Some p) /\
    unchanged_except h h' (fun j => j = p).
Proof.
  intros h i p x l r H Epar Ech Hl Hx Hxp.
  destruct (heap_ok_parent h i p H Epar) as [Hpi Hi]. assert (Hp : p < List.length h) by lia.
  destruct (insert_sibling_spec 0 h i p x l r ltac:(lia) H Epar Ech Hl Hx Hxp)
    as [h1 [E1 [O1 [L1 [C1 [A1 [P1 [N1 U1]]]]]]]].
  cbn [Nat.eqb] in C1. rewrite <- app_assoc in C1. cbn [app] in C1.
  destruct (delete_child_spec h1 p i O1 ltac:(lia)) as [h2 [E2 [O2 [C2 [_ [A2 [P2 U2]]]]]]].
  assert (L2 : List.length h2 = List.length h1).
  { unfold delete_child, clear_document_order in E2.
    destruct (root _ _) as [rt|?| |] in E2; try discriminate. cbn in E2. injection E2 as <-.
    rewrite upd_length. destruct (find_child_index h1 p i); rewrite ?upd_length; auto. }
  destruct (clear_order_ok h2 i O2 ltac:(lia)) as [rt [EC [Lr _]]].
  unfold replace_with. rewrite Epar. unfold insert_as_previous_sibling. rewrite E1. cbn [bind].
  rewrite E2. cbn [bind]. exists (upd h2 rt (set_order 0)). split; [exact EC|].
  assert (S3 : forall j, same_node (get (upd h2 rt (set_order 0)) j) (get h2 j)) by (intro; apply get_upd_order).
  split; [apply heap_ok_order; auto|]. split; [rewrite upd_length; lia|].
  destruct (S3 p) as [T1 [T2 [T3 [T4 [T5 T6]]]]].
  specialize (C2 (l ++ [List.length h]) r).
  rewrite <- !app_assoc in C2. cbn [app] in C2. specialize (C2 C1).
  assert (Hni : ~ In i (l ++ [List.length h])).
  { intro Hin. apply in_app_or in Hin. destruct Hin as [Hin|[Hin|[]]]; auto. lia. }
  specialize (C2 Hni).
  unfold children, attributes, parent in *. rewrite T4, T5, T6.
  split; [exact C2|]. split; [congruence|]. split; [congruence|]. split.
  - destruct (U2 (List.length h) ltac:(lia) ltac:(cbv beta; lia)) as [X1 [X2 [X3 [X4 [X5 X6]]]]].
    destruct (S3 (List.length h)) as [Y1 [Y2 [Y3 [Y4 [Y5 Y6]]]]].
    destruct N1 as [Z1 [Z2 [Z3 [Z4 [Z5 Z6]]]]].
    cbv zeta. rewrite Y1, Y2, Y3, Y4, Y5, Y6, X1, X2, X3, X4, X5, X6. auto 10.
  - intros j Hj Hne. eapply same_node_trans; [apply S3|].
    eapply same_node_trans; [apply U2; auto; lia|]. apply U1; auto.
Qed.

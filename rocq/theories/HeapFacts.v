(* Lemmas about the node heap, trees in it, and contexts (a tree with a hole). *)
Require Import Bool List NArith ZArith Ascii String Lia.
From Verif Require Import Str StrFacts Chars Sax Dom SpecTree.
Import ListNotations.
Open Scope nat_scope.

(* ---------------- heap cells ---------------- *)
Lemma upd_length : forall h i f, List.length (upd h i f) = List.length h.
Proof. induction h; destruct i; simpl; intros; auto. Qed.

Lemma get_upd_same : forall h i f, i < List.length h -> get (upd h i f) i = f (get h i).
Proof.
  unfold get. induction h; intros i f H; simpl in H; [lia|].
  destruct i; simpl; auto. apply IHh. lia.
Qed.

Lemma get_upd_other : forall h i j f, i <> j -> get (upd h i f) j = get h j.
Proof.
  unfold get. induction h; intros i j f H; simpl; auto.
  destruct i, j; simpl; auto; try congruence. all: apply IHh; lia.
Qed.

Lemma upd_out : forall h i f, List.length h <= i -> upd h i f = h.
Proof.
  induction h; intros i f H; simpl in *; auto. destruct i; [lia|]. f_equal. apply IHh. lia.
Qed.

Lemma get_app_old : forall h k i, i < List.length h -> get (h ++ k) i = get h i.
Proof. unfold get. intros. apply app_nth1. auto. Qed.

Lemma get_app_new : forall h n, get (h ++ [n]) (List.length h) = n.
Proof. unfold get. intros. rewrite app_nth2, Nat.sub_diag; auto. Qed.

Lemma get_out : forall h i, List.length h <= i -> get h i = dummy_node.
Proof. intros. unfold get. apply nth_overflow. auto. Qed.

Lemma upd_upd : forall h i f g, upd (upd h i f) i g = upd h i (fun n => g (f n)).
Proof. induction h; destruct i; simpl; intros; auto. f_equal. auto. Qed.

Lemma upd_ext : forall h i f g, (i < List.length h -> f (get h i) = g (get h i)) -> upd h i f = upd h i g.
Proof.
  unfold get. induction h; intros i f g H; simpl; auto. destruct i; simpl in *.
  - f_equal. apply H. lia.
  - f_equal. apply IHh. intros. apply H. lia.
Qed.

(* ---------------- induction on trees ---------------- *)
Lemma tree_ind' : forall (P : tree -> Prop),
  (forall i ty nm v ats ks, Forall P ks -> P (T i ty nm v ats ks)) -> forall t, P t.
Proof.
  intros P H. fix IH 1. intros [i ty nm v ats ks]. apply H.
  induction ks; constructor; auto.
Qed.

Lemma xtree_ind' : forall (P : xtree -> Prop),
  (forall ty nm v ats ks, Forall P ks -> P (X ty nm v ats ks)) -> forall t, P t.
Proof.
  intros P H. fix IH 1. intros [ty nm v ats ks]. apply H.
  induction ks; constructor; auto.
Qed.

Lemma rep_inv : forall h par i ty nm v ats ks,
  rep h par (T i ty nm v ats ks) ->
  exists o, i < List.length h /\
    get h i = mkNode ty o nm v par (map tid ks) (map fst ats) /\
    Forall (attr_rep h i) ats /\ Forall (rep h (Some i)) ks.
Proof. intros. inversion H; subst. exists o. auto. Qed.

Lemma rep_get : forall h par t, rep h par t ->
  exists o, tid t < List.length h /\
    get h (tid t) = mkNode (tty t) o (tname t) (tvalue t) par (map tid (tkids t)) (map fst (tattrs t))
    /\ Forall (attr_rep h (tid t)) (tattrs t) /\ Forall (rep h (Some (tid t))) (tkids t).
Proof. intros h par [i ty nm v ats ks] H. apply rep_inv in H. exact H. Qed.

Lemma rep_bound : forall h par t, rep h par t -> forall i, In i (ids t) -> i < List.length h.
Proof.
  intros h par t. revert par. induction t as [i ty nm v ats ks IH] using tree_ind'.
  intros par H j Hj. apply rep_inv in H. destruct H as [o [Hi [Hg [Ha Hk]]]].
  simpl in Hj. destruct Hj as [<-|Hj]; auto.
  apply in_app_or in Hj. destruct Hj as [Hj|Hj].
  - apply in_map_iff in Hj. destruct Hj as [a [<- Hin]].
    rewrite Forall_forall in Ha. apply Ha in Hin. apply Hin.
  - apply in_flat_map in Hj. destruct Hj as [k [Hin Hj]].
    rewrite Forall_forall in IH, Hk. eapply IH; eauto.
Qed.

(* a tree only depends on its own cells *)
Lemma rep_frame : forall h h' par t, rep h par t ->
  List.length h <= List.length h' ->
  (forall i, In i (ids t) -> get h' i = get h i) ->
  rep h' par t.
Proof.
  intros h h' par t. revert par. induction t as [i ty nm v ats ks IH] using tree_ind'.
  intros par H Hlen Hsame. apply rep_inv in H. destruct H as [o [Hi [Hg [Ha Hk]]]].
  econstructor.
  - lia.
  - rewrite Hsame by (simpl; auto). exact Hg.
  - rewrite Forall_forall in *. intros a Hin. destruct (Ha a Hin) as [Hb [o' Ho]].
    split; [lia|]. exists o'. rewrite Hsame; auto. simpl. right. apply in_or_app. left.
    apply in_map. auto.
  - rewrite Forall_forall in *. intros k Hin. apply IH; auto.
    intros j Hj. apply Hsame. simpl. right. apply in_or_app. right. apply in_flat_map. eauto.
Qed.

(* trees do not care about document-order numbers *)
Definition same_but_order (a b : node) : Prop := set_order 0 a = set_order 0 b.

Lemma same_but_order_mk : forall n ty o nm v p c a,
  same_but_order n (mkNode ty o nm v p c a) -> exists o2, n = mkNode ty o2 nm v p c a.
Proof.
  intros [y o2 n2 v2 p2 c2 a2] ty o nm v p c a E. unfold same_but_order in E.
  cbv [set_order n_type n_name n_value n_parent n_children n_attrs] in E.
  injection E as -> -> -> -> -> ->. eauto.
Qed.

Lemma rep_order : forall h h' par t, rep h par t ->
  List.length h <= List.length h' ->
  (forall i, In i (ids t) -> same_but_order (get h' i) (get h i)) ->
  rep h' par t.
Proof.
  intros h h' par t. revert par. induction t as [i ty nm v ats ks IH] using tree_ind'.
  intros par H Hlen Hsame. apply rep_inv in H. destruct H as [o [Hi [Hg [Ha Hk]]]].
  pose proof (Hsame i (or_introl eq_refl)) as E. rewrite Hg in E.
  apply same_but_order_mk in E. destruct E as [o2 E2].
  eapply rep_T with (o := o2).
  - lia.
  - exact E2.
  - rewrite Forall_forall in *. intros a Hin. destruct (Ha a Hin) as [Hb [o' Ho]].
    split; [lia|].
    assert (Hia : In (fst a) (ids (T i ty nm v ats ks))).
    { simpl. right. apply in_or_app. left. apply in_map. auto. }
    pose proof (Hsame _ Hia) as E. rewrite Ho in E. apply same_but_order_mk in E. exact E.
  - rewrite Forall_forall in *. intros k Hin. apply IH; auto.
    intros j Hj. apply Hsame. simpl. right. apply in_or_app. right. apply in_flat_map. eauto.
Qed.

(* ---------------- contexts ---------------- *)
Record frame := Fr {
  f_id : nat; f_ty : node_type; f_nm : str; f_v : str;
  f_ats : list (nat * (str * str)); f_left : list tree; f_right : list tree }.

Definition plug (f : frame) (t : tree) : tree :=
  T (f_id f) (f_ty f) (f_nm f) (f_v f) (f_ats f) (f_left f ++ t :: f_right f).
(* innermost frame first *)
Fixpoint fill (fs : list frame) (t : tree) : tree :=
  match fs with
  | [] => t
  | f :: fs' => fill fs' (plug f t)
  end.

(* the cells of a context, split into those before and after the hole in preorder *)
Definition frame_before (f : frame) : list nat :=
  f_id f :: map fst (f_ats f) ++ flat_map ids (f_left f).
Definition frame_after (f : frame) : list nat := flat_map ids (f_right f).
Fixpoint ctx_before (fs : list frame) : list nat :=
  match fs with
  | [] => []
  | f :: fs' => ctx_before fs' ++ frame_before f
  end.
Fixpoint ctx_after (fs : list frame) : list nat :=
  match fs with
  | [] => []
  | f :: fs' => frame_after f ++ ctx_after fs'
  end.

Lemma ids_plug : forall f t, ids (plug f t) = frame_before f ++ ids t ++ frame_after f.
Proof.
  intros f t. unfold plug, frame_before, frame_after. simpl. f_equal.
  rewrite flat_map_app. simpl. rewrite <- !app_assoc. reflexivity.
Qed.

Lemma ids_fill : forall fs t, ids (fill fs t) = ctx_before fs ++ ids t ++ ctx_after fs.
Proof.
  induction fs as [|f fs IH]; intro t; simpl.
  - rewrite app_nil_r. reflexivity.
  - rewrite IH, ids_plug. rewrite <- !app_assoc. reflexivity.
Qed.

Lemma tid_fill_same : forall fs t t', tid t = tid t' -> tid (fill fs t) = tid (fill fs t').
Proof.
  induction fs as [|f fs IH]; intros t t' H; simpl; auto.
Qed.

Lemma NoDup_app_inv : forall (A : Type) (l r : list A), NoDup (l ++ r) ->
  NoDup l /\ NoDup r /\ (forall x, In x l -> ~ In x r).
Proof.
  intros A l r H. induction l as [|a l IH]; simpl in *.
  - repeat split; auto. constructor.
  - inversion H as [|? ? Hn Hd]; subst. destruct (IH Hd) as [H1 [H2 H3]].
    repeat split; auto.
    + constructor; auto. intro. apply Hn. apply in_or_app. auto.
    + intros x [<-|Hx] Hr.
      * apply Hn. apply in_or_app. auto.
      * eapply H3; eauto.
Qed.

Lemma NoDup_app : forall (A : Type) (l r : list A),
  NoDup l -> NoDup r -> (forall x, In x l -> ~ In x r) -> NoDup (l ++ r).
Proof.
  intros A l r Hl Hr Hd. induction l as [|a l IH]; simpl; auto.
  inversion Hl as [|? ? Hn Hl']; subst. constructor.
  - intro Hin. apply in_app_or in Hin. destruct Hin; [auto|]. eapply Hd; simpl; eauto.
  - apply IH; auto. intros x Hx. apply Hd. simpl; auto.
Qed.

(* replacing the subtree in the hole *)
Lemma rep_fill : forall fs h h' par t t',
  rep h par (fill fs t) ->
  List.length h <= List.length h' ->
  tid t = tid t' ->
  (forall i, In i (ctx_before fs ++ ctx_after fs) -> same_but_order (get h' i) (get h i)) ->
  (forall p, rep h p t -> rep h' p t') ->
  rep h' par (fill fs t').
Proof.
  induction fs as [|f fs IH]; intros h h' par t t' H Hlen Htid Hsame Hsub; simpl in *.
  - auto.
  - eapply IH; eauto.
    + intros i Hi. apply Hsame. apply in_app_or in Hi. apply in_or_app.
      destruct Hi as [Hi|Hi]; [left; apply in_or_app; auto | right; apply in_or_app; auto].
    + intros p Hp. unfold plug in *. apply rep_inv in Hp. destruct Hp as [o [Hi [Hg [Ha Hk]]]].
      apply Forall_app in Hk. destruct Hk as [Hl Hr]. inversion Hr as [|? ? Ht Hr']; subst.
      assert (Hin : forall i, In i (frame_before f ++ frame_after f) ->
                    same_but_order (get h' i) (get h i)).
      { intros i Hi'. apply Hsame. apply in_app_or in Hi'. apply in_or_app.
        destruct Hi' as [?|?]; [left|right]; apply in_or_app; auto. }
      assert (E0 : same_but_order (get h' (f_id f)) (get h (f_id f))).
      { apply Hin. apply in_or_app. left. left. reflexivity. }
      rewrite Hg in E0. apply same_but_order_mk in E0. destruct E0 as [o2 E2].
      eapply rep_T with (o := o2).
      * lia.
      * rewrite E2. rewrite !map_app. simpl. rewrite Htid. reflexivity.
      * rewrite Forall_forall in *. intros a Hia. destruct (Ha a Hia) as [Hb [o' Ho]].
        split; [lia|].
        assert (Hia' : In (fst a) (frame_before f ++ frame_after f)).
        { apply in_or_app. left. right. apply in_or_app. left. apply in_map. auto. }
        pose proof (Hin _ Hia') as E. rewrite Ho in E. apply same_but_order_mk in E. exact E.
      * apply Forall_app. split; [|constructor].
        -- rewrite Forall_forall in *. intros k Hk. apply rep_order with h; auto.
           intros j Hj. apply Hin. apply in_or_app. left. right. apply in_or_app. right.
           apply in_flat_map. eauto.
        -- apply Hsub. exact Ht.
        -- rewrite Forall_forall in *. intros k Hk. apply rep_order with h; auto.
           intros j Hj. apply Hin. apply in_or_app. right. apply in_flat_map. eauto.
Qed.

Lemma rep_fill_hole : forall fs h par t, rep h par (fill fs t) ->
  rep h (match fs with [] => par | f :: _ => Some (f_id f) end) t.
Proof.
  induction fs as [|f fs IH]; intros h par t H; simpl in *; auto.
  apply IH in H. unfold plug in H. apply rep_inv in H. destruct H as [o [Hi [Hg [Ha Hk]]]].
  apply Forall_app in Hk. destruct Hk as [_ Hk]. inversion Hk; auto.
Qed.

(* every non-attribute node is the root of a subtree in some context *)
Fixpoint node_ids (t : tree) : list nat :=
  match t with T i _ _ _ _ ks => i :: flat_map node_ids ks end.

Lemma node_ids_ids : forall t i, In i (node_ids t) -> In i (ids t).
Proof.
  induction t as [j ty nm v ats ks IH] using tree_ind'. intros i H. simpl in *.
  destruct H as [H|H]; auto. right. apply in_or_app. right.
  apply in_flat_map in H. destruct H as [k [Hk H]]. apply in_flat_map.
  rewrite Forall_forall in IH. eauto.
Qed.

Lemma fill_app : forall fs gs t, fill (fs ++ gs) t = fill gs (fill fs t).
Proof. induction fs; simpl; auto. Qed.

Lemma node_context : forall t i, In i (node_ids t) -> exists fs s, t = fill fs s /\ tid s = i.
Proof.
  induction t as [j ty nm v ats ks IH] using tree_ind'. intros i H. simpl in H.
  destruct H as [H|H].
  - exists [], (T j ty nm v ats ks). split; auto.
  - apply in_flat_map in H. destruct H as [k [Hk H]].
    apply in_split in Hk. destruct Hk as [l [r ->]].
    rewrite Forall_forall in IH. destruct (IH k) with (i := i) as [fs [s [E Es]]]; auto.
    { apply in_or_app. simpl; auto. }
    exists (fs ++ [Fr j ty nm v ats l r]), s. split; auto.
    rewrite fill_app, <- E. reflexivity.
Qed.

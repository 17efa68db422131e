(* Facts about well-linked documents: navigation by parent / children / attributes. *)
Require Import Bool List NArith ZArith Ascii String Lia.
From Verif Require Import Str StrFacts Chars Sax Dom SpecTree HeapFacts BuildFacts SaxFacts.
Import ListNotations.
Open Scope nat_scope.

Lemma ids_cases : forall t i, In i (ids t) ->
  (exists fs s, t = fill fs s /\ tid s = i) \/
  (exists fs s, t = fill fs s /\ In i (map fst (tattrs s))).
Proof.
  induction t as [j ty nm v ats ks IH] using tree_ind'. intros i H. simpl in H.
  destruct H as [H|H].
  - left. exists [], (T j ty nm v ats ks). auto.
  - apply in_app_or in H. destruct H as [H|H].
    + right. exists [], (T j ty nm v ats ks). auto.
    + apply in_flat_map in H. destruct H as [k [Hk H]]. pose proof Hk as Hk'.
      apply in_split in Hk'. destruct Hk' as [l [r E]].
      rewrite Forall_forall in IH.
      destruct (IH k Hk i H) as [[fs [s [E1 E2]]]|[fs [s [E1 E2]]]]; [left|right];
        exists (fs ++ [Fr j ty nm v ats l r]), s; (split; [|exact E2]);
        rewrite fill_app, <- E1; unfold plug; simpl; rewrite E; reflexivity.
Qed.

Definition hole_parent (fs : list frame) : option nat :=
  match fs with [] => None | f :: _ => Some (f_id f) end.

Lemma fill_get : forall h fs s, rep h None (fill fs s) ->
  exists o, tid s < List.length h /\
    get h (tid s) = mkNode (tty s) o (tname s) (tvalue s) (hole_parent fs)
                           (map tid (tkids s)) (map fst (tattrs s)) /\
    Forall (attr_rep h (tid s)) (tattrs s) /\ Forall (rep h (Some (tid s))) (tkids s).
Proof.
  intros h fs s H. apply rep_fill_hole in H. apply rep_get in H. exact H.
Qed.

Lemma fill_attr_get : forall h fs s a, rep h None (fill fs s) -> In a (map fst (tattrs s)) ->
  exists o n v, In (a, (n, v)) (tattrs s) /\ a < List.length h /\
     get h a = mkNode Attribute o n v (Some (tid s)) [] [].
Proof.
  intros h fs s a H Ha. destruct (fill_get h fs s H) as [o [_ [_ [Hat _]]]].
  apply in_map_iff in Ha. destruct Ha as [[a' [n v]] [<- Hin]].
  rewrite Forall_forall in Hat. destruct (Hat _ Hin) as [Hb [o' Ho]]. cbn [fst snd] in *.
  exists o', n, v. auto.
Qed.

Lemma fill_ids_in : forall fs s i, In i (ids s) -> In i (ids (fill fs s)).
Proof. intros. rewrite ids_fill. apply in_or_app. right. apply in_or_app. auto. Qed.

Lemma fill_kid : forall fs s k, In k (tkids s) -> exists f, fill fs s = fill (f :: fs) k /\ f_id f = tid s.
Proof.
  intros fs [i ty nm v ats ks] k H. simpl in H. apply in_split in H. destruct H as [l [r ->]].
  exists (Fr i ty nm v ats l r). split; reflexivity.
Qed.

Lemma map_tid_incl : forall ks c, In c (map tid ks) -> In c (flat_map ids ks).
Proof.
  intros ks c H. apply in_map_iff in H. destruct H as [k [<- Hk]]. apply in_flat_map.
  exists k. split; auto. apply tid_in_ids.
Qed.

Lemma NoDup_tids : forall ks, NoDup (flat_map ids ks) -> NoDup (map tid ks).
Proof.
  induction ks as [|k ks IH]; intro H; simpl in *; [constructor|].
  apply NoDup_app_inv in H. destruct H as [H1 [H2 H3]]. constructor; auto.
  intro Hin. apply map_tid_incl in Hin. apply (H3 (tid k)); auto. apply tid_in_ids.
Qed.

Lemma subtree_nodup : forall fs s, NoDup (ids (fill fs s)) -> NoDup (ids s).
Proof.
  intros fs s H. rewrite ids_fill in H. apply NoDup_app_inv in H. destruct H as [_ [H _]].
  apply NoDup_app_inv in H. tauto.
Qed.

Lemma frame_ids_in : forall fs s f, In f fs -> In (f_id f) (ctx_before fs) /\ In (f_id f) (ids (fill fs s)).
Proof.
  intros fs s f H. assert (A : In (f_id f) (ctx_before fs)).
  { clear s. induction fs as [|g fs IH]; [contradiction|]. simpl. apply in_or_app.
    destruct H as [->|H]; auto. right. simpl. auto. }
  split; auto. rewrite ids_fill. apply in_or_app. auto.
Qed.

Lemma fill_depth : forall fs s, List.length fs + 1 <= List.length (ids (fill fs s)).
Proof.
  induction fs as [|f fs IH]; intro s; simpl.
  - destruct s; simpl; lia.
  - rewrite ids_fill. rewrite !app_length. rewrite ids_plug. rewrite !app_length.
    specialize (IH s). rewrite ids_fill in IH. rewrite !app_length in IH.
    unfold frame_before. simpl. lia.
Qed.

Lemma tid_fill_app : forall fs g s s', tid (fill (fs ++ [g]) s) = tid (fill (fs ++ [g]) s').
Proof. intros. rewrite !fill_app. reflexivity. Qed.

(* the identity of the root: outermost frame, or the hole itself *)
Lemma root_loop_fill : forall fs h s fuel, rep h None (fill fs s) -> List.length fs < fuel ->
  root_loop fuel h (tid s) = Ok (tid (fill fs s)).
Proof.
  induction fs as [|f fs IH]; intros h s fuel H Hf.
  - destruct fuel; [simpl in Hf; lia|]. cbn [fill root_loop].
    destruct (fill_get h [] s H) as [o [_ [Hg _]]]. rewrite Hg. reflexivity.
  - destruct fuel; [simpl in Hf; lia|]. cbn [root_loop].
    destruct (fill_get h (f :: fs) s H) as [o [_ [Hg _]]]. rewrite Hg. cbn [n_parent hole_parent].
    change (f_id f) with (tid (plug f s)). simpl fill. apply IH; auto. simpl in Hf. lia.
Qed.

Lemma root_fill : forall h fs s, document h (fill fs s) -> root h (tid s) = Ok (tid (fill fs s)).
Proof.
  intros h fs s D. unfold root. apply root_loop_fill; [apply D|].
  pose proof (document_size _ _ D). pose proof (fill_depth fs s). lia.
Qed.

Lemma fill_depth_attr : forall fs s a, In a (map fst (tattrs s)) ->
  List.length fs + 2 <= List.length (ids (fill fs s)).
Proof.
  intros fs s a H. destruct s as [i ty nm v ats ks]. cbn [tattrs] in H.
  pose proof (fill_depth fs (T i ty nm v [] ks)) as D.
  rewrite ids_fill in *. rewrite !app_length in *. simpl in *. rewrite app_length.
  rewrite map_length. destruct ats; [contradiction|]. simpl. lia.
Qed.

Lemma root_fill_attr : forall h fs s a, document h (fill fs s) -> In a (map fst (tattrs s)) ->
  root h a = Ok (tid (fill fs s)).
Proof.
  intros h fs s a D Ha. unfold root. cbn [root_loop].
  destruct (fill_attr_get h fs s a (proj1 D) Ha) as [o [n [v [_ [_ Hg]]]]]. rewrite Hg.
  cbn [n_parent]. apply root_loop_fill; [apply D|].
  pose proof (document_size _ _ D). pose proof (fill_depth_attr fs s a Ha). lia.
Qed.

Lemma root_document : forall h t i, document h t -> In i (ids t) -> root h i = Ok (tid t).
Proof.
  intros h t i D Hi. destruct (ids_cases t i Hi) as [[fs [s [-> <-]]]|[fs [s [-> Ha]]]].
  - apply root_fill; auto.
  - eapply root_fill_attr; eauto.
Qed.

Theorem document_well_linked : forall h t, document h t -> well_linked h (tid t) (fun i => In i (ids t)).
Proof.
  intros h t D. pose proof D as [R Nd]. constructor.
  - split; [apply tid_in_ids|]. destruct (fill_get h [] t R) as [o [_ [Hg _]]].
    unfold parent. rewrite Hg. reflexivity.
  - intros p c Hp Hc. unfold children, attributes, parent in *.
    destruct (ids_cases t p Hp) as [[fs [s [-> <-]]]|[fs [s [-> Ha]]]].
    + destruct (fill_get h fs s R) as [o [_ [Hg [Hat Hks]]]]. rewrite Hg in Hc.
      cbn [n_children n_attrs] in Hc. apply in_app_or in Hc. destruct Hc as [Hc|Hc].
      * apply in_map_iff in Hc. destruct Hc as [k [<- Hk]].
        destruct (fill_kid fs s k Hk) as [f [E Ef]]. rewrite E in *.
        destruct (fill_get h (f :: fs) k R) as [o2 [_ [Hg2 _]]]. rewrite Hg2. split.
        -- apply fill_ids_in, tid_in_ids.
        -- cbn [n_parent hole_parent]. congruence.
      * split.
        -- apply fill_ids_in. destruct s. simpl in *. right. apply in_or_app. auto.
        -- destruct (fill_attr_get h fs s c R Hc) as [o2 [n [v [_ [_ Hg2]]]]]. rewrite Hg2. reflexivity.
    + destruct (fill_attr_get h fs s p R Ha) as [o [n [v [_ [_ Hg]]]]]. rewrite Hg in Hc.
      contradiction.
  - intros p Hp. unfold children, attributes.
    destruct (ids_cases t p Hp) as [[fs [s [-> <-]]]|[fs [s [-> Ha]]]].
    + destruct (fill_get h fs s R) as [o [_ [Hg _]]]. rewrite Hg. cbn [n_children n_attrs].
      apply subtree_nodup in Nd. destruct s as [i ty nm v ats ks]. simpl in Nd.
      inversion Nd as [|? ? Hn Nd']; subst. apply NoDup_app_inv in Nd'.
      destruct Nd' as [N1 [N2 N3]]. simpl. apply NoDup_app; auto.
      * apply NoDup_tids. auto.
      * intros x Hx Hx'. apply (N3 x Hx'). apply map_tid_incl. auto.
    + destruct (fill_attr_get h fs s p R Ha) as [o [n [v [_ [_ Hg]]]]]. rewrite Hg. constructor.
  - intros c Hc Hne. unfold parent, children, attributes.
    destruct (ids_cases t c Hc) as [[fs [s [E <-]]]|[fs [s [E Ha]]]].
    + destruct fs as [|f fs]; [simpl in E; subst; congruence|].
      exists (f_id f). split; [|split].
      * rewrite E. apply (frame_ids_in (f :: fs)). simpl; auto.
      * rewrite E in R. destruct (fill_get h (f :: fs) s R) as [o [_ [Hg _]]]. rewrite Hg. reflexivity.
      * rewrite E in R. simpl in R. destruct (fill_get h fs (plug f s) R) as [o [_ [Hg _]]].
        unfold plug in Hg. cbn [tid tkids] in Hg. rewrite Hg. cbn [n_children n_attrs].
        apply in_or_app. left. rewrite map_app. apply in_or_app. right. simpl. auto.
    + subst t. destruct (fill_attr_get h fs s c R Ha) as [o [n [v [_ [_ Hg]]]]].
      exists (tid s). split; [apply fill_ids_in, tid_in_ids|]. rewrite Hg. split; [reflexivity|].
      destruct (fill_get h fs s R) as [o2 [_ [Hg2 _]]]. rewrite Hg2. apply in_or_app. right. exact Ha.
  - intros c Hc. apply root_document; auto.
Qed.

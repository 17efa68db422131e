(* The nodes in the value of an expression are nodes of the document. *)
Require Import Bool List NArith ZArith Ascii String Lia Sorted.
From Verif Require Import Str StrFacts Sax Dom Axes SpecEdit SpecAxes SessionFacts Lexer FuncTable Parser SpecExpr Num Item
  SpecOper SpecFunc SpecTypes SpecEval SpecInt SpecNum SpecDbl SpecArith SpecLib SpecSem SemFacts SemNode SemLib SemOper.
Import ListNotations.
Open Scope nat_scope.

Scheme means_mut := Minimality for means Sort Prop
  with applies_mut := Minimality for applies Sort Prop
  with fills_mut := Minimality for fills Sort Prop
  with binds_mut := Minimality for binds Sort Prop
  with means_all_mut := Minimality for means_all Sort Prop
  with narrows_mut := Minimality for narrows Sort Prop
  with walks_mut := Minimality for walks Sort Prop
  with pours_mut := Minimality for pours Sort Prop.
Combined Scheme means_ind8 from means_mut, applies_mut, fills_mut, binds_mut, means_all_mut, narrows_mut, walks_mut, pours_mut.

Lemma pick_in : forall A (keep : nat -> bool) (l : list A) x, In x (pick keep l) -> In x l.
Proof.
  intros A keep l x H. unfold pick in H. apply in_map_iff in H. destruct H as [[k y] [<- H]]. apply filter_In in H.
  destruct H as [H _]. eapply in_combine_r; eauto.
Qed.
Lemma narrows_in : forall h order vs rv ps l r, narrows h order vs rv ps l r -> forall x, In x r -> In x l.
Proof.
  intros h order. fix IH 6. intros vs rv ps l r N x I. destruct N as [|? ? ? ? ? ? ? ? _ _ N]; auto.
  eapply pick_in. exact (IH _ _ _ _ _ N x I).
Qed.

Section In.
  Variable h : heap.
  Variable order : list nat.
  Hypothesis SE : session h.
  Hypothesis PO : preorder h 0 order.

  Definition vars_in (vs : vars) : Prop := forall n v, vs n = Some (Bval v) -> seq_in h v.
  Lemma seq_in_nodes : forall l, (forall i, In i l -> in_document h 0 i) -> seq_in h (nodes l).
  Proof. intros l H it I. apply in_map_iff in I. destruct I as [j [<- I]]. apply item_node. auto. Qed.
  Lemma nodes_seq_in : forall l, seq_in h (nodes l) -> forall i, In i l -> in_document h 0 i.
  Proof. intros l H i I. apply item_node_in, H. apply in_map. auto. Qed.
  Lemma seq_in_app : forall v w, seq_in h v -> seq_in h w -> seq_in h (v ++ w).
  Proof. intros v w V W i I. apply in_app_or in I. destruct I; auto. Qed.
  Lemma seq_in_nil : seq_in h [].
  Proof. intros i []. Qed.
  Lemma seq_in_item : forall it, item_in h it -> seq_in h [it].
  Proof. intros it I i [<-|[]]. auto. Qed.
  Lemma seq_in_bool : forall b, seq_in h [XIBoolean b].
  Proof. intro b. apply seq_in_item, item_plain. exact I. Qed.
  Lemma seq_in_int : forall b, seq_in h [XIInteger b].
  Proof. intro b. apply seq_in_item, item_plain. exact I. Qed.
  Lemma seq_in_str : forall b, seq_in h [XIString b].
  Proof. intro b. apply seq_in_item, item_plain. exact I. Qed.
  Lemma seq_in_ints : forall l, seq_in h (map XIInteger l).
  Proof. intros l it H. apply in_map_iff in H. destruct H as [? [<- _]]. apply item_plain. exact I. Qed.
  Lemma seq_in_strs : forall l, seq_in h (map XIString l).
  Proof. intros l it H. apply in_map_iff in H. destruct H as [? [<- _]]. apply item_plain. exact I. Qed.
  Lemma in_seq_item : forall it, seq_in h [it] -> item_in h it.
  Proof. intros it H. apply H. left. auto. Qed.
  Lemma seq_in_flat : forall (A : Type) (g : A -> xseq) l, (forall it, In it l -> seq_in h (g it)) -> seq_in h (flat_map g l).
  Proof. intros A g l H i I. apply in_flat_map in I. destruct I as [it [J I]]. exact (H it J i I). Qed.
  Lemma seq_in_concat : forall l, (forall v, In v l -> seq_in h v) -> seq_in h (List.concat l).
  Proof. intros l H i I. apply in_concat in I. destruct I as [v [J I]]. exact (H v J i I). Qed.
  Lemma vars_in_bind : forall v s vs, vars_in vs -> seq_in h s -> vars_in (bind_var v s vs).
  Proof. intros v s vs V S n w E. unfold bind_var in E. destruct (list_eq_dec N.eq_dec n v); [injection E as <-; auto|eauto]. Qed.
  Lemma vars_in_fun : forall v fe ev vs, vars_in vs -> vars_in (bind_fun v fe ev vs).
  Proof. intros v fe ev vs V n w E. unfold bind_fun in E. destruct (list_eq_dec N.eq_dec n v); [discriminate E|eauto]. Qed.
  Lemma root_in : in_document h 0 0.
  Proof. left. constructor. Qed.
  Lemma library_in : forall f n args v, library h f n args v -> (forall a, In a args -> seq_in h a) -> seq_in h v.
  Proof.
    intros f n args v L A. destruct L; auto using seq_in_bool, seq_in_int, seq_in_str, seq_in_strs, seq_in_nil.
    - apply seq_in_item, item_node, root_in.
    - intros i I. rewrite <- in_rev in I. exact (A v (or_introl eq_refl) i I).
    - intros i [<-|[]]. apply (A (it :: v) (or_introl eq_refl) it). left. auto.
    - intros i I. apply (A (it :: v) (or_introl eq_refl) i). right. auto.
  Qed.
  Lemma casts_in : forall it n r, casts h it n r -> item_in h r.
  Proof. intros it n r C. apply item_plain. destruct C; exact I. Qed.

  Lemma looks_in : forall it k v, looks h it k v -> item_in h it -> seq_in h v.
  Proof.
    intros it k v L I. destruct L as [pre k v post s SK N|m k N|a n v E].
    - destruct (proj1 (item_map h _) I (k, v)) as [_ J]; [apply in_or_app; right; left; reflexivity|]. exact J.
    - apply seq_in_nil.
    - apply (proj1 (item_array h a) I). eapply nth_error_In; eauto.
  Qed.
  Lemma looks_up_in : forall it k v, looks_up h it k v -> item_in h it -> seq_in h v.
  Proof.
    intros it k v L I. destruct L as [it n v L|it d v _ L|m K|a].
    - eapply looks_in; eauto.
    - eapply looks_in; eauto.
    - apply seq_in_flat. intros p P. apply (proj1 (item_map h m) I p P).
    - apply seq_in_concat. apply item_array. exact I.
  Qed.
  Lemma looks_all_in : forall it ks vals, Forall2 (looks h it) ks vals -> item_in h it -> seq_in h (List.concat vals).
  Proof.
    intros it ks vals F I. apply seq_in_concat. intros v V. induction F as [|k w ks vals L F IH]; [destruct V|].
    destruct V as [<-|V]; [eapply looks_in; eauto|auto].
  Qed.
  Lemma seq_in_all : forall v : xseq, (forall it, In it v -> match it with XINode _ | XIFun _ | XIMap _ | XIArray _ => False | _ => True end) -> seq_in h v.
  Proof. intros v H it I. apply item_plain. specialize (H it I). destruct it; try exact Logic.I; destruct H. Qed.
  Lemma positions_in : forall (A : Type) keep (l : list A) p x, In x (positions_from p keep l) -> In x l.
  Proof.
    intros A keep. induction l as [|y l IH]; intros p x I; [destruct I|]. cbn [positions_from] in I. destruct (keep p); [destruct I as [<-|I]|]; [left; auto|right; eauto..].
  Qed.
  Lemma number_op_in : forall o x y z, number_op o x y z -> item_in h z.
  Proof. intros o x y z O. apply item_plain. destruct O; exact I. Qed.
  Lemma sum_in : forall x l r, sum_from x l r -> item_in h x -> item_in h r.
  Proof.
    intros x l r S. induction S as [x|x y z l r A S IH]; intro I; auto. apply IH. destruct A; [apply item_plain; exact Logic.I|eapply number_op_in; eauto].
  Qed.
  Lemma more_in : forall f n args v, more_library h f n args v -> item_in h (f_item f) -> (forall a, In a args -> seq_in h a) -> seq_in h v.
  Proof.
    intros f n args v L FI. induction L; intro A;
      try (apply seq_in_all; intros i0 I0; cbn [In] in I0; destruct I0 as [<-|I0]; [exact I|destruct I0]);
      try (intros i0 I0; apply positions_in in I0; apply (A v (or_introl eq_refl) i0 I0));
      auto using seq_in_bool, seq_in_int, seq_in_str, seq_in_strs, seq_in_nil.
    - apply IHL. intros a [<-|[]]. apply seq_in_item. exact FI.
    - apply seq_in_item. eapply sum_in; eauto. apply item_plain. exact I.
    - apply A. right. left. auto.
    - apply seq_in_item. eapply sum_in; eauto. apply item_plain. exact I.
    - apply seq_in_item. eapply number_op_in; eauto.
    - apply seq_in_all. intros it I0. apply in_map_iff in I0. destruct I0 as [? [<- _]]. exact I.
    - apply seq_in_all. intros it I0. apply in_map_iff in I0. destruct I0 as [? [<- _]]. exact I.
    - assert (V : seq_in h v) by (apply A; left; auto). apply seq_in_app; [|apply seq_in_app].
      + intros x X. apply V. rewrite <- (firstn_skipn k v). apply in_or_app. auto.
      + apply A. right. right. left. auto.
      + intros x X. apply V. rewrite <- (firstn_skipn k v). apply in_or_app. auto.
    - apply A. left. auto.
    - apply A. left. auto.
    - apply A. left. auto.
    - apply A. left. auto.
  Qed.
  Lemma function_value_in : forall f n args v, function_value h f n args v -> item_in h (f_item f) -> (forall a, In a args -> seq_in h a) -> seq_in h v.
  Proof. intros f n args v [L|L] FI A; [eapply library_in; eauto|eapply more_in; eauto]. Qed.
  Lemma flattens_in : forall v r, flattens v r -> seq_in h v -> seq_in h r.
  Proof.
    intros v r F. induction F as [|it s r N F IH|a s r1 r2 F1 IH1 F2 IH2]; intro S; auto.
    - intros x [<-|I]; [apply S; left; auto|]. apply IH; auto. intros y Y. apply S. right. auto.
    - apply seq_in_app; [apply IH1|apply IH2].
      + apply seq_in_concat. apply item_array. apply S. left. auto.
      + intros y Y. apply S. right. auto.
  Qed.
  Lemma item_library_in : forall p n args v, item_library h p n args v -> (forall a, In a args -> seq_in h a) -> seq_in h v.
  Proof.
    intros p n args v L A. destruct L as [m k v L|pre k v post s S|m k N|m|m|a k v L|a|v r F]; auto using seq_in_bool, seq_in_int.
    - eapply looks_in; eauto. apply (A [XIMap m]); cbn; auto.
    - intros x I. apply in_map_iff in I. destruct I as [q [<- Q]]. assert (IM : item_in h (XIMap m)) by (apply (A [XIMap m]); cbn; auto).
      exact (proj1 (proj1 (item_map h m) IM q Q)).
    - eapply looks_in; eauto. apply (A [XIArray a]); cbn; auto.
    - eapply flattens_in; eauto. apply A. left. auto.
  Qed.
  Lemma vars_in_binds : forall ps l vs, vars_in vs -> (forall v, In v l -> seq_in h v) -> vars_in (bind_vars ps l vs).
  Proof.
    induction ps as [|p ps IH]; intros [|s l] vs V S; cbn [bind_vars]; auto. apply IH; [|intros v I; apply S; right; auto].
    apply vars_in_bind; auto. apply S. left. auto.
  Qed.
  Lemma root_item : item_in h (XINode 0).
  Proof. apply item_node, root_in. Qed.
  Lemma root_list : forall i, In i [0] -> in_document h 0 i.
  Proof. intros i [<-|[]]. apply root_in. Qed.

  Lemma means_in :
    (forall f vs e v, means h order f vs e v -> item_in h (f_item f) -> vars_in vs -> seq_in h v) /\
    (forall vs fe vals v, applies h order vs fe vals v -> vars_in vs -> (forall w, In w vals -> seq_in h w) -> seq_in h v) /\
    (forall f vs os vals all, fills h order f vs os vals all -> item_in h (f_item f) -> vars_in vs -> (forall w, In w vals -> seq_in h w) -> forall v, In v all -> seq_in h v) /\
    (forall f vs q bs b v, binds h order f vs q bs b v -> item_in h (f_item f) -> vars_in vs -> seq_in h v) /\
    (forall f vs es l, means_all h order f vs es l -> item_in h (f_item f) -> vars_in vs -> forall v, In v l -> seq_in h v) /\
    (forall vs rv ps l r, narrows h order vs rv ps l r -> True) /\
    (forall vs st l r, walks h order vs st l r -> vars_in vs -> (forall i, In i l -> in_document h 0 i) -> forall i, In i r -> in_document h 0 i) /\
    (forall vs st l r, pours h order vs st l r -> vars_in vs -> (forall i, In i l -> in_document h 0 i) -> seq_in h r).
  Proof.
    apply means_ind8; intros; auto using seq_in_bool, seq_in_int, seq_in_str, seq_in_strs, seq_in_nil, seq_in_ints, seq_in_app, seq_in_item.
    - apply seq_in_item, item_plain. exact I.
    - apply seq_in_item, item_plain. exact I.
    - eauto.
    - apply seq_in_item. eapply number_op_in; eauto.
    - apply seq_in_nodes. intros i I. apply H4 in I. destruct I as [I|I]; [eapply nodes_seq_in, I|eapply nodes_seq_in, I]; auto.
    - apply seq_in_nodes. intros i I. apply H4 in I. destruct I as [I J]. eapply nodes_seq_in, I; auto.
    - apply seq_in_nodes. intros i I. apply H4 in I. destruct I as [I J]. eapply nodes_seq_in, I; auto.
    - apply seq_in_flat. intros it I. apply (H2 it 0 0 I); auto. cbn [f_item]. apply (in_item h l); auto.
    - apply seq_in_item, item_plain. exact I.
    - apply seq_in_item, item_plain. exact I.
    - apply seq_in_item. eapply casts_in; eauto.
    - apply seq_in_item. eapply casts_in; eauto.
    - apply seq_in_flat. intros it I. apply (H2 it I); auto. apply vars_in_bind; auto. apply seq_in_item, (in_item h l); auto.
    - apply H2; auto. apply vars_in_bind; auto.
    - intros i I. apply (narrows_in _ _ _ _ _ _ _ H1) in I. apply in_map_iff in I. destruct I as [j [<- I]]. apply item_node.
      apply H0 in I. destruct I as [I _]. eapply axis_in_document; eauto. apply item_node_in. assumption.
    - apply seq_in_item, item_node. eapply (axis_in_document h order SE PO A_parent); [|exact H]. apply item_node_in. assumption.
    - intros i I. apply (narrows_in _ _ _ _ _ _ _ H1) in I. exact (H0 H3 H4 i I).
    - apply seq_in_item, root_item.
    - apply seq_in_nodes. apply H2; auto. apply nodes_seq_in. auto.
    - apply seq_in_nodes. apply H0; auto using root_list.
    - apply seq_in_nodes. apply H0; auto using root_list.
    - apply H2; auto. apply nodes_seq_in. auto.
    - apply H0; auto using root_list.
    - apply H0; auto using root_list.
    - eapply function_value_in; eauto.
    - eapply function_value_in; eauto.
    - eapply function_value_in; eauto.
    - eapply item_library_in; eauto.
    - (* array *) apply seq_in_item, item_array. auto.
    - apply seq_in_item, item_array. intros w W. apply in_map_iff in W. destruct W as [it [<- W]]. apply seq_in_item. exact (H0 H1 H2 it W).
    - (* map *) apply seq_in_item, item_map. intros p P. split.
      + apply in_seq_item. apply H0; auto. apply (in_map (fun p => [fst p]) m p P).
      + apply H2; auto. apply (in_map snd m p P).
    - eapply looks_up_in; eauto.
    - eapply looks_all_in; eauto.
    - apply seq_in_flat. intros it I. eapply looks_up_in; eauto. exact (H0 H2 H3 it I).
    - apply seq_in_flat. intros it I. eapply looks_all_in; [apply (H5 it I)|]. exact (H0 H6 H7 it I).
    - eapply looks_in; eauto. apply in_seq_item. auto.
    - apply H2; auto. apply vars_in_fun; auto.
    - apply seq_in_flat. intros it I. apply (H4 it I); auto. intros w [<-|[]]. apply seq_in_item. exact (H0 H5 H6 it I).
    - intros it I. apply filter_In in I. destruct I as [I _]. exact (H0 H6 H7 it I).
    - apply (H2 (mkFocus (XINode 0) 0 0)); auto using root_item. apply vars_in_binds; auto.
    - eapply function_value_in; [apply (H1 (mkFocus (XINode 0) 0 0))|apply root_item|auto].
    - eapply function_value_in; [apply (H1 (mkFocus (XINode 0) 0 0))|apply root_item|]. apply (H0 (mkFocus (XINode 0) 0 0)); auto using root_item.
    - destruct H6 as [<-|J]; auto.
    - destruct H4 as [<-|J]; [apply H3; left; auto|]. apply H0; auto. intros w W. apply H3. right. auto.
    - (* for *) apply seq_in_flat. intros it I. apply (H2 it I); auto. apply vars_in_bind; auto. apply seq_in_item. exact (H0 H3 H4 it I).
    - apply H2; auto. apply vars_in_bind; auto.
    - apply H2; auto. apply vars_in_fun; auto.
    - destruct H1.
    - destruct H5 as [<-|I]; auto.
    - apply H1 in H4. destruct H4 as [n [I J]]. eapply nodes_seq_in; [|exact J]. apply (H0 n 0 0 I); auto. apply item_node. auto.
    - apply (H4 H5); auto. intros j J. apply H2 in J. destruct J as [n [I J]]. eapply nodes_seq_in; [|exact J]. apply (H1 n 0 0 I); auto.
      apply item_node. auto.
    - apply (H1 H2); auto. intros j J. apply H in J. destruct J as [n [I [->|J]]]; auto.
      apply (axis_in_document h order SE PO A_descendant j n); auto.
    - apply seq_in_flat. intros n I. apply (H0 n 0 0 I); auto. apply item_node. auto.
    - apply H4; auto. intros j J. apply in_flat_map in J. destruct J as [n [I J]]. eapply nodes_seq_in; [|exact J]. apply (H1 n 0 0 I); auto.
      apply item_node. auto.
    - apply H2; auto. intros j J. apply in_flat_map in J. destruct J as [n [I J]]. apply (H n I) in J. destruct J as [->|J]; auto.
      apply (axis_in_document h order SE PO A_descendant j n); auto.
  Qed.
End In.

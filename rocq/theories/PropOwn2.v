(* C86, C87 and C66 together: the nodes a query returns are alive, and so is everything above and below them. *)
Require Import Bool List NArith ZArith Lia PeanoNat String.
From Verif Require Import Str Chars Sax Dom SpecTree HeapFacts SpecEdit EditFacts ReachFacts SessionFacts PropEdit
  Lexer Parser Num Item Func Types Eval SpecSafe PropSafe Own SpecOwn OwnFacts PropOwn.
Import ListNotations.
Open Scope nat_scope.

Lemma document_kept : forall w j, In 0 (w_held w) -> in_document (w_heap w) 0 j -> kept w j.
Proof.
  intros w j H0 J.
  assert (AT : forall j, attached (w_heap w) 0 j -> reaches (w_heap w) 0 j).
  { intros k A. induction A as [|p c A IH C]; [constructor|]. eapply reaches_down; [exact IH|]. apply in_or_app. left. exact C. }
  exists 0. split; [exact H0|]. destruct J as [A|[p [A C]]]; [exact (AT j A)|]. eapply reaches_down; [exact (AT p A)|]. apply in_or_app. right. exact C.
Qed.
Lemma kept_below : forall w i j, kept w i -> reaches (w_heap w) i j -> kept w j.
Proof. intros w i j [k [H R]] D. exists k. split; [exact H|]. eapply reaches_trans; eauto. Qed.
Lemma document_above : forall h i a, session h -> in_document h 0 i -> above h i a -> in_document h 0 a.
Proof.
  intros h i a S I X. destruct (C54_edited_well_linked_partial h S) as [WR _ _ WU WL].
  assert (ST : forall j p, parent h j = Some p -> in_document h 0 j -> in_document h 0 p).
  { intros j p P J. destruct (Nat.eq_dec j 0) as [->|N]; [destruct WR; congruence|]. destruct (WU j J N) as [q [Q [P' _]]]. congruence. }
  revert I. induction X as [j p P|j p a P X IH]; intro J; [exact (ST j p P J)|]. apply IH. exact (ST j p P J).
Qed.

(* While the document is held, every node in the result of a query, at any depth of maps and arrays, is alive with all its
   ancestors and everything below it, so that no operation on it panics. *)
Theorem C86_query_results : forall os w i xpath fuel v it n, runs os w -> session (w_heap w) -> In 0 (w_held w) -> in_document (w_heap w) 0 i ->
  eval_xpath fuel (w_heap w) i xpath = Ok v -> In it v -> holds n it ->
  alive w n /\ (forall a, above (w_heap w) n a -> alive w a) /\ (forall d, reaches (w_heap w) n d -> alive w d) /\
  parent_up w n = Ok (parent (w_heap w) n) /\ root_up w n = Ok 0.
Proof.
  intros os w i s fuel v it n R S H0 I E M H.
  assert (D : in_document (w_heap w) 0 n) by exact (C66_result_nodes _ _ _ _ _ _ _ S I E M H).
  assert (AL : forall j, in_document (w_heap w) 0 j -> alive w j).
  { intros j J. apply (C87_reachable_alive os w R). apply document_kept; auto. }
  assert (UP : forall a, above (w_heap w) n a -> alive w a) by (intros a X; apply AL; exact (document_above _ _ _ S D X)).
  split; [exact (AL n D)|]. split; [exact UP|]. split.
  - intros d X. apply (C87_reachable_alive os w R). apply (kept_below w n d); [|exact X]. apply document_kept; auto.
  - assert (V := runs_inv os w R). split.
    + unfold parent_up, parent. destruct (n_parent (get (w_heap w) n)) as [p|] eqn:P; [|reflexivity].
      rewrite upgrade_ok by (apply UP; constructor; exact P). reflexivity.
    + destruct (root_up_cases w n (iv_heap _ _ _ _ V) (proj1 (AL n D))) as [[_ [B _]]|[[a [X F]] _]].
      * rewrite B. destruct (C54_edited_well_linked_partial _ S) as [_ _ _ _ WL]. exact (WL n D).
      * exfalso. exact (proj2 (UP a X) F).
Qed.
(* A handle on a result keeps the node and everything below it alive whatever the program drops or edits afterwards. *)
Theorem C87_result_kept : forall os w n, runs os w -> In n (w_held w) -> forall d, reaches (w_heap w) n d -> alive w d.
Proof. intros os w n R H d X. apply (C87_reachable_alive os w R). exists n. auto. Qed.

Example C86_query_example : exists w, runs own_p6 w /\ session (w_heap w) /\ In 0 (w_held w) /\
  eval_xpath 40 (w_heap w) 0 (lit "/a/c | /a/@k") = Ok [XINode 5; XINode 4] /\ parent_up w 4 = Ok (Some 1).
Proof.
  destruct C86_example as [w (R & S & H0 & _ & _ & P & _)]. exists w. split; [exact R|]. split; [exact S|]. split; [exact H0|]. split; [|exact P].
  assert (E : exists w', exec empty_world own_p6 = Ok w') by (eexists; vm_compute; reflexivity).
  assert (D : forall os w1 w2, runs os w1 -> runs os w2 -> w1 = w2).
  { intros os. induction os as [|o os IH] using rev_ind; intros w1 w2 R1 R2.
    - inversion R1; inversion R2; subst; auto; try (destruct os; discriminate); destruct os0; discriminate.
    - inversion R1 as [X|os1 w1' o1 w1'' R1' U1 S1]; subst; [destruct os; discriminate|].
      inversion R2 as [X|os2 w2' o2 w2'' R2' U2 S2]; subst; [destruct os; discriminate|].
      apply app_inj_tail in H. destruct H as [-> ->]. apply app_inj_tail in H1. destruct H1 as [-> ->]. rewrite (IH _ _ R1' R2') in S1. congruence. }
  destruct E as [w' E]. rewrite (D _ _ _ R (exec_start _ _ E)). vm_compute in E. injection E as <-. vm_compute. reflexivity.
Qed.
Print Assumptions C86_query_results.

(* Rewriting anywhere in an expression. *)
Require Import Bool List NArith ZArith Ascii String Lia.
From Verif Require Import Str StrFacts Sax Dom Axes Lexer FuncTable Parser SpecExpr PrecFacts PropParse Num Item Func Types Eval
  EvalFacts SpecSame SameFacts SpecRewrite LawFacts.
Import ListNotations.
Open Scope nat_scope.

Lemma law_same : forall a b, law a b -> no_closures a = no_closures b /\ (no_closures a = true -> same (ct a) (ct b)).
Proof.
  intros a b L. assert (FL : forall a, no_closures a = true -> no_closures a = no_closures (full a) /\ (no_closures a = true -> same (ct a) (ct (full a)))).
  { intros x N. split; [rewrite (no_full x N); exact N|]. intro. rewrite ct_full by auto. apply same_refl, ct_nil. auto. }
  destruct L; try (apply FL; assumption); clear FL; cbn [no_closures call0 call1 forallb] in *; rewrite ?andb_true_r, ?andb_assoc; cbn [andb];
    (split; [repeat match goal with H : no_closures _ = true |- _ => rewrite H end; rewrite ?andb_true_r; repeat match goal with |- context[no_closures ?a] => destruct (no_closures a) end; reflexivity|]); intro N;
    repeat match goal with H : _ && _ = true |- _ => apply andb_true_iff in H; destruct H end;
    repeat match goal with H : no_closures _ = true |- _ => apply ct_nil in H end.
  - apply t_assoc; auto.
  - apply t_nil_left; auto.
  - apply t_nil_right; auto.
  - apply t_reverse; auto.
  - apply t_head; auto.
  - apply t_last; auto.
  - apply t_exists; auto.
  - apply t_all; auto.
  - apply t_empty_filter; auto.
  - apply t_map_dot; auto.
  - apply t_empty_map; auto.
  - apply t_for; auto.
  - apply t_let; auto.
  - apply t_empty_for; auto.
  - apply t_empty_some; auto.
  - apply t_empty_every; auto.
  - apply t_some_every; auto.
  - apply t_every_some; auto.
  - apply t_not_not; auto.
  - apply t_boolean; auto.
  - apply t_and; auto.
  - apply t_or; auto.
  - apply t_and_if; auto.
  - apply t_or_if; auto.
  - apply t_if_true; auto.
  - apply t_if_false; auto.
  - apply t_if_not; auto.
  - apply t_if_boolean; auto.
  - apply t_concat; auto.
Qed.

(* ---- lists ---- *)
Lemma forallb_mid : forall A (f : A -> bool) l a b r, f a = f b -> forallb f (l ++ a :: r) = forallb f (l ++ b :: r).
Proof. intros A f l a b r E. rewrite !forallb_app. cbn [forallb]. rewrite E. reflexivity. Qed.
Lemma map_mid : forall l a b r, forallb no_closures (l ++ a :: r) = true -> same (ct a) (ct b) ->
  Forall2 same (map ct (l ++ a :: r)) (map ct (l ++ b :: r)).
Proof.
  intros l a b r N S. rewrite forallb_app in N. cbn [forallb] in N. apply andb_true_iff in N. destruct N as [N1 N2].
  apply andb_true_iff in N2. destruct N2 as [_ N2]. rewrite !map_app. cbn [map].
  assert (R : forall l, forallb no_closures l = true -> Forall2 same (map ct l) (map ct l)).
  { clear. induction l as [|x l IH]; intro H; cbn [map]; constructor; cbn [forallb] in H; apply andb_true_iff in H; destruct H as [H1 H2]; auto.
    apply same_refl, ct_nil. auto. }
  apply Forall2_app; auto.
Qed.
Lemma args_same : forall ty (mk : list xnode -> xnode), mk [] = XNil -> (forall x l, mk (x :: l) = XNode ty [] x (mk l)) ->
  forall l l', Forall2 same l l' -> csame ty (mk l) (mk l').
Proof.
  intros ty mk E C l l' F. induction F as [|x y l l' H F IH]; [rewrite E; apply csame_nil|]. rewrite !C. apply csame_cons; auto.
Qed.
Lemma fn_same : forall f l l', Forall2 same l l' -> same (fn_tree f l) (fn_tree f l').
Proof.
  intros f l l' F. eapply same_trans; [apply same_sym; apply same_fn with (y := args_tree l)|apply same_fn].
  - apply args_same; [reflexivity|reflexivity|]. clear - F. induction F as [|x y l l' H F IH]; constructor; auto.
    apply same_nil in H. apply same_refl. tauto.
  - apply args_same; auto.
Qed.
Lemma steps_same : forall l l', Forall2 (fun p q : bool * xnode => fst p = fst q /\ same (snd p) (snd q)) l l' ->
  steps_tree l = XNil /\ steps_tree l' = XNil \/ same (steps_tree l) (steps_tree l').
Proof.
  intros l l' F. induction F as [|[d x] [d' y] l l' [H1 H2] F IH]; [left; auto|]. right. cbn [fst snd] in *. subst d'.
  cbn [steps_tree]. destruct d.
  - apply two_bin; [reflexivity|apply same_refl; reflexivity|]. apply same_op; auto.
  - apply same_op; auto.
Qed.

Lemma multi_same : forall q v a b r x, no_closures x = true -> forallb (fun x => no_closures (snd x)) r = true -> same (ct a) (ct b) -> forall l,
  forallb (fun x => no_closures (snd x)) l = true ->
  same (ct (EMulti q (l ++ (v, a) :: r) x)) (ct (EMulti q (l ++ (v, b) :: r) x)).
Proof.
  intros q v a b r x Nx Nr S l Nl. cbn [ct].
  assert (R : same (fold_right (fun x r => bind_tree q (fst x) (ct (snd x)) r) (ct x) r) (fold_right (fun x r => bind_tree q (fst x) (ct (snd x)) r) (ct x) r)).
  { apply same_refl. apply (ct_nil (EMulti q r x)). cbn [no_closures]. rewrite Nr, Nx. reflexivity. }
  induction l as [|[w y] l IH].
  - cbn [app fold_right fst snd]. apply same_bind; auto.
  - cbn [app fold_right fst snd]. cbn [forallb snd] in Nl. apply andb_true_iff in Nl. destruct Nl as [N1 N2].
    apply same_bind; [apply same_refl, ct_nil; auto|apply IH; auto].
Qed.
Lemma multi_body : forall q bs a b, forallb (fun x => no_closures (snd x)) bs = true -> same (ct a) (ct b) ->
  same (ct (EMulti q bs a)) (ct (EMulti q bs b)).
Proof.
  intros q bs a b N S. cbn [ct]. induction bs as [|[w y] l IH]; [exact S|]. cbn [fold_right fst snd].
  cbn [forallb snd] in N. apply andb_true_iff in N. destruct N as [N1 N2]. apply same_bind; [apply same_refl, ct_nil; auto|apply IH; auto].
Qed.
Lemma entries_same : forall l k a k' a' r, forallb (fun x => no_closures (fst x) && no_closures (snd x)) (l ++ (k, a) :: r) = true ->
  same (ct k) (ct k') -> same (ct a) (ct a') ->
  msame (entries_tree (map (fun x => (ct (fst x), ct (snd x))) (l ++ (k, a) :: r)))
        (entries_tree (map (fun x => (ct (fst x), ct (snd x))) (l ++ (k', a') :: r))).
Proof.
  intros l k a k' a' r N K A. rewrite forallb_app in N. apply andb_true_iff in N. destruct N as [N1 N2]. cbn [forallb] in N2.
  apply andb_true_iff in N2. destruct N2 as [_ N2].
  assert (R : forall l, forallb (fun x => no_closures (fst x) && no_closures (snd x)) l = true ->
     msame (entries_tree (map (fun x => (ct (fst x), ct (snd x))) l)) (entries_tree (map (fun x => (ct (fst x), ct (snd x))) l))).
  { clear. induction l as [|[x y] l IH]; intro H; [exists 0; constructor|]. cbn [forallb fst snd] in H. apply andb_true_iff in H. destruct H as [H1 H2].
    apply andb_true_iff in H1. destruct H1 as [H1 H3]. cbn [map fst snd entries_tree].
    apply msame_cons; auto; apply same_refl, ct_nil; auto. }
  induction l as [|[x y] l IH].
  - cbn [app map fst snd entries_tree]. apply msame_cons; auto.
  - cbn [forallb fst snd] in N1. apply andb_true_iff in N1. destruct N1 as [H1 H2]. apply andb_true_iff in H1. destruct H1 as [H1 H3].
    cbn [app map fst snd entries_tree]. apply msame_cons; auto; apply same_refl, ct_nil; auto.
Qed.
Lemma path_mid : forall l d a b r, forallb (fun x : bool * expr => no_closures (snd x)) (l ++ (d, a) :: r) = true -> same (ct a) (ct b) ->
  Forall2 (fun p q : bool * xnode => fst p = fst q /\ same (snd p) (snd q))
    (map (fun x => (fst x, ct (snd x))) (l ++ (d, a) :: r)) (map (fun x => (fst x, ct (snd x))) (l ++ (d, b) :: r)).
Proof.
  intros l d a b r N S. rewrite forallb_app in N. apply andb_true_iff in N. destruct N as [N1 N2]. cbn [forallb] in N2.
  apply andb_true_iff in N2. destruct N2 as [_ N2]. rewrite !map_app. cbn [map fst snd].
  assert (R : forall l : list (bool * expr), forallb (fun x => no_closures (snd x)) l = true ->
    Forall2 (fun p q : bool * xnode => fst p = fst q /\ same (snd p) (snd q)) (map (fun x => (fst x, ct (snd x))) l) (map (fun x => (fst x, ct (snd x))) l)).
  { clear. induction l as [|x l IH]; intro H; cbn [map]; constructor; cbn [forallb] in H; apply andb_true_iff in H; destruct H as [H1 H2]; auto.
    split; auto. apply same_refl, ct_nil. auto. }
  apply Forall2_app; auto.
Qed.
Lemma path_same : forall s a b l l', same (ct a) (ct b) ->
  Forall2 (fun p q : bool * xnode => fst p = fst q /\ same (snd p) (snd q))
    (map (fun x => (fst x, ct (snd x))) l) (map (fun x => (fst x, ct (snd x))) l') -> same (ct (EPath s a l)) (ct (EPath s b l')).
Proof.
  intros s a b l l' S F. cbn [ct].
  assert (P : same (XNode X_OperatorPath [] (ct a) (steps_tree (map (fun x => (fst x, ct (snd x))) l)))
                   (XNode X_OperatorPath [] (ct b) (steps_tree (map (fun x => (fst x, ct (snd x))) l')))).
  { apply same_op; auto. apply steps_same. auto. }
  assert (Q : same root_tree root_tree) by (apply same_refl; reflexivity).
  destruct s; auto; (apply two_bin; [reflexivity|exact Q|]); auto. apply two_bin; auto. apply same_refl. reflexivity.
Qed.
Lemma arg_list : forall l a b r, forallb no_closures (l ++ a :: r) = true -> same (ct a) (ct b) ->
  csame X_ArgumentTop (args_tree (map ct (l ++ a :: r))) (args_tree (map ct (l ++ b :: r))).
Proof. intros. apply args_same; auto. apply map_mid; auto. Qed.
Lemma csame_id : forall l, forallb no_closures l = true -> csame X_ArgumentTop (args_tree (map ct l)) (args_tree (map ct l)).
Proof.
  intros l H. apply args_same; auto. induction l as [|x l IH]; cbn [map]; constructor; cbn [forallb] in H; apply andb_true_iff in H; destruct H as [H1 H2]; auto.
  apply same_refl, ct_nil. auto.
Qed.
Lemma list_id : forall l, forallb no_closures l = true -> Forall2 same (map ct l) (map ct l).
Proof.
  intros l H. induction l as [|x l IH]; cbn [map]; constructor; cbn [forallb] in H; apply andb_true_iff in H; destruct H as [H1 H2]; auto.
  apply same_refl, ct_nil. auto.
Qed.

Lemma forallb_at : forall A (f : A -> bool) l a r, forallb f (l ++ a :: r) = true -> f a = true.
Proof. intros A f l a r H. rewrite forallb_app in H. cbn [forallb] in H. apply andb_true_iff in H. destruct H as [_ H]. apply andb_true_iff in H. tauto. Qed.
Lemma same_sig : forall k x x' n1 n2, same x x' -> same (XNode (if k : bool then X_OperatorUnaryMinus else X_OperatorUnaryPlus) n1 XNil x)
  (XNode (if k then X_OperatorUnaryMinus else X_OperatorUnaryPlus) n2 XNil x').
Proof. intros k x x' n1 n2 [j H]. apply (same_cong j). apply cg_sign. auto. Qed.
Lemma same_ty : forall ty n1 n2 x x' y, is_typed ty = true -> same x x' -> same (XNode ty n1 x y) (XNode ty n2 x' y).
Proof. intros ty n1 n2 x x' y T [j H]. apply (same_cong j). apply cg_typed; auto. Qed.
Lemma same_key : forall n1 n2 x x', same x x' -> same (XNode X_UnaryLookupByExpr n1 x XNil) (XNode X_UnaryLookupByExpr n2 x' XNil).
Proof. intros n1 n2 x x' [j H]. apply (same_cong j). apply cg_key. auto. Qed.
Lemma path_id : forall l, forallb (fun x : bool * expr => no_closures (snd x)) l = true ->
  Forall2 (fun p q : bool * xnode => fst p = fst q /\ same (snd p) (snd q)) (map (fun x => (fst x, ct (snd x))) l) (map (fun x => (fst x, ct (snd x))) l).
Proof.
  induction l as [|x l IH]; intro H; cbn [map]; constructor; cbn [forallb] in H; apply andb_true_iff in H; destruct H as [H1 H2]; auto.
  split; auto. apply same_refl, ct_nil. auto.
Qed.
Lemma look_mono : forall k, is_nil (key_tree k) = false.
Proof. intros []; reflexivity. Qed.

Definition marked {P : Prop} (p : P) : Prop := True.
Ltac prep := cbn [no_closures]; split;
  [first [congruence | (apply forallb_mid; cbn [fst snd]; congruence) | (f_equal; apply forallb_mid; cbn [fst snd]; congruence)
         | (f_equal; [apply forallb_mid; cbn [fst snd]|]; congruence)]
  |let N := fresh "N" in intro N; repeat match goal with H : _ && _ = true |- _ => apply andb_true_iff in H; destruct H end;
   repeat match goal with H : forallb _ (?l ++ ?a :: ?r) = true |- _ =>
     lazymatch goal with G : marked H |- _ => fail | _ => let P := fresh "P" in assert (P := forallb_at _ _ _ _ _ H); cbn [fst snd] in P; assert (marked H) by exact I end end;
   repeat match goal with H : _ && _ = true |- _ => apply andb_true_iff in H; destruct H end;
   repeat match goal with H : no_closures ?a = true -> _, G : no_closures ?a = true |- _ => specialize (H G) end].

Lemma rewrites_same : forall a b, rewrites a b -> no_closures a = no_closures b /\ (no_closures a = true -> same (ct a) (ct b)).
Proof.
  intros a b R. induction R;
    repeat match goal with H : _ = _ /\ (_ -> _) |- _ => destruct H end.
  - apply law_same; auto.
  - split; auto. intro. apply same_refl, ct_nil; auto.
  - split; [congruence|]. intro. apply same_sym. match goal with H : _ -> same _ _ |- _ => apply H end. congruence.
  - split; [congruence|]. intro. match goal with H : _ -> same (ct a) (ct b), G : _ -> same (ct b) (ct c) |- _ => apply (same_trans _ _ _ (H ltac:(congruence)) (G ltac:(congruence))) end.
  - prep. apply fn_same, map_mid; auto.
  - prep. apply two_bin; auto. destruct o; reflexivity.
  - prep. apply same_sig; auto.
  - prep. apply same_ty; auto. destruct o; reflexivity.
  - prep. apply same_ty; auto. destruct c; reflexivity.
  - prep. match goal with A : same (ct c) _, B : same (ct a) _, C : same (ct b) _ |- _ => destruct (same_two _ _ _ _ A B) as (k & A1 & B1); destruct C as [j C] end.
    apply (same_cong (k + j)). apply cg_if; (eapply ek_up; [eassumption|lia]).
  - prep. apply same_bind; auto.
  - prep. apply same_bind; auto.
  - prep. apply same_step; auto. apply args_same; [reflexivity|reflexivity|]. apply map_mid; auto.
  - prep. match goal with A : same (ct a) _, B : same (ct b) _ |- _ => destruct (same_two _ _ _ _ A B) as (k & A1 & B1) end.
    apply (same_cong k). apply cg_filter; auto.
  - prep. apply same_dyn; auto. apply csame_id. auto.
  - prep. apply same_dyn; [apply same_refl, ct_nil; auto|]. apply arg_list; auto.
  - prep. apply path_same; auto. apply path_id; auto.
  - prep. apply path_same; [apply same_refl, ct_nil; auto|apply path_mid; auto].
  - prep. destruct (args_same X_ArrayEntry items_tree eq_refl (fun _ _ => eq_refl) _ _ (map_mid l a b r ltac:(assumption) ltac:(assumption))) as [k K].
    apply (same_cong k). apply cg_square. exact K.
  - prep. match goal with A : same (ct a) _ |- _ => destruct A as [k K] end. apply (same_cong k). apply cg_curly. exact K.
  - prep. destruct (entries_same l k a k' a' r ltac:(assumption) ltac:(assumption) ltac:(assumption)) as [j J]. apply (same_cong j). apply cg_map. exact J.
  - prep. apply same_key; auto.
  - prep. apply two_bin; auto. apply same_refl, look_mono.
  - prep. apply two_bin; auto. apply same_key; auto.
  - prep. cbn [ct]. destruct v.
    + apply same_dyn; [apply same_refl; reflexivity|]. apply csame_cons; [auto|apply csame_id; auto].
    + apply fn_same. constructor; [auto|apply list_id; auto].
  - prep. cbn [ct]. destruct v.
    + apply same_dyn; [apply same_refl; reflexivity|]. apply csame_cons; [apply same_refl, ct_nil; auto|apply arg_list; auto].
    + apply fn_same. constructor; [apply same_refl, ct_nil; auto|apply map_mid; auto].
  - prep. cbn [ct]. destruct (str_eqb p (lit "fn")); [apply fn_same, map_mid; auto|apply same_call, arg_list; auto].
  - prep. apply same_ty; auto. destruct t; reflexivity.
  - prep. apply multi_body; auto.
  - prep. match goal with H : forallb _ (l ++ _) = true |- _ => pose proof H as Q0 end. rewrite forallb_app in Q0. cbn [forallb snd] in Q0.
    apply andb_true_iff in Q0. destruct Q0 as [Q1 Q2]. apply andb_true_iff in Q2. destruct Q2 as [_ Q2]. apply multi_same; auto.
Qed.

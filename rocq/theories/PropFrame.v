(* C20, continued: a variable keeps its value while any expression is evaluated that does not bind it. *)
Require Import Bool List NArith ZArith Ascii String Lia.
From Verif Require Import Str StrFacts Chars Sax Dom SpecTree SpecEdit HeapFacts BuildFacts DocFacts EditFacts OrderFacts SessionFacts
  Axes SpecAxes AxesFacts Lexer FuncTable Parser Num Item Func Types Eval EvalFacts SpecOper ItemFacts SpecEval PropEval SafeFacts SafeEval SpecFrame.
Import ListNotations.
Open Scope nat_scope.

(* induction on values *)
Section Nested.
  Variable P : xitem -> Prop.
  Hypothesis PM : forall m, Forall (fun e => P (fst e) /\ Forall P (snd e)) m -> P (XIMap m).
  Hypothesis PA : forall a, Forall (Forall P) a -> P (XIArray a).
  Hypothesis PO : forall it, (forall m, it <> XIMap m) -> (forall a, it <> XIArray a) -> P it.
  Fixpoint xitem_nested (it : xitem) : P it :=
    let fix seqs (s : list xitem) : Forall P s :=
      match s with [] => Forall_nil _ | x :: s' => Forall_cons _ (xitem_nested x) (seqs s') end in
    match it with
    | XIMap m => PM m ((fix go (m : list (xitem * list xitem)) : Forall (fun e => P (fst e) /\ Forall P (snd e)) m :=
        match m with [] => Forall_nil _ | (k, s) :: m' => Forall_cons (k, s) (conj (xitem_nested k) (seqs s)) (go m') end) m)
    | XIArray a => PA a ((fix go (a : list (list xitem)) : Forall (Forall P) a :=
        match a with [] => Forall_nil _ | s :: a' => Forall_cons s (seqs s) (go a') end) a)
    | it => PO it ltac:(discriminate) ltac:(discriminate)
    end.
End Nested.
Section Frame.
  Variable h : heap.
  Variable t : tree.
  Hypothesis DO : document h t.
  Hypothesis T0 : tid t = 0.
  Variable v : str.
  Notation free := (fun x => ~ names_bound v x).
  Notation iin := (item_in t true free).
  Lemma clear_in : forall it, clear_item h v it -> iin it.
  Proof.
    intros it H. induction H as [i I|f F|m K IK V IV|a H IH|s|z|f|f|b]; try (constructor; auto; fail).
    - apply in_node. unfold inside. apply (in_document_ids h t i DO). rewrite T0. auto.
    - apply in_map. apply Forall_forall. intros [k s] I. split; [eapply IK; eauto|]. apply Forall_forall. intros it J. eapply IV; eauto.
    - apply in_array. apply Forall_forall. intros s I. apply Forall_forall. intros it J. eapply IH; eauto.
  Qed.
  Lemma in_clear : forall it, iin it -> clear_item h v it.
  Proof.
    apply (xitem_nested (fun it => iin it -> clear_item h v it)).
    - intros m M H. inversion H; subst. rewrite Forall_forall in *. apply cl_map.
      + intros k s I. apply (proj1 (M _ I)). exact (proj1 (H1 _ I)).
      + intros k s it I J. destruct (M _ I) as [_ MS]. destruct (H1 _ I) as [_ HS]. cbn [snd] in *. rewrite Forall_forall in MS, HS. auto.
    - intros a A H. inversion H; subst. rewrite Forall_forall in *. apply cl_array. intros s it I J. specialize (A _ I). specialize (H1 _ I).
      rewrite Forall_forall in A, H1. auto.
    - intros it NM NA H. destruct H; try (constructor; auto; fail); [|destruct (NM m); auto|destruct (NA a); auto].
      apply cl_node. rewrite <- T0. apply (in_document_ids h t i DO). assumption.
  Qed.
  Lemma seq_clear : forall s, Forall iin s -> Forall (clear_item h v) s.
  Proof. intros s F. eapply Forall_impl; [|exact F]. exact in_clear. Qed.
  Lemma clear_seq : forall s, Forall (clear_item h v) s -> Forall iin s.
  Proof. intros s F. eapply Forall_impl; [|exact F]. exact clear_in. Qed.
End Frame.
(* all values of a variable, the current one first *)
Definition bindings (v : str) (e : env) : list (str * list xitem) := filter (fun p => str_eqb (fst p) v) (e_vars e).
Lemma filter_other n v (w : list xitem) l : n <> v -> filter (fun p => str_eqb (fst p) v) ((n, w) :: l) = filter (fun p => str_eqb (fst p) v) l.
Proof. intros N. cbn [filter fst]. destruct (str_eqb n v) eqn:E; auto. apply str_eqb_eq in E. congruence. Qed.
Lemma remove_other n v l : n <> v -> filter (fun p => str_eqb (fst p) v) (remove_first n l) = filter (fun p => str_eqb (fst p) v) l.
Proof.
  intros N. induction l as [|[m w] l IH]; auto. cbn [remove_first]. destruct (str_eqb m n) eqn:E.
  - apply str_eqb_eq in E. subst m. rewrite filter_other; auto.
  - cbn [filter fst]. destruct (str_eqb m v); rewrite IH; auto.
Qed.
Lemma remove_same v l : filter (fun p => str_eqb (fst p) v) (remove_first v l) = tl (filter (fun p => str_eqb (fst p) v) l).
Proof.
  induction l as [|[m w] l IH]; auto. cbn [remove_first filter fst]. destruct (str_eqb m v) eqn:E; auto. cbn [filter fst]. rewrite E. exact IH.
Qed.
Lemma get_bindings v e : get_var e v = option_map snd (hd_error (bindings v e)).
Proof.
  unfold get_var, bindings. induction (e_vars e) as [|[m w] l IH]; auto. cbn [lookup_var filter fst]. destruct (str_eqb m v); auto.
Qed.
(* Every expression, quantifiers and calls of functions included. *)
Theorem C20_frame : forall h c x e r e' v, session h -> Forall (clear_item h v) c ->
  (forall n s, In (n, s) (e_vars e) -> Forall (clear_item h v) s) ->
  ~ names_bound v x -> outcome h c x e (Ok (r, e')) ->
  bindings v e' = bindings v e /\ get_var e' v = get_var e v /\ Forall (clear_item h v) r /\ (forall n s, In (n, s) (e_vars e') -> Forall (clear_item h v) s).
Proof.
  intros h c x e r e' v SE C E N [_ [n H]]. destruct (session_document h SE) as [t [D [T0 O]]].
  assert (G := proj1 (eval_call_good h t D O true true (fun H => H) (fun x => ~ names_bound v x)
    (fun l => filter (fun p => str_eqb (fst p) v) l = bindings v e) (fun n => n <> v)
    (fun ty nm l r N => conj (fun B => N (nb_left _ _ _ _ _ B)) (fun B => N (nb_right _ _ _ _ _ B)))
    ltac:(intros ty nm l r' N' B <-; destruct ty; try discriminate B; apply N'; constructor)
    ltac:(intros y N' T; apply Forall_forall; intros m M ->; destruct y as [|ty nm l r']; [discriminate T|]; cbn in T; subst ty; apply N'; constructor; exact M)
    (fun m w l A B => eq_trans (filter_other m v w l A) B)
    (fun m l A B => eq_trans (remove_other m v l A) B) n) c x e).
  assert (C' : Forall (item_in t true (fun x => ~ names_bound v x)) c) by (apply (clear_seq h t D T0); exact C).
  assert (E' : env_in t true (fun x => ~ names_bound v x) (fun l => filter (fun p => str_eqb (fst p) v) l = bindings v e) e).
  { split; auto. apply Forall_forall. intros [m s] I. apply (clear_seq h t D T0). eapply E; eauto. }
  specialize (G (or_introl eq_refl) (conj (conj (or_introl eq_refl) (or_introl eq_refl)) N) (or_introl eq_refl) C' E').
  rewrite H in G. destruct G as [V [F K]]. cbn [fst snd] in *. split; [exact K|].
  assert (G : get_var e' v = get_var e v) by (rewrite !get_bindings; unfold bindings at 1; rewrite K; reflexivity). split; [exact G|]. split; [apply (seq_clear h t D T0); exact V|].
  intros m s I. apply (seq_clear h t D T0). rewrite Forall_forall in F. exact (F _ I).
Qed.
(* let $v := A return (B, $v): whatever B is, if it does not bind $v the second part is the value of A. *)
Definition kept_after (n1 n2 v : str) (A B : xnode) : xnode :=
  XNode X_LetExpr n1 XNil (XNode X_LetVarBind v A (XNode X_OperatorConcatenate n2 B (XNode X_VarRef v XNil XNil))).
Theorem C20_kept : forall h c n1 n2 v A B e a e1 b e2, session h -> Forall (clear_item h v) c ->
  (forall n s, In (n, s) (e_vars e) -> Forall (clear_item h v) s) ->
  ~ names_bound v A -> ~ names_bound v B ->
  outcome h c A e (Ok (a, e1)) -> outcome h c B (set_var e1 v a) (Ok (b, e2)) ->
  exists e3, outcome h c (kept_after n1 n2 v A B) e (Ok (b ++ a, e3)) /\ bindings v e3 = bindings v e.
Proof.
  intros h c n1 n2 v A B e a e1 b e2 SE C E NA NB HA HB.
  destruct (C20_frame h c A e a e1 v SE C E NA HA) as [BA [_ [VA EA]]].
  assert (ES : forall n s, In (n, s) (e_vars (set_var e1 v a)) -> Forall (clear_item h v) s).
  { intros n s [I|I]; [injection I as <- <-; exact VA|eauto]. }
  destruct (C20_frame h c B (set_var e1 v a) b e2 v SE C ES NB HB) as [BB _].
  assert (BS : bindings v (set_var e1 v a) = (v, a) :: bindings v e).
  { rewrite <- BA. unfold bindings, set_var. cbn [e_vars filter fst]. rewrite (proj2 (str_eqb_eq v v) eq_refl). reflexivity. }
  assert (X : get_var e2 v = Some a) by (rewrite get_bindings, BB, BS; reflexivity).
  destruct (outcome_eval _ _ _ _ _ HA) as [n1' KA]. destruct (outcome_eval _ _ _ _ _ HB) as [n2' KB].
  exists (remove_var e2 v). split.
  - apply eval_outcome with (n := S (S (S (S (Nat.max n1' n2'))))); [|discriminate].
    unfold kept_after. rewrite eval_S. unfold eval_step. cbn [x_type x_right]. rewrite eval_S. unfold eval_step. cbn [x_type x_left x_right x_name].
    rewrite KA by lia. cbn [bind]. rewrite eval_S. unfold eval_step. cbn [x_type]. unfold binary. cbn [x_left x_right]. rewrite KB by lia. cbn [bind].
    rewrite eval_S. unfold eval_step. cbn [x_type x_name]. rewrite X. reflexivity.
  - unfold bindings at 1. unfold remove_var. cbn [e_vars]. rewrite remove_same. fold (bindings v e2). rewrite BB, BS. reflexivity.
Qed.
Fixpoint bound_list (x : xnode) : list str :=
  match x with
  | XNil => []
  | XNode ty n l r =>
      (match ty with
       | X_ForVarBind | X_LetVarBind | X_SomeVarBind | X_EveryVarBind => [n]
       | X_InlineFunction => names (x_right r)
       | _ => []
       end) ++ bound_list l ++ bound_list r
  end.
Lemma bound_listed v x : names_bound v x -> In v (bound_list x).
Proof. intros H. induction H; cbn [bound_list]; repeat (apply in_or_app; first [left; solve [cbn; auto]|right]); auto. Qed.
(* a quantifier that leaves its variable behind, and a call of a function *)
Example C20_frame_example :
  let B := parsed "(some $y in (1, 2) satisfies $y = 2), (function($z) { every $w in $z satisfies $w = 4 })(3)" in
  ~ names_bound (lit "x") B /\ (names_bound (lit "y") B /\ names_bound (lit "z") B) /\
  (forall h c, exists e', outcome h c B (set_var new_eval_env (lit "x") [XIInteger 7]) (Ok ([XIBoolean true; XIBoolean false], e')) /\
     get_var e' (lit "x") = Some [XIInteger 7] /\ get_var e' (lit "y") = Some [XIInteger 2]) /\
  (forall h c, exists e', outcome h c (kept_after [] [] (lit "x") (parsed "7") B) new_eval_env (Ok ([XIBoolean true; XIBoolean false; XIInteger 7], e'))).
Proof.
  intros B. split; [|split; [|split]].
  - intros H. apply bound_listed in H. vm_compute in H. repeat (destruct H as [H|H]; [discriminate H|]). exact H.
  - split; unfold B; vm_compute; repeat (first [constructor; solve [cbn; auto]|apply nb_left; solve [repeat constructor]|apply nb_right]); repeat constructor.
  - intros h c. eexists. split; [split; [discriminate|exists 20; vm_compute; reflexivity]|]. split; vm_compute; reflexivity.
  - intros h c. eexists. split; [discriminate|exists 20; vm_compute; reflexivity].
Qed.

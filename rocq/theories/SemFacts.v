(* Facts for the meaning of expressions: evaluation with enough fuel, environments, loops. *)
Require Import Bool List NArith ZArith Ascii String Lia Sorted.
From Verif Require Import Str StrFacts Sax Dom Axes SpecEdit SpecAxes Lexer FuncTable Parser SpecExpr Num Item Func Types Eval EvalFacts
  SpecOper ItemFacts SpecFunc FuncFacts SpecEval EnvFacts SpecSem.
Import ListNotations.
Open Scope nat_scope.

(* with enough fuel *)
Definition evals (h : heap) (c : xseq) (x : xnode) (e : env) (v : xseq) (e' : env) : Prop :=
  exists N, forall m, N <= m -> eval h m c x e = Ok (v, e').
Lemma evals_outcome : forall h c x e v e', evals h c x e v e' -> outcome h c x e (Ok (v, e')).
Proof. intros h c x e v e' [N H]. split; [discriminate|]. exists N. apply H. auto. Qed.
Lemma outcome_evals : forall h c x e v e', outcome h c x e (Ok (v, e')) -> evals h c x e v e'.
Proof. intros h c x e v e' H. exact (outcome_eval _ _ _ _ _ H). Qed.
Lemma evals_S : forall h c x e v e', (exists N, forall m, N <= m -> eval_step h (eval h m) (call_function h m) c x e = Ok (v, e')) ->
  evals h c x e v e'.
Proof. intros h c x e v e' [N H]. exists (S N). intros m L. destruct m as [|m]; [lia|]. rewrite eval_S. apply H. lia. Qed.
Lemma evals_det : forall h c x e v e1 w e2, evals h c x e v e1 -> evals h c x e w e2 -> v = w /\ e1 = e2.
Proof.
  intros h c x e v e1 w e2 [N H] [M K]. specialize (H (N + M) ltac:(lia)). rewrite (K (N + M) ltac:(lia)) in H.
  injection H as -> ->. auto.
Qed.

(* ---- environments ---- *)
Definition inb (D : list str) (n : str) : bool := if in_dec (list_eq_dec N.eq_dec) n D then true else false.
Lemma inb_In : forall D n, inb D n = true <-> In n D.
Proof. intros D n. unfold inb. destruct (in_dec _ n D); split; auto; discriminate. Qed.
Lemma inb_not : forall D n, inb D n = false <-> ~ In n D.
Proof. intros D n. rewrite <- inb_In. destruct (inb D n); split; auto; try congruence. Qed.
Definition fresh (D : list str) (l : list (str * xseq)) : list (str * xseq) := filter (fun p => negb (inb D (fst p))) l.
Definition same (D : list str) (e e' : env) : Prop :=
  e_pos e = e_pos e' /\ e_last e = e_last e' /\ fresh D (e_vars e) = fresh D (e_vars e').
Lemma same_refl : forall D e, same D e e.
Proof. intros. split; [|split]; reflexivity. Qed.
Lemma same_trans : forall D a b c, same D a b -> same D b c -> same D a c.
Proof. intros D a b c [H1 [H2 H3]] [K1 [K2 K3]]. split; [|split]; congruence. Qed.
(* parentheses do not matter *)
Definition bare (y : xnode) (e : expr) : Prop := x_type y <> X_ParenthesizedExpr \/ e = EEmpty.
Lemma reads_nonnil : forall x e, reads x e -> x <> XNil.
Proof. intros x e R. destruct R; discriminate. Qed.
Lemma filter_nil : forall (A : Type) (k : A -> bool), filter k [] = [].
Proof. reflexivity. Qed.
(* where there is no some and no every, fewer stale variables do no harm *)
Lemma hygienic_sub : forall e D D', (forall n, In n D' -> In n D) -> hygienic D e -> hygienic [] e -> hygienic D' e.
Proof.
  assert (W : forall (k : str -> bool) D D', (forall n, In n D' -> In n D) -> forall n, In n (filter k D') -> In n (filter k D)).
  { intros k D D' H n I. apply filter_In in I. apply filter_In. destruct I. auto. }
  fix IH 1. intros e D D' S H K. destruct e; cbn [hygienic filter] in *.
  1-32: try exact I.
  - intro Q. apply H. auto.
  - revert H K. induction args as [|a l L]; [auto|]. intros [H1 H2] [K1 K2]. split; [exact (IH _ D D' S H1 K1)|exact (L H2 K2)].
  - destruct H, K. split; eauto.
  - exact (IH _ D D' S H K).
  - exact (IH _ D D' S H K).
  - exact (IH _ D D' S H K).
  - destruct H as [? [? ?]], K as [? [? ?]]. split; [|split]; eauto.
  - destruct H as [HA [HB ?]], K as [KA [KB K]]. destruct K as [K|[]]. split; [exact (IH _ D D' S HA KA)|]. split; [|auto]. exact (IH _ _ _ (W _ D D' S) HB KB).
  - destruct H as [HA HB], K as [KA KB]. split; [exact (IH _ D D' S HA KA)|]. exact (IH _ _ _ (W _ D D' S) HB KB).
  - revert H K. induction ps as [|a l L]; [auto|]. intros [H1 H2] [K1 K2]. split; [exact (IH _ D D' S H1 K1)|exact (L H2 K2)].
  - destruct H, K. split; eauto.
  - destruct H as [H0 H], K as [K0 K]. split; [eauto|]. clear H0 K0. revert H K. induction args as [|a l L]; [auto|]. intros [H1 H2] [K1 K2]. split; [exact (IH _ D D' S H1 K1)|exact (L H2 K2)].
  - destruct H as [H0 H], K as [K0 K]. split; [eauto|]. clear H0 K0. revert H K. induction rest as [|a l L]; [auto|]. intros [H1 H2] [K1 K2]. split; [exact (IH _ D D' S H1 K1)|exact (L H2 K2)].
  - revert H K. induction es as [|a l L]; [auto|]. intros [H1 H2] [K1 K2]. split; [exact (IH _ D D' S H1 K1)|exact (L H2 K2)].
  - exact (IH _ D D' S H K).
  - revert H K. induction es as [|a l L]; [auto|]. intros [[H1 H3] H2] [[K1 K3] K2]. split; [split|]; [exact (IH _ D D' S H1 K1)|exact (IH _ D D' S H3 K3)|exact (L H2 K2)].
  - exact (IH _ D D' S H K).
  - exact (IH _ D D' S H K).
  - destruct H, K. split; eauto.
  - exact (IH _ _ _ (W _ D D' S) H K).
  - destruct H as [HV [H0 H]], K as [KV [K0 K]]. split; [intros E Q; apply (HV E); auto|]. split; [eauto|]. clear HV KV H0 K0. revert H K.
    induction args as [|a l L]; [auto|]. intros [H1 H2] [K1 K2]. split; [exact (IH _ D D' S H1 K1)|exact (L H2 K2)].
  - revert H K. induction args as [|a l L]; [auto|]. intros [H1 H2] [K1 K2]. split; [exact (IH _ D D' S H1 K1)|exact (L H2 K2)].
  - revert H K. induction args as [|a l L]; [auto|]. intros [H1 H2] [K1 K2]. split; [|exact (L H2 K2)]. destruct a; [exact (IH _ D D' S H1 K1)|exact I].
  - exact (IH _ D D' S H K).
  - revert D D' S H K. induction bs as [|a l L]; intros D D' S H K; [eauto|]. destruct H as [H1 [H2 H3]], K as [K1 [K2 K3]]. cbn [filter] in K3.
    split; [eauto|]. split; [destruct K2 as [Q|[Q|[]]]; auto|]. eapply L; [|exact H3|exact K3]. apply W. exact S.
Qed.
(* what a variable of the meaning is in the environment *)
Definition bound_as (D : list str) (b : option bound) (o : option xseq) : Prop :=
  match b with
  | None => o = None
  | Some (Bval v) => o = Some v
  | Some (Bfn fe _) => exists t, o = Some [XIFun t] /\ is_function fe /\ reads t fe /\ bare t fe /\ wf fe /\ hygienic D fe /\ hygienic [] fe
  end.
Lemma bound_as_sub : forall D D' b o, (forall n, In n D' -> In n D) -> bound_as D b o -> bound_as D' b o.
Proof.
  intros D D' [[v|fe ev]|] o S H; cbn [bound_as] in *; auto. destruct H as [t [E [FN [R [B [WF [H K]]]]]]]. exists t. do 5 (split; auto).
  split; auto. eapply hygienic_sub; eauto.
Qed.
Definition agree (D : list str) (vs : vars) (e : env) : Prop := forall n, ~ In n D -> bound_as D (vs n) (lookup_var n (e_vars e)).
Lemma str_eqb_dec : forall a b, str_eqb a b = if list_eq_dec N.eq_dec a b then true else false.
Proof.
  intros a b. destruct (list_eq_dec N.eq_dec a b) as [->|H]; [apply str_eqb_eq; auto|].
  destruct (str_eqb a b) eqn:E; auto. apply str_eqb_eq in E. congruence.
Qed.
Lemma lookup_fresh : forall D n l, ~ In n D -> lookup_var n (fresh D l) = lookup_var n l.
Proof.
  intros D n l H. induction l as [|[m v] l IH]; auto. cbn [fresh filter fst]. destruct (inb D m) eqn:E; cbn [negb].
  - cbn [lookup_var]. destruct (str_eqb m n) eqn:Q; auto. apply str_eqb_eq in Q. subst. apply inb_In in E. contradiction.
  - cbn [lookup_var]. destruct (str_eqb m n); auto.
Qed.
Lemma agree_same : forall D vs e e', agree D vs e -> same D e e' -> agree D vs e'.
Proof.
  intros D vs e e' A [_ [_ S]] n H. specialize (A n H). rewrite <- (lookup_fresh D n (e_vars e)) in A by auto. rewrite <- (lookup_fresh D n (e_vars e')) by auto.
  rewrite <- S. exact A.
Qed.
Definition without (D : list str) (v : str) : list str :=
  filter (fun n => if list_eq_dec N.eq_dec n v then false else true) D.
Lemma without_In : forall D v n, In n (without D v) <-> In n D /\ n <> v.
Proof.
  intros D v n. unfold without. rewrite filter_In. destruct (list_eq_dec N.eq_dec n v); split; intros [H K]; split; auto; congruence.
Qed.
Lemma agree_bind : forall D vs e v x, agree D vs e -> agree (without D v) (bind_var v x vs) (set_var e v x).
Proof.
  intros D vs e v x A n H. rewrite without_In in H. unfold bind_var, set_var. cbn [e_vars lookup_var]. rewrite str_eqb_dec.
  destruct (list_eq_dec N.eq_dec n v) as [->|Q].
  - destruct (list_eq_dec N.eq_dec v v); [reflexivity|congruence].
  - destruct (list_eq_dec N.eq_dec v n); [congruence|]. eapply bound_as_sub; [|apply A; intro I; apply H; auto].
    intros m M. apply without_In in M. destruct M. auto.
Qed.
Lemma agree_bind_fun : forall D vs e v fe ev t, agree D vs e -> is_function fe -> reads t fe -> bare t fe -> wf fe -> hygienic D fe -> hygienic [] fe ->
  agree (without D v) (bind_fun v fe ev vs) (set_var e v [XIFun t]).
Proof.
  intros D vs e v fe ev t A FN R B WF HY H0 n H. rewrite without_In in H. unfold bind_fun, set_var. cbn [e_vars lookup_var]. rewrite str_eqb_dec.
  destruct (list_eq_dec N.eq_dec n v) as [->|Q].
  - destruct (list_eq_dec N.eq_dec v v); [|congruence]. exists t. do 5 (split; auto). split; auto. eapply hygienic_sub; [|exact HY|exact H0].
    intros m M. apply without_In in M. destruct M. auto.
  - destruct (list_eq_dec N.eq_dec v n); [congruence|]. eapply bound_as_sub; [|apply A; intro I; apply H; auto].
    intros m M. apply without_In in M. destruct M. auto.
Qed.
Lemma fresh_fresh : forall D v l, fresh D (fresh (without D v) l) = fresh D l.
Proof.
  intros D v l. induction l as [|[m x] l IH]; auto. cbn [fresh filter fst]. destruct (inb (without D v) m) eqn:E; cbn [negb].
  - apply inb_In, without_In in E. destruct E as [E _]. apply inb_In in E. rewrite E. cbn [negb]. exact IH.
  - cbn [filter fst]. destruct (inb D m); cbn [negb]; [exact IH|f_equal; exact IH].
Qed.
Lemma remove_fresh : forall D v l, ~ In v D -> fresh D (remove_first v l) = remove_first v (fresh D l).
Proof.
  intros D v l H. induction l as [|[m x] l IH]; auto. cbn [remove_first fresh filter fst].
  destruct (str_eqb m v) eqn:Q.
  - apply str_eqb_eq in Q. subst m. replace (inb D v) with false by (symmetry; apply inb_not; auto). cbn [negb remove_first].
    rewrite str_eqb_refl. reflexivity.
  - cbn [filter fst]. destruct (inb D m); cbn [negb]; [exact IH|]. cbn [remove_first]. rewrite Q. f_equal. exact IH.
Qed.
Lemma not_without : forall D v, ~ In v (without D v).
Proof. intros D v H. apply without_In in H. destruct H. congruence. Qed.
Lemma fresh_binding : forall D v x e e2, same (without D v) (set_var e v x) e2 ->
  fresh (without D v) (e_vars e2) = (v, x) :: fresh (without D v) (e_vars e).
Proof.
  intros D v x e e2 [_ [_ S]]. rewrite <- S. unfold set_var. cbn [e_vars fresh filter fst].
  replace (inb (without D v) v) with false by (symmetry; apply inb_not, not_without). reflexivity.
Qed.
Lemma same_unbind : forall D v x e e2, same (without D v) (set_var e v x) e2 -> same D e (remove_var e2 v).
Proof.
  intros D v x e e2 S. assert (B := fresh_binding D v x e e2 S). destruct S as [H1 [H2 S]].
  split; [exact H1|]. split; [exact H2|]. unfold remove_var. cbn [e_vars].
  rewrite <- (fresh_fresh D v (e_vars e)), <- (fresh_fresh D v (remove_first v (e_vars e2))). f_equal.
  rewrite remove_fresh by apply not_without. rewrite B. cbn [remove_first]. rewrite str_eqb_refl. reflexivity.
Qed.
Lemma same_leave : forall D v x e e2, In v D -> same (without D v) (set_var e v x) e2 -> same D e e2.
Proof.
  intros D v x e e2 I S. assert (B := fresh_binding D v x e e2 S). destruct S as [H1 [H2 S]].
  split; [exact H1|]. split; [exact H2|].
  rewrite <- (fresh_fresh D v (e_vars e)), <- (fresh_fresh D v (e_vars e2)), B. cbn [fresh filter fst].
  apply inb_In in I. rewrite I. reflexivity.
Qed.
Lemma same_pos : forall D e p l e2, same D (set_pos_last e p l) e2 -> same D e (set_pos_last e2 (e_pos e) (e_last e)).
Proof. intros D e p l e2 [_ [_ S]]. split; [reflexivity|]. split; [reflexivity|]. exact S. Qed.
Lemma agree_pos : forall D vs e p l, agree D vs e -> agree D vs (set_pos_last e p l).
Proof. intros D vs e p l A n H. apply A. exact H. Qed.

(* ---- the value of a tree in every environment that agrees with the focus and the variables ---- *)
Definition at_focus (f : focus) (e : env) : Prop := e_pos e = f_pos f /\ e_last e = f_size f.
Definition yields (h : heap) (D : list str) (f : focus) (vs : vars) (x : xnode) (v : xseq) : Prop :=
  forall e, at_focus f e -> agree D vs e -> exists e', evals h [f_item f] x e v e' /\ same D e e'.
Lemma at_focus_same : forall D f e e', at_focus f e -> same D e e' -> at_focus f e'.
Proof. intros D f e e' [H K] [S1 [S2 _]]. split; congruence. Qed.
Lemma yields_paren : forall h D f vs x v, x <> XNil -> yields h D f vs x v -> yields h D f vs (XNode X_ParenthesizedExpr [] x XNil) v.
Proof.
  intros h D f vs x v NX H e F A. destruct (H e F A) as [e' [[N E] S]]. exists e'. split; auto. apply evals_S.
  exists N. intros m L. unfold eval_step. cbn [x_type x_left]. destruct x; [congruence|]. cbn [is_nil]. apply E. auto.
Qed.
Lemma reads_bared : forall (K : xnode -> Prop), (forall x, x <> XNil -> K x -> K (XNode X_ParenthesizedExpr [] x XNil)) ->
  forall e x, reads x e -> (forall y, reads y e -> bare y e -> K y) -> K x.
Proof.
  intros K KP. fix IH 3. intros e x R H. destruct R.
  1: { apply KP; [eapply reads_nonnil; eauto|exact (IH _ _ R H)]. }
  all: apply H; [econstructor; eassumption|]; unfold bare; cbn [leaf x_type].
  all: try (left; discriminate).
  - left. destruct k; discriminate.
  - right. reflexivity.
  - left. destruct o; discriminate.
  - left. destruct m; discriminate.
  - left. destruct o; discriminate.
  - left. destruct c; discriminate.
  - left. destruct q; discriminate.
  - left. destruct (form_axis f); discriminate.
  - left. destruct treat; discriminate.
  - left. destruct q as [[]|]; discriminate.
Qed.
Lemma reads_yields : forall h D f vs e v x, reads x e -> (forall y, reads y e -> bare y e -> yields h D f vs y v) -> yields h D f vs x v.
Proof. intros h D f vs e v x R H. apply (reads_bared (fun x => yields h D f vs x v)) with (e := e); auto. intros. apply yields_paren; auto. Qed.
Lemma reads_op_yields : forall h D f vs e v x, reads_op x e -> (forall y, reads y e -> yields h D f vs y v) -> yields h D f vs x v.
Proof. intros h D f vs e v x R H. destruct R; auto. apply yields_paren; [eapply reads_nonnil; eauto|auto]. Qed.
Lemma reads_op_nonnil : forall x e, reads_op x e -> x <> XNil.
Proof. intros x e R. destruct R; [discriminate|eapply reads_nonnil; eauto]. Qed.

(* two operands *)
Lemma yields_binary : forall h D f vs x y ty nm l r fn v, yields h D f vs x l -> yields h D f vs y r ->
  (forall ev cf c x e, x_type x = ty -> eval_step h ev cf c x e = binary ev c x e fn) -> fn l r = Ok v ->
  yields h D f vs (XNode ty nm x y) v.
Proof.
  intros h D f vs x y ty nm l r fn v HX HY ST FN e F A. destruct (HX e F A) as [e1 [[N1 E1] S1]].
  destruct (HY e1 (at_focus_same _ _ _ _ F S1) (agree_same _ _ _ _ A S1)) as [e2 [[N2 E2] S2]].
  exists e2. split; [|eapply same_trans; eauto]. apply evals_S. exists (N1 + N2). intros m L.
  rewrite ST by reflexivity. unfold binary. cbn [x_left x_right]. rewrite E1 by lia. cbn [bind]. rewrite E2 by lia. cbn [bind].
  rewrite FN. reflexivity.
Qed.
Lemma yields_unary : forall h D f vs x nm ty r fn v, yields h D f vs x r ->
  (forall ev cf c x e, x_type x = ty -> eval_step h ev cf c x e = unary ev c x e fn) -> fn r = Ok v ->
  yields h D f vs (XNode ty nm XNil x) v.
Proof.
  intros h D f vs x nm ty r fn v HX ST FN e F A. destruct (HX e F A) as [e1 [[N1 E1] S1]]. exists e1. split; auto.
  apply evals_S. exists N1. intros m L. rewrite ST by reflexivity. unfold unary. cbn [x_left x_right]. rewrite E1 by lia. cbn [bind].
  rewrite FN. reflexivity.
Qed.
Lemma yields_logical : forall h D f vs x y nm (stop : bool) ty v t,
  (forall ev cf c x e, x_type x = ty -> eval_step h ev cf c x e = logical ev stop c x e) ->
  yields h D f vs x v -> ebv v t ->
  forall u, (t = stop -> u = stop) -> (t <> stop -> exists w, yields h D f vs y w /\ ebv w u) ->
  yields h D f vs (XNode ty nm x y) [XIBoolean u].
Proof.
  intros h D f vs x y nm stop ty v t ST HX T u U1 U2 e F A. destruct (HX e F A) as [e1 [[N1 E1] S1]].
  destruct (Bool.eqb t stop) eqn:Q.
  - apply eqb_prop in Q. rewrite (U1 Q). exists e1. split; auto. apply evals_S. exists N1. intros m L.
    rewrite ST by reflexivity. unfold logical. cbn [x_left x_right]. rewrite E1 by lia. cbn [bind].
    apply ebv_iff in T. rewrite T. cbn [bind]. rewrite Q, eqb_reflx. reflexivity.
  - apply eqb_false_iff in Q. destruct (U2 Q) as [w [HY W]].
    destruct (HY e1 (at_focus_same _ _ _ _ F S1) (agree_same _ _ _ _ A S1)) as [e2 [[N2 E2] S2]].
    exists e2. split; [|eapply same_trans; eauto]. apply evals_S. exists (N1 + N2). intros m L.
    rewrite ST by reflexivity. unfold logical. cbn [x_left x_right]. rewrite E1 by lia. cbn [bind].
    apply ebv_iff in T. rewrite T. cbn [bind]. apply eqb_false_iff in Q. rewrite Q. rewrite E2 by lia. cbn [bind].
    apply ebv_iff in W. rewrite W. reflexivity.
Qed.

(* loops *)
Lemma map_loop_yields : forall h D vs x p n (g : xitem -> xseq) l, 
  (forall it, In it l -> yields h D (mkFocus it p n) vs x (g it)) ->
  forall e, e_pos e = p -> e_last e = n -> agree D vs e ->
  exists e' N, same D e e' /\ forall m, N <= m -> map_loop (eval h m) x l e = Ok (flat_map g l, e').
Proof.
  intros h D vs x p n g l. induction l as [|it l IH]; intros H e P L A.
  - exists e, 0. split; [apply same_refl|]. reflexivity.
  - destruct (H it (or_introl eq_refl) e (conj P L) A) as [e1 [[N1 E1] S1]].
    destruct (IH (fun i I => H i (or_intror I)) e1) as [e2 [N2 [S2 E2]]].
    + destruct S1 as [Q _]. congruence.
    + destruct S1 as [_ [Q _]]. congruence.
    + eapply agree_same; eauto.
    + exists e2, (N1 + N2). split; [eapply same_trans; eauto|]. intros m M. cbn [map_loop]. cbn [f_item] in E1. rewrite E1 by lia. cbn [bind].
      rewrite E2 by lia. reflexivity.
Qed.
Lemma for_loop_yields : forall h D f vs x v (g : xitem -> xseq) l,
  (forall it, In it l -> yields h (without D v) f (bind_var v [it] vs) x (g it)) ->
  forall e, at_focus f e -> agree D vs e ->
  exists e' N, same D e e' /\ forall m, N <= m -> for_loop (eval h m) [f_item f] v x l e = Ok (flat_map g l, e').
Proof.
  intros h D f vs x v g l. induction l as [|it l IH]; intros H e F A.
  - exists e, 0. split; [apply same_refl|]. reflexivity.
  - destruct (H it (or_introl eq_refl) (set_var e v [it]) F (agree_bind _ _ _ _ _ A)) as [e1 [[N1 E1] S1]].
    apply same_unbind in S1.
    destruct (IH (fun i I => H i (or_intror I)) (remove_var e1 v)) as [e2 [N2 [S2 E2]]].
    + eapply at_focus_same; eauto.
    + eapply agree_same; eauto.
    + exists e2, (N1 + N2). split; [eapply same_trans; eauto|]. intros m M. cbn [for_loop]. rewrite E1 by lia. cbn [bind].
      rewrite E2 by lia. reflexivity.
Qed.
Lemma quant_loop_yields : forall h D f vs x v (stop : bool) (t : xitem -> bool) l, In v D ->
  (forall it, In it l -> exists w, yields h (without D v) f (bind_var v [it] vs) x w /\ ebv w (t it)) ->
  forall e, at_focus f e -> agree D vs e ->
  exists e' N, same D e e' /\ forall m, N <= m ->
    quant_loop (eval h m) stop [f_item f] v x l e = Ok ([XIBoolean (if stop then existsb t l else forallb t l)], e').
Proof.
  intros h D f vs x v stop t l ID. induction l as [|it l IH]; intros H e F A.
  - exists e, 0. split; [apply same_refl|]. intros. cbn [quant_loop existsb forallb]. destruct stop; reflexivity.
  - destruct (H it (or_introl eq_refl)) as [w [HW T1]].
    destruct (HW (set_var e v [it]) F (agree_bind _ _ _ _ _ A)) as [e1 [[N1 E1] S1]]. apply ebv_iff in T1.
    destruct (Bool.eqb (t it) stop) eqn:Q.
    + exists e1, N1. split; [eapply same_leave; eauto|]. intros m M. cbn [quant_loop]. rewrite E1 by lia. cbn [bind].
      rewrite T1. cbn [bind]. rewrite Q. cbn [existsb forallb]. apply eqb_prop in Q. rewrite Q. destruct stop; reflexivity.
    + apply same_unbind in S1. destruct (IH (fun i I => H i (or_intror I)) (remove_var e1 v)) as [e2 [N2 [S2 E2]]].
      * eapply at_focus_same; eauto.
      * eapply agree_same; eauto.
      * exists e2, (N1 + N2). split; [eapply same_trans; eauto|]. intros m M. cbn [quant_loop]. rewrite E1 by lia. cbn [bind].
        rewrite T1. cbn [bind]. rewrite Q. rewrite E2 by lia. cbn [existsb forallb]. apply eqb_false_iff in Q.
        destruct stop, (t it); try congruence; reflexivity.
Qed.

(* predicates *)
Definition position (rv : bool) (n k : nat) : nat := if rv then n - k else S k.
Lemma pick_cons : forall A (keep : nat -> bool) (a : A) l, pick keep (a :: l) = (if keep 1 then [a] else []) ++ pick (fun k => keep (S k)) l.
Proof.
  intros A keep a l. unfold pick. cbn [List.length seq combine filter map fst]. 
  assert (G : forall (l : list A) n, map snd (filter (fun p => keep (fst p)) (combine (seq (S n) (List.length l)) l)) =
                            map snd (filter (fun p => keep (S (fst p))) (combine (seq n (List.length l)) l))).
  { clear. induction l as [|b l IH]; intro n; auto. cbn [List.length seq combine filter fst]. destruct (keep (S n)); cbn [map snd]; rewrite IH; reflexivity. }
  destruct (keep 1); cbn [app map snd]; rewrite G; reflexivity.
Qed.
Lemma truth_keeps : forall v p b, predicate_truth v p b -> keeps v p = b.
Proof.
  intros v p b H. destruct H as [z p b H|b p|i p|p]; try reflexivity. cbn [keeps].
  destruct (Z.eqb_spec z (Z.of_nat p)) as [->|Q]; destruct b; auto; [symmetry; apply H; reflexivity|].
  exfalso. apply Q. apply H. reflexivity.
Qed.
Lemma filter_loop_yields : forall h D vs x rv n vals keep l i,
  (forall k it, nth_error l k = Some it -> yields h D (mkFocus it (position rv n (i + k)) n) vs x (vals (i + S k))) ->
  (forall k, k < List.length l -> keeps (vals (i + S k)) (position rv n (i + k)) = keep (S k)) ->
  forall e, agree D vs e ->
  exists e' N, same D e e' /\ forall m, N <= m -> filter_loop (eval h m) x rv n i l e = Ok (pick keep l, e').
Proof.
  intros h D vs x rv n vals keep l. revert keep. induction l as [|it l IH]; intros keep i H K e A.
  - exists e, 0. split; [apply same_refl|]. reflexivity.
  - assert (H0 := H 0 it eq_refl). replace (i + 0) with i in H0 by lia.
    set (e0 := set_pos_last e (position rv n i) n).
    destruct (H0 e0 (conj eq_refl eq_refl) (agree_pos _ _ _ _ _ A)) as [e1 [[N1 E1] S1]]. apply same_pos in S1.
    destruct (IH (fun k => keep (S k)) (S i)) with (e := set_pos_last e1 (e_pos e) (e_last e)) as [e2 [N2 [S2 E2]]].
    + intros k it' E. specialize (H (S k) it' E). replace (i + S k) with (S i + k) in H by lia. replace (S i + S k) with (i + S (S k)) by lia. exact H.
    + intros k L. specialize (K (S k)). cbn [List.length] in K. replace (i + S k) with (S i + k) in K by lia.
      replace (S i + S k) with (i + S (S k)) by lia. apply K. lia.
    + eapply agree_same; eauto.
    + exists e2, (N1 + N2). split; [eapply same_trans; eauto|]. intros m M. cbn [filter_loop].
      replace (if rv then n - i else i + 1) with (position rv n i) by (unfold position; destruct rv; lia).
      cbn [f_item] in E1. fold e0. rewrite E1 by lia. cbn [bind]. rewrite E2 by lia. cbn [bind]. rewrite pick_cons.
      specialize (K 0). cbn [List.length] in K. replace (i + 0) with i in K by lia. rewrite K by lia. destruct (keep 1); reflexivity.
Qed.

(* Evaluation follows the meaning of expressions. *)
Require Import Bool List NArith ZArith Ascii String Lia Sorted.
From Verif Require Import Str StrFacts Sax Dom Axes SpecEdit SpecAxes SessionFacts Lexer FuncTable Parser SpecExpr Num Item Func Types Eval EvalFacts
  SpecOper ItemFacts SpecFunc FuncFacts SpecTypes SpecEval EnvFacts SpecInt IntFacts PropInt SpecDbl SpecArith ArithFacts LibNum SpecSem SemFacts SemNode SemLib SemOper SemIn SemItem SemMore.
Import ListNotations.
Open Scope nat_scope.

(* a path expression's tree, or the rest of one *)
Inductive tails : xnode -> list (bool * expr) -> Prop :=
| tl_last : forall x e, reads_op x e -> tails x [(false, e)]
| tl_last' : forall nm x e, reads_op x e -> tails (XNode X_OperatorPath nm x XNil) [(false, e)]
| tl_slash : forall nm x y e r, r <> [] -> reads_op x e -> tails y r -> tails (XNode X_OperatorPath nm x y) ((false, e) :: r)
| tl_deep : forall nm y e r, tails y ((false, e) :: r) -> tails (XNode X_OperatorPath nm any_depth y) ((true, e) :: r).
Lemma tail_tails : forall y r, reads_tail y r -> r <> [] -> tails y r.
Proof.
  fix IH 3. intros y r T N. destruct T as [|nm x y e r O T|nm nm' x y e r O T]; [congruence| |].
  - destruct r as [|p r]; [inversion T; subst; apply tl_last'; auto|]. apply tl_slash; [discriminate|auto|]. apply (IH _ _ T). discriminate.
  - apply tl_deep. destruct r as [|p r]; [inversion T; subst; apply tl_last'; auto|]. apply tl_slash; [discriminate|auto|]. apply (IH _ _ T). discriminate.
Qed.
Lemma rel_tails : forall y a r, reads_rel y a r -> tails y ((false, a) :: r).
Proof. intros y a r R. destruct R as [x a O|nm x y a r O T N]; [constructor; auto|]. apply tl_slash; auto. apply tail_tails; auto. Qed.
Lemma tails_nonnil : forall y r, tails y r -> y <> XNil.
Proof. intros y r T. destruct T; try discriminate. eapply reads_op_nonnil; eauto. Qed.

Lemma hyg_call : forall D n args, hygienic D (ECall n args) -> Forall (hygienic D) args.
Proof. intros D n args. induction args as [|a args IH]; intro H; constructor; destruct H; auto. Qed.
Lemma hyg_step : forall D f t ps, hygienic D (EStep f t ps) -> Forall (hygienic D) ps.
Proof. intros D f t ps. induction ps as [|a args IH]; intro H; constructor; destruct H; auto. Qed.
Lemma hyg_path : forall D s a r, hygienic D (EPath s a r) -> hygienic D a /\ Forall (fun x => hygienic D (snd x)) r.
Proof. intros D s a r. induction r as [|b r IH]; intros [H K]; split; auto; destruct K; constructor; auto. apply IH. split; auto. Qed.
Lemma wf_call : forall n args, wf (ECall n args) -> Forall wf args.
Proof. intros n args [_ [_ H]]. induction args as [|a args IH]; constructor; destruct H; auto. Qed.
Lemma wf_step : forall f t ps, wf (EStep f t ps) -> wf_test t /\ Forall wf ps.
Proof. intros f t ps [T H]. split; [exact T|]. induction ps as [|a args IH]; constructor; destruct H; auto. Qed.
Lemma wf_path : forall s a r, wf (EPath s a r) -> wf a /\ Forall (fun x => wf (snd x)) r.
Proof. intros s a r [_ [W H]]. split; auto. induction r as [|b r IH]; constructor; destruct H; auto. Qed.

Lemma hyg_pcall : forall D p n args, hygienic D (EPCall p n args) -> Forall (hygienic D) args.
Proof. intros D p n args. induction args as [|a args IH]; intro H; constructor; destruct H; auto. Qed.
Lemma wf_pcall : forall p n args, wf (EPCall p n args) -> Forall wf args.
Proof. intros p n args [_ [_ H]]. induction args as [|a args IH]; constructor; destruct H; auto. Qed.
Lemma hyg_arrow : forall D v a n args, hygienic D (EArrow v a n args) -> Forall (hygienic D) (a :: args).
Proof. intros D v a n args [_ [H K]]. constructor; auto. induction args as [|x args IH]; constructor; destruct K; auto. Qed.
Lemma wf_arrow : forall v a n args, wf (EArrow v a n args) -> Forall wf (a :: args).
Proof. intros v a n args [H [_ K]]. constructor; auto. induction args as [|x args IH]; constructor; destruct K; auto. Qed.
Lemma hyg_square : forall D es, hygienic D (ESquare es) -> Forall (hygienic D) es.
Proof. intros D es. induction es as [|a es IH]; intro H; constructor; destruct H; auto. Qed.
Lemma wf_square : forall es, wf (ESquare es) -> Forall wf es.
Proof. intros es. induction es as [|a es IH]; intro H; constructor; destruct H; auto. Qed.
Lemma hyg_map : forall D es, hygienic D (EMap es) -> Forall (hygienic D) (map fst es) /\ Forall (hygienic D) (map snd es).
Proof. intros D es. induction es as [|a es IH]; intro H; [split; constructor|]. destruct H as [[H1 H2] H]. destruct (IH H). split; constructor; auto. Qed.
Lemma wf_map : forall es, wf (EMap es) -> Forall wf (map fst es) /\ Forall wf (map snd es).
Proof. intros es. induction es as [|a es IH]; intro H; [split; constructor|]. destruct H as [[H1 H2] H]. destruct (IH H). split; constructor; auto. Qed.
Lemma hyg_dyn : forall D a args, hygienic D (EDyn a args) -> hygienic D a /\ Forall (hygienic D) args.
Proof. intros D a args [H K]. split; auto. induction args as [|x args IH]; constructor; destruct K; auto. Qed.
Lemma wf_dyn : forall a args, wf (EDyn a args) -> wf a /\ Forall wf args.
Proof. intros a args [H K]. split; auto. induction args as [|x args IH]; constructor; destruct K; auto. Qed.
Lemma all_length : forall h order f vs es l, means_all h order f vs es l -> List.length l = List.length es.
Proof. intros h order f vs es. revert f vs. induction es as [|x es IH]; intros f vs l M; inversion M; subst; auto. cbn [List.length]. f_equal. eapply IH; eauto. Qed.

Lemma ends_q : forall n, ends_with_q (lit "xs:" ++ n ++ lit "?") = true.
Proof. intro n. unfold ends_with_q. rewrite app_assoc, rev_app_distr. reflexivity. Qed.
Lemma ends_no_q : forall n, plain_name n -> ends_with_q (lit "xs:" ++ n) = false.
Proof.
  intros n [NC _]. unfold ends_with_q. rewrite rev_app_distr. 
  assert (Q : forall c, In c n -> (c =? 63)%N = false).
  { destruct n as [|a n]; [intros c []|]. destruct NC as [N1 N2]. rewrite Forall_forall in N2. intros c I. apply N.eqb_neq. intros ->.
    destruct I as [->|I]; [vm_compute in N1; discriminate N1|]. apply N2 in I. vm_compute in I. discriminate I. }
  destruct (rev n) as [|c r] eqn:E; [reflexivity|]. cbn [app]. apply Q. apply in_rev. rewrite E. left. reflexivity.
Qed.
Lemma nodes_no_atom : forall l, is_no_atom (nodes l) = true.
Proof. induction l; auto. Qed.
Lemma nodes_app : forall l m, nodes (l ++ m) = nodes l ++ nodes m.
Proof. intros. apply map_app. Qed.
Lemma path_loop_nodes : forall h D vs y p s (g : nat -> list nat) l,
  (forall n, In n l -> yields h D (mkFocus (XINode n) p s) vs y (nodes (g n))) ->
  forall e b acc, e_pos e = p -> e_last e = s -> agree D vs e ->
  exists e' b' N, same D e e' /\ (b' = false -> b = false /\ flat_map g l = []) /\
    forall m, N <= m -> path_loop (eval h m) y (nodes l) b false acc e = Ok (b', acc ++ nodes (flat_map g l), e').
Proof.
  intros h D vs y p s g l. induction l as [|n l IH]; intros H e b acc P L A.
  - exists e, b, 0. split; [apply same_refl|]. split; [auto|]. intros. cbn. rewrite app_nil_r. reflexivity.
  - destruct (H n (or_introl eq_refl) e (conj P L) A) as [e1 [[N1 E1] S1]]. cbn [f_item] in E1.
    assert (P1 : e_pos e1 = p) by (destruct S1 as [Q _]; congruence).
    assert (L1 : e_last e1 = s) by (destruct S1 as [_ [Q _]]; congruence).
    assert (A1 := agree_same _ _ _ _ A S1).
    destruct (g n) as [|i r] eqn:G.
    + destruct (IH (fun i I => H i (or_intror I)) e1 b acc P1 L1 A1) as [e2 [b' [N2 [S2 [B E2]]]]].
      exists e2, b', (N1 + N2). split; [eapply same_trans; eauto|]. split; [cbn [flat_map]; rewrite G; exact B|].
      intros m M. cbn [nodes map path_loop]. rewrite E1 by lia. cbn [bind nodes map]. fold (nodes l). rewrite E2 by lia.
      cbn [flat_map]. rewrite G. reflexivity.
    + destruct (IH (fun i I => H i (or_intror I)) e1 true (acc ++ nodes (i :: r)) P1 L1 A1) as [e2 [b' [N2 [S2 [B E2]]]]].
      exists e2, b', (N1 + N2). split; [eapply same_trans; eauto|]. split; [intro Q; destruct (B Q); discriminate|].
      intros m M. cbn [nodes map path_loop]. rewrite E1 by lia. cbn [bind]. fold (nodes l). rewrite nodes_no_atom.
      change (nodes (i :: r)) with (XINode i :: nodes r) at 1. cbn iota. rewrite orb_true_r. cbn [negb orb andb].
      rewrite E2 by lia. cbn [flat_map]. rewrite G, nodes_app, app_assoc. reflexivity.
Qed.
Lemma path_loop_atoms : forall h D vs y p s (g : nat -> xseq) l,
  (forall n, In n l -> yields h D (mkFocus (XINode n) p s) vs y (g n)) -> (forall n it, In n l -> In it (g n) -> atomic it) ->
  forall e b acc, e_pos e = p -> e_last e = s -> agree D vs e ->
  exists e' N, same D e e' /\
    forall m, N <= m -> path_loop (eval h m) y (nodes l) false b acc e = Ok (false, acc ++ flat_map g l, e').
Proof.
  intros h D vs y p s g l. induction l as [|n l IH]; intros H AT e b acc P L A.
  - exists e, 0. split; [apply same_refl|]. intros. cbn. rewrite app_nil_r. reflexivity.
  - destruct (H n (or_introl eq_refl) e (conj P L) A) as [e1 [[N1 E1] S1]]. cbn [f_item] in E1.
    assert (P1 : e_pos e1 = p) by (destruct S1 as [Q _]; congruence).
    assert (L1 : e_last e1 = s) by (destruct S1 as [_ [Q _]]; congruence).
    assert (A1 := agree_same _ _ _ _ A S1).
    destruct (g n) as [|i r] eqn:G.
    + destruct (IH (fun i I => H i (or_intror I)) (fun n it I => AT n it (or_intror I)) e1 b acc P1 L1 A1) as [e2 [N2 [S2 E2]]].
      exists e2, (N1 + N2). split; [eapply same_trans; eauto|]. 
      intros m M. cbn [nodes map path_loop]. rewrite E1 by lia. cbn [bind]. fold (nodes l). rewrite E2 by lia.
      cbn [flat_map]. rewrite G. reflexivity.
    + destruct (IH (fun i I => H i (or_intror I)) (fun n it I => AT n it (or_intror I)) e1 true (acc ++ i :: r) P1 L1 A1) as [e2 [N2 [S2 E2]]].
      exists e2, (N1 + N2). split; [eapply same_trans; eauto|]. 
      intros m M. cbn [nodes map path_loop]. rewrite E1 by lia. cbn [bind]. fold (nodes l).
      assert (NA : is_no_atom (i :: r) = false).
      { cbn [is_no_atom forallb]. replace (is_node i) with false; [reflexivity|]. symmetry. 
        assert (T : atomic i) by (apply (AT n); [left; auto|rewrite G; left; auto]). destruct i; auto. destruct (T i). reflexivity. }
      rewrite NA. cbn [negb orb andb]. rewrite orb_true_r. rewrite E2 by lia. cbn [flat_map]. rewrite G, <- app_assoc. reflexivity.
Qed.

Section Main.
  Variable h : heap.
  Variable order : list nat.
  Hypothesis SE : session h.
  Hypothesis PO : preorder h 0 order.
  Hypothesis AP : apart h.

  Lemma path_nodes : forall D f vs nm x y l g r, x <> XNil -> y <> XNil -> yields h D f vs x (nodes l) ->
    (forall n, In n l -> yields h D (mkFocus (XINode n) (f_pos f) (f_size f)) vs y (nodes (g n))) ->
    (forall n i, In n l -> In i (g n) -> in_document h 0 i) ->
    exactly order (fun x => exists n, In n l /\ In x (g n)) r ->
    yields h D f vs (XNode X_OperatorPath nm x y) (nodes r).
  Proof.
    intros D f vs nm x y l g r NX NY HX HY IN X e F A. destruct (HX e F A) as [e1 [[N1 E1] S1]].
    destruct (path_loop_nodes h D vs y (f_pos f) (f_size f) g l HY e1 false []) as [e2 [b [N2 [S2 [B E2]]]]].
    { apply (at_focus_same _ _ _ _ F S1). } { apply (at_focus_same _ _ _ _ F S1). } { eapply agree_same; eauto. }
    exists e2. split; [|eapply same_trans; eauto]. apply evals_S. exists (N1 + N2). intros m M. unfold eval_step. cbn [x_type x_right].
    unfold eval_left. cbn [x_left]. replace (is_nil x) with false by (destruct x; [congruence|reflexivity]).
    replace (is_nil y) with false by (destruct y; [congruence|reflexivity]). rewrite E1 by lia. cbn [bind]. rewrite nodes_no_atom. cbn [negb].
    rewrite E2 by lia. cbn [bind]. rewrite app_nil_l. 
    assert (X' : exactly order (fun x => In x (flat_map g l)) r).
    { eapply exactly_ext; [|exact X]. intro z. rewrite in_flat_map. reflexivity. }
    assert (IN' : forall x, In x (flat_map g l) -> in_document h 0 x).
    { intros z I. apply in_flat_map in I. destruct I as [n [I J]]. eauto. }
    assert (SG := sort_gives h order SE PO (flat_map g l) r IN' X').
    destruct b.
    - rewrite nodes_nodeset, SG. reflexivity.
    - destruct (B eq_refl) as [_ E]. rewrite E in SG |- *. unfold sort_by_doc_order in SG. cbn in SG. injection SG as <-. reflexivity.
  Qed.
  Lemma path_values : forall D f vs nm x y l g, x <> XNil -> y <> XNil -> yields h D f vs x (nodes l) ->
    (forall n, In n l -> yields h D (mkFocus (XINode n) (f_pos f) (f_size f)) vs y (g n)) ->
    (forall n it, In n l -> In it (g n) -> atomic it) ->
    yields h D f vs (XNode X_OperatorPath nm x y) (flat_map g l).
  Proof.
    intros D f vs nm x y l g NX NY HX HY AT e F A. destruct (HX e F A) as [e1 [[N1 E1] S1]].
    destruct (path_loop_atoms h D vs y (f_pos f) (f_size f) g l HY AT e1 false []) as [e2 [N2 [S2 E2]]].
    { apply (at_focus_same _ _ _ _ F S1). } { apply (at_focus_same _ _ _ _ F S1). } { eapply agree_same; eauto. }
    exists e2. split; [|eapply same_trans; eauto]. apply evals_S. exists (N1 + N2). intros m M. unfold eval_step. cbn [x_type x_right].
    unfold eval_left. cbn [x_left]. replace (is_nil x) with false by (destruct x; [congruence|reflexivity]).
    replace (is_nil y) with false by (destruct y; [congruence|reflexivity]). rewrite E1 by lia. cbn [bind]. rewrite nodes_no_atom. cbn [negb].
    rewrite E2 by lia. reflexivity.
  Qed.
  Lemma yields_path_nil : forall D f vs nm x v, x <> XNil -> yields h D f vs x v -> yields h D f vs (XNode X_OperatorPath nm x XNil) v.
  Proof.
    intros D f vs nm x v NX HX e F A. destruct (HX e F A) as [e1 [[N1 E1] S1]]. exists e1. split; auto. apply evals_S. exists N1.
    intros m M. unfold eval_step. cbn [x_type x_right]. unfold eval_left. cbn [x_left].
    replace (is_nil x) with false by (destruct x; [congruence|reflexivity]). rewrite E1 by lia. reflexivity.
  Qed.
  (* a step without predicates *)
  Lemma yields_step : forall D p s vs n a t px l r, in_document h 0 n -> test_ok t -> 
    (kind h n = Attribute -> a <> A_following /\ a <> A_preceding) ->
    exactly order (fun x => axis_has h order a x n /\ passes h a t x) l ->
    (forall e, agree D vs e -> exists e' N, same D e e' /\ forall m, N <= m -> filter_by_predicates (eval h m) px (nodes l) e = Ok (r, e')) ->
    (forall it, In it r -> In it (nodes l)) ->
    yields h D (mkFocus (XINode n) p s) vs (XNode (anode a) (test_name t) (test_tree t) px) r.
  Proof.
    intros D p s vs n a t px l r I T AT X HP SUB e F A.
    destruct (step_exactly h order SE PO AP n a t px I T AT) as [l' [E X']].
    assert (l' = l) by exact (SemNode.exactly_unique h order SE PO _ _ _ X' X). subst l'.
    destruct (HP e A) as [e' [N [S EP]]]. exists e'. split; auto. apply evals_S. exists N. intros m M.
    assert (R : seq_of_nodes (to_nodeset r) = r).
    { clear - SUB. induction r as [|it r IH]; auto. cbn [to_nodeset flat_map]. 
      destruct (proj1 (in_map_iff _ _ _) (SUB it (or_introl eq_refl))) as [i [<- _]]. cbn [app seq_of_nodes map].
      f_equal. apply IH. intros z Z. apply SUB. right. auto. }
    assert (G : match_location_path h (eval h m) [XINode n] (XNode (anode a) (test_name t) (test_tree t) px) e = Ok (r, e')).
    { unfold match_location_path. cbn [to_nodeset flat_map app loc_path_loop]. unfold match_loc_step. rewrite E. cbn [bind x_right].
      change (seq_of_nodes l) with (nodes l).
      replace (if is_nil px then Ok (nodes l, e) else filter_by_predicates (eval h m) px (nodes l) e) with (Ok (r, e')).
      - cbn [bind]. rewrite app_nil_r, R. reflexivity.
      - specialize (EP m M). destruct px; [cbn in EP; cbn [is_nil]; congruence|cbn [is_nil]; congruence]. }
    unfold eval_step. cbn [x_type f_item]. destruct a; exact G.
  Qed.
  Lemma yields_root : forall D p s vs n nm, in_document h 0 n -> yields h D (mkFocus (XINode n) p s) vs (leaf X_AxisRoot nm) [XINode 0].
  Proof.
    intros D p s vs n nm I e F A. exists e. split; [|apply same_refl]. apply evals_S. exists 0. intros m M. unfold eval_step, leaf.
    cbn [x_type f_item]. unfold match_location_path. cbn [to_nodeset flat_map app loc_path_loop]. unfold match_loc_step.
    unfold axis_nodes. cbn [x_type x_right]. rewrite (root_zero h order SE PO n I). reflexivity.
  Qed.
  (* a step whose name is node() *)
  Lemma node_step : forall a n, axis_nodes h n (leaf (anode a) (lit "node()")) = axis_nodes h n (XNode (anode a) (test_name N_node) (test_tree N_node) XNil).
  Proof.
    intros a n. assert (E : forall l, along h (leaf (anode a) (lit "node()")) l = along h (XNode (anode a) (test_name N_node) (test_tree N_node) XNil) l).
    { intro l. unfold along. apply filter_ext. intro j. destruct a; reflexivity. }
    unfold axis_nodes. cbn [x_type leaf] in *. destruct a; cbn [anode] in *; repeat (match goal with |- (do l <- ?e; _) = _ => destruct e; cbn [bind]; auto end);
    rewrite ?E; reflexivity.
  Qed.
  Lemma yields_node : forall D p s vs n a l, in_document h 0 n -> (kind h n = Attribute -> a <> A_following /\ a <> A_preceding) ->
    exactly order (fun x => axis_has h order a x n) l ->
    yields h D (mkFocus (XINode n) p s) vs (leaf (anode a) (lit "node()")) (nodes l).
  Proof.
    intros D p s vs n a l I AT X e F A.
    destruct (step_exactly h order SE PO AP n a N_node XNil I (conj Logic.I Logic.I) AT) as [l' [E X']].
    assert (l' = l). { refine (SemNode.exactly_unique h order SE PO _ _ _ X' _). eapply exactly_ext; [|exact X]. intro x. cbn [passes]. tauto. }
    subst l'. rewrite <- node_step in E. exists e. split; [|apply same_refl]. apply evals_S. exists 0. intros m M.
    assert (G : match_location_path h (eval h m) [XINode n] (leaf (anode a) (lit "node()")) e = Ok (nodes l, e)).
    { unfold match_location_path. cbn [to_nodeset flat_map app loc_path_loop]. unfold match_loc_step. rewrite E. cbn [bind x_right leaf is_nil].
      change (seq_of_nodes l) with (nodes l). rewrite nodes_nodeset, app_nil_r. reflexivity. }
    unfold eval_step. cbn [x_type f_item leaf]. destruct a; exact G.
  Qed.
  Lemma yields_depth : forall D p s vs n l, in_document h 0 n -> exactly order (fun x => x = n \/ descendant h x n) l ->
    yields h D (mkFocus (XINode n) p s) vs any_depth (nodes l).
  Proof. intros D p s vs n l I X. apply (yields_node D p s vs n A_descendant_or_self l); auto. intros _. split; discriminate. Qed.
  Lemma yields_const : forall D f vs x v, (forall m e, agree D vs e -> at_focus f e -> eval_step h (eval h m) (call_function h m) [f_item f] x e = Ok (v, e)) ->
    yields h D f vs x v.
  Proof. intros D f vs x v H e F A. exists e. split; [|apply same_refl]. apply evals_S. exists 0. auto. Qed.
  Lemma yields_via : forall D f vs x v X w, yields h D f vs x v ->
    (forall m e e1, eval h m [f_item f] x e = Ok (v, e1) -> eval_step h (eval h m) (call_function h m) [f_item f] X e = Ok (w, e1)) ->
    yields h D f vs X w.
  Proof.
    intros D f vs x v X w HX H e F A. destruct (HX e F A) as [e1 [[N E] S]]. exists e1. split; auto. apply evals_S. exists N. intros m M.
    apply H. auto.
  Qed.
  Lemma yields_if : forall D f vs n1 n2 x y z v t w, yields h D f vs x v -> ebv v t -> yields h D f vs (if t then y else z) w ->
    yields h D f vs (XNode X_IfExpr n1 x (XNode X_IfThenElse n2 y z)) w.
  Proof.
    intros D f vs n1 n2 x y z v t w HX T HY e F A. destruct (HX e F A) as [e1 [[N1 E1] S1]].
    destruct (HY e1 (at_focus_same _ _ _ _ F S1) (agree_same _ _ _ _ A S1)) as [e2 [[N2 E2] S2]].
    exists e2. split; [|eapply same_trans; eauto]. apply evals_S. exists (N1 + N2). intros m L.
    unfold eval_step. cbn [x_type x_left x_right]. rewrite E1 by lia. cbn [bind xtype_eqb negb]. apply ebv_iff in T. rewrite T. cbn [bind].
    destruct t; apply E2; lia.
  Qed.
  Lemma yields_pass : forall D f vs x y v, (forall m e, eval_step h (eval h m) (call_function h m) [f_item f] x e = eval h m [f_item f] y e) ->
    yields h D f vs y v -> yields h D f vs x v.
  Proof.
    intros D f vs x y v H HY e F A. destruct (HY e F A) as [e1 [[N1 E1] S1]]. exists e1. split; auto. apply evals_S. exists N1. intros m M.
    rewrite H. apply E1. auto.
  Qed.
  Lemma yields_for_bind : forall D f vs v x y l g, yields h D f vs x l ->
    (forall it, In it l -> yields h (without D v) f (bind_var v [it] vs) y (g it)) ->
    yields h D f vs (XNode X_ForVarBind v x y) (flat_map g l).
  Proof.
    intros D f vs v x y l g HX HY e F A. destruct (HX e F A) as [e1 [[N1 E1] S1]].
    destruct (for_loop_yields h D f vs y v g l HY e1 (at_focus_same _ _ _ _ F S1) (agree_same _ _ _ _ A S1)) as [e2 [N2 [S2 E2]]].
    exists e2. split; [|eapply same_trans; eauto]. apply evals_S. exists (N1 + N2). intros m L.
    unfold eval_step. cbn [x_type x_left x_right x_name]. rewrite E1 by lia. cbn [bind]. apply E2. lia.
  Qed.
  Lemma yields_for : forall D f vs nm v x y l g, yields h D f vs x l ->
    (forall it, In it l -> yields h (without D v) f (bind_var v [it] vs) y (g it)) ->
    yields h D f vs (XNode X_ForExpr nm XNil (XNode X_ForVarBind v x y)) (flat_map g l).
  Proof. intros. eapply yields_pass; [intros; reflexivity|]. apply yields_for_bind; auto. Qed.
  Lemma yields_quant_bind : forall D f vs q v x y l t, q <> Q_for -> In v D -> yields h D f vs x l ->
    (forall it, In it l -> exists w, yields h (without D v) f (bind_var v [it] vs) y w /\ ebv w (t it)) ->
    yields h D f vs (XNode (qbind q) v x y) [XIBoolean (match q with Q_some => existsb t l | _ => forallb t l end)].
  Proof.
    intros D f vs q v x y l t Q V HX HY e F A. destruct (HX e F A) as [e1 [[N1 E1] S1]].
    destruct (quant_loop_yields h D f vs y v (match q with Q_some => true | _ => false end) t l V HY e1 (at_focus_same _ _ _ _ F S1)
      (agree_same _ _ _ _ A S1)) as [e2 [N2 [S2 E2]]].
    exists e2. split; [|eapply same_trans; eauto]. apply evals_S. exists (N1 + N2). intros m L.
    destruct q; [congruence| |]; unfold eval_step; cbn [qbind x_type x_left x_right x_name]; rewrite E1 by lia; cbn [bind]; apply E2; lia.
  Qed.
  Lemma yields_quant : forall D f vs nm q v x y l g t, q <> Q_for -> In v D -> yields h D f vs x l ->
    (forall it, In it l -> yields h (without D v) f (bind_var v [it] vs) y (g it)) -> (forall it, In it l -> ebv (g it) (t it)) ->
    yields h D f vs (XNode (qnode q) nm XNil (XNode (qbind q) v x y)) [XIBoolean (match q with Q_some => existsb t l | _ => forallb t l end)].
  Proof.
    intros D f vs nm q v x y l g t Q V HX HY T. eapply yields_pass; [intros; destruct q; [congruence| |]; reflexivity|].
    eapply yields_quant_bind; eauto.
  Qed.
  Lemma yields_let_bind : forall D f vs v x y l r, yields h D f vs x l -> yields h (without D v) f (bind_var v l vs) y r ->
    yields h D f vs (XNode X_LetVarBind v x y) r.
  Proof.
    intros D f vs v x y l r HX HY e F A. destruct (HX e F A) as [e1 [[N1 E1] S1]].
    destruct (HY (set_var e1 v l) (at_focus_same _ _ _ _ F S1) (agree_bind _ _ _ _ _ (agree_same _ _ _ _ A S1))) as [e2 [[N2 E2] S2]].
    exists (remove_var e2 v). split; [|eapply same_trans; [eauto|eapply same_unbind; eauto]]. apply evals_S. exists (N1 + N2). intros m L.
    unfold eval_step. cbn [x_type x_left x_right x_name]. rewrite E1 by lia. cbn [bind]. rewrite E2 by lia. reflexivity.
  Qed.
  Lemma yields_let : forall D f vs nm v x y l r, yields h D f vs x l -> yields h (without D v) f (bind_var v l vs) y r ->
    yields h D f vs (XNode X_LetExpr nm XNil (XNode X_LetVarBind v x y)) r.
  Proof. intros. eapply yields_pass; [intros; reflexivity|]. eapply yields_let_bind; eauto. Qed.
  Lemma yields_map : forall D f vs nm x y l g, x <> XNil -> y <> XNil -> yields h D f vs x l ->
    (forall it, In it l -> yields h D (mkFocus it (f_pos f) (f_size f)) vs y (g it)) ->
    yields h D f vs (XNode X_OperatorMap nm x y) (flat_map g l).
  Proof.
    intros D f vs nm x y l g NX NY HX HY e F A. destruct (HX e F A) as [e1 [[N1 E1] S1]].
    destruct (map_loop_yields h D vs y (f_pos f) (f_size f) g l HY e1) as [e2 [N2 [S2 E2]]].
    { apply (at_focus_same _ _ _ _ F S1). } { apply (at_focus_same _ _ _ _ F S1). } { eapply agree_same; eauto. }
    exists e2. split; [|eapply same_trans; eauto]. apply evals_S. exists (N1 + N2). intros m M. unfold eval_step. cbn [x_type x_right].
    unfold eval_left. cbn [x_left]. replace (is_nil x) with false by (destruct x; [congruence|reflexivity]).
    replace (is_nil y) with false by (destruct y; [congruence|reflexivity]). rewrite E1 by lia. cbn [bind]. apply E2. lia.
  Qed.
  (* the predicates left after one predicate *)
  Definition narrowed (D : list str) (vs : vars) (px : xnode) (l r : xseq) : Prop :=
    forall e, agree D vs e -> exists e' N, same D e e' /\ forall m, N <= m -> filter_by_predicates (eval h m) px l e = Ok (r, e').
  Lemma predicate_yields : forall D vs (rv : bool) x l vals keep, x <> XNil ->
    (forall k it, nth_error l k = Some it -> yields h D (mkFocus it (if rv then List.length l - k else S k) (List.length l)) vs x (vals (S k))) ->
    (forall k, k < List.length l -> predicate_truth (vals (S k)) (if rv then List.length l - k else S k) (keep (S k))) ->
    forall e, agree D vs e -> exists e' N, same D e e' /\ forall m, N <= m -> filter_by_predicate (eval h m) l x rv e = Ok (pick keep l, e').
  Proof.
    intros D vs rv x l vals keep NX HY HK e A.
    destruct (filter_loop_yields h D vs x rv (List.length l) vals keep l 0) with (e := e) as [e1 [N1 [S1 E1]]]; auto.
    - intros k L. apply truth_keeps. apply HK. auto.
    - exists e1, N1. split; auto. intros m M. unfold filter_by_predicate. destruct x; [congruence|]. cbn [is_nil]. auto.
  Qed.
  Lemma narrowed_cons : forall D vs (rv : bool) nm x y l vals keep r, x <> XNil ->
    (forall k it, nth_error l k = Some it -> yields h D (mkFocus it (if rv then List.length l - k else S k) (List.length l)) vs x (vals (S k))) ->
    (forall k, k < List.length l -> predicate_truth (vals (S k)) (if rv then List.length l - k else S k) (keep (S k))) ->
    narrowed D vs y (pick keep l) r -> narrowed D vs (XNode (if rv then X_PredicateRevTop else X_PredicateTop) nm x y) l r.
  Proof.
    intros D vs rv nm x y l vals keep r NX HY HK HR e A.
    destruct (predicate_yields D vs rv x l vals keep NX HY HK e A) as [e1 [N1 [S1 E1]]].
    destruct (HR e1 (agree_same _ _ _ _ A S1)) as [e2 [N2 [S2 E2]]].
    exists e2, (N1 + N2). split; [eapply same_trans; eauto|]. intros m M. cbn [filter_by_predicates].
    destruct rv; rewrite E1 by lia; cbn [bind]; apply E2; lia.
  Qed.
  Lemma yields_filter : forall D f vs nm nm' x y l vals keep, y <> XNil -> yields h D f vs x l ->
    (forall k it, nth_error l k = Some it -> yields h D (mkFocus it (S k) (List.length l)) vs y (vals (S k))) ->
    (forall k, k < List.length l -> predicate_truth (vals (S k)) (S k) (keep (S k))) ->
    yields h D f vs (XNode X_ApplyPredicate nm x (XNode X_PredicateTop nm' y XNil)) (pick keep l).
  Proof.
    intros D f vs nm nm' x y l vals keep NY HX HY HK e F A. destruct (HX e F A) as [e1 [[N1 E1] S1]].
    destruct (predicate_yields D vs false y l vals keep NY HY HK e1 (agree_same _ _ _ _ A S1)) as [e2 [N2 [S2 E2]]].
    exists e2. split; [|eapply same_trans; eauto]. apply evals_S. exists (N1 + N2). intros m L.
    unfold eval_step. cbn [x_type x_left x_right x_name]. rewrite E1 by lia. cbn [bind]. apply E2. lia.
  Qed.
  Definition args_yield (D : list str) (f : focus) (vs : vars) (x : xnode) (l : list xseq) : Prop :=
    forall e, at_focus f e -> agree D vs e -> exists e' N, same D e e' /\ forall m, N <= m -> eval_args (eval h m) [f_item f] x e = Ok (l, e').
  Lemma yields_call : forall D f vs name x l r, args_yield D f vs x l -> function_value h f name l r -> item_in h (f_item f) ->
    (forall a, In a l -> seq_in h a) -> yields h D f vs (XNode X_FunctionCall (lit "fn:" ++ name) XNil x) r.
  Proof.
    intros D f vs name x l r HA L I IN e F A. destruct (HA e F A) as [e1 [N1 [S1 E1]]]. exists e1. split; auto. apply evals_S. exists N1.
    intros m M. unfold eval_step. cbn [x_type x_right x_name]. rewrite E1 by lia. cbn [bind].
    apply (function_value_ok h order SE PO); auto. eapply at_focus_same; eauto.
  Qed.
  Lemma yields_item_call : forall D f vs p name x l r, args_yield D f vs x l -> item_library h p name l r ->
    (forall a, In a l -> seq_in h a) -> yields h D f vs (XNode X_FunctionCall (p ++ lit ":" ++ name) XNil x) r.
  Proof.
    intros D f vs p name x l r HA L IN e F A. destruct (HA e F A) as [e1 [N1 [S1 E1]]]. exists e1. split; auto. apply evals_S. exists N1.
    intros m M. unfold eval_step. cbn [x_type x_right x_name]. rewrite E1 by lia. cbn [bind].
    apply (item_library_ok h SE); auto.
  Qed.
  Definition each_yields (D : list str) (f : focus) (vs : vars) : list expr -> list xseq -> Prop :=
    Forall2 (fun e v => forall x, reads x e -> yields h D f vs x v).
  Lemma each_args : forall D f vs es l, each_yields D f vs es l -> forall x, reads_args x es -> args_yield D f vs x l.
  Proof.
    intros D f vs es l H. induction H as [|e v es l HE H IH]; intros x R; inversion R; subst; intros en F A.
    - exists en, 0. split; [apply same_refl|]. reflexivity.
    - destruct (HE x0 ltac:(assumption) en F A) as [e1 [[N1 E1] S1]].
      destruct (IH r) with (e := e1) as [e2 [N2 [S2 E2]]]; auto; [eapply at_focus_same; eauto|eapply agree_same; eauto|].
      exists e2, (N1 + N2). split; [eapply same_trans; eauto|]. intros m M. cbn [eval_args]. change (xtype_eqb X_ArgumentTop X_ArgumentTop) with true. cbn iota.
      rewrite E1 by lia. cbn [bind]. rewrite E2 by lia. reflexivity.
  Qed.
  Lemma each_dyn : forall D f vs es l, each_yields D f vs es l -> forall x, reads_args x es -> forall e, at_focus f e -> agree D vs e ->
    exists e' N, same D e e' /\ forall m, N <= m -> eval_dyn_args (eval h m) [f_item f] x e = Ok (l, e').
  Proof.
    intros D f vs es l H. induction H as [|e v es l HE H IH]; intros x R; inversion R; subst; intros en F A.
    - exists en, 0. split; [apply same_refl|]. reflexivity.
    - destruct (HE x0 ltac:(assumption) en F A) as [e1 [[N1 E1] S1]].
      destruct (IH r) with (e := e1) as [e2 [N2 [S2 E2]]]; auto; [eapply at_focus_same; eauto|eapply agree_same; eauto|].
      exists e2, (N1 + N2). split; [eapply same_trans; eauto|]. intros m M. cbn [eval_dyn_args].
      rewrite E1 by lia. cbn [bind]. rewrite E2 by lia. reflexivity.
  Qed.
  Lemma each_items : forall D f vs es l, each_yields D f vs es l -> forall x, reads_items x es -> forall e, at_focus f e -> agree D vs e ->
    exists e' N, same D e e' /\ forall m, N <= m -> array_entries (eval h m) [f_item f] x e = Ok (l, e').
  Proof.
    intros D f vs es l H. induction H as [|e v es l HE H IH]; intros x R; inversion R; subst; intros en F A.
    - exists en, 0. split; [apply same_refl|]. reflexivity.
    - destruct (HE x0 ltac:(assumption) en F A) as [e1 [[N1 E1] S1]].
      destruct (IH r) with (e := e1) as [e2 [N2 [S2 E2]]]; auto; [eapply at_focus_same; eauto|eapply agree_same; eauto|].
      exists e2, (N1 + N2). split; [eapply same_trans; eauto|]. intros m M. cbn [array_entries].
      change (xtype_eqb X_ArrayEntry X_ArrayEntry) with true. cbn [negb]. 
      rewrite E1 by lia. cbn [bind]. rewrite E2 by lia. reflexivity.
  Qed.
  Lemma each_entries : forall D f vs m es, each_yields D f vs (map fst es) (map (fun p => [fst p]) m) -> each_yields D f vs (map snd es) (map snd m) ->
    forall x, reads_entries x es -> forall e, at_focus f e -> agree D vs e ->
    exists e' N, same D e e' /\ forall k, N <= k -> map_entries (eval h k) [f_item f] x e = Ok (m, e').
  Proof.
    intros D f vs. induction m as [|[key v] m IH]; intros [|[ke ve] es] HK HV x R; inversion R; subst; intros en F A;
      try (inversion HK; fail).
    - exists en, 0. split; [apply same_refl|]. reflexivity.
    - inversion HK; subst. inversion HV; subst.
      match goal with H : forall x, reads x ke -> _ |- _ => destruct (H x0 ltac:(assumption) en F A) as [e1 [[N1 E1] S1]] end.
      assert (F1 := at_focus_same _ _ _ _ F S1). assert (A1 := agree_same _ _ _ _ A S1).
      match goal with H : forall x, reads x ve -> _ |- _ => destruct (H y ltac:(assumption) e1 F1 A1) as [e2 [[N2 E2] S2]] end.
      destruct (IH es) with (x := r) (e := e2) as [e3 [N3 [S3 E3]]]; auto; [eapply at_focus_same; eauto|eapply agree_same; eauto|].
      exists e3, (N1 + N2 + N3). split; [eapply same_trans; [eauto|eapply same_trans; eauto]|]. intros k M. cbn [map_entries x_type x_left x_right].
      change (xtype_eqb X_MapConstruct X_MapConstruct) with true. change (xtype_eqb X_MapEntry X_MapEntry) with true. cbn [negb].
      cbn [fst snd] in *. rewrite E1 by lia. cbn [bind get_singleton_item]. rewrite E2 by lia. cbn [bind]. rewrite E3 by lia. reflexivity.
  Qed.
  (* functions *)
  Definition withouts (D : list str) (ps : list str) : list str :=
    filter (fun n => if in_dec (list_eq_dec N.eq_dec) n ps then false else true) D.
  Lemma withouts_cons : forall D p ps, withouts D (p :: ps) = withouts (without D p) ps.
  Proof.
    intros D p ps. unfold withouts, without. induction D as [|n D IH]; auto. cbn [filter].
    destruct (list_eq_dec N.eq_dec n p) as [->|NE].
    - destruct (in_dec _ p (p :: ps)) as [_|Q]; [exact IH|destruct Q; left; reflexivity].
    - cbn [filter]. destruct (in_dec _ n (p :: ps)) as [I|I], (in_dec _ n ps) as [J|J]; try (f_equal; exact IH); try exact IH.
      + exfalso. destruct I as [I|I]; [congruence|contradiction].
      + exfalso. apply I. right. exact J.
  Qed.
  Lemma withouts_nil : forall D, withouts D [] = D.
  Proof. induction D as [|n D IH]; auto. unfold withouts in *. cbn [filter]. destruct (in_dec _ n []) as [[]|_]. f_equal. exact IH. Qed.
  Fixpoint set_vars (ps : list str) (l : list xseq) (e : env) : env :=
    match ps, l with p :: ps, s :: l => set_vars ps l (set_var e p s) | _, _ => e end.
  Lemma agree_binds : forall ps l D vs e, List.length ps = List.length l -> agree D vs e -> agree (withouts D ps) (bind_vars ps l vs) (set_vars ps l e).
  Proof.
    induction ps as [|p ps IH]; intros [|s l] D vs e L A; try discriminate L; cbn [bind_vars set_vars].
    - rewrite withouts_nil. exact A.
    - rewrite withouts_cons. apply IH; [injection L; auto|]. apply agree_bind. exact A.
  Qed.
  Lemma same_binds : forall ps l D e e2, List.length ps = List.length l -> same (withouts D ps) (set_vars ps l e) e2 ->
    same D e (fold_left remove_var (rev ps) e2).
  Proof.
    induction ps as [|p ps IH]; intros [|s l] D e e2 L S; try discriminate L; cbn [set_vars rev fold_left] in *.
    - rewrite withouts_nil in S. exact S.
    - rewrite withouts_cons in S. rewrite fold_left_app. cbn [fold_left].
      apply (same_unbind D p s). apply (IH l); [injection L; auto|exact S].
  Qed.
  Lemma at_focus_vars : forall ps l f e, at_focus f e -> at_focus f (set_vars ps l e).
  Proof. induction ps as [|p ps IH]; intros [|s l] f e F; auto. cbn [set_vars]. apply IH. exact F. Qed.
  Definition inline_tree (nm nm' : str) (b : xnode) (ps : list str) : xnode :=
    XNode X_InlineFunction nm b (XNode X_ReturnType nm' default_sequence_type (param_tree ps)).
  Lemma param_names : forall ps, names (param_tree ps) = ps.
  Proof. induction ps as [|p ps IH]; auto. cbn [param_tree names]. f_equal. exact IH. Qed.
  Lemma bind_params : forall ps l e, List.length ps = List.length l -> (forall v, In v l -> seq_in h v) ->
    bind_args h (lefts (param_tree ps)) ps l e = Ok (set_vars ps l e).
  Proof.
    induction ps as [|p ps IH]; intros [|s l] e L I; try discriminate L; auto.
    cbn [param_tree lefts bind_args set_vars]. unfold match_sequence_type at 1. rewrite (default_yes h).
    - cbn [bind]. apply IH; [injection L; auto|]. intros v V. apply I. right. exact V.
    - apply I. left. reflexivity.
  Qed.
  Lemma inline_yields : forall D f vs nm nm' b ps l r, List.length ps = List.length l -> (forall v, In v l -> seq_in h v) ->
    yields h (withouts D ps) f (bind_vars ps l vs) b r ->
    forall e, at_focus f e -> agree D vs e -> exists e' N, same D e e' /\
      forall m, N <= m -> call_inline_func h (eval h m) (inline_tree nm nm' b ps) l [f_item f] e = Ok (r, e').
  Proof.
    intros D f vs nm nm' b ps l r L I H e F A.
    destruct (H (set_vars ps l e) (at_focus_vars ps l f e F) (agree_binds ps l D vs e L A)) as [e1 [[N1 E1] S1]].
    exists (fold_left remove_var (rev ps) e1), N1. split; [eapply same_binds; eauto|]. intros m M. unfold call_inline_func, inline_tree.
    cbn [x_right x_left]. rewrite param_names, bind_params by auto. cbn [bind]. rewrite E1 by lia. reflexivity.
  Qed.
  Lemma fun_evals : forall ps b x, reads x (EFun ps b) -> exists nm nm' y, reads y b /\
    forall c e, evals h c x e [XIFun (inline_tree nm nm' y ps)] e.
  Proof.
    intros ps b. induction x as [|ty nm l IHl r IHr]; intro R; inversion R; subst.
    - destruct (IHl ltac:(assumption)) as [n1 [n2 [y [Y E]]]]. exists n1, n2, y. split; auto. intros c e. destruct (E c e) as [N EN].
      apply evals_S. exists N. intros m M. unfold eval_step. cbn [x_type x_left]. destruct l; [inversion Y; subst; cbn in EN; 
        match goal with K : reads XNil _ |- _ => inversion K end|]. cbn [is_nil]. apply EN. exact M.
    - exists nm, nm', l. split; auto. intros c e. apply evals_S. exists 0. reflexivity.
  Qed.
  (* the call of a function *)
  Definition answers (D : list str) (f : focus) (vs : vars) (t : xnode) (vals : list xseq) (r : xseq) : Prop :=
    forall e, at_focus f e -> agree D vs e -> exists e' N, same D e e' /\
      forall m, N <= m -> call_function h m t vals [f_item f] e = Ok (r, e').
  Lemma for_each_yields : forall D f vs fx g l, (forall it, In it l -> answers D f vs fx [[it]] (g it)) ->
    forall e, at_focus f e -> agree D vs e -> exists e' N, same D e e' /\
      forall m, N <= m -> for_each_loop (fun a => call_function h m fx a [f_item f]) l e = Ok (flat_map g l, e').
  Proof.
    intros D f vs fx g l. induction l as [|it l IH]; intros H e F A.
    - exists e, 0. split; [apply same_refl|]. reflexivity.
    - destruct (H it (or_introl eq_refl) e F A) as [e1 [N1 [S1 E1]]].
      destruct (IH (fun i I => H i (or_intror I)) e1) as [e2 [N2 [S2 E2]]]; [eapply at_focus_same; eauto|eapply agree_same; eauto|].
      exists e2, (N1 + N2). split; [eapply same_trans; eauto|]. intros m M. cbn [for_each_loop]. rewrite E1 by lia. cbn [bind].
      rewrite E2 by lia. reflexivity.
  Qed.
  Lemma filter_fn_yields : forall D f vs fx g t l, (forall it, In it l -> answers D f vs fx [[it]] (g it)) -> (forall it, In it l -> ebv (g it) (t it)) ->
    forall e, at_focus f e -> agree D vs e -> exists e' N, same D e e' /\
      forall m, N <= m -> filter_fn_loop (fun a => call_function h m fx a [f_item f]) l e = Ok (filter t l, e').
  Proof.
    intros D f vs fx g t l. induction l as [|it l IH]; intros H T e F A.
    - exists e, 0. split; [apply same_refl|]. reflexivity.
    - destruct (H it (or_introl eq_refl) e F A) as [e1 [N1 [S1 E1]]].
      assert (T1 := T it (or_introl eq_refl)). apply ebv_iff in T1.
      destruct (IH (fun i I => H i (or_intror I)) (fun i I => T i (or_intror I)) e1) as [e2 [N2 [S2 E2]]]; [eapply at_focus_same; eauto|eapply agree_same; eauto|].
      exists e2, (N1 + N2). split; [eapply same_trans; eauto|]. intros m M. cbn [filter_fn_loop]. rewrite E1 by lia. cbn [bind].
      rewrite T1. cbn [bind]. rewrite E2 by lia. cbn [filter bind]. destruct (t it); reflexivity.
  Qed.
  (* an expression whose value is a function *)
  Lemma function_evals : forall vs e fe ev D, function_at vs e fe ev -> hygienic D e -> wf e -> forall x, reads x e -> forall en, agree D vs en ->
    exists t, (is_function fe /\ reads t fe /\ bare t fe /\ wf fe /\ hygienic D fe) /\ forall c, evals h c x en [XIFun t] en.
  Proof.
    intros vs e fe ev D FA HY WF x R en A. revert x R.
    assert (K : forall x, x <> XNil -> (exists t, (is_function fe /\ reads t fe /\ bare t fe /\ wf fe /\ hygienic D fe) /\ forall c, evals h c x en [XIFun t] en) ->
      exists t, (is_function fe /\ reads t fe /\ bare t fe /\ wf fe /\ hygienic D fe) /\ forall c, evals h c (XNode X_ParenthesizedExpr [] x XNil) en [XIFun t] en).
    { intros x NX [t [T E]]. exists t. split; auto. intro c. destruct (E c) as [N EN]. apply evals_S. exists N. intros m M.
      unfold eval_step. cbn [x_type x_left]. destruct x; [congruence|]. cbn [is_nil]. apply EN. exact M. }
    intros x R. apply (reads_bared (fun x => exists t, (is_function fe /\ reads t fe /\ bare t fe /\ wf fe /\ hygienic D fe) /\ forall c, evals h c x en [XIFun t] en) K e x R).
    clear x R. intros y R B. destruct FA as [e FN|n fe ev E].
    - exists y. split; [auto|]. intro c. apply evals_S. exists 0. intros m _.
      destruct e; destruct FN; inversion R; subst; try (destruct B as [B|B]; [destruct B; reflexivity|discriminate B]); reflexivity.
    - inversion R; subst; [destruct B as [B|B]; [destruct B; reflexivity|discriminate B]|].
      specialize (A n HY). rewrite E in A. destruct A as [t [L [FN [RT [BT [WT [HT _]]]]]]]. exists t. split; [auto|]. intro c.
      apply evals_S. exists 0. intros m _. unfold eval_step. cbn [x_type leaf x_name]. unfold get_var. rewrite L. reflexivity.
  Qed.
  Lemma yields_let_fun_bind : forall D f vs v e fe ev x y r, function_at vs e fe ev -> hygienic D e -> wf e -> hygienic [] fe -> reads x e ->
    yields h (without D v) f (bind_fun v fe ev vs) y r -> yields h D f vs (XNode X_LetVarBind v x y) r.
  Proof.
    intros D f vs v e fe ev x y r FA HY WF H0 R Y en F A.
    destruct (function_evals vs e fe ev D FA HY WF x R en A) as [t [[FN [RT [BT [WT HT]]]] E]]. destruct (E [f_item f]) as [N1 E1].
    destruct (Y (set_var en v [XIFun t]) F (agree_bind_fun _ _ _ _ _ ev _ A FN RT BT WT HT H0)) as [e2 [[N2 E2] S2]].
    exists (remove_var e2 v). split; [|eapply same_unbind; eauto]. apply evals_S. exists (N1 + N2). intros m L.
    unfold eval_step. cbn [x_type x_left x_right x_name]. rewrite E1 by lia. cbn [bind]. rewrite E2 by lia. reflexivity.
  Qed.
  Lemma bare_fun : forall ps b t, reads t (EFun ps b) -> bare t (EFun ps b) -> exists nm nm' y, t = inline_tree nm nm' y ps /\ reads y b.
  Proof.
    intros ps b t R B. inversion R; subst; [destruct B as [B|B]; [destruct B; reflexivity|discriminate B]|]. unfold inline_tree. eauto.
  Qed.
  Lemma answers_inline : forall D f vs nm nm' y ps vals r, answers D f vs (inline_tree nm nm' y ps) vals r ->
    forall e, at_focus f e -> agree D vs e -> exists e' N, same D e e' /\
      forall m, N <= m -> call_inline_func h (eval h m) (inline_tree nm nm' y ps) vals [f_item f] e = Ok (r, e').
  Proof.
    intros D f vs nm nm' y ps vals r H e F A. destruct (H e F A) as [e' [N [SM E]]]. exists e', N. split; auto. intros m M.
    specialize (E (S m) ltac:(lia)). rewrite call_S in E. exact E.
  Qed.
  (* lookups *)
  Lemma key_yields : forall D f vs k v y, item_in h (f_item f) -> wf_key k -> looks_up h (f_item f) k v -> reads y (EKey k) -> yields h D f vs y v.
  Proof.
    intros D f vs k v y II W L R. eapply reads_yields; [exact R|]. clear y R. intros y R B. inversion R; subst.
    - destruct B as [B|B]; [destruct B; reflexivity|discriminate B].
    - inversion L; subst. intros e F A. exists e. split; [|apply same_refl]. apply evals_S. exists 1. intros [|m] M; [lia|].
      unfold eval_step. cbn [x_type x_left]. rewrite eval_S. unfold eval_step. cbn [leaf x_type x_name bind].
      match goal with Q : looks h _ _ _ |- _ => rewrite (looks_ok h SE (f_item f) [XIString n] [v]) end; auto.
      + cbn [List.concat bind]. rewrite app_nil_r. reflexivity.
      + intros k [<-|[]]. apply item_plain. exact I.
      + match goal with Q : looks h _ _ _ |- _ => inversion Q end; unfold map_or_array; eauto.
    - inversion L; subst. intros e F A. exists e. split; [|apply same_refl]. apply evals_S. exists 1. intros [|m] M; [lia|].
      unfold eval_step. cbn [x_type x_left]. rewrite eval_S. unfold eval_step. cbn [leaf x_type x_name bind].
      rewrite (atoi_text d (Z.of_N (numeral d))) by (inversion W; subst; apply it_plain; auto; apply digits_all; auto).
      replace (in_i64 (Z.of_N (numeral d))) with true; [|symmetry; unfold in_i64, i64_min, i64_max; apply andb_true_iff; rewrite !Z.leb_le; lia].
      cbn [bind].
      match goal with Q : looks h _ _ _ |- _ => rewrite (looks_ok h SE (f_item f) [XIInteger (Z.of_N (numeral d))] [v]) end; auto.
      + cbn [List.concat bind]. rewrite app_nil_r. reflexivity.
      + intros k [<-|[]]. apply item_plain. exact I.
      + match goal with Q : looks h _ _ _ |- _ => inversion Q end; unfold map_or_array; eauto.
    - intros e F A. exists e. split; [|apply same_refl]. inversion L as [| |m K E1|a E1]; subst.
      + destruct (outcome_evals _ _ _ _ _ _ (PropItem.C74_all_map h m e (differ_keyed h SE m ltac:(rewrite E1; exact II) K))) as [N Q].
        specialize (Q (S N) ltac:(lia)). rewrite eval_S in Q. apply evals_S. exists 0. intros k _. exact Q.
      + destruct (outcome_evals _ _ _ _ _ _ (PropItem.C74_all_array h a e)) as [N Q].
        specialize (Q (S N) ltac:(lia)). rewrite eval_S in Q. apply evals_S. exists 0. intros k _. exact Q.
  Qed.
  Lemma key_of_yields : forall D f vs nm x ks vals, item_in h (f_item f) -> seq_in h ks -> map_or_array (f_item f) ->
    Forall2 (looks h (f_item f)) ks vals -> yields h D f vs x ks ->
    yields h D f vs (XNode X_UnaryLookupByExpr nm x XNil) (List.concat vals).
  Proof.
    intros D f vs nm x ks vals II IK MA L H e F A. destruct (H e F A) as [e1 [[N1 E1] S1]]. exists e1. split; auto. apply evals_S. exists N1.
    intros m M. unfold eval_step. cbn [x_type x_left]. rewrite E1 by lia. cbn [bind]. rewrite (looks_ok h SE (f_item f) ks vals); auto.
  Qed.
  (* paths *)
  Definition walked (D : list str) (vs : vars) (y : xnode) (l r : list nat) : Prop :=
    exists g, (forall n p s, In n l -> yields h D (mkFocus (XINode n) p s) vs y (nodes (g n))) /\
      (forall n i, In n l -> In i (g n) -> in_document h 0 i) /\ exactly order (fun x => exists n, In n l /\ In x (g n)) r.
  Lemma walked_cons : forall D vs nm x y l g l' r, x <> XNil -> y <> XNil ->
    (forall n p s, In n l -> yields h D (mkFocus (XINode n) p s) vs x (nodes (g n))) ->
    exactly order (fun x => exists n, In n l /\ In x (g n)) l' -> walked D vs y l' r -> walked D vs (XNode X_OperatorPath nm x y) l r.
  Proof.
    intros D vs nm x y l g l' r NX NY HX X [g' [HY [IN X']]].
    set (G := fun n => match sort_by_doc_order h (flat_map g' (g n)) with Ok r => r | _ => [] end).
    assert (SUB : forall n m, In n l -> In m (g n) -> In m l') by (intros n m I J; apply X; eauto).
    assert (XG : forall n, In n l -> exactly order (fun x => exists m, In m (g n) /\ In x (g' m)) (G n)).
    { intros n I. destruct (sort_exactly h order SE PO (flat_map g' (g n))) as [s [E S]].
      - intros z Z. apply in_flat_map in Z. destruct Z as [m [J Z]]. eauto.
      - unfold G. rewrite E. eapply exactly_ext; [|exact S]. intro z. rewrite in_flat_map. reflexivity. }
    exists G. split; [|split].
    - intros n p s I. eapply path_nodes; eauto.
    - intros n i I J. apply (XG n I) in J. destruct J as [m [J K]]. eauto.
    - eapply exactly_ext; [|exact X']. intro z. split.
      + intros [m [M Z]]. apply X in M. destruct M as [n [I J]]. exists n. split; auto. apply (XG n I). eauto.
      + intros [n [I J]]. apply (XG n I) in J. destruct J as [m [J K]]. eauto.
  Qed.
  Definition poured (D : list str) (vs : vars) (y : xnode) (l : list nat) (r : xseq) : Prop :=
    exists g, (forall n p s, In n l -> yields h D (mkFocus (XINode n) p s) vs y (g n)) /\
      (forall n it, In n l -> In it (g n) -> atomic it) /\ r = flat_map g l.
  Lemma flat_flat : forall A B C (f : A -> list B) (g : B -> list C) l, flat_map g (flat_map f l) = flat_map (fun a => flat_map g (f a)) l.
  Proof. intros A B C f g l. induction l as [|a l IH]; auto. cbn [flat_map]. rewrite flat_map_app, IH. reflexivity. Qed.
  Lemma poured_cons : forall D vs nm x y l g r, x <> XNil -> y <> XNil ->
    (forall n p s, In n l -> yields h D (mkFocus (XINode n) p s) vs x (nodes (g n))) ->
    poured D vs y (flat_map g l) r -> poured D vs (XNode X_OperatorPath nm x y) l r.
  Proof.
    intros D vs nm x y l g r NX NY HX [g' [HY [AT ->]]].
    assert (SUB : forall n m, In n l -> In m (g n) -> In m (flat_map g l)) by (intros n m I J; apply in_flat_map; eauto).
    exists (fun n => flat_map g' (g n)). split; [|split].
    - intros n p s I. eapply path_values; eauto.
    - intros n it I J. apply in_flat_map in J. destruct J as [m [J K]]. eauto.
    - apply flat_flat.
  Qed.
  Lemma depth_list : forall n, in_document h 0 n -> exists l, axis_nodes h n any_depth = Ok l /\ exactly order (fun x => x = n \/ descendant h x n) l.
  Proof.
    intros n I. destruct (step_exactly h order SE PO AP n A_descendant_or_self N_node XNil I (conj Logic.I Logic.I)) as [l [E X]].
    { intros _. split; discriminate. }
    exists l. split; [rewrite <- E; apply (node_step A_descendant_or_self)|]. eapply exactly_ext; [|exact X]. intro x. cbn [passes axis_has]. tauto.
  Qed.
  Definition PM (f : focus) (vs : vars) (e : expr) (v : xseq) : Prop :=
    forall D, hygienic D e -> wf e -> item_in h (f_item f) -> vars_in h vs -> forall x, reads x e -> yields h D f vs x v.
  Definition PA (f : focus) (vs : vars) (es : list expr) (l : list xseq) : Prop :=
    forall D, Forall (hygienic D) es -> Forall wf es -> item_in h (f_item f) -> vars_in h vs -> each_yields D f vs es l.
  Definition PAP (vs : vars) (fe : expr) (vals : list xseq) (r : xseq) : Prop :=
    forall D, hygienic D fe -> wf fe -> vars_in h vs -> (forall w, In w vals -> seq_in h w) ->
    forall f, item_in h (f_item f) -> forall t, reads t fe -> bare t fe -> answers D f vs t vals r.
  Definition some_ok (P : expr -> Prop) (o : option expr) : Prop := match o with Some a => P a | None => True end.
  Definition PF (f : focus) (vs : vars) (os : list (option expr)) (vals all : list xseq) : Prop :=
    forall D, Forall (some_ok (hygienic D)) os -> Forall (some_ok wf) os -> item_in h (f_item f) -> vars_in h vs ->
    forall x, reads_oargs x os -> forall e, at_focus f e -> agree D vs e -> exists e' N, same D e e' /\
      forall m, N <= m -> eval_partial_args (eval h m) [f_item f] x vals e = Ok (all, e').
  Lemma hyg_part : forall D n os, hygienic D (EPart n os) -> Forall (some_ok (hygienic D)) os.
  Proof. intros D n os. induction os as [|[a|] os IH]; intro H; constructor; cbn [some_ok]; destruct H; auto. Qed.
  Lemma wf_part : forall n os, wf (EPart n os) -> Forall (some_ok wf) os.
  Proof. intros n os [_ [_ H]]. induction os as [|[a|] os IH]; constructor; cbn [some_ok]; destruct H; auto. Qed.
  Lemma plain_no_hash : forall n, plain_name n -> ~ In 35%N n.
  Proof.
    intros n [NC _] I. destruct n as [|a n]; [destruct I|]. destruct NC as [N1 N2]. rewrite Forall_forall in N2.
    destruct I as [->|I]; [vm_compute in N1; discriminate N1|]. apply N2 in I. vm_compute in I. discriminate I.
  Qed.
  Lemma split_ref : forall name d, wf (ERef name d) -> split_hash (lit "fn:" ++ name ++ lit "#" ++ d) = Some (lit "fn:" ++ name, d).
  Proof.
    intros name d [PN LX]. unfold split_hash. rewrite app_assoc, PropItem.hash_yes, PropItem.hash_no; auto.
    - inversion LX; subst. match goal with Q : digits d |- _ => unfold digits in Q; rewrite Forall_forall in Q; intro I; apply Q in I; vm_compute in I; discriminate I end.
    - intro I. apply in_app_or in I. destruct I as [I|I]; [repeat (destruct I as [I|I]; [discriminate I|]); destruct I|]. exact (plain_no_hash _ PN I).
  Qed.
  Lemma atoi_ref : forall name d, wf (ERef name d) -> (Z.of_N (numeral d) < 2 ^ 63)%Z -> atoi d = Z.of_N (numeral d).
  Proof.
    intros name d [_ LX] LT. rewrite (atoi_text d (Z.of_N (numeral d))) by (inversion LX; subst; apply it_plain; auto; apply digits_all; auto).
    replace (in_i64 (Z.of_N (numeral d))) with true; [reflexivity|]. symmetry. unfold in_i64, i64_min, i64_max. apply andb_true_iff. rewrite !Z.leb_le. lia.
  Qed.
  (* for and let give a value, some and every a truth value *)
  Definition multi_value (q : option quant) (v r : xseq) : Prop :=
    match q with
    | Some Q_for | None => v = r
    | _ => exists t, r = [XIBoolean t] /\ ebv v t
    end.
  Definition hyg_multi (q : option quant) (b : expr) : list str -> list (str * expr) -> Prop :=
    fix all stale l :=
         match l with
         | [] => hygienic stale b
         | x :: r => hygienic stale (snd x) /\ (q = Some Q_for \/ q = None \/ In (fst x) stale) /\
                     all (without stale (fst x)) r
         end.
  Definition PB (f : focus) (vs : vars) (q : option quant) (bs : list (str * expr)) (b : expr) (r : xseq) : Prop :=
    forall D, hyg_multi q b D bs -> wf b -> Forall (fun x => wf (snd x)) bs -> item_in h (f_item f) -> vars_in h vs ->
    forall y, reads_binds q y bs b -> exists v, yields h D f vs y v /\ multi_value q v r /\ (bs <> [] -> v = r).
  Definition PN (vs : vars) (rv : bool) (ps : list expr) (l r : xseq) : Prop :=
    forall D, Forall (hygienic D) ps -> Forall wf ps -> seq_in h l -> vars_in h vs -> forall x, reads_preds rv x ps -> narrowed D vs x l r.
  Definition PW (vs : vars) (st : list (bool * expr)) (l r : list nat) : Prop :=
    forall D, Forall (fun x => hygienic D (snd x)) st -> Forall (fun x => wf (snd x)) st -> (forall i, In i l -> in_document h 0 i) ->
      vars_in h vs -> forall y, tails y st -> walked D vs y l r.
  Definition PP (vs : vars) (st : list (bool * expr)) (l : list nat) (r : xseq) : Prop :=
    forall D, Forall (fun x => hygienic D (snd x)) st -> Forall (fun x => wf (snd x)) st -> (forall i, In i l -> in_document h 0 i) ->
      vars_in h vs -> forall y, tails y st -> poured D vs y l r.
  Ltac start := intros D HY WF IN VI xx R; eapply reads_yields; [exact R|]; clear xx R; intros yy R B;
    inversion R; subst; [destruct B as [B|B]; [destruct B; reflexivity|discriminate B]|].

  Lemma bnode_value : forall o op, value_op o = Some op -> forall ev cf c x e, x_type x = bnode o ->
    eval_step h ev cf c x e = binary ev c x e (value_fn op h).
  Proof. intros o op E. destruct o; try discriminate E; injection E as <-; step_tac. Qed.
  Lemma bnode_general : forall o op, general_op o = Some op -> forall ev cf c x e, x_type x = bnode o ->
    eval_step h ev cf c x e = binary ev c x e (general_fn op h).
  Proof. intros o op E. destruct o; try discriminate E; injection E as <-; step_tac. Qed.
  Lemma bnode_arith : forall o x y z, computes o x y z -> forall ev cf c x e, x_type x = bnode o ->
    eval_step h ev cf c x e = binary ev c x e (op_numeric_operation (binop_arith o)).
  Proof. intros o x y z C. destruct o; try contradiction C; step_tac. Qed.
  Lemma bnode_number : forall o x y z, number_op o x y z -> forall ev cf c x e, x_type x = bnode o ->
    eval_step h ev cf c x e = binary ev c x e (op_numeric_operation (item_op o)).
  Proof.
    intros o x y z C. assert (A : arithmetic o) by (destruct C as [a b d _ _ _ _ O|a b d _ _ _ _ _ O|m n a b d _ _ _ _ -> _ _ _]; [eapply float_op_arith; eauto..|cbn; tauto]).
    cbn [arithmetic In] in A. destruct A as [<-|[<-|[<-|[<-|[<-|A]]]]]; [step_tac..|destruct A].
  Qed.
  Ltac inn := match goal with M : means h order _ _ _ ?v |- seq_in h ?v => apply (proj1 (means_in h order SE PO) _ _ _ _ M); auto end.

  Lemma empty_yields : forall D f vs x, reads x EEmpty -> yields h D f vs x [].
  Proof.
    intros D f vs. induction x as [|ty nm l IHl r IHr]; intro R; inversion R; subst.
    - apply yields_paren; auto. eapply reads_nonnil; eauto.
    - apply yields_const. reflexivity.
  Qed.
  Lemma all_in : forall f vs es vals z, means_all h order f vs es vals -> item_in h (f_item f) -> vars_in h vs -> In z vals -> seq_in h z.
  Proof. intros f vs es vals z M I V Z. exact (proj1 (proj2 (proj2 (proj2 (proj2 (means_in h order SE PO))))) _ _ _ _ M I V z Z). Qed.
  Lemma hyg_multi_of : forall D q bs b, hygienic D (EMulti q bs b) -> hyg_multi q b D bs.
  Proof. intros D q bs b H. exact H. Qed.
  Lemma wf_multi : forall q bs b, wf (EMulti q bs b) -> wf b /\ Forall (fun x => wf (snd x)) bs.
  Proof. intros q bs b [_ [W H]]. split; auto. clear W. induction bs as [|x bs IH]; constructor; destruct H; auto. Qed.
  Theorem means_yields :
    (forall f vs e v, means h order f vs e v -> PM f vs e v) /\
    (forall vs fe vals r, applies h order vs fe vals r -> PAP vs fe vals r) /\
    (forall f vs os vals all, fills h order f vs os vals all -> PF f vs os vals all) /\
    (forall f vs q bs b v, binds h order f vs q bs b v -> PB f vs q bs b v) /\
    (forall f vs es l, means_all h order f vs es l -> PA f vs es l) /\
    (forall vs rv ps l r, narrows h order vs rv ps l r -> PN vs rv ps l r) /\
    (forall vs st l r, walks h order vs st l r -> PW vs st l r) /\
    (forall vs st l r, pours h order vs st l r -> PP vs st l r).
  Proof.
    apply means_ind8.
    - (* string *) intros f vs s. start. apply yields_const. reflexivity.
    - (* integer *) intros f vs d L. start. apply yields_const. intros. unfold eval_step. cbn [lnode leaf x_type x_name].
      inversion WF; subst. rewrite (atoi_text d (Z.of_N (numeral d))) by (constructor; auto; apply digits_all; auto).
      replace (in_i64 (Z.of_N (numeral d))) with true; [reflexivity|]. symmetry. unfold in_i64, i64_min, i64_max.
      apply andb_true_iff. rewrite !Z.leb_le. lia.
    - (* decimal *) intros f vs d m e x T R0 FN. start. apply yields_const. intros. unfold eval_step. cbn [lnode leaf x_type x_name].
      rewrite (atof_rounded d false m e x); auto.
    - (* double *) intros f vs d m e x T R0. start. apply yields_const. intros. unfold eval_step. cbn [lnode leaf x_type x_name].
      rewrite (atof_rounded d false m e x); auto.
    - (* variable *) intros f vs n v E. start. apply yields_const. intros m e A F. unfold eval_step. cbn [x_type leaf x_name]. unfold get_var.
        specialize (A n HY). rewrite E in A. cbn [bound_as] in A. rewrite A. reflexivity.
    - (* context item *) intros f vs. start. apply yields_const. reflexivity.
    - (* empty *) intros f vs D HY WF IN VI x R. apply empty_yields. auto.
    - (* comma *) intros f vs a b v w MA IA MB IB. start. destruct HY, WF as [? [? ?]]. eapply yields_binary; [apply IA|apply IB| |]; eauto.
      + step_tac.
      + reflexivity.
    - (* or *) intros f vs a b v MA IA T. start. destruct HY, WF as [? [? ?]]. eapply yields_logical; [step_tac|apply IA; eauto|exact T|auto|congruence].
    - intros f vs a b v w t MA IA T MB IB U. start. destruct HY, WF as [? [? ?]]. eapply yields_logical; [step_tac|apply IA; eauto|exact T|congruence|].
      intros _. exists w. split; [apply IB; auto|auto].
    - (* and *) intros f vs a b v MA IA T. start. destruct HY, WF as [? [? ?]]. eapply yields_logical; [step_tac|apply IA; eauto|exact T|auto|congruence].
    - intros f vs a b v w t MA IA T MB IB U. start. destruct HY, WF as [? [? ?]]. eapply yields_logical; [step_tac|apply IA; eauto|exact T|congruence|].
      intros _. exists w. split; [apply IB; auto|auto].
    - (* value comparison *) intros f vs o op a b x y t O MA IA MB IB C. start. destruct HY, WF as [? [? ?]].
      eapply yields_binary; [apply IA|apply IB|exact (bnode_value o op O)|]; eauto.
      apply (value_ok h SE); auto; apply in_seq_item; inn.
    - (* general comparison *) intros f vs o op a b v w x y O MA IA MB IB V W C. start. destruct HY, WF as [? [? ?]].
      eapply yields_binary; [apply IA|apply IB|exact (bnode_general o op O)|]; eauto.
      eapply (general_true_ok h SE); eauto; inn.
    - intros f vs o op a b v w O MA IA MB IB C. start. destruct HY, WF as [? [? ?]].
      eapply yields_binary; [apply IA|apply IB|exact (bnode_general o op O)|]; eauto.
      eapply (general_false_ok h SE); eauto; inn.
    - (* is *) intros f vs a b i j t MA IA MB IB T. start. destruct HY, WF as [? [? ?]].
      destruct (compare_ok h order SE PO i j Eq) as [u [E U]]; [apply item_node_in, in_seq_item; inn|apply item_node_in, in_seq_item; inn|].
      eapply yields_binary; [apply IA|apply IB|step_tac|]; eauto. rewrite E. do 3 f_equal. eapply bool_iff; eauto.
    - intros f vs a b i j t MA IA MB IB T. start. destruct HY, WF as [? [? ?]].
      destruct (compare_ok h order SE PO i j Lt) as [u [E U]]; [apply item_node_in, in_seq_item; inn|apply item_node_in, in_seq_item; inn|].
      eapply yields_binary; [apply IA|apply IB|step_tac|]; eauto. rewrite E. do 3 f_equal. eapply bool_iff; eauto.
    - intros f vs a b i j t MA IA MB IB T. start. destruct HY, WF as [? [? ?]].
      destruct (compare_ok h order SE PO i j Gt) as [u [E U]]; [apply item_node_in, in_seq_item; inn|apply item_node_in, in_seq_item; inn|].
      eapply yields_binary; [apply IA|apply IB|step_tac|]; eauto. rewrite E. do 3 f_equal. eapply bool_iff; eauto.
    - (* || *) intros f vs a b v w s t MA IA MB IB TV TW. start. destruct HY, WF as [? [? ?]].
      eapply yields_binary; [apply IA|apply IB|step_tac|]; eauto. cbv beta.
      unfold fn_concat. rewrite (text_args h SE [v; w] [s; t]).
      + cbn [List.concat bind]. rewrite app_nil_r. reflexivity.
      + intros z [<-|[<-|[]]]; inn.
      + auto.
    - (* to *) intros f vs a b m n l MA IA MB IB L S. start. destruct HY, WF as [? [? ?]].
      eapply yields_binary; [apply IA|apply IB|step_tac|]; eauto. apply to_ok; auto.
    - (* arithmetic *) intros f vs o a b x y z MA IA MB IB C X Y Z M. start. destruct HY, WF as [? [? ?]].
      eapply yields_binary; [apply IA|apply IB|exact (bnode_arith o x y z C)|]; eauto. apply arith_ok; auto.
    - (* numbers *) intros f vs o a b x y z MA IA MB IB O. start. destruct HY, WF as [? [? ?]].
      eapply yields_binary; [apply IA|apply IB|exact (bnode_number o x y z O)|]; eauto. unfold op_numeric_operation. cbn [get_singleton_item bind].
      rewrite (number_op_ok o x y z O). reflexivity.
    - (* union *) intros f vs o a b l r u O MA IA MB IB X. start. destruct HY, WF as [? [? ?]].
      eapply yields_binary; [apply IA|apply IB|destruct O as [-> | ->]; step_tac|]; eauto. apply (union_ok h order SE PO); auto.
      intros i [I|I]; [eapply nodes_seq_in with (l := l)|eapply nodes_seq_in with (l := r)]; auto; inn.
    - intros f vs a b l r u MA IA MB IB S X. start. destruct HY, WF as [? [? ?]].
      eapply yields_binary; [apply IA|apply IB|step_tac|]; eauto. apply (intersect_ok h order SE PO); auto.
    - intros f vs a b l r u MA IA MB IB S X. start. destruct HY, WF as [? [? ?]].
      eapply yields_binary; [apply IA|apply IB|step_tac|]; eauto. apply (except_ok h order SE PO); auto.
    - (* ! *) intros f vs a b l g MA IA MB IB. start. destruct HY, WF as [? [? ?]].
      assert (L : seq_in h l) by inn.
      apply yields_map; [eapply reads_nonnil; eauto|eapply reads_nonnil; eauto|apply IA; auto|]. intros it I. apply IB; auto.
    - (* + *) intros f vs a z MA IA. start. eapply yields_unary; [apply IA; eauto|step_tac|reflexivity].
    - intros f vs a z MA IA Z. start. eapply yields_unary; [apply IA; eauto|step_tac|]. cbn.
      rewrite (chk_ok _ Z). reflexivity.
    - intros f vs a it x MA IA N. start. eapply yields_unary; [apply IA; eauto|step_tac|]. destruct N; subst; reflexivity.
    - intros f vs a x MA IA. start. eapply yields_unary; [apply IA; eauto|step_tac|]. reflexivity.
    - intros f vs a x MA IA. start. eapply yields_unary; [apply IA; eauto|step_tac|]. reflexivity.
    - (* instance of *) intros f vs a n it t b MA IA T KT X. start. destruct WF. eapply yields_via; [apply IA; eauto|].
      intros m e e1 E. unfold eval_step. cbn [tnode x_type x_left x_right]. rewrite E. cbn [bind]. rewrite (instance_one h it t n b T X). reflexivity.
    - intros f vs a n MA IA KT. start. destruct WF. eapply yields_via; [apply IA; eauto|].
      intros m e e1 E. unfold eval_step. cbn [tnode x_type x_left x_right]. rewrite E. cbn [bind]. rewrite (instance_none h n). reflexivity.
    - intros f vs a n v MA IA L KT. start. destruct WF. eapply yields_via; [apply IA; eauto|].
      intros m e e1 E. unfold eval_step. cbn [tnode x_type x_left x_right]. rewrite E. cbn [bind]. rewrite (instance_many h n v L). reflexivity.
    - (* cast *) intros f vs a n it r MA IA C. start. destruct WF. eapply yields_via; [apply IA; eauto|].
      intros m e e1 E. unfold eval_step. cbn [x_type x_left x_right x_name leaf]. rewrite E. cbn [bind].
      destruct (casts_ok h SE it n r) as [[K1 K2] [K3 K4]]; auto; [apply in_seq_item; inn|]. rewrite K1. reflexivity.
    - intros f vs a n it r MA IA C. start. destruct WF. eapply yields_via; [apply IA; eauto|].
      intros m e e1 E. unfold eval_step. cbn [tnode typetree x_type x_left x_right x_name leaf]. rewrite E. cbn [bind].
      destruct (casts_ok h SE it n r) as [[K1 K2] [K3 K4]]; auto; [apply in_seq_item; inn|]. 
      match goal with |- context [cast_as h [it] ?t] => replace (cast_as h [it] t) with (Ok [r]) end. reflexivity.
    - intros f vs a n MA IA. start. destruct WF. eapply yields_via; [apply IA; eauto|].
      intros m e e1 E. unfold eval_step. cbn [tnode typetree x_type x_left x_right x_name leaf]. rewrite E. cbn [bind]. 
      unfold cast_as. rewrite ends_q. reflexivity.
    - intros f vs a n it r MA IA C. start. destruct WF. eapply yields_via; [apply IA; eauto|].
      intros m e e1 E. unfold eval_step. cbn [x_type x_left x_right x_name leaf]. rewrite E. cbn [bind].
      destruct (casts_ok h SE it n r) as [[K1 K2] [K3 K4]]; auto; [apply in_seq_item; inn|]. rewrite K3. reflexivity.
    - intros f vs a n it r MA IA C. start. destruct WF. eapply yields_via; [apply IA; eauto|].
      intros m e e1 E. unfold eval_step. cbn [tnode typetree x_type x_left x_right x_name leaf]. rewrite E. cbn [bind].
      destruct (casts_ok h SE it n r) as [[K1 K2] [K3 K4]]; auto; [apply in_seq_item; inn|].
      match goal with |- context [castable_as h [it] ?t] => replace (castable_as h [it] t) with true end. reflexivity.
    - intros f vs a n MA IA. start. destruct WF. eapply yields_via; [apply IA; eauto|].
      intros m e e1 E. unfold eval_step. cbn [tnode typetree x_type x_left x_right x_name leaf]. rewrite E. cbn [bind].
      unfold castable_as. rewrite ends_q. reflexivity.
    - intros f vs a n v MA IA L. start. destruct WF. eapply yields_via; [apply IA; eauto|].
      intros m e e1 E. unfold eval_step. cbn [tnode typetree x_type x_left x_right x_name leaf]. rewrite E. cbn [bind].
      destruct v as [|i1 [|i2 v]]; cbn [List.length] in L; try lia. reflexivity.
    - intros f vs a n MA IA. start. destruct WF. eapply yields_via; [apply IA; eauto|].
      intros m e e1 E. unfold eval_step. cbn [x_type x_left x_right x_name leaf]. rewrite E. cbn [bind].
      unfold castable_as. rewrite ends_no_q by auto. reflexivity.
    - intros f vs a n v MA IA L. start. destruct WF. eapply yields_via; [apply IA; eauto|].
      intros m e e1 E. unfold eval_step. cbn [tnode typetree x_type x_left x_right x_name leaf]. rewrite E. cbn [bind].
      destruct v as [|i1 [|i2 v]]; cbn [List.length] in L; try lia. reflexivity.
    - (* if *) intros f vs c a b v w MC IC T MA IA. start. destruct HY as [? [? ?]], WF as [? [? ?]].
      eapply yields_if; [apply IC|exact T|apply IA]; eauto.
    - intros f vs c a b v w MC IC T MA IA. start. destruct HY as [? [? ?]], WF as [? [? ?]].
      eapply yields_if; [apply IC|exact T|apply IA]; eauto.
    - (* for *) intros f vs v e b l g MA IA MB IB. start. destruct HY as [? [? ?]], WF as [? [? ?]].
      assert (L : seq_in h l) by inn.
      apply yields_for; [apply IA; auto|]. intros it I. apply IB; auto. apply vars_in_bind; auto. apply seq_in_item, (in_item h l); auto.
    - (* some *) intros f vs v e b l g t MA IA MB IB T. start. destruct HY as [? [? Q]], WF as [? [? ?]].
      assert (L : seq_in h l) by inn. destruct Q as [Q|Q]; [discriminate Q|].
      apply (yields_quant D f vs nm Q_some v x y l g t); [discriminate|exact Q|apply IA; auto| |exact T]. intros it I. apply IB; auto. apply vars_in_bind; auto.
      apply seq_in_item, (in_item h l); auto.
    - intros f vs v e b l g t MA IA MB IB T. start. destruct HY as [? [? Q]], WF as [? [? ?]].
      assert (L : seq_in h l) by inn. destruct Q as [Q|Q]; [discriminate Q|].
      apply (yields_quant D f vs nm Q_every v x y l g t); [discriminate|exact Q|apply IA; auto| |exact T]. intros it I. apply IB; auto. apply vars_in_bind; auto.
      apply seq_in_item, (in_item h l); auto.
    - (* let *) intros f vs v e b l r MA IA MB IB. start. destruct HY as [? ?], WF as [? [? ?]].
      eapply yields_let; [apply IA; auto|]. apply IB; auto. apply vars_in_bind; auto. inn.
    - (* step *) intros p s vs n sf t ps l r AT X NR IR OT. start. destruct (wf_step _ _ _ WF) as [T W]. apply hyg_step in HY.
      assert (ID : in_document h 0 n) by (apply item_node_in; exact IN).
      assert (L : seq_in h (nodes l)). { apply seq_in_nodes. intros i I. apply X in I. destruct I as [I _]. eapply axis_in_document; eauto. }
      apply (yields_step D p s vs n (form_axis sf) t x l r); auto; [split; auto| |].
      + exact (IR D HY W L VI x ltac:(eassumption)).
      + eapply narrows_in; eauto.
    - (* .. *) intros p s vs n q P. start. apply (yields_node D p s vs n A_parent [q]).
      + apply item_node_in. exact IN.
      + intros _. split; discriminate.
      + split; [|repeat constructor]. intro z. cbn [axis_has]. rewrite P. cbn. split; [intros [->|[]]; auto|]. intro E. injection E as ->. auto.
    - intros p s vs n P. start. apply (yields_node D p s vs n A_parent []).
      + apply item_node_in. exact IN.
      + intros _. split; discriminate.
      + split; [|constructor]. intro z. cbn [axis_has]. rewrite P. split; [intros []|discriminate].
    - (* filter *) intros f vs a p l r MA IA NR IR. start. destruct HY as [? ?], WF as [? ?].
      assert (NR' := IR D ltac:(constructor; auto) ltac:(constructor; auto) ltac:(inn) VI (XNode X_PredicateTop nm' y XNil)
        (rp_cons false nm' y XNil p [] ltac:(eassumption) (rp_nil _))).
      intros e F A. destruct (IA D) with (x := x) (e := e) as [e1 [[N1 E1] S1]]; auto.
      destruct (NR' e1 (agree_same _ _ _ _ A S1)) as [e2 [N2 [S2 E2]]].
      exists e2. split; [|eapply same_trans; eauto]. apply evals_S. exists (N1 + N2). intros m M.
      unfold eval_step. cbn [x_type x_left x_right x_name]. rewrite E1 by lia. cbn [bind]. specialize (E2 m ltac:(lia)). cbn [filter_by_predicates] in E2.
      destruct (filter_by_predicate (eval h m) l y false e1) as [[v1 e3]| | |]; cbn [bind] in E2; congruence.
    - (* / *) intros p s vs n. start. apply yields_path_nil; [discriminate|]. apply yields_root. apply item_node_in. exact IN.
    - (* path *) intros f vs a rest l r MA IA MW IW. start. apply hyg_path in HY. apply wf_path in WF. destruct HY as [HA HR], WF as [WA WR].
      assert (L : seq_in h (nodes l)) by inn.
      destruct (IW D HR WR (nodes_seq_in h l L) VI y) as [g [G [GI X]]]; [apply tail_tails; auto|].
      eapply path_nodes; [eapply reads_op_nonnil; eauto|eapply tails_nonnil, tail_tails; eauto|eapply reads_op_yields; [eassumption|]|..]; eauto.
    - intros p s vs n a rest r MW IW. start. apply hyg_path in HY. apply wf_path in WF. destruct HY as [HA HR], WF as [WA WR].
      assert (T := rel_tails _ _ _ ltac:(eassumption)).
      destruct (IW D) with (y := y) as [g [G [GI X]]]; auto.
      { intros i [<-|[]]. apply root_in. }
      eapply path_nodes with (l := [0]); [discriminate|eapply tails_nonnil; eauto|apply yields_root; apply item_node_in; exact IN|..]; eauto.
    - intros p s vs n a rest r MW IW. start. apply hyg_path in HY. apply wf_path in WF. destruct HY as [HA HR], WF as [WA WR].
      assert (T := tl_deep nm'' _ _ _ (rel_tails _ _ _ ltac:(eassumption))).
      destruct (IW D) with (y := XNode X_OperatorPath nm'' any_depth y) as [g [G [GI X]]]; auto.
      { intros i [<-|[]]. apply root_in. }
      eapply path_nodes with (l := [0]); [discriminate|eapply tails_nonnil; eauto|apply yields_root; apply item_node_in; exact IN|..]; eauto.
    - intros f vs a rest l r MA IA MW IW. start. apply hyg_path in HY. apply wf_path in WF. destruct HY as [HA HR], WF as [WA WR].
      assert (L : seq_in h (nodes l)) by inn.
      destruct (IW D HR WR (nodes_seq_in h l L) VI y) as [g [G [GI ->]]]; [apply tail_tails; auto|].
      eapply path_values; [eapply reads_op_nonnil; eauto|eapply tails_nonnil, tail_tails; eauto|eapply reads_op_yields; [eassumption|]|..]; eauto.
    - intros p s vs n a rest r MW IW. start. apply hyg_path in HY. apply wf_path in WF. destruct HY as [HA HR], WF as [WA WR].
      assert (T := rel_tails _ _ _ ltac:(eassumption)).
      destruct (IW D) with (y := y) as [g [G [GI ->]]]; auto.
      { intros i [<-|[]]. apply root_in. }
      eapply path_values with (l := [0]); [discriminate|eapply tails_nonnil; eauto|apply yields_root; apply item_node_in; exact IN|..]; eauto.
    - intros p s vs n a rest r MW IW. start. apply hyg_path in HY. apply wf_path in WF. destruct HY as [HA HR], WF as [WA WR].
      assert (T := tl_deep nm'' _ _ _ (rel_tails _ _ _ ltac:(eassumption))).
      destruct (IW D) with (y := XNode X_OperatorPath nm'' any_depth y) as [g [G [GI ->]]]; auto.
      { intros i [<-|[]]. apply root_in. }
      eapply path_values with (l := [0]); [discriminate|eapply tails_nonnil; eauto|apply yields_root; apply item_node_in; exact IN|..]; eauto.
    - (* call *) intros f vs name args vals r MA IA LB. start. apply hyg_call in HY. apply wf_call in WF.
      eapply yields_call; [eapply each_args; [apply IA|]; eauto|exact LB|exact IN|]. intros z Z. eapply all_in; eauto.
    - intros f vs name args vals r MA IA LB. start. apply hyg_pcall in HY. apply wf_pcall in WF.
      change (lit "fn" ++ lit ":" ++ name) with (lit "fn:" ++ name).
      eapply yields_call; [eapply each_args; [apply IA|]; eauto|exact LB|exact IN|]. intros z Z. eapply all_in; eauto.
    - intros f vs a name args vals r MA IA LB. start. apply hyg_arrow in HY. apply wf_arrow in WF.
      eapply yields_call; [eapply each_args; [apply IA|]; eauto|exact LB|exact IN|]. intros z Z. eapply all_in; eauto.
    - intros f vs p name args vals r MA IA LB. start. apply hyg_pcall in HY. apply wf_pcall in WF.
      eapply yields_item_call; [eapply each_args; [apply IA|]; eauto|exact LB|]. intros z Z. eapply all_in; eauto.
    - (* array *) intros f vs es vals MA IA. start. apply hyg_square in HY. apply wf_square in WF. intros e F A.
      destruct (each_items D f vs es vals (IA D HY WF IN VI) y ltac:(assumption) e F A) as [e1 [N1 [S1 E1]]].
      exists e1. split; auto. apply evals_S. exists N1. intros m M. unfold eval_step. cbn [x_type]. unfold convert_xnode_to_map_array. cbn [x_type x_left].
      rewrite E1 by lia. reflexivity.
    - intros f vs a v MA IA. start. eapply yields_via; [apply IA; eauto|].
      intros m e e1 E. unfold eval_step. cbn [x_type]. unfold convert_xnode_to_map_array. cbn [x_type x_left]. rewrite E. reflexivity.
    - (* map *) intros f vs es m MK IK MV IV KD AT. start. apply hyg_map in HY. apply wf_map in WF. destruct HY, WF. intros e F A.
      destruct (each_entries D f vs m es) with (x := y) (e := e) as [e1 [N1 [S1 E1]]]; auto.
      exists e1. split; auto. apply evals_S. exists N1. intros k M. unfold eval_step. cbn [x_type]. unfold convert_xnode_to_map_array. cbn [x_type x_left].
      rewrite E1 by lia. reflexivity.
    - (* lookup *) intros f vs k v L D HY WF IN VI x R. eapply key_yields; eauto.
    - intros f vs k ks vals MK IK MA L. start. eapply key_of_yields; eauto. inn.
    - intros f vs a k l g MA IA L. start. destruct WF. assert (LI : seq_in h l) by inn.
      apply yields_map; [eapply reads_nonnil; eauto|eapply reads_nonnil; eauto|apply IA; auto|]. intros it I.
      eapply key_yields; eauto.
    - intros f vs a k l ks g MA IA MK IK MI II L. start. destruct WF, HY. assert (LI : seq_in h l) by inn. assert (KI : seq_in h ks) by inn.
      apply yields_map; [eapply reads_nonnil; eauto|eapply reads_nonnil; eauto|apply IA; auto|]. intros it I. destruct (L it I).
      eapply reads_yields; [eassumption|]. intros z Z BB. inversion Z; subst.
      { destruct BB as [BB|BB]; [destruct BB; reflexivity|discriminate BB]. }
      eapply key_of_yields; eauto. apply (II it _ _ I); auto.
    - (* map or array as a function *) intros f vs a k it key v MA IA MK IK L MP. start. apply hyg_dyn in HY. apply wf_dyn in WF. destruct HY as [HA HK], WF as [WA WK].
      inversion HK; subst. inversion WK; subst.
      assert (LI : item_in h it) by (apply in_seq_item; inn). assert (KI : item_in h key) by (apply in_seq_item; inn).
      intros e F A. destruct (IA D HA WA IN VI x ltac:(assumption) e F A) as [e1 [[N1 E1] S1]].
      destruct (each_dyn D f vs [k] [[key]]) with (x := y) (e := e1) as [e2 [N2 [S2 E2]]]; auto;
        [repeat constructor; intros; apply IK; auto|eapply at_focus_same; eauto|eapply agree_same; eauto|].
      exists e2. split; [|eapply same_trans; eauto]. apply evals_S. exists (N1 + N2). intros m M. unfold eval_step. cbn [x_type x_left x_right].
      rewrite E1 by lia. cbn [bind]. unfold apply_argument. cbn [x_left]. rewrite E2 by lia. cbn [bind].
      destruct L as [pre k' v post s SK O|m' k' O|ar n v EN].
      + cbn [get_singleton_item bind]. rewrite (get_entry h SE pre k' v post s) by auto. reflexivity.
      + destruct (MP m' eq_refl) as [p [P Q]]. destruct (O p P) as [s [t [T1 [T2 [T3 _]]]]]. rewrite Q in T1. destruct T3.
        apply (string_of_raw h SE _ _ KI) in T1. apply (string_of_raw h SE _ _ KI) in T2. congruence.
      + cbn [get_singleton_item bind]. rewrite (get_member h ar n v EN). reflexivity.
    - (* let, function *) intros f vs v e fe ev b r FA H0 MB IB. start. destruct HY as [? ?], WF as [? [? ?]].
      eapply yields_pass; [intros; reflexivity|]. eapply yields_let_fun_bind; eauto. apply IB; auto. apply vars_in_fun; auto.
    - (* call *) intros f vs e ps b ev args vals r FA SC MA IA AQ IP. start. apply hyg_dyn in HY. apply wf_dyn in WF. destruct HY as [HF HA], WF as [WE WA].
      assert (VA : forall z, In z vals -> seq_in h z) by (intros z Z; eapply all_in; eauto).
      intros en F A. destruct (function_evals vs e _ ev D FA HF WE x ltac:(assumption) en A) as [t [[_ [RT [BT [WT HT]]]] EF]]. destruct (EF [f_item f]) as [N1 E1].
      destruct (bare_fun _ _ _ RT BT) as [n1 [n2 [by0 [-> RB]]]].
      destruct (each_dyn D f vs args vals (IA D HA WA IN VI) y ltac:(assumption) en F A) as [e2 [N2 [S2 E2]]].
      destruct (answers_inline D f vs n1 n2 by0 ps vals r) with (e := e2) as [e3 [N3 [S3 E3]]].
      { apply IP; auto. } { eapply at_focus_same; eauto. } { eapply agree_same; eauto. }
      exists e3. split; [|eapply same_trans; eauto]. apply evals_S. exists (N1 + N2 + N3). intros m M. unfold eval_step. cbn [x_type x_left x_right].
      rewrite E1 by lia. cbn [bind]. unfold apply_argument. cbn [x_left]. rewrite E2 by lia. cbn [bind].
      change (xtype_eqb (x_type (inline_tree n1 n2 by0 ps)) X_InlineFunction) with true. cbn iota. apply E3. lia.
    - (* arrow *) intros f vs a n ps b ev args vals r E SC MA IA AQ IP. start.
      assert (HN : ~ In n D) by (destruct HY as [HV _]; apply HV; reflexivity). apply hyg_arrow in HY. apply wf_arrow in WF.
      assert (VA : forall z, In z vals -> seq_in h z) by (intros z Z; eapply all_in; eauto).
      intros en F A. assert (AN := A n HN). rewrite E in AN. destruct AN as [t [L [_ [RT [BT [WT [HT _]]]]]]].
      destruct (bare_fun _ _ _ RT BT) as [n1 [n2 [by0 [-> RB]]]].
      destruct (each_dyn D f vs (a :: args) vals (IA D HY WF IN VI) x ltac:(assumption) en F A) as [e2 [N2 [S2 E2]]].
      destruct (answers_inline D f vs n1 n2 by0 ps vals r) with (e := e2) as [e3 [N3 [S3 E3]]].
      { apply IP; auto. } { eapply at_focus_same; eauto. } { eapply agree_same; eauto. }
      exists e3. split; [|eapply same_trans; eauto]. apply evals_S. exists (S (N2 + N3)). intros m M. unfold eval_step. cbn [x_type x_left x_right].
      assert (EV : eval h m [f_item f] (leaf X_VarRef n) en = Ok ([XIFun (inline_tree n1 n2 by0 ps)], en)).
      { destruct m as [|m]; [lia|]. rewrite eval_S. unfold eval_step. cbn [x_type leaf x_name]. unfold get_var. rewrite L. reflexivity. }
      rewrite EV. cbn [bind]. unfold apply_argument. cbn [x_left]. rewrite E2 by lia. cbn [bind].
      change (xtype_eqb (x_type (inline_tree n1 n2 by0 ps)) X_InlineFunction) with true. cbn iota. apply E3. lia.
    - (* for-each *) intros f vs a e fe ev l g MA IA FA SC MB IB. start. apply hyg_call in HY. apply wf_call in WF.
      inversion HY as [|? ? HA HB]; subst. inversion HB as [|? ? HF _]; subst. inversion WF as [|? ? WA WB]; subst. inversion WB as [|? ? WF' _]; subst.
      assert (LI : seq_in h l) by inn.
      match goal with R : reads_args _ _ |- _ => inversion R as [|xa ? ra ? RA RR]; subst; inversion RR as [|xf ? rn ? RF RN]; subst; inversion RN; subst end.
      intros en F A. destruct (IA D HA WA IN VI xa RA en F A) as [e1 [[N1 E1] S1]].
      destruct (function_evals vs e fe ev D FA HF WF' xf RF e1 (agree_same _ _ _ _ A S1)) as [t [[_ [RT [BT [WT HT]]]] EF]]. destruct (EF [f_item f]) as [N2 E2].
      destruct (for_each_yields D f vs t g l) with (e := e1) as [e3 [N3 [S3 E3]]].
      { intros it I. apply (IB it I); auto. intros w [<-|[]]. apply seq_in_item. exact (LI it I). }
      { eapply at_focus_same; eauto. } { eapply agree_same; eauto. }
      exists e3. split; [|eapply same_trans; eauto]. apply evals_S. exists (N1 + N2 + N3). intros m M. unfold eval_step. cbn [x_type x_left x_right x_name].
      cbn [eval_args]. change (xtype_eqb X_ArgumentTop X_ArgumentTop) with true. cbn iota. rewrite E1 by lia. cbn [bind]. rewrite E2 by lia. cbn [bind].
      unfold evaluate_function. change (find_function (lit "fn:" ++ lit "for-each") (List.length [l; [XIFun t]])) with (Some C_for_each).
      cbn iota. cbn [get_singleton_xnodeptr bind]. apply E3. lia.
    - intros f vs a e fe ev l g t MA IA FA SC MB IB T. start. apply hyg_call in HY. apply wf_call in WF.
      inversion HY as [|? ? HA HB]; subst. inversion HB as [|? ? HF _]; subst. inversion WF as [|? ? WA WB]; subst. inversion WB as [|? ? WF' _]; subst.
      assert (LI : seq_in h l) by inn.
      match goal with R : reads_args _ _ |- _ => inversion R as [|xa ? ra ? RA RR]; subst; inversion RR as [|xf ? rn ? RF RN]; subst; inversion RN; subst end.
      intros en F A. destruct (IA D HA WA IN VI xa RA en F A) as [e1 [[N1 E1] S1]].
      destruct (function_evals vs e fe ev D FA HF WF' xf RF e1 (agree_same _ _ _ _ A S1)) as [tx [[_ [RT [BT [WT HT]]]] EF]]. destruct (EF [f_item f]) as [N2 E2].
      destruct (filter_fn_yields D f vs tx g t l) with (e := e1) as [e3 [N3 [S3 E3]]]; auto.
      { intros it I. apply (IB it I); auto. intros w [<-|[]]. apply seq_in_item. exact (LI it I). }
      { eapply at_focus_same; eauto. } { eapply agree_same; eauto. }
      exists e3. split; [|eapply same_trans; eauto]. apply evals_S. exists (N1 + N2 + N3). intros m M. unfold eval_step. cbn [x_type x_left x_right x_name].
      cbn [eval_args]. change (xtype_eqb X_ArgumentTop X_ArgumentTop) with true. cbn iota. rewrite E1 by lia. cbn [bind]. rewrite E2 by lia. cbn [bind].
      unfold evaluate_function. change (find_function (lit "fn:" ++ lit "filter") (List.length [l; [XIFun tx]])) with (Some C_filter).
      cbn iota. cbn [get_singleton_xnodeptr bind]. apply E3. lia.
    - (* sequence types *) intros f vs a t v b MA IA T. start. destruct WF. eapply yields_via; [apply IA; eauto|].
      intros m e e1 E. unfold eval_step. cbn [x_type x_left x_right]. rewrite E. cbn [bind]. rewrite (of_type_ok h SE v t b); auto. inn.
    - (* several variables *) intros f vs q bs b r NB MB IB. start. apply hyg_multi_of in HY. apply wf_multi in WF. destruct WF as [WB WS].
      destruct (IB D HY WB WS IN VI y ltac:(assumption)) as [v [Y [_ E]]]. rewrite (E NB) in Y.
      eapply yields_pass; [|exact Y]. intros. destruct q as [[]|]; reflexivity.
    - (* inline function *) intros vs ps b vals r L ND MB IB D HY WF VI VA f IN t R B. destruct (bare_fun _ _ _ R B) as [n1 [n2 [y [-> RB]]]].
      destruct WF as [_ WF]. intros e F A.
      destruct (inline_yields D f vs n1 n2 y ps vals r L VA) with (e := e) as [e1 [N1 [S1 E1]]]; auto.
      { apply IB; auto. apply vars_in_binds; auto. }
      exists e1, (S N1). split; auto. intros [|m] M; [lia|]. rewrite call_S. unfold call_function_body. cbn [x_type inline_tree].
      fold (inline_tree n1 n2 y ps). apply E1. lia.
    - (* named function *) intros vs name d vals r ND LT FV D HY WF VI VA f IN t R B.
      inversion R; subst; [destruct B as [B|B]; [destruct B; reflexivity|discriminate B]|]. intros e F A. exists e, 1. split; [apply same_refl|].
      intros [|m] M; [lia|]. rewrite call_S. unfold call_function_body. cbn [x_type leaf]. unfold call_named_func. cbn [x_name leaf].
      rewrite (split_ref _ _ WF), (atoi_ref _ _ WF LT), ND, nat_N_Z, Z.eqb_refl. apply (function_value_ok h order SE PO f); auto.
    - (* partial application *) intros vs name os vals all r FL IFL FV D HY WF VI VA f IN t R B.
      inversion R; subst; [destruct B as [B|B]; [destruct B; reflexivity|discriminate B]|]. intros e F A.
      destruct (IFL f D (hyg_part _ _ _ HY) (wf_part _ _ WF) IN VI x ltac:(assumption) e F A) as [e1 [N1 [S1 E1]]].
      exists e1, (S N1). split; auto. intros [|m] M; [lia|]. rewrite call_S. unfold call_function_body. cbn [x_type]. unfold call_partial_func. cbn [x_right x_name].
      rewrite E1 by lia. cbn [bind]. apply (function_value_ok h order SE PO f); auto; [|eapply at_focus_same; eauto].
      apply (proj1 (proj2 (proj2 (means_in h order SE PO))) f vs os vals all (FL f)); auto.
    - (* arguments of a partial application *) intros f vs D HY WF IN VI x R. inversion R; subst. intros e F A. exists e, 0. split; [apply same_refl|]. reflexivity.
    - intros f vs e os v vals all ME IE MF IFL D HY WF IN VI x R. inversion R; subst. inversion HY; subst. inversion WF; subst. intros en F A.
      destruct (IE D ltac:(assumption) ltac:(assumption) IN VI x0 ltac:(assumption) en F A) as [e1 [[N1 E1] S1]].
      destruct (IFL D) with (x := r) (e := e1) as [e2 [N2 [S2 E2]]]; auto; [eapply at_focus_same; eauto|eapply agree_same; eauto|].
      exists e2, (N1 + N2). split; [eapply same_trans; eauto|]. intros m M. cbn [eval_partial_args]. rewrite E1 by lia. cbn [bind]. rewrite E2 by lia. reflexivity.
    - intros f vs os v vals all MF IFL D HY WF IN VI x R. inversion R; subst. inversion HY; subst. inversion WF; subst. intros en F A.
      destruct (IFL D) with (x := r) (e := en) as [e2 [N2 [S2 E2]]]; auto.
      exists e2, N2. split; auto. intros m M. cbn [eval_partial_args]. rewrite E2 by lia. reflexivity.
    - intros f vs q b r Q MB IB D HY WB WS IN VI y R. inversion R; subst. exists r. split; [apply IB; auto|]. split; [|congruence].
      destruct Q as [-> | ->]; reflexivity.
    - intros f vs q b r t Q MB IB T D HY WB WS IN VI y R. inversion R; subst. exists r. split; [apply IB; auto|]. split; [|congruence].
      destruct Q as [-> | ->]; exists t; auto.
    - intros f vs v e bs b l g ME IE MB IB D HY WB WS IN VI y R. destruct HY as [HE [_ HB]]. inversion WS; subst. inversion R; subst.
      assert (LI : seq_in h l) by inn.
      exists (flat_map g l). split; [|split; [reflexivity|auto]]. apply yields_for_bind; [apply IE; auto|]. intros it I.
      destruct (IB it I _ HB WB ltac:(assumption) IN) with (y := y0) as [w [Y [E _]]]; auto.
      { apply vars_in_bind; auto. apply seq_in_item. exact (LI it I). }
      cbn in E. subst w. exact Y.
    - intros f vs v e bs b l r ME IE MB IB D HY WB WS IN VI y R. destruct HY as [HE [_ HB]]. inversion WS; subst. inversion R; subst.
      assert (LI : seq_in h l) by inn.
      exists r. split; [|split; [reflexivity|auto]]. eapply yields_let_bind; [apply IE; auto|].
      destruct (IB _ HB WB ltac:(assumption) IN) with (y := y0) as [w [Y [E _]]]; auto.
      { apply vars_in_bind; auto. }
      cbn in E. subst w. exact Y.
    - (* let, function *) intros f vs v e fe ev bs b r FA H0 MB IB D HY WB WS IN VI y R. destruct HY as [HE [_ HB]]. inversion WS; subst. inversion R; subst.
      exists r. split; [|split; [reflexivity|auto]]. eapply yields_let_fun_bind; eauto.
      destruct (IB _ HB WB ltac:(assumption) IN) with (y := y0) as [w [Y [E _]]]; auto.
      { apply vars_in_fun; auto. }
      cbn in E. subst w. exact Y.
    - intros f vs v e bs b l t ME IE MB IB D HY WB WS IN VI y R. destruct HY as [HE [HV HB]]. inversion WS; subst. inversion R; subst.
      assert (LI : seq_in h l) by inn. destruct HV as [HV|[HV|HV]]; try discriminate HV.
      assert (YY : forall it, In it l -> exists w, yields h (without D v) f (bind_var v [it] vs) y0 w /\ ebv w (t it)).
      { intros it I. destruct (IB it I _ HB WB ltac:(assumption) IN) with (y := y0) as [w [Y [[t' [E T]] _]]]; auto.
        { apply vars_in_bind; auto. apply seq_in_item. exact (LI it I). }
        injection E as <-. eauto. }
      exists [XIBoolean (existsb t l)]. split; [|split; [exists (existsb t l); split; [reflexivity|constructor]|auto]].
      apply (yields_quant_bind D f vs Q_some v x y0 l t); [discriminate|exact HV|apply IE; auto|exact YY].
    - intros f vs v e bs b l t ME IE MB IB D HY WB WS IN VI y R. destruct HY as [HE [HV HB]]. inversion WS; subst. inversion R; subst.
      assert (LI : seq_in h l) by inn. destruct HV as [HV|[HV|HV]]; try discriminate HV.
      assert (YY : forall it, In it l -> exists w, yields h (without D v) f (bind_var v [it] vs) y0 w /\ ebv w (t it)).
      { intros it I. destruct (IB it I _ HB WB ltac:(assumption) IN) with (y := y0) as [w [Y [[t' [E T]] _]]]; auto.
        { apply vars_in_bind; auto. apply seq_in_item. exact (LI it I). }
        injection E as <-. eauto. }
      exists [XIBoolean (forallb t l)]. split; [|split; [exists (forallb t l); split; [reflexivity|constructor]|auto]].
      apply (yields_quant_bind D f vs Q_every v x y0 l t); [discriminate|exact HV|apply IE; auto|exact YY].
    - (* arguments *) intros f vs D HY WF IN VI. constructor.
    - intros f vs e es v l ME IE MA IA D HY WF IN VI. inversion HY; subst. inversion WF; subst. constructor; [intros; apply IE; auto|apply IA; auto].
    - (* predicates *) intros vs rv l D HY WF IN VI x R. inversion R; subst. intros e A. exists e, 0. split; [apply same_refl|]. reflexivity.
    - intros vs rv p ps l vals keep r MP IP K NR IR D HY WF IN VI x R. inversion R; subst. inversion HY; subst. inversion WF; subst.
      eapply narrowed_cons; [eapply reads_nonnil; eauto| |exact K|].
      + intros k it E. apply (IP k it E); auto. apply (in_item h l); auto. eapply nth_error_In; eauto.
      + apply IR; auto. intros i I. apply IN. eapply pick_in; eauto.
    - (* last step *) intros vs e l g r M I X D HY WF IN VI y T. inversion HY; subst. inversion WF; subst.
      assert (YY : forall x, reads_op x e -> forall n p s, In n l -> yields h D (mkFocus (XINode n) p s) vs x (nodes (g n))).
      { intros x R n p s J. eapply reads_op_yields; [eassumption|]. intros z Z. apply (I n p s J); auto. apply item_node. auto. }
      assert (GI : forall n i, In n l -> In i (g n) -> in_document h 0 i).
      { intros n i J Q. eapply nodes_seq_in; [|exact Q]. apply (proj1 (means_in h order SE PO) _ _ _ _ (M n 0 0 J)); auto. apply item_node. auto. }
      exists g. split; [|split; auto]. inversion T; subst; auto; [|congruence].
      intros n p s J. apply yields_path_nil; [eapply reads_op_nonnil; eauto|auto].
    - intros vs e rest l g l' r NR M I X MW IW D HY WF IN VI y T. inversion HY; subst. inversion WF; subst. inversion T; subst; try congruence.
      eapply walked_cons; [eapply reads_op_nonnil; eauto|eapply tails_nonnil; eauto| |exact X|].
      + intros n p s J. eapply reads_op_yields; [eassumption|]. intros z Z. apply (I n p s J); auto. apply item_node. auto.
      + apply IW; auto. intros i J. apply X in J. destruct J as [n [J Q]]. eapply nodes_seq_in; [|exact Q].
        apply (proj1 (means_in h order SE PO) _ _ _ _ (M n 0 0 J)); auto. apply item_node. auto.
    - intros vs e rest l l' r X MW IW D HY WF IN VI y T. inversion T; subst.
      eapply walked_cons with (g := fun n => match axis_nodes h n any_depth with Ok k => k | _ => [] end); [discriminate|eapply tails_nonnil; eauto| |..].
      + intros n p s J. destruct (depth_list n (IN n J)) as [k [E Q]]. rewrite E. apply yields_depth; auto.
      + eapply exactly_ext; [|exact X]. intro z. split; intros [n [J Q]]; exists n; (split; [auto|]); destruct (depth_list n (IN n J)) as [k [E Q']]; rewrite E in *;
          apply Q'; auto.
      + apply IW; auto. inversion HY; subst. constructor; auto. inversion WF; subst. constructor; auto.
        intros i J. apply X in J. destruct J as [n [J [->|Q]]]; auto. apply (axis_in_document h order SE PO A_descendant i n); auto.
    - (* values *) intros vs e l g M I AT D HY WF IN VI y T. inversion HY; subst. inversion WF; subst.
      assert (YY : forall x, reads_op x e -> forall n p s, In n l -> yields h D (mkFocus (XINode n) p s) vs x (g n)).
      { intros x R n p s J. eapply reads_op_yields; [eassumption|]. intros z Z. apply (I n p s J); auto. apply item_node. auto. }
      exists g. split; [|split; auto]. inversion T; subst; auto; [|congruence].
      intros n p s J. apply yields_path_nil; [eapply reads_op_nonnil; eauto|auto].
    - intros vs e rest l g r NR M I X MW IW D HY WF IN VI y T. inversion HY; subst. inversion WF; subst. inversion T; subst; try congruence.
      eapply poured_cons with (g := g); [eapply reads_op_nonnil; eauto|eapply tails_nonnil; eauto| |].
      + intros n p s J. eapply reads_op_yields; [eassumption|]. intros z Z. apply (I n p s J); auto. apply item_node. auto.
      + apply IW; auto. intros i J. apply in_flat_map in J. destruct J as [n [J Q]]. eapply nodes_seq_in; [|exact Q].
        apply (proj1 (means_in h order SE PO) _ _ _ _ (M n 0 0 J)); auto. apply item_node. auto.
    - intros vs e rest l g r X SS MW IW D HY WF IN VI y T. inversion T; subst.
      eapply poured_cons with (g := g); [discriminate|eapply tails_nonnil; eauto| |].
      + intros n p s J. apply yields_depth; auto.
      + apply IW; auto. inversion HY; subst. constructor; auto. inversion WF; subst. constructor; auto.
        intros i J. apply in_flat_map in J. destruct J as [n [J Q]]. apply (X n J) in Q. destruct Q as [->|Q]; auto.
        apply (axis_in_document h order SE PO A_descendant i n); auto.
  Qed.
End Main.

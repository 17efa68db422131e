(* C82: errors are raised and never lost. *)
Require Import Bool List NArith ZArith Ascii String Lia Sorted.
Require Import Coq.Floats.SpecFloat.
From Verif Require Import Str StrFacts Sax Dom Axes SpecEdit SpecAxes SessionFacts Lexer FuncTable Parser SpecExpr Num Item Func Types Eval EvalFacts
  SpecOper ItemFacts SpecFunc FuncFacts SpecTypes SpecEval EnvFacts SpecInt IntFacts PropInt SpecNum SpecDbl SpecLib SpecArith ArithFacts LibNum SpecSem SemFacts SemNode SemLib SemOper SemIn SemItem SemMore SemMain SemKind SpecErr ErrFacts PropParse PropSem.
Import ListNotations.
Open Scope nat_scope.

Lemma no_truth_error : forall v, no_truth v -> effective_boolean_value v = Err TypeError.
Proof.
  intros v [[x [y [r [-> N]]]]|[x [-> [N A]]]]; destruct x; cbn in *; try tauto; reflexivity.
Qed.
Lemma several_singleton : forall v, several v -> get_singleton_item v = Err TypeError.
Proof. intros [|a [|b v]] H; unfold several in H; cbn in H; try lia. reflexivity. Qed.
Lemma numeric_many : forall fn v w, several v \/ several w -> op_numeric_operation fn v w = Err TypeError.
Proof.
  intros fn v w [H|H]; unfold op_numeric_operation; [rewrite several_singleton by auto; reflexivity|].
  destruct v as [|a [|b v]]; cbn [get_singleton_item bind]; auto. rewrite several_singleton by auto. reflexivity.
Qed.
Lemma value_many : forall h num scmp bop v w, v <> [] -> w <> [] -> several v \/ several w -> value_comparison h num scmp bop v w = Err TypeError.
Proof.
  intros h num scmp bop v w NV NW H. destruct v as [|a [|b v]], w as [|c [|d w]]; try congruence; auto. destruct H as [H|H]; unfold several in H; cbn in H; lia.
Qed.
Lemma value_fn_many : forall op h v w, v <> [] -> w <> [] -> several v \/ several w -> value_fn op h v w = Err TypeError.
Proof. intros [] h v w NV NW H; cbv [value_fn value_compare_eq value_compare_ne value_compare_lt value_compare_le value_compare_gt value_compare_ge]; rewrite ?value_many by auto; reflexivity. Qed.
Lemma value_unlike : forall op h x y, session h -> item_in h x -> item_in h y -> unlike x y -> value_fn op h [x] [y] = Err TypeError.
Proof.
  intros op h x y SE IX IY [a [b [A [B N]]]].
  destruct op; cbn [value_fn]; unfold value_compare_ne, value_compare_le, value_compare_ge, value_compare_eq, value_compare_lt, value_compare_gt, value_comparison;
    destruct x, y; cbn in A, B; try discriminate; injection A as <-; injection B as <-; try (destruct N; congruence); cbn; reflexivity.
Qed.
Lemma no_number_arith : forall o x y, In o [O_add; O_sub; O_mul] -> no_number x \/ no_number y -> item_op o x y = Err TypeError.
Proof.
  intros o x y O H. destruct O as [<-|[<-|[<-|[]]]]; destruct x, y; cbn in H; try tauto; reflexivity.
Qed.
Lemma feqb_zero : forall b, feqb b f_zero = true -> exists s, b = S754_zero s.
Proof. intros [s|s| |s m e] E; try discriminate E; eauto; destruct s; discriminate E. Qed.
Lemma zero_feqb : forall s, feqb (S754_zero s) f_zero = true.
Proof. intros []; reflexivity. Qed.
Lemma dividend_arith : forall o x y, In o [O_div; O_mod] -> no_number x -> a_number y -> ~ a_zero y -> item_op o x y = Err TypeError.
Proof.
  intros o x y O H N Z.
  assert (ZI : forall z, y = XIInteger z -> (z =? 0)%Z = false). { intros z ->. apply Z.eqb_neq. intros ->. apply Z. left. reflexivity. }
  assert (ZD : forall d, y = XIDecimal d -> feqb d f_zero = false).
  { intros d ->. apply not_true_is_false. intro E. apply feqb_zero in E. destruct E as [s ->]. apply Z. right. eauto. }
  destruct O as [<-|[<-|[]]]; cbn [item_op]; unfold xitem_numeric_divide, xitem_numeric_mod; destruct y; cbn in N; try tauto;
    rewrite ?(ZI _ eq_refl), ?(ZD _ eq_refl); destruct x; cbn in H; try tauto; reflexivity.
Qed.
Lemma divisor_arith : forall x y, no_number y -> item_op O_mod x y = Err TypeError.
Proof. intros x y N. destruct x, y; cbn in N; try tauto; reflexivity. Qed.
Lemma zero_arith : forall o x y, In o [O_div; O_idiv; O_mod] -> a_number x -> a_zero y -> item_op o x y = Err DynamicError.
Proof.
  intros o x y O N [->|[s ->]]; destruct O as [<-|[<-|[<-|[]]]]; cbn [item_op]; unfold xitem_numeric_divide, xitem_numeric_integer_divide, xitem_numeric_mod;
    rewrite ?zero_feqb; cbn -[is_nan is_finite]; try reflexivity;
    (match goal with |- (if ?b then _ else _) = _ => destruct b; reflexivity end).
Qed.
Lemma special_arith : forall x y, a_number x -> a_number y -> special x \/ y = XIDouble S754_nan -> item_op O_idiv x y = Err DynamicError.
Proof.
  intros x y NX NY [[->|[s ->]]| ->]; cbn [item_op]; unfold xitem_numeric_integer_divide; cbn; try reflexivity.
  match goal with |- (if ?b then _ else _) = _ => destruct b; reflexivity end.
Qed.
Lemma op_err : forall fn x y k, fn x y = Err k -> op_numeric_operation fn [x] [y] = Err k.
Proof. intros fn x y k E. unfold op_numeric_operation. cbn [get_singleton_item bind]. rewrite E. reflexivity. Qed.
Lemma sign_err : forall (m : bool) v, several v \/ (exists x, v = [x] /\ no_number x) ->
  op_numeric_unary (if m then xitem_numeric_unary_minus else xitem_numeric_unary_plus) v = Err TypeError.
Proof.
  intros m v [H|[x [-> N]]]; unfold op_numeric_unary; [rewrite several_singleton by auto; reflexivity|].
  cbn [get_singleton_item bind]. destruct m, x; cbn in N; try tauto; reflexivity.
Qed.
Lemma to_err : forall v w, v <> [] -> w <> [] ->
  several v \/ several w \/ (exists x, v = [x] /\ no_integer x) \/ (exists x, w = [x] /\ no_integer x) -> op_to v w = Err TypeError.
Proof.
  assert (B : forall v, several v \/ (exists x, v = [x] /\ no_integer x) -> get_singleton_integer v = Err TypeError).
  { intros v [H|[x [-> N]]]; [destruct v as [|a [|b v]]; unfold several in H; cbn in H; try lia; destruct a; reflexivity|].
    destruct N as [N|N]; destruct x; cbn in N; try tauto; reflexivity. }
  assert (G : forall v, get_singleton_integer v = Err TypeError \/ exists z, get_singleton_integer v = Ok z).
  { intros [|[] [|? ?]]; cbn; eauto. }
  intros v w NV NW H. unfold op_to. assert (H' : get_singleton_integer v = Err TypeError \/ get_singleton_integer w = Err TypeError).
  { destruct H as [H|[H|[H|H]]]; [left|right|left|right]; apply B; auto. }
  destruct (G v) as [E|[z E]]; rewrite E; cbn [bind]; auto. destruct H' as [H'|H']; [congruence|]. rewrite H'. reflexivity.
Qed.
Lemma node_err : forall h c v w, v <> [] -> w <> [] ->
  several v \/ several w \/ (exists x, v = [x] /\ ~ a_node x) \/ (exists x, w = [x] /\ ~ a_node x) -> op_node_compare h c v w = Err TypeError.
Proof.
  assert (B : forall v, several v \/ (exists x, v = [x] /\ ~ a_node x) -> get_singleton_node v = Err TypeError).
  { intros v [H|[x [-> N]]]; [destruct v as [|a [|b v]]; unfold several in H; cbn in H; try lia; destruct a; reflexivity|].
    destruct x; cbn in N; try tauto; reflexivity. }
  assert (G : forall v, get_singleton_node v = Err TypeError \/ exists z, get_singleton_node v = Ok z).
  { intros [|[] [|? ?]]; cbn; eauto. }
  intros h c v w NV NW H. unfold op_node_compare. assert (H' : get_singleton_node v = Err TypeError \/ get_singleton_node w = Err TypeError).
  { destruct H as [H|[H|[H|H]]]; [left|right|left|right]; apply B; auto. }
  destruct (G v) as [E|[z E]]; rewrite E; cbn [bind]; auto. destruct H' as [H'|H']; [congruence|]. rewrite H'. reflexivity.
Qed.
Lemma cast_fun_err : forall h it n, class_of it = Some C_none -> cast_as h [it] n = Err TypeError.
Proof.
  intros h it n C. unfold cast_as, cast_item. destruct it; try discriminate C; cbn [atomize1 get_as_raw_string get_as_raw_double get_as_raw_decimal get_as_raw_integer get_as_raw_boolean bind];
  repeat (match goal with |- context [if ?b then _ else _] => destruct b end; try reflexivity).
Qed.
Lemma cast_many_err : forall h v n, several v -> cast_as h v n = Err TypeError.
Proof. intros h [|a [|b v]] n H; unfold several in H; cbn in H; try lia. reflexivity. Qed.

Scheme raises_min := Minimality for raises Sort Prop
  with refuses_min := Minimality for refuses Sort Prop
  with binds_raise_min := Minimality for binds_raise Sort Prop
  with steps_raise_min := Minimality for steps_raise Sort Prop
  with step_raises_min := Minimality for step_raises Sort Prop.
Combined Scheme raises_ind5 from raises_min, refuses_min, binds_raise_min, steps_raise_min, step_raises_min.

Section Errors.
  Variable h : heap.
  Variable order : list nat.
  Hypothesis SE : session h.
  Hypothesis PO : preorder h 0 order.
  Hypothesis AP : apart h.
  Notation means := (means h order).
  Notation means_all := (means_all h order).

  Definition PR (f : focus) (vs : vars) (e : expr) (k : errkind) : Prop :=
    forall D, hygienic D e -> wf e -> item_in h (f_item f) -> vars_in h vs -> forall x, reads x e -> fails h D f vs x k.
  Definition PBR (f : focus) (vs : vars) (q : option quant) (bs : list (str * expr)) (b : expr) (k : errkind) : Prop :=
    forall D, hyg_multi q b D bs -> wf b -> Forall (fun x => wf (snd x)) bs -> item_in h (f_item f) -> vars_in h vs ->
    forall y, reads_binds q y bs b -> truth_fails h D f vs y k /\ (bs <> [] \/ q = Some Q_for \/ q = None -> fails h D f vs y k).
  Definition stuck (D : list str) (vs : vars) (y : xnode) (l : list nat) (k : errkind) : Prop :=
    exists l1 n l2, l = l1 ++ n :: l2 /\ forall p s,
      (forall m, In m l1 -> exists r, yields h D (mkFocus (XINode m) p s) vs y (nodes r)) /\ fails h D (mkFocus (XINode n) p s) vs y k.
  Definition PSR (vs : vars) (st : list (bool * expr)) (l : list nat) (k : errkind) : Prop :=
    forall D, Forall (fun x => hygienic D (snd x)) st -> Forall (fun x => wf (snd x)) st -> (forall i, In i l -> in_document h 0 i) ->
      vars_in h vs -> forall y, tails y st -> stuck D vs y l k.
  Definition PS1 (vs : vars) (st : list (bool * expr)) (n : nat) (k : errkind) : Prop :=
    forall D, Forall (fun x => hygienic D (snd x)) st -> Forall (fun x => wf (snd x)) st -> in_document h 0 n ->
      vars_in h vs -> forall y, tails y st -> forall p s, fails h D (mkFocus (XINode n) p s) vs y k.

  Lemma has_value : forall f vs e v, means f vs e v -> forall D, hygienic D e -> wf e -> item_in h (f_item f) -> vars_in h vs ->
    forall x, reads x e -> yields h D f vs x v.
  Proof. intros f vs e v M. exact (proj1 (means_yields h order SE PO AP) f vs e v M). Qed.
  Lemma have_values : forall f vs es l, means_all f vs es l -> forall D, Forall (hygienic D) es -> Forall wf es -> item_in h (f_item f) -> vars_in h vs ->
    each_yields h D f vs es l.
  Proof. intros f vs es l M. exact (proj1 (proj2 (proj2 (proj2 (proj2 (means_yields h order SE PO AP))))) f vs es l M). Qed.
  Lemma binds_value : forall f vs q bs b r, binds h order f vs q bs b r -> forall D, hyg_multi q b D bs -> wf b -> Forall (fun x => wf (snd x)) bs ->
    item_in h (f_item f) -> vars_in h vs -> forall y, reads_binds q y bs b -> exists v, yields h D f vs y v /\ multi_value q v r /\ (bs <> [] -> v = r).
  Proof. intros f vs q bs b r M. exact (proj1 (proj2 (proj2 (proj2 (means_yields h order SE PO AP)))) f vs q bs b r M). Qed.

  Lemma has_answer : forall vs fe vals r, applies h order vs fe vals r -> forall D, hygienic D fe -> wf fe -> vars_in h vs -> (forall w, In w vals -> seq_in h w) ->
    forall f, item_in h (f_item f) -> forall t, reads t fe -> bare t fe -> answers h D f vs t vals r.
  Proof. intros vs fe vals r M. exact (proj1 (proj2 (means_yields h order SE PO AP)) vs fe vals r M). Qed.
  Lemma fills_value : forall f vs os vals all, fills h order f vs os vals all -> PF h f vs os vals all.
  Proof. intros f vs os vals all M. exact (proj1 (proj2 (proj2 (means_yields h order SE PO AP))) f vs os vals all M). Qed.
  Definition denies (D : list str) (f : focus) (vs : vars) (t : xnode) (vals : list xseq) (k : errkind) : Prop :=
    forall e, at_focus f e -> agree D vs e -> exists N, forall m, N <= m -> call_function h m t vals [f_item f] e = Err k.
  Definition PRF (vs : vars) (fe : expr) (vals : list xseq) (k : errkind) : Prop :=
    forall D, hygienic D fe -> wf fe -> vars_in h vs -> (forall w, In w vals -> seq_in h w) ->
    forall f, item_in h (f_item f) -> forall t, reads t fe -> bare t fe -> denies D f vs t vals k.

  Ltac start := intros D HY WF IN VI xx R; eapply reads_fails; [exact R|]; clear xx R; intros yy R B;
    inversion R; subst; [destruct B as [B|B]; [destruct B; reflexivity|discriminate B]|].
  Ltac inn := match goal with M : means _ _ _ ?v |- seq_in h ?v => apply (proj1 (means_in h order SE PO) _ _ _ _ M); auto end.
  Ltac val := match goal with R : reads ?x ?a, M : SpecSem.means h order _ _ ?a ?v |- yields h _ _ _ ?x _ => eapply (has_value _ _ _ _ M); eauto
    | R : reads ?x ?a, M : SpecSem.means h order _ _ ?a ?v |- yields h _ _ _ _ _ => eapply (has_value _ _ _ _ M) with (x := x); eauto end.

  (* arguments: one of them fails, those before have values *)
  Lemma args_fail : forall D f vs es1 vals e es2 k, each_yields h D f vs es1 vals -> (forall x, reads x e -> fails h D f vs x k) ->
    forall x, reads_args x (es1 ++ e :: es2) -> forall en, at_focus f en -> agree D vs en ->
    exists N, forall m, N <= m -> eval_args (eval h m) [f_item f] x en = Err k.
  Proof.
    intros D f vs es1 vals e es2 k H HF. induction H as [|e1 v es1 vals H1 H IH]; intros x R en F A; cbn [app] in R; inversion R; subst.
    - destruct (HF x0 ltac:(assumption) en F A) as [N E]. exists N. intros m M. cbn [eval_args]. change (xtype_eqb X_ArgumentTop X_ArgumentTop) with true. cbn iota.
      rewrite E by lia. reflexivity.
    - destruct (H1 x0 ltac:(assumption) en F A) as [e2 [[N1 E1] S1]].
      destruct (IH r) with (en := e2) as [N2 E2]; auto; [eapply at_focus_same; eauto|eapply agree_same; eauto|].
      exists (N1 + N2). intros m M. cbn [eval_args]. change (xtype_eqb X_ArgumentTop X_ArgumentTop) with true. cbn iota.
      rewrite E1 by lia. cbn [bind]. rewrite E2 by lia. reflexivity.
  Qed.
  Lemma dyn_args_fail : forall D f vs es1 vals e es2 k, each_yields h D f vs es1 vals -> (forall x, reads x e -> fails h D f vs x k) ->
    forall x, reads_args x (es1 ++ e :: es2) -> forall en, at_focus f en -> agree D vs en ->
    exists N, forall m, N <= m -> eval_dyn_args (eval h m) [f_item f] x en = Err k.
  Proof.
    intros D f vs es1 vals e es2 k H HF. induction H as [|e1 v es1 vals H1 H IH]; intros x R en F A; cbn [app] in R; inversion R; subst.
    - destruct (HF x0 ltac:(assumption) en F A) as [N E]. exists N. intros m M. cbn [eval_dyn_args].
      rewrite E by lia. reflexivity.
    - destruct (H1 x0 ltac:(assumption) en F A) as [e2 [[N1 E1] S1]].
      destruct (IH r) with (en := e2) as [N2 E2]; auto; [eapply at_focus_same; eauto|eapply agree_same; eauto|].
      exists (N1 + N2). intros m M. cbn [eval_dyn_args]. rewrite E1 by lia. cbn [bind]. rewrite E2 by lia. reflexivity.
  Qed.
  Lemma items_fail : forall D f vs es1 vals e es2 k, each_yields h D f vs es1 vals -> (forall x, reads x e -> fails h D f vs x k) ->
    forall x, reads_items x (es1 ++ e :: es2) -> forall en, at_focus f en -> agree D vs en ->
    exists N, forall m, N <= m -> array_entries (eval h m) [f_item f] x en = Err k.
  Proof.
    intros D f vs es1 vals e es2 k H HF. induction H as [|e1 v es1 vals H1 H IH]; intros x R en F A; cbn [app] in R; inversion R; subst.
    - destruct (HF x0 ltac:(assumption) en F A) as [N E]. exists N. intros m M. cbn [array_entries]. change (xtype_eqb X_ArrayEntry X_ArrayEntry) with true. cbn [negb].
      rewrite E by lia. reflexivity.
    - destruct (H1 x0 ltac:(assumption) en F A) as [e2 [[N1 E1] S1]].
      destruct (IH r) with (en := e2) as [N2 E2]; auto; [eapply at_focus_same; eauto|eapply agree_same; eauto|].
      exists (N1 + N2). intros m M. cbn [array_entries]. change (xtype_eqb X_ArrayEntry X_ArrayEntry) with true. cbn [negb].
      rewrite E1 by lia. cbn [bind]. rewrite E2 by lia. reflexivity.
  Qed.
  (* entries: a key fails, is not one item, or the value fails *)
  Lemma entries_fail : forall D f vs key val es2 k m es1, each_yields h D f vs (map fst es1) (map (fun p => [fst p]) m) -> each_yields h D f vs (map snd es1) (map snd m) ->
    (forall x y, reads x key -> reads y val -> forall en, at_focus f en -> agree D vs en -> exists N, forall n, N <= n -> 
       (do (kk, e1) <- eval h n [f_item f] x en; do it <- get_singleton_item kk; do (v, e2) <- eval h n [f_item f] y e1; Ok (it, v, e2)) = Err k) ->
    forall x, reads_entries x (es1 ++ (key, val) :: es2) -> forall en, at_focus f en -> agree D vs en ->
    exists N, forall n, N <= n -> map_entries (eval h n) [f_item f] x en = Err k.
  Proof.
    intros D f vs key val es2 k. induction m as [|[k1 v1] m IH]; intros [|[ke ve] es1] HK HV HF x R en F A; cbn [app] in R; inversion R; subst;
      try (inversion HK; fail).
    - destruct (HF x0 y ltac:(assumption) ltac:(assumption) en F A) as [N E]. exists N. intros n L. specialize (E n L). cbn [map_entries x_type x_left x_right].
      change (xtype_eqb X_MapConstruct X_MapConstruct) with true. change (xtype_eqb X_MapEntry X_MapEntry) with true. cbn [negb].
      destruct (eval h n [f_item f] x0 en) as [[kk e1]| | |]; cbn [bind] in *; try congruence.
      destruct (get_singleton_item kk); cbn [bind] in *; try congruence.
      destruct (eval h n [f_item f] y e1) as [[vv e2]| | |]; cbn [bind] in *; congruence.
    - inversion HK; subst. inversion HV; subst.
      match goal with H : forall x, reads x ke -> _ |- _ => destruct (H x0 ltac:(assumption) en F A) as [e1 [[N1 E1] S1]] end.
      assert (F1 := at_focus_same _ _ _ _ F S1). assert (A1 := agree_same _ _ _ _ A S1).
      match goal with H : forall x, reads x ve -> _ |- _ => destruct (H y ltac:(assumption) e1 F1 A1) as [e2 [[N2 E2] S2]] end.
      destruct (IH es1) with (x := r) (en := e2) as [N3 E3]; auto; [eapply at_focus_same; eauto|eapply agree_same; eauto|].
      exists (N1 + N2 + N3). intros n M. cbn [map_entries x_type x_left x_right].
      change (xtype_eqb X_MapConstruct X_MapConstruct) with true. change (xtype_eqb X_MapEntry X_MapEntry) with true. cbn [negb].
      cbn [fst snd] in *. rewrite E1 by lia. cbn [bind get_singleton_item]. rewrite E2 by lia. cbn [bind]. rewrite E3 by lia. reflexivity.
  Qed.
  Lemma call_fails : forall D f vs name x k, (forall en, at_focus f en -> agree D vs en -> exists N, forall m, N <= m -> eval_args (eval h m) [f_item f] x en = Err k) ->
    fails h D f vs (XNode X_FunctionCall name XNil x) k.
  Proof.
    intros D f vs name x k H. apply fails_S. intros e F A. destruct (H e F A) as [N E]. exists N. intros m M. unfold eval_step. cbn [x_type x_right]. rewrite E by lia. reflexivity.
  Qed.
  Lemma library_error_ok : forall name l k, library_error name l k -> forall callf c e,
    evaluate_function h callf (lit "fn:" ++ name) l c e = Err k.
  Proof.
    intros name l k LE callf c e1. destruct LE as [v L|v L| |v L|v L].
    - destruct v as [|a [|b v]]; cbn [List.length] in L; try lia; reflexivity.
    - destruct v as [|a [|b v]]; unfold several in L; cbn [List.length] in L; try lia; reflexivity.
    - reflexivity.
    - change (evaluate_function h callf (lit "fn:" ++ lit "boolean") [v] c e1) with
        (pure e1 (do b <- effective_boolean_value v; Ok (sing_bool b))). rewrite no_truth_error by auto. reflexivity.
    - change (evaluate_function h callf (lit "fn:" ++ lit "not") [v] c e1) with
        (pure e1 (fn_not v)). unfold fn_not. rewrite no_truth_error by auto. reflexivity.
  Qed.
  Lemma library_fails : forall D f vs name x l k, args_yield h D f vs x l -> library_error name l k ->
    fails h D f vs (XNode X_FunctionCall (lit "fn:" ++ name) XNil x) k.
  Proof.
    intros D f vs name x l k HA LE. apply fails_S. intros e F A. destruct (HA e F A) as [e1 [N1 [S1 E1]]]. exists N1. intros m M.
    unfold eval_step. cbn [x_type x_right x_name]. rewrite E1 by lia. cbn [bind].
    apply library_error_ok. exact LE.
  Qed.
  Lemma inline_fails : forall D f vs nm nm' b ps l k, List.length ps = List.length l -> (forall v, In v l -> seq_in h v) ->
    fails h (withouts D ps) f (bind_vars ps l vs) b k ->
    forall e, at_focus f e -> agree D vs e -> exists N, forall m, N <= m -> call_inline_func h (eval h m) (inline_tree nm nm' b ps) l [f_item f] e = Err k.
  Proof.
    intros D f vs nm nm' b ps l k L I H e F A.
    destruct (H (set_vars ps l e) (at_focus_vars ps l f e F) (agree_binds ps l D vs e L A)) as [N1 E1].
    exists N1. intros m M. unfold call_inline_func, inline_tree.
    cbn [x_right x_left]. rewrite param_names, bind_params by auto. cbn [bind]. rewrite E1 by lia. reflexivity.
  Qed.
  Lemma for_each_fails : forall D f vs fx it l2 k l1, (forall x, In x l1 -> exists v, answers h D f vs fx [[x]] v) -> denies D f vs fx [[it]] k ->
    forall e, at_focus f e -> agree D vs e -> exists N, forall m, N <= m -> for_each_loop (fun a => call_function h m fx a [f_item f]) (l1 ++ it :: l2) e = Err k.
  Proof.
    intros D f vs fx it l2 k l1. induction l1 as [|x l1 IH]; intros H HF e F A.
    - destruct (HF e F A) as [N1 E1]. exists N1. intros m M. cbn [app for_each_loop]. rewrite E1 by lia. reflexivity.
    - destruct (H x (or_introl eq_refl)) as [v HV]. destruct (HV e F A) as [e1 [N1 [S1 E1]]].
      destruct (IH (fun i I => H i (or_intror I)) HF e1) as [N2 E2]; [eapply at_focus_same; eauto|eapply agree_same; eauto|].
      exists (N1 + N2). intros m M. cbn [app for_each_loop]. rewrite E1 by lia. cbn [bind]. rewrite E2 by lia. reflexivity.
  Qed.
  (* the function fails for an item, or gives something without a truth value *)
  Definition unclear (D : list str) (f : focus) (vs : vars) (fx : xnode) (vals : list xseq) (k : errkind) : Prop :=
    denies D f vs fx vals k \/ exists w, answers h D f vs fx vals w /\ effective_boolean_value w = Err k.
  Lemma filter_fn_fails : forall D f vs fx it l2 k l1, (forall x, In x l1 -> exists v t, answers h D f vs fx [[x]] v /\ ebv v t) -> unclear D f vs fx [[it]] k ->
    forall e, at_focus f e -> agree D vs e -> exists N, forall m, N <= m -> filter_fn_loop (fun a => call_function h m fx a [f_item f]) (l1 ++ it :: l2) e = Err k.
  Proof.
    intros D f vs fx it l2 k l1. induction l1 as [|x l1 IH]; intros H HF e F A.
    - destruct HF as [HF|[w [HW EW]]].
      + destruct (HF e F A) as [N1 E1]. exists N1. intros m M. cbn [app filter_fn_loop]. rewrite E1 by lia. reflexivity.
      + destruct (HW e F A) as [e1 [N1 [S1 E1]]]. exists N1. intros m M. cbn [app filter_fn_loop]. rewrite E1 by lia. cbn [bind]. rewrite EW. reflexivity.
    - destruct (H x (or_introl eq_refl)) as [v [t [HV T]]]. apply ebv_iff in T. destruct (HV e F A) as [e1 [N1 [S1 E1]]].
      destruct (IH (fun i I => H i (or_intror I)) HF e1) as [N2 E2]; [eapply at_focus_same; eauto|eapply agree_same; eauto|].
      exists (N1 + N2). intros m M. cbn [app filter_fn_loop]. rewrite E1 by lia. cbn [bind]. rewrite T. cbn [bind]. rewrite E2 by lia. reflexivity.
  Qed.
  Lemma denies_inline : forall D f vs nm nm' y ps vals k, denies D f vs (inline_tree nm nm' y ps) vals k ->
    forall e, at_focus f e -> agree D vs e -> exists N, forall m, N <= m -> call_inline_func h (eval h m) (inline_tree nm nm' y ps) vals [f_item f] e = Err k.
  Proof.
    intros D f vs nm nm' y ps vals k H e F A. destruct (H e F A) as [N E]. exists N. intros m M.
    specialize (E (S m) ltac:(lia)). rewrite call_S in E. exact E.
  Qed.
  (* the arguments given in advance: one of them fails *)
  Lemma given_fails : forall f vs os1 vals1 all1, fills h order f vs os1 vals1 all1 -> forall D e os2 vals2 k,
    Forall (some_ok (hygienic D)) os1 -> Forall (some_ok wf) os1 -> item_in h (f_item f) -> vars_in h vs ->
    (forall x, reads x e -> fails h D f vs x k) -> forall x, reads_oargs x (os1 ++ Some e :: os2) -> forall en, at_focus f en -> agree D vs en ->
    exists N, forall m, N <= m -> eval_partial_args (eval h m) [f_item f] x (vals1 ++ vals2) en = Err k.
  Proof.
    induction os1 as [|o os1 IH]; intros vals1 all1 FL D e os2 vals2 k HY WF IN VI HF x R en F A; cbn [app] in R.
    - inversion R; subst. destruct (HF x0 ltac:(assumption) en F A) as [N E]. exists N. intros m M. cbn [eval_partial_args]. rewrite E by lia. reflexivity.
    - inversion HY; subst. inversion WF; subst. inversion FL; subst; inversion R; subst.
      + match goal with M : SpecSem.means h order f vs ?a ?v |- _ => destruct (has_value _ _ _ _ M D ltac:(assumption) ltac:(assumption) IN VI x0 ltac:(assumption) en F A) as [e1 [[N1 E1] S1]] end.
        match goal with M : fills h order f vs os1 _ _ |- _ => destruct (IH _ _ M D e os2 vals2 k) with (x := r) (en := e1) as [N2 E2]; auto; [eapply at_focus_same; eauto|eapply agree_same; eauto|] end.
        exists (N1 + N2). intros m M. cbn [eval_partial_args]. rewrite E1 by lia. cbn [bind]. rewrite E2 by lia. reflexivity.
      + match goal with M : fills h order f vs os1 _ _ |- _ => destruct (IH _ _ M D e os2 vals2 k) with (x := r) (en := en) as [N2 E2]; auto end.
        exists N2. intros m M. cbn [app eval_partial_args]. rewrite E2 by lia. reflexivity.
  Qed.
  Lemma predicate_fails : forall D vs (rv : bool) x l1 it l2 k, x <> XNil ->
    (forall j y, nth_error l1 j = Some y -> exists v, yields h D (mkFocus y (if rv then List.length (l1 ++ it :: l2) - j else S j) (List.length (l1 ++ it :: l2))) vs x v) ->
    fails h D (mkFocus it (if rv then List.length (l1 ++ it :: l2) - List.length l1 else S (List.length l1)) (List.length (l1 ++ it :: l2))) vs x k ->
    forall e, agree D vs e -> exists N, forall m, N <= m -> filter_by_predicate (eval h m) (l1 ++ it :: l2) x rv e = Err k.
  Proof.
    intros D vs rv x l1 it l2 k NX H HF e A.
    destruct (filter_loop_fails h D vs x rv (List.length (l1 ++ it :: l2)) it l2 k l1 0) with (e := e) as [N E]; auto.
    exists N. intros m M. unfold filter_by_predicate. destruct x; [congruence|]. cbn [is_nil]. apply E. auto.
  Qed.
  Lemma path_fails : forall D f vs nm x y l1 n l2 k, x <> XNil -> y <> XNil -> yields h D f vs x (nodes (l1 ++ n :: l2)) ->
    (forall p s, (forall i, In i l1 -> exists r, yields h D (mkFocus (XINode i) p s) vs y (nodes r)) /\ fails h D (mkFocus (XINode n) p s) vs y k) ->
    fails h D f vs (XNode X_OperatorPath nm x y) k.
  Proof.
    intros D f vs nm x y l1 n l2 k NX NY HX HY. apply fails_S. intros e F A. destruct (HX e F A) as [e1 [[N1 E1] S1]].
    destruct (HY (e_pos e1) (e_last e1)) as [HV HF].
    destruct (path_loop_fails h D vs y (e_pos e1) (e_last e1) n l2 k l1 HV HF e1 false [] eq_refl eq_refl (agree_same _ _ _ _ A S1)) as [N2 E2].
    exists (N1 + N2). intros m M. unfold eval_step. cbn [x_type]. unfold eval_left. cbn [x_left x_right].
    destruct x; [congruence|]. cbn [is_nil]. rewrite E1 by lia. cbn [bind]. destruct y; [congruence|]. cbn [is_nil]. rewrite nodes_no_atom. cbn [negb].
    rewrite E2 by lia. reflexivity.
  Qed.

  Lemma narrow_then : forall D vs (rv : bool) ps1 q ps2 l l1 it l2 k, narrows h order vs rv ps1 l (l1 ++ it :: l2) ->
    (forall j x, nth_error l1 j = Some x -> forall y, reads y q -> exists v,
       yields h D (mkFocus x (if rv then List.length (l1 ++ it :: l2) - j else S j) (List.length (l1 ++ it :: l2))) vs y v) ->
    (forall y, reads y q -> fails h D (mkFocus it (if rv then List.length (l1 ++ it :: l2) - List.length l1 else S (List.length l1)) (List.length (l1 ++ it :: l2))) vs y k) ->
    Forall (hygienic D) ps1 -> Forall wf ps1 -> seq_in h l -> vars_in h vs ->
    forall x, reads_preds rv x (ps1 ++ q :: ps2) ->
    forall e, agree D vs e -> exists N, forall m, N <= m -> filter_by_predicates (eval h m) x l e = Err k.
  Proof.
    intros D vs rv ps1 q ps2 l l1 it l2 k NR HV HF. remember (l1 ++ it :: l2) as r eqn:ER. revert ER HV HF.
    induction NR as [vs rv l|vs rv p ps l vals keep r MP K NR IH]; intros ER HV HF HY WF IN VI x R e A; cbn [app] in R; inversion R; subst.
    - destruct (predicate_fails D vs rv x0 l1 it l2 k) with (e := e) as [N E]; auto; [eapply reads_nonnil; eauto|].
      exists N. intros m M. cbn [filter_by_predicates]. destruct rv; rewrite E by lia; reflexivity.
    - inversion HY; subst. inversion WF; subst.
      destruct (predicate_yields h D vs rv x0 l vals keep) with (e := e) as [e1 [N1 [S1 E1]]]; auto; [eapply reads_nonnil; eauto| |].
      { intros j z E. eapply has_value; eauto. apply (in_item h l); auto. eapply nth_error_In; eauto. }
      destruct (IH eq_refl HV HF) with (x := y) (e := e1) as [N2 E2]; auto; [intros i I; apply IN; eapply pick_in; eauto|eapply agree_same; eauto|].
      exists (N1 + N2). intros m M. cbn [filter_by_predicates]. destruct rv; rewrite E1 by lia; cbn [bind]; apply E2; lia.
  Qed.
  Lemma step_fails : forall D p s vs n a t px l k, in_document h 0 n -> test_ok t ->
    (kind h n = Attribute -> a <> A_following /\ a <> A_preceding) ->
    exactly order (fun x => axis_has h order a x n /\ passes h a t x) l -> px <> XNil ->
    (forall e, agree D vs e -> exists N, forall m, N <= m -> filter_by_predicates (eval h m) px (nodes l) e = Err k) ->
    fails h D (mkFocus (XINode n) p s) vs (XNode (anode a) (test_name t) (test_tree t) px) k.
  Proof.
    intros D p s vs n a t px l k I T AT X NP HP. apply fails_S. intros e F A.
    destruct (step_exactly h order SE PO AP n a t px I T AT) as [l' [E X']].
    assert (l' = l) by exact (SemNode.exactly_unique h order SE PO _ _ _ X' X). subst l'.
    destruct (HP e A) as [N EP]. exists N. intros m M.
    assert (G : match_location_path h (eval h m) [XINode n] (XNode (anode a) (test_name t) (test_tree t) px) e = Err k).
    { unfold match_location_path. cbn [to_nodeset flat_map app loc_path_loop]. unfold match_loc_step. rewrite E. cbn [bind x_right].
      change (seq_of_nodes l) with (nodes l). destruct px; [congruence|]. cbn [is_nil]. rewrite EP by lia. reflexivity. }
    unfold eval_step. cbn [x_type f_item]. destruct a; exact G.
  Qed.
  Lemma key_fails : forall D f vs k y, ~ map_or_array (f_item f) -> reads y (EKey k) -> fails h D f vs y TypeError.
  Proof.
    intros D f vs k y NM R. eapply reads_fails; [exact R|]. clear y R. intros y R B.
    assert (G : forall ks, lookup_expr h [f_item f] ks = Err TypeError).
    { intro ks. unfold lookup_expr. destruct (f_item f) eqn:E; try reflexivity; destruct NM; unfold map_or_array; eauto. }
    inversion R; subst.
    - destruct B as [B|B]; [destruct B; reflexivity|discriminate B].
    - apply fails_S. intros e F A. exists 1. intros [|m] M; [lia|]. unfold eval_step. cbn [x_type x_left]. rewrite eval_S. unfold eval_step. cbn [leaf x_type x_name bind].
      rewrite G. reflexivity.
    - apply fails_S. intros e F A. exists 1. intros [|m] M; [lia|]. unfold eval_step. cbn [x_type x_left]. rewrite eval_S. unfold eval_step. cbn [leaf x_type x_name bind].
      rewrite G. reflexivity.
    - apply fails_S. intros e F A. exists 0. intros m M. unfold eval_step. cbn [leaf x_type]. unfold lookup_wildcard, pure.
      destruct (f_item f) eqn:E; try reflexivity; destruct NM; unfold map_or_array; eauto.
  Qed.
  Lemma map_fails : forall D f vs nm x y l1 it l2 k, x <> XNil -> y <> XNil -> yields h D f vs x (l1 ++ it :: l2) ->
    (forall p n, (forall i, In i l1 -> exists v, yields h D (mkFocus i p n) vs y v) /\ fails h D (mkFocus it p n) vs y k) ->
    fails h D f vs (XNode X_OperatorMap nm x y) k.
  Proof.
    intros D f vs nm x y l1 it l2 k NX NY HX HY. apply fails_S. intros e F A. destruct (HX e F A) as [e1 [[N1 E1] S1]].
    destruct (HY (e_pos e1) (e_last e1)) as [HV HF].
    destruct (map_loop_fails h D vs y (e_pos e1) (e_last e1) it l2 k l1 HV HF e1 eq_refl eq_refl (agree_same _ _ _ _ A S1)) as [N2 E2].
    exists (N1 + N2). intros m M. unfold eval_step. cbn [x_type]. unfold eval_left. cbn [x_left x_right].
    destruct x; [congruence|]. cbn [is_nil]. rewrite E1 by lia. cbn [bind]. destruct y; [congruence|]. cbn [is_nil]. apply E2. lia.
  Qed.
  Lemma left_fails : forall D f vs o nm x y k, x <> XNil -> fails h D f vs x k -> fails h D f vs (XNode (bnode o) nm x y) k.
  Proof.
    intros D f vs o nm x y k NX H. eapply fails_via; [exact H|]. intros m e E.
    unfold eval_step; cbn [x_type]; destruct o; cbn [bnode]; unfold binary, logical, eval_left; cbn [x_left]; try (rewrite E; reflexivity);
      destruct x; try congruence; cbn [is_nil]; rewrite E; reflexivity.
  Qed.
  Lemma right_fails : forall D f vs o nm x y v k, o <> O_or -> o <> O_and -> o <> O_map -> yields h D f vs x v -> fails h D f vs y k ->
    fails h D f vs (XNode (bnode o) nm x y) k.
  Proof.
    intros D f vs o nm x y v k N1 N2 N3 HX HY. eapply yields_then_fails; [exact HX|exact HY|]. intros m e e1 E1 E2.
    unfold eval_step; cbn [x_type]; destruct o; try congruence; cbn [bnode]; unfold binary; cbn [x_left x_right]; rewrite E1; cbn [bind]; rewrite E2; reflexivity.
  Qed.

  Theorem raises_fails :
    (forall f vs e k, raises h order f vs e k -> PR f vs e k) /\
    (forall vs fe vals k, refuses h order vs fe vals k -> PRF vs fe vals k) /\
    (forall f vs q bs b k, binds_raise h order f vs q bs b k -> PBR f vs q bs b k) /\
    (forall vs st l k, steps_raise h order vs st l k -> PSR vs st l k) /\
    (forall vs st n k, step_raises h order vs st n k -> PS1 vs st n k).
  Proof.
    apply raises_ind5.
    - (* many *) intros f vs o a b v w O MA MB NV NW S. start. destruct HY, WF as [? [? ?]].
      eapply fails_operands with (fn := op_numeric_operation (item_op o)); [val|val| |apply numeric_many; auto].
      destruct O as [<-|[<-|[<-|[<-|[<-|[<-|[]]]]]]]; step_tac.
    - intros f vs o a b x y O MA MB S. start. destruct HY, WF as [? [? ?]].
      eapply fails_operands with (fn := op_numeric_operation (item_op o)); [val|val| |apply op_err, no_number_arith; auto].
      destruct O as [<-|[<-|[<-|[]]]]; step_tac.
    - intros f vs o a b x y O MA MB S1 S2 S3. start. destruct HY, WF as [? [? ?]].
      eapply fails_operands with (fn := op_numeric_operation (item_op o)); [val|val| |apply op_err, dividend_arith; auto].
      destruct O as [<-|[<-|[]]]; step_tac.
    - intros f vs a b x y MA MB S1. start. destruct HY, WF as [? [? ?]].
      eapply fails_operands with (fn := op_numeric_operation (item_op O_mod)); [val|val|step_tac|apply op_err, divisor_arith; auto].
    - intros f vs o a b x y O MA MB S1 S2. start. destruct HY, WF as [? [? ?]].
      eapply fails_operands with (fn := op_numeric_operation (item_op o)); [val|val| |apply op_err, zero_arith; auto].
      destruct O as [<-|[<-|[<-|[]]]]; step_tac.
    - intros f vs a b x y MA MB S1 S2 S3. start. destruct HY, WF as [? [? ?]].
      eapply fails_operands with (fn := op_numeric_operation (item_op O_idiv)); [val|val|step_tac|apply op_err, special_arith; auto].
    - (* sign *) intros f vs m a v MA S. start. apply (sign_err m) in S. eapply yields_fails; [val|]. intros n e e1 E.
      destruct m; unfold eval_step; cbn [x_type]; unfold unary; cbn [x_right]; rewrite E; cbn [bind]; rewrite S; reflexivity.
    - (* value comparison *) intros f vs o op a b v w O MA MB NV NW S. start. destruct HY, WF as [? [? ?]].
      eapply fails_operands; [val|val|exact (bnode_value h o op O)|apply value_fn_many; auto].
    - intros f vs o op a b x y O MA MB U. start. destruct HY, WF as [? [? ?]].
      eapply fails_operands; [val|val|exact (bnode_value h o op O)|apply value_unlike; auto; apply in_seq_item; inn].
    - intros f vs a b v w MA MB NV NW S. start. destruct HY, WF as [? [? ?]].
      eapply fails_operands; [val|val|step_tac|apply to_err; auto].
    - intros f vs o a b v w O MA MB NV NW S. start. destruct HY, WF as [? [? ?]].
      destruct O as [<-|[<-|[<-|[]]]]; (eapply fails_operands; [val|val|step_tac|apply node_err; auto]).
    - (* or, and *) intros f vs o a b v O MA T. start. destruct HY, WF as [? [? ?]]. eapply yields_fails; [val|]. intros n e e1 E.
      destruct O as [-> | ->]; unfold eval_step; cbn [x_type bnode]; unfold logical; cbn [x_left]; rewrite E; cbn [bind]; rewrite no_truth_error by auto; reflexivity.
    - intros f vs a b v w MA T MB U. start. destruct HY, WF as [? [? ?]]. apply ebv_iff in T. apply fails_S. intros e F A.
      destruct (has_value _ _ _ _ MA D ltac:(assumption) ltac:(assumption) IN VI x ltac:(assumption) e F A) as [e1 [[N1 E1] S1]].
      destruct (has_value _ _ _ _ MB D ltac:(assumption) ltac:(assumption) IN VI y ltac:(assumption) e1 (at_focus_same _ _ _ _ F S1) (agree_same _ _ _ _ A S1)) as [e2 [[N2 E2] S2]].
      exists (N1 + N2). intros m M. unfold eval_step; cbn [x_type bnode]; unfold logical; cbn [x_left x_right]. rewrite E1 by lia. cbn [bind]. rewrite T. cbn [bind Bool.eqb].
      rewrite E2 by lia. cbn [bind]. rewrite no_truth_error by auto. reflexivity.
    - intros f vs a b v w MA T MB U. start. destruct HY, WF as [? [? ?]]. apply ebv_iff in T. apply fails_S. intros e F A.
      destruct (has_value _ _ _ _ MA D ltac:(assumption) ltac:(assumption) IN VI x ltac:(assumption) e F A) as [e1 [[N1 E1] S1]].
      destruct (has_value _ _ _ _ MB D ltac:(assumption) ltac:(assumption) IN VI y ltac:(assumption) e1 (at_focus_same _ _ _ _ F S1) (agree_same _ _ _ _ A S1)) as [e2 [[N2 E2] S2]].
      exists (N1 + N2). intros m M. unfold eval_step; cbn [x_type bnode]; unfold logical; cbn [x_left x_right]. rewrite E1 by lia. cbn [bind]. rewrite T. cbn [bind Bool.eqb].
      rewrite E2 by lia. cbn [bind]. rewrite no_truth_error by auto. reflexivity.
    - (* if *) intros f vs c a b v MC T. start. destruct HY as [? [? ?]], WF as [? [? ?]]. eapply yields_fails; [val|]. intros m e e1 E.
      unfold eval_step. cbn [x_type x_left x_right]. rewrite E. cbn [bind]. change (xtype_eqb X_IfThenElse X_IfThenElse) with true. cbn [negb].
      rewrite no_truth_error by auto. reflexivity.
    - (* cast *) intros f vs a n v MA S. start. destruct WF. eapply yields_fails; [val|]. intros m e e1 E.
      unfold eval_step. cbn [x_type x_left x_right x_name leaf]. rewrite E. cbn [bind]. rewrite cast_many_err by auto. reflexivity.
    - intros f vs a n v MA S. start. destruct WF. eapply yields_fails; [val|]. intros m e e1 E.
      unfold eval_step. cbn [tnode typetree x_type x_left x_right x_name leaf]. rewrite E. cbn [bind]. rewrite cast_many_err by auto. reflexivity.
    - intros f vs a n MA. start. destruct WF. eapply yields_fails; [val|]. intros m e e1 E.
      unfold eval_step. cbn [x_type x_left x_right x_name leaf]. rewrite E. cbn [bind]. unfold cast_as. rewrite ends_no_q by auto. reflexivity.
    - intros f vs a n it MA S. start. destruct WF. eapply yields_fails; [val|]. intros m e e1 E.
      unfold eval_step. cbn [x_type x_left x_right x_name leaf]. rewrite E. cbn [bind]. rewrite cast_fun_err by auto. reflexivity.
    - intros f vs a n it MA S. start. destruct WF. eapply yields_fails; [val|]. intros m e e1 E.
      unfold eval_step. cbn [tnode typetree x_type x_left x_right x_name leaf]. rewrite E. cbn [bind]. rewrite cast_fun_err by auto. reflexivity.
    - (* path *) intros f vs a rest v it NR MA I NN. start. apply hyg_path in HY. apply wf_path in WF. destruct HY as [HA HR], WF as [WA WR].
      assert (Y : yields h D f vs x v) by (eapply reads_op_yields; [eassumption|]; intros; val).
      eapply yields_fails; [exact Y|]. intros m e e1 E. unfold eval_step. cbn [x_type]. unfold eval_left. cbn [x_left x_right].
      assert (NX : x <> XNil) by (eapply reads_op_nonnil; eauto). assert (NY : y <> XNil) by (eapply tails_nonnil, tail_tails; eauto).
      destruct x; [congruence|]. cbn [is_nil]. rewrite E. cbn [bind]. destruct y; [congruence|]. cbn [is_nil].
      replace (is_no_atom v) with false; [reflexivity|]. symmetry. unfold is_no_atom. apply not_true_is_false. intro Q.
      rewrite forallb_forall in Q. specialize (Q it I). destruct it; try discriminate Q. apply NN. exact Logic.I.
    - (* index *) intros f vs a k l i MA MK O. start. apply hyg_dyn in HY. apply wf_dyn in WF. destruct HY as [HA HK], WF as [WA WK].
      inversion HK; subst. inversion WK; subst. apply fails_S. intros e F A.
      destruct (has_value _ _ _ _ MA D HA WA IN VI x ltac:(assumption) e F A) as [e1 [[N1 E1] S1]].
      destruct (each_dyn h D f vs [k] [[XIInteger i]]) with (x := y) (e := e1) as [e2 [N2 [S2 E2]]]; auto;
        [repeat constructor; intros; eapply has_value; eauto|eapply at_focus_same; eauto|eapply agree_same; eauto|].
      exists (N1 + N2). intros m M. unfold eval_step. cbn [x_type x_left x_right]. rewrite E1 by lia. cbn [bind]. unfold apply_argument. cbn [x_left].
      rewrite E2 by lia. cbn [bind get_singleton_item]. replace (xarray_get h l (XIInteger i)) with (@None xseq); [reflexivity|].
      unfold xarray_get. cbn [get_as_raw_integer]. destruct ((1 <=? i) && (i <=? Z.of_nat (List.length l)))%Z eqn:Q; auto.
      apply andb_true_iff in Q. rewrite !Z.leb_le in Q. tauto.
    - (* key *) intros f vs k NM D HY WF IN VI x R. eapply key_fails; eauto.
    - intros f vs k v MK NM. start. eapply yields_fails; [val|]. intros m e e1 E. unfold eval_step. cbn [x_type x_left]. rewrite E. cbn [bind].
      unfold lookup_expr. destruct (f_item f) eqn:Q; try reflexivity; destruct NM; unfold map_or_array; eauto.
    - intros f vs a k l1 it l2 MA L NM. start. destruct WF. assert (LI : seq_in h (l1 ++ it :: l2)) by inn.
      eapply map_fails; [eapply reads_nonnil; eauto|eapply reads_nonnil; eauto|val|]. intros p n. split.
      + intros i I. destruct (L i I) as [v LV]. exists v. eapply key_yields; eauto. apply LI. apply in_or_app. auto.
      + eapply key_fails; eauto.
    - (* map key *) intros f vs es1 k v es2 m w MK MV MW L. start. apply hyg_map in HY. apply wf_map in WF. destruct HY as [HK HV], WF as [WK WV].
      rewrite map_app in *. cbn [map fst snd] in *. 
      apply Forall_app in HK, HV, WK, WV. destruct HK as [HK1 HK2], HV as [HV1 HV2], WK as [WK1 WK2], WV as [WV1 WV2]. inversion HK2; subst. inversion WK2; subst.
      apply fails_S. intros e F A.
      destruct (entries_fail D f vs k v es2 TypeError m es1) with (x := y) (en := e) as [N E]; auto; try (eapply have_values; eauto; fail).
      { intros x1 y1 R1 R2 en F1 A1. destruct (has_value _ _ _ _ MW D ltac:(assumption) ltac:(assumption) IN VI x1 R1 en F1 A1) as [e1 [[N1 E1] S1]]. exists N1. intros n M.
        rewrite E1 by lia. cbn [bind]. destruct w as [|i1 [|i2 w]]; cbn [List.length] in L; try lia; reflexivity. }
      exists N. intros n M. unfold eval_step. cbn [x_type]. unfold convert_xnode_to_map_array. cbn [x_type x_left]. rewrite E by lia. reflexivity.
    - (* library *) intros f vs name args vals k MA LE. start. apply hyg_call in HY. apply wf_call in WF.
      eapply library_fails; eauto. eapply each_args; [eapply have_values|]; eauto.
    - intros f vs name args vals k MA LE. start. apply hyg_pcall in HY. apply wf_pcall in WF. change (lit "fn" ++ lit ":" ++ name) with (lit "fn:" ++ name).
      eapply library_fails; eauto. eapply each_args; [eapply have_values|]; eauto.
    - intros f vs a name args vals k MA LE. start. apply hyg_arrow in HY. apply wf_arrow in WF.
      eapply library_fails; eauto. eapply each_args; [eapply have_values|]; eauto.
    - (* left *) intros f vs o a b k RA IA. start. destruct HY, WF as [? [? ?]]. apply left_fails; [eapply reads_nonnil; eauto|apply IA; auto].
    - intros f vs o a b v k N1 N2 N3 MA RB IB. start. destruct HY, WF as [? [? ?]]. eapply (right_fails _ _ _ _ _ _ _ v); [assumption|assumption|assumption|val|apply IB; auto].
    - intros f vs a b v k MA T RB IB. start. destruct HY, WF as [? [? ?]]. apply ebv_iff in T. eapply yields_then_fails; [val|apply IB; eauto|]. intros m e e1 E1 E2.
      unfold eval_step; cbn [x_type bnode]; unfold logical; cbn [x_left x_right]. rewrite E1. cbn [bind]. rewrite T. cbn [bind Bool.eqb]. rewrite E2. reflexivity.
    - intros f vs a b v k MA T RB IB. start. destruct HY, WF as [? [? ?]]. apply ebv_iff in T. eapply yields_then_fails; [val|apply IB; eauto|]. intros m e e1 E1 E2.
      unfold eval_step; cbn [x_type bnode]; unfold logical; cbn [x_left x_right]. rewrite E1. cbn [bind]. rewrite T. cbn [bind Bool.eqb]. rewrite E2. reflexivity.
    - (* ! *) intros f vs a b l1 it l2 k MA MB RB IB. start. destruct HY, WF as [? [? ?]]. assert (LI : seq_in h (l1 ++ it :: l2)) by inn.
      eapply map_fails; [eapply reads_nonnil; eauto|eapply reads_nonnil; eauto|val|]. intros p n. split.
      + intros i I. destruct (MB i I) as [v LV]. exists v. eapply has_value; eauto. apply LI. apply in_or_app. auto.
      + apply IB; auto. apply LI. apply in_or_app. right. left. reflexivity.
    - (* sign *) intros f vs m a k RA IA. start. eapply fails_via; [apply IA; eauto|]. intros n e E.
      destruct m; unfold eval_step; cbn [x_type]; unfold unary; cbn [x_right]; rewrite E; reflexivity.
    - intros f vs o a n k NT RA IA. start. destruct WF. eapply fails_via; [apply IA; eauto|]. intros m e E.
      destruct o; try congruence; unfold eval_step; cbn [x_type tnode x_left]; rewrite E; reflexivity.
    - intros f vs c a n k RA IA. start. destruct WF. eapply fails_via; [apply IA; eauto|]. intros m e E.
      destruct c; unfold eval_step; cbn [x_type x_left]; rewrite E; reflexivity.
    - intros f vs a t k RA IA. start. destruct WF. eapply fails_via; [apply IA; eauto|]. intros m e E.
      unfold eval_step; cbn [x_type x_left]; rewrite E; reflexivity.
    - (* if *) intros f vs c a b k RC IC. start. destruct HY as [? [? ?]], WF as [? [? ?]]. eapply fails_via; [apply IC; eauto|]. intros m e E.
      unfold eval_step; cbn [x_type x_left]; rewrite E; reflexivity.
    - intros f vs c a b v k MC T RA IA. start. destruct HY as [? [? ?]], WF as [? [? ?]]. apply ebv_iff in T. eapply yields_then_fails; [val|apply IA; eauto|].
      intros m e e1 E1 E2. unfold eval_step. cbn [x_type x_left x_right]. rewrite E1. cbn [bind]. change (xtype_eqb X_IfThenElse X_IfThenElse) with true. cbn [negb].
      rewrite T. cbn [bind]. exact E2.
    - intros f vs c a b v k MC T RA IA. start. destruct HY as [? [? ?]], WF as [? [? ?]]. apply ebv_iff in T. eapply yields_then_fails; [val|apply IA; eauto|].
      intros m e e1 E1 E2. unfold eval_step. cbn [x_type x_left x_right]. rewrite E1. cbn [bind]. change (xtype_eqb X_IfThenElse X_IfThenElse) with true. cbn [negb].
      rewrite T. cbn [bind]. exact E2.
    - (* bindings *) intros f vs q v e b k RB IB. start. destruct HY as [? [? Q]], WF as [? [? ?]].
      destruct (IB D) with (y := XNode (qbind q) v x y) as [_ G]; auto.
      { cbn. split; auto. split; auto. destruct Q as [Q|Q]; auto. left. congruence. }
      { apply (rb_more (Some q)); auto. constructor; auto. }
      eapply fails_via; [apply G; left; discriminate|]. intros m en E. destruct q; exact E.
    - intros f vs v e b k RB IB. start. destruct HY as [? ?], WF as [? [? ?]].
      destruct (IB D) with (y := XNode X_LetVarBind v x y) as [_ G]; auto.
      { cbn. split; auto. }
      { apply (rb_more None); auto. constructor; auto. }
      eapply fails_via; [apply G; left; discriminate|]. intros m en E. exact E.
    - intros f vs q bs b k NB RB IB. start. apply hyg_multi_of in HY. apply wf_multi in WF. destruct WF as [WB WS].
      destruct (IB D HY WB WS IN VI y ltac:(assumption)) as [_ G].
      eapply fails_via; [apply G; left; exact NB|]. intros m en E. destruct q as [[]|]; exact E.
    - (* filter *) intros f vs a p k RA IA. start. destruct HY as [? ?], WF as [? ?]. eapply fails_via; [apply IA; eauto|]. intros m e E.
      unfold eval_step; cbn [x_type x_left]; rewrite E; reflexivity.
    - intros f vs a p l1 it l2 k MA MP RP IP. start. destruct HY as [? ?], WF as [? ?]. assert (LI : seq_in h (l1 ++ it :: l2)) by inn.
      apply fails_S. intros e F A.
      destruct (has_value _ _ _ _ MA D ltac:(assumption) ltac:(assumption) IN VI x ltac:(assumption) e F A) as [e1 [[N1 E1] S1]].
      destruct (predicate_fails D vs false y l1 it l2 k) with (e := e1) as [N2 E2]; [eapply reads_nonnil; eauto| | |eapply agree_same; eauto|].
      + intros j z E. destruct (MP j z E) as [v MV]. exists v. eapply has_value; eauto. apply LI. apply in_or_app. left. eapply nth_error_In; eauto.
      + apply IP; auto. apply LI. apply in_or_app. right. left. reflexivity.
      + exists (N1 + N2). intros m M. unfold eval_step. cbn [x_type x_left x_right]. rewrite E1 by lia. cbn [bind]. apply E2. lia.
    - (* step *) intros p s vs n sf t ps1 q ps2 l l1 it l2 k AT OT X NR MP RP IP. start. destruct (wf_step _ _ _ WF) as [T W]. apply hyg_step in HY.
      apply Forall_app in HY, W. destruct HY as [HY1 HY2], W as [W1 W2]. inversion HY2; subst. inversion W2; subst.
      assert (ID : in_document h 0 n) by (apply item_node_in; exact IN).
      assert (L : seq_in h (nodes l)). { apply seq_in_nodes. intros i I. apply X in I. destruct I as [I _]. eapply axis_in_document; eauto. }
      assert (LI : seq_in h (l1 ++ it :: l2)). { intros i I. apply L. eapply narrows_in; eauto. }
      apply (step_fails D p s vs n (form_axis sf) t x l k); auto; [split; auto| |].
      + intro Q. subst x. match goal with R : reads_preds _ XNil _ |- _ => inversion R as [? Q1 Q2|]; destruct ps1; discriminate end.
      + intros e A. eapply (narrow_then D vs (reverse_axis (form_axis sf)) ps1 q ps2 (nodes l) l1 it l2 k NR); eauto.
        * intros j z E y RY. destruct (MP j z E) as [v MV]. exists v. eapply has_value; eauto. apply LI. apply in_or_app. left. eapply nth_error_In; eauto.
        * intros y RY. apply IP; auto. apply LI. apply in_or_app. right. left. reflexivity.
    - (* paths *) intros f vs a rest k RA IA. start. apply hyg_path in HY. apply wf_path in WF. destruct HY as [HA HR], WF as [WA WR].
      assert (Y : fails h D f vs x k) by (eapply reads_op_fails; [eassumption|]; intros; apply IA; auto).
      eapply fails_via; [exact Y|]. intros m e E. unfold eval_step. cbn [x_type]. unfold eval_left. cbn [x_left].
      assert (NX : x <> XNil) by (eapply reads_op_nonnil; eauto). destruct x; [congruence|]. cbn [is_nil]. rewrite E. reflexivity.
    - intros f vs a rest l k MA RS IS. start. apply hyg_path in HY. apply wf_path in WF. destruct HY as [HA HR], WF as [WA WR].
      assert (LI : seq_in h (nodes l)) by inn.
      assert (Y : yields h D f vs x (nodes l)) by (eapply reads_op_yields; [eassumption|]; intros; val).
      destruct (IS D HR WR (nodes_seq_in h l LI) VI y) as [l1 [n [l2 [-> G]]]]; [apply tail_tails; auto|].
      eapply path_fails; [eapply reads_op_nonnil; eauto|eapply tails_nonnil, tail_tails; eauto|exact Y|exact G].
    - intros p s vs n a rest k RS IS. start. apply hyg_path in HY. apply wf_path in WF. destruct HY as [HA HR], WF as [WA WR].
      assert (T := rel_tails _ _ _ ltac:(eassumption)).
      destruct (IS D) with (y := y) as [l1 [i [l2 [E G]]]]; auto.
      { intros i [<-|[]]. apply root_in. }
      eapply path_fails with (l1 := l1) (n := i) (l2 := l2); [discriminate|eapply tails_nonnil; eauto| |exact G].
      rewrite <- E. eapply (yields_root h order); eauto; apply item_node_in; exact IN.
    - intros p s vs n a rest k RS IS. start. apply hyg_path in HY. apply wf_path in WF. destruct HY as [HA HR], WF as [WA WR].
      assert (T := tl_deep nm'' _ _ _ (rel_tails _ _ _ ltac:(eassumption))).
      destruct (IS D) with (y := XNode X_OperatorPath nm'' any_depth y) as [l1 [i [l2 [E G]]]]; auto.
      { intros i [<-|[]]. apply root_in. }
      eapply path_fails with (l1 := l1) (n := i) (l2 := l2); [discriminate|discriminate| |exact G].
      rewrite <- E. eapply (yields_root h order); eauto; apply item_node_in; exact IN.
    - (* arguments *) intros f vs name es1 e es2 vals k MA RE IE. start. apply hyg_call in HY. apply wf_call in WF. apply Forall_app in HY, WF.
      destruct HY as [HY1 HY2], WF as [WF1 WF2]. inversion HY2; subst. inversion WF2; subst.
      apply call_fails. intros en F A. eapply (args_fail D f vs es1 vals e es2 k); [eapply have_values; eauto|intros; apply IE; auto|eassumption|exact F|exact A].
    - intros f vs p name es1 e es2 vals k MA RE IE. start. apply hyg_pcall in HY. apply wf_pcall in WF. apply Forall_app in HY, WF.
      destruct HY as [HY1 HY2], WF as [WF1 WF2]. inversion HY2; subst. inversion WF2; subst.
      apply call_fails. intros en F A. eapply (args_fail D f vs es1 vals e es2 k); [eapply have_values; eauto|intros; apply IE; auto|eassumption|exact F|exact A].
    - intros f vs name a args es1 e es2 vals k EQ MA RE IE. start. apply hyg_arrow in HY. apply wf_arrow in WF. rewrite EQ in *. apply Forall_app in HY, WF.
      destruct HY as [HY1 HY2], WF as [WF1 WF2]. inversion HY2; subst. inversion WF2; subst.
      apply call_fails. intros en F A. eapply (args_fail D f vs es1 vals e es2 k); [eapply have_values; eauto|intros; apply IE; auto|eassumption|exact F|exact A].
    - intros f vs es1 e es2 vals k MA RE IE. start. apply hyg_square in HY. apply wf_square in WF. apply Forall_app in HY, WF.
      destruct HY as [HY1 HY2], WF as [WF1 WF2]. inversion HY2; subst. inversion WF2; subst.
      apply fails_S. intros en F A. destruct (items_fail D f vs es1 vals e es2 k) with (x := y) (en := en) as [N E]; [eapply have_values; eauto|intros; apply IE; auto|eassumption|exact F|exact A|].
      exists N. intros m M. unfold eval_step. cbn [x_type]. unfold convert_xnode_to_map_array. cbn [x_type x_left]. rewrite E by lia. reflexivity.
    - intros f vs e k RE IE. start. eapply fails_via; [apply IE; eauto|].
      intros m en E. unfold eval_step. cbn [x_type]. unfold convert_xnode_to_map_array. cbn [x_type x_left]. rewrite E. reflexivity.
    - (* entries *) intros f vs es1 key val es2 m k MK MV RE IE. start. apply hyg_map in HY. apply wf_map in WF. destruct HY as [HK HV], WF as [WK WV].
      rewrite map_app in *. cbn [map fst snd] in *.
      apply Forall_app in HK, HV, WK, WV. destruct HK as [HK1 HK2], HV as [HV1 HV2], WK as [WK1 WK2], WV as [WV1 WV2]. inversion HK2; subst. inversion WK2; subst.
      apply fails_S. intros e F A.
      destruct (entries_fail D f vs key val es2 k m es1) with (x := y) (en := e) as [N E]; auto; try (eapply have_values; eauto; fail).
      { intros x1 y1 R1 R2 en F1 A1. destruct (IE D ltac:(assumption) ltac:(assumption) IN VI x1 R1 en F1 A1) as [N1 E1]. exists N1. intros n M.
        rewrite E1 by lia. reflexivity. }
      exists N. intros n M. unfold eval_step. cbn [x_type]. unfold convert_xnode_to_map_array. cbn [x_type x_left]. rewrite E by lia. reflexivity.
    - intros f vs es1 key val es2 m it k MK MV MX RE IE. start. apply hyg_map in HY. apply wf_map in WF. destruct HY as [HK HV], WF as [WK WV].
      rewrite map_app in *. cbn [map fst snd] in *.
      apply Forall_app in HK, HV, WK, WV. destruct HK as [HK1 HK2], HV as [HV1 HV2], WK as [WK1 WK2], WV as [WV1 WV2].
      inversion HK2; subst. inversion WK2; subst. inversion HV2; subst. inversion WV2; subst.
      apply fails_S. intros e F A.
      destruct (entries_fail D f vs key val es2 k m es1) with (x := y) (en := e) as [N E]; auto; try (eapply have_values; eauto; fail).
      { intros x1 y1 R1 R2 en F1 A1. destruct (has_value _ _ _ _ MX D ltac:(assumption) ltac:(assumption) IN VI x1 R1 en F1 A1) as [e1 [[N1 E1] S1]].
        destruct (IE D ltac:(assumption) ltac:(assumption) IN VI y1 R2 e1 (at_focus_same _ _ _ _ F1 S1) (agree_same _ _ _ _ A1 S1)) as [N2 E2].
        exists (N1 + N2). intros n M. rewrite E1 by lia. cbn [bind get_singleton_item]. rewrite E2 by lia. reflexivity. }
      exists N. intros n M. unfold eval_step. cbn [x_type]. unfold convert_xnode_to_map_array. cbn [x_type x_left]. rewrite E by lia. reflexivity.
    - (* lookups *) intros f vs e k RE IE. start. eapply fails_via; [apply IE; eauto|]. intros m en E. unfold eval_step. cbn [x_type x_left]. rewrite E. reflexivity.
    - intros f vs a key k RA IA. start. destruct WF. eapply fails_via; [apply IA; eauto|]. intros m en E. unfold eval_step. cbn [x_type]. unfold eval_left. cbn [x_left].
      assert (NX : x <> XNil) by (eapply reads_nonnil; eauto). destruct x; [congruence|]. cbn [is_nil]. rewrite E. reflexivity.
    - intros f vs a e k RA IA. start. destruct WF, HY. eapply fails_via; [apply IA; eauto|]. intros m en E. unfold eval_step. cbn [x_type]. unfold eval_left. cbn [x_left].
      assert (NX : x <> XNil) by (eapply reads_nonnil; eauto). destruct x; [congruence|]. cbn [is_nil]. rewrite E. reflexivity.
    - (* dynamic calls *) intros f vs a args k RA IA. start. apply hyg_dyn in HY. apply wf_dyn in WF. destruct HY as [HA HK], WF as [WA WK].
      eapply fails_via; [apply IA; eauto|]. intros m en E. unfold eval_step. cbn [x_type x_left]. rewrite E. reflexivity.
    - intros f vs a key v k MA RK IK. start. apply hyg_dyn in HY. apply wf_dyn in WF. destruct HY as [HA HK], WF as [WA WK].
      inversion HK; subst. inversion WK; subst. apply fails_S. intros e F A.
      destruct (has_value _ _ _ _ MA D HA WA IN VI x ltac:(assumption) e F A) as [e1 [[N1 E1] S1]].
      destruct (dyn_args_fail D f vs [] [] key [] k) with (x := y) (en := e1) as [N2 E2];
        [constructor|intros; apply IK; auto|assumption|eapply at_focus_same; eauto|eapply agree_same; eauto|].
      exists (N1 + N2). intros m M. unfold eval_step. cbn [x_type x_left x_right]. rewrite E1 by lia. cbn [bind]. unfold apply_argument. cbn [x_left].
      rewrite E2 by lia. reflexivity.
    - intros f vs a fe ev es1 e es2 vals k FA MA RE IE. start. apply hyg_dyn in HY. apply wf_dyn in WF. destruct HY as [HF HA], WF as [WE WA].
      apply Forall_app in HA, WA. destruct HA as [HA1 HA2], WA as [WA1 WA2]. inversion HA2; subst. inversion WA2; subst.
      apply fails_S. intros en F A. destruct (function_evals h vs a fe ev D FA HF WE x ltac:(assumption) en A) as [tx [_ EF]]. destruct (EF [f_item f]) as [N1 E1].
      destruct (dyn_args_fail D f vs es1 vals e es2 k) with (x := y) (en := en) as [N2 E2]; [eapply have_values; eauto|intros; apply IE; auto|eassumption|exact F|exact A|].
      exists (N1 + N2). intros m M. unfold eval_step. cbn [x_type x_left x_right]. rewrite E1 by lia. cbn [bind]. unfold apply_argument. cbn [x_left].
      rewrite E2 by lia. reflexivity.
    - intros f vs a ps b ev args vals k FA SC MA RB IB. start. apply hyg_dyn in HY. apply wf_dyn in WF. destruct HY as [HF HA], WF as [WE WA].
      assert (VA : forall z, In z vals -> seq_in h z) by (intros z Z; eapply all_in; eauto).
      apply fails_S. intros en F A. destruct (function_evals h vs a _ ev D FA HF WE x ltac:(assumption) en A) as [t [[_ [RT [BT [WT HT]]]] EF]]. destruct (EF [f_item f]) as [N1 E1].
      destruct (bare_fun _ _ _ RT BT) as [n1 [n2 [by0 [-> RBX]]]].
      destruct (each_dyn h D f vs args vals (have_values _ _ _ _ MA D HA WA IN VI) y ltac:(assumption) en F A) as [e2 [N2 [S2 E2]]].
      destruct (denies_inline D f vs n1 n2 by0 ps vals k) with (e := e2) as [N3 E3].
      { apply IB; auto. } { eapply at_focus_same; eauto. } { eapply agree_same; eauto. }
      exists (N1 + N2 + N3). intros m M. unfold eval_step. cbn [x_type x_left x_right].
      rewrite E1 by lia. cbn [bind]. unfold apply_argument. cbn [x_left]. rewrite E2 by lia. cbn [bind].
      change (xtype_eqb (x_type (inline_tree n1 n2 by0 ps)) X_InlineFunction) with true. cbn iota. apply E3. lia.
    - (* arrow *) intros f vs n fe ev a args es1 e es2 vals k E SP MA RE IE. start.
      assert (HN : ~ In n D) by (destruct HY as [HV _]; apply HV; reflexivity). apply hyg_arrow in HY. apply wf_arrow in WF. rewrite SP in *.
      apply Forall_app in HY, WF. destruct HY as [HA1 HA2], WF as [WA1 WA2]. inversion HA2; subst. inversion WA2; subst.
      apply fails_S. intros en F A. assert (AN := A n HN). rewrite E in AN. destruct AN as [t [L _]].
      destruct (dyn_args_fail D f vs es1 vals e es2 k) with (x := x) (en := en) as [N2 E2]; [eapply have_values; eauto|intros; apply IE; auto|eassumption|exact F|exact A|].
      exists (S N2). intros m M. unfold eval_step. cbn [x_type x_left x_right].
      assert (EV : eval h m [f_item f] (leaf X_VarRef n) en = Ok ([XIFun t], en)).
      { destruct m as [|m]; [lia|]. rewrite eval_S. unfold eval_step. cbn [x_type leaf x_name]. unfold get_var. rewrite L. reflexivity. }
      rewrite EV. cbn [bind]. unfold apply_argument. cbn [x_left]. rewrite E2 by lia. reflexivity.
    - intros f vs n ps b ev a args vals k E SC MA RB IB. start.
      assert (HN : ~ In n D) by (destruct HY as [HV _]; apply HV; reflexivity). apply hyg_arrow in HY. apply wf_arrow in WF.
      assert (VA : forall z, In z vals -> seq_in h z) by (intros z Z; eapply all_in; eauto).
      apply fails_S. intros en F A. assert (AN := A n HN). rewrite E in AN. destruct AN as [t [L [_ [RT [BT [WT [HT _]]]]]]].
      destruct (bare_fun _ _ _ RT BT) as [n1 [n2 [by0 [-> RBX]]]].
      destruct (each_dyn h D f vs (a :: args) vals (have_values _ _ _ _ MA D HY WF IN VI) x ltac:(assumption) en F A) as [e2 [N2 [S2 E2]]].
      destruct (denies_inline D f vs n1 n2 by0 ps vals k) with (e := e2) as [N3 E3].
      { apply IB; auto. } { eapply at_focus_same; eauto. } { eapply agree_same; eauto. }
      exists (S (N2 + N3)). intros m M. unfold eval_step. cbn [x_type x_left x_right].
      assert (EV : eval h m [f_item f] (leaf X_VarRef n) en = Ok ([XIFun (inline_tree n1 n2 by0 ps)], en)).
      { destruct m as [|m]; [lia|]. rewrite eval_S. unfold eval_step. cbn [x_type leaf x_name]. unfold get_var. rewrite L. reflexivity. }
      rewrite EV. cbn [bind]. unfold apply_argument. cbn [x_left]. rewrite E2 by lia. cbn [bind].
      change (xtype_eqb (x_type (inline_tree n1 n2 by0 ps)) X_InlineFunction) with true. cbn iota. apply E3. lia.
    - (* for-each *) intros f vs a e fe ev l1 it l2 k MA FA SC MB RB IB. start. apply hyg_call in HY. apply wf_call in WF.
      inversion HY as [|? ? HA HB]; subst. inversion HB as [|? ? HF _]; subst. inversion WF as [|? ? WA WB]; subst. inversion WB as [|? ? WF' _]; subst.
      assert (LI : seq_in h (l1 ++ it :: l2)) by inn.
      match goal with R : reads_args _ _ |- _ => inversion R as [|xa ? ra ? RA RR]; subst; inversion RR as [|xf ? rn ? RF RN]; subst; inversion RN; subst end.
      apply fails_S. intros en F A. destruct (has_value _ _ _ _ MA D HA WA IN VI xa RA en F A) as [e1 [[N1 E1] S1]].
      destruct (function_evals h vs e fe ev D FA HF WF' xf RF e1 (agree_same _ _ _ _ A S1)) as [tx [[_ [RT [BT [WT HT]]]] EF]]. destruct (EF [f_item f]) as [N2 E2].
      assert (IW : forall x, In x (l1 ++ it :: l2) -> forall z, In z [[x]] -> seq_in h z) by (intros x X z [<-|[]]; apply seq_in_item, LI, X).
      assert (II : In it (l1 ++ it :: l2)) by (apply in_or_app; right; left; reflexivity).
      assert (IX : forall x, In x l1 -> In x (l1 ++ it :: l2)) by (intros x X; apply in_or_app; auto).
      assert (F1 := at_focus_same _ _ _ _ F S1). assert (A1 := agree_same _ _ _ _ A S1).
      destruct (for_each_fails D f vs tx it l2 k l1) with (e := e1) as [N3 E3]; auto.
      { intros x X. destruct (MB x X) as [v MV]. exists v. eapply (has_answer _ _ _ _ MV); eauto. }
      { apply IB; auto; exact (IW it II). }
      exists (N1 + N2 + N3). intros m M. unfold eval_step. cbn [x_type x_left x_right x_name].
      cbn [eval_args]. change (xtype_eqb X_ArgumentTop X_ArgumentTop) with true. cbn iota. rewrite E1 by lia. cbn [bind]. rewrite E2 by lia. cbn [bind].
      unfold evaluate_function. change (find_function (lit "fn:" ++ lit "for-each") (List.length [l1 ++ it :: l2; [XIFun tx]])) with (Some C_for_each).
      cbn iota. cbn [get_singleton_xnodeptr bind]. apply E3. lia.
    - intros f vs a e fe ev l1 it l2 k MA FA SC MB RB IB. start. apply hyg_call in HY. apply wf_call in WF.
      inversion HY as [|? ? HA HB]; subst. inversion HB as [|? ? HF _]; subst. inversion WF as [|? ? WA WB]; subst. inversion WB as [|? ? WF' _]; subst.
      assert (LI : seq_in h (l1 ++ it :: l2)) by inn.
      match goal with R : reads_args _ _ |- _ => inversion R as [|xa ? ra ? RA RR]; subst; inversion RR as [|xf ? rn ? RF RN]; subst; inversion RN; subst end.
      apply fails_S. intros en F A. destruct (has_value _ _ _ _ MA D HA WA IN VI xa RA en F A) as [e1 [[N1 E1] S1]].
      destruct (function_evals h vs e fe ev D FA HF WF' xf RF e1 (agree_same _ _ _ _ A S1)) as [tx [[_ [RT [BT [WT HT]]]] EF]]. destruct (EF [f_item f]) as [N2 E2].
      assert (IW : forall x, In x (l1 ++ it :: l2) -> forall z, In z [[x]] -> seq_in h z) by (intros x X z [<-|[]]; apply seq_in_item, LI, X).
      assert (II : In it (l1 ++ it :: l2)) by (apply in_or_app; right; left; reflexivity).
      assert (IX : forall x, In x l1 -> In x (l1 ++ it :: l2)) by (intros x X; apply in_or_app; auto).
      assert (F1 := at_focus_same _ _ _ _ F S1). assert (A1 := agree_same _ _ _ _ A S1).
      destruct (filter_fn_fails D f vs tx it l2 k l1) with (e := e1) as [N3 E3]; auto.
      { intros x X. destruct (MB x X) as [v [t [MV T]]]. exists v, t. split; auto. eapply (has_answer _ _ _ _ MV); eauto. }
      { left. apply IB; auto; exact (IW it II). }
      exists (N1 + N2 + N3). intros m M. unfold eval_step. cbn [x_type x_left x_right x_name].
      cbn [eval_args]. change (xtype_eqb X_ArgumentTop X_ArgumentTop) with true. cbn iota. rewrite E1 by lia. cbn [bind]. rewrite E2 by lia. cbn [bind].
      unfold evaluate_function. change (find_function (lit "fn:" ++ lit "filter") (List.length [l1 ++ it :: l2; [XIFun tx]])) with (Some C_filter).
      cbn iota. cbn [get_singleton_xnodeptr bind]. apply E3. lia.
    - intros f vs a e fe ev l1 it l2 w MA FA SC MB MW NT. start. apply hyg_call in HY. apply wf_call in WF.
      inversion HY as [|? ? HA HB]; subst. inversion HB as [|? ? HF _]; subst. inversion WF as [|? ? WA WB]; subst. inversion WB as [|? ? WF' _]; subst.
      assert (LI : seq_in h (l1 ++ it :: l2)) by inn.
      match goal with R : reads_args _ _ |- _ => inversion R as [|xa ? ra ? RA RR]; subst; inversion RR as [|xf ? rn ? RF RN]; subst; inversion RN; subst end.
      apply fails_S. intros en F A. destruct (has_value _ _ _ _ MA D HA WA IN VI xa RA en F A) as [e1 [[N1 E1] S1]].
      destruct (function_evals h vs e fe ev D FA HF WF' xf RF e1 (agree_same _ _ _ _ A S1)) as [tx [[_ [RT [BT [WT HT]]]] EF]]. destruct (EF [f_item f]) as [N2 E2].
      assert (IW : forall x, In x (l1 ++ it :: l2) -> forall z, In z [[x]] -> seq_in h z) by (intros x X z [<-|[]]; apply seq_in_item, LI, X).
      assert (II : In it (l1 ++ it :: l2)) by (apply in_or_app; right; left; reflexivity).
      assert (IX : forall x, In x l1 -> In x (l1 ++ it :: l2)) by (intros x X; apply in_or_app; auto).
      assert (F1 := at_focus_same _ _ _ _ F S1). assert (A1 := agree_same _ _ _ _ A S1).
      destruct (filter_fn_fails D f vs tx it l2 TypeError l1) with (e := e1) as [N3 E3]; auto.
      { intros x X. destruct (MB x X) as [v [t [MV T]]]. exists v, t. split; auto. eapply (has_answer _ _ _ _ MV); eauto. }
      { right. exists w. split; [eapply (has_answer _ _ _ _ MW); eauto|apply no_truth_error; auto]. }
      exists (N1 + N2 + N3). intros m M. unfold eval_step. cbn [x_type x_left x_right x_name].
      cbn [eval_args]. change (xtype_eqb X_ArgumentTop X_ArgumentTop) with true. cbn iota. rewrite E1 by lia. cbn [bind]. rewrite E2 by lia. cbn [bind].
      unfold evaluate_function. change (find_function (lit "fn:" ++ lit "filter") (List.length [l1 ++ it :: l2; [XIFun tx]])) with (Some C_filter).
      cbn iota. cbn [get_singleton_xnodeptr bind]. apply E3. lia.
    - (* functions: body *) intros vs ps b vals k L ND RB IB D HY WF VI VA f IN t R B. destruct (bare_fun _ _ _ R B) as [n1 [n2 [y [-> RBX]]]].
      destruct WF as [_ WF]. intros e F A.
      destruct (inline_fails D f vs n1 n2 y ps vals k L VA) with (e := e) as [N1 E1]; auto.
      { apply (IB f); auto. apply vars_in_binds; auto. }
      exists (S N1). intros [|m] M; [lia|]. rewrite call_S. unfold call_function_body. cbn [x_type inline_tree].
      fold (inline_tree n1 n2 y ps). apply E1. lia.
    - intros vs name d vals k ND LT LE D HY WF VI VA f IN t R B. inversion R; subst; [destruct B as [B|B]; [destruct B; reflexivity|discriminate B]|].
      intros e F A. exists 1. intros [|m] M; [lia|]. rewrite call_S. unfold call_function_body. cbn [x_type leaf]. unfold call_named_func. cbn [leaf x_name].
      rewrite (split_ref _ _ WF). rewrite (atoi_ref _ _ WF LT), ND, nat_N_Z, Z.eqb_refl. apply library_error_ok. exact LE.
    - intros vs name d vals ND LT D HY WF VI VA f IN t R B. inversion R; subst; [destruct B as [B|B]; [destruct B; reflexivity|discriminate B]|].
      intros e F A. exists 1. intros [|m] M; [lia|]. rewrite call_S. unfold call_function_body. cbn [x_type leaf]. unfold call_named_func. cbn [leaf x_name].
      rewrite (split_ref _ _ WF). rewrite (atoi_ref _ _ WF LT). destruct (Z.eqb_spec (Z.of_N (numeral d)) (Z.of_nat (List.length vals))) as [Q|Q]; [|reflexivity].
      exfalso. apply ND. apply N2Z.inj. rewrite nat_N_Z. exact Q.
    - intros vs name os vals all k FL LE D HY WF VI VA f IN t R B. inversion R; subst; [destruct B as [B|B]; [destruct B; reflexivity|discriminate B]|].
      intros e F A. destruct (fills_value _ _ _ _ _ (FL f) D (hyg_part _ _ _ HY) (wf_part _ _ WF) IN VI x ltac:(assumption) e F A) as [e1 [N1 [S1 E1]]].
      exists (S N1). intros [|m] M; [lia|]. rewrite call_S. unfold call_function_body. cbn [x_type]. unfold call_partial_func. cbn [x_right x_name].
      rewrite E1 by lia. cbn [bind]. apply library_error_ok. exact LE.
    - intros vs name os1 e os2 vals1 vals2 all1 k FL RE IE D HY WF VI VA f IN t R B. inversion R; subst; [destruct B as [B|B]; [destruct B; reflexivity|discriminate B]|].
      apply hyg_part in HY. apply wf_part in WF. apply Forall_app in HY, WF. destruct HY as [HA1 HA2], WF as [WA1 WA2]. inversion HA2; subst. inversion WA2; subst.
      intros en F A. destruct (given_fails _ _ _ _ _ (FL f) D e os2 vals2 k) with (x := x) (en := en) as [N1 E1]; auto.
      { intros z Z. apply (IE f); auto. }
      exists (S N1). intros [|m] M; [lia|]. rewrite call_S. unfold call_function_body. cbn [x_type]. unfold call_partial_func. cbn [x_right x_name].
      rewrite E1 by lia. reflexivity.
    - (* binds: body *) intros f vs q b k RB IB D HY WB WS IN VI y R. inversion R; subst.
      assert (G : fails h D f vs y k) by (apply IB; auto). split; [left; exact G|intros _; exact G].
    - intros f vs q b r Q MB NT D HY WB WS IN VI y R. inversion R; subst. split.
      + right. split; auto. exists r. split; [eapply has_value; eauto|apply no_truth_error; auto].
      + intros [C|[C|C]]; [congruence| |discriminate C]. injection C as ->. destruct Q; discriminate.
    - intros f vs q v e bs b k RE IE D HY WB WS IN VI y R. destruct HY as [HE [_ HB]]. inversion WS; subst. inversion R; subst.
      assert (G : fails h D f vs (XNode (multi_bind q) v x y0) k).
      { eapply fails_via; [apply IE; eauto|]. intros m en E. destruct q as [[]|]; unfold eval_step; cbn [multi_bind qbind x_type x_left]; rewrite E; reflexivity. }
      split; [left; exact G|intros _; exact G].
    - intros f vs v e bs b l k ME RB IB D HY WB WS IN VI y R. destruct HY as [HE [_ HB]]. inversion WS; subst. inversion R; subst.
      assert (LI : seq_in h l) by inn.
      assert (G : fails h D f vs (XNode X_LetVarBind v x y0) k).
      { destruct (IB _ HB WB ltac:(assumption) IN) with (y := y0) as [_ G]; auto; [apply vars_in_bind; auto|]. specialize (G (or_intror (or_intror eq_refl))).
        apply fails_S. intros en F A. destruct (has_value _ _ _ _ ME D HE ltac:(assumption) IN VI x ltac:(assumption) en F A) as [e1 [[N1 E1] S1]].
        destruct (G (set_var e1 v l)) as [N2 E2]; [exact (at_focus_same _ _ _ _ F S1)|apply agree_bind; eapply agree_same; eauto|].
        exists (N1 + N2). intros m M. unfold eval_step. cbn [x_type x_left x_right x_name]. rewrite E1 by lia. cbn [bind]. rewrite E2 by lia. reflexivity. }
      split; [left; exact G|intros _; exact G].
    - intros f vs v e fe ev bs b k FA H0 RB IB D HY WB WS IN VI y R. destruct HY as [HE [_ HB]]. inversion WS; subst. inversion R; subst.
      assert (G : fails h D f vs (XNode X_LetVarBind v x y0) k).
      { destruct (IB _ HB WB ltac:(assumption) IN) with (y := y0) as [_ G]; auto; [apply vars_in_fun; auto|]. specialize (G (or_intror (or_intror eq_refl))).
        apply fails_S. intros en F A. cbn [snd] in *.
        destruct (function_evals h vs e fe ev D FA HE ltac:(assumption) x ltac:(assumption) en A) as [tx [[FN [RT [BT [WT HT]]]] EF]]. destruct (EF [f_item f]) as [N1 E1].
        destruct (G (set_var en v [XIFun tx]) F (agree_bind_fun _ _ _ _ _ ev _ A FN RT BT WT HT H0)) as [N2 E2].
        exists (N1 + N2). intros m M. unfold eval_step. cbn [x_type x_left x_right x_name]. rewrite E1 by lia. cbn [bind]. rewrite E2 by lia. reflexivity. }
      split; [left; exact G|intros _; exact G].
    - intros f vs v e bs b l1 it l2 k ME MB RB IB D HY WB WS IN VI y R. destruct HY as [HE [_ HB]]. inversion WS; subst. inversion R; subst.
      assert (LI : seq_in h (l1 ++ it :: l2)) by inn.
      assert (G : fails h D f vs (XNode X_ForVarBind v x y0) k).
      { destruct (IB _ HB WB ltac:(assumption) IN) with (y := y0) as [_ G]; auto; [apply vars_in_bind; auto; apply seq_in_item, LI, in_or_app; right; left; reflexivity|].
        specialize (G (or_intror (or_introl eq_refl))).
        apply fails_S. intros en F A. destruct (has_value _ _ _ _ ME D HE ltac:(assumption) IN VI x ltac:(assumption) en F A) as [e1 [[N1 E1] S1]].
        destruct (for_loop_fails h D f vs y0 v it l2 k l1) with (e := e1) as [N2 E2]; auto.
        { intros i I. destruct (MB i I) as [r MR]. destruct (binds_value _ _ _ _ _ _ MR _ HB WB ltac:(assumption) IN) with (y := y0) as [w [Y _]]; eauto.
          apply vars_in_bind; auto. apply seq_in_item, LI, in_or_app. auto. }
        { eapply at_focus_same; eauto. } { eapply agree_same; eauto. }
        exists (N1 + N2). intros m M. unfold eval_step. cbn [x_type x_left x_right x_name]. rewrite E1 by lia. cbn [bind]. apply E2. lia. }
      split; [left; exact G|intros _; exact G].
    - intros f vs v e bs b l1 it l2 k ME MB RB IB D HY WB WS IN VI y R. destruct HY as [HE [_ HB]]. inversion WS; subst. inversion R; subst.
      assert (LI : seq_in h (l1 ++ it :: l2)) by inn.
      assert (G : fails h D f vs (XNode X_SomeVarBind v x y0) k).
      { destruct (IB _ HB WB ltac:(assumption) IN) with (y := y0) as [G _]; auto; [apply vars_in_bind; auto; apply seq_in_item, LI, in_or_app; right; left; reflexivity|].
        apply fails_S. intros en F A. destruct (has_value _ _ _ _ ME D HE ltac:(assumption) IN VI x ltac:(assumption) en F A) as [e1 [[N1 E1] S1]].
        destruct (quant_loop_fails h D f vs y0 v true it l2 k l1) with (e := e1) as [N2 E2]; auto.
        { intros i I. destruct (binds_value _ _ _ _ _ _ (MB i I) _ HB WB ltac:(assumption) IN) with (y := y0) as [w [Y [[t [Q T]] _]]]; eauto.
          { apply vars_in_bind; auto. apply seq_in_item, LI, in_or_app. auto. }
          injection Q as <-. eauto. }
        { eapply at_focus_same; eauto. } { eapply agree_same; eauto. }
        exists (N1 + N2). intros m M. unfold eval_step. cbn [x_type x_left x_right x_name]. rewrite E1 by lia. cbn [bind]. apply E2. lia. }
      split; [left; exact G|intros _; exact G].
    - intros f vs v e bs b l1 it l2 k ME MB RB IB D HY WB WS IN VI y R. destruct HY as [HE [_ HB]]. inversion WS; subst. inversion R; subst.
      assert (LI : seq_in h (l1 ++ it :: l2)) by inn.
      assert (G : fails h D f vs (XNode X_EveryVarBind v x y0) k).
      { destruct (IB _ HB WB ltac:(assumption) IN) with (y := y0) as [G _]; auto; [apply vars_in_bind; auto; apply seq_in_item, LI, in_or_app; right; left; reflexivity|].
        apply fails_S. intros en F A. destruct (has_value _ _ _ _ ME D HE ltac:(assumption) IN VI x ltac:(assumption) en F A) as [e1 [[N1 E1] S1]].
        destruct (quant_loop_fails h D f vs y0 v false it l2 k l1) with (e := e1) as [N2 E2]; auto.
        { intros i I. destruct (binds_value _ _ _ _ _ _ (MB i I) _ HB WB ltac:(assumption) IN) with (y := y0) as [w [Y [[t [Q T]] _]]]; eauto.
          { apply vars_in_bind; auto. apply seq_in_item, LI, in_or_app. auto. }
          injection Q as <-. eauto. }
        { eapply at_focus_same; eauto. } { eapply agree_same; eauto. }
        exists (N1 + N2). intros m M. unfold eval_step. cbn [x_type x_left x_right x_name]. rewrite E1 by lia. cbn [bind]. apply E2. lia. }
      split; [left; exact G|intros _; exact G].
    - (* steps *) intros vs st l1 n l2 k MW RS IS D HY WF IN VI y T. exists l1, n, l2. split; auto. intros p s. split.
      + intros m I. destruct (MW m I) as [r W]. 
        destruct (proj1 (proj2 (proj2 (proj2 (proj2 (proj2 (proj2 (means_yields h order SE PO AP))))))) vs st [m] r W D HY WF) with (y := y) as [g [G _]]; auto.
        { intros i [<-|[]]. apply IN. apply in_or_app. auto. }
        exists (g m). apply G. left. reflexivity.
      + apply IS; auto. apply IN. apply in_or_app. right. left. reflexivity.
    - intros vs e rest n k RE IE D HY WF IN VI y T p s. inversion HY; subst. inversion WF; subst.
      assert (G : forall x, reads_op x e -> fails h D (mkFocus (XINode n) p s) vs x k).
      { intros x R. eapply reads_op_fails; [eassumption|]. intros z Z. apply (IE p s); auto. apply item_node. auto. }
      assert (P : forall nm x z, reads_op x e -> fails h D (mkFocus (XINode n) p s) vs (XNode X_OperatorPath nm x z) k).
      { intros nm x z R. eapply fails_via; [apply G; exact R|]. intros m en E. unfold eval_step. cbn [x_type]. unfold eval_left. cbn [x_left].
        assert (NX : x <> XNil) by (eapply reads_op_nonnil; eauto). destruct x; [congruence|]. cbn [is_nil]. rewrite E. reflexivity. }
      inversion T; subst; auto.
    - intros vs e rest n l k NR ME RS IS D HY WF IN VI y T p s. inversion HY; subst. inversion WF; subst. inversion T; subst; try congruence.
      assert (II : item_in h (XINode n)) by (apply item_node; auto).
      assert (LI : seq_in h (nodes l)). { apply (proj1 (means_in h order SE PO) _ _ _ _ (ME 0 0)); auto. }
      match goal with T' : tails ?z rest |- _ => destruct (IS D) with (y := z) as [l1 [i [l2 [-> G]]]]; auto; [apply nodes_seq_in; auto|] end.
      eapply path_fails; [eapply reads_op_nonnil; eauto|eapply tails_nonnil; eauto| |exact G].
      eapply reads_op_yields; [eassumption|]. intros z Z. eapply (has_value _ _ _ _ (ME p s)); eauto.
    - intros vs e rest n l k X RS IS D HY WF IN VI y T p s. inversion T; subst.
      match goal with T' : tails ?z ((false, e) :: rest) |- _ => destruct (IS D) with (y := z) as [l1 [i [l2 [-> G]]]]; auto end.
      { inversion HY; subst. constructor; auto. } { inversion WF; subst. constructor; auto. }
      { intros i J. apply X in J. destruct J as [->|Q]; auto. apply (axis_in_document h order SE PO A_descendant i n); auto. }
      eapply (path_fails D _ vs nm any_depth y0 l1 i l2); [discriminate|eapply tails_nonnil; eauto| |exact G]. apply (yields_depth h order); auto.
  Qed.
End Errors.

(* ---- C82: an expression that raises an error by the rules of SpecErr.v gives that error, whatever surrounds it ---- *)
Theorem C82_errors_partial : forall h order n e k stale, ordinary h -> preorder h 0 order -> in_document h 0 n ->
  wf e -> hygienic stale e ->
  (forall p s, raises h order (mkFocus (XINode n) p s) no_vars e k) ->
  xpath_gives h n (source e) (Err k).
Proof.
  intros h order n e k D O PO I W HY M. destruct (ordinary_session h O) as [SE AP].
  apply text_gives; auto; [discriminate|]. intros x R.
  destruct (proj1 (raises_fails h order SE PO AP) _ _ _ _ (M 0 0) D HY W (item_node h n I) (no_vars_in h) x R new_eval_env) as [N E].
  - split; reflexivity.
  - intros m _. reflexivity.
  - exists (Err k). split; [|reflexivity]. split; [discriminate|]. exists N. apply E. lia.
Qed.
Print Assumptions C82_errors_partial.
(* so the rules give an expression one error at most, and never an error and a value *)
Theorem C82_determined : forall h order n e k stale, ordinary h -> preorder h 0 order -> in_document h 0 n ->
  wf e -> hygienic stale e ->
  (forall p s, raises h order (mkFocus (XINode n) p s) no_vars e k) ->
  (forall k', (forall p s, raises h order (mkFocus (XINode n) p s) no_vars e k') -> k' = k) /\
  ~ exists v, forall p s, means h order (mkFocus (XINode n) p s) no_vars e v.
Proof.
  intros h order n e k D O PO I W HY M. destruct (C82_errors_partial h order n e k D O PO I W HY M) as [_ [a A]]. split.
  - intros k' M'. destruct (C82_errors_partial h order n e k' D O PO I W HY M') as [_ [b B]].
    apply (eval_xpath_fuel h a (a + b)) in A; [|discriminate|lia]. apply (eval_xpath_fuel h b (a + b)) in B; [|discriminate|lia]. congruence.
  - intros [v MV]. destruct (C63_meaning_partial h order n e v D O PO I W HY MV) as [_ [b B]].
    apply (eval_xpath_fuel h a (a + b)) in A; [|discriminate|lia]. apply (eval_xpath_fuel h b (a + b)) in B; [|discriminate|lia]. congruence.
Qed.

(* ---- examples ---- *)
(* for $x in 1 , 2 return 1 idiv ( $x - 2 ) : the second turn fails.  //b[1 idiv 0] : a predicate deep in a path fails. *)
Definition err_e1 : expr := EBind Q_for (lit "x") (EBin O_comma (sem_int "1") (sem_int "2")) (EBin O_idiv (sem_int "1") (EBin O_sub (EVar (lit "x")) (sem_int "2"))).
Definition err_e2 : expr := EPath S_all (EStep F_child (N_name (lit "b")) [EBin O_idiv (sem_int "1") (sem_int "0")]) [].
Lemma err_minus : forall h order f (vs : vars) x, (0 <= x <= 2)%Z -> vs (lit "x") = Some (Bval [XIInteger x]) ->
  means h order f vs (EBin O_sub (EVar (lit "x")) (sem_int "2")) [XIInteger (x - 2)].
Proof.
  intros h order f vs x B E. eapply m_arith with (x := x) (y := 2%Z); [constructor; exact E|apply (sem_means_int _ _ _ _ "2"); vm_compute; reflexivity|reflexivity|unfold is_i64; lia..|].
  intros [Q _]. discriminate Q.
Qed.
Lemma err_raises1 : forall h order f, raises h order f no_vars err_e1 DynamicError.
Proof.
  intros h order f. apply r_bind. apply b_for with (l1 := [XIInteger 1]) (it := XIInteger 2) (l2 := []).
  - apply (m_comma h order f no_vars _ _ [XIInteger 1] [XIInteger 2]); [apply (sem_means_int _ _ _ _ "1")|apply (sem_means_int _ _ _ _ "2")]; vm_compute; reflexivity.
  - intros x [<-|[]]. exists [XIInteger (-1)]. apply bd_body; [auto|].
    eapply m_arith with (x := 1%Z) (y := (-1)%Z); [apply (sem_means_int _ _ _ _ "1"); vm_compute; reflexivity| |exists 0%Z; lia|unfold is_i64; lia..|].
    + apply (err_minus h order f _ 1); [lia|reflexivity].
    + intros [Q _]. discriminate Q.
  - apply b_body. apply x_zero with (x := XIInteger 1) (y := XIInteger 0); [cbn; tauto|apply (sem_means_int _ _ _ _ "1"); vm_compute; reflexivity| |exact I|left; reflexivity].
    apply (err_minus h order f _ 2); [lia|reflexivity].
Qed.
Lemma err_raises2 : forall p s, raises sem_heap sem_order (mkFocus (XINode 3) p s) no_vars err_e2 DynamicError.
Proof.
  assert (Z : forall f, raises sem_heap sem_order f no_vars (EBin O_idiv (sem_int "1") (sem_int "0")) DynamicError).
  { intro f. apply x_zero with (x := XIInteger 1) (y := XIInteger 0); [cbn; tauto|apply (sem_means_int _ _ _ _ "1"); vm_compute; reflexivity| |exact I|left; reflexivity].
    apply (sem_means_int _ _ _ _ "0"). vm_compute. reflexivity. }
  intros p s. apply r_path_all. apply (s_here _ _ _ _ [] 0 []); [intros m []|]. apply s_deep with (l := [0; 1; 2; 3; 5; 7; 8; 9]).
  - destruct (sem_step 0 A_descendant_or_self N_node [0; 1; 2; 3; 5; 7; 8; 9]) as [X K]; [left; auto|split; exact I|vm_compute; reflexivity|].
    eapply exactly_ext; [|exact X]. intro x. cbn [axis_has passes]. tauto.
  - apply (s_here _ _ _ _ [0] 1 [2; 3; 5; 7; 8; 9]).
    + intros m [<-|[]]. exists []. apply w_last with (g := fun _ => []).
      * intros n q r [<-|[]]. destruct (sem_step 0 A_child (N_name (lit "b")) []) as [X K]; [left; auto|split; [pname|exact I]|vm_compute; reflexivity|].
        eapply m_step; [congruence|exact X| |exact I]. eapply nr_cons with (vals := fun _ => [XIBoolean false]) (keep := fun _ => false); [|constructor|constructor].
        intros [|k] it E; discriminate E.
      * split; [|constructor]. intro x. split; [intros []|]. intros [n [_ []]].
    + apply s_step. intros q r. destruct (sem_step 1 A_child (N_name (lit "b")) [5]) as [X K]; [right; left; auto|split; [pname|exact I]|vm_compute; reflexivity|].
      apply (r_step sem_heap sem_order q r no_vars 1 F_child (N_name (lit "b")) [] (EBin O_idiv (sem_int "1") (sem_int "0")) [] [5] [] (XINode 5) []);
        [intro Q; exfalso; exact (K Q)|exact I|exact X|constructor|intros [|j] x E; discriminate E|apply Z].
Qed.
Example C82_example : ordinary sem_heap /\ preorder sem_heap 0 sem_order /\ in_document sem_heap 0 3 /\
  (wf err_e1 /\ hygienic [] err_e1 /\ source err_e1 = lit "for $ x in ( 1 , 2 ) return 1 idiv ( $ x - 2 ) ") /\
  (wf err_e2 /\ hygienic [] err_e2 /\ source err_e2 = lit "// b [ 1 idiv 0 ] ") /\
  xpath_gives sem_heap 3 (source err_e1) (Err DynamicError) /\ xpath_gives sem_heap 3 (source err_e2) (Err DynamicError).
Proof.
  assert (ID : in_document sem_heap 0 3) by (left; apply (proj1 (Forall_forall _ _) sem_attached); vm_compute; tauto).
  assert (W1 : wf err_e1 /\ hygienic [] err_e1).
  { split; cbn; repeat (split; try tauto; try pname; try lexi; try discriminate). }
  assert (W2 : wf err_e2 /\ hygienic [] err_e2).
  { split; cbn; repeat (split; try tauto; try pname; try lexi; try discriminate). }
  split; [exact sem_parsed|]. split; [exact sem_preorder|]. split; [exact ID|]. destruct W1 as [W1 H1], W2 as [W2 H2].
  split; [split; [exact W1|]; split; [exact H1|vm_compute; reflexivity]|]. split; [split; [exact W2|]; split; [exact H2|vm_compute; reflexivity]|]. split.
  - apply (C82_errors_partial sem_heap sem_order 3 err_e1 DynamicError []); auto using sem_parsed, sem_preorder. intros p s. apply err_raises1.
  - apply (C82_errors_partial sem_heap sem_order 3 err_e2 DynamicError []); auto using sem_parsed, sem_preorder. exact err_raises2.
Qed.

(* let $f := function ( $x ) { 1 idiv $x } return for-each ( ( 1 , 0 ) , $f ) : the second call fails.
   let $g := concat ( ? , 1 idiv 0 ) return for-each ( "a" , $g ) : the argument given in advance fails, when the function is called. *)
Definition err_f : expr := EFun [lit "x"] (EBin O_idiv (sem_int "1") (EVar (lit "x"))).
Definition err_g : expr := EPart (lit "concat") [None; Some (EBin O_idiv (sem_int "1") (sem_int "0"))].
Definition err_e3 : expr := ELet (lit "f") err_f (ECall (lit "for-each") [EBin O_comma (sem_int "1") (sem_int "0"); EVar (lit "f")]).
Definition err_e4 : expr := ELet (lit "g") err_g (ECall (lit "for-each") [ELit L_string (lit "a"); EVar (lit "g")]).
Example C82_function_example : (wf err_e3 /\ hygienic [] err_e3) /\ (wf err_e4 /\ hygienic [] err_e4) /\
  (forall h order f, raises h order f no_vars err_e3 DynamicError) /\ (forall h order f, raises h order f no_vars err_e4 DynamicError).
Proof.
  split; [|split; [|split]].
  - split; [|cbn; tauto]. cbn. intuition (try pname; try discriminate; try reflexivity). all: try lexi. constructor; [pname|constructor].
  - split; [|cbn; tauto]. cbn. intuition (try pname; try discriminate; try reflexivity). all: try lexi.
  - intros h order f. apply r_let. eapply b_let_fun; [apply fa_self; exact I|cbn; tauto|]. apply b_body.
    apply (r_for_each h order f _ _ _ err_f no_vars [XIInteger 1] (XIInteger 0) []).
    + apply (m_comma h order f _ _ _ [XIInteger 1] [XIInteger 0]); [apply (sem_means_int _ _ _ _ "1")|apply (sem_means_int _ _ _ _ "0")]; vm_compute; reflexivity.
    + apply fa_var. reflexivity.
    + intros v V. cbn in V. destruct V.
    + intros x [<-|[]]. exists [XIInteger 1]. apply ap_inline; [reflexivity|repeat constructor; intros []|]. intro f'.
      eapply m_arith with (x := 1%Z) (y := 1%Z); [apply (sem_means_int _ _ _ _ "1"); vm_compute; reflexivity|constructor; reflexivity|exists 0%Z; lia|unfold is_i64; lia..|].
      intros [Q _]. discriminate Q.
    + apply rf_body; [reflexivity|repeat constructor; intros []|]. intro f'.
      apply x_zero with (x := XIInteger 1) (y := XIInteger 0); [cbn; tauto|apply (sem_means_int _ _ _ _ "1"); vm_compute; reflexivity|constructor; reflexivity|exact I|left; reflexivity].
  - intros h order f. apply r_let. eapply b_let_fun; [apply fa_self; exact I|cbn; tauto|]. apply b_body.
    apply (r_for_each h order f _ _ _ err_g no_vars [] (XIString (lit "a")) []).
    + constructor.
    + apply fa_var. reflexivity.
    + intros v V. cbn in V. destruct V.
    + intros x [].
    + apply (rf_given h order _ _ [None] _ [] [[XIString (lit "a")]] [] [[XIString (lit "a")]]).
      * intro f'. apply fl_open, fl_nil.
      * intro f'. apply x_zero with (x := XIInteger 1) (y := XIInteger 0); [cbn; tauto|apply (sem_means_int _ _ _ _ "1"); vm_compute; reflexivity|apply (sem_means_int _ _ _ _ "0"); vm_compute; reflexivity|exact I|left; reflexivity].
Qed.

(* ---- C82: where the program raises no error although XPath wants one ---- *)
Theorem C82_lost_refuted :
  xpath_gives sem_heap 0 (lit "'a' idiv 2") (Ok [XIInteger 0]) /\
  xpath_gives sem_heap 0 (lit "1 = 'a'") (Ok [XIBoolean false]) /\
  xpath_gives sem_heap 0 (lit "1 union 2") (Ok []) /\
  xpath_gives sem_heap 0 (lit "$x") (Ok []) /\
  xpath_gives sem_heap 0 (lit "1 ! a") (Ok []) /\
  xpath_gives sem_heap 0 (lit "(1, 2)[(3, 4)]") (Ok []) /\
  xpath_gives sem_heap 0 (lit "1e30 cast as xs:integer") (Ok [XIInteger (2 ^ 63 - 1)]).
Proof. repeat (split; [split; [discriminate|]; exists 30; vm_compute; reflexivity|]). split; [discriminate|]. exists 30. vm_compute. reflexivity. Qed.
(* and where it raises another one *)
Theorem C82_kind_refuted :
  xpath_gives sem_heap 0 (lit "1 div 'a'") (Err CantOccur) /\
  xpath_gives sem_heap 0 (lit "1 treat as xs:string") (Err CantOccur).
Proof. split; (split; [discriminate|]; exists 30; vm_compute; reflexivity). Qed.
(* a cast of a number too large for 64 bits to xs:integer is no error either: the nearest integer of 64 bits *)
Lemma truncates_clamp : forall x r, truncates x r -> f64_to_i64 x = Z.max (- 2 ^ 63) (Z.min (2 ^ 63 - 1) r).
Proof.
  intros x r T. unfold truncates in T.
  assert (C : forall z, z = r -> clamp_i64 z = Z.max (- 2 ^ 63) (Z.min (2 ^ 63 - 1) r)) by (intros z ->; unfold clamp_i64, i64_min, i64_max; lia).
  destruct x as [s|s| |s m e].
  - cbn [f64_to_i64]. destruct s; cbn [negative] in T; unfold ceiling_of, floor_of in T; cbn [SFopp half_between] in T; lia.
  - destruct s; unfold ceiling_of, floor_of in T; cbn in T; contradiction.
  - unfold floor_of in T; cbn in T; contradiction.
  - cbn [f64_to_i64]. apply C. destruct s; cbn [negative SFopp] in T; unfold ceiling_of, floor_of in T; cbn [SFopp negb half_between] in T; cbn [signed].
    + destruct (0 <=? e)%Z eqn:E; [lia|]. assert (Q := Z.pow_pos_nonneg 2 (- e) ltac:(lia) ltac:(lia)).
      assert (- r = Z.pos m / 2 ^ (- e))%Z; [|lia]. apply (Z.div_unique _ _ _ (Z.pos m - 2 ^ (- e) * (- r))%Z); nia.
    + destruct (0 <=? e)%Z eqn:E; [lia|]. assert (Q := Z.pow_pos_nonneg 2 (- e) ltac:(lia) ltac:(lia)).
      symmetry. apply (Z.div_unique _ _ _ (Z.pos m - 2 ^ (- e) * r)%Z); nia.
Qed.
Theorem C82_saturates_refuted : forall h order n a it x r stale, ordinary h -> preorder h 0 order -> in_document h 0 n ->
  wf a -> hygienic stale a -> it = XIDouble x \/ it = XIDecimal x ->
  (forall p s, means h order (mkFocus (XINode n) p s) no_vars a [it]) ->
  truncates x r -> xpath_gives h n (source (ECast false a (lit "integer"))) (Ok [XIInteger (Z.max (- 2 ^ 63) (Z.min (2 ^ 63 - 1) r))]).
Proof.
  intros h order n a it x r D O PO I W HY IT M T. destruct (ordinary_session h O) as [SE AP].
  apply text_gives; [split; [exact W|pname]|discriminate|]. intros y R.
  assert (Y : yields h D (mkFocus (XINode n) 0 0) no_vars y [XIInteger (Z.max (- 2 ^ 63) (Z.min (2 ^ 63 - 1) r))]).
  { eapply reads_yields; [exact R|]. clear y R. intros y R B. inversion R; subst; [destruct B as [B|B]; [destruct B; reflexivity|discriminate B]|].
    eapply yields_via; [eapply (has_value h order SE PO AP _ _ _ _ (M 0 0) D); eauto; [apply item_node; auto|apply no_vars_in]|].
    intros m e e1 E. unfold eval_step. cbn [x_type x_left x_right x_name leaf]. rewrite E. cbn [bind]. unfold cast_as.
    rewrite <- (truncates_clamp x r T). destruct IT as [-> | ->]; reflexivity. }
  destruct (Y new_eval_env) as [e' [E _]]; [split; reflexivity|intros m _; reflexivity|].
  exists (Ok ([XIInteger (Z.max (- 2 ^ 63) (Z.min (2 ^ 63 - 1) r))], e')). split; [|reflexivity]. apply evals_outcome. exact E.
Qed.

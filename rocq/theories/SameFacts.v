(* Lemmas for abbreviations: trees that evaluate alike. *)
Require Import Bool List NArith ZArith Ascii String Lia.
From Verif Require Import Str StrFacts Sax Dom Axes Lexer FuncTable Parser SpecExpr PrecFacts PropParse Num Item Func Types Eval
  EvalFacts SpecSame.
Import ListNotations.
Open Scope nat_scope.

(* one evaluates as the other when it has k more units of fuel *)
Definition ek (k : nat) (x y : xnode) : Prop :=
  is_nil x = false /\ is_nil y = false /\
  (forall h n c e, le_res (eval h n c x e) (eval h (k + n) c y e)) /\
  (forall h n c e, le_res (eval h n c y e) (eval h (k + n) c x e)).
Lemma ek_up : forall k j x y, ek k x y -> k <= j -> ek j x y.
Proof.
  intros k j x y (A & B & C & D) L. repeat split; auto; intros; (eapply le_trans; [first [apply C|apply D]|apply eval_mono; lia]).
Qed.
Lemma ek_trans : forall k j x y z, ek k x y -> ek j y z -> ek (k + j) x z.
Proof.
  intros k j x y z (A & B & C & D) (E & F & G & H). repeat split; auto; intros.
  - eapply le_trans; [apply C|]. eapply le_trans; [apply G|]. apply eval_mono. lia.
  - eapply le_trans; [apply H|]. eapply le_trans; [apply D|]. apply eval_mono. lia.
Qed.
Lemma ek_refl : forall x, is_nil x = false -> ek 0 x x.
Proof. intros x N. repeat split; auto; intros; apply le_refl. Qed.
Lemma ek_sym : forall k x y, ek k x y -> ek k y x.
Proof. intros k x y (A & B & C & D). repeat split; auto. Qed.

(* chains of arguments, predicates and entries *)
Inductive chn (R : xnode -> xnode -> Prop) (ty : xtype) : xnode -> xnode -> Prop :=
| chn_nil : chn R ty XNil XNil
| chn_cons : forall nm nm' l l' r r', R l l' -> chn R ty r r' -> chn R ty (XNode ty nm l r) (XNode ty nm' l' r').
Inductive mchn (R : xnode -> xnode -> Prop) : xnode -> xnode -> Prop :=
| mchn_nil : mchn R XNil XNil
| mchn_cons : forall nm nm' n n' x x' y y' r r', R x x' -> R y y' -> mchn R r r' ->
    mchn R (XNode X_MapConstruct nm (XNode X_MapEntry n x y) r) (XNode X_MapConstruct nm' (XNode X_MapEntry n' x' y') r').

Definition is_binary (ty : xtype) : bool :=
  match ty with
  | X_OperatorConcatenate | X_OperatorOr | X_OperatorAnd
  | X_OperatorGeneralEQ | X_OperatorGeneralNE | X_OperatorGeneralLT | X_OperatorGeneralLE | X_OperatorGeneralGT | X_OperatorGeneralGE
  | X_OperatorValueEQ | X_OperatorValueNE | X_OperatorValueLT | X_OperatorValueLE | X_OperatorValueGT | X_OperatorValueGE
  | X_OperatorAdd | X_OperatorSubtract | X_OperatorMultiply | X_OperatorDiv | X_OperatorIDiv | X_OperatorMod
  | X_OperatorConcat | X_OperatorUnion | X_OperatorIntersect | X_OperatorExcept | X_OperatorTo
  | X_OperatorIsSameNode | X_OperatorNodeBefore | X_OperatorNodeAfter | X_OperatorMap | X_OperatorPath => true
  | _ => false
  end.
Definition is_typed (ty : xtype) : bool :=
  match ty with X_OperatorInstanceOf | X_OperatorTreatAs | X_OperatorCastableAs | X_OperatorCastAs => true | _ => false end.
Definition is_axis (ty : xtype) : bool :=
  match ty with
  | X_AxisAncestor | X_AxisAncestorOrSelf | X_AxisAttribute | X_AxisChild | X_AxisDescendant
  | X_AxisDescendantOrSelf | X_AxisFollowing | X_AxisFollowingSibling | X_AxisParent | X_AxisPreceding
  | X_AxisPrecedingSibling | X_AxisRoot | X_AxisSelf => true
  | _ => false
  end.
Definition is_vbind (ty : xtype) : bool :=
  match ty with X_ForVarBind | X_LetVarBind | X_SomeVarBind | X_EveryVarBind => true | _ => false end.
Definition is_constant (ty : xtype) : bool :=
  match ty with
  | X_StringLiteral | X_IntegerLiteral | X_DecimalLiteral | X_DoubleLiteral | X_VarRef | X_NamedFunctionRef => true
  | _ => false
  end.

(* the same node over operands in R *)
Inductive cong (R : xnode -> xnode -> Prop) : xnode -> xnode -> Prop :=
| cg_const : forall ty nm, is_constant ty = true -> cong R (leaf ty nm) (leaf ty nm)
| cg_dot : forall nm nm', cong R (leaf X_ContextItem nm) (leaf X_ContextItem nm')
| cg_empty : forall nm nm', cong R (XNode X_ParenthesizedExpr nm XNil XNil) (XNode X_ParenthesizedExpr nm' XNil XNil)
| cg_all : forall nm nm', cong R (leaf X_UnaryLookupByWildcard nm) (leaf X_UnaryLookupByWildcard nm')
| cg_bin : forall ty nm nm' x x' y y', is_binary ty = true -> R x x' -> R y y' -> cong R (XNode ty nm x y) (XNode ty nm' x' y')
| cg_path1 : forall nm nm' x x', R x x' -> cong R (XNode X_OperatorPath nm x XNil) (XNode X_OperatorPath nm' x' XNil)
| cg_sign : forall (m : bool) nm nm' y y', R y y' ->
    cong R (XNode (if m then X_OperatorUnaryMinus else X_OperatorUnaryPlus) nm XNil y)
           (XNode (if m then X_OperatorUnaryMinus else X_OperatorUnaryPlus) nm' XNil y')
| cg_typed : forall ty nm nm' x x' y, is_typed ty = true -> R x x' -> cong R (XNode ty nm x y) (XNode ty nm' x' y)
| cg_if : forall n1 n2 n1' n2' x y z x' y' z', R x x' -> R y y' -> R z z' ->
    cong R (XNode X_IfExpr n1 x (XNode X_IfThenElse n2 y z)) (XNode X_IfExpr n1' x' (XNode X_IfThenElse n2' y' z'))
| cg_bind : forall ty v x y x' y', is_vbind ty = true -> R x x' -> R y y' -> cong R (XNode ty v x y) (XNode ty v x' y')
| cg_step : forall ty nm nm' l l' p p' (rev : bool), is_axis ty = true ->
    (forall h i, match_node_test h i (XNode ty nm l p) = match_node_test h i (XNode ty nm' l' p')) ->
    chn R (if rev then X_PredicateRevTop else X_PredicateTop) p p' -> cong R (XNode ty nm l p) (XNode ty nm' l' p')
| cg_root : forall nm nm', cong R (leaf X_AxisRoot nm) (leaf X_AxisRoot nm')
| cg_filter : forall n1 n2 n1' n2' x y x' y', R x x' -> R y y' ->
    cong R (XNode X_ApplyPredicate n1 x (XNode X_PredicateTop n2 y XNil))
           (XNode X_ApplyPredicate n1' x' (XNode X_PredicateTop n2' y' XNil))
| cg_dyn : forall n1 n2 n1' n2' x y x' y', R x x' -> chn R X_ArgumentTop y y' ->
    cong R (XNode X_ApplyArgument n1 x (XNode X_ArgumentListTop n2 y XNil))
           (XNode X_ApplyArgument n1' x' (XNode X_ArgumentListTop n2' y' XNil))
| cg_square : forall nm nm' x x', chn R X_ArrayEntry x x' -> cong R (XNode X_SquareArray nm x XNil) (XNode X_SquareArray nm' x' XNil)
| cg_curly : forall nm nm' x x', R x x' -> cong R (XNode X_CurlyArray nm x XNil) (XNode X_CurlyArray nm' x' XNil)
| cg_map : forall nm nm' x x', mchn R x x' -> cong R (XNode X_Map nm x XNil) (XNode X_Map nm' x' XNil)
| cg_key : forall nm nm' x x', R x x' -> cong R (XNode X_UnaryLookupByExpr nm x XNil) (XNode X_UnaryLookupByExpr nm' x' XNil)
| cg_call : forall nm x x', chn R X_ArgumentTop x x' -> cong R (XNode X_FunctionCall nm XNil x) (XNode X_FunctionCall nm XNil x').

Lemma chn_sym : forall (R Q : xnode -> xnode -> Prop) ty x y, (forall a b, R a b -> Q b a) -> chn R ty x y -> chn Q ty y x.
Proof. intros R Q ty x y S H. induction H; constructor; auto. Qed.
Lemma mchn_sym : forall (R Q : xnode -> xnode -> Prop) x y, (forall a b, R a b -> Q b a) -> mchn R x y -> mchn Q y x.
Proof. intros R Q x y S H. induction H; constructor; auto. Qed.
Lemma cong_sym : forall (R Q : xnode -> xnode -> Prop) x y, (forall a b, R a b -> Q b a) -> cong R x y -> cong Q y x.
Proof. intros R Q x y S H. destruct H; try (econstructor; eauto using chn_sym, mchn_sym; fail). Qed.
Lemma chn_imp : forall (R Q : xnode -> xnode -> Prop) ty x y, (forall a b, R a b -> Q a b) -> chn R ty x y -> chn Q ty x y.
Proof. intros R Q ty x y S H. induction H; constructor; auto. Qed.
Lemma mchn_imp : forall (R Q : xnode -> xnode -> Prop) x y, (forall a b, R a b -> Q a b) -> mchn R x y -> mchn Q x y.
Proof. intros R Q x y S H. induction H; constructor; auto. Qed.
Lemma cong_nil : forall R x y, cong R x y -> is_nil x = false /\ is_nil y = false.
Proof. intros R x y H. destruct H; split; reflexivity. Qed.

Section Cong.
  Variable h : heap.
  Variables ev ev' : xseq -> xnode -> env -> res (xseq * env).
  Variables cf cf' : xnode -> list xseq -> xseq -> env -> res (xseq * env).
  Variable R : xnode -> xnode -> Prop.
  Hypothesis Hnil : forall x y, R x y -> is_nil x = false /\ is_nil y = false.
  Hypothesis HR : forall x y, R x y -> forall c e, le_res (ev c x e) (ev' c y e).
  Hypothesis Hev : forall c x e, le_res (ev c x e) (ev' c x e).
  Hypothesis Hcf : forall f a c e, le_res (cf f a c e) (cf' f a c e).

  Lemma filter_loop_c : forall x y rv n l i e, R x y -> le_res (filter_loop ev x rv n i l e) (filter_loop ev' y rv n i l e).
  Proof.
    induction l; intros i e H; cbn [filter_loop]; [apply le_refl|]. apply le_bind; [apply HR; auto|]. intros [v e1].
    apply le_bind; [apply IHl; auto|]. intros [? ?]. apply le_refl.
  Qed.
  Lemma filter_c : forall s x y rv e, R x y -> le_res (filter_by_predicate ev s x rv e) (filter_by_predicate ev' s y rv e).
  Proof. intros. unfold filter_by_predicate. destruct (Hnil _ _ H) as [-> ->]. apply filter_loop_c. auto. Qed.
  Lemma preds_c : forall (rev : bool) x y, chn R (if rev then X_PredicateRevTop else X_PredicateTop) x y -> forall s e,
    le_res (filter_by_predicates ev x s e) (filter_by_predicates ev' y s e).
  Proof.
    intros rev x y H. induction H; intros; [apply le_refl|]. cbn [filter_by_predicates].
    destruct rev; (apply le_bind; [apply filter_c; auto|intros [s1 e1]; apply IHchn]).
  Qed.
  Lemma chn_is_nil : forall ty x y, chn R ty x y -> is_nil x = is_nil y.
  Proof. intros ty x y H. destruct H; reflexivity. Qed.
  Lemma loc_c : forall (rev : bool) x y l, (forall i, axis_nodes h i x = axis_nodes h i y) ->
    chn R (if rev then X_PredicateRevTop else X_PredicateTop) (x_right x) (x_right y) ->
    forall e, le_res (loc_path_loop h ev x l e) (loc_path_loop h ev' y l e).
  Proof.
    intros rev x y l A C. induction l as [|i l IH]; intros; cbn [loc_path_loop]; [apply le_refl|].
    apply le_bind; [|intros [s e1]; apply le_bind; [apply IH|intros [? ?]; apply le_refl]].
    unfold match_loc_step. rewrite A. apply le_bind; [apply le_refl|]. intro ns. rewrite (chn_is_nil _ _ _ C).
    destruct (is_nil (x_right y)); [apply le_refl|eapply preds_c; eauto].
  Qed.
  Lemma path_loop_c : forall x y, R x y -> forall l a b acc e, le_res (path_loop ev x l a b acc e) (path_loop ev' y l a b acc e).
  Proof.
    intros x y H. induction l as [|it l IH]; intros; cbn [path_loop]; [apply le_refl|].
    apply le_bind; [apply HR; auto|]. intros [v e1]. destruct v; [apply IH|]. destruct (_ && _); [apply le_refl|apply IH].
  Qed.
  Lemma map_loop_c : forall x y, R x y -> forall l e, le_res (map_loop ev x l e) (map_loop ev' y l e).
  Proof.
    intros x y H. induction l; intros; cbn [map_loop]; [apply le_refl|]. apply le_bind; [apply HR; auto|]. intros [v e1].
    apply le_bind; [apply IHl|]. intros [? ?]. apply le_refl.
  Qed.
  Lemma for_loop_c : forall x y, R x y -> forall c v l e, le_res (for_loop ev c v x l e) (for_loop ev' c v y l e).
  Proof.
    intros x y H. induction l; intros; cbn [for_loop]; [apply le_refl|]. apply le_bind; [apply HR; auto|]. intros [? e1].
    apply le_bind; [apply IHl|]. intros [? ?]. apply le_refl.
  Qed.
  Lemma quant_loop_c : forall x y, R x y -> forall st c v l e, le_res (quant_loop ev st c v x l e) (quant_loop ev' st c v y l e).
  Proof.
    intros x y H. induction l; intros; cbn [quant_loop]; [apply le_refl|]. apply le_bind; [apply HR; auto|]. intros [? e1].
    apply le_bind; [apply le_refl|]. intro b. destruct (Bool.eqb b st); [apply le_refl|apply IHl].
  Qed.
  Lemma args_c : forall x y, chn R X_ArgumentTop x y -> forall c e, le_res (eval_args ev c x e) (eval_args ev' c y e).
  Proof.
    intros x y H. induction H; intros; cbn [eval_args]; [apply le_refl|]. cbn [xtype_eqb].
    destruct (xtype_eqb X_ArgumentTop X_ArgumentTop); [|apply le_refl]. apply le_bind; [apply HR; auto|]. intros [? e1].
    apply le_bind; [apply IHchn|]. intros [? ?]. apply le_refl.
  Qed.
  Lemma dyn_args_c : forall ty x y, chn R ty x y -> forall c e, le_res (eval_dyn_args ev c x e) (eval_dyn_args ev' c y e).
  Proof.
    intros ty x y H. induction H; intros; cbn [eval_dyn_args]; [apply le_refl|]. apply le_bind; [apply HR; auto|]. intros [? e1].
    apply le_bind; [apply IHchn|]. intros [? ?]. apply le_refl.
  Qed.
  Lemma array_c : forall x y, chn R X_ArrayEntry x y -> forall c e, le_res (array_entries ev c x e) (array_entries ev' c y e).
  Proof.
    intros x y H. induction H; intros; cbn [array_entries]; [apply le_refl|].
    destruct (negb (xtype_eqb X_ArrayEntry X_ArrayEntry)); [apply le_refl|]. apply le_bind; [apply HR; auto|]. intros [? e1].
    apply le_bind; [apply IHchn|]. intros [? ?]. apply le_refl.
  Qed.
  Lemma map_c : forall x y, mchn R x y -> forall c e, le_res (map_entries ev c x e) (map_entries ev' c y e).
  Proof.
    intros x y H. induction H; intros; cbn [map_entries]; [apply le_refl|]. cbn [x_type x_left x_right].
    destruct (negb (xtype_eqb X_MapConstruct X_MapConstruct)); [apply le_refl|].
    destruct (negb (xtype_eqb X_MapEntry X_MapEntry)); [apply le_refl|].
    apply le_bind; [apply HR; auto|]. intros [? e1]. apply le_bind; [apply le_refl|]. intro key.
    apply le_bind; [apply HR; auto|]. intros [? e2]. apply le_bind; [apply IHmchn|]. intros [? ?]. apply le_refl.
  Qed.
  Lemma binary_c : forall c ty nm nm' x x' y y' e f, R x x' -> R y y' ->
    le_res (binary ev c (XNode ty nm x y) e f) (binary ev' c (XNode ty nm' x' y') e f).
  Proof.
    intros. unfold binary. cbn [x_left x_right]. apply le_bind; [apply HR; auto|intros [? ?]].
    apply le_bind; [apply HR; auto|intros [? ?]]. apply le_refl.
  Qed.
  Lemma logical_c : forall st c ty nm nm' x x' y y' e, R x x' -> R y y' ->
    le_res (logical ev st c (XNode ty nm x y) e) (logical ev' st c (XNode ty nm' x' y') e).
  Proof.
    intros. unfold logical. cbn [x_left x_right]. apply le_bind; [apply HR; auto|intros [? ?]]. apply le_bind; [apply le_refl|].
    intro b. destruct (Bool.eqb b st); [apply le_refl|]. apply le_bind; [apply HR; auto|intros [? ?]]. apply le_refl.
  Qed.
  Lemma cong_le : forall x y, cong R x y -> forall c e, le_res (eval_step h ev cf c x e) (eval_step h ev' cf' c y e).
  Proof.
    intros x y H c e. destruct H.
    - destruct ty; try discriminate; apply le_refl.
    - apply le_refl.
    - apply le_refl.
    - apply le_refl.
    - assert (X := H0). assert (Y := H1). apply Hnil in X. apply Hnil in Y. destruct X as [X X'], Y as [Y Y'].
      destruct ty; try discriminate; unfold eval_step; cbn [x_type x_left x_right x_name]; try (apply binary_c; assumption);
        try (apply logical_c; assumption); unfold eval_left; cbn [x_left]; rewrite X, X', Y, Y'.
      + apply le_bind; [apply HR; auto|intros [l e1]]. destruct (negb _); [apply le_refl|].
        apply le_bind; [apply path_loop_c; auto|intros [[a b] e2]; apply le_refl].
      + apply le_bind; [apply HR; auto|intros [l e1]]. apply map_loop_c; auto.
    - destruct (Hnil _ _ H) as [X X']. unfold eval_step, eval_left. cbn [x_type x_left x_right is_nil]. rewrite X, X'.
      apply le_bind; [apply HR; auto|intros [l e1]; apply le_refl].
    - destruct m; unfold eval_step, unary; cbn [x_type x_left x_right];
        (apply le_bind; [apply HR; auto|intros [l e1]; apply le_refl]).
    - destruct ty; try discriminate; unfold eval_step; cbn [x_type x_left x_right];
        solve [apply le_refl | apply le_bind; [apply HR; auto|intros [l e1]; apply le_refl]].
    - unfold eval_step. cbn [x_type x_left x_right]. apply le_bind; [apply HR; auto|intros [l e1]].
      destruct (negb _); [apply le_refl|]. apply le_bind; [apply le_refl|]. intros []; apply HR; auto.
    - destruct ty; try discriminate; unfold eval_step; cbn [x_type x_left x_right x_name];
        (apply le_bind; [apply HR; auto|intros [l e1]]).
      all: first [apply for_loop_c; auto | apply quant_loop_c; auto | idtac].
      apply le_bind; [apply HR; auto|intros [? ?]]. apply le_refl.
    - assert (A : forall i, axis_nodes h i (XNode ty nm l p) = axis_nodes h i (XNode ty nm' l' p')).
      { intro i. unfold axis_nodes. cbn [x_type].
        assert (E : forall z, along h (XNode ty nm l p) z = along h (XNode ty nm' l' p') z).
        { intro z. unfold along. apply filter_ext. intro a. apply H0. }
        destruct ty; try reflexivity; try (now rewrite E);
          match goal with |- bind ?r _ = _ => destruct r; cbn [bind]; try reflexivity; now rewrite E end. }
      assert (G : le_res (match_location_path h ev c (XNode ty nm l p) e) (match_location_path h ev' c (XNode ty nm' l' p') e)).
      { unfold match_location_path. apply le_bind; [eapply loc_c; eauto|intros [? ?]; apply le_refl]. }
      destruct ty; try discriminate; exact G.
    - unfold eval_step. cbn [leaf x_type]. unfold match_location_path. apply le_bind; [|intros [? ?]; apply le_refl].
      apply (loc_c false); [intro i; reflexivity|constructor].
    - unfold eval_step. cbn [x_type x_left x_right]. apply le_bind; [apply HR; auto|intros [l e1]]. apply filter_c; auto.
    - unfold eval_step, apply_argument. cbn [x_type x_left x_right]. apply le_bind; [apply HR; auto|intros [l e1]].
      apply le_bind; [eapply dyn_args_c; eauto|intros [args e2]].
      destruct l as [|[] [|? ?]]; try apply le_refl. destruct (xtype_eqb _ _); [|apply le_refl].
      unfold call_inline_func. apply le_bind; [apply le_refl|]. intro. apply le_bind; [apply Hev|]. intros [? ?]. apply le_refl.
    - unfold eval_step, convert_xnode_to_map_array. cbn [x_type x_left x_right].
      apply le_bind; [|intros [? ?]; apply le_refl]. apply le_bind; [apply array_c; auto|intros [? ?]; apply le_refl].
    - unfold eval_step, convert_xnode_to_map_array. cbn [x_type x_left x_right].
      apply le_bind; [|intros [? ?]; apply le_refl]. apply le_bind; [apply HR; auto|intros [? ?]; apply le_refl].
    - unfold eval_step, convert_xnode_to_map_array. cbn [x_type x_left x_right].
      apply le_bind; [|intros [? ?]; apply le_refl]. apply le_bind; [apply map_c; auto|intros [? ?]; apply le_refl].
    - unfold eval_step. cbn [x_type x_left x_right]. apply le_bind; [apply HR; auto|intros [l e1]; apply le_refl].
    - unfold eval_step. cbn [x_type x_left x_right x_name]. apply le_bind; [apply args_c; auto|intros [l e1]].
      apply evaluate_function_mono. auto.
  Qed.
End Cong.

Lemma call_mono : forall h n m f a c e, n <= m -> le_res (call_function h n f a c e) (call_function h m f a c e).
Proof.
  intros h n m f a c e H. induction H as [|m H IH]; [apply le_refl|].
  eapply le_trans; [exact IH|]. apply (eval_mono_step h m).
Qed.
Lemma cong_ek : forall k x y, cong (ek k) x y -> ek k x y.
Proof.
  assert (G : forall k x y, cong (ek k) x y -> forall h n c e, le_res (eval h n c x e) (eval h (k + n) c y e)).
  { intros k x y C h n c e. destruct n as [|n]; [left; reflexivity|]. rewrite Nat.add_succ_r, !eval_S.
    eapply cong_le; eauto.
    - intros a b (A & B & _). auto.
    - intros a b (A & B & P & Q) c0 e0. apply P.
    - intros. apply eval_mono. lia.
    - intros. apply call_mono. lia. }
  intros k x y C. destruct (cong_nil _ _ _ C) as [A B]. split; [auto|]. split; [auto|]. split; [apply G; auto|].
  apply G. eapply cong_sym; [|exact C]. apply ek_sym.
Qed.

(* ---- parentheses and the other nodes that only pass a value on ---- *)
Lemma pass_ek : forall y x, is_nil x = false -> is_nil y = false ->
  (forall h ev cf c e, eval_step h ev cf c y e = ev c x e) -> ek 1 y x.
Proof.
  intros y x X Y E. repeat split; auto; intros.
  - destruct n; [left; reflexivity|]. rewrite eval_S, E. apply eval_mono. lia.
  - cbn [Nat.add]. rewrite eval_S, E. apply le_refl.
Qed.
Lemma paren_ek : forall nm x, is_nil x = false -> ek 1 (XNode X_ParenthesizedExpr nm x XNil) x.
Proof. intros. apply pass_ek; auto. intros. unfold eval_step. cbn [x_type x_left]. rewrite H. reflexivity. Qed.
Lemma single_ek : forall nm x, is_nil x = false -> ek 1 (XNode X_OperatorPath nm x XNil) x.
Proof.
  intros. apply pass_ek; auto. intros. unfold eval_step, eval_left. cbn [x_type x_left x_right is_nil]. rewrite H.
  destruct (ev c x e) as [[? ?]| | |]; reflexivity.
Qed.
Lemma head_ek : forall q nm x, is_nil x = false -> ek 1 (XNode (multi_node q) nm XNil x) x.
Proof. intros. apply pass_ek; auto. intros. destruct q as [[]|]; reflexivity. Qed.

(* ---- a function applied to the context ---- *)
Definition dot_tree : xnode := leaf X_ContextItem (lit ".").
Lemma context_ek : forall f, has_name f on_context = true ->
  ek 1 (XNode X_FunctionCall (lit "fn:" ++ f)%list XNil XNil)
       (XNode X_FunctionCall (lit "fn:" ++ f)%list XNil (XNode X_ArgumentTop [] dot_tree XNil)).
Proof.
  intros f H.
  assert (G : forall h cf c e, evaluate_function h cf (lit "fn:" ++ f)%list [] c e = evaluate_function h cf (lit "fn:" ++ f)%list [c] c e).
  { unfold has_name, on_context in H. cbn [existsb] in H.
    repeat (apply orb_true_iff in H; destruct H as [H|H]; [apply str_eqb_eq in H; subst f; reflexivity|]). discriminate. }
  repeat split; auto; intros.
  - destruct n as [|n]; [left; reflexivity|]. cbn [Nat.add]. rewrite !eval_S. unfold eval_step.
    cbn [x_type x_right x_name eval_args bind]. rewrite (eval_S h n). unfold eval_step at 1. cbn [dot_tree leaf x_type bind].
    cbn [bind xtype_eqb]. rewrite G. apply evaluate_function_mono. intros. apply call_mono. lia.
  - destruct n as [|[|n]]; [left; reflexivity|left; reflexivity|]. cbn [Nat.add]. rewrite !eval_S. unfold eval_step.
    cbn [x_type x_right x_name eval_args bind]. rewrite (eval_S h n). unfold eval_step at 1. cbn [dot_tree leaf x_type bind].
    rewrite G. apply evaluate_function_mono. intros. apply call_mono. lia.
Qed.
Lemma lang_ek : forall x, is_nil x = false ->
  ek 1 (XNode X_FunctionCall (lit "fn:lang") XNil (XNode X_ArgumentTop [] x XNil))
       (XNode X_FunctionCall (lit "fn:lang") XNil (XNode X_ArgumentTop [] x (XNode X_ArgumentTop [] dot_tree XNil))).
Proof.
  intros x X.
  assert (G : forall h cf a c e, evaluate_function h cf (lit "fn:lang") [a] c e = evaluate_function h cf (lit "fn:lang") [a; c] c e)
    by (intros; reflexivity).
  assert (D : forall h n c e, eval h (S n) c dot_tree e = Ok (c, e)) by (intros; reflexivity).
  repeat split; auto; intros.
  - destruct n as [|n]; [left; reflexivity|]. rewrite Nat.add_succ_r, !eval_S. unfold eval_step. cbn [Nat.add].
    cbn [x_type x_right x_name eval_args]. change (xtype_eqb X_ArgumentTop X_ArgumentTop) with true. cbn iota.
    destruct (eval_mono h n (S n) c x e ltac:(lia)) as [E|E]; rewrite E; [left; reflexivity|].
    destruct (eval h (S n) c x e) as [[v e1]| | |]; cbn [bind]; apply le_refl.
  - destruct n as [|n]; [left; reflexivity|]. rewrite Nat.add_succ_r, !eval_S. unfold eval_step. cbn [Nat.add].
    cbn [x_type x_right x_name eval_args]. change (xtype_eqb X_ArgumentTop X_ArgumentTop) with true. cbn iota.
    destruct (eval_mono h n (S n) c x e ltac:(lia)) as [E|E]; rewrite E; [left; reflexivity|].
    destruct (eval h (S n) c x e) as [[v e1]| | |]; cbn [bind]; try apply le_refl.
    destruct n as [|n]; [left; reflexivity|]. apply le_refl.
Qed.

(* ---- the tree of an expression without abbreviations and without superfluous parentheses ---- *)
Fixpoint args_tree (l : list xnode) : xnode :=
  match l with [] => XNil | x :: r => XNode X_ArgumentTop [] x (args_tree r) end.
Fixpoint items_tree (l : list xnode) : xnode :=
  match l with [] => XNil | x :: r => XNode X_ArrayEntry [] x (items_tree r) end.
Fixpoint preds_tree (rev : bool) (l : list xnode) : xnode :=
  match l with [] => XNil | x :: r => XNode (if rev then X_PredicateRevTop else X_PredicateTop) [] x (preds_tree rev r) end.
Fixpoint entries_tree (l : list (xnode * xnode)) : xnode :=
  match l with
  | [] => XNil
  | (x, y) :: r => XNode X_MapConstruct [] (XNode X_MapEntry [] x y) (entries_tree r)
  end.
Definition step_tree (a : axis) (t : nodetest) (ps : list xnode) : xnode :=
  XNode (anode a) (test_name t) (test_tree t) (preds_tree (reverse_axis a) ps).
Definition dos_tree : xnode := step_tree A_descendant_or_self N_node [].
Fixpoint steps_tree (l : list (bool * xnode)) : xnode :=
  match l with
  | [] => XNil
  | (d, x) :: r =>
      if d : bool then XNode X_OperatorPath [] dos_tree (XNode X_OperatorPath [] x (steps_tree r))
      else XNode X_OperatorPath [] x (steps_tree r)
  end.
Definition ctx_args (f : str) (l : list xnode) : list xnode :=
  match l with
  | [] => if has_name f on_context then [dot_tree] else []
  | [a] => if str_eqb f (lit "lang") then [a; dot_tree] else [a]
  | _ => l
  end.
Definition fn_tree (f : str) (l : list xnode) : xnode := XNode X_FunctionCall (lit "fn:" ++ f)%list XNil (args_tree (ctx_args f l)).
Definition root_tree : xnode := leaf X_AxisRoot [].
Definition key_tree (k : lookup) : xnode :=
  match k with
  | K_name n => XNode X_UnaryLookupByExpr [] (leaf X_StringLiteral n) XNil
  | K_number d => XNode X_UnaryLookupByExpr [] (leaf X_IntegerLiteral d) XNil
  | K_all => leaf X_UnaryLookupByWildcard []
  end.
Definition bind_tree (q : option quant) (v : str) (x y : xnode) : xnode :=
  XNode (multi_node q) [] XNil (XNode (multi_bind q) v x y).
Definition dyn_tree (x : xnode) (l : list xnode) : xnode :=
  XNode X_ApplyArgument [] x (XNode X_ArgumentListTop [] (args_tree l) XNil).
Fixpoint ct (e : expr) : xnode :=
  match e with
  | ELit k s => leaf (lnode k) s
  | EVar n => leaf X_VarRef n
  | EDot => dot_tree
  | EEmpty => XNode X_ParenthesizedExpr [] XNil XNil
  | ECall f args => fn_tree f (map ct args)
  | EBin o a b => XNode (bnode o) [] (ct a) (ct b)
  | ESign m a => XNode (if m then X_OperatorUnaryMinus else X_OperatorUnaryPlus) [] XNil (ct a)
  | EType o a n => XNode (tnode o) [] (ct a) (typetree o n)
  | ECast c a n => XNode (if c then X_OperatorCastableAs else X_OperatorCastAs) [] (ct a)
             (XNode X_SingleType [] (leaf X_TypeName (lit "xs:" ++ n)) XNil)
  | EIf c a b => XNode X_IfExpr [] (ct c) (XNode X_IfThenElse [] (ct a) (ct b))
  | EBind q v e b => bind_tree (Some q) v (ct e) (ct b)
  | ELet v e b => bind_tree None v (ct e) (ct b)
  | EStep f t ps => step_tree (form_axis f) t (map ct ps)
  | EParent => step_tree A_parent N_node []
  | EFilter a p => XNode X_ApplyPredicate [] (ct a) (XNode X_PredicateTop [] (ct p) XNil)
  | EDyn a args => dyn_tree (ct a) (map ct args)
  | ERoot => XNode X_OperatorPath [] root_tree XNil
  | EPath s a rest =>
      let y := XNode X_OperatorPath [] (ct a) (steps_tree (map (fun x => (fst x, ct (snd x))) rest)) in
      match s with
      | S_here => y
      | S_root => XNode X_OperatorPath [] root_tree y
      | S_all => XNode X_OperatorPath [] root_tree (XNode X_OperatorPath [] dos_tree y)
      end
  | ESquare es => XNode X_SquareArray [] (items_tree (map ct es)) XNil
  | ECurly e => XNode X_CurlyArray [] (ct e) XNil
  | EMap es => XNode X_Map [] (entries_tree (map (fun x => (ct (fst x), ct (snd x))) es)) XNil
  | EKey k => key_tree k
  | EKeyOf k => XNode X_UnaryLookupByExpr [] (ct k) XNil
  | ELook a k => XNode X_OperatorMap [] (ct a) (key_tree k)
  | ELookOf a k => XNode X_OperatorMap [] (ct a) (XNode X_UnaryLookupByExpr [] (ct k) XNil)
  | ERef f d => leaf X_NamedFunctionRef (lit "fn:" ++ f ++ lit "#" ++ d)
  | EArrow v a f args => if v then dyn_tree (leaf X_VarRef f) (ct a :: map ct args) else fn_tree f (ct a :: map ct args)
  | EPCall p f args =>
      if str_eqb p (lit "fn") then fn_tree f (map ct args) else XNode X_FunctionCall (p ++ lit ":" ++ f) XNil (args_tree (map ct args))
  | EInst treat a t => XNode (if treat then X_OperatorTreatAs else X_OperatorInstanceOf) [] (ct a) (seq_tree t)
  | EMulti q bs b => fold_right (fun x r => bind_tree q (fst x) (ct (snd x)) r) (ct b) bs
  | _ => XNil
  end.
Lemma ct_nil : forall e, no_closures e = true -> is_nil (ct e) = false.
Proof.
  fix IH 1. intros [] H; try discriminate; cbn [ct]; try reflexivity.
  - destruct s; reflexivity.
  - destruct k; reflexivity.
  - destruct var; reflexivity.
  - destruct (str_eqb p (lit "fn")); reflexivity.
  - destruct bs as [|[v a] r]; [|reflexivity]. cbn [fold_right]. apply IH. exact H.
Qed.

Definition same (x y : xnode) : Prop := exists k, ek k x y.
Lemma same_trans : forall x y z, same x y -> same y z -> same x z.
Proof. intros x y z [k A] [j B]. exists (k + j). eapply ek_trans; eauto. Qed.
Lemma same_sym : forall x y, same x y -> same y x.
Proof. intros x y [k A]. exists k. apply ek_sym. auto. Qed.
Lemma same_refl : forall x, is_nil x = false -> same x x.
Proof. intros. exists 0. apply ek_refl. auto. Qed.
Lemma same_nil : forall x y, same x y -> is_nil x = false /\ is_nil y = false.
Proof. intros x y [k (A & B & _)]. auto. Qed.
Lemma same_two : forall x y x' y', same x y -> same x' y' -> exists k, ek k x y /\ ek k x' y'.
Proof. intros x y x' y' [k A] [j B]. exists (k + j). split; eapply ek_up; eauto; lia. Qed.
Lemma same_cong : forall k x y, cong (ek k) x y -> same x y.
Proof. intros k x y C. exists k. apply cong_ek. auto. Qed.
Lemma same_paren : forall nm x, is_nil x = false -> same (XNode X_ParenthesizedExpr nm x XNil) x.
Proof. intros. exists 1. apply paren_ek. auto. Qed.
Lemma same_single : forall nm x, is_nil x = false -> same (XNode X_OperatorPath nm x XNil) x.
Proof. intros. exists 1. apply single_ek. auto. Qed.
Lemma same_head : forall q nm x, is_nil x = false -> same (XNode (multi_node q) nm XNil x) x.
Proof. intros. exists 1. apply head_ek. auto. Qed.

Lemma two_bin : forall ty nm nm' x x' y y', is_binary ty = true -> same x x' -> same y y' ->
  same (XNode ty nm x y) (XNode ty nm' x' y').
Proof.
  intros ty nm nm' x x' y y' B H H'. destruct (same_two _ _ _ _ H H') as (k & A & C). apply (same_cong k). apply cg_bin; auto.
Qed.
Lemma same_path1 : forall nm nm' x x', same x x' -> same (XNode X_OperatorPath nm x XNil) (XNode X_OperatorPath nm' x' XNil).
Proof. intros nm nm' x x' [k A]. apply (same_cong k). apply cg_path1. auto. Qed.
Lemma same_root : forall nm nm', same (leaf X_AxisRoot nm) (leaf X_AxisRoot nm').
Proof. intros. apply (same_cong 0). apply cg_root. Qed.
(* a step, then the others *)
Lemma same_op : forall nm nm' x x' y y', same x x' -> y = XNil /\ y' = XNil \/ same y y' ->
  same (XNode X_OperatorPath nm x y) (XNode X_OperatorPath nm' x' y').
Proof. intros nm nm' x x' y y' H [[-> ->]|H']; [apply same_path1; auto|apply two_bin; auto]. Qed.
Lemma node_test : forall h i ty nm p ty' p', nm = lit "node()" ->
  match_node_test h i (XNode ty nm XNil p) = match_node_test h i (XNode ty' [] (test_tree N_node) p').
Proof. intros. subst nm. reflexivity. Qed.
Lemma same_dos : same any_depth dos_tree.
Proof.
  apply (same_cong 0). unfold any_depth, dos_tree, step_tree, leaf. cbn [anode test_name preds_tree].
  apply (cg_step _ _ _ _ _ _ _ _ false); [reflexivity| |constructor]. intros. apply node_test. reflexivity.
Qed.
Lemma same_parent : same (leaf X_AxisParent (lit "node()")) (step_tree A_parent N_node []).
Proof.
  apply (same_cong 0). unfold step_tree, leaf. cbn [anode test_name preds_tree].
  apply (cg_step _ _ _ _ _ _ _ _ true); [reflexivity| |constructor]. intros. apply node_test. reflexivity.
Qed.

(* chains *)
Definition csame (ty : xtype) (x y : xnode) : Prop := exists k, chn (ek k) ty x y.
Lemma csame_nil : forall ty, csame ty XNil XNil.
Proof. intros. exists 0. constructor. Qed.
Lemma csame_cons : forall ty nm nm' l l' r r', same l l' -> csame ty r r' -> csame ty (XNode ty nm l r) (XNode ty nm' l' r').
Proof.
  intros ty nm nm' l l' r r' [k A] [j B]. exists (k + j). constructor; [eapply ek_up; eauto; lia|].
  eapply chn_imp; [|exact B]. intros a b E. eapply ek_up; eauto; lia.
Qed.
Lemma csame_with : forall ty x y a b, same a b -> csame ty x y -> exists k, ek k a b /\ chn (ek k) ty x y.
Proof.
  intros ty x y a b [k A] [j B]. exists (k + j). split; [eapply ek_up; eauto; lia|].
  eapply chn_imp; [|exact B]. intros c d E. eapply ek_up; eauto; lia.
Qed.
Definition msame (x y : xnode) : Prop := exists k, mchn (ek k) x y.
Lemma msame_cons : forall nm nm' n n' x x' y y' r r', same x x' -> same y y' -> msame r r' ->
  msame (XNode X_MapConstruct nm (XNode X_MapEntry n x y) r) (XNode X_MapConstruct nm' (XNode X_MapEntry n' x' y') r').
Proof.
  intros nm nm' n n' x x' y y' r r' H H' [j B]. destruct (same_two _ _ _ _ H H') as (k & A & C). exists (k + j).
  constructor; [eapply ek_up; eauto; lia|eapply ek_up; eauto; lia|].
  eapply mchn_imp; [|exact B]. intros a b E. eapply ek_up; eauto; lia.
Qed.
Lemma same_dyn : forall nm nm' x y x' l, same x x' -> csame X_ArgumentTop y (args_tree l) ->
  same (XNode X_ApplyArgument nm x (XNode X_ArgumentListTop nm' y XNil)) (dyn_tree x' l).
Proof.
  intros nm nm' x y x' l H C. destruct (csame_with _ _ _ _ _ H C) as (k & A & D). apply (same_cong k). apply cg_dyn; auto.
Qed.
Lemma same_call : forall nm y y', csame X_ArgumentTop y y' ->
  same (XNode X_FunctionCall nm XNil y) (XNode X_FunctionCall nm XNil y').
Proof. intros nm y y' [k C]. apply (same_cong k). apply cg_call. auto. Qed.
Lemma same_fn : forall f y l, csame X_ArgumentTop y (args_tree l) ->
  same (XNode X_FunctionCall (lit "fn:" ++ f)%list XNil y) (fn_tree f l).
Proof.
  intros f y l C. eapply same_trans; [apply same_call; exact C|]. unfold fn_tree.
  destruct l as [|a [|b l]]; cbn [ctx_args].
  - destruct (has_name f on_context) eqn:N; [|apply same_refl; reflexivity]. exists 1. apply context_ek. auto.
  - destruct (str_eqb f (lit "lang")) eqn:N; [|apply same_refl; reflexivity]. apply str_eqb_eq in N. subst f.
    exists 1. apply lang_ek. destruct C as [k C]. cbn [args_tree] in C. inversion C; subst.
    match goal with H : ek _ _ a |- _ => destruct H as (_ & Y & _); exact Y end.
  - apply same_refl. reflexivity.
Qed.
Lemma same_step : forall a t nm x l, csame (if reverse_axis a then X_PredicateRevTop else X_PredicateTop) x (preds_tree (reverse_axis a) l) ->
  nm = test_name t -> same (XNode (anode a) nm (test_tree t) x) (step_tree a t l).
Proof.
  intros a t nm x l [k C] ->. apply (same_cong k). unfold step_tree. apply (cg_step _ _ _ _ _ _ _ _ (reverse_axis a)); auto.
  destruct a; reflexivity.
Qed.
Lemma same_bind : forall q nm v x x' y y', same x x' -> same y y' ->
  same (XNode (multi_node q) nm XNil (XNode (multi_bind q) v x y)) (bind_tree q v x' y').
Proof.
  intros q nm v x x' y y' H H'. eapply same_trans; [apply same_head; reflexivity|]. unfold bind_tree. apply same_sym.
  eapply same_trans; [apply same_head; reflexivity|]. apply same_sym. destruct (same_two _ _ _ _ H H') as (k & A & C).
  apply (same_cong k). apply cg_bind; auto. destruct q as [[]|]; reflexivity.
Qed.
Ltac one H := destruct H as [? H]; eapply same_cong.

Lemma reads_same : forall x e, reads x e -> no_closures e = true -> same x (ct e).
Proof.
  apply (reads_mind
    (fun x e _ => no_closures e = true -> same x (ct e))
    (fun x e _ => no_closures e = true -> same x (ct e))
    (fun x a rest _ => no_closures a = true -> forallb (fun x => no_closures (snd x)) rest = true ->
       same x (XNode X_OperatorPath [] (ct a) (steps_tree (map (fun x => (fst x, ct (snd x))) rest))))
    (fun x rest _ => forallb (fun x => no_closures (snd x)) rest = true ->
       (x = XNil /\ steps_tree (map (fun x => (fst x, ct (snd x))) rest) = XNil) \/
       same x (steps_tree (map (fun x => (fst x, ct (snd x))) rest)))
    (fun rev x ps _ => forallb no_closures ps = true ->
       csame (if rev then X_PredicateRevTop else X_PredicateTop) x (preds_tree rev (map ct ps)))
    (fun x l _ => forallb no_closures l = true -> csame X_ArgumentTop x (args_tree (map ct l)))
    (fun _ _ _ => True)
    (fun x l _ => forallb no_closures l = true -> csame X_ArrayEntry x (items_tree (map ct l)))
    (fun x l _ => forallb (fun x => no_closures (fst x) && no_closures (snd x)) l = true ->
       msame x (entries_tree (map (fun x => (ct (fst x), ct (snd x))) l)))
    (fun q x bs b _ => forallb (fun x => no_closures (snd x)) bs = true -> no_closures b = true ->
       same x (fold_right (fun x r => bind_tree q (fst x) (ct (snd x)) r) (ct b) bs)));
  intros; cbn [ct no_closures forallb fst snd map] in *;
  repeat match goal with H : _ && _ = true |- _ => apply andb_true_iff in H; destruct H end;
  repeat match goal with H : ?b = true -> _, G : ?b = true |- _ => specialize (H G) end; auto; try discriminate.
  - (* paren *) eapply same_trans; [apply same_paren|]; eauto. apply same_nil in H. apply H.
  - apply (same_cong 0). apply cg_const. destruct k; reflexivity.
  - apply (same_cong 0). apply cg_const. reflexivity.
  - apply (same_cong 0). apply cg_dot.
  - apply (same_cong 0). apply cg_empty.
  - apply same_fn. auto.
  - apply two_bin; auto. destruct o; reflexivity.
  - one H. apply cg_sign. eauto.
  - one H. apply cg_typed; eauto. destruct o; reflexivity.
  - one H. apply cg_typed; eauto. destruct c; reflexivity.
  - destruct (same_two _ _ _ _ H H0) as (k & A & C). destruct H1 as [j D]. apply (same_cong (k + j)).
    apply cg_if; (eapply ek_up; [eassumption|lia]).
  - apply (same_bind (Some q)); auto.
  - apply (same_bind None); auto.
  - apply same_step; auto.
  - apply same_parent.
  - destruct (same_two _ _ _ _ H H0) as (k & A & C). apply (same_cong k). apply cg_filter; auto.
  - apply same_dyn; auto.
  - apply same_path1. apply same_root.
  - (* path from here *) apply same_op; auto.
  - apply two_bin; auto. apply same_root.
  - apply two_bin; auto; [apply same_root|]. apply two_bin; auto. apply same_dos.
  - one H. apply cg_square. eauto.
  - one H. apply cg_curly. eauto.
  - one H. apply cg_map. eauto.
  - apply (same_cong 0). apply cg_key. apply ek_refl. reflexivity.
  - apply (same_cong 0). apply cg_key. apply ek_refl. reflexivity.
  - apply (same_cong 0). apply cg_all.
  - one H. apply cg_key. eauto.
  - apply two_bin; auto.
  - apply two_bin; auto.
  - apply (same_cong 0). apply cg_const. reflexivity.
  - apply same_fn. apply H. cbn [forallb]. apply andb_true_iff. auto.
  - apply same_dyn; [apply same_refl; reflexivity|]. apply H. cbn [forallb]. apply andb_true_iff. auto.
  - destruct (str_eqb p (lit "fn")) eqn:N; [apply str_eqb_eq in N; subst p; apply same_fn; auto|apply same_call; auto].
  - one H. apply cg_typed; eauto. destruct treat; reflexivity.
  - eapply same_trans; [apply same_head|]; eauto. apply same_nil in H. apply H.
  - eapply same_trans; [apply same_paren|]; eauto. apply same_nil in H. apply H.
  - apply same_sym. eapply same_trans; [apply same_single|apply same_sym; auto]. apply same_nil in H. apply H.
  - apply same_op; auto.
  - right. apply same_op; auto.
  - right. cbn [steps_tree]. apply two_bin; [reflexivity|apply same_dos|]. apply same_op; auto.
  - apply csame_nil.
  - apply csame_cons; auto.
  - apply csame_nil.
  - apply csame_cons; auto.
  - apply csame_nil.
  - apply csame_cons; auto.
  - exists 0. constructor.
  - cbn [entries_tree]. apply msame_cons; auto.
  - cbn [fold_right fst snd]. eapply same_trans; [|apply same_bind; eassumption].
    apply same_sym. apply (same_head q []). reflexivity.
Qed.

(* ---- the abbreviated and the full form have one tree ---- *)
Lemma ctx_args_twice : forall f l, ctx_args f (ctx_args f l) = ctx_args f l.
Proof.
  intros f [|a [|b l]]; cbn [ctx_args]; [|destruct (str_eqb f (lit "lang")) eqn:E; cbn [ctx_args]; [reflexivity|now rewrite E]|reflexivity].
  destruct (has_name f on_context) eqn:E; cbn [ctx_args]; [|now rewrite E].
  destruct (str_eqb f (lit "lang")) eqn:E'; [|reflexivity]. apply str_eqb_eq in E'. subst f. discriminate.
Qed.
Lemma ct_context : forall f l, map ct (with_context f l) = ctx_args f (map ct l).
Proof.
  intros f [|a [|b l]]; cbn [with_context ctx_args map]; [|destruct (str_eqb f (lit "lang")); reflexivity|reflexivity].
  destruct (has_name f on_context); reflexivity.
Qed.
Lemma fn_tree_context : forall f l, fn_tree f (map ct (with_context f l)) = fn_tree f (map ct l).
Proof. intros. unfold fn_tree. rewrite ct_context, ctx_args_twice. reflexivity. Qed.
Lemma steps_full : forall rest, Forall (fun x => ct (full (snd x)) = ct (snd x)) rest ->
  steps_tree (map (fun x => (fst x, ct (snd x)))
    (flat_map (fun x => (if fst x : bool then [(false, dos)] else []) ++ [(false, full (snd x))])%list rest)) =
  steps_tree (map (fun x => (fst x, ct (snd x))) rest).
Proof.
  intros rest H. induction H as [|[[|] a] rest E F IH]; cbn [flat_map fst snd app map steps_tree] in *; [reflexivity| |].
  - rewrite E, IH. reflexivity.
  - rewrite E, IH. reflexivity.
Qed.
Lemma map_full : forall l, Forall (fun e => ct (full e) = ct e) l -> map ct (map full l) = map ct l.
Proof. intros l H. induction H; cbn [map]; congruence. Qed.
Lemma ct_full : forall e, no_closures e = true -> ct (full e) = ct e.
Proof.
  intros e _. induction e using expr_ind2; cbn [full ct]; try reflexivity; try congruence;
    repeat match goal with H : Forall _ _ |- _ => first [rewrite (map_full _ H) | fail] end; try congruence; try reflexivity.
  - rewrite fn_tree_context, map_full; auto.
  - destruct o; cbn [bnode]; congruence.
  - assert (X := steps_full _ H). destruct s; cbn [ct map fst snd steps_tree]; rewrite X, IHe; reflexivity.
  - f_equal. rewrite map_map. cbn [fst snd]. f_equal. apply map_ext_in. intros [x y] I. rewrite Forall_forall in H.
    specialize (H _ I). cbn [fst snd] in *. destruct H. congruence.
  - rewrite IHe. reflexivity.
  - rewrite IHe1, IHe2. reflexivity.
  - destruct v; cbn [ct map].
    + rewrite (map_full args), IHe by auto. reflexivity.
    + rewrite fn_tree_context. cbn [map]. rewrite (map_full args), IHe by auto. reflexivity.
  - destruct (str_eqb p (lit "fn")) eqn:N; cbn [ct].
    + rewrite fn_tree_context, map_full; auto.
    + rewrite N, map_full; auto.
  - rewrite <- IHe. clear IHe. induction H as [|[v a] bs E F IH]; cbn [fold_right fst snd] in *; [reflexivity|].
    rewrite <- IH, <- E. destruct q; reflexivity.
Qed.
Lemma no_context : forall f l, forallb no_closures l = true -> forallb no_closures (with_context f l) = true.
Proof.
  intros f [|a [|b l]] H; cbn [with_context]; auto; [destruct (has_name f on_context); auto|].
  destruct (str_eqb f (lit "lang")); auto.
Qed.
Lemma no_map : forall l, Forall (fun e => no_closures e = true -> no_closures (full e) = true) l ->
  forallb no_closures l = true -> forallb no_closures (map full l) = true.
Proof.
  intros l H. induction H; intros G; cbn [forallb map] in *; auto. apply andb_true_iff in G. destruct G.
  rewrite H, IHForall; auto.
Qed.
Lemma no_steps : forall rest, Forall (fun x => no_closures (snd x) = true -> no_closures (full (snd x)) = true) rest ->
  forallb (fun x => no_closures (snd x)) rest = true ->
  forallb (fun x => no_closures (snd x)) (flat_map (fun x : bool * expr => (if fst x : bool then [(false, dos)] else []) ++ [(false, full (snd x))])%list rest) = true.
Proof.
  intros rest H. induction H as [|[[|] a] rest E F IH]; intro G; cbn [flat_map fst snd app forallb] in *; auto;
    apply andb_true_iff in G; destruct G as [G1 G2]; rewrite E, IH by auto; reflexivity.
Qed.
Lemma no_full : forall e, no_closures e = true -> no_closures (full e) = true.
Proof.
  intros e. induction e using expr_ind2; intro G; cbn [full no_closures] in *; auto;
    repeat match goal with H : _ && _ = true |- _ => apply andb_true_iff in H; destruct H end;
    try (apply andb_true_iff; split); auto using no_map, no_context.
  - apply andb_true_iff. auto.
  - destruct s; cbn [no_closures forallb snd]; rewrite ?IHe, ?no_steps; auto.
  - clear -H G. induction H as [|[x y] es E F IH]; cbn [forallb map fst snd] in *; auto.
    apply andb_true_iff in G. destruct G as [G1 G2]. apply andb_true_iff in G1. destruct E, G1. rewrite H, H0, IH; auto.
  - destruct v; cbn [no_closures]; [apply andb_true_iff; split; [reflexivity|]|apply no_context];
      cbn [forallb]; apply andb_true_iff; auto using no_map.
  - destruct (str_eqb p (lit "fn")); cbn [no_closures]; auto using no_map, no_context.
  - clear -H H0 H1 IHe. induction H as [|[v a] bs E F IH]; cbn [fold_right fst snd forallb] in *; auto.
    apply andb_true_iff in H0. destruct H0. destruct q; cbn [bind_one no_closures]; apply andb_true_iff; auto.
Qed.

(* two trees of one expression *)
Lemma reads_full_same : forall x y e, reads x e -> reads y (full e) -> no_closures e = true -> same x y.
Proof.
  intros x y e X Y N. eapply same_trans; [apply reads_same; eauto|]. apply same_sym. rewrite <- ct_full by auto.
  apply reads_same; auto using no_full.
Qed.
Lemma reads_both_same : forall x y e, reads x e -> reads y e -> no_closures e = true -> same x y.
Proof. intros x y e X Y N. eapply same_trans; [apply reads_same; eauto|]. apply same_sym. apply reads_same; auto. Qed.

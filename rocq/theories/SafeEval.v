(* The outcomes of evaluation: see SafeFacts. *)
Require Import Bool List NArith ZArith Ascii String Lia.
From Verif Require Import Str StrFacts Chars Sax Dom SpecTree SpecEdit HeapFacts BuildFacts DocFacts EditFacts OrderFacts SessionFacts
  Axes SpecAxes AxesFacts Lexer FuncTable Parser Num Item Func Types Eval EvalFacts SpecOper ItemFacts SpecTypes TypeFacts SafeFacts.
Import ListNotations.
Open Scope nat_scope.

(* ---- syntactic conditions on a compiled expression ---- *)
Definition higher_order : list str := [lit "fn:for-each"; lit "fn:filter"].
Definition risky : list str :=
  [lit "fn:abs"; lit "fn:substring"; lit "fn:subsequence"; lit "fn:insert-before"; lit "fn:sum"; lit "fn:avg"; lit "fn:for-each"; lit "fn:filter"].
Definition among (nm : str) (l : list str) : bool := existsb (fun x => str_eqb x nm) l.
Definition calls (ty : xtype) (nm : str) : bool :=
  match ty with X_ApplyArgument => true | X_FunctionCall => among nm higher_order | _ => false end.
Fixpoint static (x : xnode) : bool :=
  match x with XNil => true | XNode ty nm l r => negb (calls ty nm) && static l && static r end.
Definition forbidden (ty : xtype) (nm : str) : bool :=
  match ty with
  | X_Nil | X_ApplyArgument | X_OperatorAdd | X_OperatorSubtract | X_OperatorUnaryMinus | X_OperatorMultiply | X_OperatorIDiv | X_OperatorMod
  | X_UnaryLookupByWildcard => true
  | X_FunctionCall => among nm risky
  | _ => false
  end.
Definition left_needed (ty : xtype) : bool :=
  match ty with
  | X_OperatorConcatenate | X_OperatorOr | X_OperatorAnd | X_OperatorGeneralEQ | X_OperatorGeneralNE | X_OperatorGeneralLT
  | X_OperatorGeneralLE | X_OperatorGeneralGT | X_OperatorGeneralGE | X_OperatorValueEQ | X_OperatorValueNE | X_OperatorValueLT
  | X_OperatorValueLE | X_OperatorValueGT | X_OperatorValueGE | X_OperatorDiv | X_OperatorConcat | X_OperatorUnion
  | X_OperatorIntersect | X_OperatorExcept | X_OperatorTo | X_OperatorIsSameNode | X_OperatorNodeBefore | X_OperatorNodeAfter
  | X_ForVarBind | X_LetVarBind | X_SomeVarBind | X_EveryVarBind | X_IfThenElse | X_MapEntry
  | X_ApplyPredicate | X_IfExpr | X_OperatorInstanceOf | X_OperatorCastAs | X_OperatorCastableAs | X_ArgumentTop | X_ArrayEntry
  | X_CurlyArray | X_UnaryLookupByExpr => true
  | _ => false
  end.
Definition right_needed (ty : xtype) : bool :=
  match ty with
  | X_OperatorConcatenate | X_OperatorOr | X_OperatorAnd | X_OperatorGeneralEQ | X_OperatorGeneralNE | X_OperatorGeneralLT
  | X_OperatorGeneralLE | X_OperatorGeneralGT | X_OperatorGeneralGE | X_OperatorValueEQ | X_OperatorValueNE | X_OperatorValueLT
  | X_OperatorValueLE | X_OperatorValueGT | X_OperatorValueGE | X_OperatorDiv | X_OperatorConcat | X_OperatorUnion
  | X_OperatorIntersect | X_OperatorExcept | X_OperatorTo | X_OperatorIsSameNode | X_OperatorNodeBefore | X_OperatorNodeAfter
  | X_ForVarBind | X_LetVarBind | X_SomeVarBind | X_EveryVarBind | X_IfThenElse | X_MapEntry
  | X_OperatorUnaryPlus | X_ForExpr | X_LetExpr | X_SomeExpr | X_EveryExpr | X_TypedFunctionTest => true
  | _ => false
  end.
Definition safe_node (ty : xtype) (nm : str) (l r : xnode) : bool :=
  negb (forbidden ty nm) && (negb (left_needed ty) || negb (is_nil l)) && (negb (right_needed ty) || negb (is_nil r)).
Fixpoint safe (x : xnode) : bool :=
  match x with XNil => true | XNode ty nm l r => safe_node ty nm l r && safe l && safe r end.
Lemma safe_types : forall x, safe x = true -> types_ok x = true.
Proof.
  induction x as [|ty nm l IHl r IHr]; cbn [safe types_ok]; auto. intro H. apply andb_prop in H. destruct H as [H R]. apply andb_prop in H.
  destruct H as [H L]. rewrite IHl, IHr by auto. rewrite !andb_true_r. unfold typed_ok. destruct (xtype_eqb ty X_TypedFunctionTest) eqn:E; auto.
  apply xtype_eqb_eq in E. subst ty. unfold safe_node in H. apply andb_prop in H. destruct H as [_ H]. exact H.
Qed.

(* ---- the function table ---- *)
Lemma rows_needed : forallb (fun row : option nat * str * fid => let '(k, m, f) := row in
    match k with Some k => needed f <=? k | None => needed f =? 0 end && (safe_fid f || among m risky) &&
    match f with C_for_each | C_filter => among m higher_order | _ => true end) (func_context_tbl ++ func_tbl) = true.
Proof. vm_compute. reflexivity. Qed.
Lemma find_function_facts : forall nm n f, find_function nm n = Some f ->
  needed f <= n /\ (among nm risky = false -> safe_fid f = true) /\ (among nm higher_order = false -> f <> C_for_each /\ f <> C_filter).
Proof.
  intros nm n f E. unfold find_function in E. destruct (find _ _) as [[[k m] g]|] eqn:F; [|discriminate]. injection E as ->.
  apply find_some in F. destruct F as [I M]. assert (R := rows_needed). rewrite forallb_forall in R. specialize (R _ I). cbn beta iota in R.
  apply andb_prop in R. destruct R as [R R3]. apply andb_prop in R. destruct R as [R1 R2]. unfold row_matches in M.
  assert (EM : m = nm) by (destruct k; [apply andb_prop in M; destruct M as [_ M]|]; apply str_eqb_eq in M; auto). subst m.
  split; [|split].
  - destruct k as [k|]; [apply andb_prop in M; destruct M as [M _]; apply Nat.eqb_eq in M; apply Nat.leb_le in R1; lia|apply Nat.eqb_eq in R1; lia].
  - intro A. rewrite A, orb_false_r in R2. exact R2.
  - intro A. split; intros ->; cbv beta iota in R3; rewrite A in R3; discriminate R3.
Qed.

Section Main.
  Variable h : heap.
  Variable t : tree.
  Hypothesis DO : document h t.
  Hypothesis OK : order_ok h t.
  Variables pan fu : bool.
  Hypothesis LOOSE : fu = true -> pan = true.
  Notation inside := (inside t) (only parsing).
  (* what is known of every expression, function item and list of variables besides; see PropFrame.v for a use *)
  Variable FUNOK : xnode -> Prop.
  Variable KEEP : list (str * list xitem) -> Prop.
  Variable allowed : str -> Prop.
  Definition binder (ty : xtype) : bool :=
    match ty with X_ForVarBind | X_LetVarBind | X_SomeVarBind | X_EveryVarBind => true | _ => false end.
  Hypothesis FO_parts : forall ty nm l r, FUNOK (XNode ty nm l r) -> FUNOK l /\ FUNOK r.
  Hypothesis FO_binder : forall ty nm l r, FUNOK (XNode ty nm l r) -> binder ty = true -> allowed nm.
  Hypothesis FO_params : forall x, FUNOK x -> x_type x = X_InlineFunction -> Forall allowed (names (x_right (x_right x))).
  Hypothesis K_set : forall n v l, allowed n -> KEEP l -> KEEP ((n, v) :: l).
  Hypothesis K_remove : forall n l, allowed n -> KEEP l -> KEEP (remove_first n l).
  Notation item_in := (item_in t pan FUNOK).
  Notation seq_in := (Forall item_in) (only parsing).
  Hint Constructors SafeFacts.item_in : core.
  Definition env_in (e : env) : Prop := Forall (fun p => seq_in (snd p)) (e_vars e) /\ KEEP (e_vars e).
  Definition out (p : list xitem * env) : Prop := seq_in (fst p) /\ env_in (snd p).
  Definition tree_ok (x : xnode) : Prop := ((fu = true \/ static x = true) /\ (pan = true \/ safe x = true)) /\ FUNOK x.
  Lemma set_var_in : forall e n v, allowed n -> env_in e -> seq_in v -> env_in (set_var e n v).
  Proof. intros e n v A [E K] V. split; [constructor; auto|apply K_set; auto]. Qed.
  Lemma remove_var_in : forall e n, allowed n -> env_in e -> env_in (remove_var e n).
  Proof.
    intros e n A [E K]. split; [|apply K_remove; auto]. unfold remove_var in *. cbn [e_vars]. clear K.
    induction E as [|[m v] l V E IH]; cbn [remove_first]; auto. destruct (str_eqb m n); auto.
  Qed.
  Lemma pos_in : forall e p l, env_in e -> env_in (set_pos_last e p l).
  Proof. auto. Qed.
  Lemma get_var_in : forall e n v, env_in e -> get_var e n = Some v -> seq_in v.
  Proof.
    intros e n v [E _]. unfold get_var in *. induction E as [|[m w] l V E IH]; cbn [lookup_var]; [discriminate|].
    destruct (str_eqb m n); [|exact IH]. intro X. injection X as <-. exact V.
  Qed.
  Lemma fold_remove_in : forall l e, Forall allowed l -> env_in e -> env_in (fold_left remove_var l e).
  Proof. induction l as [|n l IH]; intros e A E; cbn; auto. inversion A; subst. apply IH, remove_var_in; auto. Qed.
  Hint Resolve set_var_in remove_var_in pos_in : core.

  Section Step.
    Variable ev : list xitem -> xnode -> env -> res (list xitem * env).
    Variable callf : xnode -> list (list xitem) -> list xitem -> env -> res (list xitem * env).
    Variable B : nat.
    Definition fits (y : xnode) : Prop := (fu = true \/ xsize y < B) /\ tree_ok y /\ (pan = true \/ y <> XNil).
    Hypothesis EV : forall c y e, fits y -> seq_in c -> env_in e -> good pan fu out (ev c y e).
    Hypothesis CALL : fu = true -> forall f args c e, FUNOK f -> Forall (Forall item_in) args -> seq_in c -> env_in e -> good pan fu out (callf f args c e).

    Ltac gev := eapply good_bind; [apply EV; auto|intros [?v ?e] [?V ?E]; cbn [fst snd] in *].
    Ltac done := cbn [good]; split; cbn [fst snd]; auto.

    Lemma filter_loop_good : forall x rv, fits x -> forall l n i e, seq_in l -> env_in e -> good pan fu out (filter_loop ev x rv n i l e).
    Proof.
      intros x rv F l. induction l as [|it l IH]; intros n i e L E; cbn [filter_loop]; [done|]. inversion L; subst. cbv zeta.
      gev. eapply good_bind; [apply IH; auto|]. intros [r e3] [R E3]. cbn [fst snd] in *. done. destruct (keeps _ _); auto.
    Qed.
    Lemma filter_pred_good : forall s x rv e, fits x -> seq_in s -> env_in e -> good pan fu out (filter_by_predicate ev s x rv e).
    Proof. intros. unfold filter_by_predicate. destruct (is_nil x); [exact Logic.I|]. apply filter_loop_good; auto. Qed.
    Lemma tree_parts : forall ty nm l r, tree_ok (XNode ty nm l r) -> tree_ok l /\ tree_ok r /\ (fu = true \/ calls ty nm = false) /\
      (pan = true \/ forbidden ty nm = false /\ (left_needed ty = true -> l <> XNil) /\ (right_needed ty = true -> r <> XNil)).
    Proof.
      intros ty nm l r [[S P] FO]. destruct (FO_parts _ _ _ _ FO) as [FL FR]. cbn [static safe] in *.
      assert (P1 : pan = true \/ safe_node ty nm l r = true /\ safe l = true /\ safe r = true).
      { destruct P as [P|P]; auto. right. apply andb_prop in P. destruct P as [P P3]. apply andb_prop in P. tauto. }
      assert (S1 : fu = true \/ calls ty nm = false /\ static l = true /\ static r = true).
      { destruct S as [S|S]; auto. right. apply andb_prop in S. destruct S as [S S3]. apply andb_prop in S. destruct S as [S S2].
        apply negb_true_iff in S. tauto. }
      unfold tree_ok. split; [|split; [|split]]; try tauto.
      destruct P1 as [P1|[P1 _]]; auto. right. unfold safe_node in P1. apply andb_prop in P1. destruct P1 as [P1 P3]. apply andb_prop in P1.
      destruct P1 as [P1 P2]. apply negb_true_iff in P1. split; auto.
      split; intro N; rewrite N in *; [destruct l|destruct r]; cbn in *; discriminate.
    Qed.
    Definition small (y : xnode) : Prop := (fu = true \/ xsize y <= B) /\ tree_ok y.
    Lemma small_left : forall ty nm l r, small (XNode ty nm l r) -> (pan = true \/ l <> XNil) -> fits l.
    Proof.
      intros ty nm l r [S T] N. destruct (tree_parts _ _ _ _ T) as [L _]. split; [|auto]. destruct S as [S|S]; [auto|right]. cbn [xsize] in S. lia.
    Qed.
    Lemma small_right : forall ty nm l r, small (XNode ty nm l r) -> (pan = true \/ r <> XNil) -> fits r.
    Proof.
      intros ty nm l r [S T] N. destruct (tree_parts _ _ _ _ T) as [_ [L _]]. split; [|auto]. destruct S as [S|S]; [auto|right]. cbn [xsize] in S. lia.
    Qed.
    Lemma small_subs : forall ty nm l r, small (XNode ty nm l r) -> small l /\ small r.
    Proof.
      intros ty nm l r [S T]. destruct (tree_parts _ _ _ _ T) as [L [R _]]. unfold small. destruct S as [S|S]; [tauto|]. cbn [xsize] in S.
      split; split; auto; right; lia.
    Qed.
    Lemma small_needed : forall ty nm l r, small (XNode ty nm l r) ->
      (left_needed ty = true -> fits l) /\ (right_needed ty = true -> fits r).
    Proof.
      intros ty nm l r S. destruct (tree_parts _ _ _ _ (proj2 S)) as [_ [_ [_ P]]].
      split; intro N; [eapply small_left|eapply small_right]; eauto; tauto.
    Qed.
    Lemma predicates_good : forall x s e, small x -> seq_in s -> env_in e -> good pan fu out (filter_by_predicates ev x s e).
    Proof.
      induction x as [|ty nm l IHl r IHr]; intros s e S Hs E; cbn [filter_by_predicates]; [done|].
      destruct (small_subs _ _ _ _ S) as [_ Sr].
      assert (FP : forall rv, good pan fu out (filter_by_predicate ev s l rv e)).
      { intro rv. destruct l as [|ty' nm' l' r']; [exact Logic.I|]. apply filter_pred_good; auto. eapply small_left; [exact S|right; discriminate]. }
      destruct ty; try exact Logic.I; (eapply good_bind; [apply FP|]; intros [s1 e1] [S1 E1]; cbn [fst snd] in *; apply IHr; auto).
    Qed.
    Lemma loc_step_good : forall i x e, inside i -> small x -> env_in e -> good pan fu out (match_loc_step h ev i x e).
    Proof.
      intros i x e I S E. unfold match_loc_step. eapply good_bind; [apply (axis_good h t DO); exact I|]. intros l L.
      assert (LI : seq_in (seq_of_nodes l)) by (apply seq_nodes_in; auto).
      destruct (is_nil (x_right x)); [done|]. apply predicates_good; auto. destruct x; [exact S|]. destruct (small_subs _ _ _ _ S). auto.
    Qed.
    Lemma location_good : forall c x e, seq_in c -> small x -> env_in e -> good pan fu out (match_location_path h ev c x e).
    Proof.
      intros c x e C S E. unfold match_location_path. apply (to_nodeset_in t pan FUNOK) in C.
      eapply good_bind with (P := fun p => Forall inside (fst p) /\ env_in (snd p)).
      - revert e E. induction C as [|i l I C IH]; intros e E; cbn [loc_path_loop]; [done|].
        eapply good_bind; [apply loc_step_good; auto|]. intros [s e1] [Hs E1]. cbn [fst snd] in *.
        eapply good_bind; [apply IH; auto|]. intros [r e2] [R E2]. cbn [fst snd good] in *. split; auto. apply Forall_app. split; auto.
        apply (to_nodeset_in t pan FUNOK); auto.
      - intros [l e1] [L E1]. cbn [fst snd] in *. done. apply seq_nodes_in; auto.
    Qed.
    Lemma path_loop_good : forall x, fits x -> forall l nd at_ acc e, seq_in l -> seq_in acc -> env_in e ->
      good pan fu (fun p => seq_in (snd (fst p)) /\ env_in (snd p)) (path_loop ev x l nd at_ acc e).
    Proof.
      intros x F l. induction l as [|it l IH]; intros nd at_ acc e L A E; cbn [path_loop]; [done|]. inversion L; subst.
      gev. destruct v; [apply IH; auto|]. cbv zeta. destruct (_ && _); [exact Logic.I|]. apply IH; auto. apply Forall_app; auto.
    Qed.
    Lemma map_loop_good : forall x, fits x -> forall l e, seq_in l -> env_in e -> good pan fu out (map_loop ev x l e).
    Proof.
      intros x F l. induction l as [|it l IH]; intros e L E; cbn [map_loop]; [done|]. inversion L; subst.
      gev. eapply good_bind; [apply IH; auto|]. intros [r e2] [R E2]. cbn [fst snd] in *. done. apply Forall_app; auto.
    Qed.
    Lemma for_loop_good : forall c v x, allowed v -> fits x -> seq_in c -> forall l e, seq_in l -> env_in e -> good pan fu out (for_loop ev c v x l e).
    Proof.
      intros c v x AV F C l. induction l as [|it l IH]; intros e L E; cbn [for_loop]; [done|]. inversion L; subst.
      gev. eapply good_bind; [apply IH; auto|]. intros [r e2] [R E2]. cbn [fst snd] in *. done. apply Forall_app; auto.
    Qed.
    Lemma quant_loop_good : forall st c v x, allowed v -> fits x -> seq_in c -> forall l e, seq_in l -> env_in e -> good pan fu out (quant_loop ev st c v x l e).
    Proof.
      intros st c v x AV F C l. induction l as [|it l IH]; intros e L E; cbn [quant_loop]; [done; unfold sing_bool; auto|]. inversion L; subst.
      gev. eapply good_bind; [apply ebv_good|]. intros b _. destruct (Bool.eqb b st); [done; unfold sing_bool; auto|]. apply IH; auto.
    Qed.
    Definition outs (p : list (list xitem) * env) : Prop := Forall (Forall item_in) (fst p) /\ env_in (snd p).
    Lemma eval_args_good : forall c x e, small x -> seq_in c -> env_in e -> good pan fu outs (eval_args ev c x e).
    Proof.
      intros c. induction x as [|ty nm l IHl r IHr]; intros e S C E; cbn [eval_args]; [done|].
      destruct (small_subs _ _ _ _ S) as [_ Sr]. destruct (small_needed _ _ _ _ S) as [NL _].
      destruct (xtype_eqb ty X_ArgumentTop) eqn:T; [|exact Logic.I]. apply xtype_eqb_eq in T. subst ty. specialize (NL eq_refl).
      gev. eapply good_bind; [apply IHr; auto|]. intros [vs e2] [VS E2]. cbn [fst snd] in *. done.
    Qed.
    Lemma map_entries_good : forall c x e, small x -> seq_in c -> env_in e ->
      good pan fu (fun p => Forall (fun e => item_in (fst e) /\ Forall item_in (snd e)) (fst p) /\ env_in (snd p)) (map_entries ev c x e).
    Proof.
      intros c. induction x as [|ty nm l IHl r IHr]; intros e S C E; cbn [map_entries]; [done|].
      destruct (small_subs _ _ _ _ S) as [Sl Sr]. destruct (negb _); [exact Logic.I|]. destruct (xtype_eqb (x_type l) X_MapEntry) eqn:T; [|exact Logic.I].
      apply xtype_eqb_eq in T. cbn [negb]. destruct l as [|ty' nm' l' r']; [discriminate T|]. cbn [x_type] in T. subst ty'. cbn [x_left x_right].
      destruct (small_needed _ _ _ _ Sl) as [NL NR]. specialize (NL eq_refl). specialize (NR eq_refl).
      gev. eapply good_bind; [eapply item_good; eauto|]. intros key K. gev. eapply good_bind; [apply IHr; auto|].
      intros [m e3] [M E3]. cbn [fst snd] in *. done.
    Qed.
    Lemma array_entries_good : forall c x e, small x -> seq_in c -> env_in e -> good pan fu outs (array_entries ev c x e).
    Proof.
      intros c. induction x as [|ty nm l IHl r IHr]; intros e S C E; cbn [array_entries]; [done|].
      destruct (small_subs _ _ _ _ S) as [_ Sr]. destruct (small_needed _ _ _ _ S) as [NL _].
      destruct (xtype_eqb ty X_ArrayEntry) eqn:T; [|exact Logic.I]. apply xtype_eqb_eq in T. subst ty. specialize (NL eq_refl). cbn [negb].
      gev. eapply good_bind; [apply IHr; auto|]. intros [vs e2] [VS E2]. cbn [fst snd] in *. done.
    Qed.
    Lemma pure_good : forall e r, env_in e -> good pan fu seq_in r -> good pan fu out (pure e r).
    Proof. intros e r E R. unfold pure. eapply good_bind; [exact R|]. intros v V. done. Qed.

    (* ---- calls ---- *)
    Lemma fe_loop_good : forall call, (forall a e, Forall (Forall item_in) a -> env_in e -> good pan fu out (call a e)) ->
      forall l e, seq_in l -> env_in e -> good pan fu out (for_each_loop call l e).
    Proof.
      intros call H l. induction l as [|it l IH]; intros e L E; cbn [for_each_loop]; [done|]. inversion L; subst.
      eapply good_bind; [apply H; auto|]. intros [v e1] [V E1]. cbn [fst snd] in *.
      eapply good_bind; [apply IH; auto|]. intros [r e2] [R E2]. cbn [fst snd] in *. done. apply Forall_app; auto.
    Qed.
    Lemma ff_loop_good : forall call, (forall a e, Forall (Forall item_in) a -> env_in e -> good pan fu out (call a e)) ->
      forall l e, seq_in l -> env_in e -> good pan fu out (filter_fn_loop call l e).
    Proof.
      intros call H l. induction l as [|it l IH]; intros e L E; cbn [filter_fn_loop]; [done|]. inversion L; subst.
      eapply good_bind; [apply H; auto|]. intros [v e1] [V E1]. cbn [fst snd] in *. eapply good_bind; [apply ebv_good|]. intros b _.
      eapply good_bind; [apply IH; auto|]. intros [r e2] [R E2]. cbn [fst snd] in *. done. destruct b; auto.
    Qed.
    Lemma xnodeptr_good : forall s, seq_in s -> good pan fu FUNOK (get_singleton_xnodeptr s).
    Proof. intros s F. destruct F as [|it s I F]; [exact Logic.I|]. destruct I; destruct F; cbn; auto. Qed.
    Lemma function_good : forall nm args c e, Forall (Forall item_in) args -> seq_in c -> env_in e ->
      (fu = true \/ among nm higher_order = false) -> (pan = true \/ among nm risky = false) ->
      good pan fu out (evaluate_function h callf nm args c e).
    Proof.
      intros nm args c e A C E HO RI. unfold evaluate_function. destruct (find_function nm _) as [f|] eqn:F; [|exact Logic.I].
      destruct (find_function_facts _ _ _ F) as [ND [SF NH]].
      assert (G : forall g a, Forall (Forall item_in) a -> (safe_fid f = true -> safe_fid g = true) -> needed g <= List.length a ->
        good pan fu out (pure e (call_fn h g a))).
      { intros g a Fa SG NG. apply pure_good; auto. apply (call_fn_good h t DO); auto. destruct RI as [RI|RI]; [auto|right; auto]. }
      assert (HF : f = C_for_each \/ f = C_filter -> fu = true).
      { intros [->| ->]; (destruct HO as [HO|HO]; [exact HO|]; destruct (NH HO); congruence). }
      destruct f; try (apply G; [auto|auto|cbn; lia]; fail); try (apply G; [auto|auto|exact ND]; fail).
      - destruct args as [|a args]; [cbn in ND; lia|]. inversion A; subst. apply G; auto.
      - done.
      - done.
      - specialize (HF (or_introl eq_refl)). assert (PT := LOOSE HF). destruct args as [|s [|g [|]]]; try exact PT. inversion A; subst.
        match goal with H : Forall (Forall _) [_] |- _ => inversion H; subst end. eapply good_bind; [apply xnodeptr_good; auto|]. intros fx FX. apply fe_loop_good; auto.
      - specialize (HF (or_intror eq_refl)). assert (PT := LOOSE HF). destruct args as [|s [|g [|]]]; try exact PT. inversion A; subst.
        match goal with H : Forall (Forall _) [_] |- _ => inversion H; subst end. eapply good_bind; [apply xnodeptr_good; auto|]. intros fx FX. apply ff_loop_good; auto.
    Qed.
    Lemma any_fits : fu = true -> forall y, FUNOK y -> fits y.
    Proof. intros H y FO. assert (P := LOOSE H). unfold fits, tree_ok. repeat split; auto. Qed.
    Lemma dyn_args_good : fu = true -> forall c x e, FUNOK x -> seq_in c -> env_in e -> good pan fu outs (eval_dyn_args ev c x e).
    Proof.
      intros H c. induction x as [|ty nm l IHl r IHr]; intros e FO C E; cbn [eval_dyn_args]; [done|].
      destruct (FO_parts _ _ _ _ FO) as [FL FR]. assert (F := any_fits H l FL). gev. eapply good_bind; [apply IHr; auto|]. intros [vs e2] [VS E2]. cbn [fst snd] in *. done.
    Qed.
    Lemma partial_args_good : fu = true -> forall c x g e, FUNOK x -> seq_in c -> Forall (Forall item_in) g -> env_in e ->
      good pan fu outs (eval_partial_args ev c x g e).
    Proof.
      intros H c. induction x as [|ty nm l IHl r IHr]; intros g e FO C G E; cbn [eval_partial_args]; [done|].
      destruct (FO_parts _ _ _ _ FO) as [FL FR]. assert (F := any_fits H l FL). destruct ty; try exact Logic.I.
      - gev. eapply good_bind; [apply IHr; auto|]. intros [vs e2] [VS E2]. cbn [fst snd] in *. done.
      - destruct G as [|v g V G]; [exact Logic.I|]. eapply good_bind; [apply IHr; auto|]. intros [vs e2] [VS E2]. cbn [fst snd] in *. done.
    Qed.
    Lemma bind_args_good : pan = true -> forall args ts ns e, Forall allowed ns -> Forall (Forall item_in) args -> env_in e -> good pan fu env_in (bind_args h ts ns args e).
    Proof.
      intros H args. induction args as [|v args IH]; intros ts ns e AN A E; [destruct ts; exact E|]. inversion A; subst.
      destruct ts as [|ty ts]; [exact H|]. cbn [bind_args]. destruct ns as [|n ns]; [exact H|]. inversion AN; subst.
      eapply good_bind; [apply (match_type_good h t pan fu FUNOK); auto|]. intros b _. destruct b; [|exact Logic.I]. apply IH; auto.
    Qed.
    Lemma inline_good : fu = true -> forall f args c e, FUNOK f -> x_type f = X_InlineFunction -> Forall (Forall item_in) args -> seq_in c -> env_in e ->
      good pan fu out (call_inline_func h ev f args c e).
    Proof.
      intros H f args c e FO TY A C E. assert (PN := FO_params f FO TY). unfold call_inline_func. cbv zeta. eapply good_bind; [apply bind_args_good; auto|]. intros e1 E1.
      assert (FL : FUNOK (x_left f)) by (destruct f; [discriminate TY|]; apply FO_parts in FO; tauto).
      assert (F := any_fits H (x_left f) FL). gev. done. apply fold_remove_in; auto. apply Forall_rev. auto.
    Qed.
    Lemma call_body_good : fu = true -> forall f args c e, FUNOK f -> Forall (Forall item_in) args -> seq_in c -> env_in e ->
      good pan fu out (call_function_body h ev callf f args c e).
    Proof.
      intros H f args c e FO A C E. unfold call_function_body. assert (PT := LOOSE H). destruct (x_type f) eqn:TY; try exact Logic.I.
      - apply inline_good; auto.
      - unfold call_named_func. destruct (split_hash _) as [[n a]|]; [|exact PT]. destruct (_ =? _)%Z; [|exact Logic.I]. apply function_good; auto.
      - assert (FR : FUNOK (x_right f)) by (destruct f; [discriminate TY|]; apply FO_parts in FO; tauto).
        unfold call_partial_func. eapply good_bind; [apply partial_args_good; auto|]. intros [vs e1] [VS E1]. cbn [fst snd] in *.
        apply function_good; auto.
    Qed.
    Lemma apply_good : fu = true -> forall c f x e, FUNOK x -> seq_in c -> seq_in f -> env_in e -> good pan fu out (apply_argument h ev c f x e).
    Proof.
      intros H c f x e FO C F E. unfold apply_argument. assert (PT := LOOSE H).
      assert (FL : FUNOK (x_left x)) by (destruct x; [exact FO|]; apply FO_parts in FO; tauto).
      eapply good_bind; [apply dyn_args_good; auto|]. intros [args e1] [A E1]. cbn [fst snd] in *.
      destruct F as [|it f I F]; [exact Logic.I|]. destruct I; try exact Logic.I; (destruct F; [|exact Logic.I]).
      - destruct (xtype_eqb _ _) eqn:TY; [|exact Logic.I]. apply xtype_eqb_eq in TY. apply inline_good; auto.
      - destruct A as [|k args K A]; [exact PT|]. eapply good_bind; [eapply item_good; eauto|]. intros key Ik.
        destruct (xmap_get h m key) eqn:G; [|exact Logic.I]. done. eapply xmap_get_in; eauto.
      - destruct A as [|k args K A]; [exact PT|]. eapply good_bind; [eapply item_good; eauto|]. intros key Ik.
        destruct (xarray_get h a key) eqn:G; [|exact Logic.I]. done. eapply xarray_get_in; [|exact G]. auto.
    Qed.

    (* ---- one step ---- *)
    Lemma binary_good : forall c x e f, fits (x_left x) -> fits (x_right x) -> seq_in c -> env_in e ->
      (forall a b, seq_in a -> seq_in b -> good pan fu seq_in (f a b)) -> good pan fu out (binary ev c x e f).
    Proof. intros c x e f L R C E H. unfold binary. gev. gev. eapply good_bind; [apply H; auto|]. intros. done. Qed.
    Lemma unary_step_good : forall c x e f, fits (x_right x) -> seq_in c -> env_in e ->
      (forall a, seq_in a -> good pan fu seq_in (f a)) -> good pan fu out (unary ev c x e f).
    Proof. intros c x e f R C E H. unfold unary. gev. eapply good_bind; [apply H; auto|]. intros. done. Qed.
    Lemma logical_good : forall st c x e, fits (x_left x) -> fits (x_right x) -> seq_in c -> env_in e -> good pan fu out (logical ev st c x e).
    Proof.
      intros st c x e L R C E. unfold logical. gev. eapply good_bind; [apply ebv_good|]. intros b _.
      destruct (Bool.eqb b st); [done; unfold sing_bool; auto|]. gev. eapply good_bind; [apply ebv_good|]. intros; done. unfold sing_bool; auto.
    Qed.
    Lemma op_good : forall f a b, seq_in a -> seq_in b -> (forall x y, good pan fu item_in (f x y)) -> good pan fu seq_in (op_numeric_operation f a b).
    Proof.
      intros f a b A Hb H. unfold op_numeric_operation. eapply good_bind; [eapply item_good; eauto|]. intros.
      eapply good_bind; [eapply item_good; eauto|]. intros. eapply good_bind; [apply H|]. intros; cbn; auto.
    Qed.
    Lemma general_good : forall n sc bo a b, good pan fu seq_in (general_comparison h n sc bo a b).
    Proof. intros. unfold general_comparison, sing_bool. cbn. auto. Qed.
    Lemma bools_good : forall r, good pan fu bools r -> good pan fu seq_in r.
    Proof. intros r G. eapply good_weaken; [exact G|]. apply bools_in. Qed.
    Lemma not_after : forall r, good pan fu bools r -> good pan fu seq_in (do x <- r; fn_not x).
    Proof. intros r G. eapply good_bind; [exact G|]. intros v _. apply bools_good, not_bools. Qed.
    Lemma filter_inside : forall f l, Forall inside l -> Forall inside (filter f l).
    Proof. intros f l F. rewrite Forall_forall in *. intros x X. apply filter_In in X. apply F. tauto. Qed.
    Lemma node_compare_good : forall cm a b, seq_in a -> seq_in b -> good pan fu seq_in (op_node_compare h cm a b).
    Proof.
      intros cm a b A Hb. unfold op_node_compare. eapply good_bind; [eapply node_good; eauto|]. intros i I.
      eapply good_bind; [eapply node_good; eauto|]. intros j J. unfold node_compare.
      eapply good_bind with (P := fun _ => True).
      - eapply good_bind; [apply (doc_num_good h t DO OK); auto|]. intros. eapply good_bind; [apply (doc_num_good h t DO OK); auto|]. intros; exact Logic.I.
      - intros. unfold sing_bool. cbn. auto.
    Qed.
    Lemma arith_good : forall io d1 d2 a b, pan = true -> (forall x y, good pan fu (fun _ => True) (io x y)) ->
      good pan fu item_in (xitem_numeric_operation io d1 d2 a b).
    Proof. intros. apply numeric_op_good; auto. Qed.
    Lemma wildcard_good : forall c, pan = true -> seq_in c -> good pan fu seq_in (lookup_wildcard h c).
    Proof.
      intros c P C. unfold lookup_wildcard.
      assert (U : forall l, Forall (fun o => match o with Some v => seq_in v | None => True end) l -> good pan fu seq_in (unwrap_all l)).
      { intros l L. induction L as [|[v|] l V L IH]; cbn [unwrap_all good]; auto. eapply good_bind; [exact IH|]. intros r R. cbn. apply Forall_app; auto. }
      destruct C as [|it c I C]; [exact Logic.I|]. destruct I; try exact Logic.I; (destruct C; [|exact Logic.I]); apply U; apply Forall_forall; intros o O;
        apply in_map_iff in O; destruct O as [k [<- _]].
      - destruct (xmap_get h m k) eqn:G; auto. eapply xmap_get_in; eauto.
      - destruct (xarray_get h a _) eqn:G; auto. eapply xarray_get_in; eauto.
    Qed.
    Lemma lookup_good : forall c k, seq_in c -> good pan fu seq_in (lookup_expr h c k).
    Proof.
      intros c k C. unfold lookup_expr.
      destruct C as [|it c I C]; [exact Logic.I|]. destruct I; try exact Logic.I; (destruct C; [|exact Logic.I]); cbn [good];
        apply flat_map_in with (P := fun _ => True); try (apply Forall_forall; auto); intros q _.
      - destruct (xmap_get h m q) eqn:G; auto. eapply xmap_get_in; eauto.
      - destruct (xarray_get h a q) eqn:G; auto. eapply xarray_get_in; eauto.
    Qed.
    Lemma step_good : forall c x e, small x -> (pan = true \/ x <> XNil) -> seq_in c -> env_in e -> good pan fu out (eval_step h ev callf c x e).
    Proof.
      intros c x e S N C E. destruct x as [|ty nm l r]; [destruct N as [N|N]; [exact N|congruence]|].
      destruct (small_needed _ _ _ _ S) as [NL NR]. destruct (small_subs _ _ _ _ S) as [Sl Sr].
      destruct (tree_parts _ _ _ _ (proj2 S)) as [_ [_ [CA PA]]].
      assert (PF : pan = true \/ forbidden ty nm = false) by tauto. clear PA.
      assert (BI : forall f, fits l -> fits r -> (forall a b, seq_in a -> seq_in b -> good pan fu seq_in (f a b)) ->
        good pan fu out (binary ev c (XNode ty nm l r) e f)) by (intros; apply binary_good; auto).
      assert (LOC : good pan fu out (match_location_path h ev c (XNode ty nm l r) e)) by (apply location_good; auto).
      assert (LEFT : good pan fu out (eval_left ev c (XNode ty nm l r) e)).
      { unfold eval_left. cbn [x_left]. destruct l; cbn [is_nil]; [done|]. apply EV; auto. eapply small_left; [exact S|right; discriminate]. }
      assert (FUN : pan = true \/ types_ok (XNode ty nm l r) = true).
      { destruct (proj2 S) as [[_ [P|P]] _]; [auto|right; apply safe_types; auto]. }
      assert (FOX : FUNOK (XNode ty nm l r)) by exact (proj2 (proj2 S)).
      assert (PT : forall b, forbidden ty nm = b -> b = true -> pan = true) by (intros b <- HB; destruct PF; congruence).
      unfold eval_step. cbn [x_type x_name]. 
      destruct ty; cbn [left_needed right_needed calls forbidden] in *;
        try specialize (NL eq_refl); try specialize (NR eq_refl); try exact Logic.I; try exact LOC; try specialize (PT true eq_refl eq_refl); try exact PT;
        try (apply BI; auto; intros; first [apply general_good|apply bools_good; first [apply compare_eq_bools|apply compare_lt_bools|apply compare_gt_bools]
          |apply not_after; first [apply compare_eq_bools|apply compare_lt_bools|apply compare_gt_bools]|apply node_compare_good; auto]; fail).
      - (* Path *) eapply good_bind; [exact LEFT|]. intros [v e1] [V E1]. cbn [fst snd x_right] in *. destruct r as [|ty' nm' l' r'] eqn:R; cbn [is_nil]; [done|].
        destruct (negb _); [exact Logic.I|]. assert (FR : fits (XNode ty' nm' l' r')) by (eapply small_right; [exact S|right; discriminate]).
        eapply good_bind; [apply path_loop_good; auto|]. intros [[nd acc] e2] [A E2]. cbn [fst snd] in *. destruct nd; [|done].
        eapply good_bind; [apply (sort_good h t DO OK); apply (to_nodeset_in t pan FUNOK); exact A|]. intros s Hs. done. apply seq_nodes_in; auto.
      - apply BI; auto. intros; cbn. apply Forall_app; auto.
      - apply logical_good; auto.
      - apply logical_good; auto.
      - apply BI; auto; [|  |intros; apply op_good; auto; intros; apply arith_good; auto; intros; apply chk_good; auto].
        1: eapply small_left; eauto. eapply small_right; eauto.
      - apply BI; auto; [|  |intros; apply op_good; auto; intros; apply arith_good; auto; intros; apply chk_good; auto].
        1: eapply small_left; eauto. eapply small_right; eauto.
      - apply unary_step_good; auto. intros a A. unfold op_numeric_unary. eapply good_bind; [eapply item_good; eauto|]. intros it I. 
        destruct I; cbn; auto.
      - apply unary_step_good; auto; [eapply small_right; eauto|]. intros a A. unfold op_numeric_unary. eapply good_bind; [eapply item_good; eauto|]. intros it I. 
        destruct I; cbn [xitem_numeric_unary_minus bind good]; auto. eapply good_bind with (P := item_in); [|intros; cbn; auto].
        eapply good_bind; [apply chk_good; auto|]. intros; cbn; auto.
      - apply BI; auto; [|  |intros; apply op_good; auto; intros; apply arith_good; auto; intros; apply chk_good; auto].
        1: eapply small_left; eauto. eapply small_right; eauto.
      - apply BI; auto. intros; apply op_good; auto. intros; apply divide_good.
      - apply BI; auto; [|  |intros; apply op_good; auto].
        1: eapply small_left; eauto. 1: eapply small_right; eauto.
        intros x y. unfold xitem_numeric_integer_divide. cbv zeta. destruct (match x with XIDouble _ => _ | _ => _ end); [exact Logic.I|].
        destruct (match y with XIDouble _ => _ | _ => _ end); [exact Logic.I|]. destruct (negb _); [|exact Logic.I].
        eapply good_bind with (P := fun _ => True); [|intros; cbn; auto]. unfold i64_div. destruct (_ =? _)%Z; [exact PT|]. apply chk_good; auto.
      - apply BI; auto; [|  |intros; apply op_good; auto].
        1: eapply small_left; eauto. 1: eapply small_right; eauto.
        intros x y. unfold xitem_numeric_mod. cbv zeta. destruct (match y with XIInteger _ => _ | _ => _ end); [exact Logic.I|].
        apply arith_good; auto. intros. unfold i64_rem. destruct (_ =? _)%Z; [exact PT|]. destruct (_ && _); [exact PT|exact Logic.I].
      - apply BI; auto. intros a b A Hb. unfold op_union, nodes_union. eapply good_bind.
        + apply (sort_good h t DO OK). apply Forall_app. split; apply (to_nodeset_in t pan FUNOK); auto.
        + intros s Hs. cbn. apply seq_nodes_in; auto.
      - apply BI; auto. intros a b A Hb. cbn. apply seq_nodes_in, filter_inside, (to_nodeset_in t pan FUNOK); auto.
      - apply BI; auto. intros a b A Hb. cbn. apply seq_nodes_in, filter_inside, (to_nodeset_in t pan FUNOK); auto.
      - apply BI; auto. intros a b A Hb. unfold op_to. eapply good_bind; [apply integer_good|]. intros. eapply good_bind; [apply integer_good|]. intros. cbn.
        apply count_up_in.
      - cbn [x_left x_right]. gev. eapply good_bind; [apply (match_type_good h t pan fu FUNOK); auto|].
        { destruct (proj2 Sr) as [[_ [P|P]] _]; [auto|right; apply safe_types; auto]. }
        intros. done. unfold sing_bool; auto.
      - cbn [x_left x_right]. gev. done. unfold sing_bool; auto.
      - cbn [x_left x_right]. gev. eapply good_bind; [apply (cast_as_good h t pan fu FUNOK)|]. intros. done.
      - cbn [x_left x_right]. gev. destruct (xtype_eqb (x_type r) X_IfThenElse) eqn:T; [|exact Logic.I]. cbn [negb].
        apply xtype_eqb_eq in T. destruct r as [|ty' nm' l' r']; [discriminate T|]. cbn [x_type] in T. subst ty'. cbn [x_left x_right].
        destruct (small_needed _ _ _ _ Sr) as [NL1 NR1]. specialize (NL1 eq_refl). specialize (NR1 eq_refl).
        eapply good_bind; [apply ebv_good|]. intros b _. destruct b; apply EV; auto.
      - apply EV; auto.
      - apply EV; auto.
      - apply EV; auto.
      - cbn [x_left x_right]. gev. apply for_loop_good; auto. exact (FO_binder _ _ _ _ (proj2 (proj2 S)) eq_refl).
      - cbn [x_left x_right]. gev. apply quant_loop_good; auto. exact (FO_binder _ _ _ _ (proj2 (proj2 S)) eq_refl).
      - cbn [x_left x_right]. gev. apply quant_loop_good; auto. exact (FO_binder _ _ _ _ (proj2 (proj2 S)) eq_refl).
      - done.
      - done.
      - done.
      - done.
      - done.
      - cbn [x_right]. eapply good_bind; [apply eval_args_good; auto|]. intros [args e1] [A E1]. cbn [fst snd] in *. apply function_good; auto.
      - done. destruct (get_var e nm) eqn:G; [|constructor]. eapply get_var_in; eauto.
      - cbn [x_left x_right]. gev. destruct r as [|ty' nm' l' r']; [exact Logic.I|]. cbn [x_left].
        destruct l' as [|ty2 nm2 l2 r2]; [exact Logic.I|]. apply filter_pred_good; auto. eapply small_left; [exact Sr|right; discriminate].
      - assert (HF : fu = true) by (destruct CA; congruence). assert (FL := any_fits HF l (proj2 (proj2 Sl))). cbn [x_left x_right]. gev. apply apply_good; auto. exact (proj2 (proj2 Sr)).
      - apply BI; auto. intros a b A Hb. apply (concat_good h t pan fu FUNOK). auto.
      - eapply good_bind; [exact LEFT|]. intros [v e1] [V E1]. cbn [fst snd x_right] in *. destruct r as [|ty' nm' l' r'] eqn:R; cbn [is_nil]; [done|].
        apply map_loop_good; auto. eapply small_right; [exact S|right; discriminate].
      - apply EV; auto.
      - assert (AN : allowed nm) by exact (FO_binder _ _ _ _ (proj2 (proj2 S)) eq_refl).
        cbn [x_left x_right]. gev. assert (ES := set_var_in _ nm _ AN E0 V). gev. done.
      - done.
      - done.
      - done.
      - unfold convert_xnode_to_map_array. cbn [x_type x_left]. eapply good_bind with (P := fun p => item_in (fst p) /\ env_in (snd p)).
        + eapply good_bind; [apply map_entries_good; auto|]. intros [m e1] [M E1]. cbn [fst snd good] in *. auto.
        + intros [it e1] [I E1]. cbn [fst snd] in *. done.
      - unfold convert_xnode_to_map_array. cbn [x_type x_left]. eapply good_bind with (P := fun p => item_in (fst p) /\ env_in (snd p)).
        + eapply good_bind; [apply array_entries_good; auto|]. intros [m e1] [M E1]. cbn [fst snd good] in *. auto.
        + intros [it e1] [I E1]. cbn [fst snd] in *. done.
      - unfold convert_xnode_to_map_array. cbn [x_type x_left]. eapply good_bind with (P := fun p => item_in (fst p) /\ env_in (snd p)).
        + gev. cbn [good fst snd]. split; auto. constructor. apply Forall_forall. intros s Hs. apply in_map_iff in Hs. destruct Hs as [it [<- I]].
          rewrite Forall_forall in V. auto.
        + intros [it e1] [I E1]. cbn [fst snd] in *. done.
      - cbn [x_left]. gev. eapply good_bind; [apply lookup_good; auto|]. intros. done.
      - apply pure_good; auto. apply wildcard_good; auto.
      - cbn [x_left]. destruct l as [|ty' nm' l' r']; cbn [is_nil]; [done|]. apply EV; auto. eapply small_left; [exact S|right; discriminate].
    Qed.
  End Step.

  Lemma eval_call_good : forall n,
    (forall c x e, (fu = true \/ xsize x < n) -> tree_ok x -> (pan = true \/ x <> XNil) -> seq_in c -> env_in e -> good pan fu out (eval h n c x e)) /\
    (fu = true -> forall f args c e, FUNOK f -> Forall (Forall item_in) args -> seq_in c -> env_in e -> good pan fu out (call_function h n f args c e)).
  Proof.
    induction n as [|n [IHe IHc]].
    - split; [|intros H; intros; exact H]. intros c x e [H|H]; [intros; exact H|lia].
    - split.
      + intros c x e L T N C E. cbn [eval]. apply step_good with (B := n); auto.
        * intros c' y e' [L' [T' N']]. apply IHe; auto.
        * split; [|exact T]. destruct L as [L|L]; [auto|right; lia].
      + intros H f args c e FO A C E. cbn [call_function]. apply call_body_good with (B := n); auto.
        intros c' y e' [L' [T' N']]. apply IHe; auto.
  Qed.
End Main.

(* Two documents with the same tree: evaluation of an expression. *)
Require Import Bool List NArith ZArith Ascii String Lia.
From Verif Require Import Str StrFacts Chars Sax Dom SpecTree SpecEdit HeapFacts BuildFacts SaxFacts DocFacts EditFacts OrderFacts SessionFacts
  Axes SpecAxes AxesFacts Lexer FuncTable Parser Num Item Func Types Eval SemNode SafeFacts SpecIso IsoFacts IsoWalk IsoItem.
Import ListNotations.
Open Scope nat_scope.

Notation so := same_outcome (only parsing).
Section Evals.
  Variables h h' : heap.
  Variables t t' : tree.
  Hypothesis D : document h t.
  Hypothesis D' : document h' t'.
  Hypothesis OK : order_ok h t.
  Hypothesis OK' : order_ok h' t'.
  Hypothesis E : erase t = erase t'.
  Notation R := (peer t t') (only parsing).
  Notation si := (same_item (peer t t')) (only parsing).
  Notation ss := (Forall2 (same_item (peer t t'))) (only parsing).
  Notation entry := (fun e e' => same_item (peer t t') (fst e) (fst e') /\ Forall2 (same_item (peer t t')) (snd e) (snd e')) (only parsing).
  Hint Constructors same_item : core.
  Hint Resolve f2_app f2_firstn f2_skipn f2_rev : core.

  Definition same_env (e e' : env) : Prop :=
    e_pos e = e_pos e' /\ e_last e = e_last e' /\ Forall2 (fun p q => fst p = fst q /\ ss (snd p) (snd q)) (e_vars e) (e_vars e').
  Definition out (p q : list xitem * env) : Prop := ss (fst p) (fst q) /\ same_env (snd p) (snd q).
  Definition outs (p q : list (list xitem) * env) : Prop := Forall2 ss (fst p) (fst q) /\ same_env (snd p) (snd q).
  Lemma set_var_same : forall e e' n v v', same_env e e' -> ss v v' -> same_env (set_var e n v) (set_var e' n v').
  Proof. intros e e' n v v' [P [L V]] H. unfold same_env, set_var. cbn [e_pos e_last e_vars]. auto. Qed.
  Lemma remove_var_same : forall e e' n, same_env e e' -> same_env (remove_var e n) (remove_var e' n).
  Proof.
    intros e e' n [P [L V]]. unfold same_env, remove_var. cbn [e_pos e_last e_vars]. split; [exact P|split; [exact L|]].
    induction V as [|[m v] [m' v'] l l' [N W] V IH]; cbn [remove_first]; [constructor|]. cbn [fst snd] in N, W. subst m'. destruct (str_eqb m n); auto.
  Qed.
  Lemma pos_same : forall e e' p l, same_env e e' -> same_env (set_pos_last e p l) (set_pos_last e' p l).
  Proof. intros e e' p l [P [L V]]. unfold same_env, set_pos_last. cbn [e_pos e_last e_vars]. auto. Qed.
  Lemma back_same : forall e e' f f', same_env e e' -> same_env f f' -> same_env (set_pos_last e (e_pos f) (e_last f)) (set_pos_last e' (e_pos f') (e_last f')).
  Proof. intros e e' f f' A [P [L _]]. rewrite P, L. apply pos_same; auto. Qed.
  Lemma get_var_same : forall e e' n, same_env e e' -> orel ss (get_var e n) (get_var e' n).
  Proof.
    intros e e' n [_ [_ V]]. unfold get_var. induction V as [|[m v] [m' v'] l l' [N W] V IH]; cbn [lookup_var]; [exact I|]. cbn [fst snd] in N, W. subst m'.
    destruct (str_eqb m n); auto.
  Qed.
  Lemma fold_remove_same : forall l e e', same_env e e' -> same_env (fold_left remove_var l e) (fold_left remove_var l e').
  Proof. induction l as [|n l IH]; intros e e' H; cbn; auto. apply IH, remove_var_same; auto. Qed.
  Hint Resolve set_var_same remove_var_same pos_same back_same : core.
  Lemma keeps_same : forall v v' p, ss v v' -> keeps v p = keeps v' p.
  Proof. intros v v' p F. destruct F as [|a a' s s' S F]; auto. destruct S, F; auto. Qed.

  Section Step.
    Variables ev ev' : list xitem -> xnode -> env -> res (list xitem * env).
    Variables callf callf' : xnode -> list (list xitem) -> list xitem -> env -> res (list xitem * env).
    Hypothesis EV : forall c c' y e e', ss c c' -> same_env e e' -> so out (ev c y e) (ev' c' y e').
    Hypothesis CALL : forall f args args' c c' e e', Forall2 ss args args' -> ss c c' -> same_env e e' -> so out (callf f args c e) (callf' f args' c' e').

    Ltac gev := eapply so_bind; [apply EV; auto|intros [?v ?p] [?w ?q] [?V ?HE]; cbn [fst snd] in *].
    Ltac done := unfold same_outcome; split; cbn [fst snd]; auto.

    Lemma filter_loop_same : forall x rv l l', ss l l' -> forall n i e e', same_env e e' -> so out (filter_loop ev x rv n i l e) (filter_loop ev' x rv n i l' e').
    Proof.
      intros x rv l l' F. induction F as [|a a' l l' A F IH]; intros n i e e' EE; cbn [filter_loop]; [done|]. cbv zeta.
      gev. eapply so_bind; [apply IH; auto|]. intros [r e3] [r' e3'] [Rr E3]. cbn [fst snd] in *. done. rewrite (keeps_same _ _ _ V). destruct (keeps _ _); auto.
    Qed.
    Lemma filter_pred_same : forall s s' x rv e e', ss s s' -> same_env e e' -> so out (filter_by_predicate ev s x rv e) (filter_by_predicate ev' s' x rv e').
    Proof.
      intros s s' x rv e e' S EE. unfold filter_by_predicate. destruct (is_nil x); [reflexivity|]. rewrite (f2_length _ _ _ _ _ S). apply filter_loop_same; auto.
    Qed.
    Lemma predicates_same : forall x s s' e e', ss s s' -> same_env e e' -> so out (filter_by_predicates ev x s e) (filter_by_predicates ev' x s' e').
    Proof.
      induction x as [|ty nm l IHl r IHr]; intros s s' e e' S EE; cbn [filter_by_predicates]; [done|].
      destruct ty; try reflexivity; (eapply so_bind; [apply filter_pred_same; auto|]; intros [s1 e1] [s1' e1'] [S1 E1]; cbn [fst snd] in *; apply IHr; auto).
    Qed.
    Lemma loc_step_same : forall i j x e e', R i j -> same_env e e' -> so out (match_loc_step h ev i x e) (match_loc_step h' ev' j x e').
    Proof.
      intros i j x e e' P EE. unfold match_loc_step. eapply so_bind; [apply (axis_peer h h' t t' D D' E); exact P|]. intros l l' F.
      assert (LI := nodes_same t t' l l' F). destruct (is_nil (x_right x)); [done|]. apply predicates_same; auto.
    Qed.
    Lemma location_same : forall c c' x e e', ss c c' -> same_env e e' -> so out (match_location_path h ev c x e) (match_location_path h' ev' c' x e').
    Proof.
      intros c c' x e e' C EE. unfold match_location_path. apply nodeset_same in C.
      eapply so_bind with (P := fun p q => Forall2 R (fst p) (fst q) /\ same_env (snd p) (snd q)).
      - revert e e' EE. induction C as [|i j l l' P C IH]; intros e e' EE; cbn [loc_path_loop]; [done|].
        eapply so_bind; [apply loc_step_same; eauto|]. intros [s e1] [s' e1'] [S E1]. cbn [fst snd] in *.
        eapply so_bind; [apply IH; auto|]. intros [r e2] [r' e2'] [Rr E2]. cbn [fst snd] in *. done. apply f2_app; [apply nodeset_same; exact S|exact Rr].
      - intros [l e1] [l' e1'] [L E1]. cbn [fst snd] in *. done. apply nodes_same; auto.
    Qed.
    Definition pathout (p q : bool * list xitem * env) : Prop := fst (fst p) = fst (fst q) /\ ss (snd (fst p)) (snd (fst q)) /\ same_env (snd p) (snd q).
    Lemma path_loop_same : forall x l l', ss l l' -> forall nd at_ acc acc' e e', ss acc acc' -> same_env e e' ->
      so pathout (path_loop ev x l nd at_ acc e) (path_loop ev' x l' nd at_ acc' e').
    Proof.
      intros x l l' F. induction F as [|a a' l l' A F IH]; intros nd at_ acc acc' e e' AC EE; cbn [path_loop]; [unfold same_outcome, pathout; auto|].
      gev. destruct V as [|b b' v w B V]; [apply IH; auto|]. cbv zeta. rewrite (no_atom_same t t' (b :: v) (b' :: w)) by auto. destruct (_ && _); [reflexivity|]. apply IH; auto.
    Qed.
    Lemma map_loop_same : forall x l l', ss l l' -> forall e e', same_env e e' -> so out (map_loop ev x l e) (map_loop ev' x l' e').
    Proof.
      intros x l l' F. induction F as [|a a' l l' A F IH]; intros e e' EE; cbn [map_loop]; [done|].
      gev. eapply so_bind; [apply IH; auto|]. intros [r e2] [r' e2'] [Rr E2]. cbn [fst snd] in *. done.
    Qed.
    Lemma for_loop_same : forall c c' v x, ss c c' -> forall l l', ss l l' -> forall e e', same_env e e' -> so out (for_loop ev c v x l e) (for_loop ev' c' v x l' e').
    Proof.
      intros c c' v x C l l' F. induction F as [|a a' l l' A F IH]; intros e e' EE; cbn [for_loop]; [done|].
      gev. eapply so_bind; [apply IH; auto|]. intros [r e2] [r' e2'] [Rr E2]. cbn [fst snd] in *. done.
    Qed.
    Lemma quant_loop_same : forall st c c' v x, ss c c' -> forall l l', ss l l' -> forall e e', same_env e e' ->
      so out (quant_loop ev st c v x l e) (quant_loop ev' st c' v x l' e').
    Proof.
      intros st c c' v x C l l' F. induction F as [|a a' l l' A F IH]; intros e e' EE; cbn [quant_loop]; [done; unfold sing_bool; auto|].
      gev. apply so_bind_eq; [eapply ebv_same; eauto|]. intro b. destruct (Bool.eqb b st); [done; unfold sing_bool; auto|]. apply IH; auto.
    Qed.
    Lemma eval_args_same : forall c c' x e e', ss c c' -> same_env e e' -> so outs (eval_args ev c x e) (eval_args ev' c' x e').
    Proof.
      intros c c' x. induction x as [|ty nm l IHl r IHr]; intros e e' C EE; cbn [eval_args]; [done|].
      destruct (xtype_eqb ty X_ArgumentTop); [|reflexivity]. gev. eapply so_bind; [apply IHr; auto|]. intros [vs e2] [vs' e2'] [VS E2]. cbn [fst snd] in *. done.
    Qed.
    Lemma dyn_args_same : forall c c' x e e', ss c c' -> same_env e e' -> so outs (eval_dyn_args ev c x e) (eval_dyn_args ev' c' x e').
    Proof.
      intros c c' x. induction x as [|ty nm l IHl r IHr]; intros e e' C EE; cbn [eval_dyn_args]; [done|].
      gev. eapply so_bind; [apply IHr; auto|]. intros [vs e2] [vs' e2'] [VS E2]. cbn [fst snd] in *. done.
    Qed.
    Lemma partial_args_same : forall c c' x g g' e e', ss c c' -> Forall2 ss g g' -> same_env e e' -> so outs (eval_partial_args ev c x g e) (eval_partial_args ev' c' x g' e').
    Proof.
      intros c c' x. induction x as [|ty nm l IHl r IHr]; intros g g' e e' C G EE; cbn [eval_partial_args]; [done|].
      destruct ty; try reflexivity.
      - gev. eapply so_bind; [apply IHr; eauto|]. intros [vs e2] [vs' e2'] [VS E2]. cbn [fst snd] in *. done.
      - destruct G as [|v v' g g' V G]; [reflexivity|]. eapply so_bind; [apply IHr; eauto|]. intros [vs e2] [vs' e2'] [VS E2]. cbn [fst snd] in *. done.
    Qed.
    Lemma map_entries_same : forall c c' x e e', ss c c' -> same_env e e' ->
      so (fun p q => Forall2 entry (fst p) (fst q) /\ same_env (snd p) (snd q)) (map_entries ev c x e) (map_entries ev' c' x e').
    Proof.
      intros c c' x. induction x as [|ty nm l IHl r IHr]; intros e e' C EE; cbn [map_entries]; [done|].
      destruct (negb _); [reflexivity|]. destruct (negb _); [reflexivity|].
      gev. eapply so_bind; [eapply item_same; eauto|]. intros k k' K. gev. eapply so_bind; [apply IHr; auto|].
      intros [m e3] [m' e3'] [M E3]. cbn [fst snd] in *. done.
    Qed.
    Lemma array_entries_same : forall c c' x e e', ss c c' -> same_env e e' -> so outs (array_entries ev c x e) (array_entries ev' c' x e').
    Proof.
      intros c c' x. induction x as [|ty nm l IHl r IHr]; intros e e' C EE; cbn [array_entries]; [done|].
      destruct (negb _); [reflexivity|]. gev. eapply so_bind; [apply IHr; auto|]. intros [vs e2] [vs' e2'] [VS E2]. cbn [fst snd] in *. done.
    Qed.
    Lemma pure_same : forall e e' r r', same_env e e' -> so ss r r' -> so out (pure e r) (pure e' r').
    Proof. intros e e' r r' EE H. unfold pure. eapply so_bind; [exact H|]. intros v v' V. done. Qed.

    (* ---- calls ---- *)
    Lemma fe_loop_same : forall call call', (forall a a' e e', Forall2 ss a a' -> same_env e e' -> so out (call a e) (call' a' e')) ->
      forall l l', ss l l' -> forall e e', same_env e e' -> so out (for_each_loop call l e) (for_each_loop call' l' e').
    Proof.
      intros call call' H l l' F. induction F as [|a a' l l' A F IH]; intros e e' EE; cbn [for_each_loop]; [done|].
      eapply so_bind; [apply H; auto|]. intros [v e1] [v' e1'] [V E1]. cbn [fst snd] in *.
      eapply so_bind; [apply IH; auto|]. intros [r e2] [r' e2'] [Rr E2]. cbn [fst snd] in *. done.
    Qed.
    Lemma ff_loop_same : forall call call', (forall a a' e e', Forall2 ss a a' -> same_env e e' -> so out (call a e) (call' a' e')) ->
      forall l l', ss l l' -> forall e e', same_env e e' -> so out (filter_fn_loop call l e) (filter_fn_loop call' l' e').
    Proof.
      intros call call' H l l' F. induction F as [|a a' l l' A F IH]; intros e e' EE; cbn [filter_fn_loop]; [done|].
      eapply so_bind; [apply H; auto|]. intros [v e1] [v' e1'] [V E1]. cbn [fst snd] in *. apply so_bind_eq; [eapply ebv_same; eauto|]. intro b.
      eapply so_bind; [apply IH; auto|]. intros [r e2] [r' e2'] [Rr E2]. cbn [fst snd] in *. done. destruct b; auto.
    Qed.
    Lemma function_same : forall nm args args' c c' e e', Forall2 ss args args' -> ss c c' -> same_env e e' ->
      so out (evaluate_function h callf nm args c e) (evaluate_function h' callf' nm args' c' e').
    Proof.
      intros nm args args' c c' e e' A C EE. unfold evaluate_function. rewrite (f2_length _ _ _ _ _ A). destruct (find_function nm _) as [f|]; [|reflexivity].
      assert (G : forall g a a', Forall2 ss a a' -> so out (pure e (call_fn h g a)) (pure e' (call_fn h' g a'))).
      { intros g a a' F. apply pure_same; auto. apply (call_fn_same h h' t t' D D' E); auto. }
      destruct f; try (apply G; auto; fail).
      - destruct A; [reflexivity|]. apply G; auto.
      - destruct EE as [P [L V]]. rewrite P. done. split; auto.
      - assert (EE' := EE). destruct EE as [P [L V]]. rewrite L. done.
      - destruct A as [|s s' args args' S A]; [reflexivity|]. destruct A as [|g g' args args' Gg A]; [reflexivity|]. destruct A; [|reflexivity].
        apply so_bind_eq; [eapply fnode_same; eauto|]. intro fx. apply fe_loop_same; auto.
      - destruct A as [|s s' args args' S A]; [reflexivity|]. destruct A as [|g g' args args' Gg A]; [reflexivity|]. destruct A; [|reflexivity].
        apply so_bind_eq; [eapply fnode_same; eauto|]. intro fx. apply ff_loop_same; auto.
    Qed.
    Lemma bind_args_same : forall args args', Forall2 ss args args' -> forall ts ns e e', same_env e e' -> so same_env (bind_args h ts ns args e) (bind_args h' ts ns args' e').
    Proof.
      intros args args' A. induction A as [|v v' args args' V A IH]; intros ts ns e e' EE; [destruct ts; exact EE|].
      destruct ts as [|ty ts]; [reflexivity|]. cbn [bind_args]. destruct ns as [|n ns]; [reflexivity|].
      apply so_bind_eq; [apply (match_type_same h h' t t' D D' E); auto|]. intro b. destruct b; [|reflexivity]. apply IH; auto.
    Qed.
    Lemma inline_same : forall f args args' c c' e e', Forall2 ss args args' -> ss c c' -> same_env e e' ->
      so out (call_inline_func h ev f args c e) (call_inline_func h' ev' f args' c' e').
    Proof.
      intros f args args' c c' e e' A C EE. unfold call_inline_func. cbv zeta. eapply so_bind; [apply bind_args_same; eauto|]. intros e1 e1' E1.
      gev. done. apply fold_remove_same; auto.
    Qed.
    Lemma call_body_same : forall f args args' c c' e e', Forall2 ss args args' -> ss c c' -> same_env e e' ->
      so out (call_function_body h ev callf f args c e) (call_function_body h' ev' callf' f args' c' e').
    Proof.
      intros f args args' c c' e e' A C EE. unfold call_function_body. destruct (x_type f); try reflexivity.
      - apply inline_same; auto.
      - unfold call_named_func. destruct (split_hash _) as [[n a]|]; [|exact I]. rewrite (f2_length _ _ _ _ _ A). destruct (_ =? _)%Z; [|reflexivity]. apply function_same; auto.
      - unfold call_partial_func. eapply so_bind; [apply partial_args_same; eauto|]. intros [vs e1] [vs' e1'] [VS E1]. cbn [fst snd] in *.
        apply function_same; auto.
    Qed.
    Lemma apply_same : forall c c' f f' x e e', ss c c' -> ss f f' -> same_env e e' -> so out (apply_argument h ev c f x e) (apply_argument h' ev' c' f' x e').
    Proof.
      intros c c' f f' x e e' C F EE. unfold apply_argument.
      eapply so_bind; [apply dyn_args_same; eauto|]. intros [args e1] [args' e1'] [A E1]. cbn [fst snd] in *.
      destruct F as [|it it' f f' S F]; [reflexivity|]. destruct S; try reflexivity; (destruct F; [|reflexivity]).
      - destruct (xtype_eqb _ _); [|reflexivity]. apply inline_same; auto.
      - destruct A as [|k k' args args' K A]; [reflexivity|]. eapply so_bind; [eapply item_same; eauto|]. intros key key' Ik.
        assert (G := xmap_get_same h h' t t' D D' E m m' key key' H Ik). destruct (xmap_get h m key), (xmap_get h' m' key'); cbn in G; try contradiction; [done|reflexivity].
      - destruct A as [|k k' args args' K A]; [reflexivity|]. eapply so_bind; [eapply item_same; eauto|]. intros key key' Ik.
        assert (G := xarray_get_same h h' t t' D D' E a a' key key' H Ik). destruct (xarray_get h a key), (xarray_get h' a' key'); cbn in G; try contradiction; [done|reflexivity].
    Qed.

    (* ---- one step ---- *)
    Lemma binary_same : forall c c' x e e' f f', ss c c' -> same_env e e' ->
      (forall a a' b b', ss a a' -> ss b b' -> so ss (f a b) (f' a' b')) -> so out (binary ev c x e f) (binary ev' c' x e' f').
    Proof. intros c c' x e e' f f' C EE H. unfold binary. gev. gev. eapply so_bind; [apply H; eauto|]. intros. done. Qed.
    Lemma unary_step_same : forall c c' x e e' f f', ss c c' -> same_env e e' ->
      (forall a a', ss a a' -> so ss (f a) (f' a')) -> so out (unary ev c x e f) (unary ev' c' x e' f').
    Proof. intros c c' x e e' f f' C EE H. unfold unary. gev. eapply so_bind; [apply H; eauto|]. intros. done. Qed.
    Lemma logical_same : forall st c c' x e e', ss c c' -> same_env e e' -> so out (logical ev st c x e) (logical ev' st c' x e').
    Proof.
      intros st c c' x e e' C EE. unfold logical. gev. apply so_bind_eq; [eapply ebv_same; eauto|]. intro b.
      destruct (Bool.eqb b st); [done; unfold sing_bool; auto|]. gev. apply so_bind_eq; [eapply ebv_same; eauto|]. intro. done. unfold sing_bool; auto.
    Qed.
    Lemma op_same : forall f a a' b b', ss a a' -> ss b b' -> (forall x x' y y', si x x' -> si y y' -> so si (f x y) (f x' y')) ->
      so ss (op_numeric_operation f a b) (op_numeric_operation f a' b').
    Proof.
      intros f a a' b b' A B H. unfold op_numeric_operation. eapply so_bind; [eapply item_same; eauto|]. intros.
      eapply so_bind; [eapply item_same; eauto|]. intros. eapply so_bind; [apply H; eauto|]. intros; cbn; auto.
    Qed.
    Lemma general_same : forall f sc g a a' b b', cmp_ok t t' f -> cmp_ok t t' g -> ss a a' -> ss b b' -> so ss (general_comparison h f sc g a b) (general_comparison h' f sc g a' b').
    Proof. intros. rewrite (general_cmp_same h h' t t' D D' E f sc g a a' b b') by auto. unfold general_comparison, sing_bool. cbn. auto. Qed.
    Lemma node_compare_same : forall cm a a' b b', ss a a' -> ss b b' -> so ss (op_node_compare h cm a b) (op_node_compare h' cm a' b').
    Proof.
      intros cm a a' b b' A B. unfold op_node_compare. eapply so_bind; [eapply node_same; eauto|]. intros i i' P.
      eapply so_bind; [eapply node_same; eauto|]. intros j j' Q. apply so_bind_eq; [apply (node_compare_peer h h' t t' D D' OK OK' E); auto|]. intro. cbn. unfold sing_bool. auto.
    Qed.
    Lemma wildcard_same : forall c c', ss c c' -> so ss (lookup_wildcard h c) (lookup_wildcard h' c').
    Proof.
      intros c c' C. unfold lookup_wildcard.
      assert (U : forall l l', Forall2 (orel ss) l l' -> so ss (unwrap_all l) (unwrap_all l')).
      { intros l l' L. induction L as [|[v|] [v'|] l l' V L IH]; cbn [unwrap_all]; try (cbn in V; contradiction); [constructor| |exact I].
        eapply so_bind; [exact IH|]. intros r r' Rr. cbn. auto. }
      destruct C as [|it it' c c' S C]; [reflexivity|]. destruct S; try reflexivity; (destruct C; [|reflexivity]); apply U.
      - eapply f2_map; [eapply keys_same; exact H|]. intros k k' K. apply (xmap_get_same h h' t t' D D' E); auto.
      - rewrite (f2_length _ _ _ _ _ H). induction (seq 1 (List.length a')); cbn [map]; constructor; auto. apply (xarray_get_same h h' t t' D D' E); auto.
    Qed.
    Lemma lookup_same : forall c c' k k', ss c c' -> ss k k' -> so ss (lookup_expr h c k) (lookup_expr h' c' k').
    Proof.
      intros c c' k k' C K. unfold lookup_expr.
      destruct C as [|it it' c c' S C]; [reflexivity|]. destruct S; try reflexivity; (destruct C; [|reflexivity]); unfold same_outcome;
        (eapply f2_flat_map; [exact K|]); intros q q' Q; apply or_empty_same.
      - apply (xmap_get_same h h' t t' D D' E); auto.
      - apply (xarray_get_same h h' t t' D D' E); auto.
    Qed.
    Lemma filter_contains : forall b l l' m m', Forall2 R l l' -> Forall2 R m m' ->
      Forall2 R (filter (fun x => Bool.eqb b (contains_node m x)) l) (filter (fun x => Bool.eqb b (contains_node m' x)) l').
    Proof. intros b l l' m m' L M. eapply f2_filter; [exact L|]. intros x x' X. rewrite (peer_contains h h' t t' D D' m m' x x'); auto. Qed.
    Lemma negs_same : forall (r r' : res (list xitem)), r = r' -> so ss (do x <- r; fn_not x) (do x <- r'; fn_not x).
    Proof.
      intros r r' <-. eapply so_bools; [reflexivity|]. eapply good_bind with (P := fun _ => True); [destruct r; cbn; auto|]. intros v _. apply not_bools.
    Qed.
    Lemma step_same : forall c c' x e e', ss c c' -> same_env e e' -> so out (eval_step h ev callf c x e) (eval_step h' ev' callf' c' x e').
    Proof.
      intros c c' x e e' C EE. destruct x as [|ty nm l r]; [exact I|].
      assert (BI : forall f f', (forall a a' b b', ss a a' -> ss b b' -> so ss (f a b) (f' a' b')) ->
        so out (binary ev c (XNode ty nm l r) e f) (binary ev' c' (XNode ty nm l r) e' f')) by (intros; apply binary_same; auto).
      assert (LOC : so out (match_location_path h ev c (XNode ty nm l r) e) (match_location_path h' ev' c' (XNode ty nm l r) e')) by (apply location_same; auto).
      assert (LEFT : so out (eval_left ev c (XNode ty nm l r) e) (eval_left ev' c' (XNode ty nm l r) e')).
      { unfold eval_left. cbn [x_left]. destruct l; cbn [is_nil]; [done|]. apply EV; auto. }
      unfold eval_step. cbn [x_type x_name].
      destruct ty; try reflexivity; try exact I; try exact LOC;
        try (apply BI; intros; first [apply general_same; auto; first [apply num_ok|apply bool_ok|apply not_cmp; first [apply num_ok|apply bool_ok]]
          |apply node_compare_same; auto
          |eapply so_bools; [first [eapply value_eq_same|eapply value_lt_same|eapply value_gt_same]; eauto|first [apply compare_eq_bools|apply compare_lt_bools|apply compare_gt_bools]]
          |apply negs_same; first [eapply value_eq_same|eapply value_lt_same|eapply value_gt_same]; eauto
          |apply op_same; auto; intros; first [apply numeric_op_same; auto|apply divide_same; auto|apply idiv_same; auto|apply mod_same; auto]]; fail);
        try (apply logical_same; auto; fail); try (cbn [x_left x_right]; apply EV; auto; fail); try (done; fail).
      - (* Path *) eapply so_bind; [exact LEFT|]. intros [v e1] [v' e1'] [V E1]. cbn [fst snd x_right] in *. destruct (is_nil r); [done|].
        rewrite (no_atom_same t t' v v' V). destruct (negb _); [reflexivity|].
        eapply so_bind; [apply path_loop_same; auto|]. intros [[nd acc] e2] [[nd' acc'] e2'] [N [A E2]]. cbn [fst snd] in *. subst nd'. destruct nd; [|done].
        eapply so_bind; [apply (sort_peer h h' t t' D D' OK OK' E); apply nodeset_same; exact A|]. intros s s' Hs. done. apply nodes_same; auto.
      - apply BI. intros. cbn. auto.
      - apply unary_step_same; auto. intros a a' A. unfold op_numeric_unary. eapply so_bind; [eapply item_same; eauto|]. intros it it' S. destruct S; cbn; auto.
      - apply unary_step_same; auto. intros a a' A. unfold op_numeric_unary. eapply so_bind; [eapply item_same; eauto|]. intros it it' S.
        destruct S; cbn [xitem_numeric_unary_minus]; try (cbn; auto; fail). destruct (chk (- z)); cbn; auto.
      - apply BI. intros a a' b b' A B. unfold op_union, nodes_union. eapply so_bind; [apply (sort_peer h h' t t' D D' OK OK' E); apply f2_app; apply nodeset_same; eauto|].
        intros s s' Hs. unfold same_outcome. apply nodes_same; auto.
      - apply BI. intros a a' b b' A B. unfold same_outcome, op_intersect, nodes_intersect. apply nodes_same. eapply f2_filter; [eapply nodeset_same; exact A|].
        intros x x' X. eapply (peer_contains h h' t t' D D'); [apply nodeset_same; exact B|exact X].
      - apply BI. intros a a' b b' A B. unfold same_outcome, op_except, nodes_except. apply nodes_same. eapply f2_filter; [eapply nodeset_same; exact A|].
        intros x x' X. f_equal. eapply (peer_contains h h' t t' D D'); [apply nodeset_same; exact B|exact X].
      - apply BI. intros a a' b b' A B. unfold op_to. rewrite (integer_same t t' a a' A), (integer_same t t' b b' B). apply so_bind_eq; [reflexivity|]. intro x.
        apply so_bind_eq; [reflexivity|]. intro y. unfold same_outcome. generalize (Z.to_nat (y - x + 1)). intro n. revert x. clear. induction n as [|n IH]; intro x; cbn [count_up]; auto.
      - cbn [x_left x_right]. gev. apply so_bind_eq; [apply (match_type_same h h' t t' D D' E); auto|]. intro b. done. unfold sing_bool; auto.
      - cbn [x_left x_right]. gev. rewrite (castable_same h h' t t' D D' E _ _ _ V). done. unfold sing_bool; auto.
      - cbn [x_left x_right]. gev. eapply so_bind; [apply (cast_as_same h h' t t' D D' E); eauto|]. intros. done.
      - cbn [x_left x_right]. gev. destruct (negb _); [reflexivity|]. apply so_bind_eq; [eapply ebv_same; eauto|]. intro b. destruct b; apply EV; auto.
      - cbn [x_left x_right]. gev. apply for_loop_same; auto.
      - cbn [x_left x_right]. gev. apply quant_loop_same; auto.
      - cbn [x_left x_right]. gev. apply quant_loop_same; auto.
      - cbn [x_right]. eapply so_bind; [apply eval_args_same; eauto|]. intros [args e1] [args' e1'] [A E1]. cbn [fst snd] in *. apply function_same; auto.
      - done. apply or_empty_same. apply get_var_same; auto.
      - cbn [x_left x_right]. gev. apply filter_pred_same; auto.
      - cbn [x_left x_right]. gev. apply apply_same; auto.
      - apply BI. intros. apply (concat_same h h' t t' D D' E). auto.
      - eapply so_bind; [exact LEFT|]. intros [v e1] [v' e1'] [V E1]. cbn [fst snd x_right] in *. destruct (is_nil r); [done|]. apply map_loop_same; auto.
      - cbn [x_left x_right]. gev. gev. done.
      - unfold convert_xnode_to_map_array. cbn [x_type x_left]. eapply so_bind with (P := fun p q => si (fst p) (fst q) /\ same_env (snd p) (snd q)).
        + eapply so_bind; [apply map_entries_same; eauto|]. intros [m e1] [m' e1'] [M E1]. cbn [fst snd] in *. done.
        + intros [it e1] [it' e1'] [S E1]. cbn [fst snd] in *. done.
      - unfold convert_xnode_to_map_array. cbn [x_type x_left]. eapply so_bind with (P := fun p q => si (fst p) (fst q) /\ same_env (snd p) (snd q)).
        + eapply so_bind; [apply array_entries_same; eauto|]. intros [m e1] [m' e1'] [M E1]. cbn [fst snd] in *. done.
        + intros [it e1] [it' e1'] [S E1]. cbn [fst snd] in *. done.
      - unfold convert_xnode_to_map_array. cbn [x_type x_left]. eapply so_bind with (P := fun p q => si (fst p) (fst q) /\ same_env (snd p) (snd q)).
        + gev. done. constructor. eapply f2_map; [exact V|]. auto.
        + intros [it e1] [it' e1'] [S E1]. cbn [fst snd] in *. done.
      - cbn [x_left]. gev. eapply so_bind; [apply lookup_same; eauto|]. intros. done.
      - apply pure_same; auto. apply wildcard_same; auto.
      - cbn [x_left]. destruct (is_nil l); [done|]. apply EV; auto.
    Qed.
  End Step.

  Lemma eval_call_same : forall n,
    (forall c c' x e e', ss c c' -> same_env e e' -> so out (eval h n c x e) (eval h' n c' x e')) /\
    (forall f args args' c c' e e', Forall2 ss args args' -> ss c c' -> same_env e e' -> so out (call_function h n f args c e) (call_function h' n f args' c' e')).
  Proof.
    induction n as [|n [IHe IHc]]; [split; intros; exact I|]. split.
    - intros c c' x e e' C EE. cbn [eval]. apply step_same; auto.
    - intros f args args' c c' e e' A C EE. cbn [call_function]. apply call_body_same; auto.
  Qed.
  Lemma xpath_same : forall fuel i j xp, R i j -> so ss (eval_xpath fuel h i xp) (eval_xpath fuel h' j xp).
  Proof.
    intros fuel i j xp P. unfold eval_xpath. apply so_bind_eq; [reflexivity|]. intro x. unfold match_xpath.
    eapply so_bind; [apply eval_call_same; [|repeat split; constructor]|]; [repeat constructor; exact P|]. intros [v e] [v' e'] [V _]. exact V.
  Qed.
End Evals.

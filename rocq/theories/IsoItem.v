(* Two documents with the same tree: the items, the comparisons, the functions and the types. *)
Require Import Bool List NArith ZArith Ascii String Lia Sorted.
From Verif Require Import Str StrFacts Chars Sax Dom SpecTree SpecEdit HeapFacts BuildFacts SaxFacts DocFacts EditFacts OrderFacts SessionFacts
  Axes SpecAxes AxesFacts Lexer FuncTable Parser Num Item Func Types Eval SemNode SafeFacts SpecIso IsoFacts IsoWalk.
Import ListNotations.
Open Scope nat_scope.

Notation so := same_outcome (only parsing).
Section Items.
  Variables h h' : heap.
  Variables t t' : tree.
  Hypothesis D : document h t.
  Hypothesis D' : document h' t'.
  Hypothesis OK : order_ok h t.
  Hypothesis OK' : order_ok h' t'.
  Hypothesis E : erase t = erase t'.
  Notation R := (peer t t') (only parsing).
  Notation si := (same_item (peer t t')) (only parsing).
  Notation ss := (Forall2 (same_item (peer t t'))) (only parsing).
  Notation entry := (fun e e' => same_item (peer t t') (fst e) (fst e') /\ Forall2 (same_item (peer t t')) (snd e) (snd e')) (only parsing).
  Hint Constructors same_item : core.
  Hint Resolve f2_app f2_firstn f2_skipn f2_rev : core.

  Definition atom (it : xitem) : Prop := match it with XINode _ | XIMap _ | XIArray _ => False | _ => True end.
  Lemma atom_same : forall it, atom it -> si it it.
  Proof. intros [] A; try contradiction; auto. Qed.
  Lemma atoms_same : forall s, Forall atom s -> ss s s.
  Proof. intros s F. induction F; constructor; auto using atom_same. Qed.
  Lemma nodes_same : forall l l', Forall2 R l l' -> ss (seq_of_nodes l) (seq_of_nodes l').
  Proof. intros l l' F. unfold seq_of_nodes. eapply f2_map; [exact F|]. auto. Qed.
  Lemma nodeset_same : forall s s', ss s s' -> Forall2 R (to_nodeset s) (to_nodeset s').
  Proof. intros s s' F. unfold to_nodeset. eapply f2_flat_map; [exact F|]. intros a a' S. destruct S; auto. Qed.
  Lemma no_atom_same : forall s s', ss s s' -> is_no_atom s = is_no_atom s'.
  Proof. intros s s' F. unfold is_no_atom. eapply f2_forallb; [exact F|]. intros a a' S. destruct S; auto. Qed.
  Ltac str P := let S1 := fresh in let S2 := fresh in destruct (peer_string h h' t t' D D' E _ _ P) as [S1 S2]; rewrite ?S1, ?S2; clear S1 S2.
  Lemma atomize1_same : forall a a', si a a' -> si (atomize1 h a) (atomize1 h' a').
  Proof. intros a a' S. destruct S as [i j P| | | | | | | | ]; cbn [atomize1]; auto. str P. auto. Qed.
  Lemma atomize_same : forall s s', ss s s' -> ss (atomize h s) (atomize h' s').
  Proof. intros s s' F. unfold atomize. eapply f2_map; [exact F|]. apply atomize1_same. Qed.
  Lemma raw_string_same : forall a a', si a a' -> get_as_raw_string h a = get_as_raw_string h' a'.
  Proof. intros a a' S. destruct S as [i j P| | | | | | | | ]; cbn [get_as_raw_string]; auto. str P. auto. Qed.
  Lemma raw_double_same : forall a a', si a a' -> get_as_raw_double h a = get_as_raw_double h' a'.
  Proof. intros a a' S. destruct S as [i j P| | | | | | | | ]; cbn [get_as_raw_double]; auto. str P. auto. Qed.
  Lemma raw_integer_same : forall a a', si a a' -> get_as_raw_integer h a = get_as_raw_integer h' a'.
  Proof. intros a a' S. destruct S as [i j P| | | | | | | | ]; cbn [get_as_raw_integer]; auto. str P. auto. Qed.
  Lemma raw_boolean_same : forall a a', si a a' -> get_as_raw_boolean h a = get_as_raw_boolean h' a'.
  Proof. intros a a' S. destruct S as [i j P| | | | | | | | ]; cbn [get_as_raw_boolean]; auto. str P. auto. Qed.
  Lemma cast_item_eq : forall a a' ty, si a a' -> cast_item h a ty = cast_item h' a' ty.
  Proof.
    intros a a' ty S. unfold cast_item, get_as_raw_decimal.
    rewrite (raw_string_same a a' S), (raw_double_same a a' S), (raw_integer_same a a' S), (raw_boolean_same a a' S). reflexivity.
  Qed.
  Lemma cast_item_atom : forall a ty r, cast_item h a ty = Ok r -> atom r.
  Proof.
    intros a ty r. unfold cast_item. repeat match goal with |- context [if ?b then _ else _] => destruct b end; try discriminate;
      match goal with |- bind ?x _ = _ -> _ => destruct x end; cbn; intro X; try discriminate; injection X as <-; exact I.
  Qed.
  Lemma cast_item_same : forall a a' ty, si a a' -> so si (cast_item h a ty) (cast_item h' a' ty).
  Proof.
    intros a a' ty S. rewrite <- (cast_item_eq a a' ty S). destruct (cast_item h a ty) eqn:C; cbn; auto. apply atom_same. eapply cast_item_atom; eauto.
  Qed.
  Lemma castable_same : forall s s' ty, ss s s' -> castable_as h s ty = castable_as h' s' ty.
  Proof.
    intros s s' ty F. destruct F as [|a a' s s' S F]; auto. destruct F; auto. cbn [castable_as]. unfold castable_item. rewrite (cast_item_eq a a' _ S). reflexivity.
  Qed.
  Lemma cast_as_same : forall s s' ty, ss s s' -> so ss (cast_as h s ty) (cast_as h' s' ty).
  Proof.
    intros s s' ty F. destruct F as [|a a' s s' S F]; cbn [cast_as]; [destruct (ends_with_q ty); cbn; auto|]. destruct F; [|reflexivity].
    assert (C := cast_item_same _ _ (trim_q ty) (atomize1_same a a' S)). destruct (cast_item h _ _), (cast_item h' _ _); cbn in *; auto; contradiction.
  Qed.
  Lemma item_same : forall s s', ss s s' -> so si (get_singleton_item s) (get_singleton_item s').
  Proof. intros s s' F. destruct F as [|a a' s s' S F]; cbn; auto. destruct F; cbn; auto. Qed.
  Lemma node_same : forall s s', ss s s' -> so R (get_singleton_node s) (get_singleton_node s').
  Proof. intros s s' F. destruct F as [|a a' s s' S F]; cbn; auto. destruct S, F; cbn; auto. Qed.
  Lemma string_same : forall s s', ss s s' -> get_singleton_string s = get_singleton_string s'.
  Proof. intros s s' F. destruct F as [|a a' s s' S F]; auto. destruct S, F; auto. Qed.
  Lemma integer_same : forall s s', ss s s' -> get_singleton_integer s = get_singleton_integer s'.
  Proof. intros s s' F. destruct F as [|a a' s s' S F]; auto. destruct S, F; auto. Qed.
  Lemma boolean_same : forall s s', ss s s' -> get_singleton_boolean s = get_singleton_boolean s'.
  Proof. intros s s' F. destruct F as [|a a' s s' S F]; auto. destruct S, F; auto. Qed.
  Lemma fnode_same : forall s s', ss s s' -> get_singleton_xnodeptr s = get_singleton_xnodeptr s'.
  Proof. intros s s' F. destruct F as [|a a' s s' S F]; auto. destruct S, F; auto. Qed.
  Lemma map_same : forall s s', ss s s' -> so (Forall2 entry) (get_singleton_map s) (get_singleton_map s').
  Proof. intros s s' F. destruct F as [|a a' s s' S F]; cbn; auto. destruct S, F; cbn; auto. Qed.
  Lemma array_same : forall s s', ss s s' -> so (Forall2 ss) (get_singleton_array s) (get_singleton_array s').
  Proof. intros s s' F. destruct F as [|a a' s s' S F]; cbn; auto. destruct S, F; cbn; auto. Qed.
  Lemma ebv_same : forall s s', ss s s' -> effective_boolean_value s = effective_boolean_value s'.
  Proof. intros s s' F. destruct F as [|a a' s s' S F]; auto. destruct S, F; auto. Qed.
  Lemma opt_string_same : forall s s', ss s s' -> opt_string s = opt_string s'.
  Proof. intros s s' F. unfold opt_string. rewrite (string_same s s' F). destruct F; auto. Qed.
  Lemma key_same : forall a a' b b', si a a' -> si b b' -> op_same_key h a b = op_same_key h' a' b'.
  Proof. intros a a' b b' A B. unfold op_same_key. rewrite (raw_string_same a a' A), (raw_string_same b b' B). reflexivity. Qed.
  Lemma contains_same : forall m m' k k', Forall2 entry m m' -> si k k' -> xmap_contains h m k = xmap_contains h' m' k'.
  Proof. intros m m' k k' F S. unfold xmap_contains. eapply f2_existsb; [exact F|]. intros e e' [K _]. apply key_same; auto. Qed.
  Lemma xmap_get_same : forall m m' k k', Forall2 entry m m' -> si k k' -> orel ss (xmap_get h m k) (xmap_get h' m' k').
  Proof.
    intros m m' k k' F S. unfold xmap_get. induction F as [|e e' m m' [K V] F IH]; cbn [find]; [exact I|].
    rewrite (key_same _ _ _ _ K S). destruct (op_same_key h' (fst e') k'); [exact V|exact IH].
  Qed.
  Lemma xarray_get_same : forall a a' k k', Forall2 ss a a' -> si k k' -> orel ss (xarray_get h a k) (xarray_get h' a' k').
  Proof.
    intros a a' k k' F S. unfold xarray_get. rewrite (raw_integer_same k k' S), (f2_length _ _ _ _ _ F). destruct (get_as_raw_integer h' k'); try exact I.
    destruct (_ && _); [|exact I]. apply f2_nth. exact F.
  Qed.
  Lemma or_empty_same : forall o o', orel ss o o' -> ss match o with Some v => v | None => [] end match o' with Some v => v | None => [] end.
  Proof. intros [v|] [v'|] H; cbn in *; auto; contradiction. Qed.
  Lemma flatten1_same : forall a a', si a a' -> ss (flatten1 a) (flatten1 a').
  Proof.
    fix IH 3. intros a a' S. destruct S; cbn [flatten1]; auto.
    induction H as [|s s' a a' Hs H IHa]; cbn [flat_map]; [constructor|]. apply f2_app; [|exact IHa]. clear IHa H.
    induction Hs as [|b b' s s' Hi Hs IHs]; cbn [flat_map]; [constructor|]. apply f2_app; [apply IH; exact Hi|exact IHs].
  Qed.
  Lemma flatten_same : forall a a', Forall2 ss a a' -> ss (xarray_flatten a) (xarray_flatten a').
  Proof. intros a a' F. eapply f2_flat_map; [exact F|]. intros s s' Fs. eapply f2_flat_map; [exact Fs|]. apply flatten1_same. Qed.
  Lemma keys_same : forall m m', Forall2 entry m m' -> ss (xmap_keys m) (xmap_keys m').
  Proof. intros m m' F. unfold xmap_keys. eapply f2_map; [exact F|]. cbn. tauto. Qed.

  (* ---- comparisons ---- *)
  Lemma numeric_cmp_same : forall io d1 d2 a a' b b', si a a' -> si b b' -> xitem_numeric_comparison io d1 d2 a b = xitem_numeric_comparison io d1 d2 a' b'.
  Proof. intros io d1 d2 a a' b b' A B. destruct A, B; reflexivity. Qed.
  Lemma string_cmp_same : forall a a' b b', si a a' -> si b b' -> xitem_compare a b = xitem_compare a' b'.
  Proof. intros a a' b b' A B. destruct A, B; reflexivity. Qed.
  Lemma boolean_cmp_same : forall f a a' b b', si a a' -> si b b' -> xitem_boolean_op f a b = xitem_boolean_op f a' b'.
  Proof. intros f a a' b b' A B. destruct A, B; reflexivity. Qed.
  Definition cmp_ok (f : xitem -> xitem -> res bool) : Prop := forall a a' b b', si a a' -> si b b' -> f a b = f a' b'.
  Lemma not_cmp : forall f, cmp_ok f -> cmp_ok (not_res f).
  Proof. intros f H a a' b b' A B. unfold not_res. rewrite (H a a' b b' A B). reflexivity. Qed.
  Lemma op_numeric_same : forall f l l' r r', cmp_ok f -> ss l l' -> ss r r' -> op_numeric_comparison f l r = op_numeric_comparison f l' r'.
  Proof.
    intros f l l' r r' H L K. unfold op_numeric_comparison. eapply eq_bind; [apply item_same; exact L|]. intros a a' A.
    eapply eq_bind; [apply item_same; exact K|]. intros b b' B. rewrite (H a a' b b' A B). reflexivity.
  Qed.
  Lemma op_boolean_same : forall f l l' r r', ss l l' -> ss r r' -> op_boolean f l r = op_boolean f l' r'.
  Proof. intros f l l' r r' L K. unfold op_boolean. rewrite (boolean_same l l' L), (boolean_same r r' K). reflexivity. Qed.
  Lemma fn_compare_same : forall l l' r r', ss l l' -> ss r r' -> fn_compare l r = fn_compare l' r'.
  Proof. intros l l' r r' L K. unfold fn_compare. rewrite (string_same l l' L), (string_same r r' K). destruct L, K; reflexivity. Qed.
  Lemma value_cmp_same : forall f sc bo l l' r r', cmp_ok f -> ss l l' -> ss r r' ->
    value_comparison h (op_numeric_comparison f) sc (op_boolean bo) l r = value_comparison h' (op_numeric_comparison f) sc (op_boolean bo) l' r'.
  Proof.
    intros f sc bo l l' r r' H L K. unfold value_comparison. assert (AL := atomize_same l l' L). assert (AR := atomize_same r r' K).
    rewrite (op_numeric_same f _ _ _ _ H AL AR), (op_boolean_same bo _ _ _ _ AL AR), (fn_compare_same _ _ _ _ AL AR).
    destruct L as [|x x' l l' X L]; [reflexivity|]. destruct L as [|y y' l l' Y L]; destruct K as [|z z' r r' Z K]; try reflexivity; destruct K; reflexivity.
  Qed.
  Lemma num_ok : forall io d1 d2, cmp_ok (xitem_numeric_comparison io d1 d2).
  Proof. intros io d1 d2 a a' b b' A B. apply numeric_cmp_same; auto. Qed.
  Lemma bool_ok : forall f, cmp_ok (xitem_boolean_op f).
  Proof. intros f a a' b b' A B. apply boolean_cmp_same; auto. Qed.
  Lemma value_eq_same : forall l l' r r', ss l l' -> ss r r' -> value_compare_eq h l r = value_compare_eq h' l' r'.
  Proof. intros. apply value_cmp_same; auto. apply num_ok. Qed.
  Lemma value_lt_same : forall l l' r r', ss l l' -> ss r r' -> value_compare_lt h l r = value_compare_lt h' l' r'.
  Proof. intros. apply value_cmp_same; auto. apply num_ok. Qed.
  Lemma value_gt_same : forall l l' r r', ss l l' -> ss r r' -> value_compare_gt h l r = value_compare_gt h' l' r'.
  Proof. intros. apply value_cmp_same; auto. apply num_ok. Qed.
  Lemma general_cmp_same : forall f sc g l l' r r', cmp_ok f -> cmp_ok g -> ss l l' -> ss r r' ->
    general_comparison h f sc g l r = general_comparison h' f sc g l' r'.
  Proof.
    intros f sc g l l' r r' F G L K. unfold general_comparison. do 2 f_equal. eapply f2_existsb; [apply atomize_same; exact L|]. intros a a' A.
    eapply f2_existsb; [apply atomize_same; exact K|]. intros b b' B. unfold general_pair.
    rewrite (F a a' b b' A B), (G a a' b b' A B), (string_cmp_same a a' b b' A B). reflexivity.
  Qed.
  (* all the results of the comparisons are booleans *)
  Lemma bools_same : forall s, bools s -> ss s s.
  Proof. intros s [->|[b ->]]; auto. Qed.
  Lemma so_bools : forall r r', r = r' -> good true true bools r -> so ss r r'.
  Proof. intros r r' <- G. destruct r; cbn in *; auto. apply bools_same. exact G. Qed.
  Lemma so_atoms : forall (r r' : res (list xitem)), r = r' -> (forall s, r = Ok s -> Forall atom s) -> so ss r r'.
  Proof. intros r r' <- G. destruct r; cbn; auto. apply atoms_same. auto. Qed.

  (* ---- the functions ---- *)
  Lemma arg_same : forall k args args' (f f' : list xitem -> res (list xitem)), Forall2 ss args args' ->
    (forall s s', ss s s' -> so ss (f s) (f' s')) -> so ss (arg k args f) (arg k args' f').
  Proof. intros k args args' f f' F H. unfold arg. assert (N := f2_nth _ _ _ k _ _ F). destruct (nth_error args k), (nth_error args' k); cbn in *; auto; contradiction. Qed.
  Lemma opt_same : forall k args args', Forall2 ss args args' -> orel ss (nth_error args k) (nth_error args' k).
  Proof. intros k args args' F. apply f2_nth. exact F. Qed.
  Lemma concat_args_same : forall args args', Forall2 ss args args' -> concat_args h args = concat_args h' args'.
  Proof.
    intros args args' F. induction F as [|a a' args args' Fa F IH]; cbn [concat_args]; auto. rewrite IH.
    assert (G := item_same a a' Fa). destruct Fa as [|x x' a a' X Fa]; auto.
    eapply eq_bind; [exact G|]. intros b b' B. rewrite (raw_string_same b b' B). reflexivity.
  Qed.
  Lemma concat_same : forall args args', Forall2 ss args args' -> so ss (fn_concat h args) (fn_concat h' args').
  Proof. intros args args' F. unfold fn_concat. rewrite (concat_args_same _ _ F). destruct (concat_args h' args'); cbn; unfold sing_str; auto. Qed.
  Lemma start_same : forall s s', ss s s' -> start_of h s = start_of h' s'.
  Proof. intros s s' F. unfold start_of. eapply eq_bind; [apply item_same; exact F|]. apply raw_double_same. Qed.
  Lemma length_same : forall o o', orel ss o o' -> get_length h o = get_length h' o'.
  Proof. intros [s|] [s'|] F; cbn in *; try contradiction; auto. eapply eq_bind; [apply item_same; exact F|]. apply raw_double_same. Qed.
  Lemma slice_same : forall l l' b e, ss l l' -> ss (slice l b e) (slice l' b e).
  Proof. intros. unfold slice. auto. Qed.
  Lemma remove_loop_same : forall s s' p, ss s s' -> forall n, ss (remove_loop n p s) (remove_loop n p s').
  Proof. intros s s' p F. induction F; intro n; cbn [remove_loop]; auto. destruct (_ =? _)%Z; auto. Qed.
  Lemma numeric_op_same : forall io d1 d2 a a' b b', si a a' -> si b b' -> so si (xitem_numeric_operation io d1 d2 a b) (xitem_numeric_operation io d1 d2 a' b').
  Proof.
    intros io d1 d2 a a' b b' A B. destruct A, B; cbn [xitem_numeric_operation]; try reflexivity; try (cbn; auto; fail). destruct (io z z0); cbn; auto.
  Qed.
  Lemma divide_same : forall a a' b b', si a a' -> si b b' -> so si (xitem_numeric_divide a b) (xitem_numeric_divide a' b').
  Proof.
    intros a a' b b' A B. unfold xitem_numeric_divide. eapply so_bind with (P := si); [|intros; apply numeric_op_same; auto].
    destruct B; cbn; auto; match goal with |- context [if ?b then _ else _] => destruct b end; cbn; auto.
  Qed.
  Lemma idiv_same : forall a a' b b', si a a' -> si b b' -> so si (xitem_numeric_integer_divide a b) (xitem_numeric_integer_divide a' b').
  Proof.
    intros a a' b b' A B. assert (Q : xitem_numeric_integer_divide a b = xitem_numeric_integer_divide a' b') by (destruct A, B; reflexivity).
    rewrite <- Q. destruct (xitem_numeric_integer_divide a b) eqn:C; cbn; auto. apply atom_same. revert C. unfold xitem_numeric_integer_divide. cbv zeta.
    repeat match goal with |- context [if ?b then _ else _] => destruct b end; try discriminate. destruct (i64_div _ _); cbn; intro X; try discriminate. injection X as <-. exact I.
  Qed.
  Lemma mod_same : forall a a' b b', si a a' -> si b b' -> so si (xitem_numeric_mod a b) (xitem_numeric_mod a' b').
  Proof.
    intros a a' b b' A B. unfold xitem_numeric_mod. cbv zeta.
    replace (match b' with XIInteger b0 => (b0 =? 0)%Z | XIDecimal b0 => feqb b0 f_zero | _ => false end)
      with (match b with XIInteger b0 => (b0 =? 0)%Z | XIDecimal b0 => feqb b0 f_zero | _ => false end) by (destruct B; reflexivity).
    destruct (match b with XIInteger b0 => _ | XIDecimal b0 => _ | _ => false end); [reflexivity|]. apply numeric_op_same; auto.
  Qed.
  Lemma sum_loop_same : forall l l', ss l l' -> forall v v', si v v' -> so si (sum_loop h v l) (sum_loop h' v' l').
  Proof.
    intros l l' F. induction F as [|n n' l l' S F IH]; intros v v' V; cbn [sum_loop]; auto.
    eapply so_bind with (P := si); [|intros; apply IH; auto]. replace (is_numeric n') with (is_numeric n) by (destruct S; reflexivity).
    destruct (is_numeric n); [apply numeric_op_same; auto|]. eapply so_bind; [apply cast_item_same; exact S|]. intros. apply numeric_op_same; auto.
  Qed.
  Lemma sum_same : forall s s' z z', ss s s' -> orel ss z z' -> so ss (fn_sum h s z) (fn_sum h' s' z').
  Proof.
    intros s s' z z' F Z. unfold fn_sum. assert (L := sum_loop_same s s' F (XIInteger 0) (XIInteger 0)). destruct F.
    - destruct z, z'; cbn in *; unfold sing_int; auto; contradiction.
    - eapply so_bind; [apply L; auto|]. intros; cbn; auto.
  Qed.
  Lemma extremum_same : forall cmp cmp' s s', (forall l l' r r', ss l l' -> ss r r' -> cmp l r = cmp' l' r') -> ss s s' -> so ss (fn_extremum cmp s) (fn_extremum cmp' s').
  Proof.
    intros cmp cmp' s s' H F.
    assert (L : forall l l', ss l l' -> forall m m', si m m' -> so si (extremum_loop cmp m l) (extremum_loop cmp' m' l')).
    { intros l l' Fl. induction Fl as [|b b' l l' B Fl IH]; intros m m' M; cbn [extremum_loop]; [exact M|].
      apply so_bind_eq; [apply H; auto|]. intro v. apply so_bind_eq; [reflexivity|]. intro c. apply IH. destruct c; auto. }
    unfold fn_extremum. assert (F0 := F). destruct F as [|m m' s s' M F]; [constructor|]. eapply so_bind; [apply L; auto|]. intros; cbn; auto.
  Qed.
  Lemma index_of_same : forall l l' r r', ss l l' -> ss r r' -> forall i, so ss (index_of_loop h i l r) (index_of_loop h' i l' r').
  Proof.
    intros l l' r r' F K. induction F as [|v v' l l' V F IH]; intro i; cbn [index_of_loop]; [constructor|].
    apply so_bind_eq; [apply value_eq_same; auto|]. intro b. apply so_bind_eq; [reflexivity|]. intro c.
    eapply so_bind; [apply IH|]. intros a a' A. cbn. destruct c; auto.
  Qed.
  Lemma of_node_same : forall f f' s s', (forall i j, R i j -> f i = f' j) -> ss s s' -> so ss (fn_of_node f s) (fn_of_node f' s').
  Proof.
    intros f f' s s' H F. unfold fn_of_node. assert (G := node_same s s' F). destruct F; [cbn; unfold sing_str; auto|].
    destruct (get_singleton_node (x :: l)) as [i| | |], (get_singleton_node (y :: l')) as [j| | |]; cbn in G; try contradiction; try reflexivity.
    rewrite (H _ _ G). destruct (f' j); cbn; unfold sing_str; auto.
  Qed.
  Lemma unary_same : forall io d1 d2 s s', ss s s' -> so ss (fn_numeric_unary io d1 d2 s) (fn_numeric_unary io d1 d2 s').
  Proof.
    intros io d1 d2 s s' F. destruct F as [|a a' s s' S F]; [constructor|]. destruct S, F; cbn [fn_numeric_unary]; try (cbn; auto; fail).
    destruct (io z); cbn; auto.
  Qed.
  Ltac same := first [reflexivity | cbn; unfold sing_str, sing_int, sing_bool; auto; fail].
  Ltac be := apply so_bind_eq; [first [reflexivity|apply string_same; assumption|apply integer_same; assumption|apply boolean_same; assumption
    |apply ebv_same; assumption|apply opt_string_same; assumption|apply raw_string_same; assumption|apply raw_double_same; assumption|apply start_same; assumption
    |apply length_same; assumption]|intro].
  Lemma call_fn_same : forall f args args', Forall2 ss args args' -> so ss (call_fn h f args) (call_fn h' f args').
  Proof.
    intros f args args' F. assert (OS := opt_same 1 args args' F). assert (OT := opt_same 2 args args' F).
    destruct f; cbn [call_fn]; try reflexivity; try (apply concat_same; exact F);
      repeat (apply arg_same; [exact F|intros ? ? ?]); try same.
    - unfold fn_nilled. assert (G := node_same s s' H). destruct H; [same|].
      destruct (get_singleton_node (x :: l)) as [i| | |], (get_singleton_node (y :: l')) as [j| | |]; cbn in G; try contradiction; try reflexivity.
      rewrite (peer_type h h' t t' D D' E i j G), (peer_attribute h h' t t' D D' E i j _ G). destruct (node_type_eqb _ _); [|same]. destruct (attribute_value _ _ _); same.
    - unfold fn_string. assert (G := item_same s s' H). destruct H; [same|]. eapply so_bind; [exact G|]. intros a a' A. be. same.
    - apply atomize_same; auto.
    - apply unary_same; auto.
    - apply unary_same; auto.
    - apply unary_same; auto.
    - apply unary_same; auto.
    - unfold fn_number. destruct H as [|x y l l' X H]; [same|]. destruct H; [|same]. be. same.
    - unfold fn_codepoints_to_string. apply so_bind_eq; [eapply eq_map_res; [exact H|apply raw_integer_same]|]. intro z. destruct (from_utf16 _); same.
    - unfold fn_string_to_codepoints. rewrite (string_same s s' H). destruct H; [same|]. be. apply atoms_same. apply Forall_forall. intros y0 Y.
      apply in_map_iff in Y. destruct Y as [n [<- _]]. exact I.
    - apply so_atoms; [apply fn_compare_same; auto|]. intros v. unfold fn_compare. destruct s, s0; intro X; try (injection X as <-; constructor).
      destruct (get_singleton_string (x :: s)); try discriminate. destruct (get_singleton_string (x0 :: s0)); try discriminate. injection X as <-. repeat constructor.
    - unfold fn_codepoint_equal. rewrite (string_same s s' H), (string_same s0 s'0 H0). destruct H; [same|]. destruct H0; [same|]. be. be. same.
    - unfold fn_string_join. apply so_bind_eq.
      { destruct (nth_error args 1), (nth_error args' 1); cbn in OS; try contradiction; auto. apply string_same; auto. }
      intro sp. apply so_bind_eq; [eapply eq_map_res; [exact H|apply raw_string_same]|]. intro. same.
    - unfold fn_substring. rewrite (string_same s s' H). destruct H; [same|]. be. be. be. be. destruct a2. same.
    - unfold fn_string_length. rewrite (string_same s s' H). destruct H; [same|]. be. same.
    - unfold fn_normalize_space. rewrite (string_same s s' H). destruct H; [same|]. be. same.
    - unfold fn_case. rewrite (string_same s s' H). destruct H; [same|]. be. same.
    - unfold fn_case. rewrite (string_same s s' H). destruct H; [same|]. be. same.
    - unfold fn_translate. rewrite (string_same s s' H). destruct H; [same|]. be. be. be. same.
    - unfold fn_contains. be. be. same.
    - unfold fn_starts_with. be. be. same.
    - unfold fn_ends_with. be. be. same.
    - unfold fn_substring_before. be. be. same.
    - unfold fn_substring_after. be. be. same.
    - unfold fn_boolean. be. same.
    - unfold fn_not. be. same.
    - apply of_node_same; auto. intros i j P. rewrite (peer_name h h' t t' D D' E i j P). reflexivity.
    - apply of_node_same; auto. intros i j P. rewrite (peer_local h h' t t' D D' E i j P). reflexivity.
    - apply of_node_same; auto. intros i j P. apply (peer_namespace h h' t t' D D' E i j P).
    - unfold fn_lang. rewrite (string_same s s' H). destruct H; [same|]. be. eapply so_bind; [apply node_same; exact H0|]. intros i j P.
      eapply so_bind; [apply (peer_ancestors_self h h' t t' D D' E i j P)|]. intros la la' Fa.
      replace (first_lang h' la') with (first_lang h la); [same|]. induction Fa as [|b b' la la' B Fa IH]; cbn [first_lang]; auto.
      rewrite (peer_attribute h h' t t' D D' E b b' _ B), IH. reflexivity.
    - unfold fn_root. assert (G := node_same s s' H). destruct H; [same|].
      destruct (get_singleton_node (x :: l)) as [i| | |], (get_singleton_node (y :: l')) as [j| | |]; cbn in G; try contradiction; try reflexivity.
      eapply so_bind; [apply (peer_root h h' t t' D D' i j G)|]. intros; same.
    - unfold fn_empty. rewrite (f2_length _ _ _ _ _ H). same.
    - unfold fn_exists. rewrite (f2_length _ _ _ _ _ H). same.
    - unfold fn_head. destruct H; same.
    - unfold fn_tail. destruct H; same.
    - unfold fn_insert_before. be. be. cbv zeta. unfold zlen. rewrite (f2_length _ _ _ _ _ H). cbn. auto.
    - unfold fn_remove. be. apply remove_loop_same. auto.
    - unfold fn_subsequence. assert (L := f2_length _ _ _ _ _ H). assert (H' := H). destruct H; [same|]. rewrite L. be. be. be. destruct a1. unfold same_outcome. apply slice_same; auto.
    - apply index_of_same; auto.
    - unfold fn_zero_or_one. rewrite (f2_length _ _ _ _ _ H). destruct (_ <=? _); same.
    - unfold fn_one_or_more. rewrite (f2_length _ _ _ _ _ H). destruct (_ <=? _); same.
    - unfold fn_exactly_one. rewrite (f2_length _ _ _ _ _ H). destruct (_ =? _); same.
    - unfold fn_count, zlen. rewrite (f2_length _ _ _ _ _ H). same.
    - unfold fn_avg, zlen. rewrite (f2_length _ _ _ _ _ H). assert (H' := H). destruct H; [same|].
      eapply so_bind; [apply sum_same; [exact H'|exact I]|]. intros a a' A. eapply so_bind; [apply item_same; exact A|]. intros b b' B.
      eapply so_bind; [apply divide_same; [exact B|auto]|]. intros; same.
    - apply extremum_same; auto. apply value_lt_same.
    - apply extremum_same; auto. apply value_gt_same.
    - apply sum_same; auto.
    - unfold fn_map_size, zlen. eapply so_bind; [apply map_same; exact H|]. intros m m' M. rewrite (f2_length _ _ _ _ _ M). same.
    - unfold fn_map_keys. eapply so_bind; [apply map_same; exact H|]. intros m m' M. apply keys_same; auto.
    - unfold fn_map_contains. eapply so_bind; [apply map_same; exact H|]. intros m m' M. eapply so_bind; [apply item_same; exact H0|]. intros a a' A.
      rewrite (contains_same m m' a a' M A). same.
    - unfold fn_map_get. eapply so_bind; [apply map_same; exact H|]. intros m m' M. eapply so_bind; [apply item_same; exact H0|]. intros a a' A.
      apply or_empty_same, xmap_get_same; auto.
    - unfold fn_array_size, zlen. eapply so_bind; [apply array_same; exact H|]. intros m m' M. rewrite (f2_length _ _ _ _ _ M). same.
    - unfold fn_array_get. eapply so_bind; [apply array_same; exact H|]. intros m m' M. eapply so_bind; [apply item_same; exact H0|]. intros a a' A.
      apply or_empty_same, xarray_get_same; auto.
    - cbn. eapply f2_flat_map; [exact H|]. intros a a' S. destruct S; auto. apply flatten_same; auto.
  Qed.

  (* ---- types ---- *)
  Lemma array_type_same : forall mst mst' a a' ty, Forall2 ss a a' -> (forall v v', ss v v' -> mst v ty = mst' v' ty) ->
    match_array_sequence_type h mst a ty = match_array_sequence_type h' mst' a' ty.
  Proof.
    intros mst mst' a a' ty F H. unfold match_array_sequence_type. rewrite (f2_length _ _ _ _ _ F). generalize (seq 1 (List.length a')). intro l.
    induction l as [|k l IH]; cbn [forall_res]; auto. rewrite IH.
    assert (G := xarray_get_same a a' (XIInteger (Z.of_nat k)) (XIInteger (Z.of_nat k)) F (si_integer _ _)).
    destruct (xarray_get h a _), (xarray_get h' a' _); cbn in G; try contradiction; auto. rewrite (H _ _ G). reflexivity.
  Qed.
  Lemma map_type_same : forall mst mst' m m' k ty, Forall2 entry m m' -> (forall v v', ss v v' -> mst v ty = mst' v' ty) ->
    match_map_sequence_type h mst m k ty = match_map_sequence_type h' mst' m' k ty.
  Proof.
    intros mst mst' m m' k ty F H. unfold match_map_sequence_type. eapply f2_forall_res; [apply keys_same; exact F|]. intros a a' A.
    replace (xs_type a') with (xs_type a) by (destruct A; reflexivity). destruct (negb _); auto.
    assert (G := xmap_get_same m m' a a' F A). destruct (xmap_get h m a), (xmap_get h' m' a'); cbn in G; try contradiction; auto.
  Qed.
  Lemma mst_same : forall n s s' x, ss s s' -> mst_fuel h n s x = mst_fuel h' n s' x.
  Proof.
    induction n as [|n IH]; intros s s' x F; auto. cbn [mst_fuel]. unfold match_sequence_type_body.
    destruct (negb _); auto. destruct (xtype_eqb _ X_EmptySequenceTest); [destruct F; auto|].
    replace (match_occurence s' (x_name x)) with (match_occurence s (x_name x)) by (unfold match_occurence; rewrite (f2_length _ _ _ _ _ F); reflexivity).
    destruct (match_occurence s (x_name x)) as [b| | |]; auto. cbn [bind]. destruct (negb b); auto.
    destruct (x_type (x_left x)); auto.
    - f_equal. unfold match_sequence_kind_test. eapply f2_forallb; [exact F|]. intros a a' A. destruct A; auto. apply (kind_test_peer h h' t t' D D' E); auto.
    - f_equal. unfold match_sequence_item_test. eapply f2_forallb; [exact F|]. intros a a' A. destruct A; auto.
    - f_equal. unfold match_sequence_any_function_test. eapply f2_forallb; [exact F|]. intros a a' A. destruct A; auto.
    - unfold match_sequence_typed_function_test. eapply f2_forall_res; [exact F|]. intros a a' A. destruct A; auto.
      + destruct (lefts _) as [|r [|k [|]]]; auto. apply map_type_same; auto.
      + destruct (lefts _) as [|r [|k [|]]]; auto. rewrite (IH [XIInteger 1] [XIInteger 1]) by auto. destruct (mst_fuel h' n [XIInteger 1] k) as [[]| | |]; auto.
        cbn [bind]. apply array_type_same; auto.
    - unfold match_sequence_map_test. eapply f2_forall_res; [exact F|]. intros a a' A. destruct A; auto. apply map_type_same; auto.
    - unfold match_sequence_array_test. eapply f2_forall_res; [exact F|]. intros a a' A. destruct A; auto. apply array_type_same; auto.
    - f_equal. unfold match_sequence_atomic_or_union_type. eapply f2_forallb; [exact F|]. intros a a' A. destruct A; auto.
  Qed.
  Lemma match_type_same : forall s s' x, ss s s' -> match_sequence_type h s x = match_sequence_type h' s' x.
  Proof. intros. apply mst_same; auto. Qed.

  (* ---- the text of an item ---- *)
  Lemma show_node_same : forall i j, R i j -> show_node h i = show_node h' j.
  Proof.
    assert (A : forall a b, R a b -> show_attr h a = show_attr h' b).
    { intros a b P. unfold show_attr. rewrite (peer_name h h' t t' D D' E a b P), (peer_value h h' t t' D D' E a b P). reflexivity. }
    intros i j P. unfold show_node. rewrite (peer_type h h' t t' D D' E i j P), (peer_name h h' t t' D D' E i j P), (peer_value h h' t t' D D' E i j P), (A i j P).
    assert (F := peer_attrs h h' t t' D D' E i j P). unfold attributes in F.
    replace (flat_map (fun a => 32%N :: show_attr h' a) (n_attrs (Dom.get h' j))) with (flat_map (fun a => 32%N :: show_attr h a) (n_attrs (Dom.get h i))); [reflexivity|].
    induction F as [|a b l l' Pa F IH]; cbn [flat_map]; auto. rewrite (A a b Pa), IH. reflexivity.
  Qed.
  Lemma show_item_same : forall a a', si a a' -> show_item h a = show_item h' a'.
  Proof.
    fix IH 3. intros a a' S.
    assert (SEQ : forall s s', ss s s' -> map (show_item h) s = map (show_item h') s').
    { intros s s' F. induction F as [|b b' s s' B F IHs]; cbn [map]; [reflexivity|]. rewrite (IH b b' B), IHs. reflexivity. }
    destruct S; cbn [show_item]; auto.
    - apply show_node_same; auto.
    - do 3 f_equal. induction H as [|e e' m m' He H IHm]; cbn [map]; [reflexivity|]. destruct He as [K V]. rewrite IHm, (IH _ _ K).
      assert (LV : List.length (snd e) = List.length (snd e')) by (clear - V; induction V; cbn; congruence). rewrite LV.
      assert (MV : map (show_item h) (snd e) = map (show_item h') (snd e')).
      { clear - V IH. induction V as [|b b' s s' B F IHs]; cbn [map]; [reflexivity|]. rewrite (IH b b' B), IHs. reflexivity. } rewrite MV. reflexivity.
    - do 3 f_equal. induction H as [|e e' m m' V H IHm]; cbn [map]; [reflexivity|]. rewrite IHm.
      assert (LV : List.length e = List.length e') by (clear - V; induction V; cbn; congruence). rewrite LV.
      assert (MV : map (show_item h) e = map (show_item h') e').
      { clear - V IH. induction V as [|b b' s s' B F IHs]; cbn [map]; [reflexivity|]. rewrite (IH b b' B), IHs. reflexivity. } rewrite MV. reflexivity.
  Qed.
  Lemma show_seq_same : forall s s', ss s s' -> show_seq h s = show_seq h' s'.
  Proof.
    intros s s' F. unfold show_seq. rewrite (f2_length _ _ _ _ _ F), (f2_map_eq _ _ _ _ _ (show_item h') _ _ F show_item_same). reflexivity.
  Qed.
End Items.

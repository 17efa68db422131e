(* The operators in the meaning of expressions. *)
Require Import Bool List NArith ZArith Ascii String Lia Sorted.
From Verif Require Import Str StrFacts Sax Dom Axes SpecEdit SpecAxes SessionFacts PropAxes Lexer FuncTable Parser SpecExpr Num Item Func Types Eval
  EvalFacts SpecOper ItemFacts PropOper SpecFunc FuncFacts SpecTypes TypeFacts PropTypes SpecEval EnvFacts SpecInt IntFacts SpecSem SemFacts SemNode
  SemLib SpecNum SpecDbl SpecArith ArithFacts FloatText LibNum.
Import ListNotations.
Open Scope nat_scope.

Lemma nodes_nodeset : forall l, to_nodeset (nodes l) = l.
Proof. induction l as [|i l IH]; auto. cbn [nodes map to_nodeset flat_map app]. f_equal. exact IH. Qed.
Lemma sorted_Z_unique : forall l m, StronglySorted Z.lt l -> StronglySorted Z.lt m -> (forall k, In k l <-> In k m) -> l = m.
Proof.
  induction l as [|a l IH]; intros m SL SM H.
  - destruct m as [|b m]; auto. destruct (proj2 (H b) (or_introl eq_refl)).
  - destruct m as [|b m]; [destruct (proj1 (H a) (or_introl eq_refl))|]. inversion SL as [|? ? SL' FL]; inversion SM as [|? ? SM' FM]; subst.
    rewrite Forall_forall in FL, FM. assert (a = b).
    { destruct (proj1 (H a) (or_introl eq_refl)) as [E|I]; auto. destruct (proj2 (H b) (or_introl eq_refl)) as [E|J]; auto.
      specialize (FL _ J). specialize (FM _ I). lia. }
    subst b. f_equal. apply IH; auto. intro k. split; intro I.
    + destruct (proj1 (H k) (or_intror I)) as [E|J]; auto. subst. specialize (FL _ I). lia.
    + destruct (proj2 (H k) (or_intror I)) as [E|J]; auto. subst. specialize (FM _ I). lia.
Qed.
Lemma integers_fn : forall op h a b, exists v, value_fn op h [XIInteger a] [XIInteger b] = Ok [XIBoolean v] /\ (v = true <-> rel_Z op a b).
Proof.
  intros op h a b. destruct op; cbn; eexists; (split; [reflexivity|]); rewrite ?negb_true_iff, <- ?not_true_iff_false,
    ?Z.eqb_eq, ?Z.ltb_lt, ?gtb_rel; lia.
Qed.
Lemma booleans_fn : forall op h a b, exists v, value_fn op h [XIBoolean a] [XIBoolean b] = Ok [XIBoolean v] /\ (v = true <-> rel_bool op a b).
Proof.
  intros op h a b. destruct op, a, b; cbn; eexists; (split; [reflexivity|]); split; intro H; try reflexivity; try discriminate H;
    unfold rel_bool, rel_Z in *; cbn in *; try lia; try congruence.
Qed.
Lemma strings_fn : forall op h x y a b, atomize1 h x = XIString a -> atomize1 h y = XIString b ->
  exists v, value_fn op h [x] [y] = Ok [XIBoolean v] /\ (v = true <-> rel_str op a b).
Proof.
  intros op h x y a b X Y.
  assert (AX : atomize h [x] = [XIString a]) by (cbn; rewrite X; reflexivity).
  assert (AY : atomize h [y] = [XIString b]) by (cbn; rewrite Y; reflexivity).
  destruct op; unfold value_fn, value_compare_ne, value_compare_le, value_compare_ge, value_compare_eq,
      value_compare_lt, value_compare_gt, value_comparison; rewrite AX, AY; cbn;
      (eexists; split; [reflexivity|]);
      destruct (str_cmp_spec a b) as [[E L]|[[E L]|[E L]]]; rewrite E; cbn;
      assert (I1 := lex_irrefl a); assert (I2 : lex_lt a b -> lex_lt b a -> False)
        by (intros U V; exact (lex_irrefl _ (lex_trans _ _ _ U V)));
      (split; intro H; [try discriminate H|try reflexivity; exfalso]);
      try (subst b); tauto || (intro; subst; tauto) || (destruct H; subst; tauto) || (subst; tauto).
Qed.
Lemma bool_iff : forall (P : Prop) (a b : bool), (a = true <-> P) -> (b = true <-> P) -> a = b.
Proof. intros P a b A B. destruct a, b; intuition congruence. Qed.

Section Oper.
  Variable h : heap.
  Variable order : list nat.
  Hypothesis SE : session h.
  Hypothesis PO : preorder h 0 order.

  Lemma value_ok : forall op x y t, item_in h x -> item_in h y -> compares h op x y t -> value_fn op h [x] [y] = Ok [XIBoolean t].
  Proof.
    intros op x y t IX IY C. destruct C as [a b t H|a b t H|x y a b t X Y H|x y t H].
    - destruct (integers_fn op h a b) as [v [E V]]. rewrite E. do 3 f_equal. eapply bool_iff; eauto.
    - destruct (booleans_fn op h a b) as [v [E V]]. rewrite E. do 3 f_equal. eapply bool_iff; eauto.
    - destruct (text_item_in h SE x a IX X) as [_ AX]. destruct (text_item_in h SE y b IY Y) as [_ AY].
      destruct (strings_fn op h x y a b AX AY) as [v [E V]]. rewrite E. do 3 f_equal. eapply bool_iff; eauto.
    - apply number_rel_ok. exact H.
  Qed.
  Lemma pair_ok : forall op x y t, item_in h x -> item_in h y -> compares h op x y t -> pair_fn op (atomize1 h x) (atomize1 h y) = t.
  Proof.
    intros op x y t IX IY C. apply value_ok in C; auto. destruct (pair_fn op (atomize1 h x) (atomize1 h y)) eqn:E.
    - apply pair_value in E. congruence.
    - destruct t; auto. apply pair_value in C. congruence.
  Qed.
  Lemma general_true_ok : forall op v w x y, seq_in h v -> seq_in h w -> In x v -> In y w -> compares h op x y true ->
    general_fn op h v w = Ok [XIBoolean true].
  Proof.
    intros op v w x y V W X Y C. rewrite general_fn_pairs. do 3 f_equal. apply existsb_exists. exists (atomize1 h x).
    split; [apply in_map; auto|]. apply existsb_exists. exists (atomize1 h y). split; [apply in_map; auto|].
    exact (pair_ok op x y true (in_item h v x V X) (in_item h w y W Y) C).
  Qed.
  Lemma general_false_ok : forall op v w, seq_in h v -> seq_in h w -> (forall x y, In x v -> In y w -> compares h op x y false) ->
    general_fn op h v w = Ok [XIBoolean false].
  Proof.
    intros op v w V W C. rewrite general_fn_pairs. do 3 f_equal. apply not_true_iff_false. intro E.
    apply existsb_exists in E. destruct E as [x' [X E]]. apply existsb_exists in E. destruct E as [y' [Y E]].
    apply in_map_iff in X. destruct X as [x [<- X]]. apply in_map_iff in Y. destruct Y as [y [<- Y]].
    rewrite (pair_ok op x y false (in_item h v x V X) (in_item h w y W Y) (C x y X Y)) in E. discriminate E.
  Qed.
  Lemma compare_ok : forall i j c, in_document h 0 i -> in_document h 0 j ->
    exists x, op_node_compare h c [XINode i] [XINode j] = Ok [XIBoolean x] /\
      (x = true <-> match c with Eq => i = j | Lt => before order i j | Gt => before order j i end).
  Proof.
    intros i j c I J. destruct (doc_num_ok h order SE PO i I) as [a A]. destruct (doc_num_ok h order SE PO j J) as [b B].
    destruct (doc_num_before h order SE PO i j a b I J A B) as [L Q].
    destruct (doc_num_before h order SE PO j i b a J I B A) as [G _].
    unfold op_node_compare, node_compare. cbn [get_singleton_node bind]. rewrite A. cbn [bind]. rewrite B. cbn [bind].
    eexists. split; [reflexivity|]. destruct (Z.compare_spec a b) as [E|E|E]; destruct c.
    all: first [rewrite <- Q | rewrite <- L | rewrite <- G]; split; intro K; try reflexivity; try discriminate K; try assumption; exfalso; lia.
  Qed.
  Lemma union_ok : forall l r u, (forall x, In x l \/ In x r -> in_document h 0 x) -> exactly order (fun x => In x l \/ In x r) u ->
    op_union h (nodes l) (nodes r) = Ok (nodes u).
  Proof.
    intros l r u D X. unfold op_union. rewrite !nodes_nodeset. unfold nodes_union.
    rewrite (sort_gives h order SE PO (l ++ r) u).
    - reflexivity.
    - intros x I. apply D. apply in_app_or. auto.
    - eapply exactly_ext; [|exact X]. intro x. rewrite in_app_iff. tauto.
  Qed.
  Lemma intersect_ok : forall l r u, StronglySorted (before order) l -> exactly order (fun x => In x l /\ In x r) u ->
    op_intersect (nodes l) (nodes r) = Ok (nodes u).
  Proof.
    intros l r u S X. unfold op_intersect. rewrite !nodes_nodeset. change seq_of_nodes with nodes. do 2 f_equal.
    destruct (C14_intersect_except_partial l r) as [_ [_ [K _]]]. destruct (K order S) as [X1 _].
    exact (SemNode.exactly_unique h order SE PO _ _ _ X1 X).
  Qed.
  Lemma except_ok : forall l r u, StronglySorted (before order) l -> exactly order (fun x => In x l /\ ~ In x r) u ->
    op_except (nodes l) (nodes r) = Ok (nodes u).
  Proof.
    intros l r u S X. unfold op_except. rewrite !nodes_nodeset. change seq_of_nodes with nodes. do 2 f_equal.
    destruct (C14_intersect_except_partial l r) as [_ [_ [K _]]]. destruct (K order S) as [_ X1].
    exact (SemNode.exactly_unique h order SE PO _ _ _ X1 X).
  Qed.
  Definition binop_arith (o : binop) : xitem -> xitem -> res xitem :=
    match o with
    | O_add => xitem_numeric_add | O_sub => xitem_numeric_subtract | O_mul => xitem_numeric_multiply
    | O_idiv => xitem_numeric_integer_divide | _ => xitem_numeric_mod
    end.
  Lemma arith_ok : forall o x y z, computes o x y z -> is_i64 x -> is_i64 y -> is_i64 z ->
    ~ (o = O_mod /\ x = (- 2 ^ 63)%Z /\ y = (-1)%Z) ->
    op_numeric_operation (binop_arith o) [XIInteger x] [XIInteger y] = Ok [XIInteger z].
  Proof.
    intros o x y z C IX IY IZ M. unfold op_numeric_operation. cbn [get_singleton_item bind].
    assert (S0 : forall k, (Z.abs (k * y) < Z.abs y)%Z -> k = 0%Z).
    { intros k H. rewrite Z.abs_mul in H. assert (0 <= Z.abs k)%Z by lia. destruct (Z.eq_dec k 0) as [|N]; auto.
      assert (1 <= Z.abs k)%Z by lia. assert (0 <= Z.abs y)%Z by lia. nia. }
    assert (U : forall q r, x = (q * y + r)%Z -> (Z.abs r < Z.abs y)%Z -> (0 <= x * r)%Z -> y <> 0%Z /\ q = Z.quot x y /\ r = Z.rem x y).
    { intros q r E1 E2 E3. assert (Y0 : y <> 0%Z) by lia. split; auto.
      assert (QR := Z.quot_rem' x y). assert (RB := Z.rem_bound_abs x y Y0). assert (RS := Z.rem_sign_mul x y Y0).
      assert (Q : q = Z.quot x y).
      { assert (D : ((q - Z.quot x y) * y = Z.rem x y - r)%Z) by lia. apply Z.sub_move_0_r, S0. 
        destruct (Z.lt_trichotomy x 0) as [L|[L|L]].
        - assert (r <= 0)%Z by nia. assert (Z.rem x y <= 0)%Z by nia. lia.
        - assert (R0 : Z.rem x y = 0%Z) by (rewrite L; apply Z.rem_0_l; auto). lia.
        - assert (0 <= r)%Z by nia. assert (0 <= Z.rem x y)%Z by nia. lia. }
      split; auto. lia. }
    destruct o; try contradiction; cbn [computes binop_arith] in *.
    1-3: unfold xitem_numeric_add, xitem_numeric_subtract, xitem_numeric_multiply, xitem_numeric_operation; subst z; rewrite (chk_ok _ IZ); reflexivity.
    - destruct C as [r [E1 [E2 E3]]]. destruct (U z r E1 E2 E3) as [Y0 [Q R]]. apply Z.eqb_neq in Y0.
      unfold xitem_numeric_integer_divide. cbn. unfold i64_div. rewrite Y0. cbn. rewrite <- Q, (chk_ok _ IZ). reflexivity.
    - destruct C as [q [E1 [E2 E3]]]. destruct (U q z E1 E2 E3) as [Y0 [Q R]]. apply Z.eqb_neq in Y0.
      unfold xitem_numeric_mod. rewrite Y0. cbn. unfold i64_rem. rewrite Y0. 
      destruct ((x =? i64_min)%Z && (y =? -1)%Z) eqn:K; [|cbn; rewrite R; reflexivity].
      apply andb_true_iff in K. rewrite !Z.eqb_eq in K. exfalso. apply M. destruct K as [-> ->]. auto.
  Qed.
  Lemma to_ok : forall m n l, (forall k, In k l <-> (m <= k <= n)%Z) -> StronglySorted Z.lt l ->
    op_to [XIInteger m] [XIInteger n] = Ok (map XIInteger l).
  Proof.
    intros m n l I S. cbn [op_to get_singleton_integer bind]. destruct (count_up_map (Z.to_nat (n - m + 1)) m) as [l' [E [M S']]].
    rewrite E. do 2 f_equal. apply sorted_Z_unique; auto. intro k. rewrite I, M. lia.
  Qed.
  Lemma casts_ok : forall it n r, item_in h it -> casts h it n r ->
    (cast_as h [it] (lit "xs:" ++ n) = Ok [r] /\ cast_as h [it] (lit "xs:" ++ n ++ lit "?") = Ok [r]) /\
    (castable_as h [it] (lit "xs:" ++ n) = true /\ castable_as h [it] (lit "xs:" ++ n ++ lit "?") = true).
  Proof.
    intros it n r I C.
    assert (cast_float : forall it x b, double_or_decimal it x -> (b = true <-> ~ is_zero_or_nan x) ->
      cast_item h it (lit "xs:" ++ lit "boolean") = Ok (XIBoolean b)).
    { intros it' x b H B. rewrite <- (bool_of_float x b B). destruct H as [-> | ->]; reflexivity. }
    assert (cast_double : forall it s x, text_item h it s -> atof s = x -> forall a, item_in h it -> a = it \/ a = atomize1 h it ->
      cast_item h a (lit "xs:" ++ lit "double") = Ok (XIDouble x)).
    { intros it' s x H E a I' [-> | ->].
      - destruct H as [s|i s H]; [change (Ok (XIDouble (atof s)) = Ok (XIDouble x)); congruence|].
        change (Ok (XIDouble (atof (string_value h i))) = Ok (XIDouble x)). destruct (string_value_spec h i s SE (item_node_in h i I') H) as [-> _]. congruence.
      - destruct (text_item_in h SE it' s I' H) as [_ ->]. change (Ok (XIDouble (atof s)) = Ok (XIDouble x)). congruence. }
    assert (cast_decimal : forall it s x, text_item h it s -> atof s = x -> forall a, item_in h it -> a = it \/ a = atomize1 h it ->
      cast_item h a (lit "xs:" ++ lit "decimal") = Ok (XIDecimal x)).
    { intros it' s x H E a I' [-> | ->].
      - destruct H as [s|i s H]; [change (Ok (XIDecimal (atof s)) = Ok (XIDecimal x)); congruence|].
        change (Ok (XIDecimal (atof (string_value h i))) = Ok (XIDecimal x)). destruct (string_value_spec h i s SE (item_node_in h i I') H) as [-> _]. congruence.
      - destruct (text_item_in h SE it' s I' H) as [_ ->]. change (Ok (XIDecimal (atof s)) = Ok (XIDecimal x)). congruence. }
    assert (G : forall t, trim_q t = lit "xs:" ++ n -> cast_as h [it] t = Ok [r] /\ castable_as h [it] t = true).
    { intros t T. cbn [cast_as castable_as]. unfold castable_item. rewrite T.
      assert (A : forall a, a = it \/ a = atomize1 h it -> cast_item h a (lit "xs:" ++ n) = Ok r).
      { clear T t. destruct C as [it s H|it s z H IT IZ|z| | |it s b H B|b|z b H
          |it x b H B|it x r H T IR|it s neg m e x H D R|it s x H D|it x H|b x H|it s neg m e x H D N1 N2 R F|it x H F|b x H]; intros a [-> | ->].
        - change (cast_item h it _) with (do s <- get_as_raw_string h it; Ok (XIString s)). rewrite (string_of_raw h SE it s I H). reflexivity.
        - assert (RW := string_of_raw h SE it s I H). destruct H as [s|i s H|z s H| | |x s F B NZ H|x s F B H|]; cbn [atomize1].
          2: { destruct (string_value_spec h i s SE (item_node_in h i I) H) as [_ ->]. reflexivity. }
          all: change (bind (get_as_raw_string h ltac:(match type of RW with get_as_raw_string _ ?i = _ => exact i end)) (fun s => Ok (XIString s)) = Ok (XIString ltac:(match type of RW with _ = Ok ?s => exact s end))); rewrite RW; reflexivity.
        - assert (E : atoi s = z) by (rewrite (atoi_text s z IT); apply is_i64_in in IZ; rewrite IZ; reflexivity).
          destruct H as [s|i s H]; [change (Ok (XIInteger (atoi s)) = Ok (XIInteger z)); congruence|].
          change (Ok (XIInteger (atoi (string_value h i))) = Ok (XIInteger z)).
          destruct (string_value_spec h i s SE (item_node_in h i I) H) as [-> _]. congruence.
        - assert (E : atoi s = z) by (rewrite (atoi_text s z IT); apply is_i64_in in IZ; rewrite IZ; reflexivity).
          destruct (text_item_in h SE it s I H) as [_ ->]. change (Ok (XIInteger (atoi s)) = Ok (XIInteger z)). congruence.
        - reflexivity.
        - reflexivity.
        - reflexivity.
        - reflexivity.
        - reflexivity.
        - reflexivity.
        - assert (E : bool_of_str s = Ok b) by (destruct B; reflexivity).
          destruct H as [s|i s H]; [change (bind (bool_of_str s) (fun b => Ok (XIBoolean b)) = Ok (XIBoolean b)); rewrite E; reflexivity|].
          change (bind (bool_of_str (string_value h i)) (fun b => Ok (XIBoolean b)) = Ok (XIBoolean b)).
          destruct (string_value_spec h i s SE (item_node_in h i I) H) as [-> _]. rewrite E. reflexivity.
        - assert (E : bool_of_str s = Ok b) by (destruct B; reflexivity). destruct (text_item_in h SE it s I H) as [_ ->].
          change (bind (bool_of_str s) (fun b => Ok (XIBoolean b)) = Ok (XIBoolean b)). rewrite E. reflexivity.
        - reflexivity.
        - reflexivity.
        - change (Ok (XIBoolean (negb (z =? 0)%Z)) = Ok (XIBoolean b)). do 2 f_equal. eapply bool_iff; [|exact H].
          rewrite negb_true_iff, Z.eqb_neq. reflexivity.
        - change (Ok (XIBoolean (negb (z =? 0)%Z)) = Ok (XIBoolean b)). do 2 f_equal. eapply bool_iff; [|exact H].
          rewrite negb_true_iff, Z.eqb_neq. reflexivity.
        - apply (cast_float it x b H B).
        - destruct H as [-> | ->]; [apply (cast_float (XIDouble x) x b (or_introl eq_refl) B)|apply (cast_float (XIDecimal x) x b (or_intror eq_refl) B)].
        - destruct H as [-> | ->]; [change (Ok (XIInteger (f64_to_i64 x)) = Ok (XIInteger r))|change (Ok (XIInteger (f64_to_i64 x)) = Ok (XIInteger r))];
            rewrite (truncates_i64 x r T IR); reflexivity.
        - destruct H as [-> | ->]; [change (Ok (XIInteger (f64_to_i64 x)) = Ok (XIInteger r))|change (Ok (XIInteger (f64_to_i64 x)) = Ok (XIInteger r))];
            rewrite (truncates_i64 x r T IR); reflexivity.
        - apply (cast_double it s x H (atof_rounded s neg m e x D R)); [exact I|left; reflexivity].
        - apply (cast_double it s x H (atof_rounded s neg m e x D R)); [exact I|right; reflexivity].
        - apply (cast_double it s x H); [destruct D; vm_compute; reflexivity|exact I|left; reflexivity].
        - apply (cast_double it s x H); [destruct D; vm_compute; reflexivity|exact I|right; reflexivity].
        - change (bind (get_as_raw_double h it) (fun d => Ok (XIDouble d)) = Ok (XIDouble x)). rewrite (number_raw h it x H). reflexivity.
        - assert (AT : atomize1 h it = it) by (destruct H; reflexivity). rewrite AT.
          change (bind (get_as_raw_double h it) (fun d => Ok (XIDouble d)) = Ok (XIDouble x)). rewrite (number_raw h it x H). reflexivity.
        - change (Ok (XIDouble (if b then f_one else f_zero)) = Ok (XIDouble x)). rewrite (number_bool b x H). reflexivity.
        - change (Ok (XIDouble (if b then f_one else f_zero)) = Ok (XIDouble x)). rewrite (number_bool b x H). reflexivity.
        - apply (cast_decimal it s x H (atof_rounded s neg m e x D R)); [exact I|left; reflexivity].
        - apply (cast_decimal it s x H (atof_rounded s neg m e x D R)); [exact I|right; reflexivity].
        - change (bind (get_as_raw_double h it) (fun d => Ok (XIDecimal d)) = Ok (XIDecimal x)). rewrite (number_raw h it x H). reflexivity.
        - assert (AT : atomize1 h it = it) by (destruct H; reflexivity). rewrite AT.
          change (bind (get_as_raw_double h it) (fun d => Ok (XIDecimal d)) = Ok (XIDecimal x)). rewrite (number_raw h it x H). reflexivity.
        - change (Ok (XIDecimal (if b then f_one else f_zero)) = Ok (XIDecimal x)). rewrite (number_bool b x H). reflexivity.
        - change (Ok (XIDecimal (if b then f_one else f_zero)) = Ok (XIDecimal x)). rewrite (number_bool b x H). reflexivity. }
      rewrite (A _ (or_introl eq_refl)), (A _ (or_intror eq_refl)). split; reflexivity. }
    assert (T : trim_q (lit "xs:" ++ n) = lit "xs:" ++ n /\ trim_q (lit "xs:" ++ n ++ lit "?") = lit "xs:" ++ n)
      by (destruct C; split; vm_compute; reflexivity).
    destruct (G _ (proj1 T)), (G _ (proj2 T)). auto.
  Qed.
  Lemma instance_one : forall it t n b, has_type it t -> (b = true <-> derives t (lit "xs:" ++ n)) ->
    match_sequence_type h [it] (typetree Y_instance n) = Ok b.
  Proof.
    intros it t n b H D. unfold typetree. rewrite mst_unfold by (unfold item_type; cbn; tauto). cbn [bind].
    change (match_occurence [it] (lit "?")) with (Ok true). cbn [bind negb]. unfold one_item. cbn [x_type leaf].
    unfold match_sequence_atomic_or_union_type. rewrite forallb_one. cbn [x_name leaf].
    assert (E : derives_from t (lit "xs:" ++ n) = b) by (eapply bool_iff; [apply derives_from_derives|exact D]).
    destruct H; rewrite <- E; reflexivity.
  Qed.
  Lemma instance_none : forall n, match_sequence_type h [] (typetree Y_instance n) = Ok true.
  Proof.
    intro n. unfold typetree. rewrite mst_unfold by (unfold item_type; cbn; tauto).
    change (match_occurence [] (lit "?")) with (Ok true). reflexivity.
  Qed.
  Lemma instance_many : forall n v, 1 < List.length v -> match_sequence_type h v (typetree Y_instance n) = Ok false.
  Proof.
    intros n v L. unfold typetree. rewrite mst_unfold by (unfold item_type; cbn; tauto).
    destruct v as [|a [|b v]]; cbn in L; try lia. change (match_occurence (a :: b :: v) (lit "?")) with (Ok false). reflexivity.
  Qed.
End Oper.

(* C64-C66: evaluation ends, does not panic, and returns nodes of the document. *)
Require Import Bool List NArith ZArith Ascii String Lia.
From Verif Require Import Str StrFacts Chars Sax Dom SpecTree SpecEdit HeapFacts BuildFacts DocFacts EditFacts OrderFacts SessionFacts
  Axes SpecAxes AxesFacts Lexer FuncTable Parser ParserFacts SpecExpr PrecFacts PropParse Num Item Func Types Eval EvalFacts SpecSafe SafeFacts SafeEval.
Import ListNotations.
Open Scope nat_scope.

Notation anyfun := (fun _ : xnode => True) (only parsing).
Lemma good_nodes : forall t pan it i, item_in t pan anyfun it -> holds i it -> In i (ids t).
Proof.
  intros t pan it i I H. revert I. induction H; intro I; inversion I; subst.
  - assumption.
  - rewrite Forall_forall in H2. apply IHholds. apply (H2 _ H).
  - rewrite Forall_forall in H3. assert (K := proj2 (H3 _ H)). cbn in K. rewrite Forall_forall in K. auto.
  - rewrite Forall_forall in H3. specialize (H3 _ H). rewrite Forall_forall in H3. auto.
Qed.
Lemma match_good : forall h t i pan fu fuel x, document h t -> order_ok h t -> In i (ids t) -> (fu = true -> pan = true) ->
  (fu = true \/ xsize x < fuel) -> tree_ok pan fu anyfun x -> (pan = true \/ x <> XNil) ->
  good pan fu (Forall (item_in t pan anyfun)) (match_xpath h fuel i x).
Proof.
  intros h t i pan fu fuel x D O I L F T N. unfold match_xpath.
  eapply good_bind; [apply (proj1 (eval_call_good h t D O pan fu L anyfun (fun _ => True) (fun _ => True)
      (fun _ _ _ _ _ => conj Logic.I Logic.I) (fun _ _ _ _ _ _ => Logic.I) (fun x _ _ => proj2 (Forall_forall _ _) (fun _ _ => Logic.I))
      (fun _ _ _ _ _ => Logic.I) (fun _ _ _ _ => Logic.I) fuel)); auto|].
  - repeat constructor. exact I.
  - split; constructor.
  - intros [v e] [V _]. exact V.
Qed.

(* ---- C66: every node of the result is a node of the document ---- *)
Theorem C66_result_nodes : forall h i xpath fuel v it n, session h -> in_document h 0 i ->
  eval_xpath fuel h i xpath = Ok v -> In it v -> holds n it -> in_document h 0 n.
Proof.
  intros h i s fuel v it n SE I E M H. destruct (session_document h SE) as [t [D [T0 O]]]. rewrite <- T0 in *.
  rewrite (in_document_ids h t) in * by auto. unfold eval_xpath in E. destruct (compile_xpath s) as [x| | |]; try discriminate. cbn [bind] in E.
  assert (G := match_good h t i true true fuel x D O I (fun _ => eq_refl) (or_introl eq_refl)
    (conj (conj (or_introl eq_refl) (or_introl eq_refl)) Logic.I) (or_introl eq_refl)).
  rewrite E in G. cbn in G. rewrite Forall_forall in G. eapply good_nodes; eauto.
Qed.
Print Assumptions C66_result_nodes.

(* ---- C64: evaluation ends ---- *)
Lemma calling_static : forall x, (forall y, occurs y x -> ~ calling_node y) -> static x = true.
Proof.
  induction x as [|ty nm l IHl r IHr]; intro H; [reflexivity|]. cbn [static].
  rewrite IHl, IHr by (intros y Y; apply H; constructor; exact Y). rewrite !andb_true_r. apply negb_true_iff.
  assert (S := H _ (oc_self _)). unfold calling_node in S. cbn [x_type x_name] in S.
  destruct ty; cbn [calls]; auto; [|exfalso; auto]. unfold among, higher_order. cbn [existsb].
  destruct (str_eqb (lit "fn:for-each") nm) eqn:E1; [apply str_eqb_eq in E1; exfalso; apply S; auto|].
  destruct (str_eqb (lit "fn:filter") nm) eqn:E2; [apply str_eqb_eq in E2; exfalso; apply S; auto|]. reflexivity.
Qed.
Theorem C64_terminates : forall h i xpath x fuel, session h -> in_document h 0 i -> compile_xpath xpath = Ok x ->
  (forall y, occurs y x -> ~ calling_node y) -> xsize x < fuel -> eval_xpath fuel h i xpath <> Fuel.
Proof.
  intros h i s x fuel SE I C H L. destruct (session_document h SE) as [t [D [T0 O]]]. rewrite <- T0 in *.
  rewrite (in_document_ids h t) in * by auto. unfold eval_xpath. rewrite C. cbn [bind].
  assert (G := match_good h t i true false fuel x D O I (fun _ => eq_refl) (or_intror L)
    (conj (conj (or_intror (calling_static x H)) (or_introl eq_refl)) Logic.I) (or_introl eq_refl)).
  intro E. rewrite E in G. discriminate G.
Qed.
Print Assumptions C64_terminates.

(* an expression of the grammar of C42: its tree has no calling node when the expression has none *)
Lemma among_fn : forall f l, among (lit "fn:" ++ f) (map (app (lit "fn:")) l) = among f l.
Proof.
  intros f l. unfold among. induction l as [|a l IH]; [reflexivity|]. cbn [map existsb]. rewrite IH. f_equal.
Qed.
Lemma among_in : forall f l, ~ In f l -> among f l = false.
Proof.
  intros f l N. unfold among. apply not_true_is_false. intro E. apply existsb_exists in E. destruct E as [x [I X]]. apply str_eqb_eq in X.
  subst. auto.
Qed.
Lemma ho_fn : forall f, f <> lit "for-each" -> f <> lit "filter" -> among (lit "fn:" ++ f) higher_order = false.
Proof.
  intros f H1 H2. change higher_order with (map (app (lit "fn:")) [lit "for-each"; lit "filter"]). rewrite among_fn. apply among_in.
  intros [I|[I|[]]]; subst; auto.
Qed.
Lemma risky_fn : forall f, f <> lit "for-each" -> f <> lit "filter" ->
  ~ In f [lit "abs"; lit "substring"; lit "subsequence"; lit "insert-before"; lit "sum"; lit "avg"] -> among (lit "fn:" ++ f) risky = false.
Proof.
  intros f H1 H2 K.
  change risky with (map (app (lit "fn:")) [lit "abs"; lit "substring"; lit "subsequence"; lit "insert-before"; lit "sum"; lit "avg"; lit "for-each"; lit "filter"]).
  rewrite among_fn. apply among_in. intro I.
  repeat (destruct I as [I|I]; [first [apply K; rewrite <- I; cbn [In]; tauto|subst; auto]|]). destruct I.
Qed.
Ltac sub W := first
  [ intros ? ?; apply W; econstructor; eassumption | intros ? ?; apply W; constructor; assumption ].
Definition hazard (e : expr) : Prop := integer_work e \/ all_values e.
Definition calm (work : bool) (e : expr) : Prop := without computed_call e /\ (work = true \/ without hazard e).
Lemma calm_sub : forall w e a, part a e -> calm w e -> calm w a.
Proof.
  intros w e a P [C I].
  assert (T : forall b, part b a -> part b e).
  { clear C I. induction P; intros z Hz; auto; try (econstructor; eauto; fail). }
  split; [intros b Hb; apply C; auto|]. destruct I as [I|I]; [auto|right; intros b Hb; apply I; auto].
Qed.
Definition ok_tree (work : bool) (x : xnode) : Prop := static x = true /\ (work = true \/ safe x = true).
Lemma ok_node : forall w ty nm l r, ok_tree w l -> ok_tree w r -> calls ty nm = false -> (w = true \/ safe_node ty nm l r = true) ->
  ok_tree w (XNode ty nm l r).
Proof.
  intros w ty nm l r [L1 L2] [R1 R2] C S. unfold ok_tree. cbn [static safe]. rewrite L1, R1, C. split; [reflexivity|].
  destruct S as [S|S]; [auto|]. destruct L2 as [L2|L2]; [auto|]. destruct R2 as [R2|R2]; [auto|]. right. rewrite S, L2, R2. reflexivity.
Qed.
Lemma ok_nil : forall w, ok_tree w XNil.
Proof. intro w. split; auto. Qed.
(* a call by name whose function is harmless *)
Lemma named_ok : forall w f a, ok_tree w a -> f <> lit "for-each" -> f <> lit "filter" ->
  (w = true \/ ~ In f [lit "abs"; lit "substring"; lit "subsequence"; lit "insert-before"; lit "sum"; lit "avg"]) ->
  ok_tree w (XNode X_FunctionCall (lit "fn:" ++ f) XNil a).
Proof.
  intros w f a A H1 H2 K. apply ok_node; auto using ok_nil.
  - cbn [calls]. apply ho_fn; auto.
  - destruct K as [K|K]; [auto|right]. unfold safe_node. cbn [forbidden]. rewrite risky_fn; auto.
Qed.
Lemma ok_leaf : forall w ty nm, calls ty nm = false -> safe_node ty nm XNil XNil = true -> ok_tree w (leaf ty nm).
Proof. intros. apply ok_node; auto using ok_nil. Qed.
Lemma nonnil : forall x e, reads x e -> is_nil x = false.
Proof. intros x e R. destruct x; [exfalso; eapply reads_nil; eauto|reflexivity]. Qed.
Lemma nonnil_op : forall x e, reads_op x e -> is_nil x = false.
Proof. intros x e R. eapply nonnil, op_reads; eauto. Qed.
Scheme reads_m := Minimality for reads Sort Prop with reads_op_m := Minimality for reads_op Sort Prop
  with reads_rel_m := Minimality for reads_rel Sort Prop with reads_tail_m := Minimality for reads_tail Sort Prop
  with reads_preds_m := Minimality for reads_preds Sort Prop with reads_args_m := Minimality for reads_args Sort Prop
  with reads_oargs_m := Minimality for reads_oargs Sort Prop with reads_items_m := Minimality for reads_items Sort Prop
  with reads_entries_m := Minimality for reads_entries Sort Prop with reads_binds_m := Minimality for reads_binds Sort Prop.
Combined Scheme reads_ind10 from reads_m, reads_op_m, reads_rel_m, reads_tail_m, reads_preds_m, reads_args_m, reads_oargs_m, reads_items_m,
  reads_entries_m, reads_binds_m.
Ltac csub C := eapply calm_sub; [|exact C]; econstructor; solve [eassumption | apply part_self].
Ltac sn := unfold safe_node; cbn [forbidden left_needed right_needed negb is_nil orb andb];
  repeat match goal with R : reads ?x _ |- context [is_nil ?x] => rewrite (nonnil x _ R)
                       | R : reads_op ?x _ |- context [is_nil ?x] => rewrite (nonnil_op x _ R) end; try reflexivity.
Lemma calm_all : forall w f es e, calm w (ECall f es) -> In e es -> calm w e.
Proof. intros w f es e C I. csub C. Qed.
Lemma calm_fun : forall w p ps b, calm w (EFun (p :: ps) b) -> calm w (EFun ps b).
Proof.
  intros w p ps b [C I]. split.
  - intros a P. inversion P; subst; [cbn; intros [H|H]; discriminate H|]. apply C. apply part_function. auto.
  - destruct I as [I|I]; [auto|right]. intros a P. inversion P; subst; [|apply I, part_function; auto].
    intros [H|H]; [|exact H]. cbn in H. destruct H as [f [H _]]. discriminate H.
Qed.
Lemma ok_seq : forall w t, ok_tree w (seq_tree t).
Proof.
  intros w t. destruct t as [|t c]; [split; [reflexivity|right; reflexivity]|].
  destruct t as [| |t| | |]; try (split; [reflexivity|right; reflexivity]).
  destruct t; split; try reflexivity; right; reflexivity.
Qed.
Lemma other_prefix : forall p f l, p <> lit "fn" -> Forall (fun m => exists g, ~ In 58%N g /\ m = lit "fn:" ++ g) l ->
  among (p ++ lit ":" ++ f) l = false.
Proof.
  intros p f l NP F. apply among_in. intro I. rewrite Forall_forall in F. destruct (F _ I) as [g [G E]].
  assert (NC : ~ In 58%N p).
  { apply (count_occ_not_In N.eq_dec). apply (count_occ_not_In N.eq_dec) in G. apply (f_equal (fun s => count_occ N.eq_dec s 58%N)) in E.
    change (lit ":" ++ f) with (58%N :: f) in E. change (lit "fn:" ++ g) with (102%N :: 110%N :: 58%N :: g) in E. rewrite count_occ_app in E.
    cbn [count_occ] in E. destruct (N.eq_dec 58 58) as [_|X]; [|destruct X; reflexivity]. destruct (N.eq_dec 102 58) as [X|_]; [discriminate X|].
    destruct (N.eq_dec 110 58) as [X|_]; [discriminate X|]. lia. }
  apply (f_equal (cut 58)) in E. change (lit ":" ++ f) with (58%N :: f) in E. change (lit "fn:" ++ g) with (lit "fn" ++ 58%N :: g) in E.
  rewrite !cut_app in E by (auto; vm_compute; intuition discriminate). injection E as E _. auto.
Qed.
Ltac fn_rows := repeat (constructor; [eexists; split; [|reflexivity]; vm_compute; intuition discriminate|]); constructor.
Lemma calm_reads : forall w,
  (forall x e, reads x e -> calm w e -> ok_tree w x) /\
  (forall x e, reads_op x e -> calm w e -> ok_tree w x) /\
  (forall x a rest, reads_rel x a rest -> calm w a -> Forall (fun p => calm w (snd p)) rest -> ok_tree w x) /\
  (forall x rest, reads_tail x rest -> Forall (fun p => calm w (snd p)) rest -> ok_tree w x) /\
  (forall rv x ps, reads_preds rv x ps -> Forall (calm w) ps -> ok_tree w x) /\
  (forall x es, reads_args x es -> Forall (calm w) es -> ok_tree w x) /\
  (forall x es, reads_oargs x es -> (forall e, In (Some e) es -> calm w e) -> ok_tree w x) /\
  (forall x es, reads_items x es -> Forall (calm w) es -> ok_tree w x) /\
  (forall x es, reads_entries x es -> Forall (fun p => calm w (fst p) /\ calm w (snd p)) es -> ok_tree w x) /\
  (forall q x bs b, reads_binds q x bs b -> Forall (fun p => calm w (snd p)) bs -> calm w b -> ok_tree w x /\ is_nil x = false).
Proof.
  intro w. apply reads_ind10.
  - intros x e R IH C. apply ok_node; auto using ok_nil.
  - intros k s _. apply ok_leaf; destruct k; reflexivity.
  - intros n _. apply ok_leaf; reflexivity.
  - intros _. apply ok_leaf; reflexivity.
  - intros _. apply ok_node; auto using ok_nil.
  - intros f a args R IH C. assert (H1 := proj1 C _ (part_self _)). cbn [computed_call called] in H1. apply named_ok.
    + apply IH. apply Forall_forall. intros e I. eapply calm_all; eauto.
    + intros ->. auto.
    + intros ->. auto.
    + destruct (proj2 C) as [W|W]; [auto|right]. intro I. apply (W _ (part_self _)). left. exists f. auto.
  - intros o nm x y a b Rx IHx Ry IHy C. apply ok_node; [apply IHx; csub C|apply IHy; csub C|destruct o; reflexivity|].
    destruct (proj2 C) as [W|W]; [auto|right]. specialize (W _ (part_self _)). unfold safe_node.
    rewrite (nonnil _ _ Rx), (nonnil _ _ Ry). destruct o; try reflexivity; exfalso; apply W; left; exact Logic.I.
  - intros m nm x a R IH C. apply ok_node; [apply ok_nil|apply IH; csub C|destruct m; reflexivity|].
    destruct (proj2 C) as [W|W]; [auto|right]. specialize (W _ (part_self _)). unfold safe_node.
    rewrite (nonnil _ _ R). destruct m; try reflexivity. exfalso; apply W; left; reflexivity.
  - intros o x a n R IH C. apply ok_node; [apply IH; csub C| |destruct o; reflexivity|right; unfold safe_node; rewrite (nonnil _ _ R); destruct o; reflexivity].
    destruct o; (apply ok_node; [apply ok_leaf; reflexivity|apply ok_nil|reflexivity|right; reflexivity]).
  - intros c x a n R IH C. apply ok_node; [apply IH; csub C| |destruct c; reflexivity|right; unfold safe_node; rewrite (nonnil _ _ R); destruct c; reflexivity].
    apply ok_node; [apply ok_leaf; reflexivity|apply ok_nil|reflexivity|right; reflexivity].
  - intros n1 n2 x y z c a b Rx IHx Ry IHy Rz IHz C. apply ok_node; [apply IHx; csub C| |reflexivity|right; sn].
    apply ok_node; [apply IHy; csub C|apply IHz; csub C|reflexivity|right; sn].
  - intros nm q v x y e b Rx IHx Ry IHy C. apply ok_node; [apply ok_nil| |destruct q; reflexivity|right; destruct q; reflexivity].
    apply ok_node; [apply IHx; csub C|apply IHy; csub C|destruct q; reflexivity|right]. unfold safe_node. rewrite (nonnil _ _ Rx), (nonnil _ _ Ry).
    destruct q; reflexivity.
  - intros nm v x y e b Rx IHx Ry IHy C. apply ok_node; [apply ok_nil| |reflexivity|right; reflexivity].
    apply ok_node; [apply IHx; csub C|apply IHy; csub C|reflexivity|right; sn].
  - intros f t x ps R IH C. apply ok_node.
    + destruct t; try apply ok_nil; (apply ok_node; [apply ok_leaf; reflexivity|apply ok_nil|reflexivity|right; reflexivity]).
    + apply IH. apply Forall_forall. intros p I. csub C.
    + destruct (form_axis f); reflexivity.
    + right. unfold safe_node. destruct (form_axis f); reflexivity.
  - intros _. apply ok_leaf; reflexivity.
  - intros nm nm' x y a p Rx IHx Ry IHy C. apply ok_node; [apply IHx; csub C| |reflexivity|right; sn].
    apply ok_node; [apply IHy; csub C|apply ok_nil|reflexivity|right; reflexivity].
  - intros nm nm' x y a args Rx IHx Ry IHy C. exfalso. apply (proj1 C _ (part_self _)). exact Logic.I.
  - intros nm nm' _. apply ok_node; [apply ok_leaf; reflexivity|apply ok_nil|reflexivity|right; reflexivity].
  - intros nm x y a rest Rx IHx Ry IHy N C. apply ok_node; [apply IHx; csub C| |reflexivity|right; reflexivity].
    apply IHy. apply Forall_forall. intros [b e] I. cbn. csub C.
  - intros nm nm' y a rest Ry IHy C. apply ok_node; [apply ok_leaf; reflexivity| |reflexivity|right; reflexivity].
    apply IHy; [csub C|]. apply Forall_forall. intros [b e] I. cbn. csub C.
  - intros nm nm' nm'' y a rest Ry IHy C. apply ok_node; [apply ok_leaf; reflexivity| |reflexivity|right; reflexivity].
    apply ok_node; [apply ok_leaf; reflexivity| |reflexivity|right; reflexivity].
    apply IHy; [csub C|]. apply Forall_forall. intros [b e] I. cbn. csub C.
  - (* square *) intros nm y es R IH C. apply ok_node; [|apply ok_nil|reflexivity|right; reflexivity].
    apply IH. apply Forall_forall. intros e I. csub C.
  - intros nm x e R IH C. apply ok_node; [apply IH; csub C|apply ok_nil|reflexivity|right; sn].
  - (* map *) intros nm y es R IH C. apply ok_node; [|apply ok_nil|reflexivity|right; reflexivity].
    apply IH. apply Forall_forall. intros [k v] I. cbn [fst snd]. split; [csub C|]. eapply calm_sub; [|exact C]. eapply part_entry; [exact I|apply part_self].
  - intros nm n C. apply ok_node; [apply ok_leaf; reflexivity|apply ok_nil|reflexivity|right; reflexivity].
  - intros nm d C. apply ok_node; [apply ok_leaf; reflexivity|apply ok_nil|reflexivity|right; reflexivity].
  - intros nm C. apply ok_node; [apply ok_nil|apply ok_nil|reflexivity|].
    destruct (proj2 C) as [W|W]; [auto|right]. exfalso. apply (W _ (part_self _)). right. exact Logic.I.
  - intros nm x e R IH C. apply ok_node; [apply IH; csub C|apply ok_nil|reflexivity|right; sn].
  - (* look *) intros nm x y a k Rx IHx Ry IHy C. apply ok_node; [apply IHx; csub C| |reflexivity|right; reflexivity].
    apply IHy. split.
    + intros b P. inversion P; subst. cbn. intros [H|H]; discriminate H.
    + destruct (proj2 C) as [W|W]; [auto|right]. intros b P. inversion P; subst. intros [H|H].
      * cbn in H. destruct H as [f [H _]]. discriminate H.
      * apply (W _ (part_self _)). right. exact H.
  - intros nm x y a k Rx IHx Ry IHy C. apply ok_node; [apply IHx; csub C| |reflexivity|right; reflexivity].
    assert (CK : calm w k) by (eapply calm_sub; [|exact C]; apply part_lookkey, part_self).
    apply IHy. split.
    + intros b P. inversion P; subst; [cbn; intros [H|H]; discriminate H|]. apply (proj1 CK). auto.
    + destruct (proj2 CK) as [W|W]; [auto|right]. intros b P. inversion P; subst; [|apply W; auto].
      intros [H|H]; [|exact H]. cbn in H. destruct H as [f [H _]]. discriminate H.
  - intros f d C. apply ok_leaf; reflexivity.
  - intros nm nm' x ps b R IH C. apply ok_node; [apply IH; csub C| |reflexivity|right; reflexivity].
    apply ok_node; [split; [reflexivity|right; reflexivity]| |reflexivity|right; reflexivity].
    induction ps as [|p ps IHp]; [apply ok_nil|]. cbn [param_tree]. apply ok_node; [split; [reflexivity|right; reflexivity]| |reflexivity|right; reflexivity].
    apply IHp. eapply calm_fun. exact C.
  - (* arrow *) intros f x a args R IH C. assert (H1 := proj1 C _ (part_self _)). cbn [computed_call called] in H1. apply named_ok.
    + apply IH. constructor; [csub C|]. apply Forall_forall. intros e I. eapply calm_sub; [|exact C]. eapply part_aarg; [exact I|apply part_self].
    + intros ->. auto.
    + intros ->. auto.
    + destruct (proj2 C) as [W|W]; [auto|right]. intro I. apply (W _ (part_self _)). left. exists f. auto.
  - intros nm nm' f x a args R IH C. exfalso. apply (proj1 C _ (part_self _)). exact Logic.I.
  - (* p:f *) intros p f x args R IH C.
    assert (A : ok_tree w x) by (apply IH; apply Forall_forall; intros e I; csub C).
    destruct (list_eq_dec N.eq_dec p (lit "fn")) as [->|NP].
    + assert (H1 := proj1 C _ (part_self _)). change (lit "fn" ++ lit ":" ++ f) with (lit "fn:" ++ f). cbn [computed_call] in H1.
      assert (CF : called (EPCall (lit "fn") f args) = Some f) by reflexivity. rewrite CF in H1. apply named_ok; auto.
      * intros ->. auto.
      * intros ->. auto.
      * destruct (proj2 C) as [W|W]; [auto|right]. intro I. apply (W _ (part_self _)). left. exists f. auto.
    + apply ok_node; auto using ok_nil.
      * cbn [calls]. apply other_prefix; auto. fn_rows.
      * right. unfold safe_node. cbn [forbidden left_needed right_needed]. rewrite other_prefix; [reflexivity|auto|]. fn_rows.
  - intros f x args R IH C. apply ok_node; [apply ok_nil| |reflexivity|right; reflexivity].
    apply IH. intros e I. csub C.
  - intros treat x a t R IH C. apply ok_node; [apply IH; csub C|apply ok_seq|destruct treat; reflexivity|].
    right. unfold safe_node. rewrite (nonnil _ _ R). destruct treat; reflexivity.
  - intros nm q y bs b R IH C. destruct IH as [T N].
    + apply Forall_forall. intros [v e] I. csub C.
    + eapply calm_sub; [|exact C]. apply part_bbody, part_self.
    + apply ok_node; [apply ok_nil|exact T|destruct q as [[]|]; reflexivity|]. right. unfold safe_node. rewrite N. destruct q as [[]|]; reflexivity.
  - intros x e R IH L C. apply ok_node; auto using ok_nil.
  - intros x e R IH L C. auto.
  - intros x a R IH C _. auto.
  - intros nm x y a rest Rx IHx Ry IHy N C F. apply ok_node; auto.
  - intros _. apply ok_nil.
  - intros nm x y e r Rx IHx Ry IHy F. inversion F; subst. apply ok_node; auto.
  - intros nm nm' x y e r Rx IHx Ry IHy F. inversion F; subst. apply ok_node; [apply ok_leaf; reflexivity| |reflexivity|right; reflexivity].
    apply ok_node; auto.
  - intros rv _. apply ok_nil.
  - intros rv nm x y p ps Rx IHx Ry IHy F. inversion F; subst. apply ok_node; auto; destruct rv; auto.
  - intros _. apply ok_nil.
  - intros x e r es Rx IHx Ry IHy F. inversion F; subst. apply ok_node; auto. right. sn.
  - intros _. apply ok_nil.
  - intros x e r es Rx IHx Ry IHy F. apply ok_node; [apply IHx; apply F; left; reflexivity|apply IHy; intros z I; apply F; right; exact I|reflexivity|right; sn].
  - intros nm r es Ry IHy F. apply ok_node; [apply ok_nil|apply IHy; intros z I; apply F; right; exact I|reflexivity|right; reflexivity].
  - intros _. apply ok_nil.
  - intros nm x e r es Rx IHx Ry IHy F. inversion F; subst. apply ok_node; auto. right. sn.
  - intros _. apply ok_nil.
  - intros nm nm' x y k v r es Rx IHx Ry IHy Rr IHr F. inversion F as [|? ? [K V] F']; subst. apply ok_node; auto.
    apply ok_node; auto. right. sn.
  - intros q y b R IH _ C. split; [auto|eapply nonnil; eauto].
  - intros q v x y e bs b Rx IHx Ry IHy F C. inversion F; subst. destruct IHy as [T N]; auto. split; [|reflexivity].
    apply ok_node; auto; [destruct q as [[]|]; reflexivity|]. right. unfold safe_node. rewrite N, (nonnil _ _ Rx). destruct q as [[]|]; reflexivity.
Qed.

Theorem C64_grammar_terminates : forall h i e, session h -> in_document h 0 i -> wf e -> without computed_call e ->
  exists fuel, forall more, fuel <= more -> eval_xpath more h i (source e) <> Fuel.
Proof.
  intros h i e SE I W C. destruct (C42_precedence e W) as [x [CX R]].
  destruct (session_document h SE) as [t [D [T0 O]]]. rewrite <- T0 in *. rewrite (in_document_ids h t) in * by auto.
  exists (S (xsize x)). intros more L E. unfold eval_xpath in E. rewrite CX in E. cbn [bind] in E.
  destruct (proj1 (calm_reads true) x e R (conj C (or_introl eq_refl))) as [ST _].
  assert (G := match_good h t i true false more x D O I (fun _ => eq_refl) (or_intror L) (conj (conj (or_intror ST) (or_introl eq_refl)) Logic.I) (or_introl eq_refl)).
  rewrite E in G. discriminate G.
Qed.
Print Assumptions C64_grammar_terminates.

(* ---- C65: evaluation does not panic ---- *)
Theorem C65_no_panic_partial : forall h i e, session h -> in_document h 0 i -> wf e -> without computed_call e -> without integer_work e ->
  without all_values e -> forall fuel, eval_xpath fuel h i (source e) <> Panic.
Proof.
  intros h i e SE I W C A V fuel E. assert (HZ : without hazard e) by (intros a P [Q|Q]; [exact (A a P Q)|exact (V a P Q)]). destruct (C42_precedence e W) as [x [CX R]].
  destruct (session_document h SE) as [t [D [T0 O]]]. rewrite <- T0 in *. rewrite (in_document_ids h t) in * by auto.
  destruct (proj1 (calm_reads false) x e R (conj C (or_intror HZ))) as [ST [SF|SF]]; [discriminate|].
  assert (N : x <> XNil) by (intro; subst; eapply reads_nil; eauto).
  set (m := S (xsize x) + fuel).
  assert (G := match_good h t i false false m x D O I (fun H => H) (or_intror (ltac:(unfold m; lia) : xsize x < m))
    (conj (conj (or_intror ST) (or_intror SF)) Logic.I) (or_intror N)).
  assert (E2 : eval_xpath m h i (source e) = Panic) by (apply (eval_xpath_fuel h fuel m); [exact E|discriminate|unfold m; lia]).
  unfold eval_xpath in E2. rewrite CX in E2. cbn [bind] in E2. rewrite E2 in G. discriminate G.
Qed.
Print Assumptions C65_no_panic_partial.

(* ---- refutations and examples ---- *)
Definition safe_doc : heap := Eval vm_compute in match new_document (lit "<r><a x=""1"">t</a><b/></r>") with Ok h => h | _ => [] end.
Lemma safe_session : session safe_doc.
Proof. apply ses_parse with (xml := lit "<r><a x=""1"">t</a><b/></r>"). vm_compute. reflexivity. Qed.
Lemma safe_in : in_document safe_doc 0 0.
Proof. left. constructor. Qed.

(* unfinished expressions compile, and evaluating them panics; so do arithmetic overflow and calls with the wrong number of arguments *)
Theorem C65_no_panic_refuted :
  forall xpath, In xpath [lit "1 +"; lit "(1,)"; lit "-"; lit "1 ="; lit "array{}"; lit "function(){}()"; lit "9223372036854775807 + 1";
    lit "-9223372036854775807 - 2"; lit "substring('a', -1e30)"; lit "let $f := function($n) { $n } return $f(1, 2)";
    lit "map{'a': 1}()"; lit "map{[1]: 2}?*"] ->
  (exists x, compile_xpath xpath = Ok x) /\ eval_xpath 30 safe_doc 0 xpath = Panic.
Proof.
  intros s H. repeat (destruct H as [<-|H]; [split; [eexists; vm_compute; reflexivity|vm_compute; reflexivity]|]). destruct H.
Qed.
Print Assumptions C65_no_panic_refuted.

(* functions are dynamically scoped: one can call itself through the variable it is bound to, and never return *)
Definition loop_text : str := lit "let $f := function($n) { $f($n) } return $f(1)".
Definition loop_tree : xnode := Eval vm_compute in match compile_xpath loop_text with Ok x => x | _ => XNil end.
Definition loop_fun : xnode := Eval vm_compute in x_left (x_right loop_tree).
Lemma loop_body : forall h n c e, get_var e (lit "f") = Some [XIFun loop_fun] -> get_var e (lit "n") = Some [XIInteger 1] ->
  eval h n c (x_left loop_fun) e = Fuel.
Proof.
  intros h n. induction n as [n IH] using lt_wf_ind. intros c e F N. destruct n as [|[|n]]; [reflexivity|reflexivity|].
  assert (V1 : eval h (S n) c (leaf X_VarRef (lit "f")) e = Ok ([XIFun loop_fun], e)).
  { cbn [eval]. unfold eval_step. cbn [x_type leaf x_name]. rewrite F. reflexivity. }
  assert (V2 : eval h (S n) c (leaf X_VarRef (lit "n")) e = Ok ([XIInteger 1], e)).
  { cbn [eval]. unfold eval_step. cbn [x_type leaf x_name]. rewrite N. reflexivity. }
  change (x_left loop_fun) with (XNode X_ApplyArgument [] (leaf X_VarRef (lit "f")) (XNode X_ArgumentListTop [] (XNode X_ArgumentTop [] (leaf X_VarRef (lit "n")) XNil) XNil)).
  rewrite eval_S. unfold eval_step. cbn [x_type x_left x_right]. rewrite V1. cbn [bind]. unfold apply_argument. cbn [x_left eval_dyn_args].
  rewrite V2. cbn [bind]. change (xtype_eqb (x_type loop_fun) X_InlineFunction) with true. cbv iota.
  unfold call_inline_func. change (x_right (x_right loop_fun)) with (XNode X_Param (lit "n") (XNode X_SequenceType (lit "*") (leaf X_ItemTest []) XNil) XNil).
  cbn [lefts names bind_args].
  change (match_sequence_type h [XIInteger 1] (XNode X_SequenceType (lit "*") (leaf X_ItemTest []) XNil)) with (Ok true : res bool).
  cbn [bind]. rewrite IH; [reflexivity|lia| |reflexivity]. exact F.
Qed.
Definition loop_call : xnode := Eval vm_compute in x_right (x_right loop_tree).
Lemma loop_start : forall h n c e, get_var e (lit "f") = Some [XIFun loop_fun] -> eval h n c loop_call e = Fuel.
Proof.
  intros h n c e F. destruct n as [|[|n]]; [reflexivity|reflexivity|].
  assert (V1 : eval h (S n) c (leaf X_VarRef (lit "f")) e = Ok ([XIFun loop_fun], e)).
  { cbn [eval]. unfold eval_step. cbn [x_type leaf x_name]. rewrite F. reflexivity. }
  change loop_call with (XNode X_ApplyArgument [] (leaf X_VarRef (lit "f")) (XNode X_ArgumentListTop [] (XNode X_ArgumentTop [] (leaf X_IntegerLiteral (lit "1")) XNil) XNil)).
  rewrite eval_S. unfold eval_step. cbn [x_type x_left x_right]. rewrite V1. cbn [bind]. unfold apply_argument. cbn [x_left eval_dyn_args].
  change (eval h (S n) c (leaf X_IntegerLiteral (lit "1")) e) with (Ok ([XIInteger 1], e) : res (list xitem * env)).
  cbn [bind]. change (xtype_eqb (x_type loop_fun) X_InlineFunction) with true. cbv iota.
  unfold call_inline_func. change (x_right (x_right loop_fun)) with (XNode X_Param (lit "n") (XNode X_SequenceType (lit "*") (leaf X_ItemTest []) XNil) XNil).
  cbn [lefts names bind_args].
  change (match_sequence_type h [XIInteger 1] (XNode X_SequenceType (lit "*") (leaf X_ItemTest []) XNil)) with (Ok true : res bool).
  cbn [bind]. rewrite loop_body; [reflexivity|exact F|reflexivity].
Qed.
Lemma loop_compiles : compile_xpath loop_text = Ok loop_tree.
Proof. vm_compute. reflexivity. Qed.
Theorem C64_terminates_refuted : forall fuel h i, eval_xpath fuel h i loop_text = Fuel.
Proof.
  intros fuel h i. unfold eval_xpath. rewrite loop_compiles. cbn [bind]. unfold match_xpath.
  change loop_tree with (XNode X_LetExpr (lit "let") XNil (XNode X_LetVarBind (lit "f") loop_fun loop_call)).
  destruct fuel as [|[|[|n]]]; try reflexivity.
  rewrite eval_S. unfold eval_step at 1. cbn [x_type x_right]. rewrite eval_S. unfold eval_step at 1. cbn [x_type x_right x_left x_name].
  change (eval h (S n) [XINode i] loop_fun new_eval_env) with (Ok ([XIFun loop_fun], new_eval_env) : res (list xitem * env)). cbn [bind].
  rewrite loop_start by reflexivity. reflexivity.
Qed.
Print Assumptions C64_terminates_refuted.

Lemma without_call : forall bad f args, ~ bad (ECall f args) -> Forall (without bad) args -> without bad (ECall f args).
Proof. intros bad f args B F a P. rewrite Forall_forall in F. inversion P; subst; [exact B|]. eapply F; eauto. Qed.
Lemma without_bin : forall bad o x y, ~ bad (EBin o x y) -> without bad x -> without bad y -> without bad (EBin o x y).
Proof. intros bad o x y B X Y a P. inversion P; subst; [exact B|apply X|apply Y]; auto. Qed.
Lemma without_lit : forall bad k s, ~ bad (ELit k s) -> without bad (ELit k s).
Proof. intros bad k s B a P. inversion P; subst. exact B. Qed.
Lemma without_step : forall bad f t ps, ~ bad (EStep f t ps) -> Forall (without bad) ps -> without bad (EStep f t ps).
Proof. intros bad f t ps B F a P. rewrite Forall_forall in F. inversion P; subst; [exact B|]. eapply F; eauto. Qed.
Lemma without_path : forall bad s x rest, ~ bad (EPath s x rest) -> without bad x -> Forall (fun p => without bad (snd p)) rest -> without bad (EPath s x rest).
Proof.
  intros bad s x rest B X F a P. rewrite Forall_forall in F. inversion P; subst; [exact B|apply X; auto|]. eapply (F (b, e)); eauto.
Qed.
Ltac nopart := repeat first [apply without_path|apply without_step|apply without_bin|apply without_call|apply without_lit|constructor]; cbn [computed_call integer_work all_values]; auto.
(* //a[string-length(name()) eq 1] *)
Definition safe_expr : expr :=
  EPath S_all (EStep F_child (N_name (lit "a")) [EBin O_eq (ECall (lit "string-length") [ECall (lit "name") []]) (ELit L_integer (lit "1"))]) [].
Example C64_example : wf safe_expr /\ without computed_call safe_expr /\ without integer_work safe_expr /\ without all_values safe_expr /\
  session safe_doc /\ in_document safe_doc 0 0 /\ exists n, eval_xpath 20 safe_doc 0 (source safe_expr) = Ok [XINode n] /\ in_document safe_doc 0 n.
Proof.
  assert (D : lexical L_integer (lit "1")) by (constructor; [discriminate|repeat constructor]).
  split; [|split; [|split; [|split; [|split; [exact safe_session|split; [exact safe_in|]]]]]].
  - cbn [safe_expr wf snd].
    split; [discriminate|]. split; [|exact Logic.I]. split; [pname|]. split; [|exact Logic.I].
    split; [|split; [exact D|intros _; vm_compute; reflexivity]].
    split; [pname|]. split; [vm_compute; reflexivity|]. split; [|exact Logic.I]. split; [pname|]. split; [vm_compute; reflexivity|exact Logic.I].
  - nopart; intros [H|H]; vm_compute in H; discriminate H.
  - nopart; intros [f [E H]]; try discriminate E; injection E as <-; vm_compute in H; repeat (destruct H as [H|H]; [discriminate H|]); destruct H.
  - nopart.
  - exists 2. split; [vm_compute; reflexivity|].
    apply (C66_result_nodes safe_doc 0 (source safe_expr) 20 [XINode 2] (XINode 2) 2 safe_session safe_in); [vm_compute; reflexivity|left; reflexivity|constructor].
Qed.

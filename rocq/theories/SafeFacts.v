(* Which outcomes are possible: evaluation neither runs out of fuel nor panics, and stays inside the document. *)
Require Import Bool List NArith ZArith Ascii String Lia.
From Verif Require Import Str StrFacts Chars Sax Dom SpecTree SpecEdit HeapFacts BuildFacts DocFacts EditFacts OrderFacts SessionFacts
  Axes SpecAxes AxesFacts Lexer FuncTable Parser Num Item Func Types Eval EvalFacts SpecOper ItemFacts SpecTypes TypeFacts.
Import ListNotations.
Open Scope nat_scope.

(* [pan]: panics are tolerated; [fu]: running out of fuel is tolerated *)
Definition good {A} (pan fu : bool) (P : A -> Prop) (r : res A) : Prop :=
  match r with Ok a => P a | Err _ => True | Panic => pan = true | Fuel => fu = true end.
Lemma good_bind : forall A B pan fu (P : A -> Prop) (Q : B -> Prop) r f, good pan fu P r -> (forall a, P a -> good pan fu Q (f a)) ->
  good pan fu Q (bind r f).
Proof. intros A B pan fu P Q [a|k| |] f G H; cbn in *; auto. Qed.
Lemma good_weaken : forall A pan fu (P Q : A -> Prop) r, good pan fu P r -> (forall a, P a -> Q a) -> good pan fu Q r.
Proof. intros A pan fu P Q [a|k| |] G H; cbn in *; auto. Qed.
Lemma good_any : forall A pan fu (r : res A), r <> Fuel -> r <> Panic -> good pan fu (fun _ => True) r.
Proof. intros A pan fu [a|k| |] H K; cbn; auto; congruence. Qed.
Lemma good_map_res : forall A B pan fu (P : A -> Prop) (Q : B -> Prop) (f : A -> res B) l, Forall P l ->
  (forall a, P a -> good pan fu Q (f a)) -> good pan fu (Forall Q) (map_res f l).
Proof.
  intros A B pan fu P Q f l F H. induction F as [|a l Pa F IH]; cbn [map_res]; [constructor|].
  eapply good_bind; [apply H; auto|]. intros b Qb. eapply good_bind; [exact IH|]. intros bs Qbs. cbn. constructor; auto.
Qed.

Definition typed_ok (ty : xtype) (r : xnode) : bool := negb (xtype_eqb ty X_TypedFunctionTest) || negb (is_nil r).
Fixpoint types_ok (x : xnode) : bool :=
  match x with XNil => true | XNode ty _ l r => typed_ok ty r && types_ok l && types_ok r end.

(* ---- sequence types never panic when every typed function test has its return type ---- *)
Lemma types_left : forall x, types_ok x = true -> types_ok (x_left x) = true.
Proof. intros [|ty nm l r] H; cbn in *; auto. apply andb_prop in H. destruct H as [H _]. apply andb_prop in H. tauto. Qed.
Lemma types_right : forall x, types_ok x = true -> types_ok (x_right x) = true.
Proof. intros [|ty nm l r] H; cbn in *; auto. apply andb_prop in H. tauto. Qed.
Lemma types_lefts : forall x y, types_ok x = true -> In y (lefts x) -> types_ok y = true.
Proof.
  induction x as [|ty nm l IHl r IHr]; intros y H I; cbn in *; [destruct I|]. apply andb_prop in H. destruct H as [H R].
  apply andb_prop in H. destruct H as [_ L]. destruct I as [<-|I]; auto.
Qed.
Lemma bind_panic : forall A B (r : res A) (f : A -> res B), r <> Panic -> (forall a, f a <> Panic) -> bind r f <> Panic.
Proof. intros A B [a|k| |] f H K; cbn; auto; congruence. Qed.
Lemma or_res_panic : forall c k, c <> Panic -> k <> Panic -> or_res c k <> Panic.
Proof. intros c k C K. unfold or_res. apply bind_panic; auto. intros []; auto; discriminate. Qed.
Lemma all2_panic : forall f l m, (forall a b, In a l -> In b m -> f a b <> Panic) -> all2 f l m <> Panic.
Proof.
  intros f l. induction l as [|a l IH]; intros [|b m] H; cbn [all2]; try discriminate.
  apply bind_panic; [apply H; left; auto|]. intro. apply bind_panic; [|discriminate]. apply IH. intros; apply H; right; auto.
Qed.
Lemma itemtype_panic : forall n a b, types_ok a = true -> types_ok b = true -> itemtype_fuel n a b <> Panic.
Proof.
  induction n as [|n IH]; intros a b A B; [discriminate|]. cbn [itemtype_fuel].
  assert (S1 : forall u v, types_ok u = true -> types_ok v = true -> subtype_body (itemtype_fuel n) u v <> Panic).
  { intros u v U V. unfold subtype_body. destruct (subtype_tbl _ _); try discriminate. apply IH; apply types_left; auto. }
  assert (BOTH : forall ka kb va vb, types_ok ka = true -> types_ok kb = true -> types_ok va = true -> types_ok vb = true ->
    both (subtype_body (itemtype_fuel n)) (itemtype_fuel n) ka kb va vb <> Panic).
  { intros. unfold both. apply bind_panic; [apply IH; auto|]. intros []; [|discriminate]. apply S1; auto. }
  assert (AL := types_left _ A). assert (AR := types_right _ A). assert (BL := types_left _ B). assert (BR := types_right _ B).
  assert (BRL := types_left _ BR). assert (BRR := types_right _ BR). assert (BRRL := types_left _ BRR). assert (BRRLL := types_left _ BRRL).
  unfold itemtype_body.
  destruct (_ && _ && _); [discriminate|]. destruct (xtype_eqb (x_type b) X_ItemTest); [discriminate|].
  destruct (kind_rule a b); [discriminate|]. destruct (xtype_eqb (x_type b) X_AnyFunctionTest && _); [discriminate|].
  apply or_res_panic.
  { unfold function_rule. destruct (_ && _) eqn:E; [|discriminate].
    apply andb_prop in E. destruct E as [E1 E2]. apply xtype_eqb_eq in E1, E2.
    assert (NA : exists u ats, lefts (x_right a) = u :: ats).
    { destruct a as [|ty nm l r]; [discriminate E2|]. cbn in E2. subst ty. cbn [types_ok] in A. apply andb_prop in A. destruct A as [A _]. apply andb_prop in A.
      destruct A as [A _]. unfold typed_ok in A. rewrite (proj2 (xtype_eqb_eq _ _) eq_refl) in A. cbn in *. destruct r; [discriminate A|]. cbn. eauto. }
    destruct (Nat.eqb _ _) eqn:L; [|discriminate]. destruct NA as [u [ats Ea]]. apply Nat.eqb_eq in L.
    assert (LA := fun y => types_lefts _ y AR). assert (LB := fun y => types_lefts _ y BR). rewrite Ea in *.
    destruct (lefts (x_right b)) as [|v bs]; [discriminate L|].
    apply bind_panic; [apply S1; [apply LA|apply LB]; left; auto|]. intro. apply bind_panic; [|discriminate].
    apply all2_panic. intros p q P Q. apply S1; [apply LB|apply LA]; right; auto. }
  apply or_res_panic; [destruct (_ && _); [apply BOTH; auto|discriminate]|].
  destruct (_ && _); [discriminate|].
  apply or_res_panic; [destruct (_ && _); [apply BOTH; auto|discriminate]|].
  apply or_res_panic; [destruct (_ && _); [apply S1; auto|discriminate]|].
  destruct (_ && _); [discriminate|]. destruct (_ && _); [|discriminate]. apply S1; auto.
Qed.
Lemma subtype_panic : forall a b, types_ok a = true -> types_ok b = true -> subtype a b <> Panic.
Proof.
  intros a b A B. unfold subtype, subtype_body. destruct (subtype_tbl _ _); try discriminate. apply itemtype_panic; apply types_left; auto.
Qed.
Lemma match_signature_panic : forall w first c, (forall y, In y w -> types_ok y = true) -> (forall y, In y c -> types_ok y = true) ->
  match_signature first w c <> Panic.
Proof.
  induction w as [|x w IH]; intros first [|y c] W C; cbn [match_signature]; try discriminate.
  apply bind_panic; [destruct first; apply subtype_panic; auto with datatypes|]. intros []; [|discriminate].
  apply IH; intros; auto with datatypes.
Qed.
Definition sig_types (s : str) : bool :=
  match (do v <- lexer_new s; do (t, _) <- parse_function_test parse_item_type (tokens_of v); Ok t) with
  | Ok t => types_ok t | _ => true end.
Lemma sigs_types : forallb (fun p => sig_types (snd p)) func_signature_tbl = true.
Proof. vm_compute. reflexivity. Qed.
Lemma signature_types : forall x o, types_ok x = true -> signature_of x = Ok (Some o) -> types_ok o = true.
Proof.
  intros x o X E. unfold signature_of in E. destruct (x_type x); try discriminate E; try (injection E as <-; exact X).
  unfold get_function_signature in E. destruct (signature_lookup_in (x_name x) func_signature_tbl) as [R|[m I]].
  - rewrite R in E. discriminate E.
  - assert (F := sigs_types). rewrite forallb_forall in F. specialize (F _ I). cbn [snd] in F. unfold sig_types in F.
    destruct (str_eqb _ []); [discriminate E|].
    destruct (lexer_new _) as [v| | |]; cbn [bind] in *; try discriminate.
    destruct (parse_function_test _ _) as [[t q]| | |]; cbn [bind] in *; try discriminate. injection E as <-. exact F.
Qed.
Lemma forall_res_panic : forall A (P : A -> Prop) (f : A -> res bool) l, Forall P l -> (forall a, P a -> f a <> Panic) -> forall_res f l <> Panic.
Proof. intros A P f l F H. induction F; cbn [forall_res]; [discriminate|]. apply bind_panic; auto. intros []; auto; discriminate. Qed.

(* ---- walking through the document ---- *)
Section Walk.
  Variable h : heap.
  Variable t : tree.
  Hypothesis DO : document h t.
  Hypothesis OK : order_ok h t.
  Variables pan fu : bool.
  Definition inside (i : nat) : Prop := In i (ids t).

  Lemma kids_inside : forall i c, inside i -> In c (children h i) -> inside c.
  Proof.
    intros i c I C. assert (R := proj1 DO). destruct (ids_cases t i I) as [[fs [s [E <-]]]|[fs [s [E Ha]]]]; rewrite E in R.
    - destruct (fill_get h fs s R) as [o [_ [Hg _]]]. unfold children in C. rewrite Hg in C. cbn [n_children] in C.
      apply in_map_iff in C. destruct C as [k [<- Hk]]. destruct (fill_kid fs s k Hk) as [f [E1 _]].
      unfold inside. rewrite E, E1. apply fill_ids_in, tid_in_ids.
    - destruct (fill_attr_get h fs s i R Ha) as [o [n [v [_ [_ Hg]]]]]. unfold children in C. rewrite Hg in C. destruct C.
  Qed.
  Lemma attrs_inside : forall i a, inside i -> In a (attributes h i) -> inside a.
  Proof.
    intros i c I C. assert (R := proj1 DO). destruct (ids_cases t i I) as [[fs [s [E <-]]]|[fs [s [E Ha]]]]; rewrite E in R.
    - destruct (fill_get h fs s R) as [o [_ [Hg _]]]. unfold attributes in C. rewrite Hg in C. cbn [n_attrs] in C.
      unfold inside. rewrite E, ids_fill. apply in_or_app. right. apply in_or_app. left. destruct s. cbn [ids tattrs] in *. right. apply in_or_app. auto.
    - destruct (fill_attr_get h fs s i R Ha) as [o [n [v [_ [_ Hg]]]]]. unfold attributes in C. rewrite Hg in C. destruct C.
  Qed.
  Lemma parent_inside : forall i p, inside i -> parent h i = Some p -> inside p.
  Proof.
    intros i p I P. assert (R := proj1 DO). destruct (ids_cases t i I) as [[fs [s [E <-]]]|[fs [s [E Ha]]]]; rewrite E in R.
    - destruct (fill_get h fs s R) as [o [_ [Hg _]]]. unfold parent in P. rewrite Hg in P. cbn [n_parent] in P.
      destruct fs as [|f fs]; [discriminate P|]. cbn in P. injection P as <-. unfold inside. rewrite E. cbn [fill].
      change (f_id f) with (tid (plug f s)). apply fill_ids_in, tid_in_ids.
    - destruct (fill_attr_get h fs s i R Ha) as [o [n [v [_ [_ Hg]]]]]. unfold parent in P. rewrite Hg in P. cbn in P. injection P as <-.
      unfold inside. rewrite E. apply fill_ids_in, tid_in_ids.
  Qed.
  Lemma root_inside : forall i, inside i -> Dom.root h i = Ok (tid t) /\ inside (tid t).
  Proof. intros i I. split; [apply root_document; auto|apply tid_in_ids]. Qed.

  Lemma ancestors_loop_ok : forall n i r, root_loop n h i = Ok r -> inside i -> exists l, ancestors_fuel n h i = Ok l /\ Forall inside l.
  Proof.
    induction n as [|n IH]; intros i r E I; [discriminate|]. cbn [root_loop ancestors_fuel] in *. unfold parent in *.
    destruct (n_parent (Dom.get h i)) as [p|] eqn:P; [|exists []; split; [reflexivity|constructor]].
    assert (Ip : inside p) by (apply (parent_inside i); auto).
    destruct (IH p r E Ip) as [l [-> F]]. cbn [bind]. eexists. split; [reflexivity|]. apply Forall_app. split; auto.
  Qed.
  Lemma ancestors_ok : forall i, inside i -> exists l, array_ancestor h i = Ok l /\ Forall inside l.
  Proof. intros i I. unfold array_ancestor. destruct (root_inside i I) as [E _]. eapply ancestors_loop_ok; eauto. Qed.
  Lemma ancestors_self_ok : forall i, inside i -> exists l, array_ancestor_or_self h i = Ok l /\ Forall inside l.
  Proof.
    intros i I. unfold array_ancestor_or_self. destruct (ancestors_ok i I) as [l [-> F]]. cbn [bind]. eexists. split; [reflexivity|].
    apply Forall_app. auto.
  Qed.
  Lemma namespace_ok : forall i, inside i -> exists s, namespace_uri h i = Ok s.
  Proof.
    intros i I. unfold namespace_uri. cbv zeta. destruct (root_inside i I) as [E _]. unfold Dom.root in E. revert E.
    match goal with |- context [namespace_uri_loop _ _ _ ?x] => generalize x end. generalize (tid t). clear I. revert i.
    induction (S (List.length h)) as [|n IH]; intros i r x E; [discriminate|]. cbn [root_loop namespace_uri_loop] in *.
    destruct (node_type_eqb _ _); [eauto|]. destruct (attribute_value _ _ _); [eauto|]. destruct (n_parent _); eauto.
  Qed.
  Lemma descendants_inside : forall n i, inside i -> match descendants_fuel n h i with Ok l => Forall inside l | _ => True end.
  Proof.
    induction n as [|n IH]; intros i I; [exact Logic.I|]. cbn [descendants_fuel].
    assert (K : Forall inside (children h i)) by (apply Forall_forall; intros c C; eapply kids_inside; eauto).
    induction K as [|c cs Hc K IHk]; [constructor|]. specialize (IH c Hc). destruct (descendants_fuel n h c) as [l| | |]; cbn [bind]; auto.
    destruct ((fix kids (cs0 : list nat) : res (list nat) := _) cs) as [r| | |]; cbn [bind]; auto.
    constructor; auto. apply Forall_app; auto.
  Qed.
  Lemma descendants_ok : forall i, inside i -> exists l, array_descendant h i = Ok l /\ Forall inside l.
  Proof.
    intros i I. assert (K := descendants_inside (S (List.length h)) i I). unfold array_descendant in *.
    destruct (ids_cases t i I) as [[fs [s [E <-]]]|[fs [s [E Ha]]]].
    - rewrite E in DO. destruct (descendants_document h fs s DO) as [Q _]. unfold array_descendant in Q. rewrite Q in *. eauto.
    - assert (R := proj1 DO). rewrite E in R. destruct (fill_attr_get h fs s i R Ha) as [o [n [v [_ [_ Hg]]]]].
      cbn [descendants_fuel]. unfold children. rewrite Hg. exists []. auto.
  Qed.
  Lemma descendants_self_ok : forall i, inside i -> exists l, array_descendant_or_self h i = Ok l /\ Forall inside l.
  Proof.
    intros i I. unfold array_descendant_or_self. destruct (descendants_ok i I) as [l [-> F]]. cbn [bind]. eauto.
  Qed.
  Lemma following_loop_in : forall self dos l oc, Forall inside l -> Forall inside (following_loop self dos oc l).
  Proof. intros self dos l. induction l as [|c l IH]; intros oc F; inversion F; subst; cbn [following_loop]; auto. destruct (_ && _); auto. Qed.
  Lemma preceding_loop_in : forall self dos l oc, Forall inside l -> Forall inside (preceding_loop self dos oc l).
  Proof. intros self dos l. induction l as [|c l IH]; intros oc F; inversion F; subst; cbn [preceding_loop]; auto. destruct (_ && _); auto. Qed.
  Lemma after_self_in : forall self l oc, Forall inside l -> Forall inside (after_self self oc l).
  Proof. intros self l. induction l as [|c l IH]; intros oc F; inversion F; subst; cbn [after_self]; auto. destruct oc; auto. Qed.
  Lemma before_self_in : forall self l oc, Forall inside l -> Forall inside (before_self self oc l).
  Proof. intros self l. induction l as [|c l IH]; intros oc F; inversion F; subst; cbn [before_self]; auto. destruct (_ || _); auto. Qed.
  Lemma along_in : forall x l, Forall inside l -> Forall inside (along h x l).
  Proof. intros x l F. unfold along. apply Forall_forall. intros y Y. apply filter_In in Y. rewrite Forall_forall in F. apply F. tauto. Qed.
  Lemma axis_good : forall i x, inside i -> good pan fu (Forall inside) (axis_nodes h i x).
  Proof.
    intros i x I. unfold axis_nodes.
    assert (CH : Forall inside (children h i)) by (apply Forall_forall; intros c C; eapply kids_inside; eauto).
    assert (AT : Forall inside (attributes h i)) by (apply Forall_forall; intros c C; eapply attrs_inside; eauto).
    assert (SB : forall p, parent h i = Some p -> Forall inside (children h p)).
    { intros p P. apply Forall_forall. intros c C. eapply kids_inside; [|exact C]. eapply parent_inside; eauto. }
    destruct (ancestors_ok i I) as [la [Ea Fa]]. destruct (ancestors_self_ok i I) as [las [Eas Fas]].
    destruct (descendants_ok i I) as [ld [Ed Fd]]. destruct (descendants_self_ok i I) as [lds [Eds Fds]].
    destruct (root_inside i I) as [Er Ir]. destruct (descendants_self_ok (tid t) Ir) as [lr [Edr Fdr]].
    assert (FO : good pan fu (Forall inside) (do l <- array_following h i; Ok (along h x l))).
    { unfold array_following. destruct (is_attribute h i); [cbn [bind good]; apply along_in; constructor|].
      rewrite Er. cbn [bind]. rewrite Edr. cbn [bind]. rewrite Eds. cbn [bind good]. apply along_in, following_loop_in; auto. }
    assert (PR : good pan fu (Forall inside) (do l <- array_preceding h i; Ok (along h x l))).
    { unfold array_preceding. destruct (is_attribute h i); [cbn [bind good]; apply along_in; constructor|].
      rewrite Er. cbn [bind]. rewrite Edr. cbn [bind]. rewrite Ea. cbn [bind good]. apply along_in, preceding_loop_in; auto. }
    assert (FS : Forall inside (array_following_sibling h i)).
    { unfold array_following_sibling. destruct (is_attribute h i); [constructor|]. destruct (parent h i) eqn:P; [|constructor].
      apply after_self_in; auto. }
    assert (PS : Forall inside (array_preceding_sibling h i)).
    { unfold array_preceding_sibling. destruct (is_attribute h i); [constructor|]. destruct (parent h i) eqn:P; [|constructor].
      apply before_self_in; auto. }
    assert (PA : Forall inside (array_parent h i)).
    { unfold array_parent. destruct (parent h i) eqn:P; constructor; [|constructor]. apply (parent_inside i); auto. }
    assert (RO : good pan fu (Forall inside) (do r <- Dom.root h i; Ok [r])) by (rewrite Er; constructor; auto).
    destruct (x_type x); try exact Logic.I; auto; rewrite ?Ea, ?Eas, ?Ed, ?Eds; cbn [bind good]; apply along_in; auto.
  Qed.
  Lemma sort_good : forall l, Forall inside l -> good pan fu (Forall inside) (sort_by_doc_order h l).
  Proof.
    intros l F. rewrite Forall_forall in F. destruct (sort_spec h t l DO OK F) as [l' [-> [E _]]]. cbn.
    apply Forall_forall. intros x X. apply F, E, X.
  Qed.
  Lemma doc_num_good : forall i, inside i -> good pan fu (fun _ => True) (doc_num h i).
  Proof.
    intros i I. destruct (document_order_all h t DO OK) as [h1 [D1 [SS DN]]]. unfold doc_num. rewrite DN by auto. exact Logic.I.
  Qed.

  (* what is known of every function item besides *)
  Variable FUNOK : xnode -> Prop.
  (* ---- items ---- *)
  Inductive item_in : xitem -> Prop :=
  | in_node : forall i, inside i -> item_in (XINode i)
  | in_fun : forall x, pan = true \/ types_ok x = true -> FUNOK x -> item_in (XIFun x)
  | in_map : forall m, Forall (fun e => item_in (fst e) /\ Forall item_in (snd e)) m -> item_in (XIMap m)
  | in_array : forall a, Forall (Forall item_in) a -> item_in (XIArray a)
  | in_string : forall s, item_in (XIString s)
  | in_integer : forall z, item_in (XIInteger z)
  | in_decimal : forall f, item_in (XIDecimal f)
  | in_double : forall f, item_in (XIDouble f)
  | in_boolean : forall b, item_in (XIBoolean b).
  Notation seq_in := (Forall item_in) (only parsing).
  Hint Constructors item_in : core.

  Lemma seq_nodes_in : forall l, Forall inside l -> seq_in (seq_of_nodes l).
  Proof. intros l F. unfold seq_of_nodes. induction F; cbn; auto. Qed.
  Lemma to_nodeset_in : forall s, seq_in s -> Forall inside (to_nodeset s).
  Proof.
    intros s F. unfold to_nodeset. induction F as [|it s I F IH]; cbn; auto. apply Forall_app. split; auto.
    destruct I; auto.
  Qed.
  Lemma atomize_in : forall s, seq_in s -> seq_in (atomize h s).
  Proof. intros s F. unfold atomize. induction F as [|it s I F IH]; cbn; constructor; auto. destruct I; cbn; auto. Qed.
  Lemma firstn_in : forall A (P : A -> Prop) n l, Forall P l -> Forall P (firstn n l).
  Proof. induction n as [|n IH]; intros l F; cbn; auto. destruct F; auto. Qed.
  Lemma skipn_in : forall A (P : A -> Prop) n l, Forall P l -> Forall P (skipn n l).
  Proof. induction n as [|n IH]; intros l F; cbn; auto. destruct F; auto. Qed.
  Lemma count_up_in : forall n z, seq_in (count_up n z).
  Proof. induction n; intros; cbn [count_up]; auto. Qed.
  Lemma raw_string_good : forall it, good pan fu (fun _ => True) (get_as_raw_string h it).
  Proof. intros []; cbn; auto. destruct f as [| [] | | ]; cbn; auto. Qed.
  Lemma raw_double_good : forall it, good pan fu (fun _ => True) (get_as_raw_double h it).
  Proof. intros []; cbn; auto. Qed.
  Lemma raw_integer_good : forall it, good pan fu (fun _ => True) (get_as_raw_integer h it).
  Proof. intros []; cbn; auto. Qed.
  Lemma raw_boolean_good : forall it, good pan fu (fun _ => True) (get_as_raw_boolean h it).
  Proof. intros []; cbn; auto; unfold bool_of_str; destruct (_ || _); cbn; auto; destruct (_ || _); cbn; auto. Qed.
  Lemma cast_item_good : forall it ty, good pan fu item_in (cast_item h it ty).
  Proof.
    intros it ty. unfold cast_item.
    repeat match goal with |- context [if ?b then _ else _] => destruct b end; try exact Logic.I.
    - eapply good_bind; [apply raw_string_good|]. intros; cbn; auto.
    - eapply good_bind; [apply raw_double_good|]. intros; cbn; auto.
    - eapply good_bind; [apply raw_double_good|]. intros; cbn; auto.
    - eapply good_bind; [apply raw_integer_good|]. intros; cbn; auto.
    - eapply good_bind; [apply raw_boolean_good|]. intros; cbn; auto.
  Qed.
  Lemma cast_as_good : forall s ty, good pan fu seq_in (cast_as h s ty).
  Proof.
    intros [|it [|it2 s]] ty; cbn [cast_as]; try exact Logic.I.
    - destruct (ends_with_q ty); cbn; auto.
    - assert (G := cast_item_good (atomize1 h it) (trim_q ty)). destruct (cast_item _ _ _); cbn in *; auto.
  Qed.
  Lemma item_good : forall s, seq_in s -> good pan fu item_in (get_singleton_item s).
  Proof. intros s F. destruct F as [|it s I F]; cbn; auto. destruct F; cbn; auto. Qed.
  Lemma node_good : forall s, seq_in s -> good pan fu inside (get_singleton_node s).
  Proof. intros s F. destruct F as [|it s I F]; cbn; auto. destruct I; cbn; auto; destruct F; cbn; auto. Qed.
  Lemma string_good : forall s, good pan fu (fun _ => True) (get_singleton_string s).
  Proof. intros [|[] []]; cbn; auto. Qed.
  Lemma integer_good : forall s, good pan fu (fun _ => True) (get_singleton_integer s).
  Proof. intros [|[] []]; cbn; auto. Qed.
  Lemma boolean_good : forall s, good pan fu (fun _ => True) (get_singleton_boolean s).
  Proof. intros [|[] []]; cbn; auto. Qed.
  Lemma map_good : forall s, seq_in s -> good pan fu (Forall (fun e => item_in (fst e) /\ Forall item_in (snd e))) (get_singleton_map s).
  Proof. intros s F. destruct F as [|it s I F]; cbn; auto. destruct I; cbn; auto; destruct F; cbn; auto. Qed.
  Lemma array_good : forall s, seq_in s -> good pan fu (Forall (Forall item_in)) (get_singleton_array s).
  Proof. intros s F. destruct F as [|it s I F]; cbn; auto. destruct I; cbn; auto; destruct F; cbn; auto. Qed.
  Lemma ebv_good : forall s, good pan fu (fun _ => True) (effective_boolean_value s).
  Proof. intros [|[] []]; cbn; auto. Qed.
  Lemma xmap_get_in : forall m k v, Forall (fun e => item_in (fst e) /\ Forall item_in (snd e)) m -> xmap_get h m k = Some v -> seq_in v.
  Proof.
    intros m k v F E. unfold xmap_get in E. destruct (find _ m) as [[a b]|] eqn:D; [|discriminate]. cbn in E. injection E as <-.
    apply find_some in D. rewrite Forall_forall in F. destruct (F _ (proj1 D)). auto.
  Qed.
  Lemma xarray_get_in : forall a k v, Forall (Forall item_in) a -> xarray_get h a k = Some v -> seq_in v.
  Proof.
    intros a k v F E. unfold xarray_get in E. destruct (get_as_raw_integer h k); try discriminate. destruct (_ && _); [|discriminate].
    apply nth_error_In in E. rewrite Forall_forall in F. auto.
  Qed.
  Lemma flat_map_in : forall A B (P : A -> Prop) (Q : B -> Prop) f l, Forall P l -> (forall a, P a -> Forall Q (f a)) -> Forall Q (flat_map f l).
  Proof. intros A B P Q f l F H. induction F; cbn; auto. apply Forall_app; auto. Qed.
  Lemma flatten1_in : forall it, item_in it -> seq_in (flatten1 it).
  Proof.
    fix IH 2. intros it I. destruct I; cbn [flatten1]; auto.
    induction H as [|s a Hs H IHa]; cbn [flat_map]; [constructor|]. apply Forall_app. split; [|exact IHa]. clear IHa H.
    induction Hs as [|it s Hi Hs IHs]; cbn [flat_map]; [constructor|]. apply Forall_app. split; [apply IH; exact Hi|exact IHs].
  Qed.
  Lemma flatten_in : forall a, Forall (Forall item_in) a -> seq_in (xarray_flatten a).
  Proof. intros a F. eapply flat_map_in; [exact F|]. intros s Fs. eapply flat_map_in; [exact Fs|]. apply flatten1_in. Qed.
  Lemma keys_in : forall m, Forall (fun e => item_in (fst e) /\ Forall item_in (snd e)) m -> seq_in (xmap_keys m).
  Proof. intros m F. unfold xmap_keys. induction F as [|e m [K V] F IH]; cbn; auto. Qed.

  (* ---- comparisons ---- *)
  Lemma sing_bool_in : forall b, seq_in (sing_bool b).
  Proof. intro b. unfold sing_bool. auto. Qed.
  Hint Resolve sing_bool_in : core.
  Definition bools (s : list xitem) : Prop := s = [] \/ exists b, s = [XIBoolean b].
  Lemma bools_in : forall s, bools s -> seq_in s.
  Proof. intros s [->|[b ->]]; auto. Qed.
  Lemma compare_bools : forall num sc bo l r, (forall x y v, num x y = Ok v -> bools v) -> (forall x y v, bo x y = Ok v -> bools v) ->
    good pan fu bools (value_comparison h num sc bo l r).
  Proof.
    intros num sc bo l r N B. unfold value_comparison.
    destruct l as [|a [|a2 l]], r as [|b [|b2 r]]; try (left; reflexivity); try exact Logic.I.
    destruct (num _ _) eqn:En; [exact (N _ _ _ En)| | |];
      (destruct (fn_compare _ _); [eapply good_bind; [apply integer_good|]; intros; right; eexists; reflexivity| | |];
       (destruct (bo _ _) eqn:Eb; [exact (B _ _ _ Eb)| | |]; exact Logic.I)).
  Qed.
  Lemma numeric_bools : forall f x y v, op_numeric_comparison f x y = Ok v -> bools v.
  Proof.
    intros f x y v E. unfold op_numeric_comparison in E. destruct (get_singleton_item x); cbn in E; try discriminate.
    destruct (get_singleton_item y); cbn in E; try discriminate. destruct (f _ _); cbn in E; try discriminate. injection E as <-. right. eexists; reflexivity.
  Qed.
  Lemma boolean_bools : forall f x y v, op_boolean f x y = Ok v -> bools v.
  Proof.
    intros f x y v E. unfold op_boolean in E. destruct (get_singleton_boolean x); cbn in E; try discriminate.
    destruct (get_singleton_boolean y); cbn in E; try discriminate. injection E as <-. right. eexists; reflexivity.
  Qed.
  Lemma compare_eq_bools : forall l r, good pan fu bools (value_compare_eq h l r).
  Proof. intros. apply compare_bools; [apply numeric_bools|apply boolean_bools]. Qed.
  Lemma compare_lt_bools : forall l r, good pan fu bools (value_compare_lt h l r).
  Proof. intros. apply compare_bools; [apply numeric_bools|apply boolean_bools]. Qed.
  Lemma compare_gt_bools : forall l r, good pan fu bools (value_compare_gt h l r).
  Proof. intros. apply compare_bools; [apply numeric_bools|apply boolean_bools]. Qed.
  Lemma not_bools : forall s, good pan fu bools (fn_not s).
  Proof. intro s. unfold fn_not. eapply good_bind; [apply ebv_good|]. intros b _. right. eexists. reflexivity. Qed.

  (* ---- the functions ---- *)
  Definition needed (f : fid) : nat :=
    match f with
    | C_nilled_0 | C_string_0 | C_data_0 | C_number_0 | C_string_length_0 | C_normalize_space_0 | C_name_0 | C_local_name_0
    | C_namespace_uri_0 | C_root_0 | C_position | C_last | F_true | F_false | F_concat => 0
    | F_translate | F_insert_before => 3
    | C_for_each | C_filter
    | F_compare | F_codepoint_equal | F_substring | F_contains | F_starts_with | F_ends_with | F_substring_before | F_substring_after
    | F_lang | F_remove | F_subsequence | F_index_of | F_map_contains | F_map_get | F_array_get => 2
    | _ => 1
    end.
  Definition safe_fid (f : fid) : bool :=
    match f with
    | F_abs | F_substring | F_subsequence | F_insert_before | F_sum | F_avg | C_for_each | C_filter => false
    | _ => true
    end.
  Lemma arg_good : forall k args (f : list xitem -> res (list xitem)), Forall (Forall item_in) args -> (pan = true \/ k < List.length args) ->
    (forall s, seq_in s -> good pan fu seq_in (f s)) -> good pan fu seq_in (arg k args f).
  Proof.
    intros k args f F L H. unfold arg. destruct (nth_error args k) as [s|] eqn:E.
    - apply H. apply nth_error_In in E. rewrite Forall_forall in F. auto.
    - cbn. destruct L as [L|L]; auto. apply nth_error_None in E. lia.
  Qed.
  Lemma opt_good : forall k (args : list (list xitem)), Forall (Forall item_in) args -> match nth_error args k with Some s => seq_in s | None => True end.
  Proof. intros k args F. destruct (nth_error args k) eqn:E; auto. apply nth_error_In in E. rewrite Forall_forall in F. auto. Qed.
  Lemma opt_string_good : forall s, good pan fu (fun _ => True) (opt_string s).
  Proof. intros [|x l]; [exact Logic.I|]. exact (string_good (x :: l)). Qed.
  Ltac gb := eapply good_bind; [first [apply raw_string_good|apply raw_double_good|apply raw_integer_good|apply raw_boolean_good|apply string_good
     |apply integer_good|apply boolean_good|apply ebv_good|apply opt_string_good|apply item_good; assumption|apply map_good; assumption
     |apply array_good; assumption]|intros].
  Ltac fin := cbn [good]; unfold sing_str, sing_int; auto.
  Lemma map_raw_good : forall s, good pan fu (fun _ => True) (map_res (get_as_raw_string h) s).
  Proof.
    intro s. eapply good_weaken; [eapply good_map_res with (P := fun _ => True) (Q := fun _ => True)|auto]; [apply Forall_forall; auto|].
    intros; apply raw_string_good.
  Qed.
  Lemma map_int_good : forall s, good pan fu (fun _ => True) (map_res (get_as_raw_integer h) s).
  Proof.
    intro s. eapply good_weaken; [eapply good_map_res with (P := fun _ => True) (Q := fun _ => True)|auto]; [apply Forall_forall; auto|].
    intros; apply raw_integer_good.
  Qed.
  Lemma concat_args_good : forall args, Forall (Forall item_in) args -> good pan fu (fun _ => True) (concat_args h args).
  Proof.
    intros args F. induction F as [|a args Fa F IH]; cbn [concat_args]; [exact Logic.I|]. destruct a as [|it a]; auto.
    gb. gb. eapply good_bind; [exact IH|]. intros; fin.
  Qed.
  Lemma concat_good : forall args, Forall (Forall item_in) args -> good pan fu seq_in (fn_concat h args).
  Proof. intros args F. unfold fn_concat. eapply good_bind; [apply concat_args_good; auto|]. intros; fin. Qed.
  Lemma chk_good : forall z, pan = true -> good pan fu (fun _ => True) (chk z).
  Proof. intros z P. unfold chk. destruct (in_i64 z); cbn; auto. Qed.
  Lemma index_sub_good : forall n a b, pan = true -> good pan fu (fun _ => True) (subcollection_index_sub n a b).
  Proof.
    intros n a b P. unfold subcollection_index_sub. cbv zeta. destruct (_ || _); [exact Logic.I|].
    eapply good_bind; [apply chk_good; auto|]. intros b0 _. destruct (_ && _); [exact Logic.I|]. destruct (_ || _); [exact Logic.I|].
    eapply good_bind; [apply chk_good; auto|]. intros. eapply good_bind; [apply chk_good; auto|]. intros; exact Logic.I.
  Qed.
  Lemma start_good : forall s, seq_in s -> good pan fu (fun _ => True) (start_of h s).
  Proof. intros s F. unfold start_of. gb. apply raw_double_good. Qed.
  Lemma length_good : forall o, (match o with Some s => seq_in s | None => True end) -> good pan fu (fun _ => True) (get_length h o).
  Proof. intros [s|] F; cbn [get_length]; [|exact Logic.I]. gb. apply raw_double_good. Qed.
  Lemma slice_in : forall A (P : A -> Prop) l b e, Forall P l -> Forall P (slice l b e).
  Proof. intros. unfold slice. apply firstn_in, skipn_in; auto. Qed.
  Lemma remove_loop_in : forall s n p, seq_in s -> seq_in (remove_loop n p s).
  Proof. intros s n p F. revert n. induction F; intro n; cbn [remove_loop]; auto. destruct (_ =? _)%Z; auto. Qed.
  Lemma numeric_op_good : forall io d1 d2 a b, (pan = true \/ False) -> (forall x y, good pan fu (fun _ => True) (io x y)) ->
    good pan fu item_in (xitem_numeric_operation io d1 d2 a b).
  Proof.
    intros io d1 d2 a b _ H. destruct a, b; cbn [xitem_numeric_operation good]; auto. eapply good_bind; [apply H|]. intros; fin.
  Qed.
  Lemma divide_good : forall a b, good pan fu item_in (xitem_numeric_divide a b).
  Proof.
    intros a b. unfold xitem_numeric_divide. destruct b; cbn [bind good]; auto.
    - destruct (_ =? _)%Z; cbn [bind good]; auto. destruct a; cbn; auto.
    - destruct (feqb _ _); cbn [bind good]; auto. destruct a; cbn; auto.
    - destruct a; cbn; auto.
  Qed.
  Lemma add_good : forall a b, pan = true -> good pan fu item_in (xitem_numeric_add a b).
  Proof. intros a b P. apply numeric_op_good; auto. intros. apply chk_good; auto. Qed.
  Lemma sum_loop_good : forall l v, pan = true -> item_in v -> good pan fu item_in (sum_loop h v l).
  Proof.
    intros l v P. revert v. induction l as [|n l IH]; intros v I; cbn [sum_loop]; auto.
    eapply good_bind with (P := item_in); [|intros; apply IH; assumption]. destruct (is_numeric n); [apply add_good; auto|].
    eapply good_bind; [apply cast_item_good|]. intros. apply add_good; auto.
  Qed.
  Lemma sum_good : forall s z, pan = true -> (match z with Some s => seq_in s | None => True end) -> good pan fu seq_in (fn_sum h s z).
  Proof.
    intros s z P F. unfold fn_sum. destruct s; [destruct z; fin|]. eapply good_bind; [apply sum_loop_good; auto|]. intros; fin.
  Qed.
  Lemma extremum_good : forall cmp s, (forall l r, good pan fu bools (cmp l r)) -> seq_in s -> good pan fu seq_in (fn_extremum cmp s).
  Proof.
    intros cmp s H F. unfold fn_extremum. destruct s as [|m s]; [fin|].
    assert (L : forall l m, item_in m -> seq_in l -> good pan fu item_in (extremum_loop cmp m l)).
    { intros l. induction l as [|it l IH]; intros k K Fl; cbn [extremum_loop]; [exact K|]. inversion Fl; subst.
      eapply good_bind; [apply H|]. intros b _. gb. apply IH; auto. destruct a; auto. }
    eapply good_bind; [apply L; auto; inversion F; auto|]. intros; fin.
  Qed.
  Lemma index_of_good : forall l i r, good pan fu seq_in (index_of_loop h i l r).
  Proof.
    induction l as [|v l IH]; intros i r; cbn [index_of_loop]; [fin|]. eapply good_bind; [apply compare_eq_bools|]. intros b _. gb.
    eapply good_bind; [apply IH|]. intros. destruct a; fin.
  Qed.
  Lemma of_node_good : forall f s, (forall i, inside i -> good pan fu (fun _ => True) (f i)) -> seq_in s -> good pan fu seq_in (fn_of_node f s).
  Proof.
    intros f s H F. unfold fn_of_node. destruct s as [|it s]; [fin|]. assert (G := node_good _ F).
    destruct (get_singleton_node _); try exact Logic.I. eapply good_bind; [apply H, G|]. intros; fin.
  Qed.
  Lemma case_good : forall f s, good pan fu seq_in (fn_case f s).
  Proof. intros f [|it s]; unfold fn_case; [fin|]. gb. fin. Qed.
  Lemma unary_good : forall io d1 d2 s, (forall x, good pan fu (fun _ => True) (io x)) -> good pan fu seq_in (fn_numeric_unary io d1 d2 s).
  Proof.
    intros io d1 d2 s H. destruct s as [|[] [|y s]]; cbn [fn_numeric_unary]; fin. eapply good_bind; [apply H|]. intros; fin.
  Qed.
  Lemma tail_in : forall it s, seq_in (it :: s) -> seq_in s.
  Proof. intros it s F. inversion F; auto. Qed.
  Lemma head_in : forall it s, seq_in (it :: s) -> item_in it.
  Proof. intros it s F. inversion F; auto. Qed.
  Lemma call_fn_good : forall f args, Forall (Forall item_in) args -> (pan = true \/ safe_fid f = true /\ needed f <= List.length args) ->
    good pan fu seq_in (call_fn h f args).
  Proof.
    intros f args F S.
    assert (L : forall k, k < needed f -> pan = true \/ k < List.length args).
    { intros k K. destruct S as [S|[_ S]]; [auto|right; lia]. }
    assert (OS := opt_good 1 args F). assert (OT := opt_good 2 args F).
    destruct f; cbn [call_fn needed safe_fid] in *; try exact Logic.I;
      try (destruct S as [S|[S _]]; [|discriminate S]);
      repeat (apply arg_good; [exact F|apply L; lia|intros ? ?]); try (apply concat_good; auto; fail);
      try (unfold fn_true, fn_false); fin.
    - unfold fn_nilled. destruct s; [fin|]. assert (G := node_good _ H). destruct (get_singleton_node _); try exact Logic.I.
      destruct (node_type_eqb _ _); [|fin]. destruct (attribute_value _ _ _); fin.
    - unfold fn_string. destruct s; [fin|]. gb. gb. fin.
    - apply atomize_in; auto.
    - apply unary_good. intros; apply chk_good; auto.
    - apply unary_good. intros; fin.
    - apply unary_good. intros; fin.
    - apply unary_good. intros; fin.
    - unfold fn_number. destruct s as [|it [|y s]]; fin. gb. fin.
    - unfold fn_codepoints_to_string. eapply good_bind; [apply map_int_good|]. intros. destruct (from_utf16 _); fin.
    - unfold fn_string_to_codepoints. destruct s; [fin|]. gb. cbn [good]. apply Forall_forall. intros y Y. apply in_map_iff in Y.
      destruct Y as [n [<- _]]. auto.
    - unfold fn_compare. destruct s, s0; fin. gb. gb. fin.
    - unfold fn_codepoint_equal. destruct s, s0; fin. gb. gb. fin.
    - unfold fn_string_join. destruct (nth_error args 1) as [x|].
      + gb. eapply good_bind; [apply map_raw_good|]. intros; fin.
      + cbn [bind]. eapply good_bind; [apply map_raw_good|]. intros; fin.
    - unfold fn_substring. destruct s; [fin|]. gb. eapply good_bind; [apply start_good; auto|]. intros.
      eapply good_bind; [apply length_good; auto|]. intros. eapply good_bind; [apply index_sub_good; auto|]. intros [b e] _. fin.
    - unfold fn_string_length. destruct s; [fin|]. gb. fin.
    - unfold fn_normalize_space. destruct s; [fin|]. gb. fin.
    - apply case_good.
    - apply case_good.
    - unfold fn_translate. destruct s; [fin|]. gb. gb. gb. fin.
    - unfold fn_contains. gb. gb. fin.
    - unfold fn_starts_with. gb. gb. fin.
    - unfold fn_ends_with. gb. gb. fin.
    - unfold fn_substring_before. gb. gb. fin.
    - unfold fn_substring_after. gb. gb. fin.
    - unfold fn_boolean. gb. fin.
    - unfold fn_not. gb. fin.
    - apply of_node_good; auto. intros; fin.
    - apply of_node_good; auto. intros; fin.
    - apply of_node_good; auto. intros i Hi. destruct (namespace_ok i Hi) as [u ->]. fin.
    - unfold fn_lang. destruct s; [fin|]. gb. eapply good_bind; [apply node_good; auto|]. intros i Hi.
      destruct (ancestors_self_ok i Hi) as [l [-> _]]. cbn [bind]. fin.
    - unfold fn_root. destruct s; [fin|]. assert (G := node_good _ H). destruct (get_singleton_node _) as [i| | |]; try exact Logic.I.
      destruct (root_inside i G) as [-> I]. cbn [bind]. fin.
    - unfold fn_empty. fin.
    - unfold fn_exists. fin.
    - unfold fn_head. destruct s; fin. constructor; auto. eapply head_in; eauto.
    - destruct s; fin. eapply tail_in; eauto.
    - unfold fn_insert_before. gb. eapply good_bind; [apply chk_good; auto|]. intros. cbn [good]. cbv zeta.
      apply Forall_app. split; [apply firstn_in; auto|]. apply Forall_app. split; [auto|apply skipn_in; auto].
    - unfold fn_remove. gb. cbn [good]. apply remove_loop_in; auto.
    - apply Forall_rev; auto.
    - unfold fn_subsequence. destruct s; [fin|]. eapply good_bind; [apply start_good; auto|]. intros.
      eapply good_bind; [apply length_good; auto|]. intros. eapply good_bind; [apply index_sub_good; auto|]. intros [b e] _. cbn [good].
      apply slice_in; auto.
    - apply index_of_good.
    - unfold fn_zero_or_one. destruct (_ <=? _); fin.
    - unfold fn_one_or_more. destruct (_ <=? _); fin.
    - unfold fn_exactly_one. destruct (_ =? _); fin.
    - unfold fn_count. fin.
    - unfold fn_avg. destruct s; [fin|]. eapply good_bind; [apply sum_good; auto|]. intros. gb.
      eapply good_bind; [apply divide_good|]. intros; fin.
    - apply extremum_good; auto. apply compare_lt_bools.
    - apply extremum_good; auto. apply compare_gt_bools.
    - apply sum_good; auto.
    - unfold fn_map_size. gb. fin.
    - unfold fn_map_keys. gb. cbn. apply keys_in; auto.
    - unfold fn_map_contains. gb. gb. fin.
    - unfold fn_map_get. gb. gb. cbn. destruct (xmap_get h a a0) eqn:E; auto. eapply xmap_get_in; eauto.
    - unfold fn_array_size. gb. fin.
    - unfold fn_array_get. gb. gb. cbn. destruct (xarray_get h a a0) eqn:E; auto. eapply xarray_get_in; eauto.
    - cbn. eapply flat_map_in; [exact H|]. intros it I. destruct I; auto. apply flatten_in; auto.
  Qed.

  (* ---- types ---- *)
  Lemma array_type_panic : forall mst a t, Forall (Forall item_in) a -> (forall v, seq_in v -> mst v t <> Panic) ->
    match_array_sequence_type h mst a t <> Panic.
  Proof.
    intros mst a ty F H. unfold match_array_sequence_type. apply forall_res_panic with (P := fun _ => True); [apply Forall_forall; auto|].
    intros k _. destruct (xarray_get _ _ _) eqn:E; [|discriminate]. apply H. eapply xarray_get_in; eauto.
  Qed.
  Lemma map_type_panic : forall mst m k t, Forall (fun e => item_in (fst e) /\ Forall item_in (snd e)) m -> (forall v, seq_in v -> mst v t <> Panic) ->
    match_map_sequence_type h mst m k t <> Panic.
  Proof.
    intros mst m k ty F H. unfold match_map_sequence_type. apply forall_res_panic with (P := fun _ => True); [apply Forall_forall; auto|].
    intros key _. destruct (negb _); [discriminate|]. destruct (xmap_get _ _ _) eqn:E; [|discriminate]. apply H. eapply xmap_get_in; eauto.
  Qed.
  Lemma mst_panic : pan = false -> forall n s x, types_ok x = true -> seq_in s -> mst_fuel h n s x <> Panic.
  Proof.
    intro PF. induction n as [|n IH]; intros s x X F; [discriminate|]. cbn [mst_fuel]. unfold match_sequence_type_body.
    destruct (negb _); [discriminate|]. destruct (xtype_eqb _ X_EmptySequenceTest); [discriminate|].
    apply bind_panic; [unfold match_occurence; repeat (destruct (str_eqb _ _); [discriminate|]); discriminate|].
    intros []; [|discriminate]. cbn [negb]. assert (XL := types_left _ X). assert (XLL := types_left _ XL). assert (XLR := types_right _ XL).
    destruct (x_type (x_left x)) eqn:T; try discriminate.
    - unfold match_sequence_typed_function_test. assert (LT := fun y => types_lefts _ y XLR).
      eapply forall_res_panic; [exact F|]. intros it I. destruct I; try discriminate.
      + destruct (signature_of_ok x0) as [o E]. rewrite E. cbn [bind]. destruct o as [o|]; [|discriminate].
        apply match_signature_panic; auto. destruct H as [H|H]; [congruence|]. assert (O := signature_types _ _ H E).
        intros y. apply types_lefts. apply types_right. exact O.
      + destruct (lefts _) as [|r [|k [|]]]; try discriminate. apply map_type_panic; auto. intros; apply IH; auto with datatypes.
      + destruct (lefts _) as [|r [|k [|]]]; try discriminate. apply bind_panic; [apply IH; auto with datatypes|].
        intros []; [|discriminate]. apply array_type_panic; auto. intros; apply IH; auto with datatypes.
    - unfold match_sequence_map_test. eapply forall_res_panic; [exact F|]. intros it I. destruct I; try discriminate. apply map_type_panic; auto.
    - unfold match_sequence_array_test. eapply forall_res_panic; [exact F|]. intros it I. destruct I; try discriminate. apply array_type_panic; auto.
  Qed.
  Lemma match_type_good : forall s x, (pan = true \/ types_ok x = true) -> seq_in s -> good pan fu (fun _ => True) (match_sequence_type h s x).
  Proof.
    intros s x X F. assert (T := match_sequence_type_total h s x). assert (P := fun e => mst_panic e (S (xsize x)) s x). unfold match_sequence_type in *.
    destruct (mst_fuel _ _ _ _); cbn; auto; try congruence. destruct pan; auto. destruct X as [X|X]; [auto|]. exfalso. apply P; auto.
  Qed.
End Walk.

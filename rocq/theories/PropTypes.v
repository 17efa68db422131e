(* C38: sequence types. *)
Require Import Bool List NArith ZArith Ascii String Lia.
From Verif Require Import Str StrFacts Sax Dom Axes Lexer FuncTable Parser Num Item Func Types Eval EvalFacts SpecOper ItemFacts SpecTypes TypeFacts.
Import ListNotations.
Open Scope nat_scope.

Lemma outcome_instance : forall h c A T ind e v e1, outcome h c A e (Ok (v, e1)) ->
  outcome h c (instance_of A T ind) e
    (do b <- match_sequence_type h v (XNode X_SequenceType ind T XNil); Ok ([XIBoolean b], e1)).
Proof.
  intros h c A T ind e v e1 H. apply outcome_eval in H. destruct H as [n H].
  apply eval_outcome with (n := S n).
  - rewrite eval_S. unfold eval_step, instance_of. cbn [x_type x_left x_right]. rewrite H by lia. cbn [bind]. reflexivity.
  - apply bind_fuel; [apply match_sequence_type_total|discriminate].
Qed.
Lemma item_test_iff : forall h it T b, item_test h it T b <->
  match_sequence_type h [it] (XNode X_SequenceType [] T XNil) = Ok b.
Proof.
  intros h it T b. unfold item_test. set (e := mkEnv 0 0 [(lit "x", [it])]).
  assert (V : outcome h [] (XNode X_VarRef (lit "x") XNil XNil) e (Ok ([it], e)))
    by (split; [discriminate|exists 1; reflexivity]).
  assert (H := outcome_instance h [] _ T [] e [it] e V). split.
  - intros [e' H']. assert (D := outcome_det _ _ _ _ _ _ H H').
    destruct (match_sequence_type _ _ _) as [v| | |]; cbn [bind] in D; congruence.
  - intro E. rewrite E in H. exists e. exact H.
Qed.

(* what the loops over the items of the sequence compute *)
Definition one_item (h : heap) (m : xseq -> xnode -> res bool) (T : xnode) (s : xseq) : res bool :=
  match x_type T with
  | X_KindTest => Ok (match_sequence_kind_test h s T)
  | X_ItemTest => Ok (match_sequence_item_test s)
  | X_AnyFunctionTest => Ok (match_sequence_any_function_test s)
  | X_TypedFunctionTest => match_sequence_typed_function_test h m s T
  | X_ArrayTest => match_sequence_array_test h m s T
  | X_MapTest => match_sequence_map_test h m s T
  | X_AtomicOrUnionType => Ok (match_sequence_atomic_or_union_type s T)
  | X_ParenthesizedItemType => Ok false
  | _ => Err CantOccur
  end.
Lemma forall_res_one : forall (A : Type) (f : A -> res bool) a b, forall_res f [a] = Ok b -> f a = Ok b.
Proof. intros A f a b. cbn [forall_res]. destruct (f a) as [[]| | |]; cbn [bind]; congruence. Qed.
Lemma forall_res_all : forall (A : Type) (f : A -> res bool) l (bs : A -> bool -> Prop),
  (forall a, In a l -> exists b, f a = Ok b /\ bs a b) ->
  (forall a b b', bs a b -> bs a b' -> b = b') ->
  exists b, forall_res f l = Ok b /\ (b = true <-> forall a, In a l -> bs a true).
Proof.
  intros A f l bs H U. induction l as [|a l IH]; cbn [forall_res].
  - exists true. split; auto. split; auto. intros _ a [].
  - destruct (H a (or_introl eq_refl)) as [b [E B]]. rewrite E. cbn [bind].
    destruct IH as [d [F G]]; [intros; apply H; right; auto|]. destruct b.
    + exists d. split; auto. rewrite G. split.
      * intros K x [<-|I]; auto.
      * intros K x I. apply K. right; auto.
    + exists false. split; auto. split; [discriminate|]. intro K.
      specialize (K a (or_introl eq_refl)). exact (U _ _ _ B K).
Qed.
Lemma forallb_one : forall (A : Type) (f : A -> bool) a, forallb f [a] = f a.
Proof. intros. cbn. apply andb_true_r. Qed.

Lemma one_item_all : forall h m T s, item_type T ->
  (forall it, In it s -> exists b, one_item h m T [it] = Ok b) ->
  exists b, one_item h m T s = Ok b /\ (b = true <-> forall it, In it s -> one_item h m T [it] = Ok true).
Proof.
  intros h m T s I H.
  assert (FB : forall f : xitem -> bool, forallb f s = true <-> forall it, In it s -> Ok (forallb f [it]) = Ok true).
  { intro f. rewrite forallb_forall. split; intros K it J; specialize (K it J); rewrite forallb_one in *; congruence. }
  assert (FR : forall f, (forall it, In it s -> exists b, forall_res f [it] = Ok b) ->
     exists b, forall_res f s = Ok b /\ (b = true <-> forall it, In it s -> forall_res f [it] = Ok true)).
  { intros f K. destruct (forall_res_all _ f s (fun it b => forall_res f [it] = Ok b)) as [b [E B]].
    - intros it J. destruct (K it J) as [b E]. exists b. split; auto. apply forall_res_one; auto.
    - congruence.
    - exists b; split; auto. }
  unfold one_item in *. unfold item_type in I.
  repeat (destruct I as [I|I]; [rewrite <- I in *|]); [| | | | | | |destruct I].
  all: try (eexists; split; [reflexivity|apply FB]).
  all: apply FR; exact H.
Qed.

Lemma occurence_spec : forall s ind, indicator ind ->
  exists b, match_occurence s ind = Ok b /\ (b = true <-> occurs ind (List.length s)).
Proof.
  intros s ind I. unfold indicator in I.
  destruct I as [<-|[<-|[<-|[<-|[]]]]]; unfold match_occurence.
  - change (str_eqb [] (lit "?")) with false. change (str_eqb [] (lit "*")) with false.
    change (str_eqb [] (lit "+")) with false. change (str_eqb [] []) with true. cbn iota. eexists. split; [reflexivity|].
    rewrite Nat.eqb_eq. split; [intros ->; constructor|intro H; inversion H; reflexivity].
  - change (str_eqb (lit "?") (lit "?")) with true. cbn iota. eexists. split; [reflexivity|].
    rewrite Nat.leb_le. split; intro H.
    + destruct (List.length s) as [|[|n]]; [constructor|constructor|lia].
    + inversion H; lia.
  - change (str_eqb (lit "*") (lit "?")) with false. change (str_eqb (lit "*") (lit "*")) with true. cbn iota.
    eexists. split; [reflexivity|]. split; auto. intros _. constructor.
  - change (str_eqb (lit "+") (lit "?")) with false. change (str_eqb (lit "+") (lit "*")) with false.
    change (str_eqb (lit "+") (lit "+")) with true. cbn iota. eexists. split; [reflexivity|].
    rewrite Nat.leb_le. split; intro H; [constructor; lia|inversion H; lia].
Qed.

Lemma mst_unfold : forall h s ind T, item_type T ->
  match_sequence_type h s (XNode X_SequenceType ind T XNil) =
  do o <- match_occurence s ind;
  if negb o then Ok false else one_item h (mst_fuel h (S (xsize T))) T s.
Proof.
  intros h s ind T I. unfold match_sequence_type. cbn [xsize]. rewrite Nat.add_0_r. cbn [mst_fuel].
  unfold match_sequence_type_body. cbn [x_type x_left x_name].
  change (negb (xtype_eqb X_SequenceType X_SequenceType)) with false. cbn iota.
  replace (xtype_eqb (x_type T) X_EmptySequenceTest) with false.
  - unfold one_item. reflexivity.
  - unfold item_type in I. repeat (destruct I as [I|I]; [rewrite <- I; reflexivity|]). destruct I.
Qed.
Lemma mst_one : forall h T it, item_type T ->
  match_sequence_type h [it] (XNode X_SequenceType [] T XNil) = one_item h (mst_fuel h (S (xsize T))) T [it].
Proof. intros. rewrite mst_unfold by auto. reflexivity. Qed.

Theorem C38_occurrence : forall h c A T ind e v e1, outcome h c A e (Ok (v, e1)) -> item_type T -> indicator ind ->
  (forall it, In it v -> exists b, item_test h it T b) ->
  exists b, outcome h c (instance_of A T ind) e (Ok ([XIBoolean b], e1)) /\
            (b = true <-> occurs ind (List.length v) /\ forall it, In it v -> item_test h it T true).
Proof.
  intros h c A T ind e v e1 H I D M. assert (R := outcome_instance h c A T ind e v e1 H).
  rewrite mst_unfold in R by exact I.
  destruct (occurence_spec v ind D) as [o [E O]]. rewrite E in R. cbn [bind] in R.
  assert (M' : forall it, In it v -> exists b, one_item h (mst_fuel h (S (xsize T))) T [it] = Ok b).
  { intros it J. destruct (M it J) as [b B]. exists b. apply item_test_iff in B. rewrite mst_one in B; auto. }
  destruct (one_item_all h _ T v I M') as [b [F G]]. rewrite F in R. exists (o && b). split.
  - destruct o; exact R.
  - rewrite andb_true_iff, O, G. split; (intros [U V]; split; [exact U|]); intros it J; specialize (V it J).
    + apply item_test_iff. rewrite mst_one; auto.
    + apply item_test_iff in V. rewrite mst_one in V; auto.
Qed.
(* which items match an atomic type *)
Theorem C38_atomic : forall h it t T, has_type it t -> x_type T = X_AtomicOrUnionType ->
  exists b, item_test h it T b /\ (b = true <-> derives t (x_name T)).
Proof.
  intros h it t T H E.
  assert (I : item_type T) by (unfold item_type; rewrite E; cbn; tauto).
  exists (derives_from t (x_name T)). split; [|apply derives_from_derives].
  apply item_test_iff. rewrite mst_one by exact I. unfold one_item. rewrite E.
  unfold match_sequence_atomic_or_union_type. rewrite forallb_one. destruct H; reflexivity.
Qed.
Theorem C38_partial_order :
  (forall a, derives a a) /\
  (forall a b c, derives a b -> derives b c -> derives a c) /\
  (forall a b, derives a b -> derives b a -> a = b) /\
  (forall a, known_type a -> derives a (lit "xs:anyType")).
Proof.
  repeat split.
  - constructor.
  - intros a b c H K. induction H; auto. eapply dv_step; eauto.
  - intros a b H K. destruct (derives_ht a b H); auto. destruct (derives_ht b a K); auto. lia.
  - intros a H. apply derives_from_derives. destruct H as [->|[u H]]; [|destruct H]; vm_compute; reflexivity.
Qed.
(* "every type derives from xs:anyType" is false of names outside the hierarchy: 1 is no instance of, e.g.,
   xs:long, and no value of the type xs:dateTime exists *)
Theorem C38_unknown_types_refuted : ~ forall a, derives a (lit "xs:anyType").
Proof. intro H. specialize (H (lit "xs:dateTime")). apply derives_from_derives in H. vm_compute in H. discriminate. Qed.
(* a parenthesised item type matches nothing, not even the empty sequence with "*" *)
Theorem C38_parenthesized_refuted :
  ~ forall h i o, xpath_gives h i (lit "() instance of (xs:integer)*") o -> o = Ok [XIBoolean true].
Proof.
  intro H. specialize (H [] 0 (Ok [XIBoolean false])).
  assert (G : Ok [XIBoolean false] = Ok [XIBoolean true]); [|discriminate]. apply H.
  split; [discriminate|]. exists 10. vm_compute. reflexivity.
Qed.
Theorem C38_instance_terminates : forall h c A T ind e v e1, outcome h c A e (Ok (v, e1)) ->
  exists o, outcome h c (instance_of A T ind) e o.
Proof. intros. eexists. eapply outcome_instance; eauto. Qed.

Example C38_example :
  eval_xpath 20 [] 0 (lit "(1, 2.5) instance of xs:decimal+") = Ok [XIBoolean true] /\
  eval_xpath 20 [] 0 (lit "(1, 2.5) instance of xs:decimal?") = Ok [XIBoolean false] /\
  eval_xpath 20 [] 0 (lit "(1, 2.5) instance of xs:integer*") = Ok [XIBoolean false] /\
  eval_xpath 20 [] 0 (lit "() instance of element(a)?") = Ok [XIBoolean true] /\
  compile_xpath (lit "(1) instance of xs:decimal+") =
    Ok (instance_of (XNode X_ParenthesizedExpr [] (XNode X_IntegerLiteral (lit "1") XNil XNil) XNil)
                    (XNode X_AtomicOrUnionType (lit "xs:decimal") XNil XNil) (lit "+")).
Proof. repeat split; vm_compute; reflexivity. Qed.

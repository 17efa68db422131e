(* C80: subtypes of sequence types. *)
Require Import Ascii String Bool List NArith ZArith Lia.
From Verif Require Import Str StrFacts Sax Dom Lexer Parser Num Item Func Types Eval EvalFacts PropEval SpecOper ItemFacts PropOper SpecTypes TypeFacts PropTypes
  SpecExpr SpecSub.
Import List ListNotations.
Open Scope nat_scope.

Lemma lefts_chain l : lefts (param_chain l) = l.
Proof. induction l as [|x l IH]; cbn [param_chain fold_right lefts]; [reflexivity|]. f_equal. exact IH. Qed.
Lemma chain_size l x : In x l -> xsize x < xsize (param_chain l).
Proof.
  induction l as [|y l IH]; [intros []|]. cbn [param_chain fold_right xsize]. fold (param_chain l). intros [->|I]; [lia|]. specialize (IH I). lia.
Qed.
Lemma tree_size i c : xsize (tree (TOf i c)) = S (xsize (itree i)).
Proof. cbn [tree xsize]. lia. Qed.
Lemma entry_of i c f k : iallowed f k i = true -> subtype_entry (tree (TOf i c)) =
  match c with C_one => S_OCCUR_1 | C_opt => S_OCCUR_Q | C_many => S_OCCUR_A | C_some => S_OCCUR_P end.
Proof.
  intro A. unfold subtype_entry. cbn [tree x_left x_name]. destruct i; cbn [itree leaf x_type x_name xtype_eqb].
  1: cbn [iallowed] in A; apply negb_true_iff in A; change (xtype_eqb X_AtomicOrUnionType X_AtomicOrUnionType) with true; rewrite A.
  all: destruct c; reflexivity.
Qed.
Lemma all2_spec (f : xnode -> xnode -> res bool) : forall l m, List.length l = List.length m ->
  (forall a b, In a l -> In b m -> exists r, f (tree a) (tree b) = Ok r /\ (r = true <-> ty_sub a b)) ->
  exists r, all2 f (map tree l) (map tree m) = Ok r /\ (r = true <-> tys_sub l m).
Proof.
  induction l as [|a l IH]; intros [|b m] L H; try discriminate L; cbn [map all2].
  - exists true. split; auto. split; auto. constructor.
  - destruct (H a b (or_introl eq_refl) (or_introl eq_refl)) as (x & -> & X). cbn [bind].
    destruct (IH m) as (y & -> & Y); [cbn in L; lia|intros; apply H; right; auto|]. cbn [bind]. exists (x && y). split; auto.
    rewrite andb_true_iff, X, Y. split; [intros []; constructor; auto|inversion 1; auto].
Qed.
Definition decides (o : res bool) (P : Prop) : Prop := exists r, o = Ok r /\ (r = true <-> P).
Lemma no P : ~ P -> decides (Ok false) P.
Proof. intro N. exists false. split; auto. split; [discriminate|tauto]. Qed.
Lemma yes (P : Prop) : P -> decides (Ok true) P.
Proof. intro N. exists true. tauto. Qed.
Lemma decides_iff o (P Q : Prop) : decides o P -> (P <-> Q) -> decides o Q.
Proof. intros (r & E & R) I. exists r. rewrite <- I. auto. Qed.
Lemma or_no P o : decides o P -> decides (or_res o (Ok false)) P.
Proof. intros (r & -> & R). exists r. destruct r; auto. Qed.
Section Frag.
  Variables f c : bool.
  Hypothesis apart : f && c = false.
  Definition item_spec n := forall i j, xsize (itree i) + xsize (itree j) < n -> iallowed f c i = true -> iallowed f c j = true ->
    decides (itemtype_fuel n (itree i) (itree j)) (ity_sub i j).
  Lemma body_spec n : item_spec n -> forall A B, xsize (tree A) + xsize (tree B) < n + 2 -> allowed f c A = true -> allowed f c B = true ->
    decides (subtype_body (itemtype_fuel n) (tree A) (tree B)) (ty_sub A B).
  Proof.
    intros H A B S FA FB. unfold subtype_body. destruct A as [|i p], B as [|j q].
    - apply yes. constructor.
    - cbn [allowed] in FB. rewrite (entry_of j q f c FB). destruct q; cbn; [apply no; intro Q; inversion Q|apply yes; constructor|apply yes; constructor|apply no; intro Q; inversion Q].
    - cbn [allowed] in FA. rewrite (entry_of i p f c FA). change (subtype_entry (tree TNone)) with S_EMPTY_SEQ.
      destruct p; apply no; intro Q; inversion Q.
    - cbn [allowed] in FA, FB. rewrite !tree_size in S. rewrite (entry_of i p f c FA), (entry_of j q f c FB). cbn [tree x_left].
      assert (D : decides (itemtype_fuel n (itree i) (itree j)) (ity_sub i j)) by (apply H; auto; lia).
      destruct p, q; cbn [subtype_tbl]; try (apply no; intro Q; inversion Q; subst; match goal with X : occ_le _ _ |- _ => inversion X end);
        (eapply decides_iff; [exact D|]); (split; [intro; constructor; [constructor|auto]|inversion 1; auto]).
  Qed.
  Lemma item_all n : item_spec n.
  Proof.
    induction n as [n IHn] using lt_wf_ind. intros i j S FI FJ. destruct n as [|n]; [lia|].
    assert (IH : item_spec n) by (apply IHn; lia). clear IHn. assert (BS := body_spec n IH). cbn [itemtype_fuel].
    unfold itemtype_body.
    destruct i as [a| | | | | | |r ps|k v|v], j as [b| | | | | | |r' ps'|k' v'|v'];
      cbn [itree leaf x_type]; unfold kind_rule, function_rule; cbn [x_type x_left x_right x_name];
      try (apply yes; constructor; cbn; tauto); try (apply no; intro Q; inversion Q; cbn in *; intuition discriminate).
    all: try (cbn; apply no; intro Q; inversion Q; cbn in *; intuition discriminate).
    all: try (cbn; apply yes; constructor; cbn; tauto).
    - (* atomic *) cbn [iallowed] in FI. apply negb_true_iff in FI.
      change (xtype_eqb X_AtomicOrUnionType X_AtomicOrUnionType) with true. unfold leaf. cbn [andb x_name]. rewrite FI, orb_false_r.
      destruct (derives_from a b) eqn:D.
      + apply yes. constructor. apply derives_from_derives. exact D.
      + cbn. apply no. intro Q. inversion Q; subst. apply derives_from_derives in H1. congruence.
    - (* typed functions *) cbn [itree xsize] in S.
      assert (R : decides (subtype_body (itemtype_fuel n) (tree r) (tree r')) (ty_sub r r')).
      { cbn [iallowed] in FI, FJ. apply andb_prop in FI, FJ. destruct FI as [FI _], FJ as [FJ _]. apply andb_prop in FI, FJ. apply BS; [lia|tauto|tauto]. }
      cbn. rewrite !lefts_chain, !map_length. destruct (List.length ps' =? List.length ps) eqn:L.
      + apply Nat.eqb_eq in L. destruct R as (x & -> & X). cbn [bind].
        destruct (all2_spec (subtype_body (itemtype_fuel n)) ps' ps L) as (y & -> & Y).
        { intros a b I J. cbn [iallowed] in FI, FJ. apply andb_prop in FI, FJ. destruct FI as [_ FI], FJ as [_ FJ]. rewrite forallb_forall in FI, FJ.
          apply BS; [|auto|auto]. apply (in_map tree) in I, J. apply chain_size in I, J. lia. }
        cbn [bind or_res]. exists (x && y). split; [destruct (x && y); reflexivity|]. rewrite andb_true_iff, X, Y.
        split; [intros []; constructor; auto|inversion 1; auto].
      + cbn. apply no. intro Q. inversion Q; subst. apply Nat.eqb_neq in L. apply L.
        match goal with X : tys_sub _ _ |- _ => clear - X; induction X; cbn; auto end.
    - (* map, typed function *) exfalso. cbn [iallowed] in FI, FJ. destruct f, c; discriminate.
    - (* maps *) cbn [itree xsize leaf] in S. cbn. unfold both. cbn [iallowed] in FI, FJ. apply andb_prop in FI, FJ. destruct FI as [FI FV], FJ as [FJ FV'].
      apply andb_prop in FI, FJ. destruct FI as [_ FK], FJ as [_ FK'].
      assert (K : decides (itemtype_fuel n (leaf X_AtomicOrUnionType k) (leaf X_AtomicOrUnionType k')) (ity_sub (JAtomic k) (JAtomic k')))
        by (apply (IH (JAtomic k) (JAtomic k')); auto; cbn [itree leaf xsize]; lia).
      destruct K as (x & -> & X). cbn [bind]. destruct x.
      + destruct (BS v v') as (y & -> & Y); [lia|auto|auto|]. exists y. split; [destruct y; reflexivity|]. rewrite Y.
        split; [intro; constructor; auto|inversion 1; auto]. assert (Q : ity_sub (JAtomic k) (JAtomic k')) by tauto. inversion Q; auto.
      + apply no. intro Q. inversion Q; subst. enough (false = true) by discriminate. apply X. constructor. auto.
    - (* array, typed function *) exfalso. cbn [iallowed] in FI, FJ. destruct f, c; discriminate.
    - (* arrays *) cbn [itree xsize] in S. cbn. cbn [iallowed] in FI, FJ. apply andb_prop in FI, FJ.
      destruct (BS v v') as (y & -> & Y); [lia|tauto|tauto|]. exists y. split; [destruct y; reflexivity|]. rewrite Y.
      split; [intro; constructor; auto|inversion 1; auto].
  Qed.
  Lemma subtype_spec A B : allowed f c A = true -> allowed f c B = true -> decides (subtype (tree A) (tree B)) (ty_sub A B).
  Proof. intros. apply body_spec; auto; [apply item_all|lia]. Qed.
End Frag.

(* ------------------------------------------------------------------ instances *)
Lemma signature_spec f c : f && c = false -> forall ps' ps, forallb (allowed f c) ps = true -> forallb (allowed f c) ps' = true ->
  decides (match_signature false (map tree ps') (map tree ps)) (tys_sub ps' ps).
Proof.
  intros FC ps'. induction ps' as [|a ps' IH]; intros [|b ps] F F'; cbn [map match_signature].
  - apply yes. constructor.
  - apply no. inversion 1.
  - apply no. inversion 1.
  - cbn [forallb] in F, F'. apply andb_prop in F, F'. destruct (subtype_spec f c FC a b) as (x & -> & X); try tauto. cbn [bind]. destruct x.
    + eapply decides_iff; [apply IH; tauto|]. split; [intro; constructor; tauto|inversion 1; auto].
    + apply no. intro Q. inversion Q; subst. enough (false = true) by discriminate. tauto.
Qed.
Lemma inline_types ps : lefts (fold_right (fun p x => XNode X_Param (fst p) (tree (snd p)) x) XNil ps) = map tree (map snd ps).
Proof. induction ps as [|p ps IH]; [reflexivity|]. cbn [fold_right lefts map]. f_equal. exact IH. Qed.
(* A function declared with parameter types ps and result type r is an instance of function(ps') as r' exactly when
   function(ps) as r is a subtype of it. *)
Theorem C80_function_partial : forall h f c ps r body r' ps', f && c = false ->
  allowed f c r = true -> forallb (allowed f c) (map snd ps) = true -> allowed f c r' = true -> forallb (allowed f c) ps' = true ->
  exists b, item_test h (XIFun (inline ps r body)) (itree (JTyped r' ps')) b /\
    (b = true <-> ity_sub (JTyped r (map snd ps)) (JTyped r' ps')).
Proof.
  intros h f c ps r body r' ps' FC FR FP FR' FP'.
  assert (D : decides (match_sequence_type h [XIFun (inline ps r body)] (XNode X_SequenceType [] (itree (JTyped r' ps')) XNil))
    (ity_sub (JTyped r (map snd ps)) (JTyped r' ps'))).
  { rewrite mst_one by (unfold item_type; cbn; tauto). unfold one_item. cbn [itree x_type]. unfold match_sequence_typed_function_test.
    cbn [x_right lefts forall_res]. unfold inline. cbn [signature_of x_type bind x_right lefts]. rewrite lefts_chain, inline_types.
    cbn [match_signature]. destruct (subtype_spec f c FC r r' FR FR') as (x & -> & X). cbn [bind]. destruct x.
    - destruct (signature_spec f c FC ps' (map snd ps) FP FP') as (y & -> & Y). exists y. split; [destruct y; reflexivity|]. rewrite Y.
      split; [intro; constructor; tauto|inversion 1; auto].
    - apply no. intro Q. inversion Q; subst. enough (false = true) by discriminate. tauto. }
  destruct D as (b & E & B). exists b. split; [|exact B]. apply item_test_iff. exact E.
Qed.
(* So `(function() as A { () }) instance of function() as B` tells whether A is a subtype of B. *)
Corollary C80_result_types_partial : forall h f c A B body, f && c = false -> allowed f c A = true -> allowed f c B = true ->
  exists b, item_test h (XIFun (inline [] A body)) (itree (JTyped B [])) b /\ (b = true <-> ty_sub A B).
Proof.
  intros h f c A B body FC FA FB. destruct (C80_function_partial h f c [] A body B [] FC FA eq_refl FB eq_refl) as (b & T & E).
  exists b. split; [exact T|]. rewrite E. split; [inversion 1; auto|intro; constructor; auto; constructor].
Qed.

(* ------------------------------------------------------------------ what the relation means *)
Lemma instance_iff h v A : instance h v A <-> match_sequence_type h v (tree A) = Ok true.
Proof.
  unfold instance. set (e := mkEnv 0 0 [(lit "x", v)]).
  assert (V : outcome h [] (XNode X_VarRef (lit "x") XNil XNil) e (Ok (v, e))) by (split; [discriminate|exists 1; reflexivity]).
  assert (H : match_sequence_type h v (tree A) <> Fuel) by apply match_sequence_type_total.
  assert (R : outcome h [] (XNode X_OperatorInstanceOf [] (XNode X_VarRef (lit "x") XNil XNil) (tree A)) e
     (do b <- match_sequence_type h v (tree A); Ok (sing_bool b, e))).
  { split; [destruct (match_sequence_type h v (tree A)); cbn [bind]; congruence|]. exists 2. rewrite eval_S. unfold eval_step. cbn [x_type x_left x_right].
    rewrite eval_S. unfold eval_step. cbn [x_type x_name bind]. reflexivity. }
  split.
  - intros [e' H']. assert (D := outcome_det _ _ _ _ _ _ R H').
    destruct (match_sequence_type _ _ _) as [b| | |]; cbn [bind] in D; try discriminate D. unfold sing_bool in D. congruence.
  - intro E. rewrite E in R. exists e. exact R.
Qed.
Lemma forall_res_mono {T} (f g : T -> res bool) l : (forall a, In a l -> f a = Ok true -> g a = Ok true) -> forall_res f l = Ok true -> forall_res g l = Ok true.
Proof.
  induction l as [|a l IH]; intros H E; [reflexivity|]. cbn [forall_res] in *. destruct (f a) as [[]| | |] eqn:F; try discriminate E.
  rewrite (H a (or_introl eq_refl) F). cbn [bind] in *. apply IH; auto. intros; apply H; auto. right; auto.
Qed.
Lemma forallb_mono {T} (f g : T -> bool) l : (forall a, f a = true -> g a = true) -> forallb f l = true -> forallb g l = true.
Proof. intros H E. rewrite forallb_forall in *. auto. Qed.
Lemma forall_res_in {T} (f : T -> res bool) l : forall_res f l = Ok true -> forall a, In a l -> f a = Ok true.
Proof.
  induction l as [|b l IH]; intros E a I; [destruct I|]. cbn [forall_res] in E. destruct (f b) as [[]| | |] eqn:F; try discriminate E.
  destruct I as [<-|I]; auto.
Qed.
Lemma item_type_tree i : item_type (itree i).
Proof. destruct i; unfold item_type; cbn; tauto. Qed.
Lemma mst_step h n v i c : mst_fuel h (S n) v (tree (TOf i c)) =
  do o <- match_occurence v (occ_text c); if negb o then Ok false else one_item h (mst_fuel h n) (itree i) v.
Proof.
  cbn [mst_fuel]. unfold match_sequence_type_body. cbn [tree x_type x_left x_name].
  change (negb (xtype_eqb X_SequenceType X_SequenceType)) with false. cbn iota.
  replace (xtype_eqb (x_type (itree i)) X_EmptySequenceTest) with false; [reflexivity|].
  destruct i; reflexivity.
Qed.
Lemma occ_mono c d v : occ_le c d -> match_occurence v (occ_text c) = Ok true -> match_occurence v (occ_text d) = Ok true.
Proof.
  intros L. destruct L; auto; destruct v as [|a [|b v]]; try destruct c; cbn; auto.
Qed.
Scheme ty_sub_mut := Induction for ty_sub Sort Prop
  with ity_sub_mut := Induction for ity_sub Sort Prop
  with tys_sub_mut := Induction for tys_sub Sort Prop.
Ltac ok_inv E := injection E as E.
Lemma sub_sound h : forall A B, ty_sub A B -> functionless A = true ->
  forall n m v, mst_fuel h n v (tree A) = Ok true -> xsize (tree B) < m -> mst_fuel h m v (tree B) = Ok true.
Proof.
  apply (ty_sub_mut
    (fun A B _ => functionless A = true -> forall n m v, mst_fuel h n v (tree A) = Ok true -> xsize (tree B) < m -> mst_fuel h m v (tree B) = Ok true)
    (fun i j _ => ifunctionless i = true -> forall n m v, one_item h (mst_fuel h n) (itree i) v = Ok true -> xsize (itree j) <= m ->
       one_item h (mst_fuel h m) (itree j) v = Ok true)
    (fun _ _ _ => True)); auto.
  - (* none *) intros _ n m v E L. destruct n, m; try lia; try discriminate E. exact E.
  - intros i _ n m v E L. destruct n, m; try lia; try discriminate E. cbn in E. destruct v; [|discriminate E].
    rewrite mst_step. cbn. destruct i; reflexivity.
  - intros i _ n m v E L. destruct n, m; try lia; try discriminate E. cbn in E. destruct v; [|discriminate E].
    rewrite mst_step. cbn. destruct i; reflexivity.
  - intros i j c d O _ IH F n m v E L. destruct n, m; try lia; try discriminate E. rewrite mst_step in *.
    destruct (match_occurence v (occ_text c)) as [[]| | |] eqn:O1; try discriminate E. rewrite (occ_mono _ _ _ O O1).
    cbn [bind negb] in *. rewrite tree_size in L. eapply IH; eauto. lia.
  - intros a b D _ n m v E L. unfold one_item in *. cbn [itree leaf x_type] in *. unfold match_sequence_atomic_or_union_type in *.
    ok_inv E. f_equal. revert E. apply forallb_mono. intros it. cbn [x_name leaf]. rewrite !derives_from_derives.
    intro X. eapply (proj1 (proj2 C38_partial_order)); eauto.
  - intros i F n m v E L. unfold one_item in E. unfold one_item. cbn [itree leaf x_type]. f_equal. apply forallb_forall. intros it I.
    destruct it as [x| | | | | | | |]; auto; exfalso. destruct i as [t| | | | | | |r ps|k w|w]; try discriminate F; cbn [itree leaf x_type] in E.
    + ok_inv E. apply (proj1 (forallb_forall _ _) E) in I. cbn [xs_type x_name leaf] in I. cbn [ifunctionless] in F.
      apply negb_true_iff, str_eqb_neq in F. apply derives_from_derives in I. inversion I as [|? q ? D]; subst; [auto|].
      clear - D. remember (lit "function(*)") as z eqn:Z. destruct D; try discriminate Z; vm_compute in Z; try discriminate Z.
    + ok_inv E. apply (proj1 (forallb_forall _ _) E) in I. discriminate I.
    + ok_inv E. apply (proj1 (forallb_forall _ _) E) in I. discriminate I.
    + ok_inv E. apply (proj1 (forallb_forall _ _) E) in I. discriminate I.
    + ok_inv E. apply (proj1 (forallb_forall _ _) E) in I. discriminate I.
    + ok_inv E. apply (proj1 (forallb_forall _ _) E) in I. discriminate I.
    + apply (forall_res_in _ _ E) in I. discriminate I.
    + apply (forall_res_in _ _ E) in I. discriminate I.
  - intros i M F n m v E L. unfold one_item. cbn [itree x_type]. f_equal. unfold match_sequence_kind_test. apply forallb_forall. intros it I.
    assert (Q : exists z, it = XINode z).
    { destruct M as [<- | [<- | [<- | [<- | []]]]]; unfold one_item in E; cbn [itree x_type] in E; ok_inv E; apply (proj1 (forallb_forall _ _) E) in I;
      destruct it; try discriminate I; eauto. }
    destruct Q as [z ->]. reflexivity.
  - intros r ps F. discriminate F.
  - intros k w F n m v E L. unfold one_item in *. cbn [itree leaf x_type] in *. f_equal. apply forallb_forall. intros it I.
    apply (forall_res_in _ _ E) in I. destruct it; try discriminate I. reflexivity.
  - intros w F n m v E L. unfold one_item in *. cbn [itree leaf x_type] in *. f_equal. apply forallb_forall. intros it I.
    apply (forall_res_in _ _ E) in I. destruct it; try discriminate I. reflexivity.
  - intros r ps r' ps' _ _ _ _ F. discriminate F.
  - intros k w k' w' D _ IH F n m v E L. unfold one_item in *. cbn [itree x_type] in *. revert E. apply forall_res_mono. intros it _.
    destruct it; auto. apply forall_res_mono. intros key _. cbn [x_left x_right leaf x_name].
    destruct (derives_from (xs_type key) k) eqn:X; [|discriminate].
    assert (Y : derives_from (xs_type key) k' = true) by (apply derives_from_derives; apply derives_from_derives in X; eapply (proj1 (proj2 C38_partial_order)); eauto).
    rewrite Y. cbn [negb]. destruct (xmap_get h m0 key); auto. intro E. eapply IH; eauto. cbn [itree xsize] in L. lia.
  - intros w w' _ IH F n m v E L. unfold one_item in *. cbn [itree x_type] in *. revert E. apply forall_res_mono. intros it _.
    destruct it; auto. apply forall_res_mono. intros key _. cbn [x_left x_right leaf x_name].
    destruct (xarray_get h a _); auto. intro E. eapply IH; eauto. cbn [itree xsize] in L. lia.
Qed.
(* The relation means what it should: a value of a type is a value of each of its supertypes. *)
Theorem C80_sound_partial : forall h v A B, functionless A = true -> ty_sub A B -> instance h v A -> instance h v B.
Proof.
  intros h v A B F S I. apply instance_iff in I. apply instance_iff. unfold match_sequence_type in *.
  eapply sub_sound; eauto.
Qed.

(* ------------------------------------------------------------------ maps and arrays where functions are expected *)
Definition result_sub (A B : ty) (b : bool) : Prop := forall h body, item_test h (XIFun (inline [] A body)) (itree (JTyped B [])) b.
Lemma result_subtype A B b : subtype (tree A) (tree B) = Ok b -> result_sub A B b.
Proof.
  intros E h body. apply item_test_iff. rewrite mst_one by (unfold item_type; cbn; tauto). unfold one_item. cbn [itree x_type].
  unfold match_sequence_typed_function_test. cbn [x_right lefts forall_res]. unfold inline. cbn [signature_of x_type bind x_right lefts].
  cbn [map fold_right param_chain lefts match_signature]. rewrite E. cbn [bind]. destruct b; reflexivity.
Qed.
(* A map type is taken for a function type whose first parameter the type of the keys derives from and whose result type the type
   of the values is a subtype of; an array type likewise, with xs:integer for the keys.  The number of parameters is not looked at. *)
Theorem C80_map_as_function_exact : forall f c k v p o ps r, f && c = false -> k <> lit "xs:error" -> p <> lit "xs:error" ->
  allowed f c v = true -> allowed f c r = true ->
  exists b, result_sub (TOf (JMap k v) C_one) (TOf (JTyped r (TOf (JAtomic p) o :: ps)) C_one) b /\ (b = true <-> derives k p /\ ty_sub v r).
Proof.
  intros f c k v p o ps r FC K P FV FR.
  assert (D : decides (subtype (tree (TOf (JMap k v) C_one)) (tree (TOf (JTyped r (TOf (JAtomic p) o :: ps)) C_one))) (derives k p /\ ty_sub v r)).
  { unfold subtype, subtype_body. change (subtype_tbl _ _) with V_Item. cbn iota. cbn [tree x_left]. 
    remember (xsize _ + xsize _) as n eqn:HN. cbn [itemtype_fuel]. unfold itemtype_body. cbn [itree x_type x_left x_right map param_chain fold_right tree].
    cbn. unfold both.
    destruct (item_all f c FC n (JAtomic k) (JAtomic p)) as (x & E & X).
    { rewrite HN. cbn [itree leaf xsize tree map param_chain fold_right]. lia. }
    { cbn [iallowed]. rewrite (proj2 (str_eqb_neq _ _) K). reflexivity. }
    { cbn [iallowed]. rewrite (proj2 (str_eqb_neq _ _) P). reflexivity. }
    cbn [itree] in E. unfold leaf in *. rewrite E. cbn [bind].
    assert (X' : x = true <-> derives k p) by (rewrite X; split; [inversion 1; auto|constructor; auto]).
    destruct x.
    - destruct (body_spec f c n (item_all f c FC n) v r) as (y & -> & Y); auto.
      { rewrite HN. cbn [itree leaf xsize tree map param_chain fold_right]. lia. }
      exists y. split; [destruct y; reflexivity|]. tauto.
    - apply no. intros [Q _]. apply X' in Q. discriminate Q. }
  destruct D as (b & E & B). exists b. split; [apply result_subtype; exact E|exact B].
Qed.
Theorem C80_array_as_function_exact : forall f c v p o ps r, f && c = false -> allowed f c v = true -> allowed f c r = true ->
  exists b, result_sub (TOf (JArray v) C_one) (TOf (JTyped r (TOf (JAtomic p) o :: ps)) C_one) b /\ (b = true <-> derives (lit "xs:integer") p /\ ty_sub v r).
Proof.
  intros f c v p o ps r FC FV FR.
  assert (D : decides (subtype (tree (TOf (JArray v) C_one)) (tree (TOf (JTyped r (TOf (JAtomic p) o :: ps)) C_one))) (derives (lit "xs:integer") p /\ ty_sub v r)).
  { unfold subtype, subtype_body. change (subtype_tbl _ _) with V_Item. cbn iota. cbn [tree x_left]. 
    remember (xsize _ + xsize _) as n eqn:HN. cbn [itemtype_fuel]. unfold itemtype_body. cbn [itree x_type x_left x_right map param_chain fold_right tree].
    unfold leaf. cbn [x_name]. destruct (derives_from (lit "xs:integer") p) eqn:Q; cbn.
    - destruct (body_spec f c n (item_all f c FC n) v r) as (y & -> & Y); auto.
      { rewrite HN. cbn [itree leaf xsize tree map param_chain fold_right]. lia. }
      exists y. split; [destruct y; reflexivity|]. apply derives_from_derives in Q. tauto.
    - apply no. intros [X _]. assert (X1 : derives_from (lit "xs:integer") p = true) by (apply derives_from_derives; exact X). rewrite X1 in Q. discriminate Q. }
  destruct D as (b & E & B). exists b. split; [apply result_subtype; exact E|exact B].
Qed.

(* ------------------------------------------------------------------ where the program departs from the rules *)
(* element(a) is not below itself; processing-instruction(a) is below processing-instruction(b) *)
Theorem C80_kinds_refuted :
  xpath_gives [] 0 (lit "(function() as element(a) { () }) instance of function() as element(a)") (Ok [XIBoolean false]) /\
  xpath_gives [] 0 (lit "(function() as processing-instruction(a) { () }) instance of function() as processing-instruction(b)") (Ok [XIBoolean true]).
Proof. repeat split; try discriminate; exists 30; vm_compute; reflexivity. Qed.
(* A map is a function of one parameter that accepts any key and may give (): map(xs:integer, xs:string) is a subtype of
   function(xs:anyAtomicType) as xs:string? but neither of a function type with two parameters nor of one with the result xs:string. *)
Theorem C80_map_function_refuted :
  xpath_gives [] 0 (lit "(function() as map(xs:integer, xs:string) { () }) instance of function() as function(xs:integer, xs:integer) as xs:string") (Ok [XIBoolean true]) /\
  xpath_gives [] 0 (lit "(function() as map(xs:integer, xs:string) { () }) instance of function() as function(xs:string) as xs:string?") (Ok [XIBoolean false]).
Proof. repeat split; try discriminate; exists 30; vm_compute; reflexivity. Qed.
(* function( * ) is below item(), but function items are not instances of item() *)
Theorem C80_sound_refuted :
  ity_sub JFunction JItem /\
  xpath_gives [] 0 (lit "(function() { 1 }) instance of function( * )") (Ok [XIBoolean true]) /\
  xpath_gives [] 0 (lit "(function() { 1 }) instance of item()") (Ok [XIBoolean false]).
Proof. split; [constructor|]. repeat split; try discriminate; exists 30; vm_compute; reflexivity. Qed.
Definition one s : ty := TOf (JAtomic (lit s)) C_one.
Example C80_example :
  parsed "function($a as xs:decimal) as map(xs:integer, text()?) { () }" =
    inline [(lit "a", one "xs:decimal")] (TOf (JMap (lit "xs:integer") (TOf JText C_opt)) C_one) (parsed "()") /\
  parsed "1 instance of function(xs:integer) as map(xs:decimal, node()* )+" =
    XNode X_OperatorInstanceOf [] (parsed "1")
      (tree (TOf (JTyped (TOf (JMap (lit "xs:decimal") (TOf JNode C_many)) C_some) [one "xs:integer"]) C_one)) /\
  eval_xpath 30 [] 0 (lit "(function($a as xs:decimal) as xs:integer { 1 }) instance of function(xs:integer) as xs:decimal") = Ok [XIBoolean true] /\
  eval_xpath 30 [] 0 (lit "(function($a as xs:integer) as xs:integer { 1 }) instance of function(xs:decimal) as xs:decimal") = Ok [XIBoolean false] /\
  eval_xpath 30 [] 0 (lit "(function() as array(xs:integer) { 1 }) instance of function() as array(xs:decimal)+") = Ok [XIBoolean true] /\
  ty_sub (TOf (JMap (lit "xs:integer") (one "xs:integer")) C_one) (TOf (JMap (lit "xs:decimal") (TOf (JAtomic (lit "xs:decimal")) C_many)) C_opt).
Proof.
  repeat (split; [vm_compute; reflexivity|]). constructor; [constructor|]. constructor; [|constructor; [constructor|constructor]]; apply derives_from_derives; reflexivity.
Qed.

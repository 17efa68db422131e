(* Facts about sequence types. *)
Require Import Bool List NArith ZArith Ascii String Lia.
From Verif Require Import Str StrFacts Sax Dom Axes Lexer FuncTable Parser Num Item Func Types Eval EvalFacts SpecOper ItemFacts SpecTypes.
Import ListNotations.
Open Scope nat_scope.

(* ---- derivation ---- *)
Lemma assoc_in : forall k l b, assoc k l = Some b -> In (k, b) l.
Proof.
  induction l as [|[a c] l IH]; intros b H; cbn [assoc] in H; [discriminate|].
  destruct (str_eqb a k) eqn:E.
  - apply str_eqb_eq in E. subst. injection H as ->. left; reflexivity.
  - right; auto.
Qed.
Lemma base_type_derived : forall a b, base_type a = Some b <-> derived a b.
Proof.
  intros a b. split.
  - intro H. apply assoc_in in H. unfold derives_tbl in H.
    repeat (destruct H as [H|H]; [injection H as <- <-; constructor|]). destruct H.
  - intro H. destruct H; vm_compute; reflexivity.
Qed.
Fixpoint ht (n : nat) (a : str) : nat :=
  match n with O => 0 | S n' => match base_type a with Some s => S (ht n' s) | None => 0 end end.
Lemma ht_step : forall a b, derived a b -> ht 12 a = S (ht 12 b) /\ ht 12 a < 6.
Proof. intros a b H. destruct H; vm_compute; split; auto; lia. Qed.
Lemma ht_top : forall a, ht 12 a < 6.
Proof.
  intro a. destruct (base_type a) as [b|] eqn:E.
  - apply base_type_derived in E. apply (ht_step a b E).
  - cbn [ht]. rewrite E. lia.
Qed.
Lemma derives_loop_more : forall n m a b, ht 12 a < n -> ht 12 a < m -> derives_loop n a b = derives_loop m a b.
Proof.
  induction n as [|n IH]; intros m a b L M; [lia|]. destruct m as [|m]; [lia|]. cbn [derives_loop].
  destruct (str_eqb a b); auto. destruct (base_type a) as [s|] eqn:E; auto.
  apply base_type_derived in E. destruct (ht_step a s E) as [H _]. apply IH; lia.
Qed.
(* the Rust loop, without the bound of the model *)
Lemma derives_from_unfold : forall a b, derives_from a b =
  if str_eqb a b then true else match base_type a with Some s => derives_from s b | None => false end.
Proof.
  intros a b. unfold derives_from at 1. cbn [derives_loop]. destruct (str_eqb a b); auto.
  destruct (base_type a) as [s|] eqn:E; auto. apply base_type_derived in E. destruct (ht_step a s E) as [H L].
  apply derives_loop_more; cbn [derives_tbl List.length]; lia.
Qed.
Lemma derives_from_derives : forall a b, derives_from a b = true <-> derives a b.
Proof.
  intros a b. split.
  - unfold derives_from. generalize (S (List.length derives_tbl)). intro n. revert a.
    induction n as [|n IH]; intros a H; cbn [derives_loop] in H; [discriminate|].
    destruct (str_eqb a b) eqn:E.
    + apply str_eqb_eq in E. subst. constructor.
    + destruct (base_type a) as [s|] eqn:B; [|discriminate]. apply base_type_derived in B.
      eapply dv_step; eauto.
  - intro H. induction H as [a|a b c D _ IH].
    + rewrite derives_from_unfold, str_eqb_refl. reflexivity.
    + rewrite derives_from_unfold. destruct (str_eqb a c); auto.
      apply base_type_derived in D. rewrite D. exact IH.
Qed.
Lemma derives_ht : forall a b, derives a b -> a = b \/ ht 12 b < ht 12 a.
Proof.
  intros a b H. induction H as [a|a b c D _ IH]; auto.
  destruct (ht_step a b D). destruct IH as [->|]; right; lia.
Qed.

(* ---- subtype ---- *)
Lemma lefts_size : forall x y, In y (lefts x) -> xsize y < xsize x.
Proof.
  induction x as [|ty nm l _ r IH]; intros y H; cbn [lefts xsize] in *; [destruct H|].
  destruct H as [<-|H]; [lia|]. apply IH in H. lia.
Qed.
Lemma xsize_left : forall x, xsize (x_left x) <= xsize x.
Proof. destruct x; cbn; lia. Qed.
Lemma xsize_right : forall x, xsize (x_right x) <= xsize x.
Proof. destruct x; cbn; lia. Qed.
Lemma xsize_pos : forall x, x_type x <> X_Nil -> xsize (x_left x) + xsize (x_right x) < xsize x.
Proof. destruct x as [|ty nm l r]; cbn; [congruence|intros; lia]. Qed.
Lemma all2_fuel : forall f l m, (forall a b, In a l -> In b m -> f a b <> Fuel) -> all2 f l m <> Fuel.
Proof.
  induction l as [|a l IH]; intros [|b m] H; cbn [all2]; try discriminate.
  apply bind_fuel; [apply H; left; reflexivity|]. intro x. apply bind_fuel; [|discriminate].
  apply IH. intros; apply H; right; auto.
Qed.
Lemma or_res_fuel : forall c k, c <> Fuel -> k <> Fuel -> or_res c k <> Fuel.
Proof. intros c k H K. unfold or_res. apply bind_fuel; auto. intros []; [discriminate|auto]. Qed.
Lemma itemtype_total : forall n a b, xsize a + xsize b < n -> itemtype_fuel n a b <> Fuel.
Proof.
  induction n as [|n IH]; intros a b L; [lia|]. cbn [itemtype_fuel].
  assert (S1 : forall u v, xsize u + xsize v < n -> subtype_body (itemtype_fuel n) u v <> Fuel).
  { intros u v M. unfold subtype_body. destruct (subtype_tbl _ _); try discriminate.
    apply IH. assert (H := xsize_left u). assert (K := xsize_left v). lia. }
  unfold itemtype_body.
  destruct (_ && _ && _); [discriminate|]. destruct (xtype_eqb (x_type b) X_ItemTest); [discriminate|].
  destruct (kind_rule a b); [discriminate|]. destruct (xtype_eqb (x_type b) X_AnyFunctionTest && _); [discriminate|].
  assert (BOTH : forall ka kb va vb, xsize ka + xsize kb < n -> xsize va + xsize vb < n ->
    both (subtype_body (itemtype_fuel n)) (itemtype_fuel n) ka kb va vb <> Fuel).
  { intros ka kb va vb K V. unfold both. apply bind_fuel; [apply IH; auto|]. intros []; [|discriminate]. apply S1; auto. }
  assert (PA : x_type a <> X_Nil -> xsize (x_left a) + xsize (x_right a) < xsize a) by apply xsize_pos.
  assert (PB : x_type b <> X_Nil -> xsize (x_left b) + xsize (x_right b) < xsize b) by apply xsize_pos.
  apply or_res_fuel.
  { unfold function_rule. destruct (_ && _) eqn:E; [|discriminate].
    apply andb_prop in E. destruct E as [E1 E2]. apply xtype_eqb_eq in E1, E2.
    rewrite E1 in PB. rewrite E2 in PA. specialize (PA ltac:(discriminate)). specialize (PB ltac:(discriminate)).
    destruct (Nat.eqb _ _); [|discriminate].
    assert (SA := lefts_size (x_right a)). assert (SB := lefts_size (x_right b)).
    destruct (lefts (x_right a)) as [|u ats]; [discriminate|]. destruct (lefts (x_right b)) as [|v bs]; [discriminate|].
    assert (xsize u < xsize (x_right a)) by (apply SA; left; auto).
    assert (xsize v < xsize (x_right b)) by (apply SB; left; auto).
    apply bind_fuel; [apply S1; lia|]. intro. apply bind_fuel; [|discriminate].
    apply all2_fuel. intros p q P Q. apply S1.
    assert (xsize p < xsize (x_right b)) by (apply SB; right; auto).
    assert (xsize q < xsize (x_right a)) by (apply SA; right; auto). lia. }
  apply or_res_fuel.
  { destruct (_ && _) eqn:E; [|discriminate]. apply andb_prop in E. destruct E as [E1 E2]. apply xtype_eqb_eq in E1, E2.
    rewrite E1 in PA. rewrite E2 in PB. specialize (PA ltac:(discriminate)). specialize (PB ltac:(discriminate)).
    apply BOTH; lia. }
  destruct (_ && _); [discriminate|]. apply or_res_fuel.
  { destruct (_ && _) eqn:E; [|discriminate]. apply andb_prop in E. destruct E as [E1 E2]. apply xtype_eqb_eq in E1, E2.
    rewrite E1 in PA. rewrite E2 in PB. specialize (PA ltac:(discriminate)). specialize (PB ltac:(discriminate)).
    assert (X1 := xsize_right (x_right b)). assert (X2 := xsize_left (x_right (x_right b))).
    assert (X3 := xsize_left (x_left (x_right (x_right b)))). assert (X4 := xsize_left (x_right b)).
    apply BOTH; lia. }
  apply or_res_fuel.
  { destruct (_ && _) eqn:E; [|discriminate]. apply andb_prop in E. destruct E as [E1 E2]. apply xtype_eqb_eq in E1, E2.
    rewrite E1 in PA. rewrite E2 in PB. specialize (PA ltac:(discriminate)). specialize (PB ltac:(discriminate)).
    apply S1; lia. }
  destruct (_ && _); [discriminate|].
  destruct (_ && _) eqn:E; [|discriminate]. apply andb_prop in E. destruct E as [E _].
  apply andb_prop in E. destruct E as [E1 E2]. apply xtype_eqb_eq in E1, E2.
  rewrite E1 in PA. rewrite E2 in PB. specialize (PA ltac:(discriminate)). specialize (PB ltac:(discriminate)).
  assert (X4 := xsize_left (x_right b)). apply S1; lia.
Qed.
Lemma subtype_total : forall a b, subtype a b <> Fuel.
Proof.
  intros a b. unfold subtype, subtype_body. destruct (subtype_tbl _ _); try discriminate.
  apply itemtype_total. assert (H := xsize_left a). assert (K := xsize_left b). lia.
Qed.

(* ---- match_sequence_type ---- *)
Lemma match_signature_fuel : forall first w c, match_signature first w c <> Fuel.
Proof.
  intros first w. revert first. induction w as [|x w IH]; intros first [|y c]; cbn [match_signature]; try discriminate.
  apply bind_fuel; [destruct first; apply subtype_total|]. intros []; [apply IH|discriminate].
Qed.
Lemma signature_lookup_in : forall n l, signature_lookup n l = [] \/ exists m, In (m, signature_lookup n l) l.
Proof.
  induction l as [|[m s] l IH]; cbn [signature_lookup]; auto. destruct (str_eqb m n).
  - right. exists m. left; reflexivity.
  - destruct IH as [->|[k IH]]; auto. right. exists k. right; exact IH.
Qed.
Definition sig_ok (s : str) : bool :=
  match (do v <- lexer_new s; do (t, _) <- parse_function_test parse_item_type (tokens_of v); Ok t) with
  | Ok _ => true | _ => false end.
Lemma sigs_ok : forallb (fun p => sig_ok (snd p)) func_signature_tbl = true.
Proof. vm_compute. reflexivity. Qed.
(* the signature of every named function in the table parses *)
Lemma signature_of_ok : forall x, exists o, signature_of x = Ok o.
Proof.
  intro x. unfold signature_of. destruct (x_type x); try (eexists; reflexivity).
  unfold get_function_signature. destruct (signature_lookup_in (x_name x) func_signature_tbl) as [->|[m I]].
  - eexists; reflexivity.
  - assert (F := sigs_ok). rewrite forallb_forall in F. specialize (F _ I). cbn [snd] in F. unfold sig_ok in F.
    destruct (str_eqb _ []); [eexists; reflexivity|].
    destruct (lexer_new _) as [v| | |]; cbn [bind] in *; try discriminate.
    destruct (parse_function_test _ _) as [[t q]| | |]; cbn [bind] in *; try discriminate. eexists; reflexivity.
Qed.
Lemma forall_res_fuel : forall A (f : A -> res bool) l, (forall a, f a <> Fuel) -> forall_res f l <> Fuel.
Proof. induction l; intro H; cbn [forall_res]; [discriminate|]. apply bind_fuel; auto. intros []; [auto|discriminate]. Qed.
Lemma array_type_fuel : forall h mst a t, (forall v, mst v t <> Fuel) -> match_array_sequence_type h mst a t <> Fuel.
Proof. intros. unfold match_array_sequence_type. apply forall_res_fuel. intro k. destruct (xarray_get _ _ _); [auto|discriminate]. Qed.
Lemma map_type_fuel : forall h mst a k t, (forall v, mst v t <> Fuel) -> match_map_sequence_type h mst a k t <> Fuel.
Proof.
  intros. unfold match_map_sequence_type. apply forall_res_fuel. intro y. destruct (negb _); [discriminate|].
  destruct (xmap_get _ _ _); [auto|discriminate].
Qed.
Lemma typed_function_fuel : forall h mst s t, x_type t <> X_Nil -> (forall v u, xsize u < xsize t -> mst v u <> Fuel) ->
  match_sequence_typed_function_test h mst s t <> Fuel.
Proof.
  intros h mst s t N H. unfold match_sequence_typed_function_test.
  assert (P := xsize_pos t N). assert (SA := lefts_size (x_right t)).
  apply forall_res_fuel. intro it. destruct it; try discriminate.
  - match goal with |- context [signature_of ?f] => destruct (signature_of_ok f) as [o ->] end. cbn [bind]. destruct o; [apply match_signature_fuel|discriminate].
  - destruct (lefts (x_right t)) as [|r [|k [|]]]; try discriminate. apply map_type_fuel. intro v. apply H.
    assert (xsize r < xsize (x_right t)) by (apply SA; left; auto). lia.
  - destruct (lefts (x_right t)) as [|r [|k [|]]]; try discriminate.
    assert (xsize r < xsize (x_right t)) by (apply SA; left; auto).
    assert (xsize k < xsize (x_right t)) by (apply SA; right; left; auto).
    apply bind_fuel; [apply H; lia|]. intros []; [|discriminate]. apply array_type_fuel. intro v. apply H. lia.
Qed.
Lemma mst_total : forall h n s x, xsize x < n -> mst_fuel h n s x <> Fuel.
Proof.
  induction n as [|n IH]; intros s x L; [lia|]. cbn [mst_fuel]. unfold match_sequence_type_body.
  destruct (negb _) eqn:E; [discriminate|]. destruct (xtype_eqb (x_type (x_left x)) X_EmptySequenceTest); [discriminate|].
  apply negb_false_iff, xtype_eqb_eq in E. assert (P := xsize_pos x). rewrite E in P. specialize (P ltac:(discriminate)).
  apply bind_fuel.
  { unfold match_occurence. repeat (destruct (str_eqb _ _); [discriminate|]). discriminate. }
  intros []; [|discriminate]. cbn [negb].
  destruct (x_type (x_left x)) eqn:T; try discriminate.
  1: { apply typed_function_fuel; [congruence|]. intros; apply IH; lia. }
  all: assert (Q := xsize_pos (x_left x)); rewrite T in Q; specialize (Q ltac:(discriminate)).
  - unfold match_sequence_map_test. apply forall_res_fuel. intros []; try discriminate. apply map_type_fuel. intro v. apply IH. lia.
  - unfold match_sequence_array_test. apply forall_res_fuel. intros []; try discriminate. apply array_type_fuel. intro v. apply IH. lia.
Qed.
Lemma match_sequence_type_total : forall h s x, match_sequence_type h s x <> Fuel.
Proof. intros. apply mst_total. lia. Qed.

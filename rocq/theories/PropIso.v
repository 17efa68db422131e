(* C89: what an XPath selects and computes depends on the tree of the document only. *)
Require Import Bool List NArith ZArith Ascii String Lia.
From Verif Require Import Str StrFacts Chars Sax Dom SpecTree SpecEdit HeapFacts BuildFacts SaxFacts DocFacts EditFacts OrderFacts SessionFacts
  PropXml Axes SpecAxes AxesFacts Lexer FuncTable Parser Num Item Func Types Eval SemNode PropRead SpecIso IsoFacts IsoWalk IsoItem IsoEval.
Import ListNotations.
Open Scope nat_scope.

Lemma place_peer : forall t t' i j, same_place t t' i j <-> peer t t' i j.
Proof.
  intros t t' i j. split.
  - intros [k [A B]]. eapply combine_nth_in; eauto.
  - intro H. apply combine_in_nth in H. exact H.
Qed.
Lemma same_item_impl : forall (P Q : nat -> nat -> Prop), (forall i j, P i j -> Q i j) -> forall a b, same_item P a b -> same_item Q a b.
Proof.
  intros P Q H. fix IH 3. intros a b S. destruct S; try (constructor; auto; fail).
  - constructor. revert m m' H0. fix IHm 3. intros m m' F. destruct F as [|e e' m m' [K V] F]; constructor; [split|].
    + apply IH; exact K.
    + revert V. generalize (snd e) (snd e'). fix IHs 3. intros s s' V. destruct V as [|x y s s' X V]; constructor; [apply IH; exact X|apply IHs; exact V].
    + apply IHm; exact F.
  - constructor. revert a a' H0. fix IHa 3. intros a a' F. destruct F as [|s s' a a' V F]; constructor; [|apply IHa; exact F].
    revert s s' V. fix IHs 3. intros s s' V. destruct V as [|x y s s' X V]; constructor; [apply IH; exact X|apply IHs; exact V].
Qed.
Lemma session_ordered : forall h t, session h -> document h t -> tid t = 0 -> order_ok h t.
Proof.
  intros h t S D Z. destruct (session_document h S) as [u [Du [Zu O]]]. replace t with u; auto.
  eapply rep_unique; [apply Du|apply D|congruence].
Qed.

(* Two documents with equal trees, built and edited in any way: every XPath text, started at the same place, gives
   the same outcome: the same error, or sequences of the same items, nodes being the same when they are at the same
   place. *)
Theorem C89_same_result : forall h h' t t' i j xp fuel, session h -> session h' -> document h t -> document h' t' -> tid t = 0 -> tid t' = 0 ->
  erase t = erase t' -> same_place t t' i j ->
  same_outcome (Forall2 (same_item (same_place t t'))) (eval_xpath fuel h i xp) (eval_xpath fuel h' j xp).
Proof.
  intros h h' t t' i j xp fuel S S' D D' Z Z' E P. apply place_peer in P.
  assert (OK := session_ordered h t S D Z). assert (OK' := session_ordered h' t' S' D' Z').
  eapply so_impl; [apply (xpath_same h h' t t' D D' OK OK' E); exact P|]. intros v v' V. eapply f2_impl; [|exact V].
  apply same_item_impl. intros a b. apply place_peer.
Qed.
(* ... and they are shown as the same text *)
Theorem C89_same_text : forall h h' t t' i j xp fuel v v', session h -> session h' -> document h t -> document h' t' -> tid t = 0 -> tid t' = 0 ->
  erase t = erase t' -> same_place t t' i j -> eval_xpath fuel h i xp = Ok v -> eval_xpath fuel h' j xp = Ok v' ->
  seq_to_string h v = seq_to_string h' v' /\ seq_len v = seq_len v' /\
  forall k a b, seq_get_item v k = Ok a -> seq_get_item v' k = Ok b -> item_to_string h a = item_to_string h' b.
Proof.
  intros h h' t t' i j xp fuel v v' S S' D D' Z Z' E P EV EV'. apply place_peer in P.
  assert (OK := session_ordered h t S D Z). assert (OK' := session_ordered h' t' S' D' Z').
  assert (X := xpath_same h h' t t' D D' OK OK' E fuel i j xp P). rewrite EV, EV' in X. cbn [same_outcome] in X. split; [|split].
  - apply (show_seq_same h h' t t' D D' E). exact X.
  - exact (f2_length _ _ _ _ _ X).
  - intros k a b A B. unfold seq_get_item in A, B. assert (N := f2_nth _ _ _ k _ _ X).
    destruct (nth_error v k), (nth_error v' k); try discriminate. injection A as ->. injection B as ->. apply (show_item_same h h' t t' D D' E). exact N.
Qed.
(* a sequence of strings, numbers, booleans and functions is the very same *)
Theorem C89_same_values : forall h h' t t' i j xp fuel v, session h -> session h' -> document h t -> document h' t' -> tid t = 0 -> tid t' = 0 ->
  erase t = erase t' -> same_place t t' i j -> eval_xpath fuel h i xp = Ok v ->
  Forall (fun it => match it with XINode _ | XIMap _ | XIArray _ => False | _ => True end) v ->
  eval_xpath fuel h' j xp = Ok v.
Proof.
  intros h h' t t' i j xp fuel v S S' D D' Z Z' E P EV A. assert (X := C89_same_result h h' t t' i j xp fuel S S' D D' Z Z' E P).
  rewrite EV in X. destruct (eval_xpath fuel h' j xp) as [v'| | |]; cbn [same_outcome] in X; try contradiction. f_equal.
  clear EV. induction X as [|a b v v' I X IH]; [reflexivity|]. inversion A; subst. f_equal; [destruct I; try reflexivity; contradiction|auto].
Qed.
(* the node lists: nodes at the same places in the same order *)
Theorem C89_same_nodes : forall h h' t t' i j xp fuel, session h -> session h' -> document h t -> document h' t' -> tid t = 0 -> tid t' = 0 ->
  erase t = erase t' -> same_place t t' i j ->
  same_outcome (Forall2 (same_place t t')) (get_nodeset fuel h i xp) (get_nodeset fuel h' j xp) /\
  same_outcome (fun a b => match a, b with Some m, Some n => same_place t t' m n | None, None => True | _, _ => False end)
    (get_first_node fuel h i xp) (get_first_node fuel h' j xp).
Proof.
  intros h h' t t' i j xp fuel S S' D D' Z Z' E P.
  assert (N : same_outcome (Forall2 (same_place t t')) (get_nodeset fuel h i xp) (get_nodeset fuel h' j xp)).
  { apply place_peer in P. assert (OK := session_ordered h t S D Z). assert (OK' := session_ordered h' t' S' D' Z').
    assert (X := xpath_same h h' t t' D D' OK OK' E fuel i j xp P). unfold eval_xpath in X. unfold get_nodeset.
    destruct (compile_xpath xp) as [x| | |]; cbn [bind] in *; auto. eapply so_bind; [exact X|]. intros v v' V. cbn [same_outcome].
    eapply f2_impl; [|apply nodeset_same; exact V]. intros a b. apply place_peer. }
  split; [exact N|]. unfold get_first_node.
  destruct (get_nodeset fuel h i xp) as [l| | |], (get_nodeset fuel h' j xp) as [l'| | |]; cbn [same_outcome] in N; try contradiction; try exact I.
  destruct N; cbn; auto.
Qed.
(* every node of one document has exactly one node at its place in the other *)
Theorem C89_places : forall h h' t t', document h t -> document h' t' -> tid t = 0 -> tid t' = 0 -> erase t = erase t' ->
  same_place t t' 0 0 /\
  (forall i, in_document h 0 i -> exists j, same_place t t' i j /\ in_document h' 0 j) /\
  (forall j, in_document h' 0 j -> exists i, same_place t t' i j /\ in_document h 0 i) /\
  (forall i j k, same_place t t' i j -> same_place t t' i k -> j = k) /\
  (forall i j k, same_place t t' i k -> same_place t t' j k -> i = j).
Proof.
  intros h h' t t' D D' Z Z' E. assert (L := erase_ids t t' E).
  assert (IN : forall i, in_document h 0 i <-> In i (ids t)) by (intro i; rewrite <- Z; apply in_document_ids; auto).
  assert (IN' : forall i, in_document h' 0 i <-> In i (ids t')) by (intro i; rewrite <- Z'; apply in_document_ids; auto).
  split; [|split; [|split; [|split]]].
  - apply place_peer. rewrite <- Z at 1. rewrite <- Z'. apply peer_tid.
  - intros i I. apply IN in I. apply In_nth_error in I. destruct I as [k K]. assert (B : k < List.length (ids t)) by (apply nth_error_Some; congruence).
    destruct (nth_error (ids t') k) as [j|] eqn:J; [|apply nth_error_None in J; lia]. exists j. split; [exists k; auto|]. apply IN'. eapply nth_error_In; eauto.
  - intros j I. apply IN' in I. apply In_nth_error in I. destruct I as [k K]. assert (B : k < List.length (ids t')) by (apply nth_error_Some; congruence).
    destruct (nth_error (ids t) k) as [i|] eqn:J; [|apply nth_error_None in J; lia]. exists i. split; [exists k; auto|]. apply IN. eapply nth_error_In; eauto.
  - intros i j k A B. apply place_peer in A, B. eapply combine_fun; [apply D|exact A|exact B].
  - intros i j k A B. apply place_peer in A, B. eapply combine_inj; [apply D'|exact A|exact B].
Qed.
(* A document saved and read again answers every XPath as before: whatever edits led to it. *)
Theorem C89_saved : forall h t, session h -> document h t -> tid t = 0 -> clean_doc (erase t) ->
  exists s h' t', to_string h 0 = Some s /\ new_document s = Ok h' /\ document h' t' /\ tid t' = 0 /\ erase t' = erase t /\
    forall i j xp fuel, same_place t t' i j ->
      same_outcome (Forall2 (same_item (same_place t t'))) (eval_xpath fuel h i xp) (eval_xpath fuel h' j xp) /\
      (forall v v', eval_xpath fuel h i xp = Ok v -> eval_xpath fuel h' j xp = Ok v' -> seq_to_string h v = seq_to_string h' v').
Proof.
  intros h t S D Z C. destruct (C04_serialise_parse h t D C) as (s & h' & t' & W & N & D' & Z' & E). rewrite Z in W.
  exists s, h', t'. repeat (split; [assumption|]). intros i j xp fuel P.
  assert (S' : session h') by (eapply ses_parse; exact N). split.
  - apply C89_same_result; auto.
  - intros v v' A B. eapply C89_same_text; [exact S|exact S'|exact D|exact D'|auto|auto|auto|exact P|exact A|exact B].
Qed.
Print Assumptions C89_same_result.
Print Assumptions C89_same_text.
Print Assumptions C89_same_nodes.
Print Assumptions C89_places.
Print Assumptions C89_saved.

(* <r><a/><b x="1"/></r> with <a/> deleted, and <r><b x="1"/></r>: the b is node 3 of the first and node 2 of the second *)
Definition iso_h0 : heap := match new_document (lit "<r><a/><b x=""1""/></r>") with Ok h => h | _ => [] end.
Definition iso_h1 : heap := match delete_child iso_h0 1 2 with Ok h => h | _ => [] end.
Definition iso_h2 : heap := match new_document (lit "<r><b x=""1""/></r>") with Ok h => h | _ => [] end.
Definition iso_t1 : tree := T 0 DocumentRoot [] [] [] [T 1 Element (lit "r") [] [] [T 3 Element (lit "b") [] [(4, (lit "x", lit "1"))] []]].
Definition iso_t2 : tree := T 0 DocumentRoot [] [] [] [T 1 Element (lit "r") [] [] [T 2 Element (lit "b") [] [(3, (lit "x", lit "1"))] []]].
Ltac show_document := split; [repeat (first [ eapply rep_T with (o := 0%Z) | apply Forall_cons | apply Forall_nil
                    | vm_compute; reflexivity | vm_compute; lia | split; [vm_compute; lia | exists 0%Z; vm_compute; reflexivity] ])
  |vm_compute; repeat constructor; cbn; intuition discriminate].
Example C89_example : session iso_h1 /\ session iso_h2 /\ document iso_h1 iso_t1 /\ document iso_h2 iso_t2 /\ iso_h1 <> iso_h2 /\
  erase iso_t1 = erase iso_t2 /\ same_place iso_t1 iso_t2 3 2 /\ clean_doc (erase iso_t1) /\
  get_nodeset 30 iso_h1 1 (lit "b/@x") = Ok [4] /\ get_nodeset 30 iso_h2 1 (lit "b/@x") = Ok [3] /\
  eval_xpath 30 iso_h1 1 (lit "count(//@*)") = Ok [XIInteger 1] /\
  eval_xpath 30 iso_h1 3 (lit "preceding-sibling::a") = Ok [].
Proof.
  assert (S0 : session iso_h0) by (eapply ses_parse with (xml := lit "<r><a/><b x=""1""/></r>"); vm_compute; reflexivity).
  split; [eapply ses_delete with (h := iso_h0) (i := 1) (c := 2); [exact S0| |vm_compute; reflexivity];
    apply att_child with (p := 0); [constructor|vm_compute; auto]|].
  split; [eapply ses_parse with (xml := lit "<r><b x=""1""/></r>"); vm_compute; reflexivity|].
  split; [show_document|]. split; [show_document|]. split; [vm_compute; discriminate|]. split; [reflexivity|]. split; [exists 2; split; reflexivity|].
  split; [vm_compute; constructor; [repeat constructor; cbn; try (vm_compute; reflexivity); try (vm_compute; intuition discriminate); try not_contains|
    cbn; unfold is_text; cbn; intuition discriminate]|].
  repeat split; vm_compute; reflexivity.
Qed.

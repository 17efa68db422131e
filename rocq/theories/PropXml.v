(* C04-C08: reading and writing documents. *)
Require Import Bool List NArith ZArith Ascii String Lia.
From Verif Require Import Str StrFacts Chars Sax Dom SpecTree SpecTokens HeapFacts BuildFacts SaxFacts DocFacts TermFacts.
Import ListNotations.
Open Scope N_scope.

(* C04: writing any representable document and reading it back gives an equal tree. *)
Theorem C04_serialise_parse : forall h t, document h t -> clean_doc (erase t) ->
  exists s h' t', to_string h (tid t) = Some s /\
    new_document s = Ok h' /\ document h' t' /\ tid t' = 0%nat /\ erase t' = erase t.
Proof.
  intros h t D C. exists (pr (erase t)).
  destruct (roundtrip h t _ D C (to_string_document _ _ D)) as [h' [t' H]].
  exists h', t'. split; [apply to_string_document; auto | exact H].
Qed.
Print Assumptions C04_serialise_parse.

(* C05: and writing it again gives the same text. *)
Theorem C05_reserialise_stable : forall h t s, document h t -> clean_doc (erase t) ->
  to_string h (tid t) = Some s ->
  exists h', new_document s = Ok h' /\ to_string h' 0 = Some s.
Proof.
  intros h t s D C E. destruct (roundtrip h t s D C E) as [h' [t' [E1 [D' [E0 E2]]]]].
  exists h'. split; auto. rewrite <- E0, (to_string_document _ _ D'), E2.
  rewrite <- E. symmetry. apply to_string_document. auto.
Qed.
Print Assumptions C05_reserialise_stable.

(* a document meeting the hypotheses of C04/C05: attributes, nesting, every kind of node, characters
   that need escaping *)
Definition doc1_text : str :=
  lit "<?xml version='1.0'?><a x=""1&lt;2"" y=""&amp;""><!--c--><b/>t &amp; u<?p d?><b>z</b></a>".
Definition doc1_tree : tree :=
  T 0 DocumentRoot [] [] []
    [T 1 XMLDecl (lit "xml") (lit "version='1.0'") [] [];
     T 2 Element (lit "a") [] [(3, (lit "x", lit "1<2")); (4, (lit "y", lit "&"))]%nat
       [T 5 Comment [] (lit "c") [] [];
        T 6 Element (lit "b") [] [] [];
        T 7 Text [] (lit "t & u") [] [];
        T 8 Instruction (lit "p") (lit "d") [] [];
        T 9 Element (lit "b") [] [] [T 10 Text [] (lit "z") [] []]]].
Definition doc1_heap : heap :=
  match new_document doc1_text with Ok h => h | _ => [] end.

Ltac not_contains := let u := fresh "u" in let v := fresh "v" in let E := fresh "E" in
  intros [u [v E]]; cbn in E;
  repeat (destruct u as [|? u]; cbn in E; [discriminate E|]; try (injection E as _ E); try discriminate E).

Example C04_example : new_document doc1_text = Ok doc1_heap /\
  document doc1_heap doc1_tree /\ clean_doc (erase doc1_tree) /\
  to_string doc1_heap 0 = Some doc1_text.
Proof.
  split; [|split; [|split]].
  - vm_compute. reflexivity.
  - split.
    + repeat (first [ eapply rep_T with (o := 0%Z) | apply Forall_cons | apply Forall_nil
                    | vm_compute; reflexivity | vm_compute; lia
                    | split; [vm_compute; lia | exists 0%Z; vm_compute; reflexivity] ]).
    + vm_compute. repeat constructor; cbn; intuition discriminate.
  - vm_compute. constructor.
    + repeat constructor; cbn; try (vm_compute; reflexivity); try (vm_compute; intuition discriminate);
        try not_contains.
    + cbn. unfold is_text. cbn. intuition discriminate.
  - vm_compute. reflexivity.
Qed.

(* C06 in full would be: forall xml, exists fuel, new_document_fuel fuel xml <> Fuel.
   It is false: on "<a" the attribute loop never sees the end of input. *)
Theorem C06_termination_refuted : forall fuel, new_document_fuel fuel (lit "<a") = Fuel.
Proof.
  intro fuel. unfold new_document_fuel.
  destruct (make_new_rc_node [] DocumentRoot None [] []) as [h root].
  destruct fuel as [|fuel]; [reflexivity|]. cbn [doc_loop].
  assert (E : raw_token (S fuel) (sax_new (lit "<a")) = Fuel).
  { unfold raw_token, sax_new. cbn - [attr_loop]. rewrite attr_loop_end. reflexivity. }
  rewrite E. reflexivity.
Qed.
Print Assumptions C06_termination_refuted.

(* What holds: whenever every < is followed by some > after which no quote occurs, new_document returns
   a document or a syntax error.  Missing: other inputs, some of which loop forever (above). *)
Theorem C06_termination_partial : forall xml, terminated (without_cr xml) ->
  (exists h, new_document xml = Ok h) \/ new_document xml = Err XmlSyntaxError.
Proof. exact new_document_terminates. Qed.
Print Assumptions C06_termination_partial.

(* and the number of steps allowed by [new_document] is the right one: if it is not enough, the program
   does not return at all *)
Theorem C06_step_bound_exact : forall xml fuel r,
  new_document_fuel fuel xml = r -> r <> Fuel -> new_document xml = r.
Proof. intros xml fuel r. exact (new_document_enough fuel xml r). Qed.
Print Assumptions C06_step_bound_exact.

Example C06_example : terminated (without_cr (lit "<a b='1>0'>it's<c></a>")) /\
  new_document (lit "<a b='1>0'>it's<c></a>") = Err XmlSyntaxError.
Proof.
  split.
  - intros u v E. exists (removelast v), [].
    assert (L : v <> [] /\ last v 0 = 62).
    { assert (last (lit "<a b='1>0'>it's<c></a>") 0 = last (u ++ 60 :: v) 0) by (rewrite <- E; reflexivity).
      destruct v as [|x v].
      - exfalso. rewrite last_last in H. vm_compute in H. discriminate.
      - split; [discriminate|].
        replace (u ++ 60 :: x :: v) with ((u ++ [60]) ++ x :: v) in H by (rewrite <- app_assoc; reflexivity).
        assert (forall (a b : list N), b <> [] -> last (a ++ b) 0 = last b 0) as L.
        { clear. induction a as [|y a IH]; intros b Hb; auto. cbn [app]. rewrite <- (IH b Hb).
          destruct (a ++ b) eqn:E; [|reflexivity]. destruct a; [|discriminate]. cbn in E. congruence. }
        rewrite L in H by discriminate. rewrite <- H. vm_compute. reflexivity. }
    destruct L as [L1 L2]. split; [|cbn; auto].
    rewrite <- L2. apply app_removelast_last. exact L1.
  - vm_compute. reflexivity.
Qed.

(* C07 in full would be: an accepted input has a balanced token stream.  It is false: unclosed elements
   are accepted, and so is a nameless end tag outside every element. *)
Theorem C07_balanced_refuted :
  (exists h ts, new_document (lit "<a><b></b>") = Ok h /\
     tokens 100 (sax_new (lit "<a><b></b>")) = Ok ts /\ ~ balanced ts) /\
  (exists h ts, new_document (lit "<a/></>") = Ok h /\
     tokens 100 (sax_new (lit "<a/></>")) = Ok ts /\ ~ exists st, open_tags ts st).
Proof.
  split.
  - eexists _, _. split; [vm_compute; reflexivity|]. split; [vm_compute; reflexivity|].
    intro H. apply open_tags_run in H. vm_compute in H. discriminate.
  - eexists _, _. split; [vm_compute; reflexivity|]. split; [vm_compute; reflexivity|].
    intros [st H]. apply open_tags_run in H. vm_compute in H. discriminate.
Qed.
Print Assumptions C07_balanced_refuted.

(* What holds: when no end tag is nameless, an input is accepted exactly when every end tag closes the
   most recently opened, still open element and carries its name; otherwise it is a syntax error.
   Missing: elements left open at the end of input are not rejected. *)
Theorem C07_balanced_partial : forall xml ts fuel,
  tokens fuel (sax_new xml) = Ok ts -> ~ In (TEnd []) ts ->
  ((exists h, new_document xml = Ok h) <-> (exists st, open_tags ts st)) /\
  ((~ exists st, open_tags ts st) -> new_document xml = Err XmlSyntaxError).
Proof. exact new_document_balanced. Qed.
Print Assumptions C07_balanced_partial.

(* every accepted input does have a token stream, so C07_balanced_partial applies to it *)
Theorem C07_accepted_has_tokens : forall xml h, new_document xml = Ok h ->
  exists ts, tokens (doc_fuel xml) (sax_new xml) = Ok ts.
Proof. exact new_document_ok_tokens. Qed.
Print Assumptions C07_accepted_has_tokens.

Example C07_example : exists ts, tokens 100 (sax_new (lit "<a><b></a></b>")) = Ok ts /\
  ~ In (TEnd []) ts /\ new_document (lit "<a><b></a></b>") = Err XmlSyntaxError.
Proof.
  eexists. split; [vm_compute; reflexivity|]. split; [cbn; intuition discriminate|].
  vm_compute. reflexivity.
Qed.

(* C08: every document read is a well-linked tree rooted at its document node, and all cells belong
   to it. *)
Theorem C08_parsed_well_linked : forall xml h, new_document xml = Ok h ->
  well_linked h 0 (fun i => (i < List.length h)%nat) /\ n_type (get h 0) = DocumentRoot.
Proof.
  intros xml h E. destruct (new_document_tree _ _ _ E) as [t [R [I [Ty Ti]]]].
  assert (D : document h t) by (split; [auto | rewrite I; apply seq_NoDup]).
  pose proof (document_well_linked h t D) as [W1 W2 W3 W4 W5]. rewrite Ti in *.
  assert (Q : forall i, In i (ids t) <-> (i < List.length h)%nat).
  { intro i. rewrite I, in_seq. lia. }
  split.
  - constructor.
    + destruct W1 as [A B]. split; auto. apply Q. auto.
    + intros p c Hp Hc. apply Q in Hp. destruct (W2 p c Hp Hc). split; auto. apply Q. auto.
    + intros p Hp. apply W3. apply Q. auto.
    + intros c Hc Hn. apply Q in Hc. destruct (W4 c Hc Hn) as [p [Hp H]]. exists p. split; auto.
      apply Q. auto.
    + intros c Hc. apply W5. apply Q. auto.
  - destruct (rep_get _ _ _ R) as [o [_ [Hg _]]]. rewrite Ti in Hg. rewrite Hg. exact Ty.
Qed.
Print Assumptions C08_parsed_well_linked.

Example C08_example : new_document doc1_text = Ok doc1_heap /\ List.length doc1_heap = 11%nat.
Proof. split; vm_compute; reflexivity. Qed.

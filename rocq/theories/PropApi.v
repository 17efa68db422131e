(* C78: the query functions of the API agree. *)
Require Import Ascii String Bool List NArith ZArith Lia.
From Verif Require Import Str StrFacts Sax Dom Lexer Parser Num Item Func Eval EvalFacts SpecOper ItemFacts SpecApi.
Import List ListNotations.

Lemma to_nodeset_among v : nodes_among v (to_nodeset v).
Proof.
  induction v as [|it v IH]; [constructor|]. unfold to_nodeset. cbn [flat_map].
  destruct it; try (apply na_other; [congruence|exact IH]). apply na_node. exact IH.
Qed.
Lemma among_fun v l : nodes_among v l -> l = to_nodeset v.
Proof.
  induction 1 as [|i v l _ ->|it v l N _ ->]; try reflexivity. destruct it; try reflexivity. exfalso. eapply N; reflexivity.
Qed.
Lemma nodeset_of n h i s : get_nodeset n h i s = do v <- eval_xpath n h i s; Ok (to_nodeset v).
Proof. unfold get_nodeset, eval_xpath. destruct (compile_xpath s); reflexivity. Qed.

(* Whether and how a query ends does not depend on anything but the document, the node and the text: asked again, it gives
   the same. *)
Theorem C78_repeatable : forall h i s o o', xpath_gives h i s o -> xpath_gives h i s o' -> o = o'.
Proof.
  intros h i s o o' [F [n E]] [F' [n' E']]. unfold eval_xpath in *. destruct (compile_xpath s) as [x|e| |]; cbn [bind] in *; try congruence.
  unfold match_xpath in *.
  assert (A : outcome h [XINode i] x new_eval_env (eval h n [XINode i] x new_eval_env)).
  { split; [|eauto]. intro Q. rewrite Q in E. cbn in E. congruence. }
  assert (B : outcome h [XINode i] x new_eval_env (eval h n' [XINode i] x new_eval_env)).
  { split; [|eauto]. intro Q. rewrite Q in E'. cbn in E'. congruence. }
  rewrite (outcome_det _ _ _ _ _ _ A B) in E. congruence.
Qed.
(* get_nodeset gives the nodes of the sequence eval_xpath gives, in its order, and the same errors. *)
Theorem C78_nodeset : forall h i s,
  (forall l, nodeset_gives h i s (Ok l) <-> exists v, xpath_gives h i s (Ok v) /\ nodes_among v l) /\
  (forall e, nodeset_gives h i s (Err e) <-> xpath_gives h i s (Err e)) /\
  (nodeset_gives h i s Panic <-> xpath_gives h i s Panic).
Proof.
  intros h i s. unfold nodeset_gives, xpath_gives. split; [|split].
  - intro l. split.
    + intros [_ [n E]]. rewrite nodeset_of in E. destruct (eval_xpath n h i s) as [v|e| |] eqn:X; try discriminate E.
      injection E as <-. exists v. split; [|apply to_nodeset_among]. split; [discriminate|eauto].
    + intros (v & [_ [n E]] & N). split; [discriminate|]. exists n. rewrite nodeset_of, E. apply among_fun in N. subst l. reflexivity.
  - intro e. split; intros [_ [n E]]; (split; [discriminate|]); exists n; rewrite nodeset_of in *.
    + destruct (eval_xpath n h i s); cbn [bind] in E; congruence.
    + rewrite E. reflexivity.
  - split; intros [_ [n E]]; (split; [discriminate|]); exists n; rewrite nodeset_of in *.
    + destruct (eval_xpath n h i s); cbn [bind] in E; congruence.
    + rewrite E. reflexivity.
Qed.
(* get_first_node gives the first node of get_nodeset; nothing if there is none, or if get_nodeset gives an error. *)
Theorem C78_first : forall h i s,
  (forall x, first_gives h i s (Ok (Some x)) <-> exists l, nodeset_gives h i s (Ok (x :: l))) /\
  (first_gives h i s (Ok None) <-> nodeset_gives h i s (Ok []) \/ exists e, nodeset_gives h i s (Err e)) /\
  (forall e, ~ first_gives h i s (Err e)).
Proof.
  intros h i s. unfold first_gives, nodeset_gives, get_first_node. split; [|split].
  - intro x. split.
    + intros [_ [n E]]. destruct (get_nodeset n h i s) as [[|y l]|e| |] eqn:X; try discriminate E. injection E as ->. exists l. split; [discriminate|eauto].
    + intros [l [_ [n E]]]. split; [discriminate|]. exists n. rewrite E. reflexivity.
  - split.
    + intros [_ [n E]]. destruct (get_nodeset n h i s) as [[|y l]|e| |] eqn:X; try discriminate E; [left|right; exists e]; (split; [discriminate|eauto]).
    + intros [[_ [n E]]|[e [_ [n E]]]]; (split; [discriminate|]); exists n; rewrite E; reflexivity.
  - intros e [_ [n E]]. destruct (get_nodeset n h i s) as [[|y l]|e'| |]; discriminate E.
Qed.
(* each_node calls the closure for each node of get_nodeset, in its order, and gives the same errors. *)
Lemma called_fold {A} (func : A -> nat -> A) : forall l a b, called func a l b <-> fold_left func l a = b.
Proof.
  induction l as [|i l IH]; intros a b; cbn [fold_left]; split; intro H.
  - inversion H; reflexivity.
  - subst. constructor.
  - inversion H; subst. apply IH; auto.
  - constructor. apply IH. exact H.
Qed.
Theorem C78_each : forall A h i s (func : A -> nat -> A) a,
  (forall b, each_gives h i s func a (Ok b) <-> exists l, nodeset_gives h i s (Ok l) /\ called func a l b) /\
  (forall e, each_gives h i s func a (Err e) <-> nodeset_gives h i s (Err e)).
Proof.
  intros A h i s func a. unfold each_gives, nodeset_gives, each_node. split.
  - intro b. split.
    + intros [_ [n E]]. destruct (get_nodeset n h i s) as [l|e| |] eqn:X; try discriminate E. injection E as E. exists l.
      split; [split; [discriminate|eauto]|apply called_fold; exact E].
    + intros (l & [_ [n E]] & C). split; [discriminate|]. exists n. rewrite E. cbn [bind]. apply called_fold in C. rewrite C. reflexivity.
  - intro e. split; intros [_ [n E]]; (split; [discriminate|]); exists n.
    + destruct (get_nodeset n h i s); cbn [bind] in E; congruence.
    + rewrite E. reflexivity.
Qed.
(* len() and get_item(): the items at the positions 0, 1, ..., len - 1; other positions panic. *)
Theorem C78_items : forall v,
  map (seq_get_item v) (seq 0 (seq_len v)) = map Ok v /\ (forall k, seq_get_item v k = Panic <-> (seq_len v <= k)%nat) /\
  (forall k it, seq_get_item v k = Ok it <-> exists p q, v = p ++ it :: q /\ List.length p = k).
Proof.
  intro v. unfold seq_get_item, seq_len. split; [|split].
  - assert (K : forall p, map (fun pos => match nth_error (p ++ v) pos with Some it => Ok it | None => Panic end) (seq (List.length p) (List.length v)) = map Ok v).
    { induction v as [|it v IH]; intro p; [reflexivity|]. cbn [List.length seq map]. f_equal.
      - rewrite nth_error_app2, Nat.sub_diag by lia. reflexivity.
      - specialize (IH (p ++ [it])). rewrite app_length in IH. cbn [List.length] in IH. rewrite Nat.add_1_r, <- app_assoc in IH. exact IH. }
    apply (K []).
  - intro k. destruct (nth_error v k) eqn:E; split; intro H; try discriminate H; auto.
    + assert (k < List.length v)%nat by (apply nth_error_Some; congruence). lia.
    + apply nth_error_None. exact E.
  - intros k it. split.
    + destruct (nth_error v k) eqn:E; [|discriminate]. intro H. injection H as ->. apply nth_error_split in E. destruct E as (p & q & E & L). eauto.
    + intros (p & q & -> & <-). rewrite nth_error_app2, Nat.sub_diag by lia. reflexivity.
Qed.
(* as_nodeptr() gives the node of an item that is one; get_nodeset is what as_nodeptr() gives for the items in turn. *)
Theorem C78_as_nodeptr : forall it i, item_as_nodeptr it = Some i <-> it = XINode i.
Proof. intros it i. destruct it; cbn; split; congruence. Qed.
Theorem C78_nodeset_items : forall h i s v, xpath_gives h i s (Ok v) ->
  exists l, nodeset_gives h i s (Ok l) /\
    map Some l = filter (fun o => match o with Some _ => true | None => false end) (map item_as_nodeptr v).
Proof.
  intros h i s v X. exists (to_nodeset v). split; [apply C78_nodeset; exists v; split; [exact X|apply to_nodeset_among]|].
  clear X. induction v as [|it v IH]; [reflexivity|]. unfold to_nodeset in *. cbn [flat_map map filter].
  destruct it; cbn [item_as_nodeptr]; auto. cbn [app map]. f_equal. exact IH.
Qed.
(* The documentation promises document order; only paths and set operators give it (C19, C14): a comma does not, and it
   does not take away repetitions. *)
Definition two : heap := match new_document (lit "<r><a/><b/></r>") with Ok h => h | _ => [] end.
Theorem C78_order_refuted : exists r a b,
  nodeset_gives two r (lit "/r/*") (Ok [a; b]) /\ nodeset_gives two r (lit "(/r/b, /r/a, /r/b)") (Ok [b; a; b]) /\ a <> b.
Proof.
  exists 0%nat, 2%nat, 3%nat. split; [split; [discriminate|exists 30%nat; vm_compute; reflexivity]|].
  split; [split; [discriminate|exists 30%nat; vm_compute; reflexivity]|discriminate].
Qed.
Example C78_example :
  xpath_gives two 0 (lit "(/r/b, 1, /r/a)") (Ok [XINode 3; XIInteger 1; XINode 2]) /\
  nodeset_gives two 0 (lit "(/r/b, 1, /r/a)") (Ok [3; 2]%nat) /\ first_gives two 0 (lit "(/r/b, 1, /r/a)") (Ok (Some 3%nat)) /\
  each_gives two 0 (lit "(/r/b, 1, /r/a)") (fun l i => l ++ [i]) [] (Ok [3; 2]%nat) /\ first_gives two 0 (lit "/r/") (Ok None).
Proof. repeat (split; [split; [discriminate|exists 30%nat; vm_compute; reflexivity]|]). split; [discriminate|exists 30%nat; vm_compute; reflexivity]. Qed.
Print Assumptions C78_nodeset. Print Assumptions C78_first. Print Assumptions C78_each. Print Assumptions C78_items.

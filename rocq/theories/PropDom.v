(* C47: namespaces.  C50: pretty printing. *)
Require Import Bool List NArith ZArith Ascii String Lia.
From Verif Require Import Str StrFacts Chars Sax Dom SpecTree SpecEdit SpecPretty SpecNs HeapFacts BuildFacts SaxFacts
  DocFacts PrettyFacts EditFacts ReachFacts PropXml.
Import ListNotations.
Open Scope nat_scope.

(* C50: one piece per line, indented four spaces per level; the same pieces without line breaks and
   indentation are the plain form; and reading the pretty form back gives the same document up to
   white space around text. *)
Theorem C50_pretty_lines : forall h t, document h t ->
  to_pretty_string h (tid t) = Some (flat_map line (pieces 0 (erase t))) /\
  to_string h (tid t) = Some (flat_map snd (pieces 0 (erase t))).
Proof.
  intros h t D. split.
  - rewrite to_pretty_document by auto. rewrite <- (pp_lines (erase t) 0). reflexivity.
  - rewrite to_string_document by auto. rewrite <- (pr_pieces (erase t) 0). reflexivity.
Qed.
Print Assumptions C50_pretty_lines.
Theorem C50_pretty_reparse : forall h t, document h t -> clean_doc (erase t) ->
  exists s h' t', to_pretty_string h (tid t) = Some s /\ new_document s = Ok h' /\
    document h' t' /\ tid t' = 0 /\ normal (erase t') = normal (erase t).
Proof. exact pretty_reparse. Qed.
Print Assumptions C50_pretty_reparse.
(* the hypotheses hold of doc1_heap/doc1_tree (C04_example); its pretty form: *)
Example C50_example : document doc1_heap doc1_tree /\ clean_doc (erase doc1_tree) /\
  to_pretty_string doc1_heap 0 = Some (
    lit "<?xml version='1.0'?>" ++ [10%N] ++
    lit "<a x=""1&lt;2"" y=""&amp;"">" ++ [10%N] ++
    lit "    <!--c-->" ++ [10%N] ++ lit "    <b/>" ++ [10%N] ++ lit "    t &amp; u" ++ [10%N] ++
    lit "    <?p d?>" ++ [10%N] ++ lit "    <b>" ++ [10%N] ++ lit "        z" ++ [10%N] ++
    lit "    </b>" ++ [10%N] ++ lit "</a>" ++ [10%N]).
Proof.
  destruct C04_example as [_ [D [C _]]]. split; [exact D|]. split; [exact C|]. vm_compute. reflexivity.
Qed.

(* C47 *)
Lemma split_once_colon : forall p l, ~ In 58%N p -> split_once (lit ":") (p ++ lit ":" ++ l) = Some (p, l).
Proof.
  induction p as [|c p IH]; intros l H.
  - reflexivity.
  - change (lit ":") with [58%N] in *. cbn [app]. cbn [split_once strip_prefix].
    assert (E : (58 =? c)%N = false) by (apply N.eqb_neq; intro; subst; apply H; left; auto).
    rewrite E. cbn [app] in IH. rewrite IH by (intro; apply H; right; auto). reflexivity.
Qed.
Lemma split_once_no_colon : forall n, ~ In 58%N n -> split_once (lit ":") n = None.
Proof.
  induction n as [|c n IH]; intro H; [reflexivity|]. change (lit ":") with [58%N] in *.
  cbn [split_once strip_prefix].
  assert (E : (58 =? c)%N = false) by (apply N.eqb_neq; intro; subst; apply H; left; auto).
  rewrite E, IH; auto. intro; apply H; right; auto.
Qed.

Theorem C47_prefix_and_local_name : forall h i,
  (forall p l, ~ In 58%N p -> n_name (get h i) = p ++ lit ":" ++ l -> space_name h i = p /\ local_name h i = l) /\
  (~ In 58%N (n_name (get h i)) -> space_name h i = [] /\ local_name h i = n_name (get h i)).
Proof.
  intros h i. unfold space_name, local_name. split.
  - intros p l Hp E. rewrite E, split_once_colon by auto. auto.
  - intro H. rewrite split_once_no_colon by auto. auto.
Qed.
Print Assumptions C47_prefix_and_local_name.

Lemma doc_root_dec : forall h i, n_type (get h i) = DocumentRoot \/ n_type (get h i) <> DocumentRoot.
Proof. intros. destruct (n_type (get h i)); auto; right; discriminate. Qed.
Lemma heap_ok_ancestry : forall h, heap_ok h -> forall n i, i < n -> i < List.length h -> exists l, ancestry h i l /\ List.length l <= n.
Proof.
  intros h H. induction n as [|n IH]; intros i Hi Hl; [lia|].
  destruct (doc_root_dec h i) as [T|T]; [exists [i]; split; [apply an_top; auto|simpl; lia]|].
  destruct (parent h i) as [p|] eqn:P.
  - destruct (H i Hl) as [Hp _]. specialize (Hp p P).
    destruct (IH p) as [l [A L]]; [lia|lia|]. exists (i :: l). split; [eapply an_up; eauto|simpl; lia].
  - exists [i]. split; [apply an_top; auto|simpl; lia].
Qed.

Lemma namespace_loop : forall h name i l, ancestry h i l -> forall fuel, List.length l <= fuel ->
  (exists l1 e l2 v, l = l1 ++ e :: l2 /\ declares h name e v /\
     (forall x w, In x l1 -> ~ declares h name x w) /\ namespace_uri_loop fuel h i name = Ok v) \/
  ((forall x w, In x l -> ~ declares h name x w) /\ namespace_uri_loop fuel h i name = Ok []).
Proof.
  intros h name i l A. induction A as [i P|i p l T P A IH]; intros fuel Hf.
  - destruct fuel as [|fuel]; [simpl in Hf; lia|]. cbn [namespace_uri_loop].
    destruct (node_type_eqb (n_type (get h i)) DocumentRoot) eqn:T.
    + right. split; auto. intros x w [<-|[]] [Q _]. destruct (n_type (get h i)); discriminate || congruence.
    + assert (T' : n_type (get h i) <> DocumentRoot) by (intro Q; rewrite Q in T; discriminate).
      destruct (attribute_value h i name) as [v|] eqn:V.
      * left. exists [], i, [], v. repeat split; auto.
      * destruct P as [P|P]; [|congruence]. unfold parent in P. rewrite P.
        right. split; auto. intros x w [<-|[]] [_ Q]. congruence.
  - destruct fuel as [|fuel]; [simpl in Hf; lia|]. cbn [namespace_uri_loop].
    replace (node_type_eqb (n_type (get h i)) DocumentRoot) with false by (destruct (n_type (get h i)); auto; congruence).
    destruct (attribute_value h i name) as [v|] eqn:V.
    + left. exists [], i, l, v. repeat split; auto.
    + unfold parent in P. rewrite P.
      assert (Ni : forall w, ~ declares h name i w) by (intros w [_ Q]; congruence).
      destruct (IH fuel) as [[l1 [e [l2 [v [E [D [F R]]]]]]]|[F R]].
      * simpl in Hf. lia.
      * left. exists (i :: l1), e, l2, v. rewrite E. repeat split; auto; try apply D.
        intros x w [<-|Hx]; auto.
      * right. split; auto. intros x w [<-|Hx]; auto.
Qed.

(* For every node of every heap a program can build: namespace_uri() is the value of the declaration
   belonging to the node's prefix on the nearest ancestor-or-self that has one, empty if none has. *)
Theorem C47_namespace_uri : forall h i name, reachable h -> i < List.length h ->
  declaration_name (n_name (get h i)) name ->
  exists l, ancestry h i l /\
    ((exists l1 e l2 v, l = l1 ++ e :: l2 /\ declares h name e v /\
        (forall x w, In x l1 -> ~ declares h name x w) /\ namespace_uri h i = Ok v) \/
     ((forall x w, In x l -> ~ declares h name x w) /\ namespace_uri h i = Ok [])).
Proof.
  intros h i name R Hi Hn. apply reachable_ok in R.
  destruct (heap_ok_ancestry h R (S (List.length h)) i ltac:(lia) Hi) as [l [A L]].
  exists l. split; auto. unfold namespace_uri.
  replace (match space_name h i with [] => lit "xmlns" | _ => lit "xmlns" ++ lit ":" ++ space_name h i end) with name.
  - apply namespace_loop; auto.
  - destruct (C47_prefix_and_local_name h i) as [H1 H2]. inversion Hn as [n Hc E1 E2|p l0 Hp Hc E1 E2].
    + destruct H2 as [-> _]; [congruence|]. reflexivity.
    + destruct (H1 p l0) as [-> _]; auto. destruct p; [congruence|]. reflexivity.
Qed.
Print Assumptions C47_namespace_uri.

Definition ns_text : str :=
  lit "<a xmlns='d' xmlns:p='1'><b xmlns:p='2'><p:c p:x=''/><q:d/></b><p:e/></a>".
Definition ns_heap : heap := match new_document ns_text with Ok h => h | _ => [] end.
Lemma ns_reachable : reachable ns_heap.
Proof.
  apply (reach_parse [] ns_heap ns_text (doc_fuel ns_text) reach_empty). vm_compute. reflexivity.
Qed.
(* cells: 4 b, 6 p:c, 7 @p:x, 8 q:d, 9 p:e *)
Example C47_example : reachable ns_heap /\
  map (fun i => n_name (get ns_heap i)) [4; 6; 7; 8; 9] = [lit "b"; lit "p:c"; lit "p:x"; lit "q:d"; lit "p:e"] /\
  declaration_name (n_name (get ns_heap 6)) (lit "xmlns:p") /\
  map (namespace_uri ns_heap) [4; 6; 7; 8; 9] = [Ok (lit "d"); Ok (lit "2"); Ok (lit "2"); Ok []; Ok (lit "1")].
Proof.
  split; [apply ns_reachable|]. split; [vm_compute; reflexivity|]. split; [|vm_compute; reflexivity].
  apply (dn_prefix (lit "p") (lit "c")); [discriminate|]. cbn. intros [H|[]]. discriminate.
Qed.

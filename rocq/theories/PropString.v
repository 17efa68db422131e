(* C62: the string values of all nodes, comments, instructions and declarations included. *)
Require Import Bool List NArith ZArith Ascii String Lia.
From Verif Require Import Str StrFacts Sax Dom SpecTree HeapFacts BuildFacts SaxFacts DocFacts SpecEdit OrderFacts SessionFacts Axes SpecAxes
  AxesFacts PropAxes Lexer FuncTable Parser SpecExpr Num Item Func Types Eval EvalFacts SpecOper ItemFacts SpecFunc FuncFacts SpecSem SemNode.
Import ListNotations.
Open Scope nat_scope.

(* What the program takes for the string value of a node: the text of everything below it but the DOCTYPE, where an instruction has
   its target, a space and its content, and so has the XML declaration if [decl].  (XPath: of text nodes only.) *)
Inductive all_text (h : heap) (decl : bool) : nat -> str -> Prop :=
| at_value : forall i, In (n_type (Dom.get h i)) [Text; Attribute; Comment] -> all_text h decl i (n_value (Dom.get h i))
| at_pi : forall i, n_type (Dom.get h i) = Instruction -> all_text h decl i (n_name (Dom.get h i) ++ lit " " ++ n_value (Dom.get h i))
| at_decl : forall i, n_type (Dom.get h i) = XMLDecl ->
    all_text h decl i (if decl then n_name (Dom.get h i) ++ lit " " ++ n_value (Dom.get h i) else [])
| at_doctype : forall i, n_type (Dom.get h i) = Directive -> all_text h decl i []
| at_tree : forall i ss, In (n_type (Dom.get h i)) [DocumentRoot; Element] ->
    Forall2 (all_text h decl) (n_children (Dom.get h i)) ss -> all_text h decl i (List.concat ss).

Lemma all_text_rep : forall h decl t par, rep h par t -> all_text h decl (tid t) (tree_string decl t).
Proof.
  intros h decl t. induction t as [i ty nm v ats ks IH] using tree_ind'. intros par R.
  apply rep_inv in R. destruct R as [o [_ [Hg [_ Hks]]]]. cbn [tid tree_string].
  assert (K : Forall2 (all_text h decl) (map tid ks) (map (tree_string decl) ks)).
  { clear Hg. induction ks as [|k ks IHk]; cbn [map]; constructor; inversion IH; inversion Hks; subst; eauto. }
  assert (V : n_value (Dom.get h i) = v) by (rewrite Hg; reflexivity). assert (N : n_name (Dom.get h i) = nm) by (rewrite Hg; reflexivity).
  assert (Y : n_type (Dom.get h i) = ty) by (rewrite Hg; reflexivity). assert (C : n_children (Dom.get h i) = map tid ks) by (rewrite Hg; reflexivity).
  destruct ty; try (rewrite flat_map_concat_map; apply at_tree; [rewrite Y; cbn; tauto|rewrite C; exact K]).
  all: try (rewrite <- V; apply at_value; rewrite Y; cbn; tauto).
  - rewrite <- V, <- N. apply at_decl. exact Y.
  - rewrite <- V, <- N. apply at_pi. exact Y.
  - apply at_doctype. exact Y.
Qed.
Lemma all_text_values : forall h n, session h -> in_document h 0 n -> all_text h true n (string_value h n) /\ all_text h false n (typed_value h n).
Proof.
  intros h n S [A|[p [A I]]].
  - destruct (session_document h S) as [t [D [T0 K]]]. rewrite <- T0 in *.
    destruct (attached_context h t n D A) as [fs [u [E <-]]]. subst t.
    destruct (string_value_fill h fs u D) as [-> ->]. split; eapply all_text_rep; eapply rep_fill_hole; apply D.
  - destruct (attribute_cell h p n S A I) as [o [nm [v Hg]]]. unfold string_value, typed_value. cbn [string_value_fuel typed_value_fuel].
    assert (T : In (n_type (Dom.get h n)) [Text; Attribute; Comment]) by (rewrite Hg; cbn; tauto).
    split; [assert (X := at_value h true n T)|assert (X := at_value h false n T)]; rewrite Hg in *; exact X.
Qed.
Lemma all_text_unique : forall h decl n, session h -> in_document h 0 n -> forall s t, all_text h decl n s -> all_text h decl n t -> s = t.
Proof.
  intros h decl n S I s t A B. destruct (session_document h S) as [d [D [T0 K]]].
  assert (LEAF : forall i s t, ~ In (n_type (Dom.get h i)) [DocumentRoot; Element] -> all_text h decl i s -> all_text h decl i t -> s = t).
  { intros i u w N U W. destruct U as [i T|i T|i T|i T|i ss T F]; [..|destruct (N T)]; destruct W as [i T'|i T'|i T'|i T'|i ss' T' F'];
      try reflexivity; try (destruct (N T'); fail); exfalso; revert T T'; destruct (n_type (Dom.get h i)); cbn; intuition discriminate. }
  destruct I as [AT|[p [AT I]]].
  - rewrite <- T0 in AT. destruct (attached_context h d n D AT) as [fs [u [E <-]]]. subst d.
    assert (R : exists par, rep h par u) by (eexists; eapply rep_fill_hole; apply D). clear - A B R LEAF. destruct R as [par R].
    revert par R s t A B. induction u as [i ty nm v ats ks IH] using tree_ind'. intros par R s t A B. cbn [tid] in *.
    destruct (in_dec (fun a b : node_type => ltac:(decide equality) : {a = b} + {a <> b}) (n_type (Dom.get h i)) [DocumentRoot; Element]) as [Y|N];
      [|eapply LEAF; eauto].
    apply rep_inv in R. destruct R as [o [_ [Hg [_ Hks]]]].
    assert (G : forall w, all_text h decl i w -> exists ss, w = List.concat ss /\ Forall2 (all_text h decl) (map tid ks) ss).
    { intros w W. destruct W as [j T|j T|j T|j T|j ss T F]; try (exfalso; revert T Y; destruct (n_type (Dom.get h j)); cbn; intuition discriminate).
      exists ss. rewrite Hg in F. auto. }
    destruct (G s A) as (ss & -> & F). destruct (G t B) as (tt & -> & F'). f_equal. clear - IH Hks F F'. revert ss tt F F'.
    induction ks as [|k ks IHk]; cbn [map]; intros ss tt F F'; inversion F; inversion F'; subst; auto. inversion IH; inversion Hks; subst.
    f_equal; eauto.
  - destruct (attribute_cell h p n S AT I) as [o [nm [v Hg]]]. eapply LEAF; eauto. rewrite Hg. cbn. intuition discriminate.
Qed.
(* string and data of every node of a document *)
Theorem C62_exact : forall h c n, session h -> in_document h 0 n ->
  exists s d, all_text h true n s /\ all_text h false n d /\ (forall s', all_text h true n s' -> s' = s) /\ (forall d', all_text h false n d' -> d' = d) /\
    fn_value h c (lit "fn:string") [[XINode n]] (Ok [XIString s]) /\ fn_value h c (lit "fn:data") [[XINode n]] (Ok [XIString d]).
Proof.
  intros h c n S I. exists (string_value h n), (typed_value h n). destruct (all_text_values h n S I) as [A B].
  split; auto. split; auto. split; [intros; eapply all_text_unique; eauto|]. split; [intros; eapply all_text_unique; eauto|].
  split; fnv; reflexivity.
Qed.
Print Assumptions C62_exact.
Definition mixed_text : str := lit "<?xml version='1.0'?><r>a<!--c-->b<?p q?></r>".
Definition mixed : heap := Eval vm_compute in match new_document mixed_text with Ok h => h | _ => [] end.
Example C62_exact_example : new_document mixed_text = Ok mixed /\ session mixed /\ in_document mixed 0 0 /\
  all_text mixed true 0 (lit "xml version='1.0'acbp q") /\ all_text mixed false 0 (lit "acbp q").
Proof.
  assert (E : new_document mixed_text = Ok mixed) by (vm_compute; reflexivity).
  assert (S : session mixed) by (eapply ses_parse; exact E).
  assert (I : in_document mixed 0 0) by (left; constructor).
  split; auto. split; auto. split; auto. destruct (all_text_values mixed 0 S I) as [A B]. split; [exact A|exact B].
Qed.

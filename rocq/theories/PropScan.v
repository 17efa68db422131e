(* C06, C07, C84: what new_document does with every text without U+0000. *)
Require Import Bool List NArith ZArith Ascii String Lia.
From Verif Require Import Str StrFacts Chars Sax Dom SpecText SpecTokens SpecTree HeapFacts BuildFacts SaxFacts DocFacts TermFacts SpecRead ReadFacts
  SpecScan ScanFacts PropXml PropTags PropRead.
Import ListNotations.
Open Scope N_scope.

Lemma no_cr : forall s, ~ In 13 (without_cr s).
Proof. intros s H. apply filter_In in H. destruct H as [_ H]. discriminate. Qed.
Lemma plain_text : forall xml, ~ In 0 xml -> plain (without_cr xml).
Proof. intros xml H. split; [|apply no_cr]. intro K. apply filter_In in K. apply H. apply K. Qed.
Lemma sax_text : forall xml, sax_new xml = mkDec (without_cr xml) [].
Proof. reflexivity. Qed.

(* C84: the tokens read from any text are exactly the ones the grammar gives it *)
Theorem C84_tokens : forall xml ts, ~ In 0 xml ->
  (exists fuel, tokens fuel (sax_new xml) = Ok ts) <-> scan decode_entity ts (without_cr xml) [].
Proof.
  intros xml ts Z. assert (P := plain_text xml Z). rewrite sax_text. split.
  - intros [fuel E]. apply (tokens_scans fuel (mkDec (without_cr xml) [])); auto.
  - intro Sc. exists (S (M (mkDec (without_cr xml) []))). apply scan_tokens; [exact Sc|apply P|lia].
Qed.
Print Assumptions C84_tokens.
Theorem C84_unambiguous : forall s ts us, ~ In 0 s -> ~ In 13 s -> scan decode_entity ts s [] -> scan decode_entity us s [] -> ts = us.
Proof.
  intros s ts us Z C A B. assert (E : without_cr s = s) by (apply filter_no_cr; exact C).
  assert (A' := scan_tokens ts s (S (M (mkDec s []))) A Z ltac:(lia)). assert (B' := scan_tokens us s (S (M (mkDec s []))) B Z ltac:(lia)). congruence.
Qed.
Print Assumptions C84_unambiguous.

(* C06, exactly: reading never ends precisely when the text ends inside a start tag, and the tags before it are acceptable *)
Theorem C06_never_returns : forall xml, ~ In 0 xml ->
  ((forall fuel, new_document_fuel fuel xml = Fuel) <->
   exists ts st k, scan decode_entity ts (without_cr xml) k /\ accepted_tags ts st /\ unfinished k).
Proof.
  intros xml Z. assert (P := plain_text xml Z). split.
  - intro H. specialize (H (doc_fuel xml)). unfold new_document_fuel in H. cbn [make_new_rc_node] in H.
    apply loop_unfinished in H; [|exact P|apply M_sax_new]. destruct H as [ts [k [h' [c' [S [U D]]]]]].
    pose proof (steps_tags ts _ _ _ [] building_init eq_refl) as T. cbn [make_new_rc_node fst tid List.length app] in *.
    destruct (run_tags [] ts) as [st|] eqn:R.
    + exists ts, st, k. split; [exact S|]. split; [apply accepted_run; exact R|exact U].
    + rewrite T in D. discriminate.
  - intros [ts [st [k [S [A U]]]]] fuel. unfold new_document_fuel. cbn [make_new_rc_node]. rewrite sax_text.
    destruct (scan_lexes _ _ _ S (proj1 P)) as [L Zk]. apply accepted_run in A.
    pose proof (steps_tags ts _ _ _ [] building_init eq_refl) as T. rewrite A in T. destruct T as [h' [fs' [c' [D _]]]].
    cbn [make_new_rc_node fst tid List.length app] in *.
    eapply unfinished_loop; [exact L| |exact D]. apply unfinished_token; auto.
Qed.
Print Assumptions C06_never_returns.

(* C07, exactly: a document is returned precisely when the whole text can be cut into tokens whose tags are acceptable *)
Theorem C07_accepts : forall xml, ~ In 0 xml ->
  ((exists h, new_document xml = Ok h) <-> exists ts st, scan decode_entity ts (without_cr xml) [] /\ accepted_tags ts st).
Proof.
  intros xml Z. split.
  - intros [h E]. destruct (proj1 (C07_exact xml) h E) as [ts [st [T A]]]. exists ts, st. split; [|exact A].
    apply C84_tokens; eauto.
  - intros [ts [st [S A]]]. apply C84_tokens in S; [|exact Z]. destruct S as [fuel T]. apply (proj2 (C07_exact xml) ts fuel T). eauto.
Qed.
Print Assumptions C07_accepts.
(* and otherwise it is a syntax error *)
Theorem C06_otherwise : forall xml, ~ In 0 xml ->
  (~ exists ts st, scan decode_entity ts (without_cr xml) [] /\ accepted_tags ts st) ->
  (~ exists ts st k, scan decode_entity ts (without_cr xml) k /\ accepted_tags ts st /\ unfinished k) ->
  new_document xml = Err XmlSyntaxError.
Proof.
  intros xml Z N1 N2. assert (G : (exists h, new_document xml = Ok h) \/ new_document xml = Err XmlSyntaxError \/ new_document xml = Fuel).
  { unfold new_document, new_document_fuel. cbn [make_new_rc_node]. apply doc_loop_res. }
  destruct G as [G|[G|G]]; auto.
  - apply C07_accepts in G; auto. contradiction.
  - exfalso. apply N2. apply C06_never_returns; [exact Z|]. intro fuel.
    destruct (new_document_fuel fuel xml) as [h|e| |] eqn:E; auto; exfalso;
      rewrite (new_document_enough fuel xml _ E) in G by discriminate; discriminate.
Qed.
Print Assumptions C06_otherwise.

(* ---- the tree ---- *)
Lemma erase_fill : forall fs c d, erase c = erase d -> erase (fill fs c) = erase (fill fs d).
Proof.
  induction fs as [|f fs IH]; intros c d E; [exact E|]. cbn [fill]. apply IH. destruct f. unfold plug. cbn. rewrite !map_app. cbn. rewrite E. reflexivity.
Qed.
Lemma erase_add_kids_of : forall c ks, erase (add_kids c ks) = match erase c with X ty nm v ats l => X ty nm v ats (l ++ map erase ks) end.
Proof. intros [i ty nm v ats k] ks. cbn. rewrite map_app. reflexivity. Qed.
Lemma adds_start : forall n a h fs c, building h fs c -> exists h' f c', doc_step h (tid c) (TStart n a) = Ok (h', tid c') /\
  building h' (f :: fs) c' /\ erase c' = X Element n [] a [] /\ (forall k, plug f k = add_kid c k).
Proof.
  intros n a h fs c B. cbn [doc_step]. destruct (make_new_child_rc_node h Element (tid c) n [] None) as [h1 id] eqn:E1.
  destruct (building_child _ _ _ _ _ _ _ _ B E1) as [-> B1]. destruct c as [i ty cnm cv cats cks].
  pose proof (building_enter _ _ _ _ _ _ _ _ _ B1) as B2.
  destruct (building_attrs a _ _ _ B2 eq_refl) as [c' [B3 [E2 [E3 [E4 [E5 [E6 E7]]]]]]]. cbn [tid] in *.
  eexists _, _, c'. split; [rewrite E2; reflexivity|]. split; [exact B3|]. split; [|reflexivity].
  destruct c' as [ci cty cnm' cv' cats' cks']. simpl in *. subst. reflexivity.
Qed.
Lemma content_adds : forall ts l, content ts l -> adds_all_by l ts.
Proof.
  intros ts l H. induction H as [|s ts l H IH|s ts l H IH|s ts l H IH|n s ts l N H IH|s ts l H IH|n a ts l us m H1 IH1 H2 IH2].
  - apply adds_none.
  - apply (adds_more _ [TChar s]); [apply adds_leaf_by; reflexivity|exact IH].
  - apply (adds_more _ [TComment s]); [apply adds_leaf_by; reflexivity|exact IH].
  - apply (adds_more _ [TPI (lit "xml") s]); [apply adds_leaf_by; reflexivity|exact IH].
  - apply (adds_more _ [TPI n s]); [|exact IH]. apply adds_leaf_by. intros h c. cbn [doc_step]. apply str_eqb_neq in N. rewrite N. reflexivity.
  - intros h fs c B. destruct (IH h fs c B) as [h' [ks Q]]. exists h', ks. exact Q.
  - replace (TStart n a :: ts ++ TEnd n :: us) with ((TStart n a :: ts ++ [TEnd n]) ++ us) by (cbn [app]; rewrite <- app_assoc; reflexivity).
    apply adds_more; [apply adds_element; exact IH1|exact IH2].
Qed.
Definition fills (ts : list token) (l : list xtree) (h : heap) (fs : list frame) (c : tree) : Prop :=
  exists h' fs' c' ks, doc_steps h (tid c) ts = Ok (h', tid c') /\ building h' fs' c' /\ map erase ks = l /\
    erase (fill fs' c') = erase (fill fs (add_kids c ks)) /\ tid (fill fs' c') = tid (fill fs c).
Lemma open_adds : forall ts l, open_content ts l -> forall h fs c, building h fs c -> fills ts l h fs c.
Proof.
  intros ts l H. induction H as [ts l H|ts l n a us m H1 H2 IH]; intros h fs c B.
  - destruct (content_adds _ _ H h fs c B) as [h' [ks [D [B' E]]]]. exists h', fs, (add_kids c ks), ks. rewrite tid_add_kids.
    split; [exact D|]. split; [exact B'|]. split; [exact E|]. split; [reflexivity|]. apply tid_fill_same, tid_add_kids.
  - destruct (content_adds _ _ H1 h fs c B) as [h1 [ks [D1 [B1 E1]]]].
    destruct (adds_start n a h1 fs (add_kids c ks) B1) as [h2 [f [c2 [D2 [B2 [E2 Pf]]]]]].
    destruct (IH h2 (f :: fs) c2 B2) as [h3 [fs3 [c3 [ks3 [D3 [B3 [E3 [F3 T3]]]]]]]].
    exists h3, fs3, c3, (ks ++ [add_kids c2 ks3]). split.
    { rewrite (doc_steps_app _ _ _ _ _ _ D1). cbn [doc_steps]. rewrite tid_add_kids in D2. rewrite D2. exact D3. }
    split; [exact B3|]. split.
    { rewrite map_app. cbn [map]. rewrite E1, erase_add_kids_of, E2, E3. reflexivity. }
    split.
    + rewrite F3. cbn [fill]. rewrite Pf. apply erase_fill. destruct c as [i ty nm v ats k]. cbn [add_kids add_kid]. rewrite app_assoc. reflexivity.
    + rewrite T3. cbn [fill]. rewrite Pf. apply tid_fill_same. destruct c. reflexivity.
Qed.
Lemma top_adds : forall ts l, top_content ts l -> forall h c, building h [] c -> tname c = [] -> fills ts l h [] c.
Proof.
  intros ts l H. induction H as [ts l H|ts l us m H1 H2 IH]; intros h c B N; [apply open_adds; auto|].
  destruct (content_adds _ _ H1 h [] c B) as [h1 [ks [D1 [B1 E1]]]].
  assert (N1 : tname (add_kids c ks) = []) by (destruct c; exact N).
  destruct (IH h1 (add_kids c ks) B1 N1) as [h3 [fs3 [c3 [ks3 [D3 [B3 [E3 [F3 T3]]]]]]]].
  exists h3, fs3, c3, (ks ++ ks3). split.
  { rewrite (doc_steps_app _ _ _ _ _ _ D1). cbn [doc_steps doc_step]. destruct (building_get _ _ _ B1) as [o Hg]. rewrite tid_add_kids in *.
    rewrite Hg. cbn [n_name n_parent]. rewrite N1. cbn [str_eqb bind]. exact D3. }
  split; [exact B3|]. split; [rewrite map_app; congruence|]. split.
  - rewrite F3. cbn [fill]. destruct c. cbn [add_kids]. rewrite app_assoc. reflexivity.
  - rewrite T3. cbn [fill]. apply tid_add_kids.
Qed.

(* every accepted sequence of tokens describes nodes *)
Lemma open_element : forall n a ts l us m, content ts l -> open_content us m ->
  open_content (TStart n a :: ts ++ TEnd n :: us) (X Element n [] a l :: m).
Proof.
  intros n a ts l us m H O. destruct O as [us m C|us m n2 a2 vs k C O].
  - apply oc_closed, ct_element; auto.
  - replace (TStart n a :: ts ++ TEnd n :: us ++ TStart n2 a2 :: vs) with ((TStart n a :: ts ++ TEnd n :: us) ++ TStart n2 a2 :: vs)
      by (cbn [app]; rewrite <- app_assoc; reflexivity).
    apply (oc_open _ (X Element n [] a l :: m)); auto. apply ct_element; auto.
Qed.
Lemma open_one : forall t x, (forall ts l, content ts l -> content (t :: ts) (x ++ l)) -> forall ts l, open_content ts l -> open_content (t :: ts) (x ++ l).
Proof.
  intros t x H ts l O. destruct O as [ts l C|us m n2 a2 vs k C O]; [apply oc_closed; auto|].
  rewrite app_assoc. apply (oc_open (t :: us) (x ++ m)); auto.
Qed.
Definition parts (st : list str) (ts : list token) (st' : list str) : Prop :=
  (exists l, open_content ts l) \/
  (exists n st1 ts1 l ts2, st = n :: st1 /\ ts = ts1 ++ TEnd n :: ts2 /\ content ts1 l /\ run_tags st1 ts2 = Some st') \/
  (exists ts1 l ts2, st = [] /\ ts = ts1 ++ TEnd [] :: ts2 /\ content ts1 l /\ run_tags [] ts2 = Some st').
Lemma parts_one : forall t x, (forall ts l, content ts l -> content (t :: ts) (x ++ l)) -> forall st ts st', parts st ts st' -> parts st (t :: ts) st'.
Proof.
  intros t x H st ts st' [[l O]|[[n [st1 [ts1 [l [ts2 [-> [-> [C R]]]]]]]]|[ts1 [l [ts2 [-> [-> [C R]]]]]]]].
  - left. eexists. apply (open_one t x); eauto.
  - right. left. exists n, st1, (t :: ts1), (x ++ l), ts2. auto.
  - right. right. exists (t :: ts1), (x ++ l), ts2. auto.
Qed.
Lemma parts_of : forall m ts st st', (List.length ts <= m)%nat -> ~ In TEOF ts -> run_tags st ts = Some st' -> parts st ts st'.
Proof.
  induction m as [|m IH]; intros ts st st' L NE R; (destruct ts as [|t ts]; [left; exists []; constructor; constructor|]); cbn [List.length] in L; [lia|].
  assert (NE' : ~ In TEOF ts) by (intro K; apply NE; right; exact K).
  destruct t as [|n a|n|s|n s|s|s].
  - exfalso. apply NE. left. reflexivity.
  - cbn [run_tags] in R. destruct (IH ts (n :: st) st' ltac:(lia) NE' R) as [[l O]|[[n' [st1 [ts1 [l [ts2 [E [-> [C R']]]]]]]]|[ts1 [l [ts2 [E _]]]]]];
      [| |discriminate].
    + left. exists ([] ++ [X Element n [] a l]). apply (oc_open [] [] n a ts l); [constructor|exact O].
    + injection E as <- <-. rewrite app_length in L. cbn [List.length] in L.
      destruct (IH ts2 st st' ltac:(lia)) as [[k O]|[[n2 [st2 [us1 [k [us2 [-> [-> [C2 R2]]]]]]]]|[us1 [k [us2 [-> [-> [C2 R2]]]]]]]].
      * intro K. apply NE'. apply in_or_app. right. right. exact K.
      * exact R'.
      * left. eexists. apply open_element; eauto.
      * right. left. exists n2, st2, (TStart n a :: ts1 ++ TEnd n :: us1). eexists _, us2. split; [reflexivity|].
        split; [cbn [app]; rewrite <- app_assoc; reflexivity|]. split; [apply ct_element; eauto|exact R2].
      * right. right. exists (TStart n a :: ts1 ++ TEnd n :: us1). eexists _, us2. split; [reflexivity|].
        split; [cbn [app]; rewrite <- app_assoc; reflexivity|]. split; [apply ct_element; eauto|exact R2].
  - cbn [run_tags] in R. right. destruct st as [|x st].
    + destruct (str_eqb n []) eqn:En; [|discriminate]. apply str_eqb_eq in En. subst n. right. exists [], [], ts.
      split; [reflexivity|]. split; [reflexivity|]. split; [constructor|exact R].
    + destruct (str_eqb x n) eqn:En; [|discriminate]. apply str_eqb_eq in En. subst n. left. exists x, st, [], [], ts.
      split; [reflexivity|]. split; [reflexivity|]. split; [constructor|exact R].
  - apply (parts_one _ [X Text [] s [] []]); [intros; constructor; auto|]. apply IH; auto; lia.
  - assert (C : n = lit "xml" \/ n <> lit "xml").
    { destruct (str_eqb n (lit "xml")) eqn:En; [left; apply str_eqb_eq; exact En|right; apply str_eqb_neq; exact En]. }
    destruct C as [->|C].
    + apply (parts_one _ [X XMLDecl (lit "xml") s [] []]); [intros; apply ct_decl; auto|]. apply IH; auto; lia.
    + apply (parts_one _ [X Instruction n s [] []]); [intros; apply ct_pi; auto|]. apply IH; auto; lia.
  - apply (parts_one _ [X Comment [] s [] []]); [intros; constructor; auto|]. apply IH; auto; lia.
  - apply (parts_one _ []); [intros; constructor; auto|]. apply IH; auto; lia.
Qed.
Lemma accepted_content : forall m ts st, (List.length ts <= m)%nat -> ~ In TEOF ts -> run_tags [] ts = Some st -> exists l, top_content ts l.
Proof.
  induction m as [|m IH]; intros ts st L NE R;
    destruct (parts_of _ ts [] st (le_n _) NE R) as [[l O]|[[n [st1 [ts1 [l [ts2 [E _]]]]]]|[ts1 [l [ts2 [_ [-> [C R']]]]]]]]; try discriminate E;
    try (exists l; constructor; exact O); rewrite app_length in L; cbn [List.length] in L; [lia|].
  destruct (IH ts2 st ltac:(lia)) as [k T]; [|exact R'|].
  - intro K. apply NE. apply in_or_app. right. right. exact K.
  - eexists. apply tc_stray; eauto.
Qed.
Lemma markup_no_eof : forall ts s k, markup decode_entity ts s k -> ~ In TEOF ts.
Proof. intros ts s k H. destruct H; cbn; intuition discriminate. Qed.
Lemma scan_no_eof : forall ts s k, scan decode_entity ts s k -> ~ In TEOF ts.
Proof.
  intros ts s k H. induction H as [s|ts s k us r K H IH]; [exact (fun H => H)|]. intro I. apply in_app_or in I.
  destruct I as [I|I]; [exact (markup_no_eof _ _ _ K I)|exact (IH I)].
Qed.

(* C84: the document built from any text is the one its tokens describe *)
Theorem C84_tree : forall xml ts l, ~ In 0 xml -> scan decode_entity ts (without_cr xml) [] -> top_content ts l ->
  exists h t, new_document xml = Ok h /\ document h t /\ tid t = 0%nat /\ erase t = X DocumentRoot [] [] [] l.
Proof.
  intros xml ts l Z S T. assert (P := plain_text xml Z).
  destruct (top_adds _ _ T _ _ building_init eq_refl) as [h [fs [c [ks [D [B [E [F I]]]]]]]].
  exists h, (fill fs c). split; [|split; [|split]].
  - destruct (scan_lexes _ _ _ S (proj1 P)) as [L _]. unfold new_document, new_document_fuel. cbn [make_new_rc_node]. rewrite sax_text.
    destruct (doc_loop_lexes _ _ _ L (doc_fuel xml) _ _ _ _ ltac:(rewrite <- sax_text; apply M_sax_new) D) as [fuel' [Hf' El']].
    cbn [make_new_rc_node fst app tid List.length] in El'. cbn [List.length app]. rewrite El'. destruct fuel' as [|fuel']; [lia|]. reflexivity.
  - split; [apply (b_rep _ _ _ B)|]. rewrite (b_ids _ _ _ B). apply seq_NoDup.
  - exact I.
  - rewrite F. cbn. rewrite E. reflexivity.
Qed.
Print Assumptions C84_tree.
(* and every document returned comes about in this way *)
Theorem C84_complete : forall xml h, ~ In 0 xml -> new_document xml = Ok h ->
  exists ts l t, scan decode_entity ts (without_cr xml) [] /\ top_content ts l /\ document h t /\ tid t = 0%nat /\ erase t = X DocumentRoot [] [] [] l.
Proof.
  intros xml h Z E. destruct (proj1 (C07_accepts xml Z) (ex_intro _ h E)) as [ts [st [S A]]]. apply accepted_run in A.
  destruct (accepted_content _ ts st (le_n _) (scan_no_eof _ _ _ S) A) as [l T].
  destruct (C84_tree xml ts l Z S T) as [h' [t [E' Q]]]. rewrite E in E'. injection E' as <-. exists ts, l, t. auto.
Qed.
Print Assumptions C84_complete.
(* a text has only one reading *)
Theorem C84_one_tree : forall xml ts l us m, ~ In 0 xml -> scan decode_entity ts (without_cr xml) [] -> top_content ts l ->
  scan decode_entity us (without_cr xml) [] -> top_content us m -> l = m.
Proof.
  intros xml ts l us m Z S1 T1 S2 T2. destruct (C84_tree _ _ _ Z S1 T1) as [h [t [E [D [I X]]]]].
  destruct (C84_tree _ _ _ Z S2 T2) as [h' [t' [E' [D' [I' X']]]]]. assert (h = h') by congruence. subst h'.
  assert (t = t') by (eapply rep_unique; [apply D|apply D'|congruence]). subst t'. congruence.
Qed.
Print Assumptions C84_one_tree.

(* texts that are not XML: stray characters inside a tag, elements left open, a nameless element and end tag *)
Definition odd_text : str := lit "</><a x='1';;y=""2&amp;""><!X <y>>t<1/>u".
Definition odd_tokens : list token :=
  [TEnd []; TStart (lit "a") [(lit "x", lit "1"); (lit "y", lit "2&")]; TDirective (lit "<!X <y>>"); TChar (lit "t"); TStart [] []; TChar (lit "u")].
Definition odd_nodes : list xtree :=
  [X Element (lit "a") [] [(lit "x", lit "1"); (lit "y", lit "2&")] [X Text [] (lit "t") [] []; X Element [] [] [] [X Text [] (lit "u") [] []]]].
Example C84_example : ~ In 0 odd_text /\ scan decode_entity odd_tokens (without_cr odd_text) [] /\ top_content odd_tokens odd_nodes.
Proof.
  assert (Z : ~ In 0 odd_text) by (vm_compute; intuition discriminate).
  split; [exact Z|]. split; [apply C84_tokens; [exact Z|]; exists 100%nat; vm_compute; reflexivity|].
  apply (tc_stray [] [] _ _ ct_nil). apply tc_open.
  apply (oc_open [] [] (lit "a") _ _ _ ct_nil).
  apply (oc_open [TDirective (lit "<!X <y>>"); TChar (lit "t")] [X Text [] (lit "t") [] []] [] [] [TChar (lit "u")] [X Text [] (lit "u") [] []]).
  - repeat constructor.
  - repeat constructor.
Qed.
Example C06_never_example : ~ In 0 (lit "<a/><b x = 'y>' ;") /\
  scan decode_entity [TStart (lit "a") []; TEnd (lit "a")] (without_cr (lit "<a/><b x = 'y>' ;")) (lit "<b x = 'y>' ;") /\
  accepted_tags [TStart (lit "a") []; TEnd (lit "a")] [] /\ unfinished (lit "<b x = 'y>' ;").
Proof.
  split; [vm_compute; intuition discriminate|]. split; [|split].
  - change (without_cr (lit "<a/><b x = 'y>' ;")) with ([60] ++ lit "a" ++ lit "/><b x = 'y>' ;").
    apply (sc_more decode_entity [TStart (lit "a") []; TEnd (lit "a")] _ (lit "<b x = 'y>' ;") []); [|constructor].
    apply (mk_empty decode_entity (lit "a") _ []); [vm_compute; intuition discriminate| |  |discriminate].
    + right. split; [split; [reflexivity|constructor]|intro H; vm_compute in H; discriminate H].
    + apply (tr_none []); [constructor|vm_compute; discriminate|vm_compute; discriminate|]. constructor.
  - apply accepted_run. vm_compute. reflexivity.
  - exists (lit "b"), (lit " x = 'y>' ;"). split; [reflexivity|]. split; [vm_compute; intuition discriminate|]. split.
    + right. split; [split; [reflexivity|constructor]|intro H; vm_compute in H; discriminate H].
    + change (lit " x = 'y>' ;") with (lit " " ++ (lit "x" ++ lit " " ++ 61 :: lit " " ++ 39 :: lit "y>" ++ [39]) ++ lit " ;").
      apply (to_attr (lit " ") (lit "x") (lit "y>")).
      * repeat constructor.
      * constructor; [split; [reflexivity|constructor]|repeat constructor|repeat constructor|auto|vm_compute; intuition discriminate].
      * apply (toa_step 32 (lit ";")); [discriminate|discriminate|].
        apply (to_none [] (lit ";")); [constructor|vm_compute; discriminate|vm_compute; discriminate|].
        apply (toa_step 59 []); [discriminate|discriminate|]. apply (to_none [] []); [constructor|exact (fun H => H)|exact (fun H => H)|constructor].
Qed.

(* Reading XML text: lemmas for C59. *)
Require Import Bool List NArith ZArith Ascii String Lia.
From Verif Require Import Str StrFacts Chars Sax Dom SpecText EntityFacts SpecTree SpecTokens HeapFacts BuildFacts SaxFacts DocFacts SpecRead.
Import ListNotations.
Open Scope N_scope.

Lemma space_facts : forall c, c = 32 \/ c = 9 \/ c = 10 -> is_space c = true /\ is_name_char c = false /\ is_name_first_char c = false /\ c <> 0 /\ c <> 62 /\ c <> 47.
Proof. intros c [->|[->| ->]]; vm_compute; repeat split; discriminate. Qed.
Lemma skip_spaces_text : forall w s, spaces_text w -> skip_spaces (w ++ s) = skip_spaces s.
Proof.
  induction w as [|c w IH]; intros s H; auto. inversion H as [|? ? H1 H2]; subst. cbn [app skip_spaces].
  destruct (space_facts c H1) as [A [_ [_ [B _]]]]. unfold cNUL. destruct (N.eqb_spec c 0); [contradiction|]. rewrite A. auto.
Qed.
Lemma attr_loop_space : forall fuel acc c s, c = 32 \/ c = 9 \/ c = 10 -> attr_loop fuel acc (c :: s) = attr_loop fuel acc s.
Proof.
  intros [|fuel] acc c s H; [reflexivity|]. cbn [attr_loop].
  rewrite <- (skip_spaces_text [c] s) by (constructor; auto; constructor). reflexivity.
Qed.
Lemma attr_loop_spaces : forall w fuel acc s, spaces_text w -> attr_loop fuel acc (w ++ s) = attr_loop fuel acc s.
Proof.
  induction w as [|c w IH]; intros fuel acc s H; auto. inversion H; subst. cbn [app]. rewrite attr_loop_space; auto.
Qed.
Lemma after_name : forall w d s, spaces_text w -> is_name_char d = false -> forall n, legal_name n ->
  get_name (n ++ w ++ d :: s) = (n, w ++ d :: s).
Proof.
  intros [|c w] d s W D n N; cbn [app]; [apply get_name_app; auto|].
  apply get_name_app; auto. inversion W; subst. apply (space_facts c); auto.
Qed.
Lemma attr_loop_read : forall ats s, attributes_text ats s -> forall fuel acc w closed r, spaces_text w ->
  (List.length ats < fuel)%nat -> attr_loop fuel acc (s ++ w ++ tag_end closed ++ r) = Ok (acc ++ ats, closed, r).
Proof.
  intros ats s H. induction H as [|a l s t A H IH]; intros fuel acc w closed r W F.
  - cbn [app]. rewrite attr_loop_spaces, app_nil_r by auto. destruct fuel; [lia|]. apply attr_loop_nil.
  - inversion A as [w1 n w2 w3 q u v W1 S1 N S2 S3 Q NQ [D0 N0]]; subst. cbn [List.length] in F.
    destruct fuel as [|fuel]; [lia|].
    repeat (rewrite <- ?app_assoc; cbn [app]). rewrite attr_loop_spaces by auto. cbn [attr_loop].
    rewrite skip_spaces_name by auto. rewrite after_name by auto.
    destruct n as [|n0 n1] eqn:EN; [destruct N|]. rewrite <- EN in *.
    rewrite skip_spaces_text by auto. rewrite skip_spaces_stop by (try reflexivity; discriminate).
    cbn [getchar]. change (61 =? cEQ) with true. cbv iota.
    rewrite skip_spaces_text by auto.
    assert (QS : q <> 0 /\ is_space q = false) by (destruct Q as [->| ->]; split; [discriminate|reflexivity|discriminate|reflexivity]).
    rewrite skip_spaces_stop by tauto. cbn [getchar].
    assert (QE : (q =? cDQ) || (q =? cSQ) = true) by (destruct Q as [->| ->]; reflexivity). rewrite QE.
    rewrite get_until_ch_app by tauto. cbn [bind]. rewrite (decode_denotes _ _ D0).
    replace (acc ++ (n, v) :: l) with ((acc ++ [(n, v)]) ++ l) by (rewrite <- app_assoc; reflexivity).
    (* the next character *)
    assert (K : forall c z, t ++ w ++ tag_end closed ++ r = c :: z -> c = 32 \/ c = 9 \/ c = 10 ->
      (let (c0, s'') := getchar (t ++ w ++ tag_end closed ++ r) in
       if c0 =? cGT then Ok (acc ++ [(n, v)], false, s'')
       else if c0 =? cSLASH then let (c2, s3) := getchar s'' in if c2 =? cGT then Ok (acc ++ [(n, v)], true, s3) else Err XmlSyntaxError
       else attr_loop fuel (acc ++ [(n, v)]) s'') = Ok ((acc ++ [(n, v)]) ++ l, closed, r)).
    { intros c z E C. rewrite <- (IH fuel (acc ++ [(n, v)]) w closed r) by (auto; lia). rewrite E. cbn [getchar].
      destruct (space_facts c C) as [_ [_ [_ [_ [G1 G2]]]]]. unfold cGT, cSLASH.
      destruct (N.eqb_spec c 62); [contradiction|]. destruct (N.eqb_spec c 47); [contradiction|]. rewrite attr_loop_space by auto. reflexivity. }
    destruct H as [|a' l' s' t' A' H'].
    + destruct w as [|c w].
      * cbn [app]. rewrite app_nil_r. destruct closed; reflexivity.
      * cbn [app]. eapply K; [reflexivity|]. inversion W; auto.
    + inversion A' as [w1' ? ? ? ? ? ? W1' S1']; subst. destruct w1' as [|c w1']; [congruence|].
      repeat (rewrite <- ?app_assoc in *; cbn [app] in *). eapply K; [reflexivity|]. inversion S1'; auto.
Qed.
Lemma attributes_length : forall ats s, attributes_text ats s -> (List.length ats <= List.length s)%nat.
Proof.
  intros ats s H. induction H as [|a l s t A H IH]; [cbn; lia|]. rewrite app_length. cbn [List.length].
  inversion A; subst. destruct w1; [congruence|]. cbn [app List.length]. lia.
Qed.
Lemma name_then_tag : forall n s w closed r ats, legal_name n -> attributes_text ats s -> spaces_text w ->
  get_name (n ++ s ++ w ++ tag_end closed ++ r) = (n, s ++ w ++ tag_end closed ++ r).
Proof.
  intros n s w closed r ats N A W.
  destruct (s ++ w ++ tag_end closed ++ r) as [|d z] eqn:E.
  - exfalso. destruct s, w, closed; discriminate E.
  - apply get_name_app; auto. destruct A as [|a l s t A A2].
    + destruct w as [|c w]; [destruct closed; injection E as <- _; reflexivity|].
      cbn in E. injection E as <- _. inversion W; subst. apply (space_facts c); auto.
    + inversion A as [w1 ? ? ? ? ? ? W1 S1]; subst. destruct w1 as [|c w1]; [congruence|]. cbn in E. injection E as <- _.
      inversion S1; subst. apply (space_facts c); auto.
Qed.
Lemma read_start : forall n ats s w closed r, legal_name n -> attributes_text ats s -> spaces_text w ->
  tok_step (mkDec ([60] ++ n ++ s ++ w ++ tag_end closed ++ r) []) (TStart n ats) (mkDec r (if closed then n else [])).
Proof.
  intros n ats s w closed r Hn A W. split; [|split; [discriminate|]].
  - unfold M. cbn [rest to_close]. rewrite !app_length. destruct closed; cbn [List.length tag_end]; [destruct n|]; lia.
  - intros fuel Hf. unfold raw_token. cbn [to_close rest app getchar].
    change (60 =? cNUL) with false. change (60 =? cLT) with true. cbv iota.
    assert (Hnn : exists c0 n0, n = c0 :: n0 /\ is_name_first_char c0 = true).
    { destruct n as [|c0 n0]; simpl in Hn; [contradiction|]. destruct Hn. eauto. }
    destruct Hnn as [c0 [n0 [En Hc0]]].
    assert (Hg : getchar (n ++ s ++ w ++ tag_end closed ++ r) = (c0, n0 ++ s ++ w ++ tag_end closed ++ r)) by (subst; reflexivity).
    rewrite Hg. cbv beta iota. unfold cNUL, cSLASH, cQUEST, cBANG.
    destruct (N.eqb_spec c0 0); [subst c0; vm_compute in Hc0; discriminate|].
    destruct (N.eqb_spec c0 47); [subst c0; vm_compute in Hc0; discriminate|].
    destruct (N.eqb_spec c0 63); [subst c0; vm_compute in Hc0; discriminate|].
    destruct (N.eqb_spec c0 33); [subst c0; vm_compute in Hc0; discriminate|].
    rewrite (name_then_tag n s w closed r ats) by auto. cbv beta iota. rewrite (attr_loop_read ats s) by
      (auto; unfold M in Hf; cbn [rest to_close] in Hf; rewrite !app_length in Hf; pose proof (attributes_length _ _ A); simpl List.length in Hf; lia).
    reflexivity.
Qed.
Lemma until_gt_spaces : forall w r, spaces_text w -> get_until_ch cGT (w ++ [62] ++ r) = Ok (w, r).
Proof.
  intros w r W. apply get_until_ch_app; [discriminate| |]; intro I; unfold spaces_text in W; rewrite Forall_forall in W; apply W in I; intuition discriminate.
Qed.
Lemma read_end : forall n w r, legal_name n -> spaces_text w ->
  tok_step (mkDec ((lit "</" ++ n ++ w ++ [62]) ++ r) []) (TEnd n) (mkDec r []).
Proof.
  intros n w r Hn W. split; [|split; [discriminate|]].
  - unfold M. cbn [rest to_close]. rewrite !app_length. simpl. lia.
  - intros fuel Hf. change (lit "</") with [60; 47]. repeat (rewrite <- ?app_assoc; cbn [app]). unfold raw_token. cbn [to_close rest app getchar].
    change (60 =? cNUL) with false. change (60 =? cLT) with true.
    change (47 =? cNUL) with false. change (47 =? cSLASH) with true. cbv iota.
    rewrite after_name by auto. pose proof (until_gt_spaces w r W) as U. cbn [app] in U. rewrite U. reflexivity.
Qed.
Lemma read_chars : forall s v r, s <> [] -> ~ In 60 s -> stands_for s v -> lt_or_end r ->
  tok_step (mkDec (s ++ r) []) (TChar v) (mkDec r []).
Proof.
  intros s v r NE N60 [D N0] Hr. split; [|split; [discriminate|]].
  - unfold M. cbn [rest to_close]. rewrite app_length. destruct s; [congruence|]. simpl. lia.
  - intros fuel Hf. unfold raw_token. cbn [to_close rest].
    rewrite get_chardata_app by auto. rewrite (decode_denotes _ _ D). destruct s as [|c s]; [congruence|].
    cbn [app getchar]. unfold cNUL, cLT.
    destruct (N.eqb_spec c 0); [subst c; exfalso; apply N0; simpl; auto|].
    destruct (N.eqb_spec c 60); [subst c; exfalso; apply N60; simpl; auto|]. reflexivity.
Qed.
Lemma read_cdata : forall v r, ~ In 0 v -> ~ contains (lit "]]>") v ->
  tok_step (mkDec ((lit "<![CDATA[" ++ v ++ lit "]]>") ++ r) []) (TChar v) (mkDec r []).
Proof.
  intros v r N0 C. split; [|split; [discriminate|]].
  - unfold M. cbn [rest to_close]. rewrite !app_length. simpl. lia.
  - intros fuel Hf. rewrite <- !app_assoc.
    assert (E : forall z, raw_token fuel (mkDec (lit "<![CDATA[" ++ z) []) =
                  do (u, s5) <- get_until (lit "]]>") z; Ok (TChar u, mkDec s5 [])) by reflexivity.
    rewrite E. pose proof (get_until_app [93; 93] 62 v r) as G. cbn [app] in G. change (lit "]]>") with [93; 93; 62] in *. cbn [app].
    rewrite G by (auto; cbn; intuition discriminate). reflexivity.
Qed.
Lemma read_comment : forall v r, ~ In 0 v -> ~ contains (lit "-->") v ->
  tok_step (mkDec ((lit "<!--" ++ v ++ lit "-->") ++ r) []) (TComment v) (mkDec r []).
Proof.
  intros v r N0 C. split; [|split; [discriminate|]].
  - unfold M. cbn [rest to_close]. rewrite !app_length. simpl. lia.
  - intros fuel Hf. rewrite <- !app_assoc.
    assert (E : forall z, raw_token fuel (mkDec (lit "<!--" ++ z) []) =
                  do (u, s5) <- get_until (lit "-->") z; Ok (TComment u, mkDec s5 [])) by reflexivity.
    rewrite E. pose proof (get_until_app [45; 45] 62 v r) as G. cbn [app] in G. change (lit "-->") with [45; 45; 62] in *. cbn [app].
    rewrite G by (auto; cbn; intuition discriminate). reflexivity.
Qed.
Lemma read_pi : forall n w v r, legal_name n -> w <> [] -> spaces_text w -> ~ starts_with_space v -> ~ In 0 v ->
  ~ contains (lit "?>") v ->
  tok_step (mkDec ((lit "<?" ++ n ++ w ++ v ++ lit "?>") ++ r) []) (TPI n v) (mkDec r []).
Proof.
  intros n w v r Hn NW W Hs H0 Hc. split; [|split; [discriminate|]].
  - unfold M. cbn [rest to_close]. rewrite !app_length. simpl. lia.
  - intros fuel Hf. change (lit "<?") with [60;63].
    repeat (rewrite <- ?app_assoc; cbn [app]).
    unfold raw_token. cbn [to_close rest getchar].
    change (60 =? cNUL) with false. change (60 =? cLT) with true.
    change (63 =? cNUL) with false. change (63 =? cSLASH) with false. change (63 =? cQUEST) with true.
    cbv iota.
    assert (GN : get_name (n ++ w ++ v ++ lit "?>" ++ r) = (n, w ++ v ++ lit "?>" ++ r)).
    { destruct w as [|c w]; [congruence|]. apply get_name_app; auto. inversion W; subst. apply (space_facts c); auto. }
    rewrite GN. rewrite skip_spaces_text by auto.
    change (lit "?>") with ([63] ++ [62]) in *. cbn [app].
    rewrite skip_spaces_value by auto.
    pose proof (get_until_app [63] 62 v r) as G. cbn [app] in *. rewrite G; auto. cbn. intuition discriminate.
Qed.
Lemma bracket_read : forall d, bracketed d -> forall nest r k z, get_until_matching_bracket nest r = Ok (k, z) ->
  get_until_matching_bracket nest (d ++ r) = Ok (d ++ k, z).
Proof.
  intros d H. induction H as [|c s C0 C1 C2 H IH|s t H1 IH1 H2 IH2]; intros nest r k z E.
  - auto.
  - cbn [app get_until_matching_bracket]. unfold cNUL, cLT, cGT.
    destruct (N.eqb_spec c 0); [contradiction|]. destruct (N.eqb_spec c 60); [contradiction|]. destruct (N.eqb_spec c 62); [contradiction|].
    rewrite (IH _ _ _ _ E). reflexivity.
  - assert (E2 := IH2 _ _ _ _ E).
    assert (E3 : get_until_matching_bracket (S nest) (62 :: t ++ r) = Ok (62 :: t ++ k, z)).
    { cbn [get_until_matching_bracket]. change (62 =? cNUL) with false. change (62 =? cLT) with false. change (62 =? cGT) with true. cbv iota.
      rewrite E2. reflexivity. }
    assert (E1 := IH1 _ _ _ _ E3).
    cbn [app]. rewrite <- !app_assoc. cbn [app get_until_matching_bracket]. change (60 =? cNUL) with false. change (60 =? cLT) with true. cbv iota.
    rewrite E1. reflexivity.
Qed.
Lemma read_declaration : forall c d r, is_name_first_char c = true -> bracketed d ->
  tok_step (mkDec (lit "<!" ++ c :: d ++ [62] ++ r) []) (TDirective (lit "<!" ++ c :: d ++ [62])) (mkDec r []).
Proof.
  intros c d r Hc B.
  assert (E := bracket_read d B 0%nat ([62] ++ r) [62] r eq_refl).
  split; [|split; [discriminate|]].
  - unfold M. cbn [rest to_close]. rewrite !app_length. simpl. rewrite app_length. simpl. lia.
  - intros fuel Hf. unfold raw_token. cbn [to_close rest]. change (lit "<!") with [60; 33]. cbn [app getchar].
    change (60 =? cNUL) with false. change (60 =? cLT) with true.
    change (33 =? cNUL) with false. change (33 =? cSLASH) with false. change (33 =? cQUEST) with false. change (33 =? cBANG) with true.
    cbv iota. unfold cMINUS, cLBRACK.
    destruct (N.eqb_spec c 45); [subst c; vm_compute in Hc; discriminate|].
    destruct (N.eqb_spec c 91); [subst c; vm_compute in Hc; discriminate|].
    cbn [app] in E. rewrite E. reflexivity.
Qed.

(* ---- nodes ---- *)
Definition adds_by (x : xtree) (ts : list token) : Prop := forall h fs c, building h fs c ->
  exists h' k, doc_steps h (tid c) ts = Ok (h', tid c) /\ building h' fs (add_kid c k) /\ erase k = x.
Definition adds_all_by (l : list xtree) (ts : list token) : Prop := forall h fs c, building h fs c ->
  exists h' ks, doc_steps h (tid c) ts = Ok (h', tid c) /\ building h' fs (add_kids c ks) /\ map erase ks = l.

Scheme node_text_mind := Induction for node_text Sort Prop
  with nodes_text_mind := Induction for nodes_text Sort Prop.

Lemma nodes_start : forall l b s, nodes_text l b s -> b = false -> forall r, lt_or_end r -> lt_or_end (s ++ r).
Proof.
  intros l b s H. destruct H as [|x p s l b t H1 H2 H3|c d l b t C B H]; intros E r R; cbn [app].
  - exact R.
  - right. rewrite E in H1. inversion H1; subst; cbn [app lit]; eexists; rewrite <- ?app_assoc; reflexivity.
  - right. eexists. reflexivity.
Qed.
Definition node_ok (x : xtree) (p : bool) (s : str) : Prop :=
  exists ts, adds_by x ts /\ forall r, (p = true -> lt_or_end r) -> lexes (mkDec (s ++ r) []) ts (mkDec r []).
Definition nodes_ok (l : list xtree) (s : str) : Prop :=
  exists ts, adds_all_by l ts /\ forall r, lt_or_end r -> lexes (mkDec (s ++ r) []) ts (mkDec r []).
Lemma adds_leaf_by : forall ty nm v t, (forall h c, doc_step h c t = Ok (fst (make_new_child_rc_node h ty c nm v None), c)) ->
  adds_by (X ty nm v [] []) [t].
Proof.
  intros ty nm v t H h fs c B. exists (fst (make_new_child_rc_node h ty (tid c) nm v None)), (T (List.length h) ty nm v [] []).
  split; [cbn [doc_steps]; rewrite H; reflexivity|]. split; [apply adds_leaf; auto|reflexivity].
Qed.
Lemma adds_element : forall n ats l ts, adds_all_by l ts -> adds_by (X Element n [] ats l) (TStart n ats :: ts ++ [TEnd n]).
Proof.
  intros nm ats ks ts IH h fs c B. cbn [doc_steps doc_step].
  destruct (make_new_child_rc_node h Element (tid c) nm [] None) as [h1 id] eqn:E1.
  destruct (building_child _ _ _ _ _ _ _ _ B E1) as [-> B1].
  destruct c as [i ty cnm cv cats cks].
  pose proof (building_enter _ _ _ _ _ _ _ _ _ B1) as B2.
  destruct (building_attrs ats _ _ _ B2 eq_refl) as [c' [B3 [E2 [E3 [E4 [E5 [E6 E7]]]]]]].
  cbn [bind tid] in *.
  destruct (IH _ _ _ B3) as [h4 [l [E8 [B4 El]]]].
  rewrite E2 in E8. rewrite (doc_steps_app _ _ _ _ _ _ E8).
  pose proof (building_get _ _ _ B4) as [o Hg]. rewrite tid_add_kids, E2 in Hg.
  cbn [doc_steps doc_step]. rewrite Hg. cbn [n_name n_parent f_id].
  replace (tname (add_kids c' l)) with nm by (destruct c'; simpl in *; congruence).
  rewrite str_eqb_refl. cbn [bind].
  exists h4, (add_kids c' l). split; [reflexivity|]. split.
  - apply building_leave in B4. exact B4.
  - destruct c' as [ci cty cnm' cv' cats' cks']. simpl in *. subst. reflexivity.
Qed.
Lemma adds_none : adds_all_by [] [].
Proof. intros h fs c B. exists h, []. split; [reflexivity|]. split; auto. destruct c. simpl. rewrite app_nil_r. exact B. Qed.
Lemma adds_more : forall x ts l us, adds_by x ts -> adds_all_by l us -> adds_all_by (x :: l) (ts ++ us).
Proof.
  intros x ts l us Hx Hl h fs c B. destruct (Hx h fs c B) as [h1 [k [E1 [B1 Ek]]]].
  destruct (Hl h1 fs (add_kid c k) B1) as [h2 [ks [E2 [B2 El]]]]. rewrite tid_add_kid in E2.
  exists h2, (k :: ks). split; [|split].
  - rewrite (doc_steps_app _ _ _ _ _ _ E1). exact E2.
  - rewrite add_kids_cons. exact B2.
  - simpl. congruence.
Qed.
Lemma read_nodes : forall l b s, nodes_text l b s -> nodes_ok l s.
Proof.
  apply (nodes_text_mind (fun x p s _ => node_ok x p s) (fun l b s _ => nodes_ok l s)).
  - intros s v NE N60 D. exists [TChar v]. split; [apply adds_leaf_by; reflexivity|].
    intros r R. apply lexes_one, read_chars; auto.
  - intros v N0 C. exists [TChar v]. split; [apply adds_leaf_by; reflexivity|]. intros r R. apply lexes_one, read_cdata; auto.
  - intros v N0 C. exists [TComment v]. split; [apply adds_leaf_by; reflexivity|]. intros r R. apply lexes_one, read_comment; auto.
  - intros n w v N NX NW W S0 N0 C. exists [TPI n v]. split.
    + apply adds_leaf_by. intros h c. cbn [doc_step]. apply str_eqb_neq in NX. rewrite NX. reflexivity.
    + intros r R. apply lexes_one, read_pi; auto.
  - intros w v NW W S0 N0 C. exists [TPI (lit "xml") v]. split; [apply adds_leaf_by; reflexivity|].
    intros r R. change (lit "<?xml" ++ w ++ v ++ lit "?>") with (lit "<?" ++ lit "xml" ++ w ++ v ++ lit "?>"). apply lexes_one, read_pi; auto.
    cbn. repeat constructor.
  - intros n ats s w N A W. exists (TStart n ats :: [] ++ [TEnd n]). split; [apply adds_element, adds_none|].
    intros r R. repeat (rewrite <- ?app_assoc; cbn [app]).
    eapply lx_cons; [apply (read_start n ats s w true r); auto|]. apply lexes_one, tok_close_pending, legal_nonempty; auto.
  - intros n ats s w l b t w' N A W H [ts [T1 T2]] W'. exists (TStart n ats :: ts ++ [TEnd n]). split; [apply adds_element; auto|].
    intros r R. repeat (rewrite <- ?app_assoc; cbn [app]).
    eapply lx_cons; [apply (read_start n ats s w false); auto|]. eapply lexes_app.
    + apply T2. right. eexists. reflexivity.
    + apply lexes_one. pose proof (read_end n w' r N W') as E. repeat (rewrite <- ?app_assoc in E; cbn [app] in E). exact E.
  - exists []. split; [apply adds_none|]. intros r R. constructor.
  - intros x p s l b t H1 [ts [T1 T2]] H2 [us [U1 U2]] H3. exists (ts ++ us). split; [apply adds_more; auto|].
    intros r R. rewrite <- app_assoc. eapply lexes_app; [apply T2|apply U2; auto].
    intro P. eapply nodes_start; eauto.
  - intros c d l b t C B H [us [U1 U2]]. exists (TDirective (lit "<!" ++ c :: d ++ [62]) :: us). split.
    + intros h fs k K. destruct (U1 h fs k K) as [h' [ks Q]]. exists h', ks. exact Q.
    + intros r R. repeat (rewrite <- ?app_assoc; cbn [app]). eapply lx_cons; [apply (read_declaration c d (t ++ r)); auto|]. apply U2; auto.
Qed.

Lemma read_document : forall x s, document_text x (without_cr s) ->
  exists h t, new_document s = Ok h /\ rep h None t /\ ids t = seq 0 (List.length h) /\ tid t = 0%nat /\ erase t = x.
Proof.
  intros x s [ks [b [-> H]]]. destruct (read_nodes _ _ _ H) as [ts [A L]].
  unfold new_document, new_document_fuel, sax_new. fold (without_cr s). change (filter (fun x0 => negb (x0 =? cCR)) s) with (without_cr s).
  destruct (A _ _ _ building_init) as [h' [l [E [B' El]]]].
  specialize (L [] ltac:(left; reflexivity)). rewrite app_nil_r in L.
  cbv beta iota zeta delta [make_new_rc_node]. change (List.length (@nil node)) with 0%nat.
  assert (LE : (List.length (without_cr s) <= List.length s)%nat).
  { unfold without_cr. clear. induction s as [|c s IH]; [cbn; lia|]. cbn [filter]. destruct (negb (c =? 13)); cbn [List.length]; lia. }
  destruct (doc_loop_lexes _ _ _ L (doc_fuel s) _ _ _ _ ltac:(unfold M, doc_fuel; cbn [rest to_close]; lia) E)
    as [fuel' [Hf' El']].
  cbn [make_new_rc_node fst app tid] in El'. cbn [app]. rewrite El'.
  destruct fuel' as [|fuel']; [lia|].
  exists h', (add_kids (T 0 DocumentRoot [] [] [] []) l).
  split; [reflexivity|]. split; [apply (b_rep _ _ _ B')|]. split; [apply (b_ids _ _ _ B')|]. split; [reflexivity|].
  cbn. rewrite El. reflexivity.
Qed.

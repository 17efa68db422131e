(* Termination and tag balance of new_document. *)
Require Import Bool List NArith ZArith Ascii String Lia.
From Verif Require Import Str StrFacts Chars Sax Dom SpecTree SpecTokens HeapFacts BuildFacts SaxFacts.
Import ListNotations.
Open Scope N_scope.

(* ---- scanning functions return suffixes ---- *)
Definition suffix (a b : str) : Prop := exists u, b = u ++ a.
Lemma suffix_refl : forall a, suffix a a.
Proof. intro a. exists []. reflexivity. Qed.
Lemma suffix_trans : forall a b c, suffix a b -> suffix b c -> suffix a c.
Proof. intros a b c [u ->] [v ->]. exists (v ++ u). rewrite <- app_assoc. reflexivity. Qed.
Lemma suffix_cons : forall x a b, suffix a b -> suffix a (x :: b).
Proof. intros x a b [u ->]. exists (x :: u). reflexivity. Qed.
Lemma suffix_nil : forall b, suffix [] b.
Proof. intro b. exists b. rewrite app_nil_r. reflexivity. Qed.
Lemma suffix_len : forall a b, suffix a b -> (List.length a <= List.length b)%nat.
Proof. intros a b [u ->]. rewrite app_length. lia. Qed.
#[local] Hint Resolve suffix_refl suffix_cons suffix_nil : sfx.

Lemma skip_spaces_suffix : forall s, suffix (skip_spaces s) s.
Proof.
  induction s as [|c s IH]; cbn [skip_spaces]; auto with sfx.
  destruct (c =? cNUL); auto with sfx. destruct (is_space c); auto with sfx.
Qed.
Lemma get_name_rest_suffix : forall s, suffix (snd (get_name_rest s)) s.
Proof.
  induction s as [|c s IH]; cbn [get_name_rest]; auto with sfx.
  destruct (is_name_char c); auto with sfx. destruct (get_name_rest s). cbn in *. auto with sfx.
Qed.
Lemma get_name_suffix : forall s n k, get_name s = (n, k) -> suffix k s.
Proof.
  intros [|c s] n k E; cbn [get_name] in E.
  - injection E as <- <-. auto with sfx.
  - destruct (is_name_first_char c).
    + pose proof (get_name_rest_suffix s) as H. destruct (get_name_rest s). cbn in H.
      injection E as <- <-. auto with sfx.
    + injection E as <- <-. auto with sfx.
Qed.
Lemma getchar_suffix : forall s c k, getchar s = (c, k) -> suffix k s.
Proof. intros [|x s] c k E; injection E as <- <-; auto with sfx. Qed.

Lemma get_until_ch_suffix : forall q s r k, get_until_ch q s = Ok (r, k) -> suffix k s.
Proof.
  intros q. induction s as [|c s IH]; intros r k E; cbn [get_until_ch] in E; [discriminate|].
  destruct (c =? cNUL); [discriminate|]. destruct (c =? q).
  - injection E as <- <-. auto with sfx.
  - destruct (get_until_ch q s) as [[r' k']|?| |]; try discriminate. injection E as <- <-.
    eauto with sfx.
Qed.
Lemma get_until_suffix : forall p s r k, get_until p s = Ok (r, k) -> suffix k s.
Proof.
  intros p. induction s as [|c s IH]; intros r k E; rewrite get_until_unfold in E;
    destruct (look_ahead_keyword p _) eqn:L.
  1,3: injection E as <- <-; apply strip_prefix_some in L; exists p; exact L.
  - discriminate.
  - destruct (c =? cNUL); [discriminate|].
    destruct (get_until p s) as [[r' k']|?| |]; try discriminate. injection E as <- <-.
    eauto with sfx.
Qed.
Lemma get_chardata_suffix : forall s r k, get_chardata s = (r, k) -> suffix k s.
Proof.
  induction s as [|c s IH]; intros r k E; cbn [get_chardata] in E.
  - injection E as <- <-. auto with sfx.
  - destruct (c =? cNUL); [injection E as <- <-; auto with sfx|].
    destruct (c =? cLT); [injection E as <- <-; auto with sfx|].
    destruct (get_chardata s) as [r' k']. injection E as <- <-. eauto with sfx.
Qed.
Lemma bracket_suffix : forall s n r k, get_until_matching_bracket n s = Ok (r, k) -> suffix k s.
Proof.
  induction s as [|c s IH]; intros n r k E; cbn [get_until_matching_bracket] in E; [discriminate|].
  destruct (c =? cNUL); [discriminate|]. destruct (c =? cLT).
  - destruct (get_until_matching_bracket (S n) s) as [[r' k']|?| |] eqn:E1; try discriminate.
    injection E as <- <-. eauto with sfx.
  - destruct (c =? cGT).
    + destruct n as [|n]; [injection E as <- <-; auto with sfx|].
      destruct (get_until_matching_bracket n s) as [[r' k']|?| |] eqn:E1; try discriminate.
      injection E as <- <-. eauto with sfx.
    + destruct (get_until_matching_bracket n s) as [[r' k']|?| |] eqn:E1; try discriminate.
      injection E as <- <-. eauto with sfx.
Qed.

(* ---- one round of the attribute loop ---- *)
Definition attr_round (acc : list (str * str)) (s : str)
  : res (list (str * str) * str) :=
  let s1 := skip_spaces s in
  let (attr_name, s2) := get_name s1 in
  match attr_name with
  | [] => Ok (acc, s2)
  | _ :: _ =>
      let s3 := skip_spaces s2 in
      let (c, s4) := getchar s3 in
      if c =? cEQ then
        let s5 := skip_spaces s4 in
        let (q, s6) := getchar s5 in
        if (q =? cDQ) || (q =? cSQ) then
          do (v, s7) <- get_until_ch q s6;
          Ok (acc ++ [(attr_name, decode_entity v)], s7)
        else do _ <- get_until_ch cGT s6; Err XmlSyntaxError
      else do _ <- get_until_ch cGT s4; Err XmlSyntaxError
  end.

Lemma attr_loop_S : forall fuel acc s, attr_loop (S fuel) acc s =
  do (acc', s') <- attr_round acc s;
  let (c, s'') := getchar s' in
  if c =? cGT then Ok (acc', false, s'')
  else if c =? cSLASH then
    let (c2, s3) := getchar s'' in
    if c2 =? cGT then Ok (acc', true, s3) else Err XmlSyntaxError
  else attr_loop fuel acc' s''.
Proof.
  intros. cbn [attr_loop]. unfold attr_round. destruct (get_name (skip_spaces s)) as [n s2].
  reflexivity.
Qed.

Lemma get_until_ch_res : forall q s, (exists x, get_until_ch q s = Ok x) \/ get_until_ch q s = Err XmlSyntaxError.
Proof.
  intros q. induction s as [|c s IH]; cbn [get_until_ch]; auto.
  destruct (c =? cNUL); auto. destruct (c =? q); eauto.
  destruct IH as [[[r k] ->]| ->]; cbn; eauto.
Qed.

Lemma attr_round_res : forall acc s,
  (exists x, attr_round acc s = Ok x) \/ attr_round acc s = Err XmlSyntaxError.
Proof.
  intros acc s. unfold attr_round. destruct (get_name (skip_spaces s)) as [[|n0 n] s2]; eauto.
  destruct (getchar (skip_spaces s2)) as [c s4]. destruct (c =? cEQ).
  - destruct (getchar (skip_spaces s4)) as [q s6]. destruct ((q =? cDQ) || (q =? cSQ)).
    + destruct (get_until_ch_res q s6) as [[[r k] ->]| ->]; cbn; eauto.
    + destruct (get_until_ch_res cGT s6) as [[[r k] ->]| ->]; cbn; eauto.
  - destruct (get_until_ch_res cGT s4) as [[[r k] ->]| ->]; cbn; eauto.
Qed.

Lemma attr_round_suffix : forall acc s acc' s', attr_round acc s = Ok (acc', s') -> suffix s' s.
Proof.
  intros acc s acc' s' E. unfold attr_round in E.
  destruct (get_name (skip_spaces s)) as [n s2] eqn:E1.
  apply get_name_suffix in E1. pose proof (skip_spaces_suffix s) as Hs.
  assert (H2 : suffix s2 s) by (eapply suffix_trans; eauto).
  destruct n as [|n0 n]; [injection E as <- <-; auto|].
  destruct (getchar (skip_spaces s2)) as [c s4] eqn:E2.
  destruct (c =? cEQ).
  - destruct (getchar (skip_spaces s4)) as [q s6] eqn:E3. destruct ((q =? cDQ) || (q =? cSQ)).
    + destruct (get_until_ch q s6) as [[v s7]|?| |] eqn:E4; try discriminate. injection E as <- <-.
      eapply suffix_trans; [eapply get_until_ch_suffix; eauto|].
      eapply suffix_trans; [eapply getchar_suffix; eauto|].
      eapply suffix_trans; [apply skip_spaces_suffix|].
      eapply suffix_trans; [eapply getchar_suffix; eauto|].
      eapply suffix_trans; [apply skip_spaces_suffix|]. auto.
    + destruct (get_until_ch_res cGT s6) as [[[? ?] H]|H]; rewrite H in E; discriminate.
  - destruct (get_until_ch_res cGT s4) as [[[? ?] H]|H]; rewrite H in E; discriminate.
Qed.

Lemma attr_loop_suffix : forall fuel acc s a b s', attr_loop fuel acc s = Ok (a, b, s') -> suffix s' s.
Proof.
  induction fuel as [|fuel IH]; intros acc s a b s' E; [discriminate|]. rewrite attr_loop_S in E.
  destruct (attr_round acc s) as [[acc1 s1]|?| |] eqn:E1; try discriminate. cbn [bind] in E.
  apply attr_round_suffix in E1. eapply suffix_trans; [|exact E1].
  destruct (getchar s1) as [c s2] eqn:E2. apply getchar_suffix in E2.
  eapply suffix_trans; [|exact E2].
  destruct (c =? cGT); [injection E as <- <- <-; auto with sfx|].
  destruct (c =? cSLASH); [|eauto].
  destruct (getchar s2) as [c2 s3] eqn:E3. apply getchar_suffix in E3.
  destruct (c2 =? cGT); [|discriminate]. injection E as <- <- <-. auto.
Qed.

Lemma attr_loop_end : forall fuel acc, attr_loop fuel acc [] = Fuel.
Proof. induction fuel as [|fuel IH]; intro acc; [reflexivity|]. rewrite attr_loop_S. cbn. apply IH. Qed.

(* the loop either finishes within |s|+1 rounds or never *)
Lemma attr_loop_enough : forall f1 acc s r f2, attr_loop f1 acc s = r -> r <> Fuel ->
  (List.length s < f2)%nat -> attr_loop f2 acc s = r.
Proof.
  induction f1 as [|f1 IH]; intros acc s r f2 E Hr Hf; [cbn in E; congruence|].
  destruct f2 as [|f2]; [lia|]. rewrite attr_loop_S in *.
  destruct (attr_round acc s) as [[acc1 s1]|?| |] eqn:E1; auto. cbn [bind] in *.
  apply attr_round_suffix in E1. apply suffix_len in E1.
  destruct s1 as [|c s2]; cbn [getchar] in *.
  - change (cNUL =? cGT) with false in *. change (cNUL =? cSLASH) with false in *. cbv iota in *.
    rewrite attr_loop_end in E. congruence.
  - destruct (c =? cGT); auto. destruct (c =? cSLASH); auto.
    apply IH; auto. simpl in E1. lia.
Qed.

Lemma raw_token_enough : forall f1 d r f2, raw_token f1 d = r -> r <> Fuel ->
  (M d < f2)%nat -> raw_token f2 d = r.
Proof.
  intros f1 [s tc] r f2 E Hr Hf. unfold raw_token in *. cbn [to_close rest] in *.
  destruct tc as [|x tc]; [|exact E].
  destruct s as [|c s1]; [exact E|]. cbn [getchar] in *.
  destruct (c =? cNUL); auto. destruct (c =? cLT); auto.
  destruct s1 as [|c2 s2]; [exact E|]. cbn [getchar] in *.
  destruct (c2 =? cNUL); auto. destruct (c2 =? cSLASH); auto. destruct (c2 =? cQUEST); auto.
  destruct (c2 =? cBANG); auto.
  destruct (get_name (c2 :: s2)) as [nm s3] eqn:E1. apply get_name_suffix in E1.
  apply suffix_len in E1.
  destruct (attr_loop f1 [] s3) as [[[a b] s4]|e| |] eqn:E2; cbn [bind] in E; try congruence.
  - rewrite (attr_loop_enough _ _ _ _ f2 E2); [exact E|discriminate|].
    unfold M in Hf. cbn [rest to_close List.length] in *. lia.
  - rewrite (attr_loop_enough _ _ _ _ f2 E2); [exact E|discriminate|].
    unfold M in Hf. cbn [rest to_close List.length] in *. lia.
  - rewrite (attr_loop_enough _ _ _ _ f2 E2); [exact E|discriminate|].
    unfold M in Hf. cbn [rest to_close List.length] in *. lia.
Qed.

(* progress: every token but EOF consumes input; the remaining input is a suffix *)
Lemma raw_token_progress : forall fuel d t d', raw_token fuel d = Ok (t, d') ->
  suffix (rest d') (rest d) /\ (t <> TEOF -> (M d' < M d)%nat).
Proof.
  intros fuel [s tc] t d' E. unfold raw_token in E. cbn [to_close rest] in *.
  destruct tc as [|x tc].
  2: { injection E as <- <-. split; [auto with sfx|]. intros _. unfold M. cbn. lia. }
  assert (STRICT : forall k tc', suffix k (tl s) -> s <> [] ->
            suffix k s /\ (M (mkDec k tc') < M (mkDec s []))%nat).
  { intros k tc' H Hne. destruct s as [|a s]; [congruence|]. cbn in H. split; auto with sfx.
    apply suffix_len in H. unfold M. cbn [rest to_close List.length]. destruct tc'; lia. }
  destruct s as [|c s1].
  { injection E as <- <-. split; [auto with sfx|]. congruence. }
  cbn [getchar] in E. cbn [tl] in STRICT.
  assert (NE : c :: s1 <> []) by discriminate.
  destruct (c =? cNUL).
  { injection E as <- <-. split; [auto with sfx|]. congruence. }
  destruct (c =? cLT) eqn:Elt.
  2: { destruct (get_chardata (c :: s1)) as [cd s2] eqn:E1. injection E as <- <-.
       destruct (c =? cNUL) eqn:En.
       - cbn [get_chardata] in E1. rewrite En in E1. injection E1 as <- <-.
         destruct (STRICT s1 [] (suffix_refl _) NE). auto.
       - cbn [get_chardata] in E1. rewrite En, Elt in E1.
         destruct (get_chardata s1) as [r' k'] eqn:E2. injection E1 as <- <-.
         apply get_chardata_suffix in E2. destruct (STRICT k' [] E2 NE). auto. }
  destruct s1 as [|c2 s2]; [discriminate|]. cbn [getchar] in E.
  destruct (c2 =? cNUL); [discriminate|].
  destruct (c2 =? cSLASH).
  { destruct (get_name s2) as [nm s3] eqn:E1. apply get_name_suffix in E1.
    destruct (get_until_ch cGT s3) as [[x s4]|?| |] eqn:E2; try discriminate. cbn [bind] in E.
    apply get_until_ch_suffix in E2. injection E as <- <-.
    destruct (STRICT s4 []) as [A B]; auto. eapply suffix_trans; eauto with sfx. }
  destruct (c2 =? cQUEST).
  { destruct (get_name s2) as [nm s3] eqn:E1. apply get_name_suffix in E1.
    destruct (get_until (lit "?>") (skip_spaces s3)) as [[x s4]|?| |] eqn:E2; try discriminate.
    cbn [bind] in E. apply get_until_suffix in E2. injection E as <- <-.
    destruct (STRICT s4 []) as [A B]; auto. eapply suffix_trans; [exact E2|].
    eapply suffix_trans; [apply skip_spaces_suffix|]. auto with sfx. }
  destruct (c2 =? cBANG).
  { destruct (getchar s2) as [c3 s3] eqn:E0. apply getchar_suffix in E0.
    destruct (c3 =? cMINUS).
    { destruct (getchar s3) as [c4 s4] eqn:E1. apply getchar_suffix in E1.
      destruct (c4 =? cMINUS); [|discriminate].
      destruct (get_until (lit "-->") s4) as [[x s5]|?| |] eqn:E2; try discriminate.
      cbn [bind] in E. apply get_until_suffix in E2. injection E as <- <-.
      destruct (STRICT s5 []) as [A B]; auto. eapply suffix_trans; [exact E2|].
      eapply suffix_trans; [exact E1|]. auto with sfx. }
    destruct (c3 =? cLBRACK).
    { unfold look_ahead_keyword in E. destruct (strip_prefix (lit "CDATA[") s3) as [s4|] eqn:E1; [|discriminate].
      apply strip_prefix_some in E1.
      destruct (get_until (lit "]]>") s4) as [[x s5]|?| |] eqn:E2; try discriminate.
      cbn [bind] in E. apply get_until_suffix in E2. injection E as <- <-.
      destruct (STRICT s5 []) as [A B]; auto. eapply suffix_trans; [exact E2|].
      eapply suffix_trans; [exists (lit "CDATA["); exact E1|]. auto with sfx. }
    destruct (get_until_matching_bracket 0 s3) as [[x s5]|?| |] eqn:E2; try discriminate.
    cbn [bind] in E. apply bracket_suffix in E2. injection E as <- <-.
    destruct (STRICT s5 []) as [A B]; auto. eapply suffix_trans; [exact E2|]. auto with sfx. }
  destruct (get_name (c2 :: s2)) as [nm s3] eqn:E1. apply get_name_suffix in E1.
  destruct (attr_loop fuel [] s3) as [[[a b] s4]|e| |] eqn:E2; try discriminate. cbn [bind] in E.
  apply attr_loop_suffix in E2. injection E as <- <-.
  destruct (STRICT s4 (if b then nm else [])) as [A B]; auto. eapply suffix_trans; eauto.
Qed.

(* ---- fuel does not matter once it is enough ---- *)
Lemma doc_loop_enough : forall f1 d h c r f2, doc_loop f1 d h c = r -> r <> Fuel ->
  (M d < f2)%nat -> doc_loop f2 d h c = r.
Proof.
  induction f1 as [|f1 IH]; intros d h c r f2 E Hr Hf; [cbn in E; congruence|].
  destruct f2 as [|f2]; [lia|]. cbn [doc_loop] in *.
  destruct (raw_token (S f1) d) as [[t d']|e| |] eqn:E1.
  - rewrite (raw_token_enough _ _ _ (S f2) E1) by (auto; discriminate).
    destruct (raw_token_progress _ _ _ _ E1) as [_ Hp].
    destruct t; auto;
      (destruct (doc_step h c _) as [[h1 c1]|?| |]; auto; cbn [bind] in *;
       apply IH; auto; assert (M d' < M d)%nat by (apply Hp; discriminate); lia).
  - rewrite (raw_token_enough _ _ _ (S f2) E1) by (auto; discriminate). auto.
  - rewrite (raw_token_enough _ _ _ (S f2) E1) by (auto; discriminate). auto.
  - congruence.
Qed.

Lemma M_sax_new : forall xml, (M (sax_new xml) < doc_fuel xml)%nat.
Proof.
  intro xml. unfold M, sax_new, doc_fuel. cbn [rest to_close].
  assert (forall f l, List.length (@filter N f l) <= List.length l)%nat as H.
  { clear. induction l; simpl; auto. destruct (f a); simpl; lia. }
  specialize (H (fun x => negb (x =? cCR)) xml). lia.
Qed.

Lemma new_document_enough : forall fuel xml r, new_document_fuel fuel xml = r -> r <> Fuel ->
  new_document xml = r.
Proof.
  intros fuel xml r E Hr. unfold new_document, new_document_fuel in *.
  destruct (make_new_rc_node [] DocumentRoot None [] []) as [h root].
  eapply doc_loop_enough; eauto. apply M_sax_new.
Qed.

(* ---- possible outcomes ---- *)
Lemma get_until_res : forall p s, (exists x, get_until p s = Ok x) \/ get_until p s = Err XmlSyntaxError.
Proof.
  intros p. induction s as [|c s IH]; rewrite get_until_unfold; destruct (look_ahead_keyword p _); eauto.
  destruct (c =? cNUL); auto. destruct IH as [[[r k] ->]| ->]; cbn; eauto.
Qed.
Lemma bracket_res : forall s n, (exists x, get_until_matching_bracket n s = Ok x) \/
  get_until_matching_bracket n s = Err XmlSyntaxError.
Proof.
  induction s as [|c s IH]; intro n; cbn [get_until_matching_bracket]; auto.
  destruct (c =? cNUL); auto. destruct (c =? cLT).
  - destruct (IH (S n)) as [[[r k] ->]| ->]; cbn; eauto.
  - destruct (c =? cGT).
    + destruct n as [|n]; [eauto|]. destruct (IH n) as [[[r k] ->]| ->]; cbn; eauto.
    + destruct (IH n) as [[[r k] ->]| ->]; cbn; eauto.
Qed.

Lemma raw_token_cases : forall fuel d,
  (exists x, raw_token fuel d = Ok x) \/ raw_token fuel d = Err XmlSyntaxError \/
  (exists s2 nm s3, rest d = 60 :: s2 /\ get_name s2 = (nm, s3) /\
     raw_token fuel d = do (attr, closed, s4) <- attr_loop fuel [] s3;
                        Ok (TStart nm attr, mkDec s4 (if closed : bool then nm else []))).
Proof.
  intros fuel [s tc]. unfold raw_token. cbn [to_close rest].
  destruct tc as [|x tc]; [|eauto].
  destruct s as [|c s1]; [cbn; eauto|]. cbn [getchar].
  destruct (c =? cNUL); [eauto|]. unfold cLT. destruct (N.eqb_spec c 60) as [->|Hc].
  2: { destruct (get_chardata (c :: s1)) as [cd s2]. eauto. }
  destruct s1 as [|c2 s2]; [cbn; eauto|]. cbn [getchar].
  destruct (c2 =? cNUL); auto.
  destruct (c2 =? cSLASH).
  { destruct (get_name s2) as [nm s3]. destruct (get_until_ch_res cGT s3) as [[[r k] ->]| ->]; cbn; eauto. }
  destruct (c2 =? cQUEST).
  { destruct (get_name s2) as [nm s3].
    destruct (get_until_res (lit "?>") (skip_spaces s3)) as [[[r k] ->]| ->]; cbn [bind]; eauto. }
  destruct (c2 =? cBANG).
  { destruct (getchar s2) as [c3 s3]. destruct (c3 =? cMINUS).
    { destruct (getchar s3) as [c4 s4]. destruct (c4 =? cMINUS); auto.
      destruct (get_until_res (lit "-->") s4) as [[[r k] ->]| ->]; cbn [bind]; eauto. }
    destruct (c3 =? cLBRACK).
    { destruct (look_ahead_keyword (lit "CDATA[") s3) as [s4|]; auto.
      destruct (get_until_res (lit "]]>") s4) as [[[r k] ->]| ->]; cbn [bind]; eauto. }
    destruct (bracket_res s3 0) as [[[r k] ->]| ->]; cbn [bind]; eauto. }
  destruct (get_name (c2 :: s2)) as [nm s3] eqn:E. right. right. exists (c2 :: s2), nm, s3. auto.
Qed.

Lemma attr_loop_res : forall fuel acc s, (exists x, attr_loop fuel acc s = Ok x) \/
  attr_loop fuel acc s = Err XmlSyntaxError \/ attr_loop fuel acc s = Fuel.
Proof.
  induction fuel as [|fuel IH]; intros acc s; auto. rewrite attr_loop_S.
  destruct (attr_round_res acc s) as [[[a s1] ->]| ->]; cbn [bind]; auto.
  destruct (getchar s1) as [c s2]. destruct (c =? cGT); eauto. destruct (c =? cSLASH); auto.
  destruct (getchar s2) as [c2 s3]. destruct (c2 =? cGT); eauto.
Qed.

Lemma doc_step_res : forall h c t, (exists x, doc_step h c t = Ok x) \/ doc_step h c t = Err XmlSyntaxError.
Proof.
  intros h c [|n a|n|s|tg i|cm|dr]; unfold doc_step; eauto.
  - destruct (make_new_child_rc_node h Element c n [] None). eauto.
  - destruct (str_eqb (n_name (get h c)) n); eauto.
  - destruct (str_eqb tg (lit "xml")); eauto.
Qed.

Lemma doc_loop_res : forall fuel d h c, (exists x, doc_loop fuel d h c = Ok x) \/
  doc_loop fuel d h c = Err XmlSyntaxError \/ doc_loop fuel d h c = Fuel.
Proof.
  induction fuel as [|fuel IH]; intros d h c; auto. cbn [doc_loop].
  assert (R : (exists x, raw_token (S fuel) d = Ok x) \/ raw_token (S fuel) d = Err XmlSyntaxError \/
              raw_token (S fuel) d = Fuel).
  { destruct (raw_token_cases (S fuel) d) as [H|[H|[s2 [nm [s3 [_ [_ ->]]]]]]]; auto.
    destruct (attr_loop_res (S fuel) [] s3) as [[[[a b] s4] ->]|[->| ->]]; cbn; eauto. }
  destruct R as [[[t d'] ->]|[->| ->]]; auto.
  destruct t; eauto;
    match goal with |- context [doc_step h c ?t] =>
      destruct (doc_step_res h c t) as [[[h1 c1] ->]| ->] end; cbn [bind]; auto.
Qed.

(* ---- terminated input ---- *)
Lemma terminated_suffix : forall a b, suffix a b -> terminated b -> terminated a.
Proof.
  intros a b [w ->] H u v E. apply (H (w ++ u) v). rewrite E, <- app_assoc. reflexivity.
Qed.

(* a '>' with no quotes after it *)
Definition has_stop (s : str) : Prop := exists v1 v2, s = v1 ++ 62 :: v2 /\ ~ In 34 v2 /\ ~ In 39 v2.

Lemma has_stop_cons : forall c s, c <> 62 -> has_stop (c :: s) -> has_stop s.
Proof.
  intros c s Hc [v1 [v2 [E H]]]. destruct v1 as [|x v1]; injection E as E1 E2; [congruence|].
  exists v1, v2. auto.
Qed.

Lemma skip_spaces_stop_has : forall s, has_stop s -> has_stop (skip_spaces s).
Proof.
  induction s as [|c s IH]; intro H; cbn [skip_spaces]; auto.
  unfold cNUL. destruct (N.eqb_spec c 0); [subst; eapply has_stop_cons; eauto; discriminate|].
  destruct (is_space c) eqn:E; auto. apply IH. eapply has_stop_cons; [|exact H].
  intro. subst. discriminate.
Qed.

Lemma get_name_rest_has : forall s, has_stop s -> has_stop (snd (get_name_rest s)).
Proof.
  induction s as [|c s IH]; intro H; cbn [get_name_rest]; auto.
  destruct (is_name_char c) eqn:E; auto.
  assert (has_stop s) as H1.
  { eapply has_stop_cons; [|exact H]. intro. subst. vm_compute in E. discriminate. }
  apply IH in H1. destruct (get_name_rest s). auto.
Qed.

Lemma get_name_has : forall s n k, get_name s = (n, k) -> has_stop s -> has_stop k.
Proof.
  intros [|c s] n k E H; cbn [get_name] in E; [injection E as <- <-; auto|].
  destruct (is_name_first_char c) eqn:Ec; [|injection E as <- <-; auto].
  assert (has_stop s) as H1.
  { eapply has_stop_cons; [|exact H]. intro. subst. vm_compute in Ec. discriminate. }
  apply get_name_rest_has in H1. destruct (get_name_rest s). injection E as <- <-. exact H1.
Qed.

Lemma get_until_ch_has : forall q s r k, q = 34 \/ q = 39 -> get_until_ch q s = Ok (r, k) ->
  has_stop s -> has_stop k.
Proof.
  intros q s. induction s as [|c s IH]; intros r k Hq E H; cbn [get_until_ch] in E; [discriminate|].
  destruct (c =? cNUL); [discriminate|]. destruct (N.eqb_spec c q).
  - injection E as <- <-. eapply has_stop_cons; [|exact H]. subst. destruct Hq; subst; discriminate.
  - destruct (get_until_ch q s) as [[r' k']|?| |] eqn:E1; try discriminate. injection E as <- <-.
    destruct (N.eqb_spec c 62) as [->|Hc].
    + (* the quote would have to occur after the '>' or the stop lies further on *)
      destruct H as [v1 [v2 [E2 [H1 H2]]]]. destruct v1 as [|x v1].
      * exfalso. injection E2 as E2. subst v2.
        assert (In q s).
        { clear - E1. revert r' k' E1. induction s as [|c s IH]; intros r k E; cbn [get_until_ch] in E; [discriminate|].
          destruct (c =? cNUL); [discriminate|]. destruct (N.eqb_spec c q); [subst; simpl; auto|].
          destruct (get_until_ch q s) as [[r' k']|?| |]; try discriminate. simpl. eauto. }
        destruct Hq; subst; contradiction.
      * injection E2 as _ E2. eapply IH; eauto. exists v1, v2. auto.
    + eapply IH; eauto. eapply has_stop_cons; eauto.
Qed.

Lemma attr_loop_terminates : forall fuel acc s, has_stop s -> (List.length s < fuel)%nat ->
  attr_loop fuel acc s <> Fuel.
Proof.
  induction fuel as [|fuel IH]; intros acc s H Hf; [lia|]. rewrite attr_loop_S.
  destruct (attr_round_res acc s) as [[[acc1 s1] E]|E]; rewrite E; cbn [bind]; [|discriminate].
  assert (H1 : has_stop s1).
  { unfold attr_round in E. destruct (get_name (skip_spaces s)) as [n s2] eqn:E1.
    assert (H2 : has_stop s2) by (eapply get_name_has; eauto using skip_spaces_stop_has).
    destruct n as [|n0 n]; [injection E as <- <-; auto|].
    apply skip_spaces_stop_has in H2.
    destruct (getchar (skip_spaces s2)) as [c s4] eqn:E2.
    destruct (N.eqb_spec c cEQ) as [->|_].
    2: { destruct (get_until_ch_res cGT s4) as [[[? ?] H3]|H3]; rewrite H3 in E; discriminate. }
    destruct (skip_spaces s2) as [|c' s4']; cbn [getchar] in E2; [discriminate|].
    injection E2 as -> ->. apply has_stop_cons in H2; [|discriminate].
    apply skip_spaces_stop_has in H2.
    destruct (getchar (skip_spaces s4)) as [q s6] eqn:E3.
    destruct ((q =? cDQ) || (q =? cSQ)) eqn:Eq.
    2: { destruct (get_until_ch_res cGT s6) as [[[? ?] H3]|H3]; rewrite H3 in E; discriminate. }
    assert (Hq : q = 34 \/ q = 39).
    { apply orb_true_iff in Eq. unfold cDQ, cSQ in Eq. rewrite !N.eqb_eq in Eq. exact Eq. }
    destruct (skip_spaces s4) as [|c' s6']; cbn [getchar] in E3.
    { injection E3 as <- <-. unfold cNUL in Hq. destruct Hq; discriminate. }
    injection E3 as -> ->. apply has_stop_cons in H2; [|destruct Hq; subst; discriminate].
    destruct (get_until_ch q s6) as [[v s7]|?| |] eqn:E4; try discriminate. injection E as <- <-.
    eapply get_until_ch_has; eauto. }
  apply attr_round_suffix in E. apply suffix_len in E.
  destruct s1 as [|c s2]; [destruct H1 as [[|? ?] [? [? _]]]; discriminate|].
  cbn [getchar]. unfold cGT, cSLASH. destruct (N.eqb_spec c 62); [discriminate|].
  destruct (N.eqb_spec c 47).
  - destruct (getchar s2) as [c2 s3]. destruct (c2 =? 62); discriminate.
  - apply IH; [eapply has_stop_cons; eauto|]. simpl in E. lia.
Qed.

Lemma doc_loop_terminates : forall fuel d h c, terminated (rest d) -> (M d < fuel)%nat ->
  doc_loop fuel d h c <> Fuel.
Proof.
  induction fuel as [|fuel IH]; intros d h c Ht Hf; [lia|]. cbn [doc_loop].
  assert (R : (exists x, raw_token (S fuel) d = Ok x) \/ raw_token (S fuel) d = Err XmlSyntaxError).
  { destruct (raw_token_cases (S fuel) d) as [H|[H|[s2 [nm [s3 [E1 [E2 ->]]]]]]]; auto.
    assert (Hs : has_stop s3).
    { eapply get_name_has; eauto. destruct (Ht [] s2) as [v1 [v2 H]]; [rewrite E1; reflexivity|].
      exists v1, v2. exact H. }
    apply get_name_suffix, suffix_len in E2.
    destruct (attr_loop_res (S fuel) [] s3) as [[[[a b] s4] ->]|[->|E]]; cbn; eauto.
    exfalso. revert E. apply attr_loop_terminates; auto. unfold M in Hf. rewrite E1 in Hf.
    cbn [List.length] in Hf. destruct (to_close d); lia. }
  destruct R as [[[t d'] E]|E]; rewrite E; [|discriminate].
  destruct (raw_token_progress _ _ _ _ E) as [Hs Hp].
  assert (Ht' : terminated (rest d')) by (eapply terminated_suffix; eauto).
  destruct t; try discriminate;
    match goal with |- context [doc_step h c ?t] =>
      destruct (doc_step_res h c t) as [[[h1 c1] ->]| ->] end; cbn [bind]; try discriminate;
    apply IH; auto; assert (M d' < M d)%nat by (apply Hp; discriminate); lia.
Qed.

Lemma new_document_terminates : forall xml, terminated (without_cr xml) ->
  (exists h, new_document xml = Ok h) \/ new_document xml = Err XmlSyntaxError.
Proof.
  intros xml H. unfold new_document, new_document_fuel.
  destruct (make_new_rc_node [] DocumentRoot None [] []) as [h root].
  destruct (doc_loop_res (doc_fuel xml) (sax_new xml) h root) as [E|[E|E]]; auto.
  exfalso. revert E. apply doc_loop_terminates; [exact H|]. apply M_sax_new.
Qed.

(* ---- tag balance ---- *)
Lemma doc_loop_tokens : forall fuel d ts h c, tokens fuel d = Ok ts ->
  doc_loop fuel d h c = do (h', _) <- doc_steps h c ts; Ok h'.
Proof.
  induction fuel as [|fuel IH]; intros d ts h c E; [discriminate|]. cbn [tokens doc_loop] in *.
  destruct (raw_token (S fuel) d) as [[t d']|e| |]; try discriminate.
  destruct t; [injection E as <-; reflexivity|..];
    (destruct (tokens fuel d') as [ts'|e'| |] eqn:E'; try discriminate; cbn [bind] in E; injection E as <-;
     cbn [doc_steps];
     match goal with |- context [doc_step h c ?t] =>
       destruct (doc_step_res h c t) as [[[h1 c1] ->]| ->] end; cbn [bind]; auto).
Qed.

Lemma doc_loop_ok_tokens : forall fuel d h c h', doc_loop fuel d h c = Ok h' ->
  exists ts, tokens fuel d = Ok ts.
Proof.
  induction fuel as [|fuel IH]; intros d h c h' E; [discriminate|]. cbn [tokens doc_loop] in *.
  destruct (raw_token (S fuel) d) as [[t d']|e| |]; try discriminate.
  destruct t; eauto;
    match goal with H : context [doc_step h c ?t] |- _ =>
       destruct (doc_step_res h c t) as [[[h1 c1] E1]|E1]; rewrite E1 in H; try discriminate end;
    cbn [bind] in E; destruct (IH _ _ _ _ E) as [ts' ->]; cbn; eauto.
Qed.

Definition path_names (fs : list frame) (c : tree) : list str := tname c :: map f_nm fs.

Lemma doc_step_open : forall h fs c t st, building h fs c -> t <> TEnd [] ->
  path_names fs c = st ++ [[]] ->
  match t with
  | TStart n a => exists h' fs' c', doc_step h (tid c) t = Ok (h', tid c') /\ building h' fs' c' /\
                                    path_names fs' c' = (n :: st) ++ [[]]
  | TEnd n => (exists st', st = n :: st' /\ exists fs' c', doc_step h (tid c) t = Ok (h, tid c') /\
                                    building h fs' c' /\ path_names fs' c' = st' ++ [[]])
              \/ (doc_step h (tid c) t = Err XmlSyntaxError /\ ~ exists st', st = n :: st')
  | _ => exists h' c', doc_step h (tid c) t = Ok (h', tid c') /\ building h' fs c' /\
                       path_names fs c' = st ++ [[]]
  end.
Proof.
  intros h fs c t st B Ht P.
  assert (Hleaf : forall ty nm v,
     exists c', building (fst (make_new_child_rc_node h ty (tid c) nm v None)) fs c' /\
                tid c = tid c' /\ path_names fs c' = st ++ [[]]).
  { intros ty nm v. exists (add_kid c (T (List.length h) ty nm v [] [])).
    split; [apply adds_leaf; auto|]. split; [symmetry; apply tid_add_kid|].
    rewrite <- P. destruct c. reflexivity. }
  destruct t as [|name attr|name|s|target inst|cm|dr]; cbn [doc_step].
  - exists h, c. auto.
  - destruct (make_new_child_rc_node h Element (tid c) name [] None) as [h1 id] eqn:E1.
    destruct (building_child _ _ _ _ _ _ _ _ B E1) as [-> B1].
    destruct c as [i ty nm v ats ks].
    apply building_enter in B1.
    destruct (building_attrs attr _ _ _ B1 eq_refl) as [c' [B2 [E2 [E3 [E4 [E5 [E6 E7]]]]]]].
    cbn [tid] in E2, B2.
    exists (push_attrs h1 (List.length h) attr), (Fr i ty nm v ats ks [] :: fs), c'.
    split; [rewrite E2; reflexivity|]. split; [exact B2|].
    unfold path_names in *. rewrite E5. cbn [tname map f_nm app] in *. rewrite P. reflexivity.
  - destruct (building_get _ _ _ B) as [o Hg]. rewrite Hg. cbn [n_name n_parent].
    destruct (str_eqb (tname c) name) eqn:En.
    + apply str_eqb_eq in En. left. unfold path_names in P. rewrite En in P.
      destruct st as [|x st].
      * exfalso. cbn in P. injection P as P1 P2. congruence.
      * injection P as <- P. exists st. split; auto.
        destruct fs as [|f fs].
        -- exfalso. cbn in P. destruct st; discriminate.
        -- exists fs, (plug f c). split; [reflexivity|]. split; [apply building_leave; auto|].
           exact P.
    + right. split; auto. intros [st' ->]. apply str_eqb_neq in En. apply En.
      unfold path_names in P. injection P as P1 P2. exact P1.
  - destruct (Hleaf Text [] s) as [c' [B' [Ec P']]]. eexists _, c'. rewrite <- Ec. eauto.
  - destruct (str_eqb target (lit "xml")).
    + destruct (Hleaf XMLDecl (lit "xml") inst) as [c' [B' [Ec P']]]. eexists _, c'. rewrite <- Ec. eauto.
    + destruct (Hleaf Instruction target inst) as [c' [B' [Ec P']]]. eexists _, c'. rewrite <- Ec. eauto.
  - destruct (Hleaf Comment [] cm) as [c' [B' [Ec P']]]. eexists _, c'. rewrite <- Ec. eauto.
  - exists h, c. auto.
Qed.

(* open_tags with an initial stack, reading forward *)
Fixpoint run_stack (st : list str) (ts : list token) : option (list str) :=
  match ts with
  | [] => Some st
  | TStart n _ :: ts' => run_stack (n :: st) ts'
  | TEnd n :: ts' => match st with
                     | x :: st' => if str_eqb x n then run_stack st' ts' else None
                     | [] => None
                     end
  | _ :: ts' => run_stack st ts'
  end.

Lemma run_stack_app : forall ts ts' st, run_stack st (ts ++ ts') =
  match run_stack st ts with Some st' => run_stack st' ts' | None => None end.
Proof.
  induction ts as [|t ts IH]; intros ts' st; auto.
  destruct t; cbn [app run_stack]; auto. destruct st as [|x st]; auto. destruct (str_eqb x name); auto.
Qed.

Lemma open_tags_run : forall ts st, open_tags ts st <-> run_stack [] ts = Some st.
Proof.
  intros ts st. split.
  - intro H. induction H as [|ts st n a H IH|ts st n H IH|ts st t H IH H1 H2]; auto;
      rewrite run_stack_app, IH; cbn; rewrite ?str_eqb_refl; auto.
    destruct t; auto; [exfalso; eapply H1; eauto | exfalso; eapply H2; eauto].
  - revert st. induction ts as [|t ts IH] using rev_ind; intros st H.
    + cbn in H. injection H as <-. constructor.
    + rewrite run_stack_app in H. destruct (run_stack [] ts) as [st'|] eqn:E; [|discriminate].
      specialize (IH st' eq_refl).
      destruct t; cbn in H; try (injection H as <-; apply ot_other; auto; intros; discriminate).
      * injection H as <-. apply ot_start. auto.
      * destruct st' as [|x st']; [discriminate|]. destruct (str_eqb x name) eqn:En; [|discriminate].
        apply str_eqb_eq in En. injection H as <-. apply ot_end. subst. auto.
Qed.

Lemma doc_steps_stack : forall ts h fs c st, building h fs c -> ~ In (TEnd []) ts ->
  path_names fs c = st ++ [[]] ->
  match run_stack st ts with
  | Some st' => exists h' fs' c', doc_steps h (tid c) ts = Ok (h', tid c') /\ building h' fs' c' /\
                                  path_names fs' c' = st' ++ [[]]
  | None => doc_steps h (tid c) ts = Err XmlSyntaxError
  end.
Proof.
  induction ts as [|t ts IH]; intros h fs c st B Hn P; cbn [run_stack doc_steps].
  - exists h, fs, c. auto.
  - assert (Hn' : ~ In (TEnd []) ts) by (intro; apply Hn; simpl; auto).
    assert (Ht : t <> TEnd []) by (intro; subst; apply Hn; simpl; auto).
    pose proof (doc_step_open h fs c t st B Ht P) as S.
    destruct t as [|name attr|name|s|target inst|cm|dr].
    2: { destruct S as [h1 [fs1 [c1 [E [B1 P1]]]]]. rewrite E. cbn [bind]. apply (IH h1 fs1 c1); auto. }
    2: { destruct S as [[st' [-> [fs1 [c1 [E [B1 P1]]]]]]|[E Hno]]; rewrite E; cbn [bind].
         - rewrite str_eqb_refl. apply (IH h fs1 c1); auto.
         - destruct st as [|x st]; auto. destruct (str_eqb x name) eqn:En; auto.
           apply str_eqb_eq in En. exfalso. apply Hno. subst. eauto. }
    all: destruct S as [h1 [c1 [E [B1 P1]]]]; rewrite E; cbn [bind]; apply (IH h1 fs c1); auto.
Qed.

Lemma tokens_enough : forall f1 d r f2, tokens f1 d = r -> r <> Fuel -> (M d < f2)%nat -> tokens f2 d = r.
Proof.
  induction f1 as [|f1 IH]; intros d r f2 E Hr Hf; [cbn in E; congruence|].
  destruct f2 as [|f2]; [lia|]. cbn [tokens] in *.
  destruct (raw_token (S f1) d) as [[t d']|e| |] eqn:E1.
  - rewrite (raw_token_enough _ _ _ (S f2) E1) by (auto; discriminate).
    destruct (raw_token_progress _ _ _ _ E1) as [_ Hp].
    destruct t; auto;
      (assert (Hm : (M d' < M d)%nat) by (apply Hp; discriminate);
       destruct (tokens f1 d') as [ts'|?| |] eqn:E2; cbn [bind] in E;
       try congruence;
       rewrite (IH _ _ f2 E2) by (try discriminate; lia); exact E).
  - rewrite (raw_token_enough _ _ _ (S f2) E1) by (auto; discriminate). auto.
  - rewrite (raw_token_enough _ _ _ (S f2) E1) by (auto; discriminate). auto.
  - congruence.
Qed.

Lemma new_document_balanced : forall xml ts fuel, tokens fuel (sax_new xml) = Ok ts ->
  ~ In (TEnd []) ts ->
  ((exists h, new_document xml = Ok h) <-> (exists st, open_tags ts st)) /\
  ((~ exists st, open_tags ts st) -> new_document xml = Err XmlSyntaxError).
Proof.
  intros xml ts fuel E Hn.
  assert (E' : tokens (doc_fuel xml) (sax_new xml) = Ok ts).
  { eapply tokens_enough; eauto; [discriminate|]. apply M_sax_new. }
  pose proof (doc_steps_stack ts _ _ _ [] building_init Hn eq_refl) as S.
  unfold new_document, new_document_fuel. cbn [make_new_rc_node fst tid app List.length] in *.
  rewrite (doc_loop_tokens _ _ _ _ _ E').
  destruct (run_stack [] ts) as [st|] eqn:R.
  - destruct S as [h' [fs' [c' [-> _]]]]. cbn [bind]. split; [|].
    + split; intros _; [exists st; apply open_tags_run; auto|eauto].
    + intro H. exfalso. apply H. exists st. apply open_tags_run. auto.
  - rewrite S. cbn [bind]. split.
    + split; intros [x Hx]; [discriminate|]. apply open_tags_run in Hx. congruence.
    + auto.
Qed.

Lemma new_document_ok_tokens : forall xml h, new_document xml = Ok h ->
  exists ts, tokens (doc_fuel xml) (sax_new xml) = Ok ts.
Proof.
  intros xml h E. unfold new_document, new_document_fuel in E.
  destruct (make_new_rc_node [] DocumentRoot None [] []) as [h0 root].
  eapply doc_loop_ok_tokens; eauto.
Qed.

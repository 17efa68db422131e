(* C77: names in XML documents. *)
Require Import Bool List NArith ZArith Ascii String Lia.
From Verif Require Import Str StrFacts Chars Sax Dom SpecText SpecTokens SpecTree HeapFacts BuildFacts SaxFacts DocFacts SpecRead ReadFacts PropXml PropRead SpecNames.
Import ListNotations.
Open Scope N_scope.

Lemma listed_in : forall l c, listed l c <-> char_is_in_ranges c l = true.
Proof.
  induction l as [|[lo hi] l IH]; intro c; cbn [char_is_in_ranges].
  - split; [intros [lo [hi [[] _]]]|discriminate].
  - destruct ((lo <=? c) && (c <=? hi)) eqn:E.
    + apply andb_true_iff in E. rewrite !N.leb_le in E. split; auto. intros _. exists lo, hi. split; [left; auto|auto].
    + rewrite <- IH. split.
      * intros [a [b [[Q|I] L]]]; [|exists a, b; auto]. injection Q as <- <-. exfalso.
        apply andb_false_iff in E. rewrite !N.leb_gt in E. lia.
      * intros [a [b [I L]]]. exists a, b. split; [right; auto|auto].
Qed.
Lemma ranges_app : forall l m c, char_is_in_ranges c (l ++ m) = char_is_in_ranges c l || char_is_in_ranges c m.
Proof.
  induction l as [|[lo hi] l IH]; intros m c; auto. cbn [app char_is_in_ranges]. destruct ((lo <=? c) && (c <=? hi)); auto.
Qed.
Lemma letter_spec : forall c, Letter c <-> is_letter c = true.
Proof.
  intro c. unfold Letter, is_letter. rewrite !listed_in, <- orb_true_iff, <- ranges_app.
  replace (BaseChar ++ Ideographic) with letter_ranges by (vm_compute; reflexivity). reflexivity.
Qed.
Lemma digit_spec : forall c, listed Digit c <-> is_digit c = true.
Proof. intro c. replace Digit with digit_ranges by (vm_compute; reflexivity). apply listed_in. Qed.
Lemma combining_spec : forall c, listed CombiningChar c <-> is_combining_char c = true.
Proof. intro c. replace CombiningChar with combining_char_ranges by (vm_compute; reflexivity). apply listed_in. Qed.
Lemma extender_spec : forall c, listed Extender c <-> is_extender c = true.
Proof. intro c. replace Extender with extender_ranges by (vm_compute; reflexivity). apply listed_in. Qed.
Lemma name_char_spec : forall c, NameChar c <-> is_name_char c = true.
Proof.
  intro c. unfold NameChar, is_name_char. rewrite letter_spec, digit_spec, combining_spec, extender_spec, !orb_true_iff, !N.eqb_eq.
  generalize (is_letter c = true) (is_digit c = true) (is_combining_char c = true) (is_extender c = true).
  change (ch "."%char) with 46. change (ch "-"%char) with 45. change (ch "_"%char) with 95. change (ch ":"%char) with 58. intros. tauto.
Qed.
Lemma name_start_spec : forall c, Letter c \/ c = ch "_"%char \/ c = ch ":"%char <-> is_name_first_char c = true.
Proof.
  intro c. unfold is_name_first_char. rewrite letter_spec, !orb_true_iff, !N.eqb_eq. generalize (is_letter c = true).
  change (ch "_"%char) with 95. change (ch ":"%char) with 58. intros. tauto.
Qed.
(* the legal names of the other theorems (C04, C05, C59) are the names of the recommendation *)
Theorem C77_legal_names : forall n, legal_name n <-> Name n.
Proof.
  intros [|c r]; cbn [legal_name].
  - split; [intros []|]. intros [c [r [E _]]]. discriminate E.
  - split.
    + intros [F R]. exists c, r. split; auto. split; [apply name_start_spec; exact F|].
      eapply Forall_impl; [|exact R]. intros x X. apply name_char_spec. exact X.
    + intros [c' [r' [E [F R]]]]. injection E as <- <-. split; [apply name_start_spec; exact F|].
      eapply Forall_impl; [|exact R]. intros x X. apply name_char_spec. exact X.
Qed.

(* Every name is read: as the name of an element and of an attribute. *)
Theorem C77_names_read : forall n m, Name n -> Name m -> exists h t,
  new_document (lit "<" ++ n ++ lit " " ++ m ++ lit "=''/>") = Ok h /\ document h t /\
  erase t = X DocumentRoot [] [] [] [X Element n [] [(m, [])] []].
Proof.
  intros n m HN HM. apply C77_legal_names in HN. apply C77_legal_names in HM.
  assert (CR : forall n, legal_name n -> without_cr n = n).
  { assert (C : forall n, Forall (fun x => is_name_char x = true) n -> without_cr n = n).
    { clear. induction 1 as [|x l X _ IH]; auto. unfold without_cr in *. cbn [filter]. destruct (N.eqb_spec x 13) as [->|_]; [|cbn [negb]; congruence].
      exfalso. revert X. vm_compute. discriminate. }
    clear - C. intros [|c r] H; auto. apply C. destruct H as [F R]. constructor; auto.
    unfold is_name_first_char in F. unfold is_name_char. rewrite !orb_true_iff in *. generalize dependent (is_letter c = true). intros. tauto. }
  destruct (C59_read (X DocumentRoot [] [] [] [X Element n [] [(m, [])] []]) (lit "<" ++ n ++ lit " " ++ m ++ lit "=''/>")) as [h [t [E [D [_ X]]]]]; eauto.
  unfold without_cr in *. rewrite !filter_app, (CR n HN), (CR m HM).
  eexists [_], false. split; [reflexivity|].
  assert (T : lit "<" ++ n ++ lit " " ++ m ++ lit "=''/>" = ([60] ++ n ++ (([32] ++ m ++ [] ++ 61 :: [] ++ 39 :: [] ++ [39]) ++ []) ++ [] ++ lit "/>") ++ []).
  { rewrite !app_nil_r. change (lit "<") with [60]. rewrite <- !app_assoc. reflexivity. }
  change (filter (fun c => negb (c =? 13)) (lit "<")) with (lit "<"). change (filter (fun c => negb (c =? 13)) (lit " ")) with (lit " ").
  change (filter (fun c => negb (c =? 13)) (lit "=''/>")) with (lit "=''/>"). rewrite T.
  apply (ns_node _ false _ [] false []); [|constructor|discriminate].
  apply nt_empty; auto; [|constructor]. apply ats_cons; [|constructor].
  apply (at_text [32] m [] [] 39 [] []); auto; try discriminate; try (constructor; auto; constructor).
Qed.

(* No other names are accepted, apart from the empty one (refuted below): what a parsed document calls its nodes. *)
Definition named (n : node) : Prop :=
  match n_type n with
  | Attribute => Name (n_name n)
  | Element | Instruction => n_name n = [] \/ Name (n_name n)
  | XMLDecl => n_name n = lit "xml"
  | _ => n_name n = []
  end.
Lemma get_name_named : forall s n r, get_name s = (n, r) -> n = [] \/ Name n.
Proof.
  assert (G : forall s n r, get_name_rest s = (n, r) -> Forall NameChar n).
  { induction s as [|c s IH]; intros n r E; cbn [get_name_rest] in E; [injection E as <- _; constructor|].
    destruct (is_name_char c) eqn:C; [|injection E as <- _; constructor].
    destruct (get_name_rest s) as [n' r'] eqn:E'. injection E as <- _. constructor; [apply name_char_spec; auto|eauto]. }
  intros [|c s] n r E; cbn [get_name] in E; [injection E as <- _; auto|].
  destruct (is_name_first_char c) eqn:C; [|injection E as <- _; auto].
  destruct (get_name_rest s) as [n' r'] eqn:E'. injection E as <- _. right. exists c, n'. split; auto. split; [apply name_start_spec; auto|eauto].
Qed.
Lemma attr_loop_named : forall fuel acc s ats b r, attr_loop fuel acc s = Ok (ats, b, r) -> Forall (fun a => Name (fst a)) acc ->
  Forall (fun a => Name (fst a)) ats.
Proof.
  induction fuel as [|fuel IH]; intros acc s ats b r E A; cbn [attr_loop] in E; [discriminate E|].
  destruct (get_name (skip_spaces s)) as [nm s2] eqn:GN. apply get_name_named in GN.
  match type of E with bind ?X _ = _ => assert (G : forall a s', X = Ok (a, s') -> Forall (fun x => Name (fst x)) a); [|destruct X as [[a s']| | |]; try discriminate E] end.
  { intros a s' Q. destruct nm as [|c nm]; [injection Q as <- _; auto|]. destruct (getchar (skip_spaces s2)) as [c1 s4].
    destruct (c1 =? cEQ).
    - destruct (getchar (skip_spaces s4)) as [q s6]. destruct ((q =? cDQ) || (q =? cSQ)).
      + destruct (get_until_ch q s6) as [[v s7]| | |]; cbn [bind] in Q; try discriminate Q. injection Q as <- _.
        apply Forall_app. split; auto. constructor; [|constructor]. cbn [fst]. destruct GN as [N|N]; [discriminate N|exact N].
      + destruct (get_until_ch cGT s6); discriminate Q.
    - destruct (get_until_ch cGT s4); discriminate Q. }
  specialize (G a s' eq_refl). cbn [bind] in E. destruct (getchar s') as [c s''].
  destruct (c =? cGT); [injection E as <- _ _; auto|]. destruct (c =? cSLASH); [|eauto].
  destruct (getchar s'') as [c2 s3]. destruct (c2 =? cGT); [injection E as <- _ _; auto|discriminate E].
Qed.
Definition token_named (t : token) : Prop :=
  match t with
  | TStart n ats => (n = [] \/ Name n) /\ Forall (fun a => Name (fst a)) ats
  | TPI n _ => n = [] \/ Name n
  | _ => True
  end.
Lemma raw_token_named : forall fuel d t d', raw_token fuel d = Ok (t, d') -> token_named t.
Proof.
  intros fuel d t d' E. unfold raw_token in E. destruct (to_close d); [|injection E as <- _; exact I].
  destruct (getchar (rest d)) as [c s1]. destruct (c =? cNUL); [injection E as <- _; exact I|].
  destruct (c =? cLT); [|destruct (get_chardata (rest d)); injection E as <- _; exact I].
  destruct (getchar s1) as [c2 s2]. destruct (c2 =? cNUL); [discriminate E|].
  destruct (c2 =? cSLASH).
  { destruct (get_name s2) as [nm s3]. destruct (get_until_ch cGT s3) as [[? ?]| | |]; try discriminate E. injection E as <- _. exact I. }
  destruct (c2 =? cQUEST).
  { destruct (get_name s2) as [nm s3] eqn:GN. apply get_name_named in GN.
    destruct (get_until (lit "?>") (skip_spaces s3)) as [[? ?]| | |]; try discriminate E. injection E as <- _. exact GN. }
  destruct (c2 =? cBANG).
  { destruct (getchar s2) as [c3 s3]. destruct (c3 =? cMINUS).
    - destruct (getchar s3) as [c4 s4]. destruct (c4 =? cMINUS); [|discriminate E].
      destruct (get_until (lit "-->") s4) as [[? ?]| | |]; try discriminate E. injection E as <- _. exact I.
    - destruct (c3 =? cLBRACK).
      + destruct (look_ahead_keyword (lit "CDATA[") s3) as [s4|]; [|discriminate E].
        destruct (get_until (lit "]]>") s4) as [[? ?]| | |]; try discriminate E. injection E as <- _. exact I.
      + destruct (get_until_matching_bracket 0 s3) as [[? ?]| | |]; try discriminate E. injection E as <- _. exact I. }
  destruct (get_name s1) as [nm s3] eqn:GN. apply get_name_named in GN.
  destruct (attr_loop fuel [] s3) as [[[ats b] s4]| | |] eqn:EA; try discriminate E. injection E as <- _. split; auto.
  eapply attr_loop_named; eauto.
Qed.
Lemma upd_named : forall h i f, Forall named h -> (forall n, named n -> named (f n)) -> Forall named (upd h i f).
Proof.
  induction h as [|n h IH]; intros i f H F; [destruct i; constructor|]. inversion H; subst.
  destruct i; cbn [upd]; constructor; auto.
Qed.
Lemma child_named : forall h t p nm v k, Forall named h -> named (mkNode t 0 nm v None [] []) -> Forall named (fst (make_new_child_rc_node h t p nm v k)).
Proof.
  intros h t p nm v k H N. unfold make_new_child_rc_node, make_new_rc_node. cbn [fst].
  apply upd_named; [|intros n M; exact M]. apply Forall_app. split; auto.
Qed.
Lemma push_named : forall ats h e, Forall named h -> Forall (fun a => Name (fst a)) ats -> Forall named (push_attrs h e ats).
Proof.
  induction ats as [|[n v] ats IH]; intros h e H A; auto. inversion A; subst. cbn [push_attrs make_new_rc_node]. apply IH; auto.
  apply upd_named; [|intros x M; exact M]. apply Forall_app. split; auto.
Qed.
Lemma loop_named : forall fuel d h curr h', doc_loop fuel d h curr = Ok h' -> Forall named h -> Forall named h'.
Proof.
  induction fuel as [|fuel IH]; intros d h curr h' E H; cbn [doc_loop] in E; [discriminate E|].
  destruct (raw_token (S fuel) d) as [[t d']| | |] eqn:ET; try discriminate E. apply raw_token_named in ET.
  assert (G : forall h1 c1, doc_step h curr t = Ok (h1, c1) -> Forall named h1).
  { intros h1 c1 Q. destruct t; cbn [doc_step] in Q.
    - injection Q as <- _. auto.
    - destruct ET as [N A]. destruct (make_new_child_rc_node h Element curr name [] None) as [h2 e] eqn:M. injection Q as <- _.
      apply push_named; auto. change h2 with (fst (h2, e)). rewrite <- M. apply child_named; auto.
    - destruct (str_eqb _ _); [injection Q as <- _; auto|discriminate Q].
    - match type of Q with Ok (?X, _) = _ => replace h1 with X by congruence end. apply child_named; auto. reflexivity.
    - destruct (str_eqb target (lit "xml")); match type of Q with Ok (?X, _) = _ => replace h1 with X by congruence end; apply child_named; auto; reflexivity.
    - match type of Q with Ok (?X, _) = _ => replace h1 with X by congruence end. apply child_named; auto. reflexivity.
    - injection Q as <- _. auto. }
  destruct t; try (injection E as <-; assumption); destruct (doc_step h curr _) as [[h1 c1]| | |] eqn:Q; try discriminate E; cbn [bind] in E; eauto.
Qed.
Theorem C77_names_partial : forall xml h i, new_document xml = Ok h -> (i < List.length h)%nat ->
  match n_type (Dom.get h i) with
  | Attribute => Name (n_name (Dom.get h i))
  | Element | Instruction => n_name (Dom.get h i) = [] \/ Name (n_name (Dom.get h i))
  | XMLDecl => n_name (Dom.get h i) = lit "xml"
  | _ => n_name (Dom.get h i) = []
  end.
Proof.
  intros xml h i E L. unfold new_document, new_document_fuel in E. cbn [make_new_rc_node app] in E.
  apply loop_named in E; [|constructor; [reflexivity|constructor]].
  exact (proj1 (Forall_forall _ _) E (Dom.get h i) (nth_In h dummy_node L)).
Qed.
(* a name that begins with another character is taken for no name at all, and the rest of it is ignored *)
Theorem C77_empty_name_refuted : exists h, new_document (lit "<1/>") = Ok h /\ n_type (Dom.get h 1) = Element /\ n_name (Dom.get h 1) = [].
Proof. eexists. split; [vm_compute; reflexivity|]. split; reflexivity. Qed.
Example C77_example : Name (lit "a-1") /\ Name [0x540D; 0x524D] /\ ~ Name (lit "1a") /\ ~ Name (lit "a b") /\
  exists h, new_document (lit "<a-1 x:y='1'/>") = Ok h /\ n_type (Dom.get h 2) = Attribute /\ n_name (Dom.get h 2) = lit "x:y".
Proof.
  rewrite <- !C77_legal_names. split; [|split; [|split; [|split]]].
  - split; [reflexivity|]. repeat (constructor; [reflexivity|]). constructor.
  - split; [reflexivity|]. repeat (constructor; [reflexivity|]). constructor.
  - intros [H _]. revert H. vm_compute. discriminate.
  - intros [_ H]. inversion H as [|? ? H1 _]. revert H1. vm_compute. discriminate.
  - eexists. split; [vm_compute; reflexivity|]. split; reflexivity.
Qed.

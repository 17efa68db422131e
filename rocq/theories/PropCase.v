(* C83: upper-case(), lower-case() and lang() use the Unicode case mappings. *)
Require Import Bool List NArith ZArith Ascii String Lia Sorted.
From Verif Require Import Str StrFacts CaseTable Case SpecCase CaseFacts Chars Sax Dom SpecEdit SpecAxes Axes Lexer FuncTable Parser Num Item Func Types Eval
  EvalFacts SpecOper ItemFacts SpecFunc FuncFacts PropFunc PropFunc2 AxesFacts SessionFacts PropAxes.
Import ListNotations.
Open Scope Z_scope.

Lemma upper_call h c s : fn_value h c (lit "fn:upper-case") [[XIString s]] (Ok [XIString (to_upper s)]).
Proof. fnv; reflexivity. Qed.
Lemma lower_call h c s : fn_value h c (lit "fn:lower-case") [[XIString s]] (Ok [XIString (to_lower s)]).
Proof. fnv; reflexivity. Qed.
(* The value is the text of the specification, and the only such text. *)
Theorem C83_upper : forall h c s, exists r, fn_value h c (lit "fn:upper-case") [[XIString s]] (Ok [XIString r]) /\
  forall r', upper_text s r' <-> r' = r.
Proof.
  intros h c s. exists (to_upper s). split; [apply upper_call|]. intros r'. rewrite <- to_upper_iff. split; auto.
Qed.
Theorem C83_lower : forall h c s, exists r, fn_value h c (lit "fn:lower-case") [[XIString s]] (Ok [XIString r]) /\
  forall r', lower_text [] s r' <-> r' = r.
Proof.
  intros h c s. exists (to_lower s). split; [apply lower_call|]. intros r'. rewrite <- to_lower_iff. split; auto.
Qed.
(* Both conversions done twice change nothing more; upper case works character by character. *)
Theorem C83_stable : forall h c s u l,
  fn_value h c (lit "fn:upper-case") [[XIString s]] (Ok [XIString u]) ->
  fn_value h c (lit "fn:lower-case") [[XIString s]] (Ok [XIString l]) ->
  fn_value h c (lit "fn:upper-case") [[XIString u]] (Ok [XIString u]) /\
  fn_value h c (lit "fn:lower-case") [[XIString l]] (Ok [XIString l]).
Proof.
  intros h c s u l U L.
  assert (E := fn_value_unique _ _ _ _ _ _ U (upper_call h c s)). assert (F := fn_value_unique _ _ _ _ _ _ L (lower_call h c s)).
  inversion E; inversion F; subst. split.
  - assert (X := upper_call h c (to_upper s)). rewrite to_upper_twice in X. exact X.
  - assert (X := lower_call h c (to_lower s)). rewrite to_lower_twice in X. exact X.
Qed.
Theorem C83_concat : forall h c s t, exists u v,
  fn_value h c (lit "fn:upper-case") [[XIString s]] (Ok [XIString u]) /\
  fn_value h c (lit "fn:upper-case") [[XIString t]] (Ok [XIString v]) /\
  fn_value h c (lit "fn:upper-case") [[XIString (s ++ t)]] (Ok [XIString (u ++ v)]).
Proof.
  intros h c s t. exists (to_upper s), (to_upper t). rewrite <- to_upper_app.
  split; [apply upper_call|]. split; apply upper_call.
Qed.
(* Texts that differ only in case agree after upper-case(); six capitals are exceptions in Unicode itself. *)
Theorem C83_fold : forall h c s l, (forall x, In x s -> ~ In x [304; 1012; 7838; 8486; 8490; 8491]%N) ->
  fn_value h c (lit "fn:lower-case") [[XIString s]] (Ok [XIString l]) ->
  exists u, fn_value h c (lit "fn:upper-case") [[XIString s]] (Ok [XIString u]) /\
            fn_value h c (lit "fn:upper-case") [[XIString l]] (Ok [XIString u]).
Proof.
  intros h c s l N L. assert (F := fn_value_unique _ _ _ _ _ _ L (lower_call h c s)). inversion F; subst.
  exists (to_upper s). split; [apply upper_call|]. rewrite <- (upper_lower_from s [] N). apply upper_call.
Qed.
(* No text disappears: lengths. *)
Theorem C83_length : forall h c s, exists u l,
  fn_value h c (lit "fn:upper-case") [[XIString s]] (Ok [XIString u]) /\
  fn_value h c (lit "fn:lower-case") [[XIString s]] (Ok [XIString l]) /\
  (List.length s <= List.length u <= 3 * List.length s)%nat /\ (List.length s <= List.length l <= 2 * List.length s)%nat.
Proof.
  intros h c s. exists (to_upper s), (to_lower s). split; [apply upper_call|]. split; [apply lower_call|]. split; [apply to_upper_len|apply lower_from_len].
Qed.
(* Latin, Greek, Cyrillic and full-width letters, and caseless scripts, independently of the tables. *)
Theorem C83_alphabets : forall h c s t, Forall2 case_pair s t -> ~ In 931%N t ->
  fn_value h c (lit "fn:upper-case") [[XIString s]] (Ok [XIString t]) /\
  fn_value h c (lit "fn:lower-case") [[XIString t]] (Ok [XIString s]).
Proof.
  intros h c s t F N.
  assert (U : to_upper s = t).
  { clear N. induction F as [|x y s t P F IH]; auto. change (to_upper (x :: s)) with (upper_char x ++ to_upper s).
    rewrite (proj1 (case_pair_ok _ _ P)), IH. reflexivity. }
  assert (L : to_lower t = s).
  { unfold to_lower. rewrite lower_from_plain by auto. clear N U. induction F as [|x y s t P F IH]; auto. cbn [flat_map].
    rewrite (proj2 (case_pair_ok _ _ P)), IH. reflexivity. }
  split.
  - assert (X := upper_call h c s). rewrite U in X. exact X.
  - assert (X := lower_call h c t). rewrite L in X. exact X.
Qed.
Theorem C83_caseless : forall h c s, Forall caseless s ->
  fn_value h c (lit "fn:upper-case") [[XIString s]] (Ok [XIString s]) /\
  fn_value h c (lit "fn:lower-case") [[XIString s]] (Ok [XIString s]).
Proof.
  intros h c s F.
  assert (U : to_upper s = s).
  { induction F as [|x s P F IH]; auto. change (to_upper (x :: s)) with (upper_char x ++ to_upper s).
    rewrite (proj1 (caseless_ok _ P)), IH. reflexivity. }
  assert (N : ~ In 931%N s).
  { rewrite Forall_forall in F. intros I. specialize (F _ I). unfold caseless in F. lia. }
  assert (L : to_lower s = s).
  { unfold to_lower. rewrite lower_from_plain by auto. clear N U. induction F as [|x s P F IH]; auto. cbn [flat_map].
    rewrite (proj2 (caseless_ok _ P)), IH. reflexivity. }
  split.
  - assert (X := upper_call h c s). rewrite U in X. exact X.
  - assert (X := lower_call h c s). rewrite L in X. exact X.
Qed.
(* Greek: sigma is final at the end of a word only; sharp s becomes two letters. *)
Example C83_example :
  to_lower [931; 927; 934; 927; 931; 32; 931; 913; 931]%N = [963; 959; 966; 959; 962; 32; 963; 945; 962]%N /\
  to_upper [115; 116; 114; 97; 223; 101]%N = lit "STRASSE" /\
  Forall2 case_pair [228; 945; 1103; 65345]%N [196; 913; 1071; 65313]%N /\
  Forall caseless [48; 1488; 12354; 44032]%N /\ 
  fn_value [] [] (lit "fn:lower-case") [[XIString [931; 927; 931]%N]] (Ok [XIString [963; 959; 962]%N]).
Proof.
  split; [vm_compute; reflexivity|]. split; [vm_compute; reflexivity|]. split; [|split].
  - constructor; [apply (cp_latin1 228); lia|]. constructor; [apply (cp_greek 945); lia|]. constructor; [apply (cp_cyrillic 1103); lia|].
    constructor; [apply (cp_wide 65345); lia|constructor].
  - repeat (constructor; [unfold caseless; lia|]). constructor.
  - apply (lower_call [] [] [931; 927; 931]%N).
Qed.
(* lang() lowers xml:lang but not its argument: a language named with a capital letter never matches. *)
Theorem C48_lang_case_refuted : forall h i t b, session h -> attached h 0 i -> n_type (Dom.get h i) <> Attribute ->
  (exists c, In c t /\ (65 <= c <= 90)%N) ->
  fn_value h [XINode i] (lit "fn:lang") [[XIString t]] (Ok [XIBoolean b]) -> b = false.
Proof.
  intros h i t b S A Ty [c [C L]] V. destruct (session_node_order h S) as [order O].
  destruct (C16_axes_partial h i order S A Ty O) as [_ [[l [E [M SS]]] _]].
  assert (W : fn_value h [XINode i] (lit "fn:lang") [[XIString t]]
    (Ok [XIBoolean (str_eqb (match split_once (lit "-") (first_lang h l) with Some (x, _) => x | None => first_lang h l end) t)])).
  { apply fn_value_fn; [|discriminate]. intros callf e.
    unfold evaluate_function. change (find_function (lit "fn:lang") (List.length [[XIString t]])) with (Some C_lang_1).
    cbn iota beta. f_equal. cbn [call_fn arg nth_error]. unfold fn_lang. cbn [get_singleton_string get_singleton_node bind].
    rewrite E. reflexivity. }
  assert (F := fn_value_unique _ _ _ _ _ _ V W). inversion F as [F']. apply not_true_iff_false. intros X. apply str_eqb_eq in X. clear F F' V W.
  assert (K : forall l x, In x (first_lang h l) -> ~ (65 <= x <= 90)%N).
  { clear. induction l as [|k l IH]; intros x X; [destruct X|]. cbn [first_lang] in X. destruct (attribute_value h k (lit "xml:lang")) as [v|]; [|apply (IH x); auto].
    intros R. assert (Fx := lower_from_fixed v []). fold (to_lower v) in Fx.
    assert (Q : lower_char x = [(x + 32)%N]).
    { replace x with (x + 32 - 32)%N at 1 by lia. apply case_pair_ok. constructor. lia. }
    clear IH. assert (G : forall s, flat_map lower_char s = s -> ~ In x s).
    { clear - Q. intros s. assert (P : forall c, (1 <= List.length (lower_char c))%nat) by (intro c; destruct (lower_char_len c); auto).
      assert (LL : forall s, (List.length s <= List.length (flat_map lower_char s))%nat).
      { induction s0 as [|d s0 IH]; cbn [flat_map List.length]; [lia|]. rewrite app_length. specialize (P d). lia. }
      induction s as [|d s IH]; intros Fx X'; [destruct X'|]. destruct X' as [->|I]; cbn [flat_map] in Fx.
      - rewrite Q in Fx. inversion Fx. lia.
      - assert (Y : flat_map lower_char s = s); [|exact (IH Y I)].
        assert (List.length (lower_char d ++ flat_map lower_char s) = S (List.length s)) by (rewrite Fx; reflexivity). rewrite app_length in H.
        specialize (P d). specialize (LL s). destruct (lower_char d) as [|y [|z w]] eqn:D; cbn [List.length] in *; try lia.
        cbn [app] in Fx. inversion Fx. congruence. }
    exact (G _ Fx X). }
  assert (K2 : In c (first_lang h l)).
  { change [45%N] with (lit "-") in X. destruct (split_once (lit "-") (first_lang h l)) as [[x y]|] eqn:Sp; [|rewrite X; auto].
    apply split_once_some in Sp. rewrite Sp. subst t. apply in_or_app; auto. }
  exact (K l c K2 L).
Qed.
Example C48_lang_case_example : exists h b,
  new_document (lit "<a xml:lang='EN'><b/></a>") = Ok h /\ eval_xpath 20 h 0 (lit "/a/b") = Ok [XINode b] /\
  eval_xpath 20 h b (lit "lang('EN'), lang('en')") = Ok [XIBoolean false; XIBoolean true].
Proof.
  eexists. eexists. split; [vm_compute; reflexivity|]. split; [vm_compute; reflexivity|vm_compute; reflexivity].
Qed.

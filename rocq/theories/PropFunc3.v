(* C70-C72: the context item as an argument, properties of nodes, comparison and case of strings;
   more of C30, C36 and C48. *)
Require Import Bool List NArith ZArith Ascii String Lia Sorted.
From Verif Require Import Str StrFacts CaseTable Case SpecCase CaseFacts Chars Sax Dom SpecEdit SpecAxes Axes Lexer FuncTable Parser Num Item Func Types Eval
  EvalFacts SpecText SpecOper ItemFacts SpecFunc FuncFacts PropOper PropAxes PropFunc PropFunc2 SpecNs EditFacts ReachFacts
  SessionFacts SpecTree DocFacts PropDom SpecLib.
Import ListNotations.
Open Scope Z_scope.

(* ------------------------------------------------------------------ C70 *)
(* the functions whose only argument may be left out *)
Definition context_functions : list str :=
  [lit "fn:nilled"; lit "fn:string"; lit "fn:data"; lit "fn:number"; lit "fn:string-length"; lit "fn:normalize-space";
   lit "fn:name"; lit "fn:local-name"; lit "fn:namespace-uri"; lit "fn:root"].
Lemma fn_value_inv h c name vs o o' : (forall callf e, evaluate_function h callf name vs c e = pure e o') ->
  fn_value h c name vs o -> o = o'.
Proof.
  intros P V.
  assert (F : o' <> Fuel).
  { intro X. subst o'. destruct V as [V [m M]]. assert (M' : eval h (S (S m)) c (XNode X_FunctionCall name XNil
      (var_args 0 (List.length vs))) (mkEnv 0 0 (bindings 0 vs)) = do v <- o; Ok (v, mkEnv 0 0 (bindings 0 vs)))
      by (eapply eval_fuel; eauto). rewrite eval_S in M'. unfold eval_step in M'. cbn [x_type x_name x_right] in M'.
    rewrite (eval_var_args h (S m) c vs vs) in M' by (try lia; intro j; f_equal; lia).
    cbn [bind] in M'. rewrite P in M'. cbn [pure bind] in M'. symmetry in M'. contradiction. }
  eapply fn_value_unique; [exact V|apply fn_value_fn; assumption].
Qed.
Lemma fn_value_nofuel h c name vs o : fn_value h c name vs o -> o <> Fuel.
Proof. intros [V _] ->. apply V. reflexivity. Qed.
Lemma same_function h c c' name vs vs' o1 : (forall callf e, evaluate_function h callf name vs c e = pure e o1) ->
  (forall callf e, evaluate_function h callf name vs' c' e = pure e o1) -> forall o, fn_value h c name vs o <-> fn_value h c' name vs' o.
Proof.
  intros A B o. split; intro V; assert (N := fn_value_nofuel _ _ _ _ _ V).
  - rewrite (fn_value_inv _ _ _ _ _ _ A V) in *. apply fn_value_fn; assumption.
  - rewrite (fn_value_inv _ _ _ _ _ _ B V) in *. apply fn_value_fn; assumption.
Qed.
Lemma evaluate_found h name vs c f : find_function name (List.length vs) = Some f -> forall callf e,
  evaluate_function h callf name vs c e =
  match f with
  | C_nilled_0 => pure e (call_fn h F_nilled [c])
  | C_string_0 => pure e (call_fn h F_string [c])
  | C_data_0 => pure e (call_fn h F_data [c])
  | C_number_0 => pure e (call_fn h F_number [c])
  | C_string_length_0 => pure e (call_fn h F_string_length [c])
  | C_normalize_space_0 => pure e (call_fn h F_normalize_space [c])
  | C_name_0 => pure e (call_fn h F_name [c])
  | C_local_name_0 => pure e (call_fn h F_local_name [c])
  | C_namespace_uri_0 => pure e (call_fn h F_namespace_uri [c])
  | C_root_0 => pure e (call_fn h F_root [c])
  | C_lang_1 | C_position | C_last | C_for_each | C_filter => evaluate_function h callf name vs c e
  | _ => pure e (call_fn h f vs)
  end.
Proof. intros F callf e. unfold evaluate_function. rewrite F. destruct f; reflexivity. Qed.
Ltac same_fn := eapply same_function; intros callf e;
  [erewrite evaluate_found by (vm_compute; reflexivity); cbv iota beta; reflexivity
  |erewrite evaluate_found by (vm_compute; reflexivity); cbv iota beta; reflexivity].
(* f() means f(.) *)
Theorem C70_context : forall h c name o, In name context_functions -> (fn_value h c name [] o <-> fn_value h c name [c] o).
Proof.
  intros h c name o I. cbn [context_functions In] in I.
  repeat (destruct I as [<-|I]; [same_fn|]). destruct I.
Qed.
(* lang(t) means lang(t, .) *)
Theorem C70_lang : forall h c t o, fn_value h c (lit "fn:lang") [t] o <-> fn_value h c (lit "fn:lang") [t; c] o.
Proof.
  intros h c t o. eapply same_function; intros callf e.
  - unfold evaluate_function. change (find_function (lit "fn:lang") (List.length [t])) with (Some C_lang_1). cbv iota beta. reflexivity.
  - erewrite evaluate_found by (vm_compute; reflexivity). cbv iota beta. reflexivity.
Qed.
(* but where XPath takes string(.) for the argument of string-length() and normalize-space(), a node is a type error *)
Theorem C70_string_length_refuted : forall h i,
  fn_value h [XINode i] (lit "fn:string-length") [] (Err TypeError) /\ fn_value h [XINode i] (lit "fn:normalize-space") [] (Err TypeError).
Proof. intros h i. split; (apply fn_value_fn; [intros; erewrite evaluate_found by (vm_compute; reflexivity); cbv iota beta; reflexivity|discriminate]). Qed.
Example C70_example : exists h, new_document (lit "<a><b xsi:nil='true'>7</b></a>") = Ok h /\
  eval_xpath 30 h 0 (lit "/a/b/nilled(), /a/b/number(), /a/b/name(), /a/b/string()")
  = Ok [XIBoolean true; XIDouble (f_of_Z 7); XIString (lit "b"); XIString (lit "7")].
Proof. eexists. split; [vm_compute; reflexivity|vm_compute; reflexivity]. Qed.

(* ------------------------------------------------------------------ C71 *)
Theorem C71_name : forall h c i, fn_value h c (lit "fn:name") [[XINode i]] (Ok [XIString (n_name (Dom.get h i))]).
Proof. intros. fnv. reflexivity. Qed.
Theorem C71_local_name : forall h c i,
  (forall p l, ~ In 58%N p -> n_name (Dom.get h i) = p ++ lit ":" ++ l -> fn_value h c (lit "fn:local-name") [[XINode i]] (Ok [XIString l])) /\
  (~ In 58%N (n_name (Dom.get h i)) -> fn_value h c (lit "fn:local-name") [[XINode i]] (Ok [XIString (n_name (Dom.get h i))])).
Proof.
  intros h c i. destruct (C47_prefix_and_local_name h i) as [A B]. split.
  - intros p l N E. destruct (A p l N E) as [_ L]. fnv. unfold fn_local_name, fn_of_node. cbn [get_singleton_node bind]. rewrite L. reflexivity.
  - intro N. destruct (B N) as [_ L]. fnv. unfold fn_local_name, fn_of_node. cbn [get_singleton_node bind]. rewrite L. reflexivity.
Qed.
(* the namespace URI: the value of the nearest declaration of the prefix, the empty string if there is none *)
Theorem C71_namespace_uri : forall h c i name, reachable h -> (i < List.length h)%nat ->
  declaration_name (n_name (Dom.get h i)) name ->
  exists l, ancestry h i l /\
    ((exists l1 e l2 v, l = l1 ++ e :: l2 /\ declares h name e v /\ (forall x w, In x l1 -> ~ declares h name x w) /\
        fn_value h c (lit "fn:namespace-uri") [[XINode i]] (Ok [XIString v])) \/
     ((forall x w, In x l -> ~ declares h name x w) /\ fn_value h c (lit "fn:namespace-uri") [[XINode i]] (Ok [XIString []]))).
Proof.
  intros h c i name R L D. destruct (C47_namespace_uri h i name R L D) as (l & A & H). exists l. split; auto.
  destruct H as [(l1 & e & l2 & v & E & De & N & U)|[N U]]; [left; exists l1, e, l2, v|right]; (repeat (split; [assumption|]));
    fnv; unfold fn_namespace_uri, fn_of_node; cbn [get_singleton_node bind]; rewrite U; reflexivity.
Qed.
Theorem C71_root : forall h c i, session h -> attached h 0 i -> fn_value h c (lit "fn:root") [[XINode i]] (Ok [XINode 0]).
Proof.
  intros h c i S A. destruct (session_document h S) as [t [D [T0 _]]]. fnv. unfold fn_root. cbn [get_singleton_node].
  rewrite (root_document h t i D), T0; [reflexivity|]. rewrite <- T0 in A. destruct (attached_context h t i D A) as [fs [s [E <-]]].
  rewrite E. apply fill_ids_in. destruct s; left; reflexivity.
Qed.
Theorem C71_nilled : forall h c i,
  (n_type (Dom.get h i) = Element -> exists b, fn_value h c (lit "fn:nilled") [[XINode i]] (Ok [XIBoolean b]) /\
     (b = true <-> attribute_value h i (lit "xsi:nil") = Some (lit "true"))) /\
  (n_type (Dom.get h i) <> Element -> fn_value h c (lit "fn:nilled") [[XINode i]] (Ok [])).
Proof.
  intros h c i. split.
  - intro E. exists (match attribute_value h i (lit "xsi:nil") with Some v => str_eqb v (lit "true") | None => false end). split.
    + fnv. unfold fn_nilled. cbn [get_singleton_node]. rewrite E. destruct (attribute_value h i (lit "xsi:nil")); reflexivity.
    + destruct (attribute_value h i (lit "xsi:nil")) as [v|]; [|split; discriminate]. rewrite str_eqb_eq. split; [intros ->; reflexivity|intro Q; inversion Q; reflexivity].
  - intro E. fnv. unfold fn_nilled. cbn [get_singleton_node]. destruct (n_type (Dom.get h i)); try reflexivity. congruence.
Qed.
(* of nothing, and of what is no node *)
Theorem C71_nothing : forall h c,
  fn_value h c (lit "fn:name") [[]] (Ok [XIString []]) /\ fn_value h c (lit "fn:local-name") [[]] (Ok [XIString []]) /\
  fn_value h c (lit "fn:namespace-uri") [[]] (Ok [XIString []]) /\ fn_value h c (lit "fn:root") [[]] (Ok []) /\
  fn_value h c (lit "fn:nilled") [[]] (Ok []).
Proof. intros h c. split; [fnv; reflexivity|]. split; [fnv; reflexivity|]. split; [fnv; reflexivity|]. split; fnv; reflexivity. Qed.
Theorem C71_no_node : forall h c s, s <> [] -> (forall i, s <> [XINode i]) ->
  (forall name, In name [lit "fn:name"; lit "fn:local-name"; lit "fn:namespace-uri"; lit "fn:root"] -> fn_value h c name [s] (Err DynamicError)) /\
  fn_value h c (lit "fn:nilled") [s] (Err TypeError).
Proof.
  intros h c s N M. assert (G : get_singleton_node s = Err TypeError).
  { destruct s as [|it [|it2 s]]; [congruence| |destruct it; reflexivity]. destruct it; try reflexivity. destruct (M i eq_refl). }
  split.
  - intros name I. cbn [In] in I. repeat (destruct I as [<-|I]; [fnv; destruct s; [congruence|];
      unfold fn_name, fn_local_name, fn_namespace_uri, fn_of_node, fn_root; rewrite G; reflexivity|]). destruct I.
  - fnv. destruct s; [congruence|]. unfold fn_nilled. rewrite G. reflexivity.
Qed.
(* data() turns nodes into strings and keeps everything else *)
Theorem C71_data : forall h c s, exists r, fn_value h c (lit "fn:data") [s] (Ok r) /\
  Forall2 (fun it v => match it with XINode i => exists t, v = XIString t | _ => v = it end) s r.
Proof.
  intros h c s. eexists. split; [fnv; reflexivity|]. unfold atomize. induction s as [|it s IH]; constructor; auto.
  destruct it; cbn [atomize1]; eauto.
Qed.
Example C71_example : exists h b, new_document (lit "<a xmlns:p='u'><p:b p:c='1'/></a>") = Ok h /\
  eval_xpath 30 h 0 (lit "/a/*") = Ok [XINode b] /\ declaration_name (n_name (Dom.get h b)) (lit "xmlns:p") /\
  eval_xpath 30 h b (lit "name(.), local-name(.), namespace-uri(.), name(root(.)), name(@*)")
  = Ok [XIString (lit "p:b"); XIString (lit "b"); XIString (lit "u"); XIString []; XIString (lit "p:c")].
Proof.
  eexists. eexists. split; [vm_compute; reflexivity|]. split; [vm_compute; reflexivity|]. split; [|vm_compute; reflexivity].
  apply (dn_prefix (lit "p") (lit "b")); [discriminate|]. intros [H|[]]. discriminate H.
Qed.

(* ------------------------------------------------------------------ C72 *)
(* compare() *)
Theorem C72_compare : forall h c a b, exists z, fn_value h c (lit "fn:compare") [[XIString a]; [XIString b]] (Ok [XIInteger z]) /\
  ((z = -1 /\ lex_lt a b) \/ (z = 0 /\ a = b) \/ (z = 1 /\ lex_lt b a)).
Proof. intros h c a b. exists (str_cmp a b). split; [fnv; reflexivity|apply str_cmp_spec]. Qed.
Theorem C72_compare_empty : forall h c s, fn_value h c (lit "fn:compare") [[]; s] (Ok []) /\ fn_value h c (lit "fn:compare") [s; []] (Ok []).
Proof. intros h c s. split; [fnv; reflexivity|]. fnv. destruct s; reflexivity. Qed.
(* upper-case() and lower-case() of ASCII text *)
Lemma upper_ascii_of c : (c < 128)%N -> exists d, upper_char c = [d] /\ upper_of c d.
Proof.
  intros C. assert (S : small_letter c \/ ~ small_letter c) by (unfold small_letter; lia). destruct S as [S|S].
  - exists (c - 32)%N. split; [|constructor; auto]. apply case_pair_ok. constructor. exact S.
  - exists c. split; [|constructor; auto]. unfold small_letter in S. destruct (N.ltb_spec c 97).
    + apply (untouched_same 0 96 upper_ranges upper_multi); [vm_compute; reflexivity|lia].
    + apply (untouched_same 123 127 upper_ranges upper_multi); [vm_compute; reflexivity|lia].
Qed.
Lemma lower_ascii_of c : (c < 128)%N -> exists d, lower_char c = [d] /\ lower_of c d.
Proof.
  intros C. assert (S : capital_letter c \/ ~ capital_letter c) by (unfold capital_letter; lia). destruct S as [S|S].
  - exists (c + 32)%N. split; [|constructor; auto]. unfold capital_letter in S. replace c with (c + 32 - 32)%N at 1 by lia. apply case_pair_ok. constructor. lia.
  - exists c. split; [|constructor; auto]. unfold capital_letter in S. destruct (N.ltb_spec c 65).
    + apply (untouched_same 0 64 lower_ranges lower_multi); [vm_compute; reflexivity|lia].
    + apply (untouched_same 91 127 lower_ranges lower_multi); [vm_compute; reflexivity|lia].
Qed.
Theorem C72_case : forall h c s, Forall (fun c => (c < 128)%N) s ->
  (exists r, fn_value h c (lit "fn:upper-case") [[XIString s]] (Ok [XIString r]) /\ Forall2 upper_of s r) /\
  (exists r, fn_value h c (lit "fn:lower-case") [[XIString s]] (Ok [XIString r]) /\ Forall2 lower_of s r).
Proof.
  intros h c s A. split.
  - exists (to_upper s). split; [fnv; reflexivity|]. induction A as [|d s D A IH]; [constructor|]. destruct (upper_ascii_of d D) as [e [E U]].
    change (to_upper (d :: s)) with (upper_char d ++ to_upper s). rewrite E. constructor; auto.
  - exists (to_lower s). split; [fnv; reflexivity|]. unfold to_lower. rewrite lower_from_plain.
    + induction A as [|d s D A IH]; [constructor|]. destruct (lower_ascii_of d D) as [e [E U]]. cbn [flat_map]. rewrite E. constructor; auto.
    + intros I. rewrite Forall_forall in A. specialize (A _ I). lia.
Qed.
Theorem C72_case_empty : forall h c, fn_value h c (lit "fn:upper-case") [[]] (Ok [XIString []]) /\ fn_value h c (lit "fn:lower-case") [[]] (Ok [XIString []]).
Proof. intros h c. split; fnv; reflexivity. Qed.
Example C72_example : eval_xpath 20 [] 0 (lit "upper-case('az{`@[AZ'), lower-case('az{`@[AZ'), compare('ab', 'b')")
  = Ok [XIString (lit "AZ{`@[AZ"); XIString (lit "az{`@[az"); XIInteger (-1)].
Proof. vm_compute. reflexivity. Qed.

(* ------------------------------------------------------------------ C30, continued *)
(* What translate() does with repeated characters in its second argument: the last occurrence counts. *)
Definition last_at (c : char) (l : str) (i : nat) : Prop :=
  nth_error l i = Some c /\ forall j, (i < j)%nat -> nth_error l j <> Some c.
Inductive translates_by_last (from to : str) : str -> str -> Prop :=
| tl_nil : translates_by_last from to [] []
| tl_map : forall c s r i d, last_at c from i -> nth_error to i = Some d -> translates_by_last from to s r ->
    translates_by_last from to (c :: s) (d :: r)
| tl_del : forall c s r i, last_at c from i -> nth_error to i = None -> translates_by_last from to s r ->
    translates_by_last from to (c :: s) r
| tl_keep : forall c s r, ~ In c from -> translates_by_last from to s r -> translates_by_last from to (c :: s) (c :: r).
Lemma last_index_last : forall c from k, last_index c from 0 None = Some k -> last_at c from k.
Proof.
  intros c from. induction from as [|d from IH]; intros k H; cbn [last_index] in H; [discriminate|].
  rewrite last_index_spec in H. destruct (last_index c from 0 None) as [j|] eqn:L.
  - inversion H; subst. destruct (IH j eq_refl) as [A B]. split; [exact A|]. intros [|i] I; [lia|]. cbn. apply B. lia.
  - apply last_index_none in L. destruct (N.eqb_spec c d) as [->|]; inversion H; subst. split; [reflexivity|].
    intros [|i] I; [lia|]. cbn. intro Q. apply L. eapply nth_error_In; eauto.
Qed.
Theorem C30_translate_last : forall h c s from to, exists r,
  fn_value h c (lit "fn:translate") [[XIString s]; [XIString from]; [XIString to]] (Ok [XIString r]) /\ translates_by_last from to s r.
Proof.
  intros h c s from to. eexists. split.
  - fnv. unfold fn_translate. cbn [get_singleton_string bind]. reflexivity.
  - induction s as [|x s IH]; [constructor|]. cbn [flat_map]. unfold translate_char at 1.
    destruct (last_index x from 0 None) as [k|] eqn:E.
    + apply last_index_last in E. destruct (nth_error to k) as [d|] eqn:T; cbn [app]; [eapply tl_map; eauto|eapply tl_del; eauto].
    + cbn [app]. apply tl_keep; auto. apply last_index_none; auto.
Qed.
(* ------------------------------------------------------------------ C36, continued *)
Theorem C36_size : forall h c a, fn_value h c (lit "array:size") [[XIArray a]] (Ok [XIInteger (Z.of_nat (List.length a))]).
Proof. intros. fnv. reflexivity. Qed.
(* ------------------------------------------------------------------ C48, continued *)
(* What lang() does with several xml:lang: the first in document order, i.e. the outermost, counts. *)
Lemma first_lang_sorted : forall h order l j v, NoDup order -> StronglySorted (before order) l -> In j l -> attribute_value h j (lit "xml:lang") = Some v ->
  (forall k, In k l -> has_lang h k -> k = j \/ before order j k) -> first_lang h l = to_lower v.
Proof.
  intros h order l j v ND SS. induction SS as [|i l SS IH F]; intros I A U; [destruct I|]. cbn [first_lang].
  destruct (attribute_value h i (lit "xml:lang")) as [w|] eqn:E.
  - destruct (U i (or_introl eq_refl)) as [->|B]; [exists w; auto|congruence|]. exfalso.
    destruct I as [->|I]; [destruct (before_NoDup order j j ND B); congruence|]. rewrite Forall_forall in F. destruct (before_NoDup order i j ND (F j I)) as [_ Q]; exact (Q B).
  - destruct I as [->|I]; [congruence|]. apply IH; auto. intros k K. apply U. right; auto.
Qed.
Theorem C48_lang_outermost : forall h i order j v t, session h -> attached h 0 i -> n_type (Dom.get h i) <> Attribute ->
  node_order h 0 order ->
  (j = i \/ ancestor h j i) -> attribute_value h j (lit "xml:lang") = Some v ->
  (forall k, (k = i \/ ancestor h k i) -> has_lang h k -> k = j \/ before order j k) ->
  ~ In 45%N t ->
  exists b w, lower_text [] v w /\ fn_value h [XINode i] (lit "fn:lang") [[XIString t]] (Ok [XIBoolean b]) /\
            (b = true <-> primary w t).
Proof.
  intros h i order j v t S A Ty O J B U T.
  assert (ND : NoDup order).
  { destruct (session_document h S) as [d [D [T0 _]]]. rewrite <- T0 in O.
    rewrite (AxesFacts.node_order_fun h _ _ O _ (AxesFacts.node_order_rep d h None (proj1 D))). apply AxesFacts.NoDup_node_ids, D. }
  destruct (C16_axes_partial h i order S A Ty O) as [_ [[l [E [M SS]]] _]].
  assert (F : first_lang h l = to_lower v).
  { eapply first_lang_sorted; eauto; [apply M; auto|]. intros k K. apply U. apply M; auto. }
  eexists. exists (to_lower v). split; [apply to_lower_iff; auto|]. split.
  - apply fn_value_fn; [|discriminate]. intros callf e.
    unfold evaluate_function. change (find_function (lit "fn:lang") (List.length [[XIString t]])) with (Some C_lang_1).
    cbn iota beta. f_equal. cbn [call_fn arg nth_error]. unfold fn_lang. cbn [get_singleton_string get_singleton_node bind].
    rewrite E. cbn [bind]. rewrite F. reflexivity.
  - apply primary_split; auto.
Qed.
Theorem C48_lang_none : forall h i t, session h -> attached h 0 i -> n_type (Dom.get h i) <> Attribute ->
  (forall k, (k = i \/ ancestor h k i) -> ~ has_lang h k) -> t <> [] ->
  fn_value h [XINode i] (lit "fn:lang") [[XIString t]] (Ok [XIBoolean false]).
Proof.
  intros h i t S A Ty U T. destruct (session_node_order h S) as [order O].
  destruct (C16_axes_partial h i order S A Ty O) as [_ [[l [E [M SS]]] _]].
  assert (F : first_lang h l = []).
  { assert (K : forall k, In k l -> ~ has_lang h k) by (intros k K; apply U; apply M; auto). clear - K.
    induction l as [|k l IH]; auto. cbn [first_lang]. destruct (attribute_value h k (lit "xml:lang")) as [w|] eqn:W.
    - destruct (K k (or_introl eq_refl)). exists w. auto.
    - apply IH. intros x X. apply K. right; auto. }
  apply fn_value_fn; [|discriminate]. intros callf e.
  unfold evaluate_function. change (find_function (lit "fn:lang") (List.length [[XIString t]])) with (Some C_lang_1).
  cbn iota beta. f_equal. cbn [call_fn arg nth_error]. unfold fn_lang. cbn [get_singleton_string get_singleton_node bind].
  rewrite E. cbn [bind]. rewrite F. destruct t; [congruence|reflexivity].
Qed.

(* C28-C36, C48, C53: the function library. *)
Require Import Bool List NArith ZArith Ascii String Lia Sorted Permutation.
From Verif Require Import Str StrFacts Chars Sax Dom Axes Lexer FuncTable Parser Num Item Func Types Eval EvalFacts
  SpecText SpecOper ItemFacts SpecFunc FuncFacts.
Import ListNotations.
Open Scope Z_scope.

(* ------------------------------------------------------------------ C29 *)
Lemma opt_string_arg : forall v s, string_arg v s -> opt_string v = Ok s.
Proof. intros v s [->|[-> ->]]; reflexivity. Qed.
Theorem C29_contains : forall h c l r s t, string_arg l s -> string_arg r t ->
  exists b, fn_value h c (lit "fn:contains") [l; r] (Ok [XIBoolean b]) /\
            (b = true <-> exists u v, s = u ++ t ++ v).
Proof.
  intros h c l r s t L R. exists (str_contains s t). split.
  - fnv. unfold fn_contains. rewrite (opt_string_arg _ _ L), (opt_string_arg _ _ R). reflexivity.
  - unfold str_contains. destruct (split_once t s) as [[u v]|] eqn:E.
    + apply split_once_some in E. split; eauto.
    + split; [discriminate|]. intros [u [v X]]. exfalso. exact (proj1 (split_once_none t s) E u v X).
Qed.
Theorem C29_starts_with : forall h c l r s t, string_arg l s -> string_arg r t ->
  exists b, fn_value h c (lit "fn:starts-with") [l; r] (Ok [XIBoolean b]) /\ (b = true <-> exists v, s = t ++ v).
Proof.
  intros h c l r s t L R. exists (starts_with s t). split.
  - fnv. unfold fn_starts_with. rewrite (opt_string_arg _ _ L), (opt_string_arg _ _ R). reflexivity.
  - apply starts_with_true.
Qed.
Theorem C29_ends_with : forall h c l r s t, string_arg l s -> string_arg r t ->
  exists b, fn_value h c (lit "fn:ends-with") [l; r] (Ok [XIBoolean b]) /\ (b = true <-> exists u, s = u ++ t).
Proof.
  intros h c l r s t L R. exists (starts_with (rev s) (rev t)). split.
  - fnv. unfold fn_ends_with. rewrite (opt_string_arg _ _ L), (opt_string_arg _ _ R). reflexivity.
  - rewrite starts_with_true. split; intros [u U].
    + exists (rev u). rewrite <- (rev_involutive s), U, rev_app_distr, rev_involutive. reflexivity.
    + exists (rev u). subst s. rewrite rev_app_distr. reflexivity.
Qed.
Theorem C29_substring_before_after : forall h c l r s t, string_arg l s -> string_arg r t ->
  exists u v, fn_value h c (lit "fn:substring-before") [l; r] (Ok [XIString u]) /\
              fn_value h c (lit "fn:substring-after") [l; r] (Ok [XIString v]) /\
              ((s = u ++ t ++ v /\ forall u' v', s = u' ++ t ++ v' -> (List.length u <= List.length u')%nat) \/
               ((forall u' v', s <> u' ++ t ++ v') /\ u = [] /\ v = [])).
Proof.
  intros h c l r s t L R.
  exists (match split_once t s with Some (x, _) => x | None => [] end),
         (match split_once t s with Some (_, y) => y | None => [] end).
  split; [|split].
  - fnv. unfold fn_substring_before. rewrite (opt_string_arg _ _ L), (opt_string_arg _ _ R). reflexivity.
  - fnv. unfold fn_substring_after. rewrite (opt_string_arg _ _ L), (opt_string_arg _ _ R). reflexivity.
  - destruct (split_once t s) as [[u v]|] eqn:E.
    + left. split; [apply split_once_some; auto|]. exact (split_once_first t s u v E).
    + right. split; auto. apply split_once_none; auto.
Qed.
Example C29_examples :
  eval_xpath 20 [] 0 (lit "substring-before('a-b-c', '-'), substring-after('a-b-c', '-'), contains('abc', 'd')")
  = Ok [XIString (lit "a"); XIString (lit "b-c"); XIBoolean false].
Proof. vm_compute. reflexivity. Qed.

(* ------------------------------------------------------------------ C30 *)
Lemma last_index_spec : forall c from i found,
  last_index c from i found = match last_index c from 0 None with
                              | Some k => Some (i + k)%nat
                              | None => found
                              end.
Proof.
  intros c from. induction from as [|d from IH]; intros i found; [reflexivity|]. cbn [last_index].
  rewrite (IH (S i)), (IH 1%nat). destruct (last_index c from 0 None); [f_equal; lia|].
  destruct (c =? d)%N; [f_equal; lia|reflexivity].
Qed.
Lemma last_index_none : forall c from, last_index c from 0 None = None <-> ~ In c from.
Proof.
  intros c from. induction from as [|d from IH]; cbn [last_index]; [split; [intros _ []|auto]|].
  rewrite last_index_spec. destruct (last_index c from 0 None) as [k|].
  - split; [discriminate|]. intro N. exfalso. assert (~ In c from) by (intro; apply N; right; auto).
    apply IH in H. discriminate.
  - assert (~ In c from) by (apply IH; auto). destruct (N.eqb_spec c d) as [->|E].
    + split; [discriminate|]. intro N. exfalso. apply N. left; auto.
    + split; [|auto]. intros _ [X|X]; congruence.
Qed.
Lemma last_index_some : forall c from k, last_index c from 0 None = Some k -> nth_error from k = Some c.
Proof.
  intros c from. induction from as [|d from IH]; intros k H; cbn [last_index] in H; [discriminate|].
  rewrite last_index_spec in H. destruct (last_index c from 0 None) as [j|].
  - inversion H; subst. cbn. apply IH. reflexivity.
  - destruct (N.eqb_spec c d) as [->|]; inversion H; subst. reflexivity.
Qed.
Lemma nodup_first : forall c from k, NoDup from -> nth_error from k = Some c -> first_at c from k.
Proof.
  intros c from k D H. split; auto. intros j L E.
  assert (j = k); [|lia]. apply (proj1 (NoDup_nth_error from) D); [|congruence].
  apply nth_error_Some. congruence.
Qed.
Lemma translate_spec : forall from to s, NoDup from -> translates from to s (flat_map (translate_char from to) s).
Proof.
  intros from to s D. induction s as [|c s IH]; [constructor|]. cbn [flat_map]. unfold translate_char at 1.
  destruct (last_index c from 0 None) as [k|] eqn:E.
  - apply last_index_some in E. apply nodup_first in E; auto. destruct (nth_error to k) as [d|] eqn:T; cbn [app].
    + eapply tr_map; eauto.
    + eapply tr_del; eauto.
  - cbn [app]. apply tr_keep; auto. apply last_index_none; auto.
Qed.
(* the relation determines the result *)
Theorem translates_unique : forall from to s r r', translates from to s r -> translates from to s r' -> r = r'.
Proof.
  assert (U : forall c l i j, first_at c l i -> first_at c l j -> i = j).
  { intros c l i j [A B] [A' B']. destruct (Nat.lt_trichotomy i j) as [L|[L|L]]; auto.
    - exfalso. exact (B' _ L A).
    - exfalso. exact (B _ L A'). }
  intros from to s r r' H. revert r'. induction H as [|c s r i d F T H IH|c s r i F T H IH|c s r N H IH];
    intros r' H'; inversion H' as [|c2 s2 r2 i2 d2 F2 T2 H2|c2 s2 r2 i2 F2 T2 H2|c2 s2 r2 N2 H2]; subst; auto;
    try (assert (i2 = i) by eauto; subst i2);
    try (exfalso; match goal with F : first_at c from ?k, N : ~ In c from |- _ =>
           apply N; destruct F as [F _]; apply nth_error_In in F; exact F end);
    try congruence; try (rewrite T in T2; inversion T2; subst); try f_equal; auto.
Qed.
Theorem C30_translate_partial : forall h c s from to, NoDup from ->
  exists r, fn_value h c (lit "fn:translate") [[XIString s]; [XIString from]; [XIString to]] (Ok [XIString r]) /\
            translates from to s r.
Proof.
  intros h c s from to D. eexists. split.
  - fnv. unfold fn_translate. cbn [get_singleton_string bind]. reflexivity.
  - apply translate_spec; auto.
Qed.
(* When a character occurs twice in the second argument, its last occurrence counts. *)
Theorem C30_translate_refuted :
  fn_value [] [] (lit "fn:translate") [[XIString (lit "a")]; [XIString (lit "aa")]; [XIString (lit "bc")]]
    (Ok [XIString (lit "c")]) /\
  translates (lit "aa") (lit "bc") (lit "a") (lit "b").
Proof.
  split; [fnv; reflexivity|]. eapply tr_map with (i := O); [split; [reflexivity|lia]|reflexivity|constructor].
Qed.
Example C30_example : eval_xpath 20 [] 0 (lit "translate('--aaa--', 'abc-', 'ABC')") = Ok [XIString (lit "AAA")].
Proof. vm_compute. reflexivity. Qed.

(* ------------------------------------------------------------------ C31 *)
Lemma blank_white : forall c, blank c -> is_white c = true.
Proof. intros c H. cbn in H. destruct H as [<-|[<-|[<-|[<-|[]]]]]; reflexivity. Qed.
Lemma split_white_blank : forall sp s, Forall blank sp -> split_white [] (sp ++ s) = split_white [] s.
Proof.
  induction sp as [|c sp IH]; intros s H; [reflexivity|]. inversion H; subst. cbn [app split_white].
  rewrite blank_white by auto. apply IH; auto.
Qed.
Lemma split_white_word : forall w acc rest, Forall (fun c => is_white c = false) w -> w <> [] \/ acc <> [] ->
  (rest = [] \/ exists c r, rest = c :: r /\ blank c) ->
  split_white acc (w ++ rest) = (rev acc ++ w) :: split_white [] rest.
Proof.
  induction w as [|c w IH]; intros acc rest W N R.
  - destruct N as [N|N]; [congruence|]. destruct acc as [|a acc]; [congruence|]. cbn [app].
    destruct R as [->|[c [r [-> B]]]].
    + cbn [split_white]. rewrite app_nil_r. reflexivity.
    + cbn [split_white]. rewrite (blank_white c B). rewrite app_nil_r. reflexivity.
  - inversion W; subst. cbn [app split_white]. rewrite H1. rewrite IH; auto.
    + cbn [rev]. rewrite <- app_assoc. reflexivity.
    + right. discriminate.
Qed.
(* all the white space of the text is XML white space *)
Definition xml_white_only (s : str) : Prop := Forall (fun c => is_white c = true -> blank c) s.
Lemma split_white_words : forall s ws, words s ws -> xml_white_only s -> split_white [] s = ws.
Proof.
  intros s ws H. induction H as [sp H|sp w rest ws H N W R H' IH]; intro X.
  - rewrite <- (app_nil_r sp), split_white_blank by auto. reflexivity.
  - rewrite split_white_blank by auto. unfold xml_white_only in X. rewrite !Forall_app in X. destruct X as [_ [XW XR]].
    rewrite split_white_word; auto.
    + cbn [rev app]. f_equal. auto.
    + rewrite Forall_forall in *. intros c C. destruct (is_white c) eqn:E; auto. exfalso. exact (W c C (XW c C E)).
Qed.
(* What normalize-space does: the words are joined without any space. *)
Theorem C31_normalize_space_words : forall h c s ws, words s ws -> xml_white_only s ->
  fn_value h c (lit "fn:normalize-space") [[XIString s]] (Ok [XIString (List.concat ws)]).
Proof.
  intros h c s ws H X. fnv. unfold fn_normalize_space. cbn [get_singleton_string bind].
  rewrite (split_white_words s ws H X). reflexivity.
Qed.
(* So the claim holds for at most one word, *)
Theorem C31_normalize_space_partial : forall h c s ws, words s ws -> xml_white_only s -> (List.length ws <= 1)%nat ->
  fn_value h c (lit "fn:normalize-space") [[XIString s]] (Ok [XIString (sep_by (lit " ") ws)]).
Proof.
  intros h c s ws H X L. assert (F := C31_normalize_space_words h c s ws H X).
  destruct ws as [|w [|w2 ws]]; cbn in L; [exact F| |lia]. cbn [List.concat sep_by] in *. rewrite app_nil_r in F. exact F.
Qed.
(* and is false of every text with two words or more. *)
Lemma sep_by_length : forall ws, (1 < List.length ws)%nat ->
  (List.length (List.concat ws) < List.length (sep_by (lit " ") ws))%nat.
Proof.
  induction ws as [|w [|w2 ws] IH]; intro H; cbn [List.length] in H; try lia.
  change (List.concat (w :: w2 :: ws)) with (w ++ List.concat (w2 :: ws)).
  change (sep_by (lit " ") (w :: w2 :: ws)) with (w ++ lit " " ++ sep_by (lit " ") (w2 :: ws)).
  rewrite !app_length. change (List.length (lit " ")) with 1%nat. destruct ws as [|w3 ws].
  - cbn [List.concat sep_by]. rewrite app_nil_r. lia.
  - specialize (IH ltac:(cbn; lia)). lia.
Qed.
Theorem C31_normalize_space_refuted : forall h c s ws, words s ws -> xml_white_only s -> (1 < List.length ws)%nat ->
  ~ fn_value h c (lit "fn:normalize-space") [[XIString s]] (Ok [XIString (sep_by (lit " ") ws)]).
Proof.
  intros h c s ws H X L V. assert (F := C31_normalize_space_words h c s ws H X).
  assert (D := fn_value_unique _ _ _ _ _ _ V F). assert (E : sep_by (lit " ") ws = List.concat ws) by congruence.
  apply sep_by_length in L. rewrite E in L. lia.
Qed.
Example C31_example : words (lit " a  b ") [lit "a"; lit "b"] /\
  eval_xpath 20 [] 0 (lit "normalize-space(' a  b ')") = Ok [XIString (lit "ab")].
Proof.
  split; [|vm_compute; reflexivity].
  assert (B : blank 32%N) by (cbn; tauto).
  assert (NB : forall c, (97 <= c)%N -> ~ blank c) by (intros c L H; cbn in H; lia).
  apply (words_cons [32%N] [97%N] [32; 32; 98; 32]%N); try (repeat constructor; auto; fail); try discriminate.
  - repeat constructor; apply NB; lia.
  - right. eauto.
  - apply (words_cons [32; 32]%N [98%N] [32%N]); try (repeat constructor; auto; fail); try discriminate.
    + repeat constructor; apply NB; lia.
    + right. eauto.
Qed.

(* ------------------------------------------------------------------ C32 *)
Theorem C32_reverse : forall h c l, exists r, fn_value h c (lit "fn:reverse") [l] (Ok r) /\
  fn_value h c (lit "fn:reverse") [r] (Ok l) /\ List.length r = List.length l /\
  forall k, (k < List.length l)%nat -> nth_error r k = nth_error l (List.length l - 1 - k).
Proof.
  intros h c l. exists (rev l). split; [|split; [|split]].
  - fnv. reflexivity.
  - fnv. unfold fn_reverse. rewrite rev_involutive. reflexivity.
  - apply rev_length.
  - intros k L. destruct l as [|d l0]; [cbn in L; lia|]. remember (d :: l0) as l eqn:El.
    assert (A : (k < List.length (rev l))%nat) by (rewrite rev_length; exact L).
    rewrite (nth_error_nth' (rev l) d A), (nth_error_nth' l d) by lia. rewrite rev_nth by exact L.
    do 2 f_equal. lia.
Qed.
(* the number of items before the insertion *)
Theorem C32_insert_before : forall h c s p t, is_i64 p -> p <> - 2 ^ 63 ->
  exists k, fn_value h c (lit "fn:insert-before") [s; [XIInteger p]; t] (Ok (firstn k s ++ t ++ skipn k s)) /\
            Z.of_nat k + 1 = Z.max 1 (Z.min p (zlen s + 1)).
Proof.
  intros h c s p t I N. assert (C : chk (p - 1) = Ok (p - 1)) by (apply chk_ok; unfold is_i64 in *; lia).
  eexists. split.
  - fnv. unfold fn_insert_before. cbn [get_singleton_integer bind]. rewrite C. cbn [bind]. cbv zeta. reflexivity.
  - unfold zlen in *. destruct (Z.leb_spec (p - 1) 0); destruct (Z.leb_spec (Z.of_nat (List.length s)) (if p - 1 <=? 0 then 0 else p - 1));
      destruct (Z.leb_spec (p - 1) 0); cbn; try lia; destruct (Z.leb_spec (Z.of_nat (List.length s)) 0);
      try destruct (Z.leb_spec (Z.of_nat (List.length s)) (p - 1)); lia.
Qed.
Theorem C32_insert_before_refuted : forall h c s t,
  fn_value h c (lit "fn:insert-before") [s; [XIInteger (- 2 ^ 63)]; t] Panic.
Proof. intros. fnv. reflexivity. Qed.
Lemma remove_loop_out : forall l n p, (p < Z.of_nat n + 1 \/ Z.of_nat n + zlen l < p) -> remove_loop n p l = l.
Proof.
  unfold zlen. induction l as [|it l IH]; intros n p H; [reflexivity|]. cbn [remove_loop]. cbn [List.length] in H.
  destruct (Z.eqb_spec (Z.of_nat (n + 1)) p); [lia|]. f_equal. apply IH. lia.
Qed.
Lemma remove_loop_in : forall l n k, (k < List.length l)%nat ->
  remove_loop n (Z.of_nat n + Z.of_nat k + 1) l = firstn k l ++ skipn (S k) l.
Proof.
  induction l as [|it l IH]; intros n k H; [cbn in H; lia|]. cbn [List.length] in H. cbn [remove_loop].
  destruct k as [|k].
  - cbn [firstn app skipn]. destruct (Z.eqb_spec (Z.of_nat (n + 1)) (Z.of_nat n + Z.of_nat 0 + 1)); [|lia].
    apply remove_loop_out. lia.
  - destruct (Z.eqb_spec (Z.of_nat (n + 1)) (Z.of_nat n + Z.of_nat (S k) + 1)); [lia|].
    cbn [firstn app]. f_equal. replace (Z.of_nat n + Z.of_nat (S k) + 1) with (Z.of_nat (S n) + Z.of_nat k + 1) by lia.
    rewrite IH by lia. reflexivity.
Qed.
Theorem C32_remove : forall h c s p, is_i64 p -> zlen s < 2 ^ 63 ->
  exists r, fn_value h c (lit "fn:remove") [s; [XIInteger p]] (Ok r) /\
    ((1 <= p <= zlen s /\ exists x, r = firstn (Z.to_nat (p - 1)) s ++ skipn (Z.to_nat p) s /\
                                    nth_error s (Z.to_nat (p - 1)) = Some x) \/
     (~ (1 <= p <= zlen s) /\ r = s)).
Proof.
  intros h c s p I L. exists (remove_loop 0 (p mod 2 ^ 64) s). split; [fnv; reflexivity|].
  unfold is_i64 in I. destruct (Z_le_gt_dec 1 p) as [P|P]; [destruct (Z_le_gt_dec p (zlen s)) as [Q|Q]|].
  - left. split; [lia|]. rewrite Z.mod_small by lia.
    assert (K : (Z.to_nat (p - 1) < List.length s)%nat) by (unfold zlen in *; lia).
    assert (R := remove_loop_in s 0 (Z.to_nat (p - 1)) K).
    replace (Z.of_nat 0 + Z.of_nat (Z.to_nat (p - 1)) + 1) with p in R by lia. rewrite R.
    destruct (nth_error s (Z.to_nat (p - 1))) as [x|] eqn:E.
    + exists x. split; [|reflexivity]. do 2 f_equal. lia.
    + apply nth_error_None in E. lia.
  - right. split; [lia|]. apply remove_loop_out. rewrite Z.mod_small by lia. lia.
  - right. split; [lia|]. apply remove_loop_out. unfold zlen in *.
    destruct (Z.eq_dec p 0) as [->|]; [left; reflexivity|]. right.
    replace (p mod 2 ^ 64) with (p + 2 ^ 64); [lia|].
    symmetry. rewrite <- (Z_mod_plus_full p 1). rewrite Z.mod_small; lia.
Qed.
Theorem C32_head_tail : forall h c s, exists a b, fn_value h c (lit "fn:head") [s] (Ok a) /\
  fn_value h c (lit "fn:tail") [s] (Ok b) /\ s = a ++ b /\ List.length a = Nat.min 1 (List.length s).
Proof.
  intros h c [|x s].
  - exists [], []. repeat split; try discriminate; try (fnv; reflexivity).
  - exists [x], s. split; [fnv; reflexivity|]. split; [fnv; reflexivity|]. split; reflexivity.
Qed.
Theorem C32_count_empty_exists : forall h c s,
  fn_value h c (lit "fn:count") [s] (Ok [XIInteger (zlen s)]) /\
  (exists b, fn_value h c (lit "fn:empty") [s] (Ok [XIBoolean b]) /\ (b = true <-> s = [])) /\
  (exists b, fn_value h c (lit "fn:exists") [s] (Ok [XIBoolean b]) /\ (b = true <-> s <> [])).
Proof.
  intros h c s. split; [fnv; reflexivity|]. split; eexists; (split; [fnv; reflexivity|]); destruct s; cbn; split; congruence.
Qed.
Lemma value_eq_bool : forall h x y r, value_compare_eq h [x] [y] = Ok r -> exists b, r = [XIBoolean b] /\
  (b = true <-> value_holds h CEq x y).
Proof.
  intros h x y r H. assert (V := value_holds_fn h CEq x y). cbn [value_fn] in V. rewrite H in V.
  assert (B : exists b, r = [XIBoolean b]).
  { unfold value_compare_eq, value_comparison in H. cbn [atomize map] in H.
    destruct (atomize1 h x), (atomize1 h y); cbn in H; try discriminate H;
      inversion H; unfold sing_bool; eauto. }
  destruct B as [b ->]. exists b. split; auto. rewrite V. split; congruence.
Qed.
Lemma index_of_spec : forall h y l i r, index_of_loop h i l [y] = Ok r ->
  exists ks, r = map XIInteger ks /\ StronglySorted Z.lt ks /\
    forall k, In k ks <-> i < k <= i + zlen l /\ exists x, nth_error l (Z.to_nat (k - i - 1)) = Some x /\ value_holds h CEq x y.
Proof.
  unfold zlen. intros h y. induction l as [|v l IH]; intros i r H; cbn [index_of_loop] in H.
  - inversion H. exists []. split; [reflexivity|]. split; [constructor|]. intro k. cbn. split; [intros []|lia].
  - destruct (value_compare_eq h [v] [y]) as [x| | |] eqn:E; cbn [bind] in H; try discriminate.
    destruct (value_eq_bool h v y x E) as [b [-> B]]. cbn [get_singleton_boolean bind] in H.
    destruct (index_of_loop h (i + 1) l [y]) as [r'| | |] eqn:E'; cbn [bind] in H; try discriminate. inversion H; subst.
    destruct (IH _ _ E') as [ks [-> [S M]]].
    assert (G : forall k, In k ks <-> i + 1 < k <= i + Z.of_nat (List.length (v :: l)) /\
                exists x, nth_error (v :: l) (Z.to_nat (k - i - 1)) = Some x /\ value_holds h CEq x y).
    { intro k. rewrite M. cbn [List.length]. split; intros [R [x X]]; (split; [lia|]); exists x.
      - replace (Z.to_nat (k - i - 1)) with (Datatypes.S (Z.to_nat (k - (i + 1) - 1))) by lia. exact X.
      - replace (Z.to_nat (k - i - 1)) with (Datatypes.S (Z.to_nat (k - (i + 1) - 1))) in X by lia. exact X. }
    destruct b.
    + exists (i + 1 :: ks). split; [reflexivity|]. split.
      * constructor; auto. apply Forall_forall. intros k K. apply M in K. lia.
      * intro k. cbn [In]. rewrite G. split.
        -- intros [<-|[R X]]; [|split; [lia|exact X]]. split; [cbn [List.length]; lia|]. exists v.
           replace (Z.to_nat (i + 1 - i - 1)) with O by lia. split; [reflexivity|tauto].
        -- intros [R X]. destruct (Z.eq_dec k (i + 1)) as [->|]; [left; reflexivity|right]. split; [lia|exact X].
    + exists ks. split; [reflexivity|]. split; auto. intro k. rewrite G. split.
      * intros [R X]. split; [lia|exact X].
      * intros [R X]. split; [|exact X]. destruct (Z.eq_dec k (i + 1)) as [->|]; [|lia]. exfalso.
        destruct X as [x [X V]]. replace (Z.to_nat (i + 1 - i - 1)) with O in X by lia. inversion X; subst.
        apply B in V. discriminate.
Qed.
Lemma index_of_fuel : forall h y l i, index_of_loop h i l [y] <> Fuel.
Proof.
  intros h y. induction l as [|v l IH]; intro i; cbn [index_of_loop]; [discriminate|].
  apply bind_fuel; [apply (value_fn_fuel CEq)|]. intro a. apply bind_fuel; [destruct a as [|[] [|]]; discriminate|].
  intro b. apply bind_fuel; [apply IH|]. discriminate.
Qed.
(* index-of: the increasing positions of the items equal to the one searched *)
Theorem C32_index_of : forall h c s y r, fn_value h c (lit "fn:index-of") [s; [y]] (Ok r) ->
  exists ks, r = map XIInteger ks /\ StronglySorted Z.lt ks /\
    forall k, In k ks <-> 1 <= k <= zlen s /\ exists x, nth_error s (Z.to_nat (k - 1)) = Some x /\ value_holds h CEq x y.
Proof.
  intros h c s y r V.
  assert (F : fn_value h c (lit "fn:index-of") [s; [y]] (fn_index_of h s [y])).
  { fnv; [reflexivity|]. apply index_of_fuel. }
  assert (D := fn_value_unique _ _ _ _ _ _ F V). destruct (index_of_spec h y s 0 r D) as [ks [E [S M]]].
  exists ks. split; [exact E|]. split; [exact S|]. intro k. rewrite M.
  replace (k - 0 - 1) with (k - 1) by lia. split; intros [R X]; (split; [lia|exact X]).
Qed.
(* It gives an answer when all items are comparable with the one searched: all integers, or all strings and nodes. *)
Definition stringish (it : xitem) : Prop := (exists s, it = XIString s) \/ exists i, it = XINode i.
Definition numeric (it : xitem) : Prop := rank it <> None.
Lemma compare_eq_ok : forall h x y, (stringish x /\ stringish y) \/ (numeric x /\ numeric y) ->
  exists b, value_compare_eq h [x] [y] = Ok [XIBoolean b].
Proof.
  intros h x y H.
  destruct H as [[[[s ->]|[i ->]] [[t ->]|[j ->]]]|[X Y]];
    unfold value_compare_eq, value_comparison; cbn; unfold sing_bool; eauto.
  unfold numeric in *. destruct x; cbn in X; try congruence; destruct y; cbn in Y; try congruence; cbn; unfold sing_bool; eauto.
Qed.
Theorem C32_index_of_total_partial : forall h c s y,
  (Forall stringish s /\ stringish y) \/ (Forall numeric s /\ numeric y) ->
  exists r, fn_value h c (lit "fn:index-of") [s; [y]] (Ok r).
Proof.
  intros h c s y H. assert (T : exists r, fn_index_of h s [y] = Ok r).
  { unfold fn_index_of. generalize 0 as i. revert H. induction s as [|x s IH]; intros H i; cbn [index_of_loop]; eauto.
    assert (Q : (stringish x /\ stringish y) \/ (numeric x /\ numeric y)) by (destruct H as [[A B]|[A B]]; inversion A; auto).
    destruct (compare_eq_ok h x y Q) as [b E]. rewrite E. cbn [bind get_singleton_boolean].
    destruct (IH ltac:(destruct H as [[A B]|[A B]]; inversion A; auto) (i + 1)) as [r R]. rewrite R. cbn [bind]. eauto. }
  destruct T as [r T]. exists r. fnv. exact T.
Qed.
Theorem C32_index_of_refuted : forall h c,
  fn_value h c (lit "fn:index-of") [[XIInteger 1; XIString (lit "a")]; [XIInteger 1]] (Err TypeError).
Proof. intros. fnv. reflexivity. Qed.
Theorem C32_cardinality : forall h c s,
  fn_value h c (lit "fn:zero-or-one") [s] (if (List.length s <=? 1)%nat then Ok s else Err DynamicError) /\
  fn_value h c (lit "fn:one-or-more") [s] (if (1 <=? List.length s)%nat then Ok s else Err DynamicError) /\
  fn_value h c (lit "fn:exactly-one") [s] (if (List.length s =? 1)%nat then Ok s else Err DynamicError).
Proof.
  intros h c s. repeat split; try (fnv; [reflexivity|]);
    match goal with |- context [if ?b then _ else _] => destruct b; discriminate | _ => idtac end.
Qed.
Example C32_examples :
  eval_xpath 20 [] 0 (lit "reverse((1,2,3)), insert-before((1,2), 2, 9), remove((1,2,3), 2), index-of((4,5,4), 4)")
  = Ok (map XIInteger [3; 2; 1; 1; 9; 2; 1; 3; 1; 3]).
Proof. vm_compute. reflexivity. Qed.

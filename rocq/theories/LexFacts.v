(* Lemmas about the lexer. *)
Require Import Bool List NArith ZArith Ascii String Lia.
From Verif Require Import Str StrFacts Chars Lexer SpecLex.
Import ListNotations.
Open Scope N_scope.

(* ---- string literals ---- *)
Lemma fetch_literal_quote : forall q s r, q <> 0 -> ~ In 0 s -> xpeek r <> q ->
  fetch_string_literal q (flat_map (fun c => if c =? q then [q; q] else [c]) s ++ q :: r) = Some (s, r).
Proof.
  intros q s r Hq. induction s as [|c s IH]; intros H0 Hr.
  - cbn. rewrite (proj2 (N.eqb_neq q 0)) by auto. rewrite N.eqb_refl.
    destruct r as [|d r]; auto. cbn in Hr. rewrite (proj2 (N.eqb_neq d q)) by auto. reflexivity.
  - cbn [flat_map]. assert (Hs : ~ In 0 s) by (intro; apply H0; right; auto).
    destruct (c =? q) eqn:E.
    + apply N.eqb_eq in E. subst c. cbn [app fetch_string_literal].
      rewrite (proj2 (N.eqb_neq q 0)) by auto. rewrite N.eqb_refl. rewrite IH by auto. reflexivity.
    + cbn [app fetch_string_literal]. rewrite E.
      rewrite (proj2 (N.eqb_neq c 0)) by (intro; subst; apply H0; left; auto). rewrite IH by auto. reflexivity.
Qed.
Lemma get_tok_quote : forall q s r, q = 34 \/ q = 39 -> ~ In 0 s -> xpeek r <> q ->
  get_tok (quote q s ++ r) = Ok (mkTok T_StringLiteral s, r).
Proof.
  intros q s r Hq H0 Hr. unfold quote. cbn [app]. rewrite <- app_assoc. cbn [app].
  assert (Hq0 : q <> 0) by (destruct Hq; subst; discriminate).
  pose proof (fetch_literal_quote q s r Hq0 H0 Hr) as F.
  destruct Hq; subst q; unfold get_tok; cbn - [fetch_string_literal flat_map];
    rewrite F; reflexivity.
Qed.

(* ---- comments ---- *)
Lemma skip_comment_char : forall n c s, c <> 0 -> ~ begins (lit "(:") (c :: s) -> ~ begins (lit ":)") (c :: s) ->
  xskip_comment (S n) (c :: s) = xskip_comment (S n) s.
Proof.
  intros n c s H0 H1 H2. cbn [xskip_comment]. rewrite (proj2 (N.eqb_neq c 0)) by auto.
  destruct (c =? 40) eqn:E1.
  - apply N.eqb_eq in E1. subst c. destruct s as [|d s]; auto.
    destruct (N.eq_dec d 58) as [->|Hd]; [exfalso; apply H1; exists s; reflexivity|].
    destruct d as [|d]; auto. do 6 (destruct d as [d|d|]; auto). all: try congruence.
  - destruct (c =? 58) eqn:E2; auto. apply N.eqb_eq in E2. subst c. destruct s as [|d s]; auto.
    destruct (N.eq_dec d 41) as [->|Hd]; [exfalso; apply H2; exists s; reflexivity|].
    destruct d as [|d]; auto. do 6 (destruct d as [d|d|]; auto). all: try congruence.
Qed.
Lemma begins_app : forall p s t, begins p (s ++ t) \/ ~ begins p (s ++ t).
Proof.
  intros. destruct (strip_prefix p (s ++ t)) as [r|] eqn:E.
  - left. exists r. apply strip_prefix_some. auto.
  - right. intros [r H]. rewrite strip_prefix_none in E. apply (E r). auto.
Qed.
Lemma begins2 : forall a b c s t, (2 <= List.length (c :: s))%nat -> begins [a; b] (c :: s ++ t) -> begins [a; b] (c :: s).
Proof.
  intros a b c s t L [r E]. destruct s as [|d s]; [simpl in L; lia|]. cbn in E. injection E as -> -> E.
  exists s. reflexivity.
Qed.

Lemma comment_skipped : forall c, comment c -> forall n r,
  exists b, c = lit "(:" ++ b /\ xskip_comment (S n) (b ++ r) = xskip_comment n r.
Proof.
  intros c H. induction H as [b Hb IH| |c b Hc IHc Hb IHb|c b H0 Hb IHb H1 H2] using comment_mind
    with (P0 := fun b _ => forall n r, xskip_comment (S n) ((b ++ lit ":)") ++ r) = xskip_comment n r).
  - intros n r. exists (b ++ lit ":)"). split; [reflexivity|]. apply IH.
  - intros n r. destruct n; reflexivity.
  - intros n r. destruct (IHc (S n) ((b ++ lit ":)") ++ r)) as [b' [E S']].
    rewrite E. rewrite <- !app_assoc. cbn [app lit]. change (xskip_comment (S n) (lit "(:" ++ (b' ++ b ++ lit ":)" ++ r)) = xskip_comment n r).
    replace (xskip_comment (S n) (lit "(:" ++ b' ++ b ++ lit ":)" ++ r)) with (xskip_comment (S (S n)) (b' ++ b ++ lit ":)" ++ r)) by reflexivity.
    rewrite app_assoc in S'. rewrite <- app_assoc in S'. rewrite <- app_assoc in S'. rewrite S'.
    rewrite <- (IHb n r). rewrite <- app_assoc. reflexivity.
  - intros n r. cbn [app]. rewrite skip_comment_char; auto.
    + intro B. apply H1. apply (begins2 40 58) in B; [exact B|]. cbn [List.length]. rewrite app_length. cbn. lia.
    + intro B. apply H2. apply (begins2 58 41) in B; [exact B|]. cbn [List.length]. rewrite app_length. cbn. lia.
Qed.

(* soundness: whatever is skipped is a balanced comment *)
Inductive closes : nat -> str -> str -> Prop :=
| cl_done : forall r, closes 0 r r
| cl_body : forall n b s r, comment_body b -> closes n s r -> closes (S n) (b ++ lit ":)" ++ s) r.
Lemma begins2_mono : forall a b c s t, begins [a; b] (c :: s) -> begins [a; b] (c :: s ++ t).
Proof. intros a b c s t [r E]. exists (r ++ t). cbn in *. injection E as -> ->. reflexivity. Qed.

Lemma skip_comment_sound : forall m n s r, (List.length s <= m)%nat -> xskip_comment n s = Some r -> closes n s r.
Proof.
  induction m as [|m IH]; intros n s r L E.
  - destruct s; [|simpl in L; lia]. destruct n; cbn in E; [injection E as <-; constructor|discriminate].
  - destruct n as [|n]; [destruct s; cbn in E; injection E as <-; constructor|].
    destruct s as [|c s]; [discriminate|].
    destruct (N.eq_dec c 0) as [->|H0]; [discriminate|].
    destruct (begins_app (lit "(:") (c :: s) []) as [B|B]; rewrite app_nil_r in B.
    { destruct B as [s' Es]. cbn in Es. injection Es as -> ->. cbn in E. simpl in L.
      apply IH in E; [|lia]. inversion E as [|? b1 s1 ? Hb1 C1]; subst. inversion C1 as [|? b2 s2 ? Hb2 C2]; subst.
      replace (40 :: 58 :: b1 ++ lit ":)" ++ b2 ++ lit ":)" ++ s2)
        with (((lit "(:" ++ b1 ++ lit ":)") ++ b2) ++ lit ":)" ++ s2) by (rewrite <- !app_assoc; reflexivity).
      constructor; auto. apply cb_comment; auto. constructor. auto. }
    destruct (begins_app (lit ":)") (c :: s) []) as [B'|B']; rewrite app_nil_r in B'.
    { destruct B' as [s' Es]. cbn in Es. injection Es as -> ->. cbn in E. simpl in L.
      apply (cl_body n [] s' r); [constructor|]. apply IH; auto. lia. }
    rewrite skip_comment_char in E by auto. simpl in L. apply IH in E; [|lia].
    inversion E as [|? b s' ? Hb C]; subst.
    change (c :: b ++ lit ":)" ++ s') with ((c :: b) ++ lit ":)" ++ s'). constructor; auto. constructor; auto.
    + intro Q. apply B. apply (begins2_mono 40 58 c (b ++ lit ":)") s') in Q. rewrite <- app_assoc in Q. exact Q.
    + intro Q. apply B'. apply (begins2_mono 58 41 c (b ++ lit ":)") s') in Q. rewrite <- app_assoc in Q. exact Q.
Qed.

Lemma get_tok_comment : forall c r, comment c -> get_tok (c ++ r) = Ok (mkTok T_Nop [], r).
Proof.
  intros c r H. destruct (comment_skipped c H 0 r) as [b [-> E]]. rewrite <- app_assoc.
  unfold get_tok. rewrite strip_prefix_app, E. destruct r; reflexivity.
Qed.
Lemma get_tok_comment_inv : forall s r, get_tok (lit "(:" ++ s) = Ok (mkTok T_Nop [], r) ->
  exists c, comment c /\ lit "(:" ++ s = c ++ r.
Proof.
  intros s r E. unfold get_tok in E. rewrite strip_prefix_app in E.
  destruct (xskip_comment 1 s) as [r'|] eqn:S; [|discriminate]. injection E as <-.
  apply (skip_comment_sound (List.length s)) in S; auto. inversion S as [|? b s' ? Hb C]; subst.
  inversion C; subst. exists (lit "(:" ++ b ++ lit ":)"). split; [constructor; auto|].
  rewrite <- !app_assoc. reflexivity.
Qed.

(* ---- every token consumes something ---- *)
Lemma skip_comment_length : forall s n r, xskip_comment n s = Some r -> (List.length r <= List.length s)%nat.
Proof.
  intro s. remember (List.length s) as m. revert s Heqm. induction m as [m IH] using lt_wf_ind. intros s -> n r E.
  destruct n as [|n]; [destruct s; cbn in E; injection E as <-; auto|]. destruct s as [|c s]; [discriminate|].
  cbn [xskip_comment] in E. destruct (c =? 0); [discriminate|].
  assert (A : forall k, xskip_comment k s = Some r -> (List.length r <= S (List.length s))%nat).
  { intros k Ek. apply (IH (List.length s)) in Ek; simpl; lia. }
  assert (B : forall k d s', s = d :: s' -> xskip_comment k s' = Some r -> (List.length r <= S (List.length s))%nat).
  { intros k d s' -> Ek. apply (IH (List.length s')) in Ek; simpl; lia. }
  simpl. destruct (c =? 40).
  - destruct s as [|d s]; [eapply A; eauto|]. destruct d as [|d]; [eapply A; eauto|].
    do 6 (destruct d as [d|d|]; try (eapply A; eauto; fail)). all: eapply B; eauto.
  - destruct (c =? 58); [|eapply A; eauto]. destruct s as [|d s]; [eapply A; eauto|]. destruct d as [|d]; [eapply A; eauto|].
    do 6 (destruct d as [d|d|]; try (eapply A; eauto; fail)). all: eapply B; eauto.
Qed.
Lemma fetch_until_length : forall q s l r, fetch_until q s = Some (l, r) -> (List.length r < List.length s)%nat.
Proof.
  induction s as [|c s IH]; intros l r E; [discriminate|]. cbn in E. destruct (c =? 0); [discriminate|].
  destruct (c =? q); [injection E as <- <-; simpl; lia|].
  destruct (fetch_until q s) as [[l' r']|] eqn:F; [|discriminate]. injection E as <- <-.
  specialize (IH _ _ eq_refl). simpl. lia.
Qed.
Lemma fetch_literal_length : forall m q s l r, (List.length s <= m)%nat -> fetch_string_literal q s = Some (l, r) ->
  (List.length r <= List.length s)%nat.
Proof.
  induction m as [|m IH]; intros q s l r L E; (destruct s as [|c s]; [discriminate|]); simpl in L; [lia|].
  cbn [fetch_string_literal] in E. destruct (c =? 0); [discriminate|]. destruct (c =? q).
  - destruct s as [|d s]; [injection E as <- <-; simpl; lia|]. destruct (d =? q); [|injection E as <- <-; simpl; lia].
    destruct (fetch_string_literal q s) as [[l' r']|] eqn:F; [|discriminate]. injection E as <- <-.
    apply IH in F; simpl in *; lia.
  - destruct (fetch_string_literal q s) as [[l' r']|] eqn:F; [|discriminate]. injection E as <- <-.
    apply IH in F; simpl in *; lia.
Qed.
Lemma fetch_digits_length : forall s d r, fetch_digits s = (d, r) -> (List.length r <= List.length s)%nat.
Proof.
  induction s as [|c s IH]; intros d r E; [injection E as <- <-; auto|]. cbn in E. destruct (xis_digit c).
  - destruct (fetch_digits s) as [d' r'] eqn:F. injection E as <- <-. specialize (IH _ _ eq_refl). simpl. lia.
  - injection E as <- <-. auto.
Qed.
Lemma fetch_name_length : forall s d r, fetch_name s = (d, r) -> (List.length r <= List.length s)%nat.
Proof.
  induction s as [|c s IH]; intros d r E; [injection E as <- <-; auto|]. cbn in E. destruct (xis_name_char c).
  - destruct (fetch_name s) as [d' r'] eqn:F. injection E as <- <-. specialize (IH _ _ eq_refl). simpl. lia.
  - injection E as <- <-. auto.
Qed.
Lemma after_e_length : forall s l r, fetch_numeric_after_e s = Some (l, r) -> (List.length r <= List.length s)%nat.
Proof.
  intros [|c s] l r E; cbn in E; [injection E as <- <-; auto|].
  destruct ((c =? 101) || (c =? 69)); [|injection E as <- <-; auto].
  destruct ((xpeek s =? 43) || (xpeek s =? 45)).
  - destruct (fetch_digits (tl s)) as [d r'] eqn:F. injection E as <- <-. apply fetch_digits_length in F.
    destruct s; simpl in *; lia.
  - destruct (xis_digit (xpeek s)); [|discriminate]. destruct (fetch_digits s) as [d r'] eqn:F.
    injection E as <- <-. apply fetch_digits_length in F. simpl. lia.
Qed.
Lemma after_period_length : forall s l r, fetch_numeric_after_period s = Some (l, r) ->
  (List.length r <= List.length s)%nat /\ (s <> [] -> (List.length r < List.length s)%nat).
Proof.
  intros [|c s] l r E.
  - cbn in E. injection E as <- <-. split; [auto|congruence].
  - assert (H : (List.length r <= List.length s)%nat).
    { destruct (N.eq_dec c 46) as [->|Hc].
      - cbn in E. destruct (fetch_digits s) as [d s2] eqn:F. destruct (fetch_numeric_after_e s2) as [[e s3]|] eqn:G; [|discriminate].
        injection E as <- <-. apply fetch_digits_length in F. apply after_e_length in G. lia.
      - unfold fetch_numeric_after_period in E. destruct c as [|c]; [injection E as <- <-; auto|].
        do 6 (destruct c as [c|c|]; try (injection E as <- <-; auto; fail)). all: congruence. }
    simpl. split; lia.
Qed.
Lemma numerics_length : forall s t r, fetch_numerics s = Ok (t, r) -> (List.length r <= List.length s)%nat /\
  (xis_digit (xpeek s) = true \/ xpeek s = 46 -> (List.length r < List.length s)%nat).
Proof.
  intros s t r E. unfold fetch_numerics in E. destruct (fetch_numeric_literal s) as [[l r']|] eqn:F; [|discriminate].
  assert (r' = r) by (destruct (mem_char 101 l || mem_char 69 l); [|destruct (mem_char 46 l)]; congruence). subst r'. clear E.
  destruct s as [|c s]; cbn [fetch_numeric_literal] in F; [injection F as <- <-; split; auto|].
  { intros [H|H]; discriminate. }
  cbn [xpeek]. destruct (xis_digit c) eqn:D.
  - assert (H : (List.length r <= List.length s)%nat).
    { destruct (fetch_digits s) as [ds s2] eqn:G. apply fetch_digits_length in G. destruct (xpeek s2 =? 46) eqn:P.
      - destruct (fetch_numeric_after_period s2) as [[p s3]|] eqn:A; [|discriminate]. apply after_period_length in A.
        destruct (fetch_numeric_after_e s3) as [[e s4]|] eqn:B; [|discriminate]. apply after_e_length in B.
        injection F as <- <-. lia.
      - destruct (fetch_numeric_after_e s2) as [[e s4]|] eqn:B; [|discriminate]. apply after_e_length in B.
        injection F as <- <-. lia. }
    simpl. split; lia.
  - destruct (c =? 46) eqn:P.
    + apply after_period_length in F. destruct F as [F1 F2]. split; auto. intros _. apply F2. discriminate.
    + injection F as <- <-. split; auto. intros [H|H]; [discriminate|]. apply N.eqb_neq in P. congruence.
Qed.
Lemma find_keyword_length : forall tbl s t r, (forall k x, In (k, x) tbl -> k <> []) ->
  find_keyword tbl s = Some (t, r) -> (List.length r < List.length s)%nat.
Proof.
  induction tbl as [|[k x] tbl IH]; intros s t r H E; [discriminate|]. cbn in E.
  destruct (strip_prefix k s) as [r'|] eqn:S.
  - injection E as <- <-. apply strip_prefix_some in S. subst s. rewrite app_length.
    destruct k; [exfalso; apply (H [] x); [left|]; auto|]. simpl. lia.
  - eapply IH; eauto. intros. eapply H. right. eauto.
Qed.
Lemma keywords_nonempty : forall k x, In (k, x) keywords -> k <> [].
Proof.
  intros k x H. unfold keywords in H. repeat (destruct H as [H|H]; [injection H as <- <-; discriminate|]). destruct H.
Qed.
Lemma keyword_type : forall tbl s t r, find_keyword tbl s = Some (t, r) -> In (t_name t, t_type t) tbl.
Proof.
  induction tbl as [|[k x] tbl IH]; intros s t r E; [discriminate|]. cbn in E.
  destruct (strip_prefix k s); [injection E as <- <-; left; auto|right; eauto].
Qed.
Lemma get_tok_length : forall s t r, get_tok s = Ok (t, r) -> t_type t <> T_EOF ->
  (List.length r < List.length s)%nat.
Proof.
  intros s t r E Ht. unfold get_tok in E.
  destruct (strip_prefix (lit "(:") s) as [s1|] eqn:S1.
  { destruct (xskip_comment 1 s1) as [r'|] eqn:C; [|discriminate]. injection E as <- <-.
    apply strip_prefix_some in S1. subst s. apply skip_comment_length in C. simpl. lia. }
  destruct (strip_prefix (lit "Q{") s) as [s2|] eqn:S2.
  { destruct (fetch_until 125 s) as [[l r']|] eqn:C; [|discriminate]. injection E as <- <-.
    apply fetch_until_length in C. auto. }
  destruct (find_keyword keywords s) as [[t' r']|] eqn:K.
  { injection E as -> ->. eapply find_keyword_length; eauto. apply keywords_nonempty. }
  destruct s as [|c s]; [injection E as <- <-; exfalso; apply Ht; reflexivity|]. destruct (c =? 0) eqn:E0.
  { injection E as <- <-. exfalso; apply Ht; reflexivity. }
  destruct (xis_name_start_char c).
  { destruct (fetch_name s) as [n r'] eqn:F. injection E as <- <-. apply fetch_name_length in F. simpl. lia. }
  destruct ((c =? 34) || (c =? 39)).
  { destruct (fetch_string_literal c s) as [[l r']|] eqn:F; [|discriminate]. injection E as <- <-.
    apply (fetch_literal_length (List.length s)) in F; auto. simpl. lia. }
  destruct (xis_digit c) eqn:D.
  { apply numerics_length in E. destruct E as [_ E]. apply E. left. exact D. }
  destruct (c =? 46) eqn:P; [|discriminate]. destruct (xis_digit (xpeek s)).
  { apply numerics_length in E. destruct E as [_ E]. apply E. right. apply N.eqb_eq in P. exact P. }
  injection E as <- <-. simpl. lia.
Qed.
Lemma skip_spaces_length : forall s, (List.length (xskip_spaces s) <= List.length s)%nat.
Proof. induction s as [|c s IH]; cbn; auto. destruct (c =? 0); [lia|]. destruct (is_space c); simpl; lia. Qed.

Lemma get_tok_never_panics : forall s, get_tok s <> Panic /\ get_tok s <> Fuel.
Proof.
  intro s. unfold get_tok, fetch_numerics.
  repeat match goal with
         | |- context [match ?x with _ => _ end] =>
             match x with
             | context [match _ with _ => _ end] => fail 1
             | _ => destruct x
             end
         end; split; discriminate.
Qed.
Lemma raw_tokens_step : forall fuel s, (List.length s < fuel)%nat ->
  raw_tokens_fuel fuel s <> Fuel /\ raw_tokens_fuel fuel s <> Panic /\ raw_tokens_fuel fuel s = raw_tokens s.
Proof.
  assert (G : forall n f1 f2 s, (List.length s < n)%nat -> (List.length s < f1)%nat -> (List.length s < f2)%nat ->
     raw_tokens_fuel f1 s = raw_tokens_fuel f2 s /\ raw_tokens_fuel f1 s <> Fuel /\ raw_tokens_fuel f1 s <> Panic).
  { induction n as [|n IH]; intros f1 f2 s Hn H1 H2; [lia|].
    destruct f1 as [|f1]; [lia|]. destruct f2 as [|f2]; [lia|]. cbn [raw_tokens_fuel].
    pose proof (skip_spaces_length s). pose proof (get_tok_never_panics (xskip_spaces s)) as [P1 P2].
    destruct (get_tok (xskip_spaces s)) as [[t r]|e| |] eqn:E; cbn [bind]; try (repeat split; congruence).
    assert (L : t_type t <> T_EOF -> (List.length r < List.length s)%nat).
    { intro Ht. apply get_tok_length in E; auto. lia. }
    destruct (t_type t); try (repeat split; discriminate);
      specialize (L ltac:(discriminate)); destruct (IH f1 f2 r ltac:(lia) ltac:(lia) ltac:(lia)) as [Q1 [Q2 Q3]];
      rewrite Q1; destruct (raw_tokens_fuel f2 r); cbn [bind]; repeat split; congruence. }
  intros fuel s H. unfold raw_tokens. destruct (G (S (List.length s)) fuel (S (List.length s)) s) as [Q1 [Q2 Q3]]; auto; lia.
Qed.
Lemma raw_tokens_unfold : forall s, raw_tokens s =
  do (tok, r) <- get_tok (xskip_spaces s);
  match t_type tok with
  | T_EOF => Ok []
  | T_Nop => raw_tokens r
  | _ => do ts <- raw_tokens r; Ok (tok :: ts)
  end.
Proof.
  intro s. unfold raw_tokens at 1. cbn [raw_tokens_fuel].
  destruct (get_tok (xskip_spaces s)) as [[t r]|e| |] eqn:E; cbn [bind]; auto.
  assert (L : t_type t <> T_EOF -> raw_tokens_fuel (List.length s) r = raw_tokens r).
  { intro Ht. apply get_tok_length in E; auto. pose proof (skip_spaces_length s).
    apply raw_tokens_step. lia. }
  destruct (t_type t); auto; rewrite L by discriminate; reflexivity.
Qed.

(* ---- white space ends every token ---- *)
Section Sep.
Variable c : char.
Variable b : str.
Hypothesis Hc : space_char c.
Let t : str := c :: b.

Lemma sep_is_space : is_space c = true.
Proof. destruct Hc as [-> | [-> | [-> | ->]]]; reflexivity. Qed.
Lemma sep_not_zero : (c =? 0) = false.
Proof. destruct Hc as [-> | [-> | [-> | ->]]]; reflexivity. Qed.

Lemma skip_comment_sep : forall s n r, xskip_comment n s = Some r -> xskip_comment n (s ++ t) = Some (r ++ t).
Proof.
  intro s. remember (List.length s) as m. revert s Heqm. induction m as [m IH] using lt_wf_ind. intros s -> n r E.
  destruct n as [|n]; [destruct s; cbn in E; injection E as <-; reflexivity|].
  destruct s as [|x s]; [discriminate|]. cbn [app].
  destruct (N.eq_dec x 0) as [->|H0]; [discriminate|].
  destruct (begins_app (lit "(:") (x :: s) []) as [B|B]; rewrite app_nil_r in B.
  { destruct B as [s' Es]. cbn in Es. injection Es as -> ->. cbn [app lit] in *. cbn [xskip_comment] in *.
    cbn in E. cbn. apply (IH (List.length s')); auto. simpl. lia. }
  destruct (begins_app (lit ":)") (x :: s) []) as [B'|B']; rewrite app_nil_r in B'.
  { destruct B' as [s' Es]. cbn in Es. injection Es as -> ->. cbn [app lit] in *.
    cbn in E. cbn. apply (IH (List.length s')); auto. simpl. lia. }
  rewrite skip_comment_char in E by auto. destruct s as [|y s]; [discriminate|].
  cbn [app]. rewrite skip_comment_char; auto.
  - apply (IH (List.length (y :: s)) ltac:(simpl; lia) (y :: s) eq_refl (S n) r E).
  - intro Q. apply B. apply (begins2 40 58 x (y :: s) t); [simpl; lia|exact Q].
  - intro Q. apply B'. apply (begins2 58 41 x (y :: s) t); [simpl; lia|exact Q].
Qed.
Lemma fetch_until_sep : forall q s l r, fetch_until q s = Some (l, r) -> fetch_until q (s ++ t) = Some (l, r ++ t).
Proof.
  induction s as [|x s IH]; intros l r E; [discriminate|]. cbn in *. destruct (x =? 0); [discriminate|].
  destruct (x =? q); [injection E as <- <-; reflexivity|].
  destruct (fetch_until q s) as [[l' r']|]; [|discriminate]. injection E as <- <-.
  rewrite (IH _ _ eq_refl). reflexivity.
Qed.
Lemma fetch_literal_sep : forall m q s l r, q = 34 \/ q = 39 -> (List.length s <= m)%nat ->
  fetch_string_literal q s = Some (l, r) -> fetch_string_literal q (s ++ t) = Some (l, r ++ t).
Proof.
  induction m as [|m IH]; intros q s l r Hq L E; (destruct s as [|x s]; [discriminate|]); simpl in L; [lia|].
  cbn [app fetch_string_literal] in *. destruct (x =? 0); [discriminate|]. destruct (x =? q).
  - destruct s as [|d s].
    + injection E as <- <-. cbn. replace (c =? q) with false; [reflexivity|].
      destruct Hc as [-> | [-> | [-> | ->]]]; destruct Hq as [->| ->]; reflexivity.
    + cbn [app]. destruct (d =? q); [|injection E as <- <-; reflexivity].
      destruct (fetch_string_literal q s) as [[l' r']|] eqn:F; [|discriminate]. injection E as <- <-.
      rewrite (IH q s _ _ Hq ltac:(simpl in L; lia) F). reflexivity.
  - destruct (fetch_string_literal q s) as [[l' r']|] eqn:F; [|discriminate]. injection E as <- <-.
    rewrite (IH q s _ _ Hq ltac:(lia) F). reflexivity.
Qed.
Lemma sep_not_digit : xis_digit c = false.
Proof. destruct Hc as [-> | [-> | [-> | ->]]]; reflexivity. Qed.
Lemma sep_not_name : xis_name_char c = false.
Proof. destruct Hc as [-> | [-> | [-> | ->]]]; reflexivity. Qed.
Lemma fetch_digits_sep : forall s d r, fetch_digits s = (d, r) -> fetch_digits (s ++ t) = (d, r ++ t).
Proof.
  induction s as [|x s IH]; intros d r E; cbn in *.
  - injection E as <- <-. cbn. rewrite sep_not_digit. reflexivity.
  - destruct (xis_digit x); [|injection E as <- <-; reflexivity].
    destruct (fetch_digits s) as [d' r']. injection E as <- <-. rewrite (IH _ _ eq_refl). reflexivity.
Qed.
Lemma fetch_name_sep : forall s d r, fetch_name s = (d, r) -> fetch_name (s ++ t) = (d, r ++ t).
Proof.
  induction s as [|x s IH]; intros d r E; cbn in *.
  - injection E as <- <-. cbn. rewrite sep_not_name. reflexivity.
  - destruct (xis_name_char x); [|injection E as <- <-; reflexivity].
    destruct (fetch_name s) as [d' r']. injection E as <- <-. rewrite (IH _ _ eq_refl). reflexivity.
Qed.
Lemma after_e_sep : forall s l r, fetch_numeric_after_e s = Some (l, r) -> fetch_numeric_after_e (s ++ t) = Some (l, r ++ t).
Proof.
  intros [|x s] l r E.
  - cbn in E. injection E as <- <-. cbn. destruct Hc as [-> | [-> | [-> | ->]]]; reflexivity.
  - cbn [app fetch_numeric_after_e] in *. destruct ((x =? 101) || (x =? 69)); [|injection E as <- <-; reflexivity].
    destruct s as [|y s]; [cbn in E; discriminate|]. cbn [app xpeek tl] in *.
    destruct ((y =? 43) || (y =? 45)).
    + destruct (fetch_digits s) as [d r'] eqn:F. injection E as <- <-. rewrite (fetch_digits_sep _ _ _ F). reflexivity.
    + destruct (xis_digit y); [|discriminate]. destruct (fetch_digits (y :: s)) as [d r'] eqn:F.
      injection E as <- <-. rewrite (fetch_digits_sep _ _ _ F : fetch_digits (y :: s ++ t) = _). reflexivity.
Qed.
Lemma after_period_sep : forall s l r, fetch_numeric_after_period (46 :: s) = Some (l, r) ->
  fetch_numeric_after_period (46 :: s ++ t) = Some (l, r ++ t).
Proof.
  intros s l r E. cbn in *. destruct (fetch_digits s) as [d s2] eqn:F. rewrite (fetch_digits_sep _ _ _ F).
  destruct (fetch_numeric_after_e s2) as [[e s3]|] eqn:G; [|discriminate].
  injection E as <- <-. rewrite (after_e_sep _ _ _ G). reflexivity.
Qed.
Lemma xpeek_sep : forall s, (xpeek (s ++ t) =? 46) = (xpeek s =? 46).
Proof. intros [|x s]; auto. cbn. destruct Hc as [-> | [-> | [-> | ->]]]; reflexivity. Qed.
Lemma numeric_sep : forall s l r, fetch_numeric_literal s = Some (l, r) -> s <> [] ->
  fetch_numeric_literal (s ++ t) = Some (l, r ++ t).
Proof.
  intros [|x s] l r E Hs; [congruence|]. cbn [app fetch_numeric_literal] in *. destruct (xis_digit x).
  - destruct (fetch_digits s) as [ds s2] eqn:G. rewrite (fetch_digits_sep _ _ _ G). rewrite xpeek_sep.
    destruct (xpeek s2 =? 46) eqn:P.
    + destruct s2 as [|y s2]; [discriminate|]. cbn [xpeek] in P. apply N.eqb_eq in P. subst y.
      destruct (fetch_numeric_after_period (46 :: s2)) as [[p s3]|] eqn:A; [|discriminate].
      cbn [app]. rewrite (after_period_sep _ _ _ A).
      destruct (fetch_numeric_after_e s3) as [[e s4]|] eqn:B; [|discriminate].
      injection E as <- <-. rewrite (after_e_sep _ _ _ B). reflexivity.
    + destruct (fetch_numeric_after_e s2) as [[e s4]|] eqn:B; [|discriminate].
      injection E as <- <-. rewrite (after_e_sep _ _ _ B). reflexivity.
  - destruct (x =? 46) eqn:P; [|injection E as <- <-; reflexivity].
    apply N.eqb_eq in P. subst x. apply after_period_sep. auto.
Qed.
Lemma numerics_sep : forall s tok r, fetch_numerics s = Ok (tok, r) -> s <> [] ->
  fetch_numerics (s ++ t) = Ok (tok, r ++ t).
Proof.
  intros s tok r E Hs. unfold fetch_numerics in *. destruct (fetch_numeric_literal s) as [[l r']|] eqn:F; [|discriminate].
  rewrite (numeric_sep _ _ _ F Hs).
  destruct (mem_char 101 l || mem_char 69 l); [|destruct (mem_char 46 l)]; injection E as <- <-; reflexivity.
Qed.
Lemma strip_prefix_sep : forall k s, ~ In c k ->
  strip_prefix k (s ++ t) = match strip_prefix k s with Some r => Some (r ++ t) | None => None end.
Proof.
  induction k as [|x k IH]; intros s H; [reflexivity|]. destruct s as [|y s].
  - cbn. replace (x =? c) with false; auto. symmetry. apply N.eqb_neq. intro. subst. apply H. left; auto.
  - cbn. destruct (x =? y); auto. apply IH. intro. apply H. right; auto.
Qed.
Lemma find_keyword_sep : forall tbl s, (forall k x, In (k, x) tbl -> ~ In c k) ->
  find_keyword tbl (s ++ t) = match find_keyword tbl s with Some (tok, r) => Some (tok, r ++ t) | None => None end.
Proof.
  induction tbl as [|[k x] tbl IH]; intros s H; [reflexivity|]. cbn.
  rewrite strip_prefix_sep by (apply (H k x); left; auto).
  destruct (strip_prefix k s); auto. apply IH. intros. eapply H. right. eauto.
Qed.
Lemma keywords_no_space : forall k x, In (k, x) keywords -> ~ In c k.
Proof.
  assert (F : forallb (fun kx => forallb (fun y => negb (is_space y)) (fst kx)) keywords = true) by (vm_compute; reflexivity).
  intros k x H Hin. rewrite forallb_forall in F. specialize (F _ H). cbn [fst] in F. rewrite forallb_forall in F.
  specialize (F _ Hin). rewrite sep_is_space in F. discriminate.
Qed.
Lemma get_tok_sep : forall s tok r, get_tok s = Ok (tok, r) -> t_type tok <> T_EOF ->
  get_tok (s ++ t) = Ok (tok, r ++ t).
Proof.
  intros s tok r E Ht. unfold get_tok in *.
  rewrite !strip_prefix_sep by (intro Q; cbn in Q; destruct Hc as [-> | [-> | [-> | ->]]]; intuition discriminate).
  destruct (strip_prefix (lit "(:") s) as [s1|] eqn:S1.
  { destruct (xskip_comment 1 s1) as [r'|] eqn:C; [|discriminate]. injection E as <- <-.
    rewrite (skip_comment_sep _ _ _ C). reflexivity. }
  destruct (strip_prefix (lit "Q{") s) as [s2|] eqn:S2.
  { destruct (fetch_until 125 s) as [[l r']|] eqn:C; [|discriminate]. injection E as <- <-.
    rewrite (fetch_until_sep _ _ _ _ C). reflexivity. }
  rewrite find_keyword_sep by apply keywords_no_space.
  destruct (find_keyword keywords s) as [[t' r']|] eqn:K; [injection E as -> ->; reflexivity|].
  destruct s as [|x s]; [injection E as <- <-; exfalso; apply Ht; reflexivity|]. cbn [app].
  destruct (x =? 0) eqn:E0.
  { injection E as <- <-. exfalso; apply Ht; reflexivity. }
  destruct (xis_name_start_char x).
  { destruct (fetch_name s) as [n r'] eqn:F. injection E as <- <-. rewrite (fetch_name_sep _ _ _ F). reflexivity. }
  destruct ((x =? 34) || (x =? 39)) eqn:Q.
  { destruct (fetch_string_literal x s) as [[l r']|] eqn:F; [|discriminate]. injection E as <- <-.
    apply orb_prop in Q. rewrite !N.eqb_eq in Q.
    rewrite (fetch_literal_sep (List.length s) x s l r' Q ltac:(auto) F). reflexivity. }
  destruct (xis_digit x) eqn:D.
  { apply (numerics_sep (x :: s)); [exact E|discriminate]. }
  destruct (x =? 46) eqn:P; [|discriminate].
  assert (PE : xis_digit (xpeek (s ++ t)) = xis_digit (xpeek s)).
  { destruct s; auto. cbn. apply sep_not_digit. }
  rewrite PE. destruct (xis_digit (xpeek s)).
  { apply (numerics_sep (x :: s)); [exact E|discriminate]. }
  injection E as <- <-. reflexivity.
Qed.
Lemma skip_spaces_sep : forall s, ~ In 0 s -> xskip_spaces s <> [] -> xskip_spaces (s ++ t) = xskip_spaces s ++ t.
Proof.
  induction s as [|x s IH]; intros H0 Hs; [exfalso; apply Hs; reflexivity|]. cbn in *.
  destruct (x =? 0) eqn:E; [apply N.eqb_eq in E; exfalso; apply H0; auto|]. destruct (is_space x); auto.
Qed.
Lemma skip_spaces_sep_nil : forall s, ~ In 0 s -> xskip_spaces s = [] -> xskip_spaces (s ++ t) = xskip_spaces b.
Proof.
  induction s as [|x s IH]; intros H0 Hs.
  - cbn. rewrite sep_not_zero, sep_is_space. reflexivity.
  - cbn in *. destruct (x =? 0) eqn:E; [apply N.eqb_eq in E; exfalso; apply H0; auto|]. destruct (is_space x); [auto|discriminate].
Qed.
End Sep.

Lemma get_tok_eof : forall s tok r, ~ In 0 s -> get_tok s = Ok (tok, r) -> t_type tok = T_EOF -> s = [].
Proof.
  intros s tok r H0 E Ht. unfold get_tok in E.
  destruct (strip_prefix (lit "(:") s) as [s1|].
  { destruct (xskip_comment 1 s1); [injection E as <- <-|]; discriminate. }
  destruct (strip_prefix (lit "Q{") s) as [s2|].
  { destruct (fetch_until 125 s) as [[l r']|]; [injection E as <- <-|]; discriminate. }
  destruct (find_keyword keywords s) as [[t' r']|] eqn:K.
  { injection E as -> ->. apply keyword_type in K. unfold keywords in K. exfalso.
    repeat (destruct K as [K|K]; [apply (f_equal snd) in K; cbn in K; congruence|]). destruct K. }
  destruct s as [|x s]; auto. exfalso. destruct (x =? 0) eqn:E0; [apply N.eqb_eq in E0; apply H0; left; auto|].
  destruct (xis_name_start_char x).
  { destruct (fetch_name s). injection E as <- <-. discriminate. }
  destruct ((x =? 34) || (x =? 39)).
  { destruct (fetch_string_literal x s) as [[l r']|]; [injection E as <- <-|]; discriminate. }
  assert (NN : forall s0, fetch_numerics s0 = Ok (tok, r) -> False).
  { intros s0 F. unfold fetch_numerics in F. destruct (fetch_numeric_literal s0) as [[l r']|]; [|discriminate].
    destruct (mem_char 101 l || mem_char 69 l); [|destruct (mem_char 46 l)]; injection F as <- <-; discriminate. }
  destruct (xis_digit x); [eapply NN; eauto|]. destruct (x =? 46); [|discriminate].
  destruct (xis_digit (xpeek s)); [eapply NN; eauto|]. injection E as <- <-. discriminate.
Qed.
(* the part of the input a token leaves is a suffix of it *)
Lemma skip_comment_suffix : forall s n r, xskip_comment n s = Some r -> exists u, s = u ++ r.
Proof.
  intros s n r E. apply (skip_comment_sound (List.length s)) in E; auto.
  induction E as [r|n b s r Hb _ [u ->]]; [exists []; auto|]. exists (b ++ lit ":)" ++ u). rewrite <- !app_assoc. reflexivity.
Qed.
Lemma fetch_until_suffix : forall q s l r, fetch_until q s = Some (l, r) -> s = l ++ r.
Proof.
  induction s as [|x s IH]; intros l r E; [discriminate|]. cbn in *. destruct (x =? 0); [discriminate|].
  destruct (x =? q); [injection E as <- <-; reflexivity|].
  destruct (fetch_until q s) as [[l' r']|]; [|discriminate]. injection E as <- <-. cbn. f_equal. auto.
Qed.
Lemma fetch_literal_suffix : forall m q s l r, (List.length s <= m)%nat -> fetch_string_literal q s = Some (l, r) ->
  exists u, s = u ++ r.
Proof.
  induction m as [|m IH]; intros q s l r L E; (destruct s as [|x s]; [discriminate|]); simpl in L; [lia|].
  cbn [fetch_string_literal] in E. destruct (x =? 0); [discriminate|]. destruct (x =? q).
  - destruct s as [|d s]; [injection E as <- <-; exists [x]; auto|].
    destruct (d =? q); [|injection E as <- <-; exists [x]; auto].
    destruct (fetch_string_literal q s) as [[l' r']|] eqn:F; [|discriminate]. injection E as <- <-.
    apply IH in F; [|simpl in L; lia]. destruct F as [u ->]. exists (x :: d :: u). auto.
  - destruct (fetch_string_literal q s) as [[l' r']|] eqn:F; [|discriminate]. injection E as <- <-.
    apply IH in F; [|lia]. destruct F as [u ->]. exists (x :: u). auto.
Qed.
Lemma fetch_digits_suffix : forall s d r, fetch_digits s = (d, r) -> s = d ++ r.
Proof.
  induction s as [|x s IH]; intros d r E; cbn in *; [injection E as <- <-; auto|].
  destruct (xis_digit x); [|injection E as <- <-; auto]. destruct (fetch_digits s) as [d' r'].
  injection E as <- <-. cbn. f_equal. auto.
Qed.
Lemma fetch_name_suffix : forall s d r, fetch_name s = (d, r) -> s = d ++ r.
Proof.
  induction s as [|x s IH]; intros d r E; cbn in *; [injection E as <- <-; auto|].
  destruct (xis_name_char x); [|injection E as <- <-; auto]. destruct (fetch_name s) as [d' r'].
  injection E as <- <-. cbn. f_equal. auto.
Qed.
Lemma after_e_suffix : forall s l r, fetch_numeric_after_e s = Some (l, r) -> s = l ++ r.
Proof.
  intros [|x s] l r E; cbn in E; [injection E as <- <-; auto|].
  destruct ((x =? 101) || (x =? 69)); [|injection E as <- <-; auto].
  destruct ((xpeek s =? 43) || (xpeek s =? 45)) eqn:P.
  - destruct (fetch_digits (tl s)) as [d r'] eqn:F. injection E as <- <-. apply fetch_digits_suffix in F.
    destruct s as [|y s]; [discriminate|]. cbn in *. congruence.
  - destruct (xis_digit (xpeek s)); [|discriminate]. destruct (fetch_digits s) as [d r'] eqn:F.
    injection E as <- <-. apply fetch_digits_suffix in F. cbn. congruence.
Qed.
Lemma after_period_suffix : forall s l r, fetch_numeric_after_period (46 :: s) = Some (l, r) -> 46 :: s = l ++ r.
Proof.
  intros s l r E. cbn in E. destruct (fetch_digits s) as [d s2] eqn:F.
  destruct (fetch_numeric_after_e s2) as [[e s3]|] eqn:G; [|discriminate]. injection E as <- <-.
  apply fetch_digits_suffix in F. apply after_e_suffix in G. cbn. rewrite F, G, app_assoc. reflexivity.
Qed.
Lemma numerics_suffix : forall s t r, fetch_numerics s = Ok (t, r) -> s = t_name t ++ r.
Proof.
  intros s t r E. unfold fetch_numerics in E. destruct (fetch_numeric_literal s) as [[l r']|] eqn:F; [|discriminate].
  assert (r' = r /\ l = t_name t) as [-> <-].
  { destruct (mem_char 101 l || mem_char 69 l); [|destruct (mem_char 46 l)]; injection E as <- <-; auto. }
  clear E. destruct s as [|x s]; cbn [fetch_numeric_literal] in F; [injection F as <- <-; auto|].
  destruct (xis_digit x).
  - destruct (fetch_digits s) as [ds s2] eqn:G. apply fetch_digits_suffix in G. destruct (xpeek s2 =? 46) eqn:P.
    + destruct s2 as [|y s2]; [discriminate|]. cbn [xpeek] in P. apply N.eqb_eq in P. subst y.
      destruct (fetch_numeric_after_period (46 :: s2)) as [[p s3]|] eqn:A; [|discriminate]. apply after_period_suffix in A.
      destruct (fetch_numeric_after_e s3) as [[e s4]|] eqn:B; [|discriminate]. apply after_e_suffix in B.
      injection F as <- <-. cbn. rewrite G, A, B, <- !app_assoc. reflexivity.
    + destruct (fetch_numeric_after_e s2) as [[e s4]|] eqn:B; [|discriminate]. apply after_e_suffix in B.
      injection F as <- <-. cbn. rewrite G, B, <- !app_assoc. reflexivity.
  - destruct (x =? 46) eqn:P; [|injection F as <- <-; auto]. apply N.eqb_eq in P. subst. apply after_period_suffix; auto.
Qed.
Lemma find_keyword_suffix : forall tbl s t r, find_keyword tbl s = Some (t, r) -> s = t_name t ++ r.
Proof.
  induction tbl as [|[k x] tbl IH]; intros s t r E; [discriminate|]. cbn in E.
  destruct (strip_prefix k s) eqn:S; [injection E as <- <-; apply strip_prefix_some in S; auto|eauto].
Qed.
Lemma get_tok_suffix : forall s t r, get_tok s = Ok (t, r) -> exists u, s = u ++ r.
Proof.
  intros s t r E. unfold get_tok in E.
  destruct (strip_prefix (lit "(:") s) as [s1|] eqn:S1.
  { destruct (xskip_comment 1 s1) as [r'|] eqn:C; [|discriminate]. injection E as <- <-.
    apply strip_prefix_some in S1. apply skip_comment_suffix in C. destruct C as [u ->]. exists (lit "(:" ++ u). rewrite <- app_assoc; auto. }
  destruct (strip_prefix (lit "Q{") s) as [s2|].
  { destruct (fetch_until 125 s) as [[l r']|] eqn:C; [|discriminate]. injection E as <- <-.
    apply fetch_until_suffix in C. eauto. }
  destruct (find_keyword keywords s) as [[t' r']|] eqn:K.
  { injection E as -> ->. apply find_keyword_suffix in K. eauto. }
  destruct s as [|x s]; [injection E as <- <-; exists []; auto|]. destruct (x =? 0).
  { injection E as <- <-. exists [x]. auto. }
  destruct (xis_name_start_char x).
  { destruct (fetch_name s) as [n r'] eqn:F. injection E as <- <-. apply fetch_name_suffix in F. exists (x :: n). cbn. congruence. }
  destruct ((x =? 34) || (x =? 39)).
  { destruct (fetch_string_literal x s) as [[l r']|] eqn:F; [|discriminate]. injection E as <- <-.
    apply (fetch_literal_suffix (List.length s)) in F; auto. destruct F as [u ->]. exists (x :: u). auto. }
  destruct (xis_digit x); [apply numerics_suffix in E; eauto|]. destruct (x =? 46); [|discriminate].
  destruct (xis_digit (xpeek s)); [apply numerics_suffix in E; eauto|]. injection E as <- <-. exists [x]. auto.
Qed.
Lemma skip_spaces_suffix : forall s, exists u, s = u ++ xskip_spaces s.
Proof.
  induction s as [|c s [u IH]]; [exists []; auto|]. cbn. destruct (c =? 0); [exists [c]; auto|].
  destruct (is_space c); [exists (c :: u); cbn; congruence|exists []; auto].
Qed.
Lemma not_in_suffix : forall (x : N) u v, ~ In x (u ++ v) -> ~ In x v.
Proof. intros x u v H Hin. apply H. apply in_or_app. auto. Qed.

Lemma raw_tokens_sep : forall c b, space_char c -> forall n a ta, (List.length a < n)%nat -> ~ In 0 a -> raw_tokens a = Ok ta ->
  raw_tokens (a ++ c :: b) = do tb <- raw_tokens b; Ok (ta ++ tb).
Proof.
  intros c b Hc. induction n as [|n IH]; intros a ta Hn H0 E; [lia|].
  rewrite raw_tokens_unfold in E.
  destruct (get_tok (xskip_spaces a)) as [[tok r]|e| |] eqn:G; cbn [bind] in E; try discriminate.
  assert (N1 : ~ In 0 (xskip_spaces a)).
  { destruct (skip_spaces_suffix a) as [u Eu]. rewrite Eu in H0. eapply not_in_suffix; eauto. }
  destruct (ttype_eqb (t_type tok) T_EOF) eqn:T.
  - apply ttype_eqb_eq in T. pose proof (get_tok_eof _ _ _ N1 G T) as Z. rewrite T in E. injection E as <-.
    rewrite raw_tokens_unfold. rewrite (skip_spaces_sep_nil c b Hc a H0 Z). rewrite <- raw_tokens_unfold.
    destruct (raw_tokens b); reflexivity.
  - assert (Ht : t_type tok <> T_EOF) by (intro Q; rewrite Q in T; discriminate).
    assert (Ns : xskip_spaces a <> []) by (intro Q; rewrite Q in G; cbn in G; injection G as <- <-; apply Ht; reflexivity).
    rewrite raw_tokens_unfold. rewrite (skip_spaces_sep c b a H0 Ns).
    rewrite (get_tok_sep c b Hc _ _ _ G Ht). cbn [bind].
    assert (L : (List.length r < n)%nat).
    { apply get_tok_length in G; auto. pose proof (skip_spaces_length a). lia. }
    assert (N2 : ~ In 0 r).
    { destruct (get_tok_suffix _ _ _ G) as [u Eu]. rewrite Eu in N1. eapply not_in_suffix; eauto. }
    destruct (t_type tok) eqn:Tt; try congruence;
      try (apply IH; auto; fail);
      (destruct (raw_tokens r) as [tr| | |] eqn:R; cbn [bind] in E; try discriminate; injection E as <-;
       rewrite (IH r tr L N2 R); destruct (raw_tokens b); reflexivity).
Qed.

Lemma comment_head : forall c, comment c -> exists b, c = 40 :: 58 :: b.
Proof. intros c H. inversion H. eexists. reflexivity. Qed.
Lemma raw_tokens_ignorable : forall w, ignorable w -> forall s, raw_tokens (w ++ s) = raw_tokens s.
Proof.
  intros w H. induction H as [|c w Hc Hw IH|c w Hc Hw IH]; intro s; auto.
  - rewrite raw_tokens_unfold. cbn [app xskip_spaces].
    replace (c =? 0) with false by (destruct Hc as [-> | [-> | [-> | ->]]]; reflexivity).
    replace (is_space c) with true by (destruct Hc as [-> | [-> | [-> | ->]]]; reflexivity).
    rewrite <- raw_tokens_unfold. apply IH.
  - rewrite raw_tokens_unfold. rewrite <- app_assoc.
    replace (xskip_spaces (c ++ w ++ s)) with (c ++ w ++ s).
    + rewrite get_tok_comment by auto. cbn [bind t_type]. apply IH.
    + destruct (comment_head c Hc) as [b' ->]. reflexivity.
Qed.
Lemma is_space_char : forall c, is_space c = true -> space_char c.
Proof.
  intros c H. unfold is_space in H. unfold space_char.
  repeat rewrite orb_true_iff in H. repeat rewrite N.eqb_eq in H. tauto.
Qed.
Lemma skip_spaces_ignorable : forall s, ~ In 0 s -> exists u, s = u ++ xskip_spaces s /\ Forall space_char u.
Proof.
  induction s as [|c s IH]; intro H; [exists []; auto|]. cbn.
  destruct (c =? 0) eqn:E; [apply N.eqb_eq in E; exfalso; apply H; left; auto|].
  destruct (is_space c) eqn:S; [|exists []; auto].
  destruct IH as [u [E1 E2]]; [intro; apply H; right; auto|]. exists (c :: u). split; [cbn; congruence|].
  constructor; auto. apply is_space_char. auto.
Qed.
Lemma ignorable_spaces : forall u w, Forall space_char u -> ignorable w -> ignorable (u ++ w).
Proof. intros u w H Hw. induction H; auto. cbn. constructor; auto. Qed.
Lemma get_tok_nop : forall s tok r, get_tok s = Ok (tok, r) -> t_type tok = T_Nop -> exists c, comment c /\ s = c ++ r.
Proof.
  intros s tok r E Ht. pose proof E as E'. unfold get_tok in E.
  destruct (strip_prefix (lit "(:") s) as [s1|] eqn:S1.
  { apply strip_prefix_some in S1. subst s. assert (tok = mkTok T_Nop []).
    { destruct (xskip_comment 1 s1); [injection E as <- <-; auto|discriminate]. }
    subst tok. apply get_tok_comment_inv in E'. exact E'. }
  exfalso. destruct (strip_prefix (lit "Q{") s) as [s2|].
  { destruct (fetch_until 125 s) as [[l r']|]; [injection E as <- <-|]; discriminate. }
  destruct (find_keyword keywords s) as [[t' r']|] eqn:K.
  { injection E as -> ->. apply keyword_type in K. unfold keywords in K.
    repeat (destruct K as [K|K]; [apply (f_equal snd) in K; cbn in K; congruence|]). destruct K. }
  destruct s as [|x s]; [injection E as <- <-; discriminate|].
  destruct (x =? 0) eqn:E0; [injection E as <- <-; discriminate|].
  destruct (xis_name_start_char x).
  { destruct (fetch_name s). injection E as <- <-. discriminate. }
  destruct ((x =? 34) || (x =? 39)).
  { destruct (fetch_string_literal x s) as [[l r']|]; [injection E as <- <-|]; discriminate. }
  assert (NN : forall s0, fetch_numerics s0 = Ok (tok, r) -> False).
  { intros s0 F. unfold fetch_numerics in F. destruct (fetch_numeric_literal s0) as [[l r']|]; [|discriminate].
    destruct (mem_char 101 l || mem_char 69 l); [|destruct (mem_char 46 l)]; injection F as <- <-; discriminate. }
  destruct (xis_digit x); [eapply NN; eauto|]. destruct (x =? 46); [|discriminate].
  destruct (xis_digit (xpeek s)); [eapply NN; eauto|]. injection E as <- <-. discriminate.
Qed.
Lemma no_tokens_ignorable : forall n s, (List.length s < n)%nat -> ~ In 0 s -> raw_tokens s = Ok [] -> ignorable s.
Proof.
  induction n as [|n IH]; intros s Hn H0 E; [lia|]. rewrite raw_tokens_unfold in E.
  destruct (skip_spaces_ignorable s H0) as [u [Eu Hu]].
  assert (N1 : ~ In 0 (xskip_spaces s)) by (rewrite Eu in H0; eapply not_in_suffix; eauto).
  destruct (get_tok (xskip_spaces s)) as [[tok r]|e| |] eqn:G; cbn [bind] in E; try discriminate.
  rewrite Eu. apply ignorable_spaces; auto.
  destruct (t_type tok) eqn:T; try (destruct (raw_tokens r); discriminate).
  - rewrite (get_tok_eof _ _ _ N1 G T). constructor.
  - pose proof (get_tok_length _ _ _ G ltac:(congruence)) as L. pose proof (skip_spaces_length s).
    destruct (get_tok_nop _ _ _ G T) as [c [Hc Ec]]. rewrite Ec in N1. rewrite Ec. apply ig_comment; [exact Hc|].
    apply IH; [lia| |exact E]. exact (not_in_suffix _ _ _ N1).
Qed.

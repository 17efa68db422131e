(* Integers in decimal notation: lemmas for C57. *)
Require Import Bool List NArith ZArith Lia Decimal DecimalFacts DecimalN DecimalPos.
From Verif Require Import Str StrFacts Num SpecInt.
Import List ListNotations.
Open Scope N_scope.

Lemma digit_of_ok : forall c, 48 <= c <= 57 -> digit_of c = Some (c - 48).
Proof. intros c H. unfold digit_of. destruct (N.leb_spec 48 c); [|lia]. destruct (N.leb_spec c 57); [reflexivity|lia]. Qed.
Lemma read_digits_ok : forall s acc n, all_digits s ->
  read_digits acc n s = (fold_left (fun v c => 10 * v + (c - 48)) s acc, (n + List.length s)%nat, []).
Proof.
  induction s as [|c s IH]; intros acc n D.
  - cbn. f_equal. f_equal. lia.
  - inversion D as [|? ? H1 H2]; subst. cbn [read_digits]. rewrite (digit_of_ok c H1), IH by auto.
    cbn [fold_left List.length]. replace (acc * 10 + (c - 48)) with (10 * acc + (c - 48)) by lia.
    f_equal. f_equal. lia.
Qed.
Lemma digit_not_white : forall c, 48 <= c <= 57 -> is_white c = false.
Proof.
  intros c H. unfold is_white. rewrite !orb_false_iff, !andb_false_iff, !N.eqb_neq, !N.leb_gt. lia.
Qed.
Lemma trim_left_head : forall c s, is_white c = false -> trim_left (c :: s) = c :: s.
Proof. intros c s H. cbn. rewrite H. reflexivity. Qed.
Lemma rev_last_digit : forall d, all_digits d -> d <> [] -> exists c r, rev d = c :: r /\ is_white c = false.
Proof.
  intros d D N. destruct (rev d) as [|c r] eqn:E.
  - destruct N. rewrite <- (rev_involutive d), E. reflexivity.
  - exists c, r. split; auto. apply digit_not_white. unfold all_digits in D. rewrite Forall_forall in D. apply D, in_rev. rewrite E. left; auto.
Qed.
Lemma trim_digits : forall d, all_digits d -> d <> [] -> trim d = d.
Proof.
  intros d D N. unfold trim. destruct d as [|c d]; [congruence|].
  rewrite (trim_left_head c d) by (apply digit_not_white; inversion D; auto).
  destruct (rev_last_digit _ D N) as [a [r [E W]]]. rewrite E, trim_left_head, <- E, rev_involutive by auto. reflexivity.
Qed.
Lemma trim_signed : forall s d, is_white s = false -> all_digits d -> d <> [] -> trim (s :: d) = s :: d.
Proof.
  intros s d W D N. unfold trim. rewrite trim_left_head by auto.
  destruct (rev_last_digit _ D N) as [a [r [E V]]]. cbn [rev]. rewrite E. cbn [app]. rewrite trim_left_head by auto.
  change (a :: r ++ [s]) with ((a :: r) ++ [s]). rewrite <- E, rev_app_distr, rev_involutive. reflexivity.
Qed.
Lemma trim_left_white : forall c s, is_white c = true -> trim_left (c :: s) = trim_left s.
Proof. intros c s H. cbn. rewrite H. reflexivity. Qed.
Lemma trim_before : forall c s, is_white c = true -> trim (c :: s) = trim s.
Proof. intros c s H. unfold trim. rewrite trim_left_white by auto. reflexivity. Qed.
Lemma trim_left_snoc : forall s c, (exists x, In x s /\ is_white x = false) -> trim_left (s ++ [c]) = trim_left s ++ [c].
Proof.
  induction s as [|a s IH]; intros c [x [I W]]; [destruct I|]. cbn [app trim_left]. destruct (is_white a) eqn:A; [|reflexivity].
  apply IH. destruct I as [->|I]; [congruence|]. eauto.
Qed.
Lemma trim_after : forall c s, is_white c = true -> (exists x, In x s /\ is_white x = false) -> trim (s ++ [c]) = trim s.
Proof.
  intros c s H E. unfold trim. rewrite trim_left_snoc by auto. rewrite rev_app_distr. cbn [rev app].
  rewrite trim_left_white by auto. reflexivity.
Qed.
Lemma white_four : forall c, In c [9; 10; 13; 32] -> is_white c = true.
Proof. intros c H. repeat (destruct H as [<-|H]; [reflexivity|]). destruct H. Qed.
Lemma integer_text_digit : forall s z, integer_text s z -> exists x, In x s /\ is_white x = false.
Proof.
  assert (K : forall d, all_digits d -> d <> [] -> exists x, In x d /\ is_white x = false).
  { intros d D N. destruct d as [|c d]; [congruence|]. exists c. split; [left; auto|]. apply digit_not_white. inversion D; auto. }
  intros s z H. induction H.
  - auto.
  - exists 43. split; [left; auto|reflexivity].
  - exists 45. split; [left; auto|reflexivity].
  - destruct IHinteger_text as [x [I W]]. exists x. split; [right; auto|auto].
  - destruct IHinteger_text as [x [I W]]. exists x. split; [apply in_or_app; auto|auto].
Qed.
Lemma parse_digits : forall d, all_digits d -> d <> [] -> forall s r, read_sign r = (s, d) ->
  parse_i64 r = (let z := signed s (Z.of_N (numeral d)) in if in_i64 z then Some z else None).
Proof.
  intros d D N s r R. unfold parse_i64. rewrite R, read_digits_ok by auto. destruct d as [|c d]; [congruence|]. reflexivity.
Qed.
Lemma read_sign_digits : forall d, all_digits d -> read_sign d = (false, d).
Proof.
  intros [|c d] D; [reflexivity|]. inversion D as [|? ? H1 H2]; subst. cbn [read_sign].
  destruct (N.eqb_spec c 45); [lia|]. destruct (N.eqb_spec c 43); [lia|]. reflexivity.
Qed.
Lemma atoi_text : forall s z, integer_text s z -> atoi s = if in_i64 z then z else 0%Z.
Proof.
  intros s z H. unfold atoi. assert (K : parse_i64 (trim s) = if in_i64 z then Some z else None).
  2: { rewrite K. destruct (in_i64 z); reflexivity. }
  induction H as [d D N|d D N|d D N|c s z W H IH|c s z W H IH].
  - rewrite trim_digits by auto. erewrite parse_digits; eauto using read_sign_digits. reflexivity.
  - rewrite trim_signed by auto. erewrite parse_digits; eauto. 2: reflexivity. reflexivity.
  - rewrite trim_signed by auto. erewrite parse_digits; eauto. 2: reflexivity. reflexivity.
  - rewrite trim_before by auto using white_four. exact IH.
  - rewrite trim_after; eauto using white_four, integer_text_digit.
Qed.

(* writing *)
Lemma uint_digits : forall u, all_digits (uint_str u).
Proof. induction u; cbn [uint_str]; constructor; auto; lia. Qed.
Lemma uint_numeral : forall u a, fold_left (fun v c => 10 * v + (c - 48)) (uint_str u) (Npos a) = Npos (Pos.of_uint_acc u a).
Proof.
  induction u; intro a; cbn [uint_str fold_left Pos.of_uint_acc]; [reflexivity|..]; rewrite <- IHu; f_equal; lia.
Qed.
Lemma uint_numeral0 : forall u, numeral (uint_str u) = N.of_uint u.
Proof.
  unfold numeral, N.of_uint. induction u; cbn [uint_str fold_left Pos.of_uint]; [reflexivity|exact IHu|..];
    rewrite <- uint_numeral; f_equal.
Qed.
Lemma fmt_N_numeral : forall n, numeral (fmt_N n) = n.
Proof. intro n. unfold fmt_N. rewrite uint_numeral0. apply DecimalN.Unsigned.of_to. Qed.
Lemma fmt_N_canonical : forall n, canonical (fmt_N n) /\ fmt_N n <> [].
Proof.
  intro n. unfold fmt_N, canonical. destruct n as [|p].
  - split; [left; reflexivity|discriminate].
  - assert (H : unorm (N.to_uint (Npos p)) = N.to_uint (Npos p)).
    { rewrite <- DecimalN.Unsigned.to_of, DecimalN.Unsigned.of_to. reflexivity. }
    assert (Z : N.to_uint (Npos p) <> zero).
    { intro E. apply (f_equal N.of_uint) in E. rewrite DecimalN.Unsigned.of_to in E. discriminate E. }
    assert (L : forall u, unorm u = u -> u <> zero -> exists c r, uint_str u = c :: r /\ c <> 48).
    { intros u U Q. destruct u; cbn [uint_str]; try (do 2 eexists; split; [reflexivity|discriminate]).
      - discriminate U.
      - exfalso. cbn in U. assert (LE := nb_digits_unorm u). 
        destruct (uint_eq_dec u Nil) as [->|NE]; [apply Q; reflexivity|].
        assert (K : (nb_digits (unorm u) <= nb_digits u)%nat).
        { destruct u; [congruence|..]; auto using nb_digits_unorm; apply nb_digits_unorm; discriminate. }
        apply (f_equal nb_digits) in U. unfold unorm in U at 1. cbn [nb_digits] in U. unfold unorm in K. cbn [nzhead] in U. destruct (nzhead u); cbn [nb_digits] in *; lia. }
    destruct (L _ H Z) as [c [r [E N]]]. rewrite E. split; [right; eauto|discriminate].
Qed.
Lemma fmt_i64_notation : forall z, notation_of z (fmt_i64 z).
Proof.
  intro z. unfold fmt_i64, notation_of. destruct (Z.ltb_spec z 0).
  - exists (fmt_N (Z.to_N (- z))). split; [apply uint_digits|]. split; [apply fmt_N_canonical|]. split; [apply fmt_N_canonical|].
    right. split; auto. split; auto. rewrite fmt_N_numeral. lia.
  - exists (fmt_N (Z.to_N z)). split; [apply uint_digits|]. split; [apply fmt_N_canonical|]. split; [apply fmt_N_canonical|].
    left. split; auto. split; auto. rewrite fmt_N_numeral. lia.
Qed.
Lemma notation_text : forall z s, notation_of z s -> integer_text s z.
Proof.
  intros z s [d [D [N [_ [[Z1 [-> E]]|[Z1 [-> E]]]]]]].
  - rewrite <- E. constructor; auto.
  - replace z with (- Z.of_N (numeral d))%Z by lia. apply it_minus; auto.
Qed.
(* a number has one notation *)
Lemma numeral_acc : forall s a, fold_left (fun v c => 10 * v + (c - 48)) s a = a * 10 ^ N.of_nat (List.length s) + numeral s.
Proof.
  unfold numeral. induction s as [|c s IH]; intro a; cbn [fold_left List.length]; [cbn; lia|].
  rewrite (IH (10 * a + (c - 48))), (IH (10 * 0 + (c - 48))). rewrite Nat2N.inj_succ, N.pow_succ_r'. lia.
Qed.
Lemma numeral_bound : forall s, all_digits s -> numeral s < 10 ^ N.of_nat (List.length s).
Proof.
  induction s as [|c s IH]; intro D; [cbn; lia|]. inversion D as [|? ? H1 H2]; subst. specialize (IH H2). unfold numeral.
  cbn [fold_left List.length]. rewrite numeral_acc, Nat2N.inj_succ, N.pow_succ_r'. nia.
Qed.
Lemma numeral_inj : forall s t, all_digits s -> all_digits t -> List.length s = List.length t -> numeral s = numeral t -> s = t.
Proof.
  induction s as [|c s IH]; intros [|d t] D E L H; try discriminate L; auto.
  injection L as L. inversion D as [|? ? D1 D2]; inversion E as [|? ? E1 E2]; subst.
  unfold numeral in H. cbn [fold_left] in H. rewrite !numeral_acc in H.
  assert (B1 := numeral_bound s D2). assert (B2 := numeral_bound t E2). rewrite <- L in *.
  assert (c = d) by nia. subst d. f_equal. apply IH; auto. lia.
Qed.
Lemma canonical_length : forall s t, all_digits s -> all_digits t -> canonical s -> canonical t -> t <> [] ->
  numeral s = numeral t -> (List.length s <= List.length t)%nat.
Proof.
  intros s t D E [->|[c [r [-> C]]]] Ct N H.
  - destruct t; [congruence|]. cbn. lia.
  - inversion D as [|? ? D1 D2]; subst. assert (B := numeral_bound t E). unfold numeral in H at 1. cbn [fold_left] in H. rewrite numeral_acc in H.
    assert (P : 10 ^ N.of_nat (List.length r) < 10 ^ N.of_nat (List.length t)) by nia.
    apply N.pow_lt_mono_r_iff in P; [|lia]. cbn [List.length]. lia.
Qed.
Lemma notation_unique : forall z s t, notation_of z s -> notation_of z t -> s = t.
Proof.
  assert (K : forall d e, all_digits d -> all_digits e -> canonical d -> canonical e -> d <> [] -> e <> [] -> numeral d = numeral e -> d = e).
  { intros d e D E Cd Ce Nd Ne H. apply numeral_inj; auto. apply Nat.le_antisymm; apply canonical_length; auto. }
  intros z s t [d [D [N [C [[Z1 [-> E]]|[Z1 [-> E]]]]]]] [e [D' [N' [C' [[Z2 [-> E']]|[Z2 [-> E']]]]]]]; try lia.
  - apply K; auto. lia.
  - f_equal. apply K; auto. lia.
Qed.

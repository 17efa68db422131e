(* Reading and writing decimal notation: dec_to_f64 is correctly rounded, and what fmt_f64 writes reads back as the same number. *)
From Flocq Require Import Core BinarySingleNaN.
Require Import Ascii String Bool List NArith ZArith Lia Reals Lra.
Require Import Coq.Floats.SpecFloat.
From Verif Require Import Str StrFacts Num Item Func SpecInt IntFacts FloatFacts SpecNum SpecDbl FloatRound.
Import List ListNotations.
Open Scope Z_scope.

Definition dec_val (s : bool) (m : N) (e : Z) : R := (IZR (signed s (Z.of_N m)) * powerRZ 10 e)%R.

Lemma pow10_nat p : (10 ^ Pos.to_nat p)%R = IZR (10 ^ Z.pos p).
Proof. rewrite pow_IZR, positive_nat_Z. reflexivity. Qed.
Lemma powerRZ_pos_IZR e : 0 <= e -> powerRZ 10 e = IZR (10 ^ e).
Proof. intro H. destruct e as [|p|p]; [reflexivity| |lia]. apply pow10_nat. Qed.
Lemma powerRZ_neg_IZR e : e < 0 -> powerRZ 10 e = (/ IZR (10 ^ (- e)))%R.
Proof. intro H. destruct e as [|p|p]; try lia. change (/ 10 ^ Pos.to_nat p = / IZR (10 ^ Z.pos p))%R. f_equal. apply pow10_nat. Qed.
Lemma Bsign_B2SF x : Bsign x = sign_SF (B2SF (prec:=prec64) (emax:=emax64) x).
Proof. destruct x; reflexivity. Qed.
Lemma signed_sign s p : Rlt_bool (IZR (signed s (Z.pos p))) 0 = s /\ Rcompare (IZR (signed s (Z.pos p))) 0 = if s then Lt else Gt.
Proof.
  destruct s; cbn [signed].
  - assert (IZR (- Z.pos p) < 0)%R by (apply (IZR_lt _ 0); lia). split; [apply Rlt_bool_true|apply Rcompare_Lt]; auto.
  - assert (0 < IZR (Z.pos p))%R by (apply (IZR_lt 0); lia). split; [apply Rlt_bool_false; lra|apply Rcompare_Gt]; auto.
Qed.
Lemma div_equiv s mx my : (let '(q, e', l) := SFdiv_core_binary prec64 emax64 (Z.pos mx) 0 (Z.pos my) 0 in
     SpecFloat.binary_round_aux prec64 emax64 s q e' l)
  = (let '(mz, ez, lz) := SFdiv_core_binary prec64 emax64 (Z.pos mx) 0 (Z.pos my) 0 in BinarySingleNaN.binary_round_aux prec64 emax64 mode_NE (xorb s false) mz ez lz).
Proof. destruct SFdiv_core_binary as [[q e'] l]. rewrite binary_round_aux_equiv, xorb_false_r. reflexivity. Qed.

Lemma dec_to_f64_rnd s p e : let v := dec_val s (Npos p) e in
  valid (dec_to_f64 s (Npos p) e) /\
  if Rlt_bool (Rabs (rnd64 v)) (bpow radix2 emax64)
  then real (dec_to_f64 s (Npos p) e) = rnd64 v /\ is_finite_SF (dec_to_f64 s (Npos p) e) = true /\ sign_SF (dec_to_f64 s (Npos p) e) = s
  else dec_to_f64 s (Npos p) e = S754_infinity s.
Proof.
  intro v. unfold dec_to_f64. destruct (0 <=? e) eqn:E.
  - apply Z.leb_le in E. assert (P : 0 < 10 ^ e) by (apply Z.pow_pos_nonneg; lia).
    assert (V : F2R (Float radix2 (signed s (Z.pos p * 10 ^ e)) 0) = v).
    { unfold v, dec_val. rewrite powerRZ_pos_IZR by auto. unfold F2R. cbn [Fnum Fexp bpow]. rewrite Rmult_1_r, <- mult_IZR.
      f_equal. cbn [Z.of_N]. unfold signed. destruct s; ring. }
    assert (SG := V). unfold F2R in SG. cbn [Fnum Fexp bpow] in SG. rewrite Rmult_1_r in SG.
    destruct (Z.pos p * 10 ^ e) as [|q|q] eqn:Q; try lia.
    assert (SV := signed_sign s q). rewrite SG in SV.
    rewrite binary_normalize_equiv. split; [apply valid_B2SF|].
    assert (C := binary_normalize_correct prec64 emax64 _ _ mode_NE (signed s (Z.pos q)) 0 s). cbn [round_mode] in C.
    rewrite V in C. rewrite SF2R_B2SF, is_finite_SF_B2SF. destruct (Rlt_bool (Rabs _) _) eqn:L.
    + destruct C as [C [D S]]. split; [exact C|]. split; [exact D|]. rewrite <- Bsign_B2SF. rewrite S. rewrite (proj2 SV). destruct s; reflexivity.
    + rewrite C, (proj1 SV). reflexivity.
  - apply Z.leb_gt in E. assert (P : 0 < 10 ^ (- e)) by (apply Z.pow_pos_nonneg; lia).
    destruct (10 ^ (- e)) as [|q|q] eqn:Q; try lia. rewrite div_equiv.
    assert (C := Bdiv_correct_aux prec64 emax64 _ _ mode_NE s p 0 false q 0). cbn [round_mode] in C.
    cbv zeta in C. destruct SFdiv_core_binary as [[mz ez] lz]. destruct C as [C1 C2]. split; [exact C1|].
    assert (V : (F2R (Float radix2 (cond_Zopp s (Z.pos p)) 0) / F2R (Float radix2 (cond_Zopp false (Z.pos q)) 0))%R = v).
    { unfold v, dec_val. rewrite powerRZ_neg_IZR by auto. rewrite Q. unfold F2R. cbn [Fnum Fexp bpow cond_Zopp]. rewrite !Rmult_1_r.
      rewrite ?signed_cond. reflexivity. }
    rewrite V in C2. rewrite xorb_false_r in *. exact C2.
Qed.
Lemma dec_val_sign s p e : Rlt_bool (dec_val s (Npos p) e) 0 = s.
Proof.
  unfold dec_val. cbn [Z.of_N]. assert (P : (0 < powerRZ 10 e)%R) by (apply powerRZ_lt; lra).
  destruct s; cbn [signed].
  - apply Rlt_bool_true. assert (IZR (- Z.pos p) < 0)%R by (apply (IZR_lt _ 0); lia).
    rewrite <- (Rmult_0_l (powerRZ 10 e)). apply Rmult_lt_compat_r; auto.
  - apply Rlt_bool_false. assert (0 < IZR (Z.pos p))%R by (apply (IZR_lt 0); lia). apply Rlt_le, Rmult_lt_0_compat; auto.
Qed.
Lemma dec_to_f64_zero s e : dec_to_f64 s 0 e = S754_zero s.
Proof. reflexivity. Qed.
Lemma dec_to_f64_correct s m e : correctly_rounded (dec_val s m e) (dec_to_f64 s m e) /\ sign_SF (dec_to_f64 s m e) = s.
Proof.
  destruct m as [|p].
  - rewrite dec_to_f64_zero. split; [|reflexivity]. apply rounded_correct; [reflexivity|].
    assert (Z : dec_val s 0 e = 0%R) by (unfold dec_val; destruct s; cbn; ring). rewrite Z.
    rewrite round_0 by auto with typeclass_instances. rewrite Rabs_R0, Rlt_bool_true by apply bpow_gt_0. split; reflexivity.
  - destruct (dec_to_f64_rnd s p e) as [V H]. split.
    + apply rounded_correct; auto. rewrite dec_val_sign. destruct (Rlt_bool (Rabs _) _); tauto.
    + destruct (Rlt_bool (Rabs _) _); [tauto|rewrite H; reflexivity].
Qed.
(* the result depends on the value and the sign only *)
Lemma same_float x y : valid x -> valid y -> is_finite_SF x = true -> is_finite_SF y = true -> real x = real y -> sign_SF x = sign_SF y -> x = y.
Proof.
  intros Vx Vy Fx Fy R S. assert (Q := B2R_Bsign_inj prec64 emax64 (b64 x Vx) (b64 y Vy)).
  rewrite !is_finite_SF2B, !B2R_SF2B, !Bsign_SF2B in Q. specialize (Q Fx Fy R S).
  rewrite <- (B2SF_SF2B prec64 emax64 x Vx), <- (B2SF_SF2B prec64 emax64 y Vy). f_equal. exact Q.
Qed.
Lemma dec_to_f64_ext s m e m' e' : dec_val s m e = dec_val s m' e' -> dec_to_f64 s m e = dec_to_f64 s m' e'.
Proof.
  intro H. destruct (dec_to_f64_correct s m e) as [C S]. destruct (dec_to_f64_correct s m' e') as [C' S']. rewrite <- H in C'.
  destruct (correctly_rounded_unique _ _ _ C C') as [(F & F' & V)|E]; [|exact E].
  apply same_float; [apply C|apply C'|apply finite_iff; auto|apply finite_iff; auto|rewrite <- !val_real; exact V|congruence].
Qed.

(* ------------------------------------------------------------------ reading *)
Lemma dec_val_spec b m e : dec_val b m e = decimal_value b m e.
Proof. unfold dec_val, decimal_value, signed. destruct b; [rewrite opp_IZR|]; reflexivity. Qed.
Definition no_digit (s : str) : Prop := match s with [] => True | c :: _ => digit_of c = None end.
Lemma read_digits_stop : forall s r acc n, all_digits s -> no_digit r ->
  read_digits acc n (s ++ r) = (fold_left (fun v c => 10 * v + (c - 48))%N s acc, (n + List.length s)%nat, r).
Proof.
  induction s as [|c s IH]; intros r acc n D R.
  - cbn [app fold_left List.length]. rewrite Nat.add_0_r. destruct r as [|c r]; [reflexivity|]. cbn [read_digits]. cbn [no_digit] in R. rewrite R. reflexivity.
  - inversion D as [|? ? H1 H2]; subst. cbn [app read_digits]. rewrite (digit_of_ok c H1), IH by auto.
    cbn [fold_left List.length]. replace (acc * 10 + (c - 48))%N with (10 * acc + (c - 48))%N by lia.
    f_equal. f_equal. lia.
Qed.
(* the rest of the text after the mantissa *)
Lemma parse_exp_text t k c : exponent_text t k -> c = 101%N \/ c = 69%N -> parse_exp (c :: t) = Some k.
Proof.
  intros T C. unfold parse_exp.
  assert (Q : ((c =? 101) || (c =? 69))%N = true) by (apply orb_true_iff; rewrite !N.eqb_eq; exact C). rewrite Q.
  destruct T as [d D N|d D N|d D N].
  - rewrite read_sign_digits by auto. rewrite read_digits_ok by auto. destruct d; [congruence|]. reflexivity.
  - cbn [read_sign]. change (43 =? 45)%N with false. change (43 =? 43)%N with true. cbv iota.
    rewrite read_digits_ok by auto. destruct d; [congruence|]. reflexivity.
  - cbn [read_sign]. change (45 =? 45)%N with true. cbv iota. rewrite read_digits_ok by auto. destruct d; [congruence|]. reflexivity.
Qed.
Lemma digit_lower c : (48 <= c <= 57)%N -> lower_ascii c = c.
Proof. intro H. unfold lower_ascii. destruct (N.leb_spec 65 c); cbn [andb]; [lia|reflexivity]. Qed.
Lemma word_no w1 w c s : ~ (97 <= c <= 122)%N -> ~ (65 <= c <= 90)%N -> w1 = w -> (exists a r, w = a :: r /\ 97 <= a <= 122)%N ->
  str_eqb (map lower_ascii (c :: s)) w1 = false.
Proof.
  intros H H' -> (a & r & -> & A). apply str_eqb_neq. cbn [map]. intro E. inversion E as [[E1 E2]].
  unfold lower_ascii in *. destruct (N.leb_spec 65 c); cbn [andb] in *; [destruct (N.leb_spec c 90)|]; lia.
Qed.
Definition starts_number (s : str) : Prop := match s with c :: _ => (48 <= c <= 57)%N \/ c = 46%N | [] => False end.
Lemma parse_f64_number r t s neg v1 n1 r1 v2 n2 r2 k : read_sign r = (neg, s) -> t = r -> starts_number s ->
  read_digits 0 0 s = (v1, n1, r1) ->
  (match r1 with c :: r' => if (c =? 46)%N then read_digits v1 0 r' else (v1, O, r1) | [] => (v1, O, r1) end) = (v2, n2, r2) ->
  (n1 + n2 <> 0)%nat -> parse_exp r2 = Some k -> parse_f64 t = Some (dec_to_f64 neg v2 (k - Z.of_nat n2)).
Proof.
  intros RS -> ST R1 R2 N K. unfold parse_f64. rewrite RS.
  destruct s as [|c s]; [destruct ST|]. cbn [starts_number] in ST.
  assert (~ (97 <= c <= 122)%N) by lia. assert (~ (65 <= c <= 90)%N) by lia.
  rewrite (word_no _ (lit "inf") c s); auto; [|exists 105%N; eexists; split; [reflexivity|lia]].
  rewrite (word_no _ (lit "infinity") c s); auto; [|exists 105%N; eexists; split; [reflexivity|lia]].
  rewrite (word_no _ (lit "nan") c s); auto; [|exists 110%N; eexists; split; [reflexivity|lia]].
  cbn [orb]. rewrite R1, R2. destruct (n1 + n2)%nat; [congruence|]. rewrite K. reflexivity.
Qed.
Lemma numeral_app a b : numeral (a ++ b) = fold_left (fun v c => 10 * v + (c - 48))%N b (numeral a).
Proof. unfold numeral. apply fold_left_app. Qed.
Lemma unsigned_starts s m e : unsigned_text s m e -> starts_number s.
Proof.
  assert (M : forall s m e, mantissa_text s m e -> starts_number s).
  { intros s' m' e' [d D N|d f D F N]; (destruct d as [|c d]; [|left; inversion D; auto]); [congruence|]. right. reflexivity. }
  intros [s' m' e' H|s' m' e' c t k H C T]; [eapply M; eauto|]. specialize (M _ _ _ H). destruct s'; [destruct M|exact M].
Qed.
Lemma unsigned_read s m e : unsigned_text s m e -> forall r neg, read_sign r = (neg, s) -> parse_f64 r = Some (dec_to_f64 neg m e).
Proof.
  intros U r neg RS. assert (ST := unsigned_starts _ _ _ U).
  assert (K : exists tail k e0 s0, s = s0 ++ tail /\ mantissa_text s0 m e0 /\ parse_exp tail = Some k /\ e = e0 + k /\ no_digit tail /\
              (match tail with c :: _ => (c =? 46)%N = false | [] => True end)).
  { destruct U as [s m e H|s m e c t k H C T].
    - exists [], 0, e, s. rewrite app_nil_r. repeat split; auto; lia.
    - exists (c :: t), k, e, s. repeat split; auto; [apply parse_exp_text; auto| |].
      + cbn [no_digit]. destruct C as [-> | ->]; reflexivity.
      + destruct C as [-> | ->]; reflexivity. }
  destruct K as (tail & k & e0 & s0 & -> & M & PE & -> & ND & NP).
  destruct M as [d D N|d f D F N].
  - replace (0 + k) with (k - Z.of_nat 0) by lia. eapply parse_f64_number; eauto.
    + apply read_digits_stop; auto.
    + destruct tail as [|c t]; [reflexivity|]. rewrite NP. reflexivity.
    + destruct d; [congruence|]. cbn. lia.
  - replace (- Z.of_nat (List.length f) + k) with (k - Z.of_nat (List.length f)) by lia.
    rewrite numeral_app. eapply parse_f64_number; eauto.
    + rewrite <- app_assoc. apply read_digits_stop; [auto|reflexivity].
    + cbn [app]. change (46 =? 46)%N with true. cbv iota. rewrite read_digits_stop by auto. reflexivity.
    + intro Z. apply N. destruct d; [|cbn in Z; lia]. destruct f; [reflexivity|cbn in Z; lia].
Qed.
Definition clean (c : char) : Prop := is_white c = false.
Lemma exponent_clean t k : exponent_text t k -> Forall clean t.
Proof.
  assert (A : forall d, all_digits d -> Forall clean d) by (intros d D; eapply Forall_impl; [|exact D]; intros; apply digit_not_white; auto).
  intros [d D _|d D _|d D _]; repeat constructor; auto.
Qed.
Lemma unsigned_clean s m e : unsigned_text s m e -> Forall clean s.
Proof.
  assert (A : forall d, all_digits d -> Forall clean d) by (intros d D; eapply Forall_impl; [|exact D]; intros; apply digit_not_white; auto).
  assert (M : forall s m e, mantissa_text s m e -> Forall clean s).
  { intros s' m' e' [d D N|d f D F N]; auto. apply Forall_app. split; auto. constructor; auto. reflexivity. }
  intros [s' m' e' H|s' m' e' c t k H C T]; eauto. apply Forall_app. split; eauto. constructor; [destruct C as [-> | ->]; reflexivity|].
  eapply exponent_clean; eauto.
Qed.
Lemma trim_clean s : Forall clean s -> trim s = s.
Proof.
  intro C. assert (L : forall t, Forall clean t -> trim_left t = t) by (intros [|a t] F; [reflexivity|]; cbn; inversion F as [|? ? X]; rewrite X; reflexivity).
  unfold trim. rewrite (L s C), (L (rev s)) by (apply Forall_rev; auto). apply rev_involutive.
Qed.
Lemma decimal_text_clean s b m e : decimal_text s b m e -> exists x, In x s /\ is_white x = false.
Proof.
  intro H. induction H as [s m e U|s m e U|s m e U|c s b m e W H IH|c s b m e W H IH].
  - assert (S := unsigned_starts _ _ _ U). assert (C := unsigned_clean _ _ _ U). destruct s as [|c s]; [destruct S|].
    exists c. split; [left; auto|inversion C; auto].
  - exists 43%N. split; [left; auto|reflexivity].
  - exists 45%N. split; [left; auto|reflexivity].
  - destruct IH as (x & I & X). exists x. split; [right; auto|auto].
  - destruct IH as (x & I & X). exists x. split; [apply in_or_app; auto|auto].
Qed.
Lemma read_sign_number s : starts_number s -> read_sign s = (false, s).
Proof.
  destruct s as [|c s]; intro H; [destruct H|]. cbn [starts_number] in H. cbn [read_sign].
  destruct (N.eqb_spec c 45); [lia|]. destruct (N.eqb_spec c 43); [lia|]. reflexivity.
Qed.
Lemma atof_text s b m e : decimal_text s b m e -> atof s = dec_to_f64 b m e.
Proof.
  intro H. unfold atof. assert (K : parse_f64 (trim s) = Some (dec_to_f64 b m e)); [|rewrite K; reflexivity].
  induction H as [s m e U|s m e U|s m e U|c s b m e W H IH|c s b m e W H IH].
  - rewrite trim_clean by (eapply unsigned_clean; eauto). eapply unsigned_read; eauto. apply read_sign_number. eapply unsigned_starts; eauto.
  - rewrite trim_clean by (constructor; [reflexivity|eapply unsigned_clean; eauto]). eapply unsigned_read; eauto.
  - rewrite trim_clean by (constructor; [reflexivity|eapply unsigned_clean; eauto]). eapply unsigned_read; eauto.
  - rewrite trim_before by auto using white_four. exact IH.
  - rewrite trim_after; eauto using white_four, decimal_text_clean.
Qed.

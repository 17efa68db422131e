(* What fmt_f64 writes reads back as the same number: 17 digits are enough. *)
From Flocq Require Import Core BinarySingleNaN.
Require Import Ascii String Bool List NArith ZArith Lia Reals Lra Psatz.
Require Import Coq.Floats.SpecFloat.
From Verif Require Import Str StrFacts Num Item Func SpecInt IntFacts FloatFacts SpecNum SpecDbl FloatRound FloatText.
Import List ListNotations.
Open Scope Z_scope.

Notation tenth k := (powerRZ 10 k) (only parsing).
Lemma ten_pos k : (0 < powerRZ 10 k)%R.
Proof. apply powerRZ_lt; lra. Qed.
Lemma ten_add a b : powerRZ 10 (a + b) = (powerRZ 10 a * powerRZ 10 b)%R.
Proof. apply powerRZ_add. lra. Qed.

(* ---- numbers near a double are rounded to it ---- *)
Lemma near_rounds m e w u : valid (S754_finite false m e) ->
  let v := real (S754_finite false m e) in
  (0 < u)%R -> (u * IZR (10 ^ 16) <= v)%R -> (Rabs (w - v) <= u / 2)%R -> rnd64 w = v.
Proof.
  intros V v U B D. assert (F : generic_format radix2 fexp64 v) by (apply valid_format; auto).
  destruct (valid_bounds _ _ _ V) as [M E].
  assert (P : (0 < bpow radix2 e)%R) by apply bpow_gt_0.
  assert (VE : v = (IZR (Z.pos m) * bpow radix2 e)%R) by reflexivity.
  assert (MP : (0 < IZR (Z.pos m))%R) by (apply (IZR_lt 0); lia).
  assert (VP : (0 < v)%R) by (rewrite VE; apply Rmult_lt_0_compat; auto).
  assert (CE : cexp radix2 fexp64 v = e).
  { assert (C := canonical_of false m e V). unfold canonical in C. cbn [Fexp signed] in C. symmetry. exact C. }
  assert (UL : ulp radix2 fexp64 v = bpow radix2 e) by (rewrite ulp_neq_0 by lra; rewrite CE; reflexivity).
  assert (K16 : IZR (10 ^ 16) = 10000000000000000%R) by reflexivity.
  assert (M53 : (IZR (Z.pos m) <= 9007199254740992)%R) by (apply (IZR_le _ (2 ^ 53)); lia).
  assert (UB : (u < bpow radix2 e)%R) by (rewrite VE in B; nra).
  apply Rle_antisym.
  - apply round_N_le_midp; auto with typeclass_instances. rewrite succ_eq_pos by lra. rewrite UL.
    apply Rle_lt_trans with (v + u / 2)%R; [|lra]. unfold Rabs in D. destruct Rcase_abs in D; lra.
  - apply round_N_ge_midp; auto with typeclass_instances.
    assert (PV : (pred radix2 fexp64 v < v - u)%R).
    { rewrite pred_eq_pos by lra. unfold pred_pos. destruct (Req_bool_spec v (bpow radix2 (mag radix2 v - 1))) as [Q|Q].
      - assert (FE : e - 1 <= fexp64 (mag radix2 v - 1)).
        { rewrite <- CE. unfold cexp. unfold SpecFloat.fexp. lia. }
        assert (G : (bpow radix2 (e - 1) <= bpow radix2 (fexp64 (mag radix2 v - 1)))%R) by (apply bpow_le; auto).
        assert (H : (bpow radix2 e = 2 * bpow radix2 (e - 1))%R).
        { replace 2%R with (bpow radix2 1) by reflexivity. rewrite <- bpow_plus. f_equal. lia. }
        assert (L : (v <= 4503599627370496 * bpow radix2 e)%R).
        { rewrite Q. replace 4503599627370496%R with (bpow radix2 52) by reflexivity. rewrite <- bpow_plus. apply bpow_le.
          assert (Z : (mag radix2 v : Z) - 53 <= e) by (rewrite <- CE; unfold cexp, SpecFloat.fexp, prec64; lia). lia. }
        assert (0 < bpow radix2 (e - 1))%R by apply bpow_gt_0. lra.
      - rewrite UL. lra. }
    unfold Rabs in D. destruct Rcase_abs in D; lra.
Qed.

Lemma eqb_real x y : valid x -> valid y -> is_finite_SF x = true -> is_finite_SF y = true -> (feqb x y = true <-> real x = real y).
Proof.
  intros Vx Vy Fx Fy. assert (C := Bcompare_correct prec64 emax64 (b64 x Vx) (b64 y Vy)).
  rewrite !is_finite_SF2B, !B2R_SF2B in C. specialize (C Fx Fy). unfold Bcompare in C. rewrite !B2SF_SF2B in C.
  unfold feqb, SFeqb. rewrite C. destruct (Rcompare_spec (real x) (real y)); split; intro; try discriminate; auto; lra.
Qed.
Lemma eqb_finite x y : is_finite_SF y = true -> feqb x y = true -> is_finite_SF x = true.
Proof.
  intros F E. destruct x as [s|s| |s m e]; try reflexivity; destruct y as [t|t| |t m' e']; try discriminate;
    unfold feqb, SFeqb in E; cbn in E; try discriminate E; destruct s; discriminate E.
Qed.
Lemma dec_eq m e d k : valid (S754_finite false m e) -> feqb (dec_to_f64 false (Z.to_N d) k) (S754_finite false m e) = true ->
  dec_to_f64 false (Z.to_N d) k = S754_finite false m e.
Proof.
  intros V E. destruct (dec_to_f64_correct false (Z.to_N d) k) as [C S].
  assert (F := eqb_finite _ (S754_finite false m e) eq_refl E). apply same_float; auto; [apply C|]. apply eqb_real; auto. apply C.
Qed.
Lemma dec_near m e c k : valid (S754_finite false m e) -> let v := real (S754_finite false m e) in
  0 <= c -> (powerRZ 10 k * IZR (10 ^ 16) <= v)%R -> (Rabs (IZR c * powerRZ 10 k - v) <= powerRZ 10 k / 2)%R ->
  feqb (dec_to_f64 false (Z.to_N c) k) (S754_finite false m e) = true.
Proof.
  intros V v C B D. assert (R := near_rounds m e _ _ V (ten_pos k) B D). fold v in R.
  destruct (dec_to_f64_correct false (Z.to_N c) k) as [CR _].
  assert (W : dec_val false (Z.to_N c) k = (IZR c * powerRZ 10 k)%R) by (unfold dec_val; cbn [signed]; rewrite Z2N.id by auto; reflexivity).
  rewrite W in CR.
  assert (CX : correctly_rounded (IZR c * powerRZ 10 k) (S754_finite false m e)).
  { apply rounded_correct; auto. rewrite R. rewrite Rlt_bool_true by (apply valid_lt_emax; auto). split; reflexivity. }
  destruct (correctly_rounded_unique _ _ _ CR CX) as [(F & _ & Q)|Q].
  - apply eqb_real; auto; [apply CR|apply finite_iff; auto|]. rewrite <- !val_real. exact Q.
  - rewrite Q. apply eqb_real; auto.
Qed.
(* the fraction the digits are taken from *)
Lemma scaled num den k n' d' v : 0 < den -> v = (IZR num / IZR den)%R ->
  (if 0 <=? k then (num, den * 10 ^ k) else (num * 10 ^ (- k), den)) = (n', d') ->
  0 < d' /\ (IZR n' / IZR d' * powerRZ 10 k = v)%R.
Proof.
  intros D -> H. assert (DR : (0 < IZR den)%R) by (apply (IZR_lt 0); auto). destruct (Z.leb_spec 0 k); inversion H; subst.
  - assert (P : 0 < 10 ^ k) by (apply Z.pow_pos_nonneg; lia). assert (PR : (0 < IZR (10 ^ k))%R) by (apply (IZR_lt 0); auto).
    split; [lia|]. rewrite powerRZ_pos_IZR, mult_IZR by auto. field. split; lra.
  - assert (P : 0 < 10 ^ (- k)) by (apply Z.pow_pos_nonneg; lia). assert (PR : (0 < IZR (10 ^ (- k)))%R) by (apply (IZR_lt 0); auto).
    split; [lia|]. rewrite powerRZ_neg_IZR, mult_IZR by auto. field. split; lra.
Qed.
Lemma try_digits_ok m e num den k d : valid (S754_finite false m e) -> try_digits (S754_finite false m e) num den k = Some d ->
  dec_to_f64 false (Z.to_N d) k = S754_finite false m e.
Proof.
  intros V H. unfold try_digits in H. destruct (if 0 <=? k then _ else _) as [n' d'].
  destruct (feqb (dec_to_f64 false (Z.to_N (n' / d')) k) _) eqn:A.
  - destruct (feqb (dec_to_f64 false (Z.to_N (n' / d' + 1)) k) _ && _) eqn:B; inversion H; subst; apply dec_eq; auto.
    apply andb_true_iff in B. tauto.
  - destruct (feqb (dec_to_f64 false (Z.to_N (n' / d' + 1)) k) _) eqn:B; inversion H; subst; apply dec_eq; auto.
Qed.
Lemma try_digits_some m e num den k : valid (S754_finite false m e) -> let v := real (S754_finite false m e) in
  0 < den -> 0 <= num -> v = (IZR num / IZR den)%R -> (powerRZ 10 k * IZR (10 ^ 16) <= v)%R ->
  try_digits (S754_finite false m e) num den k <> None.
Proof.
  intros V v D N E B. unfold try_digits. destruct (if 0 <=? k then (num, den * 10 ^ k) else (num * 10 ^ (- k), den)) as [n' d'] eqn:S.
  destruct (scaled num den k n' d' v D E S) as [D' F]. cbv zeta beta. set (q := n' / d').
  assert (N' : 0 <= n').
  { destruct (0 <=? k); inversion S; subst; auto. apply Z.mul_nonneg_nonneg; auto. apply Z.pow_nonneg. lia. }
  assert (Q : 0 <= q) by (apply Z.div_pos; auto).
  assert (L : n' = d' * q + n' mod d') by (apply Z.div_mod; lia). assert (M := Z.mod_pos_bound n' d' D').
  assert (T := ten_pos k). assert (DR : (0 < IZR d')%R) by (apply (IZR_lt 0); auto).
  assert (NR : (IZR n' / IZR d' = IZR q + IZR (n' mod d') / IZR d')%R).
  { rewrite L at 1. rewrite plus_IZR, mult_IZR. field. lra. }
  assert (R0 : (0 <= IZR (n' mod d') / IZR d')%R) by (apply Rmult_le_pos; [apply (IZR_le 0); lia|apply Rlt_le, Rinv_0_lt_compat; auto]).
  destruct (Z_le_gt_dec (2 * (n' mod d')) d') as [H|H].
  - assert (A : feqb (dec_to_f64 false (Z.to_N q) k) (S754_finite false m e) = true).
    { apply dec_near; auto. fold v. rewrite <- F, NR.
      assert (R1 : (IZR (n' mod d') / IZR d' <= 1 / 2)%R).
      { apply Rmult_le_reg_r with (IZR d'); auto. unfold Rdiv at 1. rewrite Rmult_assoc, Rinv_l by lra.
        assert (IZR (2 * (n' mod d')) <= IZR d')%R by (apply IZR_le; auto). rewrite mult_IZR in H0. lra. }
      set (r := (IZR (n' mod d') / IZR d')%R) in *. replace (IZR q * powerRZ 10 k - (IZR q + r) * powerRZ 10 k)%R with (- (r * powerRZ 10 k))%R by ring.
      rewrite Rabs_Ropp, Rabs_pos_eq by nra. nra. }
    rewrite A. destruct (_ && _); discriminate.
  - assert (A : feqb (dec_to_f64 false (Z.to_N (q + 1)) k) (S754_finite false m e) = true).
    { apply dec_near; auto; [lia|]. fold v. rewrite <- F, NR. rewrite plus_IZR.
      assert (R1 : (1 / 2 <= IZR (n' mod d') / IZR d' <= 1)%R).
      { split; (apply Rmult_le_reg_r with (IZR d'); auto).
        - unfold Rdiv at 2. rewrite Rmult_assoc, Rinv_l by lra.
          assert (IZR d' <= IZR (2 * (n' mod d')))%R by (apply IZR_le; lia). rewrite mult_IZR in H0. lra.
        - unfold Rdiv at 1. rewrite Rmult_assoc, Rinv_l by lra. assert (IZR (n' mod d') <= IZR d')%R by (apply IZR_le; lia). lra. }
      set (r := (IZR (n' mod d') / IZR d')%R) in *. change (IZR 1) with 1%R.
      replace ((IZR q + 1) * powerRZ 10 k - (IZR q + r) * powerRZ 10 k)%R with ((1 - r) * powerRZ 10 k)%R by ring.
      rewrite Rabs_pos_eq by nra. nra. }
    rewrite A. destruct (feqb (dec_to_f64 false (Z.to_N q) k) _); [destruct (_ && _)|]; discriminate.
Qed.
Lemma shortest_loop_ok m e num den : valid (S754_finite false m e) -> let v := real (S754_finite false m e) in
  0 < den -> 0 <= num -> v = (IZR num / IZR den)%R ->
  forall fuel k, (powerRZ 10 (k - Z.of_nat fuel + 1) * IZR (10 ^ 16) <= v)%R -> fuel <> O ->
  forall d k', shortest_loop fuel (S754_finite false m e) num den k = (d, k') -> dec_to_f64 false (Z.to_N d) k' = S754_finite false m e.
Proof.
  intros V v D N E. induction fuel as [|fuel IH]; intros k B F d k' H; [congruence|]. cbn [shortest_loop] in H.
  destruct (try_digits (S754_finite false m e) num den k) as [d0|] eqn:T.
  - inversion H; subst. eapply try_digits_ok; eauto.
  - destruct fuel as [|fuel].
    + exfalso. revert T. apply try_digits_some; auto. fold v. replace (k - Z.of_nat 1 + 1) with k in B by lia. exact B.
    + apply (IH (k - 1)); auto. replace (k - 1 - Z.of_nat (S fuel) + 1) with (k - Z.of_nat (S (S fuel)) + 1) by lia. exact B.
Qed.

(* ---- the first digit ---- *)
Lemma numeral_low s : all_digits s -> canonical s -> s <> [48%N] -> (10 ^ N.of_nat (List.length s - 1) <= numeral s)%N.
Proof.
  intros D [->|(c & r & -> & C)] N; [congruence|]. inversion D as [|? ? A B]; subst.
  unfold numeral. cbn [fold_left]. rewrite numeral_acc. cbn [List.length]. replace (S (List.length r) - 1)%nat with (List.length r) by lia.
  assert (1 <= 10 * 0 + (c - 48))%N by lia. assert (P : (10 ^ N.of_nat (List.length r) <> 0)%N) by (apply N.pow_nonzero; lia). nia.
Qed.
Lemma fmt_N_low n : (n <> 0)%N -> (10 ^ N.of_nat (List.length (fmt_N n) - 1) <= n)%N.
Proof.
  intro H. rewrite <- (fmt_N_numeral n) at 2. apply numeral_low; [apply uint_digits|apply fmt_N_canonical|].
  intro E. apply H. rewrite <- (fmt_N_numeral n), E. reflexivity.
Qed.
Lemma dec_exp_down_ok den num0 : 0 < den -> 0 < num0 -> forall fuel num j, 0 <= j -> num = num0 * 10 ^ j -> den <= num * 10 ^ Z.of_nat fuel ->
  exists i, dec_exp_down fuel num den j = - i /\ 0 <= i /\ den <= num0 * 10 ^ i.
Proof.
  intros D P. induction fuel as [|fuel IH]; intros num j J E B.
  - cbn [dec_exp_down]. exists j. rewrite Z.mul_1_r in B. subst. auto.
  - cbn [dec_exp_down]. destruct (Z.leb_spec den num) as [L|L].
    + exists j. subst. auto.
    + apply IH; [lia|subst; rewrite Z.pow_add_r by lia; ring|].
      rewrite Nat2Z.inj_succ, Z.pow_succ_r in B by lia. rewrite <- Z.mul_assoc. exact B.
Qed.
Lemma dec_exp_ok num den : 0 < den -> 0 < num -> den <= num * 10 ^ 400 -> (powerRZ 10 (dec_exp num den) <= IZR num / IZR den)%R.
Proof.
  intros D N B. assert (DR : (0 < IZR den)%R) by (apply (IZR_lt 0); auto).
  unfold dec_exp. destruct (Z.leb_spec den num) as [L|L].
  - assert (Q : 1 <= num / den) by (apply Z.div_le_lower_bound; lia).
    assert (F := fmt_N_low (Z.to_N (num / den)) ltac:(lia)).
    assert (NE := proj2 (fmt_N_canonical (Z.to_N (num / den)))).
    set (ds := fmt_N (Z.to_N (num / den))) in *. assert (LE : (1 <= List.length ds)%nat) by (destruct ds; [congruence|cbn; lia]).
    rewrite powerRZ_pos_IZR by lia.
    apply Rmult_le_reg_r with (IZR den); auto. unfold Rdiv. rewrite Rmult_assoc, Rinv_l, Rmult_1_r by lra. rewrite <- mult_IZR. apply IZR_le.
    apply N2Z.inj_le in F. rewrite N2Z.inj_pow, Z2N.id in F by lia. rewrite nat_N_Z in F.
    replace (Z.of_nat (List.length ds - 1)) with (Z.of_nat (List.length ds) - 1) in F by lia. change (Z.of_N 10) with 10 in F.
    assert (M := Z.mul_div_le num den D). nia.
  - destruct (dec_exp_down_ok den num D N 400%nat num 0 ltac:(lia) ltac:(lia) B) as (i & -> & I & H).
    assert (P : 0 < 10 ^ i) by (apply Z.pow_pos_nonneg; lia). assert (PR : (0 < IZR (10 ^ i))%R) by (apply (IZR_lt 0); auto).
    rewrite powerRZ_neg'. rewrite powerRZ_pos_IZR by auto.
    apply IZR_le in H. rewrite mult_IZR in H.
    apply Rmult_le_reg_r with (IZR den); auto. unfold Rdiv. rewrite (Rmult_assoc (IZR num)), Rinv_l, Rmult_1_r by lra.
    apply Rmult_le_reg_l with (IZR (10 ^ i)); auto. rewrite <- Rmult_assoc, Rinv_r, Rmult_1_l by lra. lra.
Qed.
Lemma strip_zeros_ok : forall fuel d k d' k', 0 < d -> strip_zeros fuel d k = (d', k') -> 0 < d' /\ (IZR d * powerRZ 10 k = IZR d' * powerRZ 10 k')%R.
Proof.
  induction fuel as [|fuel IH]; intros d k d' k' P H; cbn [strip_zeros] in H; [inversion H; subst; auto|].
  destruct ((d mod 10 =? 0) && (0 <? d)) eqn:C; [|inversion H; subst; auto].
  apply andb_true_iff in C. destruct C as [C _]. apply Z.eqb_eq in C. assert (E := Z.div_mod d 10 ltac:(lia)). rewrite C, Z.add_0_r in E.
  apply IH in H; [|lia]. destruct H as [H1 H2]. split; auto. rewrite <- H2. rewrite E at 1. rewrite mult_IZR, ten_add, powerRZ_1. ring.
Qed.
Lemma frac_of_ok m e num den : valid (S754_finite false m e) -> frac_of m e = (num, den) ->
  0 < den /\ 0 < num /\ den <= num * 10 ^ 400 /\ real (S754_finite false m e) = (IZR num / IZR den)%R.
Proof.
  intros V H. destruct (valid_bounds _ _ _ V) as [_ B]. unfold frac_of in H. destruct (Z.leb_spec 0 e) as [E|E]; apply pair_equal_spec in H; destruct H as [<- <-].
  - assert (P : 0 < 2 ^ e) by (apply Z.pow_pos_nonneg; lia). assert (1 <= 10 ^ 400) by (vm_compute; discriminate).
    split; [lia|]. split; [apply Z.mul_pos_pos; lia|]. split; [assert (1 <= Z.pos m * 2 ^ e) by (apply (Z.mul_le_mono_nonneg 1 _ 1); lia); apply (Z.mul_le_mono_nonneg 1 _ 1); lia|]. rewrite real_pos by auto. cbn [signed]. field.
  - assert (P : 0 < 2 ^ (- e)) by (apply Z.pow_pos_nonneg; lia). split; [lia|]. split; [lia|]. split.
    + apply Z.le_trans with (10 ^ 400); [|assert (0 < 10 ^ 400) by (vm_compute; reflexivity); nia].
      apply Z.le_trans with (2 ^ 1074); [apply Z.pow_le_mono_r; lia|vm_compute; discriminate].
    + rewrite real_neg by auto. reflexivity.
Qed.
Lemma shortest_ok m e d k : valid (S754_finite false m e) -> shortest m e = (d, k) ->
  0 < d /\ dec_to_f64 false (Z.to_N d) k = S754_finite false m e.
Proof.
  intros V H. unfold shortest in H. destruct (frac_of m e) as [num den] eqn:F. destruct (frac_of_ok _ _ _ _ V F) as (D & N & B & R).
  destruct (shortest_loop 17 (S754_finite false m e) num den (dec_exp num den)) as [d0 k0] eqn:L.
  assert (O : dec_to_f64 false (Z.to_N d0) k0 = S754_finite false m e).
  { refine (shortest_loop_ok m e num den V D (Z.lt_le_incl _ _ N) R 17%nat (dec_exp num den) _ _ d0 k0 L); [|discriminate].
    replace (dec_exp num den - Z.of_nat 17 + 1) with (dec_exp num den + - (16)) by lia. rewrite ten_add.
    rewrite Rmult_assoc. replace (powerRZ 10 (- (16)) * IZR (10 ^ 16))%R with 1%R.
    - rewrite Rmult_1_r, R. apply dec_exp_ok; auto.
    - rewrite powerRZ_neg_IZR by lia. change (- - (16)) with 16. rewrite Rinv_l; auto. apply Rgt_not_eq. apply (IZR_lt 0). reflexivity. }
  assert (P0 : 0 < d0) by (destruct (Z_lt_le_dec 0 d0) as [P|P]; auto; replace (Z.to_N d0) with 0%N in O by lia; discriminate O).
  destruct (strip_zeros_ok _ _ _ _ _ P0 H) as [P Q]. split; auto. rewrite <- O. apply dec_to_f64_ext.
  unfold dec_val. cbn [signed]. rewrite !Z2N.id by lia. symmetry. exact Q.
Qed.

(* ---- the text ---- *)
Lemma zeros_digits n : all_digits (repeat 48%N n).
Proof. induction n; constructor; auto. lia. Qed.
Lemma numeral_zeros_after s n : numeral (s ++ repeat 48%N n) = (numeral s * 10 ^ N.of_nat n)%N.
Proof.
  rewrite numeral_app. induction n as [|n IH]; [cbn; lia|]. replace (S n) with (n + 1)%nat by lia. rewrite repeat_app, fold_left_app, IH.
  cbn [repeat fold_left]. rewrite Nat2N.inj_add, N.pow_add_r. change (10 ^ N.of_nat 1)%N with 10%N. lia.
Qed.
Lemma numeral_zeros_before s n : numeral (repeat 48%N n ++ s) = numeral s.
Proof.
  rewrite numeral_app. replace (numeral (repeat 48%N n)) with 0%N; [reflexivity|]. symmetry.
  assert (H := numeral_zeros_after [] n). cbn [app] in H. rewrite H. reflexivity.
Qed.
Definition unsigned_fmt (d k : Z) : str :=
  let ds := fmt_N (Z.to_N d) in
  let n := Z.of_nat (List.length ds) in
  if 0 <=? k then ds ++ repeat 48%N (Z.to_nat k)
  else if 0 <? n + k then firstn (Z.to_nat (n + k)) ds ++ lit "." ++ skipn (Z.to_nat (n + k)) ds
  else lit "0." ++ repeat 48%N (Z.to_nat (- (n + k))) ++ ds.
Lemma unsigned_fmt_text d k : 0 < d -> exists m' e', unsigned_text (unsigned_fmt d k) m' e' /\
  dec_val false m' e' = dec_val false (Z.to_N d) k.
Proof.
  intro P. unfold unsigned_fmt. assert (DD : all_digits (fmt_N (Z.to_N d))) by apply uint_digits.
  assert (NE := proj2 (fmt_N_canonical (Z.to_N d))). assert (NM := fmt_N_numeral (Z.to_N d)).
  set (ds := fmt_N (Z.to_N d)) in *. set (n := Z.of_nat (List.length ds)). cbv zeta.
  destruct (Z.leb_spec 0 k) as [K|K]; [|destruct (Z.ltb_spec 0 (n + k)) as [L|L]].
  - do 2 eexists. split; [apply ut_mantissa, mt_whole|].
    + apply Forall_app. split; [exact DD|apply zeros_digits].
    + destruct ds; [congruence|discriminate].
    + rewrite numeral_zeros_after, NM. unfold dec_val. cbn [signed]. rewrite (powerRZ_pos_IZR k K).
      rewrite N2Z.inj_mul, N2Z.inj_pow, mult_IZR. rewrite nat_N_Z, Z2Nat.id by auto. cbn [powerRZ]. ring_simplify. reflexivity.
  - do 2 eexists. split; [apply ut_mantissa, (mt_point (firstn (Z.to_nat (n + k)) ds) (skipn (Z.to_nat (n + k)) ds))|].
    + rewrite <- (firstn_skipn (Z.to_nat (n + k)) ds) in DD. apply Forall_app in DD. tauto.
    + rewrite <- (firstn_skipn (Z.to_nat (n + k)) ds) in DD. apply Forall_app in DD. tauto.
    + rewrite firstn_skipn. auto.
    + rewrite firstn_skipn, NM. f_equal. rewrite skipn_length. unfold n in *. lia.
  - do 2 eexists. split; [apply ut_mantissa, (mt_point [48%N] (repeat 48%N (Z.to_nat (- (n + k))) ++ ds))|].
    + constructor; [lia|constructor].
    + apply Forall_app. split; [apply zeros_digits|exact DD].
    + discriminate.
    + rewrite (numeral_app [48%N]). change (numeral [48%N]) with 0%N.
      change (fold_left (fun v c => 10 * v + (c - 48))%N (repeat 48%N (Z.to_nat (- (n + k))) ++ ds) 0%N) with (numeral (repeat 48%N (Z.to_nat (- (n + k))) ++ ds)).
      rewrite numeral_zeros_before, NM. f_equal. rewrite app_length, repeat_length. unfold n in *. lia.
Qed.
Lemma unsigned_fmt_exact d k : 0 < d -> exists m' e', unsigned_text (unsigned_fmt d k) m' e' /\
  exists j, m' = (Z.to_N d * 10 ^ j)%N /\ (j = 0%N \/ e' = 0).
Proof.
  intro P. unfold unsigned_fmt. assert (DD : all_digits (fmt_N (Z.to_N d))) by apply uint_digits.
  assert (NE := proj2 (fmt_N_canonical (Z.to_N d))). assert (NM := fmt_N_numeral (Z.to_N d)).
  set (ds := fmt_N (Z.to_N d)) in *. set (n := Z.of_nat (List.length ds)). cbv zeta.
  destruct (Z.leb_spec 0 k) as [K|K]; [|destruct (Z.ltb_spec 0 (n + k)) as [L|L]].
  - do 2 eexists. split; [apply ut_mantissa, mt_whole|].
    + apply Forall_app. split; [exact DD|apply zeros_digits].
    + destruct ds; [congruence|discriminate].
    + exists (N.of_nat (Z.to_nat k)). rewrite numeral_zeros_after, NM. auto.
  - do 2 eexists. split; [apply ut_mantissa, (mt_point (firstn (Z.to_nat (n + k)) ds) (skipn (Z.to_nat (n + k)) ds))|].
    + rewrite <- (firstn_skipn (Z.to_nat (n + k)) ds) in DD. apply Forall_app in DD. tauto.
    + rewrite <- (firstn_skipn (Z.to_nat (n + k)) ds) in DD. apply Forall_app in DD. tauto.
    + rewrite firstn_skipn. auto.
    + exists 0%N. rewrite firstn_skipn, NM. split; [lia|auto].
  - do 2 eexists. split; [apply ut_mantissa, (mt_point [48%N] (repeat 48%N (Z.to_nat (- (n + k))) ++ ds))|].
    + constructor; [lia|constructor].
    + apply Forall_app. split; [apply zeros_digits|exact DD].
    + discriminate.
    + exists 0%N. rewrite (numeral_app [48%N]). change (numeral [48%N]) with 0%N.
      change (fold_left (fun v c => 10 * v + (c - 48))%N (repeat 48%N (Z.to_nat (- (n + k))) ++ ds) 0%N) with (numeral (repeat 48%N (Z.to_nat (- (n + k))) ++ ds)).
      rewrite numeral_zeros_before, NM. split; [lia|auto].
Qed.
Lemma fmt_finite s m e : fmt_f64 (S754_finite s m e) = sign_str s ++ unsigned_fmt (fst (shortest m e)) (snd (shortest m e)).
Proof. cbn [fmt_f64]. destruct (shortest m e) as [d k]. reflexivity. Qed.
Lemma dec_to_f64_neg m e : forall x, dec_to_f64 false m e = x -> dec_to_f64 true m e = SFopp x.
Proof.
  intros x <-. destruct (dec_to_f64_correct false m e) as [C S]. destruct (dec_to_f64_correct true m e) as [C' S'].
  assert (V : dec_val true m e = (- dec_val false m e)%R) by (unfold dec_val; cbn [signed]; rewrite opp_IZR; ring).
  destruct m as [|p]; [reflexivity|].
  destruct (dec_to_f64_rnd false p e) as [A1 A2]. destruct (dec_to_f64_rnd true p e) as [B1 B2].
  cbv zeta in A2, B2. rewrite V, round_NE_opp, Rabs_Ropp in B2.
  destruct (Rlt_bool _ _).
  - destruct A2 as (A2 & A3 & A4), B2 as (B2 & B3 & B4). apply same_float; auto.
    + destruct (dec_to_f64 false (N.pos p) e); exact A1.
    + destruct (dec_to_f64 false (N.pos p) e); exact A3.
    + rewrite B2, <- A2. destruct (dec_to_f64 false (N.pos p) e) as [| | |sg mm ee]; cbn [SFopp SF2R]; try ring. rewrite cond_Zopp_negb, F2R_Zopp. ring.
    + rewrite B4. destruct (dec_to_f64 false (N.pos p) e); try discriminate; cbn in *; subst; reflexivity.
  - rewrite A2, B2. reflexivity.
Qed.
Lemma atof_fmt x : valid x -> atof (fmt_f64 x) = x.
Proof.
  intro V. destruct x as [s|s| |s m e]; try (destruct s); try reflexivity.
  all: rewrite fmt_finite; destruct (shortest m e) as [d k] eqn:S; cbn [fst snd sign_str];
    destruct (shortest_ok m e d k V S) as [P Q]; destruct (unsigned_fmt_text d k P) as (m' & e' & T & VE).
  - rewrite (atof_text _ true m' e') by (apply dt_minus; exact T). apply dec_to_f64_neg with (x := S754_finite false m e).
    rewrite <- Q. apply dec_to_f64_ext. exact VE.
  - rewrite (atof_text _ false m' e') by (apply dt_plain; exact T). rewrite <- Q. apply dec_to_f64_ext. exact VE.
Qed.

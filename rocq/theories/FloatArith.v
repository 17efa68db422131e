(* Double arithmetic and comparison: from Flocq's operations to the real numbers. *)
From Flocq Require Import Core BinarySingleNaN.
Require Import Ascii String Bool List NArith ZArith Lia Reals Lra Psatz.
Require Import Coq.Floats.SpecFloat.
From Verif Require Import Str StrFacts Num Item Func SpecInt IntFacts FloatFacts SpecNum SpecDbl FloatRound FloatText.
Import List ListNotations.
Open Scope Z_scope.

Lemma fsub_equiv x y (Vx : valid x) (Vy : valid y) : fsub x y = B2SF (Bminus mode_NE (b64 x Vx) (b64 y Vy)).
Proof.
  destruct x as [sx|sx| |sx mx ex], y as [sy|sy| |sy my ey]; cbn [SF2B Bminus Bplus Bopp B2SF]; try reflexivity;
    try (unfold fsub; cbn; destruct sx, sy; reflexivity).
  unfold fsub. cbn [SFsub]. rewrite binary_normalize_equiv. unfold Fplus_naive. rewrite cond_Zopp_negb. reflexivity.
Qed.
Lemma fmul_equiv x y (Vx : valid x) (Vy : valid y) : fmul x y = B2SF (Bmult mode_NE (b64 x Vx) (b64 y Vy)).
Proof.
  destruct x as [sx|sx| |sx mx ex], y as [sy|sy| |sy my ey]; cbn [SF2B Bmult B2SF]; try reflexivity.
  unfold fmul. cbn [SFmul]. rewrite B2SF_SF2B. apply binary_round_aux_equiv.
Qed.
Lemma fdiv_equiv x y (Vx : valid x) (Vy : valid y) : fdiv x y = B2SF (Bdiv mode_NE (b64 x Vx) (b64 y Vy)).
Proof.
  destruct x as [sx|sx| |sx mx ex], y as [sy|sy| |sy my ey]; cbn [SF2B Bdiv B2SF]; try reflexivity.
  unfold fdiv. cbn [SFdiv]. rewrite B2SF_SF2B. destruct SFdiv_core_binary as [[q e'] l]. apply binary_round_aux_equiv.
Qed.

Lemma overflow_inf s : binary_overflow prec64 emax64 mode_NE s = S754_infinity s.
Proof. reflexivity. Qed.
Lemma sign_real x : (sign_SF x = true -> real x <= 0)%R /\ (sign_SF x = false -> 0 <= real x)%R.
Proof.
  destruct x as [s|s| |s m e]; cbn [SF2R]; try (split; intros; lra). cbn [sign_SF]. unfold F2R. cbn [Fnum Fexp].
  assert (P : (0 < bpow radix2 e)%R) by apply bpow_gt_0. split; intros ->; cbn [cond_Zopp].
  - assert (IZR (- Z.pos m) < 0)%R by (apply (IZR_lt _ 0); lia). nra.
  - assert (0 < IZR (Z.pos m))%R by (apply (IZR_lt 0); lia). nra.
Qed.
Lemma overflow_sign v s : Rlt_bool (Rabs (rnd64 v)) (bpow radix2 emax64) = false -> ((s = true -> v <= 0) /\ (s = false -> 0 <= v))%R ->
  S754_infinity s = S754_infinity (Rlt_bool v 0).
Proof.
  intros O [A B]. f_equal. assert (N : v <> 0%R).
  { intros ->. rewrite round_0, Rabs_R0, Rlt_bool_true in O by (auto with typeclass_instances; apply bpow_gt_0). discriminate. }
  destruct s; [rewrite Rlt_bool_true|rewrite Rlt_bool_false]; auto. specialize (A eq_refl). lra.
Qed.
Lemma fadd_correct x y : valid x -> valid y -> is_finite_SF x = true -> is_finite_SF y = true ->
  correctly_rounded (val x + val y) (fadd x y).
Proof.
  intros Vx Vy Fx Fy. rewrite !val_real. rewrite (fadd_equiv x y Vx Vy). apply rounded_correct; [apply valid_B2SF|].
  rewrite SF2R_B2SF, is_finite_SF_B2SF. assert (C := Bplus_correct prec64 emax64 _ _ mode_NE (b64 x Vx) (b64 y Vy)).
  rewrite !is_finite_SF2B, !B2R_SF2B, !Bsign_SF2B in C. specialize (C Fx Fy). cbn [round_mode] in C.
  destruct (Rlt_bool _ _) eqn:L; [tauto|]. destruct C as [C S]. rewrite C, overflow_inf. apply overflow_sign; auto.
  destruct (sign_real x) as [X1 X2], (sign_real y) as [Y1 Y2]. rewrite <- S in Y1, Y2. split; intro Q; [specialize (X1 Q); specialize (Y1 Q)|specialize (X2 Q); specialize (Y2 Q)]; lra.
Qed.
Lemma fsub_correct x y : valid x -> valid y -> is_finite_SF x = true -> is_finite_SF y = true ->
  correctly_rounded (val x - val y) (fsub x y).
Proof.
  intros Vx Vy Fx Fy. rewrite !val_real. rewrite (fsub_equiv x y Vx Vy). apply rounded_correct; [apply valid_B2SF|].
  rewrite SF2R_B2SF, is_finite_SF_B2SF. assert (C := Bminus_correct prec64 emax64 _ _ mode_NE (b64 x Vx) (b64 y Vy)).
  rewrite !is_finite_SF2B, !B2R_SF2B, !Bsign_SF2B in C. specialize (C Fx Fy). cbn [round_mode] in C.
  destruct (Rlt_bool _ _) eqn:L; [tauto|]. destruct C as [C S]. rewrite C, overflow_inf. apply overflow_sign; auto.
  destruct (sign_real x) as [X1 X2], (sign_real y) as [Y1 Y2]. rewrite S in *. split; intro Q.
  - specialize (X1 Q). apply negb_true_iff in Q. specialize (Y2 Q). lra.
  - specialize (X2 Q). apply negb_false_iff in Q. specialize (Y1 Q). lra.
Qed.
Lemma sign_prod x y (a b : R) : ((sign_SF x = true -> a <= 0) /\ (sign_SF x = false -> 0 <= a) -> (sign_SF y = true -> b <= 0) /\ (sign_SF y = false -> 0 <= b) ->
  (xorb (sign_SF x) (sign_SF y) = true -> a * b <= 0) /\ (xorb (sign_SF x) (sign_SF y) = false -> 0 <= a * b))%R.
Proof. intros [A B] [C D]. destruct (sign_SF x), (sign_SF y); cbn [xorb]; split; intro; try discriminate; try specialize (A eq_refl); try specialize (B eq_refl); try specialize (C eq_refl); try specialize (D eq_refl); nra. Qed.
Lemma fmul_correct x y : valid x -> valid y -> is_finite_SF x = true -> is_finite_SF y = true ->
  correctly_rounded (val x * val y) (fmul x y) /\ sign_SF (fmul x y) = xorb (sign_SF x) (sign_SF y).
Proof.
  intros Vx Vy Fx Fy. rewrite !val_real. rewrite (fmul_equiv x y Vx Vy).
  assert (C := Bmult_correct prec64 emax64 _ _ mode_NE (b64 x Vx) (b64 y Vy)).
  rewrite !is_finite_SF2B, !B2R_SF2B, !Bsign_SF2B in C. rewrite Fx, Fy in C. cbn [round_mode andb] in C. split.
  - apply rounded_correct; [apply valid_B2SF|]. rewrite SF2R_B2SF, is_finite_SF_B2SF.
    destruct (Rlt_bool (Rabs _) _) eqn:L; [tauto|]. rewrite C, overflow_inf. apply overflow_sign; auto. apply sign_prod; apply sign_real.
  - rewrite <- Bsign_B2SF. destruct (Rlt_bool (Rabs _) _) eqn:L.
    + destruct C as (_ & F & C). apply C. destruct (Bmult mode_NE (b64 x Vx) (b64 y Vy)); auto; discriminate.
    + rewrite Bsign_B2SF, C. reflexivity.
Qed.
Lemma fdiv_correct x y : valid x -> valid y -> is_finite_SF x = true -> is_finite_SF y = true -> real y <> 0%R ->
  correctly_rounded (val x / val y) (fdiv x y) /\ sign_SF (fdiv x y) = xorb (sign_SF x) (sign_SF y).
Proof.
  intros Vx Vy Fx Fy N. rewrite !val_real. rewrite (fdiv_equiv x y Vx Vy).
  assert (C := Bdiv_correct prec64 emax64 _ _ mode_NE (b64 x Vx) (b64 y Vy)).
  rewrite !is_finite_SF2B, !B2R_SF2B, !Bsign_SF2B in C. specialize (C N). rewrite Fx in C. cbn [round_mode] in C. split.
  - apply rounded_correct; [apply valid_B2SF|]. rewrite SF2R_B2SF, is_finite_SF_B2SF.
    destruct (Rlt_bool (Rabs _) _) eqn:L; [tauto|]. rewrite C, overflow_inf. apply overflow_sign; auto. apply sign_prod; [apply sign_real|].
    destruct (sign_real y) as [A B]. split; intro Q; [specialize (A Q)|specialize (B Q)].
    + apply Rlt_le, Rinv_lt_0_compat. lra.
    + apply Rlt_le, Rinv_0_lt_compat. lra.
  - rewrite <- Bsign_B2SF. destruct (Rlt_bool (Rabs _) _) eqn:L.
    + destruct C as (_ & F & C). apply C. destruct (Bdiv mode_NE (b64 x Vx) (b64 y Vy)); auto; discriminate.
    + rewrite Bsign_B2SF, C. reflexivity.
Qed.

(* ---- comparison ---- *)
Lemma compare_real x y : valid x -> valid y -> is_finite_SF x = true -> is_finite_SF y = true ->
  SFcompare x y = Some (Rcompare (val x) (val y)).
Proof.
  intros Vx Vy Fx Fy. assert (C := Bcompare_correct prec64 emax64 (b64 x Vx) (b64 y Vy)).
  rewrite !is_finite_SF2B, !B2R_SF2B in C. specialize (C Fx Fy). unfold Bcompare in C. rewrite !B2SF_SF2B in C. rewrite !val_real. exact C.
Qed.

(* ---- remainder ---- *)
Lemma norm_real M e s : Z.abs M <= 2 ^ 53 -> -1074 <= e -> (Rabs (F2R (Float radix2 M e)) < bpow radix2 emax64)%R ->
  let x := SpecFloat.binary_normalize prec64 emax64 M e s in valid x /\ is_finite_SF x = true /\ real x = F2R (Float radix2 M e).
Proof.
  intros A E L x. unfold x. rewrite binary_normalize_equiv, SF2R_B2SF, is_finite_SF_B2SF. split; [apply valid_B2SF|].
  assert (C := binary_normalize_correct prec64 emax64 _ _ mode_NE M e s). cbn [round_mode] in C.
  rewrite round_generic in C; auto with typeclass_instances; [|apply format_F2R; auto]. rewrite Rlt_bool_true in C by auto. tauto.
Qed.
Lemma real_scaled s m e e' : e' <= e -> real (S754_finite s m e) = (IZR (signed s (Z.pos m * 2 ^ (e - e'))) * bpow radix2 e')%R.
Proof.
  intro H. cbn [SF2R]. unfold F2R. cbn [Fnum Fexp]. replace (bpow radix2 e) with (bpow radix2 (e - e') * bpow radix2 e')%R.
  - rewrite <- Rmult_assoc. f_equal. replace (bpow radix2 (e - e')) with (IZR (2 ^ (e - e'))) by (rewrite <- (IZR_Zpower radix2) by lia; reflexivity).
    rewrite <- mult_IZR. f_equal. destruct s; cbn [cond_Zopp signed]; ring.
  - rewrite <- bpow_plus. f_equal. lia.
Qed.
Lemma trunc_signed s t a b : 0 <= a -> 0 < b -> Ztrunc (IZR (signed s a) / IZR (signed t b)) = signed (xorb s t) (a / b).
Proof.
  intros A B. assert (BR : (0 < IZR b)%R) by (apply (IZR_lt 0); auto). assert (AR : (0 <= IZR a)%R) by (apply (IZR_le 0); auto).
  assert (F : Ztrunc (IZR a / IZR b) = a / b).
  { rewrite Ztrunc_floor; [apply Zfloor_div; lia|]. apply Rmult_le_pos; auto. apply Rlt_le, Rinv_0_lt_compat; auto. }
  destruct s, t; cbn [signed xorb]; rewrite ?opp_IZR.
  - replace (- IZR a / - IZR b)%R with (IZR a / IZR b)%R by (field; lra). exact F.
  - replace (- IZR a / IZR b)%R with (- (IZR a / IZR b))%R by (field; lra). rewrite Ztrunc_opp, F. reflexivity.
  - replace (IZR a / - IZR b)%R with (- (IZR a / IZR b))%R by (field; lra). rewrite Ztrunc_opp, F. reflexivity.
  - exact F.
Qed.
Lemma frem_exact x y : valid x -> valid y -> is_finite_SF x = true -> is_finite_SF y = true -> real y <> 0%R ->
  valid (frem x y) /\ is_finite_SF (frem x y) = true /\ real (frem x y) = (real x - IZR (Ztrunc (real x / real y)) * real y)%R.
Proof.
  intros Vx Vy Fx Fy N. destruct y as [t|t| |t m2 e2]; try discriminate; [destruct N; reflexivity|].
  destruct x as [s|s| |s m1 e1]; try discriminate.
  - cbn [frem]. split; auto. split; auto. cbn [SF2R]. unfold Rdiv. rewrite Rmult_0_l, (Ztrunc_IZR 0). ring.
  - cbn [frem]. set (e := Z.min e1 e2). set (a := Z.pos m1 * 2 ^ (e1 - e)). set (b := Z.pos m2 * 2 ^ (e2 - e)).
    assert (P1 : 0 < 2 ^ (e1 - e)) by (apply Z.pow_pos_nonneg; unfold e; lia). assert (P2 : 0 < 2 ^ (e2 - e)) by (apply Z.pow_pos_nonneg; unfold e; lia).
    assert (A : 0 < a) by (apply Z.mul_pos_pos; lia). assert (B : 0 < b) by (apply Z.mul_pos_pos; lia).
    destruct (valid_bounds _ _ _ Vx) as [M1 E1]. destruct (valid_bounds _ _ _ Vy) as [M2 E2].
    assert (MB := Z.mod_pos_bound a b B).
    assert (ML : a mod b <= a) by (apply Z.mod_le; lia).
    assert (SM : a mod b <= 2 ^ 53).
    { destruct (Z_le_gt_dec e1 e2) as [Q|Q].
      - assert (e = e1) by (unfold e; lia). assert (a = Z.pos m1) by (unfold a; replace (e1 - e) with 0 by lia; lia). lia.
      - assert (e = e2) by (unfold e; lia). assert (b = Z.pos m2) by (unfold b; replace (e2 - e) with 0 by lia; lia). lia. }
    assert (PE : (0 < bpow radix2 e)%R) by apply bpow_gt_0.
    assert (X : real (S754_finite s m1 e1) = (IZR (signed s a) * bpow radix2 e)%R) by (apply real_scaled; unfold e; lia).
    assert (Y : real (S754_finite t m2 e2) = (IZR (signed t b) * bpow radix2 e)%R) by (apply real_scaled; unfold e; lia).
    assert (AB : Z.abs (signed s (a mod b)) = a mod b) by (unfold signed; destruct s; lia).
    destruct (norm_real (signed s (a mod b)) e s) as (V & F & R).
    + rewrite AB. exact SM.
    + unfold e. lia.
    + apply Rle_lt_trans with (Rabs (real (S754_finite s m1 e1))); [|apply valid_lt_emax; auto].
      rewrite X. unfold F2R. cbn [Fnum Fexp]. rewrite !Rabs_mult. apply Rmult_le_compat_r; [apply Rabs_pos|].
      rewrite <- !abs_IZR. apply IZR_le. rewrite AB. unfold signed. destruct s; lia.
    + split; [exact V|]. split; [exact F|]. rewrite R, X, Y. unfold F2R. cbn [Fnum Fexp].
      assert (SB : IZR (signed t b) <> 0%R) by (apply IZR_neq; unfold signed; destruct t; lia).
      replace (IZR (signed s a) * bpow radix2 e / (IZR (signed t b) * bpow radix2 e))%R with (IZR (signed s a) / IZR (signed t b))%R by (field; split; lra).
      rewrite trunc_signed by lia. rewrite <- Rmult_assoc, <- Rmult_minus_distr_r. f_equal. rewrite <- mult_IZR, <- minus_IZR. f_equal.
      assert (DM := Z.div_mod a b ltac:(lia)). unfold signed. destruct s, t; cbn [xorb]; nia.
Qed.

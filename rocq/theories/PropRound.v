(* C55: round() of every finite number, the largest ones and 0.49999999999999994 included. *)
Require Import Bool List NArith ZArith Ascii String Lia Reals Lra.
From Flocq Require Import Core BinarySingleNaN.
Require Import Coq.Floats.SpecFloat.
From Verif Require Import Str StrFacts Sax Dom Axes Lexer FuncTable Parser Num Item Func Types Eval EvalFacts
  SpecText SpecOper ItemFacts SpecFunc FuncFacts SpecNum SpecArgs FloatFacts PropNum FloatArith.
Import ListNotations.
Open Scope Z_scope.

(* the sum with one half of a large integer: a tie, or below half a unit *)
Lemma cexp_half : forall z, (Rabs (IZR z + 1 / 2) <= IZR (Z.abs z) + 1 / 2)%R.
Proof.
  intro z. rewrite abs_IZR. eapply Rle_trans; [apply Rabs_triang|]. rewrite (Rabs_pos_eq (1 / 2)) by lra. lra.
Qed.
Lemma mag_half : forall z, z <> 0 -> (mag radix2 (IZR z + 1 / 2) <= mag radix2 (IZR z))%Z.
Proof.
  intros z N. apply mag_le_bpow.
  - intro E. assert (X : (IZR (2 * z + 1) = 0)%R) by (rewrite plus_IZR, mult_IZR; lra). change 0%R with (IZR 0) in X. apply eq_IZR in X. lia.
  - assert (G := bpow_mag_gt radix2 (IZR z)). rewrite <- abs_IZR in G.
    assert (P : 0 < mag radix2 (IZR z)).
    { assert (B := mag_ge_bpow radix2 (IZR z) 1). apply Z.lt_le_trans with 1; [lia|]. apply B.
      cbn. rewrite <- abs_IZR. apply IZR_le. lia. }
    destruct (mag radix2 (IZR z)) as [k K]. cbn [mag_val] in *. clear K.
    rewrite <- IZR_Zpower in * by lia. apply lt_IZR in G.
    eapply Rle_lt_trans; [apply cexp_half|]. assert (X : Z.abs z + 1 <= radix2 ^ k) by lia. apply IZR_le in X. rewrite plus_IZR in X. lra.
Qed.
Lemma rnd_half : forall z, generic_format radix2 fexp64 (IZR z) -> 2 ^ 52 <= Z.abs z ->
  Zfloor (rnd64 (IZR z + 1 / 2)) = if Z.even z then z else z + 1.
Proof.
  intros z G L. remember (IZR z + 1 / 2)%R as y eqn:Y.
  assert (NZ : z <> 0) by (intro; subst; cbn in L; lia).
  assert (M := mag_half z NZ). rewrite <- Y in M.
  assert (C : (cexp radix2 fexp64 y <= cexp radix2 fexp64 (IZR z))%Z).
  { unfold cexp. unfold SpecFloat.fexp, SpecFloat.emin. lia. }
  destruct (Z_lt_le_dec (cexp radix2 fexp64 y) 0) as [E|E].
  - (* the sum is exact: z = -2^52 *)
    assert (Gy : generic_format radix2 fexp64 y).
    { assert (F : y = F2R (Float radix2 (2 * z + 1) (-1))).
      { rewrite Y. unfold F2R. cbn [Fnum Fexp]. rewrite plus_IZR, mult_IZR. change (bpow radix2 (-1)) with (/ 2)%R. field. }
      rewrite F. apply generic_format_F2R. intros _. rewrite <- F. lia. }
    rewrite round_generic by (auto with typeclass_instances).
    assert (X : Zfloor y = z) by (apply floor_between; rewrite plus_IZR; lra). rewrite X.
    assert (Ev : Z.even z = true); [|rewrite Ev; reflexivity].
    (* |y| < 2^52 *)
    assert (B : (Rabs y < bpow radix2 52)%R).
    { eapply Rlt_le_trans; [apply (bpow_mag_gt radix2)|]. apply bpow_le. unfold cexp in E. unfold SpecFloat.fexp, SpecFloat.emin, prec64 in E. lia. }
    change (bpow radix2 52) with (IZR (2 ^ 52)) in B. apply Rabs_def2 in B. destruct B as [B1 B2]. rewrite <- opp_IZR in B2.
    assert (z = - 2 ^ 52); [|subst; reflexivity].
    assert (z < 2 ^ 52). { apply lt_IZR. lra. }
    assert (- 2 ^ 52 <= z). { apply Z.lt_succ_r. apply lt_IZR. rewrite succ_IZR. lra. }
    lia.
  - unfold round, scaled_mantissa. remember (cexp radix2 fexp64 y) as ex eqn:Ex.
    destruct (Z.eq_dec ex 0) as [Z0|Z0].
    + rewrite Z0. change (bpow radix2 (- 0)) with 1%R. rewrite Rmult_1_r. unfold F2R. cbn [Fnum Fexp]. change (bpow radix2 0) with 1%R.
      rewrite Rmult_1_r, Zfloor_IZR. unfold Znearest.
      assert (X : Zfloor y = z) by (apply floor_between; rewrite plus_IZR; lra). rewrite X.
      rewrite Rcompare_Eq by (rewrite Y; lra).
      assert (Cl : Zceil y = z + 1). { apply Zceil_imp. rewrite plus_IZR, minus_IZR, plus_IZR. lra. }
      rewrite Cl. destruct (Z.even z); reflexivity.
    + (* z is a multiple of 2^ex *)
      assert (K : exists m, IZR z = (IZR m * bpow radix2 ex)%R).
      { assert (R := scaled_mantissa_generic _ _ _ G). exists (Ztrunc (scaled_mantissa radix2 fexp64 (IZR z)) * 2 ^ (cexp radix2 fexp64 (IZR z) - ex)).
        rewrite mult_IZR, <- R. unfold scaled_mantissa. change 2 with (radix_val radix2) at 1. rewrite IZR_Zpower by lia.
        rewrite !Rmult_assoc, <- !bpow_plus. replace (_ + (_ - ex + ex)) with 0 by lia. cbn. lra. }
      destruct K as [m K].
      assert (P : (bpow radix2 (- ex) <= / 2)%R).
      { change (/ 2)%R with (bpow radix2 (-1)). apply bpow_le. lia. }
      assert (P0 := bpow_gt_0 radix2 (- ex)).
      assert (Sm : (y * bpow radix2 (- ex) = IZR m + 1 / 2 * bpow radix2 (- ex))%R).
      { rewrite Y, K, Rmult_plus_distr_r, Rmult_assoc, <- bpow_plus. replace (ex + - ex) with 0 by lia. cbn. lra. }
      rewrite Sm. rewrite (Znearest_imp _ _ m).
      * unfold F2R. cbn [Fnum Fexp]. rewrite <- K, Zfloor_IZR.
        assert (Ev : Z.even z = true); [|rewrite Ev; reflexivity].
        assert (V : z = m * 2 ^ ex). { apply eq_IZR. rewrite mult_IZR, K. change 2 with (radix_val radix2). rewrite IZR_Zpower by lia. reflexivity. }
        rewrite V, Z.even_mul. replace ex with (1 + (ex - 1)) by lia. rewrite Z.pow_add_r by lia. rewrite Z.even_mul. cbn [Z.even]. apply orb_true_r.
      * replace (IZR m + 1 / 2 * bpow radix2 (- ex) - IZR m)%R with (1 / 2 * bpow radix2 (- ex))%R by lra. rewrite Rabs_pos_eq by lra. lra.
Qed.
Lemma real_bound x : valid x -> (Rabs (real x) <= bpow radix2 1024 - bpow radix2 971)%R.
Proof. intro V. assert (B := abs_B2R_le_emax_minus_prec prec64 emax64 _ (b64 x V)). rewrite B2R_SF2B in B. exact B. Qed.
Lemma add_half x z : valid x -> is_finite_SF x = true -> real x = IZR z -> 2 ^ 52 <= Z.abs z ->
  real (fadd x f_half) = rnd64 (IZR z + 1 / 2) /\ is_finite_SF (fadd x f_half) = true /\ valid (fadd x f_half).
Proof.
  intros V F R L. destruct half_real as [HR [HV HF]].
  assert (G : generic_format radix2 fexp64 (IZR z)).
  { rewrite <- R. rewrite <- (B2R_SF2B prec64 emax64 x V). apply generic_format_B2R. }
  assert (H := rnd_half z G L).
  assert (B := real_bound x V). rewrite R, <- abs_IZR in B.
  assert (P : (IZR (2 ^ 10) < bpow radix2 971)%R).
  { change (IZR (2 ^ 10)) with (bpow radix2 10). apply bpow_lt. lia. }
  rewrite (fadd_equiv x f_half V HV), SF2R_B2SF, is_finite_SF_B2SF.
  assert (C := Bplus_correct prec64 emax64 _ _ mode_NE (b64 x V) (b64 f_half HV)).
  rewrite !is_finite_SF2B, !B2R_SF2B in C. specialize (C F HF). cbn [round_mode] in C. rewrite R, HR in C.
  rewrite Rlt_bool_true in C.
  - destruct C as [C [D _]]. split; [exact C|]. split; [exact D|]. apply valid_B2SF.
  - change (bpow radix2 emax64) with (bpow radix2 1024). assert (Fl := Zfloor_lb (rnd64 (IZR z + 1 / 2))). assert (Fu := Zfloor_ub (rnd64 (IZR z + 1 / 2))).
    assert (I : Z.abs (Zfloor (rnd64 (IZR z + 1 / 2))) <= Z.abs z + 1) by (rewrite H; destruct (Z.even z); lia).
    apply IZR_le in I. rewrite abs_IZR, plus_IZR in I. apply Rabs_le_inv in I. change (IZR (2 ^ 10)) with 1024%R in P.
    apply Rabs_lt. split; lra.
Qed.
Lemma round_guard x z : valid x -> is_finite_SF x = true -> real x = IZR z -> 2 ^ 52 <= Z.abs z -> round_x x = ffloor (fadd x f_half).
Proof.
  intros V F R L. unfold round_x.
  assert (MH : real f_minus_half = (- (1 / 2))%R /\ valid f_minus_half /\ is_finite_SF f_minus_half = true).
  { split; [|split; reflexivity]. assert (E : f_minus_half = S754_finite true 4503599627370496 (-53)) by reflexivity.
    rewrite E, real_neg by lia. cbn [signed]. change (2 ^ (- -53)) with (2 * 4503599627370496). rewrite mult_IZR, opp_IZR. field. }
  destruct MH as [MR [MV MF]].
  assert (L1 : fleb f_minus_half x = Rle_bool (- (1 / 2)) (real x)).
  { assert (C := Bleb_correct prec64 emax64 (b64 _ MV) (b64 x V)). rewrite !is_finite_SF2B, !B2R_SF2B, MR in C.
    unfold Bleb in C. rewrite !B2SF_SF2B in C. apply C; auto. }
  assert (L2 : fltb x f_zero = Rlt_bool (real x) 0).
  { assert (C := Bltb_correct prec64 emax64 (b64 x V) (B754_zero false)). rewrite !is_finite_SF2B, !B2R_SF2B in C.
    unfold Bltb in C. rewrite !B2SF_SF2B in C. apply C; auto. }
  assert (NZ : neg_zero x = false).
  { destruct x as [[]|[]| |[] m e]; try reflexivity. cbn [SF2R] in R. change 0%R with (IZR 0) in R. apply eq_IZR in R. subst z. cbn in L. lia. }
  rewrite L1, L2, NZ, R. cbn [orb].
  destruct (Z_lt_le_dec z 0) as [N|N].
  - rewrite Rle_bool_false; [reflexivity|]. assert (Q : z <= -1) by lia. apply IZR_le in Q. change (IZR (-1)) with (-1)%R in Q. lra.
  - rewrite (Rlt_bool_false (IZR z) 0); [rewrite andb_false_r; reflexivity|]. apply IZR_le in N. exact N.
Qed.
(* from 2^52 on: even integers stay, odd ones go up *)
Theorem C55_round_large : forall h c it mk x z, (it, mk) = (XIDouble x, XIDouble) \/ (it, mk) = (XIDecimal x, XIDecimal) ->
  is_f64 x -> has_value x z -> 2 ^ 52 <= Z.abs z ->
  exists y, fn_value h c (lit "fn:round") [[it]] (Ok [mk y]) /\ has_value y (if Z.even z then z else z + 1).
Proof.
  intros h c it mk x z K V H L. apply has_value_real in H. destruct H as [F R].
  assert (G : generic_format radix2 fexp64 (IZR z)).
  { rewrite <- R. rewrite <- (B2R_SF2B prec64 emax64 x V). apply generic_format_B2R. }
  destruct (add_half x z V F R L) as [R1 [R2 R3]]. destruct (ffloor_real (fadd x f_half) R3 R2) as [G1 G2].
  assert (D : has_value (ffloor (fadd x f_half)) (if Z.even z then z else z + 1)).
  { apply has_value_real. split; [exact G1|]. rewrite G2, R1, rnd_half by assumption. reflexivity. }
  destruct K as [E|E]; injection E as -> ->.
  - exists (round_x x). split; [fnv; reflexivity|]. rewrite (round_guard x z) by assumption. exact D.
  - exists (ffloor (fadd x f_half)). split; [fnv; reflexivity|exact D].
Qed.
Theorem C55_round_below_half : forall h c it mk, let x := S754_finite false 9007199254740991 (-54) in
  (it, mk) = (XIDouble x, XIDouble) \/ (it, mk) = (XIDecimal x, XIDecimal) ->
  exists y, fn_value h c (lit "fn:round") [[it]] (Ok [mk y]) /\ has_value y 1.
Proof.
  intros h c it mk x K. destruct K as [E|E]; injection E as -> ->.
  - exists (round_x x). split; [fnv; reflexivity|]. vm_compute. reflexivity.
  - exists (ffloor (fadd x f_half)). split; [fnv; reflexivity|]. vm_compute. reflexivity.
Qed.
(* no number lies within half a unit of -2^52 *)
Lemma no_quarter : forall x, valid x -> is_finite_SF x = true -> (Rabs (real x) < IZR (2 ^ 52))%R -> (IZR (- 2 ^ 53 + 1) <= 2 * real x)%R.
Proof.
  intros x V F B. destruct x as [s|s| |s m e]; try discriminate F.
  - cbn [SF2R]. rewrite Rmult_0_r. change 0%R with (IZR 0). apply IZR_le. lia.
  - destruct (valid_bounds s m e V) as [M _]. destruct (Z_le_gt_dec 0 e) as [E|E].
    + rewrite real_pos in * by lia. apply Rabs_def2 in B. destruct B as [_ B]. rewrite <- opp_IZR in B. apply lt_IZR in B.
      change 2%R with (IZR 2). rewrite <- mult_IZR. apply IZR_le. lia.
    + rewrite real_neg in * by lia. remember (signed s (Z.pos m)) as n eqn:N.
      assert (An : Z.abs n < 2 ^ 53) by (subst n; destruct s; cbn [signed]; lia).
      assert (P := pow_pos e ltac:(lia)). assert (P' : (0 < IZR (2 ^ (- e)))%R) by (apply IZR_lt; lia).
      apply Rmult_le_reg_r with (IZR (2 ^ (- e))); [exact P'|].
      replace (2 * (IZR n / IZR (2 ^ (- e))) * IZR (2 ^ (- e)))%R with (2 * IZR n)%R by (field; lra).
      change 2%R with (IZR 2). rewrite <- !mult_IZR. apply IZR_le.
      destruct (Z.eq_dec e (-1)) as [->|E1].
      * change (2 ^ (- -1)) with 2. lia.
      * replace (- e) with (2 + (- e - 2)) by lia. rewrite Z.pow_add_r by lia. assert (0 < 2 ^ (- e - 2)) by (apply Z.pow_pos_nonneg; lia).
        change (2 ^ 2) with 4. nia.
Qed.
Lemma large_integer : forall x, valid x -> is_finite_SF x = true -> (IZR (2 ^ 52) <= Rabs (real x))%R ->
  exists z, has_value x z /\ 2 ^ 52 <= Z.abs z.
Proof.
  intros x V F B. destruct x as [s|s| |s m e]; try discriminate F.
  - cbn [SF2R] in B. rewrite Rabs_R0 in B. change 0%R with (IZR 0) in B. apply le_IZR in B. lia.
  - destruct (valid_bounds s m e V) as [M _]. destruct (Z_le_gt_dec 0 e) as [E|E].
    + exists (signed s (Z.pos m) * 2 ^ e). rewrite has_value_real, real_pos in * by lia. rewrite <- abs_IZR in B. apply le_IZR in B. auto.
    + exfalso. rewrite real_neg in B by lia. assert (P := pow_pos e ltac:(lia)). assert (P' : (0 < IZR (2 ^ (- e)))%R) by (apply IZR_lt; lia).
      unfold Rdiv in B. rewrite Rabs_mult, Rabs_inv, (Rabs_pos_eq (IZR (2 ^ (- e)))) in B by lra.
      apply Rmult_le_compat_r with (r := IZR (2 ^ (- e))) in B; [|lra]. rewrite Rmult_assoc, Rinv_l, Rmult_1_r in B by lra.
      rewrite <- abs_IZR, <- mult_IZR in B. apply le_IZR in B.
      assert (A : Z.abs (signed s (Z.pos m)) = Z.pos m) by (destruct s; reflexivity). rewrite A in B.
      replace (- e) with (1 + (- e - 1)) in * by lia. rewrite Z.pow_add_r in * by lia. assert (0 < 2 ^ (- e - 1)) by (apply Z.pow_pos_nonneg; lia).
      change (2 ^ 1) with 2 in *. nia.
Qed.
Lemma program_rounds_total : forall x, is_f64 x -> is_finite_SF x = true -> exists r, program_rounds x r.
Proof.
  intros x V F. destruct (Rlt_le_dec (Rabs (real x)) (IZR (2 ^ 52))) as [B|B].
  - assert (D : x = almost_half \/ x <> almost_half).
    { destruct x as [s|s| |s m ee]; try (right; discriminate). unfold almost_half.
      destruct s; [right; discriminate|]. destruct (Pos.eq_dec m 9007199254740991) as [->|N]; [|right; congruence].
      destruct (Z.eq_dec ee (-54)) as [->|N]; [left; reflexivity|right; congruence]. }
    destruct D as [->|N]; [exists 1; apply pr_below_half|].
    exists (Zfloor (real x + 1 / 2)). apply pr_moderate; [|apply nearest_real; auto]. split; [exact V|]. split; [|exact N].
    apply half_between_real. split; [exact F|]. split; [apply no_quarter; assumption|].
    apply Rabs_def2 in B. change (2 ^ 53) with (2 * 2 ^ 52). rewrite mult_IZR. lra.
  - destruct (large_integer x V F B) as (z & H & L). destruct (Z.Even_or_Odd z); eexists; [eapply pr_even|eapply pr_odd]; eassumption.
Qed.
Theorem C55_round : forall h c it mk x, (it, mk) = (XIDouble x, XIDouble) \/ (it, mk) = (XIDecimal x, XIDecimal) ->
  is_f64 x -> is_finite_SF x = true ->
  (exists r, program_rounds x r) /\
  forall r, program_rounds x r -> exists y, fn_value h c (lit "fn:round") [[it]] (Ok [mk y]) /\ has_value y r.
Proof.
  intros h c it mk x K V F. split; [apply program_rounds_total; assumption|].
  intros r R. revert K V F. destruct R as [x r M N| |x z V' H L E|x z V' H L E]; intros K V F.
  - eapply C55_round_partial; eassumption.
  - apply C55_round_below_half. exact K.
  - assert (X := C55_round_large h c it mk x z K V H L). rewrite (proj2 (Z.even_spec z) E) in X. exact X.
  - assert (X := C55_round_large h c it mk x z K V H L). rewrite <- Z.negb_odd, (proj2 (Z.odd_spec z) E) in X. exact X.
Qed.
(* so the rounding is the one of XPath exactly for the other numbers *)
Theorem C55_round_right : forall x r, program_rounds x r -> (nearest x r <->
  x <> S754_finite false 9007199254740991 (-54) /\ ~ (exists z, has_value x z /\ 2 ^ 52 <= Z.abs z /\ Z.Odd z)).
Proof.
  assert (U : forall x z z', has_value x z -> has_value x z' -> z = z').
  { intros x z z' A B. apply has_value_real in A, B. destruct A as [_ A], B as [_ B]. rewrite A in B. apply eq_IZR in B. exact B. }
  assert (Fl : forall x z, has_value x z -> nearest x z).
  { intros x z A. apply has_value_real in A. destruct A as [F A]. apply nearest_real. split; [exact F|]. rewrite A. apply floor_between. rewrite plus_IZR. lra. }
  assert (Ne : forall x r r', nearest x r -> nearest x r' -> r = r').
  { intros x r r' A B. apply nearest_real in A, B. destruct A as [_ A], B as [_ B]. congruence. }
  intros x r R. destruct R as [x r M N| |x z V' H L E|x z V' H L E].
  - split; [|auto]. intros _. split; [apply M|]. intros (z & H & L & _).
    destruct (moderate_real x M) as (_ & _ & B & _). apply has_value_real in H. destruct H as [_ H]. rewrite H, <- abs_IZR in B. apply lt_IZR in B. lia.
  - split; [|intros [X _]; congruence]. intro X. exfalso. assert (Y : nearest almost_half 0) by (cbn; lia). assert (Z := Ne _ _ _ X Y). discriminate Z.
  - split; [|auto]. intros _. split; [intros ->; cbn in H; lia|]. intros (z0 & H' & _ & O). rewrite (U _ _ _ H' H) in O.
    destruct E as [a E], O as [b O]. lia.
  - split; [|intros [_ X]; destruct X; eauto]. intro X. exfalso. assert (Y := Ne _ _ _ X (Fl _ _ H)). lia.
Qed.
Example C55_round_example : program_rounds (S754_finite true 4503599627370497 0) (-4503599627370496) /\
  xpath_gives [] 0 (lit "round(-4503599627370497.0) = -4503599627370496") (Ok [XIBoolean true]) /\
  program_rounds (S754_finite false 5629499534213120 (-51)) 3.
Proof.
  split; [|split; [split; [discriminate|exists 30%nat; vm_compute; reflexivity]|]].
  - apply (pr_odd _ (-4503599627370497)); [reflexivity|reflexivity|cbn; lia|exists (-2251799813685249); reflexivity].
  - apply pr_moderate; [split; [reflexivity|split; [cbn; lia|discriminate]]|cbn; lia].
Qed.

(* ------------------------------------------------------------------ C28: every finite start and length *)
Lemma to_i64_value : forall x z, has_value x z -> f64_to_i64 x = saturated z.
Proof.
  intros [s|s| |s m e] z H; cbn [has_value] in H; try contradiction; [subst; reflexivity|].
  assert (E : (if s then Z.neg m else Z.pos m) = signed s (Z.pos m)) by (destruct s; reflexivity). rewrite E in H.
  unfold f64_to_i64, clamp_i64, saturated. f_equal. f_equal. destruct (Z.leb_spec 0 e) as [L|L].
  - subst z. destruct s; cbn [signed]; lia.
  - assert (P := pow_pos e ltac:(lia)). destruct s; cbn [signed] in *.
    + replace (Z.pos m) with ((- z) * 2 ^ (- e)) by lia. rewrite Z.div_mul by lia. lia.
    + rewrite H. rewrite Z.div_mul by lia. lia.
Qed.
Lemma round_x_value : forall x r, is_f64 x -> is_finite_SF x = true -> program_rounds x r -> has_value (round_x x) r.
Proof.
  intros x r V F P. destruct (proj2 (C55_round [] [] (XIDouble x) XIDouble x (or_introl eq_refl) V F) r P) as (y & Y & H).
  assert (D : fn_value [] [] (lit "fn:round") [[XIDouble x]] (Ok [XIDouble (round_x x)])) by (fnv; reflexivity).
  assert (E := fn_value_unique _ _ _ _ _ _ Y D). injection E as ->. exact H.
Qed.
(* the sign of a length decides the sign of its rounded value *)
Lemma round_sign : forall x r, is_finite_SF x = true -> program_rounds x r -> if is_sign_negative x then r <= 0 else 0 <= r.
Proof.
  intros x r F P.
  assert (S : if is_sign_negative x then (real x <= 0)%R else (0 <= real x)%R).
  { destruct x as [s|s| |s m e]; cbn in F; try discriminate F; cbn [is_sign_negative SF2R]; [destruct s; lra|].
    destruct s; [apply F2R_le_0|apply F2R_ge_0]; cbn; lia. }
  destruct P as [x r M N| |x z V' H L E|x z V' H L E].
  - apply nearest_real in N. destruct N as [_ <-]. destruct (is_sign_negative x).
    + apply Z.lt_succ_r. apply lt_IZR. unfold Z.succ. rewrite plus_IZR. assert (B := Zfloor_lb (real x + 1 / 2)). lra.
    + apply Zfloor_lub. lra.
  - cbn. lia.
  - apply has_value_real in H. destruct H as [_ H]. rewrite H in S. destruct (is_sign_negative x); change 0%R with (IZR 0) in S; apply le_IZR in S; lia.
  - apply has_value_real in H. destruct H as [_ H]. rewrite H in S. destruct (is_sign_negative x); change 0%R with (IZR 0) in S; apply le_IZR in S; lia.
Qed.
Lemma chk_not : forall z, ~ is_i64 z -> chk z = Panic.
Proof. intros z N. unfold chk, in_i64, i64_min, i64_max, is_i64 in *. destruct (Z.leb_spec (- 2 ^ 63) z), (Z.leb_spec z (2 ^ 63 - 1)); cbn [andb]; try reflexivity. lia. Qed.
Lemma sub_all {A} (l : list A) x y i j : is_f64 x -> is_f64 y -> is_finite_SF x = true -> is_finite_SF y = true ->
  program_rounds x i -> program_rounds y j ->
  (overflows i j -> subcollection_index_sub (List.length l) x y = Panic) /\
  (~ overflows i j -> exists b e, subcollection_index_sub (List.length l) x y = Ok (b, e) /\
     slice l b e = at_positions (fun p => (saturated i <=? p) && (p <? saturated i + saturated j)) l).
Proof.
  intros Vx Vy Fx Fy Px Py. assert (Ex := to_i64_value _ _ (round_x_value x i Vx Fx Px)). assert (Ey := to_i64_value _ _ (round_x_value y j Vy Fy Py)).
  destruct (finite_cases x Fx) as [X1 X2]. destruct (finite_cases y Fy) as [Y1 Y2].
  assert (Sg := round_sign y j Fy Py).
  assert (Ri : - 2 ^ 63 <= saturated i <= 2 ^ 63 - 1) by (unfold saturated; lia).
  assert (Rj : - 2 ^ 63 <= saturated j <= 2 ^ 63 - 1) by (unfold saturated; lia).
  assert (Sg' : if is_sign_negative y then saturated j <= 0 else 0 <= saturated j) by (destruct (is_sign_negative y); unfold saturated; lia).
  unfold subcollection_index_sub. rewrite X1, X2, Y1, Y2. cbn [orb andb]. rewrite Ex. unfold overflows.
  remember (saturated i) as a. remember (saturated j) as d. clear Heqa Heqd Ex.
  destruct (Z.eq_dec a (- 2 ^ 63)) as [->|Na].
  { split; [|intro Q; exfalso; tauto]. intros _. rewrite chk_not by (unfold is_i64; lia). reflexivity. }
  rewrite chk_ok by (unfold is_i64; lia). cbn [bind]. cbv zeta. destruct (is_sign_negative y) eqn:SN.
  { split; [intros [Q|Q]; lia|]. intros _. do 2 eexists. split; [reflexivity|]. rewrite slice_empty. apply positions_ext. intros q _.
    destruct (Z.leb_spec a q), (Z.ltb_spec q (a + d)); cbn; lia. }
  rewrite Ey. destruct (Z_le_dec (2 ^ 63) (a + d)) as [Ov|Ov].
  { split; [|intro Q; exfalso; tauto]. intros _. rewrite chk_not by (unfold is_i64; lia). reflexivity. }
  split; [intros [Q|Q]; lia|]. intros _.
  rewrite chk_ok by (unfold is_i64; lia). cbn [bind]. rewrite chk_ok by (unfold is_i64; lia). cbn [bind].
  set (n := Z.of_nat (List.length l)). do 2 eexists. split; [reflexivity|]. rewrite slice_positions.
  - apply positions_ext. intros q Hq. fold n in Hq. zcases; cbn [andb] in *; try reflexivity; exfalso; lia.
  - zcases; lia.
  - zcases; lia.
Qed.
Lemma sub_all_rest {A} (l : list A) x i : is_f64 x -> is_finite_SF x = true -> program_rounds x i ->
  (saturated i = - 2 ^ 63 -> subcollection_index_sub (List.length l) x f_inf = Panic) /\
  (saturated i <> - 2 ^ 63 -> exists b e, subcollection_index_sub (List.length l) x f_inf = Ok (b, e) /\
     slice l b e = at_positions (fun p => saturated i <=? p) l).
Proof.
  intros Vx Fx Px. assert (Ex := to_i64_value _ _ (round_x_value x i Vx Fx Px)). destruct (finite_cases x Fx) as [X1 X2].
  assert (Ri : - 2 ^ 63 <= saturated i <= 2 ^ 63 - 1) by (unfold saturated; lia).
  unfold subcollection_index_sub. rewrite X1, X2. cbn [orb andb f_inf is_infinite is_sign_negative negb]. rewrite Ex.
  remember (saturated i) as a. clear Heqa Ex. split.
  - intros ->. rewrite chk_not by (unfold is_i64; lia). reflexivity.
  - intro Na. rewrite chk_ok by (unfold is_i64; lia). cbn [bind]. cbv zeta. set (n := Z.of_nat (List.length l)).
    do 2 eexists. split; [reflexivity|]. rewrite slice_positions.
    + apply positions_ext. intros q Hq. fold n in Hq. zcases; cbn [andb] in *; try reflexivity; exfalso; lia.
    + zcases; lia.
    + zcases; lia.
Qed.
Lemma number_arg : forall h it x, double_or_decimal it x -> get_as_raw_double h it = Ok x.
Proof. intros h it x [->| ->]; reflexivity. Qed.
(* Every finite start and length: the positions from the rounded start on, as many as the rounded length, both saturated to 64 bits,
   or a panic when the program's arithmetic overflows. *)
Theorem C28_exact : forall h c s t a b x y i j, double_or_decimal a x -> double_or_decimal b y ->
  is_f64 x -> is_f64 y -> is_finite_SF x = true -> is_finite_SF y = true -> program_rounds x i -> program_rounds y j ->
  let keep p := (saturated i <=? p) && (p <? saturated i + saturated j) in
  (~ overflows i j -> fn_value h c (lit "fn:subsequence") [s; [a]; [b]] (Ok (at_positions keep s)) /\
                      fn_value h c (lit "fn:substring") [[XIString t]; [a]; [b]] (Ok [XIString (at_positions keep t)])) /\
  (overflows i j -> (s <> [] -> fn_value h c (lit "fn:subsequence") [s; [a]; [b]] Panic) /\
                    fn_value h c (lit "fn:substring") [[XIString t]; [a]; [b]] Panic).
Proof.
  intros h c s t a b x y i j A B Vx Vy Fx Fy Px Py keep.
  destruct (sub_all s x y i j Vx Vy Fx Fy Px Py) as [S1 S2]. destruct (sub_all t x y i j Vx Vy Fx Fy Px Py) as [T1 T2].
  apply (number_arg h) in A. apply (number_arg h) in B. split; intro O.
  - destruct (S2 O) as (p & q & E & S). destruct (T2 O) as (p' & q' & E' & T). split.
    + fnv. unfold fn_subsequence. destruct s as [|it s]; [reflexivity|].
      unfold start_of, get_length. cbn [get_singleton_item bind]. rewrite A, B. cbn [bind]. rewrite E. cbn [bind]. rewrite S. reflexivity.
    + fnv. unfold fn_substring, start_of, get_length. cbn [get_singleton_string get_singleton_item bind]. rewrite A, B. cbn [bind].
      rewrite E'. cbn [bind]. rewrite T. reflexivity.
  - split.
    + intro N. fnv. unfold fn_subsequence. destruct s as [|it s]; [congruence|].
      unfold start_of, get_length. cbn [get_singleton_item bind]. rewrite A, B. cbn [bind]. rewrite S1 by exact O. reflexivity.
    + fnv. unfold fn_substring, start_of, get_length. cbn [get_singleton_string get_singleton_item bind]. rewrite A, B. cbn [bind].
      rewrite T1 by exact O. reflexivity.
Qed.
Theorem C28_exact_rest : forall h c s t a x i, double_or_decimal a x -> is_f64 x -> is_finite_SF x = true -> program_rounds x i ->
  let keep p := saturated i <=? p in
  (saturated i <> - 2 ^ 63 -> fn_value h c (lit "fn:subsequence") [s; [a]] (Ok (at_positions keep s)) /\
                              fn_value h c (lit "fn:substring") [[XIString t]; [a]] (Ok [XIString (at_positions keep t)])) /\
  (saturated i = - 2 ^ 63 -> (s <> [] -> fn_value h c (lit "fn:subsequence") [s; [a]] Panic) /\
                             fn_value h c (lit "fn:substring") [[XIString t]; [a]] Panic).
Proof.
  intros h c s t a x i A Vx Fx Px keep.
  destruct (sub_all_rest s x i Vx Fx Px) as [S1 S2]. destruct (sub_all_rest t x i Vx Fx Px) as [T1 T2].
  apply (number_arg h) in A. split; intro O.
  - destruct (S2 O) as (p & q & E & S). destruct (T2 O) as (p' & q' & E' & T). split.
    + fnv. unfold fn_subsequence. destruct s as [|it s]; [reflexivity|].
      unfold start_of, get_length. cbn [get_singleton_item bind]. rewrite A. cbn [bind]. rewrite E. cbn [bind]. rewrite S. reflexivity.
    + fnv. unfold fn_substring, start_of, get_length. cbn [get_singleton_string get_singleton_item bind]. rewrite A. cbn [bind].
      rewrite E'. cbn [bind]. rewrite T. reflexivity.
  - split.
    + intro N. fnv. unfold fn_subsequence. destruct s as [|it s]; [congruence|].
      unfold start_of, get_length. cbn [get_singleton_item bind]. rewrite A. cbn [bind]. rewrite S1 by exact O. reflexivity.
    + fnv. unfold fn_substring, start_of, get_length. cbn [get_singleton_string get_singleton_item bind]. rewrite A. cbn [bind].
      rewrite T1 by exact O. reflexivity.
Qed.
Example C28_exact_example : overflows (10 ^ 19) (10 ^ 19) /\ ~ overflows (10 ^ 19) 0 /\ program_rounds (S754_finite false 4882812500000000 11) (10 ^ 19) /\
  eval_xpath 30 [] 0 (lit "count(subsequence((1, 2), 1e19, 0e0)), subsequence((7, 8, 9), 1.5)") = Ok [XIInteger 0; XIInteger 8; XIInteger 9].
Proof.
  split; [right; vm_compute; discriminate|]. split.
  - unfold overflows. vm_compute. intros [Q|Q]; [discriminate Q|apply Q; reflexivity].
  - split; [apply pr_even; [reflexivity|reflexivity|vm_compute; discriminate|exists (5 * 10 ^ 18); reflexivity]|vm_compute; reflexivity].
Qed.

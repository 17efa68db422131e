(* Facts about binary64 arithmetic (Num.v), from the Flocq library.

   Flocq reasons in the real numbers of the standard library, so the results here rest on the axioms of Coq's Reals.
   The lemmas [round_nearest_even_equiv], [binary_round_aux_equiv], [binary_round_equiv], [binary_normalize_equiv]
   are taken over from Flocq's IEEE754/PrimFloat.v, which cannot be loaded without primitive floats. *)
Require Import Bool List NArith ZArith Lia Reals Lra.
Require Import Coq.Floats.SpecFloat.
From Verif Require Import Str Num Item Func.
From Flocq Require Import Core BinarySingleNaN.
Open Scope Z_scope.

Global Instance prec64_gt_0 : Prec_gt_0 prec64 := eq_refl.
Global Instance prec64_lt_emax : Prec_lt_emax prec64 emax64 := eq_refl.
Notation fexp64 := (SpecFloat.fexp prec64 emax64).
Notation rnd64 := (round radix2 fexp64 ZnearestE).
Notation valid x := (SpecFloat.valid_binary prec64 emax64 x = true).
Notation real := (SF2R radix2).

Global Instance fexp64_valid : Valid_exp fexp64 := FLT_exp_valid (SpecFloat.emin prec64 emax64) prec64.

Lemma round_nearest_even_equiv s m l : round_nearest_even m l = choice_mode mode_NE s m l.
Proof. case l; [reflexivity|intro c]. case c; [ | reflexivity..]. now simpl; unfold Round.cond_incr; case Z.even. Qed.
Lemma binary_round_aux_equiv sx mx ex lx :
  SpecFloat.binary_round_aux prec64 emax64 sx mx ex lx = binary_round_aux prec64 emax64 mode_NE sx mx ex lx.
Proof.
  unfold SpecFloat.binary_round_aux, binary_round_aux. set (mrse' := shr_fexp _ _ _). case mrse'; intros mrs' e'; simpl.
  now rewrite (round_nearest_even_equiv sx).
Qed.
Lemma binary_round_equiv s m e :
  SpecFloat.binary_round prec64 emax64 s m e = binary_round prec64 emax64 mode_NE s m e.
Proof.
  unfold SpecFloat.binary_round, binary_round, shl_align_fexp. set (mez := shl_align _ _ _); case mez as [mz ez].
  apply binary_round_aux_equiv.
Qed.
Lemma binary_normalize_equiv m e szero :
  SpecFloat.binary_normalize prec64 emax64 m e szero
  = B2SF (binary_normalize prec64 emax64 prec64_gt_0 prec64_lt_emax mode_NE m e szero).
Proof.
  case m as [ | p | p].
  - now simpl.
  - simpl; rewrite B2SF_SF2B; apply binary_round_equiv.
  - simpl; rewrite B2SF_SF2B; apply binary_round_equiv.
Qed.
Notation b64 x V := (SF2B (prec:=prec64) (emax:=emax64) x V).
Lemma fadd_equiv x y (Vx : valid x) (Vy : valid y) : fadd x y = B2SF (Bplus mode_NE (b64 x Vx) (b64 y Vy)).
Proof.
  destruct x as [sx|sx| |sx mx ex], y as [sy|sy| |sy my ey]; cbn [SF2B Bplus B2SF]; try reflexivity;
    try (unfold fadd; cbn; destruct (Bool.eqb sx sy); reflexivity).
  unfold fadd. cbn [SFadd]. rewrite binary_normalize_equiv. reflexivity.
Qed.
Lemma valid_B2SF x : valid (B2SF (prec:=prec64) (emax:=emax64) x).
Proof. apply valid_binary_B2SF. Qed.

(* ------------------------------------------------------------------ values *)
Lemma valid_bounds s m e : valid (S754_finite s m e) -> Z.pos m < 2 ^ 53 /\ -1074 <= e.
Proof.
  cbn [SpecFloat.valid_binary]. unfold SpecFloat.bounded, canonical_mantissa. intro H. apply andb_true_iff in H. destruct H as [H _].
  apply Zeq_bool_eq in H. unfold SpecFloat.fexp, SpecFloat.emin, prec64, emax64 in H.
  assert (D := Zdigits_correct radix2 (Zpos m)). rewrite Zpos_digits2_pos in H.
  assert (L : Zdigits radix2 (Zpos m) <= 53) by lia. split; [|lia].
  destruct D as [_ D]. rewrite Z.abs_eq in D by lia. eapply Z.lt_le_trans; [exact D|].
  apply (Z.pow_le_mono_r 2 _ 53); lia.
Qed.
Lemma format_F2R M e : Z.abs M <= 2 ^ 53 -> -1074 <= e -> generic_format radix2 fexp64 (F2R (Float radix2 M e)).
Proof.
  intros HM He.
  assert (C : forall M e, Z.abs M < 2 ^ 53 -> -1074 <= e -> generic_format radix2 fexp64 (F2R (Float radix2 M e))).
  { clear. intros M e HM He. apply generic_format_FLT. exists (Float radix2 M e); [reflexivity|exact HM|exact He]. }
  destruct (Z.eq_dec (Z.abs M) (2 ^ 53)) as [E|]; [|apply C; lia].
  assert (X : F2R (Float radix2 M e) = F2R (Float radix2 (Z.sgn M) (e + 53))).
  { unfold F2R. cbn [Fnum Fexp]. rewrite bpow_plus, (Rmult_comm (bpow radix2 e)), <- Rmult_assoc. f_equal.
    change (bpow radix2 53) with (IZR (2 ^ 53)). rewrite <- mult_IZR. f_equal. lia. }
  rewrite X. apply C; lia.
Qed.
Lemma format_int z : Z.abs z <= 2 ^ 53 -> generic_format radix2 fexp64 (IZR z).
Proof. intro H. assert (F := format_F2R z 0 H ltac:(lia)). unfold F2R in F. cbn in F. now rewrite Rmult_1_r in F. Qed.
Lemma lt_emax (x : R) z : (Rabs x <= IZR z)%R -> z <= 2 ^ 53 -> (Rabs x < bpow radix2 emax64)%R.
Proof.
  intros H L. eapply Rle_lt_trans; [exact H|]. eapply Rle_lt_trans; [apply IZR_le; exact L|].
  change (IZR (2 ^ 53)) with (bpow radix2 53). apply bpow_lt. reflexivity.
Qed.
Lemma rnd_abs x z : (Rabs x <= IZR z)%R -> 0 <= z <= 2 ^ 53 -> (Rabs (rnd64 x) <= IZR z)%R.
Proof.
  intros H L. apply abs_round_le_generic; auto with typeclass_instances. apply format_int. lia.
Qed.
Lemma fadd_real x y z : valid x -> valid y -> is_finite_SF x = true -> is_finite_SF y = true ->
  (Rabs (real x + real y) <= IZR z)%R -> 0 <= z <= 2 ^ 53 ->
  real (fadd x y) = rnd64 (real x + real y) /\ is_finite_SF (fadd x y) = true /\ valid (fadd x y).
Proof.
  intros Vx Vy Fx Fy A L. rewrite (fadd_equiv x y Vx Vy), SF2R_B2SF, is_finite_SF_B2SF.
  assert (C := Bplus_correct prec64 emax64 _ _ mode_NE (b64 x Vx) (b64 y Vy)).
  rewrite !is_finite_SF2B, !B2R_SF2B in C. specialize (C Fx Fy). cbn [round_mode] in C.
  rewrite Rlt_bool_true in C.
  - destruct C as [C [D _]]. split; [exact C|]. split; [exact D|]. apply valid_B2SF.
  - apply lt_emax with z; [|lia]. apply rnd_abs; auto.
Qed.
Lemma norm_int_real z s : Z.abs z <= 2 ^ 53 ->
  real (SpecFloat.binary_normalize prec64 emax64 z 0 s) = IZR z /\
  is_finite_SF (SpecFloat.binary_normalize prec64 emax64 z 0 s) = true /\
  valid (SpecFloat.binary_normalize prec64 emax64 z 0 s).
Proof.
  intro L. rewrite binary_normalize_equiv, SF2R_B2SF, is_finite_SF_B2SF.
  assert (C := binary_normalize_correct prec64 emax64 _ _ mode_NE z 0 s). cbn [round_mode] in C.
  assert (X : F2R (Float radix2 z 0) = IZR z) by (unfold F2R; cbn; ring).
  rewrite X in C. rewrite round_generic in C; auto with typeclass_instances; [|apply format_int; auto].
  rewrite Rlt_bool_true in C.
  - destruct C as [C [D _]]. split; [exact C|]. split; [exact D|]. apply valid_B2SF.
  - apply lt_emax with (Z.abs z); [|lia]. rewrite abs_IZR. apply Rle_refl.
Qed.

Lemma signed_cond s z : signed s z = cond_Zopp s z.
Proof. destruct s; reflexivity. Qed.
Lemma real_pos s m e : 0 <= e -> real (S754_finite s m e) = IZR (signed s (Z.pos m) * 2 ^ e).
Proof.
  intro H. cbn [SF2R]. change (signed s (Z.pos m)) with (cond_Zopp s (Z.pos m)). rewrite mult_IZR. unfold F2R. cbn [Fnum Fexp]. f_equal.
  symmetry. exact (IZR_Zpower radix2 e H).
Qed.
Lemma bpow_neg e : e < 0 -> bpow radix2 e = (/ IZR (2 ^ (- e)))%R.
Proof.
  intro H. replace e with (- - e) at 1 by lia. rewrite bpow_opp. f_equal.
  symmetry. apply (IZR_Zpower radix2 (- e)). lia.
Qed.
Lemma real_neg s m e : e < 0 -> real (S754_finite s m e) = (IZR (signed s (Z.pos m)) / IZR (2 ^ (- e)))%R.
Proof.
  intro H. cbn [SF2R]. unfold F2R. cbn [Fnum Fexp]. rewrite bpow_neg by exact H. reflexivity.
Qed.
Lemma pow_pos e : e < 0 -> 0 < 2 ^ (- e).
Proof. intro. apply Z.pow_pos_nonneg; lia. Qed.

Lemma f64_to_i64_int x z : is_finite_SF x = true -> real x = IZR z -> in_i64 z = true -> f64_to_i64 x = z.
Proof.
  intros F E I. assert (C : clamp_i64 z = z).
  { unfold in_i64 in I. unfold clamp_i64. lia. }
  destruct x as [s|s| |s m e]; try discriminate F.
  - cbn in *. apply eq_IZR in E. auto.
  - cbn [f64_to_i64]. destruct (0 <=? e) eqn:P.
    + rewrite real_pos in E by lia. apply eq_IZR in E. rewrite <- C, <- E. f_equal. destruct s; cbn [signed]; lia.
    + assert (Q := pow_pos e ltac:(lia)). rewrite real_neg in E by lia. set (d := 2 ^ (- e)) in *.
      assert (Y : signed s (Z.pos m) = z * d).
      { apply eq_IZR. rewrite mult_IZR, <- E. field. apply IZR_neq. lia. }
      rewrite <- C. f_equal.
      destruct s; cbn [signed] in *.
      * replace (Z.pos m) with ((- z) * d) by lia. rewrite Z.div_mul by lia. lia.
      * rewrite Y, Z.div_mul by lia. reflexivity.
Qed.
Lemma floor_to_i64 x : valid x -> is_finite_SF x = true -> (Rabs (real x) <= IZR (2 ^ 53))%R ->
  f64_to_i64 (ffloor x) = Zfloor (real x).
Proof.
  intros V F A. assert (B : Z.abs (Zfloor (real x)) <= 2 ^ 53).
  { apply Rabs_le_inv in A. destruct A as [A1 A2]. rewrite <- opp_IZR in A1.
    apply Z.abs_le. split.
    - apply Zfloor_lub. exact A1.
    - apply le_IZR. eapply Rle_trans; [apply Zfloor_lb|exact A2]. }
  assert (I : in_i64 (Zfloor (real x)) = true) by (unfold in_i64, i64_min, i64_max; lia).
  destruct x as [s|s| |s m e]; try discriminate F.
  - cbn. symmetry. apply Zfloor_IZR.
  - cbn [ffloor]. destruct (0 <=? e) eqn:P.
    + apply f64_to_i64_int; auto. rewrite real_pos by lia. now rewrite Zfloor_IZR.
    + assert (Q := pow_pos e ltac:(lia)).
      assert (X : Zfloor (real (S754_finite s m e)) = signed s (Z.pos m) / 2 ^ (- e)).
      { rewrite real_neg by lia. apply Zfloor_div. lia. }
      rewrite <- X in *. destruct (norm_int_real _ s B) as [R1 [R2 _]]. apply f64_to_i64_int; auto.
Qed.

(* ------------------------------------------------------------------ rounding *)
(* 0.49999999999999994, the largest double below one half: adding one half to it rounds to one *)
Definition almost_half : f64 := S754_finite false 9007199254740991 (-54).
Lemma almost_half_valid : valid almost_half. Proof. reflexivity. Qed.
Lemma half_real : real f_half = (1 / 2)%R /\ valid f_half /\ is_finite_SF f_half = true.
Proof.
  split; [|split; reflexivity]. assert (E : f_half = S754_finite false 4503599627370496 (-53)) by reflexivity.
  rewrite E, real_neg by lia. cbn [signed]. change (2 ^ (- -53)) with (2 * 4503599627370496). rewrite mult_IZR. field.
Qed.

Lemma floor_between x k : (IZR k <= x < IZR (k + 1))%R -> Zfloor x = k.
Proof. intros H. apply Zfloor_imp. exact H. Qed.
Lemma F2R_IZR M e : e < 0 -> F2R (Float radix2 M e) = (IZR M / IZR (2 ^ (- e)))%R.
Proof. intro H. unfold F2R. cbn [Fnum Fexp]. now rewrite bpow_neg. Qed.

Lemma round_half_floor x : valid x -> is_finite_SF x = true -> (Rabs (real x) < IZR (2 ^ 52))%R ->
  (0 <= real x \/ real x < - (1 / 2))%R -> x <> almost_half ->
  Zfloor (rnd64 (real x + 1 / 2)) = Zfloor (real x + 1 / 2).
Proof.
  intros V F A Hx NE. set (k := Zfloor (real x + 1 / 2)).
  assert (K1 : (IZR k <= real x + 1 / 2)%R) by apply Zfloor_lb.
  assert (K2 : (real x + 1 / 2 < IZR (k + 1))%R) by (rewrite plus_IZR; apply Zfloor_ub).
  apply Rabs_def2 in A. destruct A as [A1 A2].
  assert (KB : Z.abs k <= 2 ^ 52).
  { apply Z.abs_le. split.
    - apply Zfloor_lub. rewrite opp_IZR. lra.
    - apply Z.lt_succ_r. apply lt_IZR. unfold Z.succ. rewrite plus_IZR. lra. }
  clearbody k. apply floor_between. split.
  { apply round_ge_generic; auto with typeclass_instances. apply format_int. lia. }
  assert (Y : exists y, generic_format radix2 fexp64 y /\ (real x + 1 / 2 <= y < IZR (k + 1))%R).
  2: { destruct Y as [y [FY [Y1 Y2]]]. eapply Rle_lt_trans; [|exact Y2]. apply round_le_generic; auto with typeclass_instances. }
  destruct x as [s|s| |s m e]; try discriminate F.
  { exists (1 / 2)%R. cbn [SF2R] in *. split; [|lra].
    replace (1 / 2)%R with (F2R (Float radix2 1 (-1))) by (unfold F2R; cbn; lra). apply format_F2R; lia. }
  destruct (valid_bounds _ _ _ V) as [Hm He].
  assert (BN : Z.abs (signed s (Z.pos m)) < 2 ^ 53) by (destruct s; cbn [signed]; lia).
  assert (SN : s = false -> signed s (Z.pos m) = Z.pos m) by (intros ->; reflexivity).
  set (N := signed s (Z.pos m)) in *.
  destruct (Z_le_gt_dec 0 e) as [E0|E0].
  { rewrite real_pos in * by lia. fold N in A1, A2, K1, K2, Hx |- *. set (i := N * 2 ^ e) in *.
    assert (I : Z.abs (2 * i + 1) <= 2 ^ 53).
    { rewrite <- opp_IZR in A2. apply lt_IZR in A1. apply lt_IZR in A2. lia. }
    exists (IZR i + 1 / 2)%R. split; [|lra].
    replace (IZR i + 1 / 2)%R with (F2R (Float radix2 (2 * i + 1) (-1))).
    - apply format_F2R; lia.
    - unfold F2R. cbn [Fnum Fexp]. rewrite plus_IZR, mult_IZR. cbn. lra. }
  rewrite real_neg in * by lia. fold N in A1, A2, K1, K2, Hx |- *.
  assert (Q := pow_pos e ltac:(lia)). assert (QR : (0 < IZR (2 ^ (- e)))%R) by (apply IZR_lt; lia).
  assert (PE : 2 ^ (- e) = 2 * 2 ^ (- e - 1)).
  { replace (- e) with (1 + (- e - 1)) at 1 by lia. rewrite Z.pow_add_r by lia. reflexivity. }
  set (P := 2 ^ (- e - 1)) in *. assert (PP : 0 < P) by lia.
  assert (HM : (IZR N / IZR (2 ^ (- e)) + 1 / 2 = F2R (Float radix2 (N + P) e))%R).
  { rewrite F2R_IZR by lia. rewrite plus_IZR, PE, mult_IZR. field. apply IZR_neq. lia. }
  rewrite HM in *. set (M := N + P) in *.
  destruct (Z_le_gt_dec (Z.abs M) (2 ^ 53)) as [SM|BM].
  { exists (F2R (Float radix2 M e)). split; [apply format_F2R; lia|lra]. }
  assert (NP : 0 < N).
  { destruct Hx as [Hx|Hx].
    - destruct (Z_lt_le_dec N 0) as [C|C].
      + exfalso. apply IZR_lt in C. assert (IZR N / IZR (2 ^ (- e)) < 0)%R; [|lra].
        apply Rmult_lt_reg_r with (IZR (2 ^ (- e))); auto. unfold Rdiv. rewrite Rmult_assoc, Rinv_l by lra. lra.
      + assert (N <> 0) by (unfold N; destruct s; cbn [signed]; lia). lia.
    - exfalso. assert (M < 0); [|lia]. apply lt_IZR.
      assert (IZR N / IZR (2 ^ (- e)) + 1 / 2 < 0)%R as Z1 by lra. rewrite HM, F2R_IZR in Z1 by lia.
      apply Rmult_lt_reg_r with (/ IZR (2 ^ (- e)))%R; [now apply Rinv_0_lt_compat|]. unfold Rdiv in Z1. lra. }
  assert (S : s = false) by (destruct s; auto; cbn in N; lia). specialize (SN S).
  destruct (Z_le_gt_dec (4 * N) (2 ^ (- e))) as [Small|Big].
  { exists (3 / 4)%R. assert (Z4 : (IZR N / IZR (2 ^ (- e)) <= 1 / 4)%R).
    { apply Rmult_le_reg_r with (IZR (2 ^ (- e))); auto. unfold Rdiv at 1. rewrite Rmult_assoc, Rinv_l by lra.
      apply IZR_le in Small. rewrite mult_IZR in Small. lra. }
    assert (Z0 : (0 < IZR N / IZR (2 ^ (- e)))%R) by (apply Rdiv_lt_0_compat; auto; apply IZR_lt; auto).
    split.
    - replace (3 / 4)%R with (F2R (Float radix2 3 (-2))) by (unfold F2R; cbn; lra). apply format_F2R; lia.
    - split; [lra|]. assert (0 <= k); [|apply Rlt_le_trans with 1%R; [lra|apply IZR_le; lia]].
      assert (0 < k + 1); [|lia]. apply lt_IZR. lra. }
  assert (EL : -54 <= e).
  { destruct (Z_lt_le_dec e (-54)); auto. assert (2 ^ 55 <= 2 ^ (- e)) by (apply Z.pow_le_mono_r; lia). lia. }
  assert (PL : P <= 2 ^ 53) by (unfold P; apply Z.pow_le_mono_r; lia).
  assert (K2' : M < (k + 1) * 2 ^ (- e)).
  { apply lt_IZR. rewrite mult_IZR. rewrite F2R_IZR in K2 by lia.
    apply Rmult_lt_compat_r with (r := IZR (2 ^ (- e))) in K2; auto. unfold Rdiv in K2. rewrite Rmult_assoc, Rinv_l in K2 by lra. lra. }
  assert (Up : forall M', M <= M' -> Z.even M' = true -> M' <= 2 ^ 54 -> M' < (k + 1) * 2 ^ (- e) ->
    exists y : R, generic_format radix2 fexp64 y /\ (F2R (Float radix2 M e) <= y < IZR (k + 1))%R).
  { intros M' L1 EV L2 L3. exists (F2R (Float radix2 M' e)). split.
    - apply Z.even_spec in EV. destruct EV as [q ->].
      replace (F2R (Float radix2 (2 * q) e)) with (F2R (Float radix2 q (e + 1))).
      + apply format_F2R; lia.
      + unfold F2R. cbn [Fnum Fexp]. rewrite bpow_plus, mult_IZR. change (bpow radix2 1) with 2%R. ring.
    - split; [apply F2R_le; exact L1|]. rewrite F2R_IZR by lia. apply Rmult_lt_reg_r with (IZR (2 ^ (- e))); auto.
      unfold Rdiv. rewrite Rmult_assoc, Rinv_l by lra. rewrite Rmult_1_r, <- mult_IZR. apply IZR_lt. exact L3. }
  destruct (Z.even M) eqn:EM; [apply (Up M); auto; unfold M; lia|].
  apply (Up (M + 1)); [lia| |unfold M; lia|].
  { rewrite Z.add_1_r, Z.even_succ, <- Z.negb_even, EM. reflexivity. }
  assert (M + 1 <> (k + 1) * 2 ^ (- e)); [|lia]. intro X.
  (* 2^53 = P * Q *)
  set (Q2 := 2 ^ (54 + e)). assert (PQ : P * Q2 = 2 ^ 53).
  { unfold P, Q2. rewrite <- Z.pow_add_r by lia. f_equal. lia. }
  rewrite PE in X. unfold M in *. assert (NN : N = (2 * k + 1) * P - 1) by lia.
  assert (L1 : 2 * k + 2 > Q2) by nia. assert (L2 : 2 * k + 1 <= Q2) by nia.
  assert (QE : Q2 = 2 * k + 1) by lia.
  assert (e = -54).
  { destruct (Z.eq_dec e (-54)); auto. exfalso. unfold Q2 in QE. replace (54 + e) with (1 + (53 + e)) in QE by lia.
    rewrite Z.pow_add_r in QE by lia. lia. }
  subst e. unfold Q2 in QE. cbn in QE. assert (k = 0) by lia. apply NE. unfold almost_half. rewrite S. f_equal.
  assert (P = 2 ^ 53) by reflexivity. assert (Z.pos m = 9007199254740991) by lia. congruence.
Qed.

(* XPath rounding: to the nearest integer, a tie upward *)
Lemma round_x_real x : valid x -> is_finite_SF x = true -> (Rabs (real x) < IZR (2 ^ 52))%R -> x <> almost_half ->
  f64_to_i64 (round_x x) = Zfloor (real x + 1 / 2).
Proof.
  intros V F A NE. unfold round_x. destruct half_real as [HR [HV HF]].
  assert (MH : real f_minus_half = (- (1 / 2))%R /\ valid f_minus_half /\ is_finite_SF f_minus_half = true).
  { split; [|split; reflexivity]. assert (E : f_minus_half = S754_finite true 4503599627370496 (-53)) by reflexivity.
    rewrite E, real_neg by lia. cbn [signed]. change (2 ^ (- -53)) with (2 * 4503599627370496). rewrite mult_IZR, opp_IZR. field. }
  destruct MH as [MR [MV MF]].
  assert (L1 : fleb f_minus_half x = Rle_bool (- (1 / 2)) (real x)).
  { assert (C := Bleb_correct prec64 emax64 (b64 _ MV) (b64 x V)). rewrite !is_finite_SF2B, !B2R_SF2B, MR in C.
    unfold Bleb in C. rewrite !B2SF_SF2B in C. apply C; auto. }
  assert (L2 : fltb x f_zero = Rlt_bool (real x) 0).
  { assert (C := Bltb_correct prec64 emax64 (b64 x V) (B754_zero false)). rewrite !is_finite_SF2B, !B2R_SF2B in C.
    unfold Bltb in C. rewrite !B2SF_SF2B in C. apply C; auto. }
  rewrite L1, L2.
  destruct (neg_zero x) eqn:NZ.
  { destruct x as [[]|[]| |[] m e]; try discriminate NZ. cbn [orb SF2R]. symmetry. apply floor_between. cbn. lra. }
  cbn [orb]. destruct (Rle_bool_spec (- (1 / 2)) (real x)) as [G|G], (Rlt_bool_spec (real x) 0) as [H|H]; cbn [andb].
  1: { symmetry. apply floor_between. cbn. lra. }
  all: apply Rabs_def2 in A as A'.
  all: destruct (fadd_real x f_half (2 ^ 53)) as [R1 [R2 R3]]; auto; [|lia|];
       [rewrite HR; apply Rabs_le; rewrite <- opp_IZR; split; [apply Rle_trans with (- IZR (2 ^ 52))%R; [rewrite <- opp_IZR; apply IZR_le; lia|lra]|]|];
       [apply Rle_trans with (IZR (2 ^ 52) + 1)%R; [lra|rewrite <- plus_IZR; apply IZR_le; lia]|].
  all: rewrite floor_to_i64; auto; [rewrite R1, HR; apply round_half_floor; auto|].
  all: rewrite R1; apply rnd_abs; [|lia]; rewrite HR; apply Rabs_le; rewrite <- opp_IZR; split;
       [apply Rle_trans with (- IZR (2 ^ 52))%R; [rewrite <- opp_IZR; apply IZR_le; lia|lra]|
        apply Rle_trans with (IZR (2 ^ 52) + 1)%R; [lra|rewrite <- plus_IZR; apply IZR_le; lia]].
Qed.

(* Correct rounding: from Flocq's rounding operator to the statement of SpecDbl.v. *)
From Flocq Require Import Core BinarySingleNaN.
Require Import Bool List NArith ZArith Lia Reals Lra.
Require Import Coq.Floats.SpecFloat.
From Verif Require Import Str Num Item Func FloatFacts SpecNum SpecDbl.
Open Scope Z_scope.

Lemma bpow_powerRZ e : bpow radix2 e = powerRZ 2 e.
Proof. rewrite bpow_powerRZ. reflexivity. Qed.
Lemma val_real x : val x = real x.
Proof.
  destruct x as [| | |s m e]; try reflexivity. cbn [val SF2R]. unfold F2R. cbn [Fnum Fexp]. rewrite bpow_powerRZ.
  destruct s; reflexivity.
Qed.
Lemma finite_iff x : finite x <-> is_finite_SF x = true.
Proof.
  split; [intros [[s ->]|(s & m & e & ->)]; reflexivity|]. destruct x; try discriminate; intros _; [left|right]; eauto.
Qed.
Lemma valid_format x : valid x -> is_finite_SF x = true -> generic_format radix2 fexp64 (real x).
Proof.
  intros V F. rewrite <- (B2R_SF2B prec64 emax64 x V). apply generic_format_B2R.
Qed.
Lemma valid_lt_emax x : valid x -> is_finite_SF x = true -> (Rabs (real x) < bpow radix2 emax64)%R.
Proof. intros V F. rewrite <- (B2R_SF2B prec64 emax64 x V). apply abs_B2R_lt_emax. Qed.
Lemma format_valid v : generic_format radix2 fexp64 v -> (Rabs v < bpow radix2 emax64)%R ->
  exists x, valid x /\ is_finite_SF x = true /\ real x = v.
Proof.
  intros F L.
  assert (C := binary_normalize_correct prec64 emax64 _ _ mode_NE (Ztrunc (scaled_mantissa radix2 fexp64 v)) (cexp radix2 fexp64 v) false).
  cbn [round_mode] in C.
  assert (X : F2R (Float radix2 (Ztrunc (scaled_mantissa radix2 fexp64 v)) (cexp radix2 fexp64 v)) = v) by (symmetry; exact F).
  rewrite X in C. rewrite round_generic in C; auto with typeclass_instances. rewrite Rlt_bool_true in C by exact L.
  destruct C as [C [D _]]. eexists. split; [apply valid_binary_B2SF|]. rewrite is_finite_SF_B2SF, SF2R_B2SF. split; [exact D|exact C].
Qed.

Definition top : R := bpow radix2 1024.
Definition biggest : R := (top - bpow radix2 971)%R.
Lemma pred_top : pred radix2 fexp64 top = biggest.
Proof.
  unfold top, biggest. rewrite pred_bpow. reflexivity.
Qed.
Lemma format_top : generic_format radix2 fexp64 top.
Proof. apply generic_format_bpow. vm_compute. discriminate. Qed.
Lemma succ_biggest : succ radix2 fexp64 biggest = top.
Proof. rewrite <- pred_top. apply succ_pred; [exact fexp64_valid|exact format_top]. Qed.
Lemma format_biggest : generic_format radix2 fexp64 biggest.
Proof. rewrite <- pred_top. apply generic_format_pred; [exact fexp64_valid|exact format_top]. Qed.
Lemma too_big_mid : too_big = ((biggest + top) / 2)%R.
Proof.
  unfold too_big, biggest, top. rewrite <- !bpow_powerRZ. replace (bpow radix2 971) with (2 * bpow radix2 970)%R; [field|].
  change 2%R with (bpow radix2 1). rewrite <- bpow_plus. reflexivity.
Qed.
Lemma top_gap : (bpow radix2 971 = 2 * bpow radix2 970)%R.
Proof. change 2%R with (bpow radix2 1). rewrite <- bpow_plus. reflexivity. Qed.
Lemma too_big_pos : (0 < too_big)%R.
Proof.
  rewrite too_big_mid. unfold biggest, top. assert (bpow radix2 971 < bpow radix2 1024)%R by (apply bpow_lt; lia).
  assert (0 < bpow radix2 1024)%R by apply bpow_gt_0. lra.
Qed.

(* at the midpoint the even one is 2^1024 *)
Lemma rnd_mid : rnd64 too_big = top.
Proof.
  assert (E : too_big = (bpow radix2 971 * (IZR (2 ^ 53) - / 2))%R).
  { unfold too_big. rewrite <- !bpow_powerRZ. replace (IZR (2 ^ 53)) with (bpow radix2 53) by reflexivity.
    rewrite Rmult_minus_distr_l, <- bpow_plus. rewrite top_gap. change (971 + 53) with 1024. field. }
  assert (M : mag radix2 too_big = 1024 :> Z).
  { apply mag_unique. rewrite Rabs_pos_eq by (apply Rlt_le, too_big_pos). unfold too_big. rewrite <- !bpow_powerRZ.
    assert (G : (bpow radix2 1024 = 2 * bpow radix2 1023)%R) by (replace 2%R with (bpow radix2 1) by reflexivity; rewrite <- bpow_plus; reflexivity).
    assert (H : (bpow radix2 970 < bpow radix2 1023)%R) by (apply bpow_lt; lia).
    assert (P : (0 < bpow radix2 970)%R) by apply bpow_gt_0.
    change (1024 - 1) with 1023. split; lra. }
  unfold round. unfold scaled_mantissa, cexp. rewrite M. change (fexp64 1024) with 971.
  replace (too_big * bpow radix2 (- (971)))%R with (IZR (2 ^ 53) - / 2)%R.
  - replace (ZnearestE (IZR (2 ^ 53) - / 2)) with (2 ^ 53).
    + unfold F2R. cbn [Fnum Fexp]. replace (IZR (2 ^ 53)) with (bpow radix2 53) by reflexivity. rewrite <- bpow_plus. reflexivity.
    + unfold Znearest.
      assert (Fl : Zfloor (IZR (2 ^ 53) - / 2) = 2 ^ 53 - 1).
      { apply Zfloor_imp. rewrite plus_IZR, minus_IZR. change (IZR 1) with 1%R. split; lra. }
      rewrite Fl. rewrite minus_IZR. rewrite Rcompare_Eq by (change (IZR 1) with 1%R; field).
      change (negb (Z.even (2 ^ 53 - 1))) with true. cbn [andb].
      symmetry. apply Zceil_imp. rewrite minus_IZR. change (IZR 1) with 1%R. split; lra.
  - rewrite E. rewrite Rmult_comm, <- Rmult_assoc, <- bpow_plus. change (- (971) + 971) with 0. cbn [bpow]. ring.
Qed.
Lemma rnd_over v : (too_big <= v)%R -> (top <= rnd64 v)%R.
Proof. intro H. rewrite <- rnd_mid. apply round_le; auto with typeclass_instances. Qed.
Lemma rnd_under v : (Rabs v < too_big)%R -> (Rabs (rnd64 v) < top)%R.
Proof.
  intro H. assert (L : (Rabs (rnd64 v) <= biggest)%R).
  { apply Rabs_le. apply Rabs_def2 in H. destruct H as [H1 H2]. split.
    - apply round_N_ge_midp; auto with typeclass_instances; [apply generic_format_opp, format_biggest|].
      rewrite pred_opp, succ_biggest. rewrite too_big_mid in H2. lra.
    - apply round_N_le_midp; auto with typeclass_instances; [apply format_biggest|]. rewrite succ_biggest. rewrite too_big_mid in H1. lra. }
  apply Rle_lt_trans with (1 := L). unfold biggest. assert (0 < bpow radix2 971)%R by apply bpow_gt_0. lra.
Qed.
Lemma rnd_lt_iff v : Rlt_bool (Rabs (rnd64 v)) (bpow radix2 emax64) = true <-> (Rabs v < too_big)%R.
Proof.
  change (bpow radix2 emax64) with top. destruct (Rlt_bool_spec (Rabs (rnd64 v)) top) as [H|H]; (split; [intro Q; try discriminate|auto]).
  - destruct (Rlt_le_dec (Rabs v) too_big) as [A|A]; auto. exfalso.
    revert A. unfold Rabs. destruct (Rcase_abs v) as [N|P]; intro A.
    + apply (Rle_not_lt _ _ (rnd_over _ A)). rewrite round_NE_opp. apply Rle_lt_trans with (2 := H). rewrite <- Rabs_Ropp. apply Rle_abs.
    + apply (Rle_not_lt _ _ (rnd_over _ A)). apply Rle_lt_trans with (2 := H). apply Rle_abs.
  - intro A. exfalso. apply (Rlt_not_le _ _ (rnd_under v A) H).
Qed.

Global Instance fexp64_NE : Exists_NE radix2 fexp64 := exists_NE_FLT radix2 (SpecFloat.emin prec64 emax64) prec64 (or_intror eq_refl).
Lemma canonical_of s m e : valid (S754_finite s m e) -> canonical radix2 fexp64 (Float radix2 (signed s (Z.pos m)) e).
Proof. intro V. rewrite signed_cond. apply canonical_bounded. exact V. Qed.
Lemma even_of_canonical x g : valid x -> real x = F2R g -> canonical radix2 fexp64 g -> Z.even (Fnum g) = true -> even_mantissa x.
Proof.
  intros V R C E. destruct x as [| | |s m e]; cbn [even_mantissa]; auto.
  assert (Q : g = Float radix2 (signed s (Z.pos m)) e).
  { apply canonical_unique with (1 := C) (2 := canonical_of s m e V). rewrite <- R. rewrite signed_cond. reflexivity. }
  subst g. cbn [Fnum] in E. rewrite <- E. unfold signed. destruct s; [rewrite Z.even_opp|]; reflexivity.
Qed.
Lemma rounded_correct v x : valid x ->
  (if Rlt_bool (Rabs (rnd64 v)) (bpow radix2 emax64) then real x = rnd64 v /\ is_finite_SF x = true
   else x = S754_infinity (Rlt_bool v 0)) -> correctly_rounded v x.
Proof.
  intros V H. split; [exact V|]. destruct (Rlt_bool (Rabs (rnd64 v)) (bpow radix2 emax64)) eqn:L.
  - apply rnd_lt_iff in L. left. destruct H as [R F]. split; [apply finite_iff; auto|]. split; [exact L|].
    intros y Vy Fy. apply finite_iff in Fy. rewrite !val_real.
    assert (P := round_NE_pt radix2 fexp64 v). rewrite <- R in P. destruct P as [P NE].
    assert (N := proj2 P (real y) (valid_format y Vy Fy)). rewrite (Rabs_minus_sym v (real x)), (Rabs_minus_sym v (real y)).
    destruct N as [N|N]; [left; exact N|]. right. split; [exact N|].
    destruct NE as [(g & G1 & G2 & G3)|U].
    + right. eapply even_of_canonical; eauto.
    + left. symmetry. apply U. split; [apply valid_format; auto|]. intros g Fg. rewrite <- N. apply (proj2 P); auto.
  - right. assert (B : (too_big <= Rabs v)%R).
    { destruct (Rlt_le_dec (Rabs v) too_big) as [A|A]; auto. apply rnd_lt_iff in A. congruence. }
    revert B. unfold Rabs. destruct (Rcase_abs v) as [N|N]; intro B; [right|left].
    + rewrite Rlt_bool_true in H by auto. split; [lra|exact H].
    + rewrite Rlt_bool_false in H by lra. split; [lra|exact H].
Qed.
(* the statement determines the value *)
Lemma correct_rnd v x : correctly_rounded v x -> is_finite_SF x = true -> real x = rnd64 v.
Proof.
  intros [V [(F & L & H)|[(A & ->)|(A & ->)]]] Fx; try discriminate.
  assert (N : Rnd_N_pt (generic_format radix2 fexp64) v (real x)).
  { split; [apply valid_format; auto|]. intros g Fg.
    assert (K : forall g, generic_format radix2 fexp64 g -> (Rabs g < bpow radix2 emax64)%R -> (Rabs (real x - v) <= Rabs (g - v))%R).
    { clear g Fg. intros g Fg Lg. destruct (format_valid g Fg Lg) as (y & Vy & Fy & <-).
      specialize (H y Vy (proj2 (finite_iff y) Fy)). rewrite !val_real in H.
      rewrite (Rabs_minus_sym (real x)), (Rabs_minus_sym (real y)). lra. }
    destruct (Rlt_le_dec (Rabs g) (bpow radix2 emax64)) as [S|S]; [auto|].
    assert (B : (0 < biggest /\ biggest < top)%R).
    { unfold biggest, top. assert (bpow radix2 971 < bpow radix2 1024)%R by (apply bpow_lt; lia).
      assert (0 < bpow radix2 971)%R by apply bpow_gt_0. lra. }
    rewrite too_big_mid in L. apply Rabs_def2 in L. change (bpow radix2 emax64) with top in *.
    revert S. unfold Rabs at 1. destruct (Rcase_abs g) as [G|G]; intro S.
    - apply Rle_trans with (Rabs (- biggest - v)).
      + apply K; [apply generic_format_opp, format_biggest|]. rewrite Rabs_Ropp, Rabs_pos_eq; lra.
      + unfold Rabs. repeat destruct Rcase_abs; lra.
    - apply Rle_trans with (Rabs (biggest - v)).
      + apply K; [apply format_biggest|]. rewrite Rabs_pos_eq; lra.
      + unfold Rabs. repeat destruct Rcase_abs; lra. }
  assert (NE : Rnd_NE_pt radix2 fexp64 v (real x)).
  { split; [exact N|].
    assert (D : (exists g, real x = F2R g /\ canonical radix2 fexp64 g /\ Z.even (Fnum g) = true) \/ ~ even_mantissa x).
    { destruct x as [s| | |s m e]; try discriminate.
      - left. exists (Float radix2 0 (fexp64 (mag radix2 0))). split; [unfold F2R; cbn; ring|]. split; [|reflexivity].
        unfold canonical, cexp. cbn [Fexp]. f_equal. rewrite F2R_0. reflexivity.
      - cbn [even_mantissa]. destruct (Z.even (Z.pos m)) eqn:E; [|right; discriminate]. left.
        exists (Float radix2 (signed s (Z.pos m)) e). split; [rewrite signed_cond; reflexivity|]. split; [apply canonical_of; auto|].
        cbn [Fnum]. rewrite <- E. unfold signed. destruct s; [rewrite Z.even_opp|]; reflexivity. }
    destruct D as [D|D]; [left; exact D|]. right. intros f2 N2.
    assert (M : Rabs (f2 - v) = Rabs (real x - v)).
    { apply Rle_antisym; [apply (proj2 N2); apply (proj1 N)|apply (proj2 N); apply (proj1 N2)]. }
    assert (F2L : (Rabs f2 < bpow radix2 emax64)%R).
    { destruct (Rlt_le_dec (Rabs f2) (bpow radix2 emax64)) as [S|S]; auto. exfalso.
      rewrite too_big_mid in L. apply Rabs_def2 in L. change (bpow radix2 emax64) with top in *.
      assert (B : (0 < biggest /\ biggest < top)%R).
      { unfold biggest, top. assert (bpow radix2 971 < bpow radix2 1024)%R by (apply bpow_lt; lia).
        assert (0 < bpow radix2 971)%R by apply bpow_gt_0. lra. }
      revert S. unfold Rabs at 1. destruct (Rcase_abs f2) as [G|G]; intro S.
      - assert (Q := proj2 N2 (- biggest)%R (generic_format_opp _ _ _ format_biggest)). revert Q. unfold Rabs. repeat destruct Rcase_abs; lra.
      - assert (Q := proj2 N2 biggest format_biggest). revert Q. unfold Rabs. repeat destruct Rcase_abs; lra. }
    destruct (format_valid f2 (proj1 N2) F2L) as (y & Vy & Fy & <-).
    destruct (H y Vy (proj2 (finite_iff y) Fy)) as [Q|[_ [Q|Q]]]; rewrite ?val_real in Q.
    - exfalso. rewrite (Rabs_minus_sym v), (Rabs_minus_sym v) in Q. lra.
    - auto.
    - contradiction. }
  assert (RP := round_NE_pt radix2 fexp64 v). assert (M := Rnd_NE_pt_monotone radix2 fexp64).
  apply Rle_antisym; [apply (M v v); auto; apply Rle_refl|apply (M v v); auto; apply Rle_refl].
Qed.
Lemma correctly_rounded_unique v x y : correctly_rounded v x -> correctly_rounded v y ->
  (finite x /\ finite y /\ val x = val y) \/ x = y.
Proof.
  assert (T := too_big_pos). intros Cx Cy.
  assert (Hx := Cx). assert (Hy := Cy). destruct Hx as [Vx [[Fx [Lx Hx]]|Hx]]; destruct Hy as [Vy [[Fy [Ly Hy]]|Hy]].
  - left. split; auto. split; auto. rewrite !val_real. rewrite (correct_rnd v x), (correct_rnd v y); auto; apply finite_iff; auto.
  - exfalso. apply Rabs_def2 in Lx. destruct Hy as [[A _]|[A _]]; lra.
  - exfalso. apply Rabs_def2 in Ly. destruct Hx as [[A _]|[A _]]; lra.
  - right. destruct Hx as [[A ->]|[A ->]], Hy as [[B ->]|[B ->]]; try (exfalso; lra); auto.
Qed.

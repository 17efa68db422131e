(* Numbers: reading, truncating, rounding and summing as in SpecLib.v. *)
From Flocq Require Import Core BinarySingleNaN.
Require Import Ascii String Bool List NArith ZArith Lia Reals Lra.
Require Import Coq.Floats.SpecFloat.
From Verif Require Import Str Dom Num Item Func FloatFacts SpecNum SpecInt SpecOper SpecExpr ItemFacts IntFacts SpecDbl FloatRound FloatText FloatPrint FloatArith
  SpecEval EnvFacts PropOper PropNum PropDbl SpecArith ArithFacts SpecLib.
Import List ListNotations.
Open Scope Z_scope.

Lemma decimal_sign neg m e : ((decimal_value neg m e < 0 -> neg = true) /\ (0 < decimal_value neg m e -> neg = false))%R.
Proof.
  rewrite <- dec_val_spec. unfold dec_val.
  assert (P : (0 < powerRZ 10 e)%R) by apply ten_pos. assert (M : (0 <= IZR (Z.of_N m))%R) by (apply (IZR_le 0); lia).
  destruct neg; cbn [signed]; rewrite ?opp_IZR; split; intro H; auto; exfalso; nra.
Qed.
Lemma atof_rounded s neg m e x : decimal_text s neg m e -> rounded (decimal_value neg m e) neg x -> atof s = x.
Proof.
  intros T R. rewrite (atof_text s neg m e T). apply (rounded_unique (decimal_value neg m e) neg); auto.
  destruct (dec_to_f64_correct neg m e) as [C S]. rewrite dec_val_spec in C. split; auto. rewrite negative_sign, S.
  destruct (decimal_sign neg m e). auto.
Qed.
Lemma number_raw h it x : number_of it x -> get_as_raw_double h it = Ok x.
Proof.
  intro H. destruct H as [z x R|x V F|x V]; cbn [get_as_raw_double]; f_equal. apply (rounded_unique (IZR z) false); auto. apply i64_rounded.
Qed.
Lemma number_bool (b : bool) x : number_of (XIInteger (if b then 1 else 0)) x -> (if b then f_one else f_zero) = x.
Proof. intro H. apply (number_raw []) in H. cbn [get_as_raw_double] in H. injection H as <-. destruct b; vm_compute; reflexivity. Qed.
Lemma truncates_i64 x r : truncates x r -> is_i64 r -> f64_to_i64 x = r.
Proof.
  intros T R. unfold truncates in T. unfold is_i64 in R.
  assert (C : forall z, z = r -> clamp_i64 z = r) by (intros z ->; unfold clamp_i64, i64_min, i64_max; lia).
  destruct x as [s|s| |s m e].
  - cbn [f64_to_i64]. destruct s; cbn [negative] in T; unfold ceiling_of, floor_of in T; cbn [SFopp half_between] in T; lia.
  - destruct s; unfold ceiling_of, floor_of in T; cbn in T; contradiction.
  - unfold floor_of in T; cbn in T; contradiction.
  - cbn [f64_to_i64]. apply C. destruct s; cbn [negative SFopp] in T; unfold ceiling_of, floor_of in T; cbn [SFopp negb half_between] in T; cbn [signed].
    + destruct (0 <=? e) eqn:E; [lia|]. assert (Q := pow_pos e ltac:(lia)).
      assert (- r = Z.pos m / 2 ^ (- e)); [|lia]. apply (Z.div_unique _ _ _ (Z.pos m - 2 ^ (- e) * (- r))); nia.
    + destruct (0 <=? e) eqn:E; [lia|]. assert (Q := pow_pos e ltac:(lia)).
      symmetry. apply (Z.div_unique _ _ _ (Z.pos m - 2 ^ (- e) * r)); nia.
Qed.
Lemma bool_of_float x b : (b = true <-> ~ is_zero_or_nan x) -> bool_of_f64 x = b.
Proof.
  intro H. unfold bool_of_f64. rewrite negb_orb. destruct b.
  - destruct (negb _ && _) eqn:E; auto. apply zero_nan_bool in E. tauto.
  - apply zero_nan_bool. destruct (negb (feqb x f_zero) && negb (is_nan x)) eqn:E; [|apply zero_nan_bool; auto].
    exfalso. assert (N : ~ is_zero_or_nan x) by (rewrite <- zero_nan_bool; congruence). apply H in N. discriminate.
Qed.

(* ---- rounding ---- *)
Lemma norm_rounded z s : rounded (IZR z) s (SpecFloat.binary_normalize prec64 emax64 z 0 s).
Proof.
  assert (V : F2R (Float radix2 z 0) = IZR z) by (unfold F2R; cbn; ring).
  rewrite binary_normalize_equiv.
  assert (C := binary_normalize_correct prec64 emax64 _ _ mode_NE z 0 s). cbn [round_mode] in C. rewrite V in C.
  split.
  - apply rounded_correct; [apply valid_binary_B2SF|]. destruct (Rlt_bool (Rabs _) _) eqn:L.
    + rewrite SF2R_B2SF, is_finite_SF_B2SF. tauto.
    + rewrite C, overflow_inf. reflexivity.
  - rewrite negative_sign, <- Bsign_B2SF. destruct (Rlt_bool (Rabs _) _) eqn:L; [apply sum_sign; apply C|]. rewrite Bsign_B2SF, C, overflow_inf. cbn [sign_SF].
    apply over_sign; auto. destruct (Rlt_bool_spec (IZR z) 0); split; intros; try discriminate; lra.
Qed.
Lemma exact_rounded x : valid x -> is_finite_SF x = true -> rounded (real x) (negative x) x.
Proof.
  intros V F. split.
  - apply rounded_correct; auto. rewrite round_generic by (auto with typeclass_instances; apply valid_format; auto).
    rewrite Rlt_bool_true by (apply valid_lt_emax; auto). auto.
  - destruct x as [s|s| |s m e]; try discriminate F; cbn [negative].
    + cbn [SF2R]. repeat split; intros; auto; lra.
    + assert (S : if s then (real (S754_finite s m e) < 0)%R else (0 < real (S754_finite s m e))%R).
      { cbn [SF2R]. destruct s; [apply F2R_lt_0|apply F2R_gt_0]; reflexivity. }
      destruct s; repeat split; intros; auto; lra.
Qed.
Lemma rounded_other_zero v z z' x : v <> 0%R -> rounded v z x -> rounded v z' x.
Proof. intros N (A & B & C & D). split; auto. repeat split; auto. contradiction. Qed.
Lemma ffloor_rounded x : valid x -> is_finite_SF x = true -> rounded (IZR (Zfloor (real x))) (negative x) (ffloor x).
Proof.
  intros V F. destruct x as [s|s| |s m e]; try discriminate F.
  - cbn [ffloor SF2R]. change 0%R with (IZR 0) at 1. rewrite Zfloor_IZR. apply (exact_rounded (S754_zero s)); auto.
  - cbn [ffloor]. destruct (0 <=? e) eqn:P.
    + replace (IZR (Zfloor (real (S754_finite s m e)))) with (real (S754_finite s m e)); [apply exact_rounded; auto|].
      rewrite real_pos by lia. now rewrite Zfloor_IZR.
    + assert (Q := pow_pos e ltac:(lia)). rewrite real_neg by lia. rewrite Zfloor_div by lia. apply norm_rounded.
Qed.
Lemma fceil_rounded x : valid x -> is_finite_SF x = true -> rounded (IZR (Zceil (real x))) (negative x) (fceil x).
Proof.
  intros V F. destruct x as [s|s| |s m e]; try discriminate F.
  - cbn [fceil SF2R]. change 0%R with (IZR 0) at 1. rewrite Zceil_IZR. apply (exact_rounded (S754_zero s)); auto.
  - cbn [fceil]. destruct (0 <=? e) eqn:P.
    + replace (IZR (Zceil (real (S754_finite s m e)))) with (real (S754_finite s m e)); [apply exact_rounded; auto|].
      rewrite real_pos by lia. now rewrite Zceil_IZR.
    + assert (Q := pow_pos e ltac:(lia)). 
      assert (X : Zceil (real (S754_finite s m e)) = - (- signed s (Z.pos m) / 2 ^ (- e))).
      { unfold Zceil. rewrite real_neg by lia. f_equal. replace (- (IZR (signed s (Z.pos m)) / IZR (2 ^ (- e))))%R
          with (IZR (- signed s (Z.pos m)) / IZR (2 ^ (- e)))%R by (rewrite opp_IZR; unfold Rdiv; ring). apply Zfloor_div. lia. }
      rewrite X. apply norm_rounded.
Qed.
Lemma neg_zero_is : fdiv f_one f_neginf = S754_zero true.
Proof. vm_compute. reflexivity. Qed.
Lemma rounded_zero s : rounded 0 s (S754_zero s).
Proof. apply (exact_rounded (S754_zero s)); reflexivity. Qed.
Lemma neg_zero_spec x : neg_zero x = true -> x = S754_zero true.
Proof. destruct x as [[]| | |]; cbn; intro; try discriminate; reflexivity. Qed.
Lemma ltb_real x y : valid x -> valid y -> is_finite_SF x = true -> is_finite_SF y = true -> fltb x y = Rlt_bool (real x) (real y).
Proof.
  intros Vx Vy Fx Fy. assert (C := Bltb_correct prec64 emax64 (b64 x Vx) (b64 y Vy)). rewrite !is_finite_SF2B, !B2R_SF2B in C.
  unfold Bltb in C. rewrite !B2SF_SF2B in C. apply C; auto.
Qed.
Lemma leb_real x y : valid x -> valid y -> is_finite_SF x = true -> is_finite_SF y = true -> fleb x y = Rle_bool (real x) (real y).
Proof.
  intros Vx Vy Fx Fy. assert (C := Bleb_correct prec64 emax64 (b64 x Vx) (b64 y Vy)). rewrite !is_finite_SF2B, !B2R_SF2B in C.
  unfold Bleb in C. rewrite !B2SF_SF2B in C. apply C; auto.
Qed.
Lemma negative_real x : valid x -> (real x < 0)%R -> negative x = true.
Proof.
  intros V L. destruct x as [s|s| |s m e]; try (cbn [SF2R] in L; lra). apply (exact_rounded (S754_finite s m e)); auto.
Qed.
Definition rounding_fn (double : bool) (n : str) : f64 -> f64 :=
  if str_eqb n (lit "floor") then (if double then floor_x else ffloor)
  else if str_eqb n (lit "ceiling") then (if double then ceil_x else fceil)
  else if str_eqb n (lit "round") then (if double then round_x else fun f => ffloor (fadd f f_half))
  else fabs.
Lemma minus_half_real : real f_minus_half = (- (1 / 2))%R /\ valid f_minus_half /\ is_finite_SF f_minus_half = true.
Proof.
  split; [|split; reflexivity]. assert (E : f_minus_half = S754_finite true 4503599627370496 (-53)) by reflexivity.
  rewrite E, real_neg by lia. cbn [signed]. change (2 ^ (- -53)) with (2 * 4503599627370496). rewrite mult_IZR, opp_IZR. field.
Qed.
Lemma half_floor x r : moderate_f64 x -> nearest x r -> rounded (IZR r) false (ffloor (fadd x f_half)).
Proof.
  intros M R. apply nearest_real in R. destruct R as [F R]. destruct (moderate_real x M) as [V [_ [A NE]]].
  destruct half_real as [HR [HV HF]]. apply Rabs_def2 in A as A'.
  destruct (fadd_real x f_half (2 ^ 53)) as [R1 [R2 R3]]; auto; [|lia|].
  { rewrite HR. apply Rabs_le. rewrite <- opp_IZR. split.
    - apply Rle_trans with (- IZR (2 ^ 52))%R; [rewrite <- opp_IZR; apply IZR_le; lia|lra].
    - apply Rle_trans with (IZR (2 ^ 52) + 1)%R; [lra|rewrite <- plus_IZR; apply IZR_le; lia]. }
  assert (Q := ffloor_rounded _ R3 R2). rewrite R1, HR, dec_round_real, R in Q by auto.
  destruct (Z.eq_dec r 0) as [->|N]; [|eapply rounded_other_zero; [|exact Q]; apply (IZR_neq r 0); auto].
  (* the sum is not negative *)
  assert (S := fadd_rounded x f_half V HV F HF). replace (negative x && negative f_half) with false in S by (rewrite andb_comm; reflexivity).
  destruct (Rtotal_order (real x + 1 / 2) 0) as [L|[L|L]].
  - exfalso. assert (Zfloor (real x + 1 / 2) < 0); [|lia]. apply lt_IZR. apply Rle_lt_trans with (real x + 1 / 2)%R; auto. apply Zfloor_lb.
  - destruct S as (_ & _ & _ & S). rewrite !val_real, HR in S. rewrite (S L) in Q. exact Q.
  - destruct S as (_ & _ & S & _). rewrite !val_real, HR in S. rewrite (S L) in Q. exact Q.
Qed.
Lemma rounding_ok double n x y : rounding double n x y -> rounding_fn double n x = y.
Proof.
  intro H. destruct H as [x r y V R Y|x r y V R Y|x r y M R Y|x|n x D I N].
  - apply floor_real in R. destruct R as [F R]. change (rounding_fn double (lit "floor")) with (if double then floor_x else ffloor).
    assert (E : rounded (IZR r) (negative x) (ffloor x)) by (rewrite <- R; apply ffloor_rounded; auto).
    apply (rounded_unique (IZR r) (negative x)); auto. destruct double; auto. unfold floor_x. destruct (neg_zero x) eqn:Z; auto.
    apply neg_zero_spec in Z. subst x. rewrite neg_zero_is. exact E.
  - apply ceiling_real in R. destruct R as [F R]. change (rounding_fn double (lit "ceiling")) with (if double then ceil_x else fceil).
    assert (E : rounded (IZR r) (negative x) (fceil x)) by (rewrite <- R; apply fceil_rounded; auto).
    apply (rounded_unique (IZR r) (negative x)); auto. destruct double; auto. unfold ceil_x. rewrite neg_zero_is.
    destruct (neg_zero x) eqn:Z; cbn [orb].
    { apply neg_zero_spec in Z. subst x. exact E. }
    assert (MH : real f_minus_one = (-1)%R /\ valid f_minus_one /\ is_finite_SF f_minus_one = true).
    { destruct (norm_int_real (-1) false) as [R1 [R2 R3]]; [lia|]. auto. }
    destruct MH as [MR [MV MF]]. rewrite (ltb_real f_minus_one x), (ltb_real x f_zero), MR by auto. change (real f_zero) with 0%R.
    destruct (Rlt_bool_spec (-1) (real x)) as [G|G], (Rlt_bool_spec (real x) 0) as [H|H]; cbn [andb]; auto.
    rewrite (negative_real x) by auto. replace r with 0; [apply rounded_zero|]. rewrite <- R. symmetry. apply Zceil_imp. cbn. lra.
  - change (rounding_fn double (lit "round")) with (if double then round_x else fun f => ffloor (fadd f f_half)).
    assert (E := half_floor x r M R). apply (rounded_unique (IZR r) (double && negative x)); auto. destruct double; cbn [andb]; auto.
    apply nearest_real in R. destruct R as [F R]. destruct (moderate_real x M) as [V _]. destruct minus_half_real as [MR [MV MF]].
    unfold round_x. rewrite neg_zero_is. destruct (neg_zero x) eqn:Z; cbn [orb].
    { apply neg_zero_spec in Z. subst x. cbn [negative]. replace r with 0; [apply rounded_zero|]. rewrite <- R. symmetry. apply Zfloor_imp. cbn. lra. }
    rewrite (leb_real f_minus_half x), (ltb_real x f_zero), MR by auto. change (real f_zero) with 0%R.
    destruct (Rle_bool_spec (- (1 / 2)) (real x)) as [G|G], (Rlt_bool_spec (real x) 0) as [H|H]; cbn [andb].
    + rewrite (negative_real x) by auto. replace r with 0; [apply rounded_zero|]. rewrite <- R. symmetry. apply Zfloor_imp. cbn. lra.
    + assert (NX : negative x = false).
      { destruct (negative x) eqn:NX; auto. exfalso. destruct (exact_rounded x V F) as (_ & _ & P & _).
        destruct (Rle_lt_or_eq_dec 0 (real x) H) as [L|L]; [rewrite P in NX; auto; discriminate|].
        destruct x as [s|s| |s m e]; try discriminate F; cbn [negative] in NX; subst s.
        - discriminate Z.
        - cbn [SF2R] in L. assert (F2R (Float radix2 (cond_Zopp true (Z.pos m)) e) < 0)%R by (apply F2R_lt_0; reflexivity). lra. }
      rewrite NX. exact E.
    + eapply rounded_other_zero; [|exact E]. apply (IZR_neq r 0). assert (r < 0); [|lia]. rewrite <- R. apply lt_IZR.
      apply Rle_lt_trans with (real x + 1 / 2)%R; [apply Zfloor_lb|lra].
    + lra.
  - reflexivity.
  - subst double. assert (F : is_finite_SF x = false) by (destruct (is_finite_SF x) eqn:F; auto; exfalso; apply N, finite_iff; auto).
    destruct I as [<-|[<-|[<-|[]]]]; destruct x as [s|[]| |s m e]; try discriminate F; vm_compute; reflexivity.
Qed.

(* ---- sums ---- *)
Lemma numeric_number it x : number_of it x -> is_numeric it = true.
Proof. intro H. destruct H; reflexivity. Qed.
Lemma number_op_numeric o x y z : number_op o x y z -> is_numeric y = true.
Proof. intro H. destruct H as [a b d A B|a b d A B|m n a b d -> -> A B]; eapply numeric_number; eauto. Qed.
Lemma adds_ok x y z : adds x y z -> is_numeric y = true /\ xitem_numeric_add x y = Ok z.
Proof.
  intro H. destruct H as [a b I|x y z O].
  - split; auto. unfold xitem_numeric_add, xitem_numeric_operation. rewrite (chk_ok _ I). reflexivity.
  - split; [eapply number_op_numeric; eauto|]. exact (number_op_ok O_add x y z O).
Qed.
Lemma sum_from_ok h x l z : sum_from x l z -> sum_loop h x l = Ok z.
Proof.
  intro H. induction H as [x|x y z l r A S IH]; [reflexivity|]. cbn [sum_loop]. apply adds_ok in A. destruct A as [-> ->]. exact IH.
Qed.

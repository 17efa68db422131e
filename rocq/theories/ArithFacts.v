(* The arithmetic of the program is that of SpecArith.v. *)
From Flocq Require Import Core BinarySingleNaN.
Require Import Ascii String Bool List NArith ZArith Lia Reals Lra.
Require Import Coq.Floats.SpecFloat.
From Verif Require Import Str Num Item FloatFacts SpecNum SpecInt SpecOper SpecExpr ItemFacts IntFacts SpecDbl FloatRound FloatText FloatArith PropOper PropDbl SpecArith.
Import List ListNotations.
Open Scope Z_scope.

Lemma negative_sign x : negative x = sign_SF x.
Proof. destruct x; reflexivity. Qed.
Lemma rounded_unique v zs x y : rounded v zs x -> rounded v zs y -> x = y.
Proof.
  intros (C & L & G & Z) (C' & L' & G' & Z'). destruct (correctly_rounded_unique _ _ _ C C') as [(F & F' & V)|E]; [|exact E].
  apply same_float; [apply C|apply C'|apply finite_iff; auto|apply finite_iff; auto|rewrite <- !val_real; exact V|].
  rewrite <- (negative_sign x), <- (negative_sign y). destruct (Rtotal_order v 0) as [Q|[Q|Q]].
  - rewrite L, L'; auto.
  - rewrite Z, Z'; auto.
  - rewrite G, G'; auto.
Qed.
Lemma rounded_xor v x y d : correctly_rounded v d -> negative d = xorb (negative x) (negative y) ->
  ((xorb (negative x) (negative y) = true -> v <= 0) /\ (xorb (negative x) (negative y) = false -> 0 <= v))%R ->
  rounded v (xorb (negative x) (negative y)) d.
Proof.
  intros C S [A B]. split; auto. rewrite S. destruct (xorb _ _).
  - specialize (A eq_refl). repeat split; intros; auto. lra.
  - specialize (B eq_refl). repeat split; intros; auto. lra.
Qed.
Lemma sum_sign d v zs : (d = match Rcompare v 0 with Eq => zs | Lt => true | Gt => false end) ->
  ((v < 0 -> d = true) /\ (0 < v -> d = false) /\ (v = 0 -> d = zs))%R.
Proof. intros ->. destruct (Rcompare_spec v 0); repeat split; intros; auto; lra. Qed.
Lemma over_sign v s : Rlt_bool (Rabs (rnd64 v)) (bpow radix2 emax64) = false -> ((s = true -> v <= 0) /\ (s = false -> 0 <= v))%R ->
  forall zs, ((v < 0 -> s = true) /\ (0 < v -> s = false) /\ (v = 0 -> s = zs))%R.
Proof.
  intros O [A B] zs. assert (N : v <> 0%R).
  { intros ->. rewrite round_0, Rabs_R0, Rlt_bool_true in O by (auto with typeclass_instances; apply bpow_gt_0). discriminate. }
  destruct s; [specialize (A eq_refl)|specialize (B eq_refl)]; repeat split; intros; auto; try lra.
Qed.
Lemma fadd_rounded x y : valid x -> valid y -> is_finite_SF x = true -> is_finite_SF y = true ->
  rounded (val x + val y) (negative x && negative y) (fadd x y).
Proof.
  intros Vx Vy Fx Fy. split; [apply fadd_correct; auto|]. rewrite !negative_sign, !val_real. rewrite (fadd_equiv x y Vx Vy), <- Bsign_B2SF.
  assert (C := Bplus_correct prec64 emax64 _ _ mode_NE (b64 x Vx) (b64 y Vy)).
  rewrite !is_finite_SF2B, !B2R_SF2B, !Bsign_SF2B in C. specialize (C Fx Fy). cbn [round_mode] in C.
  destruct (Rlt_bool _ _) eqn:L.
  - apply sum_sign. apply C.
  - destruct C as [C S]. rewrite Bsign_B2SF, C, overflow_inf. cbn [sign_SF]. apply over_sign; auto.
    destruct (sign_real x) as [X1 X2], (sign_real y) as [Y1 Y2]. rewrite <- S in Y1, Y2. split; intro Q; [specialize (X1 Q); specialize (Y1 Q)|specialize (X2 Q); specialize (Y2 Q)]; lra.
Qed.
Lemma fsub_rounded x y : valid x -> valid y -> is_finite_SF x = true -> is_finite_SF y = true ->
  rounded (val x - val y) (negative x && negb (negative y)) (fsub x y).
Proof.
  intros Vx Vy Fx Fy. split; [apply fsub_correct; auto|]. rewrite !negative_sign, !val_real. rewrite (fsub_equiv x y Vx Vy), <- Bsign_B2SF.
  assert (C := Bminus_correct prec64 emax64 _ _ mode_NE (b64 x Vx) (b64 y Vy)).
  rewrite !is_finite_SF2B, !B2R_SF2B, !Bsign_SF2B in C. specialize (C Fx Fy). cbn [round_mode] in C.
  destruct (Rlt_bool _ _) eqn:L.
  - apply sum_sign. apply C.
  - destruct C as [C S]. rewrite Bsign_B2SF, C, overflow_inf. cbn [sign_SF]. apply over_sign; auto.
    destruct (sign_real x) as [X1 X2], (sign_real y) as [Y1 Y2]. rewrite S in *. split; intro Q.
    + specialize (X1 Q). apply negb_true_iff in Q. specialize (Y2 Q). lra.
    + specialize (X2 Q). apply negb_false_iff in Q. specialize (Y1 Q). lra.
Qed.
Lemma fmul_rounded x y : valid x -> valid y -> is_finite_SF x = true -> is_finite_SF y = true ->
  rounded (val x * val y) (xorb (negative x) (negative y)) (fmul x y).
Proof.
  intros Vx Vy Fx Fy. destruct (fmul_correct x y Vx Vy Fx Fy) as [C S]. apply rounded_xor; auto; rewrite !negative_sign; auto.
  rewrite !val_real. apply sign_prod; apply sign_real.
Qed.
Lemma fdiv_rounded x y : valid x -> valid y -> is_finite_SF x = true -> is_finite_SF y = true -> val y <> 0%R ->
  rounded (val x / val y) (xorb (negative x) (negative y)) (fdiv x y).
Proof.
  intros Vx Vy Fx Fy N. rewrite val_real in N. destruct (fdiv_correct x y Vx Vy Fx Fy N) as [C S]. apply rounded_xor; auto; rewrite !negative_sign; auto.
  rewrite !val_real. apply sign_prod; [apply sign_real|].
  destruct (sign_real y) as [A B]. split; intro Q; [specialize (A Q)|specialize (B Q)].
  - apply Rlt_le, Rinv_lt_0_compat. lra.
  - apply Rlt_le, Rinv_0_lt_compat. lra.
Qed.
Lemma frem_sign x y : valid x -> valid y -> is_finite_SF x = true -> is_finite_SF y = true -> val y <> 0%R -> sign_SF (frem x y) = sign_SF x.
Proof.
  intros Vx Vy Fx Fy N. destruct y as [t|t| |t m2 e2]; try discriminate; [destruct N; reflexivity|].
  destruct x as [s|s| |s m1 e1]; try discriminate; [reflexivity|]. cbn [frem sign_SF].
  set (e := Z.min e1 e2). set (r := _ mod _).
  assert (P2 : 0 < 2 ^ (e2 - e)) by (apply Z.pow_pos_nonneg; unfold e; lia).
  assert (R : 0 <= r) by (apply Z.mod_pos_bound; lia).
  rewrite binary_normalize_equiv, <- Bsign_B2SF.
  assert (C := binary_normalize_correct prec64 emax64 _ _ mode_NE (signed s r) e s). cbn [round_mode] in C.
  assert (S : ((s = true -> F2R (Float radix2 (signed s r) e) <= 0) /\ (s = false -> 0 <= F2R (Float radix2 (signed s r) e)))%R).
  { split; intros ->; unfold F2R; cbn [Fnum Fexp signed]; assert (P := bpow_gt_0 radix2 e).
    - rewrite opp_IZR. apply IZR_le in R. nra.
    - apply IZR_le in R. nra. }
  destruct (Rlt_bool _ _) eqn:L.
  - destruct C as (_ & _ & ->). destruct S as [S1 S2]. destruct (Rcompare_spec (F2R (Float radix2 (signed s r) e)) 0) as [Q|Q|Q]; auto; destruct s; auto;
      [specialize (S2 eq_refl); lra|specialize (S1 eq_refl); lra].
  - rewrite Bsign_B2SF, C, overflow_inf. cbn [sign_SF].
    destruct (over_sign _ s L S true) as (A & B & _). destruct S as [S1 S2].
    destruct (Rlt_bool_spec (F2R (Float radix2 (signed s r) e)) 0) as [Q|Q]; [rewrite A; auto|].
    assert (N0 : F2R (Float radix2 (signed s r) e) <> 0%R).
    { intro Z0. rewrite Z0, round_0, Rabs_R0, Rlt_bool_true in L by (auto with typeclass_instances; apply bpow_gt_0). discriminate. }
    rewrite B; auto. lra.
Qed.
Definition float_fn (o : binop) : f64 -> f64 -> f64 :=
  match o with O_add => fadd | O_sub => fsub | O_mul => fmul | O_div => fdiv | _ => frem end.
Lemma mod_unique a b q q' : b <> 0%R -> (Rabs (a - IZR q * b) < Rabs b -> Rabs (a - IZR q' * b) < Rabs b ->
  0 <= (a - IZR q * b) * (a - IZR q' * b) -> q = q')%R.
Proof.
  intros N A B S. assert (PB : (0 < Rabs b)%R) by (apply Rabs_pos_lt; auto).
  assert (D : (Rabs ((a - IZR q * b) - (a - IZR q' * b)) < Rabs b)%R).
  { set (x := (a - IZR q * b)%R) in *. set (y := (a - IZR q' * b)%R) in *. apply Rabs_def2 in A, B. apply Rabs_def1.
    - destruct (Rle_lt_dec 0 y); [lra|]. assert (x <= 0)%R by nra. lra.
    - destruct (Rle_lt_dec y 0); [lra|]. assert (0 <= x)%R by nra. lra. }
  replace (a - IZR q * b - (a - IZR q' * b))%R with (IZR (q' - q) * b)%R in D by (rewrite minus_IZR; ring).
  rewrite Rabs_mult, <- abs_IZR in D. assert (IZR (Z.abs (q' - q)) < 1)%R by nra. apply lt_IZR in H. lia.
Qed.
Lemma same_sign_prod x y : negative x = negative y -> (0 <= real x * real y)%R.
Proof.
  rewrite (negative_sign x), (negative_sign y). intro E. destruct (sign_real x) as [A B], (sign_real y) as [C D]. rewrite <- E in C, D.
  destruct (sign_SF x); [specialize (A eq_refl); specialize (C eq_refl)|specialize (B eq_refl); specialize (D eq_refl)]; nra.
Qed.
Lemma float_op_ok o a b d : valid a -> valid b -> ieee_op o a b d -> float_fn o a b = d.
Proof.
  intros Va Vb H. destruct H as [o a b v d Fa Fb X R|a b q d Fa Fb N Vd Fd E L S|o a b d A S].
  - apply finite_iff in Fa, Fb. inversion X; subst; clear X; cbn [float_fn zero_sign] in *; (eapply rounded_unique; [|exact R]).
    + apply fadd_rounded; auto.
    + apply fsub_rounded; auto.
    + apply fmul_rounded; auto.
    + apply fdiv_rounded; auto.
  - apply finite_iff in Fa, Fb, Fd. cbn [float_fn]. rewrite !val_real in *. destruct (frem_exact a b Va Vb Fa Fb N) as (V & F & R).
    assert (SG : sign_SF (frem a b) = sign_SF a) by (apply frem_sign; auto; rewrite val_real; auto).
    apply same_float; auto; [|rewrite SG, <- !negative_sign; auto].
    assert (Q : Ztrunc (real a / real b) = q); [|rewrite R, E, Q; reflexivity].
    apply (mod_unique (real a) (real b)); auto.
    + assert (XQ : real a = (real a / real b * real b)%R) by (field; exact N). set (t := (real a / real b)%R) in *.
      rewrite XQ at 1. replace (t * real b - IZR (Ztrunc t) * real b)%R with ((t - IZR (Ztrunc t)) * real b)%R by ring.
      assert (T : (Rabs (t - IZR (Ztrunc t)) < 1)%R).
      { destruct (Rle_lt_dec 0 t) as [P|P].
        - rewrite Ztrunc_floor by auto. assert (H := Zfloor_lb t). assert (H' := Zfloor_ub t). rewrite Rabs_pos_eq; lra.
        - rewrite Ztrunc_ceil by lra. assert (H := Zceil_ub t). assert (H' := Zceil_lb t). rewrite Rabs_left1; lra. }
      rewrite Rabs_mult. assert (0 < Rabs (real b))%R by (apply Rabs_pos_lt; auto). nra.
    + rewrite <- E. exact L.
    + rewrite <- R, <- E. apply same_sign_prod. rewrite S, (negative_sign (frem a b)), SG, (negative_sign a). reflexivity.
  - unfold arithmetic in A. destruct S; cbn in A;
      try (repeat (destruct A as [<-|A]; [try reflexivity; destruct a; reflexivity|]); destruct A; fail);
      try (repeat (destruct A as [<-|A]; [try reflexivity; destruct b; reflexivity|]); destruct A; fail);
      try (destruct s; reflexivity); try (destruct s, t; reflexivity); try reflexivity;
      try (destruct H as [[z ->]|(z & m & e & ->)]; try reflexivity; destruct s; reflexivity);
      try (destruct a; reflexivity); try (destruct b; reflexivity).
Qed.

(* ------------------------------------------------------------------ items *)
Lemma int_dbl_rounded z : rounded (IZR z) false (int_to_dbl z).
Proof.
  assert (C := int_to_dbl_correct z). split; auto.
  unfold int_to_dbl in *. destruct (fmt_i64_notation z) as (d & D & N & C0 & H).
  assert (T : forall d, all_digits d -> d <> [] -> unsigned_text (d ++ lit ".0") (numeral d * 10) (-1)).
  { intros d' D' N'. change (lit ".0") with (46%N :: [48%N]). apply ut_mantissa.
    assert (E : numeral (d' ++ [48%N]) = (numeral d' * 10)%N) by (rewrite numeral_app; cbn [fold_left]; lia).
    rewrite <- E. apply (mt_point d' [48%N]); auto; [constructor; [lia|constructor]|destruct d'; discriminate]. }
  destruct H as [(P & E & M)|(P & E & M)]; rewrite E.
  - rewrite (atof_text _ false (numeral d * 10) (-1)) by (apply dt_plain, T; auto). rewrite negative_sign.
    destruct (dec_to_f64_correct false (numeral d * 10) (-1)) as [_ ->]. repeat split; intros; auto. apply (lt_IZR z 0) in H. lia.
  - rewrite (atof_text _ true (numeral d * 10) (-1)) by (cbn [app]; apply dt_minus, T; auto). rewrite negative_sign.
    destruct (dec_to_f64_correct true (numeral d * 10) (-1)) as [_ ->]. repeat split; intros; auto.
    + apply (lt_IZR 0 z) in H. lia.
    + apply (eq_IZR z 0) in H. lia.
Qed.
Lemma i64_rounded z : rounded (IZR z) false (i64_to_f64 z).
Proof.
  split; [apply i64_to_f64_correct|]. rewrite negative_sign. unfold i64_to_f64, f_of_Z. assert (V : F2R (Float radix2 z 0) = IZR z) by (unfold F2R; cbn; ring).
  rewrite binary_normalize_equiv, <- Bsign_B2SF.
  assert (C := binary_normalize_correct prec64 emax64 _ _ mode_NE z 0 false). cbn [round_mode] in C. rewrite V in C.
  destruct (Rlt_bool (Rabs _) _) eqn:L; [apply sum_sign; apply C|]. rewrite Bsign_B2SF, C, overflow_inf. cbn [sign_SF].
  apply over_sign; auto. destruct (Rlt_bool_spec (IZR z) 0); split; intros; try discriminate; lra.
Qed.
Lemma number_promote it a : number_of it a -> valid a /\ promote it = a.
Proof.
  intro H. destruct H as [z x R|x V F|x V]; [|split; auto|split; auto]. split; [apply R|]. apply (rounded_unique (IZR z) false); auto. apply int_dbl_rounded.
Qed.
Lemma number_div it a : number_of it a -> val a <> 0%R -> match it with XIInteger z => z <> 0 /\ i64_to_f64 z = a | _ => True end.
Proof.
  intros H N. destruct H as [z x R|x V F|x V]; auto. split.
  - intros ->. apply N. assert (E := rounded_unique _ _ _ _ R (i64_rounded 0)). rewrite E. reflexivity.
  - apply (rounded_unique (IZR z) false); auto. apply i64_rounded.
Qed.
Definition item_op (o : binop) : xitem -> xitem -> res xitem :=
  match o with
  | O_add => xitem_numeric_add | O_sub => xitem_numeric_subtract | O_mul => xitem_numeric_multiply
  | O_idiv => xitem_numeric_integer_divide | O_div => xitem_numeric_divide | _ => xitem_numeric_mod
  end.
Lemma float_op_arith o a b d : ieee_op o a b d -> arithmetic o.
Proof. destruct 1 as [o a b v d _ _ X _| |]; auto; [destruct X|]; unfold arithmetic; cbn; tauto. Qed.
Lemma number_op_ok o x y it : number_op o x y it -> item_op o x y = Ok it.
Proof.
  assert (Z0 : forall f, is_f64 f -> finite f -> val f <> 0%R -> feqb f f_zero = false).
  { intros f V F N. apply not_true_is_false. intro Q. apply N. apply div_zero; auto. apply finite_iff; auto. }
  intro H. destruct H as [a b d X Y R NZ F|a b d X Y R FD NZ F|m n a b d -> -> X Y -> NZ FD F].
  - destruct (number_promote _ _ X) as [Va PX]. destruct (number_promote _ _ Y) as [Vb PY].
    assert (OP := float_op_arith _ _ _ _ F). assert (E := float_op_ok _ _ _ _ Va Vb F).
    assert (ND := fun N => number_div y b Y N). unfold promote in PX, PY.
    destruct OP as [<-|[<-|[<-|[<-|[<-|[]]]]]]; cbn [float_fn item_op] in *.
    1-3: destruct X, Y; cbn in R; try discriminate R; cbn; unfold int_to_dec, int_to_dbl, dec_to_dbl; try rewrite PX; try rewrite PY; rewrite E; reflexivity.
    + unfold xitem_numeric_divide. destruct Y as [w y RY|y Vy Fy|y Vy]; cbn [num_rank] in NZ.
      * specialize (NZ ltac:(discriminate) ltac:(auto)). destruct (ND NZ) as [W EW]. apply Z.eqb_neq in W. rewrite W. cbn [bind].
        destruct X; cbn in R; try discriminate R. cbn. unfold dec_to_dbl. rewrite EW, E. reflexivity.
      * specialize (NZ ltac:(discriminate) ltac:(auto)). rewrite (Z0 y) by auto. cbn [bind].
        destruct X; cbn in R; try discriminate R. cbn. unfold dec_to_dbl. rewrite E. reflexivity.
      * cbn [bind]. destruct X; cbn; unfold int_to_dec, int_to_dbl, dec_to_dbl; try rewrite PX; rewrite E; reflexivity.
    + unfold xitem_numeric_mod. destruct Y as [w y RY|y Vy Fy|y Vy]; cbn [num_rank] in NZ.
      * specialize (NZ ltac:(discriminate) ltac:(auto)). destruct (ND NZ) as [W EW]. apply Z.eqb_neq in W. rewrite W.
        destruct X; cbn in R; try discriminate R. cbn. unfold int_to_dbl, dec_to_dbl. rewrite PY, E. reflexivity.
      * specialize (NZ ltac:(discriminate) ltac:(auto)). rewrite (Z0 y) by auto.
        destruct X; cbn in R; try discriminate R. cbn. unfold dec_to_dbl. rewrite E. reflexivity.
      * destruct X; cbn; unfold int_to_dec, int_to_dbl, dec_to_dbl; try rewrite PX; rewrite E; reflexivity.
  - destruct (number_promote _ _ X) as [Va PX]. destruct (number_promote _ _ Y) as [Vb PY].
    assert (OP := float_op_arith _ _ _ _ F). assert (E := float_op_ok _ _ _ _ Va Vb F).
    assert (ND := fun N => number_div y b Y N). unfold promote in PX, PY.
    destruct OP as [<-|[<-|[<-|[<-|[<-|[]]]]]]; cbn [float_fn item_op] in *.
    1-3: destruct X, Y; cbn in R; try discriminate R; cbn; unfold int_to_dec; try rewrite PX; try rewrite PY; rewrite E; reflexivity.
    + specialize (NZ ltac:(auto)). unfold xitem_numeric_divide. destruct Y as [w y RY|y Vy Fy|y Vy].
      * destruct (ND NZ) as [W EW]. apply Z.eqb_neq in W. rewrite W. cbn [bind].
        destruct X; cbn in R; try discriminate R; cbn; rewrite EW, E; reflexivity.
      * rewrite (Z0 y) by auto. cbn [bind]. destruct X; cbn in R; try discriminate R; cbn; unfold int_to_dec; try rewrite PX; rewrite E; reflexivity.
      * destruct X; discriminate R.
    + specialize (NZ ltac:(auto)). unfold xitem_numeric_mod. destruct Y as [w y RY|y Vy Fy|y Vy].
      * destruct (ND NZ) as [W EW]. apply Z.eqb_neq in W. rewrite W.
        destruct X; cbn in R; try discriminate R; cbn; unfold int_to_dec; rewrite PY, E; reflexivity.
      * rewrite (Z0 y) by auto. destruct X; cbn in R; try discriminate R; cbn; unfold int_to_dec; try rewrite PX; rewrite E; reflexivity.
      * destruct X; discriminate R.
  - destruct (number_promote _ _ X) as [Va PX]. destruct (number_promote _ _ Y) as [Vb PY].
    assert (E := float_op_ok _ _ _ _ Va Vb F). destruct (number_div _ b Y NZ) as [W EW]. apply Z.eqb_neq in W.
    cbn [float_fn item_op] in *. unfold xitem_numeric_divide. rewrite W. cbn [bind]. cbn. unfold int_to_dec. cbv [promote] in PX. rewrite PX, EW, E. reflexivity.
Qed.
Lemma value_numbers op h x y a b : number_of x a -> number_of y b -> (0 < Nat.max (num_rank x) (num_rank y))%nat ->
  value_fn op h [x] [y] = Ok [XIBoolean (float_rel op a b)].
Proof.
  intros X Y M. destruct (number_promote _ _ X) as [_ PX]. destruct (number_promote _ _ Y) as [_ PY]. rewrite <- PX, <- PY.
  destruct X, Y; try (cbn in M; lia); destruct op; reflexivity.
Qed.
Lemma number_rel_ok op h x y t : number_rel op x y t -> value_fn op h [x] [y] = Ok [XIBoolean t].
Proof.
  intros [a b X Y M NA NB T|a b X Y N L G T].
  - rewrite (value_numbers op h x y a b X Y M). do 3 f_equal. destruct (number_promote _ _ X) as [Va _]. destruct (number_promote _ _ Y) as [Vb _].
    assert (Q := float_rel_ok op a b Va Vb NA NB). destruct (float_rel op a b), t; auto; try (symmetry; tauto); enough (false = true) by auto; tauto.
  - assert (M : (0 < Nat.max (num_rank x) (num_rank y))%nat).
    { assert (NI : forall z c, number_of (XIInteger z) c -> c <> S754_nan).
      { intros z c H ->. inversion H as [? ? [C _]| |]; subst. destruct C as [_ [[F _]|[[_ F]|[_ F]]]]; try discriminate. apply finite_iff in F. discriminate. }
      destruct X as [z x R| |]; cbn; try lia; destruct Y as [w y RY| |]; cbn; try lia.
      destruct N as [-> | ->]; exfalso; [apply (NI z S754_nan)|apply (NI w S754_nan)]; auto; constructor; auto. }
    rewrite (value_numbers op h x y a b X Y M). do 3 f_equal.
    assert (E : float_rel op a b = match op with CNe => true | _ => false end).
    { destruct op; try congruence; destruct N as [-> | ->]; try reflexivity; match goal with |- context [float_rel _ ?u ?w] => first [is_var u; destruct u; reflexivity | is_var w; destruct w; reflexivity] end. }
    rewrite E. destruct op; try congruence; destruct t; auto; try (assert (Q : CNe = CNe) by auto; tauto);
      exfalso; try (assert (Q := proj1 T eq_refl); discriminate Q). assert (Q := proj2 T eq_refl). discriminate Q.
Qed.

(* The digits fmt_f64 writes: no superfluous zeros, and no more of them than needed. *)
From Flocq Require Import Core BinarySingleNaN.
Require Import Ascii String Bool List NArith ZArith Lia Reals Lra Psatz.
Require Import Coq.Floats.SpecFloat.
From Verif Require Import Str StrFacts Num Item Func SpecInt IntFacts FloatFacts SpecNum SpecDbl FloatRound FloatText FloatPrint.
Import List ListNotations.
Open Scope Z_scope.

Lemma between m e a b c : let x := S754_finite false m e in valid x -> correctly_rounded a x -> correctly_rounded c x -> (a <= b <= c)%R -> correctly_rounded b x.
Proof.
  intros x V A C [AB BC]. apply correct_rnd in A; [|reflexivity]. apply correct_rnd in C; [|reflexivity].
  assert (R : rnd64 b = real x).
  { apply Rle_antisym; [rewrite C|rewrite A]; apply round_le; auto with typeclass_instances. }
  apply rounded_correct; auto. rewrite R, Rlt_bool_true by (apply valid_lt_emax; auto). split; reflexivity.
Qed.
Lemma itself m e : let x := S754_finite false m e in valid x -> correctly_rounded (real x) x.
Proof.
  intros x V. apply rounded_correct; auto. assert (R : rnd64 (real x) = real x) by (apply round_generic; auto with typeclass_instances; apply valid_format; auto).
  rewrite R, Rlt_bool_true by (apply valid_lt_emax; auto). split; reflexivity.
Qed.
Lemma rounded_dec m e c k : let x := S754_finite false m e in 0 <= c -> correctly_rounded (IZR c * powerRZ 10 k) x ->
  feqb (dec_to_f64 false (Z.to_N c) k) x = true.
Proof.
  intros x C CX. destruct (dec_to_f64_correct false (Z.to_N c) k) as [CR _].
  assert (W : dec_val false (Z.to_N c) k = (IZR c * powerRZ 10 k)%R) by (unfold dec_val; cbn [signed]; rewrite Z2N.id by auto; reflexivity).
  rewrite W in CR. destruct (correctly_rounded_unique _ _ _ CR CX) as [(F & F' & Q)|Q].
  - apply eqb_real; [apply CR|apply CX|apply finite_iff; auto|reflexivity|]. rewrite <- !val_real. exact Q.
  - rewrite Q. apply eqb_real; auto; apply CX.
Qed.
Lemma floor_at num den k n' d' v : 0 < den -> 0 <= num -> v = (IZR num / IZR den)%R ->
  (if 0 <=? k then (num, den * 10 ^ k) else (num * 10 ^ (- k), den)) = (n', d') ->
  0 <= n' / d' /\ (IZR (n' / d') * powerRZ 10 k <= v < IZR (n' / d' + 1) * powerRZ 10 k)%R.
Proof.
  intros D N E S. destruct (scaled num den k n' d' v D E S) as [D' F]. set (q := n' / d').
  assert (N' : 0 <= n').
  { destruct (0 <=? k); apply pair_equal_spec in S; destruct S as [<- <-]; auto. apply Z.mul_nonneg_nonneg; auto. apply Z.pow_nonneg. lia. }
  split; [apply Z.div_pos; auto|].
  assert (L : n' = d' * q + n' mod d') by (apply Z.div_mod; lia). assert (M := Z.mod_pos_bound n' d' D').
  assert (T := ten_pos k). assert (DR : (0 < IZR d')%R) by (apply (IZR_lt 0); auto).
  assert (A : (IZR q <= IZR n' / IZR d' < IZR (q + 1))%R).
  { split; [apply Rmult_le_reg_r with (IZR d')|apply Rmult_lt_reg_r with (IZR d')]; auto; unfold Rdiv; rewrite Rmult_assoc, Rinv_l, Rmult_1_r by lra;
      rewrite <- mult_IZR; [apply IZR_le|apply IZR_lt]; nia. }
  rewrite <- F. split; [apply Rmult_le_compat_r; lra|apply Rmult_lt_compat_r; lra].
Qed.
Lemma try_none m e num den k : let x := S754_finite false m e in valid x -> 0 < den -> 0 <= num -> real x = (IZR num / IZR den)%R ->
  try_digits x num den k = None -> forall c, 0 <= c -> ~ correctly_rounded (IZR c * powerRZ 10 k) x.
Proof.
  intros x V D N E H c C R. unfold try_digits in H. destruct (if 0 <=? k then (num, den * 10 ^ k) else (num * 10 ^ (- k), den)) as [n' d'] eqn:S.
  destruct (floor_at num den k n' d' (real x) D N E S) as [Q [B1 B2]]. cbv zeta beta in H. set (q := n' / d') in *.
  assert (T := ten_pos k). assert (I := itself m e V). fold x in I.
  destruct (Z_le_gt_dec c q) as [L|L].
  - assert (K : feqb (dec_to_f64 false (Z.to_N q) k) x = true).
    { apply rounded_dec; auto. apply (between m e _ _ _ V R I). split; [apply Rmult_le_compat_r; [lra|apply IZR_le; auto]|exact B1]. }
    rewrite K in H. destruct (_ && _) in H; discriminate.
  - assert (K : feqb (dec_to_f64 false (Z.to_N (q + 1)) k) x = true).
    { apply rounded_dec; [lia|]. apply (between m e _ _ _ V I R). split; [lra|apply Rmult_le_compat_r; [lra|apply IZR_le; lia]]. }
    rewrite K in H. destruct (feqb (dec_to_f64 false (Z.to_N q) k) x); [destruct (_ && _) in H|]; discriminate.
Qed.
Lemma try_some m e num den k d : let x := S754_finite false m e in 0 < den -> 0 <= num -> real x = (IZR num / IZR den)%R ->
  try_digits x num den k = Some d -> exists q, 0 <= q /\ (IZR q * powerRZ 10 k <= real x < IZR (q + 1) * powerRZ 10 k)%R /\ (d = q \/ d = q + 1).
Proof.
  intros x D N E H. unfold try_digits in H. destruct (if 0 <=? k then (num, den * 10 ^ k) else (num * 10 ^ (- k), den)) as [n' d'] eqn:S.
  destruct (floor_at num den k n' d' (real x) D N E S) as [Q B]. exists (n' / d'). split; auto. split; auto. cbv zeta beta in H.
  destruct (feqb (dec_to_f64 false (Z.to_N (n' / d')) k) x); [destruct (_ && _) in H|destruct (feqb _ _) in H]; inversion H; auto.
Qed.
Lemma loop_spec m e num den : let x := S754_finite false m e in valid x -> 0 < den -> 0 <= num -> real x = (IZR num / IZR den)%R ->
  forall fuel k, (powerRZ 10 (k - Z.of_nat fuel + 1) * IZR (10 ^ 16) <= real x)%R -> fuel <> O ->
  forall d k', shortest_loop fuel x num den k = (d, k') ->
  k - Z.of_nat fuel < k' <= k /\ try_digits x num den k' = Some d /\ forall kk, k' < kk <= k -> try_digits x num den kk = None.
Proof.
  intros x V D N E. induction fuel as [|fuel IH]; intros k B F d k' H; [congruence|]. cbn [shortest_loop] in H.
  destruct (try_digits x num den k) as [d0|] eqn:T.
  - inversion H; subst. split; [lia|]. split; auto. intros kk K. lia.
  - destruct fuel as [|fuel].
    + exfalso. revert T. apply try_digits_some; auto. fold x. replace (k - Z.of_nat 1 + 1) with k in B by lia. exact B.
    + destruct (IH (k - 1)) with (d := d) (k' := k') as (A1 & A2 & A3); auto.
      { replace (k - 1 - Z.of_nat (S fuel) + 1) with (k - Z.of_nat (S (S fuel)) + 1) by lia. exact B. }
      split; [lia|]. split; auto. intros kk K. destruct (Z.eq_dec kk k) as [->|]; auto. apply A3. lia.
Qed.
(* ---- the first digit, from above ---- *)
Lemma fmt_N_high n : (n < 10 ^ N.of_nat (List.length (fmt_N n)))%N.
Proof.
  rewrite <- (fmt_N_numeral n) at 1. assert (D : all_digits (fmt_N n)) by apply uint_digits. induction (fmt_N n) as [|c s IH] using rev_ind; [cbn; lia|].
  apply Forall_app in D. destruct D as [D C]. inversion C; subst. specialize (IH D). rewrite numeral_app. cbn [fold_left]. rewrite app_length. cbn [List.length].
  rewrite Nat.add_1_r, Nat2N.inj_succ, N.pow_succ_r'. lia.
Qed.
Lemma dec_exp_down_hi den num0 : 0 < den -> 0 < num0 -> num0 < den -> forall fuel num j, 0 <= j -> num = num0 * 10 ^ j ->
  (j = 0 \/ num0 * 10 ^ (j - 1) < den) -> den <= num * 10 ^ Z.of_nat fuel ->
  exists i, dec_exp_down fuel num den j = - i /\ 1 <= i /\ num0 * 10 ^ (i - 1) < den.
Proof.
  intros D P L0. induction fuel as [|fuel IH]; intros num j J E K B.
  - cbn [dec_exp_down]. exists j. split; auto. rewrite Z.mul_1_r in B. destruct K as [->|K]; [subst; rewrite Z.mul_1_r in B; lia|].
    split; auto. destruct (Z.eq_dec j 0) as [->|]; [|lia]. subst. rewrite Z.mul_1_r in B. lia.
  - cbn [dec_exp_down]. destruct (Z.leb_spec den num) as [L|L].
    + exists j. split; auto. destruct K as [->|K]; [subst; rewrite Z.mul_1_r in L; lia|].
      split; auto. destruct (Z.eq_dec j 0) as [->|]; [|lia]. subst. rewrite Z.mul_1_r in L. lia.
    + apply IH; [lia|subst; rewrite Z.pow_add_r by lia; ring|right; replace (j + 1 - 1) with j by lia; subst; auto|].
      rewrite Nat2Z.inj_succ, Z.pow_succ_r in B by lia. rewrite <- Z.mul_assoc. exact B.
Qed.
Lemma dec_exp_hi num den : 0 < den -> 0 < num -> den <= num * 10 ^ 400 -> (IZR num / IZR den < powerRZ 10 (dec_exp num den + 1))%R.
Proof.
  intros D N B. assert (DR : (0 < IZR den)%R) by (apply (IZR_lt 0); auto).
  unfold dec_exp. destruct (Z.leb_spec den num) as [L|L].
  - assert (F := fmt_N_high (Z.to_N (num / den))). set (ds := fmt_N (Z.to_N (num / den))) in *.
    replace (Z.of_nat (List.length ds) - 1 + 1) with (Z.of_nat (List.length ds)) by lia.
    rewrite powerRZ_pos_IZR by lia. assert (Q : 0 <= num / den) by (apply Z.div_pos; lia).
    apply Rmult_lt_reg_r with (IZR den); auto. unfold Rdiv. rewrite Rmult_assoc, Rinv_l, Rmult_1_r by lra. rewrite <- mult_IZR. apply IZR_lt.
    apply N2Z.inj_lt in F. rewrite N2Z.inj_pow, Z2N.id in F by lia. rewrite nat_N_Z in F. change (Z.of_N 10) with 10 in F.
    assert (M := Z.mul_succ_div_gt num den D). nia.
  - destruct (dec_exp_down_hi den num D N L 400%nat num 0 ltac:(lia) ltac:(lia) ltac:(auto) B) as (i & -> & I & H).
    replace (- i + 1) with (- (i - 1)) by lia.
    assert (P : 0 < 10 ^ (i - 1)) by (apply Z.pow_pos_nonneg; lia). assert (PR : (0 < IZR (10 ^ (i - 1)))%R) by (apply (IZR_lt 0); auto).
    rewrite powerRZ_neg'. rewrite powerRZ_pos_IZR by lia. apply IZR_lt in H. rewrite mult_IZR in H.
    apply Rmult_lt_reg_r with (IZR den); auto. unfold Rdiv. rewrite (Rmult_assoc (IZR num)), Rinv_l, Rmult_1_r by lra.
    apply Rmult_lt_reg_l with (IZR (10 ^ (i - 1))); auto. rewrite <- Rmult_assoc, Rinv_r, Rmult_1_l by lra. lra.
Qed.
Lemma strip_full : forall fuel d k d' k', 0 < d < 10 ^ Z.of_nat fuel -> strip_zeros fuel d k = (d', k') ->
  d' mod 10 <> 0 /\ 0 < d' /\ exists j, 0 <= j /\ d = d' * 10 ^ j /\ k' = k + j.
Proof.
  induction fuel as [|fuel IH]; intros d k d' k' P H; [cbn in P; lia|]. cbn [strip_zeros] in H.
  destruct (Z.eqb_spec (d mod 10) 0) as [C|C]; cbn [andb] in H.
  - replace (0 <? d) with true in H by (symmetry; apply Z.ltb_lt; lia). assert (E := Z.div_mod d 10 ltac:(lia)). rewrite C, Z.add_0_r in E.
    rewrite Nat2Z.inj_succ, Z.pow_succ_r in P by lia. apply IH in H; [|lia]. destruct H as (A & A' & j & J & F & G). split; auto. split; auto.
    exists (j + 1). split; [lia|]. split; [|lia]. rewrite E, F, Z.pow_add_r by lia. ring.
  - inversion H; subst. split; auto. split; [lia|]. exists 0. split; [lia|]. split; lia.
Qed.
Lemma pow_ten_lt a b : 0 <= b -> a < b -> 10 ^ a < 10 ^ b.
Proof. intros. apply Z.pow_lt_mono_r; lia. Qed.
Lemma shortest_facts m e d k : let x := S754_finite false m e in valid x -> shortest m e = (d, k) ->
  0 < d /\ d mod 10 <> 0 /\ correctly_rounded (IZR d * powerRZ 10 k) x /\
  forall c j n, 0 <= c -> 0 <= n -> correctly_rounded (IZR c * powerRZ 10 j) x -> 10 ^ n <= d -> 10 ^ n <= c.
Proof.
  intros x V H. destruct (shortest_ok m e d k V H) as [DP RD].
  assert (CR : correctly_rounded (IZR d * powerRZ 10 k) x).
  { destruct (dec_to_f64_correct false (Z.to_N d) k) as [C _]. rewrite RD in C. unfold dec_val in C. cbn [signed] in C. rewrite Z2N.id in C by lia. exact C. }
  unfold shortest in H. destruct (frac_of m e) as [num den] eqn:F. destruct (frac_of_ok _ _ _ _ V F) as (D & N & B & R).
  set (K := dec_exp num den) in *. assert (LO := dec_exp_ok num den D N B). assert (HI := dec_exp_hi num den D N B). fold K in LO, HI.
  rewrite <- R in LO, HI. fold x in LO, HI, R.
  destruct (shortest_loop 17 (S754_finite false m e) num den K) as [d0 k0] eqn:L.
  destruct (loop_spec m e num den V D (Z.lt_le_incl _ _ N) R 17%nat K) with (d := d0) (k' := k0) as (KB & TS & TN); auto.
  { replace (K - Z.of_nat 17 + 1) with (K + - (16)) by lia. rewrite ten_add. rewrite Rmult_assoc.
    replace (powerRZ 10 (- (16)) * IZR (10 ^ 16))%R with 1%R; [rewrite Rmult_1_r; exact LO|].
    rewrite powerRZ_neg_IZR by lia. change (- - (16)) with 16. rewrite Rinv_l; auto. apply Rgt_not_eq. apply (IZR_lt 0). reflexivity. }
  fold x in TS, TN. destruct (try_some m e num den k0 d0 D (Z.lt_le_incl _ _ N) R TS) as (q & Q & [Q1 Q2] & DQ). fold x in Q1, Q2.
  assert (T := ten_pos k0).
  assert (QB : q < 10 ^ (K + 1 - k0)).
  { apply lt_IZR. rewrite <- powerRZ_pos_IZR by lia. apply Rmult_lt_reg_r with (powerRZ 10 k0); auto. rewrite <- ten_add. replace (K + 1 - k0 + k0) with (K + 1) by lia. lra. }
  assert (D0 : 0 < d0).
  { destruct (Z_lt_le_dec 0 d0) as [P|P]; auto. exfalso.
    assert (O := try_digits_ok m e num den k0 d0 V TS). replace (Z.to_N d0) with 0%N in O by lia. discriminate O. }
  assert (P17 : 10 ^ (K + 1 - k0) <= 10 ^ 17) by (apply Z.pow_le_mono_r; lia).
  destruct (strip_full 20 d0 k0 d k) as (NM & _ & j0 & J0 & E0 & EK); [split; auto; change (Z.of_nat 20) with 20; assert (10 ^ 17 < 10 ^ 20) by reflexivity; lia|exact H|].
  split; auto. split; auto. split; auto.
  intros c j n C Nn RC DN. destruct (Z.eq_dec n 0) as [->|N0].
  { rewrite Z.pow_0_r. destruct (Z.eq_dec c 0) as [->|]; [|lia]. exfalso. apply correct_rnd in RC; [|reflexivity].
    rewrite Rmult_0_l, round_0 in RC by auto with typeclass_instances. rewrite RC in LO. assert (TK := ten_pos K). lra. }
  assert (D0B : d0 < 10 ^ (K + 1 - k0)).
  { destruct (Z.eq_dec d0 (10 ^ (K + 1 - k0))) as [E|]; [|lia]. exfalso. rewrite E in E0. apply NM.
    destruct (Z_lt_le_dec j0 (K + 1 - k0)) as [J|J].
    - replace (K + 1 - k0) with ((K + 1 - k0 - j0 - 1) + 1 + j0) in E0 by lia. rewrite !Z.pow_add_r in E0 by lia.
      apply Z.mul_reg_r in E0; [|apply Z.pow_nonzero; lia]. rewrite <- E0. change (10 ^ 1) with 10. apply Z_mod_mult.
    - exfalso. assert (10 ^ (K + 1 - k0) <= 10 ^ j0) by (apply Z.pow_le_mono_r; lia). assert (0 < 10 ^ j0) by (apply Z.pow_pos_nonneg; lia).
      assert (10 ^ 1 <= 10 ^ n) by (apply Z.pow_le_mono_r; lia). nia. }
  assert (J1 : 1 <= 10 ^ j0) by (apply (Z.pow_le_mono_r 10 0); lia).
  assert (NK : n < K + 1 - k0) by (apply (Z.pow_lt_mono_r_iff 10); [lia|lia|nia]).
  destruct (Z_lt_le_dec c (10 ^ n)) as [CN|CN]; auto. exfalso.
  destruct (Z_lt_le_dec k0 j) as [J|J].
  - set (kk := Z.min j K). assert (KK : k0 < kk <= K) by lia. specialize (TN kk KK).
    apply (try_none m e num den kk V D (Z.lt_le_incl _ _ N) R TN (c * 10 ^ (j - kk))); [apply Z.mul_nonneg_nonneg; auto; apply Z.pow_nonneg; lia|].
    rewrite mult_IZR, <- powerRZ_pos_IZR, Rmult_assoc, <- ten_add by lia. replace (j - kk + kk) with j by lia. exact RC.
  - apply (try_none m e num den K V D (Z.lt_le_incl _ _ N) R (TN K ltac:(lia)) 1); [lia|]. rewrite Rmult_1_l.
    apply (between m e _ _ _ V RC (itself m e V)). split; [|exact LO].
    apply Rle_trans with (powerRZ 10 n * powerRZ 10 k0)%R.
    + apply Rmult_le_compat; [apply (IZR_le 0); auto|apply Rlt_le, ten_pos|rewrite powerRZ_pos_IZR by auto; apply IZR_le; lia|].
      replace k0 with ((k0 - j) + j) by lia. rewrite ten_add. rewrite <- (Rmult_1_l (powerRZ 10 j)) at 1. apply Rmult_le_compat_r; [apply Rlt_le, ten_pos|].
      rewrite powerRZ_pos_IZR by lia. apply IZR_le. apply (Z.pow_le_mono_r 10 0); lia.
    + rewrite <- ten_add. replace K with ((K - n - k0) + (n + k0)) by lia. rewrite (ten_add (K - n - k0)).
      rewrite <- (Rmult_1_l (powerRZ 10 (n + k0))) at 1. apply Rmult_le_compat_r; [apply Rlt_le, ten_pos|].
      rewrite powerRZ_pos_IZR by lia. apply IZR_le. apply (Z.pow_le_mono_r 10 0); lia.
Qed.
Lemma abs_rounded s m e w : correctly_rounded w (S754_finite s m e) -> correctly_rounded (Rabs w) (S754_finite false m e).
Proof.
  intro C. assert (V : valid (S754_finite false m e)) by (destruct C as [V _]; exact V). apply correct_rnd in C; [|reflexivity].
  apply rounded_correct; auto. rewrite round_NE_abs by auto with typeclass_instances. rewrite <- C.
  assert (A : Rabs (real (S754_finite s m e)) = real (S754_finite false m e)).
  { cbn [SF2R]. rewrite <- F2R_Zabs. f_equal. f_equal. destruct s; reflexivity. }
  rewrite A. rewrite Rabs_pos_eq by (rewrite <- A; apply Rabs_pos). rewrite Rlt_bool_true; [split; reflexivity|].
  assert (L := valid_lt_emax _ V). rewrite <- A, Rabs_Rabsolu, A in L. exact (L eq_refl).
Qed.
(* ---- the text ---- *)
Lemma fmt_N_starts n : (n <> 0)%N -> exists c r, fmt_N n = c :: r /\ c <> 48%N.
Proof.
  intro H. destruct (fmt_N_canonical n) as [[E|E] _]; auto. exfalso. apply H. rewrite <- (fmt_N_numeral n), E. reflexivity.
Qed.
Lemma fmt_N_ends n : (n mod 10 <> 0)%N -> exists r c, fmt_N n = r ++ [c] /\ c <> 48%N.
Proof.
  intro H. assert (NE := proj2 (fmt_N_canonical n)). destruct (exists_last NE) as (r & c & E). exists r, c. split; auto. intros ->. apply H.
  rewrite <- (fmt_N_numeral n), E, numeral_app. cbn [fold_left]. change (48 - 48)%N with 0%N. rewrite N.add_0_r, N.mul_comm. apply N.mod_mul. discriminate.
Qed.
Lemma unsigned_plain d k : 0 < d -> d mod 10 <> 0 ->
  whole_notation (unsigned_fmt d k) \/ exists a f, unsigned_fmt d k = a ++ 46%N :: f /\ whole_notation a /\ fraction_notation f.
Proof.
  intros P M. unfold unsigned_fmt. assert (DD : all_digits (fmt_N (Z.to_N d))) by apply uint_digits.
  destruct (fmt_N_starts (Z.to_N d) ltac:(lia)) as (c & r & ES & C).
  destruct (fmt_N_ends (Z.to_N d)) as (r' & c' & EE & C').
  { intro Q. apply M. apply (f_equal Z.of_N) in Q. rewrite N2Z.inj_mod, Z2N.id in Q by lia. exact Q. }
  set (ds := fmt_N (Z.to_N d)) in *. set (n := Z.of_nat (List.length ds)). cbv zeta.
  destruct (Z.leb_spec 0 k) as [K|K]; [|destruct (Z.ltb_spec 0 (n + k)) as [L|L]].
  - left. split; [apply Forall_app; split; [exact DD|apply zeros_digits]|]. right. exists c. rewrite ES. eexists. split; [reflexivity|exact C].
  - right. exists (firstn (Z.to_nat (n + k)) ds), (skipn (Z.to_nat (n + k)) ds). split; [reflexivity|].
    rewrite <- (firstn_skipn (Z.to_nat (n + k)) ds) in DD. apply Forall_app in DD. destruct DD as [D1 D2]. split; (split; [assumption|]).
    + right. exists c. rewrite ES. destruct (Z.to_nat (n + k)) as [|i] eqn:I; [lia|]. cbn [firstn]. eexists. split; [reflexivity|exact C].
    + rewrite EE. assert (LL : List.length ds = S (List.length r')) by (rewrite EE, app_length; cbn; lia).
      rewrite skipn_app. replace (Z.to_nat (n + k) - List.length r')%nat with O by (unfold n in *; lia). cbn [skipn]. eexists. eexists. split; [reflexivity|exact C'].
  - right. exists [48%N], (repeat 48%N (Z.to_nat (- (n + k))) ++ ds). split; [reflexivity|]. split.
    + split; [constructor; [lia|constructor]|left; reflexivity].
    + split; [apply Forall_app; split; [apply zeros_digits|exact DD]|]. rewrite EE, app_assoc. eexists. eexists. split; [reflexivity|exact C'].
Qed.
Lemma fmt_plain x : is_f64 x -> finite x -> plain_notation (fmt_f64 x).
Proof.
  intros V [[s ->]|(s & m & e & ->)].
  - cbn [fmt_f64]. assert (W : whole_notation (lit "0")) by (split; [constructor; [cbn; lia|constructor]|left; reflexivity]). destruct s; cbn [sign_str].
    + apply (pn_whole_minus _ W).
    + apply (pn_whole _ W).
  - rewrite fmt_finite. destruct (shortest m e) as [d k] eqn:S. destruct (shortest_facts m e d k V S) as (P & M & _). cbn [fst snd].
    destruct (unsigned_plain d k P M) as [W|(a & f & -> & W & F)]; destruct s; cbn [sign_str].
    + apply (pn_whole_minus _ W).
    + apply (pn_whole _ W).
    + apply (pn_point_minus _ _ W F).
    + apply (pn_point _ _ W F).
Qed.

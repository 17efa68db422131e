(* The digits fmt_f64 writes: among those as short the nearest ones; the text is the only one of its kind. *)
From Flocq Require Import Core BinarySingleNaN.
Require Import Ascii String Bool List NArith ZArith Lia Reals Lra Psatz.
Require Import Coq.Floats.SpecFloat.
From Verif Require Import Str StrFacts Num Item Func SpecInt IntFacts FloatFacts SpecNum SpecDbl FloatRound FloatText FloatPrint FloatShort SpecArith SpecPrint.
Import List ListNotations.
Open Scope Z_scope.

Lemma try_near m e num den k d : let x := S754_finite false m e in valid x -> 0 < den -> 0 <= num -> real x = (IZR num / IZR den)%R ->
  try_digits x num den k = Some d -> forall c, 0 <= c -> correctly_rounded (IZR c * powerRZ 10 k) x ->
  (Rabs (real x - IZR d * powerRZ 10 k) <= Rabs (real x - IZR c * powerRZ 10 k))%R.
Proof.
  intros x V D N E H c C R. unfold try_digits in H. destruct (if 0 <=? k then (num, den * 10 ^ k) else (num * 10 ^ (- k), den)) as [n' d'] eqn:S.
  destruct (floor_at num den k n' d' (real x) D N E S) as [Q [B1 B2]]. destruct (scaled num den k n' d' (real x) D E S) as [D' F].
  cbv zeta beta in H. set (q := n' / d') in *.
  assert (T := ten_pos k). assert (I := itself m e V). fold x in I.
  assert (DR : (0 < IZR d')%R) by (apply (IZR_lt 0); auto).
  assert (A1 : Rabs (real x - IZR q * powerRZ 10 k) = (real x - IZR q * powerRZ 10 k)%R) by (apply Rabs_pos_eq; lra).
  assert (A2 : Rabs (real x - IZR (q + 1) * powerRZ 10 k) = (IZR (q + 1) * powerRZ 10 k - real x)%R) by (rewrite Rabs_left1 by lra; ring).
  (* which of the two is nearer *)
  assert (M : d' <=? 2 * (n' - q * d') = true <-> (IZR (q + 1) * powerRZ 10 k - real x <= real x - IZR q * powerRZ 10 k)%R).
  { rewrite Z.leb_le. rewrite <- F, plus_IZR. split; intro L.
    - apply IZR_le in L. rewrite mult_IZR, minus_IZR, mult_IZR in L.
      assert (L2 : (1 <= 2 * (IZR n' / IZR d' - IZR q))%R).
      { apply Rmult_le_reg_r with (IZR d'); auto. replace (2 * (IZR n' / IZR d' - IZR q) * IZR d')%R with (2 * (IZR n' - IZR q * IZR d'))%R by (field; lra). lra. }
      nra.
    - apply le_IZR. rewrite mult_IZR, minus_IZR, mult_IZR.
      assert (L2 : (1 <= 2 * (IZR n' / IZR d' - IZR q))%R) by nra.
      replace (2 * (IZR n' - IZR q * IZR d'))%R with (2 * (IZR n' / IZR d' - IZR q) * IZR d')%R by (field; lra). nra. }
  destruct (Z_le_gt_dec c q) as [L|L].
  - assert (K : feqb (dec_to_f64 false (Z.to_N q) k) x = true).
    { apply rounded_dec; auto. apply (between m e _ _ _ V R I). split; [apply Rmult_le_compat_r; [lra|apply IZR_le; auto]|exact B1]. }
    assert (A3 : (IZR c * powerRZ 10 k <= IZR q * powerRZ 10 k)%R) by (apply Rmult_le_compat_r; [lra|apply IZR_le; auto]).
    rewrite (Rabs_pos_eq (real x - IZR c * powerRZ 10 k)) by lra.
    rewrite K in H. destruct (_ && _) eqn:BB in H; injection H as <-.
    + apply andb_true_iff in BB. rewrite A2. apply proj2, M in BB. lra.
    + rewrite A1. lra.
  - assert (K : feqb (dec_to_f64 false (Z.to_N (q + 1)) k) x = true).
    { apply rounded_dec; [lia|]. apply (between m e _ _ _ V I R). split; [lra|apply Rmult_le_compat_r; [lra|apply IZR_le; lia]]. }
    assert (A3 : (IZR (q + 1) * powerRZ 10 k <= IZR c * powerRZ 10 k)%R) by (apply Rmult_le_compat_r; [lra|apply IZR_le; lia]).
    rewrite (Rabs_left1 (real x - IZR c * powerRZ 10 k)) by lra.
    rewrite K in H. cbn [andb] in H. destruct (feqb (dec_to_f64 false (Z.to_N q) k) x).
    + destruct (d' <=? 2 * (n' - q * d')) eqn:BB; injection H as <-.
      * rewrite A2. lra.
      * rewrite A1. assert (NL : ~ (IZR (q + 1) * powerRZ 10 k - real x <= real x - IZR q * powerRZ 10 k)%R) by (intro Z; apply M in Z; congruence). lra.
    + injection H as <-. rewrite A2. lra.
Qed.
Lemma shortest_near m e d k : let x := S754_finite false m e in valid x -> shortest m e = (d, k) ->
  forall c j n, 0 <= c -> 0 < n -> c < 10 ^ n -> 10 ^ (n - 1) <= d -> correctly_rounded (IZR c * powerRZ 10 j) x ->
  (Rabs (real x - IZR d * powerRZ 10 k) <= Rabs (real x - IZR c * powerRZ 10 j))%R.
Proof.
  intros x V H c j n C Nn CB DN RC.
  unfold shortest in H. destruct (frac_of m e) as [num den] eqn:F. destruct (frac_of_ok _ _ _ _ V F) as (D & N & B & R).
  set (K := dec_exp num den) in *. assert (LO := dec_exp_ok num den D N B). assert (HI := dec_exp_hi num den D N B). fold K in LO, HI.
  rewrite <- R in LO, HI. fold x in LO, HI, R.
  destruct (shortest_loop 17 (S754_finite false m e) num den K) as [d0 k0] eqn:L.
  destruct (loop_spec m e num den V D (Z.lt_le_incl _ _ N) R 17%nat K) with (d := d0) (k' := k0) as (KB & TS & TN); auto.
  { replace (K - Z.of_nat 17 + 1) with (K + - (16)) by lia. rewrite ten_add. rewrite Rmult_assoc.
    replace (powerRZ 10 (- (16)) * IZR (10 ^ 16))%R with 1%R; [rewrite Rmult_1_r; exact LO|].
    rewrite powerRZ_neg_IZR by lia. change (- - (16)) with 16. rewrite Rinv_l; auto. apply Rgt_not_eq. apply (IZR_lt 0). reflexivity. }
  fold x in TS, TN. destruct (try_some m e num den k0 d0 D (Z.lt_le_incl _ _ N) R TS) as (q & Q & [Q1 Q2] & DQ). fold x in Q1, Q2.
  assert (T := ten_pos k0).
  assert (QB : q < 10 ^ (K + 1 - k0)).
  { apply lt_IZR. rewrite <- powerRZ_pos_IZR by lia. apply Rmult_lt_reg_r with (powerRZ 10 k0); auto. rewrite <- ten_add. replace (K + 1 - k0 + k0) with (K + 1) by lia. lra. }
  assert (D0 : 0 < d0).
  { destruct (Z_lt_le_dec 0 d0) as [P|P]; auto. exfalso.
    assert (O := try_digits_ok m e num den k0 d0 V TS). replace (Z.to_N d0) with 0%N in O by lia. discriminate O. }
  assert (P17 : 10 ^ (K + 1 - k0) <= 10 ^ 17) by (apply Z.pow_le_mono_r; lia).
  destruct (strip_full 20 d0 k0 d k) as (NM & DP & j0 & J0 & E0 & EK); [split; auto; change (Z.of_nat 20) with 20; assert (10 ^ 17 < 10 ^ 20) by reflexivity; lia|exact H|].
  assert (J1 : 1 <= 10 ^ j0) by (apply (Z.pow_le_mono_r 10 0); lia).
  assert (VE : (IZR d * powerRZ 10 k = IZR d0 * powerRZ 10 k0)%R).
  { rewrite E0, EK, ten_add, mult_IZR, <- (powerRZ_pos_IZR j0) by lia. ring. }
  rewrite VE. assert (NEAR := try_near m e num den k0 d0 V D (Z.lt_le_incl _ _ N) R TS). fold x in NEAR.
  destruct (Z_le_gt_dec k0 j) as [J|J].
  { assert (W : (IZR (c * 10 ^ (j - k0)) * powerRZ 10 k0 = IZR c * powerRZ 10 j)%R).
    { rewrite mult_IZR, <- powerRZ_pos_IZR, Rmult_assoc, <- ten_add by lia. f_equal. f_equal. lia. }
    rewrite <- W. apply NEAR; [apply Z.mul_nonneg_nonneg; auto; apply Z.pow_nonneg; lia|rewrite W; exact RC]. }
  assert (NK : n <= K + 1 - k0).
  { destruct (Z.eq_dec d0 (10 ^ (K + 1 - k0))) as [E|NE].
    - assert (d = 1).
      { rewrite E in E0. destruct (Z_lt_le_dec j0 (K + 1 - k0)) as [J'|J'].
        - exfalso. apply NM. replace (K + 1 - k0) with ((K + 1 - k0 - j0 - 1) + 1 + j0) in E0 by lia. rewrite !Z.pow_add_r in E0 by lia.
          apply Z.mul_reg_r in E0; [|apply Z.pow_nonzero; lia]. rewrite <- E0. change (10 ^ 1) with 10. apply Z_mod_mult.
        - assert (10 ^ (K + 1 - k0) <= 10 ^ j0) by (apply Z.pow_le_mono_r; lia). nia. }
      subst d. destruct (Z_lt_le_dec 1 n) as [N1|N1]; [|lia]. assert (10 ^ 1 <= 10 ^ (n - 1)) by (apply Z.pow_le_mono_r; lia). lia.
    - assert (d0 < 10 ^ (K + 1 - k0)) by lia. assert (10 ^ (n - 1) < 10 ^ (K + 1 - k0)) by nia.
      apply (Z.pow_lt_mono_r_iff 10) in H1; lia. }
  (* shorter than the least number with as many digits before it *)
  assert (CK : (IZR c * powerRZ 10 j <= powerRZ 10 K)%R).
  { apply Rle_trans with (powerRZ 10 n * powerRZ 10 j)%R.
    - apply Rmult_le_compat_r; [apply Rlt_le, ten_pos|]. rewrite powerRZ_pos_IZR by lia. apply IZR_le. lia.
    - rewrite <- ten_add. replace K with ((K - n - j) + (n + j)) by lia. rewrite (ten_add (K - n - j)).
      rewrite <- (Rmult_1_l (powerRZ 10 (n + j))) at 1. apply Rmult_le_compat_r; [apply Rlt_le, ten_pos|].
      rewrite powerRZ_pos_IZR by lia. apply IZR_le. apply (Z.pow_le_mono_r 10 0); lia. }
  assert (W : (IZR (10 ^ (K - k0)) * powerRZ 10 k0 = powerRZ 10 K)%R).
  { rewrite <- powerRZ_pos_IZR, <- ten_add by lia. f_equal. lia. }
  apply Rle_trans with (Rabs (real x - IZR (10 ^ (K - k0)) * powerRZ 10 k0)).
  - apply NEAR; [apply Z.pow_nonneg; lia|]. rewrite W. apply (between m e _ _ _ V RC (itself m e V)). fold x. lra.
  - rewrite W. rewrite !Rabs_pos_eq by lra. lra.
Qed.

(* ---- a plain notation is the only one of its number ---- *)
Lemma numeral_split a b : numeral (a ++ b) = (numeral a * 10 ^ N.of_nat (List.length b) + numeral b)%N.
Proof. rewrite numeral_app. apply numeral_acc. Qed.
Lemma whole_unique d d' : whole_notation d -> whole_notation d' -> numeral d = numeral d' -> d = d'.
Proof.
  intros [A C] [A' C'] E. apply (notation_unique (Z.of_N (numeral d))).
  - exists d. split; auto. split; [destruct C as [->|(c & r & -> & _)]; discriminate|]. split; auto. left. repeat split. lia.
  - exists d'. split; auto. split; [destruct C' as [->|(c & r & -> & _)]; discriminate|]. split; auto. left. rewrite E. repeat split. lia.
Qed.
Lemma fraction_last d f : fraction_notation f -> (numeral (d ++ f) mod 10 <> 0)%N.
Proof.
  intros [A (r & c & -> & C)]. apply Forall_app in A. destruct A as [_ A]. inversion A as [|? ? B _]; subst.
  rewrite app_assoc, numeral_split. change (numeral [c]) with (10 * 0 + (c - 48))%N. change (10 ^ N.of_nat (List.length [c]))%N with 10%N.
  rewrite N.add_comm, N.mod_add by lia. rewrite N.mod_small by lia. lia.
Qed.
Lemma digits_unique s m e s' m' e' : plain_digits s m e -> plain_digits s' m' e' ->
  (IZR (Z.of_N m) * powerRZ 10 e = IZR (Z.of_N m') * powerRZ 10 e')%R -> s = s'.
Proof.
  (* the number of digits behind the point *)
  assert (K : forall u i v j, (IZR (Z.of_N u) * powerRZ 10 (- Z.of_nat i) = IZR (Z.of_N v) * powerRZ 10 (- Z.of_nat j))%R ->
    (u * 10 ^ N.of_nat j = v * 10 ^ N.of_nat i)%N).
  { intros u i v j H. apply (f_equal (fun r => r * powerRZ 10 (Z.of_nat i + Z.of_nat j))%R) in H. rewrite !Rmult_assoc, <- !ten_add in H.
    replace (- Z.of_nat i + (Z.of_nat i + Z.of_nat j)) with (Z.of_nat j) in H by lia.
    replace (- Z.of_nat j + (Z.of_nat i + Z.of_nat j)) with (Z.of_nat i) in H by lia.
    rewrite !powerRZ_pos_IZR, <- !mult_IZR in H by lia. apply eq_IZR in H. apply N2Z.inj. rewrite !N2Z.inj_mul, !N2Z.inj_pow, !nat_N_Z. exact H. }
  assert (Z10 : forall u v i j, (u * 10 ^ N.of_nat j = v * 10 ^ N.of_nat i)%N -> (i < j)%nat -> (v mod 10 = 0)%N).
  { intros u v i j H L. replace (N.of_nat j) with (N.of_nat (j - i - 1) + 1 + N.of_nat i)%N in H by lia. rewrite !N.pow_add_r in H.
    rewrite !N.mul_assoc in H. apply N.mul_cancel_r in H; [|apply N.pow_nonzero; lia]. rewrite <- H. change (10 ^ 1)%N with 10%N. apply N.mod_mul. lia. }
  assert (P0 : forall u, (IZR (Z.of_N u) * powerRZ 10 0 = IZR (Z.of_N u) * powerRZ 10 (- Z.of_nat 0))%R) by reflexivity.
  intros H H' E. destruct H as [d W|d f W F]; destruct H' as [d' W'|d' f' W' F'].
  - apply (K _ 0%nat _ 0%nat) in E. rewrite !N.mul_1_r in E. apply whole_unique; auto.
  - apply (K _ 0%nat _ _) in E. exfalso. apply (fraction_last d' f' F'). apply (Z10 (numeral d) _ 0%nat (List.length f')); auto.
    destruct F' as [_ (r & c & -> & _)]. rewrite app_length. cbn. lia.
  - apply (K _ _ _ 0%nat) in E. exfalso. apply (fraction_last d f F). apply (Z10 (numeral d') _ 0%nat (List.length f)); auto.
    destruct F as [_ (r & c & -> & _)]. rewrite app_length. cbn. lia.
  - apply K in E. assert (L : List.length f = List.length f').
    { destruct (Nat.lt_trichotomy (List.length f) (List.length f')) as [L|[L|L]]; auto; exfalso.
      - apply (fraction_last d' f' F'). eapply Z10; eauto.
      - apply (fraction_last d f F). eapply Z10; [symmetry|]; eauto. }
    rewrite L in E. apply N.mul_cancel_r in E; [|apply N.pow_nonzero; lia]. rewrite !numeral_split in E. rewrite L in E.
    assert (B := numeral_bound f (proj1 F)). assert (B' := numeral_bound f' (proj1 F')). rewrite L in B.
    assert (Q : numeral d = numeral d') by nia. assert (Q' : numeral f = numeral f') by nia.
    f_equal; [apply whole_unique; auto|]. f_equal. apply numeral_inj; auto; [apply F|apply F'].
Qed.
(* ---- the text of fmt_f64 ---- *)
Lemma unsigned_digits d k : 0 < d -> d mod 10 <> 0 -> exists m' e', plain_digits (unsigned_fmt d k) m' e' /\
  dec_val false m' e' = dec_val false (Z.to_N d) k /\ exists j, m' = (Z.to_N d * 10 ^ j)%N.
Proof.
  intros P M. unfold unsigned_fmt. assert (DD : all_digits (fmt_N (Z.to_N d))) by apply uint_digits. assert (NM := fmt_N_numeral (Z.to_N d)).
  destruct (fmt_N_starts (Z.to_N d) ltac:(lia)) as (c & r & ES & C).
  destruct (fmt_N_ends (Z.to_N d)) as (r' & c' & EE & C').
  { intro Q. apply M. apply (f_equal Z.of_N) in Q. rewrite N2Z.inj_mod, Z2N.id in Q by lia. exact Q. }
  set (ds := fmt_N (Z.to_N d)) in *. set (n := Z.of_nat (List.length ds)). cbv zeta.
  destruct (Z.leb_spec 0 k) as [K|K]; [|destruct (Z.ltb_spec 0 (n + k)) as [L|L]].
  - do 2 eexists. split; [apply pd_whole|].
    + split; [apply Forall_app; split; [exact DD|apply zeros_digits]|]. right. exists c. rewrite ES. eexists. split; [reflexivity|exact C].
    + rewrite numeral_zeros_after, NM. split; [|exists (N.of_nat (Z.to_nat k)); reflexivity]. unfold dec_val. cbn [signed]. rewrite (powerRZ_pos_IZR k K).
      rewrite N2Z.inj_mul, N2Z.inj_pow, mult_IZR. rewrite nat_N_Z, Z2Nat.id by auto. cbn [powerRZ]. ring_simplify. reflexivity.
  - do 2 eexists. split; [apply (pd_point (firstn (Z.to_nat (n + k)) ds) (skipn (Z.to_nat (n + k)) ds))|].
    + rewrite <- (firstn_skipn (Z.to_nat (n + k)) ds) in DD. apply Forall_app in DD. destruct DD as [D1 D2]. split; [assumption|].
      right. exists c. rewrite ES. destruct (Z.to_nat (n + k)) as [|i] eqn:I; [lia|]. cbn [firstn]. eexists. split; [reflexivity|exact C].
    + rewrite <- (firstn_skipn (Z.to_nat (n + k)) ds) in DD. apply Forall_app in DD. destruct DD as [D1 D2]. split; [assumption|].
      rewrite EE. assert (LL : List.length ds = S (List.length r')) by (rewrite EE, app_length; cbn; lia).
      rewrite skipn_app. replace (Z.to_nat (n + k) - List.length r')%nat with O by (unfold n in *; lia). cbn [skipn]. eexists. eexists. split; [reflexivity|exact C'].
    + rewrite firstn_skipn, NM. split; [|exists 0%N; rewrite N.mul_1_r; reflexivity]. f_equal. rewrite skipn_length. unfold n in *. lia.
  - do 2 eexists. split; [apply (pd_point [48%N] (repeat 48%N (Z.to_nat (- (n + k))) ++ ds))|].
    + split; [constructor; [lia|constructor]|left; reflexivity].
    + split; [apply Forall_app; split; [apply zeros_digits|exact DD]|]. rewrite EE, app_assoc. eexists. eexists. split; [reflexivity|exact C'].
    + rewrite (numeral_app [48%N]). change (numeral [48%N]) with 0%N.
      change (fold_left (fun v c => 10 * v + (c - 48))%N (repeat 48%N (Z.to_nat (- (n + k))) ++ ds) 0%N) with (numeral (repeat 48%N (Z.to_nat (- (n + k))) ++ ds)).
      rewrite numeral_zeros_before, NM. split; [|exists 0%N; rewrite N.mul_1_r; reflexivity]. f_equal. rewrite app_length, repeat_length. unfold n in *. lia.
Qed.
Lemma decimal_plain b m e : Rabs (decimal_value b m e) = (IZR (Z.of_N m) * powerRZ 10 e)%R.
Proof.
  rewrite <- dec_val_spec. unfold dec_val. rewrite Rabs_mult. rewrite (Rabs_pos_eq (powerRZ 10 e)) by apply Rlt_le, ten_pos. f_equal.
  destruct b; cbn [signed]; rewrite ?opp_IZR, ?Rabs_Ropp; apply Rabs_pos_eq; apply (IZR_le 0); lia.
Qed.
Lemma zero_digits s m e : plain_digits s m e -> m = 0%N -> s = [48%N].
Proof.
  intros [d W|d f W F] M.
  - apply (whole_unique d [48%N]); auto. split; [constructor; [lia|constructor]|left; reflexivity].
  - exfalso. apply (fraction_last d f F). rewrite M. reflexivity.
Qed.
Lemma fits_mul n a j : fits n a -> fits n (a * 10 ^ j).
Proof. intros (c & i & -> & B). exists c, (i + j)%N. split; auto. rewrite N.pow_add_r. ring. Qed.
(* more digits than needed are not written, and no nearer number has as few *)
Lemma fmt_nearest s m e : let x := S754_finite s m e in valid x ->
  exists m0 e0 n0, plain_value (fmt_f64 x) s m0 e0 /\ rounded (decimal_value s m0 e0) s x /\ fits n0 m0 /\
    forall neg' m' e', correctly_rounded (decimal_value neg' m' e') x ->
      (forall n', fits n' m' -> (n0 <= n')%nat) /\
      (fits n0 m' -> (Rabs (val x - decimal_value s m0 e0) <= Rabs (val x - decimal_value neg' m' e'))%R).
Proof.
  intros x V. destruct (shortest m e) as [d k] eqn:S. destruct (shortest_facts m e d k V S) as (P & M & CR & K).
  destruct (unsigned_digits d k P M) as (m0 & e0 & T & W & j & EJ).
  assert (DV : forall b, decimal_value b m0 e0 = ((if b then -1 else 1) * (IZR d * powerRZ 10 k))%R).
  { intro b. assert (W' : (IZR (Z.of_N m0) * powerRZ 10 e0 = IZR d * powerRZ 10 k)%R).
    { unfold dec_val in W. cbn [signed] in W. rewrite (Z2N.id d) in W by lia. exact W. }
    unfold decimal_value. rewrite <- W'. destruct b; ring. }
  assert (D0 : (0 < IZR d * powerRZ 10 k)%R) by (apply Rmult_lt_0_compat; [apply (IZR_lt 0); auto|apply ten_pos]).
  exists m0, e0, (List.length (fmt_N (Z.to_N d))). split; [|split; [|split]].
  - unfold x. rewrite fmt_finite, S. cbn [fst snd]. destruct s; [apply pv_minus|apply pv_plus]; exact T.
  - assert (RX : correctly_rounded (decimal_value s m0 e0) x).
    { apply rounded_correct; auto. apply correct_rnd in CR; [|reflexivity]. rewrite DV. unfold x. destruct s.
      - replace (-1 * (IZR d * powerRZ 10 k))%R with (- (IZR d * powerRZ 10 k))%R by ring. rewrite round_NE_opp, <- CR.
        rewrite Rlt_bool_true; [|rewrite Rabs_Ropp; apply valid_lt_emax; auto]. split; [|reflexivity]. rewrite <- !val_real. cbn [val]. rewrite <- (Pos2Z.opp_pos m), opp_IZR. ring.
      - rewrite Rmult_1_l, <- CR. rewrite Rlt_bool_true; [split; reflexivity|apply valid_lt_emax; auto]. }
    split; [exact RX|]. rewrite DV. destruct s; unfold x; cbn [negative]; repeat split; intros; auto; lra.
  - rewrite EJ. apply fits_mul. exists (Z.to_N d), 0%N. split; [rewrite N.mul_1_r; reflexivity|apply fmt_N_high].
  - assert (LO : 10 ^ (Z.of_nat (List.length (fmt_N (Z.to_N d))) - 1) <= d).
    { assert (L := fmt_N_low (Z.to_N d) ltac:(lia)). apply N2Z.inj_le in L. rewrite N2Z.inj_pow, Z2N.id, nat_N_Z in L by lia.
      assert (NE := proj2 (fmt_N_canonical (Z.to_N d))). destruct (fmt_N (Z.to_N d)) as [|c r]; [congruence|]. cbn [List.length] in *.
      replace (Z.of_nat (Datatypes.S (List.length r)) - 1) with (Z.of_nat (Datatypes.S (List.length r) - 1)) by lia. exact L. }
    assert (NZ : (0 < List.length (fmt_N (Z.to_N d)))%nat).
    { assert (NE := proj2 (fmt_N_canonical (Z.to_N d))). destruct (fmt_N (Z.to_N d)); [congruence|cbn; lia]. }
    set (n0 := List.length (fmt_N (Z.to_N d))) in *.
    intros neg' m' e' C. assert (CA := abs_rounded _ _ _ _ C). rewrite decimal_plain in CA.
    assert (EQ : forall c i, m' = (c * 10 ^ i)%N -> (IZR (Z.of_N m') * powerRZ 10 e' = IZR (Z.of_N c) * powerRZ 10 (Z.of_N i + e'))%R).
    { intros c i ->. rewrite ten_add, (powerRZ_pos_IZR (Z.of_N i)) by lia. rewrite <- Rmult_assoc, <- mult_IZR. do 2 f_equal. rewrite N2Z.inj_mul, N2Z.inj_pow. reflexivity. }
    split.
    + intros n' (c & i & E & B). rewrite (EQ c i E) in CA. assert (Q := K (Z.of_N c) (Z.of_N i + e') (Z.of_nat n0 - 1) ltac:(lia) ltac:(lia) CA LO).
      apply N2Z.inj_lt in B. rewrite N2Z.inj_pow, nat_N_Z in B. change (Z.of_N 10) with 10 in B.
      assert (B2 : 10 ^ (Z.of_nat n0 - 1) < 10 ^ Z.of_nat n') by lia. apply (Z.pow_lt_mono_r_iff 10) in B2; lia.
    + intros (c & i & E & B). rewrite (EQ c i E) in CA. apply N2Z.inj_lt in B. rewrite N2Z.inj_pow, nat_N_Z in B. change (Z.of_N 10) with 10 in B.
      assert (Q := shortest_near m e d k V S (Z.of_N c) (Z.of_N i + e') (Z.of_nat n0) ltac:(lia) ltac:(lia) B LO CA).
      rewrite <- (EQ c i E) in Q.
      assert (VX : val x = ((if s then -1 else 1) * real (S754_finite false m e))%R).
      { rewrite <- (val_real (S754_finite false m e)). unfold x. destruct s; cbn [val]; [rewrite <- (Pos2Z.opp_pos m), opp_IZR|]; ring. }
      assert (RP : (0 < real (S754_finite false m e))%R).
      { rewrite <- (val_real (S754_finite false m e)). cbn [val]. apply Rmult_lt_0_compat; [apply (IZR_lt 0); reflexivity|apply powerRZ_lt; lra]. }
      rewrite VX, DV. 
      assert (A1 : Rabs ((if s then -1 else 1) * real (S754_finite false m e) - (if s then -1 else 1) * (IZR d * powerRZ 10 k)) =
                   Rabs (real (S754_finite false m e) - IZR d * powerRZ 10 k)).
      { destruct s; [|f_equal; ring]. rewrite <- (Rabs_Ropp (real _ - _)). f_equal. ring. }
      rewrite A1. eapply Rle_trans; [exact Q|]. rewrite <- (decimal_plain neg' m' e'). generalize (decimal_value neg' m' e'). intro w.
      assert (A2 : real (S754_finite false m e) = Rabs ((if s then -1 else 1) * real (S754_finite false m e))).
      { rewrite Rabs_mult, (Rabs_pos_eq (real _)) by lra. destruct s; [rewrite Rabs_left1 by lra|rewrite Rabs_pos_eq by lra]; ring. }
      rewrite A2 at 1. apply Rabs_triang_inv2.
Qed.
Lemma plain_split w b m e : plain_value w b m e -> exists d, plain_digits d m e /\ w = sign_str b ++ d.
Proof. intros [s m' e' H|s m' e' H]; exists s; split; auto. Qed.
Lemma number_text_unique x s : valid x -> finite x -> number_text x s -> s = fmt_f64 x.
Proof.
  intros V F (neg & m & e & n & PV & RD & FT & ALL).
  destruct (plain_split _ _ _ _ PV) as (t & PD & ->). destruct F as [[sg ->]|(sg & mm & ee & ->)].
  - (* zero *)
    assert (C0 : correctly_rounded (decimal_value false 0 0) (S754_zero sg)).
    { replace (decimal_value false 0 0) with 0%R by (unfold decimal_value; ring). apply rounded_correct; [reflexivity|].
      rewrite round_0 by auto with typeclass_instances. rewrite Rabs_R0, Rlt_bool_true by (apply bpow_gt_0). split; reflexivity. }
    destruct (ALL _ _ _ C0) as [A1 _]. assert (n = O) by (assert (n <= 0)%nat; [apply A1; exists 0%N, 0%N; split; reflexivity|lia]). subst n.
    destruct FT as (c & i & E & B). assert (c = 0%N) by (cbn in B; lia). subst c. rewrite N.mul_0_l in E.
    assert (v0 : decimal_value neg m e = 0%R) by (rewrite E; unfold decimal_value; destruct neg; cbn; ring).
    destruct RD as (_ & _ & _ & R0). specialize (R0 v0). cbn [negative] in R0. rewrite (zero_digits t m e PD E). subst sg. reflexivity.
  - destruct (fmt_nearest sg mm ee V) as (m0 & e0 & n0 & P0 & R0 & F0 & A0).
    destruct RD as [CR [RN [RP RZ]]]. destruct (A0 _ _ _ CR) as [L0 N0]. destruct R0 as [CR0 [RN0 [RP0 RZ0]]]. destruct (ALL _ _ _ CR0) as [L1 N1].
    assert (n = n0) by (specialize (L0 n FT); specialize (L1 n0 F0); lia). subst n.
    assert (VE : decimal_value sg m0 e0 = decimal_value neg m e).
    { destruct (N1 F0) as [E|E]; auto. specialize (N0 FT). exfalso. exact (Rlt_not_le _ _ E N0). }
    assert (NZ : decimal_value neg m e <> 0%R).
    { intro Z. rewrite Z in CR. apply correct_rnd in CR; [|reflexivity]. rewrite round_0 in CR by auto with typeclass_instances.
      rewrite <- val_real in CR. cbn [val] in CR. apply Rmult_integral in CR. destruct CR as [CR|CR]; [apply (eq_IZR _ 0) in CR; destruct sg; discriminate|].
      revert CR. apply Rgt_not_eq. apply powerRZ_lt. lra. }
    assert (NG : neg = sg).
    { assert (SN : forall b u v, decimal_value b u v <> 0%R -> if b then (decimal_value b u v < 0)%R else (0 < decimal_value b u v)%R).
      { intros b u v Z. assert (A : (0 <= IZR (Z.of_N u) * powerRZ 10 v)%R) by (apply Rmult_le_pos; [apply (IZR_le 0); lia|apply Rlt_le, ten_pos]).
        unfold decimal_value in *. destruct b; lra. }
      assert (S1 := SN _ _ _ NZ). rewrite <- VE in NZ. assert (S2 := SN _ _ _ NZ). rewrite VE in S2. destruct neg, sg; auto; lra. }
    subst neg. destruct (plain_split _ _ _ _ P0) as (t0 & PD0 & ->). f_equal. apply (digits_unique _ _ _ _ _ _ PD PD0). rewrite <- (decimal_plain sg m e), <- (decimal_plain sg m0 e0), VE. reflexivity.
Qed.

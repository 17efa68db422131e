(* C67-C69: arithmetic on doubles, reading and writing them. *)
From Flocq Require Import Core BinarySingleNaN.
Require Import Ascii String Bool List NArith ZArith Lia Reals Lra Psatz.
Require Import Coq.Floats.SpecFloat.
From Verif Require Import Str StrFacts Sax Dom Lexer Parser Num Item Func Eval EvalFacts SpecOper ItemFacts PropOper SpecFunc FuncFacts
  SpecInt IntFacts FloatFacts SpecNum PropNum SpecDbl FloatRound FloatText FloatPrint FloatShort FloatArith SpecExpr PropParse PropInt.
Import List ListNotations.
Open Scope Z_scope.

(* ------------------------------------------------------------------ operands *)
Lemma int_to_dbl_correct z : correctly_rounded (IZR z) (int_to_dbl z).
Proof.
  unfold int_to_dbl. destruct (fmt_i64_notation z) as (d & D & N & C & H).
  assert (T : forall d, all_digits d -> d <> [] -> unsigned_text (d ++ lit ".0") (numeral d * 10) (-1)).
  { intros d' D' N'. change (lit ".0") with (46%N :: [48%N]). apply ut_mantissa.
    assert (E : numeral (d' ++ [48%N]) = (numeral d' * 10)%N) by (rewrite numeral_app; cbn [fold_left]; lia).
    rewrite <- E. apply (mt_point d' [48%N]); auto; [constructor; [lia|constructor]|destruct d'; discriminate]. }
  assert (V : forall b n, dec_val b (n * 10) (-1) = IZR (signed b (Z.of_N n))).
  { intros b n. unfold dec_val. rewrite powerRZ_neg_IZR by lia. change (10 ^ - -1) with 10. rewrite N2Z.inj_mul. change (Z.of_N 10) with 10.
    destruct b; cbn [signed]; rewrite ?opp_IZR, mult_IZR; field. }
  destruct H as [(P & E & M)|(P & E & M)]; rewrite E.
  - rewrite (atof_text _ false (numeral d * 10) (-1)) by (apply dt_plain, T; auto).
    destruct (dec_to_f64_correct false (numeral d * 10) (-1)) as [R _]. rewrite V in R. cbn [signed] in R. rewrite M in R. exact R.
  - rewrite (atof_text _ true (numeral d * 10) (-1)) by (cbn [app]; apply dt_minus, T; auto).
    destruct (dec_to_f64_correct true (numeral d * 10) (-1)) as [R _]. rewrite V in R. cbn [signed] in R. rewrite M, Z.opp_involutive in R. exact R.
Qed.
Lemma i64_to_f64_correct z : correctly_rounded (IZR z) (i64_to_f64 z).
Proof.
  unfold i64_to_f64, f_of_Z. assert (V : F2R (Float radix2 z 0) = IZR z) by (unfold F2R; cbn; ring).
  rewrite binary_normalize_equiv. apply rounded_correct; [apply valid_B2SF|].
  assert (C := binary_normalize_correct prec64 emax64 _ _ mode_NE z 0 false). cbn [round_mode] in C. rewrite V in C.
  rewrite SF2R_B2SF, is_finite_SF_B2SF. destruct (Rlt_bool (Rabs _) _); [tauto|]. rewrite C. reflexivity.
Qed.
Lemma operand_promote it a : rank it <> None -> operand it a -> is_f64 a -> finite a ->
  valid (promote it) /\ is_finite_SF (promote it) = true /\ val (promote it) = val a.
Proof.
  intros R O V F. destruct it; try (destruct R; reflexivity); cbn [operand promote] in *.
  - assert (C := int_to_dbl_correct z). unfold int_to_dbl in C. destruct (correctly_rounded_unique _ _ _ C O) as [(F1 & _ & E)|E].
    + split; [apply C|]. split; [apply finite_iff; auto|auto].
    + rewrite E. split; [exact V|]. split; [apply finite_iff; auto|reflexivity].
  - subst. split; [exact V|]. split; [apply finite_iff; auto|reflexivity].
  - subst. split; [exact V|]. split; [apply finite_iff; auto|reflexivity].
Qed.

(* ------------------------------------------------------------------ C67 *)
Definition real_op (o : arith) (a b : R) : R := match o with PropOper.Add => a + b | PropOper.Sub => a - b | PropOper.Mul => a * b | _ => a / b end%R.
(* +, - and * of two numbers that are not both integers: the correctly rounded result *)
Theorem C67_add_sub_mul : forall o h c A B e x y e2 nm rx ry a b, operands h c A B e [x] [y] e2 ->
  o = PropOper.Add \/ o = PropOper.Sub \/ o = PropOper.Mul -> rank x = Some rx -> rank y = Some ry -> (0 < Nat.max rx ry)%nat ->
  operand x a -> operand y b -> is_f64 a -> is_f64 b -> finite a -> finite b ->
  exists v d, outcome h c (XNode (arith_node o) nm A B) e (Ok ([v], e2)) /\
    result (Nat.max rx ry) d v /\ correctly_rounded (real_op o (val a) (val b)) d.
Proof.
  intros o h c A B e x y e2 nm rx ry a b O H RX RY M OX OY Va Vb Fa Fb.
  destruct (operand_promote x a) as (VX & FX & EX); auto; [congruence|]. destruct (operand_promote y b) as (VY & FY & EY); auto; [congruence|].
  destruct (C26_promotion o h c A B e x y e2 nm rx ry O H RX RY M) as (v & E & R & AF).
  assert (K : result (Nat.max rx ry) (as_f64 v) v).
  { destruct v; cbn in R; inversion R as [R']; try (rewrite <- R' in M; lia); [left|right]; auto. }
  exists v, (as_f64 v). split; [exact E|]. split; [exact K|]. rewrite AF, <- EX, <- EY.
  destruct H as [->|[->| ->]]; cbn [real_op float_op]; [apply fadd_correct|apply fsub_correct|apply fmul_correct]; auto.
Qed.
Lemma div_zero b : valid b -> is_finite_SF b = true -> (feqb b f_zero = true <-> val b = 0%R).
Proof. intros V F. rewrite (eqb_real b f_zero) by auto. rewrite val_real. reflexivity. Qed.
(* div: a decimal for integers and decimals, a double if there is one; the correctly rounded quotient *)
Theorem C67_div : forall h c A B e x y e2 nm rx ry a b, operands h c A B e [x] [y] e2 ->
  rank x = Some rx -> rank y = Some ry ->
  operand x a -> operand y b -> is_f64 a -> is_f64 b -> finite a -> finite b -> val b <> 0%R ->
  exists v d, outcome h c (XNode X_OperatorDiv nm A B) e (Ok ([v], e2)) /\
    result (Nat.max 1 (Nat.max rx ry)) d v /\ correctly_rounded (val a / val b) d.
Proof.
  intros h c A B e x y e2 nm rx ry a b O RX RY OX OY Va Vb Fa Fb N.
  destruct (operand_promote x a) as (VX & FX & EX); auto; [congruence|].
  assert (K : exists y', valid y' /\ is_finite_SF y' = true /\ val y' = val b /\
              xitem_numeric_divide x y = Ok (match Nat.max 1 (Nat.max rx ry) with 1%nat => XIDecimal | _ => XIDouble end (fdiv (promote x) y'))).
  { destruct y as [| |z|f|f| | | |]; try discriminate; cbn [rank] in RY; inversion RY; subst; cbn [operand] in OY.
    - assert (C := i64_to_f64_correct z). exists (i64_to_f64 z).
      assert (P : valid (i64_to_f64 z) /\ is_finite_SF (i64_to_f64 z) = true /\ val (i64_to_f64 z) = val b).
      { destruct (correctly_rounded_unique _ _ _ C OY) as [(F1 & _ & E)|E].
        - split; [apply C|]. split; [apply finite_iff; auto|auto].
        - rewrite E. split; [exact Vb|]. split; [apply finite_iff; auto|reflexivity]. }
      destruct P as (P1 & P2 & P3). split; auto. split; auto. split; auto.
      unfold xitem_numeric_divide. replace (z =? 0) with false.
      + cbn [bind]. destruct x; cbn [rank] in RX; inversion RX; reflexivity.
      + symmetry. apply Z.eqb_neq. intros ->. apply N. rewrite <- P3. reflexivity.
    - exists f. subst. split; [exact Vb|]. apply finite_iff in Fb. split; [exact Fb|]. split; [reflexivity|].
      unfold xitem_numeric_divide. replace (feqb f f_zero) with false.
      + cbn [bind]. destruct x; cbn [rank] in RX; inversion RX; reflexivity.
      + symmetry. apply not_true_is_false. intro Q. apply N. apply div_zero; auto.
    - exists f. subst. split; [exact Vb|]. apply finite_iff in Fb. split; [exact Fb|]. split; [reflexivity|].
      unfold xitem_numeric_divide. cbn [bind]. destruct x; cbn [rank] in RX; inversion RX; reflexivity. }
  destruct K as (y' & VY & FY & EY & K). eexists. exists (fdiv (promote x) y'). split.
  - apply (outcome_arith PropOper.Div h c A B e [x] [y] e2 nm (Ok [_]) O); [|discriminate].
    unfold op_numeric_operation. cbn [get_singleton_item bind arith_fn]. rewrite K. reflexivity.
  - split.
    + unfold result. assert (rx <= 2 /\ ry <= 2)%nat by (destruct x; cbn in RX; inversion RX; destruct y; cbn in RY; inversion RY; lia).
      destruct (Nat.max 1 (Nat.max rx ry)) as [|[|[|]]] eqn:Q; try lia; auto.
    + rewrite <- EX, <- EY. apply fdiv_correct; auto. rewrite <- val_real, EY. exact N.
Qed.
(* mod: exactly x - y * trunc(x / y) *)
Theorem C67_mod : forall h c A B e x y e2 nm rx ry a b, operands h c A B e [x] [y] e2 ->
  rank x = Some rx -> rank y = Some ry -> (0 < Nat.max rx ry)%nat ->
  operand x a -> operand y b -> is_f64 a -> is_f64 b -> finite a -> finite b -> val b <> 0%R ->
  exists v d q, outcome h c (XNode X_OperatorMod nm A B) e (Ok ([v], e2)) /\
    result (Nat.max rx ry) d v /\ finite d /\ val d = (val a - IZR q * val b)%R /\
    (Rabs (val d) < Rabs (val b))%R /\ (0 <= val d * val a)%R.
Proof.
  intros h c A B e x y e2 nm rx ry a b O RX RY M OX OY Va Vb Fa Fb N.
  destruct (operand_promote x a) as (VX & FX & EX); auto; [congruence|]. destruct (operand_promote y b) as (VY & FY & EY); auto; [congruence|].
  assert (K : xitem_numeric_mod x y = Ok (match Nat.max rx ry with 1%nat => XIDecimal | _ => XIDouble end (frem (promote x) (promote y)))).
  { unfold xitem_numeric_mod.
    assert (Z0 : (match y with XIInteger b0 => b0 =? 0 | XIDecimal b0 => feqb b0 f_zero | _ => false end) = false).
    { destruct y as [| |z|f|f| | | |]; auto; cbn [operand promote] in *.
      - apply Z.eqb_neq. intros ->. apply N. rewrite <- EY. reflexivity.
      - apply not_true_is_false. intro Q. apply N. subst. apply div_zero; auto. }
    rewrite Z0. destruct x; cbn [rank] in RX; inversion RX; subst; destruct y; cbn [rank] in RY; inversion RY; subst; try (cbn in M; lia); reflexivity. }
  assert (NB : real (promote y) <> 0%R) by (rewrite <- val_real, EY; exact N).
  destruct (frem_exact _ _ VX VY FX FY NB) as (V & F & R).
  eexists. exists (frem (promote x) (promote y)), (Ztrunc (real (promote x) / real (promote y))).
  split; [apply (outcome_arith PropOper.Mod h c A B e [x] [y] e2 nm (Ok [_]) O); [|discriminate];
          unfold op_numeric_operation; cbn [get_singleton_item bind arith_fn]; rewrite K; reflexivity|].
  split.
  { unfold result. assert (rx <= 2 /\ ry <= 2)%nat by (destruct x; cbn in RX; inversion RX; destruct y; cbn in RY; inversion RY; lia).
    destruct (Nat.max rx ry) as [|[|[|]]] eqn:Q; try lia; auto. }
  split; [apply finite_iff; exact F|]. rewrite <- EX, <- EY, !val_real. split; [exact R|].
  rewrite R. set (X := real (promote x)) in *. set (Y := real (promote y)) in *.
  assert (XQ : X = (X / Y * Y)%R) by (field; exact NB). set (t := (X / Y)%R) in *.
  assert (T : (Rabs (t - IZR (Ztrunc t)) < 1 /\ 0 <= (t - IZR (Ztrunc t)) * t)%R).
  { destruct (Rle_lt_dec 0 t) as [P|P].
    - rewrite Ztrunc_floor by auto. assert (H := Zfloor_lb t). assert (H' := Zfloor_ub t). split; [rewrite Rabs_pos_eq; lra|]. apply Rmult_le_pos; lra.
    - rewrite Ztrunc_ceil by lra. assert (H := Zceil_ub t). assert (H' := Zceil_lb t). split; [rewrite Rabs_left1; lra|]. nra. }
  rewrite XQ at 1 2. replace (t * Y - IZR (Ztrunc t) * Y)%R with ((t - IZR (Ztrunc t)) * Y)%R by ring. split.
  - rewrite Rabs_mult. assert (0 < Rabs Y)%R by (apply Rabs_pos_lt; auto). nra.
  - rewrite XQ. replace ((t - IZR (Ztrunc t)) * Y * (t * Y))%R with (((t - IZR (Ztrunc t)) * t) * (Y * Y))%R by ring.
    apply Rmult_le_pos; [apply T|]. nra.
Qed.
(* infinities, NaN and division by zero, for two doubles *)
Inductive special : arith -> f64 -> f64 -> f64 -> Prop :=
| sp_nan_l : forall o b, special o S754_nan b S754_nan
| sp_nan_r : forall o a, special o a S754_nan S754_nan
| sp_add_inf_l : forall s b, finite b -> special PropOper.Add (S754_infinity s) b (S754_infinity s)
| sp_add_inf_r : forall s a, finite a -> special PropOper.Add a (S754_infinity s) (S754_infinity s)
| sp_add_inf : forall s, special PropOper.Add (S754_infinity s) (S754_infinity s) (S754_infinity s)
| sp_add_nan : forall s, special PropOper.Add (S754_infinity s) (S754_infinity (negb s)) S754_nan
| sp_sub_inf_l : forall s b, finite b -> special PropOper.Sub (S754_infinity s) b (S754_infinity s)
| sp_sub_inf_r : forall s a, finite a -> special PropOper.Sub a (S754_infinity s) (S754_infinity (negb s))
| sp_sub_inf : forall s, special PropOper.Sub (S754_infinity s) (S754_infinity (negb s)) (S754_infinity s)
| sp_sub_nan : forall s, special PropOper.Sub (S754_infinity s) (S754_infinity s) S754_nan
| sp_mul_inf : forall s t, special PropOper.Mul (S754_infinity s) (S754_infinity t) (S754_infinity (xorb s t))
| sp_mul_inf_l : forall s t m e, special PropOper.Mul (S754_infinity s) (S754_finite t m e) (S754_infinity (xorb s t))
| sp_mul_inf_r : forall s t m e, special PropOper.Mul (S754_finite t m e) (S754_infinity s) (S754_infinity (xorb t s))
| sp_mul_nan_l : forall s t, special PropOper.Mul (S754_infinity s) (S754_zero t) S754_nan
| sp_mul_nan_r : forall s t, special PropOper.Mul (S754_zero s) (S754_infinity t) S754_nan
| sp_div_zero : forall s m e t, special PropOper.Div (S754_finite s m e) (S754_zero t) (S754_infinity (xorb s t))
| sp_div_zero_zero : forall s t, special PropOper.Div (S754_zero s) (S754_zero t) S754_nan
| sp_div_inf_zero : forall s t, special PropOper.Div (S754_infinity s) (S754_zero t) (S754_infinity (xorb s t))
| sp_div_inf_l : forall s t m e, special PropOper.Div (S754_infinity s) (S754_finite t m e) (S754_infinity (xorb s t))
| sp_div_inf_r : forall s t m e, special PropOper.Div (S754_finite s m e) (S754_infinity t) (S754_zero (xorb s t))
| sp_div_nan : forall s t, special PropOper.Div (S754_infinity s) (S754_infinity t) S754_nan
| sp_mod_zero : forall a s, special PropOper.Mod a (S754_zero s) S754_nan
| sp_mod_inf_l : forall s b, special PropOper.Mod (S754_infinity s) b S754_nan
| sp_mod_inf_r : forall a s, finite a -> special PropOper.Mod a (S754_infinity s) a.
Theorem C67_special : forall o h c A B e a b d e2 nm, operands h c A B e [XIDouble a] [XIDouble b] e2 ->
  o <> PropOper.IDiv -> special o a b d -> outcome h c (XNode (arith_node o) nm A B) e (Ok ([XIDouble d], e2)).
Proof.
  intros o h c A B e a b d e2 nm O NI S. apply (outcome_arith o h c A B e _ _ e2 nm (Ok [XIDouble d]) O); [|discriminate].
  unfold op_numeric_operation. cbn [get_singleton_item bind].
  assert (K : arith_fn o (XIDouble a) (XIDouble b) = Ok (XIDouble d)); [|rewrite K; reflexivity].
  destruct S; try (destruct o; try congruence; try reflexivity; destruct a; reflexivity); try reflexivity;
    try (destruct s; reflexivity); try (destruct s, t; reflexivity);
    try (match goal with F : finite _ |- _ => destruct F as [[? ->]|(? & ? & ? & ->)]; reflexivity end);
    try (destruct a as [|[]| |]; reflexivity); try (destruct b; reflexivity).
Qed.
(* division by zero is an error for integers and decimals *)
Theorem C67_division_by_zero : forall o h c A B e x y e2 nm, operands h c A B e [x] [y] e2 ->
  o = PropOper.Div \/ o = PropOper.Mod -> rank x <> None -> y = XIInteger 0 \/ (exists s, y = XIDecimal (S754_zero s)) ->
  outcome h c (XNode (arith_node o) nm A B) e (Err DynamicError).
Proof.
  intros o h c A B e x y e2 nm O H X Y. apply (outcome_arith o h c A B e _ _ e2 nm (Err DynamicError) O); [|discriminate].
  unfold op_numeric_operation. cbn [get_singleton_item bind].
  destruct Y as [->|[s ->]]; destruct H as [-> | ->]; destruct x; try (destruct X; reflexivity); reflexivity.
Qed.
(* decimals are doubles here, so their sums are not exact; and idiv drops the fractions of its operands first *)
Theorem C67_decimal_refuted : forall h n,
  xpath_gives h n (lit "0.1 + 0.2 = 0.3") (Ok [XIBoolean false]) /\
  xpath_gives h n (lit "3 idiv 1.5") (Ok [XIInteger 3]) /\
  xpath_gives h n (lit "5 idiv 0.5") (Err DynamicError).
Proof. intros h n. repeat split; try discriminate; exists 9%nat; vm_compute; reflexivity. Qed.
Example C67_example : exists a b, operand (XIInteger 1) a /\ operand (XIDouble b) b /\ is_f64 a /\ is_f64 b /\ finite a /\ finite b /\
  val b <> 0%R /\ fmt_f64_exp (fdiv a b) = lit "3.333333333333333e-1".
Proof.
  exists (f_of_Z 1), (f_of_Z 3). split; [apply (i64_to_f64_correct 1)|]. split; [reflexivity|]. split; [reflexivity|]. split; [reflexivity|].
  split; [right; do 3 eexists; vm_compute; reflexivity|]. split; [right; do 3 eexists; vm_compute; reflexivity|]. split.
  - change (f_of_Z 3) with (S754_finite false 6755399441055744 (-51)). cbn [val]. apply Rgt_not_eq, Rmult_lt_0_compat; [apply (IZR_lt 0); lia|]. apply powerRZ_lt. lra.
  - vm_compute. reflexivity.
Qed.

(* ------------------------------------------------------------------ C24: numbers *)
Lemma f64_compare x y : valid x -> valid y -> x <> S754_nan -> y <> S754_nan ->
  (SFeqb x y = true <-> same_number x y) /\ (SFltb x y = true <-> less_number x y).
Proof.
  intros Vx Vy Nx Ny. unfold SFeqb, SFltb.
  destruct (is_finite_SF x) eqn:Fx; destruct (is_finite_SF y) eqn:Fy.
  - rewrite compare_real by auto. assert (FX := proj2 (finite_iff x) Fx). assert (FY := proj2 (finite_iff y) Fy).
    assert (IX : forall s, x <> S754_infinity s) by (intros s ->; discriminate). assert (IY : forall s, y <> S754_infinity s) by (intros s ->; discriminate).
    unfold same_number, less_number. destruct (Rcompare_spec (val x) (val y)) as [H|H|H]; split; split; intro Q; try discriminate; auto; exfalso;
      repeat match goal with D : _ \/ _ |- _ => destruct D | D : exists s, _ |- _ => destruct D | D : _ /\ _ |- _ => destruct D end; try lra; try (eapply IX; eassumption); try (eapply IY; eassumption).
  - destruct y as [|t| |]; try discriminate; try congruence. assert (FX := proj2 (finite_iff x) Fx).
    assert (C : SFcompare x (S754_infinity t) = Some (if t then Gt else Lt)) by (destruct x; try discriminate; destruct t; reflexivity).
    rewrite C. unfold same_number, less_number.
    assert (IX : forall s, x <> S754_infinity s) by (intros s ->; discriminate).
    destruct t; split; split; intro Q; try discriminate; auto; exfalso;
      repeat match goal with D : _ \/ _ |- _ => destruct D | D : exists s, _ |- _ => destruct D | D : _ /\ _ |- _ => destruct D end; try discriminate; try (eapply IX; eassumption);
      match goal with D : finite (S754_infinity _) |- _ => apply finite_iff in D; discriminate D end.
  - destruct x as [|t| |]; try discriminate; try congruence. assert (FY := proj2 (finite_iff y) Fy).
    assert (C : SFcompare (S754_infinity t) y = Some (if t then Lt else Gt)) by (destruct y; try discriminate; destruct t; reflexivity).
    rewrite C. unfold same_number, less_number.
    assert (IY : forall s, y <> S754_infinity s) by (intros s ->; discriminate).
    destruct t; split; split; intro Q; try discriminate; auto; exfalso;
      repeat match goal with D : _ \/ _ |- _ => destruct D | D : exists s, _ |- _ => destruct D | D : _ /\ _ |- _ => destruct D end; try discriminate; try (eapply IY; eassumption);
      match goal with D : finite (S754_infinity _) |- _ => apply finite_iff in D; discriminate D end.
  - destruct x as [|s| |]; try discriminate; try congruence. destruct y as [|t| |]; try discriminate; try congruence.
    unfold same_number, less_number. destruct s, t; cbn [SFcompare]; split; split; intro Q; try discriminate; auto; try (right; eexists; split; reflexivity); exfalso;
      repeat match goal with D : _ \/ _ |- _ => destruct D | D : exists s, _ |- _ => destruct D | D : _ /\ _ |- _ => destruct D end; try congruence;
      match goal with D : finite (S754_infinity _) |- _ => apply finite_iff in D; discriminate D end.
Qed.
Lemma f64_total x y : valid x -> valid y -> x <> S754_nan -> y <> S754_nan ->
  exists c, SFcompare x y = Some c /\ SFcompare y x = Some (CompOpp c).
Proof.
  intros Vx Vy Nx Ny. destruct (is_finite_SF x) eqn:Fx; destruct (is_finite_SF y) eqn:Fy.
  - rewrite !compare_real by auto. eexists. split; [reflexivity|]. rewrite Rcompare_sym. reflexivity.
  - destruct y as [|t| |]; try discriminate; try congruence. destruct x; try discriminate; destruct t; eexists; split; reflexivity.
  - destruct x as [|t| |]; try discriminate; try congruence. destruct y; try discriminate; destruct t; eexists; split; reflexivity.
  - destruct x as [|s| |]; try discriminate; try congruence. destruct y as [|t| |]; try discriminate; try congruence.
    destruct s, t; eexists; split; reflexivity.
Qed.
Definition float_rel (op : cmpop) (a b : f64) : bool :=
  match op with
  | CEq => SFeqb a b | CNe => negb (SFeqb a b) | CLt => SFltb a b | CGt => SFltb b a
  | CLe => negb (SFltb b a) | CGe => negb (SFltb a b)
  end.
Lemma float_rel_ok op x y : valid x -> valid y -> x <> S754_nan -> y <> S754_nan -> (float_rel op x y = true <-> rel_number op x y).
Proof.
  intros Vx Vy Nx Ny. destruct (f64_compare x y Vx Vy Nx Ny) as [E L]. destruct (f64_compare y x Vy Vx Ny Nx) as [_ G].
  destruct (f64_total x y Vx Vy Nx Ny) as (c & C1 & C2).
  destruct op; cbn [float_rel rel_number]; rewrite ?negb_true_iff, <- ?E, <- ?L, <- ?G; unfold SFeqb, SFltb; rewrite ?C1, ?C2;
    destruct c; cbn [CompOpp]; intuition congruence.
Qed.
Lemma operand_same it a b : operand it a -> is_f64 a -> (forall z, it = XIInteger z -> b = promote it) -> (forall f, it = XIDecimal f \/ it = XIDouble f -> b = f) ->
  rank it <> None -> valid b /\ (a = b \/ (finite a /\ finite b /\ val a = val b)).
Proof.
  intros O V Z F R. destruct it; try (destruct R; reflexivity); cbn [operand] in O.
  - rewrite (Z z eq_refl). assert (C := int_to_dbl_correct z). split; [apply C|].
    destruct (correctly_rounded_unique _ _ _ O C) as [H|H]; auto.
  - rewrite (F _ (or_introl eq_refl)). subst. auto.
  - rewrite (F _ (or_intror eq_refl)). subst. auto.
Qed.
Lemma promote_same it a : operand it a -> is_f64 a -> rank it <> None ->
  valid (promote it) /\ (a = promote it \/ (finite a /\ finite (promote it) /\ val a = val (promote it))).
Proof.
  intros O V R. apply operand_same with (it := it); auto. intros f [-> | ->]; reflexivity.
Qed.
Lemma same_repl a a' b b' : (a = a' \/ (finite a /\ finite a' /\ val a = val a')) -> (b = b' \/ (finite b /\ finite b' /\ val b = val b')) ->
  (same_number a b <-> same_number a' b') /\ (less_number a b <-> less_number a' b').
Proof.
  assert (NI : forall s, ~ finite (S754_infinity s)) by (intros s F; apply finite_iff in F; discriminate).
  intros HA HB. unfold same_number, less_number.
  destruct HA as [->|(A1 & A2 & A3)]; destruct HB as [->|(B1 & B2 & B3)]; try tauto.
  all: split; split; intro H; repeat match goal with D : _ \/ _ |- _ => destruct D | D : exists s, _ |- _ => destruct D as [? D] | D : _ /\ _ |- _ => destruct D end;
    subst; try (exfalso; eapply NI; eassumption); rewrite ?A3, ?B3 in *; auto 6;
    try (left; repeat split; auto; congruence); try (right; left; auto; fail); try (right; right; auto; fail).
Qed.
(* Numbers that are not both integers and not NaN: the order of the numbers (an integer counts as the double nearest to it) *)
Theorem C24_numbers : forall op h c A B e x y e2 nm rx ry a b, operands h c A B e [x] [y] e2 ->
  rank x = Some rx -> rank y = Some ry -> (0 < Nat.max rx ry)%nat ->
  operand x a -> operand y b -> is_f64 a -> is_f64 b -> a <> S754_nan -> b <> S754_nan ->
  exists r, outcome h c (XNode (value_node op) nm A B) e (Ok ([XIBoolean r], e2)) /\ (r = true <-> rel_number op a b).
Proof.
  intros op h c A B e x y e2 nm rx ry a b O RX RY M OX OY Va Vb Na Nb.
  destruct (promote_same x a OX Va ltac:(congruence)) as [VX SX]. destruct (promote_same y b OY Vb ltac:(congruence)) as [VY SY].
  exists (float_rel op (promote x) (promote y)). split.
  - refine (outcome_value op h c A B e _ _ e2 nm (Ok [XIBoolean _]) O _ _); [|discriminate].
    destruct x; cbn in RX; inversion RX; subst; destruct y; cbn in RY; inversion RY; subst; try (cbn in M; lia); destruct op; reflexivity.
  - rewrite float_rel_ok; auto.
    + destruct (same_repl a (promote x) b (promote y) SX SY) as [S1 L1]. destruct (same_repl b (promote y) a (promote x) SY SX) as [_ L2].
      destruct op; cbn [rel_number]; tauto.
    + destruct SX as [<-|(_ & F & _)]; auto. intro Q. rewrite Q in F. apply finite_iff in F. discriminate.
    + destruct SY as [<-|(_ & F & _)]; auto. intro Q. rewrite Q in F. apply finite_iff in F. discriminate.
Qed.
(* NaN differs from every number; but it is also le and ge every number *)
Theorem C24_nan : forall op h c A B e x y e2 nm rx ry, operands h c A B e [x] [y] e2 ->
  rank x = Some rx -> rank y = Some ry -> (0 < Nat.max rx ry)%nat ->
  x = XIDouble S754_nan \/ y = XIDouble S754_nan ->
  outcome h c (XNode (value_node op) nm A B) e
    (Ok ([XIBoolean match op with CEq | CLt | CGt => false | CNe | CLe | CGe => true end], e2)).
Proof.
  intros op h c A B e x y e2 nm rx ry O RX RY M H.
  refine (outcome_value op h c A B e _ _ e2 nm (Ok [XIBoolean _]) O _ _); [|discriminate].
  assert (N1 : forall f, SFeqb f S754_nan = false) by (intros []; reflexivity). assert (N2 : forall f, SFltb f S754_nan = false) by (intros []; reflexivity).
  assert (N3 : forall f, SFeqb S754_nan f = false) by (intros []; reflexivity). assert (N4 : forall f, SFltb S754_nan f = false) by (intros []; reflexivity).
  destruct x; cbn in RX; inversion RX; subst; destruct y; cbn in RY; inversion RY; subst; try (cbn in M; lia);
    (destruct H as [H|H]; try discriminate; inversion H; subst); destruct op;
    unfold value_fn, value_compare_eq, value_compare_ne, value_compare_le, value_compare_ge, value_compare_lt, value_compare_gt, value_comparison,
      op_numeric_comparison, xitem_numeric_equal, xitem_numeric_less_than, xitem_numeric_greater_than, xitem_numeric_comparison; cbn; unfold fgtb, fltb, feqb;
    rewrite ?N1, ?N2, ?N3, ?N4; try reflexivity.
Qed.
Example C24_numbers_example : eval_xpath 20 [] 0 (lit "1 lt 1.5") = Ok [XIBoolean true] /\ eval_xpath 20 [] 0 (lit "2e0 le 1.5") = Ok [XIBoolean false].
Proof. split; vm_compute; reflexivity. Qed.

(* ------------------------------------------------------------------ C68 *)
(* number() of a text in decimal notation is the double nearest to the number written there *)
Theorem C68_number : forall h c s neg m e, decimal_text s neg m e ->
  exists x, fn_value h c (lit "fn:number") [[XIString s]] (Ok [XIDouble x]) /\
    correctly_rounded (decimal_value neg m e) x /\ sign_SF x = neg.
Proof.
  intros h c s neg m e T. exists (dec_to_f64 neg m e). split.
  - fnv. cbn [fn_number get_as_raw_double bind]. rewrite (atof_text s neg m e T). reflexivity.
  - rewrite <- dec_val_spec. apply dec_to_f64_correct.
Qed.
Theorem C68_number_of_node : forall h c i neg m e, decimal_text (string_value h i) neg m e ->
  exists x, fn_value h c (lit "fn:number") [[XINode i]] (Ok [XIDouble x]) /\ correctly_rounded (decimal_value neg m e) x /\ sign_SF x = neg.
Proof.
  intros h c i neg m e T. exists (dec_to_f64 neg m e). split.
  - fnv. cbn [fn_number get_as_raw_double bind]. rewrite (atof_text _ neg m e T). reflexivity.
  - rewrite <- dec_val_spec. apply dec_to_f64_correct.
Qed.
(* the empty sequence is NaN, true is 1, false is 0, an integer the double nearest to it, doubles stay *)
Theorem C68_number_of_values : forall h c,
  fn_value h c (lit "fn:number") [[]] (Ok [XIDouble S754_nan]) /\
  (forall b : bool, exists x, fn_value h c (lit "fn:number") [[XIBoolean b]] (Ok [XIDouble x]) /\ finite x /\ val x = if b then 1%R else 0%R) /\
  (forall z, exists x, fn_value h c (lit "fn:number") [[XIInteger z]] (Ok [XIDouble x]) /\ correctly_rounded (IZR z) x) /\
  (forall x, fn_value h c (lit "fn:number") [[XIDouble x]] (Ok [XIDouble x]) /\ fn_value h c (lit "fn:number") [[XIDecimal x]] (Ok [XIDouble x])).
Proof.
  intros h c. split; [fnv; reflexivity|]. split; [|split].
  - intro b. exists (if b then f_one else f_zero). split; [fnv; destruct b; reflexivity|]. destruct b.
    + split; [right; do 3 eexists; vm_compute; reflexivity|]. change f_one with (S754_finite false 4503599627370496 (-52)).
      rewrite val_real. rewrite real_neg by lia. cbn [signed]. change (Z.pos 4503599627370496) with (2 ^ (- - 52)). field. apply Rgt_not_eq, (IZR_lt 0). reflexivity.
    + split; [left; eexists; reflexivity|reflexivity].
  - intro z. exists (i64_to_f64 z). split; [fnv; reflexivity|apply i64_to_f64_correct].
  - intro x. split; fnv; reflexivity.
Qed.
(* a decimal or double literal is the double nearest to the number written there *)
Theorem C68_literal : forall h n k s neg m e, lexical k s -> k = L_decimal \/ k = L_double -> decimal_text s neg m e ->
  exists x, xpath_gives h n (source (ELit k s)) (Ok [match k with L_decimal => XIDecimal x | _ => XIDouble x end]) /\
    correctly_rounded (decimal_value neg m e) x.
Proof.
  intros h n k s neg m e L K T. exists (dec_to_f64 neg m e). split; [|rewrite <- dec_val_spec; apply dec_to_f64_correct].
  destruct K as [-> | ->]; (apply text_gives; [exact L|discriminate|]); intros x R.
  - exists (Ok ([XIDecimal (dec_to_f64 neg m e)], new_eval_env)). split; [|reflexivity].
    eapply reads_lit; eauto. intro f. rewrite eval_S. unfold eval_step, leaf. cbn [x_type lnode x_name]. rewrite (atof_text s neg m e T). reflexivity.
  - exists (Ok ([XIDouble (dec_to_f64 neg m e)], new_eval_env)). split; [|reflexivity].
    eapply reads_lit; eauto. intro f. rewrite eval_S. unfold eval_step, leaf. cbn [x_type lnode x_name]. rewrite (atof_text s neg m e T). reflexivity.
Qed.
(* and every such literal is in decimal notation *)
Lemma digits_all_digits s : digits s -> all_digits s.
Proof. intro D. apply digits_all. exact D. Qed.
Theorem C68_literal_text : forall k s, lexical k s -> k = L_decimal \/ k = L_double -> exists m e, decimal_text s false m e.
Proof.
  intros k s L K. destruct L as [s N|s N D|a b A DA DB|a b A DA B DB|a b c A DA DB C DC]; try (destruct K; discriminate).
  - do 2 eexists. apply dt_plain, ut_mantissa, mt_point; try (apply digits_all_digits; assumption). destruct a; [congruence|discriminate].
  - do 2 eexists. apply dt_plain. eapply ut_exponent; [apply mt_whole; [apply digits_all_digits; auto|auto]|left; reflexivity|].
    apply et_plain; [apply digits_all_digits; auto|auto].
  - do 2 eexists. apply dt_plain. change (46%N :: b ++ 101%N :: c) with ((46%N :: b) ++ 101%N :: c). rewrite app_assoc.
    eapply ut_exponent; [apply mt_point; [apply digits_all_digits; auto|apply digits_all_digits; auto|destruct a; [congruence|discriminate]]|left; reflexivity|].
    apply et_plain; [apply digits_all_digits; auto|auto].
Qed.

(* the same for a cast of a string to xs:double or xs:decimal *)
Lemma digits_no_nul d : all_digits d -> ~ In 0%N d.
Proof. unfold all_digits. rewrite Forall_forall. intros D I. apply D in I. lia. Qed.
Lemma mantissa_no_nul s m e : mantissa_text s m e -> ~ In 0%N s.
Proof.
  intros [d D N|a b A B N]; [apply digits_no_nul; auto|]. intro I. apply in_app_or in I. destruct I as [I|[I|I]]; [exact (digits_no_nul _ A I)|discriminate I|exact (digits_no_nul _ B I)].
Qed.
Lemma exponent_no_nul s k : exponent_text s k -> ~ In 0%N s.
Proof. intros [d D N|d D N|d D N]; [apply digits_no_nul; auto| |]; (intros [I|I]; [discriminate I|exact (digits_no_nul _ D I)]). Qed.
Lemma unsigned_no_nul s m e : unsigned_text s m e -> ~ In 0%N s.
Proof.
  intros [s' m' e' M|s' m' e' c t k M C T]; [eapply mantissa_no_nul; eauto|]. intro I. apply in_app_or in I.
  destruct I as [I|[I|I]]; [eapply mantissa_no_nul; eauto|subst; destruct C; discriminate|eapply exponent_no_nul; eauto].
Qed.
Lemma decimal_no_nul s b m e : decimal_text s b m e -> ~ In 0%N s.
Proof.
  induction 1 as [s m e U|s m e U|s m e U|c s b m e C T IH|c s b m e C T IH].
  - eapply unsigned_no_nul; eauto.
  - intros [I|I]; [discriminate I|eapply unsigned_no_nul; eauto].
  - intros [I|I]; [discriminate I|eapply unsigned_no_nul; eauto].
  - intros [->|I]; [|auto]. cbn in C. intuition discriminate.
  - intro I. apply in_app_or in I. destruct I as [I|[->|[]]]; auto. cbn in C. intuition discriminate.
Qed.
Theorem C68_cast : forall h n s neg m e, decimal_text s neg m e -> exists x, correctly_rounded (decimal_value neg m e) x /\
  xpath_gives h n (source (ECast false (ELit L_string s) (lit "double"))) (Ok [XIDouble x]) /\
  xpath_gives h n (source (ECast false (ELit L_string s) (lit "decimal"))) (Ok [XIDecimal x]).
Proof.
  intros h n s neg m e T. exists (dec_to_f64 neg m e). split; [rewrite <- dec_val_spec; apply dec_to_f64_correct|]. assert (NZ := decimal_no_nul _ _ _ _ T).
  split; (apply text_gives; [split; [constructor; auto|pname]|discriminate|]); intros x R.
  - exists (Ok ([XIDouble (dec_to_f64 neg m e)], new_eval_env)). split; [|reflexivity].
    eapply reads_bare; eauto. intros y Y [P|P]; [|discriminate P]. inversion Y; subst; [destruct P; reflexivity|].
    destruct (reads_lit x0 _ _ ltac:(eassumption) h [XINode n] new_eval_env [XIString s]) as [_ [f E]].
    { intro f. reflexivity. }
    split; [discriminate|]. exists (S f). rewrite eval_S. unfold eval_step. cbn [x_type x_left x_right leaf x_name]. rewrite E. cbn [bind].
    unfold cast_as. cbn [atomize1]. change (trim_q _) with (lit "xs:double").
    change (cast_item h (XIString s) _) with (Ok (XIDouble (atof s))). rewrite (atof_text s neg m e T). reflexivity.
  - exists (Ok ([XIDecimal (dec_to_f64 neg m e)], new_eval_env)). split; [|reflexivity].
    eapply reads_bare; eauto. intros y Y [P|P]; [|discriminate P]. inversion Y; subst; [destruct P; reflexivity|].
    destruct (reads_lit x0 _ _ ltac:(eassumption) h [XINode n] new_eval_env [XIString s]) as [_ [f E]].
    { intro f. reflexivity. }
    split; [discriminate|]. exists (S f). rewrite eval_S. unfold eval_step. cbn [x_type x_left x_right leaf x_name]. rewrite E. cbn [bind].
    unfold cast_as. cbn [atomize1]. change (trim_q _) with (lit "xs:decimal").
    change (cast_item h (XIString s) _) with (Ok (XIDecimal (atof s))). rewrite (atof_text s neg m e T). reflexivity.
Qed.
(* ---- the other texts ---- *)
Lemma read_digits_inv : forall s acc n v k r, read_digits acc n s = (v, k, r) ->
  exists d, s = d ++ r /\ all_digits d /\ v = fold_left (fun v c => 10 * v + (c - 48))%N d acc /\ k = (n + List.length d)%nat /\ no_digit r.
Proof.
  induction s as [|c s IH]; intros acc n v k r H; cbn [read_digits] in H.
  - inversion H; subst. exists []. split; [reflexivity|]. split; [constructor|]. split; [reflexivity|]. split; [cbn; lia|]. exact I.
  - destruct (digit_of c) as [d|] eqn:D.
    + apply IH in H. destruct H as (ds & -> & A & -> & -> & N). exists (c :: ds).
      assert (R : (48 <= c <= 57)%N /\ d = (c - 48)%N).
      { unfold digit_of in D. destruct ((48 <=? c) && (c <=? 57))%N eqn:Q; inversion D. apply andb_true_iff in Q. rewrite !N.leb_le in Q. auto. }
      destruct R as [R ->]. split; [reflexivity|]. split; [constructor; auto|]. split; [|split; [|exact N]]; [cbn [fold_left]; replace (acc * 10 + (c - 48))%N with (10 * acc + (c - 48))%N by lia; reflexivity|cbn; lia].
    + inversion H; subst. exists []. split; [reflexivity|]. split; [constructor|]. split; [reflexivity|]. split; [cbn; lia|]. cbn; auto.
Qed.
Lemma read_sign_inv s b r : read_sign s = (b, r) -> (s = r /\ b = false) \/ (s = 45%N :: r /\ b = true) \/ (s = 43%N :: r /\ b = false).
Proof.
  destruct s as [|c s]; cbn [read_sign]; [intro H; inversion H; auto|].
  destruct (N.eqb_spec c 45); [intro H; inversion H; subst; auto|]. destruct (N.eqb_spec c 43); intro H; inversion H; subst; auto.
Qed.
Lemma parse_exp_inv s k : parse_exp s = Some k -> (s = [] /\ k = 0) \/ exists c t, s = c :: t /\ (c = 101%N \/ c = 69%N) /\ exponent_text t k.
Proof.
  destruct s as [|c s]; cbn [parse_exp]; intro H; [inversion H; auto|]. right. exists c, s. split; auto.
  destruct ((c =? 101) || (c =? 69))%N eqn:C; [|discriminate]. apply orb_true_iff in C. rewrite !N.eqb_eq in C. split; auto.
  destruct (read_sign s) as [b r] eqn:S. destruct (read_digits 0 0 r) as [[v n] rest] eqn:R.
  apply read_digits_inv in R. destruct R as (d & E & D & V & L & _). destruct n as [|n]; [discriminate|]. destruct rest; [|discriminate].
  rewrite app_nil_r in E. subst r. assert (N : d <> []) by (intros ->; discriminate L). inversion H; subst.
  apply read_sign_inv in S. destruct S as [[-> ->]|[[-> ->]|[-> ->]]]; [apply et_plain|apply et_minus|apply et_plus]; auto.
Qed.
Lemma lower_letter a c : (97 <= a <= 122)%N -> lower_ascii c = a -> letter_of a c.
Proof.
  intros A H. unfold lower_ascii in H. unfold letter_of. destruct (N.leb_spec 65 c); cbn [andb] in H; [destruct (N.leb_spec c 90)|]; lia.
Qed.
Lemma lower_word w s : Forall (fun a => 97 <= a <= 122)%N w -> map lower_ascii s = w -> word_of w s.
Proof.
  intros F H. subst w. unfold word_of. induction s as [|c s IH]; cbn [map] in *; [constructor|]. inversion F; subst. constructor; auto. apply lower_letter; auto.
Qed.
Lemma parse_f64_inv s x : parse_f64 s = Some x -> number_word s x \/
  exists b m e u, unsigned_text u m e /\ (s = u /\ b = false \/ s = 45%N :: u /\ b = true \/ s = 43%N :: u /\ b = false) /\ x = dec_to_f64 b m e.
Proof.
  unfold parse_f64. destruct (read_sign s) as [b r] eqn:S. apply read_sign_inv in S.
  assert (W : forall y, bare_word r y -> number_word s (if b then SFopp y else y)).
  { intros y Y. destruct S as [[-> ->]|[[-> ->]|[-> ->]]]; [apply nw_bare|apply nw_minus|apply nw_plus]; auto. }
  destruct (str_eqb (map lower_ascii r) (lit "inf")) eqn:E1; [|destruct (str_eqb (map lower_ascii r) (lit "infinity")) eqn:E2]; cbn [orb].
  - apply str_eqb_eq in E1. intro H. inversion H; subst. left.
    assert (B := W _ (bw_inf r (lower_word (lit "inf") r ltac:(repeat constructor; discriminate) E1))). destruct b; exact B.
  - apply str_eqb_eq in E2. intro H. inversion H; subst. left.
    assert (B := W _ (bw_infinity r (lower_word (lit "infinity") r ltac:(repeat constructor; discriminate) E2))). destruct b; exact B.
  - destruct (str_eqb (map lower_ascii r) (lit "nan")) eqn:E3.
    + apply str_eqb_eq in E3. intro H. inversion H; subst. left.
      assert (B := W _ (bw_nan r (lower_word (lit "nan") r ltac:(repeat constructor; discriminate) E3))). destruct b; exact B.
    + intro H. right. destruct (read_digits 0 0 r) as [[v1 n1] r1] eqn:R1. apply read_digits_inv in R1. destruct R1 as (d & -> & D & V1 & L1 & ND).
      set (p := match r1 with [] => (v1, O, r1) | c :: r' => if (c =? 46)%N then read_digits v1 0 r' else (v1, O, r1) end) in H.
      assert (P : (p = (v1, O, r1)) \/ exists f r2, r1 = 46%N :: f ++ r2 /\ all_digits f /\ p = (fold_left (fun v c => 10 * v + (c - 48))%N f v1, List.length f, r2)).
      { unfold p. destruct r1 as [|c r1]; auto. destruct (N.eqb_spec c 46) as [->|]; auto. right.
        destruct (read_digits v1 0 r1) as [[v2 n2] r2] eqn:R2. apply read_digits_inv in R2. destruct R2 as (f & -> & F & -> & -> & _). exists f, r2. auto. }
      destruct P as [->|(f & r2 & -> & F & ->)].
      * rewrite Nat.add_0_r in H. destruct n1 as [|n1]; [discriminate|]. destruct (parse_exp r1) as [k|] eqn:PE; [|discriminate]. inversion H; subst x.
        assert (N : d <> []) by (intros ->; discriminate L1).
        exists b, v1, (k - Z.of_nat 0), (d ++ r1). split; [|split; auto].
        subst v1. apply parse_exp_inv in PE. destruct PE as [[-> ->]|(c & t & -> & C & T)].
        -- rewrite app_nil_r. apply ut_mantissa. apply mt_whole; auto.
        -- replace (k - Z.of_nat 0) with (0 + k) by lia. eapply ut_exponent; eauto. apply mt_whole; auto.
      * destruct (n1 + List.length f)%nat as [|q] eqn:Q; [discriminate|]. destruct (parse_exp r2) as [k|] eqn:PE; [|discriminate]. inversion H; subst x.
        assert (N : d ++ f <> []) by (intro Z0; apply app_eq_nil in Z0; destruct Z0 as [-> ->]; subst n1; discriminate Q).
        subst v1. rewrite <- fold_left_app. exists b, (numeral (d ++ f)), (k - Z.of_nat (List.length f)), (d ++ 46%N :: f ++ r2). split; [|split; auto].
        apply parse_exp_inv in PE. destruct PE as [[-> ->]|(c & t & -> & C & T)].
        -- rewrite app_nil_r. apply ut_mantissa. replace (0 - Z.of_nat (List.length f)) with (- Z.of_nat (List.length f)) by lia. apply mt_point; auto.
        -- replace (d ++ 46%N :: f ++ c :: t) with ((d ++ 46%N :: f) ++ c :: t) by (rewrite <- app_assoc; reflexivity).
           replace (k - Z.of_nat (List.length f)) with (- Z.of_nat (List.length f) + k) by lia. eapply ut_exponent; eauto. apply mt_point; auto.
Qed.
Lemma is_white_white c : is_white c = true -> white c.
Proof.
  unfold is_white, white. intro H. repeat (apply orb_true_iff in H; destruct H as [H|H]); rewrite ?andb_true_iff, ?N.leb_le, ?N.eqb_eq in H; tauto.
Qed.
Lemma trim_left_split s : exists p, s = p ++ trim_left s /\ Forall white p.
Proof.
  induction s as [|c s IH]; [exists []; auto|]. cbn [trim_left]. destruct (is_white c) eqn:W; [|exists []; auto].
  destruct IH as (p & E & F). exists (c :: p). split; [cbn [app]; rewrite <- E; reflexivity|constructor; auto using is_white_white].
Qed.
Lemma trim_split s : exists p q, s = p ++ trim s ++ q /\ Forall white p /\ Forall white q.
Proof.
  destruct (trim_left_split s) as (p & E & F). destruct (trim_left_split (rev (trim_left s))) as (q & E' & F').
  exists p, (rev q). split; [|split; [auto|apply Forall_rev; auto]]. rewrite E at 1. f_equal. unfold trim.
  rewrite <- (rev_involutive (trim_left s)) at 1. rewrite E' at 1. rewrite rev_app_distr. reflexivity.
Qed.
(* Whatever number() makes a number of is, apart from white space of Unicode around it, in decimal notation or one of the
   words inf, infinity, nan; every other text is NaN. *)
Theorem C68_number_only_partial : forall h c s, exists x, fn_value h c (lit "fn:number") [[XIString s]] (Ok [XIDouble x]) /\
  (x = S754_nan \/ exists p t q, s = p ++ t ++ q /\ Forall white p /\ Forall white q /\
     (number_word t x \/ exists neg m e, decimal_text t neg m e /\ correctly_rounded (decimal_value neg m e) x)).
Proof.
  intros h c s. exists (atof s). split; [fnv; reflexivity|]. unfold atof. destruct (parse_f64 (trim s)) as [x|] eqn:P; [|left; reflexivity].
  right. destruct (trim_split s) as (p & q & E & W1 & W2). exists p, (trim s), q. split; auto. split; auto. split; auto.
  apply parse_f64_inv in P. destruct P as [P|(b & m & e & u & U & S & ->)]; [left; exact P|right].
  exists b, m, e. split; [|rewrite <- dec_val_spec; apply dec_to_f64_correct].
  destruct S as [[-> ->]|[[-> ->]|[-> ->]]]; [apply dt_plain|apply dt_minus|apply dt_plus]; auto.
Qed.
(* XPath knows INF, -INF and NaN only *)
Theorem C68_words_refuted : forall h n,
  xpath_gives h n (lit "number('infinity')") (Ok [XIDouble (S754_infinity false)]) /\
  xpath_gives h n (lit "number('+nAn') eq number('inf')") (Ok [XIBoolean false]) /\
  xpath_gives h n (lit "number('-iNf')") (Ok [XIDouble (S754_infinity true)]).
Proof. intros h n. repeat split; try discriminate; exists 9%nat; vm_compute; reflexivity. Qed.
Example C68_example : decimal_text (lit " -12.50e-1 ") true 1250 (-3) /\ lexical L_double (lit "1.5e3").
Proof.
  split.
  - apply (dt_before 32%N (lit "-12.50e-1 ")); [cbn; tauto|]. apply (dt_after 32%N (lit "-12.50e-1")); [cbn; tauto|].
    apply (dt_minus (lit "12.50e-1")). apply (ut_exponent (lit "12.50") 1250 (-2) 101%N (lit "-1") (-1)).
    + apply (mt_point (lit "12") (lit "50")); [repeat constructor; discriminate|repeat constructor; discriminate|discriminate].
    + left; reflexivity.
    + apply (et_minus (lit "1")); [repeat constructor; discriminate|discriminate].
  - apply (lx_double_point (lit "1") (lit "5") (lit "3")); try discriminate; repeat constructor.
Qed.

(* ------------------------------------------------------------------ C69 *)
Lemma raw_string_back h x : valid x -> exists s, get_as_raw_string h (XIDouble x) = Ok s /\ atof s = x.
Proof.
  intro V. destruct x as [s|s| |s m e].
  - exists (fmt_f64 (S754_zero s)). split; [reflexivity|]. apply atof_fmt; auto.
  - exists (if s then lit "-Infinity" else lit "+Infinity"). destruct s; split; reflexivity.
  - exists (lit "NaN"). split; reflexivity.
  - exists (fmt_f64 (S754_finite s m e)). split; [reflexivity|]. apply atof_fmt; auto.
Qed.
(* number(string(x)) is x, for every double, *)
Theorem C69_double : forall h c x, is_f64 x -> exists s, fn_value h c (lit "fn:string") [[XIDouble x]] (Ok [XIString s]) /\
  fn_value h c (lit "fn:number") [[XIString s]] (Ok [XIDouble x]).
Proof.
  intros h c x V. destruct (raw_string_back h x V) as (s & E & A). exists s. split.
  - fnv. cbn [fn_string get_singleton_item bind]. rewrite E. reflexivity.
  - fnv. cbn [fn_number get_as_raw_double bind]. rewrite A. reflexivity.
Qed.
(* and for every decimal; the text of a finite number is in plain decimal notation, with no exponent *)
Theorem C69_decimal : forall h c x, is_f64 x -> finite x -> exists s, plain_notation s /\
  fn_value h c (lit "fn:string") [[XIDecimal x]] (Ok [XIString s]) /\
  fn_value h c (lit "fn:string") [[XIDouble x]] (Ok [XIString s]) /\
  fn_value h c (lit "fn:number") [[XIString s]] (Ok [XIDouble x]).
Proof.
  intros h c x V F. exists (fmt_f64 x). split; [apply fmt_plain; auto|]. split; [fnv; reflexivity|]. split.
  - destruct F as [[s ->]|(s & m & e & ->)]; fnv; reflexivity.
  - fnv. cbn [fn_number get_as_raw_double bind]. rewrite atof_fmt; auto.
Qed.
(* with the fewest significant digits from which the number can be read back *)
Lemma digits_of_fits d : 0 < d -> exists n, fits n (Z.to_N d) /\ (n <> 0)%nat /\ 10 ^ Z.of_nat (n - 1) <= d.
Proof.
  intro P. exists (List.length (fmt_N (Z.to_N d))). split; [|split].
  - exists (Z.to_N d), 0%N. split; [rewrite N.mul_1_r; reflexivity|apply fmt_N_high].
  - assert (NE := proj2 (fmt_N_canonical (Z.to_N d))). destruct (fmt_N (Z.to_N d)); [congruence|discriminate].
  - assert (L := fmt_N_low (Z.to_N d) ltac:(lia)). apply N2Z.inj_le in L. rewrite N2Z.inj_pow, Z2N.id, nat_N_Z in L by lia. exact L.
Qed.
Lemma decimal_abs b m e : Rabs (decimal_value b m e) = (IZR (Z.of_N m) * powerRZ 10 e)%R.
Proof.
  rewrite <- dec_val_spec. unfold dec_val. rewrite Rabs_mult. rewrite (Rabs_pos_eq (powerRZ 10 e)) by apply Rlt_le, ten_pos. f_equal.
  destruct b; cbn [signed]; rewrite ?opp_IZR, ?Rabs_Ropp; apply Rabs_pos_eq; apply (IZR_le 0); lia.
Qed.
Theorem C69_shortest : forall h c x, is_f64 x -> finite x -> exists s neg m e n,
  fn_value h c (lit "fn:string") [[XIDouble x]] (Ok [XIString s]) /\ decimal_text s neg m e /\ fits n m /\
  (forall neg' m' e' n', correctly_rounded (decimal_value neg' m' e') x -> fits n' m' -> (n <= n')%nat).
Proof.
  intros h c x V F. exists (fmt_f64 x). destruct F as [[s ->]|(s & m & e & ->)].
  - exists s, 0%N, 0, O. split; [fnv; reflexivity|]. split; [|split; [exists 0%N, 0%N; split; reflexivity|intros; apply Nat.le_0_l]].
    assert (U : unsigned_text (lit "0") 0 0) by (apply ut_mantissa, (mt_whole (lit "0")); [constructor; [cbn; lia|constructor]|discriminate]).
    destruct s; [apply (dt_minus _ _ _ U)|apply (dt_plain _ _ _ U)].
  - destruct (shortest m e) as [d k] eqn:S. destruct (shortest_facts m e d k V S) as (P & M & _ & K).
    destruct (unsigned_fmt_exact d k P) as (m' & e' & T & j & EM & _). destruct (digits_of_fits d P) as (n & (c0 & j0 & E0 & B0) & N0 & LO).
    exists s, m', e', n. split; [fnv; reflexivity|]. split; [|split].
    + rewrite fmt_finite, S. cbn [fst snd]. destruct s; [apply (dt_minus _ _ _ T)|apply (dt_plain _ _ _ T)].
    + exists c0, (j0 + j)%N. split; auto. rewrite EM, E0, N.pow_add_r. ring.
    + intros neg' m2 e2 n' C (c1 & j1 & -> & B1). apply abs_rounded in C. rewrite decimal_abs in C.
      assert (C1 : correctly_rounded (IZR (Z.of_N c1) * powerRZ 10 (Z.of_N j1 + e2)) (S754_finite false m e)).
      { rewrite N2Z.inj_mul, mult_IZR, N2Z.inj_pow in C. change (Z.of_N 10) with 10 in C. rewrite <- powerRZ_pos_IZR in C by lia. rewrite ten_add. rewrite Rmult_assoc in C. exact C. }
      assert (Q := K (Z.of_N c1) (Z.of_N j1 + e2) (Z.of_nat (n - 1)) ltac:(lia) ltac:(lia) C1 LO).
      assert (Q2 : Z.of_N c1 < 10 ^ Z.of_nat n') by (apply N2Z.inj_lt in B1; rewrite N2Z.inj_pow, nat_N_Z in B1; exact B1).
      assert (Q3 : 10 ^ Z.of_nat (n - 1) < 10 ^ Z.of_nat n') by lia. apply (Z.pow_lt_mono_r_iff 10) in Q3; lia.
Qed.
(* XPath writes an infinity as INF and -INF, and very large and very small doubles with an exponent *)
Theorem C69_notation_refuted : forall h n,
  xpath_gives h n (lit "string(1e0 div 0e0)") (Ok [XIString (lit "+Infinity")]) /\
  xpath_gives h n (lit "string(-1e0 div 0e0)") (Ok [XIString (lit "-Infinity")]) /\
  xpath_gives h n (lit "string(1e21)") (Ok [XIString (lit "1000000000000000000000")]) /\
  xpath_gives h n (lit "string(1e0 div 1e7)") (Ok [XIString (lit "0.0000001")]).
Proof. intros h n. repeat split; try discriminate; exists 9%nat; vm_compute; reflexivity. Qed.
Example C69_example : is_f64 (fdiv f_one (f_of_Z 10)) /\ finite (fdiv f_one (f_of_Z 10)) /\ fits 1 1 /\ plain_notation (lit "-0.1") /\ plain_notation (lit "100").
Proof.
  split; [reflexivity|]. split; [right; do 3 eexists; vm_compute; reflexivity|]. split; [exists 1%N, 0%N; split; reflexivity|]. split.
  - apply (pn_point_minus (lit "0") (lit "1")).
    + split; [repeat constructor; discriminate|left; reflexivity].
    + split; [repeat constructor; discriminate|]. exists [], 49%N. split; [reflexivity|discriminate].
  - apply (pn_whole (lit "100")). split; [repeat constructor; discriminate|]. right. exists 49%N, (lit "00"). split; [reflexivity|discriminate].
Qed.

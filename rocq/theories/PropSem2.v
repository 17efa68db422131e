(* C63: an example with decimals, doubles, sums and the functions of arrays. *)
Require Import Bool List NArith ZArith Ascii String Lia Sorted Reals Lra.
Require Import Coq.Floats.SpecFloat.
From Flocq Require Import Core IEEE754.BinarySingleNaN.
From Verif Require Import Str StrFacts Sax Dom Axes SpecEdit SpecAxes Lexer FuncTable Parser SpecExpr PropParse Num Item Func Types Eval EvalFacts
  SpecOper ItemFacts SpecFunc SpecTypes SpecEval SpecInt FloatFacts SpecNum PropNum SpecDbl FloatRound SpecArith ArithFacts SpecLib LibNum SpecSem PropSem.
Import ListNotations.
Open Scope nat_scope.

Definition num_3_2 : f64 := S754_finite false 6755399441055744 (-52).
Definition num_2 : f64 := S754_finite false 4503599627370496 (-51).
Definition num_7_2 : f64 := S754_finite false 7881299347898368 (-51).
Definition num_7 : f64 := S754_finite false 7881299347898368 (-50).
Ltac fin := (apply finite_iff; reflexivity).
Lemma num_at m e v z : is_f64 (S754_finite false m e) -> (e < 0)%Z -> (IZR (Zpos m) = v * IZR (2 ^ (- e)))%R -> (0 < v)%R ->
  rounded v z (S754_finite false m e) /\ val (S754_finite false m e) = v.
Proof.
  intros V E Q P.
  assert (K : real (S754_finite false m e) = v).
  { rewrite real_neg by lia. cbn [signed]. rewrite Q. field. apply IZR_neq. assert (0 < 2 ^ (- e))%Z by (apply Z.pow_pos_nonneg; lia). lia. }
  split; [|rewrite val_real; auto]. rewrite <- K. apply (rounded_other_zero _ (negative (S754_finite false m e))); [lra|].
  apply exact_rounded; auto.
Qed.
Lemma at_3_2 z : rounded (3 / 2) z num_3_2 /\ val num_3_2 = (3 / 2)%R.
Proof. apply num_at; [reflexivity|lia| |lra]. change (2 ^ (- (-52)))%Z with 4503599627370496%Z. lra. Qed.
Lemma at_2 z : rounded 2 z num_2 /\ val num_2 = 2%R.
Proof. apply num_at; [reflexivity|lia| |lra]. change (2 ^ (- (-51)))%Z with 2251799813685248%Z. lra. Qed.
Lemma at_7_2 z : rounded (7 / 2) z num_7_2 /\ val num_7_2 = (7 / 2)%R.
Proof. apply num_at; [reflexivity|lia| |lra]. change (2 ^ (- (-51)))%Z with 2251799813685248%Z. lra. Qed.
Lemma at_7 z : rounded 7 z num_7 /\ val num_7 = 7%R.
Proof. apply num_at; [reflexivity|lia| |lra]. change (2 ^ (- (-50)))%Z with 1125899906842624%Z. lra. Qed.

(* sum ( ( 1.5 , 2 ) ) * 2e0 , array:size ( [ 1.5 ] ) *)
Definition sem_e6 : expr :=
  EBin O_comma (EBin O_mul (ECall (lit "sum") [EBin O_comma (ELit L_decimal (lit "1.5")) (ELit L_integer (lit "2"))]) (ELit L_double (lit "2e0")))
    (EPCall (lit "array") (lit "size") [ESquare [ELit L_decimal (lit "1.5")]]).
Lemma means_3_2 h order f vs : means h order f vs (ELit L_decimal (lit "1.5")) [XIDecimal num_3_2].
Proof.
  apply (m_decimal h order f vs (lit "1.5") 15 (-1)); [| |fin].
  - apply dt_plain. constructor. apply (mt_point (lit "1") (lit "5")); [vm_compute; repeat constructor; discriminate..|discriminate].
  - replace (decimal_value false 15 (-1)) with (3 / 2)%R; [apply at_3_2|]. unfold decimal_value. cbn. change (Pos.to_nat 1) with 1. rewrite pow_1. lra.
Qed.
Lemma means_2e0 h order f vs : means h order f vs (ELit L_double (lit "2e0")) [XIDouble num_2].
Proof.
  apply (m_double h order f vs (lit "2e0") 2 0).
  - apply dt_plain. apply (ut_exponent (lit "2") 2 0 101 (lit "0") 0); auto.
    + apply (mt_whole (lit "2")); [vm_compute; repeat constructor; discriminate|discriminate].
    + apply (et_plain (lit "0")); [vm_compute; repeat constructor; discriminate|discriminate].
  - replace (decimal_value false 2 0) with 2%R; [apply at_2|]. unfold decimal_value. cbn. field.
Qed.
Lemma sem_sum : sum_from (XIInteger 0) [XIDecimal num_3_2; XIInteger 2] (XIDecimal num_7_2).
Proof.
  apply sf_cons with (z := XIDecimal num_3_2); [|apply sf_cons with (z := XIDecimal num_7_2); [|constructor]].
  - apply ad_numbers. apply (op_decimal O_add _ _ (S754_zero false) num_3_2); [constructor; apply rounded_zero|constructor; [reflexivity|fin]|reflexivity|fin|intros [Q|Q]; discriminate Q|].
    apply (fo_exact O_add _ _ (3 / 2)); [fin|fin| |apply at_3_2].
    replace (3 / 2)%R with (val (S754_zero false) + val num_3_2)%R; [constructor|]. rewrite (proj2 (at_3_2 false)). cbn. lra.
  - apply ad_numbers. apply (op_decimal O_add _ _ num_3_2 num_2); [constructor; [reflexivity|fin]|constructor; apply at_2|reflexivity|fin|intros [Q|Q]; discriminate Q|].
    apply (fo_exact O_add _ _ (7 / 2)); [fin|fin| |apply at_7_2].
    replace (7 / 2)%R with (val num_3_2 + val num_2)%R; [constructor|]. rewrite (proj2 (at_3_2 false)), (proj2 (at_2 false)). lra.
Qed.
Example C63_number_example : wf sem_e6 /\ hygienic [] sem_e6 /\ source sem_e6 = lit "sum ( ( 1.5 , 2 ) ) * 2e0 , array : size ( [ 1.5 ] ) " /\
  forall h order f, means h order f no_vars sem_e6 [XIDouble num_7; XIInteger 1].
Proof.
  split; [|split; [cbn; tauto|split; [vm_compute; reflexivity|]]].
  - cbn. intuition (try pname; try discriminate; try reflexivity).
    + apply (lx_decimal [49%N] [53%N]); [discriminate|vm_compute; repeat constructor; discriminate..].
    + lexi.
    + apply (lx_double [50%N] [48%N]); try discriminate; vm_compute; repeat constructor; discriminate.
    + apply (lx_decimal [49%N] [53%N]); [discriminate|vm_compute; repeat constructor; discriminate..].
  - intros h order f. apply (m_comma h order f no_vars _ _ [XIDouble num_7] [XIInteger 1]).
    + eapply m_number_op; [|apply means_2e0|].
      * eapply m_call; [constructor; [|constructor]|].
        -- apply (m_comma h order f no_vars _ _ [XIDecimal num_3_2] [XIInteger 2]); [apply means_3_2|]. apply (m_integer h order f no_vars (lit "2")). reflexivity.
        -- apply fv_more. apply ml_sum with (r := XIDecimal num_7_2); [discriminate|exact sem_sum].
      * apply (op_double O_mul _ _ num_7_2 num_2); [constructor; [reflexivity|fin]|constructor; reflexivity|reflexivity|intros _ [Q|Q]; discriminate Q|].
        apply (fo_exact O_mul _ _ 7); [fin|fin| |apply at_7].
        replace 7%R with (val num_7_2 * val num_2)%R; [constructor|]. rewrite (proj2 (at_7_2 false)), (proj2 (at_2 false)). lra.
    + eapply m_item_call; [constructor; [|constructor]|].
      * eapply m_square. constructor; [apply means_3_2|constructor].
      * apply (il_array_size h [[XIDecimal num_3_2]]).
Qed.

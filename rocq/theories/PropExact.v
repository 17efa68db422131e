(* C67, C55, C34: the results of arithmetic, rounding and sums bit for bit, signs of zeros included. *)
Require Import Bool List NArith ZArith Ascii String Lia Reals Lra.
Require Import Coq.Floats.SpecFloat.
From Flocq Require Import Core IEEE754.BinarySingleNaN.
From Verif Require Import Str StrFacts Sax Dom Lexer FuncTable Parser SpecExpr Num Item Func Types Eval EvalFacts
  SpecOper ItemFacts PropOper SpecFunc FuncFacts SpecInt FloatFacts SpecNum PropNum SpecDbl FloatRound PropDbl SpecArith ArithFacts SpecLib LibNum SemMore PropSem PropSem2.
Import ListNotations.
Open Scope Z_scope.

(* an operation on numbers gives the number SpecArith says, with its sign *)
Theorem C67_exact : forall o h c A B e x y z e2 nm, operands h c A B e [x] [y] e2 -> number_op o x y z ->
  outcome h c (XNode (bnode o) nm A B) e (Ok ([z], e2)).
Proof.
  intros o h c A B e x y z e2 nm O N.
  assert (X : arithmetic o) by (destruct N as [a b d _ _ _ _ N|a b d _ _ _ _ _ N|m n a b d _ _ _ _ -> _ _ _]; [eapply float_op_arith; eauto..|cbn; tauto]).
  assert (E := number_op_ok o x y z N). cbn [arithmetic In] in X.
  assert (K : forall o', arith_node o' = bnode o -> arith_fn o' = item_op o -> outcome h c (XNode (bnode o) nm A B) e (Ok ([z], e2))).
  { intros o' E1 E2. rewrite <- E1. apply (outcome_arith o' h c A B e _ _ e2 nm (Ok [z]) O); [|discriminate].
    unfold op_numeric_operation. cbn [get_singleton_item bind]. rewrite E2, E. reflexivity. }
  destruct X as [<-|[<-|[<-|[<-|[<-|X]]]]]; [apply (K PropOper.Add)|apply (K PropOper.Sub)|apply (K PropOper.Mul)|apply (K PropOper.Div)|apply (K PropOper.Mod)|destruct X]; reflexivity.
Qed.
(* two readings of SpecArith never differ *)
Theorem C67_exact_unique : forall o x y z z', number_op o x y z -> number_op o x y z' -> z = z'.
Proof. intros o x y z z' A B. apply number_op_ok in A, B. congruence. Qed.
(* floor, ceiling, round and abs, with the sign of a zero *)
Theorem C55_exact : forall h c double n x y, rounding double n x y ->
  fn_value h c (lit "fn:" ++ n) [[(if double then XIDouble else XIDecimal) x]] (Ok [(if double then XIDouble else XIDecimal) y]).
Proof.
  intros h c double n x y R. assert (E := rounding_ok _ _ _ _ R). assert (N := rounding_name _ _ _ _ R). clear R. cbn [In] in N.
  destruct N as [<-|[<-|[<-|[<-|[]]]]]; destruct double; rewrite <- E; fnv; reflexivity.
Qed.
(* sums and averages of numbers of any type *)
Theorem C34_sum_numbers : forall h c v r, v <> [] -> sum_from (XIInteger 0) v r -> fn_value h c (lit "fn:sum") [v] (Ok [r]).
Proof. intros h c v r N S. fnv. destruct v; [congruence|]. unfold fn_sum. rewrite (sum_from_ok h _ _ _ S). reflexivity. Qed.
Theorem C34_avg_numbers : forall h c v s r, v <> [] -> sum_from (XIInteger 0) v s ->
  number_op O_div s (XIInteger (Z.of_nat (List.length v))) r -> fn_value h c (lit "fn:avg") [v] (Ok [r]).
Proof.
  intros h c v s r N S D. fnv. destruct v; [congruence|]. unfold fn_avg, fn_sum. rewrite (sum_from_ok h _ _ _ S). cbn [bind get_singleton_item].
  assert (E := number_op_ok O_div _ _ _ D). change (item_op O_div) with xitem_numeric_divide in E. unfold zlen. rewrite E. reflexivity.
Qed.
(* -0 is kept apart: 0 * -1 and the ceiling of -0.5 *)
Example C67_exact_example : number_op O_mul (XIDouble (S754_zero false)) (XIDouble f_minus_one) (XIDouble (S754_zero true)) /\
  rounding true (lit "ceiling") f_minus_half (S754_zero true) /\
  sum_from (XIInteger 0) [XIDecimal num_3_2; XIInteger 2] (XIDecimal num_7_2).
Proof.
  destruct minus_half_real as [MR [MV MF]]. split; [|split].
  - apply (op_double O_mul _ _ (S754_zero false) f_minus_one); [constructor; reflexivity|constructor; reflexivity|reflexivity|intros _ [Q|Q]; discriminate Q|].
    apply (fo_exact O_mul _ _ 0); [apply finite_iff; reflexivity..| |apply (rounded_zero true)].
    replace 0%R with (val (S754_zero false) * val f_minus_one)%R; [constructor|]. rewrite val_real. cbn [SF2R]. ring.
  - apply (ro_ceiling true f_minus_half 0); [exact MV| |apply (rounded_zero true)].
    apply ceiling_real. split; [exact MF|]. rewrite MR. apply Zceil_imp. cbn. lra.
  - exact sem_sum.
Qed.
Print Assumptions C67_exact.

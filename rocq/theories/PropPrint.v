(* C69: the text of a number is the shortest one, and of the shortest the nearest; C63: its use in expressions. *)
From Flocq Require Import Core BinarySingleNaN.
Require Import Ascii String Bool List NArith ZArith Lia Reals Lra Psatz.
Require Import Coq.Floats.SpecFloat.
From Verif Require Import Str StrFacts Sax Dom Axes SpecEdit SpecAxes Lexer FuncTable Parser SpecExpr PropParse Num Item Func Types Eval EvalFacts
  SpecOper ItemFacts SpecFunc FuncFacts SpecTypes SpecEval PropEval SpecInt IntFacts FloatFacts SpecNum PropNum SpecDbl FloatRound FloatText FloatPrint FloatShort
  SpecArith SpecPrint FloatNear ArithFacts SpecLib LibNum SpecSem PropSem PropSem2.
Import List ListNotations.
Open Scope Z_scope.

(* the text of a finite number stands for a decimal number that is rounded to it, with the fewest digits; no other
   one with as few digits is nearer *)
Theorem C69_nearest : forall h c x, is_f64 x -> finite x -> exists s neg m e n,
  fn_value h c (lit "fn:string") [[XIDecimal x]] (Ok [XIString s]) /\ fn_value h c (lit "fn:string") [[XIDouble x]] (Ok [XIString s]) /\
  plain_value s neg m e /\ rounded (decimal_value neg m e) neg x /\ fits n m /\
  forall neg' m' e', correctly_rounded (decimal_value neg' m' e') x ->
    (forall n', fits n' m' -> (n <= n')%nat) /\
    (fits n m' -> (Rabs (val x - decimal_value neg m e) <= Rabs (val x - decimal_value neg' m' e'))%R).
Proof.
  intros h c x V F. exists (fmt_f64 x).
  assert (A : fn_value h c (lit "fn:string") [[XIDecimal x]] (Ok [XIString (fmt_f64 x)])) by (fnv; reflexivity).
  assert (B : fn_value h c (lit "fn:string") [[XIDouble x]] (Ok [XIString (fmt_f64 x)])).
  { fnv. destruct F as [[s ->]|(s & m & e & ->)]; reflexivity. }
  destruct F as [[s ->]|(s & m & e & ->)].
  - exists s, 0%N, 0, O. split; [exact A|]. split; [exact B|].
    assert (W : plain_digits (lit "0") 0 0) by (apply (pd_whole (lit "0")); split; [constructor; [cbn; lia|constructor]|left; reflexivity]).
    split; [destruct s; [apply (pv_minus _ _ _ W)|apply (pv_plus _ _ _ W)]|].
    assert (Z : decimal_value s 0 0 = 0%R) by (unfold decimal_value; destruct s; cbn; ring). rewrite Z.
    split; [|split; [exists 0%N, 0%N; split; reflexivity|]].
    + split; [|repeat split; intros; try lra]. apply rounded_correct; [reflexivity|].
      rewrite round_0 by auto with typeclass_instances. rewrite Rabs_R0, Rlt_bool_true by (apply bpow_gt_0). split; reflexivity.
    + intros neg' m' e' _. split; [intros; lia|]. intros _. cbn [val]. rewrite Rminus_0_r, Rabs_R0. apply Rabs_pos.
  - destruct (fmt_nearest s m e V) as (m0 & e0 & n0 & H). exists s, m0, e0, n0. split; [exact A|]. split; [exact B|exact H].
Qed.
(* the text that is the only nearest one is written *)
Theorem C69_text : forall h c x s, number_text x s -> finite x ->
  fn_value h c (lit "fn:string") [[XIDecimal x]] (Ok [XIString s]) /\ fn_value h c (lit "fn:string") [[XIDouble x]] (Ok [XIString s]).
Proof.
  intros h c x s H F. assert (V : is_f64 x) by (destruct H as (? & ? & ? & ? & _ & ((V & _) & _) & _); exact V).
  rewrite (number_text_unique x s V F H). split; [fnv; reflexivity|]. fnv. destruct F as [[sg ->]|(sg & m & e & ->)]; reflexivity.
Qed.
(* a number that the text stands for exactly *)
Lemma exact_text x neg m e : is_f64 x -> finite x -> plain_value (fmt_f64 x) neg m e -> val x = decimal_value neg m e -> number_text x (fmt_f64 x).
Proof.
  intros V F P E. destruct (C69_nearest [] [] x V F) as (s & neg0 & m0 & e0 & n0 & _ & S & P0 & R0 & F0 & A).
  assert (S' : s = fmt_f64 x).
  { assert (B : fn_value [] [] (lit "fn:string") [[XIDouble x]] (Ok [XIString (fmt_f64 x)])) by (fnv; destruct F as [[sg ->]|(sg & mm & ee & ->)]; reflexivity).
    assert (Q := fn_value_unique _ _ _ _ _ _ S B). congruence. }
  subst s. exists neg0, m0, e0, n0. split; [exact P0|]. split; [exact R0|]. split; [exact F0|].
  assert (E0 : val x = decimal_value neg0 m0 e0).
  { rewrite E. destruct (plain_split _ _ _ _ P) as (d & D & Q). destruct (plain_split _ _ _ _ P0) as (d0 & D0 & Q0). rewrite Q in Q0.
    assert (NS : forall d m e, plain_digits d m e -> exists c r, d = c :: r /\ 48 <= Z.of_N c).
    { clear. intros d m e H. assert (K : forall w, whole_notation w -> exists c r, w = c :: r /\ 48 <= Z.of_N c).
      { intros w [A B]. assert (exists c r, w = c :: r) as (c & r & ->) by (destruct B as [->|(c & r & -> & _)]; eauto). inversion A; subst. exists c, r. split; auto. lia. }
      destruct H as [w W|w f W _]; destruct (K w W) as (c & r & -> & L); [exists c, r|exists c, (r ++ 46%N :: f)]; split; auto. }
    destruct (NS _ _ _ D) as (c & r & -> & L). destruct (NS _ _ _ D0) as (c0 & r0 & -> & L0).
    assert (QQ : neg = neg0 /\ c :: r = c0 :: r0).
    { destruct neg, neg0; change (sign_str true) with [45%N] in Q0; change (sign_str false) with (@nil N) in Q0; cbn [app] in Q0; injection Q0 as Q1 Q2; subst;
        split; auto; exfalso; lia. }
    destruct QQ as [-> QQ]. rewrite <- QQ in D0. 
    assert (DD : forall d m e m' e', plain_digits d m e -> plain_digits d m' e' -> m = m' /\ e = e').
    { clear. intros d m e m' e' H H'. assert (K : forall w, all_digits w -> ~ In 46%N w) by (intros w W I; eapply Forall_forall in W; [|exact I]; cbn in W; lia).
      destruct H as [w [W _]|w f [W _] [G _]].
      - inversion H' as [w' [W' _] X|w' f' [W' _] [G' _] X]; subst; auto. exfalso. apply (K _ W). apply in_app_iff. right. left. reflexivity.
      - remember (w ++ 46%N :: f) as t eqn:T. destruct H' as [w' [W' _]|w' f' [W' _] [G' _]].
        + exfalso. apply (K _ W'). rewrite T. apply in_app_iff. right. left. reflexivity.
        + assert (w = w' /\ f = f') as [<- <-]; [|split; reflexivity]. clear - T K W W'. revert w' T W'. induction w as [|a w IH]; intros [|b w'] T W'; cbn [app] in T.
          * injection T as ->. auto.
          * injection T as ? ?. subst. exfalso. apply (K _ W'). left. reflexivity.
          * injection T as ? ?. subst. exfalso. apply (K _ W). left. reflexivity.
          * injection T as -> T. inversion W; inversion W'; subst. destruct (IH ltac:(assumption) w' T ltac:(assumption)) as [-> ->]. auto. }
    destruct (DD _ _ _ _ _ D D0) as [-> ->]. reflexivity. }
  intros neg' m' e' C. destruct (A _ _ _ C) as [A1 A2]. split; [exact A1|]. intro B. specialize (A2 B). rewrite <- E0 in *.
  destruct (Req_dec (decimal_value neg' m' e') (val x)) as [Q|Q]; [left; exact Q|right]. unfold Rminus at 1. rewrite Rplus_opp_r, Rabs_R0.
  apply Rabs_pos_lt. lra.
Qed.
(* the decimals of XPath are exact and have no negative zero *)
Theorem C69_digits_refuted : forall h n,
  xpath_gives h n (lit "string(4611686018427387904.0)") (Ok [XIString (lit "4611686018427388000")]) /\
  xpath_gives h n (lit "string(-0.0)") (Ok [XIString (lit "-0")]).
Proof. intros h n. repeat split; try discriminate; exists 9%nat; vm_compute; reflexivity. Qed.

(* ---- an example: 1.5 ---- *)
Lemma text_3_2 : number_text num_3_2 (lit "1.5").
Proof.
  assert (E : fmt_f64 num_3_2 = lit "1.5") by (vm_compute; reflexivity). rewrite <- E. apply (exact_text _ false 15 (-1)).
  - reflexivity.
  - fin.
  - rewrite E. apply pv_plus. apply (pd_point (lit "1") (lit "5")).
    + split; [repeat constructor; discriminate|right; exists 49%N, []; split; [reflexivity|discriminate]].
    + split; [repeat constructor; discriminate|]. exists [], 53%N. split; [reflexivity|discriminate].
  - rewrite (proj2 (at_3_2 false)). unfold decimal_value. cbn. change (Pos.to_nat 1) with 1%nat. rewrite pow_1. lra.
Qed.
(* concat ( 1.5 , 'a' ) *)
Definition sem_e7 : expr := ECall (lit "concat") [ELit L_decimal (lit "1.5"); ELit L_string (lit "a")].
Example C69_text_example : number_text num_3_2 (lit "1.5") /\ wf sem_e7 /\ hygienic [] sem_e7 /\
  forall h order f, means h order f no_vars sem_e7 [XIString (lit "1.5a")].
Proof.
  split; [exact text_3_2|]. split; [|split; [cbn; tauto|]].
  - cbn. intuition (try pname; try discriminate; try reflexivity).
    + apply (lx_decimal [49%N] [53%N]); [discriminate|vm_compute; repeat constructor; discriminate..].
    + lexi.
  - intros h order f. eapply m_call; [constructor; [apply means_3_2|constructor; [apply m_string|constructor]]|].
    apply fv_library. apply (lb_concat h f [[XIDecimal num_3_2]; [XIString (lit "a")]] [lit "1.5"; lit "a"]); [cbn; lia|].
    constructor; [|constructor; [|constructor]]; apply ta_item; [|apply so_string].
    apply so_decimal; [fin| |discriminate|exact text_3_2]. rewrite (proj2 (at_3_2 false)). rewrite Rabs_pos_eq by lra. lra.
Qed.

(* C28: subsequence and substring. *)
Require Import Bool List NArith ZArith Ascii String Lia Reals Lra.
From Flocq Require Import Core BinarySingleNaN.
Require Import Coq.Floats.SpecFloat.
From Verif Require Import Str StrFacts Sax Dom Axes Lexer FuncTable Parser Num Item Func Types Eval EvalFacts
  SpecText SpecOper ItemFacts SpecFunc FuncFacts SpecNum FloatFacts.
Import ListNotations.
Open Scope Z_scope.

Lemma half_between_real lo x hi : half_between lo x hi <->
  is_finite_SF x = true /\ (IZR lo <= 2 * real x)%R /\ (2 * real x < IZR hi)%R.
Proof.
  destruct x as [s|s| |s m e]; cbn [half_between is_finite_SF]; try (split; [intros []|intros [? _]; discriminate]).
  - cbn [SF2R]. rewrite Rmult_0_r. split.
    + intros [A B]. split; [auto|]. split; [apply IZR_le|apply IZR_lt]; auto.
    + intros [_ [A B]]. split; [apply le_IZR|apply lt_IZR]; auto.
  - assert (N : (if s then Z.neg m else Z.pos m) = signed s (Z.pos m)) by (destruct s; reflexivity).
    rewrite N. clear N. set (n := signed s (Z.pos m)). destruct (0 <=? e) eqn:E.
    + rewrite real_pos by lia. fold n.
      replace (2 * IZR (n * 2 ^ e))%R with (IZR (2 * n * 2 ^ e)) by (rewrite <- Z.mul_assoc, mult_IZR; reflexivity).
      split.
      * intros [A B]. split; [auto|]. split; [apply IZR_le|apply IZR_lt]; auto.
      * intros [_ [A B]]. split; [apply le_IZR|apply lt_IZR]; auto.
    + assert (Q := pow_pos e ltac:(lia)). rewrite real_neg by lia. fold n. set (d := 2 ^ (- e)) in *.
      assert (QR : (0 < IZR d)%R) by (apply IZR_lt; lia).
      assert (T : (2 * (IZR n / IZR d) = IZR (2 * n) / IZR d)%R) by (rewrite mult_IZR; field; lra).
      rewrite T. split.
      * intros [A B]. split; [auto|]. apply IZR_le in A. apply IZR_lt in B. rewrite mult_IZR in A. rewrite (mult_IZR hi) in B.
        split; [apply Rmult_le_reg_r with (IZR d)|apply Rmult_lt_reg_r with (IZR d)]; auto;
          unfold Rdiv; rewrite Rmult_assoc, Rinv_l by lra; lra.
      * intros [_ [A B]]. apply Rmult_le_compat_r with (r := IZR d) in A; [|lra].
        apply Rmult_lt_compat_r with (r := IZR d) in B; [|lra].
        unfold Rdiv in A, B. rewrite Rmult_assoc, Rinv_l, Rmult_1_r in A, B by lra.
        rewrite <- mult_IZR in A, B. split; [apply le_IZR|apply lt_IZR]; auto.
Qed.
Lemma nearest_real x r : nearest x r <-> is_finite_SF x = true /\ Zfloor (real x + 1 / 2) = r.
Proof.
  unfold nearest. rewrite half_between_real. rewrite minus_IZR, plus_IZR, mult_IZR.
  split; intros [F A]; split; auto.
  - apply Zfloor_imp. rewrite plus_IZR. lra.
  - subst r. assert (B := Zfloor_lb (real x + 1 / 2)). assert (C := Zfloor_ub (real x + 1 / 2)). lra.
Qed.
Lemma moderate_real x : moderate_f64 x -> valid x /\ is_finite_SF x = true /\ (Rabs (real x) < IZR (2 ^ 52))%R /\ x <> almost_half.
Proof.
  intros [V [H N]]. apply half_between_real in H. destruct H as [F [A B]].
  split; [exact V|]. split; [exact F|]. split; [|exact N].
  assert (E : (IZR (2 ^ 53) = 2 * IZR (2 ^ 52))%R) by (rewrite <- mult_IZR; reflexivity).
  rewrite plus_IZR, opp_IZR in A. apply Rabs_def1; lra.
Qed.
(* every number of moderate size rounds to one integer, which the program computes *)
Lemma round_x_nearest x r : moderate_f64 x -> nearest x r -> f64_to_i64 (round_x x) = r /\ - 2 ^ 52 <= r <= 2 ^ 52.
Proof.
  intros M N. destruct (moderate_real x M) as [V [F [A NE]]]. apply nearest_real in N. destruct N as [_ N].
  split.
  - rewrite round_x_real; auto.
  - apply Rabs_def2 in A. assert (B := Zfloor_lb (real x + 1 / 2)). assert (C := Zfloor_ub (real x + 1 / 2)). rewrite N in B, C.
    assert (r < 2 ^ 52 + 1) by (apply lt_IZR; rewrite plus_IZR; lra).
    assert (- 2 ^ 52 - 1 < r) by (apply lt_IZR; rewrite minus_IZR, opp_IZR; lra). lia.
Qed.
Lemma integer_arg z : - 2 ^ 52 < z < 2 ^ 52 -> moderate_f64 (i64_to_f64 z) /\ nearest (i64_to_f64 z) z.
Proof.
  intro L. unfold i64_to_f64, f_of_Z. destruct (norm_int_real z false) as [R1 [R2 R3]]; [lia|].
  set (x := SpecFloat.binary_normalize prec64 emax64 z 0 false) in *. split; [split; [exact R3|split]|].
  - apply half_between_real. split; [exact R2|]. rewrite R1, <- mult_IZR. split; [apply IZR_le|apply IZR_lt]; lia.
  - intro E. rewrite E in R1. rewrite real_neg in R1 by lia. cbn [signed] in R1.
    assert (9007199254740991 = z * 2 ^ 54); [|lia]. apply eq_IZR. rewrite mult_IZR, <- R1. change (- -54) with 54. field.
    apply IZR_neq. lia.
  - apply nearest_real. split; [exact R2|]. rewrite R1. apply Zfloor_imp. rewrite plus_IZR. lra.
Qed.
Lemma arg_f64 h it r : moderate it -> rounds it r ->
  exists x, get_as_raw_double h it = Ok x /\ moderate_f64 x /\ nearest x r.
Proof.
  destruct it; intros M R; cbn [rounds moderate] in *; try contradiction.
  - eexists. split; [reflexivity|]. subst. destruct (integer_arg _ M). auto.
  - eexists. split; [reflexivity|]. auto.
  - eexists. split; [reflexivity|]. auto.
Qed.
Lemma finite_cases x : is_finite_SF x = true -> is_nan x = false /\ is_infinite x = false.
Proof. destruct x; cbn; try discriminate; auto. Qed.

(* ------------------------------------------------------------------ slices *)
Lemma positions_none {A} (l : list A) : forall p keep, (forall q, p <= q -> keep q = false) -> positions_from p keep l = [].
Proof.
  induction l as [|a l IH]; intros p keep H; [reflexivity|]. cbn [positions_from]. rewrite H by lia. apply IH. intros; apply H; lia.
Qed.
Lemma positions_ext {A} (l : list A) : forall p f g, (forall q, p <= q < p + Z.of_nat (List.length l) -> f q = g q) ->
  positions_from p f l = positions_from p g l.
Proof.
  induction l as [|a l IH]; intros p f g H; [reflexivity|]. cbn [positions_from List.length] in *. rewrite (H p) by lia.
  rewrite (IH (p + 1) f g); auto. intros; apply H; lia.
Qed.
Lemma positions_firstn {A} (l : list A) : forall p k, positions_from p (fun q => q <? p + Z.of_nat k) l = firstn k l.
Proof.
  induction l as [|a l IH]; intros p k; [destruct k; reflexivity|]. destruct k as [|k].
  - apply positions_none. intros q H. apply Z.ltb_ge. lia.
  - cbn [positions_from firstn]. destruct (Z.ltb_spec p (p + Z.of_nat (S k))); [|lia]. f_equal. rewrite <- (IH (p + 1)).
    apply positions_ext. intros q _. f_equal. lia.
Qed.
Lemma positions_skipn {A} (l : list A) : forall p k keep, (forall q, p <= q < p + Z.of_nat k -> keep q = false) ->
  positions_from p keep l = positions_from (p + Z.of_nat k) keep (skipn k l).
Proof.
  induction l as [|a l IH]; intros p k keep H; [destruct k; reflexivity|]. destruct k as [|k].
  - cbn [skipn]. f_equal. lia.
  - cbn [positions_from skipn]. rewrite H by lia. rewrite (IH (p + 1) k).
    + f_equal. lia.
    + intros; apply H; lia.
Qed.
Lemma slice_positions {A} (l : list A) b e : 0 <= b -> b <= e ->
  slice l b e = at_positions (fun p => (b <? p) && (p <=? e)) l.
Proof.
  intros B E. unfold at_positions, slice. rewrite (positions_skipn l 1 (Z.to_nat b)).
  - rewrite <- (positions_firstn (skipn (Z.to_nat b) l) (1 + Z.of_nat (Z.to_nat b))). apply positions_ext. intros q H.
    destruct (Z.ltb_spec b q), (Z.leb_spec q e), (Z.ltb_spec q (1 + Z.of_nat (Z.to_nat b) + Z.of_nat (Z.to_nat (e - b)))); cbn; lia.
  - intros q H. destruct (Z.ltb_spec b q); [lia|reflexivity].
Qed.
Lemma slice_empty {A} (l : list A) : slice l 0 0 = at_positions (fun _ => false) l.
Proof. unfold at_positions. rewrite positions_none by auto. reflexivity. Qed.

Ltac no_if t := lazymatch t with context [if _ then _ else _] => fail | _ => idtac end.
Ltac zcases := repeat match goal with
  | |- context [?a <=? ?b] => no_if a; no_if b; destruct (Z.leb_spec a b)
  | |- context [?a <? ?b] => no_if a; no_if b; destruct (Z.ltb_spec a b)
  end.

(* ------------------------------------------------------------------ the index computation *)
Definition finite_length (i j : Z) (p : Z) : bool := (i <=? p) && (p <? i + j).
Lemma sub_finite {A} (l : list A) x y i j : moderate_f64 x -> moderate_f64 y -> nearest x i -> nearest y j ->
  exists b e, subcollection_index_sub (List.length l) x y = Ok (b, e) /\
              slice l b e = at_positions (finite_length i j) l.
Proof.
  intros Mx My Nx Ny. destruct (round_x_nearest x i Mx Nx) as [Ex Bx]. destruct (round_x_nearest y j My Ny) as [Ey By].
  apply nearest_real in Nx as Nx'. apply nearest_real in Ny as Ny'.
  destruct (finite_cases x (proj1 Nx')) as [X1 X2]. destruct (finite_cases y (proj1 Ny')) as [Y1 Y2].
  unfold subcollection_index_sub. rewrite X1, X2, Y1, Y2. cbn [orb andb]. rewrite Ex.
  assert (C1 : chk (i - 1) = Ok (i - 1)) by (unfold chk, in_i64, i64_min, i64_max; destruct (Z.leb_spec (- 2 ^ 63) (i - 1)), (Z.leb_spec (i - 1) (2 ^ 63 - 1)); auto; lia).
  rewrite C1. cbn [bind]. cbv zeta. destruct (is_sign_negative y) eqn:SN.
  - assert (j <= 0).
    { assert (real y <= 0)%R.
      { destruct y as [s|s| |s m e]; cbn in SN; try (destruct Ny'; discriminate); cbn [SF2R]; [lra|]. subst s.
        apply F2R_le_0. cbn. lia. }
      destruct Ny' as [_ <-]. apply Z.lt_succ_r. apply lt_IZR. unfold Z.succ. rewrite plus_IZR.
      assert (B := Zfloor_lb (real y + 1 / 2)). lra. }
    do 2 eexists. split; [reflexivity|]. rewrite slice_empty. apply positions_ext. intros q _. unfold finite_length.
    destruct (Z.leb_spec i q), (Z.ltb_spec q (i + j)); cbn; lia.
  - assert (0 <= j).
    { assert (0 <= real y)%R.
      { destruct y as [s|s| |s m e]; cbn in SN; try (destruct Ny'; discriminate); cbn [SF2R]; [lra|]. subst s.
        apply F2R_ge_0. cbn. lia. }
      destruct Ny' as [_ <-]. apply Zfloor_lub. lra. }
    rewrite Ey.
    assert (C2 : chk (i + j) = Ok (i + j)) by (unfold chk, in_i64, i64_min, i64_max; destruct (Z.leb_spec (- 2 ^ 63) (i + j)), (Z.leb_spec (i + j) (2 ^ 63 - 1)); auto; lia).
    assert (C3 : chk (i + j - 1) = Ok (i + j - 1)) by (unfold chk, in_i64, i64_min, i64_max; destruct (Z.leb_spec (- 2 ^ 63) (i + j - 1)), (Z.leb_spec (i + j - 1) (2 ^ 63 - 1)); auto; lia).
    rewrite C2. cbn [bind]. rewrite C3. cbn [bind].
    set (n := Z.of_nat (List.length l)).
    do 2 eexists. split; [reflexivity|]. rewrite slice_positions.
    + apply positions_ext. intros q Hq. fold n in Hq. unfold finite_length.
      zcases; cbn [andb] in *; try reflexivity; exfalso; lia.
    + zcases; lia.
    + zcases; lia.
Qed.
Lemma sub_rest {A} (l : list A) x i : moderate_f64 x -> nearest x i ->
  exists b e, subcollection_index_sub (List.length l) x f_inf = Ok (b, e) /\
              slice l b e = at_positions (fun p => i <=? p) l.
Proof.
  intros Mx Nx. destruct (round_x_nearest x i Mx Nx) as [Ex Bx].
  apply nearest_real in Nx as Nx'. destruct (finite_cases x (proj1 Nx')) as [X1 X2].
  unfold subcollection_index_sub. rewrite X1, X2. cbn [orb andb f_inf is_infinite is_sign_negative negb]. rewrite Ex.
  assert (C1 : chk (i - 1) = Ok (i - 1)) by (unfold chk, in_i64, i64_min, i64_max; destruct (Z.leb_spec (- 2 ^ 63) (i - 1)), (Z.leb_spec (i - 1) (2 ^ 63 - 1)); auto; lia).
  rewrite C1. cbn [bind]. cbv zeta. set (n := Z.of_nat (List.length l)).
  do 2 eexists. split; [reflexivity|]. rewrite slice_positions.
  - apply positions_ext. intros q Hq. fold n in Hq.
    zcases; cbn [andb] in *; try reflexivity; exfalso; lia.
  - zcases; lia.
  - zcases; lia.
Qed.

(* ------------------------------------------------------------------ C28 *)
Lemma at_none {A} (l : list A) f : l = [] -> at_positions f l = [].
Proof. intros ->. reflexivity. Qed.
Theorem C28_subsequence_partial : forall h c s a b i j, moderate a -> moderate b -> rounds a i -> rounds b j ->
  fn_value h c (lit "fn:subsequence") [s; [a]; [b]] (Ok (at_positions (fun p => (i <=? p) && (p <? i + j)) s)).
Proof.
  intros h c s a b i j Ma Mb Ra Rb. destruct (arg_f64 h a i Ma Ra) as [x [Gx [Mx Nx]]].
  destruct (arg_f64 h b j Mb Rb) as [y [Gy [My Ny]]]. destruct (sub_finite s x y i j Mx My Nx Ny) as [p [q [E S]]].
  fnv. unfold fn_subsequence. destruct s as [|it s]; [reflexivity|].
  unfold start_of, get_length. cbn [get_singleton_item bind]. rewrite Gx, Gy. cbn [bind]. rewrite E. cbn [bind]. rewrite S. reflexivity.
Qed.
Theorem C28_subsequence_rest_partial : forall h c s a i, moderate a -> rounds a i ->
  fn_value h c (lit "fn:subsequence") [s; [a]] (Ok (at_positions (fun p => i <=? p) s)).
Proof.
  intros h c s a i Ma Ra. destruct (arg_f64 h a i Ma Ra) as [x [Gx [Mx Nx]]].
  destruct (sub_rest s x i Mx Nx) as [p [q [E S]]].
  fnv. unfold fn_subsequence. destruct s as [|it s]; [reflexivity|].
  unfold start_of, get_length. cbn [get_singleton_item bind]. rewrite Gx. cbn [bind]. rewrite E. cbn [bind]. rewrite S. reflexivity.
Qed.
Theorem C28_substring_partial : forall h c s a b i j, moderate a -> moderate b -> rounds a i -> rounds b j ->
  fn_value h c (lit "fn:substring") [[XIString s]; [a]; [b]]
    (Ok [XIString (at_positions (fun p => (i <=? p) && (p <? i + j)) s)]).
Proof.
  intros h c s a b i j Ma Mb Ra Rb. destruct (arg_f64 h a i Ma Ra) as [x [Gx [Mx Nx]]].
  destruct (arg_f64 h b j Mb Rb) as [y [Gy [My Ny]]]. destruct (sub_finite s x y i j Mx My Nx Ny) as [p [q [E S]]].
  fnv. unfold fn_substring, start_of, get_length. cbn [get_singleton_string get_singleton_item bind]. rewrite Gx, Gy. cbn [bind].
  rewrite E. cbn [bind]. rewrite S. reflexivity.
Qed.
Theorem C28_substring_rest_partial : forall h c s a i, moderate a -> rounds a i ->
  fn_value h c (lit "fn:substring") [[XIString s]; [a]] (Ok [XIString (at_positions (fun p => i <=? p) s)]).
Proof.
  intros h c s a i Ma Ra. destruct (arg_f64 h a i Ma Ra) as [x [Gx [Mx Nx]]].
  destruct (sub_rest s x i Mx Nx) as [p [q [E S]]].
  fnv. unfold fn_substring, start_of, get_length. cbn [get_singleton_string get_singleton_item bind]. rewrite Gx. cbn [bind].
  rewrite E. cbn [bind]. rewrite S. reflexivity.
Qed.
(* An infinite length selects the rest; NaN, or a length of minus infinity, nothing. *)
Theorem C28_infinite_length : forall h c s t a i, moderate a -> rounds a i ->
  fn_value h c (lit "fn:subsequence") [s; [a]; [XIDouble (S754_infinity false)]] (Ok (at_positions (fun p => i <=? p) s)) /\
  fn_value h c (lit "fn:substring") [[XIString t]; [a]; [XIDouble (S754_infinity false)]]
    (Ok [XIString (at_positions (fun p => i <=? p) t)]).
Proof.
  intros h c s t a i Ma Ra. destruct (arg_f64 h a i Ma Ra) as [x [Gx [Mx Nx]]].
  destruct (sub_rest s x i Mx Nx) as [p [q [E S]]]. destruct (sub_rest t x i Mx Nx) as [p' [q' [E' S']]]. split.
  - fnv. unfold fn_subsequence. destruct s as [|it s]; [reflexivity|].
    unfold start_of, get_length. cbn [get_singleton_item bind get_as_raw_double]. rewrite Gx. cbn [bind].
    change (S754_infinity false) with f_inf. rewrite E. cbn [bind]. rewrite S. reflexivity.
  - fnv. unfold fn_substring, start_of, get_length. cbn [get_singleton_string get_singleton_item bind get_as_raw_double]. rewrite Gx. cbn [bind].
    change (S754_infinity false) with f_inf. rewrite E'. cbn [bind]. rewrite S'. reflexivity.
Qed.
Theorem C28_nan_length : forall h c s t a i y, moderate a -> rounds a i -> y = S754_nan \/ y = S754_infinity true ->
  fn_value h c (lit "fn:subsequence") [s; [a]; [XIDouble y]] (Ok []) /\
  fn_value h c (lit "fn:substring") [[XIString t]; [a]; [XIDouble y]] (Ok [XIString []]).
Proof.
  intros h c s t a i y Ma Ra Y. destruct (arg_f64 h a i Ma Ra) as [x [Gx [Mx Nx]]].
  destruct (round_x_nearest x i Mx Nx) as [Ex Bx]. apply nearest_real in Nx as Nx'.
  destruct (finite_cases x (proj1 Nx')) as [X1 X2].
  assert (C1 : chk (i - 1) = Ok (i - 1)) by (unfold chk, in_i64, i64_min, i64_max; destruct (Z.leb_spec (- 2 ^ 63) (i - 1)), (Z.leb_spec (i - 1) (2 ^ 63 - 1)); auto; lia).
  assert (E : forall n, subcollection_index_sub n x y = Ok (0, 0)).
  { intro n. unfold subcollection_index_sub. rewrite X1, X2. cbn [orb]. rewrite Ex, C1. cbn [bind]. cbv zeta.
    destruct Y as [->| ->]; reflexivity. }
  split.
  - fnv. unfold fn_subsequence. destruct s as [|it s]; [reflexivity|].
    unfold start_of, get_length. cbn [get_singleton_item bind get_as_raw_double]. rewrite Gx. cbn [bind]. rewrite E. reflexivity.
  - fnv. unfold fn_substring, start_of, get_length. cbn [get_singleton_string get_singleton_item bind get_as_raw_double]. rewrite Gx. cbn [bind].
    rewrite E. reflexivity.
Qed.
(* With a start that is NaN or infinite nothing is selected, whatever the length ... *)
Theorem C28_nonfinite_start : forall h c s t x y, is_finite_SF x = false ->
  fn_value h c (lit "fn:subsequence") [s; [XIDouble x]; [XIDouble y]] (Ok []) /\
  fn_value h c (lit "fn:substring") [[XIString t]; [XIDouble x]; [XIDouble y]] (Ok [XIString []]) /\
  fn_value h c (lit "fn:subsequence") [s; [XIDouble x]] (Ok []) /\
  fn_value h c (lit "fn:substring") [[XIString t]; [XIDouble x]] (Ok [XIString []]).
Proof.
  intros h c s t x y F.
  assert (E : forall n z, subcollection_index_sub n x z = Ok (0, 0)).
  { intros n z. unfold subcollection_index_sub. destruct x; try discriminate F; reflexivity. }
  split; [|split; [|split]]; fnv; unfold fn_subsequence, fn_substring, start_of, get_length;
    cbn [get_singleton_string get_singleton_item bind get_as_raw_double]; try (destruct s as [|it s]; [reflexivity|]); rewrite E; reflexivity.
Qed.
(* ... which is right except for subsequence(s, -INF), every item of which has a position >= -INF *)
Theorem C28_negative_infinity_refuted : forall h c it s,
  fn_value h c (lit "fn:subsequence") [it :: s; [XIDouble (S754_infinity true)]] (Ok []).
Proof. intros. fnv. reflexivity. Qed.
(* Outside the moderate numbers the claim is false: a crash, and wrong rounding. *)
Theorem C28_panic_refuted :
  xpath_gives [] 0 (lit "subsequence((1, 2), -1e19)") Panic /\
  xpath_gives [] 0 (lit "substring('abc', 1e19, 1e19)") Panic.
Proof. split; (split; [discriminate|exists 20%nat; vm_compute; reflexivity]). Qed.
Theorem C28_rounding_refuted :
  (* round(0.49999999999999994) is 0 *)
  (nearest (S754_finite false 9007199254740991 (-54)) 0 /\
   xpath_gives [] 0 (lit "subsequence((1, 2), 1, 0.49999999999999994)") (Ok [XIInteger 1])) /\
  (* -4503599627370497 + 4503599627370499 is 2 *)
  xpath_gives [] 0 (lit "subsequence((1, 2, 3, 4, 5), -4503599627370497, 4503599627370499)")
    (Ok [XIInteger 1; XIInteger 2; XIInteger 3]).
Proof.
  split; [split; [cbn; lia|]|]; (split; [discriminate|exists 20%nat; vm_compute; reflexivity]).
Qed.
Example C28_example :
  (moderate (XIDecimal (S754_finite false 6755399441055744 (-52))) /\ rounds (XIDecimal (S754_finite false 6755399441055744 (-52))) 2 /\
   moderate (XIDouble (S754_finite false 5854679515581645 (-51))) /\ rounds (XIDouble (S754_finite false 5854679515581645 (-51))) 3) /\
  eval_xpath 20 [] 0 (lit "substring('12345', 1.5, 2.6)") = Ok [XIString (lit "234")] /\
  moderate (XIInteger (-3)) /\ rounds (XIInteger (-3)) (-3) /\
  eval_xpath 20 [] 0 (lit "subsequence((1, 2, 3, 4), -3, 6)") = Ok [XIInteger 1; XIInteger 2].
Proof.
  split; [|split; [vm_compute; reflexivity|split; [cbn; lia|split; [reflexivity|vm_compute; reflexivity]]]].
  repeat split; try (cbn; lia); try discriminate; reflexivity.
Qed.

(* ------------------------------------------------------------------ C55 *)
Lemma has_value_real x r : has_value x r <-> is_finite_SF x = true /\ real x = IZR r.
Proof.
  destruct x as [s|s| |s m e]; cbn [has_value is_finite_SF]; try (split; [intros []|intros [? _]; discriminate]).
  - cbn [SF2R]. split; [intros ->; auto|]. intros [_ H]. apply eq_IZR in H. auto.
  - assert (N : (if s then Z.neg m else Z.pos m) = signed s (Z.pos m)) by (destruct s; reflexivity).
    rewrite N. clear N. destruct (0 <=? e) eqn:E.
    + rewrite real_pos by lia. split; [intros ->; auto|]. intros [_ H]. apply eq_IZR in H. auto.
    + assert (Q := pow_pos e ltac:(lia)). assert (QR : (0 < IZR (2 ^ (- e)))%R) by (apply IZR_lt; lia).
      rewrite real_neg by lia. split.
      * intros ->. split; [auto|]. rewrite mult_IZR. field. lra.
      * intros [_ H]. apply eq_IZR. rewrite mult_IZR, <- H. field. lra.
Qed.
Lemma floor_real x r : floor_of x r <-> is_finite_SF x = true /\ Zfloor (real x) = r.
Proof.
  unfold floor_of. rewrite half_between_real. rewrite plus_IZR, mult_IZR.
  split; intros [F A]; split; auto.
  - apply Zfloor_imp. rewrite plus_IZR. lra.
  - subst r. assert (B := Zfloor_lb (real x)). assert (C := Zfloor_ub (real x)). lra.
Qed.
Lemma real_opp x : real (SFopp x) = (- real x)%R.
Proof. destruct x as [s|s| |s m e]; cbn [SFopp SF2R]; try lra. rewrite <- F2R_Zopp. destruct s; reflexivity. Qed.
Lemma ceiling_real x r : ceiling_of x r <-> is_finite_SF x = true /\ Zceil (real x) = r.
Proof.
  unfold ceiling_of. rewrite floor_real, real_opp. unfold Zceil. destruct x; cbn [SFopp is_finite_SF]; split; intros [A B]; split; auto; lia.
Qed.
Lemma small_mantissa s m e : valid (S754_finite s m e) -> e < 0 -> Z.abs (signed s (Z.pos m) / 2 ^ (- e)) <= 2 ^ 53.
Proof.
  intros V E. destruct (valid_bounds _ _ _ V) as [M _]. assert (Q := pow_pos e E).
  assert (- 2 ^ 53 <= signed s (Z.pos m) < 2 ^ 53) by (destruct s; cbn [signed]; lia).
  assert (signed s (Z.pos m) / 2 ^ (- e) < 2 ^ 53) by (apply Z.div_lt_upper_bound; nia).
  assert (- 2 ^ 53 <= signed s (Z.pos m) / 2 ^ (- e)) by (apply Z.div_le_lower_bound; nia). lia.
Qed.
Lemma ffloor_real x : valid x -> is_finite_SF x = true -> is_finite_SF (ffloor x) = true /\ real (ffloor x) = IZR (Zfloor (real x)).
Proof.
  intros V F. destruct x as [s|s| |s m e]; try discriminate F.
  - cbn [ffloor SF2R]. change 0%R with (IZR 0). rewrite Zfloor_IZR. auto.
  - cbn [ffloor]. destruct (0 <=? e) eqn:P.
    + split; [auto|]. rewrite real_pos by lia. now rewrite Zfloor_IZR.
    + assert (Q := pow_pos e ltac:(lia)).
      assert (X : Zfloor (real (S754_finite s m e)) = signed s (Z.pos m) / 2 ^ (- e)).
      { rewrite real_neg by lia. apply Zfloor_div. lia. }
      rewrite X. destruct (norm_int_real _ s (small_mantissa s m e V ltac:(lia))) as [R1 [R2 _]]. auto.
Qed.
Lemma fceil_real x : valid x -> is_finite_SF x = true -> is_finite_SF (fceil x) = true /\ real (fceil x) = IZR (Zceil (real x)).
Proof.
  intros V F. destruct x as [s|s| |s m e]; try discriminate F.
  - cbn [fceil SF2R]. change 0%R with (IZR 0). rewrite Zceil_IZR. auto.
  - cbn [fceil]. destruct (0 <=? e) eqn:P.
    + split; [auto|]. rewrite real_pos by lia. now rewrite Zceil_IZR.
    + assert (Q := pow_pos e ltac:(lia)).
      assert (X : Zceil (real (S754_finite s m e)) = - (- signed s (Z.pos m) / 2 ^ (- e))).
      { unfold Zceil. rewrite real_neg by lia. f_equal. replace (- (IZR (signed s (Z.pos m)) / IZR (2 ^ (- e))))%R
          with (IZR (- signed s (Z.pos m)) / IZR (2 ^ (- e)))%R by (rewrite opp_IZR; unfold Rdiv; ring). apply Zfloor_div. lia. }
      rewrite X. assert (B := small_mantissa (negb s) m e V ltac:(lia)).
      assert (SG : signed (negb s) (Z.pos m) = - signed s (Z.pos m)) by (destruct s; reflexivity). rewrite SG in B.
      destruct (norm_int_real (- (- signed s (Z.pos m) / 2 ^ (- e))) s) as [R1 [R2 _]]; [lia|]. auto.
Qed.
(* floor and ceiling of every finite double or decimal are exact *)
Theorem C55_floor : forall h c it mk x r, (it, mk) = (XIDouble x, XIDouble) \/ (it, mk) = (XIDecimal x, XIDecimal) ->
  is_f64 x -> floor_of x r ->
  exists y, fn_value h c (lit "fn:floor") [[it]] (Ok [mk y]) /\ has_value y r.
Proof.
  intros h c it mk x r K V R. apply floor_real in R. destruct R as [F R]. destruct (ffloor_real x V F) as [A B].
  destruct K as [E|E]; injection E as -> ->.
  - exists (floor_x x). split; [fnv; reflexivity|]. apply has_value_real. unfold floor_x.
    destruct (neg_zero x) eqn:NZ; [|rewrite <- R; auto].
    destruct x as [[]|[]| |[] m e]; try discriminate NZ. cbn [SF2R] in R. change 0%R with (IZR 0) in R. rewrite Zfloor_IZR in R. subst. split; reflexivity.
  - exists (ffloor x). split; [fnv; reflexivity|]. apply has_value_real. rewrite <- R. auto.
Qed.
Theorem C55_ceiling : forall h c it mk x r, (it, mk) = (XIDouble x, XIDouble) \/ (it, mk) = (XIDecimal x, XIDecimal) ->
  is_f64 x -> ceiling_of x r ->
  exists y, fn_value h c (lit "fn:ceiling") [[it]] (Ok [mk y]) /\ has_value y r.
Proof.
  intros h c it mk x r K V R. apply ceiling_real in R. destruct R as [F R]. destruct (fceil_real x V F) as [A B].
  destruct K as [E|E]; injection E as -> ->.
  - exists (ceil_x x). split; [fnv; reflexivity|]. apply has_value_real. unfold ceil_x.
    assert (MH : real f_minus_one = (-1)%R /\ valid f_minus_one /\ is_finite_SF f_minus_one = true).
    { destruct (norm_int_real (-1) false) as [R1 [R2 R3]]; [lia|]. auto. }
    destruct MH as [MR [MV MF]].
    assert (L1 : fltb f_minus_one x = Rlt_bool (-1) (real x)).
    { assert (C := Bltb_correct prec64 emax64 (b64 _ MV) (b64 x V)). rewrite !is_finite_SF2B, !B2R_SF2B, MR in C.
      unfold Bltb in C. rewrite !B2SF_SF2B in C. apply C; auto. }
    assert (L2 : fltb x f_zero = Rlt_bool (real x) 0).
    { assert (C := Bltb_correct prec64 emax64 (b64 x V) (B754_zero false)). rewrite !is_finite_SF2B, !B2R_SF2B in C.
      unfold Bltb in C. rewrite !B2SF_SF2B in C. apply C; auto. }
    rewrite L1, L2. destruct (neg_zero x) eqn:NZ.
    + destruct x as [[]|[]| |[] m e]; try discriminate NZ. cbn [SF2R] in R. change 0%R with (IZR 0) in R. rewrite Zceil_IZR in R. subst. split; reflexivity.
    + cbn [orb]. destruct (Rlt_bool_spec (-1) (real x)) as [G|G], (Rlt_bool_spec (real x) 0) as [H|H]; cbn [andb]; try (rewrite <- R; auto; fail).
      split; [reflexivity|]. assert (Z : r = 0); [|rewrite Z; reflexivity]. rewrite <- R. apply Zceil_imp. cbn. lra.
  - exists (fceil x). split; [fnv; reflexivity|]. apply has_value_real. rewrite <- R. auto.
Qed.
Lemma dec_round_real x : valid x -> is_finite_SF x = true -> (Rabs (real x) < IZR (2 ^ 52))%R -> x <> almost_half ->
  Zfloor (rnd64 (real x + 1 / 2)) = Zfloor (real x + 1 / 2).
Proof.
  intros V F A NE. destruct (Rle_or_lt 0 (real x)); [apply round_half_floor; auto|].
  destruct (Rle_or_lt (- (1 / 2)) (real x)); [|apply round_half_floor; auto].
  rewrite (Zfloor_imp 0 (real x + 1 / 2)) by (cbn; lra). apply Zfloor_imp. cbn [Z.add]. split.
  - apply round_ge_generic; auto with typeclass_instances; [|lra]. apply (format_int 0). lia.
  - apply Rle_lt_trans with (1 / 2)%R; [|lra]. apply round_le_generic; auto with typeclass_instances; [|lra].
    replace (1 / 2)%R with (F2R (Float radix2 1 (-1))) by (unfold F2R; cbn; lra). apply format_F2R; lia.
Qed.
(* rounding, for the numbers of moderate size: the nearest integer, a tie goes up *)
Theorem C55_round_partial : forall h c it mk x r, (it, mk) = (XIDouble x, XIDouble) \/ (it, mk) = (XIDecimal x, XIDecimal) ->
  moderate_f64 x -> nearest x r ->
  exists y, fn_value h c (lit "fn:round") [[it]] (Ok [mk y]) /\ has_value y r.
Proof.
  intros h c it mk x r K M R. apply nearest_real in R. destruct R as [F R]. destruct (moderate_real x M) as [V [_ [A NE]]].
  destruct half_real as [HR [HV HF]]. apply Rabs_def2 in A as A'.
  destruct (fadd_real x f_half (2 ^ 53)) as [R1 [R2 R3]]; auto; [|lia|].
  { rewrite HR. apply Rabs_le. rewrite <- opp_IZR. split.
    - apply Rle_trans with (- IZR (2 ^ 52))%R; [rewrite <- opp_IZR; apply IZR_le; lia|lra].
    - apply Rle_trans with (IZR (2 ^ 52) + 1)%R; [lra|rewrite <- plus_IZR; apply IZR_le; lia]. }
  destruct (ffloor_real (fadd x f_half) R3 R2) as [G1 G2]. rewrite R1, HR, dec_round_real, R in G2 by auto.
  assert (D : has_value (ffloor (fadd x f_half)) r) by (apply has_value_real; auto).
  destruct K as [E|E]; injection E as -> ->.
  - exists (round_x x). split; [fnv; reflexivity|].
    assert (RX : round_x x = fdiv f_one f_neginf \/ round_x x = ffloor (fadd x f_half)) by (unfold round_x; destruct (_ || _); auto).
    destruct RX as [RX|RX]; [|rewrite RX; exact D].
    assert (Z0 := round_x_real x V F A NE). rewrite R, RX in Z0. rewrite RX. vm_compute in Z0. rewrite <- Z0. reflexivity.
  - exists (ffloor (fadd x f_half)). split; [fnv; reflexivity|exact D].
Qed.
Theorem C55_round_refuted :
  (* the nearest integers are 0 and 4503599627370497 *)
  (nearest (S754_finite false 9007199254740991 (-54)) 0 /\
   xpath_gives [] 0 (lit "round(0.49999999999999994) = 1") (Ok [XIBoolean true])) /\
  (nearest (S754_finite false 4503599627370497 0) 4503599627370497 /\
   xpath_gives [] 0 (lit "round(4503599627370497.0) = 4503599627370498") (Ok [XIBoolean true])).
Proof.
  split; (split; [cbn; lia|split; [discriminate|exists 20%nat; vm_compute; reflexivity]]).
Qed.
(* integers are their own floor, ceiling and rounded value; abs overflows for the least integer *)
Theorem C55_integers : forall h c z,
  fn_value h c (lit "fn:floor") [[XIInteger z]] (Ok [XIInteger z]) /\
  fn_value h c (lit "fn:ceiling") [[XIInteger z]] (Ok [XIInteger z]) /\
  fn_value h c (lit "fn:round") [[XIInteger z]] (Ok [XIInteger z]) /\
  (- 2 ^ 63 < z < 2 ^ 63 -> fn_value h c (lit "fn:abs") [[XIInteger z]] (Ok [XIInteger (Z.abs z)])).
Proof.
  intros. split; [fnv; reflexivity|]. split; [fnv; reflexivity|]. split; [fnv; reflexivity|].
  intro L. fnv. unfold fn_abs, fn_numeric_unary. assert (C : chk (Z.abs z) = Ok (Z.abs z)).
  { unfold chk, in_i64, i64_min, i64_max. destruct (Z.leb_spec (- 2 ^ 63) (Z.abs z)), (Z.leb_spec (Z.abs z) (2 ^ 63 - 1)); auto; lia. }
  rewrite C. reflexivity.
Qed.
Theorem C55_abs_refuted : forall h c, fn_value h c (lit "fn:abs") [[XIInteger (- 2 ^ 63)]] Panic.
Proof. intros. fnv. reflexivity. Qed.
(* the infinities and NaN stay what they are *)
Theorem C55_nonfinite : forall h c x, is_finite_SF x = false ->
  fn_value h c (lit "fn:floor") [[XIDouble x]] (Ok [XIDouble x]) /\
  fn_value h c (lit "fn:ceiling") [[XIDouble x]] (Ok [XIDouble x]) /\
  fn_value h c (lit "fn:round") [[XIDouble x]] (Ok [XIDouble x]).
Proof.
  intros h c x F. destruct x as [s|s| |s m e]; try discriminate F; try destruct s; (split; [|split]); fnv; reflexivity.
Qed.
Example C55_example :
  (moderate_f64 (S754_finite true 5629499534213120 (-51)) /\ nearest (S754_finite true 5629499534213120 (-51)) (-2) /\
   ceiling_of (S754_finite true 5629499534213120 (-51)) (-2) /\ floor_of (S754_finite true 5629499534213120 (-51)) (-3)) /\
  eval_xpath 20 [] 0 (lit "(round(-2.5) = -2, ceiling(-2.5) = -2, floor(-2.5) = -3)") =
    Ok [XIBoolean true; XIBoolean true; XIBoolean true].
Proof. split; [|vm_compute; reflexivity]. repeat split; try (cbn; lia); try discriminate; reflexivity. Qed.

(* The model of case conversion meets its specification. *)
Require Import Bool List NArith Lia Sorted.
Require Import Verif.Str Verif.StrFacts Verif.CaseTable Verif.Case Verif.SpecCase.
Import ListNotations.
Open Scope N_scope.

(* ------------------------------------------------ tables *)
Fixpoint rows_ok (lo : N) (t : list (N * N * N * N)) : bool :=
  match t with
  | [] => true
  | (a, b, st, e) :: t' => (lo <=? a) && (a <=? b) && (1 <=? st) && rows_ok (b + 1) t'
  end.
Lemma upper_rows : rows_ok 0 upper_ranges = true. Proof. vm_compute. reflexivity. Qed.
Lemma lower_rows : rows_ok 0 lower_ranges = true. Proof. vm_compute. reflexivity. Qed.
Lemma rows_above : forall t lo a b st e, rows_ok lo t = true -> In (a, b, st, e) t -> lo <= a /\ a <= b /\ 1 <= st.
Proof.
  induction t as [|[[[a' b'] st'] e'] t IH]; intros lo a b st e O I; [destruct I|]. cbn [rows_ok] in O.
  rewrite !andb_true_iff, !N.leb_le in O. destruct O as [[[L1 L2] L3] O].
  destruct I as [E|I]; [inversion E; subst; lia|]. destruct (IH _ _ _ _ _ O I) as [A B]. lia.
Qed.
Lemma in_step a b st c : 1 <= st -> ((a <=? c) && (c <=? b) && ((c - a) mod st =? 0) = true <-> exists k, c = a + k * st /\ c <= b).
Proof.
  intros S. rewrite !andb_true_iff, !N.leb_le, N.eqb_eq. split.
  - intros [[A B] M]. exists ((c - a) / st). split; auto. assert (D := N.div_mod (c - a) st). lia.
  - intros [k [-> B]]. split; [lia|]. replace (a + k * st - a) with (k * st) by lia. apply N.mod_mul. lia.
Qed.
Lemma range_map_iff : forall t lo c d, rows_ok lo t = true -> (range_map t c = Some d <-> maps_to t c d).
Proof.
  induction t as [|[[[a b] st] e] t IH]; intros lo c d O; cbn [range_map].
  - split; [discriminate|]. intros (a & b & st & e & k & [] & _).
  - assert (R := fun x y z w I => rows_above _ _ x y z w O I).
    cbn [rows_ok] in O. rewrite !andb_true_iff, !N.leb_le in O. destruct O as [[[L1 L2] L3] O].
    assert (R' := fun x y z w I => rows_above _ _ x y z w O I). specialize (IH _ c d O).
    destruct ((a <=? c) && (c <=? b) && ((c - a) mod st =? 0)) eqn:E.
    + apply in_step in E; [|lia]. destruct E as [k [-> B]]. replace (a + k * st - a) with (k * st) by lia. split.
      * intros H; inversion H; subst. exists a, b, st, e, k. repeat split; auto. left; auto.
      * intros (a' & b' & st' & e' & k' & [I|I] & C & B' & ->).
        -- inversion I; subst. f_equal. assert (k = k') by nia. subst; auto.
        -- destruct (R' _ _ _ _ I). lia.
    + rewrite IH. split.
      * intros (a' & b' & st' & e' & k' & I & H). exists a', b', st', e', k'. split; auto. right; auto.
      * intros (a' & b' & st' & e' & k' & [I|I] & C & B' & D).
        -- exfalso. inversion I; subst. assert (F : (a' <=? a' + k' * st') && (a' + k' * st' <=? b') && ((a' + k' * st' - a') mod st' =? 0) = true)
             by (apply in_step; [lia|eauto]). congruence.
        -- exists a', b', st', e', k'. auto.
Qed.
Lemma multi_map_in : forall t c w, multi_map t c = Some w -> In (c, w) t.
Proof.
  induction t as [|[a v] t IH]; intros c w H; cbn [multi_map] in H; [discriminate|].
  destruct (N.eqb_spec c a); [subst; inversion H; subst; left; auto|right; auto].
Qed.
Lemma multi_map_none : forall t c, multi_map t c = None -> forall w, ~ In (c, w) t.
Proof.
  induction t as [|[a v] t IH]; intros c H w I; [destruct I|]. cbn [multi_map] in H.
  destruct (N.eqb_spec c a); [discriminate|]. destruct I as [E|I]; [inversion E; congruence|]. exact (IH _ H _ I).
Qed.
Lemma multi_map_nodup : forall t c w, NoDup (map fst t) -> In (c, w) t -> multi_map t c = Some w.
Proof.
  induction t as [|[a v] t IH]; intros c w ND I; [destruct I|]. cbn [map fst] in ND. apply NoDup_cons_iff in ND. destruct ND as [NI ND].
  cbn [multi_map]. destruct I as [E|I]; [inversion E; subst; rewrite N.eqb_refl; auto|].
  destruct (N.eqb_spec c a) as [->|]; auto. destruct NI. change a with (fst (a, w)). apply in_map; auto.
Qed.
Fixpoint increasing (lo : N) (l : list N) : bool :=
  match l with [] => true | x :: r => (lo <=? x) && increasing (x + 1) r end.
Lemma increasing_above : forall l lo x, increasing lo l = true -> In x l -> lo <= x.
Proof.
  induction l as [|y l IH]; intros lo x O I; [destruct I|]. cbn [increasing] in O. apply andb_true_iff in O. destruct O as [A O]. apply N.leb_le in A.
  destruct I as [->|I]; auto. specialize (IH _ _ O I). lia.
Qed.
Lemma increasing_nodup : forall l lo, increasing lo l = true -> NoDup l.
Proof.
  induction l as [|y l IH]; intros lo O; constructor; cbn [increasing] in O; apply andb_true_iff in O; destruct O as [A O]; eauto.
  intro I. assert (B := increasing_above _ _ _ O I). lia.
Qed.
Definition apart (t : list (N * N * N * N)) (m : list (N * list N)) : bool :=
  forallb (fun p => match range_map t (fst p) with None => true | _ => false end) m.
Definition tables_ok (t : list (N * N * N * N)) (m : list (N * list N)) : bool :=
  rows_ok 0 t && increasing 0 (map fst m) && apart t m.
Lemma upper_tables : tables_ok upper_ranges upper_multi = true. Proof. vm_compute. reflexivity. Qed.
Lemma lower_tables : tables_ok lower_ranges lower_multi = true. Proof. vm_compute. reflexivity. Qed.

Inductive char_is (t : list (N * N * N * N)) (m : list (N * list N)) : char -> str -> Prop :=
| ci_one : forall c d, maps_to t c d -> char_is t m c [d]
| ci_many : forall c w, In (c, w) m -> char_is t m c w
| ci_same : forall c, (forall d, ~ maps_to t c d) -> (forall w, ~ In (c, w) m) -> char_is t m c [c].
Lemma case_map_iff : forall t m c w, tables_ok t m = true -> (case_map t m c = w <-> char_is t m c w).
Proof.
  intros t m c w O. unfold tables_ok in O. rewrite !andb_true_iff in O. destruct O as [[O I] A].
  unfold case_map. destruct (range_map t c) as [d|] eqn:E.
  - assert (P := proj1 (range_map_iff t 0 c d O) E). split.
    + intros <-. apply ci_one; auto.
    + intros H. destruct H as [c d' H|c w H|c H1 H2].
      * apply (range_map_iff t 0 c d' O) in H. congruence.
      * unfold apart in A. rewrite forallb_forall in A. specialize (A _ H). cbn [fst] in A. rewrite E in A. discriminate.
      * destruct (H1 d); auto.
  - assert (P : forall d, ~ maps_to t c d) by (intros d H; apply (range_map_iff t 0 c d O) in H; congruence).
    destruct (multi_map m c) as [v|] eqn:M.
    + split.
      * intros <-. apply ci_many. apply multi_map_in; auto.
      * intros H. destruct H as [c d' H|c w H|c H1 H2].
        -- destruct (P d'); auto.
        -- apply (multi_map_nodup m c w) in H; [congruence|]. eapply increasing_nodup; eauto.
        -- destruct (H2 v). apply multi_map_in; auto.
    + split.
      * intros <-. apply ci_same; auto. apply multi_map_none; auto.
      * intros H. destruct H as [c d' H|c w H|c H1 H2]; auto; exfalso; [eapply P; eauto|exact (multi_map_none _ _ M _ H)].
Qed.
Lemma upper_char_iff c w : upper_char c = w <-> upper_char_is c w.
Proof.
  unfold upper_char. rewrite (case_map_iff _ _ c w upper_tables). split; intro H; inversion H; subst; [apply uc_one|apply uc_many|apply uc_same|apply ci_one|apply ci_many|apply ci_same]; auto.
Qed.
Lemma lower_char_iff c w : lower_char c = w <-> lower_char_is c w.
Proof.
  unfold lower_char. rewrite (case_map_iff _ _ c w lower_tables). split; intro H; inversion H; subst; [apply lc_one|apply lc_many|apply lc_same|apply ci_one|apply ci_many|apply ci_same]; auto.
Qed.
Lemma to_upper_iff : forall s r, to_upper s = r <-> upper_text s r.
Proof.
  intros s r. split.
  - intros <-. induction s as [|c s IH]; cbn [to_upper flat_map]; constructor; auto. apply upper_char_iff. auto.
  - intros H. induction H as [|c w s r U H IH]; auto. cbn [to_upper flat_map]. apply upper_char_iff in U. rewrite U. f_equal. exact IH.
Qed.

(* ------------------------------------------------ the sigma rule *)
Lemma in_ranges_iff t c : in_ranges t c = true <-> in_table t c.
Proof.
  unfold in_ranges, in_table. rewrite existsb_exists. split.
  - intros [[a b] [I H]]. cbn [fst snd] in H. rewrite andb_true_iff, !N.leb_le in H. eauto.
  - intros (a & b & I & H). exists (a, b). cbn [fst snd]. rewrite andb_true_iff, !N.leb_le. auto.
Qed.
Definition disjoint (t u : list (N * N)) : bool :=
  forallb (fun p => forallb (fun q => (snd p <? fst q) || (snd q <? fst p)) u) t.
Lemma cased_apart : disjoint ignorable_ranges cased_ranges = true. Proof. vm_compute. reflexivity. Qed.
Lemma not_both c : in_table ignorable_ranges c -> in_table cased_ranges c -> False.
Proof.
  intros (a & b & I & H) (a' & b' & I' & H'). assert (D := cased_apart). unfold disjoint in D. rewrite forallb_forall in D.
  specialize (D _ I). rewrite forallb_forall in D. specialize (D _ I'). cbn [fst snd] in D. rewrite orb_true_iff, !N.ltb_lt in D. lia.
Qed.
Lemma then_cased_iff : forall s, then_cased s = true <-> letter_after s.
Proof.
  induction s as [|c s IH]; cbn [then_cased].
  - split; [discriminate|]. intros (u & c & v & E & _). destruct u; discriminate.
  - destruct (in_ranges ignorable_ranges c) eqn:I.
    + rewrite IH. apply in_ranges_iff in I. split.
      * intros (u & d & v & -> & F & C). exists (c :: u), d, v. repeat split; auto.
      * intros (u & d & v & E & F & C). destruct u as [|x u]; inversion E; subst; [destruct (not_both d); auto|].
        inversion F; subst. exists u, d, v. auto.
    + rewrite in_ranges_iff. split.
      * intros C. exists [], c, s. auto.
      * intros (u & d & v & E & F & C). destruct u as [|x u]; inversion E; subst; auto.
        inversion F; subst. match goal with H : in_table _ _ |- _ => apply in_ranges_iff in H end. congruence.
Qed.
Lemma before_iff : forall b, then_cased (rev b) = true <-> letter_before b.
Proof.
  intros b. rewrite then_cased_iff. split.
  - intros (u & c & v & E & F & C). exists (rev v), c, (rev u). split; [|split; auto; apply Forall_rev; auto].
    rewrite <- (rev_involutive b), E, rev_app_distr. cbn [rev]. rewrite <- app_assoc. reflexivity.
  - intros (u & c & v & -> & C & F). exists (rev v), c, (rev u). split; [|split; auto; apply Forall_rev; auto].
    rewrite rev_app_distr. cbn [rev]. rewrite <- app_assoc. reflexivity.
Qed.
Lemma sigma_iff b s : then_cased (rev b) && negb (then_cased s) = true <-> letter_before b /\ ~ letter_after s.
Proof.
  rewrite andb_true_iff, before_iff, negb_true_iff, <- then_cased_iff. split; intros [A B]; split; auto; [congruence|].
  destruct (then_cased s); auto. destruct B; auto.
Qed.
Lemma lower_from_iff : forall s b r, lower_from (rev b) s = r <-> lower_text b s r.
Proof.
  assert (R : forall b (c : char), c :: rev b = rev (b ++ [c])) by (intros; rewrite rev_app_distr; reflexivity).
  intros s b r. split.
  - intros <-. revert b. induction s as [|c s IH]; intros b; cbn [lower_from]; [constructor|]. rewrite R.
    destruct (N.eqb_spec c 931) as [->|C].
    + destruct (then_cased (rev b) && negb (then_cased s)) eqn:E; cbn [app].
      * apply sigma_iff in E. destruct E. apply lt_final; auto.
      * apply lt_inner; auto. rewrite <- sigma_iff. congruence.
    + apply lt_cons; auto. apply lower_char_iff; auto.
  - intros H. induction H as [b|b c w s r C L H IH|b s r B A H IH|b s r N H IH]; cbn [lower_from]; auto; rewrite R, IH.
    + apply lower_char_iff in L. destruct (N.eqb_spec c 931); [congruence|]. rewrite L. reflexivity.
    + rewrite N.eqb_refl. assert (E : then_cased (rev b) && negb (then_cased s) = true) by (apply sigma_iff; auto). rewrite E. reflexivity.
    + rewrite N.eqb_refl. destruct (then_cased (rev b) && negb (then_cased s)) eqn:E; auto. apply sigma_iff in E. destruct (N E).
Qed.
Lemma to_lower_iff s r : to_lower s = r <-> lower_text [] s r.
Proof. exact (lower_from_iff s [] r). Qed.

(* ------------------------------------------------ all mapped characters, one by one *)
Definition row_points (p : N * N * N * N) : list (N * N) :=
  let '(a, b, st, e) := p in map (fun k => (a + N.of_nat k * st, e + N.of_nat k * st)) (seq 0 (N.to_nat ((b - a) / st) + 1)).
Definition points (t : list (N * N * N * N)) (m : list (N * list N)) : list (N * str) :=
  map (fun p => (fst p, [snd p])) (flat_map row_points t) ++ m.
Lemma maps_to_point t lo c d : rows_ok lo t = true -> maps_to t c d -> In (c, d) (flat_map row_points t).
Proof.
  intros O (a & b & st & e & k & I & C & B & D). apply in_flat_map. exists (a, b, st, e). split; auto.
  destruct (rows_above _ _ _ _ _ _ O I) as [_ [L S]]. unfold row_points. apply in_map_iff. exists (N.to_nat k). rewrite N2Nat.id. subst. split; auto.
  apply in_seq. split; [lia|]. assert (k <= (b - a) / st) by (apply N.div_le_lower_bound; nia). lia.
Qed.
Lemma case_map_point t m c : tables_ok t m = true -> case_map t m c = [c] \/ In (c, case_map t m c) (points t m).
Proof.
  intros O. assert (H := proj1 (case_map_iff t m c _ O) eq_refl). unfold tables_ok in O. rewrite !andb_true_iff in O. destruct O as [[O _] _].
  unfold points. inversion H; subst.
  - right. apply in_or_app. left. match goal with M : maps_to _ _ _ |- _ => apply (maps_to_point t 0) in M; auto; apply in_map_iff; eexists; split; [|exact M]; reflexivity end.
  - right. apply in_or_app. right. auto.
  - left. auto.
Qed.
Definition all_points (f : char -> str -> bool) (t : list (N * N * N * N)) (m : list (N * list N)) : bool :=
  forallb (fun p => f (fst p) (snd p)) (points t m).
Lemma all_points_map f t m c : tables_ok t m = true -> all_points f t m = true -> f c [c] = true -> f c (case_map t m c) = true.
Proof.
  intros O A B. destruct (case_map_point t m c O) as [E|I]; [rewrite E; auto|]. unfold all_points in A. rewrite forallb_forall in A. exact (A _ I).
Qed.
Lemma point_ok f t m c w : all_points f t m = true -> In (c, w) (points t m) -> f c w = true.
Proof. intros A I. unfold all_points in A. rewrite forallb_forall in A. exact (A _ I). Qed.
Lemma upper_point c : upper_char c = [c] \/ In (c, upper_char c) (points upper_ranges upper_multi).
Proof. apply case_map_point, upper_tables. Qed.
Lemma lower_point c : lower_char c = [c] \/ In (c, lower_char c) (points lower_ranges lower_multi).
Proof. apply case_map_point, lower_tables. Qed.
Lemma to_upper_app s t : to_upper (s ++ t) = to_upper s ++ to_upper t.
Proof. apply flat_map_app. Qed.
Lemma upper_twice_points : all_points (fun _ w => str_eqb (to_upper w) w) upper_ranges upper_multi = true.
Proof. vm_compute. reflexivity. Qed.
Lemma upper_char_twice c : to_upper (upper_char c) = upper_char c.
Proof.
  destruct (upper_point c) as [E|I]; [rewrite E; cbn [to_upper flat_map]; rewrite E; reflexivity|].
  assert (A := point_ok _ _ _ _ _ upper_twice_points I). cbv beta in A. apply str_eqb_eq. exact A.
Qed.
Lemma to_upper_twice s : to_upper (to_upper s) = to_upper s.
Proof.
  induction s as [|c s IH]; auto. change (to_upper (c :: s)) with (upper_char c ++ to_upper s). rewrite to_upper_app, upper_char_twice, IH. reflexivity.
Qed.
(* without capital sigma, lower case is character by character *)
Lemma lower_from_plain : forall s b, ~ In 931 s -> lower_from b s = flat_map lower_char s.
Proof.
  induction s as [|c s IH]; intros b N; auto. cbn [lower_from flat_map]. destruct (N.eqb_spec c 931) as [->|]; [destruct N; left; auto|].
  rewrite IH; auto. intro; apply N; right; auto.
Qed.
Lemma lower_twice_points : all_points (fun _ w => str_eqb (flat_map lower_char w) w && negb (existsb (N.eqb 931) w)) lower_ranges lower_multi = true.
Proof. vm_compute. reflexivity. Qed.
Lemma lower_char_fixed c : flat_map lower_char (lower_char c) = lower_char c.
Proof.
  destruct (lower_point c) as [E|I]; [rewrite E; cbn [flat_map]; rewrite E; reflexivity|].
  assert (A := point_ok _ _ _ _ _ lower_twice_points I). cbv beta in A. apply andb_true_iff in A. apply str_eqb_eq, A.
Qed.
Lemma lower_char_sigma c : c <> 931 -> ~ In 931 (lower_char c).
Proof.
  intros C. destruct (lower_point c) as [E|I]; [rewrite E; intros [X|[]]; congruence|].
  assert (A := point_ok _ _ _ _ _ lower_twice_points I). cbv beta in A. apply andb_true_iff in A. destruct A as [_ A].
  intro J. apply negb_true_iff in A. rewrite <- not_true_iff_false in A. apply A. apply existsb_exists. exists 931. split; auto.
Qed.
Lemma lower_from_sigma : forall s b, ~ In 931 (lower_from b s).
Proof.
  induction s as [|c s IH]; intros b; [intros []|]. cbn [lower_from]. intros I. apply in_app_or in I. destruct I as [I|I]; [|exact (IH _ I)].
  destruct (N.eqb_spec c 931).
  - destruct (then_cased b && negb (then_cased s)); destruct I as [E|[]]; discriminate.
  - exact (lower_char_sigma _ n I).
Qed.
Lemma lower_from_fixed : forall s b, flat_map lower_char (lower_from b s) = lower_from b s.
Proof.
  induction s as [|c s IH]; intros b; auto. cbn [lower_from]. rewrite flat_map_app, IH. f_equal.
  destruct (N.eqb_spec c 931); [|apply lower_char_fixed]. destruct (then_cased b && negb (then_cased s)); vm_compute; reflexivity.
Qed.
Lemma to_lower_twice s : to_lower (to_lower s) = to_lower s.
Proof. unfold to_lower. rewrite (lower_from_plain (lower_from [] s)) by apply lower_from_sigma. apply lower_from_fixed. Qed.

(* upper case after lower case *)
Definition odd_capitals : list N := [304; 1012; 7838; 8486; 8490; 8491].
Lemma upper_lower_points : all_points (fun c w => str_eqb (to_upper w) (upper_char c) || existsb (N.eqb c) odd_capitals) lower_ranges lower_multi = true.
Proof. vm_compute. reflexivity. Qed.
Lemma upper_lower_char c : ~ In c odd_capitals -> to_upper (lower_char c) = upper_char c.
Proof.
  intros N. destruct (lower_point c) as [E|I]; [rewrite E; cbn [to_upper flat_map]; apply app_nil_r|].
  assert (A := point_ok _ _ _ _ _ upper_lower_points I). cbv beta in A. apply orb_true_iff in A.
  destruct A as [A|A]; [apply str_eqb_eq in A; auto|]. exfalso. apply N. apply existsb_exists in A. destruct A as [x [I' E]]. apply N.eqb_eq in E. subst. auto.
Qed.
Lemma upper_lower_from : forall s b, (forall c, In c s -> ~ In c odd_capitals) -> to_upper (lower_from b s) = to_upper s.
Proof.
  induction s as [|c s IH]; intros b N; auto. cbn [lower_from]. rewrite to_upper_app, IH by (intros d D; apply N; right; auto).
  change (to_upper (c :: s)) with (upper_char c ++ to_upper s). f_equal.
  destruct (N.eqb_spec c 931) as [->|]; [|apply upper_lower_char, N; left; auto].
  destruct (then_cased b && negb (then_cased s)); vm_compute; reflexivity.
Qed.
(* lengths *)
Lemma upper_len_points : all_points (fun _ w => (1 <=? N.of_nat (length w)) && (N.of_nat (length w) <=? 3)) upper_ranges upper_multi = true.
Proof. vm_compute. reflexivity. Qed.
Lemma lower_len_points : all_points (fun _ w => (1 <=? N.of_nat (length w)) && (N.of_nat (length w) <=? 2)) lower_ranges lower_multi = true.
Proof. vm_compute. reflexivity. Qed.
Lemma upper_char_len c : (1 <= length (upper_char c) <= 3)%nat.
Proof.
  destruct (upper_point c) as [E|I]; [rewrite E; cbn; lia|].
  assert (A := point_ok _ _ _ _ _ upper_len_points I). cbv beta in A. rewrite andb_true_iff, !N.leb_le in A. lia.
Qed.
Lemma lower_char_len c : (1 <= length (lower_char c) <= 2)%nat.
Proof.
  destruct (lower_point c) as [E|I]; [rewrite E; cbn; lia|].
  assert (A := point_ok _ _ _ _ _ lower_len_points I). cbv beta in A. rewrite andb_true_iff, !N.leb_le in A. lia.
Qed.
Lemma to_upper_len s : (length s <= length (to_upper s) <= 3 * length s)%nat.
Proof.
  induction s as [|c s IH]; [cbn; lia|]. change (to_upper (c :: s)) with (upper_char c ++ to_upper s). rewrite app_length. cbn [length].
  assert (L := upper_char_len c). lia.
Qed.
Lemma lower_from_len : forall s b, (length s <= length (lower_from b s) <= 2 * length s)%nat.
Proof.
  induction s as [|c s IH]; intros b; [cbn; lia|]. cbn [lower_from]. rewrite app_length. cbn [length].
  assert (L := lower_char_len c). specialize (IH (c :: b)). destruct (c =? 931); cbn [length]; lia.
Qed.
(* a stretch of characters, checked one by one *)
Definition stretch (a b : N) : list N := map (fun k => a + N.of_nat k) (seq 0 (N.to_nat (b - a) + 1)).
Lemma stretch_in a b c : a <= c <= b -> In c (stretch a b).
Proof. intros H. unfold stretch. apply in_map_iff. exists (N.to_nat (c - a)). rewrite N2Nat.id. split; [lia|]. apply in_seq. lia. Qed.
Lemma by_stretch (f : N -> bool) a b c : forallb f (stretch a b) = true -> a <= c <= b -> f c = true.
Proof. intros A H. rewrite forallb_forall in A. apply A, stretch_in, H. Qed.
(* a stretch the tables do not touch *)
Definition untouched (a b : N) (t : list (N * N * N * N)) (m : list (N * list N)) : bool :=
  forallb (fun p => let '(x, y, _, _) := p in (y <? a) || (b <? x)) t && forallb (fun p => (fst p <? a) || (b <? fst p)) m.
Lemma untouched_same a b t m c : untouched a b t m = true -> a <= c <= b -> case_map t m c = [c].
Proof.
  unfold untouched. rewrite andb_true_iff. intros [T M] H. unfold case_map.
  assert (R : range_map t c = None).
  { clear M. induction t as [|[[[x y] st] e] t IH]; auto. cbn [forallb] in T. rewrite andb_true_iff, orb_true_iff, !N.ltb_lt in T. destruct T as [T0 T].
    cbn [range_map]. destruct (N.leb_spec x c), (N.leb_spec c y); cbn [andb]; auto. lia. }
  rewrite R. clear R T. induction m as [|[x w] m IH]; auto. cbn [forallb fst] in M. rewrite andb_true_iff, orb_true_iff, !N.ltb_lt in M. destruct M as [M0 M].
  cbn [multi_map]. destruct (N.eqb_spec c x); auto. lia.
Qed.
Lemma case_pair_ok x y : case_pair x y -> upper_char x = [y] /\ lower_char y = [x].
Proof.
  intros H.
  assert (W : forall d, d <= x -> (str_eqb (upper_char x) [x - d] && str_eqb (lower_char (x - d)) [x])%bool = true -> upper_char x = [x - d] /\ lower_char (x - d) = [x]).
  { intros d _ E. apply andb_true_iff in E. destruct E as [E1 E2]. apply str_eqb_eq in E1. apply str_eqb_eq in E2. auto. }
  inversion H; subst; (apply W; [lia|]).
  - apply (by_stretch (fun x => (str_eqb (upper_char x) [x - 32] && str_eqb (lower_char (x - 32)) [x])%bool) 97 122); [vm_compute; reflexivity|lia].
  - destruct (N.ltb_spec x 247).
    + apply (by_stretch (fun x => (str_eqb (upper_char x) [x - 32] && str_eqb (lower_char (x - 32)) [x])%bool) 224 246); [vm_compute; reflexivity|lia].
    + apply (by_stretch (fun x => (str_eqb (upper_char x) [x - 32] && str_eqb (lower_char (x - 32)) [x])%bool) 248 254); [vm_compute; reflexivity|lia].
  - destruct (N.ltb_spec x 962).
    + apply (by_stretch (fun x => (str_eqb (upper_char x) [x - 32] && str_eqb (lower_char (x - 32)) [x])%bool) 945 961); [vm_compute; reflexivity|lia].
    + apply (by_stretch (fun x => (str_eqb (upper_char x) [x - 32] && str_eqb (lower_char (x - 32)) [x])%bool) 963 969); [vm_compute; reflexivity|lia].
  - apply (by_stretch (fun x => (str_eqb (upper_char x) [x - 32] && str_eqb (lower_char (x - 32)) [x])%bool) 1072 1103); [vm_compute; reflexivity|lia].
  - apply (by_stretch (fun x => (str_eqb (upper_char x) [x - 80] && str_eqb (lower_char (x - 80)) [x])%bool) 1104 1119); [vm_compute; reflexivity|lia].
  - apply (by_stretch (fun x => (str_eqb (upper_char x) [x - 32] && str_eqb (lower_char (x - 32)) [x])%bool) 65345 65370); [vm_compute; reflexivity|lia].
Qed.
Lemma caseless_ok c : caseless c -> upper_char c = [c] /\ lower_char c = [c].
Proof.
  intros H. assert (W : forall a b, untouched a b upper_ranges upper_multi = true -> untouched a b lower_ranges lower_multi = true -> a <= c <= b ->
    upper_char c = [c] /\ lower_char c = [c]).
  { intros a b A B C. split; [exact (untouched_same a b _ _ c A C)|exact (untouched_same a b _ _ c B C)]. }
  destruct H as [H|[H|[H|[H|[H|H]]]]].
  - apply (W 0 64); [vm_compute; reflexivity|vm_compute; reflexivity|lia].
  - apply (W 91 96); [vm_compute; reflexivity|vm_compute; reflexivity|lia].
  - apply (W 123 180); [vm_compute; reflexivity|vm_compute; reflexivity|lia].
  - apply (W 1425 4255); [vm_compute; reflexivity|vm_compute; reflexivity|lia].
  - apply (W 11744 42559); [vm_compute; reflexivity|vm_compute; reflexivity|lia].
  - apply (W 44032 55203); [vm_compute; reflexivity|vm_compute; reflexivity|lia].
Qed.

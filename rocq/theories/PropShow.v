(* C79: how results are written. *)
From Flocq Require Import Core BinarySingleNaN.
Require Import Ascii String Bool List NArith ZArith Lia Reals Lra.
Require Import Coq.Floats.SpecFloat.
From Verif Require Import Str StrFacts Sax Dom Lexer Parser Num Item Func Eval EvalFacts SpecOper ItemFacts PropOper SpecFunc FuncFacts
  SpecInt IntFacts FloatFacts SpecNum PropNum SpecDbl FloatRound FloatText FloatPrint FloatShort FloatArith SpecExpr PropParse PropInt PropDbl SpecShow.
Import List ListNotations.
Open Scope Z_scope.

(* ------------------------------------------------------------------ numbers *)
Lemma stands_of s neg m e x : decimal_text s neg m e -> atof s = x -> stands_for s x.
Proof.
  intros T E. exists neg, m, e. rewrite (atof_text _ _ _ _ T) in E. destruct (dec_to_f64_correct neg m e) as [C S]. rewrite E in C, S.
  split; [exact T|]. split; [rewrite <- dec_val_spec; exact C|]. intros b ->. cbn in S. auto.
Qed.
Lemma fmt_i64_exponent z : exponent_text (fmt_i64 z) z.
Proof.
  destruct (fmt_i64_notation z) as (d & D & N & C & [(P & -> & <-)|(P & -> & M)]); [apply et_plain; auto|].
  replace z with (- Z.of_N (numeral d)) by lia. apply et_minus; auto.
Qed.
Definition unsigned_exp (d k : Z) : str :=
  let ds := fmt_N (Z.to_N d) in
  match ds with [] => [] | [a] => [a] | a :: r => a :: lit "." ++ r end ++ lit "e" ++ fmt_i64 (k + Z.of_nat (List.length ds) - 1).
Lemma exp_finite s m e : fmt_f64_exp (S754_finite s m e) = sign_str s ++ unsigned_exp (fst (shortest m e)) (snd (shortest m e)).
Proof. unfold fmt_f64_exp, unsigned_exp. destruct (shortest m e) as [d k]. reflexivity. Qed.
Lemma unsigned_exp_text d k : 0 < d -> d mod 10 <> 0 -> unsigned_text (unsigned_exp d k) (Z.to_N d) k /\ scientific (unsigned_exp d k).
Proof.
  intros P M. unfold unsigned_exp. cbv zeta. assert (DD : all_digits (fmt_N (Z.to_N d))) by apply uint_digits.
  assert (NM := fmt_N_numeral (Z.to_N d)). assert (NE := proj2 (fmt_N_canonical (Z.to_N d))).
  destruct (fmt_N_ends (Z.to_N d)) as (r' & c' & EE & C').
  { intro Q. apply M. apply (f_equal Z.of_N) in Q. rewrite N2Z.inj_mod, Z2N.id in Q by lia. exact Q. }
  destruct (fmt_N (Z.to_N d)) as [|a [|b r]]; [congruence| |]; inversion DD as [|? ? A1 A2]; subst.
  - change (lit "e") with [101%N]. split.
    + rewrite <- NM. replace k with (0 + (k + Z.of_nat (List.length [a]) - 1)) at 2 by (cbn [List.length]; lia).
      apply (ut_exponent [a]); [apply (mt_whole [a]); [exact DD|discriminate]|left; reflexivity|apply fmt_i64_exponent].
    + exists a, [], (fmt_i64 (k + Z.of_nat (List.length [a]) - 1)), (k + Z.of_nat (List.length [a]) - 1).
      split; [exact A1|]. split; [left; reflexivity|]. split; [apply fmt_i64_notation|reflexivity].
  - change (lit "e") with [101%N]. change (lit ".") with [46%N]. cbn [app]. set (g := b :: r) in *. split.
    + rewrite <- NM. replace k with (- Z.of_nat (List.length g) + (k + Z.of_nat (List.length (a :: g)) - 1)) at 2 by (cbn [List.length]; lia).
      apply (ut_exponent (a :: 46%N :: g)); [|left; reflexivity|apply fmt_i64_exponent].
      apply (mt_point [a] g); [constructor; [exact A1|constructor]|exact A2|discriminate].
    + exists a, (46%N :: g), (fmt_i64 (k + Z.of_nat (List.length (a :: g)) - 1)), (k + Z.of_nat (List.length (a :: g)) - 1).
      split; [exact A1|]. split; [right; exists g; split; [reflexivity|]; split; [exact A2|]|split; [apply fmt_i64_notation|reflexivity]].
      destruct r' as [|a' r'']; [discriminate EE|]. inversion EE. exists r'', c'. auto.
Qed.
(* a finite double *)
Lemma exp_shown x : is_f64 x -> finite x ->
  let s := match x with S754_zero true => lit "-0e0" | _ => fmt_f64_exp x end in
  signed_text scientific s /\ atof s = x /\ stands_for s x.
Proof.
  intros V F. cbv zeta.
  assert (Z0 : scientific (lit "0e0")).
  { exists 48%N, [], (lit "0"), 0. split; [lia|]. split; [left; reflexivity|]. split; [apply (fmt_i64_notation 0)|reflexivity]. }
  destruct F as [[[] ->]|(s & m & e & ->)].
  - split; [right; exists (lit "0e0"); split; [reflexivity|exact Z0]|]. split; [reflexivity|].
    apply (stands_of _ true 0 0); [|reflexivity]. apply (dt_minus (lit "0e0")). apply (ut_exponent (lit "0") 0 0 101%N (lit "0") 0).
    + apply (mt_whole (lit "0")); [repeat constructor; discriminate|discriminate].
    + left; reflexivity.
    + apply (et_plain (lit "0")); [repeat constructor; discriminate|discriminate].
  - split; [left; exact Z0|]. split; [reflexivity|].
    apply (stands_of _ false 0 0); [|reflexivity]. apply (dt_plain (lit "0e0")). apply (ut_exponent (lit "0") 0 0 101%N (lit "0") 0).
    + apply (mt_whole (lit "0")); [repeat constructor; discriminate|discriminate].
    + left; reflexivity.
    + apply (et_plain (lit "0")); [repeat constructor; discriminate|discriminate].
  - rewrite exp_finite. destruct (shortest m e) as [d k] eqn:S. cbn [fst snd].
    destruct (shortest_ok m e d k V S) as [P Q]. destruct (shortest_facts m e d k V S) as (_ & M & _).
    destruct (unsigned_exp_text d k P M) as [T SC].
    assert (DT : decimal_text (sign_str s ++ unsigned_exp d k) s (Z.to_N d) k) by (destruct s; [apply (dt_minus _ _ _ T)|apply (dt_plain _ _ _ T)]).
    assert (A : atof (sign_str s ++ unsigned_exp d k) = S754_finite s m e).
    { rewrite (atof_text _ _ _ _ DT). destruct s; [|exact Q]. apply dec_to_f64_neg with (x := S754_finite false m e). exact Q. }
    split; [destruct s; [right; eexists; split; [reflexivity|exact SC]|left; exact SC]|]. split; [exact A|]. eapply stands_of; eauto.
Qed.
(* a finite decimal *)
Lemma mem_point_no s : all_digits s -> mem_char 46 s = false.
Proof.
  intro D. unfold mem_char. destruct (existsb (N.eqb 46) s) eqn:E; auto. apply existsb_exists in E. destruct E as (c & I & Q).
  apply N.eqb_eq in Q. subst c. unfold all_digits in D. rewrite Forall_forall in D. apply D in I. lia.
Qed.
Lemma mem_point_yes a f : mem_char 46 (a ++ 46%N :: f) = true.
Proof. unfold mem_char. rewrite existsb_app. cbn [existsb]. rewrite N.eqb_refl. apply orb_true_r. Qed.
Lemma whole_text d : whole_notation d -> exists m, mantissa_text d m 0.
Proof. intros [D C]. exists (numeral d). apply mt_whole; auto. destruct C as [->|(c & r & -> & _)]; discriminate. Qed.
Lemma point_shown x : is_f64 x -> finite x ->
  let s := with_point (fmt_f64 x) in signed_text with_fraction s /\ atof s = x /\ stands_for s x.
Proof.
  intros V F. cbv zeta. assert (A := atof_fmt x V). unfold with_point.
  assert (W0 : forall d, whole_notation d -> mem_char 46 (45%N :: d) = false /\ mem_char 46 d = false).
  { intros d [D _]. apply mem_point_no in D. split; [|exact D]. unfold mem_char in *. cbn [existsb]. rewrite D. reflexivity. }
  assert (X : forall d, whole_notation d -> with_fraction (d ++ lit ".0") /\
    forall b m, unsigned_text d m 0 -> unsigned_text (d ++ lit ".0") (m * 10) (-1) /\ dec_to_f64 b (m * 10) (-1) = dec_to_f64 b m 0).
  { intros d W. destruct W as [D C]. assert (NE : d <> []) by (destruct C as [->|(c & r & -> & _)]; discriminate).
    split; [exists d, [48%N]; repeat split; auto; [constructor; [lia|constructor]|discriminate]|].
    intros b m U. assert (m = numeral d) as ->.
    { assert (K : forall s m' e', unsigned_text s m' e' -> all_digits s -> m' = numeral s).
      { intros s m' e' H DG. inversion H; subst.
        - inversion H0; subst; auto. unfold all_digits in DG. apply Forall_app in DG. destruct DG as [_ DG]. inversion DG. lia.
        - unfold all_digits in DG. apply Forall_app in DG. destruct DG as [_ DG]. inversion DG. lia. }
      eapply K; eauto. }
    split.
    - apply ut_mantissa. replace (numeral d * 10)%N with (numeral (d ++ [48%N])) by (rewrite numeral_app; cbn [fold_left]; lia).
      apply (mt_point d [48%N]); auto; [constructor; [lia|constructor]|destruct d; discriminate].
    - apply dec_to_f64_ext. unfold dec_val. rewrite powerRZ_neg_IZR by lia. change (10 ^ - -1) with 10. rewrite N2Z.inj_mul. change (Z.of_N 10) with 10.
      cbn [powerRZ]. destruct b; cbn [signed]; rewrite ?opp_IZR, mult_IZR; field. }
  assert (PT : forall a f, whole_notation a -> fraction_notation f -> with_fraction (a ++ 46%N :: f) /\ exists m e, unsigned_text (a ++ 46%N :: f) m e).
  { intros a f [D C] [G (r & c & -> & _)]. split.
    - exists a, (r ++ [c]). repeat split; auto. destruct r; discriminate.
    - do 2 eexists. apply ut_mantissa, mt_point; auto. destruct a, r; discriminate. }
  assert (PL := fmt_plain x V F). revert A PL. generalize (fmt_f64 x). intros tx A PL. destruct PL as [d W|d W|d f W G|d f W G].
  - destruct (W0 d W) as [_ ->]. destruct (X d W) as [SF B]. destruct (whole_text d W) as [m T]. apply ut_mantissa in T.
    rewrite (atof_text _ _ _ _ (dt_plain _ _ _ T)) in A. destruct (B false m T) as [U Q].
    split; [left; exact SF|]. assert (AT : atof (d ++ lit ".0") = x) by (rewrite (atof_text _ _ _ _ (dt_plain _ _ _ U)), Q; exact A).
    split; [exact AT|]. eapply stands_of; [apply (dt_plain _ _ _ U)|exact AT].
  - destruct (W0 d W) as [-> _]. destruct (X d W) as [SF B]. destruct (whole_text d W) as [m T]. apply ut_mantissa in T.
    rewrite (atof_text _ _ _ _ (dt_minus _ _ _ T)) in A. destruct (B true m T) as [U Q].
    split; [right; eexists; split; [reflexivity|exact SF]|]. cbn [app].
    assert (AT : atof (45%N :: d ++ lit ".0") = x) by (rewrite (atof_text _ _ _ _ (dt_minus _ _ _ U)), Q; exact A).
    split; [exact AT|]. eapply stands_of; [apply (dt_minus _ _ _ U)|exact AT].
  - rewrite mem_point_yes. destruct (PT d f W G) as [SF (m & k & T)]. split; [left; exact SF|]. split; [exact A|].
    eapply stands_of; [apply (dt_plain _ _ _ T)|exact A].
  - change (45%N :: d ++ 46%N :: f) with ((45%N :: d) ++ 46%N :: f). rewrite mem_point_yes. destruct (PT d f W G) as [SF (m & k & T)].
    split; [right; eexists; split; [reflexivity|exact SF]|]. split; [exact A|].
    eapply stands_of; [apply (dt_minus _ _ _ T)|exact A].
Qed.

(* ------------------------------------------------------------------ nodes *)
Lemma attr_shown h a : attribute_text h a (show_attr h a).
Proof. constructor. Qed.
Lemma attrs_shown h : forall l, tag_attributes h l (flat_map (fun a => 32%N :: show_attr h a) l).
Proof.
  induction l as [|a l IH]; cbn [flat_map]; [constructor|]. change (tag_attributes h (a :: l) (lit " " ++ show_attr h a ++ flat_map (fun a => 32%N :: show_attr h a) l)).
  constructor; [apply attr_shown|exact IH].
Qed.
Lemma node_shown h i : In (n_type (Dom.get h i)) [Element; Attribute; Text; DocumentRoot] -> node_text h i (show_node h i).
Proof.
  intro K. unfold show_node. cbn in K. destruct (n_type (Dom.get h i)) eqn:E; try (exfalso; intuition discriminate).
  - apply nt_document; auto.
  - apply nt_element; auto. apply attrs_shown.
  - apply nt_text; auto.
  - apply nt_attribute; auto. apply attr_shown.
Qed.

(* ------------------------------------------------------------------ items and sequences *)
Lemma parens_two {A} (a b : A) l s : Item.parens (List.length (a :: b :: l)) s = lit "(" ++ s ++ lit ")".
Proof. reflexivity. Qed.
Lemma join_rest h : forall l it, Forall (fun it => item_text h it (show_item h it)) l ->
  exists t, rest_text h l t /\ join (lit ", ") (map (show_item h) (it :: l)) = show_item h it ++ t.
Proof.
  induction l as [|b l IH]; intros it F.
  - exists []. split; [constructor|]. cbn [map join]. rewrite app_nil_r. reflexivity.
  - inversion F; subst. destruct (IH b H2) as (t & T & E). exists (lit ", " ++ show_item h b ++ t). split; [constructor; auto|].
    rewrite <- E. reflexivity.
Qed.
Lemma seq_shown h l : Forall (fun it => item_text h it (show_item h it)) l -> sequence_text h l (show_seq h l).
Proof.
  intro F. unfold show_seq. destruct l as [|a [|b l]]; [constructor|inversion F; constructor; auto|].
  rewrite parens_two. inversion F; subst. destruct (join_rest h (b :: l) a H2) as (t & T & ->). rewrite <- app_assoc.
  apply st_more; auto. discriminate.
Qed.
Lemma join_cons sep x l : l <> [] -> join sep (x :: l) = x ++ sep ++ join sep l.
Proof. destruct l; [congruence|reflexivity]. Qed.
Lemma entries_shown h : forall m, (forall k v, In (k, v) m -> item_text h k (show_item h k) /\ sequence_text h v (show_seq h v)) ->
  entries_text h m (join (lit ", ") (map (fun e => show_item h (fst e) ++ lit " => " ++ show_seq h (snd e)) m)).
Proof.
  induction m as [|[k v] m IH]; intro H; [constructor|]. destruct (H k v (or_introl eq_refl)) as [K V].
  assert (IH' := IH (fun k v I => H k v (or_intror I))). clear IH H. destruct m as [|e m]; [apply et_one; auto|].
  rewrite map_cons, join_cons by discriminate. revert IH'. set (F := fun e0 : xitem * list xitem => _). generalize (join (lit ", ") (map F (e :: m))).
  intros J IH'. unfold F. cbn [fst snd]. rewrite <- !app_assoc. apply et_more; [exact K|exact V|discriminate|exact IH'].
Qed.
Lemma members_shown h : forall a, (forall v, In v a -> sequence_text h v (show_seq h v)) ->
  members_text h a (join (lit ", ") (map (show_seq h) a)).
Proof.
  induction a as [|v a IH]; intro H; [constructor|]. assert (V := H v (or_introl eq_refl)).
  assert (IH' := IH (fun v I => H v (or_intror I))). destruct a as [|w a]; cbn [map join]; [apply mt_one; auto|].
  apply mt_more; [exact V|discriminate|exact IH'].
Qed.
Fixpoint item_depth (it : xitem) : nat :=
  match it with
  | XIMap m => S (list_max (map (fun e => Nat.max (item_depth (fst e)) (list_max (map item_depth (snd e)))) m))
  | XIArray a => S (list_max (map (fun v => list_max (map item_depth v)) a))
  | _ => O
  end.
Lemma max_in {A} (f : A -> nat) l x : In x l -> (f x <= list_max (map f l))%nat.
Proof. intro I. assert (Q := proj1 (list_max_le (map f l) _) (le_n _)). rewrite Forall_forall in Q. apply Q. apply in_map; auto. Qed.
Lemma item_shown h : forall n it, (item_depth it < n)%nat -> showable h it -> item_text h it (show_item h it).
Proof.
  induction n as [|n IH]; intros it D S; [lia|]. destruct S as [i K|s|z|b|x V F|x V|m H|a H].
  - apply it_node, node_shown, K.
  - apply it_string.
  - apply it_integer, fmt_i64_notation.
  - destruct b; constructor.
  - destruct (point_shown x V F) as (A & _ & B). apply it_decimal; auto.
  - destruct x as [s|[]| |s m e].
    + destruct (exp_shown (S754_zero s) V (or_introl (ex_intro _ s eq_refl))) as (A & _ & B). destruct s; apply it_double; assumption.
    + apply it_minus_infinity.
    + apply it_infinity.
    + apply it_nan.
    + destruct (exp_shown (S754_finite s m e) V (or_intror (ex_intro _ s (ex_intro _ m (ex_intro _ e eq_refl))))) as (A & _ & B).
      apply it_double; assumption.
  - apply it_map. apply (entries_shown h m). cbn [item_depth] in D. intros k v I. destruct (H k v I) as [SK SV].
    assert (L := max_in (fun e => Nat.max (item_depth (fst e)) (list_max (map item_depth (snd e)))) m (k, v) I). cbn [fst snd] in L.
    split; [apply IH; auto; lia|]. apply seq_shown. apply Forall_forall. intros it J. apply IH; [|auto].
    assert (Q := max_in item_depth v it J). lia.
  - apply it_array. apply (members_shown h a). cbn [item_depth] in D. intros v I.
    assert (L := max_in (fun v => list_max (map item_depth v)) a v I).
    apply seq_shown. apply Forall_forall. intros it J. apply IH; [|eauto].
    assert (Q := max_in item_depth v it J). cbn beta in L. lia.
Qed.
(* Sequence::to_string() writes every result in the documented notation, Item::to_string() every item. *)
Theorem C79_written : forall h s, Forall (showable h) s -> sequence_text h s (seq_to_string h s).
Proof.
  intros h s F. apply seq_shown. rewrite Forall_forall in *. intros it I. eapply item_shown; [apply le_n|auto].
Qed.
Theorem C79_item_written : forall h it, showable h it -> item_text h it (item_to_string h it).
Proof. intros h it S. eapply item_shown; [apply le_n|exact S]. Qed.

(* ------------------------------------------------------------------ telling results apart *)
Definition num_char (c : N) : Prop := (48 <= c <= 57 \/ c = 45 \/ c = 46 \/ c = 101)%N.
Lemma digits_num s : all_digits s -> Forall num_char s.
Proof. apply Forall_impl. unfold num_char. tauto. Qed.
Lemma notation_chars z s : notation_of z s -> Forall (fun c => 48 <= c <= 57 \/ c = 45)%N s /\ s <> [].
Proof.
  intros (d & D & N & _ & [(_ & -> & _)|(_ & -> & _)]); (split; [|try discriminate; auto]).
  - revert D. apply Forall_impl. tauto.
  - constructor; [tauto|]. revert D. apply Forall_impl. tauto.
Qed.
Lemma notation_inj z z' s : notation_of z s -> notation_of z' s -> z = z'.
Proof.
  intros (d & D & N & C & H) (d' & D' & N' & C' & H').
  assert (K : forall d, all_digits d -> ~ exists t, d = 45%N :: t) by (intros u U [t ->]; inversion U; lia).
  destruct H as [(P & E & M)|(P & E & M)], H' as [(P' & E' & M')|(P' & E' & M')]; subst s.
  - subst d'. lia.
  - exfalso. apply (K d D). eauto.
  - exfalso. apply (K d' D'). eauto.
  - inversion E'. subst d'. lia.
Qed.
Lemma fraction_chars s : signed_text with_fraction s -> Forall (fun c => 48 <= c <= 57 \/ c = 45 \/ c = 46)%N s /\ In 46%N s.
Proof.
  assert (K : forall s, with_fraction s -> Forall (fun c => 48 <= c <= 57 \/ c = 45 \/ c = 46)%N s /\ In 46%N s).
  { intros t (d & f & -> & [D _] & F & _). split; [|apply in_or_app; right; left; reflexivity].
    apply Forall_app. split; [revert D; apply Forall_impl; tauto|]. constructor; [tauto|]. revert F. apply Forall_impl. tauto. }
  intros [H|(t & -> & H)]; apply K in H; [exact H|]. destruct H as [H I]. split; [constructor; [tauto|exact H]|right; exact I].
Qed.
Lemma scientific_chars s : signed_text scientific s -> Forall num_char s /\ In 101%N s.
Proof.
  assert (K : forall s, scientific s -> Forall num_char s /\ In 101%N s).
  { intros t (c & f & u & z & C & F & N & ->). apply notation_chars in N. destruct N as [N _]. split.
    - constructor; [unfold num_char; tauto|]. apply Forall_app. split.
      + destruct F as [->|(g & -> & G & _)]; [constructor|]. constructor; [unfold num_char; tauto|apply digits_num; exact G].
      + constructor; [unfold num_char; tauto|]. revert N. apply Forall_impl. unfold num_char. tauto.
    - right. apply in_or_app. right. left. reflexivity. }
  intros [H|(t & -> & H)]; apply K in H; [exact H|]. destruct H as [H I]. split; [constructor; [unfold num_char; tauto|exact H]|right; exact I].
Qed.
(* the classes of texts *)
Inductive shape : xitem -> str -> Prop :=
| sp_string : forall s, ~ In 34%N s -> shape (XIString s) (34%N :: s ++ [34%N])
| sp_integer : forall z s, notation_of z s -> shape (XIInteger z) s
| sp_true : shape (XIBoolean true) (lit "true")
| sp_false : shape (XIBoolean false) (lit "false")
| sp_decimal : forall x s, signed_text with_fraction s -> atof s = x -> shape (XIDecimal x) s
| sp_double : forall x s, signed_text scientific s -> atof s = x -> shape (XIDouble x) s
| sp_nan : shape (XIDouble S754_nan) (lit "NaN")
| sp_inf : shape (XIDouble (S754_infinity false)) (lit "+Infinity")
| sp_minus_inf : shape (XIDouble (S754_infinity true)) (lit "-Infinity").
Lemma atom_shape h it : plain_atom it -> shape it (show_item h it).
Proof.
  intros [s Q|z|b|x V F|x V].
  - apply (sp_string s Q).
  - apply sp_integer, fmt_i64_notation.
  - destruct b; constructor.
  - destruct (point_shown x V F) as (A & B & _). apply sp_decimal; auto.
  - destruct x as [s|[]| |s m e].
    + destruct (exp_shown (S754_zero s) V (or_introl (ex_intro _ s eq_refl))) as (A & B & _). destruct s; apply sp_double; assumption.
    + apply sp_minus_inf.
    + apply sp_inf.
    + apply sp_nan.
    + destruct (exp_shown (S754_finite s m e) V (or_intror (ex_intro _ s (ex_intro _ m (ex_intro _ e eq_refl))))) as (A & B & _).
      apply sp_double; assumption.
Qed.
(* the type of an atom can be told from its text *)
Definition text_type (t : str) : nat :=
  if match t with c :: _ => (c =? 34)%N | [] => false end then 0%nat
  else if mem_char 114 t || mem_char 108 t then 1%nat
  else if mem_char 101 t || mem_char 78 t || mem_char 73 t then 2%nat
  else if mem_char 46 t then 3%nat else 4%nat.
Definition type_code (it : xitem) : nat :=
  match it with XIString _ => 0 | XIBoolean _ => 1 | XIDouble _ => 2 | XIDecimal _ => 3 | _ => 4 end%nat.
Lemma mem_no (P : N -> Prop) c t : Forall P t -> ~ P c -> mem_char c t = false.
Proof.
  intros F H. unfold mem_char. destruct (existsb (N.eqb c) t) eqn:E; auto. apply existsb_exists in E. destruct E as (x & I & Q).
  apply N.eqb_eq in Q. subst x. rewrite Forall_forall in F. destruct (H (F c I)).
Qed.
Lemma mem_yes c t : In c t -> mem_char c t = true.
Proof. intro I. unfold mem_char. apply existsb_exists. exists c. split; [exact I|apply N.eqb_refl]. Qed.
Lemma head_no (P : N -> Prop) t : Forall P t -> ~ P 34%N -> match t with c :: _ => (c =? 34)%N | [] => false end = false.
Proof. intros F H. destruct F as [|c t C F]; [reflexivity|]. apply N.eqb_neq. intros ->. auto. Qed.
Lemma shape_type it t : shape it t -> text_type t = type_code it.
Proof.
  intro S. destruct S as [s Q|z s N| | |x s F E|x s F E| | |]; try reflexivity; unfold text_type; cbn [type_code].
  - apply notation_chars in N. destruct N as [N _].
    rewrite (head_no _ _ N), !(mem_no _ _ _ N) by (cbn beta; lia). reflexivity.
  - apply fraction_chars in F. destruct F as [F I].
    rewrite (head_no _ _ F), (mem_yes 46 _ I), !(mem_no _ _ _ F) by (cbn beta; lia). reflexivity.
  - apply scientific_chars in F. destruct F as [F I].
    rewrite (head_no _ _ F), (mem_yes 101 _ I), !(mem_no _ _ _ F) by (unfold num_char; lia). reflexivity.
Qed.
Lemma shape_inj a b s : shape a s -> shape b s -> a = b.
Proof.
  intros A B. assert (TA := shape_type a s A). assert (TB := shape_type b s B). rewrite TA in TB. clear TA.
  assert (DB : forall it t, shape it t -> match it with XIDouble x | XIDecimal x => atof t = x | XIBoolean b => t = bool_str b | XIString u => t = 34%N :: u ++ [34%N] | XIInteger z => notation_of z t | _ => True end)
    by (intros it t S; destruct S; auto; reflexivity).
  assert (DA := DB a s A). apply DB in B as DBB.
  destruct a; try discriminate TB; destruct b; try discriminate TB; try (f_equal; congruence); try (inversion A; fail); try (inversion B; fail).
  - rewrite DA in DBB. injection DBB as E2. apply app_inj_tail in E2. f_equal. tauto.
  - f_equal. eapply notation_inj; eauto.
  - f_equal. rewrite DA in DBB. destruct b, b0; auto; discriminate.
Qed.
(* cutting a row of texts apart *)
Definition mark (c : N) : Prop := c = 44%N \/ c = 41%N.
Lemma cut (stop : N -> Prop) : forall a b r r', Forall (fun c => ~ stop c) a -> Forall (fun c => ~ stop c) b ->
  (exists c t, r = c :: t /\ stop c) -> (exists c t, r' = c :: t /\ stop c) -> a ++ r = b ++ r' -> a = b /\ r = r'.
Proof.
  induction a as [|x a IH]; intros b r r' FA FB R R' E; destruct b as [|y b]; cbn [app] in E.
  - auto.
  - destruct R as (c & t & -> & C). inversion E; subst. inversion FB. tauto.
  - destruct R' as (c & t & -> & C). inversion E; subst. inversion FA. tauto.
  - inversion E; subst. inversion FA; inversion FB; subst. destruct (IH b r r') as [-> ->]; auto.
Qed.
Lemma shape_chars it t : shape it t -> (exists s, ~ In 34%N s /\ t = 34%N :: s ++ [34%N]) \/
  (Forall (fun c => ~ mark c) t /\ exists c r, t = c :: r /\ c <> 34%N /\ c <> 40%N).
Proof.
  assert (G : forall (P : N -> Prop) t, Forall P t -> (forall c, P c -> ~ mark c /\ c <> 34%N /\ c <> 40%N) -> t <> [] ->
    Forall (fun c => ~ mark c) t /\ exists c r, t = c :: r /\ c <> 34%N /\ c <> 40%N).
  { intros P u F H N. split; [revert F; apply Forall_impl; apply H|]. destruct F as [|c r C F]; [congruence|]. exists c, r. split; auto. apply H; auto. }
  intro S. destruct S as [s Q|z s N| | |x s F E|x s F E| | |].
  - left. eauto.
  - right. apply notation_chars in N. destruct N as [N N0]. apply (G _ _ N); auto. unfold mark. intros; lia.
  - right. apply (G (fun c => ~ mark c /\ c <> 34%N /\ c <> 40%N)); auto; [unfold mark; repeat constructor; cbn; try lia|discriminate].
  - right. apply (G (fun c => ~ mark c /\ c <> 34%N /\ c <> 40%N)); auto; [unfold mark; repeat constructor; cbn; try lia|discriminate].
  - right. apply fraction_chars in F. destruct F as [F I]. apply (G _ _ F); [unfold mark; intros; lia|intros ->; destruct I].
  - right. apply scientific_chars in F. destruct F as [F I]. apply (G _ _ F); [unfold mark, num_char; intros; lia|intros ->; destruct I].
  - right. apply (G (fun c => ~ mark c /\ c <> 34%N /\ c <> 40%N)); auto; [unfold mark; repeat constructor; cbn; try lia|discriminate].
  - right. apply (G (fun c => ~ mark c /\ c <> 34%N /\ c <> 40%N)); auto; [unfold mark; repeat constructor; cbn; try lia|discriminate].
  - right. apply (G (fun c => ~ mark c /\ c <> 34%N /\ c <> 40%N)); auto; [unfold mark; repeat constructor; cbn; try lia|discriminate].
Qed.
Lemma no_quote s : ~ In 34%N s -> Forall (fun c => ~ c = 34%N) s.
Proof. intro Q. apply Forall_forall. intros c I ->. auto. Qed.
Lemma shape_cut a b t u r r' : shape a t -> shape b u -> (exists c v, r = c :: v /\ mark c) -> (exists c v, r' = c :: v /\ mark c) ->
  t ++ r = u ++ r' -> t = u /\ r = r'.
Proof.
  intros A B R R' E. apply shape_chars in A, B.
  destruct A as [(s & Q & ->)|(F & c & v & -> & C & _)], B as [(s' & Q' & ->)|(F' & c' & v' & -> & C' & _)].
  - cbn [app] in E. inversion E as [E2]. rewrite <- !app_assoc in E2.
    destruct (cut (fun c => c = 34%N) s s' ([34%N] ++ r) ([34%N] ++ r')) as [-> E3]; eauto using no_quote; try (eexists; eexists; split; reflexivity).
    inversion E3. auto.
  - inversion E. congruence.
  - inversion E. congruence.
  - apply (cut mark); auto.
Qed.
Fixpoint rest_of (h : heap) (l : list xitem) : str :=
  match l with [] => lit ")" | it :: l => lit ", " ++ show_item h it ++ rest_of h l end.
Lemma show_rest h : forall l it, join (lit ", ") (map (show_item h) (it :: l)) ++ lit ")" = show_item h it ++ rest_of h l.
Proof.
  induction l as [|b l IH]; intro it; [reflexivity|]. rewrite map_cons, join_cons by discriminate. rewrite <- !app_assoc, IH. reflexivity.
Qed.
Lemma rest_mark h l : exists c v, rest_of h l = c :: v /\ mark c.
Proof. destruct l; cbn; do 2 eexists; (split; [reflexivity|]); unfold mark; auto. Qed.
Lemma rest_inj h : forall l l', Forall plain_atom l -> Forall plain_atom l' -> rest_of h l = rest_of h l' -> l = l'.
Proof.
  induction l as [|a l IH]; intros [|b l'] F F' E; auto; try discriminate E.
  cbn [rest_of] in E. inversion F; inversion F'; subst. apply app_inv_head in E.
  destruct (shape_cut a b _ _ _ _ (atom_shape h a H1) (atom_shape h b H5) (rest_mark h l) (rest_mark h l') E) as [E1 E2].
  f_equal; [|apply IH; auto]. eapply shape_inj; [apply (atom_shape h a H1)|]. rewrite E1. apply atom_shape; auto.
Qed.
(* Two different results of atomic values, whose strings have no quotation marks, are written differently: the text tells
   the number of items, their types and their values. *)
Theorem C79_tells_apart_partial : forall h s t, Forall plain_atom s -> Forall plain_atom t -> seq_to_string h s = seq_to_string h t -> s = t.
Proof.
  intros h s t F G. unfold seq_to_string, show_seq.
  assert (NP : forall it r, plain_atom it -> show_item h it <> 40%N :: r).
  { intros it r P E. assert (S := atom_shape h it P). rewrite E in S. apply shape_chars in S.
    destruct S as [(u & _ & Q)|(_ & c & v & Q & _ & N)]; inversion Q; congruence. }
  assert (M : forall a b l, Item.parens (List.length (a :: b :: l)) (join (lit ", ") (map (show_item h) (a :: b :: l))) = 40%N :: show_item h a ++ rest_of h (b :: l)).
  { intros a b l. rewrite parens_two, show_rest. reflexivity. }
  destruct s as [|a [|b l]], t as [|a' [|b' l']]; rewrite ?M; intro E; auto.
  - inversion G; subst. destruct (NP a' (lit ")") H1). symmetry. exact E.
  - inversion G; subst. injection E as E. assert (S := shape_chars _ _ (atom_shape h a' H1)).
    destruct S as [(u & _ & Q)|(X & c & v & Q & _ & N)]; rewrite Q in E; [discriminate E|]. injection E as <- _.
    rewrite Q in X. inversion X as [|? ? Y]. destruct Y. right. reflexivity.
  - inversion F; subst. destruct (NP a (lit ")") H1). exact E.
  - f_equal. inversion F; inversion G; subst. eapply shape_inj; [apply (atom_shape h a H1)|]. cbn [map join List.length Item.parens] in E.
    rewrite E. apply atom_shape; auto.
  - inversion F; subst. destruct (NP a _ H1 E).
  - inversion F; subst. injection E as E. assert (S := shape_chars _ _ (atom_shape h a H1)).
    destruct S as [(u & _ & Q)|(X & c & v & Q & _ & N)]; rewrite Q in E; [discriminate E|]. injection E as -> _.
    rewrite Q in X. inversion X as [|? ? Y]. destruct Y. right. reflexivity.
  - inversion G; subst. symmetry in E. destruct (NP a' _ H1 E).
  - injection E as E. apply (rest_inj h (a :: b :: l) (a' :: b' :: l')); auto. cbn [rest_of] in *. f_equal. exact E.
Qed.
(* Without the condition on strings that is not so: quotation marks inside a string are not marked, *)
Theorem C79_tells_apart_refuted : forall h,
  seq_to_string h [XIString (lit "a"", ""b"); XIString (lit "c")] =
  seq_to_string h [XIString (lit "a"); XIString (lit "b"); XIString (lit "c")].
Proof. reflexivity. Qed.
(* comments, processing instructions and XML declarations are written as nothing at all. *)
Theorem C79_nothing_refuted : forall h i, In (n_type (Dom.get h i)) [Comment; Instruction; XMLDecl; Directive] ->
  seq_to_string h [XINode i] = [].
Proof. intros h i K. unfold seq_to_string, show_seq. cbn [List.length Item.parens map join show_item]. unfold show_node. cbn in K. destruct (n_type (Dom.get h i)); auto; intuition discriminate. Qed.
Example C79_example : let s := [XIInteger (-1); XIDecimal (f_of_Z 2); XIDouble (fdiv f_one (f_of_Z 4)); XIString (lit "str"); XIBoolean true;
    XIArray [[XIInteger 1]; []]; XIMap [(XIString (lit "k"), [XIInteger 1; XIInteger 2])]] in
  Forall (showable []) s /\ Forall plain_atom (firstn 5 s) /\
  seq_to_string [] s = lit "(-1, 2.0, 2.5e-1, ""str"", true, [1, ()], {""k"" => (1, 2)})".
Proof.
  assert (A : Forall plain_atom [XIInteger (-1); XIDecimal (f_of_Z 2); XIDouble (fdiv f_one (f_of_Z 4)); XIString (lit "str"); XIBoolean true]).
  { repeat (apply Forall_cons); [constructor|constructor|constructor|constructor|constructor|constructor]; try (vm_compute; reflexivity); [|cbn; intuition discriminate].
    right. do 3 eexists. vm_compute. reflexivity. }
  split; [|split; [exact A|vm_compute; reflexivity]]. inversion A as [|? ? _ A1]. inversion A1 as [|? ? D _]. inversion D as [| | |? D1 D2|]; subst.
  repeat (apply Forall_cons); [constructor|apply sw_decimal; auto|apply sw_double; vm_compute; reflexivity|constructor|constructor|apply sw_array|apply sw_map|constructor].
  - intros v it [<-|[<-|[]]]; [intros [<-|[]]; constructor|intros []].
  - intros k v [H|[]]. injection H as <- <-. split; [constructor|]. intros it [<-|[<-|[]]]; constructor.
Qed.

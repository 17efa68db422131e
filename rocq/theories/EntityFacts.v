(* Escaping and unescaping of character data: src/dom.rs 999-1012, src/sax.rs 873-916 *)
Require Import Bool List NArith Ascii String Lia.
From Verif Require Import Str StrFacts Chars Sax Dom SpecText.
Import ListNotations.
Open Scope N_scope.

Definition enc1 (c : char) : str :=
  if c =? 38 then [38;97;109;112;59]
  else if c =? 62 then [38;103;116;59]
  else if c =? 60 then [38;108;116;59]
  else if c =? 34 then [38;113;117;111;116;59]
  else if c =? 39 then [38;97;112;111;115;59]
  else [c].

Lemma encode_entity_flat : forall s, encode_entity s = flat_map enc1 s.
Proof.
  intro s. unfold encode_entity.
  change (lit "&") with [38]. change (lit ">") with [62]. change (lit "<") with [60].
  change (lit "'") with [39]. unfold cDQ.
  rewrite !replace_single. rewrite !flat_map_flat_map.
  apply flat_map_ext. intro c. unfold enc1.
  destruct (N.eqb_spec c 38) as [->|H1]; [reflexivity|].
  cbn [flat_map]. rewrite !app_nil_r.
  destruct (N.eqb_spec c 62) as [->|H2]; [reflexivity|].
  cbn [flat_map]. rewrite !app_nil_r.
  destruct (N.eqb_spec c 60) as [->|H3]; [reflexivity|].
  cbn [flat_map]. rewrite !app_nil_r.
  destruct (N.eqb_spec c 34) as [->|H4]; [reflexivity|].
  cbn [flat_map]. rewrite !app_nil_r. reflexivity.
Qed.

Lemma enc1_cases : forall c,
  (~ special c /\ enc1 c = [c]) \/
  (exists name, In (name, c) predefined /\ enc1 c = 38 :: name ++ [59]).
Proof.
  intro c. unfold enc1, special.
  destruct (N.eqb_spec c 38) as [->|H1].
  { right. exists (lit "amp"). split; [simpl; auto|reflexivity]. }
  destruct (N.eqb_spec c 62) as [->|H2].
  { right. exists (lit "gt"). split; [simpl; auto|reflexivity]. }
  destruct (N.eqb_spec c 60) as [->|H3].
  { right. exists (lit "lt"). split; [simpl; auto|reflexivity]. }
  destruct (N.eqb_spec c 34) as [->|H4].
  { right. exists (lit "quot"). split; [simpl; auto|reflexivity]. }
  destruct (N.eqb_spec c 39) as [->|H5].
  { right. exists (lit "apos"). split; [simpl; auto 10|reflexivity]. }
  left. split; [|reflexivity]. intros [E|[E|[E|[E|E]]]]; congruence.
Qed.

Lemma encode_safe : forall s, safe_text (encode_entity s).
Proof.
  intro s. rewrite encode_entity_flat. induction s as [|c s IH]; simpl; [constructor|].
  destruct (enc1_cases c) as [[Hn ->]|[name [Hin ->]]].
  - simpl. constructor; auto.
  - rewrite <- app_comm_cons, <- app_assoc. simpl. eapply safe_ref; eauto.
Qed.

Lemma encode_denotes : forall P s, denotes P (encode_entity s) s.
Proof.
  intros P s. rewrite encode_entity_flat. induction s as [|c s IH]; simpl; [constructor|].
  constructor; auto.
  destruct (enc1_cases c) as [[Hn ->]|[name [Hin ->]]].
  - apply item_plain. unfold special in Hn. tauto.
  - eapply item_entity; eauto.
Qed.

(* ------------------------------------------------------------------------- *)
(* decoding well-formed character data without a numeric reference to '&'      *)

(* an item tagged with its form, so that each decoding stage can be described *)
Inductive it : Type :=
| ItPlain (c : char)
| ItEnt (name : str) (c : char)
| ItHex (ds : str) (v : char)
| ItDec (ds : str) (v : char).

Definition it_ok (i : it) : Prop :=
  match i with
  | ItPlain c => c <> 38
  | ItEnt n c => In (n, c) predefined
  | ItHex ds v => numeral 16 hex_digit_value ds v /\ scalar_value v /\ v <> 38
  | ItDec ds v => numeral 10 dec_digit_value ds v /\ scalar_value v /\ v <> 38
  end.
Definition it_val (i : it) : char :=
  match i with ItPlain c => c | ItEnt _ c => c | ItHex _ v => v | ItDec _ v => v end.
Definition it_src (i : it) : str :=
  match i with
  | ItPlain c => [c]
  | ItEnt n _ => 38 :: n ++ [59]
  | ItHex ds _ => 38 :: 35 :: 120 :: ds ++ [59]
  | ItDec ds _ => 38 :: 35 :: ds ++ [59]
  end.

Definition srcs (l : list it) : str := flat_map it_src l.
Definition unhex (i : it) : it := match i with ItHex _ v => ItPlain v | _ => i end.
Definition undec (i : it) : it := match i with ItDec _ v => ItPlain v | _ => i end.

Lemma unhex_ok : forall i, it_ok i -> it_ok (unhex i).
Proof. intros [c|n c|ds v|ds v]; simpl; tauto. Qed.
Lemma undec_ok : forall i, it_ok i -> it_ok (undec i).
Proof. intros [c|n c|ds v|ds v]; simpl; tauto. Qed.
Lemma unhex_val : forall i, it_val (unhex i) = it_val i.
Proof. intros [c|n c|ds v|ds v]; reflexivity. Qed.
Lemma undec_val : forall i, it_val (undec i) = it_val i.
Proof. intros [c|n c|ds v|ds v]; reflexivity. Qed.

Lemma numeral_no_semicolon : forall base digit ds v,
  numeral base digit ds v -> digit 59 = None -> ~ In 59 ds.
Proof.
  intros base digit ds v H Hd. induction H; intro Hin.
  - destruct Hin as [->|[]]. congruence.
  - apply in_app_or in Hin. destruct Hin as [?|[->|[]]]; auto. congruence.
Qed.

Lemma numeral_head : forall base digit ds v, numeral base digit ds v ->
  exists c r d, ds = c :: r /\ digit c = Some d.
Proof.
  intros base digit ds v H. induction H.
  - eauto.
  - destruct IHnumeral as [c' [r [d' [-> Hd]]]]. simpl. eauto.
Qed.

Lemma split_semicolon : forall ds tail, ~ In 59 ds ->
  split_once (lit ";") (ds ++ 59 :: tail) = Some (ds, tail).
Proof.
  intros ds tail H. induction ds as [|c ds IH]; [reflexivity|].
  cbn [app]. rewrite split_once_unfold. change (lit ";") with [59] in *.
  cbn [strip_prefix]. destruct (N.eqb_spec 59 c) as [<-|Hn].
  - exfalso. apply H. simpl; auto.
  - rewrite IH; auto. intro. apply H. simpl; auto.
Qed.

(* the numeral's value as computed by u32::from_str_radix *)
Lemma radix_digits_app : forall radix s acc c d v,
  digit_val radix c = Some d ->
  radix_digits radix acc s = Some v ->
  v * radix + d < 4294967296 ->
  radix_digits radix acc (s ++ [c]) = Some (v * radix + d).
Proof.
  intros radix s. induction s as [|x s IH]; intros acc c d v Hd Hs Hlt.
  - simpl in Hs. injection Hs as ->. cbn [app radix_digits]. rewrite Hd.
    cbv zeta. apply N.ltb_lt in Hlt. rewrite Hlt. reflexivity.
  - cbn [app radix_digits] in *. destruct (digit_val radix x) as [dx|]; [|discriminate].
    cbv zeta in *. destruct (acc * radix + dx <? 4294967296) eqn:E; [|discriminate].
    apply IH; auto.
Qed.

Lemma numeral_radix : forall radix digit,
  0 < radix ->
  (forall c d, digit c = Some d -> digit_val radix c = Some d /\ d < 4294967296) ->
  forall ds v, numeral radix digit ds v -> v < 4294967296 ->
  radix_digits radix 0 ds = Some v.
Proof.
  intros radix digit Hr Hd ds v H. induction H; intro Hlt.
  - cbn [radix_digits]. destruct (Hd _ _ H) as [-> Hd']. cbv zeta.
    rewrite N.mul_0_l, N.add_0_l. apply N.ltb_lt in Hlt. rewrite Hlt. reflexivity.
  - apply radix_digits_app; auto. { apply Hd; auto. }
    apply IHnumeral. nia.
Qed.

Lemma hex_digit_ok : forall c d, hex_digit_value c = Some d ->
  digit_val 16 c = Some d /\ d < 4294967296.
Proof.
  intros c d. unfold hex_digit_value, digit_val.
  destruct ((48 <=? c) && (c <=? 57)) eqn:E1.
  - apply andb_true_iff in E1. destruct E1 as [E1 E2]. apply N.leb_le in E1, E2.
    intro H. injection H as <-. cbv zeta.
    replace (c - 48 <? 16) with true by (symmetry; apply N.ltb_lt; lia). split; auto. lia.
  - destruct ((97 <=? c) && (c <=? 102)) eqn:E2.
    + apply andb_true_iff in E2. destruct E2 as [E3 E4]. apply N.leb_le in E3, E4.
      intro H. injection H as <-.
      replace ((97 <=? c) && (c <=? 122)) with true
        by (symmetry; apply andb_true_iff; split; apply N.leb_le; lia).
      cbv zeta. replace (c - 87 <? 16) with true by (symmetry; apply N.ltb_lt; lia).
      split; [f_equal; lia | lia].
    + destruct ((65 <=? c) && (c <=? 70)) eqn:E3; [|discriminate].
      apply andb_true_iff in E3. destruct E3 as [E4 E5]. apply N.leb_le in E4, E5.
      intro H. injection H as <-.
      replace ((97 <=? c) && (c <=? 122)) with false
        by (symmetry; apply andb_false_iff; left; apply N.leb_gt; lia).
      replace ((65 <=? c) && (c <=? 90)) with true
        by (symmetry; apply andb_true_iff; split; apply N.leb_le; lia).
      cbv zeta. replace (c - 55 <? 16) with true by (symmetry; apply N.ltb_lt; lia).
      split; [f_equal; lia | lia].
Qed.

Lemma dec_digit_ok : forall c d, dec_digit_value c = Some d ->
  digit_val 10 c = Some d /\ d < 4294967296.
Proof.
  intros c d. unfold dec_digit_value, digit_val.
  destruct ((48 <=? c) && (c <=? 57)) eqn:E1; [|discriminate].
  apply andb_true_iff in E1. destruct E1 as [E1 E2]. apply N.leb_le in E1, E2.
  intro H. injection H as <-. cbv zeta.
  replace (c - 48 <? 10) with true by (symmetry; apply N.ltb_lt; lia). split; auto. lia.
Qed.

Lemma char_ref_value_ok : forall radix digit ds v,
  0 < radix ->
  (forall c d, digit c = Some d -> digit_val radix c = Some d /\ d < 4294967296) ->
  digit 43 = None ->
  numeral radix digit ds v -> scalar_value v ->
  char_ref_value radix ds = v.
Proof.
  intros radix digit ds v Hr Hd H43 Hn Hs. unfold char_ref_value.
  assert (Hlt : v < 4294967296) by (unfold scalar_value in Hs; lia).
  assert (E : from_str_radix radix ds = Some v).
  { destruct (numeral_head _ _ _ _ Hn) as [c [r [d [E Ec]]]].
    unfold from_str_radix. rewrite E. destruct (N.eqb_spec c 43) as [->|Hc]; [congruence|].
    rewrite <- E. eapply numeral_radix; eauto. }
  rewrite E. cbv zeta. unfold char_from_u32, scalar_value in *.
  destruct (N.ltb_spec v 55296); auto.
  destruct (N.ltb_spec v 57344); [lia|].
  destruct (N.ltb_spec v 1114112); auto. lia.
Qed.

(* one unfolding of split_once on a head that does not match *)
Lemma split_once_step : forall p c s,
  strip_prefix p (c :: s) = None ->
  split_once p (c :: s) =
  match split_once p s with Some (b, a) => Some (c :: b, a) | None => None end.
Proof. intros p c s H. rewrite split_once_unfold, H. reflexivity. Qed.

Definition prepend {A} (u : list A) (o : option (list A * list A)) :=
  match o with Some (b, a) => Some (u ++ b, a) | None => None end.

Lemma prepend_cons : forall (A : Type) (c : A) u o,
  match prepend u o with Some (b, a) => Some (c :: b, a) | None => None end = prepend (c :: u) o.
Proof. intros A c u [[b a]|]; reflexivity. Qed.

(* a run of characters none of which begins the pattern *)
Lemma split_once_skip : forall p0 p u s,
  ~ In p0 u -> split_once (p0 :: p) (u ++ s) = prepend u (split_once (p0 :: p) s).
Proof.
  intros p0 p u s H. induction u as [|c u IH].
  - simpl. destruct (split_once (p0 :: p) s) as [[b a]|]; reflexivity.
  - cbn [app]. rewrite split_once_step.
    + rewrite IH by (intro; apply H; simpl; auto).
      destruct (split_once (p0 :: p) s) as [[b a]|]; reflexivity.
    + cbn [strip_prefix]. destruct (N.eqb_spec p0 c) as [->|]; auto.
      exfalso. apply H. simpl; auto.
Qed.

(* names of predefined entities *)
Lemma predefined_name : forall n c, In (n, c) predefined ->
  ~ In 38 n /\ ~ In 59 n /\ exists a r, n = a :: r /\ a <> 35 /\ a <> 38.
Proof.
  intros n c H. cbn in H.
  repeat (destruct H as [H|H]; [injection H as <- <-; split; [|split];
    [simpl; intuition discriminate | simpl; intuition discriminate
    | eexists; eexists; split; [reflexivity|split; discriminate]] |]).
  destruct H.
Qed.

Definition digits_free (ds : str) := ~ In 38 ds /\ ~ In 59 ds.

Lemma hex_digits_free : forall ds v, numeral 16 hex_digit_value ds v -> digits_free ds.
Proof.
  intros ds v H. induction H; split; intro Hin.
  - destruct Hin as [->|[]]. discriminate.
  - destruct Hin as [->|[]]. discriminate.
  - apply in_app_or in Hin. destruct Hin as [?|[->|[]]]; [|discriminate]. apply (proj1 IHnumeral); auto.
  - apply in_app_or in Hin. destruct Hin as [?|[->|[]]]; [|discriminate]. apply (proj2 IHnumeral); auto.
Qed.
Lemma dec_digits_free : forall ds v, numeral 10 dec_digit_value ds v ->
  digits_free ds /\ ~ In 120 ds.
Proof.
  intros ds v H. unfold digits_free. induction H; repeat split; intro Hin;
    try (destruct Hin as [->|[]]; discriminate);
    apply in_app_or in Hin; destruct Hin as [?|[->|[]]]; try discriminate; tauto.
Qed.

(* --- stage 1: hexadecimal references --- *)
Lemma split_hex_step : forall i l, it_ok i ->
  match i with ItHex _ _ => False | _ => True end ->
  split_once (lit "&#x") (it_src i ++ srcs l) = prepend (it_src i) (split_once (lit "&#x") (srcs l)).
Proof.
  intros i l Hok Hk. change (lit "&#x") with [38;35;120]. destruct i as [c|n c|ds v|ds v]; simpl in Hok.
  - apply split_once_skip. simpl. intros [E|[]]; auto.
  - destruct (predefined_name _ _ Hok) as [H1 [H2 [a [r [E [H3 H4]]]]]].
    cbn [it_src app]. rewrite split_once_step.
    + rewrite split_once_skip.
      * apply prepend_cons.
      * intro Hin. apply in_app_or in Hin. destruct Hin as [Hin|[E'|[]]]; [auto|discriminate].
    + rewrite E. cbn [app strip_prefix]. destruct (N.eqb_spec 38 38); [|congruence].
      destruct (N.eqb_spec 35 a); congruence.
  - destruct Hk.
  - destruct Hok as [Hn _]. destruct (dec_digits_free _ _ Hn) as [[F1 F2] F3].
    destruct (numeral_head _ _ _ _ Hn) as [c [r [d [E Ed]]]].
    cbn [it_src app]. rewrite split_once_step.
    + change (35 :: (ds ++ [59]) ++ srcs l) with ((35 :: ds ++ [59]) ++ srcs l).
      rewrite split_once_skip.
      * apply prepend_cons.
      * simpl. intros [E'|Hin]; [discriminate|]. apply in_app_or in Hin.
        destruct Hin as [Hin|[E'|[]]]; [auto|discriminate].
    + apply strip_prefix_none. intros t Et. injection Et as Et. rewrite E in Et.
      injection Et as Et _. apply F3. rewrite E, Et. simpl; auto.
Qed.

Lemma decode_refs_S : forall fuel pattern radix buf,
  decode_refs (S fuel) pattern radix buf =
  match split_once pattern buf with
  | None => buf
  | Some (head, v1) =>
      match split_once (lit ";") v1 with
      | None => buf
      | Some (entity, tail) =>
          decode_refs fuel pattern radix (head ++ char_ref_value radix entity :: tail)
      end
  end.
Proof. reflexivity. Qed.

(* first hexadecimal reference in a list of items *)
Lemma split_hex : forall l, Forall it_ok l ->
  (exists l1 ds v l2, l = l1 ++ ItHex ds v :: l2
      /\ map unhex l1 = l1
      /\ split_once (lit "&#x") (srcs l) = Some (srcs l1, ds ++ 59 :: srcs l2))
  \/ (map unhex l = l /\ split_once (lit "&#x") (srcs l) = None).
Proof.
  induction l as [|i l IH]; intro H.
  - right. split; reflexivity.
  - inversion H as [|? ? Hi Hl]; subst.
    destruct (match i with ItHex _ _ => true | _ => false end) eqn:K.
    + destruct i as [c|n c|ds v|ds v]; try discriminate. left.
      exists [], ds, v, l. repeat split. cbn. rewrite <- app_assoc. reflexivity.
    + assert (Hk : match i with ItHex _ _ => False | _ => True end) by (destruct i; auto; discriminate).
      assert (Hu : unhex i = i) by (destruct i; auto; destruct Hk).
      destruct (IH Hl) as [[l1 [ds [v [l2 [E [Em Es]]]]]]|[Em Es]].
      * left. exists (i :: l1), ds, v, l2. split; [|split].
        -- subst. reflexivity.
        -- simpl. congruence.
        -- cbn [srcs flat_map]. rewrite split_hex_step; auto. fold (srcs l). rewrite Es. reflexivity.
      * right. split; [simpl; congruence|].
        cbn [srcs flat_map]. rewrite split_hex_step; auto. fold (srcs l). rewrite Es. reflexivity.
Qed.

Lemma srcs_app : forall a b, srcs (a ++ b) = srcs a ++ srcs b.
Proof. intros. unfold srcs. apply flat_map_app. Qed.

Fixpoint nhex (l : list it) : nat :=
  match l with [] => 0%nat | ItHex _ _ :: l' => S (nhex l') | _ :: l' => nhex l' end.
Fixpoint ndec (l : list it) : nat :=
  match l with [] => 0%nat | ItDec _ _ :: l' => S (ndec l') | _ :: l' => ndec l' end.

Lemma nhex_app : forall a b, nhex (a ++ b) = (nhex a + nhex b)%nat.
Proof. induction a as [|[c|n c|ds v|ds v] a IH]; simpl; intros; auto. Qed.
Lemma ndec_app : forall a b, ndec (a ++ b) = (ndec a + ndec b)%nat.
Proof. induction a as [|[c|n c|ds v|ds v] a IH]; simpl; intros; auto. Qed.

Lemma nhex_len : forall l, (nhex l <= List.length (srcs l))%nat.
Proof.
  induction l as [|i l IH]; [simpl; lia|]. cbn [srcs flat_map]. rewrite app_length. fold (srcs l).
  destruct i; simpl in *; lia.
Qed.
Lemma ndec_len : forall l, (ndec l <= List.length (srcs l))%nat.
Proof.
  induction l as [|i l IH]; [simpl; lia|]. cbn [srcs flat_map]. rewrite app_length. fold (srcs l).
  destruct i; simpl in *; lia.
Qed.

Lemma decode_hex : forall fuel l, Forall it_ok l -> (nhex l <= fuel)%nat ->
  decode_refs fuel (lit "&#x") 16 (srcs l) = srcs (map unhex l).
Proof.
  induction fuel as [|fuel IH]; intros l Hl Hf;
    destruct (split_hex l Hl) as [[l1 [ds [v [l2 [E [Em Es]]]]]]|[Em Es]].
  - exfalso. subst. rewrite nhex_app in Hf. simpl in Hf. lia.
  - rewrite Em. reflexivity.
  - rewrite decode_refs_S, Es.
    assert (Hv : it_ok (ItHex ds v)).
    { rewrite Forall_forall in Hl. apply Hl. subst. apply in_or_app. simpl; auto. }
    simpl in Hv. destruct Hv as [Hn [Hs H38]].
    rewrite split_semicolon by (apply (hex_digits_free _ _ Hn)).
    rewrite (char_ref_value_ok 16 hex_digit_value ds v); auto using hex_digit_ok; try lia.
    replace (srcs l1 ++ v :: srcs l2) with (srcs (l1 ++ ItPlain v :: l2)).
    + rewrite IH.
      * subst. rewrite !map_app. cbn [map unhex]. reflexivity.
      * subst. apply Forall_app in Hl. destruct Hl as [Ha Hb]. inversion Hb; subst.
        apply Forall_app. split; auto.
      * subst. rewrite nhex_app in *. simpl in *. lia.
    + rewrite srcs_app. reflexivity.
  - rewrite decode_refs_S, Es, Em. reflexivity.
Qed.

(* --- stage 2: decimal references --- *)
Definition no_hex (i : it) := match i with ItHex _ _ => False | _ => True end.

Lemma split_dec_step : forall i l, it_ok i -> no_hex i ->
  match i with ItDec _ _ => False | _ => True end ->
  split_once (lit "&#") (it_src i ++ srcs l) = prepend (it_src i) (split_once (lit "&#") (srcs l)).
Proof.
  intros i l Hok Hh Hk. change (lit "&#") with [38;35]. destruct i as [c|n c|ds v|ds v]; simpl in Hok.
  - apply split_once_skip. simpl. intros [E|[]]; auto.
  - destruct (predefined_name _ _ Hok) as [H1 [H2 [a [r [E [H3 H4]]]]]].
    cbn [it_src app]. rewrite split_once_step.
    + rewrite split_once_skip.
      * apply prepend_cons.
      * intro Hin. apply in_app_or in Hin. destruct Hin as [Hin|[E'|[]]]; [auto|discriminate].
    + rewrite E. cbn [app strip_prefix]. destruct (N.eqb_spec 38 38); [|congruence].
      destruct (N.eqb_spec 35 a); congruence.
  - destruct Hh.
  - destruct Hk.
Qed.

Lemma split_dec : forall l, Forall it_ok l -> Forall no_hex l ->
  (exists l1 ds v l2, l = l1 ++ ItDec ds v :: l2
      /\ map undec l1 = l1
      /\ split_once (lit "&#") (srcs l) = Some (srcs l1, ds ++ 59 :: srcs l2))
  \/ (map undec l = l /\ split_once (lit "&#") (srcs l) = None).
Proof.
  induction l as [|i l IH]; intros H Hh.
  - right. split; reflexivity.
  - inversion H as [|? ? Hi Hl]; subst. inversion Hh as [|? ? Hhi Hhl]; subst.
    destruct (match i with ItDec _ _ => true | _ => false end) eqn:K.
    + destruct i as [c|n c|ds v|ds v]; try discriminate. left.
      exists [], ds, v, l. repeat split. cbn. rewrite <- app_assoc. reflexivity.
    + assert (Hk : match i with ItDec _ _ => False | _ => True end) by (destruct i; auto; discriminate).
      assert (Hu : undec i = i) by (destruct i; auto; destruct Hk).
      destruct (IH Hl Hhl) as [[l1 [ds [v [l2 [E [Em Es]]]]]]|[Em Es]].
      * left. exists (i :: l1), ds, v, l2. split; [|split].
        -- subst. reflexivity.
        -- simpl. congruence.
        -- cbn [srcs flat_map]. rewrite split_dec_step; auto. fold (srcs l). rewrite Es. reflexivity.
      * right. split; [simpl; congruence|].
        cbn [srcs flat_map]. rewrite split_dec_step; auto. fold (srcs l). rewrite Es. reflexivity.
Qed.

Lemma decode_dec : forall fuel l, Forall it_ok l -> Forall no_hex l -> (ndec l <= fuel)%nat ->
  decode_refs fuel (lit "&#") 10 (srcs l) = srcs (map undec l).
Proof.
  induction fuel as [|fuel IH]; intros l Hl Hh Hf;
    destruct (split_dec l Hl Hh) as [[l1 [ds [v [l2 [E [Em Es]]]]]]|[Em Es]].
  - exfalso. subst. rewrite ndec_app in Hf. simpl in Hf. lia.
  - rewrite Em. reflexivity.
  - rewrite decode_refs_S, Es.
    assert (Hv : it_ok (ItDec ds v)).
    { rewrite Forall_forall in Hl. apply Hl. subst. apply in_or_app. simpl; auto. }
    simpl in Hv. destruct Hv as [Hn [Hs H38]].
    rewrite split_semicolon by (apply (dec_digits_free _ _ Hn)).
    rewrite (char_ref_value_ok 10 dec_digit_value ds v); auto using dec_digit_ok; try lia.
    replace (srcs l1 ++ v :: srcs l2) with (srcs (l1 ++ ItPlain v :: l2)).
    + rewrite IH.
      * subst. rewrite !map_app. cbn [map undec]. reflexivity.
      * subst. apply Forall_app in Hl. destruct Hl as [Ha Hb]. inversion Hb; subst.
        apply Forall_app. split; auto.
      * subst. apply Forall_app in Hh. destruct Hh as [Ha Hb]. inversion Hb; subst.
        apply Forall_app. split; auto. all: try (constructor; simpl; auto).
      * subst. rewrite ndec_app in *. simpl in *. lia.
    + rewrite srcs_app. reflexivity.
  - rewrite decode_refs_S, Es, Em. reflexivity.
Qed.

(* --- stage 3: the predefined entities, one [str::replace] each --- *)
Definition simple (i : it) :=
  match i with ItPlain _ => True | ItEnt _ _ => True | _ => False end.
Definition unent (name : str) (i : it) : it :=
  match i with ItEnt n c => if str_eqb n name then ItPlain c else i | _ => i end.

(* stage 3 items: plain characters may not be '&' as long as replacements are still to come *)
Lemma unent_ok : forall name i, name <> lit "amp" -> it_ok i -> it_ok (unent name i).
Proof.
  intros name [c|n c|ds v|ds v] Hn H; simpl in *; auto.
  destruct (str_eqb n name) eqn:E; simpl; auto.
  apply str_eqb_eq in E. subst.
  cbn in H. repeat (destruct H as [H|H]; [injection H as <- <-; try discriminate; try (exfalso; apply Hn; reflexivity)|]).
  destruct H.
Qed.

Lemma replace_plain : forall name rep u s, ~ In 38 u ->
  replace (38 :: name) rep (u ++ s) = u ++ replace (38 :: name) rep s.
Proof.
  intros name rep u s H. induction u as [|c u IH]; auto.
  cbn [app]. rewrite replace_miss_head.
  - f_equal. apply IH. intro. apply H. simpl; auto.
  - intro. subst. apply H. simpl; auto.
Qed.

Lemma names_prefix_free : forall n1 c1 n2 c2 r1 r2,
  In (n1, c1) predefined -> In (n2, c2) predefined ->
  n1 ++ 59 :: r1 = n2 ++ 59 :: r2 -> n1 = n2.
Proof.
  intros n1 c1 n2 c2 r1 r2 H1 H2 E.
  destruct (predefined_name _ _ H1) as [_ [F1 _]]. destruct (predefined_name _ _ H2) as [_ [F2 _]].
  clear H1 H2. revert n2 F2 E. induction n1 as [|x n1 IH]; intros [|y n2] F2 E; auto.
  - simpl in E. injection E as E _. subst. exfalso. apply F2. simpl; auto.
  - simpl in E. injection E as E _. subst. exfalso. apply F1. simpl; auto.
  - simpl in E. injection E as -> E. f_equal. apply IH; auto.
    + intro. apply F1. simpl; auto.
    + intro. apply F2. simpl; auto.
Qed.

Lemma replace_stage : forall name c0, In (name, c0) predefined ->
  forall l, Forall simple l -> Forall it_ok l ->
  replace (38 :: name ++ [59]) [c0] (srcs l) = srcs (map (unent name) l).
Proof.
  intros name c0 H0 l. induction l as [|i l IH]; intros Hs Hl; auto.
  inversion Hs; inversion Hl; subst. cbn [srcs flat_map map]. fold (srcs l).
  change (flat_map it_src (map (unent name) l)) with (srcs (map (unent name) l)).
  rewrite <- IH by auto.
  destruct i as [c|n c|ds v|ds v]; try (simpl in *; contradiction).
  - cbn [it_src unent]. apply replace_plain. simpl. intros [E|[]]. subst. simpl in *. congruence.
  - cbn [it_src unent]. simpl in H6. destruct (predefined_name _ _ H6) as [F1 [F2 _]].
    destruct (str_eqb n name) eqn:E.
    + apply str_eqb_eq in E. subst n.
      assert (c = c0).
      { clear - H0 H6. cbn in H0, H6.
        repeat (destruct H0 as [H0|H0];
          [injection H0 as <- <-;
           repeat (destruct H6 as [H6|H6]; [first [discriminate H6 | injection H6; auto]|]); destruct H6|]).
        destruct H0. }
      subst c. apply replace_hit.
    + apply str_eqb_neq in E. cbn [app].
      rewrite replace_miss.
      * cbn [it_src app]. f_equal. apply replace_plain. intro Hin. apply in_app_or in Hin.
        destruct Hin as [?|[?|[]]]; [auto|discriminate].
      * apply starts_with_false. intros r Er. injection Er as Er.
        rewrite <- !app_assoc in Er. cbn [app] in Er. apply E.
        exact (names_prefix_free n c name c0 _ _ H6 H0 Er).
Qed.

Lemma unent_simple : forall name i, simple i -> simple (unent name i).
Proof. intros name [c|n c|ds v|ds v] H; simpl in *; auto. destruct (str_eqb n name); simpl; auto. Qed.

Lemma decode_named_items : forall l, Forall simple l -> Forall it_ok l ->
  decode_named (srcs l) = map it_val l.
Proof.
  intros l Hs Hl. unfold decode_named.
  assert (F : forall name k, Forall simple k -> Forall simple (map (unent name) k)).
  { intros name k Hk. rewrite Forall_map. eapply Forall_impl; [|exact Hk]. intros. apply unent_simple; auto. }
  assert (G : forall name k, name <> lit "amp" -> Forall it_ok k -> Forall it_ok (map (unent name) k)).
  { intros name k Hn Hk. rewrite Forall_map. eapply Forall_impl; [|exact Hk]. intros. apply unent_ok; auto. }
  change (lit "&gt;") with (38 :: lit "gt" ++ [59]). change (lit ">") with [62].
  change (lit "&lt;") with (38 :: lit "lt" ++ [59]). change (lit "<") with [60].
  change (lit "&quot;") with (38 :: lit "quot" ++ [59]). unfold cDQ.
  change (lit "&apos;") with (38 :: lit "apos" ++ [59]). change (lit "'") with [39].
  change (lit "&amp;") with (38 :: lit "amp" ++ [59]). change (lit "&") with [38].
  cbv zeta.
  rewrite (replace_stage (lit "gt") 62) by (auto; simpl; auto).
  rewrite (replace_stage (lit "lt") 60) by (auto; try (apply G; auto; discriminate); simpl; auto).
  rewrite (replace_stage (lit "quot") 34)
    by (auto; try (repeat (apply G; [discriminate|]); auto; fail); simpl; auto 10).
  rewrite (replace_stage (lit "apos") 39)
    by (auto; try (repeat (apply G; [discriminate|]); auto; fail); simpl; auto 10).
  rewrite (replace_stage (lit "amp") 38)
    by (auto 10; try (repeat (apply G; [discriminate|]); auto; fail); simpl; auto 10).
  rewrite !map_map. induction l as [|i l IH]; auto.
  inversion Hs as [|? ? Hsi Hsl]; inversion Hl as [|? ? H6 Hll]; subst. cbn [map srcs flat_map].
  match goal with |- _ ++ flat_map it_src ?x = _ => change (flat_map it_src x) with (srcs x) end.
  rewrite IH by auto. destruct i as [c|n c|ds v|ds v]; try (simpl in *; contradiction).
  - reflexivity.
  - cbn in H6.
    repeat (destruct H6 as [H6|H6]; [injection H6 as <- <-; reflexivity|]). destruct H6.
Qed.

Lemma decode_items : forall l, Forall it_ok l -> decode_entity (srcs l) = map it_val l.
Proof.
  intros l Hl. unfold decode_entity. rewrite decode_hex by (auto using nhex_len).
  cbv zeta.
  assert (H1 : Forall it_ok (map unhex l)).
  { rewrite Forall_map. eapply Forall_impl; [|exact Hl]. intros. apply unhex_ok; auto. }
  assert (H2 : Forall no_hex (map unhex l)).
  { rewrite Forall_map. apply Forall_forall. intros [c|n c|ds v|ds v] _; simpl; auto. }
  rewrite decode_dec by (auto using ndec_len).
  rewrite decode_named_items.
  - rewrite !map_map. apply map_ext. intro. rewrite undec_val, unhex_val. reflexivity.
  - rewrite Forall_map, Forall_map. apply Forall_forall. intros [c|n c|ds v|ds v] _; simpl; auto.
  - rewrite Forall_map. eapply Forall_impl; [|exact H1]. intros. apply undec_ok; auto.
Qed.

(* numeric references to '&' are the only obstacle to single-pass decoding *)
Lemma denotes_items : forall s d, denotes (fun v => v <> 38) s d ->
  exists l, s = srcs l /\ Forall it_ok l /\ map it_val l = d.
Proof.
  intros s d H. induction H as [|i c s d Hi H [l [E [Hl Hv]]]].
  - exists []. repeat split. constructor.
  - subst. inversion Hi; subst.
    + exists (ItPlain c :: l). repeat split; auto.
    + exists (ItEnt name c :: l). repeat split; auto.
    + exists (ItHex ds c :: l). repeat split; auto. constructor; simpl; auto.
    + exists (ItDec ds c :: l). repeat split; auto. constructor; simpl; auto.
Qed.

Lemma decode_denotes : forall s d, denotes (fun v => v <> 38) s d -> decode_entity s = d.
Proof.
  intros s d H. destruct (denotes_items s d H) as [l [-> [Hl <-]]]. apply decode_items. exact Hl.
Qed.

Lemma decode_encode : forall s, decode_entity (encode_entity s) = s.
Proof. intro s. apply decode_denotes. apply encode_denotes. Qed.

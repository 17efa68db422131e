(* The tokenizer follows the grammar of SpecScan. *)
Require Import Bool List NArith ZArith Ascii String Lia.
From Verif Require Import Str StrFacts Chars Sax Dom SpecText SpecTokens SpecTree HeapFacts BuildFacts SaxFacts DocFacts TermFacts SpecRead ReadFacts SpecScan.
Import ListNotations.
Open Scope N_scope.

Definition plain (s : str) : Prop := ~ In 0 s /\ ~ In 13 s.
Lemma plain_app : forall a b, plain (a ++ b) -> plain a /\ plain b.
Proof. intros a b [A B]. split; split; intro H; [apply A|apply B|apply A|apply B]; apply in_or_app; auto. Qed.
Lemma plain_cons : forall c s, plain (c :: s) -> c <> 0 /\ c <> 13 /\ plain s.
Proof. intros c s [A B]. cbn [In] in *. split; [|split; [|split]]; intro H; intuition congruence. Qed.

Lemma spaces_inv : forall s, plain s -> exists w, s = w ++ skip_spaces s /\ spaces_text w /\ ~ starts_with_space (skip_spaces s).
Proof.
  induction s as [|c s IH]; intro P.
  - exists []. split; [reflexivity|]. split; [constructor|]. exact (fun H => H).
  - destruct (plain_cons _ _ P) as [C0 [C13 P']]. cbn [skip_spaces]. unfold cNUL. destruct (N.eqb_spec c 0) as [|_]; [contradiction|].
    destruct (is_space c) eqn:E.
    + destruct (IH P') as [w [E1 [W N]]]. exists (c :: w). split; [cbn [app]; f_equal; exact E1|]. split; [|exact N].
      constructor; [|exact W]. destruct (is_space_cases c E) as [H|[H|[H|H]]]; auto. contradiction.
    + exists []. split; [reflexivity|]. split; [constructor|]. cbn [starts_with_space]. congruence.
Qed.
Lemma spaces_to : forall w s, spaces_text w -> ~ In 0 s -> ~ starts_with_space s -> skip_spaces (w ++ s) = s.
Proof.
  intros w s W Z N. rewrite skip_spaces_text by exact W. destruct s as [|c s]; [reflexivity|].
  apply skip_spaces_stop; [intro H; apply Z; left; auto|]. cbn [starts_with_space] in N. destruct (is_space c); congruence.
Qed.
Lemma name_rest_inv : forall s n k, get_name_rest s = (n, k) -> s = n ++ k /\ Forall (fun x => is_name_char x = true) n /\ ~ starts_with_name_char k.
Proof.
  induction s as [|c s IH]; cbn [get_name_rest]; intros n k E.
  - injection E as <- <-. split; [reflexivity|]. split; [constructor|]. exact (fun H => H).
  - destruct (is_name_char c) eqn:C.
    + destruct (get_name_rest s) as [r k']. injection E as <- <-. destruct (IH _ _ eq_refl) as [E1 [F N]].
      split; [cbn [app]; f_equal; exact E1|]. split; [constructor; auto|exact N].
    + injection E as <- <-. split; [reflexivity|]. split; [constructor|]. cbn [starts_with_name_char]. congruence.
Qed.
Lemma name_inv : forall s n k, get_name s = (n, k) -> s = n ++ k /\ name_then n k.
Proof.
  intros s n k E. destruct s as [|c s]; cbn [get_name] in E.
  - injection E as <- <-. split; [reflexivity|]. left. split; [reflexivity|]. exact (fun H => H).
  - destruct (is_name_first_char c) eqn:C.
    + destruct (get_name_rest s) as [r k'] eqn:R. injection E as <- <-. destruct (name_rest_inv _ _ _ R) as [E1 [F N]].
      split; [cbn [app]; f_equal; exact E1|]. right. split; [split; auto|exact N].
    + injection E as <- <-. split; [reflexivity|]. left. split; [reflexivity|]. cbn [starts_with_name]. congruence.
Qed.
Lemma name_to : forall n k, name_then n k -> get_name (n ++ k) = (n, k).
Proof.
  intros n k [[-> N]|[L N]].
  - destruct k as [|c k]; [reflexivity|]. cbn [app starts_with_name] in *. apply get_name_none. destruct (is_name_first_char c); congruence.
  - destruct k as [|c k].
    + rewrite app_nil_r. destruct n as [|x n]; [destruct L|]. destruct L as [L1 L2]. cbn [get_name]. rewrite L1.
      assert (E : get_name_rest n = (n, [])).
      { clear L1 N. induction L2 as [|y n Y F IH]; [reflexivity|]. cbn [get_name_rest]. rewrite Y, IH. reflexivity. }
      rewrite E. reflexivity.
    + apply get_name_app; auto. cbn [starts_with_name_char] in N. destruct (is_name_char c); congruence.
Qed.
Lemma name_legal : forall n k, name_then n k -> n <> [] -> legal_name n.
Proof. intros n k [[-> _]|[L _]] H; congruence. Qed.
Lemma until_ch_inv : forall q s r k, get_until_ch q s = Ok (r, k) -> s = r ++ q :: k /\ ~ In q r.
Proof.
  intro q. induction s as [|c s IH]; cbn [get_until_ch]; intros r k E; [discriminate|].
  destruct (c =? cNUL); [discriminate|]. destruct (N.eqb_spec c q).
  - injection E as <- <-. subst c. split; [reflexivity|]. exact (fun H => H).
  - destruct (get_until_ch q s) as [[r' k']|?| |]; cbn [bind] in E; try discriminate. injection E as <- <-.
    destruct (IH _ _ eq_refl) as [E1 N]. split; [cbn [app]; f_equal; exact E1|]. intros [H|H]; auto.
Qed.
Lemma until_ch_to : forall q r k, q <> 0 -> ~ In 0 r -> ~ In q r -> get_until_ch q (r ++ q :: k) = Ok (r, k).
Proof. intros. apply (get_until_ch_app q r k); auto. Qed.
Lemma strip_app : forall p s k, strip_prefix p s = Some k -> s = p ++ k.
Proof.
  induction p as [|x p IH]; intros s k E; cbn [strip_prefix] in E.
  - injection E as <-. reflexivity.
  - destruct s as [|c s]; [discriminate|]. destruct (N.eqb_spec x c); [|discriminate]. cbn [app]. f_equal; auto.
Qed.
Lemma strip_none : forall p s k, strip_prefix p s = None -> s <> p ++ k.
Proof.
  induction p as [|x p IH]; intros s k E H; cbn [strip_prefix] in E; [discriminate|].
  subst s. cbn [app] in E. rewrite N.eqb_refl in E. eapply IH; eauto.
Qed.
(* the first occurrence *)
Lemma until_inv : forall p s r k, p <> [] -> get_until p s = Ok (r, k) -> s = r ++ p ++ k /\ ~ contains p r.
Proof.
  intros p s r k Hp. revert r k. induction s as [|c s IH]; intros r k E; rewrite get_until_unfold in E; unfold look_ahead_keyword in E.
  - destruct (strip_prefix p []) as [s'|] eqn:S; [|discriminate]. injection E as <- <-. split; [exact (strip_app _ _ _ S)|].
    intros [u [v H]]. destruct u; destruct p; cbn in H; congruence.
  - destruct (strip_prefix p (c :: s)) as [s'|] eqn:S.
    + injection E as <- <-. split; [exact (strip_app _ _ _ S)|]. intros [u [v H]]. destruct u; destruct p; cbn in H; congruence.
    + destruct (c =? cNUL); [discriminate|]. destruct (get_until p s) as [[r' k']|?| |]; cbn [bind] in E; try discriminate.
      injection E as <- <-. destruct (IH _ _ eq_refl) as [E1 N]. split; [cbn [app]; f_equal; exact E1|].
      intros [u [v H]]. destruct u as [|y u].
      * cbn [app] in H. apply (strip_none _ _ (v ++ p ++ k') S). rewrite E1. change (c :: r' ++ p ++ k') with ((c :: r') ++ p ++ k'). rewrite H, <- app_assoc. reflexivity.
      * cbn [app] in H. injection H as <- H. apply N. exists u, v. exact H.
Qed.

(* ---- one round of the attribute loop ---- *)
Lemma round_inv : forall acc s acc' s', plain s -> attr_round acc s = Ok (acc', s') ->
  (exists w, s = w ++ s' /\ spaces_text w /\ ~ starts_with_space s' /\ ~ starts_with_name s' /\ acc' = acc) \/
  (exists w n x t, s = w ++ t ++ s' /\ spaces_text w /\ attr_spelled n x t /\ acc' = acc ++ [(n, decode_entity x)]).
Proof.
  intros acc s acc' s' P E. unfold attr_round in E. destruct (spaces_inv s P) as [w [E1 [W N]]].
  remember (skip_spaces s) as s1 eqn:Hs1. clear Hs1. destruct (get_name s1) as [n s2] eqn:G. destruct (name_inv _ _ _ G) as [E2 Nm].
  destruct n as [|n0 n].
  - left. injection E as <- <-. cbn [app] in E2. subst s2. exists w. destruct Nm as [[_ Nm]|[[] _]]. auto.
  - right. assert (L := name_legal _ _ Nm ltac:(discriminate)). remember (n0 :: n) as nm. clear Heqnm n0 n.
    subst s1 s. apply plain_app in P. destruct P as [_ P]. apply plain_app in P. destruct P as [_ P].
    destruct (spaces_inv s2 P) as [w2 [E3 [W2 _]]]. destruct (skip_spaces s2) as [|c s4]; [discriminate E|]. cbn [getchar] in E.
    unfold cEQ in E. destruct (N.eqb_spec c 61) as [->|_].
    2: { destruct (get_until_ch cGT s4) as [x|?| |]; discriminate E. }
    subst s2. apply plain_app in P. destruct P as [_ P]. apply plain_cons in P. destruct P as [_ [_ P]].
    destruct (spaces_inv s4 P) as [w3 [E4 [W3 _]]]. destruct (skip_spaces s4) as [|q s6]; [discriminate E|]. cbn [getchar] in E.
    destruct ((q =? cDQ) || (q =? cSQ)) eqn:Q.
    2: { destruct (get_until_ch cGT s6) as [x|?| |]; discriminate E. }
    destruct (get_until_ch q s6) as [[v s7]|?| |] eqn:U; cbn [bind] in E; try discriminate. injection E as <- <-.
    destruct (until_ch_inv _ _ _ _ U) as [E5 Nq]. subst s6 s4.
    exists w, nm, v, (nm ++ w2 ++ 61 :: w3 ++ q :: v ++ [q]). split.
    { rewrite <- !app_assoc. cbn [app]. rewrite <- !app_assoc. cbn [app]. rewrite <- !app_assoc. reflexivity. }
    split; [exact W|]. split; [|reflexivity]. constructor; auto.
    apply orb_true_iff in Q. destruct Q as [Q|Q]; apply N.eqb_eq in Q; auto.
Qed.
Lemma round_none : forall acc w s, spaces_text w -> ~ In 0 s -> ~ starts_with_space s -> ~ starts_with_name s ->
  attr_round acc (w ++ s) = Ok (acc, s).
Proof.
  intros acc w s W Z N1 N2. unfold attr_round. rewrite spaces_to by auto.
  assert (E : get_name ([] ++ s) = ([], s)) by (apply name_to; left; auto). cbn [app] in E. rewrite E. reflexivity.
Qed.
Lemma round_attr : forall acc w n x t s, spaces_text w -> ~ In 0 (t ++ s) -> attr_spelled n x t ->
  attr_round acc (w ++ t ++ s) = Ok (acc ++ [(n, decode_entity x)], s).
Proof.
  intros acc w n x t s W Z A. destruct A as [w1 w2 q L W1 W2 Q Nq]. unfold attr_round. rewrite skip_spaces_text by exact W.
  assert (E : (n ++ w1 ++ 61 :: w2 ++ q :: x ++ [q]) ++ s = n ++ w1 ++ 61 :: w2 ++ q :: x ++ q :: s).
  { rewrite <- !app_assoc. cbn [app]. rewrite <- !app_assoc. cbn [app]. rewrite <- !app_assoc. reflexivity. }
  rewrite E in *. rewrite skip_spaces_name by exact L.
  rewrite (name_to n (w1 ++ 61 :: w2 ++ q :: x ++ q :: s)).
  2: { right. split; [exact L|]. destruct w1 as [|c w1]; cbn [app starts_with_name_char]; [discriminate|].
       inversion W1; subst. destruct (space_facts c) as [_ [F _]]; congruence. }
  destruct n as [|n0 n]; [destruct L|]. remember (n0 :: n) as nm.
  assert (Zx : ~ In 0 x).
  { intro H. apply Z. apply in_or_app. right. apply in_or_app. right. right. apply in_or_app. right. right. apply in_or_app. auto. }
  rewrite spaces_to; [|exact W1| |cbn; discriminate].
  2: { intro H. apply Z. apply in_or_app. right. apply in_or_app. right. exact H. }
  cbn [getchar]. change (61 =? cEQ) with true. cbn iota.
  assert (Q0 : q <> 0 /\ is_space q = false) by (destruct Q as [-> | ->]; split; [discriminate|reflexivity|discriminate|reflexivity]).
  rewrite spaces_to; [|exact W2| |cbn; intuition congruence].
  2: { intro H. apply Z. apply in_or_app. right. apply in_or_app. right. right. apply in_or_app. right. exact H. }
  cbn [getchar]. assert (Q1 : (q =? cDQ) || (q =? cSQ) = true) by (destruct Q as [-> | ->]; reflexivity).
  rewrite Q1. rewrite until_ch_to by tauto. reflexivity.
Qed.

(* ---- the attribute loop ---- *)
Scheme tag_rest_mut := Induction for tag_rest Sort Prop with tag_after_mut := Induction for tag_after Sort Prop.
Combined Scheme tag_rest_both from tag_rest_mut, tag_after_mut.
Scheme tag_open_mut := Induction for tag_open Sort Prop with tag_open_after_mut := Induction for tag_open_after Sort Prop.
Combined Scheme tag_open_both from tag_open_mut, tag_open_after_mut.

Definition dec_attrs (l : list (str * str)) : list (str * str) := map (fun a => (fst a, decode_entity (snd a))) l.

Definition after_round (fuel : nat) (acc : list (str * str)) (s' : str) : res (list (str * str) * bool * str) :=
  let (c, s'') := getchar s' in
  if c =? cGT then Ok (acc, false, s'')
  else if c =? cSLASH then
    let (c2, s3) := getchar s'' in
    if c2 =? cGT then Ok (acc, true, s3) else Err XmlSyntaxError
  else attr_loop fuel acc s''.
Lemma loop_round : forall fuel acc s, attr_loop (S fuel) acc s = do (acc', s') <- attr_round acc s; after_round fuel acc' s'.
Proof. intros. rewrite attr_loop_S. reflexivity. Qed.

Lemma not_in_app : forall (c : N) a b, ~ In c (a ++ b) -> ~ In c a /\ ~ In c b.
Proof. intros c a b H. split; intro K; apply H; apply in_or_app; auto. Qed.

Lemma loop_to :
  (forall l b s k, tag_rest l b s k -> ~ In 0 s -> forall fuel acc, (List.length s < fuel)%nat ->
     attr_loop fuel acc s = Ok (acc ++ dec_attrs l, b, k)) /\
  (forall l b s k, tag_after l b s k -> ~ In 0 s -> forall fuel acc, (List.length s <= fuel)%nat ->
     after_round fuel acc s = Ok (acc ++ dec_attrs l, b, k)).
Proof.
  apply tag_rest_both.
  - intros w s l b k W N1 N2 A IH Z fuel acc F. destruct fuel as [|fuel]; [lia|]. rewrite loop_round.
    apply not_in_app in Z. destruct Z as [_ Z]. rewrite round_none by auto. cbn [bind]. apply IH; auto. rewrite app_length in F. lia.
  - intros w n x t s l b k W At A IH Z fuel acc F. destruct fuel as [|fuel]; [lia|]. rewrite loop_round.
    apply not_in_app in Z. destruct Z as [_ Z]. rewrite (round_attr acc w n x t s) by auto. cbn [bind].
    apply not_in_app in Z. destruct Z as [_ Z]. rewrite (IH Z fuel).
    + unfold dec_attrs. cbn [map fst snd]. rewrite <- app_assoc. reflexivity.
    + rewrite !app_length in F. lia.
  - intros k Z fuel acc F. unfold after_round. cbn. rewrite app_nil_r. reflexivity.
  - intros k Z fuel acc F. unfold after_round. cbn. rewrite app_nil_r. reflexivity.
  - intros c l b s k C1 C2 T IH Z fuel acc F. unfold after_round. cbn [getchar]. unfold cGT, cSLASH.
    destruct (N.eqb_spec c 62); [contradiction|]. destruct (N.eqb_spec c 47); [contradiction|].
    apply IH; [intro H; apply Z; right; exact H|]. cbn [List.length] in F. lia.
Qed.
Lemma loop_inv : forall fuel acc s a b k, plain s -> attr_loop fuel acc s = Ok (a, b, k) ->
  exists l, a = acc ++ dec_attrs l /\ tag_rest l b s k.
Proof.
  induction fuel as [|fuel IH]; intros acc s a b k P E; [discriminate|]. rewrite loop_round in E.
  destruct (attr_round acc s) as [[acc' s']|?| |] eqn:R; cbn [bind] in E; try discriminate.
  assert (P' : plain s').
  { apply attr_round_suffix in R. destruct R as [u ->]. apply plain_app in P. apply P. }
  assert (G : exists l, a = acc' ++ dec_attrs l /\ tag_after l b s' k).
  { unfold after_round in E. destruct s' as [|c s''].
    - cbn in E. rewrite attr_loop_end in E. discriminate.
    - cbn [getchar] in E. unfold cGT, cSLASH in E. destruct (N.eqb_spec c 62) as [->|C1].
      + injection E as <- <- <-. exists []. split; [symmetry; apply app_nil_r|constructor].
      + destruct (N.eqb_spec c 47) as [->|C2].
        * destruct s'' as [|c2 s3]; [discriminate|]. cbn [getchar] in E. destruct (N.eqb_spec c2 62) as [->|]; [|discriminate].
          injection E as <- <- <-. exists []. split; [symmetry; apply app_nil_r|constructor].
        * apply plain_cons in P'. destruct (IH _ _ _ _ _ (proj2 (proj2 P')) E) as [l [E1 T]]. exists l. split; [exact E1|]. constructor; auto. }
  destruct G as [l [-> T]]. destruct (round_inv _ _ _ _ P R) as [[w [-> [W [N1 [N2 ->]]]]]|[w [n [x [t [-> [W [At ->]]]]]]]].
  - exists l. split; [reflexivity|]. constructor; auto.
  - exists ((n, x) :: l). split; [unfold dec_attrs; cbn [map fst snd]; rewrite <- app_assoc; reflexivity|]. apply (tr_attr w n x t s' l b k); auto.
Qed.
Lemma loop_open :
  (forall s, tag_open s -> ~ In 0 s -> forall fuel acc, attr_loop fuel acc s = Fuel) /\
  (forall s, tag_open_after s -> ~ In 0 s -> forall fuel acc, after_round fuel acc s = Fuel).
Proof.
  apply tag_open_both.
  - intros w s W N1 N2 A IH Z fuel acc. destruct fuel as [|fuel]; [reflexivity|]. rewrite loop_round.
    apply not_in_app in Z. destruct Z as [_ Z]. rewrite round_none by auto. cbn [bind]. apply IH; auto.
  - intros w n x t s W At A IH Z fuel acc. destruct fuel as [|fuel]; [reflexivity|]. rewrite loop_round.
    apply not_in_app in Z. destruct Z as [_ Z]. rewrite (round_attr acc w n x t s) by auto. cbn [bind].
    apply not_in_app in Z. apply IH. apply Z.
  - intros Z fuel acc. unfold after_round. cbn. apply attr_loop_end.
  - intros c s C1 C2 T IH Z fuel acc. unfold after_round. cbn [getchar]. unfold cGT, cSLASH.
    destruct (N.eqb_spec c 62); [contradiction|]. destruct (N.eqb_spec c 47); [contradiction|].
    apply IH. intro H. apply Z. right. exact H.
Qed.
Lemma loop_fuel : forall fuel acc s, plain s -> (List.length s < fuel)%nat -> attr_loop fuel acc s = Fuel -> tag_open s.
Proof.
  induction fuel as [|fuel IH]; intros acc s P F E; [lia|]. rewrite loop_round in E.
  destruct (attr_round_res acc s) as [[[acc' s'] R]|R]; rewrite R in E; [|discriminate]. cbn [bind] in E.
  assert (S := attr_round_suffix _ _ _ _ R). assert (P' : plain s').
  { destruct S as [u ->]. apply plain_app in P. apply P. }
  apply suffix_len in S.
  assert (G : tag_open_after s').
  { unfold after_round in E. destruct s' as [|c s'']; [constructor|]. cbn [getchar] in E. unfold cGT, cSLASH in E.
    destruct (N.eqb_spec c 62); [discriminate|]. destruct (N.eqb_spec c 47).
    - destruct s'' as [|c2 s3]; [discriminate|]. cbn [getchar] in E. destruct (c2 =? 62); discriminate.
    - apply plain_cons in P'. constructor; auto. eapply IH; [apply P'| |exact E]. cbn [List.length] in S. lia. }
  destruct (round_inv _ _ _ _ P R) as [[w [-> [W [N1 [N2 _]]]]]|[w [n [x [t [-> [W [At _]]]]]]]].
  - constructor; auto.
  - apply (to_attr w n x t s'); auto.
Qed.

(* ---- declarations ---- *)
Fixpoint closes (n : nat) (r : str) : Prop :=
  exists d r', bracketed d /\ r = d ++ 62 :: r' /\ match n with O => r' = [] | S m => closes m r' end.
Lemma bracket_inv : forall s n r k, get_until_matching_bracket n s = Ok (r, k) -> s = r ++ k /\ closes n r.
Proof.
  induction s as [|c s IH]; cbn [get_until_matching_bracket]; intros n r k E; [discriminate|].
  unfold cNUL, cLT, cGT in E. destruct (N.eqb_spec c 0) as [|C0]; [discriminate|]. destruct (N.eqb_spec c 60) as [->|C1].
  - destruct (get_until_matching_bracket (S n) s) as [[r' k']|?| |] eqn:B; cbn [bind] in E; try discriminate.
    injection E as <- <-. destruct (IH _ _ _ B) as [-> C]. split; [reflexivity|]. cbn [closes] in C.
    destruct C as [d [r1 [D [-> C]]]]. destruct n as [|n]; cbn [closes] in *.
    + destruct C as [d' [r2 [D' [-> ->]]]]. exists (60 :: d ++ 62 :: d'), []. split; [apply br_nest; auto|]. split; [|reflexivity].
      cbn [app]. rewrite <- !app_assoc. reflexivity.
    + destruct C as [d' [r2 [D' [-> C]]]]. exists (60 :: d ++ 62 :: d'), r2. split; [apply br_nest; auto|]. split; [|exact C].
      cbn [app]. rewrite <- !app_assoc. reflexivity.
  - destruct (N.eqb_spec c 62) as [->|C2].
    + destruct n as [|n].
      * injection E as <- <-. split; [reflexivity|]. cbn [closes]. exists [], []. split; [constructor|]. split; reflexivity.
      * destruct (get_until_matching_bracket n s) as [[r' k']|?| |] eqn:B; cbn [bind] in E; try discriminate.
        injection E as <- <-. destruct (IH _ _ _ B) as [-> C]. split; [reflexivity|]. cbn [closes]. exists [], r'. split; [constructor|]. split; [reflexivity|exact C].
    + destruct (get_until_matching_bracket n s) as [[r' k']|?| |] eqn:B; cbn [bind] in E; try discriminate.
      injection E as <- <-. destruct (IH _ _ _ B) as [-> C]. split; [reflexivity|]. destruct n as [|n]; cbn [closes] in *;
        destruct C as [d [r1 [D [-> C]]]]; exists (c :: d), r1; (split; [constructor; auto|]); (split; [reflexivity|exact C]).
Qed.
Lemma bracket_inv0 : forall s r k, get_until_matching_bracket 0 s = Ok (r, k) -> exists d, r = d ++ [62] /\ s = d ++ [62] ++ k /\ bracketed d.
Proof.
  intros s r k E. destruct (bracket_inv _ _ _ _ E) as [-> [d [r' [D [-> ->]]]]]. exists d. split; [reflexivity|].
  split; [rewrite <- app_assoc; reflexivity|exact D].
Qed.
Lemma chardata_inv : forall s x k, plain s -> get_chardata s = (x, k) -> s = x ++ k /\ ~ In 60 x /\ (k = [] \/ exists k', k = 60 :: k').
Proof.
  induction s as [|c s IH]; cbn [get_chardata]; intros x k P E.
  - injection E as <- <-. split; [reflexivity|]. split; [exact (fun H => H)|auto].
  - apply plain_cons in P. destruct P as [C0 [_ P]]. unfold cNUL, cLT in E. destruct (N.eqb_spec c 0) as [|_]; [contradiction|].
    destruct (N.eqb_spec c 60) as [->|C1].
    + injection E as <- <-. split; [reflexivity|]. split; [exact (fun H => H)|eauto].
    + destruct (get_chardata s) as [r k']. injection E as <- <-. destruct (IH _ _ P eq_refl) as [-> [N K]].
      split; [reflexivity|]. split; [intros [H|H]; auto|exact K].
Qed.

(* ---- one token ---- *)
Lemma token_inv : forall fuel s t d', plain s -> raw_token fuel (mkDec s []) = Ok (t, d') ->
  (t = TEOF /\ s = []) \/
  (markup decode_entity [t] s (rest d') /\ to_close d' = []) \/
  (markup decode_entity [t; TEnd (to_close d')] s (rest d') /\ to_close d' <> []).
Proof.
  intros fuel s t d' P E. unfold raw_token in E. cbn [to_close rest] in E. destruct s as [|c s].
  - cbn in E. injection E as <- _. left. auto.
  - right. cbn [getchar] in E. assert (P0 := P). apply plain_cons in P. destruct P as [C0 [_ P]]. unfold cNUL at 1 in E.
    destruct (N.eqb_spec c 0) as [|_]; [contradiction|]. unfold cLT in E. destruct (N.eqb_spec c 60) as [->|C1].
    2: { destruct (get_chardata (c :: s)) as [x k] eqn:G. injection E as <- <-. destruct (chardata_inv _ _ _ P0 G) as [E1 [N K]].
         left. cbn [rest to_close]. split; [|reflexivity]. rewrite E1. constructor; auto. destruct x; [|discriminate]. cbn [app] in E1.
         destruct K as [->|[k' ->]]; congruence. }
    destruct s as [|c2 s2]; [discriminate E|]. cbn [getchar] in E. assert (P1 := P). apply plain_cons in P. destruct P as [D0 [_ P]].
    unfold cNUL in E. destruct (N.eqb_spec c2 0) as [|_]; [contradiction|].
    unfold cSLASH in E. destruct (N.eqb_spec c2 47) as [->|D1].
    { left. destruct (get_name s2) as [n s3] eqn:G. destruct (name_inv _ _ _ G) as [-> Nm].
      destruct (get_until_ch cGT s3) as [[x s4]|?| |] eqn:U; cbn [bind] in E; try discriminate. injection E as <- <-.
      destruct (until_ch_inv _ _ _ _ U) as [-> Nx]. split; [|reflexivity]. apply (mk_end decode_entity n x s4); auto. }
    unfold cQUEST in E. destruct (N.eqb_spec c2 63) as [->|D2].
    { left. destruct (get_name s2) as [n s3] eqn:G. destruct (name_inv _ _ _ G) as [-> Nm].
      apply plain_app in P. destruct P as [_ P]. destruct (spaces_inv s3 P) as [w [E3 [W N]]].
      destruct (get_until (lit "?>") (skip_spaces s3)) as [[x s4]|?| |] eqn:U; cbn [bind] in E; try discriminate. injection E as <- <-.
      apply until_inv in U; [|discriminate]. destruct U as [E4 Nc]. rewrite E4 in *. clear E4. subst s3. split; [|reflexivity].
      apply (mk_pi decode_entity n w x s4); auto. destruct x as [|y x]; [exact (fun H => H)|exact N]. }
    unfold cBANG in E. destruct (N.eqb_spec c2 33) as [->|D3].
    { left. destruct s2 as [|c3 s3]; [discriminate E|]. cbn [getchar] in E. unfold cMINUS, cLBRACK in E.
      destruct (N.eqb_spec c3 45) as [->|F1].
      - destruct s3 as [|c4 s4]; [discriminate E|]. cbn [getchar] in E. destruct (N.eqb_spec c4 45) as [->|]; [|discriminate].
        destruct (get_until (lit "-->") s4) as [[x s5]|?| |] eqn:U; cbn [bind] in E; try discriminate. injection E as <- <-.
        apply until_inv in U; [|discriminate]. destruct U as [-> Nc]. split; [|reflexivity]. apply (mk_comment decode_entity x s5). exact Nc.
      - destruct (N.eqb_spec c3 91) as [->|F2].
        + unfold look_ahead_keyword in E. destruct (strip_prefix (lit "CDATA[") s3) as [s4|] eqn:K; [|discriminate].
          apply strip_app in K. subst s3.
          destruct (get_until (lit "]]>") s4) as [[x s5]|?| |] eqn:U; cbn [bind] in E; try discriminate. injection E as <- <-.
          apply until_inv in U; [|discriminate]. destruct U as [-> Nc]. split; [|reflexivity]. apply (mk_cdata decode_entity x s5). exact Nc.
        + destruct (get_until_matching_bracket 0 s3) as [[r s4]|?| |] eqn:B; cbn [bind] in E; try discriminate. injection E as <- <-.
          destruct (bracket_inv0 _ _ _ B) as [d [-> [-> D]]]. split; [|reflexivity]. apply (mk_declaration decode_entity c3 d s4); auto. }
    destruct (get_name (c2 :: s2)) as [n s3] eqn:G. destruct (name_inv _ _ _ G) as [E1 Nm]. rewrite E1 in *.
    assert (SL : start_like (n ++ s3)) by (rewrite <- E1; cbn; auto).
    destruct (attr_loop fuel [] s3) as [[[a b] k]|?| |] eqn:L; cbn [bind] in E; try discriminate. injection E as <- <-.
    apply loop_inv in L; [|apply plain_app in P1; apply P1]. destruct L as [l [-> T]]. cbn [app]. cbn [rest to_close].
    destruct b.
    + destruct n as [|n0 n].
      * left. split; [|reflexivity]. destruct Nm as [[_ Nm]|[[] _]]. apply (mk_nameless decode_entity s3 l k); auto.
      * right. split; [|discriminate]. apply (mk_empty decode_entity (n0 :: n) s3 l k); auto. discriminate.
    + left. split; [|reflexivity]. apply (mk_start decode_entity n s3 l k); auto.
Qed.

Lemma step_of : forall s t d', t <> TEOF -> (forall fuel, (M (mkDec s []) < fuel)%nat -> raw_token fuel (mkDec s []) = Ok (t, d')) ->
  tok_step (mkDec s []) t d'.
Proof.
  intros s t d' N H. split; [|split; [exact N|exact H]].
  assert (E := H (S (M (mkDec s []))) (Nat.lt_succ_diag_r _)). apply raw_token_progress in E. apply E. exact N.
Qed.
Lemma markup_to : forall ts s k, markup decode_entity ts s k -> ~ In 0 s -> lexes (mkDec s []) ts (mkDec k []).
Proof.
  intros ts s k K Z. destruct K as [x k X N K|x k N|x k N|n w x k Nm W Sp N|c d k C1 C2 B|n x k Nm N|n s l k SL Nm T|n s l k SL Nm T Ne|s l k SL Nm T].
  - apply lexes_one, step_of; [discriminate|]. intros fuel F. unfold raw_token. cbn [to_close rest].
    destruct x as [|c x]; [congruence|]. cbn [app getchar]. unfold cNUL, cLT.
    destruct (N.eqb_spec c 0) as [->|_]; [exfalso; apply Z; left; reflexivity|].
    destruct (N.eqb_spec c 60) as [->|_]; [exfalso; apply N; left; reflexivity|].
    apply not_in_app in Z. assert (G := get_chardata_app (c :: x) k (proj1 Z) N K). cbn [app] in G. rewrite G. reflexivity.
  - apply lexes_one, step_of; [discriminate|]. intros fuel F. unfold raw_token. cbn [to_close rest].
    change (lit "<![CDATA[") with (60 :: 33 :: 91 :: lit "CDATA[") in *. cbn [app getchar].
    change (60 =? cNUL) with false. change (60 =? cLT) with true. change (33 =? cNUL) with false. change (33 =? cSLASH) with false.
    change (33 =? cQUEST) with false. change (33 =? cBANG) with true. change (91 =? cMINUS) with false. change (91 =? cLBRACK) with true. cbv iota.
    assert (E : look_ahead_keyword (lit "CDATA[") (lit "CDATA[" ++ x ++ lit "]]>" ++ k) = Some (x ++ lit "]]>" ++ k)) by reflexivity.
    rewrite E. assert (Zx : ~ In 0 x).
    { intro H. apply Z. apply in_or_app. right. apply in_or_app. auto. }
    pose proof (get_until_app [93; 93] 62 x k) as G. cbn [app] in G. change (lit "]]>") with [93; 93; 62] in *. cbn [app] in *.
    rewrite G; auto. cbn. intuition discriminate.
  - apply lexes_one, step_of; [discriminate|]. intros fuel F. unfold raw_token. cbn [to_close rest].
    change (lit "<!--") with [60; 33; 45; 45] in *. cbn [app getchar].
    change (60 =? cNUL) with false. change (60 =? cLT) with true. change (33 =? cNUL) with false. change (33 =? cSLASH) with false.
    change (33 =? cQUEST) with false. change (33 =? cBANG) with true. change (45 =? cMINUS) with true. cbv iota.
    assert (Zx : ~ In 0 x).
    { intro H. apply Z. apply in_or_app. right. apply in_or_app. auto. }
    pose proof (get_until_app [45; 45] 62 x k) as G. cbn [app] in G. change (lit "-->") with [45; 45; 62] in *. cbn [app] in *.
    rewrite G; auto. cbn. intuition discriminate.
  - apply lexes_one, step_of; [discriminate|]. intros fuel F. unfold raw_token. cbn [to_close rest].
    change (lit "<?") with [60; 63] in *. cbn [app getchar].
    change (60 =? cNUL) with false. change (60 =? cLT) with true. change (63 =? cNUL) with false. change (63 =? cSLASH) with false.
    change (63 =? cQUEST) with true. cbv iota. rewrite name_to by exact Nm.
    assert (Zx : ~ In 0 (x ++ lit "?>" ++ k)).
    { intro H. apply Z. apply in_or_app. right. apply in_or_app. right. apply in_or_app. auto. }
    rewrite spaces_to; [|exact W|exact Zx|].
    2: { destruct x as [|y x]; [cbn; discriminate|exact Sp]. }
    apply not_in_app in Zx.
    pose proof (get_until_app [63] 62 x k) as G. cbn [app] in G. change (lit "?>") with [63; 62] in *. cbn [app] in *.
    rewrite G; try tauto. cbn. intuition discriminate.
  - apply lexes_one, step_of; [discriminate|]. intros fuel F. unfold raw_token. cbn [to_close rest].
    assert (E := bracket_read d B 0%nat ([62] ++ k) [62] k eq_refl).
    change (lit "<!") with [60; 33]. cbn [app getchar].
    change (60 =? cNUL) with false. change (60 =? cLT) with true.
    change (33 =? cNUL) with false. change (33 =? cSLASH) with false. change (33 =? cQUEST) with false. change (33 =? cBANG) with true.
    cbv iota. unfold cMINUS, cLBRACK. destruct (N.eqb_spec c 45); [contradiction|]. destruct (N.eqb_spec c 91); [contradiction|].
    cbn [app] in E. rewrite E. reflexivity.
  - apply lexes_one, step_of; [discriminate|]. intros fuel F. unfold raw_token. cbn [to_close rest].
    change (lit "</") with [60; 47] in *. cbn [app getchar].
    change (60 =? cNUL) with false. change (60 =? cLT) with true. change (47 =? cNUL) with false. change (47 =? cSLASH) with true.
    cbv iota. rewrite (name_to n (x ++ 62 :: k)) by exact Nm.
    rewrite until_ch_to; [reflexivity|discriminate| |exact N].
    intro H. apply Z. apply in_or_app. right. apply in_or_app. right. apply in_or_app. auto.
  - apply lexes_one, step_of; [discriminate|]. intros fuel F. unfold raw_token. cbn [to_close rest].
    destruct (n ++ s) as [|c s'] eqn:E; [destruct SL|]. cbn [app getchar]. destruct SL as [S1 [S2 S3]].
    change (60 =? cNUL) with false. change (60 =? cLT) with true. cbv iota. unfold cNUL, cSLASH, cQUEST, cBANG.
    destruct (N.eqb_spec c 0) as [->|_]; [exfalso; apply Z; right; left; reflexivity|].
    destruct (N.eqb_spec c 47); [contradiction|]. destruct (N.eqb_spec c 63); [contradiction|]. destruct (N.eqb_spec c 33); [contradiction|].
    cbn [app] in Z. rewrite <- E in Z. assert (Zs : ~ In 0 s) by (intro H; apply Z; right; apply in_or_app; auto).
    rewrite <- E. rewrite name_to by exact Nm. rewrite (proj1 loop_to _ _ _ _ T Zs fuel []); [reflexivity|].
    unfold M in F. cbn [rest to_close] in F. cbn [app] in F. rewrite <- E in F. cbn [List.length] in F. rewrite app_length in F. lia.
  - eapply lx_cons; [|apply lexes_one, tok_close_pending; exact Ne].
    apply step_of; [discriminate|]. intros fuel F. unfold raw_token. cbn [to_close rest].
    destruct (n ++ s) as [|c s'] eqn:E; [destruct SL|]. cbn [app getchar]. destruct SL as [S1 [S2 S3]].
    change (60 =? cNUL) with false. change (60 =? cLT) with true. cbv iota. unfold cNUL, cSLASH, cQUEST, cBANG.
    destruct (N.eqb_spec c 0) as [->|_]; [exfalso; apply Z; right; left; reflexivity|].
    destruct (N.eqb_spec c 47); [contradiction|]. destruct (N.eqb_spec c 63); [contradiction|]. destruct (N.eqb_spec c 33); [contradiction|].
    cbn [app] in Z. rewrite <- E in Z. assert (Zs : ~ In 0 s) by (intro H; apply Z; right; apply in_or_app; auto).
    rewrite <- E. rewrite name_to by exact Nm. rewrite (proj1 loop_to _ _ _ _ T Zs fuel []); [reflexivity|].
    unfold M in F. cbn [rest to_close] in F. cbn [app] in F. rewrite <- E in F. cbn [List.length] in F. rewrite app_length in F. lia.
  - apply lexes_one, step_of; [discriminate|]. intros fuel F. unfold raw_token. cbn [to_close rest].
    destruct s as [|c s'] eqn:E; [destruct SL|]. cbn [app getchar]. destruct SL as [S1 [S2 S3]].
    change (60 =? cNUL) with false. change (60 =? cLT) with true. cbv iota. unfold cNUL, cSLASH, cQUEST, cBANG.
    destruct (N.eqb_spec c 0) as [->|_]; [exfalso; apply Z; right; left; reflexivity|].
    destruct (N.eqb_spec c 47); [contradiction|]. destruct (N.eqb_spec c 63); [contradiction|]. destruct (N.eqb_spec c 33); [contradiction|].
    cbn [app] in Z. rewrite <- E in *. assert (Zs : ~ In 0 s) by (intro H; apply Z; right; auto).
    assert (G : get_name ([] ++ s) = ([], s)) by (apply name_to; left; auto). cbn [app] in G. rewrite G.
    rewrite (proj1 loop_to _ _ _ _ T Zs fuel []); [reflexivity|].
    unfold M in F. cbn [rest to_close] in F. cbn [app] in F. cbn [List.length] in F. lia.
Qed.

(* ---- the whole token stream ---- *)
Lemma lexes_tokens : forall d ts d', lexes d ts d' -> d' = mkDec [] [] -> forall fuel, (M d < fuel)%nat -> tokens fuel d = Ok ts.
Proof.
  intros d ts d' H. induction H as [d|d t d1 ts d2 Ht H IH]; intros -> fuel F; (destruct fuel as [|fuel]; [lia|]).
  - reflexivity.
  - destruct Ht as [Hm [Hne Ht]]. cbn [tokens]. rewrite Ht by exact F. assert (E := IH eq_refl fuel ltac:(lia)).
    destruct t; [congruence|..]; rewrite E; reflexivity.
Qed.
Lemma scan_lexes : forall ts s k, scan decode_entity ts s k -> ~ In 0 s -> lexes (mkDec s []) ts (mkDec k []) /\ ~ In 0 k.
Proof.
  intros ts s k H. induction H as [s|ts s k us r K H IH]; intro Z.
  - split; [constructor|exact Z].
  - assert (L := markup_to _ _ _ K Z).
    assert (Zk : ~ In 0 k).
    { clear - L Z. remember (mkDec s []) as d eqn:Ed. remember (mkDec k []) as d' eqn:Ed'.
      assert (G : ~ In 0 (rest d)) by (subst; exact Z). assert (G' : ~ In 0 (rest d') -> ~ In 0 k) by (subst; auto). apply G'. clear - L G.
      induction L as [d|d t d1 ts d2 Ht H IH]; auto. apply IH. destruct Ht as [_ [_ Ht]].
      assert (E := Ht _ (Nat.lt_succ_diag_r _)). apply raw_token_progress in E. destruct E as [[u E] _]. intro K. apply G. rewrite E. apply in_or_app. auto. }
    destruct (IH Zk) as [L2 Zr]. split; [|exact Zr]. eapply lexes_app; eauto.
Qed.
Lemma scan_tokens : forall ts s fuel, scan decode_entity ts s [] -> ~ In 0 s -> (M (mkDec s []) < fuel)%nat -> tokens fuel (mkDec s []) = Ok ts.
Proof. intros ts s fuel H Z F. destruct (scan_lexes _ _ _ H Z) as [L _]. eapply lexes_tokens; eauto. Qed.

(* what is scanned when an end tag may be pending *)
Definition scans (d : decoder) (ts : list token) (k : str) : Prop :=
  match to_close d with
  | [] => scan decode_entity ts (rest d) k
  | _ :: _ => exists us, ts = TEnd (to_close d) :: us /\ scan decode_entity us (rest d) k
  end.
Lemma scans_step : forall fuel d t d' ts k, plain (rest d) -> t <> TEOF -> raw_token fuel d = Ok (t, d') -> scans d' ts k ->
  scans d (t :: ts) k /\ plain (rest d').
Proof.
  intros fuel [s tc] t d' ts k P N E S. split.
  2: { apply raw_token_progress in E. destruct E as [[u E] _]. cbn [rest] in *. rewrite E in P. apply plain_app in P. apply P. }
  unfold scans at 1. cbn [rest to_close] in *. destruct tc as [|x tc].
  - destruct (token_inv _ _ _ _ P E) as [[T _]|[[K C]|[K C]]]; [congruence| |].
    + unfold scans in S. rewrite C in S. apply (sc_more decode_entity [t] s (rest d') ts k); auto.
    + unfold scans in S. destruct (to_close d') as [|y tc'] eqn:T; [congruence|]. destruct S as [us [-> S]].
      apply (sc_more decode_entity [t; TEnd (y :: tc')] s (rest d') us k); auto.
  - unfold raw_token in E. cbn [to_close rest] in E. injection E as <- <-. exists ts. split; [reflexivity|exact S].
Qed.
Lemma tokens_scans : forall fuel d ts, plain (rest d) -> tokens fuel d = Ok ts -> scans d ts [].
Proof.
  induction fuel as [|fuel IH]; intros d ts P E; [discriminate|]. cbn [tokens] in E.
  destruct (raw_token (S fuel) d) as [[t d']|?| |] eqn:R; try discriminate.
  assert (C : t = TEOF \/ t <> TEOF) by (destruct t; [left; reflexivity|right; discriminate..]). destruct C as [->|N].
  - injection E as <-. destruct d as [s tc]. cbn [rest] in P. unfold scans. cbn [to_close rest]. destruct tc as [|x tc].
    + destruct (token_inv _ _ _ _ P R) as [[_ ->]|[[K C]|[K C]]]; [constructor|inversion K..].
    + unfold raw_token in R. cbn [to_close] in R. discriminate.
  - assert (G : exists ts', ts = t :: ts' /\ tokens fuel d' = Ok ts').
    { destruct t; [congruence|..]; (destruct (tokens fuel d') as [us|?| |]; cbn [bind] in E; try discriminate; injection E as <-; eauto). }
    destruct G as [ts' [-> E']]. eapply scans_step; eauto. apply (IH d' ts'); [|exact E'].
    apply raw_token_progress in R. destruct R as [[u R] _]. rewrite R in P. apply plain_app in P. apply P.
Qed.

(* ---- reading that never ends ---- *)
Lemma unfinished_token : forall s, ~ In 0 s -> unfinished s -> forall fuel, raw_token fuel (mkDec s []) = Fuel.
Proof.
  intros s Z [n [r [-> [SL [Nm T]]]]] fuel. unfold raw_token. cbn [to_close rest].
  destruct (n ++ r) as [|c s'] eqn:E; [destruct SL|]. cbn [app getchar]. destruct SL as [S1 [S2 S3]].
  change (60 =? cNUL) with false. change (60 =? cLT) with true. cbv iota. unfold cNUL, cSLASH, cQUEST, cBANG.
  destruct (N.eqb_spec c 0) as [->|_]; [exfalso; apply Z; right; left; reflexivity|].
  destruct (N.eqb_spec c 47); [contradiction|]. destruct (N.eqb_spec c 63); [contradiction|]. destruct (N.eqb_spec c 33); [contradiction|].
  cbn [app] in Z. rewrite <- E in Z. assert (Zs : ~ In 0 r) by (intro H; apply Z; right; apply in_or_app; auto).
  rewrite <- E. rewrite name_to by exact Nm. rewrite (proj1 loop_open r T Zs fuel []). reflexivity.
Qed.
Lemma token_unfinished : forall fuel d, plain (rest d) -> (M d < fuel)%nat -> raw_token fuel d = Fuel -> to_close d = [] /\ unfinished (rest d).
Proof.
  intros fuel [s tc] P F E. cbn [rest to_close] in *. unfold raw_token in E. cbn [to_close rest] in E. destruct tc; [|discriminate]. split; [reflexivity|].
  destruct s as [|c s1]; [discriminate E|]. cbn [getchar] in E. assert (P0 := P). apply plain_cons in P. destruct P as [C0 [_ P]].
  unfold cNUL in E. destruct (N.eqb_spec c 0) as [|_]; [contradiction|]. unfold cLT in E. destruct (N.eqb_spec c 60) as [->|_].
  2: { destruct (get_chardata (c :: s1)); discriminate. }
  destruct s1 as [|c2 s2]; [discriminate E|]. cbn [getchar] in E. assert (P1 := P). apply plain_cons in P. destruct P as [D0 [_ P]].
  destruct (N.eqb_spec c2 0) as [|_]; [contradiction|]. unfold cSLASH, cQUEST, cBANG in E. destruct (N.eqb_spec c2 47) as [_|D1].
  { destruct (get_name s2) as [n s3]. destruct (get_until_ch_res cGT s3) as [[[x s4] U]|U]; rewrite U in E; discriminate. }
  destruct (N.eqb_spec c2 63) as [_|D2].
  { destruct (get_name s2) as [n s3]. destruct (get_until_res (lit "?>") (skip_spaces s3)) as [[[x s4] U]|U]; rewrite U in E; discriminate. }
  destruct (N.eqb_spec c2 33) as [_|D3].
  { destruct (getchar s2) as [c3 s3]. destruct (c3 =? cMINUS).
    - destruct (getchar s3) as [c4 s4]. destruct (c4 =? cMINUS); [|discriminate].
      destruct (get_until_res (lit "-->") s4) as [[[x s5] U]|U]; rewrite U in E; discriminate.
    - destruct (c3 =? cLBRACK).
      + destruct (look_ahead_keyword (lit "CDATA[") s3) as [s4|]; [|discriminate].
        destruct (get_until_res (lit "]]>") s4) as [[[x s5] U]|U]; rewrite U in E; discriminate.
      + destruct (bracket_res s3 0) as [[[x s5] U]|U]; rewrite U in E; discriminate. }
  destruct (get_name (c2 :: s2)) as [nm s3] eqn:G. destruct (name_inv _ _ _ G) as [E1 Nm]. exists nm, s3.
  split; [rewrite E1; reflexivity|]. split; [rewrite <- E1; cbn; auto|]. split; [exact Nm|].
  apply loop_fuel with (fuel := fuel) (acc := []).
  - rewrite E1 in P1. apply plain_app in P1. apply P1.
  - unfold M in F. cbn [rest to_close] in F. rewrite E1 in F. cbn [List.length] in F. rewrite app_length in F. lia.
  - destruct (attr_loop_res fuel [] s3) as [[[[a b] k] L]|[L|L]]; auto; rewrite L in E; discriminate.
Qed.
Lemma loop_unfinished : forall fuel d h c, plain (rest d) -> (M d < fuel)%nat -> doc_loop fuel d h c = Fuel ->
  exists ts k h' c', scans d ts k /\ unfinished k /\ doc_steps h c ts = Ok (h', c').
Proof.
  induction fuel as [|fuel IH]; intros d h c P F E; [lia|]. cbn [doc_loop] in E.
  destruct (raw_token (S fuel) d) as [[t d']|?| |] eqn:R; try discriminate.
  - destruct (raw_token_progress _ _ _ _ R) as [[u Ru] Hm].
    assert (P' : plain (rest d')) by (rewrite Ru in P; apply plain_app in P; apply P).
    assert (C : t = TEOF \/ t <> TEOF) by (destruct t; [left; reflexivity|right; discriminate..]). destruct C as [->|N]; [discriminate|].
    assert (G : exists h1 c1, doc_step h c t = Ok (h1, c1) /\ doc_loop fuel d' h1 c1 = Fuel).
    { destruct (doc_step_res h c t) as [[[h1 c1] S]|S]; rewrite S in E; (destruct t; [congruence|..]); cbn [bind] in E; eauto; discriminate. }
    destruct G as [h1 [c1 [S E']]]. specialize (Hm N). destruct (IH d' h1 c1 P' ltac:(lia) E') as [ts [k [h' [c' [Sc [U D]]]]]].
    exists (t :: ts), k, h', c'. split; [eapply scans_step; eauto|]. split; [exact U|]. cbn [doc_steps]. rewrite S. exact D.
  - destruct (token_unfinished _ _ P F R) as [T U]. exists [], (rest d), h, c. split; [|split; [exact U|reflexivity]].
    unfold scans. rewrite T. constructor.
Qed.
Lemma unfinished_loop : forall d ts d', lexes d ts d' -> (forall fuel, raw_token fuel d' = Fuel) ->
  forall fuel h c h' c', doc_steps h c ts = Ok (h', c') -> doc_loop fuel d h c = Fuel.
Proof.
  intros d ts d' H U. induction H as [d|d t d1 ts d2 Ht H IH]; intros fuel h c h' c' E; (destruct fuel as [|fuel]; [reflexivity|]); cbn [doc_loop].
  - rewrite U. reflexivity.
  - destruct Ht as [Hm [Hne Ht]]. cbn [doc_steps] in E. destruct (doc_step h c t) as [[h1 c1]|?| |] eqn:E1; try discriminate. cbn [bind] in E.
    assert (C : raw_token (S fuel) d = Fuel \/ raw_token (S fuel) d = Ok (t, d1)).
    { assert (E2 := Ht _ (Nat.lt_succ_diag_r (M d))).
      destruct (raw_token (S fuel) d) as [[t' d'']|e| |] eqn:R; auto;
        rewrite (raw_token_enough _ _ _ _ R ltac:(discriminate) (Nat.lt_succ_diag_r (M d))) in E2; [right; exact E2|discriminate..]. }
    destruct C as [-> | ->]; [reflexivity|]. destruct t; [congruence|..]; rewrite E1; cbn [bind]; eapply IH; eauto.
Qed.

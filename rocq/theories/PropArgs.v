(* C33, C90: arguments outside the ordinary ones. *)
Require Import Bool List NArith ZArith Ascii String Lia.
From Verif Require Import Str StrFacts CaseTable Case SpecCase CaseFacts Chars Sax Dom SpecEdit SpecAxes Axes Lexer FuncTable Parser Num Item Func Types Eval
  EvalFacts SpecText SpecOper ItemFacts SpecFunc FuncFacts PropOper PropAxes PropFunc PropFunc2 PropFunc3 SpecArgs.
Import ListNotations.
Open Scope Z_scope.

(* ------------------------------------------------------------------ C33 *)
Lemma lone_low : forall u r, low_surrogate (Z.of_N u) -> from_utf16 (u :: r) = None.
Proof.
  intros u r L. unfold low_surrogate in L. cbn [from_utf16].
  destruct (N.leb_spec 55296 u); destruct (N.leb_spec u 56319); cbn [andb]; try lia;
  destruct (N.leb_spec 56320 u); destruct (N.leb_spec u 57343); cbn [andb]; try lia; reflexivity.
Qed.
Lemma plain_unit : forall u r, ~ high_surrogate (Z.of_N u) -> ~ low_surrogate (Z.of_N u) ->
  from_utf16 (u :: r) = option_map (cons u) (from_utf16 r).
Proof.
  intros u r H L. unfold low_surrogate, high_surrogate in *. cbn [from_utf16].
  destruct (N.leb_spec 55296 u); destruct (N.leb_spec u 56319); cbn [andb]; try lia;
  destruct (N.leb_spec 56320 u); destruct (N.leb_spec u 57343); cbn [andb]; try lia; reflexivity.
Qed.
Lemma pair_units : forall u l r, high_surrogate (Z.of_N u) -> low_surrogate (Z.of_N l) ->
  from_utf16 (u :: l :: r) = option_map (cons (65536 + (u - 55296) * 1024 + (l - 56320))%N) (from_utf16 r).
Proof.
  intros u l r H L. unfold low_surrogate, high_surrogate in *. cbn [from_utf16].
  destruct (N.leb_spec 55296 u); destruct (N.leb_spec u 56319); cbn [andb]; try lia;
  destruct (N.leb_spec 56320 l); destruct (N.leb_spec l 57343); cbn [andb]; try lia; reflexivity.
Qed.
Lemma lone_high : forall u r, high_surrogate (Z.of_N u) -> (forall l r', r = l :: r' -> ~ low_surrogate (Z.of_N l)) ->
  from_utf16 (u :: r) = None.
Proof.
  intros u r H L. unfold low_surrogate, high_surrogate in *. cbn [from_utf16].
  destruct (N.leb_spec 55296 u); destruct (N.leb_spec u 56319); cbn [andb]; try lia.
  destruct r as [|l r]; [reflexivity|]. specialize (L l r eq_refl).
  destruct (N.leb_spec 56320 l); destruct (N.leb_spec l 57343); cbn [andb]; try lia; reflexivity.
Qed.
Lemma high_dec u : {high_surrogate u} + {~ high_surrogate u}.
Proof. unfold high_surrogate. destruct (Z_le_dec 55296 u), (Z_lt_dec u 56320); [left|right|right|right]; lia. Qed.
Lemma low_dec u : {low_surrogate u} + {~ low_surrogate u}.
Proof. unfold low_surrogate. destruct (Z_le_dec 56320 u), (Z_lt_dec u 57344); [left|right|right|right]; lia. Qed.
Lemma units_wide : forall z, 65536 <= z mod 2 ^ 64 -> let d := z mod 2 ^ 64 - 65536 in
  utf16_units z = [Z.to_N ((d / 1024 + 55296) mod 65536); Z.to_N (d mod 1024 + 56320)].
Proof.
  intros z L d. unfold utf16_units. fold d. destruct (Z.leb_spec 65536 (z mod 2 ^ 64)); [|lia].
  assert (M := Z.mod_pos_bound d 1024 ltac:(lia)). rewrite (Z.mod_small (d mod 1024 + 56320)) by lia. reflexivity.
Qed.
Lemma units_small : forall z, z mod 2 ^ 64 < 65536 -> utf16_units z = [Z.to_N (z mod 2 ^ 64)].
Proof. intros z L. unfold utf16_units. destruct (Z.leb_spec 65536 (z mod 2 ^ 64)); [lia|reflexivity]. Qed.
Lemma mod64 z : 0 <= z mod 2 ^ 64. Proof. apply Z.mod_pos_bound. lia. Qed.
Lemma wide_high : forall d, 0 <= d -> (high_surrogate ((d / 1024 + 55296) mod 65536) <-> d mod 2 ^ 26 < 2 ^ 20) /\
  (d mod 2 ^ 26 < 2 ^ 20 -> (d / 1024 + 55296) mod 65536 = 55296 + d mod 2 ^ 26 / 1024).
Proof.
  intros d P. assert (M := Z.mod_pos_bound d (2 ^ 26) ltac:(lia)).
  assert (E : d / 1024 = 65536 * (d / 2 ^ 26) + d mod 2 ^ 26 / 1024).
  { assert (A := Z.div_mod d (2 ^ 26) ltac:(lia)). rewrite A at 1. replace (2 ^ 26 * (d / 2 ^ 26)) with ((65536 * (d / 2 ^ 26)) * 1024) by lia.
    rewrite Z.add_comm, Z.div_add by lia. lia. }
  assert (Q : 0 <= d mod 2 ^ 26 / 1024 < 65536) by (split; [apply Z.div_pos; lia|apply Z.div_lt_upper_bound; lia]).
  assert (D : d mod 2 ^ 26 < 2 ^ 20 <-> d mod 2 ^ 26 / 1024 < 1024).
  { split; [intro X; apply Z.div_lt_upper_bound; lia|]. intro X.
    assert (A := Z.div_mod (d mod 2 ^ 26) 1024 ltac:(lia)). assert (B := Z.mod_pos_bound (d mod 2 ^ 26) 1024 ltac:(lia)). lia. }
  assert (R : (d / 1024 + 55296) mod 65536 = (55296 + d mod 2 ^ 26 / 1024) mod 65536).
  { rewrite E. replace (65536 * (d / 2 ^ 26) + d mod 2 ^ 26 / 1024 + 55296) with (55296 + d mod 2 ^ 26 / 1024 + (d / 2 ^ 26) * 65536) by lia.
    apply Z.mod_add. lia. }
  rewrite R, D. remember (d mod 2 ^ 26 / 1024) as q eqn:Hq. clear - Q. unfold high_surrogate. split.
  - destruct (Z_lt_dec q 10240) as [L|L].
    + rewrite Z.mod_small by lia. lia.
    + replace (55296 + q) with (q - 10240 + 1 * 65536) by lia. rewrite Z.mod_add, Z.mod_small by lia. lia.
  - intro. rewrite Z.mod_small by lia. reflexivity.
Qed.
(* a number above 2^16 is one character or nothing *)
Lemma from_wide : forall z r, 65536 <= z mod 2 ^ 64 -> (z mod 2 ^ 64 - 65536) mod 2 ^ 26 < 2 ^ 20 ->
  from_utf16 (utf16_units z ++ r) = option_map (cons (Z.to_N (65536 + (z mod 2 ^ 64 - 65536) mod 2 ^ 26))) (from_utf16 r).
Proof.
  intros z r L W. rewrite units_wide by exact L. cbn [app].
  remember (z mod 2 ^ 64 - 65536) as d eqn:Hd. assert (P : 0 <= d) by lia. destruct (wide_high d P) as [H E]. specialize (E W).
  assert (M := Z.mod_pos_bound d 1024 ltac:(lia)). assert (Q := proj2 H W). unfold high_surrogate in Q.
  rewrite pair_units.
  - f_equal. f_equal. rewrite E in *.
    assert (A := Z.div_mod (d mod 2 ^ 26) 1024 ltac:(lia)).
    assert (B : d mod 2 ^ 26 mod 1024 = d mod 1024).
    { symmetry. apply Znumtheory.Zmod_div_mod; [lia|lia|]. exists 65536. reflexivity. }
    rewrite B in A. assert (C := Z.mod_pos_bound d (2 ^ 26) ltac:(lia)).
    assert (0 <= d mod 2 ^ 26 / 1024) by (apply Z.div_pos; lia). lia.
  - rewrite Z2N.id by lia. unfold high_surrogate. lia.
  - rewrite Z2N.id by lia. unfold low_surrogate. lia.
Qed.
Lemma from_wide_not : forall z r, 65536 <= z mod 2 ^ 64 -> ~ (z mod 2 ^ 64 - 65536) mod 2 ^ 26 < 2 ^ 20 ->
  from_utf16 (utf16_units z ++ r) = None.
Proof.
  intros z r L W. rewrite units_wide by exact L. cbn [app].
  remember (z mod 2 ^ 64 - 65536) as d eqn:Hd. assert (P : 0 <= d) by lia. destruct (wide_high d P) as [H _].
  assert (M := Z.mod_pos_bound d 1024 ltac:(lia)). assert (B := Z.mod_pos_bound (d / 1024 + 55296) 65536 ltac:(lia)).
  destruct (low_dec ((d / 1024 + 55296) mod 65536)) as [X|X].
  - apply lone_low. rewrite Z2N.id by lia. exact X.
  - rewrite plain_unit; [rewrite lone_low; [reflexivity|]| |]; rewrite Z2N.id by lia; unfold low_surrogate in *; try tauto; lia.
Qed.
Lemma after_high : forall z r l r', utf16_units z ++ r = l :: r' -> low_surrogate (Z.of_N l) ->
  low_surrogate (z mod 2 ^ 64) \/ (65536 <= z mod 2 ^ 64 /\ from_utf16 r' = None).
Proof.
  intros z r l r' E L. assert (B := mod64 z). destruct (Z_lt_dec (z mod 2 ^ 64) 65536) as [S|S].
  - rewrite units_small in E by lia. injection E as <- <-. left. rewrite Z2N.id in L by lia. exact L.
  - right. split; [lia|]. rewrite units_wide in E by lia. injection E as <- <-.
    assert (M := Z.mod_pos_bound (z mod 2 ^ 64 - 65536) 1024 ltac:(lia)). apply lone_low. rewrite Z2N.id by lia. unfold low_surrogate. lia.
Qed.
Lemma spells_units : forall n zs s, (List.length zs <= n)%nat -> (from_utf16 (flat_map utf16_units zs) = Some s <-> spells zs s).
Proof.
  induction n as [|n IH]; intros zs s B.
  { destruct zs; [|cbn in B; lia]. cbn. split; [intro E; injection E as <-; constructor|intro S; inversion S; reflexivity]. }
  destruct zs as [|z zs]; [cbn; split; [intro E; injection E as <-; constructor|intro S; inversion S; reflexivity]|].
  cbn [List.length] in B. cbn [flat_map]. assert (P := mod64 z).
  assert (O : forall c, option_map (cons c) (from_utf16 (flat_map utf16_units zs)) = Some s <-> exists t, s = c :: t /\ spells zs t).
  { intro c. split.
    - destruct (from_utf16 (flat_map utf16_units zs)) as [t|] eqn:F; [|discriminate]. intro E. injection E as <-. exists t. split; [reflexivity|].
      apply IH; [lia|exact F].
    - intros (t & -> & S). apply IH in S; [|lia]. rewrite S. reflexivity. }
  destruct (Z_lt_dec (z mod 2 ^ 64) 65536) as [S|S].
  - rewrite units_small by lia. cbn [app].
    assert (I : Z.of_N (Z.to_N (z mod 2 ^ 64)) = z mod 2 ^ 64) by (apply Z2N.id; lia).
    destruct (high_dec (z mod 2 ^ 64)) as [H|H].
    + assert (N : forall t, from_utf16 (Z.to_N (z mod 2 ^ 64) :: flat_map utf16_units zs) = None ->
        (forall y r, zs = y :: r -> ~ low_surrogate (y mod 2 ^ 64)) ->
        from_utf16 (Z.to_N (z mod 2 ^ 64) :: flat_map utf16_units zs) = Some t <-> spells (z :: zs) t).
      { intros t E Q. rewrite E. split; [discriminate|]. intro X. exfalso. inversion X; subst; try tauto; [|unfold high_surrogate in H; lia].
        eapply Q; [reflexivity|assumption]. }
      destruct zs as [|y zs].
      { apply N; [apply lone_high; [rewrite I; exact H|intros; discriminate]|intros; discriminate]. }
      cbn [flat_map] in *. destruct (low_dec (y mod 2 ^ 64)) as [L|L].
      * clear O N. assert (Py := mod64 y). rewrite (units_small y) by (unfold low_surrogate in L; lia). cbn [app].
        assert (Iy : Z.of_N (Z.to_N (y mod 2 ^ 64)) = y mod 2 ^ 64) by (apply Z2N.id; lia).
        rewrite pair_units by (rewrite ?I, ?Iy; assumption).
        assert (C : (65536 + (Z.to_N (z mod 2 ^ 64) - 55296) * 1024 + (Z.to_N (y mod 2 ^ 64) - 56320))%N =
          Z.to_N (65536 + (z mod 2 ^ 64 - 55296) * 1024 + (y mod 2 ^ 64 - 56320))) by (unfold high_surrogate, low_surrogate in *; lia).
        rewrite C. split.
        -- destruct (from_utf16 (flat_map utf16_units zs)) as [t|] eqn:F; [|discriminate]. intro E. injection E as <-.
           apply sp_halves; try assumption. apply IH; [cbn in B; lia|exact F].
        -- intro X. inversion X; subst; try tauto; [|unfold high_surrogate in H; lia].
           match goal with X : spells zs _ |- _ => apply IH in X; [rewrite X; reflexivity|cbn in B; lia] end.
      * apply N; [|intros ? ? E; injection E as <- <-; exact L].
        destruct (utf16_units y ++ flat_map utf16_units zs) as [|l r'] eqn:E.
        { apply lone_high; [rewrite I; exact H|intros; discriminate]. }
        destruct (low_dec (Z.of_N l)) as [Q|Q].
        -- destruct (after_high _ _ _ _ E Q) as [X|[_ X]]; [contradiction|]. rewrite pair_units by (rewrite ?I; assumption). rewrite X. reflexivity.
        -- apply lone_high; [rewrite I; exact H|]. intros l' r2 E'. injection E' as <- <-. exact Q.
    + destruct (low_dec (z mod 2 ^ 64)) as [L|L].
      * rewrite lone_low by (rewrite I; exact L). split; [discriminate|]. intro X. inversion X; subst; try tauto. unfold low_surrogate in L; lia.
      * rewrite plain_unit by (rewrite I; assumption). rewrite O. split.
        -- intros (t & -> & X). apply sp_unit; auto.
        -- intro X. inversion X; subst; try tauto; [eauto|lia].
  - destruct (Z_lt_dec ((z mod 2 ^ 64 - 65536) mod 2 ^ 26) (2 ^ 20)) as [W|W].
    + rewrite from_wide by lia. rewrite O. split.
      * intros (t & -> & X). apply sp_wide; auto. lia.
      * intro X. inversion X; subst; [lia|unfold high_surrogate in *; lia|eauto].
    + rewrite from_wide_not by lia. split; [discriminate|]. intro X. inversion X; subst; [lia|unfold high_surrogate in *; lia|contradiction].
Qed.
(* codepoints-to-string() on any integers *)
Theorem C33_any_numbers : forall h c zs,
  (forall s, fn_value h c (lit "fn:codepoints-to-string") [map XIInteger zs] (Ok [XIString s]) <-> spells zs s) /\
  ((forall s, ~ spells zs s) -> fn_value h c (lit "fn:codepoints-to-string") [map XIInteger zs] (Err DynamicError)).
Proof.
  intros h c zs.
  assert (V : fn_value h c (lit "fn:codepoints-to-string") [map XIInteger zs]
    (match from_utf16 (flat_map utf16_units zs) with Some t => Ok [XIString t] | None => Err DynamicError end)).
  { fnv; [unfold fn_codepoints_to_string; rewrite map_res_ints; reflexivity|destruct (from_utf16 _); discriminate]. }
  assert (U := spells_units (List.length zs) zs). split.
  - intro s. rewrite <- (U s) by lia. split.
    + intro H. assert (D := fn_value_unique _ _ _ _ _ _ V H). destruct (from_utf16 _); congruence.
    + intro E. rewrite E in V. exact V.
  - intro N. destruct (from_utf16 (flat_map utf16_units zs)) as [t|] eqn:F; [|exact V]. destruct (N t). apply U; [lia|reflexivity].
Qed.
(* XPath 3.1 wants an error for every number that is no code point *)
Theorem C33_refuted : ~ (forall h c zs s, fn_value h c (lit "fn:codepoints-to-string") [map XIInteger zs] (Ok [XIString s]) ->
  exists t, Forall scalar_value t /\ zs = map Z.of_N t).
Proof.
  intro H. destruct (H [] [] [67174400] [65536%N]) as (t & S & E).
  - apply C33_any_numbers. change [65536%N] with [Z.to_N (65536 + (67174400 mod 2 ^ 64 - 65536) mod 2 ^ 26)]. apply sp_wide; [vm_compute; discriminate|reflexivity|constructor].
  - destruct t as [|c t]; [discriminate|]. injection E as E _. inversion S as [|? ? C]; subst. unfold scalar_value in C. lia.
Qed.
Example C33_numbers_example : spells [55357; 56832; -18446744073709551551] [128512%N; 65%N] /\ (forall s, ~ spells [65; 55296; 66] s) /\
  eval_xpath 20 [] 0 (lit "string-to-codepoints(codepoints-to-string((55357, 56832)))") = Ok [XIInteger 128512].
Proof.
  split; [|split; [|vm_compute; reflexivity]].
  - apply (sp_halves 55357 56832); [unfold high_surrogate; cbn; lia|unfold low_surrogate; cbn; lia|].
    change [65%N] with [Z.to_N (-18446744073709551551 mod 2 ^ 64)]. apply sp_unit; [reflexivity|unfold high_surrogate; cbn; lia|unfold low_surrogate; cbn; lia|constructor].
  - intros s X. inversion X; subst; try (unfold high_surrogate, low_surrogate in *; cbn in *; lia).
    match goal with X : spells [55296; 66] _ |- _ => inversion X; subst end; unfold high_surrogate, low_surrogate in *; cbn in *; lia.
Qed.

(* ------------------------------------------------------------------ C90 *)
Ltac each I tac := cbn [In] in I; repeat (destruct I as [<-|I]; [tac|]); destruct I.
(* what a function gives for the empty sequence *)
Theorem C90_empty : forall h c f vs o, of_empty f vs o -> fn_value h c f ([] :: vs) o.
Proof.
  intros h c f vs o E.
  inversion E as [? I|? ? I|? ?|? I|?|?|? ?|? ?| |? I|?|? I|? I|?|? ? P|? I|? I|? ? I]; subst;
  try (match goal with I : In f _ |- _ => each I ltac:(fnv; try reflexivity) end); try (fnv; reflexivity).
  - fnv. unfold fn_insert_before. cbn [get_singleton_integer bind]. rewrite chk_ok by (unfold is_i64; lia). cbn [bind].
    assert (Z : forall q, (if zlen (@nil xitem) <=? q then zlen (@nil xitem) else q) <= 0 ) by (intro q; unfold zlen; cbn; destruct (Z.leb_spec 0 q); lia).
    destruct (Z.to_nat _); rewrite ?firstn_nil, ?skipn_nil, app_nil_r; reflexivity.
Qed.
Lemma no_string : forall v, ~ a_string v -> get_singleton_string v = Err TypeError.
Proof. intros [|[] [|? ?]] N; try reflexivity. destruct N. eexists. reflexivity. Qed.
Lemma string_or : forall v, (exists s, v = [XIString s]) \/ get_singleton_string v = Err TypeError.
Proof. intros [|[] [|? ?]]; try (right; reflexivity). left. eauto. Qed.
Lemma opt_string_or : forall v, (exists s, opt_string v = Ok s) \/ opt_string v = Err TypeError.
Proof. intros [|it v]; [left; eexists; reflexivity|]. unfold opt_string. destruct (string_or (it :: v)) as [(s & ->)|E]; [left; eexists; reflexivity|right; exact E]. Qed.
Lemma no_opt_string : forall v, v <> [] -> ~ a_string v -> opt_string v = Err TypeError.
Proof. intros [|it v] E N; [congruence|]. apply no_string. exact N. Qed.
Ltac lengthed vs := repeat (destruct vs as [|? vs]; cbn [List.length] in *; try discriminate); try lia.
(* only strings are strings: a number, a node or several items is a type error *)
Theorem C90_strings : forall h c f n vs, In (f, n) string_functions -> List.length vs = n ->
  (forall v, In v vs -> v <> []) -> (exists v, In v vs /\ ~ a_string v) -> fn_value h c f vs (Err TypeError).
Proof.
  intros h c f n vs I L E X. cbn [string_functions In] in I.
  assert (U : forall (A : Type) x (k : str -> res A), ~ a_string x -> (do t <- get_singleton_string x; k t) = Err TypeError).
  { intros A x k N. rewrite no_string by exact N. reflexivity. }
  assert (O : forall x, x <> [] -> opt_string x = get_singleton_string x) by (intros [|? ?] ?; [congruence|reflexivity]).
  assert (S : forall x, a_string x \/ get_singleton_string x = Err TypeError).
  { intro x. destruct (string_or x); auto. }
  assert (B : forall (A : Type) x y (k : str -> str -> res A), (~ a_string x \/ ~ a_string y) ->
    (do t <- get_singleton_string x; do u <- get_singleton_string y; k t u) = Err TypeError).
  { intros A x y k N. destruct (S x) as [[s ->]| ->]; [|reflexivity]. cbn [get_singleton_string bind]. destruct N as [N|N]; [destruct N; eexists; reflexivity|].
    rewrite no_string by exact N. reflexivity. }
  assert (T1 : forall x, vs = [x] -> x <> [] /\ ~ a_string x).
  { intros x ->. split; [apply E; left; reflexivity|]. destruct X as (v & [<-|[]] & N). exact N. }
  assert (T2 : forall x y, vs = [x; y] -> x <> [] /\ y <> [] /\ (~ a_string x \/ ~ a_string y)).
  { intros x y ->. split; [apply E; left; reflexivity|]. split; [apply E; right; left; reflexivity|]. destruct X as (v & [<-|[<-|[]]] & N); auto. }
  repeat (destruct I as [I|I]; [injection I as <- <-|]); [..|destruct I];
  lengthed vs;
  try (match goal with |- fn_value _ _ _ [?x] _ => destruct (T1 x eq_refl) as [N M]; fnv end;
       unfold fn_string_length, fn_string_to_codepoints, fn_normalize_space, fn_case;
       match goal with |- match ?x with _ => _ end = _ => destruct x; [congruence|] end; apply U; assumption);
  try (match goal with |- fn_value _ _ _ [?x; ?y] _ => destruct (T2 x y eq_refl) as (N & N' & M); fnv end;
       unfold fn_contains, fn_starts_with, fn_ends_with, fn_substring_before, fn_substring_after; rewrite !O by assumption; apply B; assumption).
  - match goal with |- fn_value _ _ _ [?x; ?y] _ => destruct (T2 x y eq_refl) as (N & N' & M); fnv; destruct x; [congruence|]; destruct y; [congruence|] end.
    apply B. assumption.
  - match goal with |- fn_value _ _ _ [?x; ?y] _ => destruct (T2 x y eq_refl) as (N & N' & M); fnv; destruct x; [congruence|]; destruct y; [congruence|] end.
    apply B. assumption.
  - fnv. match goal with |- fn_translate ?x ?y ?z = _ => remember x as x0; remember y as y0; remember z as z0 end.
    assert (N : x0 <> []) by (apply E; left; reflexivity). unfold fn_translate. destruct x0 as [|i0 x0]; [congruence|].
    destruct (S (i0 :: x0)) as [[s Es]| ->]; [|reflexivity]. rewrite Es. cbn [get_singleton_string bind]. apply B.
    destruct X as (v & [<-|[<-|[<-|[]]]] & M); auto. destruct M. exists s. exact Es.
Qed.
Lemma no_integer v : ~ an_integer v -> get_singleton_integer v = Err TypeError.
Proof. destruct v as [|[] [|? ?]]; intro N; try reflexivity. destruct N. eexists. reflexivity. Qed.
Lemma no_map v : ~ a_map v -> get_singleton_map v = Err TypeError.
Proof. destruct v as [|[] [|? ?]]; intro N; try reflexivity. destruct N. eexists. reflexivity. Qed.
Lemma no_array v : ~ an_array v -> get_singleton_array v = Err TypeError.
Proof. destruct v as [|[] [|? ?]]; intro N; try reflexivity. destruct N. eexists. reflexivity. Qed.
Lemma no_item v : v = [] \/ several v -> get_singleton_item v = Err TypeError.
Proof. intros [->|(a & b & r & ->)]; reflexivity. Qed.
Theorem C90_mistyped : forall h c f vs, mistyped f vs -> fn_value h c f vs (Err TypeError).
Proof.
  intros h c f vs M.
  inversion M as [? x y I N A|? x y I N A|x y z N A|x y z N A|x y N A|x y z N A|s y A|x y N A|x y A|x A|x y A|x y A|x y z A|? x I A|? x y I A|? m y I A|x A|x y A|a y A|x N A]; subst.
  - each I ltac:(fnv; unfold fn_contains, fn_starts_with, fn_ends_with, fn_substring_before, fn_substring_after;
      rewrite (no_opt_string x) by assumption; reflexivity).
  - each I ltac:(fnv; unfold fn_contains, fn_starts_with, fn_ends_with, fn_substring_before, fn_substring_after;
      rewrite (no_opt_string y) by assumption; destruct (opt_string_or x) as [(s & ->)| ->]; reflexivity).
  - fnv. unfold fn_translate. destruct x as [|i x]; [congruence|]. rewrite (no_string y) by exact A.
    destruct (string_or (i :: x)) as [(s & ->)| ->]; reflexivity.
  - fnv. unfold fn_translate. destruct x as [|i x]; [congruence|]. rewrite (no_string z) by exact A.
    destruct (string_or (i :: x)) as [(s & ->)| ->]; [|reflexivity]. cbn [get_singleton_string bind].
    destruct (string_or y) as [(t & ->)| ->]; reflexivity.
  - fnv. unfold fn_substring. destruct x as [|i x]; [congruence|]. rewrite (no_string (i :: x)) by exact A. reflexivity.
  - fnv. unfold fn_substring. destruct x as [|i x]; [congruence|]. rewrite (no_string (i :: x)) by exact A. reflexivity.
  - fnv. unfold fn_substring, start_of. cbn [get_singleton_string bind]. rewrite no_item by exact A. reflexivity.
  - fnv. unfold fn_subsequence, start_of. destruct x as [|i x]; [congruence|]. rewrite no_item by exact A. reflexivity.
  - fnv. unfold fn_string_join. rewrite no_string by exact A. reflexivity.
  - destruct A as (a & b & r & ->). fnv. reflexivity.
  - destruct A as (a & b & r & ->). fnv. reflexivity.
  - fnv. unfold fn_remove. rewrite no_integer by exact A. reflexivity.
  - fnv. unfold fn_insert_before. rewrite no_integer by exact A. reflexivity.
  - each I ltac:(fnv; unfold fn_map_size, fn_map_keys; rewrite no_map by exact A; reflexivity).
  - each I ltac:(fnv; unfold fn_map_contains, fn_map_get; rewrite no_map by exact A; reflexivity).
  - each I ltac:(fnv; unfold fn_map_contains, fn_map_get; cbn [get_singleton_map bind]; rewrite no_item by exact A; reflexivity).
  - fnv. unfold fn_array_size. rewrite no_array by exact A. reflexivity.
  - fnv. unfold fn_array_get. rewrite no_array by exact A. reflexivity.
  - fnv. unfold fn_array_get. cbn [get_singleton_array bind]. rewrite no_item by exact A. reflexivity.
  - fnv. unfold fn_nilled. destruct x as [|i [|j x]]; [congruence|destruct i; try reflexivity; destruct (A i eq_refl)|destruct i; reflexivity].
Qed.
(* abs() and alike of something that is no number: nothing at all, without an error; number() of several items: zero *)
Theorem C90_no_number : forall h c x, ~ a_number x ->
  (forall f, In f [lit "fn:abs"; lit "fn:ceiling"; lit "fn:floor"; lit "fn:round"] -> fn_value h c f [x] (Ok [])).
Proof.
  intros h c x N f I.
  assert (G : forall a b d, fn_numeric_unary a b d x = Ok []).
  { intros a b d. destruct x as [|[] [|? ?]]; try reflexivity; destruct N; [left; eexists; reflexivity|right; left; eexists; reflexivity|right; right; eexists; reflexivity]. }
  each I ltac:(fnv; apply G).
Qed.
Theorem C90_number_several : forall h c x, several x -> fn_value h c (lit "fn:number") [x] (Ok [XIDouble f_zero]).
Proof. intros h c x (a & b & r & ->). fnv. reflexivity. Qed.
(* Where XPath 3.1 disagrees: several items or a text where a number is wanted are a type error; a node where a string is wanted is atomized;
   lang() of the empty sequence is a test for the empty language. *)
Theorem C90_refuted :
  ~ (forall h c x o, several x -> fn_value h c (lit "fn:abs") [x] o -> o = Err TypeError) /\
  ~ (forall h c s o, fn_value h c (lit "fn:abs") [[XIString s]] o -> o = Err TypeError) /\
  ~ (forall h c x o, several x -> fn_value h c (lit "fn:number") [x] o -> o = Err TypeError) /\
  ~ (forall h c i, exists b, fn_value h c (lit "fn:contains") [[XINode i]; [XIString []]] (Ok [XIBoolean b])) /\
  ~ (forall h c i, exists s, fn_value h c (lit "fn:upper-case") [[XINode i]] (Ok [XIString s])) /\
  ~ (forall h c i, exists z, fn_value h c (lit "fn:string-length") [[XINode i]] (Ok [XIInteger z])) /\
  ~ (forall h c x, exists b, fn_value h c (lit "fn:lang") [[]; x] (Ok [XIBoolean b])).
Proof.
  assert (D : forall f vs o o', fn_value [] [] f vs o -> fn_value [] [] f vs o' -> o = o') by (intros; eapply fn_value_unique; eassumption).
  assert (Sv : several [XIInteger 1; XIInteger 2]) by (repeat eexists).
  split; [|split; [|split; [|split; [|split; [|split]]]]]; intro H.
  - assert (X := H [] [] _ (Ok []) Sv). discriminate X. apply C90_no_number; [|left; reflexivity]. intros [[? E]|[[? E]|[? E]]]; discriminate E.
  - assert (X := H [] [] [97%N] (Ok [])). discriminate X. apply C90_no_number; [|left; reflexivity]. intros [[? E]|[[? E]|[? E]]]; discriminate E.
  - assert (X := H [] [] _ _ Sv (C90_number_several [] [] _ Sv)). discriminate X.
  - destruct (H [] [] 0%nat) as [b X]. assert (Y := D _ _ _ _ X (C90_mistyped [] [] (lit "fn:contains") _ (mt_lenient1 _ [XINode 0%nat] [XIString []]
      (or_introl eq_refl) ltac:(discriminate) ltac:(intros [? E]; discriminate E)))). discriminate Y.
  - destruct (H [] [] 0%nat) as [b X]. assert (Y : fn_value [] [] (lit "fn:upper-case") [[XINode 0%nat]] (Err TypeError)) by (fnv; reflexivity).
    assert (Z := D _ _ _ _ X Y). discriminate Z.
  - destruct (H [] [] 0%nat) as [b X]. assert (Y : fn_value [] [] (lit "fn:string-length") [[XINode 0%nat]] (Err TypeError)) by (fnv; reflexivity).
    assert (Z := D _ _ _ _ X Y). discriminate Z.
  - destruct (H [] [] []) as [b X]. assert (Y : fn_value [] [] (lit "fn:lang") [[]; []] (Ok [XIString []])) by (fnv; reflexivity).
    assert (Z := D _ _ _ _ X Y). discriminate Z.
Qed.
Example C90_example :
  of_empty (lit "fn:substring") [[XIInteger 2]] (Ok [XIString []]) /\ mistyped (lit "fn:contains") [[XIInteger 1]; [XIString [49%N]]] /\
  eval_xpath 30 [] 0 (lit "count(abs((1, 2))), string(sum((), 'none')), string-length(substring((), 2)), number((1, 2)) eq 0") =
    Ok [XIInteger 0; XIString (lit "none"); XIInteger 0; XIBoolean true] /\
  eval_xpath 30 [] 0 (lit "contains(1, '1')") = Err TypeError.
Proof.
  split; [constructor|]. split.
  - apply mt_lenient1; [left; reflexivity|discriminate|]. intros [? E]. discriminate E.
  - split; vm_compute; reflexivity.
Qed.

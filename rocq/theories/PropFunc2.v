(* C33-C36, C48, C53: the function library, continued. *)
Require Import Bool List NArith ZArith Ascii String Lia Sorted.
From Verif Require Import Str StrFacts CaseTable Case SpecCase CaseFacts Chars Sax Dom SpecEdit SpecAxes Axes Lexer FuncTable Parser Num Item Func Types Eval
  EvalFacts SpecText SpecOper ItemFacts SpecFunc FuncFacts PropOper PropAxes.
Import ListNotations.
Open Scope Z_scope.

(* ------------------------------------------------------------------ C33 *)
Lemma codepoint_of_scalar : forall c, scalar_value c -> codepoint_of c = c.
Proof.
  intros c S. unfold codepoint_of, encode_utf16, scalar_value in *. destruct (N.ltb_spec c 65536) as [L|L].
  - replace (56320 <=? 0)%N with false by reflexivity. rewrite andb_false_r, andb_false_l. reflexivity.
  - assert (D : ((c - 65536) / 1024 < 1024)%N) by (apply N.div_lt_upper_bound; lia).
    assert (M : ((c - 65536) mod 1024 < 1024)%N) by (apply N.mod_upper_bound; lia).
    assert (E := N.div_mod (c - 65536) 1024 ltac:(discriminate)).
    revert E D M. generalize ((c - 65536) / 1024)%N as q. generalize ((c - 65536) mod 1024)%N as r. intros r q E D M.
    destruct (N.leb_spec 55296 (55296 + q)); [|lia]. destruct (N.leb_spec (55296 + q) 56319); [|lia].
    destruct (N.leb_spec 56320 (56320 + r)); [|lia]. destruct (N.leb_spec (56320 + r) 57343); [|lia]. cbn [andb]. lia.
Qed.
Lemma from_utf16_char : forall c r, scalar_value c ->
  from_utf16 (utf16_units (Z.of_N c) ++ r) = option_map (cons c) (from_utf16 r).
Proof.
  intros c r S. unfold scalar_value in S. unfold utf16_units. rewrite Z.mod_small by lia.
  destruct (Z.leb_spec 65536 (Z.of_N c)) as [L|L].
  - assert (D : (0 <= (Z.of_N c - 65536) / 1024 < 1024)) by (split; [apply Z.div_pos; lia|apply Z.div_lt_upper_bound; lia]).
    assert (M : (0 <= (Z.of_N c - 65536) mod 1024 < 1024)) by (apply Z.mod_pos_bound; lia).
    assert (E := Z.div_mod (Z.of_N c - 65536) 1024 ltac:(lia)).
    rewrite (Z.mod_small ((Z.of_N c - 65536) / 1024 + 55296)) by lia.
    rewrite (Z.mod_small ((Z.of_N c - 65536) mod 1024 + 56320)) by lia.
    revert E D M. generalize ((Z.of_N c - 65536) / 1024) as q. generalize ((Z.of_N c - 65536) mod 1024) as m.
    intros m q E D M. set (a := Z.to_N (q + 55296)). set (b := Z.to_N (m + 56320)).
    cbn [app from_utf16].
    destruct (N.leb_spec 55296 a); [|lia]. destruct (N.leb_spec a 56319); [|lia]. cbn [andb].
    destruct (N.leb_spec 56320 b); [|lia]. destruct (N.leb_spec b 57343); [|lia]. cbn [andb].
    replace (65536 + (a - 55296) * 1024 + (b - 56320))%N with c by lia. reflexivity.
  - rewrite N2Z.id. cbn [app from_utf16].
    destruct (N.leb_spec 55296 c); destruct (N.leb_spec c 56319); cbn [andb]; try lia;
      destruct (N.leb_spec 56320 c); destruct (N.leb_spec c 57343); cbn [andb]; try lia; reflexivity.
Qed.
Lemma from_utf16_all : forall s, Forall scalar_value s ->
  from_utf16 (flat_map utf16_units (map Z.of_N s)) = Some s.
Proof.
  induction 1 as [|c s S _ IH]; [reflexivity|]. cbn [map flat_map]. rewrite from_utf16_char, IH by auto. reflexivity.
Qed.
Lemma map_res_ints : forall h l, map_res (get_as_raw_integer h) (map XIInteger l) = Ok l.
Proof. intros h. induction l as [|z l IH]; [reflexivity|]. cbn. rewrite IH. reflexivity. Qed.
Theorem C33_codepoints : forall h c s, Forall scalar_value s ->
  fn_value h c (lit "fn:string-to-codepoints") [[XIString s]] (Ok (map (fun n => XIInteger (Z.of_N n)) s)) /\
  fn_value h c (lit "fn:codepoints-to-string") [map (fun n => XIInteger (Z.of_N n)) s] (Ok [XIString s]).
Proof.
  intros h c s S. split.
  - fnv. unfold fn_string_to_codepoints. cbn [get_singleton_string bind]. f_equal. unfold string_to_codepoints_sub.
    rewrite map_map. apply map_ext_in. intros a A. rewrite codepoint_of_scalar; auto. rewrite Forall_forall in S. auto.
  - fnv. unfold fn_codepoints_to_string.
    replace (map (fun n => XIInteger (Z.of_N n)) s) with (map XIInteger (map Z.of_N s)) by apply map_map.
    rewrite map_res_ints. cbn [bind]. rewrite from_utf16_all by auto. reflexivity.
Qed.
(* codepoint-equal is equality *)
Theorem C33_codepoint_equal : forall h c s t, Forall scalar_value s -> Forall scalar_value t ->
  exists b, fn_value h c (lit "fn:codepoint-equal") [[XIString s]; [XIString t]] (Ok [XIBoolean b]) /\ (b = true <-> s = t).
Proof.
  intros h c s t S T. eexists. split; [fnv; reflexivity|]. unfold codepoint_equal_sub, string_to_codepoints_sub.
  assert (I : forall u, Forall scalar_value u -> map codepoint_of u = u).
  { intros u U. rewrite <- (map_id u) at 2. apply map_ext_in. intros a A. apply codepoint_of_scalar.
    rewrite Forall_forall in U. auto. }
  rewrite !I by auto. apply str_eqb_eq.
Qed.
Example C33_example : eval_xpath 20 [] 0 (lit "string-to-codepoints(codepoints-to-string((128512, 65)))")
  = Ok [XIInteger 128512; XIInteger 65].
Proof. vm_compute. reflexivity. Qed.

(* ------------------------------------------------------------------ C34 *)
Fixpoint zsum (l : list Z) : Z := match l with [] => 0 | z :: r => z + zsum r end.
(* every partial sum, from the left, is an i64 *)
Definition sums_fit (l : list Z) : Prop := forall k, is_i64 (zsum (firstn k l)).
Lemma sum_loop_ints : forall h l acc, (forall k, is_i64 (acc + zsum (firstn k l))) ->
  sum_loop h (XIInteger acc) (map XIInteger l) = Ok (XIInteger (acc + zsum l)).
Proof.
  intros h. induction l as [|z l IH]; intros acc H; cbn [map sum_loop zsum]; [f_equal; f_equal; lia|].
  cbn [is_numeric]. unfold xitem_numeric_add, xitem_numeric_operation. assert (H1 := H 1%nat). cbn [firstn zsum] in H1.
  rewrite chk_ok by (replace (acc + z) with (acc + (z + 0)) by lia; exact H1). cbn [bind]. rewrite IH; [f_equal; f_equal; lia|].
  intro k. specialize (H (S k)). cbn [firstn zsum] in H. replace (acc + z + zsum (firstn k l)) with (acc + (z + zsum (firstn k l))) by lia.
  exact H.
Qed.
Theorem C34_sum : forall h c l, sums_fit l ->
  fn_value h c (lit "fn:sum") [map XIInteger l] (Ok [XIInteger (zsum l)]).
Proof.
  intros h c l F. fnv. unfold fn_sum. destruct l as [|z l]; [reflexivity|].
  remember (z :: l) as m. replace (map XIInteger m) with (XIInteger z :: map XIInteger l) at 1 by (subst; reflexivity).
  rewrite sum_loop_ints by (intro k; apply F). reflexivity.
Qed.
(* the arithmetic mean is what `sum div count` gives *)
Theorem C34_avg : forall h c l A B e e2 nm, l <> [] -> sums_fit l ->
  operands h c A B e [XIInteger (zsum l)] [XIInteger (zlen l)] e2 ->
  exists v, fn_value h c (lit "fn:avg") [map XIInteger l] (Ok [v]) /\
            outcome h c (XNode X_OperatorDiv nm A B) e (Ok ([v], e2)).
Proof.
  intros h c l A B e e2 nm N F O. assert (Z1 : (zlen l =? 0) = false) by (apply Z.eqb_neq; destruct l; [congruence|cbn; lia]).
  assert (D : exists v, xitem_numeric_divide (XIInteger (zsum l)) (XIInteger (zlen l)) = Ok v).
  { unfold xitem_numeric_divide. rewrite Z1. cbn. eauto. }
  destruct D as [v D]. exists v. split.
  - fnv. unfold fn_avg. destruct l as [|z l]; [congruence|].
    remember (z :: l) as m. replace (map XIInteger m) with (XIInteger z :: map XIInteger l) at 1 by (subst; reflexivity).
    unfold fn_sum. replace (map XIInteger m) with (XIInteger z :: map XIInteger l) at 1 by (subst; reflexivity).
    rewrite sum_loop_ints by (intro k; apply F). cbn [bind get_singleton_item].
    replace (zlen (map XIInteger m)) with (zlen m) by (unfold zlen; rewrite map_length; reflexivity).
    cbn [Z.add]. rewrite D. reflexivity.
  - apply (outcome_arith Div h c A B e _ _ e2 nm (Ok [v]) O); [|discriminate].
    unfold op_numeric_operation. cbn [get_singleton_item bind arith_fn]. rewrite D. reflexivity.
Qed.
Lemma extremum_ints : forall (cmp : xseq -> xseq -> res xseq) (R : Z -> Z -> Prop),
  (forall a b, exists t, cmp [XIInteger a] [XIInteger b] = Ok [XIBoolean t] /\ (t = true -> R b a) /\ (t = false -> R a b)) ->
  (forall a, R a a) -> (forall a b c, R a b -> R b c -> R a c) ->
  forall l m, exists x, extremum_loop cmp (XIInteger m) (map XIInteger l) = Ok (XIInteger x) /\ (x = m \/ In x l) /\
    R x m /\ forall z, In z l -> R x z.
Proof.
  intros cmp R C Rr Rt. induction l as [|z l IH]; intro m; cbn [map extremum_loop].
  - exists m. repeat split; auto. intros z [].
  - destruct (C m z) as [t [E [T F]]]. rewrite E. cbn [bind effective_boolean_value]. destruct t.
    + destruct (IH z) as [x [X [I [B A]]]]. exists x. split; [exact X|]. split; [destruct I; [subst; right; left|right; right]; auto|].
      split; [eapply Rt; eauto|]. intros w [<-|W]; auto.
    + destruct (IH m) as [x [X [I [B A]]]]. exists x. split; [exact X|]. split; [destruct I; [left|right; right]; auto|].
      split; [exact B|]. intros w [<-|W]; auto. eapply Rt; [exact B|]. auto.
Qed.
Theorem C34_max : forall h c l, l <> [] ->
  exists x, fn_value h c (lit "fn:max") [map XIInteger l] (Ok [XIInteger x]) /\ In x l /\ forall z, In z l -> z <= x.
Proof.
  intros h c [|z l] N; [congruence|].
  destruct (extremum_ints (value_compare_lt h) (fun a b => b <= a)) with (l := z :: l) (m := z) as [x [X [I [B A]]]].
  - intros a b. exists (a <? b). split; [reflexivity|]. rewrite Z.ltb_lt, Z.ltb_ge. lia.
  - intro; lia.
  - intros; lia.
  - exists x. split.
    + fnv. unfold fn_max, fn_extremum. cbn [map] in *.
      rewrite X. reflexivity.
    + split; [destruct I as [->|I]; [left; reflexivity|exact I]|exact A].
Qed.
Theorem C34_min : forall h c l, l <> [] ->
  exists x, fn_value h c (lit "fn:min") [map XIInteger l] (Ok [XIInteger x]) /\ In x l /\ forall z, In z l -> x <= z.
Proof.
  intros h c [|z l] N; [congruence|].
  destruct (extremum_ints (value_compare_gt h) (fun a b => a <= b)) with (l := z :: l) (m := z) as [x [X [I [B A]]]].
  - intros a b. exists (a >? b). split; [reflexivity|]. rewrite Z.gtb_lt, Z.gtb_ltb, Z.ltb_ge. lia.
  - intro; lia.
  - intros; lia.
  - exists x. split.
    + fnv. unfold fn_min, fn_extremum. cbn [map] in *.
      rewrite X. reflexivity.
    + split; [destruct I as [->|I]; [left; reflexivity|exact I]|exact A].
Qed.
Theorem C34_empty : forall h c, fn_value h c (lit "fn:sum") [[]] (Ok [XIInteger 0]) /\
  fn_value h c (lit "fn:max") [[]] (Ok []) /\ fn_value h c (lit "fn:min") [[]] (Ok []) /\
  fn_value h c (lit "fn:avg") [[]] (Ok []).
Proof. intros. repeat split; try discriminate; fnv; reflexivity. Qed.
Example C34_example : sums_fit [3; -5; 4] /\
  eval_xpath 20 [] 0 (lit "sum((3, -5, 4)), max((3, -5, 4)), min((3, -5, 4))") = Ok (map XIInteger [2; 4; -5]).
Proof.
  split; [|vm_compute; reflexivity]. intro k. do 4 (destruct k as [|k]; [cbn; unfold is_i64; lia|]).
  rewrite firstn_all2 by (cbn; lia). cbn. unfold is_i64; lia.
Qed.

(* ------------------------------------------------------------------ C35 *)
(* the string an item is converted to *)
Definition string_form (h : heap) (it : xitem) (s : str) : Prop :=
  fn_value h [] (lit "fn:string") [[it]] (Ok [XIString s]).
Definition same_key (h : heap) (a b : xitem) : Prop := exists s, string_form h a s /\ string_form h b s.
Lemma string_form_raw : forall h it s, string_form h it s <-> get_as_raw_string h it = Ok s.
Proof.
  intros h it s.
  assert (F : fn_value h [] (lit "fn:string") [[it]] (do t <- get_as_raw_string h it; Ok (sing_str t))).
  { fnv; [reflexivity|]. destruct it as [| | | | | | |[|[]| |]|]; discriminate. }
  split.
  - intro H. assert (D := fn_value_unique _ _ _ _ _ _ F H). destruct (get_as_raw_string h it); cbn in D; unfold sing_str in D; congruence.
  - intro H. rewrite H in F. exact F.
Qed.
Lemma same_key_op : forall h a b, op_same_key h a b = true <-> same_key h a b.
Proof.
  intros h a b. unfold op_same_key, same_key. split.
  - intro H. destruct (get_as_raw_string h a) as [s| | |] eqn:A; try discriminate.
    destruct (get_as_raw_string h b) as [t| | |] eqn:B; try discriminate. apply str_eqb_eq in H. subst t.
    exists s. rewrite !string_form_raw. auto.
  - intros [s [A B]]. apply string_form_raw in A. apply string_form_raw in B. rewrite A, B. apply str_eqb_refl.
Qed.
Theorem C35_map_get : forall h c m k,
  (exists pre key v post, m = pre ++ (key, v) :: post /\ same_key h key k /\
     (forall e, In e pre -> ~ same_key h (fst e) k) /\
     fn_value h c (lit "map:get") [[XIMap m]; [k]] (Ok v) /\
     fn_value h c (lit "map:contains") [[XIMap m]; [k]] (Ok [XIBoolean true])) \/
  ((forall e, In e m -> ~ same_key h (fst e) k) /\
     fn_value h c (lit "map:get") [[XIMap m]; [k]] (Ok []) /\
     fn_value h c (lit "map:contains") [[XIMap m]; [k]] (Ok [XIBoolean false])).
Proof.
  intros h c m k.
  assert (G : fn_value h c (lit "map:get") [[XIMap m]; [k]] (Ok (match xmap_get h m k with Some v => v | None => [] end)))
    by (fnv; reflexivity).
  assert (C : fn_value h c (lit "map:contains") [[XIMap m]; [k]] (Ok [XIBoolean (xmap_contains h m k)])) by (fnv; reflexivity).
  assert (S : (exists pre key v post, m = pre ++ (key, v) :: post /\ same_key h key k /\
     (forall e, In e pre -> ~ same_key h (fst e) k) /\ xmap_get h m k = Some v /\ xmap_contains h m k = true) \/
     ((forall e, In e m -> ~ same_key h (fst e) k) /\ xmap_get h m k = None /\ xmap_contains h m k = false)).
  { clear. induction m as [|[key v] m IH]; [right; split; [intros e []|auto]|].
    unfold xmap_get, xmap_contains in *. cbn [find existsb fst]. destruct (op_same_key h key k) eqn:E.
    - left. exists [], key, v, m. split; [reflexivity|]. split; [apply same_key_op; auto|]. split; [intros e []|auto].
    - assert (NE : ~ same_key h key k) by (rewrite <- same_key_op; congruence).
      destruct IH as [[pre [key' [v' [post [-> [S [P [X Y]]]]]]]]|[P [X Y]]].
      + left. exists ((key, v) :: pre), key', v', post. split; [reflexivity|]. split; [exact S|]. split; [|auto].
        intros e [<-|I]; auto.
      + right. split; [|auto]. intros e [<-|I]; auto. }
  destruct S as [[pre [key [v [post [M [S [P [X Y]]]]]]]]|[P [X Y]]]; rewrite X in G; rewrite Y in C.
  - left. exists pre, key, v, post. auto.
  - right. auto.
Qed.
Theorem C35_map_keys_size : forall h c m,
  fn_value h c (lit "map:keys") [[XIMap m]] (Ok (map fst m)) /\
  fn_value h c (lit "map:size") [[XIMap m]] (Ok [XIInteger (zlen m)]).
Proof. intros. split; fnv; reflexivity. Qed.
(* Keys are compared by their string form, so the keys 1 and '1', different in XPath, are the same key here. *)
Theorem C35_key_types_refuted :
  eval_xpath 20 [] 0 (lit "map:get(map{1 : 'a'}, '1')") = Ok [XIString (lit "a")] /\
  eval_xpath 20 [] 0 (lit "1 eq '1'") = Err TypeError.
Proof. split; vm_compute; reflexivity. Qed.
(* and a literal with duplicate keys, an error in XPath, keeps both entries *)
Theorem C35_duplicates_refuted :
  eval_xpath 20 [] 0 (lit "map:size(map{1 : 'a', 1 : 'b'}), map:get(map{1 : 'a', 1 : 'b'}, 1)")
  = Ok [XIInteger 2; XIString (lit "a")].
Proof. vm_compute. reflexivity. Qed.

(* ------------------------------------------------------------------ C36 *)
Theorem C36_array_get_partial : forall h c a i, 1 <= i <= zlen a ->
  exists v, nth_error a (Z.to_nat (i - 1)) = Some v /\
    fn_value h c (lit "array:get") [[XIArray a]; [XIInteger i]] (Ok v).
Proof.
  intros h c a i R. destruct (nth_error a (Z.to_nat (i - 1))) as [v|] eqn:E.
  - exists v. split; auto. fnv. unfold fn_array_get. cbn [get_singleton_array get_singleton_item bind].
    unfold xarray_get. cbn [get_as_raw_integer]. unfold zlen in R.
    destruct (Z.leb_spec 1 i); [|lia]. destruct (Z.leb_spec i (Z.of_nat (List.length a))); [|lia]. cbn [andb]. rewrite E. reflexivity.
  - apply nth_error_None in E. unfold zlen in R. lia.
Qed.
(* outside of the range array:get gives the empty sequence; only the application $a(i) is an error *)
Theorem C36_array_get_refuted : forall h c a i, ~ (1 <= i <= zlen a) ->
  fn_value h c (lit "array:get") [[XIArray a]; [XIInteger i]] (Ok []).
Proof.
  intros h c a i R. fnv. unfold fn_array_get. cbn [get_singleton_array get_singleton_item bind].
  unfold xarray_get. cbn [get_as_raw_integer]. unfold zlen in R.
  destruct (Z.leb_spec 1 i); cbn [andb]; auto. destruct (Z.leb_spec i (Z.of_nat (List.length a))); auto. lia.
Qed.
Theorem C36_array_apply : forall h c F I e a i e1 e2 nm nm', outcome h c F e (Ok ([XIArray a], e1)) ->
  outcome h c I e1 (Ok ([XIInteger i], e2)) ->
  outcome h c (XNode X_ApplyArgument nm F (XNode X_ArgumentListTop nm' (arg_chain [I]) XNil)) e
    match nth_error a (Z.to_nat (i - 1)) with
    | Some v => if 1 <=? i then Ok (v, e2) else Err DynamicError
    | None => Err DynamicError
    end.
Proof.
  intros h c F I e a i e1 e2 nm nm' OF OI.
  apply outcome_eval in OF; apply outcome_eval in OI. destruct OF as [n OF], OI as [m OI].
  apply eval_outcome with (n := S (Nat.max n m)).
  - rewrite eval_S. unfold eval_step. cbn [x_type x_left x_right]. rewrite OF by lia. cbn [bind].
    unfold apply_argument. cbn [x_left arg_chain eval_dyn_args]. rewrite OI by lia. cbn [bind get_singleton_item].
    unfold xarray_get. cbn [get_as_raw_integer].
    destruct (Z.leb_spec 1 i) as [L|L]; cbn [andb].
    + destruct (Z.leb_spec i (Z.of_nat (List.length a))) as [L'|L'].
      * destruct (nth_error a (Z.to_nat (i - 1))); reflexivity.
      * destruct (nth_error a (Z.to_nat (i - 1))) eqn:E; [|reflexivity].
        assert (Z.to_nat (i - 1) < List.length a)%nat by (apply nth_error_Some; congruence). lia.
    + destruct (nth_error a (Z.to_nat (i - 1))); reflexivity.
  - destruct (nth_error a (Z.to_nat (i - 1))); [destruct (1 <=? i)|]; discriminate.
Qed.
Lemma flattens_app : forall s r s' r', flattens s r -> flattens s' r' -> flattens (s ++ s') (r ++ r').
Proof.
  intros s r s' r' H H'. induction H; cbn [app]; auto.
  - constructor; auto.
  - rewrite <- app_assoc. constructor; auto.
Qed.
(* induction on the nesting of items *)
Section ItemInd.
  Variable P : xitem -> Prop.
  Hypothesis Hatom : forall it, ~ is_array it -> P it.
  Hypothesis Harray : forall a, Forall (Forall P) a -> P (XIArray a).
  Fixpoint array_ind (it : xitem) : P it.
  Proof.
    destruct it as [x|m|a|i|s|z|f|f|b]; try (apply Hatom; intros [? E]; discriminate E).
    apply Harray. induction a as [|s a IHa]; constructor; auto.
    induction s as [|it s IHs]; constructor; auto.
  Defined.
End ItemInd.
Lemma flattens_flatten1 : forall it, flattens [it] (flatten1 it).
Proof.
  apply array_ind.
  - intros it N. destruct it; try (repeat constructor; exact N). exfalso. apply N. eexists; reflexivity.
  - intros a H. cbn [flatten1]. rewrite <- (app_nil_r (flat_map _ a)). constructor; [|constructor].
    induction H as [|s a Hs _ IH]; [constructor|]. cbn [List.concat flat_map]. apply flattens_app; [|exact IH].
    induction Hs as [|it s Hit _ IHs]; [constructor|]. cbn [flat_map]. apply (flattens_app [it] _ s _ Hit IHs).
Qed.
Lemma flatten_items : forall s, flattens s (flat_map flatten1 s).
Proof.
  induction s as [|it s IH]; [constructor|]. cbn [flat_map]. apply (flattens_app [it] _ s _ (flattens_flatten1 it) IH).
Qed.
Lemma flattens_no_array : forall s r, flattens s r -> forall it, In it r -> ~ is_array it.
Proof.
  intros s r H. induction H; intros x I.
  - destruct I.
  - destruct I as [<-|I]; auto.
  - apply in_app_or in I. destruct I; auto.
Qed.
Theorem C36_flatten : forall h c s, exists r, fn_value h c (lit "array:flatten") [s] (Ok r) /\ flattens s r /\
  forall it, In it r -> ~ is_array it.
Proof.
  intros h c s. exists (flat_map flatten1 s). split; [|split].
  - fnv. unfold fn_array_flatten. f_equal. apply flat_map_ext. intros []; reflexivity.
  - apply flatten_items.
  - eapply flattens_no_array. apply flatten_items.
Qed.
Theorem flattens_unique : forall s r, flattens s r -> forall r', flattens s r' -> r = r'.
Proof.
  intros s r H. induction H as [|it s r N H IH|a s r1 r2 H1 IH1 H2 IH2]; intros r' H'; inversion H'; subst; auto.
  - f_equal. auto.
  - exfalso. apply N. eexists; reflexivity.
  - exfalso. apply H3. eexists; reflexivity.
  - f_equal; auto.
Qed.
Example C36_example :
  eval_xpath 30 [] 0 (lit "array:flatten([1, (2, 3), [4, [5]]]), array:size([1, 2]), array:get([7, 8], 2)") = Ok (map XIInteger [1; 2; 3; 4; 5; 2; 8]) /\
  eval_xpath 30 [] 0 (lit "array:get([7, 8], 3)") = Ok [] /\
  eval_xpath 30 [] 0 (lit "[7, 8](3)") = Err DynamicError.
Proof. repeat split; vm_compute; reflexivity. Qed.

(* ------------------------------------------------------------------ C53 *)
Lemma concat_args_spec : forall h args ss,
  Forall2 (fun a s => (a = [] /\ s = []) \/ exists it, a = [it] /\ string_form h it s) args ss ->
  concat_args h args = Ok (List.concat ss).
Proof.
  intros h args ss H. induction H as [|a s args ss [[-> ->]|[it [-> F]]] H IH]; [reflexivity|exact IH|].
  cbn [concat_args get_singleton_item bind]. apply string_form_raw in F. rewrite F. cbn [bind]. rewrite IH. reflexivity.
Qed.
Lemma find_ext : forall A (f g : A -> bool) l, (forall x, f x = g x) -> find f l = find g l.
Proof. intros A f g l H. induction l as [|x l IH]; [reflexivity|]. cbn. rewrite H, IH. reflexivity. Qed.
Lemma find_concat : forall n, find_function (lit "fn:concat") n = Some F_concat.
Proof.
  intro n. unfold find_function.
  rewrite (find_ext _ (row_matches (lit "fn:concat") n) (fun r => str_eqb (snd (fst r)) (lit "fn:concat") &&
            match fst (fst r) with Some k => Nat.eqb k n | None => true end))
    by (intros [[[k|] m] f]; cbn; [apply andb_comm|rewrite andb_true_r; reflexivity]).
  reflexivity.
Qed.
Theorem C53_concat : forall h c args ss,
  Forall2 (fun a s => (a = [] /\ s = []) \/ exists it, a = [it] /\ string_form h it s) args ss ->
  fn_value h c (lit "fn:concat") args (Ok [XIString (List.concat ss)]).
Proof.
  intros h c args ss H. eapply fn_value_call with (f := F_concat); [|reflexivity| |discriminate].
  - apply find_concat.
  - cbn [call_fn]. unfold fn_concat. rewrite (concat_args_spec h args ss H). reflexivity.
Qed.
Lemma map_res_forms : forall h s ss, Forall2 (string_form h) s ss -> map_res (get_as_raw_string h) s = Ok ss.
Proof.
  intros h s ss H. induction H as [|it t s ss F H IH]; [reflexivity|]. cbn [map_res]. apply string_form_raw in F.
  rewrite F. cbn [bind]. rewrite IH. reflexivity.
Qed.
Lemma join_sep_by : forall sep l, join sep l = sep_by sep l.
Proof. reflexivity. Qed.
Theorem C53_string_join : forall h c s ss sep, Forall2 (string_form h) s ss ->
  fn_value h c (lit "fn:string-join") [s; [XIString sep]] (Ok [XIString (sep_by sep ss)]) /\
  fn_value h c (lit "fn:string-join") [s] (Ok [XIString (List.concat ss)]).
Proof.
  intros h c s ss sep H. split; fnv; unfold fn_string_join; cbn [nth_error get_singleton_string bind];
    rewrite (map_res_forms h s ss H); cbn [bind]; unfold sing_str; do 3 f_equal.
  induction ss as [|x [|y ss] IH]; [reflexivity|cbn; rewrite app_nil_r; reflexivity|].
  assert (J : join [] (y :: ss) = List.concat (y :: ss)).
  { clear. revert y. induction ss as [|z ss IH]; intro y; [cbn; rewrite app_nil_r; reflexivity|].
    change (join [] (y :: z :: ss)) with (y ++ [] ++ join [] (z :: ss)). rewrite IH. reflexivity. }
  change (join [] (x :: y :: ss)) with (x ++ [] ++ join [] (y :: ss)). rewrite J. reflexivity.
Qed.
(* string-length counts characters, and is additive over concatenation *)
Theorem C53_string_length : forall h c s t,
  fn_value h c (lit "fn:string-length") [[XIString s]] (Ok [XIInteger (zlen s)]) /\
  fn_value h c (lit "fn:concat") [[XIString s]; [XIString t]] (Ok [XIString (s ++ t)]) /\
  fn_value h c (lit "fn:string-length") [[XIString (s ++ t)]] (Ok [XIInteger (zlen s + zlen t)]).
Proof.
  intros h c s t. split; [fnv; reflexivity|]. split.
  - fnv. unfold fn_concat. cbn. rewrite app_nil_r. reflexivity.
  - fnv. unfold fn_string_length. cbn [get_singleton_string bind]. unfold zlen. rewrite app_length, Nat2Z.inj_add. reflexivity.
Qed.
Example C53_example :
  eval_xpath 20 [] 0 (lit "string-join(('a', 'b', 'c'), '--'), concat('a', (), 1), string-length('abc')")
  = Ok [XIString (lit "a--b--c"); XIString (lit "a1"); XIInteger 3].
Proof. vm_compute. reflexivity. Qed.

(* ------------------------------------------------------------------ C48 *)
Definition has_lang (h : heap) (i : nat) : Prop := exists v, attribute_value h i (lit "xml:lang") = Some v.
(* the part before the first hyphen *)
Definition primary (v t : str) : Prop := ~ In 45%N t /\ (v = t \/ exists r, v = t ++ 45%N :: r).
Lemma first_lang_unique : forall h l j v, In j l -> attribute_value h j (lit "xml:lang") = Some v ->
  (forall k, In k l -> has_lang h k -> k = j) -> first_lang h l = to_lower v.
Proof.
  intros h l j v. induction l as [|i l IH]; intros I A U; [destruct I|]. cbn [first_lang].
  destruct (attribute_value h i (lit "xml:lang")) as [w|] eqn:E.
  - assert (i = j) by (apply U; [left; auto|exists w; auto]). subst. congruence.
  - destruct I as [->|I]; [congruence|]. apply IH; auto. intros k K. apply U. right; auto.
Qed.
Lemma nearest_in : forall h i v, nearest_lang h i v ->
  exists j, (j = i \/ ancestor h j i) /\ attribute_value h j (lit "xml:lang") = Some v.
Proof.
  intros h i v H. induction H as [i v A|i p v A P H [j [J B]]].
  - exists i. auto.
  - exists j. split; auto. right. destruct J as [->|J]; [apply anc_parent; auto|eapply anc_up; eauto].
Qed.
Lemma primary_split : forall v t, ~ In 45%N t ->
  (str_eqb (match split_once (lit "-") v with Some (x, _) => x | None => v end) t = true <-> primary v t).
Proof.
  intros v t N. rewrite str_eqb_eq. unfold primary. destruct (split_once (lit "-") v) as [[x y]|] eqn:E.
  - assert (F := split_once_first _ _ _ _ E). apply split_once_some in E. subst v. change (lit "-") with [45%N] in *.
    cbn [app] in *. split.
    + intros <-. eauto.
    + intros [_ [H|[r H]]].
      * exfalso. apply N. rewrite <- H. apply in_or_app. right. left; auto.
      * assert (L := F t r H).
        assert (P : forall (a b : str) r r', (List.length a <= List.length b)%nat -> ~ In 45%N b -> a ++ 45%N :: r = b ++ 45%N :: r' -> a = b).
        { clear. induction a as [|c a IH]; intros [|d b] r r' L N H; cbn in *; auto; try lia.
          - inversion H; subst. exfalso. apply N. left; auto.
          - inversion H; subst. f_equal. apply (IH b r r'); [lia| |assumption]. intro; apply N; right; auto. }
        eapply P; eauto.
  - split; [intros <-; auto|]. intros [_ [H|[r H]]]; auto. exfalso.
    exact (proj1 (split_once_none (lit "-") v) E t r H).
Qed.
Lemma session_node_order : forall h, session h -> exists order, node_order h 0 order.
Proof.
  intros h S. destruct (SessionFacts.session_document h S) as [t [D [T0 K]]]. rewrite <- T0.
  eexists. exact (AxesFacts.node_order_rep t h None (proj1 D)).
Qed.
Theorem C48_lang_partial : forall h i v t, session h -> attached h 0 i -> n_type (Dom.get h i) <> Attribute ->
  nearest_lang h i v ->
  (forall j k, (j = i \/ ancestor h j i) -> (k = i \/ ancestor h k i) -> has_lang h j -> has_lang h k -> j = k) ->
  ~ In 45%N t ->
  exists b w, lower_text [] v w /\ fn_value h [XINode i] (lit "fn:lang") [[XIString t]] (Ok [XIBoolean b]) /\
            (b = true <-> primary w t).
Proof.
  intros h i v t S A Ty N U T. destruct (session_node_order h S) as [order O].
  destruct (C16_axes_partial h i order S A Ty O) as [_ [[l [E [M _]]] _]].
  destruct (nearest_in h i v N) as [j [J B]].
  assert (F : first_lang h l = to_lower v).
  { apply first_lang_unique with (j := j); auto; [apply M; auto|]. intros k K L. apply U; auto; [apply M; auto|exists v; auto]. }
  eexists. exists (to_lower v). split; [apply to_lower_iff; auto|]. split.
  - apply fn_value_fn; [|discriminate]. intros callf e.
    unfold evaluate_function. change (find_function (lit "fn:lang") (List.length [[XIString t]])) with (Some C_lang_1).
    cbn iota beta. f_equal. cbn [call_fn arg nth_error]. unfold fn_lang. cbn [get_singleton_string get_singleton_node bind].
    rewrite E. cbn [bind]. rewrite F. reflexivity.
  - apply primary_split; auto.
Qed.
(* With xml:lang on two ancestors the outermost one is used. *)
Theorem C48_lang_refuted : exists h b,
  new_document (lit "<a xml:lang='en'><b xml:lang='fr'/></a>") = Ok h /\
  eval_xpath 20 h 0 (lit "/a/b") = Ok [XINode b] /\ nearest_lang h b (lit "fr") /\
  eval_xpath 20 h b (lit "lang('fr'), lang('en')") = Ok [XIBoolean false; XIBoolean true].
Proof.
  eexists. eexists. split; [vm_compute; reflexivity|]. split; [vm_compute; reflexivity|]. split; [|vm_compute; reflexivity].
  apply nl_here. vm_compute. reflexivity.
Qed.

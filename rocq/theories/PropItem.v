(* C73-C77: maps and arrays, lookups, functions applied by functions, kind tests. *)
Require Import Bool List NArith ZArith Ascii String Lia Sorted.
From Verif Require Import Str StrFacts Sax Dom Axes SpecEdit SpecAxes AxesFacts PropAxes Lexer FuncTable Parser Num Item Func Types Eval EvalFacts
  SpecOper ItemFacts SpecTypes TypeFacts SpecFunc FuncFacts SpecEval EnvFacts PropDom PropTypes PropEval PropEval2 PropEval3 PropOper PropFunc
  PropFunc2 PropFunc3 SpecItem.
Import ListNotations.
Open Scope nat_scope.

(* the same failure, of another type *)
Definition as_failure {A B} (o : res A) : res B :=
  match o with Err e => Err e | Panic => Panic | Ok _ | Fuel => Fuel end.
Lemma bind_failure : forall {A B} (o : res A) (f : A -> res B), (forall r, o <> Ok r) -> (do v <- o; f v) = as_failure o.
Proof. intros A B [a|e| |] f N; cbn; auto. destruct (N a); reflexivity. Qed.
Lemma failure_id : forall {A} (o : res A), (forall r, o <> Ok r) -> as_failure o = o.
Proof. intros A [a|e| |] N; cbn; auto. destruct (N a); reflexivity. Qed.

(* ------------------------------------------------------------------ C73 *)
Lemma array_entries_ok : forall h c xs e vs e2, evaluated h c xs e vs e2 ->
  exists n, forall m, n <= m -> array_entries (eval h m) c (entry_chain X_ArrayEntry xs) e = Ok (vs, e2).
Proof.
  intros h c xs e vs e2 H. induction H as [e|x xs e v e1 vs e2 O _ [n IH]].
  - exists 0. reflexivity.
  - destruct (outcome_eval _ _ _ _ _ O) as [k K]. exists (Nat.max n k). intros m L. cbn [entry_chain array_entries].
    change (xtype_eqb X_ArrayEntry X_ArrayEntry) with true. cbn [negb].
    rewrite K by lia. cbn [bind]. rewrite IH by lia. reflexivity.
Qed.
(* [x1, ..., xn] is the array of the values of x1, ..., xn *)
Theorem C73_square : forall h c xs e vs e2, evaluated h c xs e vs e2 ->
  outcome h c (square_array xs) e (Ok ([XIArray vs], e2)).
Proof.
  intros h c xs e vs e2 H. destruct (array_entries_ok _ _ _ _ _ _ H) as [n N].
  apply eval_outcome with (n := S n); [|discriminate]. rewrite eval_S. unfold eval_step, square_array. cbn [x_type].
  unfold convert_xnode_to_map_array. cbn [x_type x_left]. rewrite N by lia. reflexivity.
Qed.
(* array { x } has one member for each item of the value of x *)
Theorem C73_curly : forall h c x e s e1, outcome h c x e (Ok (s, e1)) ->
  outcome h c (curly_array x) e (Ok ([XIArray (map (fun it => [it]) s)], e1)).
Proof.
  intros h c x e s e1 H. destruct (outcome_eval _ _ _ _ _ H) as [n N].
  apply eval_outcome with (n := S n); [|discriminate]. rewrite eval_S. unfold eval_step, curly_array. cbn [x_type].
  unfold convert_xnode_to_map_array. cbn [x_type x_left]. rewrite N by lia. reflexivity.
Qed.
Lemma map_entries_ok : forall h c es m e e2, evaluated h c (in_turn es) e (key_values m) e2 ->
  exists n, forall k, n <= k -> map_entries (eval h k) c (entry_chain X_MapConstruct (map (fun p => XNode X_MapEntry [] (fst p) (snd p)) es)) e
    = Ok (m, e2).
Proof.
  intros h c. induction es as [|[kx vx] es IH]; intros m e e2 H.
  - destruct m as [|[k v] m]; inversion H; subst. exists 0. reflexivity.
  - destruct m as [|[k v] m]; [inversion H|]. cbn in H. inversion H as [|? ? ? ? e1 ? ? O1 H1]; subst.
    inversion H1 as [|? ? ? ? e3 ? ? O2 H2]; subst. destruct (IH _ _ _ H2) as [n N].
    destruct (outcome_eval _ _ _ _ _ O1) as [k1 K1]. destruct (outcome_eval _ _ _ _ _ O2) as [k2 K2].
    exists (Nat.max n (Nat.max k1 k2)). intros j L. cbn [map entry_chain map_entries x_type x_left x_right fst snd].
    change (xtype_eqb X_MapConstruct X_MapConstruct) with true. change (xtype_eqb X_MapEntry X_MapEntry) with true. cbn [negb].
    rewrite K1 by lia. cbn [bind get_singleton_item]. rewrite K2 by lia. cbn [bind]. rewrite N by lia. reflexivity.
Qed.
(* map { k1 : v1, ... } is the map of the keys k1, ... (single items) and the values v1, ...  *)
Theorem C73_map : forall h c es m e e2, evaluated h c (in_turn es) e (key_values m) e2 ->
  outcome h c (map_constructor es) e (Ok ([XIMap m], e2)).
Proof.
  intros h c es m e e2 H. destruct (map_entries_ok _ _ _ _ _ _ H) as [n N].
  apply eval_outcome with (n := S n); [|discriminate]. rewrite eval_S. unfold eval_step, map_constructor. cbn [x_type].
  unfold convert_xnode_to_map_array. cbn [x_type x_left]. rewrite N by lia. reflexivity.
Qed.
(* a key that is not a single item is an error *)
Theorem C73_key_error : forall h c es m kx vx rest e e1 k e2, evaluated h c (in_turn es) e (key_values m) e1 ->
  outcome h c kx e1 (Ok (k, e2)) -> List.length k <> 1 ->
  outcome h c (map_constructor (es ++ (kx, vx) :: rest)) e (Err TypeError).
Proof.
  intros h c es m kx vx rest e e1 k e2 H OK L.
  assert (X : exists n, forall j, n <= j -> map_entries (eval h j) c
     (entry_chain X_MapConstruct (map (fun p => XNode X_MapEntry [] (fst p) (snd p)) (es ++ (kx, vx) :: rest))) e = Err TypeError).
  { revert m e H. induction es as [|[kx' vx'] es IH]; intros m e H.
    - destruct m as [|[? ?] m]; inversion H; subst. destruct (outcome_eval _ _ _ _ _ OK) as [n N]. exists n. intros j J.
      cbn [app map entry_chain map_entries x_type x_left x_right fst snd].
      change (xtype_eqb X_MapConstruct X_MapConstruct) with true. change (xtype_eqb X_MapEntry X_MapEntry) with true. cbn [negb].
      rewrite N by lia. cbn [bind]. destruct k as [|? [|? ?]]; cbn in *; try lia; reflexivity.
    - destruct m as [|[k' v'] m]; [inversion H|]. cbn in H. inversion H as [|? ? ? ? e3 ? ? O1 H1]; subst.
      inversion H1 as [|? ? ? ? e4 ? ? O2 H2]; subst. destruct (IH _ _ H2) as [n N].
      destruct (outcome_eval _ _ _ _ _ O1) as [k1 K1]. destruct (outcome_eval _ _ _ _ _ O2) as [k2 K2].
      exists (Nat.max n (Nat.max k1 k2)). intros j J. cbn [app map entry_chain map_entries x_type x_left x_right fst snd].
      change (xtype_eqb X_MapConstruct X_MapConstruct) with true. change (xtype_eqb X_MapEntry X_MapEntry) with true. cbn [negb].
      rewrite K1 by lia. cbn [bind get_singleton_item]. rewrite K2 by lia. cbn [bind]. rewrite N by lia. reflexivity. }
  destruct X as [n N]. apply eval_outcome with (n := S n); [|discriminate]. rewrite eval_S. unfold eval_step, map_constructor. cbn [x_type].
  unfold convert_xnode_to_map_array. cbn [x_type x_left]. rewrite N by lia. reflexivity.
Qed.
(* the first member that fails is the outcome of the constructor *)
Lemma entries_fail : forall h c xs e o, fails h c xs e o -> (forall r, o <> Ok r) /\ o <> Fuel /\
  exists n, forall m, n <= m -> array_entries (eval h m) c (entry_chain X_ArrayEntry xs) e = as_failure o.
Proof.
  intros h c xs e o H. induction H as [x xs e o O N|x xs e v e1 o O H [N [F [n IH]]]].
  - split; [exact N|]. split; [apply O|]. destruct (outcome_eval _ _ _ _ _ O) as [k K]. exists k. intros m L. cbn [entry_chain array_entries].
    change (xtype_eqb X_ArrayEntry X_ArrayEntry) with true. cbn [negb]. rewrite K by lia. apply bind_failure. exact N.
  - split; [exact N|]. split; [exact F|]. destruct (outcome_eval _ _ _ _ _ O) as [k K]. exists (Nat.max n k). intros m L. cbn [entry_chain array_entries].
    change (xtype_eqb X_ArrayEntry X_ArrayEntry) with true. cbn [negb]. rewrite K by lia. cbn [bind]. rewrite IH by lia.
    destruct o; reflexivity.
Qed.
Theorem C73_square_error : forall h c xs e o, fails h c xs e o -> outcome h c (square_array xs) e o.
Proof.
  intros h c xs e o H. destruct (entries_fail _ _ _ _ _ H) as [N [F [n K]]].
  apply eval_outcome with (n := S n); [|exact F]. rewrite eval_S. unfold eval_step, square_array. cbn [x_type].
  unfold convert_xnode_to_map_array. cbn [x_type x_left]. rewrite K by lia. destruct o; cbn; auto. destruct (N a); reflexivity.
Qed.
Example C73_example :
  parsed "[1, (2, 3)]" = square_array [parsed "1"; parsed "(2, 3)"] /\
  parsed "array { 1, 2 }" = curly_array (parsed "1, 2") /\
  parsed "map { 'a' : 1, 2 : () }" = map_constructor [(parsed "'a'", parsed "1"); (parsed "2", parsed "()")] /\
  xpath_gives [] 0 (lit "map { 'a' : 1, 2 : () }") (Ok [XIMap [(XIString (lit "a"), [XIInteger 1]); (XIInteger 2, [])]]) /\
  xpath_gives [] 0 (lit "[1, (2, 3)], array { 1, 2 }")
    (Ok [XIArray [[XIInteger 1]; [XIInteger 2; XIInteger 3]]; XIArray [[XIInteger 1]; [XIInteger 2]]]) /\
  xpath_gives [] 0 (lit "map { (1, 2) : 3 }") (Err TypeError).
Proof.
  split; [vm_compute; reflexivity|]. split; [vm_compute; reflexivity|]. split; [vm_compute; reflexivity|].
  repeat split; try discriminate; exists 20; vm_compute; reflexivity.
Qed.
(* array { } and array members that are missing: the constructor of the empty array panics *)
Theorem C73_empty_refuted : xpath_gives [] 0 (lit "array { }") Panic /\ xpath_gives [] 0 (lit "array:size([ ])") (Ok [XIInteger 0]).
Proof. split; (split; [discriminate|]); exists 20; vm_compute; reflexivity. Qed.

(* ------------------------------------------------------------------ C74 *)
(* the value a map has for a key; the values an array has for an index *)
Definition map_finds (h : heap) (m : list (xitem * xseq)) (k : xitem) (v : xseq) : Prop :=
  (exists pre key post, m = pre ++ (key, v) :: post /\ same_key h key k /\ (forall e, In e pre -> ~ same_key h (fst e) k)) \/
  ((forall e, In e m -> ~ same_key h (fst e) k) /\ v = []).
Definition array_finds (a : list xseq) (k : xitem) (v : xseq) : Prop :=
  exists i, k = XIInteger i /\ ((1 <= i)%Z /\ nth_error a (Z.to_nat i - 1) = Some v \/
                                ((i < 1 \/ Z.of_nat (List.length a) < i)%Z /\ v = [])).
Lemma xmap_get_finds : forall h m k, map_finds h m k (match xmap_get h m k with Some v => v | None => [] end).
Proof.
  intros h m k. induction m as [|[key v] m IH].
  - right. split; [intros e []|reflexivity].
  - unfold xmap_get in *. cbn [find fst]. destruct (op_same_key h key k) eqn:E.
    + left. exists [], key, m. split; [reflexivity|]. split; [apply same_key_op; auto|]. intros e [].
    + assert (NE : ~ same_key h key k) by (rewrite <- same_key_op; congruence).
      destruct IH as [[pre [key' [post [M [S P]]]]]|[P X]].
      * left. exists ((key, v) :: pre), key', post. split; [cbn; f_equal; exact M|]. split; [exact S|]. intros e [<-|I]; auto.
      * right. split; [|exact X]. intros e [<-|I]; auto.
Qed.
Lemma map_finds_unique : forall h m k v w, map_finds h m k v -> map_finds h m k w -> v = w.
Proof.
  intros h m k v w [[p1 [k1 [q1 [E1 [S1 N1]]]]]|[N1 ->]] [[p2 [k2 [q2 [E2 [S2 N2]]]]]|[N2 ->]]; auto.
  - subst m. revert p2 E2 N2. induction p1 as [|x p1 IH]; intros [|y p2] E2 N2; cbn in E2; injection E2.
    + congruence.
    + intros _ <-. destruct (N2 (k1, v)); [left; reflexivity|exact S1].
    + intros _ ->. destruct (N1 (k2, w)); [left; reflexivity|exact S2].
    + intros E <-. apply (IH (fun e I => N1 e (or_intror I)) p2 E (fun e I => N2 e (or_intror I))).
  - subst m. destruct (N2 (k1, v)); [apply in_or_app; right; left; reflexivity|exact S1].
  - subst m. destruct (N1 (k2, w)); [apply in_or_app; right; left; reflexivity|exact S2].
Qed.
Lemma flat_map_finds : forall {A} (f : A -> xseq) (P : A -> xseq -> Prop) ks vs, (forall k v, P k v -> f k = v) ->
  Forall2 P ks vs -> flat_map f ks = List.concat vs.
Proof. intros A f P ks vs H F. induction F as [|k v ks vs Q F IH]; [reflexivity|]. cbn. rewrite (H _ _ Q), IH. reflexivity. Qed.
(* a map looked up with the keys that K gives, one after the other *)
Theorem C74_map : forall h m K e ks e1 vs, outcome h [XIMap m] K e (Ok (ks, e1)) -> Forall2 (map_finds h m) ks vs ->
  outcome h [XIMap m] (key_lookup K) e (Ok (List.concat vs, e1)).
Proof.
  intros h m K e ks e1 vs O F. destruct (outcome_eval _ _ _ _ _ O) as [n N]. apply eval_outcome with (n := S n); [|discriminate].
  rewrite eval_S. unfold eval_step, key_lookup. cbn [x_type x_left]. rewrite N by lia. cbn [bind lookup_expr].
  rewrite (flat_map_finds _ (map_finds h m) ks vs); [reflexivity| |exact F].
  intros k v M. eapply map_finds_unique; [apply xmap_get_finds|exact M].
Qed.
(* every key has one outcome, so the theorem applies to every list of keys *)
Theorem C74_map_total : forall h m ks, exists vs, Forall2 (map_finds h m) ks vs.
Proof.
  intros h m. induction ks as [|k ks [vs F]]; [exists []; constructor|].
  eexists. constructor; [apply xmap_get_finds|exact F].
Qed.
Lemma xarray_get_finds : forall h a k v, array_finds a k v -> match xarray_get h a k with Some v => v | None => [] end = v.
Proof.
  intros h a k v [i [-> [[L N]|[R ->]]]]; unfold xarray_get; cbn [get_as_raw_integer].
  - assert (Z.to_nat i - 1 < List.length a) by (apply nth_error_Some; congruence).
    replace ((1 <=? i)%Z) with true by (symmetry; apply Z.leb_le; lia).
    replace ((i <=? Z.of_nat (List.length a))%Z) with true by (symmetry; apply Z.leb_le; lia). cbn [andb].
    replace (Z.to_nat (i - 1)) with (Z.to_nat i - 1) by lia. rewrite N. reflexivity.
  - destruct (Z.leb_spec 1 i); cbn [andb]; auto. destruct (Z.leb_spec i (Z.of_nat (List.length a))); auto. lia.
Qed.
Theorem C74_array_partial : forall h a K e ks e1 vs, outcome h [XIArray a] K e (Ok (ks, e1)) -> Forall2 (array_finds a) ks vs ->
  outcome h [XIArray a] (key_lookup K) e (Ok (List.concat vs, e1)).
Proof.
  intros h a K e ks e1 vs O F. destruct (outcome_eval _ _ _ _ _ O) as [n N]. apply eval_outcome with (n := S n); [|discriminate].
  rewrite eval_S. unfold eval_step, key_lookup. cbn [x_type x_left]. rewrite N by lia. cbn [bind lookup_expr].
  rewrite (flat_map_finds _ (array_finds a) ks vs); [reflexivity| |exact F].
  intros k v M. apply xarray_get_finds. exact M.
Qed.
Theorem C74_array_total : forall a i, exists v, array_finds a (XIInteger i) v.
Proof.
  intros a i. destruct (Z_lt_le_dec i 1) as [L|L].
  - exists []. exists i. split; auto.
  - destruct (nth_error a (Z.to_nat i - 1)) as [v|] eqn:E.
    + exists v. exists i. split; auto.
    + exists []. exists i. split; auto. right. split; auto. right. apply nth_error_None in E. lia.
Qed.
(* ?* gives all values, in order *)
Definition keyed (h : heap) (m : list (xitem * xseq)) : Prop :=
  exists names, NoDup names /\ Forall2 (fun p s => string_form h (fst p) s) m names.
Lemma unwrap_somes : forall (l : list xseq), unwrap_all (map Some l) = Ok (List.concat l).
Proof. induction l as [|v l IH]; [reflexivity|]. cbn [map unwrap_all]. rewrite IH. reflexivity. Qed.
Lemma keyed_get : forall h m, keyed h m -> map (xmap_get h m) (xmap_keys m) = map Some (map snd m).
Proof.
  intros h m [names [ND F]].
  assert (G : forall pre m' np nm', m = pre ++ m' -> names = np ++ nm' -> Forall2 (fun p s => string_form h (fst p) s) pre np ->
    Forall2 (fun p s => string_form h (fst p) s) m' nm' -> map (xmap_get h m) (xmap_keys m') = map Some (map snd m')).
  { intros pre m'. revert pre. induction m' as [|[k v] m' IH]; intros pre np nm' Em En Fp Fm; [reflexivity|].
    inversion Fm as [|? s ? nm2 S Fm2]; subst. cbn [xmap_keys map fst snd]. f_equal.
    - clear IH. unfold xmap_get.
      assert (forall x, In x pre -> op_same_key h (fst x) k = false).
      { intros x I. destruct (op_same_key h (fst x) k) eqn:K; auto. apply same_key_op in K. destruct K as [t [T1 T2]].
        cbn [fst] in S. apply string_form_raw in T2. apply string_form_raw in S. rewrite T2 in S. injection S as ->.
        exfalso. assert (In s np).
        { clear - I Fp T1. induction Fp as [|y u pre np U Fp IH]; [destruct I|]. destruct I as [->|I]; [|right; auto].
          left. apply string_form_raw in T1. apply string_form_raw in U. congruence. }
        apply NoDup_remove_2 in ND. apply ND. apply in_or_app. auto. }
      assert (O : op_same_key h k k = true) by (apply same_key_op; exists s; auto).
      clear - H O. induction pre as [|x pre IH].
      + cbn [app find fst]. rewrite O. reflexivity.
      + cbn [app find]. rewrite (H x) by (left; reflexivity). apply IH. intros y I. apply H. right. exact I.
    - apply (IH (pre ++ [(k, v)]) (np ++ [s]) nm2); try (rewrite <- app_assoc; reflexivity); auto.
      apply Forall2_app; auto. }
  exact (G [] m [] names eq_refl eq_refl (Forall2_nil _) F).
Qed.
Theorem C74_all_map : forall h m e, keyed h m -> outcome h [XIMap m] all_lookup e (Ok (flat_map snd m, e)).
Proof.
  intros h m e K. apply eval_outcome with (n := 1); [|discriminate].
  rewrite eval_S. unfold eval_step, all_lookup. cbn [x_type lookup_wildcard].
  rewrite (keyed_get h m K), unwrap_somes, <- flat_map_concat_map. reflexivity.
Qed.
Theorem C74_all_array : forall h a e, outcome h [XIArray a] all_lookup e (Ok (List.concat a, e)).
Proof.
  intros h a e. apply eval_outcome with (n := 1); [|discriminate].
  rewrite eval_S. unfold eval_step, all_lookup. cbn [x_type lookup_wildcard].
  assert (G : forall pre a', a = pre ++ a' ->
    map (fun k => xarray_get h a (XIInteger (Z.of_nat k))) (seq (S (List.length pre)) (List.length a')) = map Some a').
  { intros pre a'. revert pre. induction a' as [|v a' IH]; intros pre E; [reflexivity|]. cbn [List.length seq map]. f_equal.
    - unfold xarray_get. cbn [get_as_raw_integer]. subst a. rewrite app_length. cbn [List.length].
      destruct (Z.leb_spec 1 (Z.of_nat (S (List.length pre)))); [|lia].
      destruct (Z.leb_spec (Z.of_nat (S (List.length pre))) (Z.of_nat (List.length pre + S (List.length a')))); [|lia]. cbn [andb].
      replace (Z.to_nat (Z.of_nat (S (List.length pre)) - 1)) with (List.length pre) by lia.
      rewrite nth_error_app2 by lia. rewrite Nat.sub_diag. reflexivity.
    - replace (S (S (List.length pre))) with (S (List.length (pre ++ [v]))) by (rewrite app_length; cbn; lia).
      apply IH. rewrite <- app_assoc. exact E. }
  assert (G0 := G [] a eq_refl). change (S (@List.length xseq [])) with 1 in G0. rewrite G0, unwrap_somes. reflexivity.
Qed.
(* a lookup in anything but a single map or array is a type error *)
Theorem C74_type : forall h c K e ks e1, (forall m, c <> [XIMap m]) -> (forall a, c <> [XIArray a]) ->
  outcome h c all_lookup e (Err TypeError) /\
  (outcome h c K e (Ok (ks, e1)) -> outcome h c (key_lookup K) e (Err TypeError)).
Proof.
  intros h c K e ks e1 NM NA.
  split.
  - apply eval_outcome with (n := 1); [|discriminate]. rewrite eval_S. unfold eval_step, all_lookup. cbn [x_type]. unfold lookup_wildcard.
    destruct c as [|[fx|m|a|i|t|z|g|g|b] [|? ?]]; try reflexivity; [destruct (NM m)|destruct (NA a)]; reflexivity.
  - intro O. destruct (outcome_eval _ _ _ _ _ O) as [n N]. apply eval_outcome with (n := S n); [|discriminate].
    rewrite eval_S. unfold eval_step, key_lookup. cbn [x_type x_left]. rewrite N by lia. cbn [bind]. unfold lookup_expr.
    destruct c as [|[fx|m|a|i|t|z|g|g|b] [|? ?]]; try reflexivity; [destruct (NM m)|destruct (NA a)]; reflexivity.
Qed.
(* E ! B, and with it the lookup E?K: B for each item of E, in order *)
Theorem C74_each : forall h c nm A B e s e1 f, outcome h c A e (Ok (s, e1)) -> A <> XNil -> B <> XNil ->
  (forall it, In it s -> outcome h [it] B e1 (Ok (f it, e1))) ->
  outcome h c (XNode X_OperatorMap nm A B) e (Ok (flat_map f s, e1)).
Proof.
  intros h c nm A B e s e1 f O NA NB H. destruct (outcome_eval _ _ _ _ _ O) as [n N].
  assert (L : exists k, forall m, k <= m -> map_loop (eval h m) B s e1 = Ok (flat_map f s, e1)).
  { clear - H. induction s as [|it s IH]; [exists 0; reflexivity|].
    destruct IH as [k K]; [intros x I; apply H; right; exact I|].
    destruct (outcome_eval _ _ _ _ _ (H it (or_introl eq_refl))) as [j J]. exists (Nat.max k j). intros m L.
    cbn [map_loop]. rewrite J by lia. cbn [bind]. rewrite K by lia. reflexivity. }
  destruct L as [k K]. apply eval_outcome with (n := S (Nat.max n k)); [|discriminate].
  rewrite eval_S. unfold eval_step. cbn [x_type x_left x_right]. unfold eval_left. cbn [x_left].
  destruct A as [|ta na la ra]; [destruct NA; reflexivity|]. destruct B as [|tb nb lb rb]; [destruct NB; reflexivity|].
  cbn [is_nil]. rewrite N by lia. cbn [bind]. apply K. lia.
Qed.
(* The key of E?(K) is evaluated with the map, not the context item, as context; an index out of range is no error. *)
Theorem C74_context_refuted :
  xpath_gives [] 0 (lit "'a' ! map { 'a' : 1 }?(.)") (Ok []) /\
  xpath_gives [] 0 (lit "'a' ! (let $k := . return map { 'a' : 1 }?($k))") (Ok [XIInteger 1]) /\
  xpath_gives [] 0 (lit "[1, 2]?3") (Ok []).
Proof. repeat split; try discriminate; exists 20; vm_compute; reflexivity. Qed.
Example C74_example :
  parsed "$m?a" = postfix_lookup (parsed "$m") (key_lookup (parsed "'a'")) /\
  parsed "$m?2" = postfix_lookup (parsed "$m") (key_lookup (parsed "2")) /\
  parsed "$m?(1, 2)" = postfix_lookup (parsed "$m") (key_lookup (parsed "(1, 2)")) /\
  parsed "$m?*" = postfix_lookup (parsed "$m") all_lookup /\
  keyed [] [(XIString (lit "a"), [XIInteger 1]); (XIInteger 2, [])] /\
  xpath_gives [] 0 (lit "(map { 'a' : 1, 2 : (3, 4) }, [5, 6])?2") (Ok (map XIInteger [3; 4; 6]%Z)) /\
  xpath_gives [] 0 (lit "map { 'a' : 1, 2 : (3, 4) }?*") (Ok (map XIInteger [1; 3; 4]%Z)).
Proof.
  do 4 (split; [vm_compute; reflexivity|]). split.
  - exists [lit "a"; lit "2"]. split.
    + repeat constructor; cbn; intuition discriminate.
    + constructor; [apply string_form_raw; vm_compute; reflexivity|].
      constructor; [apply string_form_raw; vm_compute; reflexivity|constructor].
  - repeat split; try discriminate; exists 20; vm_compute; reflexivity.
Qed.

(* ------------------------------------------------------------------ C75 *)
Lemma hash_no : forall n, ~ In 35%N n -> split_once (lit "#") n = None.
Proof.
  induction n as [|c n IH]; intro H; [reflexivity|]. change (lit "#") with [35%N] in *.
  cbn [split_once strip_prefix].
  assert (E : (35 =? c)%N = false) by (apply N.eqb_neq; intro; subst; apply H; left; auto).
  rewrite E. rewrite IH by (intro; apply H; right; auto). reflexivity.
Qed.
Lemma hash_yes : forall p l, ~ In 35%N p -> split_once (lit "#") (p ++ lit "#" ++ l) = Some (p, l).
Proof.
  induction p as [|c p IH]; intros l H.
  - reflexivity.
  - change (lit "#") with [35%N] in *. cbn [app]. cbn [split_once strip_prefix].
    assert (E : (35 =? c)%N = false) by (apply N.eqb_neq; intro; subst; apply H; left; auto).
    rewrite E. cbn [app] in IH. rewrite IH by (intro; apply H; right; auto). reflexivity.
Qed.
Lemma fn_value_evaluates : forall h c name vs o, ~ In name contextual -> fn_value h c name vs o ->
  forall callf e, evaluate_function h callf name vs c e = pure e o.
Proof.
  intros h c name vs o N V callf e. destruct (evaluate_function_pure h name vs c N) as [o' P].
  rewrite (fn_value_inv _ _ _ _ _ _ P V). apply P.
Qed.
Lemma filled_args : forall h c xs vs e ws e2, filled h c xs vs e ws e2 ->
  exists n, forall m, n <= m -> eval_partial_args (eval h m) c (hole_chain xs) vs e = Ok (ws, e2).
Proof.
  intros h c xs vs e ws e2 H. induction H as [e|x xs given e v e1 vs e2 O H [n IH]|xs v given e vs e2 H [n IH]].
  - exists 0. reflexivity.
  - destruct (outcome_eval _ _ _ _ _ O) as [k K]. exists (Nat.max n k). intros m L. cbn [hole_chain eval_partial_args].
    rewrite K by lia. cbn [bind]. rewrite IH by lia. reflexivity.
  - exists n. intros m L. cbn [hole_chain eval_partial_args]. rewrite IH by lia. reflexivity.
Qed.
Lemma applied_call : forall h c fx vs e o, applied h c fx vs e o -> o <> Fuel /\
  exists n, forall m, n <= m -> call_function h m fx vs c e = (do v <- o; Ok (v, e)).
Proof.
  intros h c fx vs e o H. destruct H as [name arity vs e o NC NH NH2 AR V|name xs vs ws e o NC F V|nm ps R body vs e o L T SC O].
  - split; [eapply fn_value_nofuel; eauto|]. exists 1. intros [|m] M; [lia|]. rewrite call_S.
    unfold call_function_body, function_ref. cbn [x_type]. unfold call_named_func. cbn [x_name]. unfold split_hash.
    rewrite hash_yes by auto. rewrite hash_no by auto. rewrite AR, Z.eqb_refl. apply fn_value_evaluates; auto.
  - split; [eapply fn_value_nofuel; eauto|]. destruct (filled_args _ _ _ _ _ _ _ F) as [n N]. exists (S n). intros [|m] M; [lia|].
    rewrite call_S. unfold call_function_body, partial_call. cbn [x_type]. unfold call_partial_func. cbn [x_name x_right].
    rewrite N by lia. cbn [bind]. apply fn_value_evaluates; auto.
  - split. { destruct O as [O _]. destruct o as [[v e']| | |]; cbn [bind]; congruence. }
    destruct (outcome_eval _ _ _ _ _ O) as [n N]. exists (S n). intros [|m] M; [lia|].
    rewrite call_S. unfold call_function_body, inline_function. cbn [x_type]. unfold call_inline_func. cbn [x_left x_right].
    destruct (chain_lefts ps) as [-> ->]. rewrite bind_args_ok; auto.
    + cbn [bind]. rewrite N by lia. destruct o as [[v e']| | |]; cbn [bind]; auto.
      assert (e' = with_params e ps vs) by (eapply outcome_quiet; eauto). subst e'. rewrite remove_params by auto. reflexivity.
    + clear - T. induction T; constructor; auto. apply type_test_iff; [discriminate|auto].
Qed.
(* a higher-order call: both arguments, then the loop *)
Lemma higher_order : forall h c name X F e s e1 fx e2,
  name = lit "fn:for-each" \/ name = lit "fn:filter" ->
  outcome h c X e (Ok (s, e1)) -> outcome h c F e1 (Ok ([XIFun fx], e2)) ->
  exists n, forall m, n <= m -> eval h (S m) c (fn_call name [X; F]) e =
    (if str_eqb name (lit "fn:for-each") then for_each_loop (fun a => call_function h m fx a c) s e2
     else filter_fn_loop (fun a => call_function h m fx a c) s e2).
Proof.
  intros h c name X F e s e1 fx e2 NM OX OF.
  destruct (outcome_eval _ _ _ _ _ OX) as [n N]. destruct (outcome_eval _ _ _ _ _ OF) as [k K].
  exists (Nat.max n k). intros m L. rewrite eval_S. unfold eval_step, fn_call. cbn [x_type x_name x_right arg_chain eval_args].
  change (xtype_eqb X_ArgumentTop X_ArgumentTop) with true. cbn iota. rewrite N by lia. cbn [bind]. rewrite K by lia. cbn [bind].
  unfold evaluate_function. cbn [List.length].
  destruct NM as [-> | ->].
  - replace (find_function (lit "fn:for-each") 2) with (Some C_for_each) by (vm_compute; reflexivity).
    cbv iota beta. cbn [get_singleton_xnodeptr bind]. reflexivity.
  - replace (find_function (lit "fn:filter") 2) with (Some C_filter) by (vm_compute; reflexivity).
    cbv iota beta. cbn [get_singleton_xnodeptr bind]. reflexivity.
Qed.
(* for-each(X, F): the values of F for the items of X, in order *)
Theorem C75_for_each : forall h c X F e s e1 fx e2 f,
  outcome h c X e (Ok (s, e1)) -> outcome h c F e1 (Ok ([XIFun fx], e2)) ->
  (forall it, In it s -> applied h c fx [[it]] e2 (Ok (f it))) ->
  outcome h c (fn_call (lit "fn:for-each") [X; F]) e (Ok (flat_map f s, e2)).
Proof.
  intros h c X F e s e1 fx e2 f OX OF H. destruct (higher_order h c _ X F e s e1 fx e2 (or_introl eq_refl) OX OF) as [n N].
  assert (L : exists k, forall m, k <= m -> for_each_loop (fun a => call_function h m fx a c) s e2 = Ok (flat_map f s, e2)).
  { clear - H. induction s as [|it s IH]; [exists 0; reflexivity|].
    destruct IH as [k K]; [intros x I; apply H; right; exact I|].
    destruct (applied_call _ _ _ _ _ _ (H it (or_introl eq_refl))) as [_ [j J]]. exists (Nat.max k j). intros m L.
    cbn [for_each_loop]. rewrite J by lia. cbn [bind]. rewrite K by lia. reflexivity. }
  destruct L as [k K]. apply eval_outcome with (n := S (Nat.max n k)); [|discriminate].
  rewrite N by lia. rewrite str_eqb_refl. apply K. lia.
Qed.
(* filter(X, F): the items of X for which F is true *)
Theorem C75_filter : forall h c X F e s e1 fx e2 f t,
  outcome h c X e (Ok (s, e1)) -> outcome h c F e1 (Ok ([XIFun fx], e2)) ->
  (forall it, In it s -> applied h c fx [[it]] e2 (Ok (f it)) /\ ebv (f it) (t it)) ->
  outcome h c (fn_call (lit "fn:filter") [X; F]) e (Ok (filter t s, e2)).
Proof.
  intros h c X F e s e1 fx e2 f t OX OF H. destruct (higher_order h c _ X F e s e1 fx e2 (or_intror eq_refl) OX OF) as [n N].
  assert (L : exists k, forall m, k <= m -> filter_fn_loop (fun a => call_function h m fx a c) s e2 = Ok (filter t s, e2)).
  { clear - H. induction s as [|it s IH]; [exists 0; reflexivity|].
    destruct IH as [k K]; [intros x I; apply H; right; exact I|]. destruct (H it (or_introl eq_refl)) as [A B].
    destruct (applied_call _ _ _ _ _ _ A) as [_ [j J]]. exists (Nat.max k j). intros m L.
    cbn [filter_fn_loop filter]. rewrite J by lia. cbn [bind]. apply ebv_iff in B. rewrite B. cbn [bind]. rewrite K by lia. reflexivity. }
  destruct L as [k K]. apply eval_outcome with (n := S (Nat.max n k)); [|discriminate].
  rewrite N by lia. replace (str_eqb (lit "fn:filter") (lit "fn:for-each")) with false by (vm_compute; reflexivity). apply K. lia.
Qed.
(* the first application that fails is the outcome *)
Theorem C75_error : forall h c name X F e s e1 fx e2 pre it post f o,
  name = lit "fn:for-each" \/ name = lit "fn:filter" ->
  outcome h c X e (Ok (s, e1)) -> outcome h c F e1 (Ok ([XIFun fx], e2)) -> s = pre ++ it :: post ->
  (forall x, In x pre -> applied h c fx [[x]] e2 (Ok (f x)) /\ (name = lit "fn:filter" -> exists b, ebv (f x) b)) ->
  applied h c fx [[it]] e2 o -> (forall v, o <> Ok v) ->
  outcome h c (fn_call name [X; F]) e (as_failure o).
Proof.
  intros h c name X F e s e1 fx e2 pre it post f o NM OX OF -> P A NO.
  destruct (higher_order h c _ X F e _ e1 fx e2 NM OX OF) as [n N].
  destruct (applied_call _ _ _ _ _ _ A) as [FU [j J]].
  assert (NF : @as_failure xseq (xseq * env) o <> Fuel) by (destruct o; cbn; congruence).
  assert (L : exists k, forall m, k <= m ->
     (if str_eqb name (lit "fn:for-each") then for_each_loop (fun a => call_function h m fx a c) (pre ++ it :: post) e2
      else filter_fn_loop (fun a => call_function h m fx a c) (pre ++ it :: post) e2) = as_failure o).
  { destruct NM as [-> | ->].
    - rewrite str_eqb_refl. clear - P J NO. induction pre as [|x pre IH].
      + exists j. intros m L. cbn [app for_each_loop]. rewrite J by lia. destruct o as [v| | |]; try reflexivity. destruct (NO v); reflexivity.
      + destruct IH as [k K]; [intros y I; apply P; right; exact I|]. destruct (P x (or_introl eq_refl)) as [A _].
        destruct (applied_call _ _ _ _ _ _ A) as [_ [i I]]. exists (Nat.max k i). intros m L. cbn [app for_each_loop].
        rewrite I by lia. cbn [bind]. rewrite K by lia. destruct o as [v| | |]; try reflexivity.
    - replace (str_eqb (lit "fn:filter") (lit "fn:for-each")) with false by (vm_compute; reflexivity).
      clear - P J NO. induction pre as [|x pre IH].
      + exists j. intros m L. cbn [app filter_fn_loop]. rewrite J by lia. destruct o as [v| | |]; try reflexivity. destruct (NO v); reflexivity.
      + destruct IH as [k K]; [intros y I; apply P; right; exact I|]. destruct (P x (or_introl eq_refl)) as [A B].
        destruct (B eq_refl) as [b EB]. apply ebv_iff in EB.
        destruct (applied_call _ _ _ _ _ _ A) as [_ [i I]]. exists (Nat.max k i). intros m L. cbn [app filter_fn_loop].
        rewrite I by lia. cbn [bind]. rewrite EB. cbn [bind]. rewrite K by lia. destruct o as [v| | |]; try reflexivity. }
  destruct L as [k K]. apply eval_outcome with (n := S (Nat.max n k)); [|exact NF]. rewrite N by lia. apply K. lia.
Qed.
(* something that is no function item *)
Theorem C75_no_function : forall h c name X F e s e1 v e2, name = lit "fn:for-each" \/ name = lit "fn:filter" ->
  outcome h c X e (Ok (s, e1)) -> outcome h c F e1 (Ok (v, e2)) -> (forall fx, v <> [XIFun fx]) ->
  outcome h c (fn_call name [X; F]) e (Err TypeError).
Proof.
  intros h c name X F e s e1 v e2 NM OX OF NF.
  destruct (outcome_eval _ _ _ _ _ OX) as [n N]. destruct (outcome_eval _ _ _ _ _ OF) as [k K].
  apply eval_outcome with (n := S (Nat.max n k)); [|discriminate].
  rewrite eval_S. unfold eval_step, fn_call. cbn [x_type x_name x_right arg_chain eval_args].
  change (xtype_eqb X_ArgumentTop X_ArgumentTop) with true. cbn iota. rewrite N by lia. cbn [bind]. rewrite K by lia. cbn [bind].
  unfold evaluate_function. cbn [List.length].
  assert (G : get_singleton_xnodeptr v = Err TypeError).
  { destruct v as [|[fx|?|?|?|?|?|?|?|?] [|? ?]]; try reflexivity. destruct (NF fx). reflexivity. }
  destruct NM as [-> | ->].
  - replace (find_function (lit "fn:for-each") 2) with (Some C_for_each) by (vm_compute; reflexivity).
    cbv iota beta. rewrite G. reflexivity.
  - replace (find_function (lit "fn:filter") 2) with (Some C_filter) by (vm_compute; reflexivity).
    cbv iota beta. rewrite G. reflexivity.
Qed.
(* name#n and partial calls cannot be called with $f(...): only inline functions, maps and arrays can *)
Theorem C75_dynamic_call_refuted : forall h c F xs e fx e1 vs e2, outcome h c F e (Ok ([XIFun fx], e1)) ->
  x_type fx <> X_InlineFunction -> evaluated h c xs e1 vs e2 -> outcome h c (call_with F xs) e (Err CantOccur).
Proof.
  intros h c F xs e fx e1 vs e2 HF T E. destruct (outcome_eval _ _ _ _ _ HF) as [n N].
  destruct (dyn_args _ _ _ _ _ _ E) as [k K]. apply eval_outcome with (n := S (Nat.max n k)); [|discriminate]. rewrite eval_S.
  unfold eval_step, call_with. cbn [x_type x_left x_right]. rewrite N by lia. cbn [bind].
  unfold apply_argument. cbn [x_left]. rewrite K by lia. cbn [bind].
  destruct (xtype_eqb (x_type fx) X_InlineFunction) eqn:EQ; [apply xtype_eqb_eq in EQ; contradiction|]. reflexivity.
Qed.
Example C75_example :
  parsed "string-length#1" = function_ref (lit "fn:string-length") (lit "1") /\
  parsed "concat('a', ?, 'b')" = partial_call (lit "fn:concat") [Some (parsed "'a'"); None; Some (parsed "'b'")] /\
  parsed "for-each(('x', 'yz'), string-length#1)" =
    fn_call (lit "fn:for-each") [parsed "('x', 'yz')"; parsed "string-length#1"] /\
  applied [] [] (parsed "string-length#1") [[XIString (lit "yz")]] new_eval_env (Ok [XIInteger 2]) /\
  applied [] [] (parsed "concat('a', ?, 'b')") [[XIString (lit "x")]] new_eval_env (Ok [XIString (lit "axb")]) /\
  applied [] [] (parsed "function($a) { $a + 1 }") [[XIInteger 4]] new_eval_env (Ok [XIInteger 5]) /\
  xpath_gives [] 0 (lit "for-each(('x', 'yz'), concat('a', ?, 'b'))") (Ok [XIString (lit "axb"); XIString (lit "ayzb")]) /\
  xpath_gives [] 0 (lit "filter(1 to 5, function($a) { $a > 3 })") (Ok [XIInteger 4; XIInteger 5]) /\
  xpath_gives [] 0 (lit "let $f := count#1 return $f(1)") (Err CantOccur).
Proof.
  split; [vm_compute; reflexivity|]. split; [vm_compute; reflexivity|]. split; [vm_compute; reflexivity|].
  assert (NI : forall n, existsb (str_eqb n) contextual = false -> ~ In n contextual).
  { intros n X I. assert (existsb (str_eqb n) contextual = true); [|congruence].
    apply existsb_exists. exists n. split; [exact I|apply str_eqb_refl]. }
  assert (NH : forall n, existsb (N.eqb 35) n = false -> ~ In 35%N n).
  { intros n X I. assert (existsb (N.eqb 35) n = true); [|congruence]. apply existsb_exists. exists 35%N. auto. }
  split; [|split; [|split]].
  - change (parsed "string-length#1") with (function_ref (lit "fn:string-length") (lit "1")).
    apply ap_ref; [apply NI; vm_compute; reflexivity|apply NH; vm_compute; reflexivity|apply NH; vm_compute; reflexivity|vm_compute; reflexivity|].
    fnv; vm_compute; reflexivity.
  - replace (parsed "concat('a', ?, 'b')") with (partial_call (lit "fn:concat") [Some (parsed "'a'"); None; Some (parsed "'b'")])
      by (vm_compute; reflexivity).
    eapply ap_partial with (ws := [[XIString (lit "a")]; [XIString (lit "x")]; [XIString (lit "b")]]).
    + apply NI; vm_compute; reflexivity.
    + eapply fi_expr; [split; [discriminate|]; exists 5; vm_compute; reflexivity|]. apply fi_hole.
      eapply fi_expr; [split; [discriminate|]; exists 5; vm_compute; reflexivity|]. apply fi_nil.
    + fnv; vm_compute; reflexivity.
  - change (Ok [XIInteger 5]) with (do (v, _) <- Ok ([XIInteger 5], mkEnv 0 0 [(lit "a", [XIInteger 4])]); Ok v).
    replace (parsed "function($a) { $a + 1 }") with
      (inline_function (lit "(inline function)") [(lit "a", default_sequence_type)] default_sequence_type (parsed "$a + 1"))
      by (vm_compute; reflexivity).
    apply ap_inline.
    + reflexivity.
    + constructor; [|constructor]. apply type_test_iff; [discriminate|]. vm_compute. reflexivity.
    + vm_compute. repeat split; discriminate.
    + split; [discriminate|]. exists 10. vm_compute. reflexivity.
  - repeat split; try discriminate; exists 20; vm_compute; reflexivity.
Qed.

(* ------------------------------------------------------------------ C76 *)
(* the tests the grammar can write, except document-node(...): a question mark only at the end of a type *)
Definition element_or_other (k : kindtest) : Prop :=
  match k with
  | K_document _ => False
  | K_element _ T => exists U, ~ In 63%N U /\ (T = U \/ T = U ++ lit "?")
  | _ => True
  end.
Lemma trim_no_q : forall s, ends_with_q s = false -> trim_q s = s.
Proof.
  intros s H. unfold trim_q, ends_with_q in *. rewrite <- (rev_involutive s) at 2. f_equal.
  destruct (rev s) as [|c r]; [reflexivity|]. cbn [drop_q]. rewrite H. reflexivity.
Qed.
Lemma no_q_ends : forall s, ~ In 63%N s -> ends_with_q s = false.
Proof.
  intros s H. unfold ends_with_q. destruct (rev s) as [|c r] eqn:E; [reflexivity|]. apply N.eqb_neq. intro X. subst c.
  apply H. apply in_rev. rewrite E. left. reflexivity.
Qed.
Lemma q_ends : forall s, ends_with_q (s ++ lit "?") = true.
Proof. intro s. unfold ends_with_q. rewrite rev_app_distr. reflexivity. Qed.
Lemma trim_q_q : forall s, ~ In 63%N s -> trim_q (s ++ lit "?") = s.
Proof.
  intros s H. apply no_q_ends in H. apply trim_no_q in H. rewrite <- H at 2. unfold trim_q. rewrite rev_app_distr. reflexivity.
Qed.
Lemma name_or_any_iff : forall n m, negb (str_eqb n (lit "*")) && negb (str_eqb n m) = false <-> name_or_any n m.
Proof.
  intros n m. unfold name_or_any. rewrite andb_false_iff, !negb_false_iff, !str_eqb_eq. reflexivity.
Qed.
Lemma kind_test_spec : forall h i k, element_or_other k -> (match_kind_test h i (kind_tree k) = true <-> kind_matches h i k).
Proof.
  intros h i k W. destruct k as [t|n T|n T|n| | | | |n|n].
  - destruct W.
  - destruct W as [U [NQ TU]]. unfold match_kind_test, kind_tree. cbn [x_left x_type x_name].
    destruct (node_type_eqb (n_type (Dom.get h i)) Element) eqn:E; cbn [negb].
    2: { split; [discriminate|]. intro M. assert (n_type (Dom.get h i) = Element) as X by (inversion M; auto).
         rewrite X in E. discriminate E. }
    apply node_type_eqb_eq in E.
    destruct (negb (str_eqb n (lit "*")) && negb (str_eqb n (n_name (Dom.get h i)))) eqn:NM.
    { split; [discriminate|]. intro M. assert (name_or_any n (n_name (Dom.get h i))) as X by (inversion M; auto).
      apply name_or_any_iff in X. congruence. }
    apply name_or_any_iff in NM. destruct TU as [-> | ->].
    + rewrite (trim_no_q U), (no_q_ends U) by (try apply no_q_ends; exact NQ).
      assert (SP : kind_matches h i (K_element n U) <-> derives (lit "xs:untyped") U /\ ~ is_nilled h i).
      { split; [|intros [A B]; apply km_element; auto]. intro M.
        inversion M as [| |? ? ? _ _ DD NN|? ? T0 _ _ DD HT| | | | |]; subst; auto.
        destruct NQ. apply in_or_app. right. left. reflexivity. }
      rewrite SP. destruct (derives_from (lit "xs:untyped") U) eqn:D; cbn [negb].
      * apply derives_from_derives in D. unfold is_nilled. destruct (attribute_value h i (lit "xsi:nil")) as [p|].
        -- rewrite negb_true_iff. split.
           ++ intro NE. split; auto. intro X. injection X as ->. rewrite str_eqb_refl in NE. discriminate.
           ++ intros [_ NN]. apply not_true_is_false. intro X. apply str_eqb_eq in X. congruence.
        -- split; [intros _|reflexivity]. split; [exact D|discriminate].
      * split; [discriminate|]. intros [X _]. apply derives_from_derives in X. congruence.
    + rewrite (trim_q_q U), q_ends by exact NQ.
      assert (SP : kind_matches h i (K_element n (U ++ lit "?")) <-> derives (lit "xs:untyped") U).
      { split; [|intro A; apply km_element_nillable; auto]. intro M.
        remember (K_element n (U ++ lit "?")) as kk eqn:KE.
        destruct M as [| |j n0 T0 _ _ DD NN|j n0 T0 _ _ DD| | | | |]; try discriminate KE; injection KE as -> HT.
        - subst T0.
          assert (X : forall a b, derives a b -> ends_with_q a = false -> ends_with_q b = false).
          { clear. intros a b H. induction H as [|a b c D H IH]; auto. intros _. apply IH. destruct D; reflexivity. }
          apply X in DD; [|reflexivity]. rewrite q_ends in DD. discriminate.
        - change (T0 ++ lit "?" = U ++ lit "?") in HT. apply app_inv_tail in HT. subst. exact DD. }
      rewrite SP, <- derives_from_derives. destruct (derives_from (lit "xs:untyped") U); cbn [negb]; split; congruence.
  - unfold match_kind_test, kind_tree. cbn [x_left x_type x_name].
    assert (SP : kind_matches h i (K_attribute n T) <-> n_type (Dom.get h i) = Attribute /\
      name_or_any n (n_name (Dom.get h i)) /\ derives (lit "xs:untypedAtomic") T).
    { split; [intro M; inversion M; auto|intros [A [B C]]; apply km_attribute; auto]. }
    rewrite SP, <- name_or_any_iff, <- derives_from_derives, <- node_type_eqb_eq.
    destruct (node_type_eqb (n_type (Dom.get h i)) Attribute); cbn [negb]; [|split; [discriminate|intros [X _]; discriminate]].
    destruct (negb (str_eqb n (lit "*")) && negb (str_eqb n (n_name (Dom.get h i)))); [split; [discriminate|intros [_ [X _]]; discriminate]|].
    split; [auto|]. intros [_ [_ X]]. exact X.
  - unfold match_kind_test, kind_tree. cbn [x_left x_type x_name]. rewrite andb_true_iff, orb_true_iff, !str_eqb_eq, node_type_eqb_eq.
    split; [intros [A B]; apply km_pi; auto|intro M; inversion M; auto].
  - unfold match_kind_test, kind_tree. cbn [x_left x_type]. rewrite node_type_eqb_eq. split; [apply km_comment|intro M; inversion M; auto].
  - unfold match_kind_test, kind_tree. cbn [x_left x_type]. rewrite node_type_eqb_eq. split; [apply km_text|intro M; inversion M; auto].
  - split; [discriminate|intro M; inversion M].
  - split; [intros _; apply km_node|reflexivity].
  - split; [discriminate|intro M; inversion M].
  - split; [discriminate|intro M; inversion M].
Qed.
(* axis::kindtest gives, in document order, the nodes on the axis that the test accepts *)
Theorem C76_kind_test_partial : forall h n order ax nm k e, session h -> attached h 0 n -> n_type (Dom.get h n) <> Attribute ->
  node_order h 0 order -> In ax axis_types -> ax <> X_AxisAttribute -> element_or_other k ->
  exists l, outcome h [XINode n] (step ax nm (kind_tree k) XNil) e (Ok (seq_of_nodes l, e)) /\
    exactly order (fun x => on_axis h order ax x n /\ kind_matches h x k) l.
Proof.
  intros h n order ax nm k e S A T O AX NA W.
  destruct (axis_exactly h n order ax (step ax nm (kind_tree k) XNil) (fun x => kind_matches h x k) S A T O AX NA eq_refl) as [l [E X]].
  - intro j. unfold match_node_test, step. cbn [x_left]. replace (is_nil (kind_tree k)) with false by reflexivity.
    apply kind_test_spec. exact W.
  - exists l. split; [|exact X].
    assert (G : gives h [XINode n] (step ax nm (kind_tree k) XNil) e (seq_of_nodes l)) by (apply step_nodes; eauto).
    apply gives_outcome; auto. unfold step, scoped. fold scoped.
    assert (calls_items ax nm = false /\ ax <> X_SomeVarBind /\ ax <> X_EveryVarBind) as [A1 [A2 A3]].
    { unfold axis_types in AX. repeat (destruct AX as [<-|AX]; [split; [reflexivity|split; discriminate]|]). destruct AX. }
    split; [exact A1|]. split; [exact A2|]. split; [exact A3|]. split; [|exact I].
    destruct k as [[[? ?]|]|?|?|?| | | | |?|?]; cbn [kind_tree]; cbn; repeat split; discriminate.
Qed.
Theorem C76_attribute_axis : forall h n nm k e, element_or_other k ->
  exists l, outcome h [XINode n] (step X_AxisAttribute nm (kind_tree k) XNil) e (Ok (seq_of_nodes l, e)) /\
    exactly (attributes h n) (fun x => In x (attributes h n) /\ kind_matches h x k) l.
Proof.
  intros h n nm k e W. exists (along h (step X_AxisAttribute nm (kind_tree k) XNil) (attributes h n)). split.
  - split; [discriminate|]. exists 1. cbn [eval]. unfold eval_step, step. cbn [x_type].
    unfold match_location_path. cbn [to_nodeset flat_map app loc_path_loop]. unfold match_loc_step, axis_nodes.
    cbn [x_type x_right is_nil bind]. rewrite to_nodeset_of, app_nil_r. reflexivity.
  - unfold along. apply exactly_filter.
    + split; [tauto|]. apply SS_before_self.
    + intro x. unfold match_node_test, step. cbn [x_left]. replace (is_nil (kind_tree k)) with false by reflexivity.
      apply kind_test_spec. exact W.
Qed.
(* `instance of` uses the same tests *)
Theorem C76_instance_of : forall h i k, element_or_other k -> exists b, item_test h (XINode i) (kind_tree k) b /\
  (b = true <-> kind_matches h i k).
Proof.
  intros h i k W. exists (match_kind_test h i (kind_tree k)). split; [|apply kind_test_spec; exact W].
  exists (mkEnv 0 0 [(lit "x", [XINode i])]). apply eval_outcome with (n := 2); [|discriminate].
  rewrite eval_S. unfold eval_step, instance_of. cbn [x_type x_left x_right].
  assert (V : eval h 1 [] (XNode X_VarRef (lit "x") XNil XNil) (mkEnv 0 0 [(lit "x", [XINode i])]) =
    Ok ([XINode i], mkEnv 0 0 [(lit "x", [XINode i])])) by reflexivity.
  rewrite V. cbn [bind].
  assert (M : match_sequence_type h [XINode i] (XNode X_SequenceType [] (kind_tree k) XNil) = Ok (match_kind_test h i (kind_tree k))).
  { unfold match_sequence_type. cbn. rewrite andb_true_r. destruct k; reflexivity. }
  rewrite M. reflexivity.
Qed.
(* document-node() accepts nothing, and the axis namespace:: is an error *)
Theorem C76_document_refuted : forall h i t, match_kind_test h i (kind_tree (K_document t)) = false.
Proof. intros h i [[n T]|]; reflexivity. Qed.
Theorem C76_namespace_axis : compile_xpath (lit "namespace::a") = Err Unimplemented.
Proof. vm_compute. reflexivity. Qed.
Theorem C76_document_node_refuted : exists h, session h /\
  xpath_gives h 0 (lit "count(self::document-node()), count(self::node())") (Ok [XIInteger 0; XIInteger 1]) /\
  xpath_gives h 0 (lit "/ instance of document-node()") (Ok [XIBoolean false]) /\
  kind_matches h 0 (K_document None).
Proof.
  destruct (new_document (lit "<r/>")) as [h| | |] eqn:E; try (vm_compute in E; discriminate).
  exists h. split; [eapply ses_parse; exact E|]. vm_compute in E. injection E as <-.
  split; [split; [discriminate|exists 20; vm_compute; reflexivity]|].
  split; [split; [discriminate|exists 20; vm_compute; reflexivity]|]. apply km_document. reflexivity.
Qed.
Example C76_example : exists h, session h /\
  parsed "child::element(a, xs:untyped)" = step X_AxisChild [] (kind_tree (K_element (lit "a") (lit "xs:untyped"))) XNil /\
  parsed "child::element()" = step X_AxisChild [] (kind_tree (K_element (lit "*") (lit "xs:anyType?"))) XNil /\
  parsed "attribute::attribute(k)" = step X_AxisAttribute [] (kind_tree (K_attribute (lit "k") (lit "xs:anyType"))) XNil /\
  parsed "child::processing-instruction('p')" = step X_AxisChild [] (kind_tree (K_pi (lit "p"))) XNil /\
  parsed "child::text()" = step X_AxisChild [] (kind_tree K_text) XNil /\
  xpath_gives h 0 (lit "/r/(count(element()), count(element(a)), count(element(*, xs:untyped)), count(comment()), count(processing-instruction()), count(processing-instruction(p)), count(text()), count(@attribute(k)))")
    (Ok (map XIInteger [3; 2; 2; 1; 2; 1; 1; 1]%Z)).
Proof.
  destruct (new_document (lit "<r k='v' l='w'><a/><a xsi:nil='true'/><b/><!--c--><?p x?><?q y?>t</r>")) as [h| | |] eqn:E; try (vm_compute in E; discriminate).
  exists h. split; [eapply ses_parse; exact E|]. vm_compute in E. injection E as <-.
  do 5 (split; [vm_compute; reflexivity|]).
  split; [discriminate|exists 40; vm_compute; reflexivity].
Qed.

(* C81: `instance of` for structured types. *)
Require Import Ascii String Bool List NArith ZArith Lia.
From Verif Require Import Str StrFacts Sax Dom Lexer Parser FuncTable Num Item Func Types Eval EvalFacts PropEval SpecOper ItemFacts PropOper SpecTypes TypeFacts PropTypes
  SpecExpr PropFunc2 SpecItem PropItem SpecSub PropSub SpecInst.
Import List ListNotations.
Open Scope nat_scope.

(* ---- functions ---- *)
Definition declared_tree (p : str * ty * list ty) : res (option xnode) :=
  match signature_of (named (fst (fst p))) with
  | Ok (Some t) => Ok (Some (x_right t))
  | o => o
  end.
Lemma declared_trees : map declared_tree declared =
  map (fun p => Ok (Some (XNode X_ReturnType [] (tree (snd (fst p))) (param_chain (map tree (snd p)))))) declared.
Proof. vm_compute. reflexivity. Qed.
Lemma declared_ok n r ps : In (n, r, ps) declared ->
  exists t, signature_of (named n) = Ok (Some t) /\ lefts (x_right t) = tree r :: map tree ps.
Proof.
  intro I. assert (E : declared_tree (n, r, ps) = Ok (Some (XNode X_ReturnType [] (tree r) (param_chain (map tree ps))))).
  { assert (G := declared_trees). revert I G. generalize declared as l. induction l as [|a l IH]; intros I G; [destruct I|].
    cbn [map] in G. injection G as G1 G2. destruct I as [->|I]; [exact G1|]. apply IH; auto. }
  unfold declared_tree in E. cbn [fst] in E. destruct (signature_of (named n)) as [[t|]| | |]; try discriminate E.
  exists t. split; auto. injection E as E. rewrite E. cbn [lefts]. rewrite lefts_chain. reflexivity.
Qed.
Lemma declared_allowed : forallb (fun p => allowed true false (snd (fst p)) && forallb (allowed true false) (snd p)) declared = true.
Proof. vm_compute. reflexivity. Qed.
Lemma table_names : map fst func_signature_tbl = map (fun p => fst (fst p)) declared ++ undeclared_here \/
  forall n, In n (map fst func_signature_tbl) -> In n (map (fun p => fst (fst p)) declared) \/ In n undeclared_here.
Proof.
  right. assert (G : forallb (fun n => existsb (str_eqb n) (map (fun p => fst (fst p)) declared ++ undeclared_here)) (map fst func_signature_tbl) = true)
    by (vm_compute; reflexivity).
  rewrite forallb_forall in G. intros n I. apply G in I. apply existsb_exists in I. destruct I as (m & I & E). apply str_eqb_eq in E. subst m.
  apply in_app_or in I. exact I.
Qed.
Lemma no_signature n : ~ In n undeclared_here -> (exists r ps, In (n, r, ps) declared) \/ signature_of (named n) = Ok None.
Proof.
  intro U. destruct (in_dec (list_eq_dec N.eq_dec) n (map fst func_signature_tbl)) as [I|I].
  - left. destruct table_names as [T|T].
    + rewrite T in I. apply in_app_or in I. destruct I as [I|I]; [|tauto]. apply in_map_iff in I. destruct I as ([[m r] ps] & <- & I). eauto.
    + destruct (T n I) as [J|J]; [|tauto]. apply in_map_iff in J. destruct J as ([[m r] ps] & <- & J). eauto.
  - right. unfold signature_of, named. cbn [x_type x_name]. replace (get_function_signature n) with ([] : str); [reflexivity|].
    unfold get_function_signature. revert I. generalize func_signature_tbl as l. induction l as [|[m s] l IH]; intro I; [reflexivity|].
    cbn [signature_lookup]. destruct (str_eqb m n) eqn:E; [|apply IH; intro; apply I; right; auto].
    apply str_eqb_eq in E. subst. exfalso. apply I. left. reflexivity.
Qed.
Lemma occ_text_inj c d : occ_text c = occ_text d -> c = d.
Proof. destruct c, d; try reflexivity; intro E; vm_compute in E; discriminate E. Qed.
Lemma tree_inj_n : forall n A B, xsize (tree A) < n -> tree A = tree B -> A = B.
Proof.
  induction n as [|n IH]; intros A B L E; [lia|].
  assert (IL : forall ps ps', (forall p, In p ps -> xsize (tree p) < n) -> map tree ps = map tree ps' -> ps = ps').
  { induction ps as [|p ps IHp]; intros [|p' ps'] S Q; try discriminate Q; auto. cbn [map] in Q. injection Q as Q1 Q2. f_equal.
    - apply IH; auto. apply S. left. reflexivity.
    - apply IHp; auto. intros; apply S; right; auto. }
  destruct A as [|i c], B as [|j d]; auto.
  - cbn [tree] in E. injection E as _ E. destruct j; discriminate E.
  - cbn [tree] in E. injection E as _ E. destruct i; discriminate E.
  - rewrite tree_size in L. cbn [tree] in E. injection E as E1 E2. apply occ_text_inj in E1. subst d. f_equal.
    destruct i as [n1| | | | | | |r ps|k w|w], j as [n2| | | | | | |r' ps'|k' w'|w']; try reflexivity; try discriminate E2; cbn [itree leaf] in E2.
    + injection E2 as E2. congruence.
    + injection E2 as E3 E4. f_equal; [apply IH; auto; cbn [itree xsize] in L; lia|]. apply IL; [|rewrite <- (lefts_chain (map tree ps)), E4; apply lefts_chain].
      intros p I. apply (in_map tree) in I. apply chain_size in I. cbn [itree xsize] in L. lia.
    + injection E2 as E3 E4. f_equal; auto. apply IH; auto. cbn [itree xsize leaf] in L. lia.
    + injection E2 as E3. f_equal; auto. apply IH; auto. cbn [itree xsize] in L. lia.
Qed.
Lemma tree_inj A B : tree A = tree B -> A = B.
Proof. apply (tree_inj_n (S (xsize (tree A)))). lia. Qed.
Lemma inline_inj ps r b ps' r' b' : inline ps r b = inline ps' r' b' -> r = r' /\ map snd ps = map snd ps'.
Proof.
  unfold inline. intro E. injection E as _ E1 E2. apply tree_inj in E1. split; auto. apply (f_equal lefts) in E2. rewrite !inline_types in E2.
  revert E2. generalize (map snd ps) (map snd ps'). clear. intros l. induction l as [|a l IH]; intros [|b m] E; try discriminate E; auto.
  cbn [map] in E. injection E as E1 E2. apply tree_inj in E1. subst. f_equal. auto.
Qed.
Fixpoint distinctb (l : list str) : bool := match l with [] => true | a :: l' => negb (existsb (str_eqb a) l') && distinctb l' end.
Lemma declared_once n r ps r' ps' : In (n, r, ps) declared -> In (n, r', ps') declared -> r = r' /\ ps = ps'.
Proof.
  assert (G : distinctb (map (fun p => fst (fst p)) declared) = true) by (vm_compute; reflexivity).
  revert G. generalize declared as l. induction l as [|[[m q] qs] l IH]; intros G I J; [destruct I|]. cbn [map distinctb fst] in G.
  apply andb_prop in G. destruct G as [G1 G2].
  assert (N : forall a b, In (m, a, b) l -> False).
  { intros a b K. apply negb_true_iff in G1. rewrite <- not_true_iff_false in G1. apply G1. apply existsb_exists. exists m. split; [|apply str_eqb_refl].
    apply in_map_iff. exists (m, a, b). auto. }
  destruct I as [I|I], J as [J|J]; [|injection I as -> -> ->; destruct (N _ _ J)|injection J as -> -> ->; destruct (N _ _ I)|auto].
  injection I as -> -> ->. injection J as -> ->. auto.
Qed.
Lemma typed_decides x r ps : considered (TOf (JTyped r ps) C_one) = true -> (exists h, plain h (XIFun x)) ->
  decides (do o <- signature_of x; match o with None => Ok false | Some sx => match_signature true (tree r :: map tree ps) (lefts (x_right sx)) end)
    (exists r0 ps0, signature x r0 ps0 /\ ity_sub (JTyped r0 ps0) (JTyped r ps)).
Proof.
  intros C [h P]. cbn [considered iconsidered] in C. apply andb_prop in C. destruct C as [C AP]. apply andb_prop in C. destruct C as [_ AR].
  assert (G : forall r0 ps0 t, allowed true false r0 = true -> forallb (allowed true false) ps0 = true ->
     lefts (x_right t) = tree r0 :: map tree ps0 -> signature x r0 ps0 -> (forall r1 ps1, signature x r1 ps1 -> r1 = r0 /\ ps1 = ps0) ->
     decides (match_signature true (tree r :: map tree ps) (lefts (x_right t)))
      (exists r0 ps0, signature x r0 ps0 /\ ity_sub (JTyped r0 ps0) (JTyped r ps))).
  { intros r0 ps0 t A0 P0 L S U. apply decides_iff with (P := ity_sub (JTyped r0 ps0) (JTyped r ps)).
    - rewrite L. cbn [match_signature]. destruct (subtype_spec true false eq_refl r0 r A0 AR) as (y & -> & Y). cbn [bind]. destruct y.
      + eapply decides_iff; [apply (signature_spec true false eq_refl ps ps0); auto|]. split; [intro; constructor; tauto|inversion 1; auto].
      + apply no. intro Q. inversion Q; subst. enough (false = true) by discriminate. tauto.
    - split; [eauto|]. intros (r1 & ps1 & S1 & Q). destruct (U _ _ S1) as [-> ->]. exact Q. }
  inversion P as [| ? ? T | | | qs r0 body A0 P0 | n U]; subst; [inversion T| |].
  - unfold inline at 1. cbn [signature_of x_type bind]. eapply (G r0 (map snd qs)); eauto.
    + cbn [x_right lefts]. f_equal. apply inline_types.
    + constructor.
    + intros r1 ps1 S. remember (inline qs r0 body) as z eqn:Z. destruct S as [ps2 r2 b2 | m r2 ps2 I]; [|discriminate Z].
      apply inline_inj in Z. destruct Z as [-> ->]. auto.
  - destruct (no_signature n U) as [(r0 & ps0 & I)|E].
    + destruct (declared_ok n r0 ps0 I) as (t & -> & L). cbn [bind]. assert (F := declared_allowed). rewrite forallb_forall in F. specialize (F _ I).
      cbn [fst snd] in F. apply andb_prop in F. eapply (G r0 ps0); eauto; try tauto. constructor; auto.
      intros r1 ps1 S. remember (named n) as z eqn:Z. destruct S as [ps2 r2 b2 | m r2 ps2 J]; [discriminate Z|].
      injection Z as ->. apply (declared_once n); auto.
    + rewrite E. cbn [bind]. apply no. intros (r0 & ps0 & S & _). remember (named n) as z eqn:Z. destruct S as [ps2 r2 b2 | m r2 ps2 I]; [discriminate Z|]. injection Z as ->.
      destruct (declared_ok _ _ _ I) as (t & E3 & _). congruence.
Qed.

(* ---- lists ---- *)
Lemma forall_res_decides {T} (f : T -> res bool) (P : T -> Prop) l : (forall a, In a l -> decides (f a) (P a)) ->
  decides (forall_res f l) (forall a, In a l -> P a).
Proof.
  induction l as [|a l IH]; intro H; cbn [forall_res]; [apply yes; intros a []|].
  destruct (H a (or_introl eq_refl)) as (x & -> & X). cbn [bind]. destruct x.
  - eapply decides_iff; [apply IH; intros; apply H; right; auto|]. split; [intros G b [<-|I]; auto; tauto|intros G b I; apply G; right; auto].
  - apply no. intro G. enough (false = true) by discriminate. apply X, G. left. reflexivity.
Qed.
Lemma forallb_decides {T} (f : T -> bool) (P : T -> Prop) l : (forall a, In a l -> (f a = true <-> P a)) ->
  decides (Ok (forallb f l)) (forall a, In a l -> P a).
Proof. intro H. exists (forallb f l). split; auto. rewrite forallb_forall. split; intros G a I; apply H; auto. Qed.
Lemma structured_types t n : In t [lit "function(*)"; lit "map(*)"; lit "array(*)"; lit "node"] -> derives t n -> n = t.
Proof.
  intros I D. destruct D as [|? q ? D]; auto. exfalso.
  destruct I as [<- | [<- | [<- | [<- | []]]]]; match type of D with derived ?x _ => remember x as z eqn:Z end; destruct D; vm_compute in Z; discriminate Z.
Qed.
Lemma atomic_type it n : atomic_name n = true -> derives_from (xs_type it) n = true <-> exists t, has_type it t /\ derives t n.
Proof.
  intro A. rewrite derives_from_derives.
  assert (S : forall t, In t [lit "function(*)"; lit "map(*)"; lit "array(*)"; lit "node"] -> derives t n -> False).
  { intros t I D. rewrite (structured_types t n I D) in A. destruct I as [<- | [<- | [<- | [<- | []]]]]; vm_compute in A; discriminate A. }
  split.
  - intro D. destruct it; cbn [xs_type] in D; try (exfalso; eapply S; [|exact D]; cbn; tauto); eexists; split; try constructor; exact D.
  - intros (t & T & D). destruct T; exact D.
Qed.
Lemma keyed_in h m key v : keyed h m -> In (key, v) m -> xmap_get h m key = Some v.
Proof.
  intros K I. assert (G := keyed_get h m K). revert I G. generalize (xmap_get h m) as g. unfold xmap_keys. clear K. induction m as [|[k w] m IH]; intros g I G; [destruct I|].
  cbn [map fst snd] in G. injection G as G1 G2. destruct I as [I|I]; [injection I as -> ->; exact G1|]. eapply IH; eauto.
Qed.
Section Inst.
  Variable h : heap.
  Variable mst : list xitem -> xnode -> res bool.
  Lemma array_decides a w : (forall v, In v a -> decides (mst v (tree w)) (value_of h w v)) ->
    decides (match_array_sequence_type h mst a (tree w)) (forall v, In v a -> value_of h w v).
  Proof.
    intro H. unfold match_array_sequence_type.
    eapply decides_iff; [apply forall_res_decides with (P := fun k => forall v, nth_error a (k - 1) = Some v -> value_of h w v)|].
    - intros k I. apply in_seq in I.
      assert (E : xarray_get h a (XIInteger (Z.of_nat k)) = nth_error a (k - 1)).
      { unfold xarray_get. cbn [get_as_raw_integer]. replace (1 <=? Z.of_nat k)%Z with true by lia.
        replace (Z.of_nat k <=? Z.of_nat (List.length a))%Z with true by lia. cbn [andb]. f_equal. lia. }
      rewrite E. destruct (nth_error a (k - 1)) as [v|] eqn:N.
      + eapply decides_iff; [apply H; eapply nth_error_In; eauto|]. split; [intros G u [= <-]; exact G|intro G; apply G; auto].
      + apply nth_error_None in N. lia.
    - split.
      + intros G v I. apply In_nth_error in I. destruct I as [k I]. apply (G (S k)); [|replace (S k - 1) with k by lia; exact I].
        apply in_seq. assert (k < List.length a) by (apply nth_error_Some; congruence). lia.
      + intros G k _ v N. apply G. eapply nth_error_In; eauto.
  Qed.
  Lemma map_decides m (K : xitem -> Prop) kt w : keyed h m ->
    (forall key v, In (key, v) m -> (derives_from (xs_type key) kt = true <-> K key)) ->
    (forall key v, In (key, v) m -> decides (mst v (tree w)) (value_of h w v)) ->
    decides (match_map_sequence_type h mst m kt (tree w)) (forall key v, In (key, v) m -> K key /\ value_of h w v).
  Proof.
    intros KD KT H. unfold match_map_sequence_type, xmap_keys.
    eapply decides_iff; [apply forall_res_decides with (P := fun key => K key /\ forall v, In (key, v) m -> value_of h w v)|].
    - intros key I. apply in_map_iff in I. destruct I as ([key' v] & E & I). cbn [fst] in E. subst key'.
      rewrite (keyed_in h m key v KD I). destruct (derives_from (xs_type key) kt) eqn:D; cbn [negb].
      + eapply decides_iff; [eapply H; eauto|]. split.
        * intro G. split; [apply (KT key v I); auto|]. intros u J. assert (Q := keyed_in h m key u KD J). rewrite (keyed_in h m key v KD I) in Q. congruence.
        * intros [_ G]. auto.
      + apply no. intros [G _]. apply (KT key v I) in G. congruence.
    - split.
      + intros G key v I. destruct (G key) as [G1 G2]; auto. apply in_map_iff. exists (key, v). auto.
      + intros G key I. apply in_map_iff in I. destruct I as ([key' v] & E & I). cbn [fst] in E. subst key'. split; [eapply G; eauto|intros u J; eapply G; eauto].
  Qed.
End Inst.
Lemma occurence_decides v c : decides (match_occurence v (occ_text c)) (occurs (occ_text c) (List.length v)).
Proof. destruct (occurence_spec v (occ_text c)) as (b & E & B); [destruct c; cbn; tauto|]. exists b. auto. Qed.
Lemma text_kind h z (k : node_type) : node_type_eqb (n_type (Dom.get h z)) k = true <-> n_type (Dom.get h z) = k.
Proof. destruct (n_type (Dom.get h z)), k; cbn; split; intro; try reflexivity; try discriminate. Qed.
(* the types of the parameters of maps *)
Lemma param_name p key : considered p = true -> derives_from (xs_type key) (x_name (x_left (tree p))) = true <->
  exists n o t, p = TOf (JAtomic n) o /\ has_type key t /\ derives t n.
Proof.
  intro C. assert (E0 : derives_from (xs_type key) [] = true -> False) by (destruct key; vm_compute; discriminate).
  destruct p as [|i o]; [split; [intro E; destruct (E0 E)|intros (n & o & t & E & _); discriminate E]|].
  destruct i; try (split; [intro E; destruct (E0 E)|intros (n' & o' & t & E & _); discriminate E]).
  cbn [tree itree leaf x_left x_name]. cbn [considered iconsidered] in C. rewrite (atomic_type key n C). split.
  - intros (t & T & D). exists n, o, t. auto.
  - intros (n' & o' & t & E & T & D). injection E as -> ->. eauto.
Qed.
Lemma decides_all h : forall n A v, xsize (tree A) < n -> considered A = true -> (forall it, In it v -> plain h it) ->
  decides (mst_fuel h n v (tree A)) (value_of h A v).
Proof.
  induction n as [|n IH]; intros A v L C P; [lia|]. destruct A as [|i c].
  { cbn. exists (match v with [] => true | _ => false end). split; auto. destruct v; split; auto; discriminate. }
  rewrite mst_step. cbn [value_of]. destruct (occurence_decides v c) as (o & -> & O). cbn [bind]. destruct o; cbn [negb];
    [|apply no; intros [G _]; apply O in G; discriminate].
  apply decides_iff with (P := forall it, In it v -> item_of h i it); [|tauto]. clear O. rewrite tree_size in L. cbn [considered] in C.
  unfold one_item. destruct i as [a| | | | | | |r ps|k w|w]; cbn [itree leaf x_type item_of].
  - apply forallb_decides. intros it _. apply atomic_type. exact C.
  - apply forallb_decides. intros it _. destruct it; split; intros; try discriminate; auto. exfalso. eapply H. reflexivity.
  - apply forallb_decides. intros it _. destruct it as [| | |z| | | | |]; (split; [intro E; try discriminate E; eauto|intros (y & E); try discriminate E]). reflexivity.
  - apply forallb_decides. intros it _. destruct it as [| | |z| | | | |]; (split; [intro E; try discriminate E|intros (y & E & T); try discriminate E]).
    + exists z. split; auto. apply text_kind. exact E.
    + injection E as <-. apply text_kind in T. exact T.
  - apply forallb_decides. intros it _. destruct it as [| | |z| | | | |]; (split; [intro E; try discriminate E|intros (y & E & T); try discriminate E]).
    + exists z. split; auto. apply text_kind. exact E.
    + injection E as <-. apply text_kind in T. exact T.
  - apply forallb_decides. intros it _. destruct it as [| | |z| | | | |]; (split; [intro E; try discriminate E|intros (y & E & T); try discriminate E]).
    + exists z. split; auto. apply text_kind. cbn in E. rewrite andb_true_r in E. exact E.
    + injection E as <-. apply text_kind in T. cbn. rewrite andb_true_r. exact T.
  - apply forallb_decides. intros it I. destruct it as [x|m|a| | | | | |]; cbn [is_function_item]; try (split; [intro E; discriminate E|intros [[? E]|[[? E]|[? E]]]; discriminate E]); (split; [intros _; eauto|intros _; auto]).
    apply P in I. inversion I as [| ? ? T | | | |]; subst; [inversion T|reflexivity|reflexivity].
  - unfold match_sequence_typed_function_test. cbn [x_right lefts]. rewrite lefts_chain. cbn [iconsidered] in C.
    assert (CR : considered r = true /\ forallb considered ps = true) by (rewrite !andb_true_iff in C; tauto).
    cbn [itree xsize] in L.
    apply forall_res_decides. intros it I. destruct it as [x|m|a| | | | | |];
      try (apply no; intros [(? & ? & ? & E & _)|[(? & ? & E & _)|(? & E & _)]]; discriminate E).
    + eapply decides_iff; [apply (typed_decides x r ps); [exact C|exists h; auto]|]. split.
      * intros (r0 & ps0 & S & Q). left. exists x, r0, ps0. auto.
      * intros [(? & r0 & ps0 & E & S & Q)|[(? & ? & E & _)|(? & E & _)]]; try discriminate E. injection E as <-. eauto.
    + destruct ps as [|p [|p' ps]].
      * apply no. intros [(? & ? & ? & E & _)|[(? & ? & E & E' & _)|(? & E & _)]]; try discriminate E. discriminate E'.
      * apply P in I. inversion I as [| ? ? T | m' K PM | | |]; subst; [inversion T|]. cbn [map]. cbn [forallb] in CR. rewrite andb_true_r in CR.
        eapply decides_iff; [apply map_decides with (K := fun key => exists n o t, p = TOf (JAtomic n) o /\ has_type key t /\ derives t n); [exact K| |]|].
        -- intros key v' _. apply param_name. tauto.
        -- intros key v' J. apply IH; [lia|tauto|]. intros it J2. eapply PM; eauto.
        -- split; [intro G; right; left; exists m, p; auto|]. intros [(? & ? & ? & E & _)|[(? & ? & E & E' & G)|(? & E & _)]]; try discriminate E.
           injection E as <-. injection E' as <-. exact G.
      * apply no. intros [(? & ? & ? & E & _)|[(? & ? & E & E' & _)|(? & E & _)]]; try discriminate E. discriminate E'.
    + assert (N : forall Q : Prop, ~ Q -> decides (Ok false) ((exists x r0 ps0, XIArray a = XIFun x /\ signature x r0 ps0 /\ ity_sub (JTyped r0 ps0) (JTyped r ps)) \/
         (exists m p, XIArray a = XIMap m /\ ps = [p] /\ forall key v, In (key, v) m ->
            (exists n o t, p = TOf (JAtomic n) o /\ has_type key t /\ derives t n) /\ value_of h r v) \/ (exists b, XIArray a = XIArray b /\ Q)))
        by (intros Q NQ; apply no; intros [(? & ? & ? & E & _)|[(? & ? & E & _)|(? & E & G)]]; try discriminate E; auto).
      destruct ps as [|p [|p' ps]]; try (apply N; tauto). clear N.
      apply P in I. inversion I as [| ? ? T | | a' PA | |]; subst; [inversion T|]. cbn [map]. cbn [forallb] in CR. rewrite andb_true_r in CR.
      destruct (IH p [XIInteger 1]) as (b & -> & B); [cbn [map param_chain fold_right xsize] in L; lia|tauto|intros it [<-|[]]; eapply pl_atomic; constructor|].
      cbn [bind]. destruct b.
      * eapply decides_iff; [apply array_decides; intros v' J; apply IH; [lia|tauto|eauto]|]. split.
        -- intro G. right. right. exists a. split; auto. split; auto. apply B. reflexivity.
        -- intros [(? & ? & ? & E & _)|[(? & ? & E & _)|(? & E & _ & G)]]; try discriminate E. injection E as <-. exact G.
      * apply no. intros [(? & ? & ? & E & _)|[(? & ? & E & _)|(? & E & G & _)]]; try discriminate E. apply B in G. discriminate.
  - cbn [iconsidered] in C. apply andb_prop in C. cbn [itree leaf xsize] in L. apply forall_res_decides. intros it I. destruct it as [x|m|a| | | | | |];
      try (apply no; intros (? & E & _); discriminate E).
    apply P in I. inversion I as [| ? ? T | m' K PM | | |]; subst; [inversion T|]. cbn [x_left x_right leaf x_name].
    eapply decides_iff; [apply map_decides with (K := fun key => exists t, has_type key t /\ derives t k); [exact K| |]|].
    + intros key v' _. apply atomic_type. tauto.
    + intros key v' J. apply IH; [lia|tauto|]. intros it J2. eapply PM; eauto.
    + split; [intro G; exists m; auto|]. intros (? & E & G). injection E as <-. exact G.
  - cbn [iconsidered] in C. cbn [itree xsize] in L. apply forall_res_decides. intros it I. destruct it as [x|m|a| | | | | |];
      try (apply no; intros (? & E & _); discriminate E).
    apply P in I. inversion I as [| ? ? T | | a' PA | |]; subst; [inversion T|]. cbn [x_left].
    eapply decides_iff; [apply array_decides; intros v' J; apply IH; [lia|tauto|eauto]|].
    split; [intro G; exists a; auto|]. intros (? & E & G). injection E as <-. exact G.
Qed.
Lemma instance_of_outcome h v A b : match_sequence_type h v (tree A) = Ok b -> instance_gives h v A b.
Proof.
  intro E. set (e := mkEnv 0 0 [(lit "x", v)]). exists e.
  apply eval_outcome with (n := 2); [|discriminate]. rewrite eval_S. unfold eval_step. cbn [x_type x_left x_right].
  rewrite eval_S. unfold eval_step. cbn [x_type x_name bind]. transitivity (do b <- match_sequence_type h v (tree A); Ok (sing_bool b, e)); [reflexivity|].
  rewrite E. reflexivity.
Qed.
Theorem C81_instance_exact : forall h v A, considered A = true -> (forall it, In it v -> plain h it) ->
  exists b, instance_gives h v A b /\ (b = true <-> value_of h A v).
Proof.
  intros h v A C P. destruct (decides_all h (S (xsize (tree A))) A v) as (b & E & B); auto.
  exists b. split; auto. apply instance_of_outcome. exact E.
Qed.
(* every considered value has a type, and `instance of` never fails on it; the three structured readings, spelled out *)
Corollary C81_map : forall h m k w, keyed h m -> (forall key v it, In (key, v) m -> In it v -> plain h it) ->
  considered (one_of (JMap k w)) = true ->
  exists b, instance_gives h [XIMap m] (one_of (JMap k w)) b /\
    (b = true <-> forall key v, In (key, v) m -> (exists t, has_type key t /\ derives t k) /\ value_of h w v).
Proof.
  intros h m k w K P C. destruct (C81_instance_exact h [XIMap m] _ C) as (b & I & B).
  { intros it [<-|[]]. constructor; auto. }
  exists b. split; auto. rewrite B. cbn [one_of value_of item_of]. split.
  - intros [_ G]. destruct (G _ (or_introl eq_refl)) as (m' & E & G'). injection E as <-. exact G'.
  - intro G. split; [constructor|]. intros it [<-|[]]. exists m. auto.
Qed.
Corollary C81_array : forall h a w, (forall v it, In v a -> In it v -> plain h it) -> considered (one_of (JArray w)) = true ->
  exists b, instance_gives h [XIArray a] (one_of (JArray w)) b /\ (b = true <-> forall v, In v a -> value_of h w v).
Proof.
  intros h a w P C. destruct (C81_instance_exact h [XIArray a] _ C) as (b & I & B).
  { intros it [<-|[]]. constructor; auto. }
  exists b. split; auto. rewrite B. cbn [one_of value_of item_of]. split.
  - intros [_ G]. destruct (G _ (or_introl eq_refl)) as (m' & E & G'). injection E as <-. exact G'.
  - intro G. split; [constructor|]. intros it [<-|[]]. exists a. auto.
Qed.
(* a reference to a library function is a function of every type its declared one is a subtype of *)
Corollary C81_named : forall h n r ps r' ps', In (n, r, ps) declared -> considered (one_of (JTyped r' ps')) = true ->
  exists b, instance_gives h [XIFun (named n)] (one_of (JTyped r' ps')) b /\ (b = true <-> ity_sub (JTyped r ps) (JTyped r' ps')).
Proof.
  intros h n r ps r' ps' I C.
  assert (U : ~ In n undeclared_here).
  { assert (G : forallb (fun p => negb (existsb (str_eqb (fst (fst p))) undeclared_here)) declared = true) by (vm_compute; reflexivity).
    rewrite forallb_forall in G. apply G in I. cbn [fst] in I. intro J. apply negb_true_iff in I. rewrite <- not_true_iff_false in I. apply I.
    apply existsb_exists. exists n. split; auto. apply str_eqb_refl. }
  destruct (C81_instance_exact h [XIFun (named n)] _ C) as (b & G & B).
  { intros it [<-|[]]. apply pl_named. exact U. }
  exists b. split; auto. rewrite B. cbn [one_of value_of item_of]. split.
  - intros [_ H]. destruct (H _ (or_introl eq_refl)) as [(x & r0 & ps0 & E & S & Q)|[(? & ? & E & _)|(? & E & _)]]; try discriminate E.
    injection E as <-. remember (named n) as z eqn:Z. destruct S as [ps2 r2 b2 | m2 r2 ps2 J]; [discriminate Z|].
    injection Z as ->. destruct (declared_once n r ps r2 ps2 I J) as [-> ->]. exact Q.
  - intro Q. split; [constructor|]. intros it [<-|[]]. left. exists (named n), r, ps. split; auto. split; auto. constructor. exact I.
Qed.
Definition T1 : ty := one_of (JMap (lit "xs:string") (many_of (JArray (opt_of (JAtomic (lit "xs:decimal")))))).
Definition v1 : list xitem := [XIMap [(XIString (lit "a"), [XIArray [[XIInteger 1]; []]; XIArray []]); (XIString (lit "b"), [])]].
Example C81_example :
  considered T1 = true /\ (forall it, In it v1 -> plain [] it) /\ value_of [] T1 v1 /\ ~ value_of [] (one_of (JMap (lit "xs:string") (many_of (JArray (one_of (JAtomic (lit "xs:decimal"))))))) v1 /\
  eval_xpath 40 [] 0 (lit "map{'a' : ([1, ()], []), 'b' : ()} instance of map(xs:string, array(xs:decimal?)*)") = Ok [XIBoolean true] /\
  eval_xpath 40 [] 0 (lit "map{'a' : ([1, ()], []), 'b' : ()} instance of map(xs:string, array(xs:decimal)*)") = Ok [XIBoolean false] /\
  compile_xpath (lit "1 instance of map(xs:string, array(xs:decimal?)*)") = Ok (XNode X_OperatorInstanceOf [] (XNode X_IntegerLiteral (lit "1") XNil XNil) (tree T1)) /\
  eval_xpath 40 [] 0 (lit "[1, 2.5] instance of function(xs:integer) as xs:decimal") = Ok [XIBoolean true] /\
  eval_xpath 40 [] 0 (lit "[1, 2.5] instance of function(xs:string) as xs:decimal") = Ok [XIBoolean false] /\
  eval_xpath 40 [] 0 (lit "map{1 : 'a'} instance of function(xs:decimal) as xs:string") = Ok [XIBoolean true] /\
  eval_xpath 40 [] 0 (lit "count#1 instance of function(xs:integer*) as xs:decimal") = Ok [XIBoolean true] /\
  eval_xpath 40 [] 0 (lit "count#1 instance of function(item()*) as xs:string") = Ok [XIBoolean false] /\
  eval_xpath 40 [] 0 (lit "contains('a', ?) instance of function(*)") = Ok [XIBoolean true] /\
  compile_xpath (lit "count#1") = Ok (named (lit "fn:count#1")).
Proof.
  split; [vm_compute; reflexivity|]. split.
  { intros it [<-|[]]. apply pl_map.
    - exists [lit "a"; lit "b"]. split.
      + constructor; [intros [E|[]]; vm_compute in E; discriminate E|constructor; [intros []|constructor]].
      + constructor; [|constructor; [|constructor]]; apply string_form_raw; reflexivity.
    - intros key v it [E|[E|[]]] J; injection E as <- <-; [|destruct J]. destruct J as [<- | [<- | []]]; apply pl_array.
      + intros v it [<- | [<- | []]] J; [|destruct J]. destruct J as [<-|[]]. eapply pl_atomic. constructor.
      + intros v it []. }
  assert (ID : derives (lit "xs:integer") (lit "xs:decimal")) by (eapply dv_step; constructor).
  split.
  { cbn [T1 one_of many_of opt_of value_of item_of]. split; [constructor|]. intros it [<-|[]]. eexists. split; [reflexivity|].
    intros key v [E|[E|[]]]; injection E as <- <-; (split; [eexists; split; constructor|]); (split; [constructor|]).
    - intros it [<- | [<- | []]]; (eexists; split; [reflexivity|]).
      + intros v [<- | [<- | []]]; (split; [constructor|]).
        * intros it [<-|[]]. eexists. split; [constructor|exact ID].
        * intros it [].
      + intros v [].
    - intros it []. }
  split.
  { cbn [one_of many_of opt_of value_of item_of]. intros [_ G]. destruct (G _ (or_introl eq_refl)) as (m & E & H). injection E as <-.
    destruct (H _ _ (or_introl eq_refl)) as [_ [_ H2]]. destruct (H2 _ (or_introl eq_refl)) as (a & E & H3). injection E as <-.
    destruct (H3 [] (or_intror (or_introl eq_refl))) as [O _]. inversion O. }
  repeat split; vm_compute; reflexivity.
Qed.
(* partially applied functions are functions too *)
Theorem C81_any_function : forall h v c,
  (forall it, In it v -> plain h it \/ exists name xs, it = XIFun (partial_call name xs)) ->
  exists b, instance_gives h v (TOf JFunction c) b /\ (b = true <-> value_of h (TOf JFunction c) v).
Proof.
  intros h v c P.
  assert (G : forall it, In it v -> is_function_item it = true <-> item_of h JFunction it).
  { intros it I. cbn [item_of]. destruct (P it I) as [Q|(name & xs & ->)]; [|split; [eauto|reflexivity]].
    inversion Q as [z|i t T|m K M|a A|ps r body A B|n U]; subst; cbn [is_function_item]; unfold inline, named; cbn [x_type]; try (split; eauto; fail).
    - split; [discriminate|]. intros [[? E]|[[? E]|[? E]]]; discriminate E.
    - inversion T; subst; cbn [is_function_item]; (split; [discriminate|]); intros [[? E]|[[? E]|[? E]]]; discriminate E. }
  assert (D : decides (match_sequence_type h v (tree (TOf JFunction c))) (value_of h (TOf JFunction c) v)).
  { cbn. destruct (occurence_decides v c) as (b & -> & B). cbn [bind]. destruct b; cbn [negb]; [|apply no; intros [X _]; apply B in X; discriminate].
    apply decides_iff with (P := forall it, In it v -> item_of h JFunction it).
    - apply forallb_decides. exact G.
    - cbn [item_of]. tauto. }
  destruct D as (b & E & B). exists b. split; auto. apply instance_of_outcome. exact E.
Qed.
(* Where the implementation departs from XPath 3.1 (section 2.5.6.2, rules 2, 31 and 35): functions are items; a map is a function(xs:anyAtomicType) as V?,
   so it takes keys it does not have and its result may be empty; an array is a function(xs:integer) as V, so it is no function of decimals;
   the type of contains('a', ?) is function(xs:string?) as xs:boolean, and abs(?) takes one argument: it is no function without arguments. *)
Theorem C81_functions_refuted :
  ~ (forall h i o, xpath_gives h i (lit "function($x) { $x } instance of item()") o -> o = Ok [XIBoolean true]) /\
  ~ (forall h i o, xpath_gives h i (lit "map{'a' : 1} instance of function(xs:integer) as xs:integer?") o -> o = Ok [XIBoolean true]) /\
  ~ (forall h i o, xpath_gives h i (lit "map{1 : 2} instance of function(xs:integer) as xs:integer") o -> o = Ok [XIBoolean false]) /\
  ~ (forall h i o, xpath_gives h i (lit "[1] instance of function(xs:decimal) as xs:integer") o -> o = Ok [XIBoolean false]) /\
  ~ (forall h i o, xpath_gives h i (lit "contains('a', ?) instance of function(xs:string?) as xs:boolean") o -> o = Ok [XIBoolean true]) /\
  ~ (forall h i o, xpath_gives h i (lit "abs(?) instance of function() as item()") o -> o = Ok [XIBoolean false]) /\
  ~ (forall h i o, xpath_gives h i (lit "abs(?) instance of function(item()) as item()") o -> o = Ok [XIBoolean true]) /\
  ~ (forall h i o, xpath_gives h i (lit "concat(?, 1) instance of function(xs:error) as item()") o -> o = Ok [XIBoolean false]).
Proof.
  assert (G : forall s b, eval_xpath 40 [] 0 s = Ok [XIBoolean b] -> ~ (forall h i o, xpath_gives h i s o -> o = Ok [XIBoolean (negb b)])).
  { intros s b E H. specialize (H [] 0 (Ok [XIBoolean b])). assert (X : Ok [XIBoolean b] = Ok [XIBoolean (negb b)]).
    - apply H. split; [discriminate|]. exists 40. exact E.
    - destruct b; discriminate X. }
  repeat split; [apply (G _ false)|apply (G _ false)|apply (G _ true)|apply (G _ true)|apply (G _ false)|apply (G _ true)|apply (G _ false)|apply (G _ true)]; vm_compute; reflexivity.
Qed.

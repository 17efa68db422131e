(* Two documents with the same tree: corresponding nodes, and that nothing an expression can observe tells them apart. *)
Require Import Bool List NArith ZArith Ascii String Lia Sorted.
From Verif Require Import Str StrFacts Chars Sax Dom SpecTree SpecEdit HeapFacts BuildFacts SaxFacts DocFacts EditFacts OrderFacts SessionFacts
  Axes SpecAxes AxesFacts Lexer FuncTable Parser Num Item Func Types Eval SemNode SafeFacts SpecIso.
Import ListNotations.
Open Scope nat_scope.

Lemma f2_impl : forall A B (P Q : A -> B -> Prop) l m, (forall a b, P a b -> Q a b) -> Forall2 P l m -> Forall2 Q l m.
Proof. intros A B P Q l m H F. induction F; constructor; auto. Qed.
(* ---- positions in two lists ---- *)
Section Pairs.
  Variables A B : Type.
  Lemma combine_app : forall (a : list A) (a' : list B) b b', List.length a = List.length a' -> combine (a ++ b) (a' ++ b') = combine a a' ++ combine b b'.
  Proof. induction a as [|x a IH]; intros [|x' a'] b b' L; cbn in *; try discriminate; auto. f_equal. apply IH. lia. Qed.
  Lemma combine_nth_in : forall (l : list A) (m : list B) k i j, nth_error l k = Some i -> nth_error m k = Some j -> In (i, j) (combine l m).
  Proof.
    induction l as [|x l IH]; intros [|y m] [|k] i j; cbn; intros E F; try discriminate; [injection E as ->; injection F as ->; auto|right; eauto].
  Qed.
  Lemma combine_in_nth : forall (l : list A) (m : list B) i j, In (i, j) (combine l m) -> exists k, nth_error l k = Some i /\ nth_error m k = Some j.
  Proof.
    induction l as [|x l IH]; intros [|y m] i j; cbn; intro H; try tauto. destruct H as [H|H]; [injection H as -> ->; exists 0; auto|].
    destruct (IH m i j H) as [k K]. exists (S k). exact K.
  Qed.
  Lemma combine_forall2 : forall (l : list A) (m : list B), List.length l = List.length m -> Forall2 (fun a b => In (a, b) (combine l m)) l m.
  Proof.
    induction l as [|x l IH]; intros [|y m] L; cbn in *; try discriminate; constructor; auto.
    eapply f2_impl; [|apply IH; lia]. cbn. auto.
  Qed.
  Lemma combine_left : forall (l : list A) (m : list B) a, List.length l = List.length m -> In a l -> exists b, In (a, b) (combine l m).
  Proof.
    induction l as [|x l IH]; intros [|y m] a L H; cbn in *; try discriminate; try tauto. destruct H as [<-|H]; eauto.
    destruct (IH m a) as [b Hb]; eauto.
  Qed.
  Lemma combine_right : forall (l : list A) (m : list B) b, List.length l = List.length m -> In b m -> exists a, In (a, b) (combine l m).
  Proof.
    induction l as [|x l IH]; intros [|y m] b L H; cbn in *; try discriminate; try tauto. destruct H as [<-|H]; eauto.
    destruct (IH m b) as [a Ha]; eauto.
  Qed.
  Lemma combine_fun : forall (l : list A) (m : list B) a b c, NoDup l -> In (a, b) (combine l m) -> In (a, c) (combine l m) -> b = c.
  Proof.
    induction l as [|x l IH]; intros [|y m] a b c N H K; cbn in *; try tauto. inversion N; subst.
    destruct H as [H|H]; destruct K as [K|K]; try congruence; eauto.
    - injection H as -> ->. apply in_combine_l in K. contradiction.
    - injection K as -> ->. apply in_combine_l in H. contradiction.
  Qed.
  Lemma combine_inj : forall (l : list A) (m : list B) a b c, NoDup m -> In (a, c) (combine l m) -> In (b, c) (combine l m) -> a = b.
  Proof.
    induction l as [|x l IH]; intros [|y m] a b c N H K; cbn in *; try tauto. inversion N; subst.
    destruct H as [H|H]; destruct K as [K|K]; try congruence; eauto.
    - injection H as -> ->. apply in_combine_r in K. contradiction.
    - injection K as -> ->. apply in_combine_r in H. contradiction.
  Qed.
End Pairs.
Arguments combine_app {A B}. Arguments combine_nth_in {A B}. Arguments combine_in_nth {A B}. Arguments combine_forall2 {A B}.
Arguments combine_left {A B}. Arguments combine_right {A B}. Arguments combine_fun {A B}. Arguments combine_inj {A B}.
Lemma combine_before : forall l m i i' j j', List.length l = List.length m -> NoDup l -> In (i, i') (combine l m) -> In (j, j') (combine l m) ->
  before l i j -> before m i' j'.
Proof.
  intros l m i i' j j' L N I J [a [b [c E]]]. subst l.
  assert (S : forall A (p q m : list A), List.length m = List.length (p ++ q) -> exists p' q', m = p' ++ q' /\ List.length p' = List.length p /\ List.length q' = List.length q).
  { intros A p q k K. exists (firstn (List.length p) k), (skipn (List.length p) k). rewrite app_length in K. split; [symmetry; apply firstn_skipn|].
    rewrite firstn_length, skipn_length. lia. }
  destruct (S _ a (i :: b ++ j :: c) m (eq_sym L)) as [a' [r [-> [La Lr]]]]. destruct r as [|x r]; [discriminate Lr|].
  cbn in Lr. destruct (S _ b (j :: c) r) as [b' [s [-> [Lb Ls]]]]; [lia|]. destruct s as [|y s]; [discriminate Ls|].
  assert (X : In (i, x) (combine (a ++ i :: b ++ j :: c) (a' ++ x :: b' ++ y :: s))).
  { rewrite combine_app by auto. apply in_or_app. right. left. reflexivity. }
  assert (Y : In (j, y) (combine (a ++ i :: b ++ j :: c) (a' ++ x :: b' ++ y :: s))).
  { rewrite combine_app by auto. apply in_or_app. right. cbn [combine]. right. rewrite combine_app by auto. apply in_or_app. right. left. reflexivity. }
  rewrite (combine_fun _ _ _ _ _ N I X), (combine_fun _ _ _ _ _ N J Y). exists a', b', s. reflexivity.
Qed.
Lemma forall2_map : forall A B C D (P : C -> D -> Prop) (f : A -> C) (g : B -> D) l m, Forall2 P (map f l) (map g m) <-> Forall2 (fun a b => P (f a) (g b)) l m.
Proof.
  intros A B C D P f g l m. split.
  - revert m. induction l as [|a l IH]; intros [|b m] H; inversion H; subst; constructor; auto.
  - intro H. induction H; cbn; constructor; auto.
Qed.

(* ---- corresponding nodes of two trees ---- *)
Definition peer (t t' : tree) (i j : nat) : Prop := In (i, j) (combine (ids t) (ids t')).
Lemma erase_ids : forall t t', erase t = erase t' -> List.length (ids t) = List.length (ids t').
Proof.
  induction t as [i ty nm v ats ks IH] using tree_ind'. intros [i' ty' nm' v' ats' ks'] E. cbn [erase] in E. injection E as _ _ _ EA EK.
  cbn [ids List.length]. f_equal. rewrite !app_length, !map_length. f_equal.
  - assert (X := f_equal (@List.length _) EA). rewrite !map_length in X. exact X.
  - revert ks' EK. induction IH as [|k ks Hk _ IHks]; intros [|k' ks'] EK; cbn in EK; try discriminate; auto.
    injection EK as E1 E2. cbn [flat_map]. rewrite !app_length, (Hk _ E1), (IHks _ E2). reflexivity.
Qed.
Lemma flat_peer : forall ks ks' i j, map erase ks = map erase ks' ->
  (In (i, j) (combine (flat_map ids ks) (flat_map ids ks')) <-> exists k k', In (k, k') (combine ks ks') /\ erase k = erase k' /\ peer k k' i j).
Proof.
  induction ks as [|k ks IH]; intros [|k' ks'] i j E; cbn in E; try discriminate.
  - cbn. split; [tauto|intros (k & k' & H & _); exact H].
  - injection E as E1 E2. cbn [flat_map combine]. rewrite combine_app by (apply erase_ids; auto). rewrite in_app_iff, (IH ks' i j E2). split.
    + intros [H|(k1 & k2 & H & K)]; [exists k, k'; cbn; auto|exists k1, k2; cbn; tauto].
    + intros (k1 & k2 & [H|H] & E0 & P); [injection H as <- <-; left; exact P|right; eauto].
Qed.
Lemma peer_cases : forall i ty nm v ats ks i' ty' nm' v' ats' ks' a b, map snd ats = map snd ats' -> map erase ks = map erase ks' ->
  (peer (T i ty nm v ats ks) (T i' ty' nm' v' ats' ks') a b <->
   (a = i /\ b = i') \/ In (a, b) (combine (map fst ats) (map fst ats')) \/
   exists k k', In (k, k') (combine ks ks') /\ erase k = erase k' /\ peer k k' a b).
Proof.
  intros. unfold peer at 1. cbn [ids combine In]. rewrite combine_app, in_app_iff, flat_peer by (rewrite ?map_length; auto; apply (f_equal (@List.length _)) in H;
    rewrite !map_length in H; exact H).
  split; intros [X|X]; auto; [injection X as <- <-; auto|destruct X as [-> ->]; auto].
Qed.
Lemma peer_tid : forall t t', peer t t' (tid t) (tid t').
Proof. intros [] []. left. reflexivity. Qed.

(* what two corresponding cells have in common *)
Record alike (h h' : heap) (P : nat -> nat -> Prop) (i j : nat) : Prop := mkAlike {
  al_type : n_type (get h i) = n_type (get h' j);
  al_name : n_name (get h i) = n_name (get h' j);
  al_value : n_value (get h i) = n_value (get h' j);
  al_kids : Forall2 P (n_children (get h i)) (n_children (get h' j));
  al_attrs : Forall2 P (n_attrs (get h i)) (n_attrs (get h' j)) }.
Lemma alike_impl : forall h h' (P Q : nat -> nat -> Prop) i j, (forall a b, P a b -> Q a b) -> alike h h' P i j -> alike h h' Q i j.
Proof. intros h h' P Q i j H [A B C D E]. split; auto; eapply f2_impl; eauto. Qed.
Lemma tree_string_same : forall d t t', erase t = erase t' -> tree_string d t = tree_string d t'.
Proof.
  intro d. induction t as [i ty nm v ats ks IH] using tree_ind'. intros [i' ty' nm' v' ats' ks'] E. cbn [erase] in E. injection E as <- <- <- _ EK.
  assert (K : flat_map (tree_string d) ks = flat_map (tree_string d) ks').
  { revert ks' EK. induction IH as [|k ks Hk _ IHks]; intros [|k' ks'] EK; cbn in EK; try discriminate; auto.
    injection EK as E1 E2. cbn [flat_map]. rewrite (Hk _ E1), (IHks _ E2). reflexivity. }
  cbn [tree_string]. destruct ty; auto.
Qed.
Lemma cells : forall h h' t t' par par', erase t = erase t' -> rep h par t -> rep h' par' t' -> forall i j, peer t t' i j ->
  alike h h' (peer t t') i j /\
  ((i = tid t /\ j = tid t' /\ n_parent (get h i) = par /\ n_parent (get h' j) = par') \/
   exists p p', n_parent (get h i) = Some p /\ n_parent (get h' j) = Some p' /\ peer t t' p p') /\
  (forall n m, depth t <= n -> depth t' <= m -> string_value_fuel n h i = string_value_fuel m h' j /\ typed_value_fuel n h i = typed_value_fuel m h' j).
Proof.
  intros h h'. induction t as [i0 ty nm v ats ks IH] using tree_ind'. intros [i1 ty' nm' v' ats' ks'] par par' E R R' i j P.
  assert (EE := E). cbn [erase] in E. injection E as <- <- <- EA EK. assert (R0 := R). assert (R0' := R').
  apply rep_inv in R. destruct R as [o [_ [Hg [Ha Hk]]]]. apply rep_inv in R'. destruct R' as [o' [_ [Hg' [Ha' Hk']]]].
  assert (LA : List.length (map fst ats) = List.length (map fst ats')).
  { apply (f_equal (@List.length _)) in EA. rewrite !map_length in *. exact EA. }
  assert (CASES := fun a b => peer_cases i0 ty nm v ats ks i1 ty nm v ats' ks' a b EA EK).
  apply CASES in P. destruct P as [[-> ->]|[P|(k & k' & I & EE' & P)]].
  - split; [|split].
    + split; rewrite ?Hg, ?Hg'; cbn [n_type n_name n_value n_children n_attrs]; auto.
      * apply forall2_map. assert (LK := f_equal (@List.length _) EK). rewrite !map_length in LK.
        assert (F := combine_forall2 ks ks' LK). clear - F CASES EK. 
        assert (G : forall k k', In (k, k') (combine ks ks') -> erase k = erase k').
        { clear - EK. revert ks' EK. induction ks as [|a ks IH]; intros [|b ks'] EK k k' I; cbn in *; try tauto. injection EK as E1 E2.
          destruct I as [I|I]; [injection I as <- <-; auto|eapply IH; eauto]. }
        eapply f2_impl; [|exact F]. cbn. intros k k' I. apply CASES. right. right. exists k, k'. split; [exact I|]. split; [auto|apply peer_tid].
      * eapply f2_impl; [|apply combine_forall2; exact LA]. cbn. intros a b I. apply CASES. auto.
    + left. rewrite Hg, Hg'. auto.
    + intros n m Hn Hm. destruct (string_value_rep _ _ _ n R0 Hn) as [A1 A2]. destruct (string_value_rep _ _ _ m R0' Hm) as [B1 B2].
      cbn [tid] in *. rewrite A1, A2, B1, B2. split; apply tree_string_same; exact EE.
  - assert (G : exists x y, In x ats /\ In y ats' /\ fst x = i /\ fst y = j /\ snd x = snd y).
    { clear - P EA. revert ats' EA P. induction ats as [|x ats IHa]; intros [|y ats'] EA P; cbn in *; try tauto.
      injection EA as E1 E2. destruct P as [P|P]; [injection P as <- <-; exists x, y; auto|].
      destruct (IHa _ E2 P) as (x' & y' & A & B & C). exists x', y'. tauto. }
    destruct G as (x & y & Ix & Iy & <- & <- & Exy). rewrite Forall_forall in Ha, Ha'.
    destruct (Ha _ Ix) as [_ [ox Gx]]. destruct (Ha' _ Iy) as [_ [oy Gy]].
    split; [|split].
    + split; rewrite ?Gx, ?Gy; cbn; auto; congruence.
    + right. exists i0, i1. rewrite Gx, Gy. cbn. repeat split; auto; apply CASES; auto.
    + intros n m Hn Hm. destruct n as [|n]; [cbn in Hn; lia|]. destruct m as [|m]; [cbn in Hm; lia|].
      cbn [string_value_fuel typed_value_fuel]. rewrite Gx, Gy. cbn. rewrite Exy. auto.
  - assert (Ik := in_combine_l _ _ _ _ I). assert (Ik' := in_combine_r _ _ _ _ I).
    rewrite Forall_forall in IH, Hk, Hk'. destruct (IH k Ik k' _ _ EE' (Hk k Ik) (Hk' k' Ik') i j P) as [A [B C]].
    assert (UP : forall a b, peer k k' a b -> peer (T i0 ty nm v ats ks) (T i1 ty nm v ats' ks') a b).
    { intros a b H. apply CASES. right. right. eauto. }
    split; [eapply alike_impl; [exact UP|exact A]|]. split.
    + right. destruct B as [[-> [-> [Q Q']]]|(p & p' & Q & Q' & Pp)].
      * exists i0, i1. split; auto. split; auto. apply CASES. auto.
      * exists p, p'. auto.
    + intros n m Hn Hm. apply C; cbn [depth] in *.
      * assert (depth k <= list_max (map depth ks)) by (apply (list_max_in (map depth ks)), List.in_map; auto). lia.
      * assert (depth k' <= list_max (map depth ks')) by (apply (list_max_in (map depth ks')), List.in_map; auto). lia.
Qed.

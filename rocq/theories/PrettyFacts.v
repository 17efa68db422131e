(* Lemmas about pretty printing. *)
Require Import Bool List NArith ZArith Ascii String Lia.
From Verif Require Import Str StrFacts Chars Sax Dom SpecTree SpecText EntityFacts HeapFacts BuildFacts SaxFacts SpecPretty.
Import ListNotations.
Open Scope N_scope.

(* ---- printing with a general step and indentation, on contents ---- *)
Fixpoint pp (step ind : nat) (x : xtree) : str :=
  match x with
  | X ty nm v ats ks =>
      match ty with
      | DocumentRoot => flat_map (pp step ind) ks
      | Element =>
          spaces ind ++ [60] ++ nm ++ attrs_str ats ++
          match ks with
          | [] => [47; 62] ++ nl_if_positive step
          | _ :: _ => [62] ++ nl_if_positive step ++ flat_map (pp step (ind + step)) ks ++
                      spaces ind ++ [60; 47] ++ nm ++ [62] ++ nl_if_positive step
          end
      | Text => spaces ind ++ encode_entity v ++ nl_if_positive step
      | Comment => spaces ind ++ lit "<!--" ++ v ++ lit "-->" ++ nl_if_positive step
      | XMLDecl => spaces ind ++ lit "<?xml " ++ v ++ lit "?>" ++ nl_if_positive step
      | Instruction => spaces ind ++ lit "<?" ++ nm ++ lit " " ++ v ++ lit "?>" ++ nl_if_positive step
      | Attribute | Directive => []
      end
  end.

Lemma to_string_pp : forall step t h par fuel ind, rep h par t -> (depth t <= fuel)%nat ->
  to_string_with_indent fuel h (tid t) ind step = Some (pp step ind (erase t)).
Proof.
  intro step. induction t as [i ty nm v ats ks IH] using tree_ind'. intros h par fuel ind H Hf.
  apply rep_inv in H. destruct H as [o [Hi [Hg [Ha Hk]]]].
  destruct fuel as [|fuel]; [simpl in Hf; lia|].
  assert (K : forall n, concat_opt (map (fun c => to_string_with_indent fuel h c n step) (map tid ks))
              = Some (flat_map (pp step n) (map erase ks))).
  { intro n. rewrite map_map. rewrite (concat_opt_map _ _ (fun t => pp step n (erase t))).
    - f_equal. clear. induction ks; simpl; congruence.
    - intros k Hin. rewrite Forall_forall in IH, Hk. eapply IH; eauto.
      assert (depth k <= list_max (map depth ks))%nat by (apply list_max_in, in_map; auto).
      simpl in Hf. lia. }
  cbn [tid to_string_with_indent]. rewrite Hg. cbn [n_type n_children n_name n_value n_attrs].
  rewrite (attrs_string_pr h i) by auto. cbn [erase pp].
  rewrite !K.
  destruct ty; try reflexivity.
  destruct ks as [|k ks]; cbn [map].
  - f_equal. change (lit "<") with [60]. change (lit "/>") with [47;62].
    rewrite <- !app_assoc. reflexivity.
  - f_equal. change (lit "<") with [60]. change (lit ">") with [62]. change (lit "</") with [60;47].
    rewrite <- !app_assoc. reflexivity.
Qed.

Lemma to_pretty_document : forall h t, document h t -> to_pretty_string h (tid t) = Some (pp 4 0 (erase t)).
Proof.
  intros h t H. unfold to_pretty_string. eapply to_string_pp; [apply H|].
  pose proof (depth_ids t). pose proof (document_size _ _ H). lia.
Qed.

(* ---- lines ---- *)
Lemma attrs_str_text : forall ats, attrs_str ats = flat_map attr_text ats.
Proof.
  induction ats as [|[n v] ats IH]; auto. cbn [attrs_str flat_map]. rewrite <- IH. unfold attr_text. cbn [fst snd].
  rewrite <- ?app_assoc. cbn [app]. rewrite <- ?app_assoc. cbn [app]. rewrite <- ?app_assoc. reflexivity.
Qed.
Lemma flat_map_eq : forall (A B : Type) (f g : A -> list B) l, (forall x, In x l -> f x = g x) -> flat_map f l = flat_map g l.
Proof. induction l as [|x l IH]; intro H; auto. cbn. rewrite H by (left; auto). rewrite IH; auto. intros; apply H; right; auto. Qed.
Lemma flat_map_app' : forall (A B : Type) (f : A -> list B) l r, flat_map f (l ++ r) = flat_map f l ++ flat_map f r.
Proof. induction l; intros; cbn; auto. rewrite IHl, app_assoc. reflexivity. Qed.
Lemma line_eq : forall d s, line (d, s) = spaces (4 * d) ++ s ++ [10].
Proof. reflexivity. Qed.
Lemma pp_lines : forall x d, pp 4 (4 * d) x = flat_map line (pieces d x).
Proof.
  induction x as [ty nm v ats ks IH] using xtree_ind'. intro d.
  assert (K : forall d, flat_map (pp 4 (4 * d)) ks = flat_map line (flat_map (pieces d) ks)).
  { intro d0. rewrite flat_map_flat_map. apply flat_map_eq. intros k Hk. rewrite Forall_forall in IH. auto. }
  cbn [pp pieces]. destruct ty; auto; try (cbn [flat_map line]; unfold line, spaces; cbn [fst snd nl_if_positive];
    rewrite ?app_nil_r, <- ?app_assoc; reflexivity).
  rewrite attrs_str_text. destruct ks as [|k ks].
  - cbn [flat_map line]. unfold line, spaces. cbn [fst snd nl_if_positive].
    rewrite ?app_nil_r, <- ?app_assoc. reflexivity.
  - replace (4 * d + 4)%nat with (4 * S d)%nat by lia. rewrite K. cbn [flat_map].
    rewrite !(flat_map_app' _ _ line). cbn [flat_map nl_if_positive]. rewrite !line_eq. unfold spaces.
    change (lit ">") with [62]. change (lit "<") with [60]. change (lit "</") with [60;47].
    rewrite ?app_nil_r, <- ?app_assoc. reflexivity.
Qed.
Lemma pr_pieces : forall x d, pr x = flat_map snd (pieces d x).
Proof.
  induction x as [ty nm v ats ks IH] using xtree_ind'. intro d.
  assert (K : forall d, flat_map pr ks = flat_map snd (flat_map (pieces d) ks)).
  { intro d0. rewrite flat_map_flat_map. apply flat_map_eq. intros k Hk. rewrite Forall_forall in IH. auto. }
  cbn [pr pieces]. destruct ty; auto; try (cbn [flat_map snd]; rewrite ?app_nil_r, <- ?app_assoc; reflexivity).
  rewrite attrs_str_text. destruct ks as [|k ks].
  - cbn [flat_map snd]. rewrite ?app_nil_r, <- ?app_assoc. reflexivity.
  - rewrite (K (S d)). cbn [flat_map].
    rewrite !(flat_map_app' _ _ snd). cbn [flat_map snd].
    change (lit ">") with [62]. change (lit "<") with [60]. change (lit "</") with [60;47].
    rewrite ?app_nil_r, <- ?app_assoc. reflexivity.
Qed.

(* ---- the document that the pretty form is the plain form of ---- *)
Definition flush (w : str) : list xtree := match w with [] => [] | _ => [X Text [] w [] []] end.
Fixpoint weave (ind : nat) (w close : str) (ks : list xtree) : list xtree :=
  match ks with
  | [] => flush (w ++ close)
  | X Text nm v ats kk :: r => weave ind (w ++ spaces ind ++ v ++ [10]) close r
  | k :: r => flush (w ++ spaces ind) ++ k :: weave ind [10] close r
  end.
Fixpoint pad (ind : nat) (x : xtree) : xtree :=
  match x with
  | X Element nm v ats (k :: ks) =>
      X Element nm v ats (weave (ind + 4) [10] (spaces ind) (map (pad (ind + 4)) (k :: ks)))
  | _ => x
  end.

Lemma encode_app : forall a b, encode_entity (a ++ b) = encode_entity a ++ encode_entity b.
Proof. intros. rewrite !encode_entity_flat. apply flat_map_app'. Qed.
Lemma encode_spaces : forall n, encode_entity (spaces n) = spaces n.
Proof. intro. rewrite encode_entity_flat. unfold spaces. induction n; cbn; auto. f_equal. auto. Qed.
Lemma flush_pr : forall w, flat_map pr (flush w) = encode_entity w.
Proof. intros [|c w]; auto. cbn [flush flat_map pr]. apply app_nil_r. Qed.

Lemma weave_nontext : forall ind w close k r, ~ is_text k ->
  weave ind w close (k :: r) = flush (w ++ spaces ind) ++ k :: weave ind [10] close r.
Proof. intros ind w close [[] nm v ats ks] r H; try reflexivity. exfalso. apply H. reflexivity. Qed.
Lemma pad_text : forall ind k, is_text (pad ind k) <-> is_text k.
Proof. intros ind [[] nm v ats ks]; cbn; try tauto. destruct ks; tauto. Qed.

Lemma pp_pad : forall x, clean x -> forall ind, ~ is_text x ->
  pp 4 ind x = spaces ind ++ pr (pad ind x) ++ [10].
Proof.
  intros x H. induction H as [nm ats ks _ _ Hc Hadj IH| | | | ] using clean_ind'; intros ind Ht;
    try (cbn [pp pad pr nl_if_positive]; rewrite <- ?app_assoc; reflexivity).
  assert (K : forall ind w close, flat_map pr (weave ind w close (map (pad ind) ks)) =
              encode_entity w ++ flat_map (pp 4 ind) ks ++ encode_entity close).
  { clear Ht Hadj nm ats. intros ind0 w close. revert w. induction ks as [|k ks IHk]; intro w.
    - cbn [map weave flat_map app]. rewrite flush_pr. apply encode_app.
    - inversion Hc as [|? ? Hk Hc']; subst. inversion IH as [|? ? Pk IH']; subst. specialize (IHk Hc' IH').
      assert (D : is_text k \/ ~ is_text k) by (unfold is_text; destruct k as [[]]; cbn; auto; right; discriminate).
      destruct D as [T|T].
      + inversion Hk; subst; try discriminate T. cbn [map pad weave].
        rewrite IHk, !encode_app, encode_spaces. cbn [flat_map pp nl_if_positive].
        rewrite <- !app_assoc. reflexivity.
      + cbn [map]. rewrite weave_nontext by (rewrite pad_text; auto).
        rewrite flat_map_app'. cbn [flat_map]. rewrite flush_pr, encode_app, encode_spaces, IHk.
        rewrite (Pk ind0 T). rewrite <- !app_assoc. reflexivity. }
  cbn [pp pad]. destruct ks as [|k ks].
  - cbn [pr nl_if_positive]. rewrite <- !app_assoc. reflexivity.
  - cbn [pr]. destruct (weave (ind + 4) [10] (spaces ind) (map (pad (ind + 4)) (k :: ks))) as [|y ys] eqn:E.
    + exfalso. specialize (K (ind + 4)%nat [10] (spaces ind)). rewrite E in K. cbn in K. discriminate.
    + rewrite <- E. rewrite K, encode_spaces. change (encode_entity [10]) with [10].
      cbn [nl_if_positive]. rewrite <- !app_assoc. cbn [app]. rewrite <- ?app_assoc. reflexivity.
Qed.

Lemma pp_weave : forall ks ind w close, Forall clean ks ->
  flat_map pr (weave ind w close (map (pad ind) ks)) =
  encode_entity w ++ flat_map (pp 4 ind) ks ++ encode_entity close.
Proof.
  intros ks ind w close Hc. revert w. induction ks as [|k ks IHk]; intro w.
  - cbn [map weave flat_map app]. rewrite flush_pr. apply encode_app.
  - inversion Hc as [|? ? Hk Hc']; subst. specialize (IHk Hc').
    assert (D : is_text k \/ ~ is_text k) by (unfold is_text; destruct k as [[]]; cbn; auto; right; discriminate).
    destruct D as [T|T].
    + inversion Hk; subst; try discriminate T. cbn [map pad weave].
      rewrite IHk, !encode_app, encode_spaces. cbn [flat_map pp nl_if_positive].
      rewrite <- !app_assoc. reflexivity.
    + cbn [map]. rewrite weave_nontext by (rewrite pad_text; auto).
      rewrite flat_map_app'. cbn [flat_map]. rewrite flush_pr, encode_app, encode_spaces, IHk.
      rewrite (pp_pad k Hk ind T). rewrite <- !app_assoc. reflexivity.
Qed.

(* ---- the padded document is representable ---- *)
Lemma text_ok_app : forall a b, text_ok a -> text_ok b -> text_ok (a ++ b).
Proof. intros a b [A1 A2] [B1 B2]. split; intro H; apply in_app_or in H; destruct H; auto. Qed.
Lemma text_ok_spaces : forall n, text_ok (spaces n).
Proof. intro n. split; intro H; apply repeat_spec in H; discriminate. Qed.
Lemma text_ok_nl : text_ok [10].
Proof. split; intros [H|[]]; discriminate. Qed.
Lemma flush_clean : forall w, text_ok w -> Forall clean (flush w).
Proof. intros [|c w] H; cbn; constructor; auto. constructor; auto. discriminate. Qed.
Lemma weave_clean : forall ks ind w close, text_ok w -> text_ok close ->
  Forall clean ks -> Forall clean (weave ind w close ks).
Proof.
  induction ks as [|k ks IH]; intros ind w close Hw Hcl Hc.
  - apply flush_clean, text_ok_app; auto.
  - inversion Hc as [|? ? Hk Hc']; subst.
    assert (D : is_text k \/ ~ is_text k) by (unfold is_text; destruct k as [[]]; cbn; auto; right; discriminate).
    destruct D as [T|T].
    + inversion Hk; subst; try discriminate T. cbn [weave].
      apply IH; auto. auto using text_ok_app, text_ok_spaces, text_ok_nl.
    + rewrite weave_nontext by auto. apply Forall_app. split.
      * apply flush_clean, text_ok_app; auto using text_ok_spaces.
      * constructor; auto using text_ok_nl.
Qed.
Lemma weave_adjacent : forall ks ind w close, no_adjacent_text (weave ind w close ks) /\
  forall k, ~ is_text k -> no_adjacent_text (k :: weave ind w close ks).
Proof.
  assert (F : forall w l, (forall k, ~ is_text k -> no_adjacent_text (k :: l)) ->
              (match l with y :: _ => ~ is_text y | [] => True end) -> no_adjacent_text l ->
              no_adjacent_text (flush w ++ l) /\ forall k, ~ is_text k -> no_adjacent_text (k :: flush w ++ l)).
  { intros [|c w] l H H0 H1; cbn [flush app]; auto.
    assert (G : no_adjacent_text (X Text [] (c :: w) [] [] :: l)).
    { destruct l as [|y l]; cbn; auto. split; auto. intros [_ Q]. auto. }
    split; auto. intros k Hk. split; auto. tauto. }
  induction ks as [|k ks IH]; intros ind w close.
  - cbn [weave]. rewrite <- (app_nil_r (flush (w ++ close))). apply F; cbn; auto.
  - assert (D : is_text k \/ ~ is_text k) by (unfold is_text; destruct k as [[]]; cbn; auto; right; discriminate).
    destruct D as [T|T].
    + destruct k as [[]]; try discriminate T. cbn [weave]. apply IH.
    + rewrite weave_nontext by auto. apply F; auto.
      * intros k' Hk'. split; [tauto|]. apply IH. auto.
      * apply IH. auto.
Qed.
Lemma pad_clean : forall x, clean x -> forall ind, clean (pad ind x).
Proof.
  intros x H. induction H as [nm ats ks Hn Ha Hc Hadj IH| | | | ] using clean_ind'; intro ind;
    try (constructor; auto; fail).
  cbn [pad]. destruct ks as [|k ks]; [constructor; auto|]. constructor; auto.
  - apply weave_clean; auto using text_ok_nl, text_ok_spaces.
    apply Forall_forall. intros y Hy. apply in_map_iff in Hy. destruct Hy as [z [<- Hz]].
    rewrite Forall_forall in IH. auto.
  - apply weave_adjacent.
Qed.

(* ---- and has the same normal form ---- *)
Definition white (s : str) : Prop := Forall (fun c => is_space c = true) s.
Lemma drop_white : forall w s, white w -> drop_space (w ++ s) = drop_space s.
Proof. intros w s H. induction H as [|c w Hc Hw IH]; auto. cbn. rewrite Hc. auto. Qed.
Lemma drop_white_nil : forall w, white w -> drop_space w = [].
Proof. intros w H. rewrite <- (app_nil_r w), drop_white; auto. Qed.
Lemma drop_tail : forall s w, white w ->
  drop_space (s ++ w) = match drop_space s with [] => [] | r => r ++ w end.
Proof.
  induction s as [|c s IH]; intros w Hw; cbn; [apply drop_white_nil; auto|].
  destruct (is_space c); [apply IH; auto|reflexivity].
Qed.
Lemma trim_white : forall a b v, white a -> white b -> trim (a ++ v ++ b) = trim v.
Proof.
  intros a b v Ha Hb. unfold trim. rewrite (drop_white a) by auto. rewrite (drop_tail v b) by auto.
  destruct (drop_space v) as [|c r] eqn:E; [reflexivity|].
  rewrite rev_app_distr. rewrite drop_white; [reflexivity|]. apply Forall_rev. auto.
Qed.
Lemma white_spaces : forall n, white (spaces n).
Proof. intro n. apply Forall_forall. intros c H. apply repeat_spec in H. subst. reflexivity. Qed.
Lemma white_app : forall a b, white a -> white b -> white (a ++ b).
Proof. intros. apply Forall_app. auto. Qed.
Lemma trim_all_white : forall w, white w -> trim w = [].
Proof. intros w H. unfold trim. rewrite (drop_white_nil w H). reflexivity. Qed.

Definition norm_kids (ks : list xtree) : list xtree := filter (fun k => negb (blank_text k)) (map normal ks).
Lemma norm_flush_white : forall w l, white w -> norm_kids (flush w ++ l) = norm_kids l.
Proof.
  intros [|c w] l H; auto. unfold norm_kids. cbn [flush app map filter normal node_type_eqb].
  rewrite trim_all_white by auto. reflexivity.
Qed.
Lemma norm_text : forall a b v l, white a -> white b -> v <> [] -> 
  norm_kids (flush (a ++ v ++ b) ++ l) = norm_kids (X Text [] v [] [] :: l).
Proof.
  intros a b v l Ha Hb Hv. destruct (a ++ v ++ b) as [|c r] eqn:E.
  - exfalso. apply Hv. destruct a, v; try discriminate; auto.
  - unfold norm_kids. cbn [flush app map filter normal node_type_eqb]. rewrite <- E, trim_white; auto.
Qed.
Lemma white_nl : white [10].
Proof. repeat constructor. Qed.

Lemma weave_normal : forall n ks ind w close, (List.length ks <= n)%nat -> white w -> white close ->
  Forall clean ks -> no_adjacent_text ks ->
  norm_kids (weave ind w close ks) = norm_kids ks.
Proof.
  induction n as [|n IH]; intros ks ind w close Hn Hw Hcl Hc Hadj.
  - destruct ks; [|simpl in Hn; lia]. cbn [weave]. rewrite <- (app_nil_r (flush (w ++ close))).
    apply norm_flush_white. apply white_app; auto.
  - destruct ks as [|k ks].
    { cbn [weave]. rewrite <- (app_nil_r (flush (w ++ close))). apply norm_flush_white. apply white_app; auto. }
    assert (NT : forall a k ks, white a -> ~ is_text k -> (List.length ks <= n)%nat -> Forall clean ks ->
        no_adjacent_text (k :: ks) -> norm_kids (weave ind a close (k :: ks)) = norm_kids (k :: ks)).
    { intros a k0 ks0 Ha T L C Adj. rewrite weave_nontext by auto.
      rewrite norm_flush_white by auto using white_app, white_spaces.
      unfold norm_kids. cbn [map filter]. fold (norm_kids (weave ind [10] close ks0)). rewrite IH; auto using white_nl.
      destruct ks0; [exact I|apply Adj]. }
    inversion Hc as [|? ? Hk Hc']; subst.
    assert (D : is_text k \/ ~ is_text k) by (unfold is_text; destruct k as [[]]; cbn; auto; right; discriminate).
    destruct D as [T|T]; [|apply NT; auto; simpl in Hn; lia].
    inversion Hk as [|v Hv Hok| | |]; subst; try discriminate T. cbn [weave].
    destruct ks as [|k2 ks].
    + cbn [weave]. rewrite <- (app_nil_r (flush _)).
      rewrite <- !app_assoc. rewrite app_assoc.
      apply (norm_text (w ++ spaces ind) ([10] ++ close) v []); auto using white_app, white_spaces, white_nl.
    + destruct Hadj as [A1 A2]. assert (T2 : ~ is_text k2) by tauto.
      rewrite weave_nontext by auto. rewrite <- !app_assoc. rewrite (app_assoc w).
      rewrite (norm_text (w ++ spaces ind) ([10] ++ spaces ind) v (k2 :: weave ind [10] close ks))
        by auto using white_app, white_spaces, white_nl. unfold norm_kids. cbn [map filter].
      fold (norm_kids (weave ind [10] close ks)). rewrite IH; auto using white_nl.
      * simpl in Hn. lia.
      * inversion Hc'; auto.
      * destruct ks; [exact I|apply A2].
Qed.
Lemma no_adjacent_map : forall f ks, (forall k, is_text (f k) <-> is_text k) ->
  no_adjacent_text ks -> no_adjacent_text (map f ks).
Proof.
  intros f ks H. induction ks as [|a [|b ks] IH]; cbn; auto. intros [A B]. split.
  - rewrite !H. auto.
  - apply IH. auto.
Qed.
Lemma norm_kids_map : forall f ks, (forall k, In k ks -> normal (f k) = normal k) ->
  norm_kids (map f ks) = norm_kids ks.
Proof.
  intros f ks H. unfold norm_kids. rewrite map_map. f_equal. apply map_ext_in. auto.
Qed.
Lemma pad_normal : forall x, clean x -> forall ind, normal (pad ind x) = normal x.
Proof.
  intros x H. induction H as [nm ats ks Hn Ha Hc Hadj IH| | | | ] using clean_ind'; intro ind; try reflexivity.
  cbn [pad]. destruct ks as [|k ks]; [reflexivity|]. cbn [normal node_type_eqb]. f_equal.
  rewrite Forall_forall in IH, Hc.
  change (norm_kids (weave (ind + 4) [10] (spaces ind) (map (pad (ind + 4)) (k :: ks))) = norm_kids (k :: ks)).
  rewrite (weave_normal (List.length (map (pad (ind + 4)) (k :: ks)))); auto using white_nl, white_spaces.
  - apply norm_kids_map. intros k0 Hk0. apply IH. auto.
  - apply Forall_forall. intros y Hy. apply in_map_iff in Hy. destruct Hy as [z [<- Hz]]. apply pad_clean. auto.
  - apply no_adjacent_map; auto. intro. apply pad_text.
Qed.

Lemma pretty_reparse : forall h t, document h t -> clean_doc (erase t) ->
  exists s h' t', to_pretty_string h (tid t) = Some s /\ new_document s = Ok h' /\
    document h' t' /\ tid t' = 0%nat /\ normal (erase t') = normal (erase t).
Proof.
  intros h t D C. exists (pp 4 0 (erase t)). inversion C as [ks Hc Hadj E].
  assert (Hc2 : Forall clean (map (pad 0) ks)).
  { apply Forall_forall. intros y Hy. apply in_map_iff in Hy. destruct Hy as [z [<- Hz]].
    rewrite Forall_forall in Hc. apply pad_clean. auto. }
  assert (W : text_ok []) by (split; intros []).
  pose proof (weave_clean (map (pad 0) ks) 0 [] [] W W Hc2) as C2.
  pose proof (proj1 (weave_adjacent (map (pad 0) ks) 0 [] [])) as A2.
  destruct (parse_pr _ C2 A2 _ eq_refl) as [h' [t' [E1 [R [I Ee]]]]].
  exists h', t'. split; [rewrite E; apply to_pretty_document; auto|]. split; [|split; [|split]].
  - rewrite <- E1. cbn [pr pp]. rewrite pp_weave by auto.
    change (encode_entity []) with (@nil N). rewrite app_nil_r. reflexivity.
  - split; auto. rewrite I. apply seq_NoDup.
  - destruct t' as [i ty nm v ats ksn]. simpl in I.
    destruct (List.length h'); [discriminate|]. injection I. auto.
  - rewrite Ee. cbn [normal node_type_eqb]. f_equal. rewrite Forall_forall in Hc.
    change (norm_kids (weave 0 [] [] (map (pad 0) ks)) = norm_kids ks).
    rewrite (weave_normal (List.length (map (pad 0) ks))); auto; try (constructor; fail).
    + apply norm_kids_map. intros k0 Hk0. apply pad_normal. auto.
    + apply no_adjacent_map; auto. intro. apply pad_text.
Qed.

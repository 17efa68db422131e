(* The function library in the meaning of expressions. *)
Require Import Bool List NArith ZArith Ascii String Lia Sorted.
From Verif Require Import Str StrFacts Sax Dom Axes SpecEdit SpecAxes SessionFacts Lexer FuncTable Parser SpecExpr Num Item Func Types Eval EvalFacts
  SpecOper ItemFacts SpecFunc FuncFacts SpecTypes SpecEval EnvFacts SpecInt IntFacts SpecNum SpecDbl SpecArith SpecPrint FloatNear PropFunc PropFunc2 SpecSem SemFacts SemNode.
Import ListNotations.
Open Scope nat_scope.

(* the nodes are nodes of the document, and there are no functions *)
Definition item_in (h : heap) (it : xitem) : Prop :=
  forall x, within x it -> match x with XINode i => in_document h 0 i | XIFun _ => False | _ => True end.
Definition seq_in (h : heap) (v : xseq) : Prop := forall it, In it v -> item_in h it.
Lemma in_item : forall h v it, seq_in h v -> In it v -> item_in h it.
Proof. intros h v it H I. auto. Qed.
Lemma item_node_in : forall h i, item_in h (XINode i) -> in_document h 0 i.
Proof. intros h i H. apply (H (XINode i)). constructor. Qed.
Lemma item_node : forall h i, in_document h 0 i -> item_in h (XINode i).
Proof. intros h i H x W. inversion W; subst. exact H. Qed.
Lemma item_fun : forall h x, ~ item_in h (XIFun x).
Proof. intros h x H. apply (H (XIFun x)). constructor. Qed.
Lemma item_array : forall h a, item_in h (XIArray a) <-> forall v, In v a -> seq_in h v.
Proof.
  intros h a. split.
  - intros H v V it I x W. apply H. econstructor; eauto.
  - intros H x W. inversion W; subst; [exact I|]. exact (H _ H1 _ H2 x H3).
Qed.
Lemma item_map : forall h m, item_in h (XIMap m) <-> forall p, In p m -> item_in h (fst p) /\ seq_in h (snd p).
Proof.
  intros h m. split.
  - intros H p P. split; [intros x W; apply H; eapply wi_key; eauto|]. intros it I x W. apply H. eapply wi_value; eauto.
  - intros H x W. inversion W; subst; [exact I| |].
    + exact (proj1 (H _ H1) x H2).
    + exact (proj2 (H _ H1) _ H2 x H3).
Qed.
Lemma item_plain : forall h it, match it with XIFun _ | XIMap _ | XIArray _ | XINode _ => False | _ => True end -> item_in h it.
Proof. intros h it H x W. inversion W; subst; try (destruct H; fail). destruct it; auto; destruct H. Qed.

Section Lib.
  Variable h : heap.
  Variable order : list nat.
  Hypothesis SE : session h.
  Hypothesis PO : preorder h 0 order.

  Lemma string_of_raw : forall it s, item_in h it -> string_of h it s -> get_as_raw_string h it = Ok s.
  Proof.
    intros it s I H. destruct H as [s|i s H|z s H| | |x s F B NZ H|x s F B H|]; try reflexivity.
    - cbn [get_as_raw_string]. f_equal. apply (string_value_spec h i s SE); auto. apply item_node_in; auto.
    - cbn [get_as_raw_string]. f_equal. apply (notation_unique z); [apply fmt_i64_notation|auto].
    - cbn [get_as_raw_string]. f_equal. symmetry. assert (V : is_f64 x) by (destruct H as (? & ? & ? & ? & _ & ((V & _) & _) & _); exact V).
      apply number_text_unique; auto.
    - assert (V : is_f64 x) by (destruct H as (? & ? & ? & ? & _ & ((V & _) & _) & _); exact V). rewrite (number_text_unique x s V F H).
      destruct F as [[sg ->]|(sg & m & e & ->)]; reflexivity.
  Qed.
  Lemma text_item_in : forall it s, item_in h it -> text_item h it s ->
    get_as_raw_string h it = Ok s /\ atomize1 h it = XIString s.
  Proof.
    intros it s I H. destruct H as [s|i s H]; [split; reflexivity|].
    destruct (string_value_spec h i s SE (item_node_in h i I) H) as [E1 E2]. cbn [get_as_raw_string atomize1]. rewrite E1, E2. split; reflexivity.
  Qed.
  Lemma text_arg_string : forall v s, seq_in h v -> text_arg h v s -> fn_string h v = Ok (sing_str s).
  Proof.
    intros v s I H. destruct H as [|it s H]; [reflexivity|]. unfold fn_string. cbn [get_singleton_item bind].
    rewrite (string_of_raw it s); auto. eapply in_item; eauto. left. auto.
  Qed.
  Lemma text_args : forall vs ss, (forall v, In v vs -> seq_in h v) -> Forall2 (text_arg h) vs ss ->
    concat_args h vs = Ok (List.concat ss).
  Proof.
    intros vs ss I H. induction H as [|v s vs ss H HS IH]; [reflexivity|]. 
    specialize (IH (fun v K => I v (or_intror K))). specialize (I v (or_introl eq_refl)).
    destruct H as [|it s H]; [exact IH|]. cbn [concat_args get_singleton_item bind].
    rewrite (string_of_raw it s); auto; [|eapply in_item; eauto; left; auto]. cbn [bind]. rewrite IH. reflexivity.
  Qed.
  Lemma strings_of : forall v ss, seq_in h v -> Forall2 (string_of h) v ss -> map_res (get_as_raw_string h) v = Ok ss.
  Proof.
    intros v ss I H. induction H as [|it s v ss H HS IH]; [reflexivity|]. cbn [map_res].
    rewrite (string_of_raw it s); auto; [|eapply in_item; eauto; left; auto]. cbn [bind].
    rewrite IH; [reflexivity|]. intros i K. apply I. right. auto.
  Qed.
  Lemma texts_of : forall v ss, seq_in h v -> Forall2 (text_item h) v ss -> atomize h v = map XIString ss.
  Proof.
    intros v ss I H. induction H as [|it s v ss H HS IH]; [reflexivity|]. unfold atomize in *. cbn [map].
    destruct (text_item_in it s) as [_ E]; auto; [eapply in_item; eauto; left; auto|]. rewrite E.
    rewrite IH; [reflexivity|]. intros i K. apply I. right. auto.
  Qed.
  Lemma iff_eq : forall (P Q : Prop) (a b : bool), (a = true <-> P) -> (b = true <-> Q) -> (P <-> Q) -> a = b.
  Proof. intros P Q a b A B C. destruct a, b; intuition congruence. Qed.
  Lemma fold_zsum : forall l, fold_right Z.add 0%Z l = zsum l.
  Proof. reflexivity. Qed.
  Lemma split_first : forall t s l r, s = l ++ t ++ r -> (forall l' r', s = l' ++ t ++ r' -> List.length l <= List.length l') ->
    split_once t s = Some (l, r).
  Proof.
    intros t s l r E F. destruct (split_once t s) as [[l2 r2]|] eqn:Q.
    - assert (E2 := split_once_some _ _ _ _ Q). assert (L : List.length l = List.length l2).
      { apply Nat.le_antisymm; [eapply F; eauto|]. eapply split_once_first; eauto. }
      rewrite E in E2. clear F Q E. assert (l = l2).
      { apply (f_equal (firstn (List.length l))) in E2. rewrite firstn_app, Nat.sub_diag, firstn_all in E2. cbn in E2.
        rewrite app_nil_r in E2. rewrite L in E2. rewrite firstn_app, Nat.sub_diag, firstn_all in E2. cbn in E2. rewrite app_nil_r in E2. auto. }
      subst. apply app_inv_head in E2. apply app_inv_head in E2. subst. reflexivity.
    - exfalso. exact (proj1 (split_once_none t s) Q l r E).
  Qed.

  Ltac fnd f := match goal with |- evaluate_function _ _ _ ?args _ _ = _ =>
      unfold evaluate_function; match goal with |- context [find_function ?n ?k] => change (find_function n k) with (Some f) || replace (find_function n k) with (Some f) by (vm_compute; reflexivity) end;
      cbn iota; cbn [call_fn arg nth_error] end.
  Lemma library_ok : forall f name args v, library h f name args v -> item_in h (f_item f) -> (forall a, In a args -> seq_in h a) ->
    forall callf e, at_focus f e -> evaluate_function h callf (lit "fn:" ++ name) args [f_item f] e = Ok (v, e).
  Proof.
    intros f name args v L FI AI callf e [P1 P2]. destruct L.
    - fnd F_true. reflexivity.
    - fnd F_false. reflexivity.
    - fnd F_not. unfold fn_not. apply ebv_iff in H. rewrite H. reflexivity.
    - fnd F_boolean. unfold fn_boolean. apply ebv_iff in H. rewrite H. reflexivity.
    - fnd C_position. rewrite P1. reflexivity.
    - fnd C_last. rewrite P2. reflexivity.
    - fnd F_count. reflexivity.
    - fnd F_empty. unfold fn_empty, pure. cbn [bind]. unfold sing_bool. do 4 f_equal. 
      apply (iff_eq (List.length v = 0) (v = [])); [apply Nat.eqb_eq|auto|]. apply length_zero_iff_nil.
    - fnd F_exists. unfold fn_exists, pure. cbn [bind]. unfold sing_bool. do 4 f_equal. 
      apply (iff_eq (List.length v <> 0) (v <> [])); [|auto|rewrite length_zero_iff_nil; reflexivity].
      rewrite negb_true_iff, Nat.eqb_neq. reflexivity.
    - fnd F_string. rewrite (text_arg_string v s); auto. apply AI. left. auto.
    - fnd C_string_0. rewrite (text_arg_string [f_item f] s); [reflexivity| |constructor; auto].
      intros i [<-|[]]. exact FI.
    - unfold evaluate_function. change (lit "fn:" ++ lit "concat") with (lit "fn:concat"). rewrite find_concat. cbn iota. cbn [call_fn].
      unfold fn_concat. rewrite (text_args vs ss); auto.
    - fnd F_string_join. unfold fn_string_join. cbn [get_singleton_string bind]. rewrite (strings_of v ss); auto.
      apply AI. left. auto.
    - fnd F_string_length. destruct H as [->|[-> ->]]; reflexivity.
    - fnd F_contains. unfold fn_contains. rewrite (opt_string_arg _ _ H), (opt_string_arg _ _ H0). cbn [bind pure]. unfold sing_bool.
      do 4 f_equal. apply (iff_eq (exists l r, s = l ++ t ++ r) (exists l r, s = l ++ t ++ r)); [|auto|reflexivity].
      unfold str_contains. destruct (split_once t s) as [[l r]|] eqn:E.
      + split; auto. intros _. exists l, r. apply split_once_some. auto.
      + split; [discriminate|]. intros [l [r X]]. exfalso. exact (proj1 (split_once_none t s) E l r X).
    - fnd F_starts_with. unfold fn_starts_with. rewrite (opt_string_arg _ _ H), (opt_string_arg _ _ H0). cbn [bind pure]. unfold sing_bool.
      do 4 f_equal. eapply iff_eq; [apply starts_with_true|exact H1|reflexivity].
    - fnd F_ends_with. unfold fn_ends_with. rewrite (opt_string_arg _ _ H), (opt_string_arg _ _ H0). cbn [bind pure]. unfold sing_bool.
      do 4 f_equal. eapply iff_eq; [apply starts_with_true|exact H1|]. split; intros [u U].
      + exists (rev u). rewrite <- (rev_involutive s), U, rev_app_distr, rev_involutive. reflexivity.
      + exists (rev u). subst s. rewrite rev_app_distr. reflexivity.
    - fnd F_substring_before. unfold fn_substring_before. rewrite (opt_string_arg _ _ H), (opt_string_arg _ _ H0). cbn [bind pure].
      rewrite (split_first t s l r); auto.
    - fnd F_substring_after. unfold fn_substring_after. rewrite (opt_string_arg _ _ H), (opt_string_arg _ _ H0). cbn [bind pure].
      rewrite (split_first t s l r); auto.
    - assert (E := proj2 (split_once_none t s) H2). destruct H as [->| ->].
      + fnd F_substring_before. unfold fn_substring_before. rewrite (opt_string_arg _ _ H0), (opt_string_arg _ _ H1). cbn [bind pure]. rewrite E. reflexivity.
      + fnd F_substring_after. unfold fn_substring_after. rewrite (opt_string_arg _ _ H0), (opt_string_arg _ _ H1). cbn [bind pure]. rewrite E. reflexivity.
    - fnd F_name. reflexivity.
    - fnd C_name_0. rewrite H. reflexivity.
    - fnd F_local_name. unfold fn_local_name, fn_of_node. cbn [get_singleton_node bind pure]. unfold local_name. rewrite H0.
      rewrite (split_first (lit ":") _ p l); auto. intros l' r' E. apply Nat.nlt_ge. intro Q. apply H.
      apply (f_equal (fun x => nth_error x (List.length l'))) in E. rewrite (nth_error_app2 l') in E by lia. rewrite Nat.sub_diag in E.
      rewrite nth_error_app1 in E by lia. cbn in E. eapply nth_error_In; eauto.
    - fnd F_local_name. unfold fn_local_name, fn_of_node. cbn [get_singleton_node bind pure]. unfold local_name.
      rewrite (proj2 (split_once_none (lit ":") (n_name (Dom.get h i)))); auto. intros l r E. apply H. rewrite E.
      apply in_or_app. right. left. reflexivity.
    - fnd F_root. unfold fn_root. cbn [get_singleton_node]. rewrite (root_zero h order SE PO); auto. apply item_node_in. apply (AI [XINode i]); left; auto.
    - fnd F_reverse. reflexivity.
    - fnd F_head. reflexivity.
    - fnd F_head. reflexivity.
    - fnd F_tail. reflexivity.
    - fnd F_tail. reflexivity.
    - fnd F_data. unfold fn_data. rewrite (texts_of v ss); auto. apply AI. left. auto.
    - fnd F_sum. unfold fn_sum. destruct l as [|z l]; [reflexivity|].
      remember (z :: l) as m. replace (map XIInteger m) with (XIInteger z :: map XIInteger l) at 1 by (subst; reflexivity).
      rewrite sum_loop_ints; [reflexivity|]. exact H.
    - fnd F_max. unfold fn_max, fn_extremum. destruct l as [|z l]; [destruct H|].
      destruct (extremum_ints (value_compare_lt h) (fun a b => (b <= a)%Z)) with (l := z :: l) (m := z) as [x [X [I [B A]]]].
      + intros a b. exists (a <? b)%Z. split; [reflexivity|]. rewrite Z.ltb_lt, Z.ltb_ge. lia.
      + intro; lia.
      + intros; lia.
      + cbn [map] in *. rewrite X. cbn [bind pure]. do 4 f_equal. apply Z.le_antisymm.
        * destruct I as [->|I]; apply H0; auto. left. auto.
        * apply A. exact H.
    - fnd F_min. unfold fn_min, fn_extremum. destruct l as [|z l]; [destruct H|].
      destruct (extremum_ints (value_compare_gt h) (fun a b => (a <= b)%Z)) with (l := z :: l) (m := z) as [x [X [I [B A]]]].
      + intros a b. exists (a >? b)%Z. split; [reflexivity|]. rewrite Z.gtb_lt, Z.gtb_ltb, Z.ltb_ge. lia.
      + intro; lia.
      + intros; lia.
      + cbn [map] in *. rewrite X. cbn [bind pure]. do 4 f_equal. apply Z.le_antisymm.
        * apply A. exact H.
        * destruct I as [->|I]; apply H0; auto. left. auto.
  Qed.
End Lib.

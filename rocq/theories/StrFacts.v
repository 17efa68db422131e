(* Lemmas about the string operations of Str.v *)
Require Import Bool List NArith Ascii String Lia.
From Verif Require Import Str.
Import ListNotations.
Open Scope N_scope.

Lemma str_eqb_eq : forall a b, str_eqb a b = true <-> a = b.
Proof.
  induction a as [|x a IH]; destruct b as [|y b]; simpl; split; intro H; try congruence; try discriminate.
  - apply andb_true_iff in H. destruct H as [H1 H2].
    apply N.eqb_eq in H1. apply IH in H2. congruence.
  - injection H as -> ->. rewrite N.eqb_refl. simpl. apply IH. reflexivity.
Qed.

Lemma str_eqb_refl : forall a, str_eqb a a = true.
Proof. intro a. apply str_eqb_eq. reflexivity. Qed.

Lemma str_eqb_neq : forall a b, str_eqb a b = false <-> a <> b.
Proof.
  intros a b. split; intro H.
  - intro E. subst. rewrite str_eqb_refl in H. discriminate.
  - destruct (str_eqb a b) eqn:E; auto. apply str_eqb_eq in E. contradiction.
Qed.

Lemma str_eqb_sym : forall a b, str_eqb a b = str_eqb b a.
Proof.
  intros a b. destruct (str_eqb a b) eqn:E.
  - apply str_eqb_eq in E. subst. symmetry. apply str_eqb_refl.
  - symmetry. apply str_eqb_neq. apply str_eqb_neq in E. congruence.
Qed.

Lemma str_eq_dec : forall a b : str, {a = b} + {a <> b}.
Proof. apply list_eq_dec. apply N.eq_dec. Qed.

Lemma strip_prefix_app : forall p s, strip_prefix p (p ++ s) = Some s.
Proof. induction p; simpl; intros; auto. rewrite N.eqb_refl. auto. Qed.

Lemma strip_prefix_some : forall p s r, strip_prefix p s = Some r <-> s = p ++ r.
Proof.
  induction p as [|x p IH]; simpl; intros s r.
  - split; intro H; [injection H; auto | subst; auto].
  - destruct s as [|c s]; [split; intro H; discriminate|].
    destruct (N.eqb_spec x c) as [->|Hn].
    + rewrite IH. split; intro H; [subst; auto | injection H; auto].
    + split; intro H; [discriminate|]. injection H as H1 H2. congruence.
Qed.

Lemma strip_prefix_none : forall p s, strip_prefix p s = None <-> (forall r, s <> p ++ r).
Proof.
  intros p s. split.
  - intros H r E. apply strip_prefix_some in E. congruence.
  - intros H. destruct (strip_prefix p s) eqn:E; auto.
    apply strip_prefix_some in E. exfalso. eapply H; eauto.
Qed.

Lemma starts_with_true : forall s p, starts_with s p = true <-> exists r, s = p ++ r.
Proof.
  intros s p. unfold starts_with. destruct (strip_prefix p s) eqn:E.
  - apply strip_prefix_some in E. split; eauto.
  - split; [discriminate|]. intros [r Hr]. apply strip_prefix_some in Hr. congruence.
Qed.

Lemma starts_with_false : forall s p, starts_with s p = false <-> (forall r, s <> p ++ r).
Proof.
  intros s p. split.
  - intros H r E. assert (starts_with s p = true) by (apply starts_with_true; eauto). congruence.
  - intros H. destruct (starts_with s p) eqn:E; auto.
    apply starts_with_true in E. destruct E as [r E]. exfalso. eapply H; eauto.
Qed.

Lemma split_once_some : forall p s b a,
  split_once p s = Some (b, a) -> s = b ++ p ++ a.
Proof.
  intros p s. induction s as [|c s IH]; intros b a H; simpl in H.
  - destruct (strip_prefix p []) eqn:E; [|discriminate].
    injection H as <- <-. apply strip_prefix_some in E. auto.
  - destruct (strip_prefix p (c :: s)) eqn:E.
    + injection H as <- <-. apply strip_prefix_some in E. auto.
    + destruct (split_once p s) as [[b' a']|] eqn:E2; [|discriminate].
      injection H as <- <-. simpl. f_equal. apply IH. reflexivity.
Qed.

Lemma split_once_unfold : forall p s,
  split_once p s =
  match strip_prefix p s with
  | Some r => Some ([], r)
  | None => match s with
            | [] => None
            | c :: s' => match split_once p s' with
                         | Some (b, a) => Some (c :: b, a)
                         | None => None
                         end
            end
  end.
Proof. intros p s. destruct s; reflexivity. Qed.

(* the part before the match contains no earlier match *)
Lemma split_once_first : forall p s b a,
  split_once p s = Some (b, a) ->
  forall u v, s = u ++ p ++ v -> (List.length b <= List.length u)%nat.
Proof.
  intros p s. induction s as [|c s IH]; intros b a H u v E; rewrite split_once_unfold in H.
  - destruct (strip_prefix p []) eqn:E1; [|discriminate]. injection H as <- <-. simpl. lia.
  - destruct (strip_prefix p (c :: s)) eqn:E1.
    + injection H as <- <-. simpl. lia.
    + destruct (split_once p s) as [[b' a']|] eqn:E2; [|discriminate].
      injection H as <- <-. destruct u as [|x u].
      * simpl in E. exfalso. apply (proj1 (strip_prefix_none _ _) E1 v). exact E.
      * simpl in E. injection E as -> E. specialize (IH b' a' eq_refl u v E). simpl. lia.
Qed.

Lemma split_once_none : forall p s,
  split_once p s = None <-> (forall u v, s <> u ++ p ++ v).
Proof.
  intros p s. induction s as [|c s IH]; rewrite split_once_unfold.
  - destruct (strip_prefix p []) as [s|] eqn:E.
    + split; [discriminate|]. intros H. apply strip_prefix_some in E. exfalso.
      apply (H [] s). exact E.
    + split; auto. intros _ u v H. destruct u; [|discriminate].
      apply (proj1 (strip_prefix_none _ _) E v). exact H.
  - destruct (strip_prefix p (c :: s)) as [s0|] eqn:E.
    + split; [discriminate|]. intros H. apply strip_prefix_some in E. exfalso.
      apply (H [] s0). exact E.
    + destruct (split_once p s) as [[b a]|] eqn:E2.
      * split; [discriminate|]. intros H. exfalso. apply split_once_some in E2.
        apply (H (c :: b) a). simpl. congruence.
      * split; auto. intros _ u v H. destruct u as [|x u].
        -- apply (proj1 (strip_prefix_none _ _) E v). exact H.
        -- simpl in H. injection H as -> H. apply (proj1 IH eq_refl u v H).
Qed.

Lemma replace_nil : forall p r, replace p r [] = [].
Proof. reflexivity. Qed.

Lemma replace_aux_skip : forall p r u s,
  replace_aux p r (List.length u) (u ++ s) = replace_aux p r 0 s.
Proof. induction u; simpl; auto. Qed.

Lemma replace_hit : forall c p r s,
  replace (c :: p) r ((c :: p) ++ s) = r ++ replace (c :: p) r s.
Proof.
  intros c p r s. unfold replace at 1. cbn [app replace_aux].
  replace (starts_with (c :: p ++ s) (c :: p)) with true.
  - f_equal. cbn [List.length]. rewrite PeanoNat.Nat.sub_succ, PeanoNat.Nat.sub_0_r.
    rewrite replace_aux_skip. reflexivity.
  - symmetry. apply starts_with_true. exists s. reflexivity.
Qed.

Lemma replace_miss : forall p r c s,
  starts_with (c :: s) p = false ->
  replace p r (c :: s) = c :: replace p r s.
Proof. intros p r c s H. unfold replace at 1. cbn [replace_aux]. rewrite H. reflexivity. Qed.

Lemma replace_miss_head : forall p0 p r c s,
  c <> p0 -> replace (p0 :: p) r (c :: s) = c :: replace (p0 :: p) r s.
Proof.
  intros. apply replace_miss. apply starts_with_false. intros t E. injection E as E1 E2. congruence.
Qed.

(* replacing a single character *)
Lemma replace_single : forall x r s,
  replace [x] r s = flat_map (fun c => if c =? x then r else [c]) s.
Proof.
  intros x r. induction s as [|c s IH]; auto.
  cbn [flat_map]. destruct (N.eqb_spec c x) as [->|Hn].
  - change (x :: s) with ([x] ++ s). rewrite replace_hit. rewrite IH. reflexivity.
  - rewrite replace_miss_head by auto. rewrite IH. reflexivity.
Qed.

Lemma flat_map_flat_map : forall (A B C : Type) (f : A -> list B) (g : B -> list C) l,
  flat_map g (flat_map f l) = flat_map (fun x => flat_map g (f x)) l.
Proof. intros. induction l; simpl; auto. rewrite flat_map_app, IHl. reflexivity. Qed.

(* C07: exactly which sequences of tags new_document accepts. *)
Require Import Bool List NArith ZArith Ascii String Lia.
From Verif Require Import Str StrFacts Sax Dom SpecTokens SpecText SpecTree HeapFacts BuildFacts SaxFacts DocFacts TermFacts.
Import ListNotations.
Open Scope nat_scope.

(* [accepted_tags ts st]: every end tag closes the most recently opened, still open element and carries its name, or has no name and
   stands outside every element; [st] lists the elements still open, innermost first *)
Inductive accepted_tags : list token -> list str -> Prop :=
| ac_nil : accepted_tags [] []
| ac_start : forall ts st n a, accepted_tags ts st -> accepted_tags (ts ++ [TStart n a]) (n :: st)
| ac_end : forall ts st n, accepted_tags ts (n :: st) -> accepted_tags (ts ++ [TEnd n]) st
| ac_stray : forall ts, accepted_tags ts [] -> accepted_tags (ts ++ [TEnd []]) []
| ac_other : forall ts st t, accepted_tags ts st -> (forall n a, t <> TStart n a) -> (forall n, t <> TEnd n) -> accepted_tags (ts ++ [t]) st.

Fixpoint run_tags (st : list str) (ts : list token) : option (list str) :=
  match ts with
  | [] => Some st
  | TStart n _ :: ts' => run_tags (n :: st) ts'
  | TEnd n :: ts' => match st with
                     | x :: st' => if str_eqb x n then run_tags st' ts' else None
                     | [] => if str_eqb n [] then run_tags [] ts' else None
                     end
  | _ :: ts' => run_tags st ts'
  end.
Lemma run_tags_app : forall ts ts' st, run_tags st (ts ++ ts') = match run_tags st ts with Some st' => run_tags st' ts' | None => None end.
Proof.
  induction ts as [|t ts IH]; intros ts' st; auto.
  destruct t; cbn [app run_tags]; auto. destruct st as [|x st]; auto; [destruct (str_eqb name [])|destruct (str_eqb x name)]; auto.
Qed.
Lemma accepted_run : forall ts st, accepted_tags ts st <-> run_tags [] ts = Some st.
Proof.
  intros ts st. split.
  - intro H. induction H as [|ts st n a H IH|ts st n H IH|ts H IH|ts st t H IH H1 H2]; auto;
      rewrite run_tags_app, IH; cbn; rewrite ?str_eqb_refl; auto.
    destruct t; auto; [exfalso; eapply H1; eauto | exfalso; eapply H2; eauto].
  - revert st. induction ts as [|t ts IH] using rev_ind; intros st H.
    + cbn in H. injection H as <-. constructor.
    + rewrite run_tags_app in H. destruct (run_tags [] ts) as [st'|] eqn:E; [|discriminate].
      specialize (IH st' eq_refl).
      destruct t; cbn [run_tags] in H; try (injection H as <-; apply ac_other; auto; intros; discriminate).
      * injection H as <-. apply ac_start. auto.
      * destruct st' as [|x st'].
        -- destruct (str_eqb name []) eqn:En; [|discriminate]. apply str_eqb_eq in En. injection H as <-. subst. apply ac_stray. auto.
        -- destruct (str_eqb x name) eqn:En; [|discriminate]. apply str_eqb_eq in En. injection H as <-. apply ac_end. subst. auto.
Qed.
Lemma steps_tags : forall ts h fs c st, building h fs c -> path_names fs c = st ++ [[]] ->
  match run_tags st ts with
  | Some st' => exists h' fs' c', doc_steps h (tid c) ts = Ok (h', tid c') /\ building h' fs' c' /\ path_names fs' c' = st' ++ [[]]
  | None => doc_steps h (tid c) ts = Err XmlSyntaxError
  end.
Proof.
  induction ts as [|t ts IH]; intros h fs c st B P; cbn [run_tags doc_steps].
  - exists h, fs, c. auto.
  - assert (C : t = TEnd [] \/ t <> TEnd []).
    { destruct t; try (right; discriminate). destruct name; [left; reflexivity|right; discriminate]. }
    destruct C as [->|Ht].
    + cbn [doc_step]. destruct (building_get _ _ _ B) as [o Hg]. rewrite Hg. cbn [n_name n_parent]. destruct st as [|x st].
      * change (str_eqb [] []) with true. cbn iota. unfold path_names in P. cbn [app] in P. injection P as P1 P2. rewrite P1. cbn [str_eqb].
        destruct fs as [|f fs]; [|discriminate P2]. cbn [bind]. apply (IH h [] c []); auto. unfold path_names. rewrite P1. reflexivity.
      * unfold path_names in P. cbn [app] in P. injection P as P1 P2. rewrite P1. destruct (str_eqb x []) eqn:En; [|reflexivity].
        apply str_eqb_eq in En. subst x. destruct fs as [|f fs]; [destruct st; discriminate P2|]. cbn [bind].
        apply (IH h fs (plug f c) st); [apply building_leave; auto|]. exact P2.
    + pose proof (doc_step_open h fs c t st B Ht P) as S.
      destruct t as [|name attr|name|s|target inst|cm|dr].
      2: { destruct S as [h1 [fs1 [c1 [E [B1 P1]]]]]. rewrite E. cbn [bind]. apply (IH h1 fs1 c1); auto. }
      2: { destruct S as [[st' [-> [fs1 [c1 [E [B1 P1]]]]]]|[E Hno]]; rewrite E; cbn [bind].
           - rewrite str_eqb_refl. apply (IH h fs1 c1); auto.
           - destruct st as [|x st].
             + destruct (str_eqb name []) eqn:En; auto. apply str_eqb_eq in En. congruence.
             + destruct (str_eqb x name) eqn:En; auto. apply str_eqb_eq in En. exfalso. apply Hno. subst. eauto. }
      all: destruct S as [h1 [c1 [E [B1 P1]]]]; rewrite E; cbn [bind]; apply (IH h1 fs c1); auto.
Qed.
(* accepted exactly when the token stream exists and its tags are accepted; otherwise a syntax error, unless reading never ends (C06) *)
Theorem C07_exact : forall xml,
  (forall h, new_document xml = Ok h -> exists ts st, tokens (doc_fuel xml) (sax_new xml) = Ok ts /\ accepted_tags ts st) /\
  (forall ts fuel, tokens fuel (sax_new xml) = Ok ts ->
     ((exists st, accepted_tags ts st) -> exists h, new_document xml = Ok h) /\
     ((~ exists st, accepted_tags ts st) -> new_document xml = Err XmlSyntaxError)).
Proof.
  intro xml.
  assert (G : forall ts fuel, tokens fuel (sax_new xml) = Ok ts ->
    match run_tags [] ts with Some _ => exists h, new_document xml = Ok h | None => new_document xml = Err XmlSyntaxError end).
  { intros ts fuel E.
    assert (E' : tokens (doc_fuel xml) (sax_new xml) = Ok ts) by (eapply tokens_enough; eauto; [discriminate|]; apply M_sax_new).
    pose proof (steps_tags ts _ _ _ [] building_init eq_refl) as S.
    unfold new_document, new_document_fuel. cbn [make_new_rc_node fst tid app List.length] in *.
    rewrite (doc_loop_tokens _ _ _ _ _ E'). destruct (run_tags [] ts) as [st|].
    - destruct S as [h' [fs' [c' [-> _]]]]. cbn [bind]. eauto.
    - rewrite S. reflexivity. }
  split.
  - intros h E. destruct (new_document_ok_tokens xml h E) as [ts T]. exists ts. specialize (G ts _ T). destruct (run_tags [] ts) as [st|] eqn:R.
    + exists st. split; auto. apply accepted_run. exact R.
    + congruence.
  - intros ts fuel T. specialize (G ts _ T). destruct (run_tags [] ts) as [st|] eqn:R.
    + split; auto. intro N. exfalso. apply N. exists st. apply accepted_run. exact R.
    + split; auto. intros [st A]. apply accepted_run in A. congruence.
Qed.
Print Assumptions C07_exact.
(* tags that are accepted but not balanced: exactly the two defects of C07_balanced_refuted *)
Theorem C07_defects : forall ts st, accepted_tags ts st -> ~ balanced ts -> st <> [] \/ In (TEnd []) ts.
Proof.
  intros ts st A N. assert (G : open_tags ts st \/ In (TEnd []) ts).
  { clear N. induction A as [|ts st n a H IH|ts st n H IH|ts H IH|ts st t H IH H1 H2].
    - left. constructor.
    - destruct IH; [left; constructor; auto|right; apply in_or_app; auto].
    - destruct IH; [left; eapply ot_end; eauto|right; apply in_or_app; auto].
    - right. apply in_or_app. right. left. reflexivity.
    - destruct IH; [left; apply ot_other; auto|right; apply in_or_app; auto]. }
  destruct G as [G|G]; auto. destruct st as [|x st]; [destruct (N G)|left; discriminate].
Qed.
Example C07_exact_example : exists ts st, tokens 100 (sax_new (lit "<a></a></><b>")) = Ok ts /\ accepted_tags ts st /\ st = [lit "b"] /\
  (exists h, new_document (lit "<a></a></><b>") = Ok h) /\ new_document (lit "<a></></a>") = Err XmlSyntaxError.
Proof.
  eexists _, _. split; [vm_compute; reflexivity|]. split; [apply accepted_run; vm_compute; reflexivity|]. split; [reflexivity|].
  split; [eexists|]; vm_compute; reflexivity.
Qed.

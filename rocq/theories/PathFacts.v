(* Facts about location paths (SpecPath). *)
Require Import Bool List NArith ZArith Ascii String Lia Sorted Classical_Prop.
From Verif Require Import Str StrFacts Sax Dom SpecTree HeapFacts BuildFacts DocFacts Axes SpecEdit SpecAxes AxesFacts SessionFacts Lexer FuncTable Parser SpecExpr PrecFacts PropParse Num Item Func Types Eval EvalFacts
  SpecOper ItemFacts SpecFunc FuncFacts SpecTypes SpecEval EnvFacts SpecInt IntFacts PropEval3 PropInt SpecSem SemFacts SemNode SemLib SemOper SemIn SemMain SemKind SpecPath.
Import ListNotations.
Open Scope nat_scope.

Lemma choose_list : forall (B : Type) (d : B) (Q : nat -> B -> Prop) l, (forall x, In x l -> exists b, Q x b) ->
  exists g, forall x, In x l -> Q x (g x).
Proof.
  intros B d Q. induction l as [|a l IH]; intro H; [exists (fun _ => d); intros x []|].
  destruct (H a (or_introl eq_refl)) as [b Hb]. destruct IH as [g G]; [intros x I; apply H; right; auto|].
  exists (fun x => if Nat.eq_dec x a then b else g x). intros x I. destruct (Nat.eq_dec x a) as [->|N]; auto.
  apply G. destruct I as [->|I]; [congruence|auto].
Qed.
Lemma pick_map : forall A B (f : A -> B) l keep, pick keep (map f l) = map f (pick keep l).
Proof.
  intros A B f. induction l as [|a l IH]; intro keep; [reflexivity|]. cbn [map]. rewrite !pick_cons, IH, map_app. destruct (keep 1); reflexivity.
Qed.
Lemma pick_nth : forall A (l : list A) keep x, In x (pick keep l) <-> exists k, nth_error l k = Some x /\ keep (S k) = true.
Proof.
  intro A. induction l as [|a l IH]; intros keep x.
  - cbn. split; [intros []|]. intros [[|k] [E _]]; discriminate E.
  - rewrite pick_cons, in_app_iff, IH. split.
    + intros [I|[k [E K]]]; [|exists (S k); auto]. destruct (keep 1) eqn:K; [|destruct I]. destruct I as [->|[]]. exists 0. auto.
    + intros [[|k] [E K]]; [|right; exists k; auto]. left. rewrite K. cbn in E. injection E as ->. left. reflexivity.
Qed.
Lemma pick_sub_sorted : forall A (R : A -> A -> Prop) l keep, StronglySorted R l -> StronglySorted R (pick keep l).
Proof.
  intros A R. induction l as [|a l IH]; intros keep S; [constructor|]. inversion S as [|? ? S' F]; subst. rewrite pick_cons.
  destruct (keep 1); [|apply IH; auto]. cbn [app]. constructor; [apply IH; auto|]. rewrite Forall_forall in *. intros x I. apply F.
  apply pick_nth in I. destruct I as [k [E _]]. eapply nth_error_In; eauto.
Qed.
Lemma nth_error_rev : forall A (l : list A) k, k < List.length l -> nth_error (rev l) k = nth_error l (List.length l - S k).
Proof.
  intros A l k K. destruct l as [|d l0] eqn:E; [cbn in K; lia|]. rewrite <- E in *.
  rewrite (nth_error_nth' (rev l) d) by (rewrite rev_length; auto). rewrite (nth_error_nth' l d) by lia. rewrite rev_nth by auto. reflexivity.
Qed.

(* the nodes after (before) a node, outside it, are below a following (preceding) sibling of it or of an ancestor *)
Lemma frame_facts : forall h f fs s, document h (fill (f :: fs) s) ->
  parent h (tid s) = Some (f_id f) /\ children h (f_id f) = map tid (f_left f) ++ tid s :: map tid (f_right f) /\
  NoDup (map tid (f_left f) ++ tid s :: map tid (f_right f)) /\
  forall u, In u (f_left f ++ f_right f) -> forall x, In x (node_ids u) <-> x = tid u \/ descendant h x (tid u).
Proof.
  intros h f fs s D. pose proof D as [R _].
  destruct (fill_get h (f :: fs) s R) as [o [_ [Hg _]]].
  assert (P : parent h (tid s) = Some (f_id f)) by (unfold parent; rewrite Hg; reflexivity).
  destruct (fill_get h fs (plug f s) R) as [o2 [_ [Hg2 _]]].
  assert (Ec : children h (f_id f) = map tid (f_left f) ++ tid s :: map tid (f_right f)).
  { unfold children. unfold plug in Hg2. cbn [tid tkids] in Hg2. rewrite Hg2. cbn [n_children]. rewrite map_app. reflexivity. }
  split; auto. split; auto. split.
  - rewrite <- Ec. pose proof (wl_once _ _ _ (document_well_linked h _ D) (f_id f)) as Q.
    apply NoDup_app_inv in Q; [tauto|]. apply (frame_ids_in (f :: fs) s). simpl. auto.
  - intros u U x. cbn [fill] in R. unfold plug in R.
    match type of R with rep _ _ (fill _ (T ?i ?ty ?nm ?v ?ats ?ks)) => destruct (fill_kid fs (T i ty nm v ats ks) u) as [g [E _]] end.
    { cbn [tkids]. apply in_app_or in U. apply in_or_app. destruct U; [left|right; right]; auto. }
    rewrite E in R. rewrite node_ids_head. cbn [In]. rewrite (descendant_fill _ h u x R). intuition congruence.
Qed.
Lemma node_ids_split_flat : forall h l (f : frame), (forall u, In u l -> forall x, In x (node_ids u) <-> x = tid u \/ descendant h x (tid u)) ->
  forall x, In x (flat_map node_ids l) <-> exists y, In y (map tid l) /\ (x = y \/ descendant h x y).
Proof.
  intros h l f H x. rewrite in_flat_map. split.
  - intros [u [U I]]. exists (tid u). split; [apply in_map; auto|]. apply (H u U). exact I.
  - intros [y [I D]]. apply in_map_iff in I. destruct I as [u [<- U]]. exists u. split; auto. apply (H u U). exact D.
Qed.
Lemma up_cases : forall h n p m, parent h n = Some p -> (m = n \/ ancestor h m n <-> m = n \/ (m = p \/ ancestor h m p)).
Proof.
  intros h n p m P. split; (intros [->|A]; [left; reflexivity|right]).
  - inversion A as [? q E|? q a E A']; subst; rewrite P in E; injection E as <-; auto.
  - destruct A as [->|A]; [apply anc_parent; auto|eapply anc_up; eauto].
Qed.
Lemma na_siblings : forall fs s h x, document h (fill fs s) ->
  (In x (na fs) <-> exists m y, (m = tid s \/ ancestor h m (tid s)) /\ following_sibling_of h y m /\ (x = y \/ descendant h x y)).
Proof.
  induction fs as [|f fs IH]; intros s h x D.
  - destruct (fill_get h [] s (proj1 D)) as [o [_ [Hg _]]].
    assert (P : parent h (tid s) = None) by (unfold parent; rewrite Hg; reflexivity). split; [intros []|].
    intros [m [y [[->|A] [[q [Q _]] _]]]]; [congruence|]. inversion A; congruence.
  - destruct (frame_facts h f fs s D) as [P [Ec [Nc U]]]. cbn [na]. rewrite in_app_iff.
    rewrite (node_ids_split_flat h (f_right f) f) by (intros u I; apply U; apply in_or_app; auto).
    cbn [fill] in D. rewrite (IH (plug f s) h x D). cbn [plug tid].
    assert (SB : forall y, following_sibling_of h y (tid s) <-> In y (map tid (f_right f))).
    { intro y. unfold following_sibling_of. rewrite <- (proj1 (before_mid _ _ _ y Nc)), <- Ec. split; [|intro B; eauto].
      intros [q [Q B]]. rewrite P in Q. injection Q as <-. exact B. }
    split.
    + intros [[y [I Dy]]|[m [y [M R]]]]; [exists (tid s), y|exists m, y].
      * split; auto. split; [apply SB; exact I|exact Dy].
      * split; [|exact R]. apply (up_cases h _ _ m P). auto.
    + intros [m [y [M [F Dy]]]]. apply (up_cases h _ _ m P) in M. destruct M as [->|M]; [left; exists y; split; [apply SB; exact F|exact Dy]|].
      right. exists m, y. auto.
Qed.
Lemma nb_siblings : forall fs s h x, document h (fill fs s) ->
  (In x (nb fs) /\ ~ In x (map f_id fs) <-> exists m y, (m = tid s \/ ancestor h m (tid s)) /\ preceding_sibling_of h y m /\ (x = y \/ descendant h x y)).
Proof.
  induction fs as [|f fs IH]; intros s h x D.
  - destruct (fill_get h [] s (proj1 D)) as [o [_ [Hg _]]].
    assert (P : parent h (tid s) = None) by (unfold parent; rewrite Hg; reflexivity). split; [intros [[] _]|].
    intros [m [y [[->|A] [[q [Q _]] _]]]]; [congruence|]. inversion A; congruence.
  - destruct (frame_facts h f fs s D) as [P [Ec [Nc U]]].
    assert (ND := NoDup_node_ids _ (proj2 D)). rewrite node_ids_split in ND. cbn [nb] in ND.
    assert (OUT : forall y, In y (flat_map node_ids (f_left f)) -> ~ In y (map f_id (f :: fs))).
    { intros y I J. rewrite <- app_assoc in ND. apply NoDup_app_inv in ND. destruct ND as [_ [N2 N3]]. cbn [map] in J. destruct J as [<-|J].
      - cbn [app] in N2. inversion N2 as [|? ? N4 _]. apply N4. apply in_or_app. auto.
      - apply (N3 y); [apply frames_in_nb; exact J|]. cbn [app]. right. apply in_or_app. auto. }
    cbn [nb]. rewrite in_app_iff. cbn [In].
    cbn [fill] in D. assert (IHs := IH (plug f s) h x D). cbn [plug tid] in IHs.
    assert (SB : forall y, preceding_sibling_of h y (tid s) <-> In y (map tid (f_left f))).
    { intro y. unfold preceding_sibling_of. rewrite <- (proj2 (before_mid _ _ _ y Nc)), <- Ec. split; [|intro B; eauto].
      intros [q [Q B]]. rewrite P in Q. injection Q as <-. exact B. }
    assert (FL := node_ids_split_flat h (f_left f) f (fun u I => U u (in_or_app _ _ _ (or_introl I))) x).
    split.
    + intros [[I|[I|I]] N].
      * destruct IHs as [IHs _]. destruct IHs as [m [y [M R]]]; [split; [exact I|intro J; apply N; right; exact J]|].
        exists m, y. split; [|exact R]. apply (up_cases h _ _ m P). auto.
      * destruct N. left. exact I.
      * apply FL in I. destruct I as [y [I Dy]]. exists (tid s), y. split; auto. split; [apply SB; exact I|exact Dy].
    + intros [m [y [M [F Dy]]]]. apply (up_cases h _ _ m P) in M. destruct M as [->|M].
      * assert (I : In x (flat_map node_ids (f_left f))) by (apply FL; exists y; split; [apply SB; exact F|exact Dy]).
        split; [auto|]. apply OUT. exact I.
      * destruct (proj2 IHs) as [I N]; [exists m, y; auto|]. split; [auto|]. cbn [map]. intros [J|J]; [|auto].
        rewrite <- J in I. rewrite <- !app_assoc in ND. cbn [app] in ND. apply NoDup_remove_2 in ND. apply ND. apply in_or_app. auto.
Qed.

Section P.
  Variable h : heap.
  Variable order : list nat.
  Hypothesis SE : session h.
  Hypothesis PO : preorder h 0 order.
  Hypothesis AP : apart h.
  Variable kn : known.
  Hypothesis KN : known_of h kn.
  Notation core := (core kn).
  Notation denotes := (denotes h order).
  Notation means := (means h order).
  Notation kind := (kind h).

  (* the local functions of [denotes], on their own *)
  Fixpoint left_of (backwards : bool) (P : nat -> Prop) (ps : list expr) : nat -> Prop :=
    match ps with
    | [] => P
    | q :: r => left_of backwards (fun x => P x /\ (if is_place q then placed order backwards P q x else truth (denotes q x))) r
    end.
  Fixpoint go_of (from : nat -> Prop) (rest : list (bool * expr)) : nat -> Prop :=
    match rest with
    | [] => from
    | (deep, b) :: r => go_of (fun y => exists m k, from m /\ (k = m \/ deep = true /\ descendant h k m) /\ member (denotes b k) y) r
    end.
  Lemma denotes_step : forall f t ps n, denotes (EStep f t ps) n =
    D_nodes (left_of (reverse_axis (form_axis f)) (fun x => axis_has h order (form_axis f) x n /\ passes h (form_axis f) t x) ps).
  Proof. reflexivity. Qed.
  Lemma denotes_path : forall s a rest n, denotes (EPath s a rest) n =
    D_nodes (go_of (fun y => match s with
          | S_here => member (denotes a n) y
          | S_root => member (denotes a 0) y
          | S_all => exists k, (k = 0 \/ descendant h k 0) /\ member (denotes a k) y
          end) rest).
  Proof. reflexivity. Qed.
  Lemma go_ext : forall rest F G x, (forall y, F y <-> G y) -> (go_of F rest x <-> go_of G rest x).
  Proof.
    induction rest as [|[d b] r IH]; intros F G x H; [apply H|]. cbn [go_of]. apply IH. intro y.
    split; intros [m [k [I R]]]; exists m, k; (split; [apply H; exact I|exact R]).
  Qed.

  (* ---- one predicate ---- *)
  Definition decides (q : expr) (x : nat) : Prop :=
    exists vb : xseq * bool, (snd vb = true <-> truth (denotes q x)) /\ (forall p, predicate_truth (fst vb) p (snd vb)) /\
      forall p s vs, means (mkFocus (XINode x) p s) vs q (fst vb).
  Lemma narrow_one : forall bw P l q, exactly order P l ->
    (if is_place q then place_ok q
     else forall x, In x l -> decides q x) ->
    exists r, exactly order (fun x => P x /\ (if is_place q then placed order bw P q x else truth (denotes q x))) r /\
      forall vs ps r', narrows h order vs bw ps (nodes r) r' -> narrows h order vs bw (q :: ps) (nodes l) r'.
  Proof.
    intros bw P l q X Q.
    assert (G : forall keep vals, 
       (forall k x, nth_error l k = Some x -> (keep (S k) = true <-> if is_place q then placed order bw P q x else truth (denotes q x))) ->
       (forall k x vs, nth_error l k = Some x ->
          means (mkFocus (XINode x) (if bw then List.length l - k else S k) (List.length l)) vs q (vals (S k))) ->
       (forall k, k < List.length l -> predicate_truth (vals (S k)) (if bw then List.length l - k else S k) (keep (S k))) ->
       exists r, exactly order (fun x => P x /\ (if is_place q then placed order bw P q x else truth (denotes q x))) r /\
        forall vs ps r', narrows h order vs bw ps (nodes r) r' -> narrows h order vs bw (q :: ps) (nodes l) r').
    { intros keep vals K V T. exists (pick keep l). split.
      - split; [|apply pick_sub_sorted; apply X]. intro x. rewrite pick_nth. split.
        + intros [k [E C]]. split; [apply X; eapply nth_error_In; eauto|]. apply (K k x E). exact C.
        + intros [Px C]. apply X in Px. apply In_nth_error in Px. destruct Px as [k E]. exists k. split; auto. apply (K k x E). exact C.
      - intros vs ps r' N. unfold nodes in *. rewrite <- pick_map in N. eapply nr_cons with (vals := vals) (keep := keep); [| |exact N].
        + intros k it E. rewrite nth_error_map in E. destruct (nth_error l k) as [x|] eqn:E1; [|discriminate E]. injection E as <-.
          rewrite map_length. apply V. exact E1.
        + intros k K1. rewrite map_length in *. apply T. exact K1. }
    (* the node at a place *)
    assert (PL : forall k x pos, nth_error l k = Some x -> pos = (if bw then List.length l - k else S k) ->
       forall j, (exists m, exactly order P m /\ nth_error (if bw then rev m else m) j = Some x) <-> S j = pos).
    { intros k x pos E -> j. assert (KL : k < List.length l) by (apply nth_error_Some; congruence). assert (ND := exactly_sorted h order SE PO P l X). split.
      - intros [m [XM EM]]. assert (m = l) by exact (SemNode.exactly_unique h order SE PO _ _ _ XM X). subst m.
        rewrite NoDup_nth_error in ND. destruct bw.
        + assert (J : j < List.length l) by (rewrite <- (rev_length l); apply nth_error_Some; congruence).
          rewrite nth_error_rev in EM by auto. assert (k = List.length l - S j) by (apply ND; auto; congruence). lia.
        + assert (k = j) by (apply ND; auto; congruence). lia.
      - intro J. exists l. split; auto. destruct bw.
        + rewrite nth_error_rev by lia. replace (List.length l - S j) with k by lia. exact E.
        + injection J as ->. exact E. }
    destruct (is_place q) eqn:IP.
    - destruct q as [k0 d| | | |f [|ar args] | | | | | | | | | | | | | | | | | | | | | | | | | | | ]; try discriminate IP.
      + destruct k0; try discriminate IP. cbn [place_ok] in Q.
        apply (G (fun k => N.eqb (numeral d) (N.of_nat (if bw then S (List.length l) - k else k))) (fun _ => [XIInteger (Z.of_N (numeral d))])).
        * intros k x E. assert (KL : k < List.length l) by (apply nth_error_Some; congruence). rewrite N.eqb_eq. unfold placed. split.
          -- intro H. destruct (numeral d) as [|pp] eqn:ND; [exfalso; destruct bw; lia|].
             assert (S (pred (N.to_nat (N.pos pp))) = (if bw then List.length l - k else S k)) by (destruct bw; lia).
             destruct (proj2 (PL k x _ E eq_refl _) H0) as [m [XM EM]]. exists m, (pred (N.to_nat (N.pos pp))). repeat (split; [assumption|]). lia.
          -- intros [m [j [XM [EM H]]]]. assert (S j = (if bw then List.length l - k else S k)) by (apply (PL k x _ E eq_refl j); exists m; auto).
             destruct bw; lia.
        * intros k x vs E. apply m_integer. exact Q.
        * intros k K. apply pt_number. rewrite N.eqb_eq. destruct bw; lia.
      + cbn [is_place] in IP. destruct (list_eq_dec N.eq_dec f (lit "last")) as [->|]; [|discriminate IP].
        apply (G (fun k => Nat.eqb (List.length l) (if bw then S (List.length l) - k else k)) (fun _ => [XIInteger (Z.of_nat (List.length l))])).
        * intros k x E. assert (KL : k < List.length l) by (apply nth_error_Some; congruence). rewrite Nat.eqb_eq. unfold placed. split.
          -- intro H. assert (S (pred (List.length l)) = (if bw then List.length l - k else S k)) by (destruct bw; lia).
             destruct (proj2 (PL k x _ E eq_refl _) H0) as [m [XM EM]]. exists m, (pred (List.length l)). repeat (split; [assumption|]).
             assert (m = l) by exact (SemNode.exactly_unique h order SE PO _ _ _ XM X). subst m. lia.
          -- intros [m [j [XM [EM H]]]]. assert (S j = (if bw then List.length l - k else S k)) by (apply (PL k x _ E eq_refl j); exists m; auto).
             assert (m = l) by exact (SemNode.exactly_unique h order SE PO _ _ _ XM X). subst m. destruct bw; lia.
        * intros k x vs E. eapply m_call; [constructor|]. apply fv_library.
          apply (lb_last h (mkFocus (XINode x) (if bw then List.length l - k else S k) (List.length l))).
        * intros k K. apply pt_number. rewrite Nat.eqb_eq. destruct bw; lia.
    - destruct (choose_list (xseq * bool) ([], false) _ l Q) as [g Hg].
      apply (G (fun k => match nth_error l (pred k) with Some x => snd (g x) | None => false end)
               (fun k => match nth_error l (pred k) with Some x => fst (g x) | None => [] end)).
      + intros k x E. cbn [pred]. rewrite E. apply Hg. eapply nth_error_In; eauto.
      + intros k x vs E. cbn [pred]. rewrite E. apply Hg. eapply nth_error_In; eauto.
      + intros k K. cbn [pred]. destruct (nth_error l k) as [x|] eqn:E; [|apply pt_empty]. apply Hg. eapply nth_error_In; eauto.
  Qed.

  Lemma narrow_all : forall bw ps P l, exactly order P l ->
    Forall (fun q => if is_place q then place_ok q
     else forall x, P x -> decides q x) ps ->
    exists r, exactly order (left_of bw P ps) r /\ (forall x, In x r -> P x) /\ forall vs, narrows h order vs bw ps (nodes l) (nodes r).
  Proof.
    intros bw. induction ps as [|q ps IH]; intros P l X F.
    - exists l. split; [exact X|]. split; [apply X|]. intro vs. constructor.
    - inversion F as [|? ? Q F']; subst.
      destruct (narrow_one bw P l q X) as [m [XM N]].
      { destruct (is_place q); auto. intros x I. apply Q. apply X. exact I. }
      destruct (IH _ m XM) as [r [XR [IR NR]]].
      { revert F'. apply Forall_impl. intros q' Q'. destruct (is_place q'); auto. intros x [Px _]. apply Q'. exact Px. }
      exists r. split; [exact XR|]. split; [intros x I; apply (IR x I)|]. intro vs. apply N. apply NR.
  Qed.

  (* ---- attribute nodes ---- *)
  Lemma axis_attribute : forall a x n, in_document h 0 n -> axis_has h order a x n -> kind x = Attribute ->
    a = A_attribute \/ (x = n /\ (a = A_self \/ a = A_ancestor_or_self \/ a = A_descendant_or_self)).
  Proof.
    assert (AT : forall x, attached h 0 x -> kind x <> Attribute) by (intros x A; exact (AP x A)).
    assert (PA : forall n p, in_document h 0 n -> parent h n = Some p -> attached h 0 p).
    { intros n p [A|[q [A I]]] P.
      - destruct (session_document h SE) as [t [D [T0 K]]]. rewrite <- T0 in *.
        destruct (attached_context h t n D A) as [fs [s [Et <-]]]. subst t. destruct fs as [|f fs].
        + destruct (fill_get h [] s (proj1 D)) as [o [_ [Hg _]]]. unfold parent in P. rewrite Hg in P. discriminate P.
        + destruct (fill_get h (f :: fs) s (proj1 D)) as [o [_ [Hg _]]]. unfold parent in P. rewrite Hg in P. cbn in P. injection P as <-.
          cbn [fill] in *. apply (context_attached fs h (plug f s)). auto.
      - destruct (attribute_cell h q n SE A I) as [o [nm [v E]]]. unfold parent in P. rewrite E in P. injection P as <-. auto. }
    assert (AA : forall x n, ancestor h x n -> in_document h 0 n -> attached h 0 x).
    { intros x n H. induction H as [n p P|n p a P H IH]; intro I; [eapply PA; eauto|]. apply IH. left. eapply PA; eauto. }
    assert (CH : forall n c, in_document h 0 n -> In c (children h n) -> attached h 0 c).
    { intros n c [A|[q [A I]]] H; [eapply att_child; eauto|]. destruct (attribute_cell h q n SE A I) as [o [nm [v E]]].
      unfold children in H. rewrite E in H. destruct H. }
    assert (DE : forall x n, descendant h x n -> in_document h 0 n -> attached h 0 x).
    { intros x n H. induction H as [n c C|n c d C H IH]; intro I; [eapply CH; eauto|]. apply IH. left. eapply CH; eauto. }
    intros a x n I H K. destruct a; cbn [axis_has] in H; auto; try (right; split; [exact H|auto]; fail).
    - destruct (AT x (AA x n H I) K).
    - destruct H as [->|H]; auto 6. destruct (AT x (AA x n H I) K).
    - destruct (AT x (CH n x I H) K).
    - destruct (AT x (DE x n H I) K).
    - destruct H as [->|H]; auto 6. destruct (AT x (DE x n H I) K).
    - destruct H as [_ [_ H]]. contradiction.
    - destruct H as [p [P B]]. apply before_in in B. destruct (AT x (CH p x (or_introl (PA n p I P)) (proj2 B)) K).
    - destruct (AT x (PA n x I H) K).
    - destruct H as [_ [_ H]]. contradiction.
    - destruct H as [p [P B]]. apply before_in in B. destruct (AT x (CH p x (or_introl (PA n p I P)) (proj1 B)) K).
  Qed.

  (* ---- the meaning ---- *)
  Definition safe (c : bool) (n : nat) : Prop := in_document h 0 n /\ (kind n = Attribute -> c = true).
  Definition ok (o c : bool) (x : nat) : Prop := safe c x /\ (o = true -> kind x = Attribute).
  Definition given (e : expr) (c : bool) (n : nat) : Prop :=
    match denotes e n with
    | D_nodes P => condition e = false /\ exists l, exactly order P l /\ (forall x, P x -> ok (only_attrs e) (attrs e c) x) /\
        forall p s vs, means (mkFocus (XINode n) p s) vs e (nodes l)
    | D_truth Q => condition e = true /\ exists b : bool, (b = true <-> Q) /\
        forall p s vs, means (mkFocus (XINode n) p s) vs e [XIBoolean b]
    end.
  Definition meant (e : expr) : Prop := forall c n, core e c -> wf e -> safe c n -> given e c n.

  Lemma given_nodes : forall e c n, given e c n -> condition e = false ->
    exists l, exactly order (member (denotes e n)) l /\ (forall x, member (denotes e n) x -> ok (only_attrs e) (attrs e c) x) /\
      forall p s vs, means (mkFocus (XINode n) p s) vs e (nodes l).
  Proof. intros e c n G C. unfold given in G. destruct (denotes e n) as [P|Q]; [apply G|]. destruct G as [G _]. congruence. Qed.
  Lemma given_truth : forall e c n, given e c n -> exists v b, ebv v b /\ (b = true <-> truth (denotes e n)) /\
      forall p s vs, means (mkFocus (XINode n) p s) vs e v.
  Proof.
    intros e c n G. unfold given in G. destruct (denotes e n) as [P|Q]; cbn [truth].
    - destruct G as [_ [[|x l] [X [_ M]]]].
      + exists [], false. split; [constructor|]. split; auto. split; [discriminate|]. intros [y Py]. apply X in Py. destruct Py.
      + exists (nodes (x :: l)), true. split; [constructor|]. split; auto. split; auto. intros _. exists x. apply X. left. reflexivity.
    - destruct G as [_ [b [B M]]]. exists [XIBoolean b], b. split; [constructor|]. split; auto.
  Qed.
  Lemma given_condition : forall e c n, given e c n -> condition e = true ->
    exists b : bool, (b = true <-> truth (denotes e n)) /\ forall p s vs, means (mkFocus (XINode n) p s) vs e [XIBoolean b].
  Proof. intros e c n G C. unfold given in G. destruct (denotes e n) as [P|Q]; [|apply G]. destruct G as [G _]. congruence. Qed.
  Lemma sorted_list : forall (P : nat -> Prop) l, (forall x, In x l <-> P x) -> (forall x, P x -> in_document h 0 x) -> exists r, exactly order P r.
  Proof.
    intros P l E I. destruct (sort_exactly h order SE PO l) as [r [_ X]]; [intros x J; apply I, E, J|].
    exists r. eapply exactly_ext; [|exact X]. exact E.
  Qed.
  Lemma desc_safe : forall c m k, safe c m -> k = m \/ descendant h k m -> safe c k.
  Proof.
    intros c m k [I A] D. split.
    - eapply (axis_in_document h order SE PO A_descendant_or_self); eauto.
    - intro K. destruct (axis_attribute A_descendant_or_self k m I D K) as [E|[-> _]]; [discriminate E|auto].
  Qed.
  (* the steps of a path *)
  Fixpoint goc (c : bool) (rest : list (bool * expr)) : Prop :=
    match rest with [] => True | x :: r => condition (snd x) = false /\ core (snd x) c /\ goc (attrs (snd x) c) r end.
  Fixpoint goa (c : bool) (rest : list (bool * expr)) : bool := match rest with [] => c | x :: r => goa (attrs (snd x) c) r end.
  Fixpoint goo (o : bool) (rest : list (bool * expr)) : bool := match rest with [] => o | x :: r => goo (only_attrs (snd x)) r end.
  Lemma walk_all : forall rest o c from l, Forall (fun x => meant (snd x)) rest -> Forall (fun x => wf (snd x)) rest -> goc c rest -> exactly order from l ->
    (forall x, from x -> ok o c x) -> rest <> [] ->
    exists r, exactly order (go_of from rest) r /\ (forall x, go_of from rest x -> ok (goo o rest) (goa c rest) x) /\ forall vs, walks h order vs rest l r.
  Proof.
    induction rest as [|[deep e] rest IH]; intros o c from l F W G X S0 NE; [congruence|]. clear NE.
    assert (S : forall x, from x -> safe c x) by (intros x Fx; apply (S0 x Fx)). clear S0.
    inversion F as [|? ? Me F']; inversion W as [|? ? We W']; subst. cbn [goc snd] in *. destruct G as [CE [Ce G]]. cbn [go_of goa goo snd].
    (* a simple step *)
    assert (ST : forall from l, exactly order from l -> (forall x, from x -> safe c x) ->
      exists r, exactly order (go_of (fun y => exists m, from m /\ member (denotes e m) y) rest) r /\
        (forall x, go_of (fun y => exists m, from m /\ member (denotes e m) y) rest x -> ok (goo (only_attrs e) rest) (goa (attrs e c) rest) x) /\
        forall vs, walks h order vs ((false, e) :: rest) l r).
    { clear from l X S. intros from l X S.
      assert (GV : forall m, In m l -> exists lm, exactly order (member (denotes e m)) lm /\ (forall x, member (denotes e m) x -> ok (only_attrs e) (attrs e c) x) /\
         forall p s vs, means (mkFocus (XINode m) p s) vs e (nodes lm)).
      { intros m I. apply given_nodes; auto. apply Me; auto; apply S, X, I. }
      destruct (choose_list (list nat) [] _ l GV) as [g Hg]. clear GV.
      set (F0 := fun y => exists m, from m /\ member (denotes e m) y) in *.
      assert (SF : forall y, F0 y -> ok (only_attrs e) (attrs e c) y).
      { intros y [m [Fm My]]. apply X in Fm. exact (proj1 (proj2 (Hg m Fm)) y My). }
      assert (EQ : forall y, (exists n, In n l /\ In y (g n)) <-> F0 y).
      { intro y. split.
        - intros [m [I J]]. exists m. split; [apply X; auto|]. apply (proj1 (Hg m I)). exact J.
        - intros [m [Fm My]]. apply X in Fm. exists m. split; auto. apply (proj1 (Hg m Fm)). exact My. }
      destruct (sorted_list F0 (flat_map g l)) as [l' X'].
      { intro y. rewrite in_flat_map. rewrite <- EQ. reflexivity. }
      { intros y Y. apply SF. exact Y. }
      assert (XL : exactly order (fun x => exists n, In n l /\ In x (g n)) l') by (eapply exactly_ext; [|exact X']; intro y; symmetry; apply EQ).
      destruct rest as [|b rest].
      - exists l'. cbn [go_of goa goo]. split; [exact X'|]. split; [exact SF|]. intro vs. eapply w_last; [|exact XL]. intros m p s I. apply (Hg m I).
      - destruct (IH (only_attrs e) (attrs e c) F0 l' F' W' G X' SF) as [r [XR [SR WR]]]; [discriminate|].
        exists r. split; [exact XR|]. split; [exact SR|]. intro vs. eapply w_slash; [discriminate| |exact XL|apply WR]. intros m p s I. apply (Hg m I). }
    destruct deep.
    - set (F1 := fun k => exists m, from m /\ (k = m \/ descendant h k m)) in *.
      assert (S1 : forall k, F1 k -> safe c k) by (intros k [m [Fm D]]; eapply desc_safe; eauto).
      assert (GV : forall m, In m l -> exists lm, exactly order (fun x => x = m \/ descendant h x m) lm).
      { intros m I. destruct (depth_list h order SE PO AP m) as [lm [_ Xm]]; [apply S, X, I|]. exists lm. exact Xm. }
      destruct (choose_list (list nat) [] _ l GV) as [g Hg]. clear GV.
      assert (EQ : forall y, (exists n, In n l /\ In y (g n)) <-> F1 y).
      { intro y. split.
        - intros [m [I J]]. exists m. split; [apply X; auto|]. apply (Hg m I). exact J.
        - intros [m [Fm My]]. apply X in Fm. exists m. split; auto. apply (Hg m Fm). exact My. }
      destruct (sorted_list F1 (flat_map g l)) as [l' X'].
      { intro y. rewrite in_flat_map. rewrite <- EQ. reflexivity. }
      { intros y Y. apply S1. exact Y. }
      destruct (ST F1 l' X' S1) as [r [XR [SR WR]]]. exists r.
      assert (GE : forall x, go_of (fun y => exists m k, from m /\ (k = m \/ true = true /\ descendant h k m) /\ member (denotes e k) y) rest x <->
                             go_of (fun y => exists m, F1 m /\ member (denotes e m) y) rest x).
      { intro x. apply go_ext. intro y. split.
        - intros [m [k [Fm [D M]]]]. exists k. split; auto. exists m. split; auto. destruct D as [->|[_ D]]; auto.
        - intros [k [[m [Fm D]] M]]. exists m, k. repeat (split; auto). destruct D; auto. }
      split; [eapply exactly_ext; [|exact XR]; intro x; symmetry; apply GE|]. split; [intros x Gx; apply SR, GE, Gx|].
      intro vs. eapply w_deep; [|apply WR]. eapply exactly_ext; [|exact X']. intro x. unfold F1. split.
      + intros [m [Fm D]]. exists m. split; auto. apply X. exact Fm.
      + intros [m [Fm D]]. exists m. split; auto. apply X. exact Fm.
    - destruct (ST from l X S) as [r [XR [SR WR]]]. exists r.
      assert (GE : forall x, go_of (fun y => exists m k, from m /\ (k = m \/ false = true /\ descendant h k m) /\ member (denotes e k) y) rest x <->
                             go_of (fun y => exists m, from m /\ member (denotes e m) y) rest x).
      { intro x. apply go_ext. intro y. split.
        - intros [m [k [Fm [[->|[D _]] M]]]]; [|discriminate D]. exists m. auto.
        - intros [m [Fm M]]. exists m, m. auto. }
      split; [eapply exactly_ext; [|exact XR]; intro x; symmetry; apply GE|]. split; [intros x Gx; apply SR, GE, Gx|]. exact WR.
  Qed.

  Lemma zero_safe : safe false 0.
  Proof.
    destruct (order_facts h order SE PO) as [t [D [T0 [K [EO NO]]]]].
    assert (A : attached h 0 0) by constructor. split; [left; exact A|]. intro B. destruct (AP 0 A B).
  Qed.
  Lemma exactly_one : forall n, exactly order (fun x => x = n) [n].
  Proof. intro n. split; [intro x; split; [intros [->|[]]; auto|intros ->; left; auto]|repeat constructor]. Qed.

  Lemma attribute_text : forall x, in_document h 0 x -> kind x = Attribute -> exists s, string_value_of h x s.
  Proof. intros x _ K. exists (n_value (Dom.get h x)). constructor. auto. Qed.
  Lemma operand_text : forall a c n, meant a ->
    (if is_text a then True else condition a = false /\ core a c /\ k_texts kn || only_attrs a = true) ->
    wf a -> safe c n ->
    exists v, (forall p s vs, means (mkFocus (XINode n) p s) vs a v) /\ (forall it, In it v -> exists s, text_item h it s) /\
      forall s, text_from h (denotes a n) a s <-> exists it, In it v /\ text_item h it s.
  Proof.
    intros a c n M C W S.
    assert (E : (exists s0, a = ELit L_string s0) \/ (condition a = false /\ core a c /\ k_texts kn || only_attrs a = true)).
    { destruct (is_text a) eqn:TA; [left|right; exact C]. destruct a as [k0 d| | | |f [|ar args] | | | | | | | | | | | | | | | | | | | | | | | | | | | ]; try discriminate TA.
      destruct k0; try discriminate TA. eauto. }
    destruct E as [[s0 ->]|[CF [CC TX]]].
    - exists [XIString s0]. split; [intros; apply m_string|]. split.
      + intros it [<-|[]]. exists s0. constructor.
      + intro s. cbn [text_from]. split.
        * intros ->. exists (XIString s0). split; [left; reflexivity|constructor].
        * intros [it [[<-|[]] T]]. inversion T. reflexivity.
    - destruct (given_nodes a c n (M c n CC W S) CF) as [l [X [SF MM]]]. exists (nodes l). split; [exact MM|]. split.
      + intros it I. apply in_map_iff in I. destruct I as [x [<- I]]. apply X in I. destruct (SF x I) as [[D _] K].
        assert (exists s, string_value_of h x s) as [s V].
        { apply orb_true_iff in TX. destruct TX as [TX|TX]; [apply (proj2 KN TX x D)|apply attribute_text; auto]. }
        exists s. constructor. exact V.
      + assert (TF : forall s, text_from h (denotes a n) a s = exists x, member (denotes a n) x /\ string_value_of h x s).
        { intro s. destruct a as [k0 d| | | |f [|ar args] | | | | | | | | | | | | | | | | | | | | | | | | | | | ]; try reflexivity. destruct CC. }
        intro s. rewrite TF. split.
        * intros [x [Mx V]]. exists (XINode x). split; [apply in_map; apply X; exact Mx|]. constructor. exact V.
        * intros [it [I T]]. apply in_map_iff in I. destruct I as [x [<- I]]. exists x. split; [apply X; exact I|]. inversion T. assumption.
  Qed.

  (* where the nodes are, whatever is known of the values *)
  Lemma left_sub : forall bw ps P x, left_of bw P ps x -> P x.
  Proof. intros bw. induction ps as [|q ps IH]; intros P x L; [exact L|]. apply IH in L. apply L. Qed.
  Lemma step_ok : forall f t ps c n x, safe c n ->
    axis_has h order (form_axis f) x n /\ passes h (form_axis f) t x -> ok (only_attrs (EStep f t ps)) (attrs (EStep f t ps) c) x.
  Proof.
    intros f t ps c n x S [Ax _]. split.
    - split; [eapply (axis_in_document h order SE PO); [apply S|exact Ax]|]. intro K. cbn [attrs].
      destruct (axis_attribute _ x n (proj1 S) Ax K) as [E|[-> [E|[E|E]]]]; rewrite E; auto; apply S; exact K.
    - cbn [only_attrs]. intro O. destruct (form_axis f); try discriminate O. cbn [axis_has] in Ax. destruct S as [[A|[p [A I]]] _].
      + destruct (attribute_cell h n x SE A Ax) as [o [nm [v E]]]. unfold SpecSem.kind. rewrite E. reflexivity.
      + destruct (attribute_cell h p n SE A I) as [o [nm [v E]]]. unfold attributes in Ax. rewrite E in Ax. destruct Ax.
  Qed.
  Definition placed_well (e : expr) : Prop := forall c n x, core e c -> safe c n -> member (denotes e n) x -> ok (only_attrs e) (attrs e c) x.
  Lemma go_ok : forall rest (o c : bool) (from : nat -> Prop), Forall (fun x => placed_well (snd x)) rest -> goc c rest -> (forall x, from x -> ok o c x) ->
    forall x, go_of from rest x -> ok (goo o rest) (goa c rest) x.
  Proof.
    induction rest as [|[d e] rest IH]; intros o c from F G S x X; [apply S; exact X|]. inversion F as [|? ? Fe F']; subst. destruct G as [_ [Ce G]].
    cbn [go_of goo goa snd] in *. apply (IH (only_attrs e) (attrs e c)) in X; auto.
    intros y [m [k [Fm [D M]]]]. apply (Fe c k y Ce); [|exact M]. apply (desc_safe c m); [apply S; exact Fm|]. destruct D as [->|[_ D]]; auto.
  Qed.
  Lemma core_path : forall s e rest c, core (EPath s e rest) c ->
    core e (match s with S_here => c | _ => false end) /\ goc (attrs e (match s with S_here => c | _ => false end)) rest.
  Proof.
    intros s e rest c [_ [C1 C2]]. split; [exact C1|].
    revert C2. generalize (attrs e (match s with S_here => c | _ => false end)).
    clear. induction rest as [|x rest IH]; intros d G; [exact Logic.I|]. destruct G as [G1 [G2 G3]]. repeat (split; [assumption|]). apply IH. exact G3.
  Qed.
  Lemma attrs_path : forall s e rest c, attrs (EPath s e rest) c = goa (attrs e (match s with S_here => c | _ => false end)) rest.
  Proof.
    intros. cbn [attrs]. generalize (attrs e (match s with S_here => c | _ => false end)). clear.
    induction rest as [|x rest IH]; intro d; [reflexivity|]. cbn [goa]. apply IH.
  Qed.
  Lemma only_path : forall s e rest, only_attrs (EPath s e rest) = goo (only_attrs e) rest.
  Proof.
    intros. cbn [only_attrs]. generalize (only_attrs e). clear. induction rest as [|x rest IH]; intro d; [reflexivity|]. cbn [goo]. apply IH.
  Qed.
  Lemma all_placed : forall e, placed_well e.
  Proof.
    induction e using expr_ind2; intros cc nn xx C S M; try (destruct C; fail); try (destruct M; fail).
    - cbn in M. subst. split; [exact S|discriminate].
    - destruct args as [|a [|]]; destruct M.
    - assert (SA : forall o, (safe (attrs e1 cc) xx \/ safe (attrs e2 cc) xx) -> safe (attrs (EBin o e1 e2) cc) xx).
      { intros o' Y. cbn [attrs]. destruct Y as [[I K]|[I K]]; (split; [exact I|]); intro E; rewrite (K E); auto using orb_true_r. }
      destruct o; try (destruct C; fail); try (destruct M; fail); cbn [SpecPath.denotes member core] in C, M; destruct C as [_ [_ [C1 C2]]].
      + destruct M as [M|M]; [apply (IHe1 cc nn xx C1 S) in M|apply (IHe2 cc nn xx C2 S) in M]; (split; [apply SA; destruct M; auto|]);
          cbn [only_attrs]; intro A; apply andb_true_iff in A; apply M; apply A.
      + destruct M as [M|M]; [apply (IHe1 cc nn xx C1 S) in M|apply (IHe2 cc nn xx C2 S) in M]; (split; [apply SA; destruct M; auto|]);
          cbn [only_attrs]; intro A; apply andb_true_iff in A; apply M; apply A.
      + destruct M as [M _]. apply (IHe1 cc nn xx C1 S) in M. split; [apply SA; left; apply M|discriminate].
      + destruct M as [M _]. apply (IHe1 cc nn xx C1 S) in M. split; [apply SA; left; apply M|discriminate].
    - rewrite denotes_step in M. cbn [member] in M. apply left_sub in M. exact (step_ok f t ps cc nn xx S M).
    - cbn in M. split; [|discriminate]. split; [apply (axis_in_document h order SE PO A_parent xx nn (proj1 S) M)|].
      intro K. destruct (axis_attribute A_parent xx nn (proj1 S) M K) as [E|[_ [E|[E|E]]]]; discriminate E.
    - destruct C as [_ [C1 _]]. destruct M as [M _]. apply (IHe1 cc nn xx C1 S M).
    - cbn in M. subst. split; [exact zero_safe|discriminate].
    - destruct (core_path s e rest cc C) as [C1 G]. rewrite denotes_path in M. cbn [member] in M. rewrite attrs_path, only_path.
      eapply go_ok; [exact H|exact G| |exact M]. intros y Y. destruct s.
      + apply (IHe cc nn y C1 S Y).
      + apply (IHe false 0 y C1 zero_safe Y).
      + destruct Y as [m [D Y]]. apply (IHe false m y C1); [|exact Y]. apply (desc_safe false 0 m zero_safe D).
  Qed.
  (* at most one node *)
  Lemma placed_one : forall bw P q x y, is_place q = true -> placed order bw P q x -> placed order bw P q y -> x = y.
  Proof.
    intros bw P q x y _ [l [i [X1 [N1 V1]]]] [m [j [X2 [N2 V2]]]]. assert (m = l) by exact (SemNode.exactly_unique h order SE PO _ _ _ X2 X1). subst m.
    assert (i = j) by (destruct q; lia). subst. congruence.
  Qed.
  Lemma left_place : forall bw ps P x y, is_place (last ps EDot) = true -> left_of bw P ps x -> left_of bw P ps y -> x = y.
  Proof.
    intros bw. induction ps as [|q ps IH]; intros P x y L X Y; [discriminate L|]. destruct ps as [|q' ps].
    - cbn [last] in L. cbn [left_of] in X, Y. rewrite L in X, Y. eapply placed_one; [exact L|apply X|apply Y].
    - eapply IH; [exact L|exact X|exact Y].
  Qed.
  Definition single_well (e : expr) : Prop := single kn e = true -> forall c n x y, core e c -> safe c n ->
    member (denotes e n) x -> member (denotes e n) y -> x = y.
  Lemma go_single : forall rest (c : bool) (from : nat -> Prop), Forall (fun x => single_well (snd x)) rest -> goc c rest -> (forall x, from x -> safe c x) ->
    forallb (fun x => negb (fst x) && single kn (snd x)) rest = true -> (forall x y, from x -> from y -> x = y) ->
    forall x y, go_of from rest x -> go_of from rest y -> x = y.
  Proof.
    induction rest as [|[d e] rest IH]; intros c from F G S B U x y X Y; [apply U; assumption|].
    inversion F as [|? ? Fe F']; subst. destruct G as [_ [Ce G]]. cbn [forallb fst snd] in B. apply andb_true_iff in B. destruct B as [B B2].
    apply andb_true_iff in B. destruct B as [B0 B1]. destruct d; [discriminate B0|]. cbn [go_of snd] in *.
    eapply (IH (attrs e c)); [exact F'|exact G| |exact B2| |exact X|exact Y].
    - intros z [m [k [Fm [D M]]]]. destruct D as [->|[D _]]; [|discriminate D]. apply (all_placed e c m z Ce); auto.
    - intros z w [m [k [Fm [D M]]]] [m' [k' [Fm' [D' M']]]]. destruct D as [->|[D _]]; [|discriminate D]. destruct D' as [->|[D' _]]; [|discriminate D'].
      assert (m = m') by (apply U; auto). subst m'. apply (Fe B1 c m z w Ce); auto.
  Qed.
  Lemma NoDup_map_in : forall (A B : Type) (f : A -> B) l x y, NoDup (map f l) -> In x l -> In y l -> f x = f y -> x = y.
  Proof.
    intros A B f. induction l as [|a l IH]; intros x y N X Y E; [destruct X|]. cbn [map] in N. inversion N as [|? ? N1 N2]; subst.
    destruct X as [->|X], Y as [->|Y]; auto; exfalso; apply N1; [rewrite E|rewrite <- E]; apply in_map; assumption.
  Qed.
  Lemma all_single : forall e, single_well e.
  Proof.
    induction e using expr_ind2; intros SG cc nn xx yy C S X Y; try (destruct C; fail); try (destruct X; fail); try discriminate SG.
    - cbn in X, Y. congruence.
    - destruct o; try discriminate SG; cbn [SpecPath.denotes member core single] in *; destruct C as [_ [_ [C1 C2]]], X as [X1 X2], Y as [Y1 Y2].
      + apply orb_true_iff in SG. destruct SG as [SG|SG]; [apply (IHe1 SG cc nn)|apply (IHe2 SG cc nn)]; auto.
      + apply (IHe1 SG cc nn); auto.
    - rewrite denotes_step in X, Y. cbn [member single] in *. apply orb_true_iff in SG. destruct SG as [SG|SG]; [eapply left_place; eauto|].
      apply left_sub in X. apply left_sub in Y. destruct X as [X TX], Y as [Y TY]. destruct (form_axis f); try discriminate SG; cbn [axis_has] in X, Y; try congruence.
      assert (D := proj1 KN). destruct t; try discriminate SG; specialize (D SG nn (proj1 S)); cbn [passes] in TX, TY;
        (eapply NoDup_map_in; [exact D|exact X|exact Y|cbn beta; destruct TX, TY; congruence]).
    - cbn in X, Y. congruence.
    - cbn [single] in SG. destruct C as [_ [C1 _]]. cbn [SpecPath.denotes member] in X, Y. destruct X as [X QX], Y as [Y QY].
      apply orb_true_iff in SG. destruct SG as [SG|SG]; [rewrite SG in QX, QY; eapply placed_one; eauto|apply (IHe1 SG cc nn); auto].
    - cbn in X, Y. congruence.
    - cbn [single] in SG. apply andb_true_iff in SG. destruct SG as [SG B]. apply andb_true_iff in SG. destruct SG as [SS SG].
      destruct (core_path s e rest cc C) as [C1 G]. rewrite denotes_path in X, Y. cbn [member] in X, Y.
      eapply go_single; [exact H|exact G| |exact B| |exact X|exact Y].
      + intros z Z. destruct s; [|  |discriminate SS]; [apply (all_placed e cc nn z C1 S Z)|apply (all_placed e false 0 z C1 zero_safe Z)].
      + intros z w Z W. destruct s; [|  |discriminate SS]; [apply (IHe SG cc nn z w C1 S Z W)|apply (IHe SG false 0 z w C1 zero_safe Z W)].
  Qed.
  Lemma decided : forall q c x, meant q -> core q c -> wf q -> safe c x -> condition q = true \/ single kn q = true -> decides q x.
  Proof.
    intros q c x M C W S D. destruct (condition q) eqn:CQ.
    - destruct (given_condition q c x (M c x C W S) CQ) as [b [B MM]]. exists ([XIBoolean b], b). split; [exact B|]. split; [intro p; apply pt_boolean|exact MM].
    - destruct D as [D|D]; [discriminate D|]. destruct (given_nodes q c x (M c x C W S) CQ) as [l [X [_ MM]]].
      assert (T : truth (denotes q x) <-> exists y, In y l).
      { assert (GG := M c x C W S). unfold given in GG. destruct (denotes q x) as [P|Q]; [|destruct GG; congruence]. cbn [truth member] in *.
        split; intros [y Y]; exists y; apply X; exact Y. }
      destruct l as [|y [|z l]].
      + exists ([], false). split; [cbn [snd]; rewrite T; split; [discriminate|intros [y []]]|]. split; [intro p; apply pt_empty|exact MM].
      + exists ([XINode y], true). split; [cbn [snd]; rewrite T; split; auto; intros _; exists y; left; reflexivity|]. split; [intro p; apply pt_node|exact MM].
      + exfalso. assert (N := exactly_sorted h order SE PO _ _ X). inversion N as [|? ? N1 _]; subst. apply N1.
        rewrite (all_single q D c x y z C S); [left; reflexivity|apply X; left; reflexivity|apply X; right; left; reflexivity].
  Qed.

  Theorem all_meant : forall e, meant e.
  Proof.
    induction e using expr_ind2; intros cc nn C W S; try (destruct C; fail); revert cc nn C W S; intros c n C W S.
    - (* . *) unfold given. cbn. split; auto. exists [n]. split; [apply exactly_one|]. split; [intros x ->; split; [exact S|discriminate]|]. intros. apply (m_dot h order (mkFocus (XINode n) p s)).
    - (* f(a) *) destruct args as [|a [|]]; try (destruct C; fail). destruct C as [F [Ca CE]]. inversion H as [|? ? Ma _]; subst.
      destruct W as [_ [_ [Wa _]]].
      destruct (given_truth a c n (Ma c n Ca Wa S)) as [v [b [B [T M]]]]. unfold given. cbn [SpecPath.denotes condition]. split; auto.
      assert (MC : forall w, library h (mkFocus (XINode n) 0 0) f [v] w -> (forall p s, library h (mkFocus (XINode n) 0 0) f [v] w -> library h (mkFocus (XINode n) p s) f [v] w) ->
        forall p s vs, means (mkFocus (XINode n) p s) vs (ECall f [a]) w).
      { intros w L L' p s vs. eapply m_call; [constructor; [apply M|constructor]|]. apply fv_library. apply L'. exact L. }
      cbn in F. destruct F as [<-|[<-|[<-|[<-|[]]]]].
      + exists b. split; [rewrite T; split; [intro X; left; split; auto|intros [[_ X]|[[X|X] _]]; auto; discriminate X]|].
        apply MC; intros; apply lb_boolean; exact B.
      + exists b. split; [rewrite T; split; [intro X; left; split; auto|intros [[_ X]|[[X|X] _]]; auto; discriminate X]|].
        assert (CF := CE (or_introl eq_refl)). destruct (given_nodes a c n (Ma c n Ca Wa S) CF) as [l [X [_ M']]].
        assert (b = true <-> nodes l <> []).
        { rewrite T. destruct (denotes a n) as [P|Q] eqn:DE; cbn [truth member] in *.
          - split; [intros [x Px]; apply X in Px; destruct l; [destruct Px|discriminate]|]. destruct l as [|x l]; [cbn; congruence|].
            intros _. exists x. apply X. left. reflexivity.
          - exfalso. assert (GG := Ma c n Ca Wa S). unfold given in GG. rewrite DE in GG. destruct GG. congruence. }
        intros p s vs. eapply m_call; [constructor; [apply M'|constructor]|]. apply fv_library, lb_exists. exact H0.
      + exists (negb b). split; [|apply MC; intros; apply lb_not; exact B].
        rewrite negb_true_iff. split.
        * intro X. right. split; auto. rewrite <- T. congruence.
        * intros [[[X|X] _]|[_ X]]; try discriminate X. rewrite <- T in X. destruct b; congruence.
      + exists (negb b). split.
        { rewrite negb_true_iff. split.
          * intro X. right. split; auto. rewrite <- T. congruence.
          * intros [[[X|X] _]|[_ X]]; try discriminate X. rewrite <- T in X. destruct b; congruence. }
        assert (CF := CE (or_intror eq_refl)). destruct (given_nodes a c n (Ma c n Ca Wa S) CF) as [l [X [_ M']]].
        assert (negb b = true <-> nodes l = []).
        { rewrite negb_true_iff. assert (b = true <-> exists x, In x l).
          { rewrite T. destruct (denotes a n) as [P|Q] eqn:DE; cbn [truth member] in *.
            - split; intros [x Px]; exists x; apply X; exact Px.
            - exfalso. assert (GG := Ma c n Ca Wa S). unfold given in GG. rewrite DE in GG. destruct GG. congruence. }
          destruct l as [|x l].
          - split; [reflexivity|]. intros _. destruct b; auto. destruct (proj1 H0 eq_refl) as [y []].
          - split; [|discriminate]. intro N. rewrite (proj2 H0) in N; [discriminate N|]. exists x. left. reflexivity. }
        intros p s vs. eapply m_call; [constructor; [apply M'|constructor]|]. apply fv_library, lb_empty. exact H0.
    - (* binary *)
      destruct W as [W1 [W2 _]].
      assert (BO : forall o, o = O_and \/ o = O_or -> core e1 c /\ core e2 c -> given (EBin o e1 e2) c n).
      { clear C o. intros o O [C1 C2]. destruct (given_truth e1 c n (IHe1 c n C1 W1 S)) as [v1 [b1 [B1 [T1 M1]]]].
        destruct (given_truth e2 c n (IHe2 c n C2 W2 S)) as [v2 [b2 [B2 [T2 M2]]]].
        unfold given. destruct O as [->| ->]; cbn [SpecPath.denotes condition]; (split; [reflexivity|]); destruct b1.
        - exists b2. split; [rewrite <- T1, <- T2; tauto|]. intros. eapply m_and_right; [apply M1|exact B1|apply M2|exact B2].
        - exists false. split; [rewrite <- T1, <- T2; split; [discriminate|intros [X _]; exact X]|]. intros. eapply m_and_left; [apply M1|exact B1].
        - exists true. split; [rewrite <- T1, <- T2; tauto|]. intros. eapply m_or_left; [apply M1|exact B1].
        - exists b2. split; [rewrite <- T1, <- T2; split; [auto|intros [X|X]; [discriminate X|exact X]]|]. intros. eapply m_or_right; [apply M1|exact B1|apply M2|exact B2]. }
      assert (SO : forall o, o = O_union \/ o = O_bar \/ o = O_intersect \/ o = O_except ->
        condition e1 = false /\ condition e2 = false /\ core e1 c /\ core e2 c -> given (EBin o e1 e2) c n).
      { clear C o. intros o O [E1 [E2 [C1 C2]]]. destruct (given_nodes e1 c n (IHe1 c n C1 W1 S) E1) as [l1 [X1 [S1 M1]]].
        destruct (given_nodes e2 c n (IHe2 c n C2 W2 S) E2) as [l2 [X2 [S2 M2]]].
        assert (SA : forall o x, safe (attrs e1 c) x \/ safe (attrs e2 c) x -> safe (attrs (EBin o e1 e2) c) x).
        { intros o' x Y. cbn [attrs]. destruct Y as [[I K]|[I K]]; (split; [exact I|]); intro E; rewrite (K E); auto using orb_true_r. }
        assert (UN : forall o', o' = O_union \/ o' = O_bar -> exists l, exactly order (fun x => member (denotes e1 n) x \/ member (denotes e2 n) x) l /\
           (forall x, member (denotes e1 n) x \/ member (denotes e2 n) x -> ok (only_attrs (EBin o' e1 e2)) (attrs (EBin o' e1 e2) c) x) /\
           (forall p s vs, means (mkFocus (XINode n) p s) vs (EBin o' e1 e2) (nodes l))).
        { intros o' O'. destruct (sorted_list (fun x => member (denotes e1 n) x \/ member (denotes e2 n) x) (l1 ++ l2)) as [l X].
          { intro x. rewrite in_app_iff. rewrite (proj1 X1 x), (proj1 X2 x). reflexivity. }
          { intros x [Y|Y]; [apply S1 in Y|apply S2 in Y]; apply Y. }
          exists l. split; [exact X|]. split.
          { intros x Y. split; [apply SA; destruct Y as [Y|Y]; [apply S1 in Y|apply S2 in Y]; [left|right]; apply Y|].
            assert (OA : only_attrs (EBin o' e1 e2) = only_attrs e1 && only_attrs e2) by (destruct O' as [->| ->]; reflexivity).
            rewrite OA. intro A. apply andb_true_iff in A. destruct A as [A1 A2]. destruct Y as [Y|Y]; [apply S1 in Y|apply S2 in Y]; apply Y; auto. }
          intros p s vs. eapply m_union; [exact O'|apply M1|apply M2|]. eapply exactly_ext; [|exact X]. intro x. rewrite (proj1 X1 x), (proj1 X2 x). reflexivity. }
        unfold given. destruct O as [->|[->|[->| ->]]]; cbn [SpecPath.denotes condition]; (split; [reflexivity|]).
        - apply (UN O_union). auto.
        - apply (UN O_bar). auto.
        - exists (filter (contains_node l2) l1).
          assert (X : exactly order (fun x => member (denotes e1 n) x /\ member (denotes e2 n) x) (filter (contains_node l2) l1)).
          { apply exactly_filter; [exact X1|]. intro x. rewrite contains_node_In. apply X2. }
          split; [exact X|]. split; [intros x [Y _]; split; [apply SA; left; apply (S1 x Y)|discriminate]|]. intros p s vs.
          eapply m_intersect; [apply M1|apply M2|apply X1|]. eapply exactly_ext; [|exact X]. intro x. rewrite (proj1 X1 x), (proj1 X2 x). reflexivity.
        - exists (filter (fun x => negb (contains_node l2 x)) l1).
          assert (X : exactly order (fun x => member (denotes e1 n) x /\ ~ member (denotes e2 n) x) (filter (fun x => negb (contains_node l2 x)) l1)).
          { apply exactly_filter; [exact X1|]. intro x. rewrite negb_true_iff, contains_node_notin. rewrite (proj1 X2 x). reflexivity. }
          split; [exact X|]. split; [intros x [Y _]; split; [apply SA; left; apply (S1 x Y)|discriminate]|]. intros p s vs.
          eapply m_except; [apply M1|apply M2|apply X1|]. eapply exactly_ext; [|exact X]. intro x. rewrite (proj1 X1 x), (proj1 X2 x). reflexivity. }
      assert (GO : forall o op, general_op o = Some op ->
         (if is_text e1 then True else condition e1 = false /\ core e1 c /\ k_texts kn || only_attrs e1 = true) ->
         (if is_text e2 then True else condition e2 = false /\ core e2 c /\ k_texts kn || only_attrs e2 = true) ->
         given (EBin o e1 e2) c n).
      { clear C o BO SO. intros o op OP C1 C2.
        destruct (operand_text e1 c n IHe1 C1 W1 S) as [v1 [M1 [A1 T1]]]. destruct (operand_text e2 c n IHe2 C2 W2 S) as [v2 [M2 [A2 T2]]].
        set (Q := exists s t, text_from h (denotes e1 n) e1 s /\ text_from h (denotes e2 n) e2 t /\ rel_str op s t) in *.
        assert (G : condition (EBin o e1 e2) = true /\ exists b : bool, (b = true <-> Q) /\ forall p s vs, means (mkFocus (XINode n) p s) vs (EBin o e1 e2) [XIBoolean b]).
        { split; [destruct o; try discriminate OP; reflexivity|]. destruct (classic Q) as [q|q].
          - exists true. split; [tauto|]. intros p s vs. destruct q as [s1 [s2 [X1 [X2 R]]]]. apply T1 in X1. apply T2 in X2.
            destruct X1 as [i1 [I1 X1]], X2 as [i2 [I2 X2]]. eapply m_general_true; [exact OP|apply M1|apply M2|exact I1|exact I2|].
            eapply cp_texts; [exact X1|exact X2|tauto].
          - exists false. split; [split; [discriminate|tauto]|]. intros p s vs. eapply m_general_false; [exact OP|apply M1|apply M2|].
            intros x y Ix Iy. destruct (A1 x Ix) as [s1 X1]. destruct (A2 y Iy) as [s2 X2]. eapply cp_texts; [exact X1|exact X2|].
            split; [discriminate|]. intro R. destruct q. exists s1, s2. split; [apply T1; eauto|]. split; [apply T2; eauto|exact R]. }
        unfold given. destruct o; try discriminate OP; cbn [general_op] in OP; injection OP as <-; exact G. }
      destruct o; try (destruct C; fail); first [apply BO; [auto; fail|exact C]|apply SO; [auto 6; fail|exact C]|eapply GO; [reflexivity|apply C|apply C]].
    - (* step *) assert (PL := all_placed (EStep f t ps) c n). assert (C0 := C). destruct C as [OT [NF C]].
      destruct (step_exactly h order SE PO AP n (form_axis f) t XNil (proj1 S)) as [l [_ X]].
      { split; [apply W|exact OT]. }
      { intro K. apply NF. apply S. exact K. }
      set (P0 := fun x => axis_has h order (form_axis f) x n /\ passes h (form_axis f) t x) in *.
      assert (S0 : forall x, P0 x -> safe (attrs (EStep f t []) c) x).
      { intros x [Ax _]. split; [eapply (axis_in_document h order SE PO); [apply S|exact Ax]|]. intro K. cbn [attrs].
        destruct (axis_attribute _ x n (proj1 S) Ax K) as [E|[-> [E|[E|E]]]]; rewrite E; auto; apply S; exact K. }
      destruct (narrow_all (reverse_axis (form_axis f)) ps P0 l X) as [r [XR [IR NR]]].
      { clear PL C0. apply proj2 in W. induction H as [|q ps Mq F IH]; [constructor|]. destruct C as [Cq C]. destruct W as [Wq W].
        constructor; [|apply IH; auto]. destruct (is_place q); auto. destruct Cq as [CC Cq]. intros x Px.
        apply (decided q (attrs (EStep f t []) c) x Mq Cq Wq); [apply S0; exact Px|exact CC]. }
      unfold given. rewrite denotes_step. split; [reflexivity|]. exists r. split; [exact XR|]. split.
      + intros x Lx. apply (PL x C0 S). rewrite denotes_step. exact Lx.
      + intros p s vs. eapply m_step; [|exact X|apply NR|exact OT]. intro K. apply NF. apply S. exact K.
    - (* .. *) unfold given. cbn [SpecPath.denotes condition].
      assert (PS : forall q, parent h n = Some q -> safe false q).
      { intros q P. split; [apply (axis_in_document h order SE PO A_parent q n (proj1 S) P)|].
        intro K. destruct (axis_attribute A_parent q n (proj1 S) P K) as [E|[_ [E|[E|E]]]]; discriminate E. }
      split; auto. destruct (parent h n) as [q|] eqn:P.
      + exists [q]. split; [split; [|repeat constructor]; intro x; split; [intros [->|[]]; auto|intro E; injection E as ->; left; auto]|].
        split; [intros x E; injection E as ->; split; [apply PS; reflexivity|discriminate]|]. intros p s vs. apply m_parent. exact P.
      + exists []. split; [split; [|constructor]; intro x; split; [intros []|discriminate]|]. split; [discriminate|].
        intros p s vs. apply m_parent0. exact P.
    - (* filter *) destruct C as [CE [C1 C2]]. destruct W as [W1 W2]. destruct (given_nodes e1 c n (IHe1 c n C1 W1 S) CE) as [l [X [SF M]]].
      unfold given. cbn [SpecPath.denotes condition]. split; auto.
      destruct (narrow_one false (member (denotes e1 n)) l e2 X) as [r [XR NR]].
      { destruct (is_place e2) eqn:IP; auto. destruct C2 as [CC C2]. intros x I. apply X in I.
        apply (decided e2 (attrs e1 c) x); auto. apply (SF x I). }
      exists r. split; [exact XR|]. split; [intros x [Mx _]; exact (SF x Mx)|]. intros p s vs. eapply m_filter; [apply M|]. apply NR. constructor.
    - (* root *) unfold given. cbn. split; auto. exists [0]. split; [apply exactly_one|].
      split; [intros x ->; split; [exact zero_safe|discriminate]|]. intros. apply m_root.
    - (* path *) assert (PL := all_placed (EPath s e rest) c n). assert (C0 := C). destruct (core_path s e rest c C) as [C1 GR]. destruct C as [CE _].
      destruct W as [NR [Wa Wr]].
      assert (WF : Forall (fun x => wf (snd x)) rest).
      { clear - Wr. induction rest as [|x rest IH]; constructor; [apply Wr|apply IH; apply Wr]. }
      specialize (fun x => PL x C0 S). clear C0. rewrite denotes_path in PL. cbn [member] in PL.
      unfold given. rewrite denotes_path. split; [reflexivity|].
      destruct s.
      + destruct (given_nodes e c n (IHe c n C1 Wa S) CE) as [l [X [SF M]]].
        destruct (walk_all rest _ _ _ l H WF GR X SF (NR eq_refl)) as [r [XR [SR WR]]].
        exists r. split; [exact XR|]. split; [exact PL|]. intros p s vs. eapply m_path; [apply M|apply WR].
      + destruct (walk_all ((false, e) :: rest) false false (fun x => x = 0) [0]) as [r [XR [SR WR]]]; auto using exactly_one; try discriminate.
        { cbn [goc snd]. auto. } { intros x ->. split; [exact zero_safe|discriminate]. }
        cbn [go_of] in XR, SR.
        assert (GE : forall x, go_of (fun y => member (denotes e 0) y) rest x <->
           go_of (fun y => exists m k, m = 0 /\ (k = m \/ false = true /\ descendant h k m) /\ member (denotes e k) y) rest x).
        { intro x. apply go_ext. intro y. split.
          - intro Y. exists 0, 0. auto.
          - intros [m [k [-> [[->|[D _]] Y]]]]; [exact Y|discriminate D]. }
        exists r. split; [eapply exactly_ext; [|exact XR]; intro x; symmetry; apply GE|]. split; [exact PL|].
        intros p s vs. eapply m_path_root. apply WR.
      + destruct (walk_all ((true, e) :: rest) false false (fun x => x = 0) [0]) as [r [XR [SR WR]]]; auto using exactly_one; try discriminate.
        { cbn [goc snd]. auto. } { intros x ->. split; [exact zero_safe|discriminate]. }
        cbn [go_of] in XR, SR.
        assert (GE : forall x, go_of (fun y => exists k, (k = 0 \/ descendant h k 0) /\ member (denotes e k) y) rest x <->
           go_of (fun y => exists m k, m = 0 /\ (k = m \/ true = true /\ descendant h k m) /\ member (denotes e k) y) rest x).
        { intro x. apply go_ext. intro y. split.
          - intros [k [D Y]]. exists 0, k. destruct D as [->|D]; auto 6.
          - intros [m [k [-> [D Y]]]]. exists k. split; [destruct D as [->|[_ D]]; auto|exact Y]. }
        exists r. split; [eapply exactly_ext; [|exact XR]; intro x; symmetry; apply GE|]. split; [exact PL|].
        intros p s vs. eapply m_path_all. apply WR.
  Qed.

  (* the following and preceding axes in terms of siblings *)
  Lemma following_siblings : forall n x, attached h 0 n ->
    (axis_has h order A_following x n <-> exists m y, (m = n \/ ancestor h m n) /\ following_sibling_of h y m /\ (x = y \/ descendant h x y)).
  Proof.
    intros n x A. destruct (order_facts h order SE PO) as [t [D [T0 [K [EO NO]]]]]. rewrite <- T0 in A.
    destruct (attached_context h t n D A) as [fs [s [-> <-]]]. rewrite <- (na_siblings fs s h x D).
    assert (NA : kind (tid s) <> Attribute) by (apply AP; rewrite <- T0; exact A).
    assert (CO : context_ok h fs s).
    { split; [exact D|]. destruct (fill_get h fs s (proj1 D)) as [o [_ [Hg _]]]. unfold SpecSem.kind in NA. rewrite Hg in NA. exact NA. }
    destruct (step_exactly h order SE PO AP (tid s) A_following N_node XNil) as [l [E X]].
    { left. rewrite <- T0. exact A. } { split; exact Logic.I. } { intro B. congruence. }
    unfold axis_nodes in E. cbn [x_type anode] in E. rewrite (following_document h fs s CO) in E. cbn [bind] in E. injection E as E.
    assert (AL : forall l, along h (XNode X_AxisFollowing (test_name N_node) (test_tree N_node) XNil) l = l).
    { intro l0. unfold along. apply filter_all. intros j _. reflexivity. }
    rewrite AL in E. subst l. rewrite (proj1 X x). cbn [passes]. tauto.
  Qed.
  Lemma preceding_siblings : forall n x, attached h 0 n ->
    (axis_has h order A_preceding x n <-> exists m y, (m = n \/ ancestor h m n) /\ preceding_sibling_of h y m /\ (x = y \/ descendant h x y)).
  Proof.
    intros n x A. destruct (order_facts h order SE PO) as [t [D [T0 [K [EO NO]]]]]. rewrite <- T0 in A.
    destruct (attached_context h t n D A) as [fs [s [-> <-]]]. rewrite <- (nb_siblings fs s h x D).
    assert (NA : kind (tid s) <> Attribute) by (apply AP; rewrite <- T0; exact A).
    assert (CO : context_ok h fs s).
    { split; [exact D|]. destruct (fill_get h fs s (proj1 D)) as [o [_ [Hg _]]]. unfold SpecSem.kind in NA. rewrite Hg in NA. exact NA. }
    destruct (step_exactly h order SE PO AP (tid s) A_preceding N_node XNil) as [l [E X]].
    { left. rewrite <- T0. exact A. } { split; exact Logic.I. } { intro B. congruence. }
    unfold axis_nodes in E. cbn [x_type anode] in E. rewrite (preceding_document h fs s CO) in E. cbn [bind] in E. injection E as E.
    assert (AL : forall l, along h (XNode X_AxisPreceding (test_name N_node) (test_tree N_node) XNil) l = l).
    { intro l0. unfold along. apply filter_all. intros j _. reflexivity. }
    rewrite AL in E. subst l. transitivity (axis_has h order A_preceding x (tid s) /\ True); [tauto|]. rewrite <- (proj1 X x). 
    rewrite filter_In, negb_true_iff, contains_node_notin, <- in_rev. reflexivity.
  Qed.
End P.

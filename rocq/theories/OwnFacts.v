(* Facts about the ownership model: the invariants of a running program. *)
Require Import Bool List NArith ZArith Lia PeanoNat.
From Verif Require Import Str Chars Sax Dom SpecTree HeapFacts SpecEdit EditFacts ReachFacts Own SpecOwn.
Import ListNotations.
Open Scope nat_scope.

Lemma mem_In : forall i l, mem i l = true <-> In i l.
Proof.
  intros i l. unfold mem. rewrite existsb_exists. split.
  - intros [x [I E]]. apply Nat.eqb_eq in E. subst. exact I.
  - intro I. exists i. split; [exact I|apply Nat.eqb_refl].
Qed.
Lemma mem_not : forall i l, mem i l = false <-> ~ In i l.
Proof. intros i l. rewrite <- mem_In. destruct (mem i l); split; congruence. Qed.

Lemma sum_zero : forall (A : Type) (f : A -> nat) l, list_sum (map f l) = 0 <-> forall x, In x l -> f x = 0.
Proof.
  induction l as [|a l IH]; cbn [map list_sum fold_right]; [split; [intros _ x []|reflexivity]|].
  change (fold_right Nat.add 0 (map f l)) with (list_sum (map f l)). split.
  - intros E x [<-|I]; [lia|]. apply IH; [lia|exact I].
  - intro H. rewrite (H a (or_introl eq_refl)). cbn. apply IH. intros x I. apply H. right. exact I.
Qed.

(* a cell is owned: a handle is held, or a live cell lists it *)
Definition owned (h : heap) (freed held : list nat) (j : nat) : Prop :=
  In j held \/ exists k, k < List.length h /\ ~ In k freed /\ In j (owned_by h k).
Lemma owners_zero : forall h freed held i, owners h freed held i = 0 <-> ~ owned h freed held i.
Proof.
  intros h freed held i. unfold owners. split.
  - intros E [I|[k [L [F I]]]].
    + apply (count_occ_In Nat.eq_dec) in I. lia.
    + assert (Z : list_sum (map (fun j => if mem j freed then 0 else count_occ Nat.eq_dec (owned_by h j) i) (seq 0 (List.length h))) = 0) by lia.
      rewrite sum_zero in Z. specialize (Z k ltac:(apply in_seq; lia)). cbv beta in Z.
      apply mem_not in F. rewrite F in Z. apply (count_occ_In Nat.eq_dec) in I. lia.
  - intro N. assert (A : count_occ Nat.eq_dec held i = 0).
    { apply count_occ_not_In. intro I. apply N. left. exact I. }
    rewrite A. cbn [Nat.add]. apply sum_zero. intros k K. apply in_seq in K. destruct (mem k freed) eqn:M; [reflexivity|].
    apply count_occ_not_In. intro I. apply N. right. exists k. split; [lia|]. split; [apply mem_not; exact M|exact I].
Qed.

(* ---- the invariant; [work]: Rc's about to be dropped ---- *)
Record invw (h : heap) (freed held work : list nat) : Prop := mkInv {
  iv_heap : heap_ok h;
  iv_freed : forall j, In j freed -> j < List.length h;
  iv_held : forall j, In j held -> j < List.length h;
  iv_work : forall j, In j work -> j < List.length h;
  iv_safe : forall j, owned h freed held j -> ~ In j freed;
  iv_used : forall j, j < List.length h -> ~ In j freed -> owned h freed held j \/ In j work
}.

Lemma owned_by_lt : forall h j c, heap_ok h -> In c (owned_by h j) -> c < List.length h.
Proof.
  intros h j c H I. destruct (Nat.lt_ge_cases j (List.length h)) as [L|L]; [apply (H j L); exact I|].
  exfalso. unfold owned_by, children, attributes, get in I. rewrite (nth_overflow h dummy_node L) in I. exact I.
Qed.

Definition live_sum (h : heap) (freed : list nat) : nat :=
  list_sum (map (fun j => if mem j freed then 0 else List.length (owned_by h j)) (seq 0 (List.length h))).
Lemma sum_le : forall (A : Type) (f g : A -> nat) l, (forall x, f x <= g x) -> list_sum (map f l) <= list_sum (map g l).
Proof. induction l as [|a l IH]; intro H; cbn; [lia|]. specialize (IH H). specialize (H a). unfold list_sum in IH. lia. Qed.
Lemma sum_split : forall (f g : nat -> nat) i l, NoDup l -> In i l -> (forall x, x <> i -> f x = g x) ->
  list_sum (map f l) + g i = list_sum (map g l) + f i.
Proof.
  induction l as [|a l IH]; intros D I H; [destruct I|]. inversion D; subst. cbn [map list_sum fold_right].
  change (fold_right Nat.add 0 (map f l)) with (list_sum (map f l)). change (fold_right Nat.add 0 (map g l)) with (list_sum (map g l)).
  destruct I as [->|I].
  - assert (E : map f l = map g l) by (apply map_ext_in; intros x X; apply H; intros ->; contradiction). rewrite E. lia.
  - assert (a <> i) by (intros ->; contradiction). rewrite (H a) by auto. specialize (IH ltac:(auto) I H). lia.
Qed.
Lemma live_sum_free : forall h freed i, i < List.length h -> ~ In i freed ->
  live_sum h (i :: freed) + List.length (owned_by h i) = live_sum h freed.
Proof.
  intros h freed i L N. unfold live_sum.
  set (f := fun j => if mem j (i :: freed) then 0 else List.length (owned_by h j)).
  set (g := fun j => if mem j freed then 0 else List.length (owned_by h j)).
  assert (F : f i = 0) by (unfold f, mem; cbn [existsb]; rewrite Nat.eqb_refl; reflexivity).
  assert (G : g i = List.length (owned_by h i)) by (unfold g; apply mem_not in N; rewrite N; reflexivity).
  rewrite <- G. rewrite (sum_split f g i); [lia|apply seq_NoDup|apply in_seq; lia|].
  intros x X. unfold f, g, mem. cbn [existsb]. apply Nat.eqb_neq in X. rewrite X. reflexivity.
Qed.

Lemma release_inv : forall fuel h held freed work, List.length work + live_sum h freed < fuel -> invw h freed held work ->
  invw h (release fuel h held freed work) held [] /\ incl freed (release fuel h held freed work).
Proof.
  induction fuel as [|fuel IH]; intros h held freed work L V; [lia|]. cbn [release].
  destruct work as [|i rest]; [split; [exact V|apply incl_refl]|].
  destruct V as [HO HF HH HW HS HU]. assert (Li : i < List.length h) by (apply HW; left; reflexivity).
  destruct (negb (mem i freed) && (owners h freed held i =? 0)) eqn:C.
  - apply andb_true_iff in C. destruct C as [C1 C2]. apply negb_true_iff in C1. apply mem_not in C1. apply Nat.eqb_eq in C2. apply owners_zero in C2.
    assert (W : forall j, owned h (i :: freed) held j -> owned h freed held j).
    { intros j [I|[k [Lk [Fk Ik]]]]; [left; exact I|]. right. exists k. split; [exact Lk|]. split; [|exact Ik]. intro Q. apply Fk. right. exact Q. }
    destruct (IH h held (i :: freed) (owned_by h i ++ rest)) as [I1 I2].
    + rewrite app_length. cbn [List.length] in L. pose proof (live_sum_free h freed i Li C1). lia.
    + split; auto.
      * intros j [<-|J]; [exact Li|apply HF; exact J].
      * intros j J. apply in_app_or in J. destruct J as [J|J]; [eapply owned_by_lt; eauto|apply HW; right; exact J].
      * intros j O [<-|J]; [apply C2, W, O|]. exact (HS j (W j O) J).
      * intros j Lj Nj. destruct (HU j Lj) as [[I|[k [Lk [Fk Ik]]]]|I].
        -- intro Q. apply Nj. right. exact Q.
        -- left. left. exact I.
        -- destruct (Nat.eq_dec k i) as [->|Ne]; [right; apply in_or_app; left; exact Ik|].
           left. right. exists k. split; [exact Lk|]. split; [|exact Ik]. intros [E|Q]; [congruence|contradiction].
        -- destruct I as [<-|I]; [exfalso; apply Nj; left; reflexivity|]. right. apply in_or_app. right. exact I.
    + split; [exact I1|]. intros j J. apply I2. right. exact J.
  - apply IH; [cbn [List.length] in L; lia|]. split; auto.
    + intros j J. apply HW. right. exact J.
    + intros j Lj Nj. destruct (HU j Lj Nj) as [O|[<-|I]]; [left; exact O| |right; exact I]. left.
      apply mem_not in Nj. rewrite Nj in C. cbn [negb andb] in C. apply Nat.eqb_neq in C.
      destruct (In_dec Nat.eq_dec i held) as [H|H]; [left; exact H|].
      (* the count is positive: some owner exists *)
      unfold owners in C. assert (Z : count_occ Nat.eq_dec held i = 0) by (apply count_occ_not_In; exact H). rewrite Z in C. cbn [Nat.add] in C.
      right. clear - C. assert (B : forall k, In k (seq 0 (List.length h)) -> k < List.length h) by (intros k K; apply in_seq in K; lia).
      induction (seq 0 (List.length h)) as [|k ks IH]; [contradiction C; reflexivity|]. cbn [map list_sum fold_right] in C.
      change (fold_right Nat.add 0 ?x) with (list_sum x) in C.
      destruct (mem k freed) eqn:M.
      * apply IH; [cbn in C; exact C|]. intros x X. apply B. right. exact X.
      * destruct (count_occ Nat.eq_dec (owned_by h k) i) eqn:K.
        -- apply IH; [exact C|]. intros x X. apply B. right. exact X.
        -- exists k. split; [apply B; left; reflexivity|]. split; [apply mem_not; exact M|]. apply (count_occ_In Nat.eq_dec). lia.
Qed.
Lemma release_enough : forall h freed work, List.length work + live_sum h freed < release_fuel h work.
Proof.
  intros. unfold release_fuel, live_sum. apply le_n_S. apply Nat.add_le_mono_l. apply sum_le. intro x. destruct (mem x freed); lia.
Qed.
Lemma drop_inv : forall h held freed work, invw h freed held work ->
  invw h (drop_all h held freed work) held [] /\ incl freed (drop_all h held freed work).
Proof. intros. apply release_inv; [apply release_enough|assumption]. Qed.

(* ---- what the edits do to the lists ---- *)
Lemma owned_by_same : forall h h' j, same_node (get h' j) (get h j) -> owned_by h' j = owned_by h j.
Proof. intros h h' j [_ [_ [_ [_ [E1 E2]]]]]. unfold owned_by, children, attributes. rewrite E1, E2. reflexivity. Qed.
Lemma clear_same : forall h i h', clear_document_order h i = Ok h' -> List.length h' = List.length h /\ forall j, same_node (get h' j) (get h j).
Proof.
  intros h i h' E. unfold clear_document_order in E. destruct (root h i); try discriminate. cbn [bind] in E. injection E as <-.
  split; [apply upd_length|]. intro j. apply get_upd_order.
Qed.
Lemma unchanged_owned : forall h h' P j, unchanged_except h h' P -> j < List.length h -> ~ P j -> owned_by h' j = owned_by h j.
Proof. intros h h' P j U L N. apply owned_by_same, U; auto. Qed.

Lemma upd_owned_children : forall h p l, p < List.length h -> owned_by (upd h p (set_children l)) p = l ++ attributes h p.
Proof. intros h p l L. unfold owned_by, children, attributes. rewrite get_upd_same by exact L. reflexivity. Qed.
Lemma upd_owned_attrs : forall h p l, p < List.length h -> owned_by (upd h p (set_attrs l)) p = children h p ++ l.
Proof. intros h p l L. unfold owned_by, children, attributes. rewrite get_upd_same by exact L. reflexivity. Qed.
Lemma upd_owned_other : forall h p f j, j <> p -> owned_by (upd h p f) j = owned_by h j.
Proof. intros h p f j N. unfold owned_by, children, attributes. rewrite get_upd_other by congruence. reflexivity. Qed.
Lemma app_owned_old : forall h n j, j < List.length h -> owned_by (h ++ [n]) j = owned_by h j.
Proof. intros h n j L. unfold owned_by, children, attributes. rewrite get_app_old by exact L. reflexivity. Qed.
Lemma app_owned_new : forall h n, n_children n = [] -> n_attrs n = [] -> owned_by (h ++ [n]) (List.length h) = [].
Proof. intros h n E1 E2. unfold owned_by, children, attributes. rewrite get_app_new, E1, E2. reflexivity. Qed.

Lemma In_vec_insert_rev : forall (A : Type) k (x : A) l y, y = x \/ In y l -> In y (vec_insert k x l).
Proof.
  intros A k x l y H. unfold vec_insert. apply in_or_app. destruct H as [->|I]; [right; left; reflexivity|].
  rewrite <- (firstn_skipn k l) in I. apply in_app_or in I. destruct I as [I|I]; [left; exact I|right; right; exact I].
Qed.

(* one new cell below [p] *)
Lemma child_owned : forall h t p n v hint h' id, p < List.length h -> make_new_child_rc_node h t p n v hint = (h', id) ->
  id = List.length h /\ List.length h' = S (List.length h) /\
  (forall c, In c (owned_by h' p) <-> c = id \/ In c (owned_by h p)) /\
  (forall j, j < List.length h -> j <> p -> owned_by h' j = owned_by h j) /\ owned_by h' id = [] /\
  (forall j, j < List.length h -> parent h' j = parent h j) /\ parent h' id = Some p.
Proof.
  intros h t p n v hint h' id L E. unfold make_new_child_rc_node, make_new_rc_node in E.
  set (h1 := h ++ [mkNode t 0 n v (Some p) [] []]) in E. injection E as <- <-.
  assert (L1 : List.length h1 = S (List.length h)) by (unfold h1; rewrite app_length; cbn; lia).
  assert (UP : forall l j, parent (upd h1 p (set_children l)) j = parent h1 j).
  { intros l j. unfold parent. destruct (Nat.eq_dec j p) as [->|Nj]; [rewrite get_upd_same by lia; reflexivity|rewrite get_upd_other by congruence; reflexivity]. }
  split; [reflexivity|]. split; [rewrite upd_length; exact L1|]. split; [|split; [|split; [|split]]].
  - intro c. rewrite upd_owned_children by lia. assert (A : attributes h1 p = attributes h p) by (unfold attributes, h1; rewrite get_app_old by exact L; reflexivity).
    assert (B : n_children (get h1 p) = children h p) by (unfold children, h1; rewrite get_app_old by exact L; reflexivity).
    rewrite A, B. unfold owned_by. rewrite !in_app_iff.
    destruct hint as [k|]; [destruct (k <=? List.length (children h p))|].
    + split; [|intros [->|[I|I]]; [left; apply In_vec_insert_rev; auto|left; apply In_vec_insert_rev; auto|auto]].
      intros [I|I]; [apply In_vec_insert in I; tauto|tauto].
    + rewrite in_app_iff. cbn [In]. intuition.
    + rewrite in_app_iff. cbn [In]. intuition.
  - intros j Lj N. rewrite upd_owned_other by exact N. apply app_owned_old. exact Lj.
  - rewrite upd_owned_other by lia. apply app_owned_new; reflexivity.
  - intros j Lj. rewrite UP. unfold parent, h1. rewrite get_app_old by exact Lj. reflexivity.
  - rewrite UP. unfold parent, h1. rewrite get_app_new. reflexivity.
Qed.

(* everything built by the parser above cell [b] *)
Record built (b : nat) (h : heap) : Prop := mkBuilt {
  bt_in : forall k c, b <= k -> k < List.length h -> In c (owned_by h k) -> k < c;
  bt_up : forall j, b < j -> j < List.length h -> exists k, b <= k /\ k < List.length h /\ In j (owned_by h k);
  bt_root : parent h b = None;
  bt_par : forall j p, b < j -> j < List.length h -> parent h j = Some p -> b <= p
}.
Lemma child_built : forall b h t p n v hint h' id, built b h -> b <= p -> p < List.length h ->
  make_new_child_rc_node h t p n v hint = (h', id) -> built b h' /\ id = List.length h /\ List.length h' = S (List.length h) /\
  (forall j, j < b -> owned_by h' j = owned_by h j).
Proof.
  intros b h t p n v hint h' id [B1 B2 B3 B4] Bp Lp E. destruct (child_owned _ _ _ _ _ _ _ _ Lp E) as [-> [L [P [O [N [U1 U2]]]]]].
  split; [split|]; [| | | |split; [reflexivity|split; [exact L|]]].
  - intros k c Bk Lk I. destruct (Nat.eq_dec k p) as [->|Np].
    + apply P in I. destruct I as [->|I]; [lia|]. exact (B1 p c Bk Lp I).
    + destruct (Nat.eq_dec k (List.length h)) as [->|Nk]; [rewrite N in I; destruct I|].
      rewrite O in I by lia. exact (B1 k c Bk ltac:(lia) I).
  - intros j Bj Lj. destruct (Nat.eq_dec j (List.length h)) as [->|Nj].
    + exists p. split; [exact Bp|]. split; [lia|]. apply P. left. reflexivity.
    + destruct (B2 j Bj ltac:(lia)) as [k [Bk [Lk I]]]. exists k. split; [exact Bk|]. split; [lia|].
      destruct (Nat.eq_dec k p) as [->|Nk]; [apply P; right; exact I|]. rewrite O by auto. exact I.
  - rewrite U1 by lia. exact B3.
  - intros j q Bj Lj Eq. destruct (Nat.eq_dec j (List.length h)) as [->|Nj]; [rewrite U2 in Eq; injection Eq as <-; exact Bp|].
    rewrite U1 in Eq by lia. exact (B4 j q Bj ltac:(lia) Eq).
  - intros j Lj. apply O; lia.
Qed.
Lemma push_built : forall ats b h e, built b h -> b <= e -> e < List.length h ->
  built b (push_attrs h e ats) /\ List.length h <= List.length (push_attrs h e ats) /\
  (forall j, j < b -> owned_by (push_attrs h e ats) j = owned_by h j).
Proof.
  induction ats as [|[n v] ats IH]; intros b h e B Be Le; [cbn [push_attrs]; auto|].
  cbn [push_attrs make_new_rc_node]. set (nd := mkNode Attribute 0 n v (Some e) [] []).
  set (h2 := upd (h ++ [nd]) e _).
  assert (L2 : List.length h2 = S (List.length h)) by (unfold h2; rewrite upd_length, app_length; cbn; lia).
  assert (P : forall c, In c (owned_by h2 e) <-> c = List.length h \/ In c (owned_by h e)).
  { intro c. unfold h2. rewrite upd_owned_attrs by (rewrite app_length; cbn; lia). unfold children. rewrite get_app_old by exact Le.
    unfold owned_by, children, attributes. rewrite !in_app_iff. cbn [In]. intuition. }
  assert (O : forall j, j < List.length h -> j <> e -> owned_by h2 j = owned_by h j).
  { intros j Lj Nj. unfold h2. rewrite upd_owned_other by exact Nj. apply app_owned_old. exact Lj. }
  assert (N : owned_by h2 (List.length h) = []).
  { unfold h2. rewrite upd_owned_other by lia. apply app_owned_new; reflexivity. }
  assert (U1 : forall j, j < List.length h -> parent h2 j = parent h j).
  { intros j Lj. unfold parent, h2. destruct (Nat.eq_dec j e) as [->|Nj]; [rewrite get_upd_same by (rewrite app_length; cbn; lia)|rewrite get_upd_other by congruence]; cbn [set_attrs n_parent];
      rewrite get_app_old by exact Lj; reflexivity. }
  assert (U2 : parent h2 (List.length h) = Some e).
  { unfold parent, h2. rewrite get_upd_other by lia. rewrite get_app_new. reflexivity. }
  assert (B' : built b h2).
  { destruct B as [B1 B2 B3 B4]. split; [| |rewrite U1 by lia; exact B3|].
    - intros k c Bk Lk I. destruct (Nat.eq_dec k e) as [->|Np].
      + apply P in I. destruct I as [->|I]; [lia|]. exact (B1 e c Bk Le I).
      + destruct (Nat.eq_dec k (List.length h)) as [->|Nk]; [rewrite N in I; destruct I|].
        rewrite O in I by lia. exact (B1 k c Bk ltac:(lia) I).
    - intros j Bj Lj. destruct (Nat.eq_dec j (List.length h)) as [->|Nj].
      + exists e. split; [exact Be|]. split; [lia|]. apply P. left. reflexivity.
      + destruct (B2 j Bj ltac:(lia)) as [k [Bk [Lk I]]]. exists k. split; [exact Bk|]. split; [lia|].
        destruct (Nat.eq_dec k e) as [->|Nk]; [apply P; right; exact I|]. rewrite O by auto. exact I.
    - intros j q Bj Lj Eq. destruct (Nat.eq_dec j (List.length h)) as [->|Nj]; [rewrite U2 in Eq; injection Eq as <-; exact Be|].
      rewrite U1 in Eq by lia. exact (B4 j q Bj ltac:(lia) Eq). }
  destruct (IH b h2 e B' Be ltac:(lia)) as [R1 [R2 R3]]. split; [exact R1|]. split; [lia|].
  intros j Lj. rewrite R3 by exact Lj. apply O; lia.
Qed.
Lemma step_built : forall b h curr t h' curr', built b h -> heap_ok h -> b <= curr -> curr < List.length h ->
  doc_step h curr t = Ok (h', curr') ->
  built b h' /\ List.length h <= List.length h' /\ (forall j, j < b -> owned_by h' j = owned_by h j) /\ b <= curr' < List.length h'.
Proof.
  intros b h curr t h' curr' B HO Bc Lc E.
  assert (CH : forall ty n v, built b (fst (make_new_child_rc_node h ty curr n v None)) /\
     List.length h <= List.length (fst (make_new_child_rc_node h ty curr n v None)) /\
     (forall j, j < b -> owned_by (fst (make_new_child_rc_node h ty curr n v None)) j = owned_by h j) /\ b <= curr < List.length (fst (make_new_child_rc_node h ty curr n v None))).
  { intros ty n v. destruct (make_new_child_rc_node h ty curr n v None) as [h1 id] eqn:E1.
    destruct (child_built b _ _ _ _ _ _ _ _ B Bc Lc E1) as [B1 [-> [L1 O1]]]. cbn [fst]. split; [exact B1|]. split; [lia|]. split; [exact O1|]. lia. }
  destruct t as [|name attr|name|s|target inst|c|d]; cbn [doc_step] in E.
  - injection E as <- <-. auto.
  - destruct (make_new_child_rc_node h Element curr name [] None) as [h1 id] eqn:E1. injection E as <- <-.
    destruct (child_built b _ _ _ _ _ _ _ _ B Bc Lc E1) as [B1 [-> [L1 O1]]].
    destruct (push_built attr b h1 (List.length h) B1 ltac:(lia) ltac:(lia)) as [B2 [L2 O2]].
    split; [exact B2|]. split; [lia|]. split; [|lia]. intros j Lj. rewrite O2, O1 by exact Lj. reflexivity.
  - destruct (str_eqb _ _); [|discriminate E]. injection E as <- <-. split; [exact B|]. split; [lia|]. split; [reflexivity|].
    destruct (n_parent (get h curr)) as [p|] eqn:EP; [|lia].
    destruct (heap_ok_parent h curr p HO EP) as [P1 P2]. split; [|lia].
    destruct B as [_ _ B3 B4]. destruct (Nat.eq_dec curr b) as [->|Nb]; [unfold parent in B3; congruence|]. apply (B4 curr p ltac:(lia) Lc EP).
  - injection E as <- <-. apply CH.
  - destruct (str_eqb _ _); injection E as <- <-; apply CH.
  - injection E as <- <-. apply CH.
  - injection E as <- <-. auto.
Qed.
Lemma loop_built : forall fuel d b h curr h', built b h -> heap_ok h -> b <= curr -> curr < List.length h -> doc_loop fuel d h curr = Ok h' ->
  built b h' /\ List.length h <= List.length h' /\ (forall j, j < b -> owned_by h' j = owned_by h j) /\ heap_ok h'.
Proof.
  induction fuel as [|fuel IH]; intros d b h curr h' B HO Bc Lc E; [discriminate E|]. cbn [doc_loop] in E.
  destruct (raw_token (S fuel) d) as [[t d']| | |]; try discriminate E.
  destruct (doc_step h curr t) as [[h1 c1]| | |] eqn:ES.
  2-4: destruct t; cbn [bind] in E; try discriminate E; injection E as <-; split; [exact B|split; [lia|split; [reflexivity|exact HO]]].
  destruct (doc_step_ok h curr t h1 c1 HO Lc ES) as [HO1 X].
  destruct (step_built b h curr t h1 c1 B HO Bc Lc ES) as [B1 [L1 [O1 [C1 C2]]]].
  assert (R : built b h' /\ List.length h <= List.length h' /\ (forall j, j < b -> owned_by h' j = owned_by h j) /\ heap_ok h' \/ t = TEOF).
  { destruct t; cbn [bind] in E; auto; left; destruct (IH d' b h1 c1 h' B1 HO1 C1 C2 E) as [R1 [R2 [R3 R4]]];
      (split; [exact R1|split; [lia|split; [|exact R4]]]); intros j Lj; rewrite R3, O1 by exact Lj; reflexivity. }
  destruct R as [R| ->]; [exact R|]. injection E as <-. split; [exact B|split; [lia|split; [reflexivity|exact HO]]].
Qed.

(* ---- the invariant is kept ---- *)
Lemma inv_grow : forall h freed held h' out, invw h freed held [] -> heap_ok h' -> List.length h <= List.length h' ->
  (forall k c, k < List.length h' -> ~ In k freed -> In c (owned_by h' k) -> ~ In c freed) ->
  (forall k j, k < List.length h -> In j (owned_by h k) -> In j (owned_by h' k) \/ In j out) ->
  (forall j, List.length h <= j -> j < List.length h' -> exists k, k < List.length h' /\ ~ In k freed /\ In j (owned_by h' k)) ->
  (forall j, In j out -> j < List.length h') ->
  invw h' freed held out.
Proof.
  intros h freed held h' out [HO HF HH _ HS HU] HO' L C1 C2 C3 C4. split; auto.
  - intros j J. specialize (HF j J). lia.
  - intros j J. specialize (HH j J). lia.
  - intros j [J|[k [Lk [Fk Ik]]]]; [apply HS; left; exact J|]. exact (C1 k j Lk Fk Ik).
  - intros j Lj Nj. destruct (Nat.lt_ge_cases j (List.length h)) as [A|A].
    + destruct (HU j A Nj) as [[J|[k [Lk [Fk Ik]]]]|[]]; [left; left; exact J|].
      destruct (C2 k j Lk Ik) as [I|I]; [|right; exact I]. left. right. exists k. split; [lia|]. split; [exact Fk|exact I].
    + left. right. exact (C3 j A Lj).
Qed.
Lemma inv_live : forall h freed held k c, invw h freed held [] -> k < List.length h -> ~ In k freed -> In c (owned_by h k) -> ~ In c freed.
Proof. intros h freed held k c V L F I. apply (iv_safe _ _ _ _ V). right. exists k. auto. Qed.
Lemma inv_held : forall h freed held i, invw h freed held [] -> In i held -> i < List.length h /\ ~ In i freed.
Proof. intros h freed held i V I. split; [apply (iv_held _ _ _ _ V); exact I|]. apply (iv_safe _ _ _ _ V). left. exact I. Qed.
Lemma inv_same : forall h freed held work h', invw h freed held work -> heap_ok h' -> List.length h' = List.length h ->
  (forall k, owned_by h' k = owned_by h k) -> invw h' freed held work.
Proof.
  intros h freed held work h' [HO HF HH HW HS HU] HO' L E.
  assert (O : forall j, owned h' freed held j <-> owned h freed held j).
  { intro j. unfold owned. rewrite L. split; (intros [J|[k [A [B C]]]]; [left; exact J|right; exists k]).
    - rewrite E in C. auto.
    - rewrite E. auto. }
  split; auto; rewrite ?L; auto.
  - intros j J. apply HS, O. exact J.
  - intros j A B. rewrite O. auto.
Qed.
Lemma inv_clear : forall h freed held work i h', invw h freed held work -> clear_document_order h i = Ok h' -> invw h' freed held work.
Proof.
  intros h freed held work i h' V E. destruct (clear_same h i h' E) as [L S].
  apply (inv_same h); [exact V|eapply clear_order_heap_ok; [apply (iv_heap _ _ _ _ V)|exact E]|exact L|]. intro k. apply owned_by_same, S.
Qed.

Lemma inv_parse : forall h freed held fuel d h', invw h freed held [] ->
  doc_loop fuel d (fst (make_new_rc_node h DocumentRoot None [] [])) (List.length h) = Ok h' -> invw h' freed (List.length h :: held) [].
Proof.
  intros h freed held fuel d h' [HO HF HH HW HS HU] E. cbn [make_new_rc_node fst] in E.
  set (h0 := h ++ [mkNode DocumentRoot 0 [] [] None [] []]) in E.
  assert (L0 : List.length h0 = S (List.length h)) by (unfold h0; rewrite app_length; cbn; lia).
  assert (N0 : owned_by h0 (List.length h) = []) by (apply app_owned_new; reflexivity).
  assert (B0 : built (List.length h) h0).
  { split.
    - intros k c Bk Lk I. assert (k = List.length h) by lia. subst k. rewrite N0 in I. destruct I.
    - intros j Bj Lj. lia.
    - unfold parent, h0. rewrite get_app_new. reflexivity.
    - intros j p Bj Lj. lia. }
  assert (HO0 : heap_ok h0) by (apply heap_ok_alloc; [exact HO|exact I]).
  destruct (loop_built fuel d (List.length h) h0 (List.length h) h' B0 HO0 (le_n _) ltac:(lia) E) as [[B1 B2 _ _] [L1 [O1 HO1]]].
  assert (OO : forall k, k < List.length h -> owned_by h' k = owned_by h k) by (intros k Lk; rewrite O1 by exact Lk; apply app_owned_old; exact Lk).
  split; auto.
  - intros j J. specialize (HF j J). lia.
  - intros j [<-|J]; [lia|]. specialize (HH j J). lia.
  - intros j J. destruct J.
  - intros j [[<-|J]|[k [Lk [Fk Ik]]]] Q.
    + specialize (HF _ Q). lia.
    + exact (HS j (or_introl J) Q).
    + destruct (Nat.lt_ge_cases k (List.length h)) as [A|A].
      * rewrite OO in Ik by exact A. refine (HS j _ Q). right. exists k. auto.
      * specialize (B1 k j A Lk Ik). specialize (HF j Q). lia.
  - intros j Lj Nj. left. destruct (Nat.lt_trichotomy j (List.length h)) as [A|[A|A]].
    + destruct (HU j A Nj) as [[J|[k [Lk [Fk Ik]]]]|[]]; [left; right; exact J|]. right. exists k. split; [lia|]. split; [exact Fk|]. rewrite OO by exact Lk. exact Ik.
    + left. left. auto.
    + right. destruct (B2 j A Lj) as [k [Bk [Lk I]]]. exists k. split; [exact Lk|]. split; [|exact I]. intro Q. specialize (HF k Q). lia.
Qed.

Lemma inv_append : forall h freed held i c h', invw h freed held [] -> In i held -> In c held -> append_child h i c = Ok h' -> invw h' freed held [].
Proof.
  intros h freed held i c h' V Ii Ic E. destruct (inv_held _ _ _ _ V Ii) as [Li Fi]. destruct (inv_held _ _ _ _ V Ic) as [Lc Fc].
  unfold append_child in E. set (h2 := upd h i _) in E.
  apply (inv_clear h2 freed held [] i h'); [|exact E]. assert (L2 : List.length h2 = List.length h) by apply upd_length.
  assert (P : owned_by h2 i = (children h i ++ [c]) ++ attributes h i) by (apply upd_owned_children; exact Li).
  assert (O : forall k, k <> i -> owned_by h2 k = owned_by h k) by (intros; apply upd_owned_other; auto).
  apply (inv_grow h); auto; try lia.
  - apply heap_ok_children; [apply (iv_heap _ _ _ _ V)|]. intros x X. apply in_app_or in X. destruct X as [X|[<-|[]]]; [|exact Lc].
    eapply heap_ok_child_lt; [apply (iv_heap _ _ _ _ V)|exact X].
  - intros k x Lk Fk X. destruct (Nat.eq_dec k i) as [->|N].
    + rewrite P in X. apply in_app_or in X. destruct X as [X|X]; [apply in_app_or in X; destruct X as [X|[<-|[]]]; [|exact Fc]|];
        apply (inv_live _ _ _ i _ V Li Fi); apply in_or_app; auto.
    + rewrite O in X by exact N. apply (inv_live _ _ _ k _ V); auto; lia.
  - intros k j Lk I. left. destruct (Nat.eq_dec k i) as [->|N]; [|rewrite O by exact N; exact I].
    rewrite P. apply in_app_or in I. rewrite !in_app_iff. unfold children, attributes. tauto.
  - intros j [].
Qed.

Lemma insert_owned : forall delta h i x h', heap_ok h -> x < List.length h -> insert_as_sibling delta h i x = Ok h' ->
  (List.length h' = List.length h /\ forall k, owned_by h' k = owned_by h k) \/
  exists p, parent h i = Some p /\ p < List.length h /\ List.length h' = S (List.length h) /\
    (forall c, In c (owned_by h' p) <-> c = List.length h \/ In c (owned_by h p)) /\
    (forall k, k < List.length h -> k <> p -> owned_by h' k = owned_by h k) /\
    (forall c, In c (owned_by h' (List.length h)) -> (c = List.length h /\ x = p) \/ In c (owned_by h x)) /\ In i (children h p).
Proof.
  intros delta h i x h' HO Lx E. unfold insert_as_sibling in E. destruct (parent h i) as [p|] eqn:Ep; [|injection E as <-; left; auto].
  destruct (heap_ok_parent h i p HO Ep) as [P1 P2]. destruct (clear_same _ _ _ E) as [LC SC]. clear E.
  destruct (find_child_index h p i) as [n|] eqn:FI; [|left; split; [exact LC|intro k; apply owned_by_same, SC]].
  assert (FC : In i (children h p)).
  { unfold find_child_index in FI. unfold children. clear - FI. revert n FI. induction (n_children (get h p)) as [|y l IH]; intros n FI; [discriminate FI|]. cbn [find_index] in FI.
    destruct (Nat.eqb_spec y i) as [->|N]; [left; reflexivity|]. destruct (find_index i l) as [m|]; [|discriminate FI]. right. exact (IH m eq_refl). }
  right. exists p. split; [reflexivity|]. split; [lia|].
  destruct (make_new_child_rc_node h (n_type (get h x)) p (n_name (get h x)) (n_value (get h x)) (Some (n + delta))) as [h1 d] eqn:E1.
  destruct (child_owned _ _ _ _ _ _ _ _ (Nat.lt_trans _ _ _ P1 P2) E1) as [-> [L1 [A1 [A2 [A3 _]]]]].
  unfold shallow_copy_rc_rels in *. set (h1a := upd h1 (List.length h) (set_children _)) in *. set (h2 := upd h1a (List.length h) (set_attrs _)) in *.
  assert (La : List.length h1a = S (List.length h)) by (unfold h1a; rewrite upd_length; exact L1).
  assert (L2 : List.length h2 = S (List.length h)) by (unfold h2; rewrite upd_length; exact La).
  assert (K : forall k, k <> List.length h -> owned_by h' k = owned_by h1 k).
  { intros k N. rewrite (owned_by_same h2 h' k (SC k)). unfold h2. rewrite upd_owned_other by exact N. unfold h1a. apply upd_owned_other. exact N. }
  assert (D : n_children (get h1 (List.length h)) = [] /\ n_attrs (get h1 (List.length h)) = []) by (apply app_eq_nil; exact A3).
  destruct D as [D1 D2].
  assert (Q : owned_by h' (List.length h) = owned_by h1 x).
  { rewrite (owned_by_same h2 h' _ (SC _)). unfold h2. rewrite upd_owned_attrs by lia. unfold children, h1a. rewrite get_upd_same by lia.
    cbn [set_children n_children n_attrs]. rewrite D1, D2. reflexivity. }
  split; [lia|]. split; [|split; [|split; [|exact FC]]].
  - intro c. rewrite K by lia. apply A1.
  - intros k Lk N. rewrite K by lia. apply A2; auto.
  - intros c I. rewrite Q in I. destruct (Nat.eq_dec x p) as [->|N]; [apply A1 in I; destruct I; auto|]. right. rewrite <- (A2 x Lx N). exact I.
Qed.
Lemma inv_insert : forall delta h freed held i x h', invw h freed held [] -> In x held -> (forall p, parent h i = Some p -> ~ In p freed) ->
  insert_as_sibling delta h i x = Ok h' -> invw h' freed held [].
Proof.
  intros delta h freed held i x h' V Ix UP E. destruct (inv_held _ _ _ _ V Ix) as [Lx Fx]. pose proof (iv_heap _ _ _ _ V) as HO.
  pose proof (insert_heap_ok _ _ _ _ _ HO E) as HO'.
  destruct (insert_owned _ _ _ _ _ HO Lx E) as [[L S]|[p [Ep [Lp [L [A1 [A2 [A3 _]]]]]]]]; [apply (inv_same h); auto|].
  assert (FL : forall c, In c freed -> c < List.length h) by apply (iv_freed _ _ _ _ V). specialize (UP p Ep).
  apply (inv_grow h); auto; try lia.
  - intros k c Lk Fk I. destruct (Nat.eq_dec k p) as [->|N].
    + apply A1 in I. destruct I as [->|I]; [intro Q; specialize (FL _ Q); lia|]. exact (inv_live _ _ _ p c V Lp UP I).
    + destruct (Nat.eq_dec k (List.length h)) as [->|N2].
      * destruct (A3 c I) as [[-> _]|J]; [intro Q; specialize (FL _ Q); lia|]. exact (inv_live _ _ _ x c V Lx Fx J).
      * rewrite A2 in I by lia. apply (inv_live _ _ _ k c V); auto; lia.
  - intros k j Lk I. left. destruct (Nat.eq_dec k p) as [->|N]; [apply A1; right; exact I|]. rewrite A2 by auto. exact I.
  - intros j A B. assert (j = List.length h) by lia. subst j. exists p. split; [lia|]. split; [exact UP|]. apply A1. left. reflexivity.
  - intros j [].
Qed.

Lemma inv_remove : forall h freed held h' p out, invw h freed held [] -> heap_ok h' -> List.length h' = List.length h ->
  incl (owned_by h' p) (owned_by h p) -> (forall j, In j (owned_by h p) -> In j (owned_by h' p) \/ In j out) ->
  (forall k, k <> p -> owned_by h' k = owned_by h k) -> (forall j, In j out -> j < List.length h) -> invw h' freed held out.
Proof.
  intros h freed held h' p out V HO L I1 I2 O LO. apply (inv_grow h); auto; try lia.
  - intros k c Lk Fk I. apply (inv_live _ _ _ k c V); [lia|exact Fk|]. destruct (Nat.eq_dec k p) as [->|N]; [apply I1; exact I|rewrite <- O by exact N; exact I].
  - intros k j Lk I. destruct (Nat.eq_dec k p) as [->|N]; [apply I2; exact I|left; rewrite O by exact N; exact I].
  - rewrite L. exact LO.
Qed.
Lemma inv_delete : forall h freed held p c h', invw h freed held [] -> p < List.length h -> c < List.length h -> delete_child h p c = Ok h' -> invw h' freed held [c].
Proof.
  intros h freed held p c h' V Lp Lc E. pose proof (iv_heap _ _ _ _ V) as HO. unfold delete_child in E.
  eapply inv_clear; [|exact E]. clear E. unfold find_child_index. destruct (find_index c (n_children (get h p))) as [n|] eqn:F.
  - apply (inv_remove h freed held _ p); auto.
    + apply heap_ok_children; [exact HO|]. intros x X. apply In_vec_remove in X. eapply heap_ok_child_lt; eauto.
    + apply upd_length.
    + rewrite upd_owned_children by exact Lp. intros x X. unfold owned_by. apply in_app_or in X. apply in_or_app. destruct X as [X|X]; [left; apply In_vec_remove in X; exact X|right; exact X].
    + rewrite upd_owned_children by exact Lp. intros j J. unfold owned_by in J. rewrite in_app_iff. apply in_app_or in J. destruct J as [J|J]; [|tauto].
      assert (S : exists l r, children h p = l ++ c :: r /\ n = List.length l).
      { clear - F. unfold children. revert n F. induction (n_children (get h p)) as [|y l IH]; intros n F; [discriminate F|]. cbn [find_index] in F.
        destruct (Nat.eqb_spec y c) as [->|N]; [injection F as <-; exists [], l; auto|]. destruct (find_index c l) as [m|]; [|discriminate F].
        injection F as <-. destruct (IH m eq_refl) as [a [b [A B]]]. exists (y :: a), b. rewrite A. split; [reflexivity|cbn; congruence]. }
      destruct S as [l [r [A ->]]]. unfold children in A, J. rewrite A in *. rewrite vec_remove_mid. apply in_app_or in J. cbn [In] in J. rewrite in_app_iff. cbn [In]. tauto.
    + intros k N. apply upd_owned_other. exact N.
    + intros j [<-|[]]. exact Lc.
  - destruct V as [A B C D F1 G]. split; auto. + intros j [<-|[]]. exact Lc. + intros j Lj Nj. destruct (G j Lj Nj) as [X|[]]. left. exact X.
Qed.
Lemma find_attr_nth : forall h ats n k, find_attr h ats n = Some k -> exists l a r, ats = l ++ a :: r /\ k = List.length l /\ nth k ats 0 = a.
Proof.
  induction ats as [|a ats IH]; intros n k F; [discriminate F|]. cbn [find_attr] in F. destruct (str_eqb _ _).
  - injection F as <-. exists [], a, ats. auto.
  - destruct (find_attr h ats n) as [m|] eqn:E; [|discriminate F]. injection F as <-. destruct (IH n m E) as [l [b [r [A [B C]]]]].
    exists (a :: l), b, r. rewrite A in *. split; [reflexivity|]. split; [cbn; congruence|]. cbn [nth]. exact C.
Qed.
Lemma inv_set : forall h freed held i n v h', invw h freed held [] -> In i held -> set_attribute h i n v = Ok h' -> invw h' freed held (old_attr h i n).
Proof.
  intros h freed held i n v h' V Ii E. destruct (inv_held _ _ _ _ V Ii) as [Li Fi]. pose proof (iv_heap _ _ _ _ V) as HO.
  unfold set_attribute, make_new_rc_node in E. set (nd := mkNode Attribute 0 n v (Some i) [] []) in E. set (h1 := h ++ [nd]) in E.
  assert (L1 : List.length h1 = S (List.length h)) by (unfold h1; rewrite app_length; cbn; lia).
  assert (HO1 : heap_ok h1) by (apply heap_ok_alloc; [exact HO|exact Li]).
  assert (G : get h1 i = get h i) by (unfold h1; apply get_app_old; exact Li).
  assert (FE : find_attribute_index h1 i n = find_attribute_index h i n).
  { unfold find_attribute_index. rewrite G. assert (B : forall a, In a (n_attrs (get h i)) -> a < List.length h) by (intros a A; eapply heap_ok_attr_lt; eauto).
    induction (n_attrs (get h i)) as [|a l IH]; [reflexivity|]. cbn [find_attr]. unfold h1. rewrite get_app_old by (apply B; left; reflexivity).
    destruct (str_eqb _ _); [reflexivity|]. f_equal. apply IH. intros x X. apply B. right. exact X. }
  rewrite FE, G in E. eapply inv_clear; [|exact E]. clear E.
  set (ats := n_attrs (get h i)). set (ats' := match find_attribute_index h i n with Some k => _ | None => _ end).
  assert (A1 : forall c, In c ats' -> c = List.length h \/ In c ats).
  { unfold ats'. intros c I. destruct (find_attribute_index h i n) as [k|].
    - apply In_vec_insert in I. destruct I as [->|I]; [left; reflexivity|right; apply In_vec_remove in I; exact I].
    - apply in_app_or in I. destruct I as [I|[<-|[]]]; auto. }
  assert (A2 : In (List.length h) ats').
  { unfold ats'. destruct (find_attribute_index h i n) as [k|]; [apply In_vec_insert_rev; left; reflexivity|]. apply in_or_app. right. left. reflexivity. }
  assert (A3 : forall c, In c ats -> In c ats' \/ In c (old_attr h i n)).
  { unfold ats', old_attr, attributes. intros c I. fold ats. destruct (find_attribute_index h i n) as [k|] eqn:F; [|left; apply in_or_app; left; exact I].
    destruct (find_attr_nth _ _ _ _ F) as [l [a [r [X [-> Y]]]]]. fold ats in X, Y. rewrite X in I |- *. rewrite X in Y. rewrite Y, vec_remove_mid.
    apply in_app_or in I. destruct I as [I|[<-|I]]; [left; apply In_vec_insert_rev; right; apply in_or_app; auto|right; left; reflexivity|left; apply In_vec_insert_rev; right; apply in_or_app; auto]. }
  assert (P : owned_by (upd h1 i (set_attrs ats')) i = children h i ++ ats').
  { rewrite upd_owned_attrs by lia. unfold children. rewrite G. reflexivity. }
  assert (O : forall k, k < List.length h -> k <> i -> owned_by (upd h1 i (set_attrs ats')) k = owned_by h k).
  { intros k Lk N. rewrite upd_owned_other by exact N. apply app_owned_old. exact Lk. }
  assert (N : owned_by (upd h1 i (set_attrs ats')) (List.length h) = []).
  { rewrite upd_owned_other by lia. apply app_owned_new; reflexivity. }
  assert (FL : forall c, In c freed -> c < List.length h) by apply (iv_freed _ _ _ _ V).
  apply (inv_grow h); auto; rewrite ?upd_length; try lia.
  - apply heap_ok_attrs; [exact HO1|]. intros c I. rewrite L1. destruct (A1 c I) as [->|J]; [lia|]. assert (c < List.length h) by (eapply heap_ok_attr_lt; eauto). lia.
  - intros k c Lk Fk I. destruct (Nat.eq_dec k i) as [->|Nk].
    + rewrite P in I. apply in_app_or in I. destruct I as [I|I]; [apply (inv_live _ _ _ i c V Li Fi); apply in_or_app; left; exact I|].
      destruct (A1 c I) as [->|J]; [intro Q; specialize (FL _ Q); lia|]. apply (inv_live _ _ _ i c V Li Fi). apply in_or_app. right. exact J.
    + destruct (Nat.eq_dec k (List.length h)) as [->|N2]; [rewrite N in I; destruct I|]. rewrite O in I by lia. apply (inv_live _ _ _ k c V); auto; lia.
  - intros k j Lk I. destruct (Nat.eq_dec k i) as [->|Nk]; [|left; rewrite O by auto; exact I].
    rewrite P, in_app_iff. unfold owned_by in I. apply in_app_or in I. destruct I as [I|I]; [tauto|]. destruct (A3 j I); tauto.
  - intros j B C. assert (j = List.length h) by lia. subst j. exists i. split; [lia|]. split; [exact Fi|]. rewrite P. apply in_or_app. right. exact A2.
  - intros j J. unfold old_attr in J. destruct (find_attribute_index h i n) as [k|] eqn:F; [|destruct J]. destruct J as [<-|[]].
    destruct (find_attr_nth _ _ _ _ F) as [l [a [r [X [_ Y]]]]]. unfold attributes. rewrite Y.
    assert (a < List.length h); [|lia]. eapply heap_ok_attr_lt; [exact HO|]. unfold attributes. rewrite X. apply in_or_app. right. left. reflexivity.
Qed.
Lemma inv_del_attr : forall h freed held i n h', invw h freed held [] -> i < List.length h -> delete_attribute h i n = Ok h' -> invw h' freed held (old_attr h i n).
Proof.
  intros h freed held i n h' V Li E. pose proof (iv_heap _ _ _ _ V) as HO. unfold delete_attribute in E.
  eapply inv_clear; [|exact E]. clear E. unfold old_attr. destruct (find_attribute_index h i n) as [k|] eqn:F; [|exact V].
  destruct (find_attr_nth _ _ _ _ F) as [l [a [r [X [K Y]]]]]. unfold attributes. rewrite Y.
  assert (La : a < List.length h) by (eapply heap_ok_attr_lt; [exact HO|]; unfold attributes; rewrite X; apply in_or_app; right; left; reflexivity).
  apply (inv_remove h freed held _ i); auto.
  - apply heap_ok_attrs; [exact HO|]. intros c C. apply In_vec_remove in C. eapply heap_ok_attr_lt; eauto.
  - apply upd_length.
  - rewrite upd_owned_attrs by exact Li. intros c C. unfold owned_by. apply in_app_or in C. apply in_or_app. destruct C as [C|C]; [left; exact C|right; apply In_vec_remove in C; exact C].
  - rewrite upd_owned_attrs by exact Li. intros j J. unfold owned_by in J. rewrite in_app_iff. apply in_app_or in J. destruct J as [J|J]; [tauto|].
    unfold attributes in J. rewrite X in J. rewrite X, K, vec_remove_mid. apply in_app_or in J. cbn [In] in J. rewrite in_app_iff. cbn [In]. tauto.
  - intros k' N. apply upd_owned_other. exact N.
  - intros j [<-|[]]. exact La.
Qed.

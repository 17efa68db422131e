(* In a document that was parsed and then edited no attribute node is a child. *)
Require Import Bool List NArith ZArith Ascii String Lia Sorted.
From Verif Require Import Str StrFacts Sax Dom HeapFacts EditFacts SpecEdit SpecSem SemNode.
Import ListNotations.
Open Scope nat_scope.

Definition kinds (h : heap) : Prop := 0 < List.length h /\ n_type (Dom.get h 0) <> Attribute /\
  forall i c, In c (children h i) -> c < List.length h /\ n_type (Dom.get h c) <> Attribute.
Lemma kinds_apart : forall h, kinds h -> apart h.
Proof. intros h [_ [K0 K]] n A. destruct A as [|p c A I]; [exact K0|]. apply (K p c I). Qed.
Lemma kinds_upd : forall h i f, kinds h -> (forall n, n_type (f n) = n_type n) ->
  (forall c, In c (n_children (f (Dom.get h i))) -> In c (children h i) \/ c < List.length h /\ n_type (Dom.get h c) <> Attribute) -> kinds (upd h i f).
Proof.
  intros h i f [L [K0 K]] F C.
  assert (T : forall j, n_type (Dom.get (upd h i f) j) = n_type (Dom.get h j)).
  { intro j. destruct (Nat.eq_dec i j) as [<-|N]; [|rewrite get_upd_other; auto].
    destruct (Nat.lt_ge_cases i (List.length h)); [rewrite get_upd_same; auto|rewrite upd_out; auto]. }
  split; [rewrite upd_length; auto|]. split; [rewrite T; auto|]. intros j c I. rewrite upd_length, T.
  unfold children in *. destruct (Nat.eq_dec i j) as [<-|N]; [|rewrite get_upd_other in I by auto; eauto].
  destruct (Nat.lt_ge_cases i (List.length h)) as [Q|Q]; [|rewrite upd_out in I by auto; eauto].
  rewrite get_upd_same in I by auto. apply C in I. destruct I as [I|I]; eauto.
Qed.
Lemma kinds_alloc : forall h ty n v p, kinds h -> kinds (h ++ [mkNode ty 0 n v p [] []]).
Proof.
  intros h ty n v p [L [K0 K]]. split; [rewrite app_length; cbn; lia|]. split; [rewrite get_app_old; auto|].
  intros i c I. unfold children in *. rewrite app_length. cbn [List.length].
  destruct (Nat.lt_trichotomy i (List.length h)) as [Q|[->|Q]].
  - rewrite get_app_old in I by auto. destruct (K i c I) as [LC KC]. split; [lia|]. rewrite get_app_old; auto.
  - rewrite get_app_new in I. destruct I.
  - rewrite get_out in I; [destruct I|]. rewrite app_length. cbn. lia.
Qed.
Lemma kinds_child : forall h ty p n v hint, kinds h -> ty <> Attribute -> kinds (fst (make_new_child_rc_node h ty p n v hint)).
Proof.
  intros h ty p n v hint K T. unfold make_new_child_rc_node, make_new_rc_node. cbn [fst].
  set (h1 := h ++ [mkNode ty 0 n v (Some p) [] []]). assert (K1 : kinds h1) by (apply kinds_alloc; auto).
  apply kinds_upd; auto. intros c I. cbn [n_children set_children] in I.
  assert (N : List.length h < List.length h1 /\ n_type (Dom.get h1 (List.length h)) <> Attribute).
  { unfold h1. rewrite app_length, get_app_new. cbn. split; [lia|auto]. }
  assert (G : c = List.length h \/ In c (n_children (Dom.get h1 p))).
  { destruct hint as [k|]; [destruct (k <=? List.length (n_children (Dom.get h1 p)))|];
      [apply In_vec_insert in I; auto|apply in_app_or in I; cbn in I; intuition|apply in_app_or in I; cbn in I; intuition]. }
  destruct G as [->|G]; [right|left]; auto.
Qed.
Lemma kinds_push : forall ats h e, kinds h -> kinds (push_attrs h e ats).
Proof.
  induction ats as [|[n v] ats IH]; intros h e H; cbn [push_attrs]; auto.
  unfold make_new_rc_node. apply IH. apply kinds_upd; [apply kinds_alloc; auto|reflexivity|]. intros c I. left. exact I.
Qed.
Lemma kinds_step : forall h c t h' c', kinds h -> doc_step h c t = Ok (h', c') -> kinds h'.
Proof.
  intros h c t h' c' H E. destruct t as [|nm at0|nm|s|tg inst|s|s]; cbn [doc_step] in E.
  - injection E as <- <-. auto.
  - pose proof (kinds_child h Element c nm [] None H ltac:(discriminate)) as Q.
    destruct (make_new_child_rc_node h Element c nm [] None) as [h1 e]. injection E as <- <-.
    apply kinds_push. exact Q.
  - destruct (str_eqb _ _); [|discriminate]. injection E as <- <-. auto.
  - injection E as <- <-. apply (kinds_child h Text c [] s None H). discriminate.
  - destruct (str_eqb _ _); injection E as <- <-.
    + apply (kinds_child h XMLDecl c (lit "xml") inst None H). discriminate.
    + apply (kinds_child h Instruction c tg inst None H). discriminate.
  - injection E as <- <-. apply (kinds_child h Comment c [] s None H). discriminate.
  - injection E as <- <-. auto.
Qed.
Lemma kinds_loop : forall fuel d h c h', kinds h -> doc_loop fuel d h c = Ok h' -> kinds h'.
Proof.
  induction fuel as [|fuel IH]; intros d h c h' H E; cbn [doc_loop] in E; [discriminate|].
  destruct (raw_token (S fuel) d) as [[t d']|e| |]; try discriminate.
  assert (G : (do (h1, curr1) <- doc_step h c t; doc_loop fuel d' h1 curr1) = Ok h' -> kinds h').
  { intro E2. destruct (doc_step h c t) as [[h1 c1]|e| |] eqn:Es; try discriminate. cbn [bind] in E2.
    eapply IH; [|exact E2]. eapply kinds_step; eauto. }
  destruct t; auto. injection E as <-. auto.
Qed.
Lemma new_document_kinds : forall xml h, new_document xml = Ok h -> kinds h.
Proof.
  intros xml h E. unfold new_document, new_document_fuel, make_new_rc_node in E.
  eapply kinds_loop; [|exact E]. split; [cbn; lia|]. split; [discriminate|]. intros [|[|i]] c I; destruct I.
Qed.
Lemma kinds_clear : forall h i h', kinds h -> clear_document_order h i = Ok h' -> kinds h'.
Proof.
  intros h i h' K E. unfold clear_document_order in E. destruct (root h i) as [r| | |]; try discriminate E. cbn [bind] in E. injection E as <-.
  apply kinds_upd; auto.
Qed.
Lemma kinds_order_attrs : forall ats h z, kinds h -> kinds (fst (order_attrs h ats z)).
Proof. induction ats as [|a ats IH]; intros h z K; cbn [order_attrs fst]; auto. apply IH. apply kinds_upd; auto. Qed.
Lemma kinds_setup : forall fuel h i z h' z', kinds h -> setup_document_order_sub fuel h i z = Ok (h', z') -> kinds h'.
Proof.
  induction fuel as [|fuel IH]; intros h i z h' z' K E; cbn [setup_document_order_sub] in E; [discriminate|].
  assert (K1 : kinds (upd h i (set_order z))) by (apply kinds_upd; auto).
  assert (K2 := kinds_order_attrs (n_attrs (Dom.get (upd h i (set_order z)) i)) (upd h i (set_order z)) (z + 1)%Z K1).
  destruct (order_attrs _ _ _) as [h2 o]. cbn [fst] in K2. revert K2 E. generalize (n_children (Dom.get h2 i)) as cs. intro cs. revert h2 o.
  induction cs as [|c cs IHc]; intros h2 o K2 E.
  - injection E as <- <-. auto.
  - destruct (setup_document_order_sub fuel h2 c (o + 1)%Z) as [[h3 o3]| | |] eqn:S; try discriminate E. cbn [bind] in E.
    eapply IHc; [|exact E]. eapply IH; eauto.
Qed.
Lemma kinds_insert : forall d h i x h', kinds h -> n_type (Dom.get h x) <> Attribute -> insert_as_sibling d h i x = Ok h' -> kinds h'.
Proof.
  intros d h i x h' K T E. unfold insert_as_sibling in E. destruct (parent h i) as [p|]; [|injection E as <-; auto].
  eapply kinds_clear; [|exact E]. destruct (find_child_index h p i) as [n|]; auto.
  assert (K1 := kinds_child h (n_type (Dom.get h x)) p (n_name (Dom.get h x)) (n_value (Dom.get h x)) (Some (n + d)) K T).
  destruct (make_new_child_rc_node _ _ _ _ _ _) as [h1 dup]. cbn [fst] in K1. unfold shallow_copy_rc_rels.
  apply kinds_upd; [|reflexivity|intros c I; left; exact I]. apply kinds_upd; auto. intros c I. cbn [n_children set_children] in I.
  apply in_app_or in I. destruct I as [I|I]; [left; exact I|]. right. destruct K1 as [_ [_ K1]]. apply (K1 x c I).
Qed.
Theorem ordinary_session : forall h, ordinary h -> session h /\ apart h.
Proof.
  intros h O. assert (G : session h /\ kinds h); [|destruct G; split; auto; apply kinds_apart; auto].
  induction O as [xml h E|h h' i n v O [S K] A E|h h' i n O [S K] A E|h h' i c O [S K] A E|h h' i x O [S K] A L T C1 C2 E|h h' i z O [S K] A E].
  - split; [eapply ses_parse; eauto|eapply new_document_kinds; eauto].
  - split; [eapply ses_set; eauto|]. unfold set_attribute, make_new_rc_node in E. eapply kinds_clear; [|exact E].
    apply kinds_upd; [apply kinds_alloc; auto|reflexivity|intros c I; left; exact I].
  - split; [eapply ses_del_attr; eauto|]. unfold delete_attribute in E. eapply kinds_clear; [|exact E].
    destruct (find_attribute_index h i n); auto. apply kinds_upd; auto.
  - split; [eapply ses_delete; eauto|]. unfold delete_child in E. eapply kinds_clear; [|exact E].
    destruct (find_child_index h i c); auto. apply kinds_upd; auto. intros d I. left. cbn [n_children set_children] in I.
    apply In_vec_remove in I. exact I.
  - split; [destruct E as [E|E]; [eapply ses_prev; eauto|eapply ses_next; eauto]|].
    destruct E as [E|E]; eapply kinds_insert; eauto.
  - split; [eapply ses_order; eauto|]. unfold document_order in E. destruct (root h i) as [r| | |]; try discriminate E. cbn [bind] in E.
    destruct (Z.eqb _ 0); [|cbn [bind] in E; injection E as _ <-; auto].
    destruct (setup_document_order_sub _ h r 1) as [[h1 o]| | |] eqn:SE; try discriminate E. cbn [bind] in E. injection E as _ <-.
    eapply kinds_setup; eauto.
Qed.

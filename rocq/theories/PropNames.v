(* C61: names in documents and names in XPath expressions. *)
Require Import Bool List NArith ZArith Ascii String Lia.
From Verif Require Import Str StrFacts Chars Sax Dom SpecText SpecTree Lexer SpecLex LexFacts PropLex FuncTable Parser SpecExpr LexPrint.
Import ListNotations.
Open Scope N_scope.

(* An NCName is read as one name ... *)
Theorem C61_ncname_read : forall s, ncname s -> raw_tokens s = Ok [mkTok T_InnerName s].
Proof. exact raw_name. Qed.
Print Assumptions C61_ncname_read.

(* ... and nothing else is. *)
Lemma fetch_name_spec : forall s n r, fetch_name s = (n, r) -> Forall (fun d => nc_char d = true) n.
Proof.
  induction s as [|c s IH]; intros n r E; cbn [fetch_name] in E; [injection E as <- <-; auto|].
  destruct (xis_name_char c) eqn:K; [|injection E as <- <-; auto]. destruct (fetch_name s) as [n' r'] eqn:F.
  injection E as <- <-. constructor; [rewrite <- name_char_spec; auto|eauto].
Qed.
Lemma get_tok_name : forall s t r, get_tok s = Ok (t, r) -> t_type t = T_InnerName -> ncname (t_name t).
Proof.
  intros s t r E T. unfold get_tok in E.
  destruct (strip_prefix (lit "(:") s) as [s0|]. { destruct (xskip_comment 1 s0); [injection E as <- <-; discriminate T|discriminate E]. }
  destruct (strip_prefix (lit "Q{") s). { destruct (fetch_until 125 s) as [[? ?]|]; [injection E as <- <-; discriminate T|discriminate E]. }
  destruct (find_keyword keywords s) as [p|] eqn:K.
  { injection E as E. exfalso. revert K. assert (A : Forall (fun x => snd x <> T_InnerName) keywords) by (repeat constructor; discriminate).
    revert A. generalize keywords. induction l as [|[k y] l IH]; intros A K; cbn [find_keyword] in K; [discriminate|].
    inversion A; subst. destruct (strip_prefix k s); [injection K as <- ; cbn in *; congruence|auto]. }
  destruct s as [|c s]; [injection E as <- <-; discriminate T|].
  destruct (c =? 0); [injection E as <- <-; discriminate T|].
  destruct (xis_name_start_char c) eqn:N.
  { destruct (fetch_name s) as [n r'] eqn:F. injection E as <- <-. cbn [t_name ncname]. split; [rewrite <- name_start_spec; auto|eapply fetch_name_spec; eauto]. }
  destruct ((c =? 34) || (c =? 39)). { destruct (fetch_string_literal c s) as [[? ?]|]; [injection E as <- <-; discriminate T|discriminate E]. }
  assert (FN : forall x, fetch_numerics x = Ok (t, r) -> t_type t <> T_InnerName).
  { clear. intros x E. unfold fetch_numerics in E. destruct (fetch_numeric_literal x) as [[l r']|]; [|discriminate E].
    repeat match type of E with context [if ?b then _ else _] => destruct b end; injection E as <- <-; discriminate. }
  destruct (xis_digit c); [exfalso; eapply FN; eauto|].
  destruct (c =? 46); [|discriminate E]. destruct (xis_digit (xpeek s)); [exfalso; eapply FN; eauto|injection E as <- <-; discriminate T].
Qed.
Theorem C61_names_are_ncnames : forall s ts t, raw_tokens s = Ok ts -> In t ts -> t_type t = T_InnerName -> ncname (t_name t).
Proof.
  intros s. remember (List.length s) as n eqn:L. revert s L. induction n as [n IH] using lt_wf_ind. intros s -> ts t E I T.
  rewrite raw_tokens_unfold in E. destruct (get_tok (xskip_spaces s)) as [[u r]|e| |] eqn:G; cbn [bind] in E; try discriminate E.
  assert (IH' : t_type u <> T_EOF -> forall ts', raw_tokens r = Ok ts' -> In t ts' -> ncname (t_name t)).
  { intros Nu ts' E' I'. apply (IH (List.length r)) with (s := r) (ts := ts'); auto.
    apply get_tok_length in G; auto. pose proof (skip_spaces_length s). lia. }
  assert (D : (t_type u = T_EOF /\ ts = []) \/ (t_type u <> T_EOF /\ raw_tokens r = Ok ts) \/
              (t_type u <> T_EOF /\ exists ts', raw_tokens r = Ok ts' /\ ts = u :: ts')).
  { destruct (t_type u); try (right; right; split; [discriminate|]; destruct (raw_tokens r) as [ts'| | |]; try discriminate E; injection E as <-; exists ts'; auto; fail).
    - left. injection E as <-. auto.
    - right. left. split; [discriminate|auto]. }
  destruct D as [[_ ->]|[[Nu E']|[Nu [ts' [E' ->]]]]]; [destruct I|eauto|].
  destruct I as [->|I]; [|eauto]. eapply get_tok_name; eauto.
Qed.
Print Assumptions C61_names_are_ncnames.
Example C61_example : ncname (lit "a-b.c_1") /\ legal_name (lit "a-b.c_1") /\ ~ In 58 (lit "a-b.c_1").
Proof. split; [cbn; repeat constructor|split; [cbn; repeat constructor|cbn; intuition discriminate]]. Qed.

(* Every name an element or attribute of a document text may carry (C59) can be written in an XPath expression, colons apart. *)
Lemma between_incl : forall R Q c, forallb (fun r => existsb (fun q => (fst q <=? fst r) && (snd r <=? snd q)) Q) R = true ->
  between c R = true -> between c Q = true.
Proof.
  intros R Q c H B. unfold between in *. apply existsb_exists in B. destruct B as [r [I K]]. rewrite forallb_forall in H.
  specialize (H r I). apply existsb_exists in H. destruct H as [q [J M]]. apply existsb_exists. exists q. split; auto.
  apply andb_true_iff in K, M. destruct K as [K1 K2], M as [M1 M2]. apply N.leb_le in K1, K2, M1, M2. apply andb_true_iff. rewrite !N.leb_le. lia.
Qed.
Theorem C61_document_names : forall n, legal_name n -> ~ In 58 n -> ncname n.
Proof.
  assert (F : forall c, c <> 58 -> is_name_first_char c = true -> nc_start c = true).
  { intros c N H. unfold is_name_first_char in H. rewrite (proj2 (N.eqb_neq c 58)), orb_false_r in H by auto. unfold nc_start.
    apply between_incl with (R := (95, 95) :: letter_ranges); [reflexivity|].
    unfold between. cbn [existsb fst snd]. change (existsb (fun r => (fst r <=? c) && (c <=? snd r)) letter_ranges) with (between c letter_ranges). rewrite <- ranges_between.
    fold (is_letter c). apply orb_true_iff in H. destruct H as [-> |H]; [apply orb_true_r|]. apply N.eqb_eq in H. subst. reflexivity. }
  assert (G : forall c, c <> 58 -> is_name_char c = true -> nc_char c = true).
  { intros c N H. unfold nc_char, nc_start.
    assert (A : forall l m, between c l || between c m = between c (l ++ m)) by (intros; unfold between; rewrite existsb_app; reflexivity).
    rewrite A. clear A F. unfold is_name_char, is_letter, is_digit, is_combining_char, is_extender in H. rewrite (proj2 (N.eqb_neq c 58)) in H by auto.
    rewrite !ranges_between in H. repeat rewrite orb_true_iff in H.
    destruct H as [[[[[[[H|H]|H]|H]|H]|H]|H]|H]; try discriminate H; try (apply N.eqb_eq in H; subst; reflexivity); (eapply between_incl; [|exact H]; reflexivity). }
  intros [|c r] H N; [destruct H|]. destruct H as [H1 H2]. split; [apply F; auto; intro; subst; apply N; left; auto|].
  clear H1. assert (N' : ~ In 58 r) by (intro; apply N; right; auto). clear N. induction H2 as [|d r Hd H2 IH]; constructor.
  - apply G; auto. intro; subst; apply N'; left; auto.
  - apply IH. intro; apply N'; right; auto.
Qed.
Print Assumptions C61_document_names.

(* The ASCII characters of names in documents are letters, digits, hyphen, full stop, underscore and colon. *)
Theorem C61_ascii : forall c, c < 128 ->
  (is_name_char c = true <-> 97 <= c <= 122 \/ 65 <= c <= 90 \/ 48 <= c <= 57 \/ c = 45 \/ c = 46 \/ c = 95 \/ c = 58) /\
  (is_name_first_char c = true <-> 97 <= c <= 122 \/ 65 <= c <= 90 \/ c = 95 \/ c = 58).
Proof.
  intros c H.
  assert (A : Forall (fun c => is_name_char c = between c [(97, 122); (65, 90); (48, 57); (45, 45); (46, 46); (95, 95); (58, 58)] /\
                               is_name_first_char c = between c [(97, 122); (65, 90); (95, 95); (58, 58)]) (map N.of_nat (seq 0 128))).
  { cbn [map seq]. repeat (constructor; [split; vm_compute; reflexivity|]). constructor. }
  rewrite Forall_forall in A. destruct (A c) as [-> ->].
  { apply in_map_iff. exists (N.to_nat c). split; [lia|]. apply in_seq. lia. }
  unfold between. cbn [existsb fst snd]. rewrite !orb_true_iff, !andb_true_iff, !N.leb_le. split; split; intro K; [lia| |lia|];
  repeat (destruct K as [K|K]; [lia|]); lia.
Qed.
Print Assumptions C61_ascii.

(* The parser only accepts what the grammar of SpecGrammar derives, with the tree it describes. *)
Require Import Bool List NArith ZArith Ascii String Lia.
From Verif Require Import Str StrFacts Chars Lexer LexFacts FuncTable Parser ParserSfx PropParse SpecGrammar.
Import ListNotations.
Open Scope N_scope.

(* ---- tokens of the lexer are spelled ---- *)
Definition ok_spelling (ty : ttype) (s : str) : bool :=
  match spellings ty with [] => false | l => existsb (fun k => str_eqb s (lit k)) l end.
Definition sp0 (tok : token) : Prop :=
  (spellings (t_type tok) <> [] -> In (t_name tok) (map lit (spellings (t_type tok)))) /\
  (t_type tok = T_Name \/ t_type tok = T_InnerName -> t_name tok <> []).
Lemma ok_sp0 : forall ty s, ok_spelling ty s = true -> ty <> T_Name -> ty <> T_InnerName -> sp0 (mkTok ty s).
Proof.
  intros ty s H N1 N2. split; cbn [t_type t_name]; [|intros [K|K]; contradiction]. intros _. unfold ok_spelling in H.
  destruct (spellings ty) as [|a l]; [discriminate|]. apply existsb_exists in H. destruct H as [k [I E]].
  apply str_eqb_eq in E. subst s. apply in_map. exact I.
Qed.
Definition pair_ok (p : str * ttype) : bool :=
  ok_spelling (snd p) (fst p) && negb (ttype_eqb (snd p) T_Name) && negb (ttype_eqb (snd p) T_InnerName).
Lemma pair_sp0 : forall p, pair_ok p = true -> sp0 (mkTok (snd p) (fst p)).
Proof.
  intros [s ty] H. unfold pair_ok in H. cbn [fst snd] in *. apply andb_true_iff in H. destruct H as [H H3].
  apply andb_true_iff in H. destruct H as [H1 H2]. apply negb_true_iff in H2, H3.
  apply ok_sp0; auto; intro K; rewrite K in *; discriminate.
Qed.
Lemma keywords_ok : forallb pair_ok keywords = true. Proof. vm_compute. reflexivity. Qed.
Lemma operators_ok : forallb pair_ok operator_words = true. Proof. vm_compute. reflexivity. Qed.
Lemma pairs_ok : forallb (fun q => pair_ok (fst (fst q), snd q)) pair_words = true. Proof. vm_compute. reflexivity. Qed.
Lemma symbols_ok : forallb (fun q => pair_ok (fst (fst q), snd q)) name_and_symbol_tbl = true. Proof. vm_compute. reflexivity. Qed.
Lemma free_sp0 : forall ty s, spellings ty = [] -> (ty = T_Name \/ ty = T_InnerName -> s <> []) -> sp0 (mkTok ty s).
Proof. intros ty s H K. split; cbn [t_type t_name]; auto. intro N. contradiction. Qed.
Lemma numerics_sp0 : forall s t r, fetch_numerics s = Ok (t, r) -> sp0 t.
Proof.
  intros s t r E. unfold fetch_numerics in E. destruct (fetch_numeric_literal s) as [[l q]|]; [|discriminate].
  destruct (_ || _); [|destruct (mem_char _ _)]; injection E as <- <-; apply free_sp0; auto; intros [K|K]; discriminate.
Qed.
Lemma get_tok_sp0 : forall s t r, get_tok s = Ok (t, r) -> sp0 t.
Proof.
  intros s t r E. unfold get_tok in E.
  destruct (strip_prefix (lit "(:") s) as [s1|].
  { destruct (xskip_comment 1 s1); [|discriminate]. injection E as <- <-. apply free_sp0; auto. intros [K|K]; discriminate. }
  destruct (strip_prefix (lit "Q{") s) as [s2|].
  { destruct (fetch_until 125 s) as [[l r']|]; [|discriminate]. injection E as <- <-. apply free_sp0; auto. intros [K|K]; discriminate. }
  destruct (find_keyword keywords s) as [[t' r']|] eqn:K.
  { injection E as -> ->. apply keyword_type in K. assert (O := keywords_ok). rewrite forallb_forall in O. apply O in K.
    apply pair_sp0 in K. destruct t. exact K. }
  destruct s as [|c s]; [injection E as <- <-; apply free_sp0; auto; intros [Q|Q]; discriminate|]. destruct (c =? 0).
  { injection E as <- <-. apply free_sp0; auto; intros [Q|Q]; discriminate. }
  destruct (xis_name_start_char c).
  { destruct (fetch_name s) as [n r'] eqn:F. injection E as <- <-. apply free_sp0; auto. discriminate. }
  destruct ((c =? 34) || (c =? 39)).
  { destruct (fetch_string_literal c s) as [[l r']|] eqn:F; [|discriminate]. injection E as <- <-.
    apply free_sp0; auto; intros [Q|Q]; discriminate. }
  destruct (xis_digit c); [apply numerics_sp0 in E; exact E|].
  destruct (c =? 46); [|discriminate]. destruct (xis_digit (xpeek s)); [apply numerics_sp0 in E; exact E|].
  injection E as <- <-. apply ok_sp0; [reflexivity|discriminate|discriminate].
Qed.
Lemma raw_sp0 : forall n s ts, raw_tokens_fuel n s = Ok ts -> Forall sp0 ts.
Proof.
  induction n as [|n IH]; intros s ts E; [discriminate|]. cbn [raw_tokens_fuel] in E.
  destruct (get_tok (xskip_spaces s)) as [[t r]|e| |] eqn:G; cbn [bind] in E; try discriminate.
  apply get_tok_sp0 in G.
  destruct (t_type t) eqn:T; try (injection E as <-; constructor); eauto;
    (destruct (raw_tokens_fuel n r) as [q|e| |] eqn:Q; cbn [bind] in E; try discriminate; injection E as <-;
     constructor; eauto).
Qed.
Lemma assoc_in : forall A (l : list (str * A)) n t, assoc_str n l = Some t -> In (n, t) l.
Proof.
  induction l as [|[m u] l IH]; intros n t H; [discriminate|]. cbn in H. destruct (str_eqb n m) eqn:E.
  - apply str_eqb_eq in E. subst m. injection H as <-. left; auto.
  - right. auto.
Qed.
Lemma pair_in : forall l a b t, find_pair a b l = Some t -> exists y, In (a, y, t) l.
Proof.
  induction l as [|[[x y] u] l IH]; intros a b t H; [discriminate|]. cbn in H. destruct (_ && _) eqn:E.
  - apply andb_true_iff in E. destruct E as [E _]. apply str_eqb_eq in E. subst x. injection H as <-. exists y. left; auto.
  - destruct (IH a b t H) as [k K]. exists k. right; auto.
Qed.
Lemma symbol_in : forall l a b t, find_symbol a b l = Some t -> exists y, In (a, y, t) l.
Proof.
  induction l as [|[[x y] u] l IH]; intros a b t H; [discriminate|]. cbn in H. destruct (_ && _) eqn:E.
  - apply andb_true_iff in E. destruct E as [E _]. apply str_eqb_eq in E. subst x. injection H as <-. exists y. left; auto.
  - destruct (IH a b t H) as [k K]. exists k. right; auto.
Qed.
Lemma pass1_sp0 : forall ts p, Forall sp0 ts -> Forall sp0 (rewrite_operator_type p ts).
Proof.
  induction ts as [|t ts IH]; intros p H; [constructor|]. inversion H; subst. cbn [rewrite_operator_type]. constructor; auto.
  destruct (_ && _); auto. destruct (assoc_str _ _) as [y|] eqn:E; auto. apply assoc_in in E.
  assert (O := operators_ok). rewrite forallb_forall in O. apply O in E. apply pair_sp0 in E. exact E.
Qed.
Lemma pass2_sp0 : forall n ts, (List.length ts <= n)%nat -> Forall sp0 ts -> Forall sp0 (rewrite_pair_words ts).
Proof.
  induction n as [|n IH]; intros ts L H.
  - destruct ts; [constructor|cbn in L; lia].
  - destruct ts as [|a ts]; [constructor|]. inversion H as [|? ? Ha Hts]; subst. cbn [rewrite_pair_words].
    destruct ts as [|b ts]; [auto|]. inversion Hts as [|? ? Hb Hts']; subst.
    match goal with |- context [match ?q with Some _ => _ | None => _ end] => destruct q as [y|] eqn:E end.
    + match type of E with (if ?c then _ else _) = _ => destruct c; [|discriminate] end. apply pair_in in E. destruct E as [x1 E].
      constructor.
      * assert (O := pairs_ok). rewrite forallb_forall in O. apply O in E. cbn [fst snd] in E. apply pair_sp0 in E. exact E.
      * constructor; [apply free_sp0; auto; intros [K|K]; discriminate|]. apply IH; auto. cbn in L. lia.
    + constructor; auto. apply IH; auto. cbn in *. lia.
Qed.
Lemma pass4_sp0 : forall ts, Forall sp0 ts -> Forall sp0 (rewrite_name_and_symbol ts).
Proof.
  induction ts as [|t ts IH]; intros H; [constructor|]. inversion H as [|? ? Ht Hts]; subst. cbn [rewrite_name_and_symbol]. constructor; auto.
  destruct (ttype_eqb _ _) eqn:T; auto. apply ttype_eqb_eq in T. destruct (find_symbol _ _ _) as [y|] eqn:E.
  - apply symbol_in in E. destruct E as [x2 E].
    assert (O := symbols_ok). rewrite forallb_forall in O. apply O in E. cbn [fst snd] in E. apply pair_sp0 in E. exact E.
  - apply free_sp0; auto. intros _. apply Ht. auto.
Qed.
Lemma lexer_spelled : forall s ts, lexer_new s = Ok (eof_token :: ts ++ [eof_token]) -> Forall spelled ts.
Proof.
  intros s ts E. destruct (lexer_noneof _ _ E) as [ts' [Q F]]. injection Q as Q. apply app_inv_tail in Q. subst ts'.
  unfold lexer_new in E. destruct (raw_tokens s) as [rs|e| |] eqn:R; cbn [bind] in E; try discriminate.
  apply raw_sp0 in R. apply (pass1_sp0 _ T_EOF) in R. destruct (rewrite_operator_type T_EOF rs) as [|a q]; [discriminate|].
  injection E as E. apply app_inv_tail in E. subst ts.
  assert (R3 : Forall sp0 (rewrite_name_and_symbol (eliminate_nops (rewrite_pair_words (a :: q))))).
  { apply pass4_sp0. assert (R2 := pass2_sp0 _ _ (le_n _) R). rewrite Forall_forall in R2. apply Forall_forall.
    intros x Hx. apply filter_In in Hx. destruct Hx as [Hx _]. apply R2. exact Hx. }
  rewrite Forall_forall in *. intros x Hx. destruct (R3 x Hx) as [A B]. split; auto. split; [auto|]. apply F. exact Hx.
Qed.

(* ---- reading one token ---- *)
Lemma next_tok : forall ty t, next_is ty t = true -> ty <> T_EOF -> exists s, t = mkTok ty s :: adv t.
Proof.
  intros ty [|[ty' s] t] H N; apply ttype_eqb_eq in H; cbn in H; [congruence|]. subst ty'. exists s. reflexivity.
Qed.
Lemma next_sym : forall ty k t, next_is ty t = true -> spellings ty = [k] -> Forall spelled t -> t = tk ty k :: adv t.
Proof.
  intros ty k t H S F. destruct (next_tok ty t H) as [s E]; [intro; subst; discriminate|]. rewrite E in F |- *. f_equal.
  inversion F as [|? ? [A _] _]. cbn [t_type t_name] in A. rewrite S in A. destruct A as [A|[]]; [discriminate|].
  unfold tk. rewrite <- A. reflexivity.
Qed.
Lemma next_name : forall t, next_is T_Name t = true -> Forall spelled t -> exists s, t = name s :: adv t /\ s <> [].
Proof.
  intros t H F. destruct (next_tok T_Name t H) as [s E]; [discriminate|]. exists s. split; auto. rewrite E in F.
  inversion F as [|? ? [_ [A _]] _]. apply A. reflexivity.
Qed.
Lemma nonnil : forall x, is_nil x = false -> x <> XNil.
Proof. intros [|t n l r] H; [discriminate|intro; discriminate]. Qed.
Lemma nil_is : forall x, is_nil x = true -> x = XNil.
Proof. intros [|t n l r] H; [auto|discriminate]. Qed.
Lemma empty_is : forall s : str, str_eqb s [] = true -> s = [].
Proof. intros s H. apply str_eqb_eq in H. exact H. Qed.
Lemma nonempty : forall s : str, str_eqb s [] = false -> s <> [].
Proof. intros s H E. subst. discriminate. Qed.
Lemma expect_ok : forall ty k t r, expect ty t = Ok r -> spellings ty = [k] -> Forall spelled t -> t = tk ty k :: r /\ Forall spelled r.
Proof.
  intros ty k t r E S F. unfold expect in E. destruct (next_is ty t) eqn:N; [|discriminate]. injection E as <-.
  assert (Q := next_sym _ _ _ N S F). split; [exact Q|]. rewrite Q in F. inversion F; auto.
Qed.
Lemma keyword_ok : forall k t r, expect_name (lit k) t = Ok r -> k <> ""%string -> Forall spelled t ->
  exists w, t = w :: r /\ keyword k w /\ Forall spelled r.
Proof.
  intros k t r E N F. unfold expect_name in E. destruct (_ && _) eqn:C; [discriminate|]. injection E as <-.
  destruct t as [|w t].
  - destruct k; [contradiction|discriminate C].
  - exists w. inversion F; subst. split; auto. split; auto. unfold keyword. apply andb_false_iff in C. destruct C as [C|C]; apply negb_false_iff in C.
    + left. apply ttype_eqb_eq in C. exact C.
    + right. apply str_eqb_eq in C. exact C.
Qed.

Lemma next_cut : forall ty k t, next_is ty t = true -> spellings ty = [k] -> Forall spelled t ->
  exists r, t = tk ty k :: r /\ Forall spelled r.
Proof.
  intros ty k t H S F. assert (Q := next_sym _ _ _ H S F). exists (adv t). split; auto. rewrite Q in F. inversion F; auto.
Qed.
Lemma next_cut_any : forall ty t, next_is ty t = true -> ty <> T_EOF -> Forall spelled t ->
  exists s r, t = mkTok ty s :: r /\ Forall spelled r.
Proof.
  intros ty t H N F. destruct (next_tok _ _ H N) as [s Q]. exists s, (adv t). split; auto. rewrite Q in F. inversion F; auto.
Qed.
Lemma next_cut_name : forall t, next_is T_Name t = true -> Forall spelled t ->
  exists s r, t = name s :: r /\ s <> [] /\ Forall spelled r.
Proof.
  intros t H F. destruct (next_name _ H F) as [s [Q N]]. exists s, (adv t). repeat split; auto. rewrite Q in F. inversion F; auto.
Qed.
Lemma type_next : forall ty t, next_type t = ty -> next_is ty t = true.
Proof. intros ty t H. unfold next_is. rewrite H. apply ttype_eqb_eq. reflexivity. Qed.

Definition reads (r : res (xnode * toks)) (t : toks) (P : list token -> xnode -> Prop) : Prop :=
  match r with Ok (x, r) => exists c, t = c ++ r /\ Forall spelled r /\ P c x | _ => True end.
Definition sound (p : parser) (P : list token -> xnode -> Prop) : Prop :=
  forall t, Forall spelled t -> reads (p t) t P.
Definition opt (p : parser) (P : list token -> xnode -> Prop) : Prop :=
  forall t, Forall spelled t -> reads (p t) t (fun c x => (x = XNil /\ c = []) \/ (x <> XNil /\ P c x)).
Lemma or_opt : forall p q P, opt p P -> opt q P -> opt (or_else p q) P.
Proof.
  intros p q P Hp Hq t F. unfold or_else. specialize (Hp t F). destruct (p t) as [[x r]|e| |]; cbn in *; auto.
  destruct Hp as [c [E [Fr Hp]]]. destruct (is_nil x) eqn:N.
  - apply nil_is in N. destruct Hp as [[_ ->]|[Hp _]]; [|contradiction]. cbn in E. subst r. apply Hq; auto.
  - exists c. auto.
Qed.
Lemma or_sound : forall p q P, opt p P -> sound q P -> sound (or_else p q) P.
Proof.
  intros p q P Hp Hq t F. unfold or_else. specialize (Hp t F). destruct (p t) as [[x r]|e| |]; cbn in *; auto.
  destruct Hp as [c [E [Fr Hp]]]. destruct (is_nil x) eqn:N.
  - apply nil_is in N. destruct Hp as [[_ ->]|[Hp _]]; [|contradiction]. cbn in E. subst r. apply Hq; auto.
  - exists c. apply nonnil in N. destruct Hp as [[Hp _]|[_ Hp]]; [contradiction|]. auto.
Qed.
Lemma opt_weaken : forall p (P Q : list token -> xnode -> Prop), (forall c x, P c x -> Q c x) -> opt p P -> opt p Q.
Proof.
  intros p P Q H Hp t F. specialize (Hp t F). destruct (p t) as [[x r]|e| |]; cbn in *; auto.
  destruct Hp as [c [E [Fr Hp]]]. exists c. repeat split; auto. destruct Hp as [Hp|[N Hp]]; auto.
Qed.
Lemma sound_weaken : forall p (P Q : list token -> xnode -> Prop), (forall c x, P c x -> Q c x) -> sound p P -> sound p Q.
Proof.
  intros p P Q H Hp t F. specialize (Hp t F). destruct (p t) as [[x r]|e| |]; cbn in *; auto.
  destruct Hp as [c [E [Fr Hp]]]. exists c. auto.
Qed.
Lemma opt_sound : forall p (P : list token -> xnode -> Prop), P [] XNil -> opt p P -> sound p P.
Proof.
  intros p P H Hp t F. specialize (Hp t F). destruct (p t) as [[x r]|e| |]; cbn in *; auto.
  destruct Hp as [c [E [Fr Hp]]]. exists c. repeat split; auto. destruct Hp as [[-> ->]|[_ Hp]]; auto.
Qed.
(* nothing read *)
Lemma reads_nothing : forall t P, Forall spelled t -> reads (Ok (XNil, t)) t (fun c x => (x = XNil /\ c = []) \/ (x <> XNil /\ P c x)).
Proof. intros t P F. exists []. auto. Qed.

Ltac appeq := cbn [app]; repeat (rewrite <- app_assoc; cbn [app]); reflexivity.
(* the node has been read: rule R *)
Ltac done R := cbn [reads]; eexists; split; [|split; [assumption|]]; cycle 1;
  [first [right; split; [intro; discriminate|eapply R; eauto] | eapply R; eauto] | appeq].
Ltac nothing := solve [apply reads_nothing; assumption].
Tactic Notation "cut_tok" constr(N) ident(F) := 
  (let r := fresh "t" in let Fr := fresh "F" in
   match type of N with next_is ?ty ?t = true =>
     destruct (next_cut ty _ t N eq_refl F) as [r [-> Fr]]; clear N F; rename Fr into F; cbn [adv tl] end).
Tactic Notation "cut_expect" ident(F) :=
  (let r := fresh "t" in let Fr := fresh "F" in let E := fresh "E" in let Q := fresh "Q" in
   match goal with |- context [expect ?ty ?t] =>
     destruct (expect ty t) as [r|?| |] eqn:E; cbn [bind]; [|exact I..];
     destruct (expect_ok ty _ t r E eq_refl F) as [Q Fr]; clear E; subst t; clear F; rename Fr into F end).

Definition reads_name (dp : string) (r : res (str * toks)) (t : toks) : Prop :=
  match r with
  | Ok (n, r) => exists c, t = c ++ r /\ Forall spelled r /\ ((n = [] /\ c = []) \/ (n <> [] /\ eqname dp c n))
  | _ => True
  end.
Lemma app_nonempty : forall (a b : str), a <> [] -> a ++ b <> [].
Proof. intros [|x a] b H; [contradiction|discriminate]. Qed.
Lemma app_nonempty_r : forall (a b : str), b <> [] -> a ++ b <> [].
Proof. intros [|x a] b H; [auto|discriminate]. Qed.
Lemma local_name : forall dp q, (if str_eqb (lit dp) [] then q else lit dp ++ lit ":" ++ q) =
  (if string_dec dp "" then q else lit dp ++ lit ":" ++ q).
Proof. intros [|a dp] q; reflexivity. Qed.
Lemma eqname_reads : forall dp t, Forall spelled t -> reads_name dp (parse_eqname (lit dp) t) t.
Proof.
  intros dp t F. unfold parse_eqname, parse_qname. destruct (next_is T_Name t) eqn:N.
  - destruct (next_cut_name _ N F) as [q [t1 [-> [Nq F1]]]]. cbn [adv tl nxt name t_name]. cbv zeta.
    destruct (next_is T_Colon t1) eqn:C.
    + destruct (next_cut _ _ _ C eq_refl F1) as [t2 [-> F2]]. cbn [adv tl nxt tk t_name].
      destruct (next_is T_Name t2) eqn:N2; [|exact I]. destruct (next_cut_name _ N2 F2) as [l [t3 [-> [Nl F3]]]].
      cbn [bind nxt t_name name adv tl]. destruct (str_eqb _ _) eqn:B.
      * apply empty_is in B. apply app_nonempty with (b := lit ":" ++ l) in Nq. contradiction.
      * cbn [negb]. exists [name q; COLON; name l]. repeat split; auto. right. split; [apply app_nonempty; auto|apply q_prefixed].
    + cbn [bind]. rewrite local_name. match goal with |- context [str_eqb ?n []] => destruct (str_eqb n []) eqn:B end.
      * apply empty_is in B. destruct (string_dec dp ""); [contradiction|]. exfalso.
        revert B. apply app_nonempty_r. discriminate.
      * cbn [negb]. exists [name q]. repeat split; auto. right. split; [apply nonempty; auto|apply q_local].
  - cbn [bind str_eqb negb]. destruct (_ && _) eqn:B.
    + apply andb_true_iff in B. destruct B as [B1 B2]. destruct (next_cut_any _ _ B1) as [u [t1 [-> F1]]]; [discriminate|auto|].
      cbn [adv tl] in *. destruct (next_cut_name _ B2 F1) as [l [t3 [-> [Nl F3]]]]. cbn [nxt t_name name adv tl].
      exists [mkTok T_BracedURILiteral u; name l]. repeat split; auto. right. split; [apply app_nonempty_r; auto|apply q_braced].
    + exists []. auto.
Qed.

(* read an EQName at t, giving its tokens c, its text n and the rest *)
Ltac eq_name dp F c n K :=
  match goal with |- context [parse_eqname ?d ?t] =>
    let R := fresh "R" in let r := fresh "t" in let Fr := fresh "F" in
    assert (R := eqname_reads dp t F); change (lit dp) with d in R;
    destruct (parse_eqname d t) as [[n r]|?| |]; cbn [bind reads_name] in R |- *; [|exact I..];
    destruct R as [c [-> [Fr K]]]; clear F; rename Fr into F
  end.
(* run the sub-parser for which L holds *)
Ltac sub L F c x K :=
  match type of L with sound ?p ?P => 
    match goal with |- context [p ?t] =>
      let R := fresh "R" in let r := fresh "t" in let Fr := fresh "F" in
      assert (R := L t F); cbv beta in R;
      destruct (p t) as [[x r]|?| |]; cbn [bind reads] in R |- *; [|exact I..];
      destruct R as [c [-> [Fr K]]]; clear F; rename Fr into F end
  | opt ?p ?P => 
    match goal with |- context [p ?t] =>
      let R := fresh "R" in let r := fresh "t" in let Fr := fresh "F" in
      assert (R := L t F); cbv beta in R;
      destruct (p t) as [[x r]|?| |]; cbn [bind reads] in R |- *; [|exact I..];
      destruct R as [c [-> [Fr K]]]; clear F; rename Fr into F end
  end.
Ltac is_tok ty t F N := destruct (next_is ty t) eqn:N; [cut_tok N F|].
Ltac name_nil K n := destruct (str_eqb n []) eqn:?B;
  [match goal with B : str_eqb n [] = true |- _ => apply empty_is in B end;
   destruct K as [[_ ->]|[K _]]; [|contradiction]
  |match goal with B : str_eqb n [] = false |- _ => apply nonempty in B end;
   destruct K as [[K _]|[_ K]]; [contradiction|]].

Lemma none_opt : forall ty k x, spellings ty = [k] -> opt (parse_kind_test_sub_none ty x)
  (fun c n => c = [tk ty k; LPAR; RPAR] /\ n = leaf x []).
Proof.
  intros ty k x S t F. unfold parse_kind_test_sub_none. destruct (next_is ty t) eqn:N; [|nothing].
  destruct (next_cut ty k t N S F) as [t1 [-> F1]]. clear N F. cbn [adv tl]. cut_expect F1. cut_expect F1. cbn [reads].
  exists [tk ty k; LPAR; RPAR]. repeat split; auto. right. split; [discriminate|auto].
Qed.
Lemma one_opt : forall ty k x, spellings ty = [k] -> opt (parse_kind_test_sub_one ty x)
  (fun c n => exists d m, eqname "" d m /\ c = tk ty k :: LPAR :: d ++ [RPAR] /\ n = leaf x m).
Proof.
  intros ty k x S t F. unfold parse_kind_test_sub_one. destruct (next_is ty t) eqn:N; [|nothing].
  destruct (next_cut ty k t N S F) as [t1 [-> F1]]. clear N F. cbn [adv tl]. cut_expect F1. eq_name ""%string F1 c n K.
  name_nil K n; [exact I|]. cut_expect F1. cbn [reads].
  exists (tk ty k :: LPAR :: c ++ [RPAR]). split; [appeq|]. split; auto. right. split; [discriminate|]. exists c, n. auto.
Qed.
Inductive element_like (w : token) (x : xtype) (dflt : str) (q : bool) : list token -> xnode -> Prop :=
| el_any : element_like w x dflt q [w; LPAR; RPAR] (XNode x (lit "*") (leaf X_KindTestTypeName dflt) XNil)
| el_name : forall c n, element_name c n -> element_like w x dflt q (w :: LPAR :: c ++ [RPAR]) (XNode x n (leaf X_KindTestTypeName dflt) XNil)
| el_typed : forall c n d ty, element_name c n -> eqname "xs" d ty ->
    element_like w x dflt q (w :: LPAR :: c ++ COMMA :: d ++ [RPAR]) (XNode x n (leaf X_KindTestTypeName ty) XNil)
| el_nillable : forall c n d ty, q = true -> element_name c n -> eqname "xs" d ty ->
    element_like w x dflt q (w :: LPAR :: c ++ COMMA :: d ++ [QUEST; RPAR]) (XNode x n (leaf X_KindTestTypeName (ty ++ lit "?")) XNil).
Lemma element_like_opt : forall ty k x dflt q, spellings ty = [k] ->
  opt (parse_element_like ty x dflt q) (element_like (tk ty k) x dflt q).
Proof.
  intros ty k x dflt q S t F. unfold parse_element_like. destruct (next_is ty t) eqn:N; [|nothing].
  destruct (next_cut ty k t N S F) as [t1 [-> F1]]. clear N F. cbn [adv tl]. cut_expect F1. eq_name ""%string F1 c n K. cbv zeta.
  match goal with |- context [let (_, _) := (if ?b then (lit "*", adv ?t2) else _) in _] =>
    assert (Z : exists c' n' t', c ++ t2 = c' ++ t' /\ Forall spelled t' /\ (if b then (lit "*", adv t2) else (n, t2)) = (n', t') /\
       ((n' = [] /\ c' = []) \/ (n' <> [] /\ element_name c' n'))) end.
  { name_nil K n; cbn [str_eqb andb].
    - destruct (next_is T_Asterisk t0) eqn:A.
      + destruct (next_cut _ _ _ A eq_refl F1) as [t2 [-> F2]]. cbn [adv tl]. exists [STAR], (lit "*"), t2. subst n.
        repeat split; auto. right. split; [discriminate|apply en_star].
      + subst n. exists [], [], t0. repeat split; auto.
    - exists c, n, t0. repeat split; auto. right. split; auto. apply en_name. auto. }
  destruct Z as [c' [n' [t' [E [F' [-> K']]]]]]. rewrite E. clear E K c n F1. rename F' into F1. rename c' into c, n' into n, K' into K.
  name_nil K n; cbn [negb andb bind].
  - subst n. cut_expect F1. done el_any.
  - destruct (next_is T_Comma t') eqn:C.
    + destruct (next_cut _ _ _ C eq_refl F1) as [t2 [-> F2]]. cbn [adv tl]. eq_name "xs"%string F2 d tn T. name_nil T tn; [exact I|].
      match goal with |- context [q && next_is T_Question ?u] => destruct (q && next_is T_Question u) eqn:Q end.
      * apply andb_true_iff in Q. destruct Q as [-> Q]. destruct (next_cut _ _ _ Q eq_refl F2) as [t3 [-> F3]]. cbn [adv tl bind].
        cut_expect F3. done el_nillable.
      * cbn [bind]. cut_expect F2. done el_typed.
    + cbn [bind]. cut_expect F1. done el_name.
Qed.
Lemma element_opt : opt parse_element_test element_test.
Proof.
  eapply opt_weaken; [|apply (element_like_opt T_ElementTest "element" _ _ _ eq_refl)]. intros c x [ | c' n H | c' n d ty H1 H2 | c' n d ty Q H1 H2].
  - constructor. - constructor; auto. - constructor; auto. - constructor; auto.
Qed.
Lemma attribute_opt : opt parse_attribute_test kind_test.
Proof.
  eapply opt_weaken; [|apply (element_like_opt T_AttributeTest "attribute" _ _ _ eq_refl)]. intros c x [ | c' n H | c' n d ty H1 H2 | c' n d ty Q H1 H2].
  - apply k_attribute. - apply k_attribute_name; auto. - apply k_attribute_typed; auto. - discriminate.
Qed.
Lemma schema_element_opt : opt parse_schema_element_test schema_element.
Proof.
  eapply opt_weaken; [|apply (one_opt T_SchemaElementTest "schema-element" _ eq_refl)]. intros c x [d [m [H [-> ->]]]]. constructor. auto.
Qed.
Lemma document_opt : opt parse_document_test kind_test.
Proof.
  intros t F. unfold parse_document_test. is_tok T_DocumentTest t F Ni; [|nothing]. cut_expect F.
  assert (L : opt (or_else parse_element_test parse_schema_element_test) (fun c x => element_test c x \/ schema_element c x)).
  { apply or_opt; (eapply opt_weaken; [|first [apply element_opt|apply schema_element_opt]]); auto. }
  sub L F c x K. cut_expect F. destruct K as [[-> ->]|[_ K]]; [done k_document|]. done k_document_element.
Qed.
Lemma pi_opt : opt parse_pi_test kind_test.
Proof.
  intros t F. unfold parse_pi_test. is_tok T_PITest t F Ni; [|nothing]. cut_expect F.
  match goal with |- context [next_type ?u] => destruct (next_type u) eqn:T end; cbn [bind]; try exact I; apply type_next in T.
  - destruct (next_cut_any _ _ T) as [s [t2 [-> F2]]]; [discriminate|auto|]. cbn [adv tl nxt t_name]. cut_expect F2. done k_pi_name.
  - cut_expect F. done k_pi.
  - destruct (next_cut_any _ _ T) as [s [t2 [-> F2]]]; [discriminate|auto|]. cbn [adv tl nxt t_name]. cut_expect F2. done k_pi_string.
Qed.
Lemma kind_opt : opt parse_kind_test (fun c x => exists y, kind_test c y /\ x = XNode X_KindTest [] y XNil).
Proof.
  intros t F. unfold parse_kind_test.
  match goal with |- context [bind (?p t) _] => assert (L : opt p kind_test) end.
  { repeat apply or_opt; try apply document_opt; try apply attribute_opt; try apply pi_opt.
    - eapply opt_weaken; [|apply element_opt]. apply k_element.
    - eapply opt_weaken; [|apply schema_element_opt]. apply k_schema_element.
    - eapply opt_weaken; [|apply (one_opt T_SchemaAttributeTest "schema-attribute" _ eq_refl)]. intros c x [d [m [H [-> ->]]]]. apply k_schema_attribute. auto.
    - eapply opt_weaken; [|apply (none_opt T_CommentTest "comment" _ eq_refl)]. intros c x [-> ->]. apply k_empty. cbn; auto.
    - eapply opt_weaken; [|apply (none_opt T_TextTest "text" _ eq_refl)]. intros c x [-> ->]. apply k_empty. cbn; auto.
    - eapply opt_weaken; [|apply (none_opt T_NamespaceNodeTest "namespace-node" _ eq_refl)]. intros c x [-> ->]. apply k_empty. cbn; auto.
    - eapply opt_weaken; [|apply (none_opt T_AnyKindTest "node" _ eq_refl)]. intros c x [-> ->]. apply k_empty. cbn; auto. }
  sub L F c x K. destruct (is_nil x) eqn:N.
  - apply nil_is in N. destruct K as [[_ ->]|[K _]]; [|contradiction]. cbn [app]. nothing.
  - apply nonnil in N. destruct K as [[K _]|[_ K]]; [contradiction|]. exists c. repeat split; auto. right. split; [discriminate|]. eauto.
Qed.

(* ---- types ---- *)
Ltac nil_case K x N := destruct (is_nil x) eqn:N;
  [apply nil_is in N; destruct K as [[_ ->]|[K _]]; [|contradiction]; subst x; cbn [app]
  |apply nonnil in N; destruct K as [[K _]|[_ K]]; [contradiction|]].
Ltac nil_or x N := destruct (is_nil x) eqn:N; [apply nil_is in N; subst x|apply nonnil in N].
Ltac is_next ty F Ni := match goal with |- context [next_is ty ?u] => is_tok ty u F Ni end.
Ltac next_case T := match goal with |- context [match next_type ?u with _ => _ end] => destruct (next_type u) eqn:T end.
Ltac cut_keyword k F w W :=
  match goal with |- context [expect_name ?n ?t] =>
    let r := fresh "t" in let Fr := fresh "F" in let E := fresh "E" in let Nk := fresh "Nk" in
    destruct (expect_name n t) as [r|?| |] eqn:E; cbn [bind]; [|exact I..];
    assert (Nk : k <> ""%string) by discriminate;
    destruct (keyword_ok k t r E Nk F) as [w [-> [W Fr]]]; clear E Nk F; rename Fr into F end.
(* what an optional part read, as a derivation *)
Lemma opt_derives : forall n c x, derives n [] XNil -> (x = XNil /\ c = []) \/ (x <> XNil /\ derives n c x) -> derives n c x.
Proof. intros n c x H [[-> ->]|[_ K]]; auto. Qed.
Section Item.
  Variable item : parser.
  Hypothesis Hi : opt item (derives ItemType).
  Lemma seq_opt : opt (parse_sequence_type_with item) (derives SequenceType).
  Proof.
    intros t F. unfold parse_sequence_type_with. sub (none_opt T_EmptySequence "empty-sequence" X_EmptySequenceTest eq_refl) F c x K.
    nil_case K x Nx; cbn [negb].
    - sub Hi F c x K. nil_case K x Nx; [nothing|].
      next_case T; try done g_one; apply type_next in T.
      + destruct (next_cut _ _ _ T eq_refl F) as [t2 [-> F2]]. cbn [adv tl nxt tk t_name]. exists (c ++ [PLUS]). split; [appeq|].
        split; auto. right. split; [discriminate|]. apply (g_many c x PLUS); cbn; auto.
      + destruct (next_cut _ _ _ T eq_refl F) as [t2 [-> F2]]. cbn [adv tl nxt tk t_name]. exists (c ++ [STAR]). split; [appeq|].
        split; auto. right. split; [discriminate|]. apply (g_many c x STAR); cbn; auto.
      + destruct (next_cut _ _ _ T eq_refl F) as [t2 [-> F2]]. cbn [adv tl nxt tk t_name]. exists (c ++ [QUEST]). split; [appeq|].
        split; auto. right. split; [discriminate|]. apply (g_many c x QUEST); cbn; auto.
    - destruct K as [-> ->]. done g_empty_sequence.
  Qed.
  Lemma seq_sound : sound (parse_sequence_type_with item) (derives SequenceType).
  Proof. apply opt_sound; [apply g_no_type|apply seq_opt]. Qed.
  Lemma types_loop_sound : forall f, sound (parse_types_loop item f) (derives MoreTypes).
  Proof.
    induction f as [|f IH]; intros t F; cbn [parse_types_loop]; [exact I|]. is_next T_Comma F Ni; [|done g_types_end].
    sub seq_sound F c x K. sub IH F d y K2. done g_types_more.
  Qed.
  Lemma function_test_opt : opt (parse_function_test item) (derives ItemType).
  Proof.
    intros t F. unfold parse_function_test. is_next T_Function F Ni; [|nothing]. cut_expect F.
    is_next T_Asterisk F Ni; [cut_expect F; done g_any_function|]. unfold parse_sequence_type_list.
    sub seq_opt F c x K. nil_case K x Nx; cbn [bind].
    - cut_expect F. cut_keyword "as"%string F w W. sub seq_sound F d s K. done g_function_no_params.
    - match goal with |- context [parse_types_loop item ?f _] => sub (types_loop_sound f) F e y K2 end.
      cut_expect F. cut_keyword "as"%string F w W. sub seq_sound F d s K3. done g_function_params.
  Qed.
  Lemma map_test_opt : opt (parse_map_test item) (derives ItemType).
  Proof.
    intros t F. unfold parse_map_test. is_next T_MapTest F Ni; [|nothing]. cut_expect F.
    is_next T_Asterisk F Ni; cbn [bind]; [cut_expect F; done g_any_map|].
    eq_name "xs"%string F c n K. name_nil K n; cbn [bind]; [exact I|]. cut_expect F. sub seq_sound F d s K3. cut_expect F. done g_map_test.
  Qed.
  Lemma array_test_opt : opt (parse_array_test item) (derives ItemType).
  Proof.
    intros t F. unfold parse_array_test. is_next T_ArrayTest F Ni; [|nothing]. cut_expect F.
    is_next T_Asterisk F Ni; cbn [bind]; [cut_expect F; done g_any_array|].
    sub seq_sound F d s K3. cut_expect F. done g_array_test.
  Qed.
  Lemma atomic_opt : opt parse_atomic_type (derives ItemType).
  Proof.
    intros t F. unfold parse_atomic_type. eq_name "xs"%string F c n K. name_nil K n; [nothing|]. done g_atomic.
  Qed.
  Lemma paren_type_opt : opt (parse_parenthesized_item_type item) (derives ItemType).
  Proof.
    intros t F. unfold parse_parenthesized_item_type. is_next T_LeftParen F Ni; [|nothing]. sub Hi F c x K. cut_expect F.
    apply opt_derives in K; [|apply g_no_item]. done g_item_parens.
  Qed.
  Lemma item_body_opt : opt (parse_item_body item) (derives ItemType).
  Proof.
    unfold parse_item_body. repeat apply or_opt; auto using function_test_opt, map_test_opt, array_test_opt, atomic_opt, paren_type_opt.
    - eapply opt_weaken; [|apply kind_opt]. intros c x [y [K ->]]. apply g_kind. auto.
    - eapply opt_weaken; [|apply (none_opt T_Item "item" _ eq_refl)]. intros c x [-> ->]. apply g_item.
  Qed.
End Item.
Lemma item_opt : opt parse_item_type (derives ItemType).
Proof.
  intros t. unfold parse_item_type. generalize (S (List.length t)). intro f. revert t. change (opt (parse_item_fuel f) (derives ItemType)).
  induction f as [|f IH]; [intros t F; exact I|]. cbn [parse_item_fuel]. apply item_body_opt. exact IH.
Qed.
Lemma type_opt : opt parse_sequence_type (derives SequenceType).
Proof. apply seq_opt, item_opt. Qed.
Lemma type_sound : sound parse_sequence_type (derives SequenceType).
Proof. apply seq_sound, item_opt. Qed.
Lemma single_type_opt : opt parse_single_type (derives SingleType).
Proof.
  intros t F. unfold parse_single_type. eq_name ""%string F c n K. name_nil K n; [nothing|].
  is_next T_Question F Ni; [done g_optional_type|done g_single_type].
Qed.

(* ---- operators ---- *)
Definition tbl_ok (tbl : list (ttype * xtype)) (n : nt) : bool :=
  forallb (fun p => negb (ttype_eqb (fst p) T_EOF) && negb (Nat.eqb (List.length (spellings (fst p))) 0) &&
    forallb (fun k => existsb (fun q => ttype_eqb (fst (fst q)) (fst p) && String.eqb (snd (fst q)) k && xtype_eqb (snd q) (snd p)) (operators n))
      (spellings (fst p))) tbl.
Lemma assoc_tt_in : forall tbl ty xt, assoc_tt ty tbl = Some xt -> In (ty, xt) tbl.
Proof.
  induction tbl as [|[k v] tbl IH]; intros ty xt H; [discriminate|]. cbn in H. destruct (ttype_eqb ty k) eqn:E.
  - apply ttype_eqb_eq in E. subst k. injection H as <-. left; auto.
  - right. auto.
Qed.
Lemma operator_next : forall tbl n t xt, tbl_ok tbl n = true -> assoc_tt (next_type t) tbl = Some xt -> Forall spelled t ->
  exists ty k r, t = tk ty k :: r /\ In (ty, k, xt) (operators n) /\ Forall spelled r.
Proof.
  intros tbl n t xt O A F. apply assoc_tt_in in A. unfold tbl_ok in O. rewrite forallb_forall in O. apply O in A. cbn [fst snd] in A.
  apply andb_true_iff in A. destruct A as [A A3]. apply andb_true_iff in A. destruct A as [A1 A2].
  destruct t as [|[ty s] t]; [discriminate A1|]. change (next_type (mkTok ty s :: t)) with ty in *.
  inversion F as [|? ? [S _] F']; subst. cbn [t_type t_name] in S.
  assert (S' : In s (map lit (spellings ty))). { apply S. intro K. rewrite K in A2. discriminate. }
  apply in_map_iff in S'. destruct S' as [k [<- Ik]]. rewrite forallb_forall in A3. apply A3 in Ik. apply existsb_exists in Ik.
  destruct Ik as [[[ty' k'] xt'] [Iq Q]]. cbn [fst snd] in Q. apply andb_true_iff in Q. destruct Q as [Q Q3]. apply andb_true_iff in Q. destruct Q as [Q1 Q2].
  apply ttype_eqb_eq in Q1. apply String.eqb_eq in Q2. apply xtype_eqb_eq in Q3. subst. exists ty, k, t. auto.
Qed.
Lemma bin_loop_sound : forall sub tbl n m, operand n = Some m -> tbl_ok tbl n = true -> sound sub (derives m) ->
  forall f c0 x t, derives (if repeats n then n else m) c0 x -> Forall spelled t ->
  reads (bin_op_loop f sub tbl (negb (repeats n)) x t) t (fun c y => derives n (c0 ++ c) y).
Proof.
  intros sub tbl n m On Tn Hs. induction f as [|f IH]; intros c0 x t D F; cbn [bin_op_loop]; [exact I|].
  destruct (assoc_tt (next_type t) tbl) as [xt|] eqn:A.
  - destruct (operator_next _ _ _ _ Tn A F) as [ty [k [r [-> [Io Fr]]]]]. cbn [adv tl nxt t_name tk]. cbv zeta. clear F A.
    sub Hs Fr c y K. assert (G : derives n (c0 ++ tk ty k :: c) (XNode xt (lit k) x y)) by (eapply g_operator; eauto).
    destruct (repeats n) eqn:R; cbn [negb].
    + specialize (IH (c0 ++ tk ty k :: c) (XNode xt (lit k) x y) _ G Fr). destruct (bin_op_loop _ _ _ _ _ _) as [[z r]|e| |]; cbn in *; auto.
      destruct IH as [d [-> [Fd IH]]]. exists (tk ty k :: c ++ d). split; [appeq|]. split; auto. rewrite <- app_assoc in IH. exact IH.
    + exists (tk ty k :: c). auto.
  - exists []. repeat split; auto. rewrite app_nil_r. destruct (repeats n); auto. eapply g_operand; eauto.
Qed.
Lemma bin_sound : forall sub tbl n m, operand n = Some m -> tbl_ok tbl n = true -> sound sub (derives m) ->
  sound (parse_bin_op_sub sub tbl (negb (repeats n))) (derives n).
Proof.
  intros sub tbl n m On Tn Hs t F. unfold parse_bin_op_sub. sub Hs F c x K.
  match goal with |- context [bin_op_loop ?f sub tbl _ x ?u] => assert (L := bin_loop_sound sub tbl n m On Tn Hs f c x u) end.
  assert (D : derives (if repeats n then n else m) c x) by (destruct (repeats n); auto; eapply g_operand; eauto).
  specialize (L D F). destruct (bin_op_loop _ _ _ _ _ _) as [[z r]|e| |]; cbn in *; auto.
  destruct L as [d [-> [Fd L]]]. exists (c ++ d). rewrite app_assoc. auto.
Qed.
Lemma with_type_sound : forall sub ty k tp xt n m n', type_operator n = Some (m, tk ty k, xt, n') -> spellings ty = [k] ->
  sound sub (derives m) -> opt tp (derives n') -> sound (with_type sub ty tp xt) (derives n).
Proof.
  intros sub ty k tp xt n m n' O S Hs Ht t F. unfold with_type. sub Hs F c x K.
  match goal with |- context [next_is ty ?u] => destruct (next_is ty u) eqn:Ni end.
  - destruct (next_cut _ _ _ Ni S F) as [t2 [-> F2]]. cbn [adv tl]. clear Ni F. sub Ht F2 d s T. nil_case T s Ns; [exact I|].
    exists (c ++ tk ty k :: d). split; [appeq|]. split; auto. eapply g_typed; eauto.
  - exists c. repeat split; auto. eapply g_untyped; eauto.
Qed.
Lemma set_linked : forall x r, set_right x r = linked x r.
Proof. intros [|t n l r'] r; reflexivity. Qed.
Lemma comma_chain_sound : forall p i, sound p (derives i) -> forall f, sound (comma_chain f p) (derives (MoreCommas i)).
Proof.
  intros p i H. induction f as [|f IH]; intros t F; cbn [comma_chain]; [exact I|]. is_next T_Comma F Ni; [|done g_commas_end].
  sub H F c x K. sub IH F d y K2. rewrite set_linked. done g_commas_more.
Qed.
Lemma comma_list_sound : forall p i, sound p (derives i) -> sound (parse_comma_list p) (derives (Commas i)).
Proof.
  intros p i H t F. unfold parse_comma_list. sub H F c x K. nil_or x Nx; [done g_commas_none|].
  match goal with |- context [comma_chain ?f p _] => assert (L := comma_chain_sound p i H f); sub L F d y K2 end.
  rewrite set_linked. done g_commas.
Qed.
Lemma entry_chain_sound : forall ty p i, sound p (derives i) -> forall f, sound (entry_chain f ty p) (derives (MoreEntries ty i)).
Proof.
  intros ty p i H. induction f as [|f IH]; intros t F; cbn [entry_chain]; [exact I|]. is_next T_Comma F Ni; [|done g_entries_end].
  sub H F c x K. sub IH F d y K2. done g_entries_more.
Qed.
Lemma entry_list_sound : forall ty p i, sound p (derives i) -> sound (parse_entry_list ty p) (derives (Entries ty i)).
Proof.
  intros ty p i H t F. unfold parse_entry_list. sub H F c x K. nil_or x Nx; [done g_entries_none|].
  match goal with |- context [entry_chain ?f ty p _] => assert (L := entry_chain_sound ty p i H f); sub L F d y K2 end.
  done g_entries.
Qed.
(* ---- primary expressions without expressions in them ---- *)
Ltac lit_tok T F s := apply type_next in T; destruct (next_cut_any _ _ T) as [s [?t [-> ?F]]]; [discriminate|exact F|];
  cbn [adv tl nxt t_name].
Lemma literal_opt : opt parse_literal (derives PrimaryExpr).
Proof.
  intros t F. unfold parse_literal. cbv zeta. destruct (next_type t) eqn:T; try nothing; lit_tok T F s;
    [done g_integer|done g_decimal|done g_double|done g_string].
Qed.
Lemma varref_opt : opt parse_varref (fun d x => exists c n, eqname "" c n /\ d = DOLLAR :: c /\ x = leaf X_VarRef n).
Proof.
  intros t F. unfold parse_varref. is_next T_Dollar F Ni; [|nothing]. eq_name ""%string F c n K. name_nil K n; [exact I|].
  exists (DOLLAR :: c). repeat split; auto. right. split; [discriminate|]. eauto.
Qed.
Lemma varref_primary : opt parse_varref (derives PrimaryExpr).
Proof. eapply opt_weaken; [|apply varref_opt]. intros d x [c [n [H [-> ->]]]]. apply g_var. auto. Qed.
Lemma dot_opt : opt parse_context_item_expr (derives PrimaryExpr).
Proof. intros t F. unfold parse_context_item_expr. is_next T_Dot F Ni; [done g_dot|nothing]. Qed.
Lemma function_ref_opt : opt parse_named_function_ref (derives PrimaryExpr).
Proof.
  intros t F. unfold parse_named_function_ref, parse_static_func_name. assert (F0 := F). eq_name "fn"%string F c n K. name_nil K n; [nothing|].
  match goal with |- context [next_is T_Sharp ?u && _] => destruct (next_is T_Sharp u) eqn:Ni; cbn [andb] end; [|nothing].
  match goal with |- context [next_is T_IntegerLiteral (adv ?u)] => destruct (next_is T_IntegerLiteral (adv u)) eqn:N2 end; [|nothing].
  destruct (next_cut _ _ _ Ni eq_refl F) as [t2 [-> F2]]. cbn [adv tl] in *. destruct (next_cut_any _ _ N2) as [s [t3 [-> F3]]]; [discriminate|auto|].
  cbn [adv tl nxt t_name]. done g_function_ref.
Qed.
Lemma param_sound : sound parse_param (derives Param).
Proof.
  intros t F. unfold parse_param. is_next T_Dollar F Ni; [|done g_no_param]. eq_name ""%string F c n K. name_nil K n; [exact I|].
  match goal with |- context [next_is T_Name ?u && _] => destruct (next_is T_Name u) eqn:Ni; cbn [andb]; [|done g_param] end.
  destruct (next_cut_name _ Ni F) as [s [t2 [-> [Ns F2]]]]. cbn [nxt name t_name adv tl].
  destruct (str_eqb s (lit "as")) eqn:As; [|done g_param]. apply str_eqb_eq in As. subst s. clear Ni F.
  sub type_sound F2 d y K2. done g_param_typed.
Qed.
Lemma wildcard_reads : forall t, Forall spelled t -> exists c, t = c ++ snd (parse_wildcard t) /\ Forall spelled (snd (parse_wildcard t)) /\
  ((fst (parse_wildcard t) = [] /\ c = []) \/ (fst (parse_wildcard t) <> [] /\ node_test c (fst (parse_wildcard t)) XNil)).
Proof.
  intros t F. assert (Z : exists c, t = c ++ t /\ Forall spelled t /\ (([] = [] :> str /\ c = []) \/ ([] <> [] :> str /\ node_test c [] XNil)))
    by (exists []; auto).
  unfold parse_wildcard. cbv zeta. destruct (next_type t) eqn:T; try exact Z; apply type_next in T.
  - destruct (next_cut_name _ T F) as [s [t2 [-> [Ns F2]]]]. cbn [nxt name t_name adv tl].
    destruct (next_is T_ColonAsterisk t2) eqn:N2; [|exact Z]. destruct (next_cut _ _ _ N2 eq_refl F2) as [t3 [-> F3]]. cbn [nxt tk t_name adv tl fst snd].
    exists [name s; tk T_ColonAsterisk ":*"]. repeat split; auto. right. split; [apply app_nonempty; auto|apply n_prefix_star].
  - destruct (next_cut _ _ _ T eq_refl F) as [t3 [-> F3]]. cbn [nxt tk t_name adv tl fst snd]. exists [STAR]. repeat split; auto. right.
    split; [discriminate|apply n_star].
  - destruct (next_cut_any _ _ T) as [u [t3 [-> F3]]]; [discriminate|auto|]. cbn [nxt tk t_name adv tl fst snd].
    destruct (next_is T_Asterisk t3) eqn:N2; [|exact Z]. destruct (next_cut _ _ _ N2 eq_refl F3) as [t4 [-> F4]]. cbn [nxt tk t_name adv tl fst snd].
    exists [mkTok T_BracedURILiteral u; STAR]. repeat split; auto. right. split; [apply app_nonempty_r; discriminate|apply n_uri_star].
  - destruct (next_cut _ _ _ T eq_refl F) as [t3 [-> F3]]. cbn [nxt tk t_name adv tl fst snd].
    destruct (next_is T_Name t3) eqn:N2; [|exact Z]. destruct (next_cut_name _ N2 F3) as [l [t4 [-> [Nl F4]]]]. cbn [nxt name t_name adv tl fst snd].
    exists [tk T_AsteriskColon "*:"; name l]. repeat split; auto. right. split; [apply app_nonempty; discriminate|apply n_star_local].
Qed.
Lemma reverse_axis : forall ax, is_xnode_reverse_axis ax = true <-> reversed ax.
Proof.
  intro ax. unfold is_xnode_reverse_axis, reversed. rewrite existsb_exists. split.
  - intros [y [H E]]. apply xtype_eqb_eq in E. subst. exact H.
  - intro H. exists ax. split; auto. apply xtype_eqb_eq. reflexivity.
Qed.
Lemma cells_length : forall x, chain_length x = List.length (cells x).
Proof. induction x as [|t n l _ r IH]; cbn [chain_length cells List.length]; congruence. Qed.
Lemma cells_placeholder : forall x, has_placeholder x = true <-> In X_ArgumentPlaceholder (cells x).
Proof.
  induction x as [|t n l _ r IH]; cbn [has_placeholder cells In]; [split; [discriminate|intros []]|].
  rewrite orb_true_iff, xtype_eqb_eq, IH. reflexivity.
Qed.
Section Single.
  Variable single : parser.
  Hypothesis Hs : sound single (derives ExprSingle).
  Lemma expr_sound : sound (parse_expr_with single) (derives Expr).
  Proof. unfold parse_expr_with. apply (bin_sound single tbl_expr Expr ExprSingle); auto. Qed.
  Lemma predicate_reads : sound (parse_predicate single)
    (fun c x => (c = [] /\ x = XNil) \/ exists d, c = LSQ :: d ++ [RSQ] /\ derives Expr d x).
  Proof.
    intros t F. unfold parse_predicate. is_next T_LeftBracket F Ni; [|exists []; auto]. sub expr_sound F c x K. cut_expect F.
    exists (LSQ :: c ++ [RSQ]). split; [appeq|]. split; eauto.
  Qed.
  Lemma predicates_sound : forall rev f, sound (predicate_list_loop single f rev) (derives (PredicateList rev)).
  Proof.
    intros rev. induction f as [|f IH]; intros t F; cbn [predicate_list_loop]; [exact I|]. sub predicate_reads F c x K. nil_or x Nx.
    - destruct K as [[-> _]|[d [-> D]]]; [done g_no_predicate|done g_empty_predicate].
    - destruct K as [[_ K]|[d [-> D]]]; [contradiction|]. sub IH F e p K2. done g_predicate.
  Qed.
  Lemma predicate_list_sound : forall rev, sound (parse_predicate_list single rev) (derives (PredicateList rev)).
  Proof. intros rev t F. unfold parse_predicate_list. apply predicates_sound. exact F. Qed.
  Lemma node_test_reads : forall a ax, axis_part a ax -> sound (parse_node_test single ax) (fun c x => derives StepExpr (a ++ c) x).
  Proof.
    intros a ax A t F. unfold parse_node_test. assert (W := wildcard_reads t F). destruct (parse_wildcard t) as [w t1]. cbn [fst snd] in W.
    destruct W as [c [-> [F1 W]]]. clear F. rename F1 into F.
    assert (R : match (if str_eqb w [] then parse_eqname [] t1 else Ok (w, t1)) with
      | Ok (n, t2) => exists d, c ++ t1 = d ++ t2 /\ Forall spelled t2 /\ ((n = [] /\ d = []) \/ (n <> [] /\ node_test d n XNil))
      | _ => True end).
    { name_nil W w.
      - assert (E := eqname_reads "" t1 F). change (lit "") with (@nil char) in E. destruct (parse_eqname [] t1) as [[n t2]|e| |]; auto.
        destruct E as [d [-> [F2 E]]]. exists d. repeat split; auto. destruct E as [E|[E1 E2]]; auto. right. split; auto. apply n_name. auto.
      - exists c. auto. }
    destruct (if str_eqb w [] then _ else _) as [[n t2]|e| |]; cbn [bind]; try exact I. destruct R as [d [E [F2 R]]]. rewrite E. clear E F W c.
    rename F2 into F. name_nil R n; cbn [negb].
    - subst n. sub kind_opt F c k K. nil_case K k Nk; [exists []; rewrite app_nil_r; repeat split; auto; eapply g_no_step; eauto|].
      destruct K as [y [K ->]]. sub (predicate_list_sound (is_xnode_reverse_axis ax)) F d p P.
      exists (c ++ d). split; [appeq|]. split; auto. eapply g_axis_step; eauto using reverse_axis. apply n_kind. auto.
    - sub (predicate_list_sound (is_xnode_reverse_axis ax)) F e p P. exists (d ++ e). split; [appeq|]. split; auto.
      eapply g_axis_step; eauto using reverse_axis.
  Qed.
  Lemma reads_axis : forall a ax t r, axis_part a ax -> sound r (fun c x => derives StepExpr (a ++ c) x) -> Forall spelled t ->
    reads (r t) (a ++ t) (derives StepExpr).
  Proof.
    intros a ax t r A S F. specialize (S t F). destruct (r t) as [[x u]|e| |]; cbn in *; auto. destruct S as [c [-> [Fu D]]].
    exists (a ++ c). rewrite app_assoc. auto.
  Qed.
  Lemma axis_step_sound : sound (parse_axis_step single) (derives StepExpr).
  Proof.
    intros t F. unfold parse_axis_step.
    assert (C : reads (parse_node_test single X_AxisChild t) t (derives StepExpr)).
    { apply (reads_axis [] X_AxisChild t); auto; [apply a_child|]. apply node_test_reads. apply a_child. }
    destruct (next_type t) eqn:T; try exact C; clear C; apply type_next in T.
    - destruct (next_cut_any _ _ T) as [s [t1 [-> F1]]]; [discriminate|auto|]. cbn [adv tl nxt t_name]. cut_expect F1.
      inversion F as [|? ? [S _] _]; subst. cbn [t_type t_name] in S. assert (S' := S ltac:(discriminate)). clear S.
      cbn [spellings map fst axis_words In] in S'.
      repeat (destruct S' as [S'|S']; [subst s;
        match goal with |- context [assoc_str ?a ?b] => let v := eval vm_compute in (assoc_str a b) in change (assoc_str a b) with v end;
        cbv iota;
        first [exact I
          | match goal with |- context [parse_node_test single ?ax ?u] =>
              match goal with |- context [lit ?k] => 
              apply (reads_axis [tk T_AxisName k; COLONS] ax u); [|apply node_test_reads|exact F1] end end;
            apply a_named; cbn; tauto]|]). destruct S'.
    - destruct (next_cut _ _ _ T eq_refl F) as [t3 [-> F3]]. cbn [adv tl]. cbv zeta. done g_parent.
    - destruct (next_cut _ _ _ T eq_refl F) as [t3 [-> F3]]. cbn [adv tl].
      apply (reads_axis [AT] X_AxisAttribute t3); auto; [apply a_attribute|apply node_test_reads, a_attribute].
  Qed.
  Lemma parens_opt : opt (parse_parenthesized_expr single)
    (fun c x => exists d y, derives Expr d y /\ c = LPAR :: d ++ [RPAR] /\ x = XNode X_ParenthesizedExpr [] y XNil).
  Proof.
    intros t F. unfold parse_parenthesized_expr. is_next T_LeftParen F Ni; [|nothing]. sub expr_sound F c x K. cut_expect F.
    exists (LPAR :: c ++ [RPAR]). split; [appeq|]. split; auto. right. split; [discriminate|]. eauto.
  Qed.
  Lemma argument_sound : sound (parse_argument single) (derives Argument).
  Proof.
    intros t F. unfold parse_argument. sub Hs F c x K. nil_or x Nx; [|done g_argument].
    is_next T_Question F Ni; [done g_placeholder|done g_no_argument].
  Qed.
  Lemma arguments_sound : sound (parse_argument_list single) (derives ArgumentList).
  Proof.
    intros t F. unfold parse_argument_list. cut_expect F. sub (comma_list_sound (parse_argument single) Argument argument_sound) F c x K.
    cut_expect F. done g_arguments.
  Qed.
  Lemma call_opt : opt (parse_function_call single) (derives PrimaryExpr).
  Proof.
    intros t F. unfold parse_function_call, parse_static_func_name. assert (F0 := F). eq_name "fn"%string F c n K. name_nil K n; [nothing|].
    match goal with |- context [next_is T_LeftParen ?u] => destruct (next_is T_LeftParen u); [|nothing] end.
    sub arguments_sound F d a A. destruct (check_function_spec n (chain_length a)) eqn:Ck; [|exact I].
    apply check_has_entry in Ck. rewrite cells_length in Ck. destruct (has_placeholder a) eqn:Hp.
    - apply cells_placeholder in Hp. done g_partial_call.
    - assert (~ In X_ArgumentPlaceholder (cells a)) by (rewrite <- cells_placeholder, Hp; discriminate). done g_call.
  Qed.
  Lemma inline_opt : opt (parse_inline_function_expr single) (derives PrimaryExpr).
  Proof.
    intros t F. unfold parse_inline_function_expr, parse_function_body. is_next T_Function F Ni; [|nothing]. cut_expect F.
    sub (comma_list_sound parse_param Param param_sound : sound parse_param_list _) F c ps K. cut_expect F.
    match goal with |- context [next_is T_Name ?u && _] => destruct (next_is T_Name u) eqn:Ni; cbn [andb] end.
    - destruct (next_cut_name _ Ni F) as [s [t2 [-> [Ns F2]]]]. cbn [nxt name t_name adv tl].
      destruct (str_eqb s (lit "as")) eqn:As.
      + apply str_eqb_eq in As. subst s. clear Ni F. sub type_sound F2 e rt K2. cut_expect F2. sub expr_sound F2 d b B. cut_expect F2.
        done g_inline_typed.
      + cbn [bind]. unfold expect at 1. cbn [next_is next_type nxt name t_type ttype_eqb tcode Nat.eqb]. exact I.
    - cbn [bind]. cut_expect F. sub expr_sound F d b B. cut_expect F. done g_inline.
  Qed.
  Lemma map_entry_sound : sound (parse_map_constructor_entry single) (derives MapEntry).
  Proof.
    intros t F. unfold parse_map_constructor_entry. sub Hs F c k K. nil_or k Nk; [done g_no_entry|]. cut_expect F. sub Hs F d v V.
    nil_or v Nv; [exact I|]. done g_entry.
  Qed.
  Lemma map_opt : opt (parse_map_constructor single) (derives PrimaryExpr).
  Proof.
    intros t F. unfold parse_map_constructor. is_next T_Map F Ni; [|nothing]. cut_expect F.
    sub (entry_list_sound X_MapConstruct _ _ map_entry_sound) F c e K. cut_expect F. done g_map.
  Qed.
  Lemma square_opt : opt (parse_square_array_constructor single) (derives PrimaryExpr).
  Proof.
    intros t F. unfold parse_square_array_constructor. is_next T_LeftBracket F Ni; [|nothing].
    sub (entry_list_sound X_ArrayEntry _ _ Hs) F c e K. cut_expect F. done g_square.
  Qed.
  Lemma curly_opt : opt (parse_curly_array_constructor single) (derives PrimaryExpr).
  Proof.
    intros t F. unfold parse_curly_array_constructor. is_next T_Array F Ni; [|nothing]. cut_expect F. sub expr_sound F c x K. cut_expect F.
    done g_curly.
  Qed.
  Lemma lookup_opt : opt (parse_unary_lookup single) (derives Lookup).
  Proof.
    intros t F. unfold parse_unary_lookup. destruct (next_is T_Question t) eqn:Nq; [|nothing]. cbv zeta.
    destruct (next_type (adv t)) eqn:T; try nothing; destruct (next_cut _ _ _ Nq eq_refl F) as [t1 [-> F1]]; clear F Nq; cbn [adv tl] in *.
    - lit_tok T F1 s. done g_key_name.
    - apply type_next in T. destruct (next_cut _ _ _ T eq_refl F1) as [t2 [-> F2]]. cbn [adv tl]. done g_key_star.
    - unfold parse_parenthesized_expr. apply type_next in T. rewrite T. destruct (next_cut _ _ _ T eq_refl F1) as [t2 [-> F2]]. cbn [adv tl].
      sub expr_sound F2 c x K. cut_expect F2. done g_key_expr.
    - lit_tok T F1 s. done g_key_number.
  Qed.
  Lemma primary_opt : opt (parse_primary_expr single) (derives PrimaryExpr).
  Proof.
    unfold parse_primary_expr. repeat apply or_opt; auto using literal_opt, varref_primary, dot_opt, call_opt, function_ref_opt, inline_opt,
      map_opt, curly_opt, square_opt.
    - eapply opt_weaken; [|apply parens_opt]. intros c x [d [y [D [-> ->]]]]. apply g_parens. auto.
    - eapply opt_weaken; [|apply lookup_opt]. apply g_unary_lookup.
  Qed.
  (* a postfix, applied to what is before it *)
  Lemma postfix_step : forall f c0 x t, derives PostfixExpr c0 x -> Forall spelled t ->
    reads (postfix_loop single f x t) t (fun c y => derives PostfixExpr (c0 ++ c) y /\ (x <> XNil -> y <> XNil)).
  Proof.
    induction f as [|f IH]; intros c0 x t D F; cbn [postfix_loop]; [exact I|].
    assert (Stop : reads (Ok (x, t)) t (fun c y => derives PostfixExpr (c0 ++ c) y /\ (x <> XNil -> y <> XNil))).
    { exists []. rewrite app_nil_r. auto. }
    assert (Go : forall d y u, t = d ++ u -> Forall spelled u -> derives PostfixExpr (c0 ++ d) y -> y <> XNil ->
      reads (postfix_loop single f y u) t (fun c y => derives PostfixExpr (c0 ++ c) y /\ (x <> XNil -> y <> XNil))).
    { intros d y u -> Fu Dy Ny. specialize (IH (c0 ++ d) y u Dy Fu). destruct (postfix_loop single f y u) as [[z r]|e| |]; cbn in *; auto.
      destruct IH as [e [-> [Fe [IH1 IH2]]]]. exists (d ++ e). rewrite <- app_assoc in IH1. rewrite app_assoc. auto. }
    unfold parse_postfix. cbv zeta. destruct (next_type t) eqn:T; cbn [bind is_nil]; try exact Stop; apply type_next in T.
    - (* [ *) unfold parse_predicate. rewrite T. destruct (next_cut _ _ _ T eq_refl F) as [t1 [-> F1]]. cbn [adv tl]. clear F T.
      sub expr_sound F1 d e K. cut_expect F1. cbn [is_nil x_type].
      apply (Go (LSQ :: d ++ [RSQ])); [appeq|exact F1|apply g_filter; auto|discriminate].
    - (* ( *) sub arguments_sound F d a K. cbn [is_nil x_type]. apply (Go d); [reflexivity|exact F|apply g_apply; auto|discriminate].
    - (* ? *) assert (R := lookup_opt t F). destruct (parse_unary_lookup single t) as [[l u]|e| |]; cbn [bind reads] in *; try exact I.
      destruct R as [d [E [Fu K]]]. nil_case K l Nl.
      + cbn [app] in E. subst u. exact Stop.
      + assert (X : match x_type l with X_PredicateTop => X_ApplyPredicate | X_ArgumentListTop => X_ApplyArgument | _ => X_OperatorMap end = X_OperatorMap).
        { inversion K; subst; try discriminate; reflexivity. }
        rewrite X. apply (Go d); auto; [apply g_lookup; auto|discriminate].
  Qed.
  Lemma postfix_opt : opt (parse_postfix_expr single) (derives PostfixExpr).
  Proof.
    intros t F. unfold parse_postfix_expr. sub primary_opt F c x K. nil_case K x Nx; [nothing|]. 
    match goal with |- context [postfix_loop single ?f x ?u] => assert (L := postfix_step f c x u (g_primary _ _ K) F);
      destruct (postfix_loop single f x u) as [[y r]|e| |]; cbn [reads] in *; auto end.
    destruct L as [d [-> [Fd [D N]]]]. exists (c ++ d). split; [appeq|]. split; auto.
  Qed.
  Lemma step_sound : sound (parse_step_expr single) (derives StepExpr).
  Proof.
    unfold parse_step_expr. apply or_sound; [|apply axis_step_sound]. eapply opt_weaken; [|apply postfix_opt]. apply g_postfix.
  Qed.
  Lemma steps_sound : forall f, sound (relative_loop single f) (derives MoreSteps).
  Proof.
    induction f as [|f IH]; intros t F; cbn [relative_loop]; [exact I|].
    destruct (next_type t) eqn:T; try (done g_last); apply type_next in T; destruct (next_cut _ _ _ T eq_refl F) as [t1 [-> F1]]; cbn [adv tl]; clear F T.
    - sub step_sound F1 c s K. sub IH F1 d r R. done g_slashes.
    - sub step_sound F1 c s K. sub IH F1 d r R. done g_slash.
  Qed.
  Lemma relative_sound : sound (parse_relative_path_expr single) (derives RelativePathExpr).
  Proof.
    intros t F. unfold parse_relative_path_expr. sub step_sound F c x K. nil_or x Nx; [done g_one_step|].
    match goal with |- context [relative_loop single ?f _] => sub (steps_sound f) F d r R end. nil_or r Nr.
    - assert (d = []) by (inversion R; subst; try discriminate; reflexivity). subst d. exists c. repeat split; auto. apply g_one_step. auto.
    - done g_steps.
  Qed.
  Lemma path_sound : sound (parse_path_expr single) (derives PathExpr).
  Proof.
    intros t F. unfold parse_path_expr. assert (Z : reads (parse_relative_path_expr single t) t (derives PathExpr)).
    { apply (sound_weaken _ _ _ g_relative relative_sound t F). }
    destruct (next_type t) eqn:T; try exact Z; clear Z; apply type_next in T; destruct (next_cut _ _ _ T eq_refl F) as [t1 [-> F1]]; cbn [adv tl]; clear F T.
    - sub relative_sound F1 c x K. done g_root_any.
    - sub relative_sound F1 c x K. done g_root.
  Qed.
  Lemma value_sound : sound (parse_value_expr single) (derives SimpleMapExpr).
  Proof. unfold parse_value_expr. apply (bin_sound _ tbl_value SimpleMapExpr PathExpr); auto. apply path_sound. Qed.
  Lemma unary_sound : sound (parse_unary_expr single) (derives UnaryExpr).
  Proof.
    intros t F. unfold parse_unary_expr. assert (Z : reads (parse_value_expr single t) t (derives UnaryExpr)).
    { apply (sound_weaken _ _ _ g_no_sign value_sound t F). }
    destruct (next_type t) eqn:T; try exact Z; clear Z; apply type_next in T; destruct (next_cut _ _ _ T eq_refl F) as [t1 [-> F1]]; cbn [adv tl]; clear F T.
    - sub value_sound F1 c x K. done g_plus.
    - sub value_sound F1 c x K. done g_minus.
  Qed.
  Lemma arrow_step : forall f c0 x t, derives ArrowExpr c0 x -> Forall spelled t ->
    reads (arrow_loop single f x t) t (fun c y => derives ArrowExpr (c0 ++ c) y).
  Proof.
    induction f as [|f IH]; intros c0 x t D F; cbn [arrow_loop]; [exact I|].
    destruct (next_is T_Arrow t) eqn:Na; [|exists []; rewrite app_nil_r; auto].
    destruct (next_cut _ _ _ Na eq_refl F) as [t1 [-> F1]]. cbn [adv tl]. clear F Na.
    assert (Go : forall d y u, derives ArrowExpr (c0 ++ ARROW :: d) y -> Forall spelled u ->
      reads (arrow_loop single f y u) (tk T_Arrow "=>" :: d ++ u) (fun c y => derives ArrowExpr (c0 ++ c) y)).
    { intros d y u Dy Fu. specialize (IH _ y u Dy Fu). destruct (arrow_loop single f y u) as [[z r]|e| |]; cbn in *; auto.
      destruct IH as [e [-> [Fe IH1]]]. exists (ARROW :: d ++ e). rewrite <- app_assoc in IH1. split; [appeq|]. auto. }
    unfold parse_static_func_name. eq_name "fn"%string F1 c n K. name_nil K n; cbn [negb].
    - cbn [app]. sub varref_opt F1 d v V. nil_case V v Nv; [exact I|]. destruct V as [e [m [E [-> ->]]]].
      sub arguments_sound F1 g a A. match goal with |- reads _ ?l _ => replace l with (tk T_Arrow "=>" :: (DOLLAR :: e ++ g) ++ t) by appeq end.
      apply Go; auto. apply g_arrow_var; auto.
    - sub arguments_sound F1 g a A. match goal with |- reads _ (_ :: ?c ++ ?g ++ ?u) _ => replace (c ++ g ++ u) with ((c ++ g) ++ u) by appeq end.
      apply Go; auto. apply g_arrow; auto.
  Qed.
  Lemma arrow_sound : sound (parse_arrow_expr single) (derives ArrowExpr).
  Proof.
    intros t F. unfold parse_arrow_expr. sub unary_sound F c x K.
    match goal with |- context [arrow_loop single ?f x ?u] => assert (L := arrow_step f c x u (g_no_arrow _ _ K) F);
      destruct (arrow_loop single f x u) as [[y r]|e| |]; cbn [reads] in *; auto end.
    destruct L as [d [-> [Fd D]]]. exists (c ++ d). split; [appeq|]. auto.
  Qed.
  Lemma or_expr_sound : sound (parse_or_expr single) (derives OrExpr).
  Proof.
    assert (H1 : sound (parse_cast_expr single) (derives CastExpr))
      by (apply (with_type_sound _ _ "cast" _ _ CastExpr ArrowExpr SingleType); auto using arrow_sound, single_type_opt).
    assert (H2 : sound (parse_castable_expr single) (derives CastableExpr))
      by (apply (with_type_sound _ _ "castable" _ _ CastableExpr CastExpr SingleType); auto using single_type_opt).
    assert (H3 : sound (parse_treat_expr single) (derives TreatExpr))
      by (apply (with_type_sound _ _ "treat" _ _ TreatExpr CastableExpr SequenceType); auto using type_opt).
    assert (H4 : sound (parse_instanceof_expr single) (derives InstanceofExpr))
      by (apply (with_type_sound _ _ "instance" _ _ InstanceofExpr TreatExpr SequenceType); auto using type_opt).
    assert (H5 : sound (parse_intersect_except_expr single) (derives IntersectExceptExpr))
      by (apply (bin_sound _ tbl_intersect IntersectExceptExpr InstanceofExpr); auto).
    assert (H6 : sound (parse_union_expr single) (derives UnionExpr)) by (apply (bin_sound _ tbl_union UnionExpr IntersectExceptExpr); auto).
    assert (H7 : sound (parse_multiplicative_expr single) (derives MultiplicativeExpr))
      by (apply (bin_sound _ tbl_multiplicative MultiplicativeExpr UnionExpr); auto).
    assert (H8 : sound (parse_additive_expr single) (derives AdditiveExpr))
      by (apply (bin_sound _ tbl_additive AdditiveExpr MultiplicativeExpr); auto).
    assert (H9 : sound (parse_range_expr single) (derives RangeExpr)) by (apply (bin_sound _ tbl_range RangeExpr AdditiveExpr); auto).
    assert (H10 : sound (parse_string_concat_expr single) (derives StringConcatExpr))
      by (apply (bin_sound _ tbl_concat StringConcatExpr RangeExpr); auto).
    assert (H11 : sound (parse_comparison_expr single) (derives ComparisonExpr))
      by (apply (bin_sound _ tbl_comparison ComparisonExpr StringConcatExpr); auto).
    assert (H12 : sound (parse_and_expr single) (derives AndExpr)) by (apply (bin_sound _ tbl_and AndExpr ComparisonExpr); auto).
    apply (bin_sound _ tbl_or OrExpr AndExpr); auto.
  Qed.
  Lemma if_opt : opt (parse_if_expr single) (derives ExprSingle).
  Proof.
    intros t F. unfold parse_if_expr. is_next T_If F Ni; [|nothing]. cut_expect F. sub expr_sound F c x K. nil_or x Nx; [exact I|].
    cut_expect F. cut_keyword "then"%string F w W. sub Hs F d a A. nil_or a Na; [exact I|]. cut_keyword "else"%string F w2 W2.
    sub Hs F e b B. nil_or b Nb; [exact I|]. done g_if.
  Qed.
  Lemma in_opt : forall b w xt s bt kw, b <> B_let -> binder_word b = (w, xt, s, bt, kw) ->
    opt (parse_simple_binding single bt) (derives (Binding b)).
  Proof.
    intros b w xt s bt kw Nb Bw t F. unfold parse_simple_binding. is_next T_Dollar F Ni; [|nothing]. eq_name ""%string F c n K.
    name_nil K n; [exact I|]. cut_keyword "in"%string F i Wi. sub Hs F d e D. done g_binding_in.
  Qed.
  Lemma let_opt : opt (parse_simple_let_binding single) (derives (Binding B_let)).
  Proof.
    intros t F. unfold parse_simple_let_binding. is_next T_Dollar F Ni; [|nothing]. eq_name ""%string F c n K.
    name_nil K n; [exact I|]. cut_expect F. sub Hs F d e D. done g_binding_let.
  Qed.
  Lemma bindings_sound : forall b w xt s bt kw bind1, binder_word b = (w, xt, s, bt, kw) -> opt bind1 (derives (Binding b)) ->
    forall f, sound (bindings_loop single f bind1 (lit kw)) (derives (Bindings b)).
  Proof.
    intros b w xt s bt kw bind1 Bw Hb. assert (Nk : kw <> ""%string) by (destruct b; injection Bw as <- <- <- <- <-; discriminate).
    induction f as [|f IH]; intros t F; cbn [bindings_loop]; [exact I|]. sub Hb F c x K.
    assert (Kw : forall u, Forall spelled u -> match expect_name (lit kw) u with Ok r => exists w, u = w :: r /\ keyword kw w /\ Forall spelled r | _ => True end).
    { intros u Fu. destruct (expect_name (lit kw) u) eqn:E; auto. apply (keyword_ok kw u); auto. }
    nil_case K x Nx; cbn [negb andb].
    - match goal with |- context [expect_name _ ?u] => specialize (Kw u F); destruct (expect_name (lit kw) u) as [r|?| |]; cbn [bind]; [|exact I..] end.
      destruct Kw as [k [-> [Wk Fk]]]. clear F. sub Hs Fk d e D. exists (k :: d). split; [reflexivity|]. split; auto. eapply g_bindings_none; eauto.
    - match goal with |- context [next_is T_Comma ?u] => destruct (next_is T_Comma u) eqn:Nc end.
      + destruct (next_cut _ _ _ Nc eq_refl F) as [t2 [-> F2]]. cbn [adv tl]. clear Nc F Kw. sub IH F2 d r R. rewrite set_linked. done g_bindings_more.
      + match goal with |- context [expect_name _ ?u] => specialize (Kw u F); destruct (expect_name (lit kw) u) as [r|?| |]; cbn [bind]; [|exact I..] end.
        destruct Kw as [k [-> [Wk Fk]]]. clear F Nc. sub Hs Fk d e D. rewrite set_linked. exists (c ++ k :: d). split; [appeq|]. split; auto.
        eapply g_bindings_last; eauto.
  Qed.
  Lemma binder_opt : forall b ty k xt s bt kw bind1, binder_word b = (tk ty k, xt, s, bt, kw) -> spellings ty = [k] ->
    opt bind1 (derives (Binding b)) -> opt (parse_binding_expr single ty xt (lit s) bind1 (lit kw)) (derives ExprSingle).
  Proof.
    intros b ty k xt s bt kw bind1 Bw Sp Hb t F. unfold parse_binding_expr. destruct (next_is ty t) eqn:Ni; [|nothing].
    destruct (next_cut _ _ _ Ni Sp F) as [t1 [-> F1]]. cbn [adv tl]. clear F Ni.
    match goal with |- context [bindings_loop single ?f _ _ _] => sub (bindings_sound b _ _ _ _ _ bind1 Bw Hb f) F1 c r R end.
    exists (tk ty k :: c). split; [reflexivity|]. split; auto. right. split; [discriminate|]. eapply g_binder; eauto.
  Qed.
  Lemma single_body_sound : sound (parse_single_body single) (derives ExprSingle).
  Proof.
    unfold parse_single_body. apply or_sound; [|apply or_sound; [|apply or_sound; [|apply or_sound; [apply if_opt|]]]].
    - apply (binder_opt B_for T_For "for" X_ForExpr "for" X_ForVarBind "return"); auto. eapply in_opt; [discriminate|reflexivity].
    - apply (binder_opt B_let T_Let "let" X_LetExpr "let" X_LetVarBind "return"); auto. apply let_opt.
    - apply or_opt.
      + apply (binder_opt B_some T_Some "some" X_SomeExpr "some" X_SomeVarBind "satisfies"); auto. eapply in_opt; [discriminate|reflexivity].
      + apply (binder_opt B_every T_Every "every" X_EveryExpr "every" X_EveryVarBind "satisfies"); auto. eapply in_opt; [discriminate|reflexivity].
    - apply (sound_weaken _ _ _ g_or or_expr_sound).
  Qed.
End Single.
Lemma single_sound : sound parse_expr_single (derives ExprSingle).
Proof.
  intros t. unfold parse_expr_single. generalize (S (List.length t)). intro f. revert t. change (sound (parse_single_fuel f) (derives ExprSingle)).
  induction f as [|f IH]; [intros t F; exact I|]. cbn [parse_single_fuel]. apply single_body_sound. exact IH.
Qed.
Theorem parse_sound : sound parse_expr (derives Expr).
Proof. apply expr_sound. apply single_sound. Qed.

(* Lemmas: the lexer turns the text of a printed expression into its tokens. *)
Require Import Bool List NArith ZArith Ascii String Lia.
From Verif Require Import Str StrFacts Chars Lexer FuncTable Parser ParserFacts SpecLex LexFacts PropLex SpecExpr PrecFacts.
Import ListNotations.
Open Scope N_scope.
Local Arguments N.eqb : simpl never.
Local Arguments N.leb : simpl never.

(* ---- single tokens ---- *)
Lemma ranges_between : forall c l, char_is_in_ranges c l = between c l.
Proof.
  intros c l. unfold between. induction l as [|[a b] l IH]; [reflexivity|]. cbn [char_is_in_ranges existsb fst snd]. rewrite IH.
  destruct ((a <=? c) && (c <=? b)); reflexivity.
Qed.
Lemma between_join : forall c a b d r, a <= b -> b + 1 <= d -> between c ((a, b) :: (b + 1, d) :: r) = between c ((a, d) :: r).
Proof.
  intros c a b d r H1 H2. unfold between. cbn [existsb fst snd]. rewrite orb_assoc. f_equal.
  destruct (N.leb_spec a c), (N.leb_spec c b), (N.leb_spec (b + 1) c), (N.leb_spec c d); try reflexivity; lia.
Qed.
Lemma between_cons : forall c p r r', between c r = between c r' -> between c (p :: r) = between c (p :: r').
Proof. intros c p r r' H. unfold between in *. cbn [existsb]. rewrite H. reflexivity. Qed.
Lemma name_start_spec : forall c, xis_name_start_char c = nc_start c.
Proof.
  intro c. unfold xis_name_start_char, name_start_ranges. rewrite ranges_between. unfold nc_start.
  do 5 apply between_cons. apply (between_join c 0xF8 0xFF 0x2FF); lia.
Qed.
Lemma name_char_spec : forall c, xis_name_char c = nc_char c.
Proof.
  intro c. unfold xis_name_char, nc_char. rewrite name_start_spec. f_equal. rewrite ranges_between.
  symmetry. symmetry. rewrite <- (between_join c 0x2D 0x2D 0x2E) by lia. reflexivity.
Qed.
Lemma fetch_name_all : forall s, Forall (fun d => xis_name_char d = true) s -> fetch_name s = (s, []).
Proof. induction s as [|c s IH]; intro H; [reflexivity|]. inversion H; subst. cbn. rewrite H2, IH by auto. reflexivity. Qed.
Lemma fetch_digits_all : forall s r, digits s -> xis_digit (xpeek r) = false -> fetch_digits (s ++ r) = (s, r).
Proof.
  induction s as [|c s IH]; intros r H Hr.
  - destruct r as [|d r]; [reflexivity|]. cbn in *. rewrite Hr. reflexivity.
  - inversion H; subst. cbn. rewrite H2, IH by auto. reflexivity.
Qed.
Lemma keyword_no_start : forall c s, existsb (fun k => match fst k with [] => true | d :: _ => c =? d end) keywords = false ->
  find_keyword keywords (c :: s) = None.
Proof.
  intros c s. generalize keywords. induction l as [|[k t] l IH]; intro H; [reflexivity|].
  cbn in *. apply orb_false_iff in H. destruct H as [H1 H2]. destruct k as [|d k]; [discriminate|].
  cbn. rewrite N.eqb_sym, H1. auto.
Qed.
Definition word_start (c : char) : Prop := xis_name_start_char c = true \/ xis_digit c = true.
Lemma word_ranges : forall c, word_start c -> 48 <= c /\ (c <= 57 \/ 65 <= c) /\ c <> 91 /\ c <> 93 /\ c <> 123 /\ c <> 124 /\ c <> 125.
Proof.
  intros c [H|H].
  - assert (G : forall rs, char_is_in_ranges c rs = true -> exists a b, In (a, b) rs /\ a <= c /\ c <= b).
    { induction rs as [|[a b] rs IH]; intro E; [discriminate|]. cbn in E. destruct ((a <=? c) && (c <=? b)) eqn:Q.
      - apply andb_true_iff in Q. destruct Q as [H1 H2]. apply N.leb_le in H1, H2. exists a, b. cbn; auto.
      - destruct (IH E) as [a' [b' [K ?]]]. exists a', b'. cbn; auto. }
    apply G in H. destruct H as [a [b [Hin [H1 H2]]]]. unfold name_start_ranges in Hin. cbn [In] in Hin.
    repeat (destruct Hin as [Hin|Hin]; [injection Hin as <- <-; lia|]). destruct Hin.
  - unfold xis_digit in H. apply andb_true_iff in H. destruct H as [H1 H2]. apply N.leb_le in H1, H2. lia.
Qed.
Lemma word_no_keyword : forall c s, word_start c -> find_keyword keywords (c :: s) = None.
Proof.
  intros c s H. apply word_ranges in H. apply keyword_no_start. cbn [existsb keywords fst lit].
  repeat match goal with |- context [c =? N_of_ascii ?d] => let v := eval vm_compute in (N_of_ascii d) in
    change (N_of_ascii d) with v; rewrite (proj2 (N.eqb_neq c v)) by lia end.
  reflexivity.
Qed.

Lemma raw_one : forall s t, s <> [] -> xskip_spaces s = s -> get_tok s = Ok (t, []) -> t_type t <> T_EOF -> t_type t <> T_Nop ->
  raw_tokens s = Ok [t].
Proof.
  intros s t N K E H1 H2. rewrite raw_tokens_unfold, K, E. cbn [bind].
  change (raw_tokens []) with (@Ok (list token) []). destruct (t_type t); try congruence; reflexivity.
Qed.
Lemma word_skip : forall c s, word_start c -> xskip_spaces (c :: s) = c :: s.
Proof.
  intros c s H. apply word_ranges in H. cbn. rewrite (proj2 (N.eqb_neq c 0)) by lia.
  replace (is_space c) with false; auto. unfold is_space. symmetry.
  rewrite !(proj2 (N.eqb_neq c _)) by lia. reflexivity.
Qed.
Lemma word_no_comment : forall c s, word_start c -> strip_prefix (lit "(:") (c :: s) = None.
Proof. intros c s H. apply word_ranges in H. cbn. destruct (N.eqb_spec 40 c); [lia|reflexivity]. Qed.
Lemma name_not_digit : forall c, xis_name_start_char c = true -> c <> 0.
Proof. intros c H E. subst. discriminate. Qed.
Lemma raw_name : forall s, ncname s -> raw_tokens s = Ok [mkTok T_InnerName s].
Proof.
  intros [|c s] H; [destruct H|]. destruct H as [H1 H2]. rewrite <- name_start_spec in H1.
  assert (H2' : Forall (fun d => xis_name_char d = true) s) by (eapply Forall_impl; [|exact H2]; intros d Hd; rewrite name_char_spec; exact Hd).
  clear H2. rename H2' into H2. assert (W : word_start c) by (left; auto).
  apply raw_one; try discriminate; [apply word_skip; auto|].
  unfold get_tok. rewrite word_no_comment by auto.
  assert (Q : strip_prefix (lit "Q{") (c :: s) = None).
  { cbn. destruct (N.eqb_spec 81 c); auto. destruct s as [|d s]; auto. inversion H2; subst.
    destruct (N.eqb_spec 123 d); auto. subst. discriminate. }
  rewrite Q, word_no_keyword by auto. rewrite (proj2 (N.eqb_neq c 0)) by (apply name_not_digit; auto).
  rewrite H1, fetch_name_all by auto. reflexivity.
Qed.
Lemma digit_not_start : forall c, xis_digit c = true -> xis_name_start_char c = false.
Proof.
  intros c H. destruct (xis_name_start_char c) eqn:E; auto. exfalso.
  unfold xis_digit in H. apply andb_true_iff in H. destruct H as [H1 H2]. apply N.leb_le in H1, H2.
  unfold xis_name_start_char, name_start_ranges in E. cbn [char_is_in_ranges] in E.
  repeat match type of E with context [?a <=? c] => rewrite (proj2 (N.leb_gt a c)) in E by lia; cbn [andb] in E end.
  discriminate.
Qed.
Lemma get_tok_num : forall c s, xis_digit c = true -> get_tok (c :: s) = fetch_numerics (c :: s).
Proof.
  intros c s H. assert (W : word_start c) by (right; auto). unfold get_tok. rewrite word_no_comment by auto.
  assert (R := word_ranges c W).
  assert (K : c <= 57) by (unfold xis_digit in H; apply andb_true_iff in H; destruct H as [_ H2]; apply N.leb_le in H2; lia).
  assert (Q : strip_prefix (lit "Q{") (c :: s) = None) by (cbn; destruct (N.eqb_spec 81 c); [lia|reflexivity]).
  rewrite Q, word_no_keyword by auto. rewrite (proj2 (N.eqb_neq c 0)) by lia. rewrite digit_not_start by auto.
  rewrite (proj2 (N.eqb_neq c 34)), (proj2 (N.eqb_neq c 39)) by lia. rewrite H. reflexivity.
Qed.
Lemma digits_mem : forall d s, xis_digit d = false -> digits s -> mem_char d s = false.
Proof.
  intros d s H D. induction D as [|c s Hc D IH]; [reflexivity|]. change (mem_char d (c :: s)) with ((d =? c) || mem_char d s). rewrite IH.
  destruct (N.eqb_spec d c); [subst; congruence|reflexivity].
Qed.
Lemma mem_char_app : forall d a b, mem_char d (a ++ b) = mem_char d a || mem_char d b.
Proof. intros d a b. apply existsb_app. Qed.
Lemma raw_num : forall k s, lexical k s -> k <> L_string -> raw_tokens s = Ok [mkTok (match k with L_integer => T_IntegerLiteral | L_decimal => T_DecimalLiteral | _ => T_DoubleLiteral end) s].
Proof.
  assert (G : forall c s, xis_digit c = true -> raw_tokens (c :: s) =
     do (tok, r) <- fetch_numerics (c :: s);
     match t_type tok with T_EOF => Ok [] | T_Nop => raw_tokens r | _ => do ts <- raw_tokens r; Ok (tok :: ts) end).
  { intros c s H. rewrite raw_tokens_unfold, word_skip by (right; auto). rewrite get_tok_num by auto. reflexivity. }
  assert (E0 : forall s, digits s -> fetch_numeric_after_e (101 :: s) = match s with [] => None | _ => Some (101 :: s, []) end).
  { intros s D. destruct s as [|c s]; [reflexivity|]. inversion D; subst. cbn [fetch_numeric_after_e xpeek tl].
    change ((101 =? 101) || (101 =? 69)) with true. cbn iota.
    assert (K : (c =? 43) || (c =? 45) = false).
    { unfold xis_digit in H1. apply andb_true_iff in H1. destruct H1 as [A1 A2]. apply N.leb_le in A1, A2.
      rewrite (proj2 (N.eqb_neq c 43)), (proj2 (N.eqb_neq c 45)) by lia. reflexivity. }
    rewrite K, H1. rewrite <- (app_nil_r (c :: s)) at 1. rewrite fetch_digits_all by auto. reflexivity. }
  intros k s H. destruct H as [|s Hs D|a b Ha Da Db|a b Ha Da Hb Db|a b c Ha Da Db Hc Dc]; intro Nk; [congruence|..].
  - destruct s as [|c s]; [congruence|]. inversion D; subst. rewrite G by auto. unfold fetch_numerics, fetch_numeric_literal.
    rewrite H1. assert (F := fetch_digits_all s [] H2 eq_refl). rewrite app_nil_r in F. rewrite F. cbn [xpeek].
    change (0 =? 46) with false. cbn iota. cbn [fetch_numeric_after_e app]. rewrite app_nil_r.
    rewrite !digits_mem by auto. reflexivity.
  - destruct a as [|c a]; [congruence|]. inversion Da; subst. cbn [app]. rewrite G by auto.
    unfold fetch_numerics, fetch_numeric_literal. rewrite H1. rewrite fetch_digits_all by auto. cbn [xpeek].
    change (46 =? 46) with true. cbn iota. unfold fetch_numeric_after_period.
    assert (F := fetch_digits_all b [] Db eq_refl). rewrite app_nil_r in F. rewrite F. cbn [fetch_numeric_after_e].
    rewrite !app_nil_r. change (c :: a ++ 46 :: b) with ((c :: a) ++ 46 :: b).
    rewrite !mem_char_app. rewrite !(digits_mem _ (c :: a)) by auto. 
    change (mem_char 101 (46 :: b)) with (mem_char 101 b). change (mem_char 69 (46 :: b)) with (mem_char 69 b).
    change (mem_char 46 (46 :: b)) with true. rewrite !(digits_mem _ b) by auto. reflexivity.
  - destruct a as [|c a]; [congruence|]. inversion Da; subst. cbn [app]. rewrite G by auto.
    unfold fetch_numerics, fetch_numeric_literal. rewrite H1. rewrite fetch_digits_all by auto. cbn [xpeek].
    change (101 =? 46) with false. cbn iota. rewrite E0 by auto. destruct b as [|d b]; [congruence|].
    cbn [app]. change (c :: a ++ 101 :: d :: b) with ((c :: a) ++ 101 :: d :: b).
    rewrite mem_char_app. change (mem_char 101 (101 :: d :: b)) with true. rewrite orb_true_r. reflexivity.
  - destruct a as [|d a]; [congruence|]. inversion Da; subst. cbn [app]. rewrite G by auto.
    unfold fetch_numerics, fetch_numeric_literal. rewrite H1. rewrite fetch_digits_all by auto. cbn [xpeek].
    change (46 =? 46) with true. cbn iota. unfold fetch_numeric_after_period.
    rewrite fetch_digits_all by auto. rewrite E0 by auto. destruct c as [|x c]; [congruence|].
    cbn [fetch_numeric_after_e]. rewrite !app_nil_r.
    change (d :: a ++ 46 :: b ++ 101 :: x :: c) with ((d :: a) ++ (46 :: b) ++ 101 :: x :: c).
    rewrite !mem_char_app. change (mem_char 101 (101 :: x :: c)) with true. rewrite !orb_true_r. reflexivity.
Qed.

(* ---- the rewriting passes ---- *)
Definition plain_type (ty : ttype) : Prop := ty <> T_InnerName /\ ty <> T_Nop.
Definition praw (p : ptok) : list token :=
  match p with
  | PSym s ty | PNum s ty => [mkTok ty s]
  | PWord s | POp s _ | PKey s _ => [mkTok T_InnerName s]
  | PPair s1 s2 _ => [mkTok T_InnerName s1; mkTok T_InnerName s2]
  | PStr s => [mkTok T_StringLiteral s]
  end.
Definition after1 (p : ptok) : list token := match p with POp s ty => [mkTok ty s] | _ => praw p end.
Definition after2 (p : ptok) : list token :=
  match p with PPair s1 s2 ty => [mkTok ty s1; mkTok T_Nop s2] | _ => after1 p end.
Definition after3 (p : ptok) : token :=
  match p with
  | PSym s ty | PNum s ty | POp s ty | PPair s _ ty => mkTok ty s
  | PWord s | PKey s _ => mkTok T_InnerName s
  | PStr s => mkTok T_StringLiteral s
  end.
Definition last_ty (p : ptok) : ttype :=
  match p with
  | PSym _ ty | PNum _ ty | POp _ ty => ty
  | PWord _ | PKey _ _ | PPair _ _ _ => T_InnerName
  | PStr _ => T_StringLiteral
  end.
Definition not_op (s : str) : Prop := assoc_str s operator_words = None.
Definition no_pair (s : str) : Prop := forall b, find_pair s b pair_words = None.
Definition pok (p : ptok) : Prop :=
  match p with
  | PSym s ty | PNum s ty => raw_tokens s = Ok [mkTok ty s] /\ ~ In 0 s /\ plain_type ty
  | PWord s => ncname s /\ not_op s /\ no_pair s /\ forall n, find_symbol s n name_and_symbol_tbl = None
  | POp s ty => ncname s /\ assoc_str s operator_words = Some ty /\ plain_type ty
  | PPair s1 s2 ty => ncname s1 /\ ncname s2 /\ not_op s1 /\ not_op s2 /\ find_pair s1 s2 pair_words = Some ty /\ plain_type ty
  | PKey s ty => ncname s /\ not_op s /\ no_pair s
  | PStr s => ~ In 0 s
  end.
Definition ending (ty : ttype) : Prop := existsb (ttype_eqb ty) prev_t_types = false.
Fixpoint okl (prev : ttype) (l : list ptok) : Prop :=
  match l with
  | [] => True
  | p :: l' =>
      pok p /\
      match p with
      | POp _ _ => ending prev
      | PKey s ty => match l' with
                     | PSym _ y :: _ => find_symbol s y name_and_symbol_tbl = Some ty \/
                         (find_symbol s y name_and_symbol_tbl = None /\ ty = T_Name)
                     | _ => False
                     end
      | _ => True
      end /\ okl (last_ty p) l'
  end.

Lemma ncname_nz : forall s, ncname s -> ~ In 0 s.
Proof.
  intros [|c s] H; [destruct H|]. destruct H as [H1 H2]. intros [E|E]; [subst; discriminate|].
  rewrite Forall_forall in H2. specialize (H2 0 E). discriminate.
Qed.
Lemma nz_app : forall a b : str, ~ In 0 a -> ~ In 0 b -> ~ In 0 (a ++ b).
Proof. intros a b Ha Hb H. apply in_app_iff in H. tauto. Qed.
Lemma raw_ptok : forall p, pok p -> raw_tokens (ptext p) = Ok (praw p) /\ ~ In 0 (ptext p).
Proof.
  intros [s ty|s|s ty|s1 s2 ty|s ty|s|s ty] H; cbn [pok ptext praw] in *.
  - tauto.
  - destruct H as [H _]. split; [apply raw_name|apply ncname_nz]; auto.
  - destruct H as [H _]. split; [apply raw_name|apply ncname_nz]; auto.
  - destruct H as [H1 [H2 _]]. split.
    + apply (C40_tokens_separate s1 s2 32 [mkTok T_InnerName s1] [mkTok T_InnerName s2]);
        auto using raw_name, ncname_nz. left; auto.
    + apply nz_app; [apply ncname_nz; auto|]. intros [E|E]; [discriminate|]. revert E. apply ncname_nz; auto.
  - destruct H as [H _]. split; [apply raw_name|apply ncname_nz]; auto.
  - split.
    + apply raw_one; try discriminate; [reflexivity|]. assert (E := get_tok_quote 34 s [] (or_introl eq_refl) H).
      rewrite app_nil_r in E. apply E. discriminate.
    + unfold quote. intros [E|E]; [discriminate|]. apply in_app_iff in E. destruct E as [E|[E|[]]]; [|discriminate].
      apply in_flat_map in E. destruct E as [c [E1 E2]]. destruct (c =? 34) eqn:Q.
      * cbn in E2. intuition discriminate.
      * destruct E2 as [E2|[]]. subst. auto.
  - tauto.
Qed.
Lemma okl_pok : forall l prev, okl prev l -> Forall pok l.
Proof. induction l as [|p l IH]; intros prev H; constructor; cbn [okl] in H; [tauto|]. eapply IH. apply H. Qed.
Lemma raw_text : forall l, Forall pok l -> raw_tokens (text l) = Ok (flat_map praw l).
Proof.
  induction l as [|p l IH]; intro H; [reflexivity|]. inversion H; subst. destruct (raw_ptok p H2) as [A B].
  unfold text in *. cbn [flat_map]. rewrite <- app_assoc. cbn [app].
  apply C40_tokens_separate; auto. left; auto.
Qed.
Lemma tt_refl : forall t, ttype_eqb t t = true.
Proof. intro t. apply ttype_eqb_eq. auto. Qed.
Lemma tt_neq : forall a b, a <> b -> ttype_eqb a b = false.
Proof. intros a b H. destruct (ttype_eqb a b) eqn:E; auto. apply ttype_eqb_eq in E. congruence. Qed.
Lemma pass1 : forall l prev, okl prev l -> rewrite_operator_type prev (flat_map praw l) = flat_map after1 l.
Proof.
  induction l as [|p l IH]; intros prev H; [reflexivity|]. cbn [okl] in H. destruct H as [P [C H]]. specialize (IH _ H).
  destruct p as [s ty|s|s ty|s1 s2 ty|s ty|s|s ty];
    cbn [flat_map praw after1 app rewrite_operator_type t_type t_name last_ty pok] in *.
  - destruct P as [_ [_ [P _]]]. rewrite (tt_neq ty) by auto. rewrite andb_false_r. cbn [t_type]. rewrite IH. reflexivity.
  - destruct P as [_ [P _]]. rewrite P. destruct (negb _ && _); cbn [t_type]; rewrite IH; reflexivity.
  - destruct P as [_ [P _]]. unfold ending in C. rewrite C, tt_refl, P. cbn [negb andb set_type t_type t_name]. rewrite IH. reflexivity.
  - destruct P as [_ [_ [P1 [P2 _]]]]. rewrite P1, P2.
    repeat match goal with |- context [if ?b then mkTok T_InnerName ?x else mkTok T_InnerName ?x] =>
      replace (if b then mkTok T_InnerName x else mkTok T_InnerName x) with (mkTok T_InnerName x) by (destruct b; reflexivity) end.
    cbn [t_type]. rewrite IH. reflexivity.
  - destruct P as [_ [P _]]. rewrite P. destruct (negb _ && _); cbn [t_type]; rewrite IH; reflexivity.
  - rewrite (tt_neq T_StringLiteral) by discriminate. rewrite andb_false_r. cbn [t_type]. rewrite IH. reflexivity.
  - destruct P as [_ [_ [P _]]]. rewrite (tt_neq ty) by auto. rewrite andb_false_r. cbn [t_type]. rewrite IH. reflexivity.
Qed.
Lemma pair_skip : forall a ts, (t_type a <> T_InnerName \/ no_pair (t_name a)) ->
  rewrite_pair_words (a :: ts) = a :: rewrite_pair_words ts.
Proof.
  intros a ts H. destruct ts as [|b ts]; [reflexivity|]. cbn [rewrite_pair_words].
  destruct H as [H|H]; [rewrite tt_neq by auto; reflexivity|]. rewrite H. destruct (_ && _); reflexivity.
Qed.
Lemma pass2 : forall l, Forall pok l -> rewrite_pair_words (flat_map after1 l) = flat_map after2 l.
Proof.
  induction l as [|p l IH]; intro H; [reflexivity|]. inversion H as [|x y P Hl]; subst. specialize (IH Hl).
  destruct p as [s ty|s|s ty|s1 s2 ty|s ty|s|s ty]; cbn [flat_map praw after1 after2 app pok] in *.
  - rewrite pair_skip by (left; apply P). rewrite IH. reflexivity.
  - rewrite pair_skip by (right; apply P). rewrite IH. reflexivity.
  - rewrite pair_skip by (left; apply P). rewrite IH. reflexivity.
  - destruct P as [_ [_ [_ [_ [P _]]]]]. cbn [rewrite_pair_words t_type t_name]. rewrite tt_refl. cbn [andb]. rewrite P.
    rewrite IH. reflexivity.
  - rewrite pair_skip by (right; apply P). rewrite IH. reflexivity.
  - rewrite pair_skip by (left; discriminate). rewrite IH. reflexivity.
  - rewrite pair_skip by (left; apply P). rewrite IH. reflexivity.
Qed.
Lemma pass3 : forall l, Forall pok l -> eliminate_nops (flat_map after2 l) = map after3 l.
Proof.
  induction l as [|p l IH]; intro H; [reflexivity|]. inversion H as [|x y P Hl]; subst. specialize (IH Hl).
  unfold eliminate_nops in *.
  destruct p as [s ty|s|s ty|s1 s2 ty|s ty|s|s ty];
    cbn [flat_map praw after1 after2 app pok map filter t_type] in *; rewrite IH; try reflexivity.
  - rewrite (tt_neq ty) by apply P. reflexivity.
  - rewrite (tt_neq ty) by apply P. reflexivity.
  - rewrite (tt_neq ty) by apply P. reflexivity.
  - rewrite (tt_neq ty) by apply P. reflexivity.
Qed.
Lemma pass4 : forall l prev, okl prev l -> rewrite_name_and_symbol (map after3 l) = map pfinal l.
Proof.
  induction l as [|p l IH]; intros prev H; [reflexivity|]. cbn [okl] in H. destruct H as [P [C H]]. specialize (IH _ H).
  cbn [map rewrite_name_and_symbol]. rewrite IH. f_equal.
  destruct p as [s ty|s|s ty|s1 s2 ty|s ty|s|s ty]; cbn [after3 pfinal t_type t_name pok] in *.
  - rewrite (tt_neq ty) by apply P. reflexivity.
  - rewrite tt_refl. destruct P as [_ [_ [_ P]]]. rewrite P. reflexivity.
  - rewrite (tt_neq ty) by apply P. reflexivity.
  - rewrite (tt_neq ty) by apply P. reflexivity.
  - rewrite tt_refl. destruct l as [|[y yt| | | | | |] l]; try contradiction. cbn [map after3 t_type].
    destruct C as [C|[C ->]]; rewrite C; reflexivity.
  - reflexivity.
  - rewrite (tt_neq ty) by apply P. reflexivity.
Qed.
Theorem lexer_text : forall l, l <> [] -> okl T_EOF l -> lexer_new (text l) = Ok (eof_token :: map pfinal l ++ [eof_token]).
Proof.
  intros l N H. assert (P := okl_pok _ _ H). unfold lexer_new. rewrite raw_text by auto. cbn [bind].
  rewrite pass1 by auto. destruct (flat_map after1 l) as [|a q] eqn:E.
  - exfalso. destruct l as [|p l]; [congruence|]. destruct p; discriminate.
  - rewrite <- E, pass2, pass3 by auto. rewrite (pass4 _ _ H). reflexivity.
Qed.

(* ---- printed expressions ---- *)
Lemma reserved_op : forall s, ~ In s reserved -> not_op s.
Proof.
  intros s H. unfold not_op. assert (G : forall (l : list (str * ttype)), ~ In s (map fst l) -> assoc_str s l = None).
  { induction l as [|[k t] l IH]; intro K; [reflexivity|]. cbn in *. destruct (str_eqb s k) eqn:E; [apply str_eqb_eq in E; subst; tauto|]. tauto. }
  apply G. intro K. apply H. apply in_app_iff. auto.
Qed.
Lemma reserved_pair : forall s, ~ In s reserved -> no_pair s.
Proof.
  intros s H b. assert (G : forall (l : list (str * str * ttype)), ~ In s (map (fun x => fst (fst x)) l) -> find_pair s b l = None).
  { induction l as [|[[k t] y] l IH]; intro K; [reflexivity|]. cbn in *. destruct (str_eqb s k) eqn:E; [apply str_eqb_eq in E; subst; tauto|]. tauto. }
  apply G. intro K. apply H. apply in_app_iff. right. apply in_app_iff. auto.
Qed.
Lemma reserved_symbol : forall s n, ~ In s reserved -> find_symbol s n name_and_symbol_tbl = None.
Proof.
  intros s n H. assert (G : forall (l : list (str * ttype * ttype)), ~ In s (map (fun x => fst (fst x)) l) -> find_symbol s n l = None).
  { induction l as [|[[k t] y] l IH]; intro K; [reflexivity|]. cbn in *. destruct (str_eqb s k) eqn:E; [apply str_eqb_eq in E; subst; tauto|]. tauto. }
  apply G. intro K. apply H. apply in_app_iff. right. apply in_app_iff. auto.
Qed.
Lemma plain_pok : forall s, plain_name s -> pok (PWord s).
Proof.
  intros s [H1 H2]. split; auto. split; [apply reserved_op; auto|]. split; [apply reserved_pair; auto|].
  intro. apply reserved_symbol. auto.
Qed.
Ltac notin := let H := fresh in intro H; cbn in H; repeat (destruct H as [H|H]; [discriminate H|]); destruct H.
Ltac nc := (split; [reflexivity|repeat constructor]).
Ltac word := apply plain_pok; split; [nc | let H := fresh in intro H; vm_compute in H; repeat (destruct H as [H|H]; [discriminate H|]); destruct H].
Ltac sym := split; [vm_compute; reflexivity|split; [notin|split; discriminate]].
Lemma bop_pok : forall o, pok (bop o).
Proof.
  destruct o; cbn [bop pok]; lazymatch goal with
  | |- ncname _ /\ _ => (split; [nc|split; [reflexivity|split; discriminate]])
  | |- _ => sym end.
Qed.
Lemma top_pok : forall o, pok (top o).
Proof. destruct o; cbn [top pok]; (split; [nc|]; split; [nc|]; repeat (split; [reflexivity|]); split; discriminate). Qed.
Lemma lit_pok : forall k s, lexical k s -> pok (literal k s).
Proof.
  intros k s H. assert (Z : k <> L_string -> ~ In 0 s).
  { assert (Dz : forall s, digits s -> ~ In 0 s).
    { intros q D Q. unfold digits in D. rewrite Forall_forall in D. specialize (D 0 Q). discriminate. }
    assert (Cz : forall c (s : str), c <> 0 -> ~ In 0 s -> ~ In 0 (c :: s)) by (intros c q N1 N2 [E|E]; auto).
    intro N. destruct H; try congruence; auto;
      repeat first [apply nz_app | apply Cz; [discriminate|]]; auto. }
  destruct k; cbn [literal pok].
  - inversion H; auto.
  - split; [apply (raw_num L_integer); auto; discriminate|split; [apply Z; discriminate|split; discriminate]].
  - split; [apply (raw_num L_decimal); auto; discriminate|split; [apply Z; discriminate|split; discriminate]].
  - split; [apply (raw_num L_double); auto; discriminate|split; [apply Z; discriminate|split; discriminate]].
Qed.
(* what may come last in the printed form of e *)
Definition lasts (b : bool) (ty : ttype) : Prop := ending ty \/ ((ty = T_Asterisk \/ ty = T_Plus) /\ b = true).
Definition okpr (e : expr) : Prop := forall k prev l, wf e -> (forall ty, lasts (star_end k e) ty -> okl ty l) -> okl prev (print k e ++ l).
Lemma okl_pair : forall prev l, okl prev l -> okl prev l.
Proof. auto. Qed.
Lemma sym_ok : forall s ty prev l, pok (PSym s ty) -> okl ty l -> okl prev (PSym s ty :: l).
Proof. intros. split; auto. Qed.
Lemma word_ok : forall s prev l, pok (PWord s) -> okl T_InnerName l -> okl prev (PWord s :: l).
Proof. intros. split; auto. Qed.
Lemma bop_ok : forall o prev l, (word_op o = true -> ending prev) -> (forall ty, okl ty l) -> okl prev (bop o :: l).
Proof. intros o prev l H1 H2. split; [apply bop_pok|]. destruct o; cbn in *; auto. Qed.
Lemma star_paren : forall k e, (level e < k)%nat -> star_end k e = false.
Proof. intros k e H. destruct e; cbn [star_end]; rewrite (proj2 (Nat.ltb_lt _ _)) by exact H; reflexivity. Qed.
Lemma star_level : forall k e, (k <= level e)%nat -> star_end k e = star_end (level e) e.
Proof.
  intros k e H. destruct e; cbn [star_end]; rewrite (proj2 (Nat.ltb_ge _ _)) by exact H;
    rewrite (proj2 (Nat.ltb_ge _ _)) by apply le_n; reflexivity.
Qed.
Definition tail_star (a : expr) (rest : list (bool * expr)) : bool := star_end 19 (List.last (map snd rest) a).
Lemma star_path : forall s a rest, star_end 18 (EPath s a rest) = tail_star a rest.
Proof.
  intros s a rest. unfold tail_star. destruct rest as [|x rest]; [reflexivity|]. cbn [star_end level Nat.ltb Nat.leb negb andb].
  revert x a. induction rest as [|y rest IH]; intros x a; [reflexivity|]. cbn [map List.last] in *. apply (IH y a).
Qed.
Lemma last_indep : forall (l : list expr) x d d', List.last (x :: l) d = List.last (x :: l) d'.
Proof. induction l as [|y l IH]; intros x d d'; [reflexivity|]. apply (IH y). Qed.
Lemma print_ok : forall e, okpr e.
Proof.
  assert (LP : pok lpar) by sym. assert (RP : pok rpar) by sym. assert (DL : pok dollar) by sym.
  assert (CM : pok (PSym (lit ",") T_Comma)) by sym. assert (CL : pok (PSym (lit ":") T_Colon)) by sym.
  assert (QU : pok (PSym (lit "?") T_Question)) by sym. assert (BI : pok (PSym (lit ":=") T_Bind)) by sym.
  assert (XS : pok (PWord (lit "xs"))) by word. assert (IN : pok (PWord (lit "in"))) by word.
  assert (TH : pok (PWord (lit "then"))) by word. assert (EL : pok (PWord (lit "else"))) by word.
  assert (RE : pok (PWord (lit "return"))) by word. assert (SA : pok (PWord (lit "satisfies"))) by word.
  assert (EN : ending T_InnerName) by reflexivity. assert (ER : ending T_RightParen) by reflexivity.
  assert (LB : pok lbra) by sym. assert (RB : pok rbra) by sym. assert (SL : forall d, pok (slash d)) by (intros []; sym).
  assert (ND : pok (PKey (lit "node") T_AnyKindTest)) by (split; [nc|split; [reflexivity|intro; reflexivity]]).
  assert (TX : pok (PKey (lit "text") T_TextTest)) by (split; [nc|split; [reflexivity|intro; reflexivity]]).
  assert (CO : pok (PKey (lit "comment") T_CommentTest)) by (split; [nc|split; [reflexivity|intro; reflexivity]]).
  assert (LE : forall b ty, ending ty -> lasts b ty) by (intros; left; auto).
  assert (ST : pok star) by sym. assert (LC : pok lcur) by sym. assert (RC : pok rcur) by sym. assert (AR : pok (PSym (lit "=>") T_Arrow)) by sym.
  assert (SH : pok (PSym (lit "#") T_Sharp)) by sym. assert (CA : pok (PSym (lit ":*") T_ColonAsterisk)) by sym.
  assert (AC : pok (PSym (lit "*:") T_AsteriskColon)) by sym. assert (PL : pok (PSym (lit "+") T_Plus)) by sym.
  assert (ERB : ending T_RightBracket) by reflexivity. assert (ERC : ending T_RightCurly) by reflexivity.
  assert (KEY : forall s ty prev y yt l, pok (PKey s ty) -> pok (PSym y yt) -> 
     (find_symbol s yt name_and_symbol_tbl = Some ty \/ (find_symbol s yt name_and_symbol_tbl = None /\ ty = T_Name)) ->
     okl yt l -> okl prev (PKey s ty :: PSym y yt :: l)) by (intros; split; auto; split; auto; split; auto).
  assert (OPTN : forall n l, wf_opt n -> okl T_RightParen l -> forall prev, okl prev (opt_name n ++ rpar :: l)).
  { intros [n|] l Wn Hl prev; cbn [opt_name app]; [apply word_ok; [apply plain_pok; auto|]|]; apply sym_ok; auto. }
  assert (TEST : forall t l, wf_test t -> (forall ty, lasts (match t with N_any => true | _ => false end) ty -> okl ty l) -> forall prev,
     okl prev (test_toks t ++ l)).
  { intros t l Wt HL prev. destruct t as [n| | | | |p n|p|n|n|n|n| |]; cbn [test_toks app wf_test] in *; rewrite <- ?app_assoc; cbn [app];
      try (apply KEY; [split; [nc|split; [reflexivity|intro; reflexivity]]|auto|left; reflexivity|]); auto.
    - apply word_ok; [apply plain_pok; auto|]. apply HL. left. reflexivity.
    - apply sym_ok; [sym|]. apply HL. right. auto.
    - apply sym_ok; auto.
    - apply sym_ok; auto.
    - apply sym_ok; auto.
    - destruct Wt as [Wp Wn]. apply word_ok; [apply plain_pok; auto|]. apply sym_ok; auto. apply word_ok; [apply plain_pok; auto|].
      apply HL. left. reflexivity.
    - apply word_ok; [apply plain_pok; auto|]. apply sym_ok; [auto|]. apply HL. left. reflexivity.
    - apply sym_ok; auto. apply word_ok; [apply plain_pok; auto|]. apply HL. left. reflexivity.
    - apply sym_ok; auto.
    - apply sym_ok; auto. }
  assert (KEYS : forall k l, wf_key k -> (forall ty, lasts (match k with K_all => true | _ => false end) ty -> okl ty l) -> forall prev,
     okl prev (key_toks k ++ l)).
  { intros [n|d|] l Wk HL prev; cbn [key_toks app wf_key] in *; (apply sym_ok; [auto|]).
    - apply word_ok; [apply plain_pok; auto|]. apply HL. left. reflexivity.
    - assert (P := lit_pok L_integer d Wk). split; [auto|]. split; [auto|]. apply HL. left. reflexivity.
    - apply sym_ok; [auto|]. apply HL. right. auto. }
  assert (ITEM : forall t l, wf_item t -> (forall ty, ending ty -> okl ty l) -> forall prev, okl prev (item_toks t ++ l)).
  { intros t l Wt HL prev. destruct t as [|n|t| | |]; cbn [item_toks app wf_item typename] in *;
      try (apply KEY; [split; [nc|split; [reflexivity|intro; reflexivity]]|auto|left; reflexivity|]); auto.
    - apply sym_ok; auto.
    - apply word_ok; [auto|]; apply sym_ok; [auto|]; apply word_ok; [apply plain_pok; auto|]. apply HL. reflexivity.
    - destruct Wt as [K Wt]. apply TEST; auto. intros ty [H|[_ H]]; auto. destruct t; try destruct K; discriminate.
    - apply sym_ok; auto. apply sym_ok; auto.
    - apply sym_ok; auto. apply sym_ok; auto.
    - apply sym_ok; auto. apply sym_ok; auto. }
  assert (SEQ : forall t l, wf_seq t -> (forall ty, lasts (match t with T_of _ C_many | T_of _ C_some => true | _ => false end) ty -> okl ty l) -> forall prev,
     okl prev (seq_toks t ++ l)).
  { intros [|t c] l Wt HL prev; cbn [seq_toks app wf_seq] in *.
    - apply KEY; [split; [nc|split; [reflexivity|intro; reflexivity]]|auto|left; reflexivity|]. apply sym_ok; auto.
    - rewrite <- app_assoc. apply ITEM; auto. intros ty H. destruct c; cbn [occ_toks app].
      + apply HL. left; auto.
      + apply sym_ok; [auto|]. apply HL. left. reflexivity.
      + apply sym_ok; [auto|]. apply HL. right. auto.
      + apply sym_ok; [auto|]. apply HL. right. auto. }
  assert (PARAMS : forall ps l, Forall plain_name ps -> (forall ty, okl ty l) -> forall prev, okl prev (params ps ++ l)).
  { intros ps l Hps HL prev. destruct Hps as [|p ps Hp Hps]; [apply HL|]. cbn [params app]. apply sym_ok; auto. apply word_ok; [apply plain_pok; auto|].
    clear Hp p. generalize T_InnerName. induction Hps as [|p ps Hp Hps IH]; intro ty; [apply HL|]. cbn [flat_map app].
    apply sym_ok; auto. apply sym_ok; auto. apply word_ok; [apply plain_pok; auto|]. apply IH. }
  assert (B : forall e, (forall prev l, wf e -> (forall ty, lasts (star_end (level e) e) ty -> okl ty l) -> okl prev (body e ++ l)) -> okpr e).
  { intros e H k prev l W HL. rewrite print_body. destruct (Nat.ltb_spec (level e) k); cbn [parens].
    - cbn [app]. apply sym_ok; auto. rewrite <- app_assoc. apply H; auto. intros ty _. cbn [app]. apply sym_ok; auto.
    - apply H; auto. intros ty Hty. apply HL. rewrite star_level by auto. auto. }
  assert (ARGS : forall args l, Forall okpr args -> Forall wf args -> (forall ty, okl ty l) -> forall ty,
    okl ty (match args with [] => [] | a :: rest => print 1 a ++ flat_map (fun b => PSym (lit ",") T_Comma :: print 1 b) rest end ++ l)).
  { intros args l Hargs W2 Z ty. destruct Hargs as [|a args Ha Hargs]; [apply Z|]. inversion W2; subst. rewrite <- app_assoc. apply Ha; auto.
    intros ty' _. clear Ha H1 W2 a. revert ty'. induction Hargs as [|a args Ha Hargs IH]; intro ty'; [apply Z|].
    inversion H2; subst. cbn [flat_map app]. apply sym_ok; auto. rewrite <- app_assoc. apply Ha; auto. }
  assert (PREDS : forall ps l, Forall okpr ps -> Forall wf ps -> okl T_RightBracket l -> ps <> [] -> forall ty,
    okl ty (flat_map (fun p => lbra :: print 0 p ++ [rbra]) ps ++ l)).
  { intros ps l Hps. induction Hps as [|p ps Hp Hps IH]; intros W HL N ty; [congruence|]. inversion W; subst.
    cbn [flat_map app]. apply sym_ok; auto. rewrite <- !app_assoc. apply Hp; auto. intros ty' _. cbn [app].
    apply sym_ok; auto. destruct ps as [|q ps]; [exact HL|]. apply IH; auto. discriminate. }
  assert (TAIL : forall rest a l, okpr a -> wf a -> Forall (fun x => okpr (snd x)) rest -> Forall (fun x => wf (snd x)) rest ->
    (forall ty, lasts (tail_star a rest) ty -> okl ty l) -> forall prev,
    okl prev (print 19 a ++ flat_map (fun x => slash (fst x) :: print 19 (snd x)) rest ++ l)).
  { induction rest as [|x rest IH]; intros a l Ha Wa Hr Wr HL prev; (apply Ha; [exact Wa|]); [exact HL|].
    intros ty _. inversion Hr; inversion Wr; subst. cbn [flat_map app]. rewrite <- app_assoc.
    destruct x as [d e]. cbn [fst snd] in *. destruct d; (apply sym_ok; [first [apply (SL true) | apply (SL false)]|]); apply IH; auto;
      intros ty' Hty'; apply HL; unfold tail_star in *;
      (destruct rest as [|y rest]; [exact Hty'|]); cbn [map snd] in *; rewrite (last_indep _ _ a e); exact Hty'. }
  induction e as [k s|n| | |f args Hargs|o a b Ha Hb|m a Ha|o a n Ha|c a n Ha|c a b Hc Ha Hb|q v e b He Hb|v e b He Hb
    |f t ps Hps| |a p Ha Hp|a args Ha Hargs| |s a rest Ha Hrest
    |es Hes|a Ha|es Hes|k|k Hk|a k Ha|a k Ha Hk|f d|ps b Hb|v a f args Ha Hargs|p f args Hargs|f args Hargs|treat a t Ha|q bs b Hbs Hb] using expr_ind2;
    apply B; intros prev l W HL; unfold body; cbn [level print]; rewrite ?Nat.ltb_irrefl; cbn [parens].
  - cbn. assert (P := lit_pok k s W). destruct k; cbn [literal] in *; split; auto; split; auto; apply HL; left; reflexivity.
  - apply sym_ok; auto. apply word_ok; [apply plain_pok; exact W|].
    apply HL. left. reflexivity.
  - apply sym_ok; [sym|]. apply HL. left. reflexivity.
  - apply sym_ok; auto. apply sym_ok; auto.
  - cbn [app]. apply wf_call in W. destruct W as [W1 [_ W2]].
    apply word_ok; [apply plain_pok; auto|]. apply sym_ok; auto.
    rewrite <- app_assoc. cbn [app]. apply ARGS; auto. intro; apply sym_ok; auto.
  - destruct W as [Wa [Wb Ws]]. rewrite <- app_assoc.
    apply Ha; auto. intros ty Hty. cbn [app]. apply bop_ok.
    + intro Q. destruct Hty as [Hty|[_ Hty]]; auto. rewrite Ws in Hty by auto. discriminate.
    + intro ty'. apply Hb; auto. intros ty2 H2. apply HL. cbn [star_end level]. rewrite Nat.ltb_irrefl. exact H2.
  - cbn [app]. apply sym_ok; [destruct m; sym|]. apply Ha; auto.
  - destruct W as [Wa Wn]. rewrite <- app_assoc.
    apply Ha; auto. intros ty _. cbn [app typename]. split; [apply top_pok|]. destruct o; (split; [exact I|]);
      (apply word_ok; [auto|]; apply sym_ok; [auto|]; apply word_ok; [apply plain_pok; auto|]; apply sym_ok; [auto|]; apply HL; left; reflexivity).
  - destruct W as [Wa Wn]. rewrite <- app_assoc.
    apply Ha; auto. intros ty _. cbn [app typename]. split; [apply top_pok|]. destruct c; (split; [exact I|]);
      (apply word_ok; [auto|]; apply sym_ok; [auto|]; apply word_ok; [apply plain_pok; auto|]; apply HL; left; reflexivity).
  - cbn [app]. destruct W as [Wc [Wa Wb]].
    split; [split; [nc|split; [reflexivity|intro; reflexivity]]|]. split; [left; reflexivity|]. apply sym_ok; auto. rewrite <- app_assoc.
    apply Hc; auto. intros ty _. cbn [app]. apply sym_ok; auto. apply word_ok; auto. rewrite <- app_assoc. apply Ha; auto.
    intros ty' _. cbn [app]. apply word_ok; auto. 
  - cbn [app]. destruct W as [Wv [We Wb]].
    split; [destruct q; (split; [nc|split; [reflexivity|intro; reflexivity]])|]. split; [destruct q; left; reflexivity|].
    apply sym_ok; auto. apply word_ok; [apply plain_pok; auto|]. apply word_ok; auto. rewrite <- app_assoc.
    apply He; auto. intros ty _. cbn [app]. apply word_ok; [destruct q; auto|]. apply Hb; auto.
  - cbn [app]. destruct W as [Wv [We Wb]].
    split; [(split; [nc|split; [reflexivity|intro; reflexivity]])|]. split; [left; reflexivity|].
    apply sym_ok; auto. apply word_ok; [apply plain_pok; auto|]. apply sym_ok; auto. rewrite <- app_assoc.
    apply He; auto. intros ty _. cbn [app]. apply word_ok; auto.
  - (* EStep *) destruct W as [Wt Wp]. apply all_forall in Wp. rewrite <- app_assoc.
    assert (HT : forall ty, (ps = [] -> lasts (match t with N_any => true | _ => false end) ty) ->
      okl ty (flat_map (fun p => lbra :: print 0 p ++ [rbra]) ps ++ l)).
    { intros ty H0. destruct ps as [|p ps]; [|apply PREDS; auto; try discriminate; apply HL; left; reflexivity].
      cbn [flat_map app]. apply HL. specialize (H0 eq_refl). destruct t; exact H0. }
    assert (HN : forall prev', okl prev' (test_toks t ++ flat_map (fun p => lbra :: print 0 p ++ [rbra]) ps ++ l)).
    { intro prev'. apply TEST; auto. }
    rewrite <- app_assoc. destruct f as [a| |]; cbn [form_toks app]; auto.
    + split; [destruct a; (split; [nc|split; [reflexivity|intro; reflexivity]])|]. split; [left; destruct a; reflexivity|].
      apply sym_ok; [sym|]. apply HN.
    + apply sym_ok; [sym|]. apply HN.
  - apply sym_ok; [sym|]. apply HL. left. reflexivity.
  - destruct W as [Wa Wp]. rewrite <- app_assoc. apply Ha; auto. intros ty _. cbn [app]. apply sym_ok; auto. rewrite <- app_assoc.
    apply Hp; auto. intros ty' _. cbn [app]. apply sym_ok; auto.
  - destruct W as [Wa Wp]. apply all_forall in Wp. rewrite <- app_assoc. apply Ha; auto. intros ty _. cbn [app]. apply sym_ok; auto.
    rewrite <- app_assoc. cbn [app]. apply ARGS; auto. intro; apply sym_ok; auto.
  - apply sym_ok; auto. apply sym_ok; [apply (SL false)|]. apply sym_ok; auto.
  - (* EPath *) destruct W as [_ [Wa Wr]]. apply tails_forall in Wr. cbn [level] in HL. rewrite star_path in HL.
    rewrite <- app_assoc. destruct s; cbn [start_toks app]; rewrite <- app_assoc.
    + apply TAIL; auto.
    + apply sym_ok; [apply (SL false)|]. apply TAIL; auto.
    + apply sym_ok; [apply (SL true)|]. apply TAIL; auto.
  - (* ESquare *) apply all_forall in W. cbn [app]. apply sym_ok; auto. rewrite <- app_assoc. apply ARGS; auto. intro; apply sym_ok; auto.
  - (* ECurly *) cbn [app]. apply KEY; [split; [nc|split; [reflexivity|intro; reflexivity]]|auto|left; reflexivity|].
    rewrite <- app_assoc. apply Ha; auto. intros ty _. apply sym_ok; auto.
  - (* EMap *) apply entries_forall in W. cbn [app]. apply KEY; [split; [nc|split; [reflexivity|intro; reflexivity]]|auto|left; reflexivity|].
    rewrite <- app_assoc. cbn [app].
    assert (Z : forall ty, okl ty (rcur :: l)) by (intro; apply sym_ok; auto). revert Z. generalize (rcur :: l). clear l HL prev. intros l Z.
    assert (ENT : forall x l, okpr (fst x) /\ okpr (snd x) -> wf (fst x) /\ wf (snd x) -> (forall ty, okl ty l) -> forall ty,
      okl ty (print (key_level (fst x)) (fst x) ++ PSym (lit ":") T_Colon :: print 1 (snd x) ++ l)).
    { intros [k v] l' [H1 H2] [W1 W2] Z' ty. cbn [fst snd] in *. apply H1; auto. intros ty' _. apply sym_ok; auto. }
    destruct Hes as [|x es Hx Hes]; [apply Z|]. inversion W; subst. rewrite <- !app_assoc. cbn [app]. rewrite <- !app_assoc. apply ENT; auto.
    clear H1 W Hx x. induction Hes as [|x es Hx Hes IH]; intro ty; [apply Z|]. inversion H2; subst. cbn [flat_map app].
    apply sym_ok; auto. rewrite <- !app_assoc. cbn [app]. rewrite <- ?app_assoc. apply ENT; auto.
  - (* EKey *) apply KEYS; [auto|]. intros ty H. apply HL. destruct k; exact H.
  - (* EKeyOf *) cbn [app]. apply sym_ok; auto. apply sym_ok; auto. rewrite <- app_assoc. apply Hk; auto. intros ty _. apply sym_ok; auto.
  - (* ELook *) destruct W as [Wa Wk]. rewrite <- app_assoc. apply Ha; [auto|]. intros ty _. apply KEYS; [auto|]. intros ty' H. apply HL. destruct k; exact H.
  - (* ELookOf *) destruct W as [Wa Wk]. rewrite <- app_assoc. apply Ha; auto. intros ty _. cbn [app]. apply sym_ok; auto. apply sym_ok; auto.
    rewrite <- app_assoc. apply Hk; auto. intros ty' _. apply sym_ok; auto.
  - (* ERef *) destruct W as [Wf Wd]. cbn [app]. apply word_ok; [apply plain_pok; auto|]. apply sym_ok; auto.
    assert (P := lit_pok L_integer d Wd). split; [auto|]. split; [auto|]. apply HL. left. reflexivity.
  - (* EFun *) destruct W as [Wp Wb]. cbn [app]. apply KEY; [split; [nc|split; [reflexivity|intro; reflexivity]]|auto|left; reflexivity|].
    rewrite <- app_assoc. apply PARAMS; auto. intro ty. cbn [app]. apply sym_ok; auto. apply sym_ok; auto. rewrite <- app_assoc. apply Hb; auto.
    intros ty' _. apply sym_ok; auto.
  - (* EArrow *) destruct W as [Wa [Wf W]]. apply all_forall in W. rewrite <- app_assoc. apply Ha; auto. intros ty _. cbn [app]. apply sym_ok; auto.
    rewrite <- app_assoc. cbn [app].
    assert (Z : forall ty, okl ty (PWord f :: lpar :: (match args with [] => [] | b :: rest => print 1 b ++ flat_map (fun b => PSym (lit ",") T_Comma :: print 1 b) rest end ++ [rpar]) ++ l)).
    { intro ty'. apply word_ok; [apply plain_pok; auto|]. apply sym_ok; auto. rewrite <- app_assoc. apply ARGS; auto. intro; apply sym_ok; auto. }
    destruct v; cbn [app]; [apply sym_ok; auto|auto].
  - (* EPCall *) destruct W as [[Wp Wf] [_ W]]. apply all_forall in W. cbn [app].
    apply KEY; [cbn [In prefixes] in Wp; destruct Wp as [<-|[<-|[<-|[]]]]; (split; [nc|split; [reflexivity|intro; reflexivity]])|auto
      |right; split; [cbn [In prefixes] in Wp; destruct Wp as [<-|[<-|[<-|[]]]]; reflexivity|reflexivity]|].
    apply word_ok; [apply plain_pok; auto|]. apply sym_ok; auto. rewrite <- app_assoc. apply ARGS; auto. intro; apply sym_ok; auto.
  - (* EPart *) destruct W as [[Wf Wn] [_ W]]. apply owf_forall in W. cbn [app].
    apply word_ok; [apply plain_pok; auto|]. apply sym_ok; auto. rewrite <- app_assoc. cbn [app].
    assert (Z : forall ty, okl ty (rpar :: l)) by (intro; apply sym_ok; auto). revert Z. generalize (rpar :: l). clear l HL prev Wn. intros l Z.
    assert (ENT : forall x l, ofor okpr x -> owf x -> (forall ty, okl ty l) -> forall ty,
      okl ty (match x with Some a => print 1 a | None => [quest] end ++ l)).
    { intros [a|] l' H1 W1 Z' ty; [apply H1; auto|]. apply sym_ok; auto. }
    generalize T_LeftParen. destruct Hargs as [|x es Hx Hes]; [apply Z|]. inversion W; subst. rewrite <- app_assoc. apply ENT; auto.
    clear H1 W Hx x. induction Hes as [|x es Hx Hes IH]; intro ty; [apply Z|]. inversion H2; subst. cbn [flat_map app].
    apply sym_ok; auto. rewrite <- app_assoc. apply ENT; auto.
  - (* EInst *) destruct W as [Wa Wt]. rewrite <- app_assoc. apply Ha; auto. intros ty _. cbn [app]. split; [apply top_pok|]. split; [destruct treat; exact I|].
    apply SEQ; [auto|]. intros ty' H. apply HL. cbn [star_end]. rewrite Nat.ltb_irrefl. cbn [negb andb]. destruct t as [|t []]; exact H.
  - (* EMulti *) destruct W as [[W1 W2] [Wb W3]]. apply binds_forall in W3. destruct bs as [|x bs]; [cbn in W1; lia|]. clear W1. cbn [app].
    assert (MI : forall ty l, okl (last_ty (multi_in q)) l -> okl ty (multi_in q :: l)).
    { intros ty l' H. destruct q; [apply word_ok|apply sym_ok]; auto. }
    assert (ENT : forall x l, okpr (snd x) -> wf (snd x) -> plain_name (fst x) -> (forall ty, okl ty l) ->
      okl T_Dollar (PWord (fst x) :: multi_in q :: print 1 (snd x) ++ l)).
    { intros y l' H1 H2 H3 Z'. apply word_ok; [apply plain_pok; auto|]. apply MI. apply H1; auto. }
    split; [destruct q as [[]|]; (split; [nc|split; [reflexivity|intro; reflexivity]])|]. split; [destruct q as [[]|]; left; reflexivity|].
    cbn [multi_word last_ty]. replace (last_ty (multi_word q)) with T_InnerName by (destruct q as [[]|]; reflexivity).
    apply sym_ok; auto. rewrite <- !app_assoc. cbn [app]. rewrite <- ?app_assoc.
    apply Forall_cons_iff in Hbs. destruct Hbs as [Hx Hbs]. apply Forall_cons_iff in W2. destruct W2 as [Px W2]. apply Forall_cons_iff in W3. destruct W3 as [Wx W3].
    apply ENT; auto. assert (Z : forall ty, okl ty (PWord (multi_last q) :: print 1 b ++ l)).
    { intro ty. apply word_ok; [destruct q as [[]|]; auto|]. apply Hb; auto. }
    revert Z. generalize (PWord (multi_last q) :: print 1 b ++ l). clear - Hbs W2 W3 CM DL ENT. intros l Z.
    induction Hbs as [|y bs Hy Hbs IH]; intro ty; [apply Z|]. apply Forall_cons_iff in W2. destruct W2 as [Py W2]. apply Forall_cons_iff in W3. destruct W3 as [Wy W3].
    cbn [flat_map app]. apply sym_ok; auto. apply sym_ok; auto. rewrite <- app_assoc. apply ENT; auto.
Qed.
Lemma print_nn : forall e k, print k e <> [].
Proof.
  intros e k. rewrite print_body. destruct (Nat.ltb (level e) k); cbn [parens]; [discriminate|].
  intro E. assert (F := print_first e (level e) [] (level_le e)). unfold toks_of, body in *. rewrite E in F. discriminate.
Qed.
Theorem lexer_print : forall e, wf e -> lexer_new (source e) = Ok (eof_token :: map pfinal (print 0 e) ++ [eof_token]).
Proof.
  intros e W. apply lexer_text; [apply print_nn|]. assert (H := print_ok e 0%nat T_EOF [] W (fun _ _ => I)).
  rewrite app_nil_r in H. exact H.
Qed.

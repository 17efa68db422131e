(* C45: what stands in the place of a keyword. *)
Require Import Bool List NArith ZArith Ascii String Lia.
From Verif Require Import Str StrFacts Chars Lexer FuncTable Parser ParserFacts ParserMono SpecLex LexFacts PropLex SpecExpr PrecFacts LexPrint ParserSfx PropParse.
Import ListNotations.
Open Scope N_scope.

Lemma main_single : forall t x, S1 t = Ok (x, []) -> x <> XNil -> parse_main t = Ok x.
Proof.
  intros t x E N. unfold parse_main, parse_expr, parse_expr_with, parse_bin_op_sub. fold S1. rewrite E. cbn [bind].
  destruct x; [congruence|reflexivity].
Qed.
Lemma words_text : forall l x, l <> [] -> okl T_EOF l -> S1 (map pfinal l) = Ok (x, []) -> x <> XNil -> compile_xpath (text l) = Ok x.
Proof.
  intros l x N O E X. unfold compile_xpath. rewrite lexer_text by auto. cbn [bind]. unfold tokens_of. cbn [tl]. rewrite removelast_last.
  apply main_single; auto.
Qed.
Lemma binding_words : forall e b v w1 w2 kw ty, wf e -> wf b -> plain_name v -> forall f,
  bindings_loop S1 (S f) (parse_simple_binding S1 ty) kw
    (mkTok T_Dollar (lit "$") :: mkTok T_Name v :: mkTok T_Name w1 :: toks_of 1 e ++ mkTok T_Name w2 :: toks_of 1 b) =
   Ok (XNode ty v (trk 1 e) (trk 1 b), []).
Proof.
  intros e b v w1 w2 kw ty We Wb Hv f. destruct (okp_all e We) as [A _]. destruct (okp_all b Wb) as [B _].
  assert (Nv := plain_nn v Hv). rewrite <- (app_nil_r (toks_of 1 b)).
  cbn [bindings_loop]; unfold parse_simple_binding, parse_simple_let_binding; isT;
    rewrite eqname_plain by (auto; discriminate); cbn [bind str_eqb]; (destruct v as [|c v]; [congruence|]);
    cbn [str_eqb]; rewrite ?expect_name_ok, ?expect_ok; cbn [bind]; s1 1%nat;
    (rewrite A; [|lia|cbn; lia]); cbn [bind is_nil negb andb];
    match goal with |- context [next_is T_Comma (?a :: ?b)] => change (next_is T_Comma (a :: b)) with false end; cbn iota;
    rewrite expect_name_ok; cbn [bind]; s1 1%nat; (rewrite B; [|lia|cbn; lia]); reflexivity.
Qed.
(* Any two words in the places of the keywords: the expression compiles, to the tree it has with the keywords. *)
Theorem C45_words_exact : forall q v e b c w1 w2, plain_name v -> plain_name w1 -> plain_name w2 -> wf e -> wf b -> wf c ->
  (exists x, compile_xpath (text (qword q :: dollar :: PWord v :: PWord w1 :: print 1 e ++ PWord w2 :: print 1 b)) = Ok x /\
             compile_xpath (source (EBind q v e b)) = Ok x) /\
  (exists x, compile_xpath (text (PKey (lit "let") T_Let :: dollar :: PWord v :: PSym (lit ":=") T_Bind :: print 1 e ++ PWord w2 :: print 1 b)) = Ok x /\
             compile_xpath (source (ELet v e b)) = Ok x) /\
  (exists x, compile_xpath (text (PKey (lit "if") T_If :: lpar :: print 0 c ++ rpar :: PWord w1 :: print 1 e ++ PWord w2 :: print 1 b)) = Ok x /\
             compile_xpath (source (EIf c e b)) = Ok x).
Proof.
  intros q v e b c w1 w2 Hv H1 H2 We Wb Wc. assert (Nv := plain_nn v Hv).
  assert (LP : pok lpar) by sym. assert (RP : pok rpar) by sym. assert (DL : pok dollar) by sym.
  assert (BI : pok (PSym (lit ":=") T_Bind)) by sym.
  assert (QW : pok (qword q)) by (destruct q; (split; [nc|split; [reflexivity|intro; reflexivity]])).
  assert (LT : pok (PKey (lit "let") T_Let)) by (split; [nc|split; [reflexivity|intro; reflexivity]]).
  assert (IF : pok (PKey (lit "if") T_If)) by (split; [nc|split; [reflexivity|intro; reflexivity]]).
  assert (PV := plain_pok v Hv). assert (P1 := plain_pok w1 H1). assert (P2 := plain_pok w2 H2).
  destruct (okp_all e We) as [E _]. destruct (okp_all c Wc) as [C _]. destruct (okp_all b Wb) as [B _].
  assert (SRC : forall x, wf x -> compile_xpath (source x) = Ok (trk 0 x)).
  { intros x W. unfold compile_xpath. rewrite lexer_print by auto. cbn [bind]. unfold tokens_of. cbn [tl]. rewrite removelast_last. apply parse_print. auto. }
  assert (TAIL : forall ty, okl ty (PWord w2 :: print 1 b)).
  { intro ty. apply word_ok; auto. rewrite <- (app_nil_r (print 1 b)). apply one_ok; auto. intros; exact I. }
  split; [|split].
  - exists (trk 0 (EBind q v e b)). split; [|apply SRC; cbn; auto].
    apply words_text; [discriminate| | |discriminate].
    + assert (K : okl T_Dollar (PWord v :: PWord w1 :: print 1 e ++ PWord w2 :: print 1 b)).
      { apply word_ok; auto. apply word_ok; auto. apply one_ok; auto. }
      destruct q; (apply key_ok; [exact QW|reflexivity|exact DL|exact K]).
    + unfold S1. rewrite parse_expr_single_unfold. fold S1. cbn [map]. rewrite map_app. cbn [map]. fold (toks_of 1 e). fold (toks_of 1 b). cbn [pfinal dollar].
      change (trk 0 (EBind q v e b)) with (XNode (qnode q) (match q with Q_for => lit "for" | Q_some => lit "some" | Q_every => lit "every" end)
                       XNil (XNode (qbind q) v (trk 1 e) (trk 1 b))).
      unfold parse_single_body.
      destruct q; repeat (rewrite or_else_nil by reflexivity); (apply or_else_some; [|discriminate]);
        unfold parse_quantified_expr; repeat (rewrite or_else_nil by reflexivity); try (apply or_else_some; [|discriminate]);
        unfold parse_for_expr, parse_binding_expr; cbn [qlast]; isT; rewrite binding_words by auto; reflexivity.
  - exists (trk 0 (ELet v e b)). split; [|apply SRC; cbn; auto].
    apply words_text; [discriminate| | |discriminate].
    + apply key_ok; [exact LT|reflexivity|exact DL|]. apply word_ok; auto. apply sym_ok; auto. apply print_ok; auto.
    + unfold S1. rewrite parse_expr_single_unfold. fold S1. cbn [map]. rewrite map_app. cbn [map]. fold (toks_of 1 e). fold (toks_of 1 b). cbn [pfinal dollar].
      change (trk 0 (ELet v e b)) with (XNode X_LetExpr (lit "let") XNil (XNode X_LetVarBind v (trk 1 e) (trk 1 b))).
      unfold parse_single_body. rewrite or_else_nil by reflexivity. apply or_else_some; [|discriminate].
      unfold parse_let_expr, parse_binding_expr. isT. rewrite <- (app_nil_r (toks_of 1 b)).
      match goal with |- context [bindings_loop S1 (S ?f) (parse_simple_let_binding S1) ?kw] =>
        rewrite (proj2 (binding_ok e b v w2 kw X_Nil [] We Wb (okp_all e) (okp_all b) Hv ltac:(cbn; lia) ltac:(discriminate) f)) end. reflexivity.
  - exists (trk 0 (EIf c e b)). split; [|apply SRC; cbn; auto].
    apply words_text; [discriminate| | |discriminate].
    + apply key_ok; [exact IF|reflexivity|exact LP|]. apply print_ok; auto. intros ty _.
      apply sym_ok; auto. apply word_ok; auto. apply one_ok; auto.
    + unfold S1. rewrite parse_expr_single_unfold. fold S1. cbn [map]. rewrite map_app. cbn [map]. rewrite map_app. cbn [map].
      fold (toks_of 0 c). fold (toks_of 1 e). fold (toks_of 1 b). cbn [pfinal lpar rpar].
      unfold parse_single_body. do 3 (rewrite or_else_nil by reflexivity). apply or_else_some; [|discriminate].
      unfold parse_if_expr. isT. rewrite expect_ok. cbn [bind].
      match goal with |- context [parse_expr_with S1 ?t] => change (parse_expr_with S1 t) with (plevel 0 t) end.
      rewrite C by (cbn; lia). cbn [bind]. rewrite nn_if, expect_ok. cbn [bind]. rewrite expect_name_ok. cbn [bind]. s1 1%nat.
      rewrite E by (cbn; lia). cbn [bind]. rewrite nn_if, expect_name_ok. cbn [bind]. rewrite <- (app_nil_r (toks_of 1 b)). s1 1%nat.
      rewrite B by (cbn; lia). cbn [bind]. rewrite nn_if. reflexivity.
Qed.
Print Assumptions C45_words_exact.
Example C45_words_example : plain_name (lit "foo") /\ plain_name (lit "return") /\
  text (qword Q_for :: dollar :: PWord (lit "x") :: PWord (lit "foo") :: print 1 EDot ++ PWord (lit "bar") :: print 1 EDot) = lit "for $ x foo . bar . ".
Proof. split; [pname|]. split; [pname|reflexivity]. Qed.

(* ---- C46: empty arguments ---- *)
(* f(a1, ..., an) where every argument but the first may be missing *)
Definition gaps (l : list (option expr)) : list ptok := flat_map (fun o => comma :: match o with Some b => print 1 b | None => [] end) l.
Definition gap_call (f : str) (a : expr) (l : list (option expr)) : list ptok := PWord f :: lpar :: print 1 a ++ gaps l ++ [rpar].
(* the arguments before the first missing one *)
Fixpoint kept (l : list (option expr)) : list expr :=
  match l with Some b :: l' => b :: kept l' | _ => [] end.

Definition gap_toks (l : list (option expr)) : toks := flat_map (fun x => mkTok T_Comma (lit ",") :: match x with Some b => toks_of 1 b | None => [] end) l.
Lemma gap_map l : map pfinal (gaps l) = gap_toks l.
Proof. induction l as [|[a|] l IH]; [reflexivity| |]; unfold gaps in *; cbn [flat_map]; rewrite map_app, IH; reflexivity. Qed.
Lemma gap_end : forall l r, exists ty n q, gap_toks l ++ mkTok T_RightParen (lit ")") :: r = mkTok ty n :: q /\ In ty [T_Comma; T_RightParen].
Proof. intros [|x l] r; cbn; eauto 8. Qed.
Lemma comma_nil : forall ty n r, In ty [T_Comma; T_RightParen] -> S1 (mkTok ty n :: r) = Ok (XNil, mkTok ty n :: r).
Proof. intros ty n r H. cbn [In] in H. unfold S1. rewrite parse_expr_single_unfold. destruct H as [<-|[<-|[]]]; reflexivity. Qed.
Lemma gap_chain : forall l r, Forall owf l -> forall f, (len (gap_toks l ++ mkTok T_RightParen (lit ")") :: r) < f)%nat ->
  comma_chain f (parse_argument S1) (gap_toks l ++ mkTok T_RightParen (lit ")") :: r) = Ok (argt (kept l), mkTok T_RightParen (lit ")") :: r).
Proof.
  intros l r H. induction H as [|x l Hx Hl IH]; intros f Lf; (destruct f as [|f]; [lia|]).
  - reflexivity.
  - unfold gap_toks in *. cbn [flat_map app] in *. rewrite <- app_assoc in *. fold (gap_toks l) in *. cbn [comma_chain]. isT.
    destruct (gap_end l r) as [ty [n [q [E I]]]]. rewrite E in *. destruct x as [a|].
    + destruct (okp_all a Hx) as [A _]. unfold parse_argument at 1. s1 1%nat. rewrite A; [|lia|cbn in I; destruct I as [<-|[<-|[]]]; cbn; lia].
      cbn [bind]. rewrite nn_if. cbn [bind]. rewrite IH; [|cbn [List.length] in Lf; rewrite app_length in Lf; lia]. reflexivity.
    + unfold parse_argument at 1. cbn [app]. rewrite comma_nil by auto. cbn [bind is_nil].
      replace (next_is T_Question (mkTok ty n :: q)) with false by (cbn in I; destruct I as [<-|[<-|[]]]; reflexivity). cbn [bind].
      rewrite IH; [|cbn in Lf |- *; lia]. reflexivity.
Qed.
Lemma gap_primary : forall f a l, plain_name f -> wf a -> Forall owf l ->
  parse_primary_expr S1 (map pfinal (gap_call f a l)) =
  if check_function_spec (lit "fn:" ++ f) (List.length (a :: kept l)) then Ok (tr (ECall f (a :: kept l)), []) else Err XPathSyntaxError.
Proof.
  intros f a l Hf Wa Wl. apply plain_nn in Hf. unfold gap_call. cbn [map]. rewrite map_app, map_app, gap_map. fold (toks_of 1 a). cbn [pfinal lpar map rpar].
  unfold parse_primary_expr. do 4 (rewrite or_else_nil by reflexivity). unfold or_else at 1. unfold parse_function_call.
  rewrite eqname_fn by (auto; discriminate). cbn [bind]. change (str_eqb (lit "fn:" ++ f) []) with false. cbn iota. isT.
  unfold parse_argument_list. rewrite expect_ok. cbn [bind]. unfold parse_comma_list. assert (C := gap_chain l [] Wl).
  destruct (gap_end l []) as [ty [n [q [E I]]]]. rewrite E in *. destruct (okp_all a Wa) as [A _].
  unfold parse_argument at 1. s1 1%nat. rewrite A; [|lia|cbn in I; destruct I as [<-|[<-|[]]]; cbn; lia].
  cbn [bind]. rewrite nn_if. cbn [bind is_nil]. rewrite C by lia. cbn [bind]. rewrite expect_ok. cbn [bind].
  change (set_right (XNode X_ArgumentTop [] (trk 1 a) XNil) (argt (kept l))) with (argt (a :: kept l)).
  rewrite chain_argt, placeholder_argt, tr_call. destruct (check_function_spec _ _); reflexivity.
Qed.
(* A missing argument cuts the list off: f(a1, ..., ak, , ...) compiles to the call f(a1, ..., ak), whatever follows. *)
Theorem C46_gaps_exact : forall f a l, plain_name f -> wf a -> Forall owf l -> has_entry (lit "fn:" ++ f) (S (List.length (kept l))) ->
  exists x, compile_xpath (text (gap_call f a l)) = Ok x /\ compile_xpath (source (ECall f (a :: kept l))) = Ok x.
Proof.
  intros f a l Hf Wa Wl C. apply check_has_entry in C.
  assert (WK : Forall wf (kept l)) by (clear C; induction Wl as [|[b|] l Hb Wl IH]; cbn [kept]; auto).
  exists (tr (ECall f (a :: kept l))). split.
  - apply words_text; [discriminate| | |rewrite tr_call; discriminate].
    + assert (LP : pok lpar) by sym. assert (RP : pok rpar) by sym. assert (CM : pok comma) by sym.
      assert (Z : forall ty, okl ty [rpar]) by (intro; apply sym_ok; auto; exact I).
      apply word_ok; [apply plain_pok; auto|]. apply sym_ok; auto. apply print_ok; auto. intros ty _. clear C WK. revert ty.
      induction Wl as [|o l Ho Wl IH]; intro ty; [apply Z|]. unfold gaps in *. cbn [flat_map app]. apply sym_ok; auto. rewrite <- app_assoc.
      destruct o as [b|]; [apply print_ok; auto|apply IH].
    + change (S1 (map pfinal (gap_call f a l))) with (plevel 1 (map pfinal (gap_call f a l))).
      apply lift_to with (k' := 20%nat); [lia|lia| |rewrite tr_call; discriminate|reflexivity|left; cbn; lia].
      apply postfix_of_primary; [|left; cbn; lia]. eexists. eexists. split; [|split; [|apply pl_refl]]; [|rewrite tr_call; discriminate].
      rewrite gap_primary by auto. cbn [List.length]. rewrite C. reflexivity.
  - assert (W : wf (ECall f (a :: kept l))).
    { split; auto. split; auto. clear C. split; auto. induction WK; cbn; auto. }
    unfold compile_xpath. rewrite lexer_print by auto. cbn [bind]. unfold tokens_of. cbn [tl]. rewrite removelast_last, parse_print by auto. reflexivity.
Qed.
Print Assumptions C46_gaps_exact.
Example C46_gaps_example : plain_name (lit "concat") /\ wf EDot /\ Forall owf [Some EDot; None; Some EDot] /\ kept [Some EDot; None; Some EDot] = [EDot] /\
  has_entry (lit "fn:concat") 2 /\ text (gap_call (lit "concat") EDot [Some EDot; None; Some EDot]) = lit "concat ( . , . , , . ) ".
Proof.
  split; [pname|]. split; [exact I|]. split; [repeat constructor|]. split; [reflexivity|]. split; [apply check_has_entry; reflexivity|reflexivity].
Qed.

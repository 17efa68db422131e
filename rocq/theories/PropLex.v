(* C39-C41 (lexical part): string literals, comments and white space, empty expressions. *)
Require Import Bool List NArith ZArith Ascii String Lia.
From Verif Require Import Str StrFacts Chars Lexer SpecLex LexFacts.
Import ListNotations.
Open Scope N_scope.

(* C39: the quoted form of any NUL-free string is one token with that string as value, whatever follows it
   (other than the same quote again, which would continue the literal). *)
Theorem C39_string_literal : forall q s, q = 34 \/ q = 39 -> ~ In 0 s ->
  lexer_new (quote q s) = Ok [eof_token; mkTok T_StringLiteral s; eof_token] /\
  (forall r, xpeek r <> q -> get_tok (quote q s ++ r) = Ok (mkTok T_StringLiteral s, r)).
Proof.
  intros q s Hq H0. split; [|intros; apply get_tok_quote; auto].
  unfold lexer_new. rewrite raw_tokens_unfold.
  assert (E : xskip_spaces (quote q s) = quote q s).
  { unfold quote. destruct Hq; subst q; reflexivity. }
  rewrite E. rewrite <- (app_nil_r (quote q s)).
  assert (Hn : xpeek [] <> q) by (destruct Hq; subst q; discriminate).
  rewrite (get_tok_quote q s [] Hq H0 Hn).
  cbn [bind t_type]. replace (raw_tokens []) with (@Ok (list token) []) by reflexivity. reflexivity.
Qed.
Print Assumptions C39_string_literal.
Example C39_example : quote 39 (lit "it's") = lit "'it''s'" /\ ~ In 0 (lit "it's") /\
  lexer_new (lit "'it''s'") = Ok [eof_token; mkTok T_StringLiteral (lit "it's"); eof_token].
Proof. split; [reflexivity|]. split; [cbn; intuition discriminate|]. vm_compute. reflexivity. Qed.

(* C40: at a token boundary the lexer skips exactly one balanced comment ... *)
Theorem C40_comment : forall s r, get_tok (lit "(:" ++ s) = Ok (mkTok T_Nop [], r) <->
  exists c, comment c /\ lit "(:" ++ s = c ++ r.
Proof.
  intros s r. split; [apply get_tok_comment_inv|]. intros [c [Hc E]]. rewrite E. apply get_tok_comment. auto.
Qed.
Print Assumptions C40_comment.
(* ... and a balanced comment has only one end: *)
Theorem C40_comment_unique : forall c1 c2 r1 r2, comment c1 -> comment c2 -> c1 ++ r1 = c2 ++ r2 -> c1 = c2.
Proof.
  intros c1 c2 r1 r2 H1 H2 E. pose proof (get_tok_comment c1 r1 H1) as G1. rewrite E, get_tok_comment in G1 by auto.
  injection G1 as <-. apply app_inv_tail in E. auto.
Qed.
Print Assumptions C40_comment_unique.

(* White space and comments before an expression, and after any white space that ends a token, do not
   change the token sequence: the same tokens come out for every way of writing the gap. *)
Theorem C40_white_space : forall a b c w w', ~ In 0 a -> (exists ta, raw_tokens a = Ok ta) ->
  space_char c -> ignorable w -> ignorable w' ->
  lexer_new (w' ++ a ++ c :: w ++ b) = lexer_new (a ++ [c] ++ b) /\
  lexer_new (a ++ [32] ++ b) = lexer_new (a ++ [c] ++ b).
Proof.
  intros a b c w w' H0 [ta Ta] Hc Hw Hw'. unfold lexer_new.
  rewrite (raw_tokens_ignorable w' Hw'). cbn [app].
  rewrite !(raw_tokens_sep c _ Hc (S (List.length a)) a ta) by auto.
  rewrite (raw_tokens_sep 32 b (or_introl eq_refl) (S (List.length a)) a ta) by auto.
  rewrite (raw_tokens_ignorable w Hw). auto.
Qed.
Print Assumptions C40_white_space.
(* the tokens of two pieces separated by white space are those of the first followed by those of the second *)
Theorem C40_tokens_separate : forall a b c ta tb, ~ In 0 a -> space_char c -> raw_tokens a = Ok ta -> raw_tokens b = Ok tb ->
  raw_tokens (a ++ c :: b) = Ok (ta ++ tb).
Proof.
  intros a b c ta tb H0 Hc Ta Tb. rewrite (raw_tokens_sep c b Hc (S (List.length a)) a ta) by auto.
  rewrite Tb. reflexivity.
Qed.
Print Assumptions C40_tokens_separate.
Lemma plain_body : forall b, Forall (fun c => c <> 0 /\ c <> 40 /\ c <> 58) b -> comment_body b.
Proof.
  intros b H. induction H as [|c b [H0 [H1 H2]] Hb IH]; [constructor|].
  constructor; auto; intros [r E]; cbn in E; injection E as E _; congruence.
Qed.
Example C40_example : comment (lit "(: a (:b:) :)") /\ ignorable (lit " (: a (:b:) :) ") /\
  (exists ta, raw_tokens (lit "1 +") = Ok ta) /\
  lexer_new (lit "1 + (: a (:b:) :) 2") = lexer_new (lit "1 + 2").
Proof.
  assert (B : comment (lit "(:b:)")).
  { apply (cm_comment (lit "b")). apply plain_body. repeat constructor; discriminate. }
  assert (C : comment (lit "(: a (:b:) :)")).
  { apply (cm_comment (lit " a (:b:) ")).
    assert (K : comment_body (lit "(:b:) ")).
    { apply (cb_comment (lit "(:b:)") (lit " ")); auto. apply plain_body. repeat constructor; discriminate. }
    repeat (apply cb_char; [discriminate| | intros [r E]; discriminate E | intros [r E]; discriminate E]). exact K. }
  split; auto. split; [|split; [eexists; vm_compute; reflexivity|vm_compute; reflexivity]].
  apply ig_space; [left; auto|]. apply (ig_comment (lit "(: a (:b:) :)") (lit " ")); auto.
  apply ig_space; [left; auto|constructor].
Qed.

(* C41, lexical part: Lexer::new panics on exactly the expressions without any token. *)
Theorem C41_lexer_panics_iff_no_token : forall s, ~ In 0 s -> (lexer_new s = Panic <-> ignorable s).
Proof.
  intros s H0. split.
  - intro E. unfold lexer_new in E.
    destruct (raw_tokens s) as [ts|e| |] eqn:R; cbn [bind] in E; try discriminate.
    + destruct ts as [|t ts]; [|discriminate]. apply (no_tokens_ignorable (S (List.length s)) s); auto.
    + destruct (raw_tokens_step (S (List.length s)) s) as [_ [Q1 Q2]]; auto. exfalso. apply Q1. rewrite Q2. auto.
  - intro H. unfold lexer_new. rewrite <- (app_nil_r s). rewrite (raw_tokens_ignorable s H). reflexivity.
Qed.
Print Assumptions C41_lexer_panics_iff_no_token.
Theorem C41_lexer_refuted : lexer_new [] = Panic /\ lexer_new (lit " (: nothing :) ") = Panic.
Proof. split; vm_compute; reflexivity. Qed.

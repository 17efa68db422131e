(* C85: what the expression parser accepts, and the trees it returns. *)
Require Import Bool List NArith ZArith Ascii String Lia.
From Verif Require Import Str StrFacts Chars Lexer LexFacts FuncTable Parser ParserSfx PropParse SpecGrammar GrammarFacts.
Import ListNotations.
Open Scope N_scope.

(* ---- C85: every accepted expression is derived by the grammar, and has the tree the derivation describes ---- *)
Theorem C85_grammar : forall s x, compile_xpath s = Ok x ->
  exists ts, lexer_new s = Ok (eof_token :: ts ++ [eof_token]) /\ Forall spelled ts /\ derives Expr ts x.
Proof.
  intros s x E. destruct (C44_all_tokens_consumed s x E) as [ts [L P]]. exists ts. split; auto.
  assert (F := lexer_spelled _ _ L). split; auto. assert (R := parse_sound ts F). rewrite P in R. cbn in R.
  destruct R as [c [-> [_ R]]]. rewrite app_nil_r. exact R.
Qed.
Print Assumptions C85_grammar.

(* ---- brackets ---- *)
Lemma balanced_app : forall a b, balanced a -> balanced b -> balanced (a ++ b).
Proof.
  intros a b H Hb. induction H as [|w l N H IH|o c l1 l2 P H1 IH1 H2 IH2]; cbn [app]; auto.
  - apply b_token; auto.
  - rewrite <- app_assoc. cbn [app]. apply b_group; auto.
Qed.
Lemma plain_token : forall w, ~ In (t_type w) bracket_types -> balanced [w].
Proof. intros w H. apply b_token; auto. constructor. Qed.
Ltac plain := apply b_token; [cbn; intuition discriminate|].
Ltac group := apply b_group; [cbn; auto| |].
Lemma eqname_balanced : forall dp c n, eqname dp c n -> balanced c.
Proof. intros dp c n [m|p m|u m]; repeat plain; constructor. Qed.
Lemma element_name_balanced : forall c n, element_name c n -> balanced c.
Proof. intros c n [c' m H|]; [eapply eqname_balanced; eauto|]. plain. constructor. Qed.
Lemma group_end : forall o c l, In (o, c) bracket_pairs -> balanced l -> balanced (o :: l ++ [c]).
Proof. intros o c l H Hl. apply b_group; auto. constructor. Qed.
Lemma empty_group : forall o c, In (o, c) bracket_pairs -> balanced [o; c].
Proof. intros o c H. apply (b_group o c []); auto; constructor. Qed.
Ltac bal := repeat first [assumption | apply b_nil | (plain; []) | apply balanced_app
  | apply empty_group; cbn; tauto | apply group_end; [cbn; tauto|] | eapply eqname_balanced; eassumption | eapply element_name_balanced; eassumption].
Lemma element_test_balanced : forall c x, element_test c x -> balanced c.
Proof.
  intros c x [ | c' n H | c' n d ty H1 H2 | c' n d ty H1 H2]; bal.
  - change (c' ++ COMMA :: d ++ [RPAR]) with (c' ++ (COMMA :: d) ++ [RPAR]). rewrite app_assoc. bal.
  - replace (c' ++ COMMA :: d ++ [QUEST; RPAR]) with ((c' ++ COMMA :: d ++ [QUEST]) ++ [RPAR]) by (rewrite <- app_assoc; cbn; rewrite <- app_assoc; reflexivity). bal.
Qed.
Lemma schema_balanced : forall c x, schema_element c x -> balanced c.
Proof. intros c x [c' n H]. bal. Qed.
Lemma kind_balanced : forall c x, kind_test c x -> balanced c.
Proof.
  intros c x H. destruct H; try solve [bal].
  - cbn in H. repeat (destruct H as [H|H]; [injection H as <- <- <-; bal|]). destruct H.
  - eapply element_test_balanced; eauto.
  - eapply schema_balanced; eauto.
  - plain. replace (c ++ COMMA :: d ++ [RPAR]) with ((c ++ COMMA :: d) ++ [RPAR]) by (rewrite <- app_assoc; reflexivity). bal.
  - plain. apply group_end; [cbn; tauto|]. destruct H; [eapply element_test_balanced|eapply schema_balanced]; eauto.
  - plain. apply (group_end LPAR RPAR [name n]); [cbn; tauto|]. bal.
  - plain. apply (group_end LPAR RPAR [mkTok T_StringLiteral n]); [cbn; tauto|]. bal.
Qed.
Lemma node_test_balanced : forall c n x, node_test c n x -> balanced c.
Proof. intros c n x H. destruct H; try solve [bal]. eapply kind_balanced; eauto. Qed.
Lemma axis_part_balanced : forall c ax, axis_part c ax -> balanced c.
Proof. intros c ax H. destruct H; bal. Qed.
Lemma lit_inj : forall a b, lit a = lit b -> a = b.
Proof.
  induction a as [|x a IH]; intros [|y b] H; try discriminate; auto. cbn [lit] in H. injection H as H1 H2. f_equal; [|auto].
  apply (f_equal ascii_of_N) in H1. rewrite !ascii_N_embedding in H1. exact H1.
Qed.
Lemma keyword_plain : forall s w, ~ In s ["("; ")"; "["; "]"; "{"; "}"]%string -> keyword s w -> spelled w -> ~ In (t_type w) bracket_types.
Proof.
  intros s w N [K|K] [S _] I; [rewrite K in I; cbn in I; intuition discriminate|].
  rewrite K in S. cbn [In bracket_types] in I. apply N. clear N K.
  assert (J : forall k, In (lit s) (map lit [k]) -> s = k).
  { intros k [H|[]]. symmetry. apply lit_inj. exact H. }
  repeat (destruct I as [I|I]; [rewrite <- I in S; specialize (S ltac:(discriminate)); apply J in S; subst; cbn; tauto|]). destruct I.
Qed.

Ltac split_all := repeat match goal with
  | H : Forall spelled (_ ++ _) |- _ => apply Forall_app in H; destruct H
  | H : Forall spelled (_ :: _) |- _ => apply Forall_cons_iff in H; destruct H
  end.
Ltac kw := match goal with K : keyword ?s ?w |- ~ In (t_type ?w) _ => apply (keyword_plain s w); [cbn; intuition discriminate|exact K|assumption] end.
Lemma operator_plain : forall n ty s xt, In (ty, s, xt) (operators n) -> ~ In ty bracket_types.
Proof.
  intros n ty s xt H. destruct n; cbn in H; try (destruct H; fail);
    repeat (destruct H as [H|H]; [injection H as <- <- <-; cbn; intuition discriminate|]); destruct H.
Qed.
Lemma type_operator_plain : forall n m w xt ty, type_operator n = Some (m, w, xt, ty) -> ~ In (t_type w) bracket_types.
Proof. intros n m w xt ty H. destruct n; try discriminate; injection H as <- <- <- <-; cbn; intuition discriminate. Qed.
Lemma binder_plain : forall b w xt s bt kw, binder_word b = (w, xt, s, bt, kw) ->
  ~ In (t_type w) bracket_types /\ ~ In kw ["("; ")"; "["; "]"; "{"; "}"]%string.
Proof. intros b w xt s bt kw H. destruct b; injection H as <- <- <- <- <-; cbn; intuition discriminate. Qed.
Lemma derives_balanced : forall n c x, derives n c x -> Forall spelled c -> balanced c.
Proof.
  induction 1; intro F; split_all; try solve [auto | bal; auto].
  all: try solve [apply balanced_app; [auto|]; apply b_token; [first [eapply operator_plain; eassumption|eapply type_operator_plain; eassumption]|auto]].
  - apply balanced_app; [eapply axis_part_balanced; eauto|]. apply balanced_app; [eapply node_test_balanced; eauto|auto].
  - eapply axis_part_balanced; eauto.
  - apply b_group; [cbn; tauto|auto|auto].
  - plain. apply b_group; [cbn; tauto|auto|]. apply group_end; [cbn; tauto|auto].
  - plain. apply b_group; [cbn; tauto|auto|]. plain. apply balanced_app; [auto|]. apply group_end; [cbn; tauto|auto].
  - plain. apply b_group; [cbn; tauto|auto|]. apply b_token; [kw|]. apply balanced_app; [auto|]. apply b_token; [kw|auto].
  - apply b_token; [eapply binder_plain; eauto|auto].
  - apply balanced_app; [auto|]. apply b_token; [|auto]. eapply keyword_plain; [eapply binder_plain; eauto|eassumption|assumption].
  - apply b_token; [|auto]. eapply keyword_plain; [eapply binder_plain; eauto|eassumption|assumption].
  - plain. apply balanced_app; [bal|]. apply b_token; [kw|auto].
  - apply balanced_app; [auto|]. apply plain_token. repeat (destruct H as [<-|H]; [cbn; intuition discriminate|]). destruct H.
  - eapply kind_balanced; eauto.
  - plain. apply (group_end LPAR RPAR [STAR]); [cbn; tauto|bal].
  - plain. apply (b_group LPAR RPAR []); [cbn; tauto|constructor|]. apply b_token; [kw|auto].
  - plain. rewrite app_assoc. apply b_group; [cbn; tauto|apply balanced_app; auto|]. apply b_token; [kw|auto].
  - plain. apply (group_end LPAR RPAR [STAR]); [cbn; tauto|bal].
  - plain. replace (c ++ COMMA :: d ++ [RPAR]) with ((c ++ COMMA :: d) ++ [RPAR]) by (rewrite <- app_assoc; reflexivity). bal. auto.
  - plain. apply (group_end LPAR RPAR [STAR]); [cbn; tauto|bal].
Qed.
(* In every accepted expression, parentheses, brackets and braces (outside string literals and comments, which are
   not bracket tokens) are balanced and properly nested. *)
Theorem C85_balanced : forall s x, compile_xpath s = Ok x ->
  exists ts, lexer_new s = Ok (eof_token :: ts ++ [eof_token]) /\ balanced ts.
Proof.
  intros s x E. destruct (C85_grammar s x E) as [ts [L [F D]]]. exists ts. split; auto. eapply derives_balanced; eauto.
Qed.
Print Assumptions C85_balanced.

(* ---- precedence ---- *)
Definition low (n : nt) : nat :=
  match n with
  | Expr => 0 | ExprSingle => 1 | OrExpr => 2 | AndExpr => 3 | ComparisonExpr => 4 | StringConcatExpr => 5 | RangeExpr => 6
  | AdditiveExpr => 7 | MultiplicativeExpr => 8 | UnionExpr => 9 | IntersectExceptExpr => 10 | InstanceofExpr => 11
  | TreatExpr => 12 | CastableExpr => 13 | CastExpr => 14 | ArrowExpr => 15 | UnaryExpr => 16 | SimpleMapExpr => 17
  | Bindings _ => 1 | PathExpr => 18 | RelativePathExpr => 18 | StepExpr | PostfixExpr | PrimaryExpr | Lookup => 20
  | _ => 0
  end%nat.
Definition cell_type (ty : xtype) : Prop :=
  In ty [X_ArgumentTop; X_ArgumentPlaceholder; X_Param; X_ForVarBind; X_LetVarBind; X_SomeVarBind; X_EveryVarBind].
Definition is_cell (x : xnode) : Prop := match x with XNil => True | XNode ty _ _ _ => cell_type ty end.
Definition inv (n : nt) (x : xnode) : Prop :=
  match n with
  | Argument | Param | Binding _ => is_cell x /\ everywhere fits x
  | Commas Argument | MoreCommas Argument | Commas Param | MoreCommas Param => is_cell x /\ everywhere fits x
  | Commas _ | MoreCommas _ => True
  | Entries X_MapConstruct MapEntry | MoreEntries X_MapConstruct MapEntry
  | Entries X_ArrayEntry ExprSingle | MoreEntries X_ArrayEntry ExprSingle => everywhere fits x
  | Entries _ _ | MoreEntries _ _ => True
  | _ => everywhere fits x /\ (low n <= rank x)%nat
  end.
Lemma ev_nil : everywhere fits XNil.
Proof. cbn. auto. Qed.
Lemma ev_node : forall ty n l r, fits (XNode ty n l r) -> everywhere fits l -> everywhere fits r -> everywhere fits (XNode ty n l r).
Proof. intros. cbn [everywhere]. auto. Qed.
Lemma ev_leaf : forall ty n, fits (leaf ty n) -> everywhere fits (leaf ty n).
Proof. intros. apply ev_node; auto using ev_nil. Qed.
Lemma cell_rank : forall x, is_cell x -> rank x = 20%nat.
Proof. intros [|ty n l r] C; [reflexivity|]. cbn [is_cell] in C. repeat (destruct C as [<-|C]; [reflexivity|]). destruct C. Qed.
Lemma ev_linked : forall x r, is_cell x -> everywhere fits x -> everywhere fits r -> (0 < rank r)%nat -> everywhere fits (linked x r).
Proof.
  intros [|ty n l r0] r C E Hr Pr; [apply ev_nil|]. destruct E as [H [Hl _]]. apply ev_node; auto. revert H. cbn [is_cell] in C.
  repeat (destruct C as [<-|C]; [cbn [fits rank]; tauto|]). destruct C.
Qed.
Lemma cell_linked : forall x r, is_cell x -> is_cell (linked x r).
Proof. intros [|ty n l r0] r C; exact C. Qed.
Lemma element_ev : forall c x, element_test c x \/ schema_element c x -> everywhere fits x.
Proof. intros c x [H|H]; destruct H; cbn; tauto. Qed.
Lemma kind_ev : forall c x, kind_test c x -> everywhere fits x.
Proof.
  intros c x H. destruct H; try solve [cbn; tauto]; try (apply element_ev with c; auto; fail).
  - cbn in H. repeat (destruct H as [H|H]; [injection H as <- <- <-; cbn; tauto|]). destruct H.
  - apply ev_node; [exact I|eapply element_ev; eauto|apply ev_nil].
Qed.
Lemma axis_rank : forall a ax n k p, axis_part a ax -> rank (XNode ax n k p) = 20%nat /\ (fits (XNode ax n k p)).
Proof.
  intros a ax n k p H. destruct H; [split; [reflexivity|exact I]|split; [reflexivity|exact I]|].
  cbn in H. repeat (destruct H as [H|H]; [injection H as <- <-; split; [reflexivity|exact I]|]). destruct H.
Qed.
Lemma node_test_ev : forall c n k, node_test c n k -> everywhere fits k.
Proof.
  intros c n k H. destruct H; try apply ev_nil. apply ev_node; [exact I|eapply kind_ev; eauto|apply ev_nil].
Qed.
Ltac ivt := cbn [lit inv low rank fits everywhere leaf any_items is_cell] in *; intuition (auto; lia).
Lemma derives_inv : forall n c x, derives n c x -> inv n x.
Proof.
  induction 1.
  all: try solve [ivt].
  - destruct n; try discriminate; injection H as <-; ivt.
  - destruct n; try discriminate; injection H as <-; cbn [operators In] in H0;
    repeat (destruct H0 as [H0|H0]; [injection H0 as <- <- <-; cbn [repeats] in *; ivt|]); destruct H0.
  - destruct n; try discriminate; injection H as <- <- <- <-; ivt.
  - destruct n; try discriminate; injection H as <- <- <- <-; ivt.
  - destruct (axis_rank a ax n k p H) as [R Ft]. split; [|rewrite R; cbn; lia]. apply ev_node; auto; [eapply node_test_ev; eauto|].
    destruct IHderives. auto.
  - destruct rev; ivt.
  - cbn [inv is_cell everywhere fits rank low] in *. destruct IHderives. split; [cbn; tauto|]. repeat split; auto.
  - split; [cbn; tauto|]. ivt.
  - split; [cbn; tauto|]. ivt.
  - split; [cbn; tauto|]. ivt.
  - destruct i; try exact I; (split; [exact I|apply ev_nil]).
  - destruct i; try exact I; cbn [inv] in *; destruct IHderives1, IHderives2; (split; [apply cell_linked; auto|apply ev_linked; auto]);
      rewrite cell_rank by auto; lia.
  - destruct i; try exact I; (split; [exact I|apply ev_nil]).
  - destruct i; try exact I; cbn [inv] in *; destruct IHderives1, IHderives2; (split; [apply cell_linked; auto|apply ev_linked; auto]);
      rewrite cell_rank by auto; lia.
  - destruct ty; try exact I; destruct i; try exact I; apply ev_nil.
  - destruct ty; try exact I; destruct i; try exact I; ivt.
  - destruct ty; try exact I; destruct i; try exact I; apply ev_nil.
  - destruct ty; try exact I; destruct i; try exact I; ivt.
  - destruct b; injection H as <- <- <- <- <-; ivt.
  - cbn [inv] in *. destruct IHderives1, IHderives2. split; [apply ev_linked; auto|]. destruct x as [|ty n l r]; [cbn; lia|].
    rewrite cell_rank by (apply cell_linked; auto). cbn. lia.
  - cbn [inv] in *. destruct IHderives1, IHderives2. split; [apply ev_linked; auto|]. destruct x as [|ty n l r0]; [cbn; lia|].
    rewrite cell_rank by (apply cell_linked; auto). cbn. lia.
  - destruct b; try contradiction; injection H0 as <- <- <- <- <-; (split; [cbn; tauto|]); ivt.
  - split; [cbn; tauto|]. ivt.
  - split; [|cbn; lia]. apply ev_node; [exact I|eapply kind_ev; eauto|apply ev_nil].
Qed.
(* In the tree of every accepted expression, every operator has operands that bind more tightly (on the left: at
   least as tightly, for the operators that repeat), whatever was written: a looser operator is only found below a
   node for parentheses, an argument list, a predicate, and so on. *)
Theorem C85_precedence : forall s x, compile_xpath s = Ok x -> everywhere fits x.
Proof. intros s x E. destruct (C85_grammar s x E) as [ts [_ [_ D]]]. apply derives_inv in D. apply D. Qed.
Print Assumptions C85_precedence.

Lemma accepted : forall s, match compile_xpath s with Ok _ => true | _ => false end = true -> exists x, compile_xpath s = Ok x.
Proof. intros s H. destruct (compile_xpath s) as [x|e| |]; try discriminate. eauto. Qed.
Example C85_example :
  exists x, compile_xpath (lit "for $x in (1, 2)[. ge 2] return if ($x) then map { 'k' : f:g#1 } else //a/@b[c] || 'z' => concat(?, 3)") = Ok x.
Proof. apply accepted. vm_compute. reflexivity. Qed.
Example C85_example_tree : exists x, compile_xpath (lit "1 + 2 * 3 - 4") = Ok x /\ rank x = 7%nat /\ rank (x_left x) = 7%nat /\ rank (x_right (x_left x)) = 8%nat.
Proof. eexists. split; [vm_compute; reflexivity|repeat split]. Qed.
(* The grammar is not all-accepting: no derivation without balanced brackets, and no tree 1 + (2 , 3) without parentheses. *)
Example C85_not_everything : (forall x, ~ derives Expr [LPAR] x) /\
  forall c a b, ~ derives Expr c (XNode X_OperatorAdd (lit "+") a (XNode X_OperatorConcatenate (lit ",") b b)).
Proof.
  split.
  - intros x D. apply derives_balanced in D.
    + inversion D as [|w l N _ |o c l1 l2 P _ _ E]; subst; [apply N; cbn; tauto|]. destruct l1; discriminate.
    + constructor; [|constructor]. split; [cbn; auto|]. split; discriminate.
  - intros c a b D. apply derives_inv in D. destruct D as [[[_ D] _] _]. cbn in D. lia.
Qed.
(* The productions marked RELAXED are really used: none of these is an XPath expression. *)
Theorem C85_relaxed : Forall (fun s => exists x, compile_xpath (lit s) = Ok x)
  ["1 +"; "= 2"; "a/"; "a[]"; "a/@"; "child::"; "if (1) foo 2 bar 3"; "if (1) 'then' 2 'else' 3"; "concat(1, 2, , 3)";
   "for $x in 1, return 2"; "for $x foo 1 bar $x"; "function($a as) { 1 }"; "1 instance of map(xs:integer, )"]%string.
Proof. repeat (apply Forall_cons; [apply accepted; vm_compute; reflexivity|]). apply Forall_nil. Qed.

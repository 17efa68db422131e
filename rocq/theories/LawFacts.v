(* The laws of SpecRewrite hold of the trees. *)
Require Import Bool List NArith ZArith Ascii String Lia.
From Verif Require Import Str StrFacts Sax Dom Axes Lexer FuncTable Parser SpecExpr PrecFacts PropParse Num Item Func Types Eval
  EvalFacts SpecSame SameFacts SpecRewrite.
Import ListNotations.
Open Scope nat_scope.

Definition fn1 (f : string) (x : xnode) : xnode := XNode X_FunctionCall (lit "fn:" ++ lit f)%list XNil (XNode X_ArgumentTop [] x XNil).
Definition fn0 (f : string) : xnode := XNode X_FunctionCall (lit "fn:" ++ lit f)%list XNil XNil.

Definition computes (f : string) (G : xseq -> res xseq) : Prop :=
  forall h cf v c e, evaluate_function h cf (lit "fn:" ++ lit f)%list [v] c e = pure e (G v).
Lemma eval_fn1 : forall f G, computes f G -> forall h n x c e,
  eval h (S n) c (fn1 f x) e = (do (v, e1) <- eval h n c x e; pure e1 (G v)).
Proof.
  intros f G E h n x c e. rewrite eval_S. unfold eval_step, fn1. cbn [x_type x_right x_name eval_args].
  change (xtype_eqb X_ArgumentTop X_ArgumentTop) with true. cbn iota.
  destruct (eval h n c x e) as [[v e1]| | |]; cbn [bind]; auto.
Qed.
Lemma c_not : computes "not" fn_not. Proof. intros h cf v c e. reflexivity. Qed.
Lemma c_boolean : computes "boolean" fn_boolean. Proof. intros h cf v c e. reflexivity. Qed.
Lemma c_empty : computes "empty" fn_empty. Proof. intros h cf v c e. reflexivity. Qed.
Lemma c_exists : computes "exists" fn_exists. Proof. intros h cf v c e. reflexivity. Qed.
Lemma c_reverse : computes "reverse" fn_reverse. Proof. intros h cf v c e. reflexivity. Qed.
Lemma c_head : computes "head" fn_head. Proof. intros h cf v c e. reflexivity. Qed.
Lemma eval_true : forall h n c e, eval h (S n) c (fn0 "true") e = Ok (sing_bool true, e).
Proof. intros. reflexivity. Qed.
Lemma eval_false : forall h n c e, eval h (S n) c (fn0 "false") e = Ok (sing_bool false, e).
Proof. intros. reflexivity. Qed.
Lemma eval_last : forall h n c e, eval h (S n) c (fn0 "last") e = Ok ([XIInteger (Z.of_nat (e_last e))], e).
Proof. intros. reflexivity. Qed.
Lemma eval_one : forall h n c e, eval h (S n) c (leaf X_IntegerLiteral (lit "1")) e = Ok ([XIInteger 1], e).
Proof. intros. reflexivity. Qed.
Definition nil_tree : xnode := XNode X_ParenthesizedExpr [] XNil XNil.
Lemma eval_nil : forall h n c e, eval h (S n) c nil_tree e = Ok ([], e).
Proof. intros. reflexivity. Qed.
Definition comma (x y : xnode) : xnode := XNode X_OperatorConcatenate [] x y.
Lemma eval_comma : forall h n c x y e, eval h (S n) c (comma x y) e =
  (do (l, e1) <- eval h n c x e; do (r, e2) <- eval h n c y e1; Ok (l ++ r, e2)).
Proof. intros. reflexivity. Qed.
Definition filt (x p : xnode) : xnode := XNode X_ApplyPredicate [] x (XNode X_PredicateTop [] p XNil).
Lemma eval_filt : forall h n c x p e, eval h (S n) c (filt x p) e =
  (do (v, e1) <- eval h n c x e; filter_by_predicate (eval h n) v p false e1).
Proof. intros. reflexivity. Qed.
Definition mapp (x y : xnode) : xnode := XNode X_OperatorMap [] x y.
Lemma eval_mapp : forall h n c x y e, is_nil x = false -> is_nil y = false -> eval h (S n) c (mapp x y) e =
  (do (l, e1) <- eval h n c x e; map_loop (eval h n) y l e1).
Proof. intros h n c x y e X Y. rewrite eval_S. unfold eval_step, mapp, eval_left. cbn [x_type x_left x_right]. rewrite X, Y. reflexivity. Qed.
Definition iff (x y z : xnode) : xnode := XNode X_IfExpr [] x (XNode X_IfThenElse [] y z).
Lemma eval_iff : forall h n c x y z e, eval h (S n) c (iff x y z) e =
  (do (v, e1) <- eval h n c x e; do b <- effective_boolean_value v; if b : bool then eval h n c y e1 else eval h n c z e1).
Proof. intros. reflexivity. Qed.
Lemma eval_and : forall h n c x y e, eval h (S n) c (XNode X_OperatorAnd [] x y) e =
  (do (l, e1) <- eval h n c x e; do lb <- effective_boolean_value l;
   if Bool.eqb lb false then Ok (sing_bool false, e1)
   else do (r, e2) <- eval h n c y e1; do rb <- effective_boolean_value r; Ok (sing_bool rb, e2)).
Proof. intros. reflexivity. Qed.
Lemma eval_or : forall h n c x y e, eval h (S n) c (XNode X_OperatorOr [] x y) e =
  (do (l, e1) <- eval h n c x e; do lb <- effective_boolean_value l;
   if Bool.eqb lb true then Ok (sing_bool true, e1)
   else do (r, e2) <- eval h n c y e1; do rb <- effective_boolean_value r; Ok (sing_bool rb, e2)).
Proof. intros. reflexivity. Qed.
Lemma eval_bind : forall q v h n c x y e, eval h (S (S n)) c (bind_tree (Some q) v x y) e =
  (do (r, e1) <- eval h n c x e;
   match q with Q_for => for_loop (eval h n) c v y r e1 | Q_some => quant_loop (eval h n) true c v y r e1
   | Q_every => quant_loop (eval h n) false c v y r e1 end).
Proof. intros [] v h n c x y e; reflexivity. Qed.
Lemma eval_let : forall v h n c x y e, eval h (S (S n)) c (bind_tree None v x y) e =
  (do (r, e1) <- eval h n c x e; do (s, e2) <- eval h n c y (set_var e1 v r); Ok (s, remove_var e2 v)).
Proof. intros. reflexivity. Qed.
Lemma ebv_sing : forall b, effective_boolean_value (sing_bool b) = Ok b.
Proof. intros []; reflexivity. Qed.

(* both directions at once, the fuel first raised *)
Lemma ek_of : forall k x y, is_nil x = false -> is_nil y = false ->
  (forall h n c e, le_res (eval h (k + n) c x e) (eval h (2 * k + n) c y e)) ->
  (forall h n c e, le_res (eval h (k + n) c y e) (eval h (2 * k + n) c x e)) -> ek (2 * k) x y.
Proof.
  intros k x y X Y A B. repeat split; auto; intros; (eapply le_trans; [apply eval_mono with (m := k + n); lia|auto]).
Qed.
Lemma same_of : forall k x y, is_nil x = false -> is_nil y = false ->
  (forall h n c e, le_res (eval h (k + n) c x e) (eval h (2 * k + n) c y e)) ->
  (forall h n c e, le_res (eval h (k + n) c y e) (eval h (2 * k + n) c x e)) -> same x y.
Proof. intros. exists (2 * k). apply ek_of; auto. Qed.

Ltac ev := cbn [Nat.add Nat.mul]; repeat (rewrite ?eval_comma, ?eval_nil, ?eval_true, ?eval_false, ?eval_one, ?eval_last, ?eval_iff, ?eval_and, ?eval_or,
   ?(eval_fn1 _ _ c_not), ?(eval_fn1 _ _ c_boolean), ?(eval_fn1 _ _ c_empty), ?(eval_fn1 _ _ c_exists), ?(eval_fn1 _ _ c_reverse), ?(eval_fn1 _ _ c_head),
   ?eval_filt, ?eval_bind, ?eval_let); cbn [bind pure].
Ltac sub := match goal with |- le_res ?L ?R => match L with context[eval ?h ?n ?c ?x ?e] => match R with context[eval h ?m c x e] =>
   destruct (eval_mono h n m c x e ltac:(lia)) as [E|E]; [rewrite E; left; reflexivity|rewrite E; clear E; destruct (eval h m c x e) as [[? ?]| | |]; cbn [bind]; ev; try apply le_refl] end end end.
Ltac law k := apply (same_of k); auto; intros; ev.

Section Laws.
  Variables x y z : xnode.
  Hypothesis X : is_nil x = false.
  Hypothesis Y : is_nil y = false.
  Hypothesis Z : is_nil z = false.
  Lemma t_assoc : same (comma (comma x y) z) (comma x (comma y z)).
  Proof. law 3; do 3 sub; rewrite app_assoc; apply le_refl. Qed.
  Lemma t_nil_left : same (comma nil_tree x) x.
  Proof. law 3; sub. Qed.
  Lemma t_nil_right : same (comma x nil_tree) x.
  Proof. law 3; sub; rewrite app_nil_r; apply le_refl. Qed.
  Lemma t_reverse : same (fn1 "reverse" (fn1 "reverse" x)) x.
  Proof. law 3; sub; unfold fn_reverse; cbn [pure bind]; rewrite rev_involutive; apply le_refl. Qed.
  Lemma t_exists : same (fn1 "exists" x) (fn1 "not" (fn1 "empty" x)).
  Proof. law 3; sub; unfold fn_exists, fn_empty, fn_not; cbn [pure bind]; rewrite ebv_sing; apply le_refl. Qed.
  Lemma t_not_not : same (fn1 "not" (fn1 "not" x)) (fn1 "boolean" x).
  Proof.
    law 3; sub; unfold fn_not, fn_boolean; destruct (effective_boolean_value _); cbn [pure bind]; try apply le_refl;
      rewrite ebv_sing; cbn [bind]; rewrite negb_involutive; apply le_refl.
  Qed.
  Lemma t_boolean : same (fn1 "boolean" (fn1 "boolean" x)) (fn1 "boolean" x).
  Proof.
    law 3; sub; unfold fn_boolean; destruct (effective_boolean_value _); cbn [pure bind]; try apply le_refl;
      rewrite ebv_sing; apply le_refl.
  Qed.
  Ltac bool := repeat (unfold fn_not, fn_boolean, pure; cbn [bind Bool.eqb negb]; ev; rewrite ?ebv_sing; cbn [bind Bool.eqb negb];
    match goal with
    | |- le_res ?a ?a => apply le_refl
    | |- context[effective_boolean_value ?v] => is_var v; destruct (effective_boolean_value v) as [[]| | |]
    | |- context[eval] => sub
    end).
  Lemma t_and : same (fn1 "not" (XNode X_OperatorAnd [] x y)) (XNode X_OperatorOr [] (fn1 "not" x) (fn1 "not" y)).
  Proof. law 4; bool. Qed.
  Lemma t_or : same (fn1 "not" (XNode X_OperatorOr [] x y)) (XNode X_OperatorAnd [] (fn1 "not" x) (fn1 "not" y)).
  Proof. law 4; bool. Qed.
  Lemma t_and_if : same (XNode X_OperatorAnd [] x y) (iff x (fn1 "boolean" y) (fn0 "false")).
  Proof. law 4; bool. Qed.
  Lemma t_or_if : same (XNode X_OperatorOr [] x y) (iff x (fn0 "true") (fn1 "boolean" y)).
  Proof. law 4; bool. Qed.
  Lemma t_if_true : same (iff (fn0 "true") x y) x.
  Proof. law 4; bool. Qed.
  Lemma t_if_false : same (iff (fn0 "false") x y) y.
  Proof. law 4; bool. Qed.
  Lemma t_if_not : same (iff (fn1 "not" x) y z) (iff x z y).
  Proof. law 4; bool. Qed.
  Lemma t_if_boolean : same (iff x (fn0 "true") (fn0 "false")) (fn1 "boolean" x).
  Proof. law 4; bool. Qed.
End Laws.

(* ---- loops ---- *)
Lemma remove_set : forall e v s, remove_var (set_var e v s) v = e.
Proof. intros [p l vs] v s. unfold remove_var, set_var. cbn [e_pos e_last e_vars remove_first]. rewrite str_eqb_refl. reflexivity. Qed.
Lemma eval_var : forall h n c v e s, eval h (S n) c (leaf X_VarRef v) (set_var e v s) = Ok (s, set_var e v s).
Proof.
  intros. rewrite eval_S. unfold eval_step, leaf. cbn [x_type x_name]. unfold get_var, set_var. cbn [e_vars lookup_var].
  rewrite str_eqb_refl. reflexivity.
Qed.
Lemma for_self : forall h n c v l e, for_loop (eval h (S n)) c v (leaf X_VarRef v) l e = Ok (l, e).
Proof.
  intros h n c v l. induction l as [|it l IH]; intro e; [reflexivity|]. cbn [for_loop]. rewrite eval_var. cbn [bind].
  rewrite remove_set, IH. reflexivity.
Qed.
Lemma map_self : forall h n l e, map_loop (eval h (S n)) dot_tree l e = Ok (l, e).
Proof.
  intros h n l. induction l as [|it l IH]; intro e; [reflexivity|]. cbn [map_loop].
  replace (eval h (S n) [it] dot_tree e) with (@Ok (xseq * env) ([it], e)) by reflexivity. cbn [bind]. rewrite IH. reflexivity.
Qed.
Lemma set_same : forall e, set_pos_last e (e_pos e) (e_last e) = e.
Proof. intros [p l v]. reflexivity. Qed.
(* a predicate that only looks at the position *)
Lemma filter_pos : forall (f : xseq -> xnode -> env -> res (xseq * env)) p (g : nat -> nat -> xseq) n,
  (forall it i e, f [it] p (set_pos_last e i n) = Ok (g i n, set_pos_last e i n)) ->
  forall l i e, filter_loop f p false n i l e =
    Ok (map snd (filter (fun q => keeps (g (fst q) n) (fst q)) (combine (seq (i + 1) (List.length l)) l)), e).
Proof.
  intros f p g n H l. induction l as [|it l IH]; intros i e; [reflexivity|]. cbn [filter_loop]. rewrite H. cbn [bind].
  assert (Q : set_pos_last (set_pos_last e (i + 1) n) (e_pos e) (e_last e) = e) by (destruct e; reflexivity).
  rewrite Q, IH. cbn [bind List.length seq combine filter fst].
  replace (S i + 1) with (S (i + 1)) by lia. destruct (keeps (g (i + 1) n) (i + 1)); reflexivity.
Qed.
Lemma filter_all : forall h n l m i e, filter_loop (eval h (S n)) (fn0 "true") false m i l e = Ok (l, e).
Proof.
  intros h n l m i e. rewrite filter_pos with (g := fun _ _ => sing_bool true) by (intros; apply eval_true).
  f_equal. f_equal. revert i. induction l as [|it l IH]; intro i; [reflexivity|].
  cbn [List.length seq combine filter fst]. replace (S (i + 1)) with (S i + 1) by lia.
  replace (keeps (sing_bool true) (i + 1)) with true by reflexivity. cbn [map snd]. rewrite IH. reflexivity.
Qed.
Lemma keeps_nat : forall a b, keeps [XIInteger (Z.of_nat a)] b = Nat.eqb a b.
Proof. intros. cbn [keeps]. destruct (Nat.eqb_spec a b) as [->|N]; [apply Z.eqb_refl|]. apply Z.eqb_neq. lia. Qed.
Lemma pick_none : forall (l : xseq) a i, a < i -> filter (fun q => Nat.eqb a (fst q)) (combine (seq i (List.length l)) l) = [].
Proof.
  intros l a. induction l as [|it l IH]; intros i H; [reflexivity|]. cbn [List.length seq combine filter fst].
  replace (Nat.eqb a i) with false by (symmetry; apply Nat.eqb_neq; lia). apply IH. lia.
Qed.
Lemma pick_last : forall (l : xseq) i, map snd (filter (fun q => Nat.eqb (i + List.length l) (fst q)) (combine (seq (S i) (List.length l)) l)) =
  match rev l with [] => [] | it :: _ => [it] end.
Proof.
  intro l. induction l as [|it l IH]; intro i; [reflexivity|]. cbn [List.length seq combine filter fst].
  specialize (IH (S i)). replace (S i + List.length l) with (i + S (List.length l)) in IH by lia. cbn [rev].
  destruct l as [|b l].
  - cbn [List.length]. replace (i + 1) with (S i) by lia. rewrite Nat.eqb_refl. reflexivity.
  - replace (Nat.eqb (i + S (List.length (b :: l))) (S i)) with false by (symmetry; apply Nat.eqb_neq; cbn [List.length]; lia).
    rewrite IH. destruct (rev (b :: l)) as [|c r] eqn:R; [|reflexivity]. apply (f_equal (@List.length _)) in R.
    rewrite rev_length in R. discriminate.
Qed.
Lemma filter_head : forall h n l m e, filter_loop (eval h (S n)) (leaf X_IntegerLiteral (lit "1")) false m 0 l e =
  Ok (match l with [] => [] | it :: _ => [it] end, e).
Proof.
  intros h n l m e. rewrite filter_pos with (g := fun _ _ => [XIInteger (Z.of_nat 1)]) by (intros; apply eval_one).
  f_equal. f_equal. destruct l as [|it l]; [reflexivity|].
  rewrite (filter_ext _ (fun q => Nat.eqb 1 (fst q))) by (intro; apply keeps_nat).
  cbn [List.length seq combine filter fst Nat.add]. change (Nat.eqb 1 1) with true. cbn iota. rewrite pick_none by lia. reflexivity.
Qed.
Lemma filter_last : forall h n l e, filter_loop (eval h (S n)) (fn0 "last") false (List.length l) 0 l e =
  Ok (match rev l with [] => [] | it :: _ => [it] end, e).
Proof.
  intros h n l e. rewrite filter_pos with (g := fun _ m => [XIInteger (Z.of_nat m)]) by (intros; apply eval_last).
  f_equal. f_equal. rewrite <- (pick_last l 0). f_equal. apply filter_ext. intro. apply keeps_nat.
Qed.

Ltac fin := repeat (first [apply le_refl | match goal with |- context[eval] => sub end]).
Section Loops.
  Variables x y : xnode.
  Variable v : str.
  Hypothesis X : is_nil x = false.
  Hypothesis Y : is_nil y = false.
  Lemma t_for : same (bind_tree (Some Q_for) v x (leaf X_VarRef v)) x.
  Proof. law 4; sub; rewrite for_self; apply le_refl. Qed.
  Lemma t_let : same (bind_tree None v x (leaf X_VarRef v)) x.
  Proof. law 4; sub; rewrite eval_var; cbn [bind]; rewrite remove_set; apply le_refl. Qed.
  Lemma t_map_dot : same (mapp x dot_tree) x.
  Proof. law 4; rewrite eval_mapp by auto; sub; rewrite map_self; apply le_refl. Qed.
  Lemma t_all : same (filt x (fn0 "true")) x.
  Proof. law 4; sub; unfold filter_by_predicate; cbn [is_nil fn0]; rewrite filter_all; apply le_refl. Qed.
  Lemma t_head : same (fn1 "head" x) (filt x (leaf X_IntegerLiteral (lit "1"))).
  Proof. law 4; sub; unfold filter_by_predicate; cbn [is_nil leaf]; rewrite filter_head; apply le_refl. Qed.
  Lemma t_last : same (fn1 "head" (fn1 "reverse" x)) (filt x (fn0 "last")).
  Proof. law 4; sub; unfold filter_by_predicate; cbn [is_nil fn0]; rewrite filter_last; apply le_refl. Qed.
  Lemma t_empty_filter : same (filt nil_tree x) nil_tree.
  Proof. law 4; unfold filter_by_predicate; rewrite X; apply le_refl. Qed.
  Lemma t_empty_map : same (mapp nil_tree x) nil_tree.
  Proof. law 4; rewrite eval_mapp by auto; ev; apply le_refl. Qed.
  Lemma t_empty_for : same (bind_tree (Some Q_for) v nil_tree x) nil_tree.
  Proof. law 4; apply le_refl. Qed.
  Lemma t_empty_some : same (bind_tree (Some Q_some) v nil_tree x) (fn0 "false").
  Proof. law 4; apply le_refl. Qed.
  Lemma t_empty_every : same (bind_tree (Some Q_every) v nil_tree x) (fn0 "true").
  Proof. law 4; apply le_refl. Qed.

  (* some and every *)
  Lemma quant_dual : forall (f g : xseq -> xnode -> env -> res (xseq * env)) b c l,
    (forall c e, le_res (f c y e) (g c y e)) ->
    forall e,
    le_res (quant_loop f b c v y l e)
      (do (r, e1) <- quant_loop (fun c z e => do (r, e1) <- g c y e; pure e1 (fn_not r)) (negb b) c v y l e; pure e1 (fn_not r)) /\
    le_res (do (r, e1) <- quant_loop (fun c z e => do (r, e1) <- f c y e; pure e1 (fn_not r)) (negb b) c v y l e; pure e1 (fn_not r))
      (quant_loop g b c v y l e).
  Proof.
    intros f g b c l H. unfold pure, fn_not. induction l as [|it l IH]; intro e.
    - cbn [quant_loop bind]. rewrite ebv_sing. cbn [bind]. rewrite negb_involutive. split; apply le_refl.
    - cbn [quant_loop]. specialize (H c (set_var e v [it])). destruct H as [E|E].
      { rewrite E. cbn [bind]. split; left; reflexivity. }
      rewrite E. destruct (g c y (set_var e v [it])) as [[r e1]| | |]; cbn [bind]; try (split; apply le_refl).
      destruct (effective_boolean_value r) as [t| | |]; cbn [bind]; try (split; apply le_refl).
      rewrite ebv_sing. cbn [bind]. replace (Bool.eqb (negb t) (negb b)) with (Bool.eqb t b) by (destruct t, b; reflexivity).
      destruct (Bool.eqb t b).
      + cbn [bind]. rewrite ebv_sing. cbn [bind]. rewrite negb_involutive. split; apply le_refl.
      + apply IH.
  Qed.
  Lemma quant_ext : forall (f g : xseq -> xnode -> env -> res (xseq * env)) b c l z z', (forall c e, f c z e = g c z' e) ->
    forall e, quant_loop f b c v z l e = quant_loop g b c v z' l e.
  Proof.
    intros f g b c l z z' H. induction l as [|it l IH]; intro e; [reflexivity|]. cbn [quant_loop]. rewrite H.
    destruct (g c z' (set_var e v [it])) as [[r e1]| | |]; cbn [bind]; auto. destruct (effective_boolean_value r) as [t| | |]; cbn [bind]; auto.
    destruct (Bool.eqb t b); auto.
  Qed.
  Lemma quant_not : forall h n b c l e, quant_loop (eval h (S n)) b c v (fn1 "not" y) l e =
    quant_loop (fun c z e => do (r, e1) <- eval h n c y e; pure e1 (fn_not r)) b c v y l e.
  Proof. intros. apply quant_ext. intros. apply eval_fn1. exact c_not. Qed.
  Lemma t_some_every : same (bind_tree (Some Q_some) v x y) (fn1 "not" (bind_tree (Some Q_every) v x (fn1 "not" y))).
  Proof.
    law 5; sub; rewrite quant_not.
    - apply (quant_dual _ _ true). intros. apply eval_mono. lia.
    - apply (quant_dual _ _ true). intros. apply eval_mono. lia.
  Qed.
  Lemma t_every_some : same (bind_tree (Some Q_every) v x y) (fn1 "not" (bind_tree (Some Q_some) v x (fn1 "not" y))).
  Proof.
    law 5; sub; rewrite quant_not.
    - apply (quant_dual _ _ false). intros. apply eval_mono. lia.
    - apply (quant_dual _ _ false). intros. apply eval_mono. lia.
  Qed.
  Lemma t_concat : same (XNode X_OperatorConcat [] x y)
    (XNode X_FunctionCall (lit "fn:" ++ lit "concat")%list XNil (XNode X_ArgumentTop [] x (XNode X_ArgumentTop [] y XNil))).
  Proof.
    assert (A : forall h n c e, eval h (S n) c (XNode X_OperatorConcat [] x y) e =
      (do (l, e1) <- eval h n c x e; do (r, e2) <- eval h n c y e1; do w <- fn_concat h [l; r]; Ok (w, e2))) by reflexivity.
    assert (B : forall h n c e, eval h (S n) c (XNode X_FunctionCall (lit "fn:" ++ lit "concat")%list XNil (XNode X_ArgumentTop [] x (XNode X_ArgumentTop [] y XNil))) e =
      (do (l, e1) <- eval h n c x e; do (r, e2) <- eval h n c y e1; do w <- fn_concat h [l; r]; Ok (w, e2))).
    { intros. rewrite eval_S. unfold eval_step. cbn [x_type x_right x_name eval_args].
      change (xtype_eqb X_ArgumentTop X_ArgumentTop) with true. cbn iota.
      destruct (eval h n c x e) as [[l e1]| | |]; cbn [bind]; auto. destruct (eval h n c y e1) as [[r e2]| | |]; cbn [bind]; auto. }
    law 3; rewrite ?A, ?B; do 2 sub.
  Qed.
End Loops.

(* Facts about the evaluator: more fuel never changes an answer; operands of binary operators. *)
Require Import Bool List NArith ZArith Ascii String Lia.
From Verif Require Import Str Sax Dom Axes Lexer FuncTable Parser Num Item Func Types Eval.
Import ListNotations.
Open Scope nat_scope.

(* [r'] is what [r] becomes when more fuel is available *)
Definition le_res {A} (r r' : res A) : Prop := r = Fuel \/ r = r'.
Lemma le_refl : forall A (r : res A), le_res r r.
Proof. right. reflexivity. Qed.
Lemma le_fuel : forall A (r : res A), le_res Fuel r.
Proof. left. reflexivity. Qed.
Lemma le_trans : forall A (a b c : res A), le_res a b -> le_res b c -> le_res a c.
Proof. intros A a b c [->| ->] H; [apply le_fuel|auto]. Qed.
Lemma le_bind : forall A B (r r' : res A) (f f' : A -> res B),
  le_res r r' -> (forall a, le_res (f a) (f' a)) -> le_res (bind r f) (bind r' f').
Proof.
  intros A B r r' f f' [->| ->] H; [left; reflexivity|].
  destruct r'; cbn [bind]; auto using le_refl.
Qed.
Lemma le_Ok : forall A (r r' : res A) a, le_res r r' -> r = Ok a -> r' = Ok a.
Proof. intros A r r' a [->|E] H; congruence. Qed.
Lemma le_eq : forall A (r r' : res A), le_res r r' -> r <> Fuel -> r' = r.
Proof. intros A r r' [->|E] H; congruence. Qed.

Ltac mono :=
  repeat first
    [ apply le_refl
    | progress intros
    | match goal with
      | |- le_res (bind _ _) (bind _ _) => apply le_bind
      | p : _ * _ |- _ => destruct p
      | |- le_res (if ?b then _ else _) (if ?b then _ else _) => destruct b
      | H : forall _, _ |- le_res _ _ => apply H
      | |- le_res (match ?b with _ => _ end) (match ?b with _ => _ end) => destruct b
      end ].

Section Mono.
  Variable h : heap.
  Variables ev ev' : xseq -> xnode -> env -> res (xseq * env).
  Variables cf cf' : xnode -> list xseq -> xseq -> env -> res (xseq * env).
  Hypothesis Hev : forall c x e, le_res (ev c x e) (ev' c x e).
  Hypothesis Hcf : forall f a c e, le_res (cf f a c e) (cf' f a c e).

  Lemma filter_loop_mono : forall x rv n l i e, le_res (filter_loop ev x rv n i l e) (filter_loop ev' x rv n i l e).
  Proof. induction l; intros; cbn [filter_loop]; mono. Qed.
  Lemma filter_by_predicate_mono : forall s x rv e,
    le_res (filter_by_predicate ev s x rv e) (filter_by_predicate ev' s x rv e).
  Proof. intros. unfold filter_by_predicate. destruct (is_nil x); [apply le_refl|apply filter_loop_mono]. Qed.
  Lemma filter_by_predicates_mono : forall x s e,
    le_res (filter_by_predicates ev x s e) (filter_by_predicates ev' x s e).
  Proof.
    induction x as [|ty nm l _ r IH]; intros; cbn [filter_by_predicates]; [apply le_refl|].
    destruct ty; try apply le_refl; (apply le_bind; [apply filter_by_predicate_mono|intros [s1 e1]; apply IH]).
  Qed.
  Lemma loc_path_loop_mono : forall x l e, le_res (loc_path_loop h ev x l e) (loc_path_loop h ev' x l e).
  Proof.
    induction l as [|i l IH]; intros; cbn [loc_path_loop]; [apply le_refl|].
    apply le_bind; [|intros [s e1]; apply le_bind; [apply IH|intros [? ?]; apply le_refl]].
    unfold match_loc_step. apply le_bind; [apply le_refl|]. intro ns.
    destruct (is_nil (x_right x)); [apply le_refl|apply filter_by_predicates_mono].
  Qed.
  Lemma path_loop_mono : forall x l a b acc e, le_res (path_loop ev x l a b acc e) (path_loop ev' x l a b acc e).
  Proof.
    induction l as [|it l IH]; intros; cbn [path_loop]; [apply le_refl|].
    apply le_bind; [apply Hev|]. intros [v e1]. destruct v; [apply IH|].
    destruct (_ && _); [apply le_refl|apply IH].
  Qed.
  Lemma map_loop_mono : forall x l e, le_res (map_loop ev x l e) (map_loop ev' x l e).
  Proof. induction l; intros; cbn [map_loop]; mono. Qed.
  Lemma for_loop_mono : forall c v b l e, le_res (for_loop ev c v b l e) (for_loop ev' c v b l e).
  Proof. induction l; intros; cbn [for_loop]; mono. Qed.
  Lemma quant_loop_mono : forall st c v b l e, le_res (quant_loop ev st c v b l e) (quant_loop ev' st c v b l e).
  Proof. induction l; intros; cbn [quant_loop]; mono. Qed.
  Lemma eval_args_mono : forall c x e, le_res (eval_args ev c x e) (eval_args ev' c x e).
  Proof. induction x as [|ty nm l _ r IH]; intros; cbn [eval_args]; mono. Qed.
  Lemma eval_dyn_args_mono : forall c x e, le_res (eval_dyn_args ev c x e) (eval_dyn_args ev' c x e).
  Proof. induction x as [|ty nm l _ r IH]; intros; cbn [eval_dyn_args]; mono. Qed.
  Lemma eval_partial_args_mono : forall c x g e,
    le_res (eval_partial_args ev c x g e) (eval_partial_args ev' c x g e).
  Proof.
    induction x as [|ty nm l _ r IH]; intros; cbn [eval_partial_args]; [apply le_refl|].
    destruct ty; try apply le_refl; mono.
  Qed.
  Lemma map_entries_mono : forall c x e, le_res (map_entries ev c x e) (map_entries ev' c x e).
  Proof.
    intros c x; induction x as [|ty nm l _ r IH]; intros; cbn [map_entries]; [apply le_refl|].
    destruct (negb _); [apply le_refl|]. destruct (negb _); [apply le_refl|].
    apply le_bind; [apply Hev|intros [k e1]]. apply le_bind; [apply le_refl|intro key].
    apply le_bind; [apply Hev|intros [v e2]]. apply le_bind; [apply IH|intros [m e3]; apply le_refl].
  Qed.
  Lemma array_entries_mono : forall c x e, le_res (array_entries ev c x e) (array_entries ev' c x e).
  Proof.
    induction x as [|ty nm l _ r IH]; intros; cbn [array_entries]; [apply le_refl|].
    destruct (negb _); [apply le_refl|].
    apply le_bind; [apply Hev|intros [k e1]]. apply le_bind; [apply IH|intros [m e3]; apply le_refl].
  Qed.
  Lemma call_inline_mono : forall f a c e, le_res (call_inline_func h ev f a c e) (call_inline_func h ev' f a c e).
  Proof. intros. unfold call_inline_func. mono. Qed.
  Lemma for_each_loop_mono : forall f c l e,
    le_res (for_each_loop (fun a => cf f a c) l e) (for_each_loop (fun a => cf' f a c) l e).
  Proof. intros f c; induction l; intros; cbn [for_each_loop]; mono. Qed.
  Lemma filter_fn_loop_mono : forall f c l e,
    le_res (filter_fn_loop (fun a => cf f a c) l e) (filter_fn_loop (fun a => cf' f a c) l e).
  Proof. intros f c; induction l; intros; cbn [filter_fn_loop]; mono. Qed.
  Lemma evaluate_function_mono : forall nm a c e,
    le_res (evaluate_function h cf nm a c e) (evaluate_function h cf' nm a c e).
  Proof.
    intros. unfold evaluate_function. destruct (find_function _ _) as [f|]; [|apply le_refl].
    destruct f; try apply le_refl.
    - destruct a as [|s [|g [|? ?]]]; try apply le_refl. apply le_bind; [apply le_refl|intro fx].
      apply for_each_loop_mono.
    - destruct a as [|s [|g [|? ?]]]; try apply le_refl. apply le_bind; [apply le_refl|intro fx].
      apply filter_fn_loop_mono.
  Qed.
  Lemma call_function_body_mono : forall f a c e,
    le_res (call_function_body h ev cf f a c e) (call_function_body h ev' cf' f a c e).
  Proof.
    intros. unfold call_function_body. destruct (x_type f); try apply le_refl.
    - apply call_inline_mono.
    - unfold call_named_func. destruct (split_hash _) as [[? ?]|]; [|apply le_refl].
      destruct (_ =? _)%Z; [apply evaluate_function_mono|apply le_refl].
    - unfold call_partial_func. apply le_bind; [apply eval_partial_args_mono|intros [vs e1]; apply evaluate_function_mono].
  Qed.
  Lemma apply_argument_mono : forall c f x e, le_res (apply_argument h ev c f x e) (apply_argument h ev' c f x e).
  Proof.
    intros. unfold apply_argument. apply le_bind; [apply eval_dyn_args_mono|intros [args e1]].
    destruct f as [|[] [|? ?]]; try apply le_refl.
    destruct (xtype_eqb _ _); [apply call_inline_mono|apply le_refl].
  Qed.
  Lemma convert_mono : forall x c e,
    le_res (convert_xnode_to_map_array ev x c e) (convert_xnode_to_map_array ev' x c e).
  Proof.
    intros. unfold convert_xnode_to_map_array. destruct (x_type x); try apply le_refl.
    - apply le_bind; [apply map_entries_mono|intros [? ?]; apply le_refl].
    - apply le_bind; [apply array_entries_mono|intros [? ?]; apply le_refl].
    - apply le_bind; [apply Hev|intros [? ?]; apply le_refl].
  Qed.
  Lemma eval_left_mono : forall c x e, le_res (eval_left ev c x e) (eval_left ev' c x e).
  Proof. intros. unfold eval_left. mono. Qed.
  Lemma binary_mono : forall c x e f, le_res (binary ev c x e f) (binary ev' c x e f).
  Proof. intros. unfold binary. apply le_bind; [apply Hev|intros [? ?]]. apply le_bind; [apply Hev|intros [? ?]]. apply le_refl. Qed.
  Lemma unary_mono : forall c x e f, le_res (unary ev c x e f) (unary ev' c x e f).
  Proof. intros. unfold unary. apply le_bind; [apply Hev|intros [? ?]]. apply le_refl. Qed.
  Lemma logical_mono : forall st c x e, le_res (logical ev st c x e) (logical ev' st c x e).
  Proof. intros. unfold logical. mono. Qed.
  Lemma eval_step_mono : forall c x e, le_res (eval_step h ev cf c x e) (eval_step h ev' cf' c x e).
  Proof.
    intros. unfold eval_step.
    destruct (x_type x); try apply le_refl; try apply binary_mono; try apply unary_mono; try apply logical_mono;
      try apply Hev;
      try (unfold match_location_path; apply le_bind; [apply loc_path_loop_mono|intros [? ?]; apply le_refl]);
      try (apply le_bind; [apply convert_mono|intros [? ?]; apply le_refl]);
      try (apply le_bind; [apply Hev|intros [? ?]]; apply le_refl).
    all: try solve
      [ apply le_bind; [apply eval_left_mono|intros [l e1]]; destruct (is_nil _); [apply le_refl|];
        destruct (negb _); [apply le_refl|]; apply le_bind; [apply path_loop_mono|intros [[a b] e2]; apply le_refl]
      | apply le_bind; [apply eval_left_mono|intros [l e1]]; destruct (is_nil _); [apply le_refl|apply map_loop_mono]
      | apply le_bind; [apply eval_args_mono|intros [l e1]]; apply evaluate_function_mono
      | apply le_bind; [apply Hev|intros [? ?]]; apply filter_by_predicate_mono
      | apply le_bind; [apply Hev|intros [? ?]]; apply apply_argument_mono
      | apply le_bind; [apply Hev|intros [? ?]]; destruct (negb _); [apply le_refl|];
        apply le_bind; [apply le_refl|intros []; apply Hev]
      | apply le_bind; [apply Hev|intros [? ?]]; apply for_loop_mono
      | apply le_bind; [apply Hev|intros [? ?]]; apply quant_loop_mono
      | apply le_bind; [apply Hev|intros [? ?]]; apply le_bind; [apply Hev|intros [? ?]; apply le_refl]
      | destruct (is_nil _); [apply le_refl|apply Hev] ].
  Qed.
End Mono.

Lemma eval_mono_step : forall h n,
  (forall c x e, le_res (eval h n c x e) (eval h (S n) c x e)) /\
  (forall f a c e, le_res (call_function h n f a c e) (call_function h (S n) f a c e)).
Proof.
  intro h. induction n as [|n [IH1 IH2]].
  - split; intros; left; reflexivity.
  - split; intros.
    + change (le_res (eval_step h (eval h n) (call_function h n) c x e)
                     (eval_step h (eval h (S n)) (call_function h (S n)) c x e)).
      apply eval_step_mono; auto.
    + change (le_res (call_function_body h (eval h n) (call_function h n) f a c e)
                     (call_function_body h (eval h (S n)) (call_function h (S n)) f a c e)).
      apply call_function_body_mono; auto.
Qed.
Lemma eval_mono : forall h n m c x e, n <= m -> le_res (eval h n c x e) (eval h m c x e).
Proof.
  intros h n m c x e H. induction H as [|m H IH]; [apply le_refl|].
  eapply le_trans; [exact IH|]. apply (eval_mono_step h m).
Qed.
(* an answer obtained with some amount of fuel is the answer with any larger amount *)
Lemma eval_fuel : forall h n m c x e r, eval h n c x e = r -> r <> Fuel -> n <= m -> eval h m c x e = r.
Proof. intros h n m c x e r E N L. subst r. apply le_eq; auto. apply eval_mono; auto. Qed.
Lemma eval_xpath_fuel : forall h n m i s r,
  eval_xpath n h i s = r -> r <> Fuel -> n <= m -> eval_xpath m h i s = r.
Proof.
  intros h n m i s r E N L. subst r. apply le_eq; auto. unfold eval_xpath.
  apply le_bind; [apply le_refl|]. intro x. unfold match_xpath.
  apply le_bind; [apply eval_mono; auto|]. intros [? ?]. apply le_refl.
Qed.

Lemma eval_S : forall h n c x e, eval h (S n) c x e = eval_step h (eval h n) (call_function h n) c x e.
Proof. reflexivity. Qed.
Lemma call_S : forall h n f a c e,
  call_function h (S n) f a c e = call_function_body h (eval h n) (call_function h n) f a c e.
Proof. reflexivity. Qed.

(* C17-C19, C49, C52: predicates, paths, name tests, calls of function items. *)
Require Import Bool List NArith ZArith Ascii String Lia Sorted.
Require Import Coq.Floats.SpecFloat.
From Verif Require Import Str StrFacts Sax Dom Axes SpecEdit SpecAxes AxesFacts PropAxes Lexer FuncTable Parser Num Item Func Types Eval EvalFacts
  SpecOper ItemFacts SpecTypes TypeFacts SpecFunc FuncFacts SpecEval EnvFacts PropDom PropEval.
Import ListNotations.
Open Scope nat_scope.

(* ------------------------------------------------------------------ one predicate *)
Lemma keeps_accepts : forall v p, keeps v p = true <-> accepts v p.
Proof.
  intros v p. unfold keeps, accepts. split.
  - intro H. destruct v as [|[] [|]]; try discriminate H; eauto.
    + apply Z.eqb_eq in H. subst. auto.
    + subst. auto.
  - intros [->|[[i ->]| ->]]; auto. apply Z.eqb_refl.
Qed.
Definition position_of (rv : bool) (j n : nat) : nat := if rv then backward j n else forward j n.
Lemma filter_loop_spec : forall h P rv n e vals s i, scoped P ->
  (forall j it, nth_error s j = Some it ->
     gives h [it] P (at_position e (position_of rv (S (i + j)) n) n) (vals (S (i + j)))) ->
  exists r N, selected (fun k => accepts (vals k) (position_of rv k n)) (S i) s r /\
    forall m, N <= m -> filter_loop (eval h m) P rv n i s e = Ok (r, e).
Proof.
  intros h P rv n e vals s. induction s as [|it s IH]; intros i S H.
  - exists [], 0. split; [constructor|reflexivity].
  - destruct (IH (Datatypes.S i) S) as [r [N [R E]]].
    { intros j x J. specialize (H (Datatypes.S j) x J). replace (i + Datatypes.S j) with (Datatypes.S i + j) in H by lia. exact H. }
    assert (G := H 0 it eq_refl). rewrite Nat.add_0_r in G. destruct (gives_eval _ _ _ _ _ S G) as [k K].
    assert (PE : position_of rv (Datatypes.S i) n = (if rv then n - i else i + 1)).
    { unfold position_of, backward, forward. destruct rv; lia. }
    exists (if keeps (vals (Datatypes.S i)) (position_of rv (Datatypes.S i) n) then it :: r else r), (Nat.max N k). split.
    + destruct (keeps _ _) eqn:A.
      * apply sel_take; [|exact R]. apply keeps_accepts. exact A.
      * apply sel_skip; [|exact R]. rewrite <- keeps_accepts. congruence.
    + intros m M. cbn [filter_loop]. rewrite <- PE. unfold set_pos_last at 1. unfold at_position in K. rewrite K by lia.
      cbn [bind]. unfold set_pos_last. cbn [e_vars e_pos e_last].
      replace (mkEnv (e_pos e) (e_last e) (e_vars e)) with e by (destruct e; reflexivity).
      rewrite E by lia. reflexivity.
Qed.
Lemma filter_by_predicate_spec : forall h P rv e vals s, scoped P -> P <> XNil ->
  predicate_values h P e (position_of rv) s vals ->
  exists r N, selected (fun k => accepts (vals k) (position_of rv k (List.length s))) 1 s r /\
    forall m, N <= m -> filter_by_predicate (eval h m) s P rv e = Ok (r, e).
Proof.
  intros h P rv e vals s S NP H. destruct (filter_loop_spec h P rv (List.length s) e vals s 0 S) as [r [N [R E]]].
  - intros j it J. exact (H j it J).
  - exists r, N. split; [exact R|]. intros m M. unfold filter_by_predicate.
    destruct P; [congruence|]. apply E. exact M.
Qed.
Lemma gives_not_nil : forall h c e v, ~ gives h c XNil e v.
Proof. intros h c e v [e' [_ [n H]]]. destruct n; discriminate H. Qed.
Lemma predicate_not_nil : forall h P e pos s vals, predicate_values h P e pos s vals -> s = [] \/ P <> XNil.
Proof.
  intros h P e pos s vals H. destruct s as [|it s]; [auto|]. right. intros ->.
  apply (gives_not_nil _ _ _ _ (H 0 it eq_refl)).
Qed.

(* A[P]: which items are kept *)
Theorem C18_predicate : forall h c nm n2 A P e s e1 vals, outcome h c A e (Ok (s, e1)) -> scoped P -> P <> XNil ->
  predicate_values h P e1 forward s vals ->
  exists r, outcome h c (filtered_by nm n2 A P) e (Ok (r, e1)) /\ selected (fun k => accepts (vals k) k) 1 s r.
Proof.
  intros h c nm n2 A P e s e1 vals HA S NP H.
  destruct (filter_by_predicate_spec h P false e1 vals s S NP H) as [r [N [R E]]]. exists r. split; [|exact R].
  destruct (outcome_eval _ _ _ _ _ HA) as [n K]. apply eval_outcome with (n := Datatypes.S (Nat.max n N)); [|discriminate].
  rewrite eval_S. unfold eval_step, filtered_by. cbn [x_type x_left x_right]. rewrite K by lia. cbn [bind]. apply E. lia.
Qed.
(* axis::test[P] *)
Definition predicate (rv : bool) (n2 : str) (P : xnode) (rest : xnode) : xnode :=
  XNode (if rv then X_PredicateRevTop else X_PredicateTop) n2 P rest.
Lemma axis_eval : forall h ev cf ax c test kind preds e, In ax axis_types ->
  eval_step h ev cf c (step ax test kind preds) e = match_location_path h ev c (step ax test kind preds) e.
Proof.
  intros h ev cf ax c test kind preds e H. unfold eval_step, step. cbn [x_type].
  unfold axis_types in H. repeat (destruct H as [<-|H]; [reflexivity|]). destruct H.
Qed.
Lemma to_nodeset_of : forall l, to_nodeset (seq_of_nodes l) = l.
Proof. unfold to_nodeset, seq_of_nodes. induction l as [|a l IH]; cbn [map flat_map app]; [reflexivity|]. rewrite IH. reflexivity. Qed.
Lemma selected_nodes : forall sel s k r, selected sel k (seq_of_nodes s) r -> seq_of_nodes (to_nodeset r) = r.
Proof.
  intros sel s. induction s as [|i s IH]; intros k r H; inversion H; subst; auto.
  - cbn [to_nodeset flat_map seq_of_nodes map app]. f_equal. eapply IH; eauto.
  - eapply IH; eauto.
Qed.
Lemma step_nodes : forall h i ax test kind e v, In ax axis_types ->
  gives h [XINode i] (step ax test kind XNil) e v <->
  exists l, axis_nodes h i (step ax test kind XNil) = Ok l /\ v = seq_of_nodes l.
Proof.
  intros h i ax test kind e v A. split.
  - intros [e' [_ [n H]]]. destruct n as [|n]; [discriminate|]. rewrite eval_S, axis_eval in H by auto.
    unfold match_location_path in H. cbn [to_nodeset flat_map app loc_path_loop] in H. unfold match_loc_step in H.
    destruct (axis_nodes h i _) as [l| | |]; cbn [bind] in H; try discriminate.
    cbn [step x_right is_nil bind] in H. rewrite to_nodeset_of, app_nil_r in H. exists l. split; congruence.
  - intros [l [E ->]]. exists e. split; [discriminate|]. exists 1. rewrite eval_S, axis_eval by auto.
    unfold match_location_path. cbn [to_nodeset flat_map app loc_path_loop]. unfold match_loc_step. rewrite E.
    cbn [bind step x_right is_nil]. rewrite to_nodeset_of, app_nil_r. reflexivity.
Qed.
Lemma axis_nodes_preds : forall h i ax test kind p q,
  axis_nodes h i (step ax test kind p) = axis_nodes h i (step ax test kind q).
Proof.
  intros. unfold axis_nodes, step, along, match_node_test, match_name_test. cbn [x_type x_name x_left]. destruct ax; reflexivity.
Qed.
Theorem C17_step_predicate : forall h i ax test kind rv n2 P e s vals, In ax axis_types ->
  gives h [XINode i] (step ax test kind XNil) e s -> scoped P -> P <> XNil ->
  predicate_values h P e (if rv : bool then backward else forward) s vals ->
  exists r, outcome h [XINode i] (step ax test kind (predicate rv n2 P XNil)) e (Ok (r, e)) /\
    selected (fun k => accepts (vals k) ((if rv : bool then backward else forward) k (List.length s))) 1 s r.
Proof.
  intros h i ax test kind rv n2 P e s vals A G S NP H. apply step_nodes in G; auto. destruct G as [l [E ->]].
  assert (H' : predicate_values h P e (position_of rv) (seq_of_nodes l) vals) by (destruct rv; exact H).
  destruct (filter_by_predicate_spec h P rv e vals (seq_of_nodes l) S NP H') as [r [N [R F]]].
  exists r. split; [|destruct rv; exact R].
  apply eval_outcome with (n := Datatypes.S N); [|discriminate]. rewrite eval_S, axis_eval by auto.
  unfold match_location_path. cbn [to_nodeset flat_map app loc_path_loop]. unfold match_loc_step.
  rewrite (axis_nodes_preds h i ax test kind _ XNil), E. cbn [bind step x_right].
  change (is_nil (predicate rv n2 P XNil)) with false. cbn iota.
  assert (FP : filter_by_predicates (eval h N) (predicate rv n2 P XNil) (seq_of_nodes l) e = Ok (r, e)).
  { unfold predicate; destruct rv; cbn [filter_by_predicates]; rewrite F by lia; reflexivity. }
  rewrite FP. cbn [bind]. rewrite app_nil_r, (selected_nodes _ _ _ _ R). reflexivity.
Qed.

(* ------------------------------------------------------------------ C17 *)
Lemma accepts_integer : forall z p, accepts [XIInteger z] p <-> z = Z.of_nat p.
Proof.
  intros z p. unfold accepts. split; [|intros ->; auto].
  intros [H|[[i H]|H]]; congruence.
Qed.
Lemma selected_ext : forall sel sel' s k r, (forall j, k <= j < k + List.length s -> (sel j <-> sel' j)) ->
  selected sel k s r -> selected sel' k s r.
Proof.
  intros sel sel' s. induction s as [|it s IH]; intros k r H R; inversion R; subst; cbn [List.length] in H.
  - constructor.
  - apply sel_take; [apply H; auto; lia|]. apply IH; auto. intros; apply H; lia.
  - apply sel_skip; [rewrite <- H; auto; lia|]. apply IH; auto. intros; apply H; lia.
Qed.
Lemma selected_none : forall sel s k r, (forall j, k <= j < k + List.length s -> ~ sel j) -> selected sel k s r -> r = [].
Proof.
  intros sel s. induction s as [|it s IH]; intros k r H R; inversion R; subst; cbn [List.length] in H; auto.
  - exfalso. apply (H k); auto; lia.
  - eapply IH; eauto. intros; apply H; lia.
Qed.
Lemma selected_one : forall s k q r, selected (fun j => j = q) k s r -> k <= q ->
  r = match nth_error s (q - k) with Some it => [it] | None => [] end.
Proof.
  induction s as [|it s IH]; intros k q r R L; inversion R; subst.
  - destruct (q - k); reflexivity.
  - rewrite Nat.sub_diag. cbn. f_equal. eapply selected_none; [|eassumption]. cbn. intros; lia.
  - replace (q - k) with (S (q - S k)) by lia. cbn. eapply IH; eauto. lia.
Qed.
Lemma nth_error_rev : forall (A : Type) (s : list A) j, j < List.length s ->
  nth_error (rev s) j = nth_error s (List.length s - S j).
Proof.
  intros A s j L. destruct s as [|d s]; [cbn in L; lia|].
  rewrite (nth_error_nth' (rev (d :: s)) d) by (rewrite rev_length; auto).
  rewrite (nth_error_nth' (d :: s) d) by lia. rewrite rev_nth by auto. reflexivity.
Qed.
Lemma selected_item_at : forall z s r rv,
  selected (fun k => z = Z.of_nat (position_of rv k (List.length s))) 1 s r ->
  item_at z (if rv then rev s else s) r.
Proof.
  intros z s r rv R.
  assert (LEN : List.length (if rv then rev s else s) = List.length s) by (destruct rv; [apply rev_length|auto]).
  destruct (Z.lt_decidable z 1) as [Z1|Z1]; [right|destruct (Z.lt_decidable (Z.of_nat (List.length s)) z) as [Z2|Z2]; [right|left]].
  - split; auto. eapply selected_none; [|exact R]. cbn beta. intros j J. unfold position_of, backward, forward. destruct rv; lia.
  - rewrite LEN. split; auto. eapply selected_none; [|exact R]. cbn beta. intros j J. unfold position_of, backward, forward. destruct rv; lia.
  - set (q := if rv then S (List.length s) - Z.to_nat z else Z.to_nat z).
    assert (R' : selected (fun j => j = q) 1 s r).
    { eapply selected_ext; [|exact R]. cbn beta. intros j J. unfold q, position_of, backward, forward. destruct rv; lia. }
    apply selected_one in R'; [|unfold q; destruct rv; lia].
    assert (NE : nth_error (if rv then rev s else s) (Z.to_nat z - 1) = nth_error s (q - 1)).
    { unfold q. destruct rv; auto. rewrite nth_error_rev by lia. f_equal. lia. }
    rewrite NE. destruct (nth_error s (q - 1)) as [it|] eqn:E.
    + exists it. repeat split; auto. lia.
    + apply nth_error_None in E. unfold q in E. destruct rv; lia.
Qed.
(* A[P], when P has the same integer value z for every item: the item number z *)
Theorem C17_postfix : forall h c nm n2 A P e s e1 z, outcome h c A e (Ok (s, e1)) -> scoped P -> P <> XNil ->
  predicate_values h P e1 forward s (fun _ => [XIInteger z]) ->
  exists r, outcome h c (filtered_by nm n2 A P) e (Ok (r, e1)) /\ item_at z s r.
Proof.
  intros h c nm n2 A P e s e1 z HA S NP H. destruct (C18_predicate h c nm n2 A P e s e1 _ HA S NP H) as [r [O R]].
  exists r. split; [exact O|]. apply (selected_item_at z s r false). eapply selected_ext; [|exact R].
  intros j J. cbn beta. rewrite accepts_integer. reflexivity.
Qed.
(* axis::test[P]: the z-th node of the step, counted from the end on a reverse axis *)
Theorem C17_position : forall h i ax test kind rv n2 P e s z, In ax axis_types ->
  gives h [XINode i] (step ax test kind XNil) e s -> scoped P -> P <> XNil ->
  predicate_values h P e (if rv : bool then backward else forward) s (fun _ => [XIInteger z]) ->
  exists r, outcome h [XINode i] (step ax test kind (predicate rv n2 P XNil)) e (Ok (r, e)) /\
            item_at z (if rv then rev s else s) r.
Proof.
  intros h i ax test kind rv n2 P e s z A G S NP H.
  destruct (C17_step_predicate h i ax test kind rv n2 P e s _ A G S NP H) as [r [O R]].
  exists r. split; [exact O|]. apply selected_item_at. eapply selected_ext; [|exact R].
  intros j J. cbn beta. rewrite accepts_integer. unfold position_of. destruct rv; reflexivity.
Qed.
Lemma literal_value : forall h P e pos s n, P = XNode X_IntegerLiteral n XNil XNil ->
  predicate_values h P e pos s (fun _ => [XIInteger (atoi n)]).
Proof. intros h P e pos s n -> j it J. eexists. split; [discriminate|]. exists 1. reflexivity. Qed.

(* ------------------------------------------------------------------ C18 *)
(* Boolean values, single nodes and the empty sequence are treated as the property says. *)
Theorem C18_boolean_partial : forall h c nm n2 A P e s e1 vals, outcome h c A e (Ok (s, e1)) -> scoped P -> P <> XNil ->
  predicate_values h P e1 forward s vals ->
  (forall k, vals k = [] \/ (exists b, vals k = [XIBoolean b]) \/ (exists i, vals k = [XINode i])) ->
  exists r, outcome h c (filtered_by nm n2 A P) e (Ok (r, e1)) /\ selected (fun k => ebv (vals k) true) 1 s r.
Proof.
  intros h c nm n2 A P e s e1 vals HA S NP H B. destruct (C18_predicate h c nm n2 A P e s e1 _ HA S NP H) as [r [O R]].
  exists r. split; [exact O|]. eapply selected_ext; [|exact R]. intros k K. cbn beta. unfold accepts.
  destruct (B k) as [->|[[b ->]|[i ->]]].
  - split; [intros [X|[[i X]|X]]; discriminate|intro X; inversion X].
  - split; [intros [X|[[i X]|X]]; try discriminate|intro X; inversion X; auto]. injection X as ->. constructor.
  - split; [intros _; constructor|eauto].
Qed.
(* Any other value - a string, a decimal, two nodes - drops the item, whatever its effective boolean value. *)
Definition two_b : heap := match new_document (lit "<r><a><b/><b/></a></r>") with Ok h => h | _ => [] end.
Theorem C18_refuted :
  (session two_b /\ xpath_gives two_b 0 (lit "/r/a[b]") (Ok []) /\
   xpath_gives two_b 0 (lit "/r/a/boolean(b)") (Ok [XIBoolean true])) /\
  (xpath_gives [] 0 (lit "(1, 2)['x']") (Ok []) /\ xpath_gives [] 0 (lit "boolean('x')") (Ok [XIBoolean true])).
Proof.
  split; split.
  - apply (ses_parse (lit "<r><a><b/><b/></a></r>")). vm_compute. reflexivity.
  - split; (split; [discriminate|exists 20; vm_compute; reflexivity]).
  - split; [discriminate|exists 20; vm_compute; reflexivity].
  - split; [discriminate|exists 20; vm_compute; reflexivity].
Qed.

(* Specification of the evaluation of expressions: truth, scope, predicates, paths. *)
Require Import Bool List NArith ZArith Ascii String.
Require Import Coq.Floats.SpecFloat.
From Verif Require Import Str Sax Dom Axes SpecEdit SpecAxes Lexer Parser Num Item Eval SpecOper SpecFunc.
Import ListNotations.
Open Scope nat_scope.

(* the effective boolean value (XPath 3.1, 2.4.3) *)
Definition is_zero_or_nan (f : f64) : Prop := (exists s, f = S754_zero s) \/ f = S754_nan.
Inductive ebv : xseq -> bool -> Prop :=
| ebv_empty : ebv [] false
| ebv_node : forall i s, ebv (XINode i :: s) true
| ebv_bool : forall b, ebv [XIBoolean b] b
| ebv_string : forall s, s <> [] -> ebv [XIString s] true
| ebv_string0 : ebv [XIString []] false
| ebv_integer : forall z, z <> 0%Z -> ebv [XIInteger z] true
| ebv_integer0 : ebv [XIInteger 0] false
| ebv_decimal : forall f, ~ is_zero_or_nan f -> ebv [XIDecimal f] true
| ebv_decimal0 : forall f, is_zero_or_nan f -> ebv [XIDecimal f] false
| ebv_double : forall f, ~ is_zero_or_nan f -> ebv [XIDouble f] true
| ebv_double0 : forall f, is_zero_or_nan f -> ebv [XIDouble f] false.

(* the evaluation of [x] gives the value [v] *)
Definition gives (h : heap) (c : xseq) (x : xnode) (e : env) (v : xseq) : Prop :=
  exists e', outcome h c x e (Ok (v, e')).

(* Expressions that call no function items: no $f(...), no for-each, no filter ... *)
Definition calls_items (ty : xtype) (n : str) : bool :=
  xtype_eqb ty X_ApplyArgument ||
  (xtype_eqb ty X_FunctionCall && (str_eqb n (lit "fn:for-each") || str_eqb n (lit "fn:filter"))).
(* ... and, besides, no some and no every *)
Fixpoint scoped (x : xnode) : Prop :=
  match x with
  | XNil => True
  | XNode ty n l r =>
      calls_items ty n = false /\ ty <> X_SomeVarBind /\ ty <> X_EveryVarBind /\ scoped l /\ scoped r
  end.

(* [selected sel k s r]: r consists of the items of s, at the positions k, k+1, ..., whose position satisfies sel *)
Inductive selected (sel : nat -> Prop) : nat -> xseq -> xseq -> Prop :=
| sel_nil : forall k, selected sel k [] []
| sel_take : forall k it s r, sel k -> selected sel (S k) s r -> selected sel k (it :: s) (it :: r)
| sel_skip : forall k it s r, ~ sel k -> selected sel (S k) s r -> selected sel k (it :: s) r.
(* the environment in which a predicate is evaluated for position [k] of [n] *)
Definition at_position (e : env) (k n : nat) : env := mkEnv k n (e_vars e).

(* A[P] *)
Definition filtered_by (nm n2 : str) (A P : xnode) : xnode :=
  XNode X_ApplyPredicate nm A (XNode X_PredicateTop n2 P XNil).
(* the values of the predicate [P] for the items of [s]; the item number j (from 1) of n has the position [pos j n] *)
Definition predicate_values (h : heap) (P : xnode) (e : env) (pos : nat -> nat -> nat) (s : xseq)
    (vals : nat -> xseq) : Prop :=
  forall j it, nth_error s j = Some it ->
    gives h [it] P (at_position e (pos (S j) (List.length s)) (List.length s)) (vals (S j)).
Definition forward (j n : nat) : nat := j.
Definition backward (j n : nat) : nat := S n - j.

(* a step axis::test with the predicates [preds] (a chain of predicate nodes) *)
Definition step (axis : xtype) (test : str) (kind preds : xnode) : xnode := XNode axis test kind preds.
Definition axis_types : list xtype :=
  [X_AxisAncestor; X_AxisAncestorOrSelf; X_AxisAttribute; X_AxisChild; X_AxisDescendant; X_AxisDescendantOrSelf;
   X_AxisFollowing; X_AxisFollowingSibling; X_AxisParent; X_AxisPreceding; X_AxisPrecedingSibling; X_AxisSelf].
Definition reverse_axes : list xtype :=
  [X_AxisParent; X_AxisAncestor; X_AxisAncestorOrSelf; X_AxisPreceding; X_AxisPrecedingSibling].

(* name tests *)
Definition principal (axis : xtype) : node_type := match axis with X_AxisAttribute => Attribute | _ => Element end.
Inductive name_matches : str -> str -> Prop :=
| nm_same : forall n, name_matches n n
| nm_any : forall n, name_matches (lit "*") n
| nm_prefix : forall p l, ~ In 58%N p -> name_matches (p ++ lit ":*") (p ++ lit ":" ++ l).

(* what the program does with the value [v] of a predicate for the position [p] *)
Definition accepts (v : xseq) (p : nat) : Prop :=
  v = [XIInteger (Z.of_nat p)] \/ (exists i, v = [XINode i]) \/ v = [XIBoolean true].
(* [r] is the item number [z] of [s], or empty if there is none *)
Definition item_at (z : Z) (s r : xseq) : Prop :=
  (exists it, (1 <= z)%Z /\ nth_error s (Z.to_nat z - 1) = Some it /\ r = [it]) \/
  ((z < 1 \/ Z.of_nat (List.length s) < z)%Z /\ r = []).

(* function items: function($n1 as T1, ...) as R { body } and their calls *)
Fixpoint param_chain (ps : list (str * xnode)) : xnode :=
  match ps with
  | [] => XNil
  | (n, t) :: r => XNode X_Param n t (param_chain r)
  end.
Definition inline_function (nm : str) (ps : list (str * xnode)) (R body : xnode) : xnode :=
  XNode X_InlineFunction nm body (XNode X_ReturnType [] R (param_chain ps)).
Definition call_with (F : xnode) (args : list xnode) : xnode :=
  XNode X_ApplyArgument [] F (XNode X_ArgumentListTop [] (arg_chain args) XNil).
(* `$x instance of T`, when $x holds [v], ends with [o] *)
Definition type_test (h : heap) (v : xseq) (T : xnode) (o : res bool) : Prop :=
  let e := mkEnv 0 0 [(lit "x", v)] in
  outcome h [] (XNode X_OperatorInstanceOf [] (XNode X_VarRef (lit "x") XNil XNil) T) e
    (do b <- o; Ok ([XIBoolean b], e)).
(* the environment with the parameters bound to the arguments, the last one the newest *)
Definition with_params (e : env) (ps : list (str * xnode)) (vs : list xseq) : env :=
  fold_left (fun e p => set_var e (fst p) (snd p)) (combine (map fst ps) vs) e.

(* the nodes [x] on the axis [ax] of node [n]; [order]: the nodes of the document in document order *)
Definition on_axis (h : heap) (order : list nat) (ax : xtype) (x n : nat) : Prop :=
  match ax with
  | X_AxisAncestor => ancestor h x n
  | X_AxisAncestorOrSelf => x = n \/ ancestor h x n
  | X_AxisAttribute => In x (attributes h n)
  | X_AxisChild => In x (children h n)
  | X_AxisDescendant => descendant h x n
  | X_AxisDescendantOrSelf => x = n \/ descendant h x n
  | X_AxisFollowing => following_of h order x n
  | X_AxisFollowingSibling => following_sibling_of h x n
  | X_AxisParent => parent h n = Some x
  | X_AxisPreceding => preceding_of h order x n
  | X_AxisPrecedingSibling => preceding_sibling_of h x n
  | X_AxisSelf => x = n
  | _ => False
  end.

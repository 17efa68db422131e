(* Specification of the function library: what the call name(v1, ..., vn) gives. *)
Require Import Bool List NArith ZArith Ascii String.
From Verif Require Import Str Sax Dom Lexer Parser Num Item Eval SpecOper.
Import ListNotations.
Open Scope nat_scope.

(* the call name($a, $aa, ...) when the variables hold the values [vs] *)
Definition var_name (k : nat) : str := repeat 97%N (S k).
Fixpoint var_args (k n : nat) : xnode :=
  match n with
  | O => XNil
  | S n' => XNode X_ArgumentTop [] (XNode X_VarRef (var_name k) XNil XNil) (var_args (S k) n')
  end.
Fixpoint bindings (k : nat) (vs : list xseq) : list (str * xseq) :=
  match vs with
  | [] => []
  | v :: r => (var_name k, v) :: bindings (S k) r
  end.
(* [fn_value h c name vs o]: with context [c], the call of [name] with the argument values [vs] ends with [o] *)
Definition fn_value (h : heap) (c : xseq) (name : str) (vs : list xseq) (o : res xseq) : Prop :=
  let e := mkEnv 0 0 (bindings 0 vs) in
  outcome h c (XNode X_FunctionCall name XNil (var_args 0 (List.length vs))) e (do v <- o; Ok (v, e)).

(* argument expressions and the chain of argument nodes the parser builds for them *)
Fixpoint arg_chain (xs : list xnode) : xnode :=
  match xs with
  | [] => XNil
  | x :: r => XNode X_ArgumentTop [] x (arg_chain r)
  end.
(* the expressions, evaluated from left to right *)
Inductive evaluated (h : heap) (c : xseq) : list xnode -> env -> list xseq -> env -> Prop :=
| ev_nil : forall e, evaluated h c [] e [] e
| ev_cons : forall x xs e v e1 vs e2, outcome h c x e (Ok (v, e1)) -> evaluated h c xs e1 vs e2 ->
    evaluated h c (x :: xs) e (v :: vs) e2.
(* these look at the environment (position, size) or call functions *)
Definition contextual : list str := [lit "fn:position"; lit "fn:last"; lit "fn:for-each"; lit "fn:filter"].

(* a string argument; the empty sequence counts as the empty string *)
Definition string_arg (v : xseq) (s : str) : Prop := v = [XIString s] \/ (v = [] /\ s = []).

(* ---- C30: translate ---- *)
Definition first_at (c : char) (l : str) (i : nat) : Prop :=
  nth_error l i = Some c /\ forall j, j < i -> nth_error l j <> Some c.
Inductive translates (from to : str) : str -> str -> Prop :=
| tr_nil : translates from to [] []
| tr_map : forall c s r i d, first_at c from i -> nth_error to i = Some d -> translates from to s r ->
    translates from to (c :: s) (d :: r)
| tr_del : forall c s r i, first_at c from i -> nth_error to i = None -> translates from to s r ->
    translates from to (c :: s) r
| tr_keep : forall c s r, ~ In c from -> translates from to s r -> translates from to (c :: s) (c :: r).

(* ---- C31: the words of a string ---- *)
Definition blank (c : char) : Prop := In c [9; 10; 13; 32]%N.
Inductive words : str -> list str -> Prop :=
| words_nil : forall sp, Forall blank sp -> words sp []
| words_cons : forall sp w rest ws, Forall blank sp -> w <> [] -> Forall (fun c => ~ blank c) w ->
    (rest = [] \/ exists c r, rest = c :: r /\ blank c) -> words rest ws -> words (sp ++ w ++ rest) (w :: ws).
Fixpoint sep_by (sep : str) (l : list str) : str :=
  match l with
  | [] => []
  | [w] => w
  | w :: r => w ++ sep ++ sep_by sep r
  end.

(* ---- C36: flattening ---- *)
Definition is_array (it : xitem) : Prop := exists a, it = XIArray a.
Inductive flattens : xseq -> xseq -> Prop :=
| fl_nil : flattens [] []
| fl_item : forall it s r, ~ is_array it -> flattens s r -> flattens (it :: s) (it :: r)
| fl_array : forall a s r1 r2, flattens (List.concat a) r1 -> flattens s r2 -> flattens (XIArray a :: s) (r1 ++ r2).

(* ---- C48: the nearest xml:lang ---- *)
Inductive nearest_lang (h : heap) : nat -> str -> Prop :=
| nl_here : forall i v, attribute_value h i (lit "xml:lang") = Some v -> nearest_lang h i v
| nl_up : forall i p v, attribute_value h i (lit "xml:lang") = None -> n_parent (Dom.get h i) = Some p ->
    nearest_lang h p v -> nearest_lang h i v.

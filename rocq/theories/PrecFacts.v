(* Lemmas for operator precedence: the parser reads back the printed form of every expression. *)
Require Import Bool List NArith ZArith Ascii String Lia.
From Verif Require Import Str StrFacts Chars Lexer FuncTable Parser ParserFacts ParserMono SpecLex SpecExpr.
Import ListNotations.
Open Scope N_scope.
Notation len := (@List.length token).

Definition ofor (P : expr -> Prop) (x : option expr) : Prop := match x with Some e => P e | None => True end.
Section ExprInd.
  Variable P : expr -> Prop.
  Hypothesis Hlit : forall k s, P (ELit k s).
  Hypothesis Hvar : forall n, P (EVar n).
  Hypothesis Hdot : P EDot.
  Hypothesis Hempty : P EEmpty.
  Hypothesis Hcall : forall f args, Forall P args -> P (ECall f args).
  Hypothesis Hbin : forall o a b, P a -> P b -> P (EBin o a b).
  Hypothesis Hsign : forall m a, P a -> P (ESign m a).
  Hypothesis Htype : forall o a n, P a -> P (EType o a n).
  Hypothesis Hcast : forall c a n, P a -> P (ECast c a n).
  Hypothesis Hif : forall c a b, P c -> P a -> P b -> P (EIf c a b).
  Hypothesis Hbind : forall q v e b, P e -> P b -> P (EBind q v e b).
  Hypothesis Hlet : forall v e b, P e -> P b -> P (ELet v e b).
  Hypothesis Hstep : forall f t ps, Forall P ps -> P (EStep f t ps).
  Hypothesis Hparent : P EParent.
  Hypothesis Hfilter : forall e p, P e -> P p -> P (EFilter e p).
  Hypothesis Hdyn : forall e args, P e -> Forall P args -> P (EDyn e args).
  Hypothesis Hroot : P ERoot.
  Hypothesis Hpath : forall s a rest, P a -> Forall (fun x => P (snd x)) rest -> P (EPath s a rest).
  Hypothesis Hsquare : forall es, Forall P es -> P (ESquare es).
  Hypothesis Hcurly : forall e, P e -> P (ECurly e).
  Hypothesis Hmap : forall es, Forall (fun x => P (fst x) /\ P (snd x)) es -> P (EMap es).
  Hypothesis Hkey : forall k, P (EKey k).
  Hypothesis Hkeyof : forall k, P k -> P (EKeyOf k).
  Hypothesis Hlook : forall e k, P e -> P (ELook e k).
  Hypothesis Hlookof : forall e k, P e -> P k -> P (ELookOf e k).
  Hypothesis Href : forall f d, P (ERef f d).
  Hypothesis Hfun : forall ps b, P b -> P (EFun ps b).
  Hypothesis Harrow : forall v a f args, P a -> Forall P args -> P (EArrow v a f args).
  Hypothesis Hpcall : forall p f args, Forall P args -> P (EPCall p f args).
  Hypothesis Hpart : forall f args, Forall (ofor P) args -> P (EPart f args).
  Hypothesis Hinst : forall t a q, P a -> P (EInst t a q).
  Hypothesis Hmulti : forall q bs b, Forall (fun x => P (snd x)) bs -> P b -> P (EMulti q bs b).
  Fixpoint expr_ind2 (e : expr) : P e :=
    let all := fix all l : Forall P l := match l with [] => Forall_nil P | a :: r => Forall_cons a (expr_ind2 a) (all r) end in
    match e with
    | ELit k s => Hlit k s
    | EVar n => Hvar n
    | EDot => Hdot
    | EEmpty => Hempty
    | ECall f args => Hcall f args (all args)
    | EBin o a b => Hbin o a b (expr_ind2 a) (expr_ind2 b)
    | ESign m a => Hsign m a (expr_ind2 a)
    | EType o a n => Htype o a n (expr_ind2 a)
    | ECast c a n => Hcast c a n (expr_ind2 a)
    | EIf c a b => Hif c a b (expr_ind2 c) (expr_ind2 a) (expr_ind2 b)
    | EBind q v e b => Hbind q v e b (expr_ind2 e) (expr_ind2 b)
    | ELet v e b => Hlet v e b (expr_ind2 e) (expr_ind2 b)
    | EStep f t ps => Hstep f t ps (all ps)
    | EParent => Hparent
    | EFilter e p => Hfilter e p (expr_ind2 e) (expr_ind2 p)
    | EDyn e args => Hdyn e args (expr_ind2 e) (all args)
    | ERoot => Hroot
    | EPath s a rest => Hpath s a rest (expr_ind2 a)
        ((fix alls (l : list (bool * expr)) : Forall (fun x => P (snd x)) l :=
            match l with [] => Forall_nil _ | x :: r => Forall_cons x (expr_ind2 (snd x)) (alls r) end) rest)
    | ESquare es => Hsquare es (all es)
    | ECurly e => Hcurly e (expr_ind2 e)
    | EMap es => Hmap es
        ((fix alls (l : list (expr * expr)) : Forall (fun x => P (fst x) /\ P (snd x)) l :=
            match l with [] => Forall_nil _ | x :: r => Forall_cons x (conj (expr_ind2 (fst x)) (expr_ind2 (snd x))) (alls r) end) es)
    | EKey k => Hkey k
    | EKeyOf k => Hkeyof k (expr_ind2 k)
    | ELook e k => Hlook e k (expr_ind2 e)
    | ELookOf e k => Hlookof e k (expr_ind2 e) (expr_ind2 k)
    | ERef f d => Href f d
    | EFun ps b => Hfun ps b (expr_ind2 b)
    | EArrow v a f args => Harrow v a f args (expr_ind2 a) (all args)
    | EPCall p f args => Hpcall p f args (all args)
    | EPart f args => Hpart f args
        ((fix alls (l : list (option expr)) : Forall (ofor P) l :=
            match l with
            | [] => Forall_nil _
            | x :: r => @Forall_cons _ (ofor P) x r (match x as y return ofor P y with Some e => expr_ind2 e | None => I end) (alls r)
            end) args)
    | EInst t a q => Hinst t a q (expr_ind2 a)
    | EMulti q bs b => Hmulti q bs b
        ((fix alls (l : list (str * expr)) : Forall (fun x => P (snd x)) l :=
            match l with [] => Forall_nil _ | x :: r => Forall_cons x (expr_ind2 (snd x)) (alls r) end) bs) (expr_ind2 b)
    end.
End ExprInd.

Definition S1 : parser := parse_expr_single.
Definition plevel (k : nat) : parser :=
  match k with
  | 0 => parse_expr_with S1
  | 1 => S1
  | 2 => parse_or_expr S1
  | 3 => parse_and_expr S1
  | 4 => parse_comparison_expr S1
  | 5 => parse_string_concat_expr S1
  | 6 => parse_range_expr S1
  | 7 => parse_additive_expr S1
  | 8 => parse_multiplicative_expr S1
  | 9 => parse_union_expr S1
  | 10 => parse_intersect_except_expr S1
  | 11 => parse_instanceof_expr S1
  | 12 => parse_treat_expr S1
  | 13 => parse_castable_expr S1
  | 14 => parse_cast_expr S1
  | 15 => parse_arrow_expr S1
  | 16 => parse_unary_expr S1
  | 17 => parse_value_expr S1
  | 18 => parse_path_expr S1
  | 19 => parse_step_expr S1
  | _ => parse_postfix_expr S1
  end%nat.

(* 1 + the level of the operator the token is; 0 for a token that never continues an expression *)
Definition oplev (ty : ttype) : nat :=
  match ty with
  | T_Comma => 1
  | T_Or => 3
  | T_And => 4
  | T_ValueEQ | T_ValueNE | T_ValueLT | T_ValueGT | T_ValueLE | T_ValueGE
  | T_GeneralEQ | T_GeneralNE | T_GeneralLT | T_GeneralGT | T_GeneralLE | T_GeneralGE
  | T_IsSameNode | T_NodeBefore | T_NodeAfter => 5
  | T_OperatorConcat => 6
  | T_To => 7
  | T_Plus | T_Minus => 8
  | T_Asterisk | T_Div | T_IDiv | T_Mod => 9
  | T_Union => 10
  | T_Intersect | T_Except => 11
  | T_InstanceOf => 12
  | T_TreatAs => 13
  | T_CastableAs => 14
  | T_CastAs => 15
  | T_Arrow => 16
  | T_OperatorMap => 18
  | T_Slash | T_SlashSlash => 19
  | T_LeftBracket | T_LeftParen | T_Question => 21
  | T_Colon | T_ColonAsterisk | T_Sharp => 22
  | _ => 0
  end%nat.
Definition fstok (k : nat) (ty : ttype) : bool :=
  match ty with
  | T_StringLiteral | T_IntegerLiteral | T_DecimalLiteral | T_DoubleLiteral | T_Dollar | T_Dot | T_LeftParen
  | T_Name | T_LeftBracket | T_Array | T_Map | T_Question | T_Function => true
  | T_AxisName | T_At | T_Asterisk | T_AnyKindTest | T_TextTest | T_CommentTest | T_DotDot | T_AsteriskColon
  | T_PITest | T_ElementTest | T_AttributeTest | T_DocumentTest | T_NamespaceNodeTest => Nat.leb k 19
  | T_Slash | T_SlashSlash => Nat.leb k 18
  | T_Minus | T_Plus => Nat.leb k 16
  | T_If | T_For | T_Let | T_Some | T_Every => Nat.leb k 1
  | _ => false
  end.
Lemma fstok_mono : forall k k' ty, (k <= k')%nat -> fstok k' ty = true -> fstok k ty = true.
Proof.
  intros k k' ty L H. destruct ty; cbn [fstok] in *; auto; try discriminate; apply Nat.leb_le in H; apply Nat.leb_le; lia.
Qed.

Ltac nat20 k := let H := fresh in
  assert (H : In k (seq 0 20)) by (apply in_seq; lia); cbn [seq In] in H; repeat (destruct H as [<-|H]); [..|destruct H].
Lemma plevel_good : forall k n, good n (plevel k).
Proof.
  assert (E : forall n, good n S1) by (intros; apply expr_single_good).
  intros k n. apply good_le with (n := S n); [lia|].
  assert (L : (k < 20 \/ 20 <= k)%nat) by lia. destruct L as [L|L].
  - nat20 k; cbn [plevel].
    all: first
    [ apply (good_le n); [lia|]; apply expr_with_good; apply E | apply E | apply or_expr_good; apply E | apply path_good; apply E
    | apply step_expr_good; apply E | apply value_good; apply E | apply unary_good; apply E | apply arrow_good; apply E
    | unfold parse_and_expr, parse_comparison_expr, parse_string_concat_expr, parse_range_expr,
       parse_additive_expr, parse_multiplicative_expr, parse_union_expr, parse_intersect_except_expr,
       parse_instanceof_expr, parse_treat_expr, parse_castable_expr, parse_cast_expr;
     repeat first [apply bin_op_sub_good; [|reflexivity] | apply with_type_good];
     try apply arrow_good; try apply E; try apply sequence_type_good; try apply single_type_good ].
  - replace (plevel k) with (plevel 20); [apply postfix_expr_good; apply E|].
    do 20 (destruct k as [|k]; [lia|]). reflexivity.
Qed.

Lemma or_else_nil : forall p q t, p t = Ok (XNil, t) -> or_else p q t = q t.
Proof. intros p q t H. unfold or_else. rewrite H. reflexivity. Qed.
Lemma or_else_some : forall (p q : parser) t x r, p t = Ok (x, r) -> x <> XNil -> or_else p q t = Ok (x, r).
Proof. intros p q t x r H N. unfold or_else. rewrite H. destruct x; [congruence|reflexivity]. Qed.

Ltac ty_cases H := unfold next_is; match type of H with context [next_type ?r] => destruct (next_type r); cbn in H; try lia; try discriminate end.

Lemma bin_none : forall sub tbl once t x r, sub t = Ok (x, r) -> assoc_tt (next_type r) tbl = None ->
  parse_bin_op_sub sub tbl once t = Ok (x, r).
Proof. intros. unfold parse_bin_op_sub. rewrite H. cbn [bind bin_op_loop]. rewrite H0. reflexivity. Qed.
Lemma type_none : forall sub ty tp x t e r, sub t = Ok (e, r) -> next_is ty r = false -> with_type sub ty tp x t = Ok (e, r).
Proof. intros. unfold with_type. rewrite H. cbn [bind]. rewrite H0. reflexivity. Qed.

Lemma lift : forall k t x r, (k < 20)%nat -> plevel (S k) t = Ok (x, r) -> x <> XNil ->
  fstok (S k) (next_type t) = true -> oplev (next_type r) <> S k -> plevel k t = Ok (x, r).
Proof.
  intros k t x r L E N F O. nat20 k; clear L; cbn [plevel] in *.
  all: try (apply bin_none; [exact E|ty_cases O; reflexivity]).
  all: try (apply type_none; [exact E|ty_cases O; reflexivity]).
  - (* 1 *) unfold S1. rewrite parse_expr_single_unfold. unfold parse_single_body, parse_for_expr, parse_let_expr,
      parse_quantified_expr, parse_if_expr, parse_binding_expr.
    repeat (rewrite or_else_nil; [|first [ty_cases F; reflexivity
      | rewrite or_else_nil; ty_cases F; reflexivity]]). exact E.
  - (* 15 *) unfold parse_arrow_expr. rewrite E. cbn [bind arrow_loop]. ty_cases O; reflexivity.
  - (* 16 *) unfold parse_unary_expr. ty_cases F; exact E.
  - (* 18 *) unfold parse_path_expr, parse_relative_path_expr. rewrite E. cbn [bind].
    destruct x; [congruence|]. cbn [is_nil relative_loop].
    assert (K : match next_type r with T_Slash | T_SlashSlash => False | _ => True end) by (ty_cases O; exact I).
    ty_cases F; destruct (next_type r); try reflexivity; destruct K.
  - (* 19 *) apply or_else_some; auto.
Qed.

Lemma lift_to : forall k k' t x r, (k <= k')%nat -> (k' <= 20)%nat -> plevel k' t = Ok (x, r) -> x <> XNil ->
  fstok k' (next_type t) = true -> (oplev (next_type r) <= k \/ k' < oplev (next_type r))%nat -> plevel k t = Ok (x, r).
Proof.
  intros k k' t x r L. induction L as [|k' L IH]; intros B E N F O; auto.
  apply IH; auto; [lia| |apply fstok_mono with (k' := S k'); auto|lia]. apply lift; auto; lia.
Qed.

(* ---- left-associative levels ---- *)
Definition ltbl (k : nat) : list (ttype * xtype) :=
  match k with
  | 0 => tbl_expr | 2 => tbl_or | 3 => tbl_and | 5 => tbl_concat | 7 => tbl_additive | 8 => tbl_multiplicative
  | 9 => tbl_union | 10 => tbl_intersect | 17 => tbl_value | _ => []
  end%nat.
Definition leftk (k : nat) : bool := existsb (Nat.eqb k) [0; 2; 3; 5; 7; 8; 9; 10; 17]%nat.
Lemma leftk_cases : forall k, leftk k = true -> In k [0; 2; 3; 5; 7; 8; 9; 10; 17]%nat.
Proof. intros k H. apply existsb_exists in H. destruct H as [x [H E]]. apply Nat.eqb_eq in E. subst. auto. Qed.
Lemma plevel_left : forall k, leftk k = true -> plevel k = parse_bin_op_sub (plevel (S k)) (ltbl k) false.
Proof.
  intros k H. apply leftk_cases in H. repeat (destruct H as [<-|H]; [reflexivity|]). destruct H.
Qed.
Inductive loopto (k : nat) : xnode -> toks -> xnode -> toks -> Prop :=
| lt_refl : forall x t, loopto k x t x t
| lt_step : forall x t ty y t1, assoc_tt (next_type t) (ltbl k) = Some ty -> plevel (S k) (adv t) = Ok (y, t1) ->
    forall x0 t0, loopto k x0 t0 x t -> loopto k x0 t0 (XNode ty (t_name (nxt t)) x y) t1.
Definition runs (k : nat) (t : toks) (x : xnode) (r : toks) : Prop :=
  exists x1 t1, plevel (S k) t = Ok (x1, t1) /\ loopto k x1 t1 x r.
Lemma tbl_not_eof : forall k ty, assoc_tt T_EOF (ltbl k) = Some ty -> False.
Proof. intros k ty H. do 18 (destruct k as [|k]; [discriminate H|]). discriminate H. Qed.
Lemma loopto_loop : forall k x t x' t', loopto k x t x' t' ->
  (len t' <= len t)%nat /\ forall f, (len t < f)%nat -> exists f', (len t' < f')%nat /\
    bin_op_loop f (plevel (S k)) (ltbl k) false x t = bin_op_loop f' (plevel (S k)) (ltbl k) false x' t'.
Proof.
  intros k x t x' t' H. induction H as [|x t ty y t1 A E x0 t0 H [L IH]]; [split; eauto|].
  assert (K : (len (adv t) < len t)%nat) by (apply next_type_adv; intro Q; rewrite Q in A; eapply tbl_not_eof; eauto).
  assert (G := plevel_good (S k) (len t) (adv t) K). rewrite E in G. cbn in G. destruct G as [G _]. cbn in G.
  split; [lia|]. intros f Hf. destruct (IH f Hf) as [f' [L' Q]]. rewrite Q. destruct f' as [|f']; [lia|].
  cbn [bin_op_loop]. rewrite A, E. cbn [bind]. exists f'. split; [lia|auto].
Qed.
Lemma runs_parse : forall k t x r, leftk k = true -> runs k t x r -> (oplev (next_type r) <= k)%nat ->
  plevel k t = Ok (x, r).
Proof.
  intros k t x r L [x1 [t1 [E H]]] O. rewrite (plevel_left k L). unfold parse_bin_op_sub. rewrite E. cbn [bind].
  destruct (loopto_loop _ _ _ _ _ H) as [_ Q]. destruct (Q (S (len t1))) as [f [Lf ->]]; [lia|].
  destruct f as [|f]; [lia|]. cbn [bin_op_loop].
  assert (N : assoc_tt (next_type r) (ltbl k) = None).
  { apply leftk_cases in L. repeat (destruct L as [<-|L]; [ty_cases O; reflexivity|]). destruct L. }
  rewrite N. reflexivity.
Qed.

(* ---- the tree for an expression ---- *)
Definition keyt (k : lookup) : xnode :=
  match k with
  | K_name n => XNode X_UnaryLookupByExpr [] (leaf X_StringLiteral n) XNil
  | K_number d => XNode X_UnaryLookupByExpr [] (leaf X_IntegerLiteral d) XNil
  | K_all => leaf X_UnaryLookupByWildcard (lit "*")
  end.
Fixpoint tr (e : expr) : xnode :=
  let sub k e' := if Nat.ltb (level e') k then XNode X_ParenthesizedExpr [] (tr e') XNil else tr e' in
  match e with
  | ELit k s => leaf (lnode k) s
  | EVar n => leaf X_VarRef n
  | EDot => leaf X_ContextItem (lit ".")
  | EEmpty => XNode X_ParenthesizedExpr [] XNil XNil
  | ECall f args => XNode X_FunctionCall (lit "fn:" ++ f) XNil
      ((fix argt l := match l with [] => XNil | a :: r => XNode X_ArgumentTop [] (sub 1%nat a) (argt r) end) args)
  | EBin o a b => XNode (bnode o) (t_name (pfinal (bop o)))
                    (sub (if nonassoc o then S (blevel o) else blevel o) a) (sub (S (blevel o)) b)
  | ESign m a => XNode (if m then X_OperatorUnaryMinus else X_OperatorUnaryPlus) (if m then lit "-" else lit "+")
                   XNil (sub 17%nat a)
  | EType o a n => XNode (tnode o) [] (sub (S (tlevel o)) a) (typetree o n)
  | ECast c a n => XNode (if c then X_OperatorCastableAs else X_OperatorCastAs) []
                     (sub (if c then 14 else 15)%nat a)
                     (XNode X_SingleType [] (leaf X_TypeName (lit "xs:" ++ n)) XNil)
  | EIf c a b => XNode X_IfExpr (lit "if_expr") (sub 0%nat c)
                   (XNode X_IfThenElse (lit "if_then_else") (sub 1%nat a) (sub 1%nat b))
  | EBind q v e b => XNode (qnode q) (match q with Q_for => lit "for" | Q_some => lit "some" | Q_every => lit "every" end)
                       XNil (XNode (qbind q) v (sub 1%nat e) (sub 1%nat b))
  | ELet v e b => XNode X_LetExpr (lit "let") XNil (XNode X_LetVarBind v (sub 1%nat e) (sub 1%nat b))
  | EStep f t ps => XNode (anode (form_axis f)) (test_name t) (test_tree t)
      ((fix predt l := match l with
                       | [] => XNil
                       | p :: r => XNode (if reverse_axis (form_axis f) then X_PredicateRevTop else X_PredicateTop)
                                     (lit "Predicate") (sub 0%nat p) (predt r)
                       end) ps)
  | EParent => leaf X_AxisParent (lit "node()")
  | EFilter a p => XNode X_ApplyPredicate [] (sub 20%nat a) (XNode X_PredicateTop [] (sub 0%nat p) XNil)
  | EDyn a args => XNode X_ApplyArgument [] (sub 20%nat a) (XNode X_ArgumentListTop []
      ((fix argt l := match l with [] => XNil | a :: r => XNode X_ArgumentTop [] (sub 1%nat a) (argt r) end) args) XNil)
  | ERoot => XNode X_ParenthesizedExpr []
      (XNode X_OperatorPath (lit "parse_path_expr Slash") (leaf X_AxisRoot (lit "node()")) XNil) XNil
  | EPath s a rest =>
      let tail := (fix tailt (l : list (bool * expr)) := match l with
                       | [] => XNil
                       | (false, e) :: r => XNode X_OperatorPath (lit "parse_relative_path_expr Slash") (sub 19%nat e) (tailt r)
                       | (true, e) :: r => XNode X_OperatorPath (lit "parse_relative_path_expr SlashSlash 1") any_depth
                                     (XNode X_OperatorPath (lit "parse_relative_path_expr SlashSlash 2") (sub 19%nat e) (tailt r))
                       end) rest in
      let rel := match rest with [] => sub 19%nat a
                 | _ => XNode X_OperatorPath (lit "parse_relative_path_expr TOP") (sub 19%nat a) tail end in
      match s with
      | S_here => rel
      | S_root => XNode X_OperatorPath (lit "parse_path_expr Slash") (leaf X_AxisRoot (lit "node()")) rel
      | S_all => XNode X_OperatorPath (lit "parse_path_expr SlashSlash 1") (leaf X_AxisRoot (lit "/"))
                   (XNode X_OperatorPath (lit "parse_path_expr SlashSlash 2") any_depth rel)
      end
  | ESquare es => XNode X_SquareArray []
      ((fix itemt l := match l with [] => XNil | a :: r => XNode X_ArrayEntry [] (sub 1%nat a) (itemt r) end) es) XNil
  | ECurly e => XNode X_CurlyArray [] (sub 0%nat e) XNil
  | EMap es => XNode X_Map []
      ((fix entryt l := match l with
                        | [] => XNil
                        | x :: r => XNode X_MapConstruct [] (XNode X_MapEntry [] (sub (key_level (fst x)) (fst x)) (sub 1%nat (snd x))) (entryt r)
                        end) es) XNil
  | EKey k => keyt k
  | EKeyOf k => XNode X_UnaryLookupByExpr [] (XNode X_ParenthesizedExpr [] (sub 0%nat k) XNil) XNil
  | ELook a k => XNode X_OperatorMap [] (sub 20%nat a) (keyt k)
  | ELookOf a k => XNode X_OperatorMap [] (sub 20%nat a)
      (XNode X_UnaryLookupByExpr [] (XNode X_ParenthesizedExpr [] (sub 0%nat k) XNil) XNil)
  | ERef f d => leaf X_NamedFunctionRef (lit "fn:" ++ f ++ lit "#" ++ d)
  | EFun ps b => XNode X_InlineFunction (lit "(inline function)") (sub 0%nat b) (XNode X_ReturnType [] default_sequence_type (param_tree ps))
  | EArrow v a f args =>
      let args := XNode X_ArgumentTop [] (sub 15%nat a)
        ((fix argt l := match l with [] => XNil | a :: r => XNode X_ArgumentTop [] (sub 1%nat a) (argt r) end) args) in
      if v then XNode X_ApplyArgument [] (leaf X_VarRef f) (XNode X_ArgumentListTop [] args XNil)
      else XNode X_FunctionCall (lit "fn:" ++ f) XNil args
  | EPCall p f args => XNode X_FunctionCall (p ++ lit ":" ++ f) XNil
      ((fix argt l := match l with [] => XNil | a :: r => XNode X_ArgumentTop [] (sub 1%nat a) (argt r) end) args)
  | EPart f args => XNode X_PartialFunctionCall (lit "fn:" ++ f) XNil
      ((fix oargt l := match l with
                       | [] => XNil
                       | x :: r => match x with
                                   | Some a => XNode X_ArgumentTop [] (sub 1%nat a) (oargt r)
                                   | None => XNode X_ArgumentPlaceholder (lit "?") XNil (oargt r)
                                   end
                       end) args)
  | EInst t a q => XNode (if t then X_OperatorTreatAs else X_OperatorInstanceOf) [] (sub (if t then 13 else 12)%nat a) (seq_tree q)
  | EMulti q bs b => XNode (multi_node q) (t_name (pfinal (multi_word q))) XNil
      ((fix bindt l := match l with [] => sub 1%nat b | x :: r => XNode (multi_bind q) (fst x) (sub 1%nat (snd x)) (bindt r) end) bs)
  end.
Definition trk (k : nat) (e : expr) : xnode :=
  if Nat.ltb (level e) k then XNode X_ParenthesizedExpr [] (tr e) XNil else tr e.
Fixpoint argt (l : list expr) : xnode :=
  match l with [] => XNil | a :: r => XNode X_ArgumentTop [] (trk 1 a) (argt r) end.
Fixpoint predt (rev : bool) (l : list expr) : xnode :=
  match l with
  | [] => XNil
  | p :: r => XNode (if rev then X_PredicateRevTop else X_PredicateTop) (lit "Predicate") (trk 0 p) (predt rev r)
  end.
Fixpoint tailt (l : list (bool * expr)) : xnode :=
  match l with
  | [] => XNil
  | (false, e) :: r => XNode X_OperatorPath (lit "parse_relative_path_expr Slash") (trk 19 e) (tailt r)
  | (true, e) :: r => XNode X_OperatorPath (lit "parse_relative_path_expr SlashSlash 1") any_depth
                (XNode X_OperatorPath (lit "parse_relative_path_expr SlashSlash 2") (trk 19 e) (tailt r))
  end.
Definition relt (a : expr) (rest : list (bool * expr)) : xnode :=
  match rest with [] => trk 19 a
  | _ => XNode X_OperatorPath (lit "parse_relative_path_expr TOP") (trk 19 a) (tailt rest) end.
Fixpoint itemt (l : list expr) : xnode :=
  match l with [] => XNil | a :: r => XNode X_ArrayEntry [] (trk 1 a) (itemt r) end.
Fixpoint entryt (l : list (expr * expr)) : xnode :=
  match l with
  | [] => XNil
  | x :: r => XNode X_MapConstruct [] (XNode X_MapEntry [] (trk (key_level (fst x)) (fst x)) (trk 1 (snd x))) (entryt r)
  end.
Fixpoint oargt (l : list (option expr)) : xnode :=
  match l with
  | [] => XNil
  | x :: r => match x with
              | Some a => XNode X_ArgumentTop [] (trk 1 a) (oargt r)
              | None => XNode X_ArgumentPlaceholder (lit "?") XNil (oargt r)
              end
  end.
Fixpoint bindt (q : option quant) (b : expr) (l : list (str * expr)) : xnode :=
  match l with [] => trk 1 b | x :: r => XNode (multi_bind q) (fst x) (trk 1 (snd x)) (bindt q b r) end.
Lemma tr_square : forall es, tr (ESquare es) = XNode X_SquareArray [] (itemt es) XNil.
Proof. intros. cbn [tr]. f_equal. Qed.
Lemma tr_map : forall es, tr (EMap es) = XNode X_Map [] (entryt es) XNil.
Proof. intros. cbn [tr]. f_equal. Qed.
Lemma tr_arrow : forall v a f args, tr (EArrow v a f args) =
  let args := XNode X_ArgumentTop [] (trk 15 a) (argt args) in
  if v then XNode X_ApplyArgument [] (leaf X_VarRef f) (XNode X_ArgumentListTop [] args XNil)
  else XNode X_FunctionCall (lit "fn:" ++ f) XNil args.
Proof. intros. reflexivity. Qed.
Lemma tr_pcall : forall p f args, tr (EPCall p f args) = XNode X_FunctionCall (p ++ lit ":" ++ f) XNil (argt args).
Proof. intros. cbn [tr]. f_equal. Qed.
Lemma tr_part : forall f args, tr (EPart f args) = XNode X_PartialFunctionCall (lit "fn:" ++ f) XNil (oargt args).
Proof. intros. cbn [tr]. f_equal. Qed.
Lemma tr_multi : forall q bs b, tr (EMulti q bs b) = XNode (multi_node q) (t_name (pfinal (multi_word q))) XNil (bindt q b bs).
Proof. intros. cbn [tr]. f_equal. induction bs as [|x bs IH]; [reflexivity|]. cbn [bindt]. f_equal. exact IH. Qed.
Lemma tr_step : forall f t ps, tr (EStep f t ps) =
  XNode (anode (form_axis f)) (test_name t) (test_tree t) (predt (reverse_axis (form_axis f)) ps).
Proof. intros. cbn [tr]. f_equal. induction ps as [|p ps IH]; cbn [predt]; [reflexivity|]. f_equal. apply IH. Qed.
Lemma tr_dyn : forall a args, tr (EDyn a args) =
  XNode X_ApplyArgument [] (trk 20 a) (XNode X_ArgumentListTop [] (argt args) XNil).
Proof. intros. cbn [tr]. f_equal. Qed.
Lemma tr_path : forall s a rest, tr (EPath s a rest) =
  match s with
  | S_here => relt a rest
  | S_root => XNode X_OperatorPath (lit "parse_path_expr Slash") (leaf X_AxisRoot (lit "node()")) (relt a rest)
  | S_all => XNode X_OperatorPath (lit "parse_path_expr SlashSlash 1") (leaf X_AxisRoot (lit "/"))
               (XNode X_OperatorPath (lit "parse_path_expr SlashSlash 2") any_depth (relt a rest))
  end.
Proof.
  intros. assert (R : relt a rest = match rest with [] => trk 19 a
    | _ => XNode X_OperatorPath (lit "parse_relative_path_expr TOP") (trk 19 a) (tailt rest) end) by reflexivity.
  rewrite R. clear R. destruct s; cbn [tr]; reflexivity.
Qed.
Lemma tr_nn : forall e, tr e <> XNil.
Proof.
  assert (K : forall k e, tr e <> XNil -> trk k e <> XNil) by
    (intros k e H; unfold trk; destruct (Nat.ltb (level e) k); [discriminate|auto]).
  induction e using expr_ind2; try discriminate; [rewrite tr_path; destruct s; try discriminate;
  unfold relt; destruct rest; [auto|discriminate]|destruct k; discriminate|destruct v; discriminate].
Qed.
Lemma trk_nn : forall k e, trk k e <> XNil.
Proof. intros. unfold trk. destruct (Nat.ltb (level e) k); [discriminate|apply tr_nn]. Qed.
Lemma tr_call : forall f args, tr (ECall f args) = XNode X_FunctionCall (lit "fn:" ++ f) XNil (argt args).
Proof. intros. cbn [tr]. f_equal. Qed.

Definition body (e : expr) : list ptok := print (level e) e.
Lemma print_body : forall k e, print k e = parens (Nat.ltb (level e) k) (body e).
Proof.
  intros k e. unfold body. destruct e; cbn [print]; rewrite ?Nat.ltb_irrefl; cbn [parens]; reflexivity.
Qed.
Definition toks_of (k : nat) (e : expr) : toks := map pfinal (print k e).
Definition args_toks (l : list expr) : toks := flat_map (fun b => mkTok T_Comma (lit ",") :: toks_of 1 b) l.

Lemma reads_tr : forall e, wf e -> reads (tr e) e.
Proof.
  assert (K : forall k e, reads (tr e) e -> reads (trk k e) e).
  { intros k e H. unfold trk. destruct (Nat.ltb (level e) k); [constructor|]; auto. }
  assert (K19 : forall e, reads (tr e) e -> reads_op (trk 19 e) e).
  { intros e H. unfold trk. destruct (Nat.ltb (level e) 19) eqn:L.
    - constructor; auto. apply Nat.ltb_lt; auto.
    - apply ro_same; auto. apply Nat.ltb_ge; auto. }
  assert (A : forall l, Forall (fun e => wf e -> reads (tr e) e) l ->
    (fix all l := match l with [] => True | a :: r => wf a /\ all r end) l -> reads_args (argt l) l).
  { induction 1 as [|a l Ha Hl IH]; intro W; cbn [argt]; constructor; [apply K; apply Ha; tauto|apply IH; tauto]. }
  assert (T : forall rest, Forall (fun x : bool * expr => wf (snd x) -> reads (tr (snd x)) (snd x)) rest ->
    (fix all (l : list (bool * expr)) := match l with [] => True | x :: r => wf (snd x) /\ all r end) rest ->
    reads_tail (tailt rest) rest).
  { induction 1 as [|[[] e] rest He Hr IH]; intro W; cbn [tailt]; constructor; try (apply K19; apply He; tauto); apply IH; tauto. }
  assert (R : forall a rest, reads_op (trk 19 a) a -> reads_tail (tailt rest) rest -> reads_rel (relt a rest) a rest).
  { intros a rest Ha Hr. unfold relt. destruct rest; constructor; auto; discriminate. }
  assert (IT : forall l, Forall (fun e => wf e -> reads (tr e) e) l ->
    (fix all l := match l with [] => True | a :: r => wf a /\ all r end) l -> reads_items (itemt l) l).
  { induction 1 as [|a l Ha Hl IH]; intro W; cbn [itemt]; constructor; [apply K; apply Ha; tauto|apply IH; tauto]. }
  assert (KY : forall k, reads (keyt k) (EKey k)) by (intros []; constructor).
  induction e using expr_ind2; intro W; cbn [wf] in W.
  all: try (cbn [tr]; constructor; solve [tauto | apply K; tauto | repeat (match goal with H : _ -> _ |- _ => specialize (H ltac:(tauto)) end); auto using K]; fail).
  - rewrite tr_call. constructor. apply A; tauto.
  - rewrite tr_step. destruct W as [_ W]. constructor. generalize (reverse_axis (form_axis f)) as rv. intro rv.
    induction H as [|a l Ha Hl IH]; cbn [predt]; constructor; [apply K; apply Ha; tauto|apply IH; tauto].
  - rewrite tr_dyn. constructor; [apply K; tauto|apply A; tauto].
  - cbn [tr]. apply rd_paren. constructor.
  - rewrite tr_path. destruct W as [W1 [W2 W3]]. specialize (IHe W2). specialize (T _ H W3).
    destruct s; [|constructor; auto..]. unfold relt. destruct rest as [|x rest]; [exfalso; apply W1; auto|].
    constructor; auto; try discriminate.
  - rewrite tr_map. constructor. induction H as [|[k v] l [Hk Hv] Hl IH]; cbn [entryt fst snd] in *; constructor; [apply K; apply Hk; tauto|apply K; apply Hv; tauto|apply IH; tauto].
  - apply KY.
  - cbn [tr]. apply rd_key_of. constructor. apply K. auto.
  - cbn [tr]. apply rd_look; auto. apply K; tauto.
  - cbn [tr]. apply rd_look_of; [apply K; tauto|]. constructor. constructor. apply K; tauto.
  - rewrite tr_arrow. destruct W as [Wa [Wf Wr]]. destruct v; constructor; constructor; auto; apply K; auto.
  - rewrite tr_pcall. constructor. apply A; tauto.
  - rewrite tr_part. constructor. destruct W as [_ [_ W]]. induction H as [|[a|] l Ha Hl IH]; cbn [oargt]; constructor; try (apply K; apply Ha; tauto); apply IH; tauto.
  - rewrite tr_multi. constructor. destruct W as [_ [Wb W]]. induction H as [|[v e0] l Ha Hl IH]; cbn [bindt fst snd] in *; constructor; try (apply K; apply Ha; tauto); try (apply IH; tauto); apply K; auto.
Qed.
Lemma reads_trk : forall k e, wf e -> reads (trk k e) e.
Proof. intros. unfold trk. destruct (Nat.ltb (level e) k); [constructor|]; apply reads_tr; auto. Qed.

(* ---- what an expression begins with ---- *)
Lemma print_first : forall e k r, (k <= 20)%nat -> fstok k (next_type (toks_of k e ++ r)) = true.
Proof.
  assert (B : forall e, (forall r, fstok (level e) (next_type (map pfinal (body e) ++ r)) = true) ->
    forall k r, fstok k (next_type (toks_of k e ++ r)) = true).
  { intros e H k r. unfold toks_of. rewrite print_body. destruct (Nat.ltb (level e) k) eqn:L; [reflexivity|].
    apply Nat.ltb_ge in L. cbn [parens]. apply fstok_mono with (k' := level e); auto. }
  intros e k r L. revert e k r L.
  assert (G : forall e r, fstok (level e) (next_type (map pfinal (body e) ++ r)) = true).
  { assert (Q : forall e k k' r, (k <= k')%nat -> (forall r, fstok (level e) (next_type (map pfinal (body e) ++ r)) = true) ->
       fstok k (next_type (toks_of k' e ++ r)) = true).
    { intros. apply fstok_mono with (k' := k'); auto. }
    induction e using expr_ind2; intro r; unfold body; cbn [print level]; rewrite ?Nat.ltb_irrefl; cbn [parens];
      try reflexivity.
    - destruct k; reflexivity.
    - rewrite map_app, <- app_assoc. apply Q; auto. destruct (nonassoc o); lia.
    - destruct m; reflexivity.
    - rewrite map_app, <- app_assoc. apply Q; auto.
    - rewrite map_app, <- app_assoc. apply Q; auto. destruct c; lia.
    - destruct q; reflexivity.
    - destruct f; [reflexivity..|]. destruct t; reflexivity.
    - rewrite map_app, <- app_assoc. apply Q; auto.
    - rewrite map_app, <- app_assoc. apply Q; auto.
    - destruct s; try reflexivity. cbn [start_toks app]. rewrite map_app, <- app_assoc. apply Q; auto.
    - rewrite map_app, <- app_assoc. apply Q; auto.
    - rewrite map_app, <- app_assoc. apply Q; auto.
    - rewrite map_app, <- app_assoc. apply Q; auto.
    - rewrite map_app, <- app_assoc. apply Q; auto. destruct q as [|t0 []], t; cbn; lia.
    - destruct q as [[]|]; reflexivity. }
  intros. apply B. auto.
Qed.

(* ---- primary expressions ---- *)
(* a primary expression followed by predicates and argument lists *)
Definition pty (p : xnode) : xtype :=
  match x_type p with X_PredicateTop => X_ApplyPredicate | X_ArgumentListTop => X_ApplyArgument | _ => X_OperatorMap end.
Inductive ploop : xnode -> toks -> xnode -> toks -> Prop :=
| pl_refl : forall x t, ploop x t x t
| pl_step : forall x0 t0 x t p t1, ploop x0 t0 x t -> parse_postfix S1 t = Ok (p, t1) -> p <> XNil ->
    ploop x0 t0 (XNode (pty p) [] x p) t1.
Definition pruns (t : toks) (x : xnode) (r : toks) : Prop :=
  exists x1 t1, parse_primary_expr S1 t = Ok (x1, t1) /\ x1 <> XNil /\ ploop x1 t1 x r.
Lemma ploop_loop : forall x t x' t', ploop x t x' t' ->
  (len t' <= len t)%nat /\ forall f, (len t < f)%nat -> exists f', (len t' < f')%nat /\
    postfix_loop S1 f x t = postfix_loop S1 f' x' t'.
Proof.
  intros x t x' t' H. induction H as [|x0 t0 x t p t1 H [L IH] E N]; [split; eauto|].
  assert (G0 : good (S (len t)) (parse_postfix S1)) by (apply postfix_good; apply expr_single_good).
  specialize (G0 t ltac:(lia)). rewrite E in G0. cbn in G0. destruct G0 as [_ G]. cbn in G. specialize (G N).
  split; [lia|]. intros f Hf. destruct (IH f Hf) as [f' [L' Q]]. rewrite Q. destruct f' as [|f']; [lia|].
  cbn [postfix_loop]. rewrite E. cbn [bind]. destruct p; [congruence|]. cbn [is_nil]. exists f'. split; [lia|auto].
Qed.
Lemma postfix_of_primary : forall t x r, pruns t x r -> (oplev (next_type r) <= 20 \/ 21 < oplev (next_type r))%nat -> plevel 20 t = Ok (x, r).
Proof.
  intros t x r [x1 [t1 [E [N H]]]] O. cbn [plevel]. unfold parse_postfix_expr. rewrite E. cbn [bind].
  destruct x1 as [|ty n l q]; [congruence|]. cbn [is_nil].
  destruct (ploop_loop _ _ _ _ H) as [_ Q]. destruct (Q (S (len t1))) as [f [Lf ->]]; [lia|].
  destruct f as [|f]; [lia|]. cbn [postfix_loop]. unfold parse_postfix. ty_cases O; reflexivity.
Qed.
Lemma primary_paren : forall t x r, plevel 0 t = Ok (x, mkTok T_RightParen (lit ")") :: r) ->
  parse_primary_expr S1 (mkTok T_LeftParen (lit "(") :: t) = Ok (XNode X_ParenthesizedExpr [] x XNil, r).
Proof.
  intros t x r E. unfold parse_primary_expr. rewrite or_else_nil by reflexivity. rewrite or_else_nil by reflexivity.
  apply or_else_some; [|discriminate]. unfold parse_parenthesized_expr. cbn [next_is next_type nxt t_type adv tl].
  cbn [plevel] in E. change (next_is T_LeftParen (mkTok T_LeftParen (lit "(") :: t)) with true. cbn iota.
  cbn [adv tl]. rewrite E. reflexivity.
Qed.
Lemma single_nil : forall r, S1 (mkTok T_RightParen (lit ")") :: r) = Ok (XNil, mkTok T_RightParen (lit ")") :: r).
Proof. intro r. unfold S1. rewrite parse_expr_single_unfold. reflexivity. Qed.
Lemma expr_nil : forall r, plevel 0 (mkTok T_RightParen (lit ")") :: r) = Ok (XNil, mkTok T_RightParen (lit ")") :: r).
Proof. intro r. apply bin_none; [apply single_nil|reflexivity]. Qed.
Lemma str_eqb_nn : forall (c : char) s, str_eqb (c :: s) [] = false.
Proof. reflexivity. Qed.
Lemma eqname_plain : forall dp n r, n <> [] -> next_type r <> T_Colon ->
  parse_eqname dp (mkTok T_Name n :: r) = Ok (if str_eqb dp [] then n else dp ++ lit ":" ++ n, r).
Proof.
  intros dp n r Hn Hr. unfold parse_eqname, parse_qname.
  change (next_is T_Name (mkTok T_Name n :: r)) with true. cbn iota. cbn [adv tl nxt t_name].
  destruct (next_is T_Colon r) eqn:C; [unfold next_is in C; apply ttype_eqb_eq in C; congruence|].
  cbn [bind]. destruct n as [|c n]; [congruence|]. destruct dp as [|d dp]; reflexivity.
Qed.
Lemma eqname_colon : forall dp a n r, n <> [] ->
  parse_eqname dp (mkTok T_Name a :: mkTok T_Colon (lit ":") :: mkTok T_Name n :: r) = Ok (a ++ lit ":" ++ n, r).
Proof. intros dp a n r Hn. destruct a; reflexivity. Qed.
Lemma seqtype_opt : forall n r, n <> [] ->
  parse_sequence_type (mkTok T_Name (lit "xs") :: mkTok T_Colon (lit ":") :: mkTok T_Name n :: mkTok T_Question (lit "?") :: r) =
  Ok (XNode X_SequenceType (lit "?") (leaf X_AtomicOrUnionType (lit "xs:" ++ n)) XNil, r).
Proof.
  intros n r Hn. unfold parse_sequence_type, parse_sequence_type_with.
  match goal with |- context [parse_kind_test_sub_none ?a ?b ?t] => change (parse_kind_test_sub_none a b t) with (@Ok (xnode * toks) (XNil, t)) end.
  cbn [bind is_nil negb]. rewrite parse_item_type_unfold. reflexivity.
Qed.
Lemma single_type_q : forall n r, n <> [] ->
  parse_single_type (mkTok T_Name (lit "xs") :: mkTok T_Colon (lit ":") :: mkTok T_Name n :: mkTok T_Question (lit "?") :: r) =
  Ok (XNode X_SingleType [] (leaf X_TypeName (lit "xs:" ++ n ++ lit "?")) XNil, r).
Proof. intros n r Hn. reflexivity. Qed.
Lemma single_type_plain : forall n r, n <> [] -> next_is T_Question r = false ->
  parse_single_type (mkTok T_Name (lit "xs") :: mkTok T_Colon (lit ":") :: mkTok T_Name n :: r) =
  Ok (XNode X_SingleType [] (leaf X_TypeName (lit "xs:" ++ n)) XNil, r).
Proof. intros n r Hn Hq. unfold parse_single_type. rewrite eqname_colon by auto. cbn [bind]. cbn [lit app]. rewrite Hq. reflexivity. Qed.

(* ---- arrows ---- *)
Definition astep (x : xnode) (t : toks) (x' : xnode) (t' : toks) : Prop :=
  (len t' < len t)%nat /\ forall f, arrow_loop S1 (S f) x t = arrow_loop S1 f x' t'.
Inductive aloop : xnode -> toks -> xnode -> toks -> Prop :=
| al_refl : forall x t, aloop x t x t
| al_step : forall x0 t0 x t x' t', aloop x0 t0 x t -> astep x t x' t' -> aloop x0 t0 x' t'.
Definition aruns (t : toks) (x : xnode) (r : toks) : Prop :=
  exists x1 t1, plevel 16 t = Ok (x1, t1) /\ aloop x1 t1 x r.
Lemma aloop_loop : forall x t x' t', aloop x t x' t' ->
  (len t' <= len t)%nat /\ forall f, (len t < f)%nat -> exists f', (len t' < f')%nat /\
    arrow_loop S1 f x t = arrow_loop S1 f' x' t'.
Proof.
  intros x t x' t' H. induction H as [|x0 t0 x t x' t' H [L IH] [L' E]]; [split; eauto|].
  split; [lia|]. intros f Hf. destruct (IH f Hf) as [f' [Lf Q]]. rewrite Q. destruct f' as [|f']; [lia|].
  rewrite E. exists f'. split; [lia|auto].
Qed.
Lemma aruns_parse : forall t x r, aruns t x r -> (oplev (next_type r) <= 15)%nat -> plevel 15 t = Ok (x, r).
Proof.
  intros t x r [x1 [t1 [E H]]] O. cbn [plevel] in *. unfold parse_arrow_expr. rewrite E. cbn [bind].
  destruct (aloop_loop _ _ _ _ H) as [_ Q]. destruct (Q (S (len t1))) as [f [Lf ->]]; [lia|].
  destruct f as [|f]; [lia|]. cbn [arrow_loop]. ty_cases O; reflexivity.
Qed.

(* ---- the main lemma ---- *)
Definition okp (e : expr) : Prop := wf e ->
  (forall k r, (k <= 20)%nat -> (oplev (next_type r) <= k)%nat -> plevel k (toks_of k e ++ r) = Ok (trk k e, r)) /\
  (forall k r, leftk k = true -> (oplev (next_type r) <= S k)%nat -> runs k (toks_of k e ++ r) (trk k e) r) /\
  (forall r, (oplev (next_type r) <= 21)%nat -> pruns (toks_of 20 e ++ r) (trk 20 e) r) /\
  (forall r, (oplev (next_type r) <= 16)%nat -> aruns (toks_of 15 e ++ r) (trk 15 e) r).
Lemma level_le : forall e, (level e <= 20)%nat.
Proof.
  destruct e; cbn; try lia; [destruct o|destruct o|destruct castable|]; cbn; try lia.
  destruct treat, t as [|? []]; cbn; lia.
Qed.
Lemma leftk_le : forall k, leftk k = true -> (k <= 17)%nat.
Proof. intros k H. apply leftk_cases in H. cbn in H. intuition lia. Qed.
(* from the expression at its own level to every level *)
Lemma okp_of : forall e, 
  (level e <> 20%nat -> forall r, (oplev (next_type r) <= level e)%nat -> plevel (level e) (map pfinal (body e) ++ r) = Ok (tr e, r)) ->
  (leftk (level e) = true -> forall r, (oplev (next_type r) <= S (level e))%nat -> runs (level e) (map pfinal (body e) ++ r) (tr e) r) ->
  (level e = 20%nat -> forall r, (oplev (next_type r) <= 21)%nat -> pruns (map pfinal (body e) ++ r) (tr e) r) ->
  (level e = 15%nat -> forall r, (oplev (next_type r) <= 16)%nat -> aruns (map pfinal (body e) ++ r) (tr e) r) ->
  (forall k r, (k <= 20)%nat -> (oplev (next_type r) <= k)%nat -> plevel k (toks_of k e ++ r) = Ok (trk k e, r)) /\
  (forall k r, leftk k = true -> (oplev (next_type r) <= S k)%nat -> runs k (toks_of k e ++ r) (trk k e) r) /\
  (forall r, (oplev (next_type r) <= 21)%nat -> pruns (toks_of 20 e ++ r) (trk 20 e) r) /\
  (forall r, (oplev (next_type r) <= 16)%nat -> aruns (toks_of 15 e ++ r) (trk 15 e) r).
Proof.
  intros e A B C AR.
  assert (U : forall k r, (k <= level e)%nat -> (oplev (next_type r) <= k)%nat -> plevel k (toks_of k e ++ r) = Ok (tr e, r)).
  { intros k r L O. unfold toks_of. rewrite print_body. rewrite (proj2 (Nat.ltb_ge _ _)) by auto. cbn [parens].
    assert (V := level_le e).
    apply lift_to with (k' := level e); auto; [|apply tr_nn|].
    - destruct (Nat.eq_dec (level e) 20) as [D|D]; [|apply A; auto; lia].
      rewrite D. apply postfix_of_primary; [apply C; auto; lia|lia].
    - assert (F := print_first e (level e) r (level_le e)). exact F. }
  assert (D : forall k r, (level e < k)%nat -> pruns (toks_of k e ++ r) (trk k e) r).
  { intros k r L. unfold toks_of, trk. rewrite print_body. rewrite (proj2 (Nat.ltb_lt _ _)) by auto. cbn [parens map app].
    rewrite map_app, <- app_assoc. cbn [map app]. eexists. eexists. split; [|split; [|apply pl_refl]]; [|discriminate].
    apply primary_paren. assert (Z := U 0%nat (mkTok T_RightParen (lit ")") :: r)). unfold toks_of in Z. rewrite print_body in Z.
    cbn [Nat.ltb Nat.leb parens] in Z. apply Z; cbn; lia. }
  assert (A' : forall k r, (k <= 20)%nat -> (oplev (next_type r) <= k)%nat -> plevel k (toks_of k e ++ r) = Ok (trk k e, r)).
  { intros k r L O. destruct (Nat.ltb_spec (level e) k) as [K|K].
    - assert (F : fstok 20 (next_type (toks_of k e ++ r)) = true).
      { unfold toks_of. rewrite print_body. rewrite (proj2 (Nat.ltb_lt _ _)) by auto. reflexivity. }
      apply lift_to with (k' := 20%nat); auto; [|apply trk_nn].
      apply postfix_of_primary; [apply D; auto|lia].
    - unfold trk. rewrite (proj2 (Nat.ltb_ge _ _)) by auto. apply U; auto. }
  split; [auto|split; [|split]].
  - intros k r L O. destruct (Nat.eq_dec k (level e)) as [->|Ne].
    + unfold trk, toks_of. rewrite print_body, Nat.ltb_irrefl. cbn [parens]. auto.
    + assert (E : toks_of k e = toks_of (S k) e /\ trk k e = trk (S k) e).
      { unfold toks_of, trk. rewrite !print_body.
        destruct (Nat.ltb_spec (level e) k), (Nat.ltb_spec (level e) (S k)); auto; lia. }
      destruct E as [-> ->]. apply leftk_le in L. exists (trk (S k) e), r. split; [apply A'; lia|constructor].
  - intros r O. destruct (Nat.ltb_spec (level e) 20) as [K|K]; [apply D; auto|].
    assert (V := level_le e). assert (Q : level e = 20%nat) by lia.
    unfold trk, toks_of. rewrite print_body, (proj2 (Nat.ltb_ge _ _)) by auto. cbn [parens]. auto.
  - intros r O. destruct (Nat.eq_dec (level e) 15) as [Q|Q].
    + unfold trk, toks_of. rewrite print_body, Q. cbn [Nat.ltb Nat.leb parens]. auto.
    + assert (E : toks_of 15 e = toks_of 16 e /\ trk 15 e = trk 16 e).
      { unfold toks_of, trk. rewrite !print_body.
        destruct (Nat.ltb_spec (level e) 15), (Nat.ltb_spec (level e) 16); auto; lia. }
      destruct E as [-> ->]. exists (trk 16 e), r. split; [apply A'; lia|constructor].
Qed.
(* in parentheses *)
Lemma paren_pruns : forall e k r, okp e -> wf e -> (level e < k)%nat -> pruns (toks_of k e ++ r) (trk k e) r.
Proof.
  intros e k r H W L. destruct (H W) as [A _]. unfold toks_of, trk. rewrite print_body. rewrite (proj2 (Nat.ltb_lt _ _)) by auto. cbn [parens map app].
  rewrite map_app, <- app_assoc. cbn [map app]. eexists. eexists. split; [|split; [|apply pl_refl]]; [|discriminate].
  apply primary_paren. assert (Z := A 0%nat (mkTok T_RightParen (lit ")") :: r)). unfold toks_of, trk in Z. rewrite print_body in Z.
  cbn [Nat.ltb Nat.leb parens] in Z. apply Z; cbn; lia.
Qed.
Lemma key_first : forall e r, fstok 20 (next_type (toks_of (key_level e) e ++ r)) = true.
Proof.
  intros e r. assert (P : forall k, (level e < k)%nat -> fstok 20 (next_type (toks_of k e ++ r)) = true).
  { intros k L. unfold toks_of. rewrite print_body. rewrite (proj2 (Nat.ltb_lt _ _)) by auto. reflexivity. }
  assert (V := level_le e). destruct e; try (apply P; cbn [key_level]; lia). destruct k; reflexivity.
Qed.
Lemma key_ok : forall e r, okp e -> wf e -> next_type r = T_Colon ->
  S1 (toks_of (key_level e) e ++ r) = Ok (trk (key_level e) e, r).
Proof.
  intros e r H W N. change (plevel 1 (toks_of (key_level e) e ++ r) = Ok (trk (key_level e) e, r)).
  apply lift_to with (k' := 20%nat); [lia|lia| |apply trk_nn|apply key_first|right; rewrite N; cbn; lia].
  apply postfix_of_primary; [|right; rewrite N; cbn; lia]. assert (V := level_le e).
  destruct e; try (apply paren_pruns; auto; cbn [key_level]; lia).
  eexists. eexists. split; [|split; [|apply pl_refl]]; [|discriminate]. destruct k; reflexivity.
Qed.

Ltac s1 k := match goal with |- context [S1 (toks_of k ?e ++ ?q)] => change (S1 (toks_of k e ++ q)) with (plevel k (toks_of k e ++ q)) end.
Lemma plain_nn : forall n, plain_name n -> n <> [].
Proof. intros [|c n] [H _]; [destruct H|discriminate]. Qed.
Lemma args_ok : forall args r, Forall okp args -> Forall wf args -> 
  forall f, (len (args_toks args ++ mkTok T_RightParen (lit ")") :: r) < f)%nat ->
  comma_chain f (parse_argument S1) (args_toks args ++ mkTok T_RightParen (lit ")") :: r) =
  Ok (argt args, mkTok T_RightParen (lit ")") :: r).
Proof.
  intros args r H. induction H as [|a args Ha Hargs IH]; intros W f Lf; (destruct f as [|f]; [lia|]).
  - reflexivity.
  - inversion W; subst. destruct (Ha H1) as [A _].
    unfold args_toks in *. cbn [flat_map] in *. rewrite <- app_assoc in *. cbn [app] in *.
    set (rest := flat_map _ args ++ _) in *. 
    change (comma_chain (S f) (parse_argument S1) (mkTok T_Comma (lit ",") :: toks_of 1 a ++ rest)) with
      (do (x, t1) <- parse_argument S1 (toks_of 1 a ++ rest);
       do (r, t2) <- comma_chain f (parse_argument S1) t1; Ok (set_right x r, t2)).
    assert (E : parse_argument S1 (toks_of 1 a ++ rest) = Ok (XNode X_ArgumentTop [] (trk 1 a) XNil, rest)).
    { unfold parse_argument. change (S1 (toks_of 1 a ++ rest)) with (plevel 1 (toks_of 1 a ++ rest)). rewrite A.
      - cbn [bind]. destruct (trk 1 a) eqn:Q; [exfalso; eapply trk_nn; eauto|reflexivity].
      - lia.
      - subst rest. destruct args; cbn; lia. }
    rewrite E. cbn [bind]. rewrite IH; auto.
    cbn [List.length] in Lf. rewrite app_length in Lf. lia.
Qed.
Lemma chain_argt : forall args, chain_length (argt args) = List.length args.
Proof. induction args; cbn; auto. Qed.
Lemma placeholder_argt : forall args, has_placeholder (argt args) = false.
Proof. induction args as [|a args IH]; [reflexivity|]. change (has_placeholder (argt (a :: args))) with (has_placeholder (argt args)). auto. Qed.
Lemma arg_list_ok : forall args r, Forall okp args -> Forall wf args ->
  parse_argument_list S1 (mkTok T_LeftParen (lit "(") ::
     match args with [] => [] | a :: rest => toks_of 1 a ++ args_toks rest end ++ mkTok T_RightParen (lit ")") :: r) =
  Ok (argt args, r).
Proof.
  intros args r H W. unfold parse_argument_list. unfold expect.
  match goal with |- context [next_is T_LeftParen (?a :: ?b)] => change (next_is T_LeftParen (a :: b)) with true end.
  cbn [bind adv tl]. destruct H as [|a args Ha Hargs].
  - unfold parse_comma_list, parse_argument. cbn [app]. rewrite single_nil. reflexivity.
  - inversion W; subst. destruct (Ha H1) as [A _]. rewrite <- app_assoc.
    unfold parse_comma_list.
    match goal with |- context [parse_argument S1 ?t] => assert (E : parse_argument S1 t =
      Ok (XNode X_ArgumentTop [] (trk 1 a) XNil, args_toks args ++ mkTok T_RightParen (lit ")") :: r)) end.
    { unfold parse_argument. s1 1%nat. rewrite A; [|lia|destruct args; cbn; lia]. cbn [bind].
      destruct (trk 1 a) eqn:Q; [exfalso; eapply trk_nn; eauto|reflexivity]. }
    rewrite E. cbn [bind is_nil].
    rewrite args_ok; auto.
Qed.

Lemma args_map : forall l : list expr, map pfinal (flat_map (fun b => PSym (lit ",") T_Comma :: print 1 b) l) = args_toks l.
Proof.
  induction l as [|a l IH]; [reflexivity|]. cbn [flat_map]. rewrite map_app, IH. reflexivity.
Qed.
Lemma call_body : forall f args, map pfinal (body (ECall f args)) =
  mkTok T_Name f :: mkTok T_LeftParen (lit "(") ::
  match args with [] => [] | a :: rest => toks_of 1 a ++ args_toks rest end ++ [mkTok T_RightParen (lit ")")].
Proof.
  intros f args. unfold body. cbn [level print]. rewrite Nat.ltb_irrefl. cbn [parens map pfinal app lpar]. repeat f_equal.
  rewrite map_app. f_equal. destruct args as [|a args]; [reflexivity|]. rewrite map_app, args_map. reflexivity.
Qed.
Lemma wf_call : forall f args, wf (ECall f args) -> plain_name f /\
  check_function_spec (lit "fn:" ++ f) (List.length args) = true /\ Forall wf args.
Proof.
  intros f args [H1 [H2 H3]]. split; auto. split; auto. clear H2. induction args; constructor; destruct H3; auto.
Qed.
Lemma eqname_fn : forall f r, f <> [] -> next_type r <> T_Colon ->
  parse_static_func_name (mkTok T_Name f :: r) = Ok (lit "fn:" ++ f, r).
Proof. intros f r Hf Hr. unfold parse_static_func_name. rewrite eqname_plain by auto. reflexivity. Qed.
Lemma primary_call : forall f args r, f <> [] -> Forall okp args -> Forall wf args ->
  parse_primary_expr S1 (map pfinal (body (ECall f args)) ++ r) =
  if check_function_spec (lit "fn:" ++ f) (List.length args)
  then Ok (tr (ECall f args), r) else Err XPathSyntaxError.
Proof.
  intros f args r Hf H W. rewrite call_body, tr_call. cbn [app]. rewrite <- app_assoc. cbn [app].
  unfold parse_primary_expr. do 4 (rewrite or_else_nil by reflexivity).
  unfold or_else at 1. unfold parse_function_call.
  rewrite eqname_fn by (auto; discriminate). cbn [bind].
  change (str_eqb (lit "fn:" ++ f) []) with false. cbn iota.
  match goal with |- context [next_is T_LeftParen (?a :: ?b)] => change (next_is T_LeftParen (a :: b)) with true end.
  cbn iota. rewrite arg_list_ok by auto. cbn [bind]. rewrite chain_argt, placeholder_argt.
  destruct (check_function_spec (lit "fn:" ++ f) (List.length args)); reflexivity.
Qed.

Lemma blevel_le : forall o, (blevel o <= 17)%nat.
Proof. destruct o; cbn; lia. Qed.
Lemma bop_lev : forall o r, oplev (next_type (pfinal (bop o) :: r)) = S (blevel o).
Proof. destruct o; reflexivity. Qed.
Lemma leftk_blevel : forall o, nonassoc o = false -> leftk (blevel o) = true.
Proof. destruct o; cbn; auto; discriminate. Qed.
Lemma bop_assoc : forall o r, nonassoc o = false -> assoc_tt (next_type (pfinal (bop o) :: r)) (ltbl (blevel o)) = Some (bnode o).
Proof. destruct o; cbn; auto; discriminate. Qed.
Lemma bin_body : forall o a b, map pfinal (body (EBin o a b)) =
  toks_of (if nonassoc o then S (blevel o) else blevel o) a ++ pfinal (bop o) :: toks_of (S (blevel o)) b.
Proof. intros. unfold body. cbn [level print]. rewrite Nat.ltb_irrefl. cbn [parens]. rewrite map_app. reflexivity. Qed.

Ltac isT := match goal with |- context [next_is ?ty (?a :: ?b)] => change (next_is ty (a :: b)) with true; cbn iota; cbn [adv tl] end.
Lemma expect_ok : forall ty n r, expect ty (mkTok ty n :: r) = Ok r.
Proof. intros. unfold expect, next_is. cbn [next_type nxt t_type]. rewrite (proj2 (ttype_eqb_eq ty ty)); auto. Qed.
Lemma expect_name_ok : forall n m r, expect_name n (mkTok T_Name m :: r) = Ok r.
Proof. reflexivity. Qed.
Lemma nn_if : forall A k e (a b : A), (if is_nil (trk k e) then a else b) = b.
Proof. intros. destruct (trk k e) eqn:Q; [exfalso; eapply trk_nn; eauto|reflexivity]. Qed.

Lemma binding_ok : forall e b v t kw ty r, wf e -> wf b -> okp e -> okp b -> plain_name v -> (oplev (next_type r) <= 1)%nat ->
  kw <> [] -> forall f,
  (bindings_loop S1 (S f) (parse_simple_binding S1 ty) kw
    (mkTok T_Dollar (lit "$") :: mkTok T_Name v :: mkTok T_Name (lit "in") :: toks_of 1 e ++ mkTok T_Name t :: toks_of 1 b ++ r) =
   Ok (XNode ty v (trk 1 e) (trk 1 b), r)) /\
  (bindings_loop S1 (S f) (parse_simple_let_binding S1) kw
    (mkTok T_Dollar (lit "$") :: mkTok T_Name v :: mkTok T_Bind (lit ":=") :: toks_of 1 e ++ mkTok T_Name t :: toks_of 1 b ++ r) =
   Ok (XNode X_LetVarBind v (trk 1 e) (trk 1 b), r)).
Proof.
  intros e b v t kw ty r We Wb He Hb Hv Ho Hk f. destruct (He We) as [A _]. destruct (Hb Wb) as [B _].
  assert (Nv := plain_nn v Hv).
  split; cbn [bindings_loop]; unfold parse_simple_binding, parse_simple_let_binding; isT;
    rewrite eqname_plain by (auto; discriminate); cbn [bind str_eqb]; (destruct v as [|c v]; [congruence|]);
    cbn [str_eqb]; rewrite ?expect_name_ok, ?expect_ok; cbn [bind]; s1 1%nat;
    (rewrite A; [|lia|cbn; lia]); cbn [bind is_nil negb andb];
    match goal with |- context [next_is T_Comma (?a :: ?b)] => change (next_is T_Comma (a :: b)) with false end; cbn iota;
    rewrite expect_name_ok; cbn [bind]; s1 1%nat; (rewrite B; [|lia|auto]); reflexivity.
Qed.

Lemma with_type_ok : forall sub ty tp x t e nm r1 s r2, sub t = Ok (e, mkTok ty nm :: r1) -> tp r1 = Ok (s, r2) -> s <> XNil ->
  with_type sub ty tp x t = Ok (XNode x [] e s, r2).
Proof.
  intros. unfold with_type. rewrite H. cbn [bind]. unfold next_is. cbn [next_type nxt t_type].
  rewrite (proj2 (ttype_eqb_eq ty ty)) by auto. cbn [adv tl]. rewrite H0. cbn [bind]. destruct s; [congruence|reflexivity].
Qed.
(* ---- predicates and steps ---- *)
Definition pred_toks (ps : list expr) : toks :=
  flat_map (fun p => mkTok T_LeftBracket (lit "[") :: toks_of 0 p ++ [mkTok T_RightBracket (lit "]")]) ps.
Lemma pred_map : forall ps, map pfinal (flat_map (fun p => lbra :: print 0 p ++ [rbra]) ps) = pred_toks ps.
Proof.
  induction ps as [|p ps IH]; [reflexivity|]. cbn [flat_map]. rewrite map_app, IH. cbn [map]. rewrite map_app. reflexivity.
Qed.
Lemma pred_one : forall p r, okp p -> wf p ->
  parse_predicate S1 (mkTok T_LeftBracket (lit "[") :: toks_of 0 p ++ mkTok T_RightBracket (lit "]") :: r) = Ok (trk 0 p, r).
Proof.
  intros p r H W. destruct (H W) as [A _]. unfold parse_predicate. isT.
  match goal with |- context [parse_expr_with S1 ?t] => change (parse_expr_with S1 t) with (plevel 0 t) end.
  rewrite A by (cbn; lia). cbn [bind]. rewrite expect_ok. reflexivity.
Qed.
Lemma preds_ok : forall rv ps r, Forall okp ps -> Forall wf ps -> next_type r <> T_LeftBracket ->
  forall f, (len (pred_toks ps ++ r) < f)%nat ->
  predicate_list_loop S1 f rv (pred_toks ps ++ r) = Ok (predt rv ps, r).
Proof.
  intros rv ps r H. induction H as [|p ps Hp Hps IH]; intros W N f Lf; (destruct f as [|f]; [lia|]).
  - cbn [pred_toks flat_map app predicate_list_loop]. unfold parse_predicate.
    replace (next_is T_LeftBracket r) with false; [reflexivity|]. symmetry. unfold next_is.
    destruct (ttype_eqb (next_type r) T_LeftBracket) eqn:E; auto. apply ttype_eqb_eq in E. congruence.
  - inversion W; subst. cbn [pred_toks flat_map app] in *. rewrite <- app_assoc in *.
    cbn [app] in *. rewrite <- app_assoc in *. cbn [app] in *. cbn [predicate_list_loop].
    rewrite pred_one by auto. cbn [bind]. rewrite nn_if. fold (pred_toks ps) in *. rewrite IH; auto.
    cbn [List.length] in Lf. rewrite app_length in Lf. cbn [List.length] in Lf. lia.
Qed.
Lemma pred_list_ok : forall rv ps r, Forall okp ps -> Forall wf ps -> next_type r <> T_LeftBracket ->
  parse_predicate_list S1 rv (pred_toks ps ++ r) = Ok (predt rv ps, r).
Proof. intros. unfold parse_predicate_list. apply preds_ok; auto. Qed.
Lemma rev_ok : forall a, is_xnode_reverse_axis (anode a) = reverse_axis a.
Proof. destruct a; reflexivity. Qed.
Lemma all_forall : forall l, (fix all l := match l with [] => True | a :: r => wf a /\ all r end) l -> Forall wf l.
Proof. induction l; intro H; constructor; destruct H; auto. Qed.
Lemma opt_nn : forall n, wf_opt n -> n <> Some [].
Proof. intros n W ->. destruct W as [[] _]. Qed.
Lemma kind_ok : forall t q, kind_test t -> wf_test t ->
  parse_kind_test (map pfinal (test_toks t) ++ q) = Ok (test_tree t, q) /\
  parse_wildcard (map pfinal (test_toks t) ++ q) = ([], map pfinal (test_toks t) ++ q) /\
  parse_eqname [] (map pfinal (test_toks t) ++ q) = Ok ([], map pfinal (test_toks t) ++ q).
Proof.
  intros t q K W. destruct t; try destruct K; try (split; [reflexivity|split; reflexivity]);
    (destruct n as [[|c n]|]; [exfalso; eapply opt_nn; [exact W|reflexivity]| |]; (split; [reflexivity|split; reflexivity])).
Qed.
Lemma node_test_ok : forall a t ps r, wf_test t ->
  Forall okp ps -> Forall wf ps -> (oplev (next_type r) <= 19)%nat ->
  parse_node_test S1 (anode a) (map pfinal (test_toks t) ++ pred_toks ps ++ r) =
  Ok (XNode (anode a) (test_name t) (test_tree t) (predt (reverse_axis a) ps), r).
Proof.
  intros a t ps r Wt Hp Wp O.
  assert (Nr : next_type r <> T_LeftBracket) by (intro Q; rewrite Q in O; cbn in O; lia).
  assert (P := pred_list_ok (reverse_axis a) ps r Hp Wp Nr).
  assert (Nc : next_type (pred_toks ps ++ r) <> T_Colon /\ next_is T_ColonAsterisk (pred_toks ps ++ r) = false).
  { destruct ps as [|p ps]; [|split; [discriminate|reflexivity]]. cbn [pred_toks flat_map app].
    split; [intro Q; rewrite Q in O; cbn in O; lia|]. ty_cases O; reflexivity. }
  destruct Nc as [Nc1 Nc2]. unfold parse_node_test.
  assert (KT : kind_test t -> (let (w, t1) := parse_wildcard (map pfinal (test_toks t) ++ pred_toks ps ++ r) in
    do (n, t2) <- (if str_eqb w [] then parse_eqname [] t1 else Ok (w, t1));
    if negb (str_eqb n []) then
      do (p, t3) <- parse_predicate_list S1 (is_xnode_reverse_axis (anode a)) t2; Ok (XNode (anode a) n XNil p, t3)
    else
      do (k, t3) <- parse_kind_test t2;
      if is_nil k then Ok (XNil, t3)
      else do (p, t4) <- parse_predicate_list S1 (is_xnode_reverse_axis (anode a)) t3; Ok (XNode (anode a) [] k p, t4)) =
    Ok (XNode (anode a) [] (test_tree t) (predt (reverse_axis a) ps), r)).
  { intro K. destruct (kind_ok t (pred_toks ps ++ r) K Wt) as [E1 [E2 E3]]. rewrite E2. cbn [str_eqb]. rewrite E3. cbn [bind str_eqb negb].
    rewrite E1. cbn [bind]. replace (is_nil (test_tree t)) with false by (destruct t; try destruct K; reflexivity).
    rewrite rev_ok, P. reflexivity. }
  destruct t as [n| | | | |p n|p|n|n|n|n| |]; try (apply KT; exact I); clear KT; cbn [test_toks map app pfinal lpar rpar].
  - unfold parse_wildcard. cbn [next_type nxt t_type t_name adv tl]. rewrite Nc2. cbn [str_eqb].
    rewrite eqname_plain by (auto using plain_nn). cbn [bind str_eqb]. apply plain_nn in Wt. destruct n as [|c n]; [congruence|].
    cbn [str_eqb negb]. rewrite rev_ok, P. reflexivity.
  - unfold parse_wildcard. cbn [next_type nxt t_type t_name adv tl bind]. 
    change (str_eqb (lit "*") []) with false. cbn [bind]. change (str_eqb (lit "*") []) with false. cbn [negb].
    rewrite rev_ok, P. reflexivity.
  - destruct Wt as [Wp' Wn]. apply plain_nn in Wn. apply plain_nn in Wp'.
    match goal with |- context [parse_wildcard ?t] => change (parse_wildcard t) with (@nil char, t) end. cbn [str_eqb].
    rewrite eqname_colon by auto. cbn [bind]. destruct p as [|c p]; [congruence|]. cbn [app str_eqb negb]. rewrite rev_ok, P. reflexivity.
  - apply plain_nn in Wt. match goal with |- context [parse_wildcard (mkTok T_Name p :: ?x :: ?y)] =>
      change (parse_wildcard (mkTok T_Name p :: x :: y)) with (p ++ lit ":*", y) end.
    destruct p as [|c p]; [congruence|]. cbn [app str_eqb bind negb]. rewrite rev_ok, P. reflexivity.
  - match goal with |- context [parse_wildcard (?x :: mkTok T_Name n :: ?y)] =>
      change (parse_wildcard (x :: mkTok T_Name n :: y)) with (lit "*:" ++ n, y) end.
    change (str_eqb (lit "*:" ++ n) []) with false. cbv beta iota. unfold bind at 1. cbv beta iota. change (str_eqb (lit "*:" ++ n) []) with false. cbn [negb].
    rewrite rev_ok, P. reflexivity.
Qed.
(* a name that is not followed by "(", ":" or "#" is no primary expression *)
Lemma primary_name_nil : forall n r, n <> [] -> next_is T_LeftParen r = false -> next_is T_Sharp r = false ->
  next_type r <> T_Colon -> parse_primary_expr S1 (mkTok T_Name n :: r) = Ok (XNil, mkTok T_Name n :: r).
Proof.
  intros n r Hn H1 H2 H3. unfold parse_primary_expr. do 4 (rewrite or_else_nil by reflexivity).
  assert (E : str_eqb (lit "fn:" ++ n) [] = false) by reflexivity.
  rewrite or_else_nil; [|unfold parse_function_call; rewrite eqname_fn by auto; cbn [bind]; rewrite E, H1; reflexivity].
  rewrite or_else_nil; [reflexivity|]. rewrite or_else_nil; [reflexivity|].
  unfold parse_named_function_ref. rewrite eqname_fn by auto. cbn [bind]. rewrite E, H2. reflexivity.
Qed.
Lemma primary_qname_nil : forall p n r, p <> [] -> n <> [] -> next_is T_LeftParen r = false -> next_is T_Sharp r = false ->
  parse_primary_expr S1 (mkTok T_Name p :: mkTok T_Colon (lit ":") :: mkTok T_Name n :: r) =
  Ok (XNil, mkTok T_Name p :: mkTok T_Colon (lit ":") :: mkTok T_Name n :: r).
Proof.
  intros p n r Hp Hn H1 H2. unfold parse_primary_expr. do 4 (rewrite or_else_nil by reflexivity).
  assert (E : str_eqb (p ++ lit ":" ++ n) [] = false) by (destruct p; [congruence|reflexivity]).
  rewrite or_else_nil; [|unfold parse_function_call, parse_static_func_name; rewrite eqname_colon by auto; cbn [bind]; rewrite E, H1; reflexivity].
  rewrite or_else_nil; [reflexivity|]. rewrite or_else_nil; [reflexivity|].
  unfold parse_named_function_ref, parse_static_func_name. rewrite eqname_colon by auto. cbn [bind]. rewrite E, H2. reflexivity.
Qed.
Lemma postfix_nil : forall t, parse_primary_expr S1 t = Ok (XNil, t) -> parse_postfix_expr S1 t = Ok (XNil, t).
Proof. intros t H. unfold parse_postfix_expr. rewrite H. reflexivity. Qed.
Lemma step_ok : forall f t ps r, wf (EStep f t ps) -> Forall okp ps -> (oplev (next_type r) <= 19)%nat ->
  plevel 19 (map pfinal (body (EStep f t ps)) ++ r) = Ok (tr (EStep f t ps), r).
Proof.
  intros f t ps r [Wt Wp] Hp O. apply all_forall in Wp.
  assert (E : map pfinal (body (EStep f t ps)) ++ r = map pfinal (form_toks f) ++ map pfinal (test_toks t) ++ pred_toks ps ++ r).
  { unfold body. cbn [level print]. rewrite Nat.ltb_irrefl. cbn [parens]. rewrite !map_app, pred_map, <- !app_assoc. reflexivity. }
  rewrite E, tr_step. cbn [plevel]. assert (T := node_test_ok (form_axis f) t ps r Wt Hp Wp O).
  unfold parse_step_expr. destruct f as [a| |]; cbn [form_toks map app pfinal form_axis] in *.
  - rewrite or_else_nil by (apply postfix_nil; reflexivity). unfold parse_axis_step.
    cbn [next_type nxt t_type t_name adv tl]. rewrite expect_ok. cbn [bind].
    destruct a; cbn [axis_word anode reverse_axis] in *;
      match goal with |- context [assoc_str ?a ?b] => let v := eval vm_compute in (assoc_str a b) in change (assoc_str a b) with v end;
      cbn iota; exact T.
  - rewrite or_else_nil by (apply postfix_nil; reflexivity). unfold parse_axis_step.
    cbn [next_type nxt t_type t_name adv tl]. exact T.
  - assert (N : next_type (pred_toks ps ++ r) <> T_Colon /\ next_is T_LeftParen (pred_toks ps ++ r) = false /\
       next_is T_Sharp (pred_toks ps ++ r) = false).
    { destruct ps as [|p ps]; [|split; [discriminate|split; reflexivity]]. cbn [pred_toks flat_map app].
      split; [intro Q; rewrite Q in O; cbn in O; lia|]. split; ty_cases O; reflexivity. }
    destruct N as [N1 [N2 N3]].
    assert (NP : forall q, (exists ty n q', q = mkTok ty n :: q' /\ In ty [T_Name; T_Asterisk; T_AnyKindTest; T_TextTest; T_CommentTest;
       T_AsteriskColon; T_PITest; T_ElementTest; T_AttributeTest; T_DocumentTest; T_NamespaceNodeTest]) ->
       parse_axis_step S1 q = parse_node_test S1 X_AxisChild q).
    { intros q [ty [n [q' [-> Hty]]]]. unfold parse_axis_step. cbn [next_type nxt t_type].
      cbn [In] in Hty. repeat (destruct Hty as [<-|Hty]; [reflexivity|]). destruct Hty. }
    rewrite or_else_nil.
    + rewrite NP; [exact T|]. destruct t; cbn [test_toks map app pfinal]; do 3 eexists; (split; [reflexivity|cbn; tauto]).
    + apply postfix_nil. destruct t as [n| | | | |p n|p|n|n|n|n| |]; cbn [test_toks map app pfinal]; try reflexivity.
      * apply primary_name_nil; auto using plain_nn.
      * destruct Wt as [Wq Wn]. apply primary_qname_nil; auto using plain_nn.
Qed.

(* ---- paths ---- *)
Definition tail_toks (l : list (bool * expr)) : toks :=
  flat_map (fun x => pfinal (slash (fst x)) :: toks_of 19 (snd x)) l.
Lemma tail_map : forall l, map pfinal (flat_map (fun x : bool * expr => slash (fst x) :: print 19 (snd x)) l) = tail_toks l.
Proof. induction l as [|x l IH]; [reflexivity|]. cbn [flat_map]. rewrite map_app, IH. reflexivity. Qed.
Lemma tail_lev : forall l r, (oplev (next_type r) <= 18)%nat -> (oplev (next_type (tail_toks l ++ r)) <= 19)%nat.
Proof. intros [|[[] e] l] r O; cbn; [lia|lia|lia]. Qed.
Lemma tail_ok : forall l r, Forall (fun x => okp (snd x)) l -> Forall (fun x => wf (snd x)) l ->
  (oplev (next_type r) <= 18)%nat -> forall f, (len (tail_toks l ++ r) < f)%nat ->
  relative_loop S1 f (tail_toks l ++ r) = Ok (tailt l, r).
Proof.
  intros l r H. induction H as [|[d e] l He Hl IH]; intros W O f Lf; (destruct f as [|f]; [lia|]).
  - cbn [tail_toks flat_map app relative_loop]. ty_cases O; reflexivity.
  - inversion W; subst. cbn [snd] in *. destruct (He H1) as [A _].
    unfold tail_toks in *. cbn [flat_map fst snd app] in *. rewrite <- app_assoc in *. fold (tail_toks l) in *.
    assert (E : parse_step_expr S1 (toks_of 19 e ++ tail_toks l ++ r) = Ok (trk 19 e, tail_toks l ++ r)).
    { apply (A 19%nat); [lia|]. apply tail_lev. auto. }
    assert (R : relative_loop S1 f (tail_toks l ++ r) = Ok (tailt l, r)).
    { apply IH; auto. cbn [List.length] in Lf. rewrite app_length in Lf. lia. }
    cbn [relative_loop]. destruct d; cbn [slash pfinal next_type nxt t_type adv tl app];
      rewrite E; cbn [bind]; rewrite R; reflexivity.
Qed.
Lemma rel_ok : forall a rest r, okp a -> wf a -> Forall (fun x => okp (snd x)) rest -> Forall (fun x => wf (snd x)) rest ->
  (oplev (next_type r) <= 18)%nat ->
  parse_relative_path_expr S1 (toks_of 19 a ++ tail_toks rest ++ r) = Ok (relt a rest, r).
Proof.
  intros a rest r Ha Wa Hr Wr O. destruct (Ha Wa) as [A _]. unfold parse_relative_path_expr.
  assert (E : parse_step_expr S1 (toks_of 19 a ++ tail_toks rest ++ r) = Ok (trk 19 a, tail_toks rest ++ r)).
  { apply (A 19%nat); [lia|]. apply tail_lev. auto. }
  rewrite E. cbn [bind]. rewrite nn_if, tail_ok by auto. cbn [bind]. unfold relt. destruct rest as [|[[] e] rest]; reflexivity.
Qed.
Lemma tails_forall : forall l, (fix all (l : list (bool * expr)) := match l with [] => True | x :: r => wf (snd x) /\ all r end) l ->
  Forall (fun x => wf (snd x)) l.
Proof. induction l; intro H; constructor; destruct H; auto. Qed.
Lemma path_ok : forall s a rest r, wf (EPath s a rest) -> okp a -> Forall (fun x => okp (snd x)) rest ->
  (oplev (next_type r) <= 18)%nat ->
  plevel 18 (map pfinal (body (EPath s a rest)) ++ r) = Ok (tr (EPath s a rest), r).
Proof.
  intros s a rest r [Ws [Wa Wr]] Ha Hr O. apply tails_forall in Wr.
  assert (E : map pfinal (body (EPath s a rest)) ++ r = map pfinal (start_toks s) ++ toks_of 19 a ++ tail_toks rest ++ r).
  { unfold body. cbn [level print]. rewrite Nat.ltb_irrefl. cbn [parens]. rewrite !map_app, tail_map, <- !app_assoc. reflexivity. }
  rewrite E, tr_path. assert (R := rel_ok a rest r Ha Wa Hr Wr O). cbn [plevel]. unfold parse_path_expr.
  destruct s; cbn [start_toks slash map app pfinal].
  - assert (F := print_first a 19 (tail_toks rest ++ r) ltac:(lia)). ty_cases F; exact R.
  - cbn [next_type nxt t_type adv tl]. rewrite R. reflexivity.
  - cbn [next_type nxt t_type adv tl]. rewrite R. reflexivity.
Qed.

(* ---- arrays, maps, lookups, functions, types, several bindings ---- *)
Lemma single_nil_at : forall ty n r, In ty [T_RightParen; T_RightBracket; T_RightCurly] ->
  S1 (mkTok ty n :: r) = Ok (XNil, mkTok ty n :: r).
Proof.
  intros ty n r H. cbn [In] in H. unfold S1. rewrite parse_expr_single_unfold.
  destruct H as [<-|[<-|[<-|[]]]]; reflexivity.
Qed.
Lemma items_ok : forall es c r, Forall okp es -> Forall wf es -> oplev (t_type c) = 0%nat ->
  forall f, (len (args_toks es ++ c :: r) < f)%nat ->
  entry_chain f X_ArrayEntry S1 (args_toks es ++ c :: r) = Ok (itemt es, c :: r).
Proof.
  intros es c r H. induction H as [|a es Ha Hes IH]; intros W C f Lf; (destruct f as [|f]; [lia|]).
  - cbn [args_toks flat_map app entry_chain]. change (next_is T_Comma (c :: r)) with (ttype_eqb (t_type c) T_Comma).
    revert C. destruct (t_type c); intro C; try reflexivity; discriminate C.
  - inversion W; subst. destruct (Ha H1) as [A _].
    unfold args_toks in *. cbn [flat_map] in *. rewrite <- app_assoc in *. cbn [app] in *.
    set (rest := flat_map _ es ++ _) in *. cbn [entry_chain]. isT. s1 1%nat.
    rewrite A; [|lia|subst rest; destruct es; [change (oplev (t_type c) <= 1)%nat|cbn]; lia]. cbn [bind]. rewrite IH; auto.
    cbn [List.length] in Lf. rewrite app_length in Lf. lia.
Qed.
Lemma square_ok : forall es r, Forall okp es -> Forall wf es ->
  parse_square_array_constructor S1 (mkTok T_LeftBracket (lit "[") ::
     match es with [] => [] | a :: rest => toks_of 1 a ++ args_toks rest end ++ mkTok T_RightBracket (lit "]") :: r) =
  Ok (XNode X_SquareArray [] (itemt es) XNil, r).
Proof.
  intros es r H W. unfold parse_square_array_constructor. isT. unfold parse_entry_list. destruct H as [|a es Ha Hes].
  - cbn [app]. rewrite single_nil_at by (cbn; tauto). reflexivity.
  - inversion W; subst. destruct (Ha H1) as [A _]. rewrite <- app_assoc. s1 1%nat.
    rewrite A; [|lia|destruct es; cbn; lia]. cbn [bind]. rewrite nn_if, items_ok by auto. cbn [bind]. rewrite expect_ok. reflexivity.
Qed.
Definition entry_toks (x : expr * expr) : toks :=
  toks_of (key_level (fst x)) (fst x) ++ mkTok T_Colon (lit ":") :: toks_of 1 (snd x).
Definition entries_toks (l : list (expr * expr)) : toks := flat_map (fun x => mkTok T_Comma (lit ",") :: entry_toks x) l.
Lemma entry_ok : forall x r, okp (fst x) /\ okp (snd x) -> wf (fst x) /\ wf (snd x) -> (oplev (next_type r) <= 1)%nat ->
  parse_map_constructor_entry S1 (entry_toks x ++ r) =
  Ok (XNode X_MapEntry [] (trk (key_level (fst x)) (fst x)) (trk 1 (snd x)), r).
Proof.
  intros [k v] r [Hk Hv] [Wk Wv] O. cbn [fst snd] in *. unfold entry_toks, parse_map_constructor_entry. cbn [fst snd].
  rewrite <- app_assoc. cbn [app]. rewrite key_ok by auto. cbn [bind]. rewrite nn_if, expect_ok. cbn [bind].
  destruct (Hv Wv) as [A _]. s1 1%nat. rewrite A by (auto; lia). cbn [bind]. rewrite nn_if. reflexivity.
Qed.
Lemma entries_ok : forall es r, Forall (fun x => okp (fst x) /\ okp (snd x)) es -> Forall (fun x => wf (fst x) /\ wf (snd x)) es ->
  forall f, (len (entries_toks es ++ mkTok T_RightCurly (lit "}") :: r) < f)%nat ->
  entry_chain f X_MapConstruct (parse_map_constructor_entry S1) (entries_toks es ++ mkTok T_RightCurly (lit "}") :: r) =
  Ok (entryt es, mkTok T_RightCurly (lit "}") :: r).
Proof.
  intros es r H. induction H as [|a es Ha Hes IH]; intros W f Lf; (destruct f as [|f]; [lia|]).
  - reflexivity.
  - inversion W; subst. unfold entries_toks in *. cbn [flat_map app] in *. rewrite <- app_assoc in *.
    set (rest := flat_map _ es ++ _) in *. cbn [entry_chain]. isT.
    rewrite entry_ok; auto; [|subst rest; destruct es; cbn; lia]. cbn [bind]. rewrite IH; auto.
    cbn [List.length] in Lf. rewrite app_length in Lf. lia.
Qed.
Lemma map_ok : forall es r, Forall (fun x => okp (fst x) /\ okp (snd x)) es -> Forall (fun x => wf (fst x) /\ wf (snd x)) es ->
  parse_map_constructor S1 (mkTok T_Map (lit "map") :: mkTok T_LeftCurly (lit "{") ::
     match es with [] => [] | a :: rest => entry_toks a ++ entries_toks rest end ++ mkTok T_RightCurly (lit "}") :: r) =
  Ok (XNode X_Map [] (entryt es) XNil, r).
Proof.
  intros es r H W. unfold parse_map_constructor. isT. rewrite expect_ok. cbn [bind]. unfold parse_entry_list. destruct H as [|a es Ha Hes].
  - cbn [app]. unfold parse_map_constructor_entry at 1. rewrite single_nil_at by (cbn; tauto). reflexivity.
  - inversion W; subst. rewrite <- app_assoc. rewrite entry_ok; auto; [|destruct es; cbn; lia].
    cbn [bind is_nil]. rewrite entries_ok by auto. cbn [bind]. rewrite expect_ok. reflexivity.
Qed.
Lemma entries_map : forall l : list (expr * expr),
  map pfinal (flat_map (fun b => comma :: print (key_level (fst b)) (fst b) ++ PSym (lit ":") T_Colon :: print 1 (snd b)) l) = entries_toks l.
Proof.
  induction l as [|a l IH]; [reflexivity|]. cbn [flat_map]. rewrite map_app, IH. unfold entries_toks. cbn [flat_map map pfinal comma app].
  unfold entry_toks. rewrite map_app. reflexivity.
Qed.
Lemma entries_forall : forall l, (fix all (l : list (expr * expr)) := match l with [] => True | x :: r => (wf (fst x) /\ wf (snd x)) /\ all r end) l ->
  Forall (fun x => wf (fst x) /\ wf (snd x)) l.
Proof. induction l; intro H; constructor; destruct H; auto. Qed.
(* lookups *)
Lemma lookup_ok : forall k r, wf_key k -> parse_unary_lookup S1 (map pfinal (key_toks k) ++ r) = Ok (keyt k, r).
Proof. intros [n|d|] r W; reflexivity. Qed.
Lemma lookup_of_ok : forall k r, okp k -> wf k ->
  parse_unary_lookup S1 (mkTok T_Question (lit "?") :: mkTok T_LeftParen (lit "(") :: toks_of 0 k ++ mkTok T_RightParen (lit ")") :: r) =
  Ok (XNode X_UnaryLookupByExpr [] (XNode X_ParenthesizedExpr [] (trk 0 k) XNil) XNil, r).
Proof.
  intros k r H W. destruct (H W) as [A _]. unfold parse_unary_lookup. isT. cbn [next_type nxt t_type]. unfold parse_parenthesized_expr. isT.
  match goal with |- context [parse_expr_with S1 ?t] => change (parse_expr_with S1 t) with (plevel 0 t) end.
  rewrite A by (cbn; lia). cbn [bind]. rewrite expect_ok. reflexivity.
Qed.
Lemma key_nn : forall k, keyt k <> XNil.
Proof. intros [| |]; discriminate. Qed.
(* parameters *)
Definition params_toks (l : list str) : toks :=
  flat_map (fun q => [mkTok T_Comma (lit ","); mkTok T_Dollar (lit "$"); mkTok T_Name q]) l.
Lemma params_map : forall l, map pfinal (flat_map (fun q => [comma; dollar; PWord q]) l) = params_toks l.
Proof. induction l as [|a l IH]; [reflexivity|]. cbn [flat_map]. rewrite map_app, IH. reflexivity. Qed.
Lemma param_ok : forall p ty n r, plain_name p -> In ty [T_Comma; T_RightParen] ->
  parse_param (mkTok T_Dollar (lit "$") :: mkTok T_Name p :: mkTok ty n :: r) = Ok (XNode X_Param p default_sequence_type XNil, mkTok ty n :: r).
Proof.
  intros p ty n r Hp H. apply plain_nn in Hp. unfold parse_param. isT. cbn [In] in H.
  rewrite eqname_plain; [|auto|destruct H as [<-|[<-|[]]]; discriminate]. cbn [bind str_eqb]. destruct p as [|c p]; [congruence|].
  destruct H as [<-|[<-|[]]]; reflexivity.
Qed.
Lemma param_chain_ok : forall ps r, Forall plain_name ps -> forall f, (len (params_toks ps ++ mkTok T_RightParen (lit ")") :: r) < f)%nat ->
  comma_chain f parse_param (params_toks ps ++ mkTok T_RightParen (lit ")") :: r) = Ok (param_tree ps, mkTok T_RightParen (lit ")") :: r).
Proof.
  intros ps r H. induction H as [|p ps Hp Hps IH]; intros f Lf; (destruct f as [|f]; [lia|]).
  - reflexivity.
  - unfold params_toks in *. cbn [flat_map app] in *. fold (params_toks ps) in *. cbn [comma_chain]. isT.
    assert (E : exists ty n q, params_toks ps ++ mkTok T_RightParen (lit ")") :: r = mkTok ty n :: q /\ In ty [T_Comma; T_RightParen]).
    { destruct ps; cbn; eauto 8. }
    destruct E as [ty [n [q [E I]]]]. rewrite E in *. rewrite param_ok by auto. cbn [bind]. rewrite IH; [reflexivity|].
    cbn [List.length] in *. lia.
Qed.
Lemma param_list_ok : forall ps r, Forall plain_name ps ->
  parse_param_list (map pfinal (params ps) ++ mkTok T_RightParen (lit ")") :: r) = Ok (param_tree ps, mkTok T_RightParen (lit ")") :: r).
Proof.
  intros ps r H. unfold parse_param_list, parse_comma_list. destruct H as [|p ps Hp Hps]; [reflexivity|].
  cbn [params map pfinal dollar app]. rewrite params_map.
  assert (E : exists ty n q, params_toks ps ++ mkTok T_RightParen (lit ")") :: r = mkTok ty n :: q /\ In ty [T_Comma; T_RightParen]).
  { destruct ps; cbn; eauto 8. }
  assert (C := param_chain_ok ps r Hps). destruct E as [ty [n [q [E I]]]]. rewrite E in *. rewrite param_ok by auto. cbn [bind is_nil].
  rewrite C by lia. reflexivity.
Qed.
Lemma function_ok : forall ps b r, Forall plain_name ps -> okp b -> wf b ->
  parse_inline_function_expr S1 (mkTok T_Function (lit "function") :: mkTok T_LeftParen (lit "(") :: map pfinal (params ps) ++
     mkTok T_RightParen (lit ")") :: mkTok T_LeftCurly (lit "{") :: toks_of 0 b ++ mkTok T_RightCurly (lit "}") :: r) =
  Ok (XNode X_InlineFunction (lit "(inline function)") (trk 0 b) (XNode X_ReturnType [] default_sequence_type (param_tree ps)), r).
Proof.
  intros ps b r Hp H W. destruct (H W) as [A _]. unfold parse_inline_function_expr. isT. rewrite expect_ok. cbn [bind].
  rewrite param_list_ok by auto. cbn [bind]. rewrite expect_ok. cbn [bind].
  match goal with |- context [next_is T_Name (mkTok T_LeftCurly ?a :: ?b)] => change (next_is T_Name (mkTok T_LeftCurly a :: b)) with false end.
  cbn [andb bind]. unfold parse_function_body. rewrite expect_ok. cbn [bind].
  match goal with |- context [parse_expr_with S1 ?t] => change (parse_expr_with S1 t) with (plevel 0 t) end.
  rewrite A by (cbn; lia). cbn [bind]. rewrite expect_ok. reflexivity.
Qed.

(* arguments some of which are ? *)
Definition oarg_toks (x : option expr) : toks := match x with Some a => toks_of 1 a | None => [mkTok T_Question (lit "?")] end.
Definition oargs_toks (l : list (option expr)) : toks := flat_map (fun x => mkTok T_Comma (lit ",") :: oarg_toks x) l.
Definition owf (x : option expr) : Prop := match x with Some a => wf a | None => True end.
Lemma question_nil : forall ty n r, In ty [T_Comma; T_RightParen] ->
  S1 (mkTok T_Question (lit "?") :: mkTok ty n :: r) = Ok (XNil, mkTok T_Question (lit "?") :: mkTok ty n :: r).
Proof.
  intros ty n r H. cbn [In] in H. unfold S1. rewrite parse_expr_single_unfold. destruct H as [<-|[<-|[]]]; reflexivity.
Qed.
Definition oargn (x : option expr) : xnode :=
  match x with Some a => XNode X_ArgumentTop [] (trk 1 a) XNil | None => leaf X_ArgumentPlaceholder (lit "?") end.
Lemma oarg_ok : forall x ty n r, ofor okp x -> owf x -> In ty [T_Comma; T_RightParen] ->
  parse_argument S1 (oarg_toks x ++ mkTok ty n :: r) = Ok (oargn x, mkTok ty n :: r).
Proof.
  intros [a|] ty n r H W I; unfold parse_argument.
  - destruct (H W) as [A _]. cbn [oarg_toks]. s1 1%nat. rewrite A; [|lia|cbn in I; destruct I as [<-|[<-|[]]]; cbn; lia].
    cbn [bind]. rewrite nn_if. reflexivity.
  - cbn [oarg_toks app]. rewrite question_nil by auto. reflexivity.
Qed.
Lemma oargs_end : forall l r, exists ty n q, oargs_toks l ++ mkTok T_RightParen (lit ")") :: r = mkTok ty n :: q /\ In ty [T_Comma; T_RightParen].
Proof. intros [|x l] r; cbn; eauto 8. Qed.
Lemma oargt_cons : forall x l, set_right (oargn x) (oargt l) = oargt (x :: l).
Proof. intros [a|] l; reflexivity. Qed.
Lemma oargs_ok : forall l r, Forall (ofor okp) l -> Forall owf l ->
  forall f, (len (oargs_toks l ++ mkTok T_RightParen (lit ")") :: r) < f)%nat ->
  comma_chain f (parse_argument S1) (oargs_toks l ++ mkTok T_RightParen (lit ")") :: r) = Ok (oargt l, mkTok T_RightParen (lit ")") :: r).
Proof.
  intros l r H. induction H as [|x l Hx Hl IH]; intros W f Lf; (destruct f as [|f]; [lia|]).
  - reflexivity.
  - inversion W; subst. unfold oargs_toks in *. cbn [flat_map app] in *. rewrite <- app_assoc in *. fold (oargs_toks l) in *. cbn [comma_chain]. isT.
    destruct (oargs_end l r) as [ty [n [q [E I]]]]. rewrite E in *. rewrite oarg_ok by auto. cbn [bind].
    rewrite IH; [|auto|cbn [List.length] in Lf; rewrite app_length in Lf; lia]. cbn [bind]. rewrite oargt_cons. reflexivity.
Qed.
Lemma oarg_list_ok : forall l r, Forall (ofor okp) l -> Forall owf l ->
  parse_argument_list S1 (mkTok T_LeftParen (lit "(") ::
     match l with [] => [] | a :: rest => oarg_toks a ++ oargs_toks rest end ++ mkTok T_RightParen (lit ")") :: r) =
  Ok (oargt l, r).
Proof.
  intros l r H W. unfold parse_argument_list. rewrite expect_ok. cbn [bind]. destruct H as [|x l Hx Hl].
  - unfold parse_comma_list, parse_argument. cbn [app]. rewrite single_nil. reflexivity.
  - inversion W; subst. rewrite <- app_assoc. unfold parse_comma_list. assert (C := oargs_ok l r Hl H2).
    destruct (oargs_end l r) as [ty [n [q [E I]]]]. rewrite E in *. rewrite oarg_ok by auto. cbn [bind].
    replace (is_nil (oargn x)) with false by (destruct x; reflexivity). rewrite C by lia. cbn [bind]. rewrite oargt_cons. rewrite expect_ok. reflexivity.
Qed.
Lemma oargs_map : forall l : list (option expr),
  map pfinal (flat_map (fun b => comma :: match b with Some b => print 1 b | None => [quest] end) l) = oargs_toks l.
Proof.
  induction l as [|a l IH]; [reflexivity|]. cbn [flat_map]. rewrite map_app, IH. destruct a; reflexivity.
Qed.
Lemma owf_forall : forall l, (fix all (l : list (option expr)) := match l with [] => True | x :: r => match x with Some a => wf a | None => True end /\ all r end) l ->
  Forall owf l.
Proof. induction l; intro H; constructor; destruct H; auto. Qed.
Lemma chain_oargt : forall l, chain_length (oargt l) = List.length l.
Proof. induction l as [|[a|] l IH]; cbn; auto. Qed.
Lemma placeholder_oargt : forall l, In None l -> has_placeholder (oargt l) = true.
Proof. induction l as [|[a|] l IH]; intro H; [destruct H| |reflexivity]. destruct H as [H|H]; [discriminate|]. apply IH. auto. Qed.
Lemma primary_part : forall f args r, plain_name f -> In None args -> Forall (ofor okp) args -> Forall owf args ->
  check_function_spec (lit "fn:" ++ f) (List.length args) = true ->
  parse_primary_expr S1 (mkTok T_Name f :: mkTok T_LeftParen (lit "(") ::
     match args with [] => [] | a :: rest => oarg_toks a ++ oargs_toks rest end ++ mkTok T_RightParen (lit ")") :: r) =
  Ok (XNode X_PartialFunctionCall (lit "fn:" ++ f) XNil (oargt args), r).
Proof.
  intros f args r Hf Hn H W C. apply plain_nn in Hf. unfold parse_primary_expr. do 4 (rewrite or_else_nil by reflexivity).
  apply or_else_some; [|discriminate]. unfold parse_function_call. rewrite eqname_fn by (auto; discriminate). cbn [bind].
  change (str_eqb (lit "fn:" ++ f) []) with false. cbn iota.
  match goal with |- context [next_is T_LeftParen (?a :: ?b)] => change (next_is T_LeftParen (a :: b)) with true end. cbn iota.
  rewrite oarg_list_ok by auto. cbn [bind]. rewrite chain_oargt, placeholder_oargt, C by auto. reflexivity.
Qed.
Lemma primary_pcall : forall p f args r, In p prefixes -> plain_name f -> Forall okp args -> Forall wf args ->
  check_function_spec (p ++ lit ":" ++ f) (List.length args) = true ->
  parse_primary_expr S1 (mkTok T_Name p :: mkTok T_Colon (lit ":") :: mkTok T_Name f :: mkTok T_LeftParen (lit "(") ::
     match args with [] => [] | a :: rest => toks_of 1 a ++ args_toks rest end ++ mkTok T_RightParen (lit ")") :: r) =
  Ok (XNode X_FunctionCall (p ++ lit ":" ++ f) XNil (argt args), r).
Proof.
  intros p f args r Hp Hf H W C. apply plain_nn in Hf. unfold parse_primary_expr. do 4 (rewrite or_else_nil by reflexivity).
  apply or_else_some; [|discriminate]. unfold parse_function_call, parse_static_func_name. rewrite eqname_colon by auto. cbn [bind].
  replace (str_eqb (p ++ lit ":" ++ f) []) with false by (cbn [In prefixes] in Hp; destruct Hp as [<-|[<-|[<-|[]]]]; reflexivity).
  match goal with |- context [next_is T_LeftParen (?a :: ?b)] => change (next_is T_LeftParen (a :: b)) with true end. cbn iota.
  rewrite arg_list_ok by auto. cbn [bind]. rewrite chain_argt, placeholder_argt, C by auto. reflexivity.
Qed.
(* sequence types *)
Lemma item_ok : forall t r, wf_item t -> parse_item_type (map pfinal (item_toks t) ++ r) = Ok (item_tree t, r).
Proof.
  intros t r W. rewrite parse_item_type_unfold. unfold parse_item_body. destruct t as [|n|t| | |]; try reflexivity.
  - destruct W as [K W]. destruct (kind_ok t r K W) as [E _]. cbn [item_toks]. rewrite (or_else_some _ _ _ _ _ E); [reflexivity|].
    destruct t; try destruct K; discriminate.
Qed.
Lemma item_first : forall t q, wf_item t -> parse_kind_test_sub_none T_EmptySequence X_EmptySequenceTest (map pfinal (item_toks t) ++ q) = Ok (XNil, map pfinal (item_toks t) ++ q).
Proof. intros [|n|t| | |] q W; try reflexivity. destruct W as [K _]. destruct t; try destruct K; reflexivity. Qed.
Lemma item_nn : forall t, wf_item t -> is_nil (item_tree t) = false.
Proof. intros [|n|t| | |] W; try reflexivity. destruct W as [K _]. destruct t; try destruct K; reflexivity. Qed.
Lemma seq_ok : forall t r, wf_seq t ->
  match t with T_of _ C_one => match next_type r with T_Question | T_Asterisk | T_Plus => False | _ => True end | _ => True end ->
  parse_sequence_type (map pfinal (seq_toks t) ++ r) = Ok (seq_tree t, r).
Proof.
  intros [|t c] r W O; [reflexivity|]. unfold parse_sequence_type, parse_sequence_type_with. cbn [seq_toks]. rewrite map_app, <- app_assoc.
  rewrite item_first by auto. cbn [bind is_nil negb]. rewrite item_ok by auto. cbn [bind]. rewrite item_nn by auto.
  destruct c; try reflexivity. cbn [occ_toks map app]. destruct (next_type r); try destruct O; reflexivity.
Qed.
Lemma inst_ok : forall treat a t r, wf a -> wf_seq t -> okp a -> (oplev (next_type r) <= level (EInst treat a t))%nat ->
  plevel (level (EInst treat a t)) (map pfinal (body (EInst treat a t)) ++ r) = Ok (tr (EInst treat a t), r).
Proof.
  intros treat a t r Wa Wt Ha O. destruct (Ha Wa) as [A _].
  change (tr (EInst treat a t)) with (XNode (if treat then X_OperatorTreatAs else X_OperatorInstanceOf) [] (trk (if treat then 13 else 12)%nat a) (seq_tree t)).
  assert (E : map pfinal (body (EInst treat a t)) ++ r =
    toks_of (if treat then 13 else 12) a ++ pfinal (top (if treat then Y_treat else Y_instance)) :: map pfinal (seq_toks t) ++ r).
  { unfold body. cbn [print]. rewrite Nat.ltb_irrefl. cbn [parens]. rewrite map_app, <- app_assoc. reflexivity. }
  rewrite E. clear E.
  assert (B : plevel (if treat then 12 else 11) (toks_of (if treat then 13 else 12) a ++ pfinal (top (if treat then Y_treat else Y_instance)) :: map pfinal (seq_toks t) ++ r) =
    Ok (XNode (if treat then X_OperatorTreatAs else X_OperatorInstanceOf) [] (trk (if treat then 13 else 12)%nat a) (seq_tree t), r)).
  { match goal with |- context [toks_of _ a ++ ?q] => assert (E := A (if treat then 13 else 12)%nat q ltac:(destruct treat; lia) ltac:(destruct treat; cbn; lia)) end.
    assert (S : parse_sequence_type (map pfinal (seq_toks t) ++ r) = Ok (seq_tree t, r)).
    { apply seq_ok; auto. destruct t as [|t []]; auto. cbn [level] in O. ty_cases O; exact I. }
    assert (N : seq_tree t <> XNil) by (destruct t; discriminate).
    destruct treat; cbn [plevel]; refine (with_type_ok _ _ _ _ _ _ _ _ _ _ E S N). }
  assert (L : (level (EInst treat a t) <= if treat then 12 else 11)%nat) by (destruct t as [|t []], treat; cbn; lia).
  apply lift_to with (k' := if treat then 12%nat else 11%nat); auto; [destruct treat; lia|discriminate|].
  apply (fstok_mono _ (if treat then 13 else 12)%nat); [destruct treat; lia|]. apply print_first. destruct treat; lia.
Qed.
(* several bindings *)
Definition bind_toks (q : option quant) (l : list (str * expr)) : toks :=
  flat_map (fun y => mkTok T_Comma (lit ",") :: mkTok T_Dollar (lit "$") :: mkTok T_Name (fst y) :: pfinal (multi_in q) :: toks_of 1 (snd y)) l.
Lemma bind_map : forall q (l : list (str * expr)),
  map pfinal (flat_map (fun y => comma :: dollar :: PWord (fst y) :: multi_in q :: print 1 (snd y)) l) = bind_toks q l.
Proof. induction l as [|a l IH]; [reflexivity|]. cbn [flat_map]. rewrite map_app, IH. reflexivity. Qed.
Definition multi_binder (q : option quant) : parser :=
  match q with Some q => parse_simple_binding S1 (qbind q) | None => parse_simple_let_binding S1 end.
Lemma bind_one : forall q v e r, plain_name v -> okp e -> wf e -> (oplev (next_type r) <= 1)%nat ->
  multi_binder q (mkTok T_Dollar (lit "$") :: mkTok T_Name v :: pfinal (multi_in q) :: toks_of 1 e ++ r) =
  Ok (XNode (multi_bind q) v (trk 1 e) XNil, r).
Proof.
  intros q v e r Hv He We O. apply plain_nn in Hv. destruct (He We) as [A _].
  destruct q as [q|]; cbn [multi_binder multi_in multi_bind pfinal]; unfold parse_simple_binding, parse_simple_let_binding; isT;
    rewrite eqname_plain by (auto; discriminate); cbn [bind str_eqb]; (destruct v as [|c v]; [congruence|]);
    cbn [str_eqb]; rewrite ?expect_name_ok, ?expect_ok; cbn [bind]; s1 1%nat; rewrite A by (auto; lia); reflexivity.
Qed.
Lemma binds_ok : forall q b bs, Forall (fun x => okp (snd x)) bs -> Forall (fun x => wf (snd x)) bs -> Forall (fun x => plain_name (fst x)) bs ->
  okp b -> wf b -> forall r x, okp (snd x) -> wf (snd x) -> plain_name (fst x) -> (oplev (next_type r) <= 1)%nat ->
  forall f, (List.length bs < f)%nat ->
  bindings_loop S1 f (multi_binder q) (multi_last q) (mkTok T_Dollar (lit "$") :: mkTok T_Name (fst x) :: pfinal (multi_in q) :: toks_of 1 (snd x) ++
     bind_toks q bs ++ mkTok T_Name (multi_last q) :: toks_of 1 b ++ r) = Ok (bindt q b (x :: bs), r).
Proof.
  intros q b bs H. induction H as [|y bs Hy Hbs IH]; intros W P Hb Wb r x Hx Wx Px O f Lf; (destruct f as [|f]; [cbn in Lf; lia|]).
  - cbn [bind_toks flat_map app bindings_loop]. rewrite bind_one by (auto; cbn; lia). cbn [bind is_nil negb andb].
    match goal with |- context [next_is T_Comma (?a :: ?b)] => change (next_is T_Comma (a :: b)) with false end. cbn iota.
    rewrite expect_name_ok. cbn [bind]. destruct (Hb Wb) as [B _]. s1 1%nat. rewrite B by (auto; lia). reflexivity.
  - inversion W; subst. inversion P; subst. cbn [bindings_loop]. unfold bind_toks. cbn [flat_map app]. fold (bind_toks q bs).
    rewrite bind_one by (auto; cbn; lia). cbn [bind is_nil negb andb]. isT. rewrite <- app_assoc. rewrite IH by (auto; cbn in Lf; lia).
    reflexivity.
Qed.

Lemma binds_forall : forall l, (fix all (l : list (str * expr)) := match l with [] => True | x :: r => wf (snd x) /\ all r end) l ->
  Forall (fun x => wf (snd x)) l.
Proof. induction l; intro H; constructor; destruct H; auto. Qed.
Lemma arrow_runs : forall v a f args r, wf (EArrow v a f args) -> okp a -> Forall okp args -> (oplev (next_type r) <= 16)%nat ->
  aruns (map pfinal (body (EArrow v a f args)) ++ r) (tr (EArrow v a f args)) r.
Proof.
  intros v a f args r [Wa [Wf W]] Ha Hargs O. apply all_forall in W. destruct (Ha Wa) as [_ [_ [_ A]]]. rewrite tr_arrow. apply plain_nn in Wf.
  assert (E : map pfinal (body (EArrow v a f args)) ++ r = toks_of 15 a ++ mkTok T_Arrow (lit "=>") :: (if v then [mkTok T_Dollar (lit "$")] else []) ++
     mkTok T_Name f :: mkTok T_LeftParen (lit "(") :: match args with [] => [] | a :: rest => toks_of 1 a ++ args_toks rest end ++ mkTok T_RightParen (lit ")") :: r).
  { unfold body. cbn [level print]. rewrite Nat.ltb_irrefl. cbn [parens]. rewrite map_app, <- app_assoc. cbn [map app pfinal lpar]. do 2 f_equal.
    rewrite map_app, <- app_assoc. f_equal; [destruct v; reflexivity|]. cbn [map app pfinal lpar]. do 2 f_equal. rewrite map_app, <- app_assoc. f_equal.
    destruct args as [|b es]; [reflexivity|]. rewrite map_app, args_map. reflexivity. }
  rewrite E. clear E.
  match goal with |- context [toks_of 15 a ++ ?q] => destruct (A q ltac:(cbn; lia)) as [x1 [t1 [E1 E2]]] end.
  exists x1, t1. split; auto. eapply al_step; [exact E2|]. split.
  - destruct v; cbn [app List.length]; rewrite app_length; cbn [List.length]; lia.
  - intro fu. cbn [arrow_loop]. isT. destruct v; cbn [app].
    + match goal with |- context [parse_static_func_name ?t] => change (parse_static_func_name t) with (@Ok (str * toks) ([], t)) end.
      cbn [bind str_eqb negb]. unfold parse_varref. isT. rewrite eqname_plain by (auto; discriminate). cbn [bind str_eqb].
      destruct f as [|c f]; [congruence|]. cbn [str_eqb bind is_nil]. rewrite arg_list_ok by auto. reflexivity.
    + rewrite eqname_fn by (auto; discriminate). cbn [bind]. change (str_eqb (lit "fn:" ++ f) []) with false. cbn [negb].
      rewrite arg_list_ok by auto. reflexivity.
Qed.
Theorem okp_all : forall e, okp e.
Proof.
  induction e as [k s|n| | |f args Hargs|o a b Ha Hb|m a Ha|o a n Ha|c a n Ha|c a b Hc Ha Hb|q v e b He Hb|v e b He Hb
    |f t ps Hps| |a p Ha Hp|a args Ha Hargs| |s a rest Ha Hrest
    |es Hes|a Ha|es Hes|k|k Hk|a k Ha|a k Ha Hk|f d|ps b Hb|v a f args Ha Hargs|p f args Hargs|f args Hargs|treat a t Ha|q bs b Hbs Hb] using expr_ind2;
    intro W; (apply okp_of; [try (intro LV; cbn [level] in LV; congruence); intros _
      | try discriminate; try (destruct o; discriminate); try (destruct c; discriminate); try (destruct treat, t as [|? []]; discriminate)
      | try discriminate; try (destruct o; discriminate); try (destruct c; discriminate); try (destruct treat, t as [|? []]; discriminate); intros _
      | try discriminate; try (destruct o; discriminate); try (destruct c; discriminate); try (destruct treat, t as [|? []]; discriminate); intros _]).
  - intros r O. eexists. eexists. split; [|split; [|apply pl_refl]]; [|discriminate]. destruct k; reflexivity.
  - intros r O. eexists. eexists. split; [|split; [|apply pl_refl]]; [|discriminate]. unfold parse_primary_expr.
    rewrite or_else_nil by reflexivity. apply or_else_some; [|discriminate]. unfold parse_varref.
    change (map pfinal (body (EVar n)) ++ r) with (mkTok T_Dollar (lit "$") :: mkTok T_Name n :: r). isT.
    rewrite eqname_plain; [|apply plain_nn; auto|intro Q; rewrite Q in O; cbn in O; lia]. cbn [bind str_eqb].
    destruct n; [destruct W as [[] _]|reflexivity].
  - intros r O. eexists. eexists. split; [|split; [|apply pl_refl]]; [|discriminate]. reflexivity.
  - intros r O. eexists. eexists. split; [|split; [|apply pl_refl]]; [|discriminate]. apply (primary_paren (mkTok T_RightParen (lit ")") :: r)).
    apply expr_nil.
  - intros r O. apply wf_call in W. destruct W as [W1 [W2 W3]]. eexists. eexists. split; [|split; [|apply pl_refl]]; [|apply tr_nn].
    rewrite primary_call by (auto; apply plain_nn; auto). rewrite W2. reflexivity.
  - (* EBin *) intros r O. destruct W as [Wa [Wb _]]. rewrite bin_body. cbn [level] in *. destruct (Ha Wa) as [A1 [A2 _]].
    destruct (Hb Wb) as [B1 _]. rewrite <- app_assoc. cbn [app].
    assert (LB := blevel_le o).
    destruct (nonassoc o) eqn:NA.
    + assert (E := A1 (S (blevel o)) (pfinal (bop o) :: toks_of (S (blevel o)) b ++ r)).
      rewrite bop_lev in E. specialize (E ltac:(lia) ltac:(lia)).
      assert (F := B1 (S (blevel o)) r ltac:(lia) ltac:(lia)).
      change (tr (EBin o a b)) with (XNode (bnode o) (t_name (pfinal (bop o)))
                    (trk (if nonassoc o then S (blevel o) else blevel o) a) (trk (S (blevel o)) b)). rewrite NA.
      destruct o; try discriminate NA; cbn [blevel plevel] in *;
        unfold parse_comparison_expr, parse_range_expr, parse_bin_op_sub; rewrite E; cbn [bind bin_op_loop];
        cbn [next_type nxt t_type pfinal bop adv tl assoc_tt tbl_comparison tbl_range];
        match goal with |- context [assoc_tt ?a ?b] => let v := eval vm_compute in (assoc_tt a b) in change (assoc_tt a b) with v end || idtac;
        cbn; rewrite F; reflexivity.
    + apply runs_parse; auto; [apply leftk_blevel; auto|].
      destruct (A2 (blevel o) (pfinal (bop o) :: toks_of (S (blevel o)) b ++ r)) as [x1 [t1 [E1 E2]]].
      { apply leftk_blevel; auto. } { rewrite bop_lev. lia. }
      exists x1, t1. split; auto.
      change (tr (EBin o a b)) with (XNode (bnode o) (t_name (pfinal (bop o)))
                    (trk (if nonassoc o then S (blevel o) else blevel o) a) (trk (S (blevel o)) b)). rewrite NA.
      eapply lt_step in E2; [exact E2|apply bop_assoc; auto|]. cbn [adv tl]. apply B1; lia.
  - intros LK r O. destruct W as [Wa [Wb _]]. rewrite bin_body. cbn [level] in *. destruct (Ha Wa) as [A1 [A2 _]].
    destruct (Hb Wb) as [B1 _]. rewrite <- app_assoc. cbn [app].
    destruct (nonassoc o) eqn:NA; [exfalso; destruct o; discriminate|].
    assert (LB := blevel_le o).
    destruct (A2 (blevel o) (pfinal (bop o) :: toks_of (S (blevel o)) b ++ r)) as [x1 [t1 [E1 E2]]]; auto.
    { rewrite bop_lev. lia. }
    exists x1, t1. split; auto.
    change (tr (EBin o a b)) with (XNode (bnode o) (t_name (pfinal (bop o)))
                  (trk (if nonassoc o then S (blevel o) else blevel o) a) (trk (S (blevel o)) b)). rewrite NA.
    eapply lt_step in E2; [exact E2|apply bop_assoc; auto|]. cbn [adv tl]. apply B1; lia.
  - (* ESign *) intros r O. destruct (Ha W) as [A _].
    change (tr (ESign m a)) with (XNode (if m then X_OperatorUnaryMinus else X_OperatorUnaryPlus) (if m then lit "-" else lit "+")
                   XNil (trk 17 a)).
    change (map pfinal (body (ESign m a)) ++ r) with (mkTok (if m then T_Minus else T_Plus) (if m then lit "-" else lit "+") :: toks_of 17 a ++ r).
    cbn [level] in *. specialize (A 17%nat r ltac:(lia) ltac:(lia)). cbn [plevel] in *. unfold parse_unary_expr.
    destruct m; cbn [next_type nxt t_type adv tl]; rewrite A; reflexivity.
  - (* EType *) intros r O. destruct W as [Wa Wn]. destruct (Ha Wa) as [A _].
    change (tr (EType o a n)) with (XNode (tnode o) [] (trk (S (tlevel o)) a) (typetree o n)).
    assert (E : map pfinal (body (EType o a n)) ++ r = toks_of (S (tlevel o)) a ++ pfinal (top o) :: 
       mkTok T_Name (lit "xs") :: mkTok T_Colon (lit ":") :: mkTok T_Name n :: mkTok T_Question (lit "?") :: r).
    { unfold body. cbn [level print]. rewrite Nat.ltb_irrefl. cbn [parens]. rewrite map_app, <- app_assoc. reflexivity. }
    rewrite E. clear E. assert (Nn := plain_nn n Wn).
    assert (T : (oplev (t_type (pfinal (top o))) <= S (tlevel o) <= 20)%nat) by (destruct o; cbn; lia).
    match goal with |- context [toks_of _ a ++ ?q] => assert (E := A (S (tlevel o)) q ltac:(lia) ltac:(apply T)) end.
    destruct o; cbn [level tlevel plevel] in *; 
      (refine (with_type_ok _ _ _ _ _ _ _ _ _ _ E _ _); [|discriminate]); auto using seqtype_opt, single_type_q.
  - (* ECast *) intros r O. destruct W as [Wa Wn]. destruct (Ha Wa) as [A _].
    change (tr (ECast c a n)) with (XNode (if c then X_OperatorCastableAs else X_OperatorCastAs) []
                     (trk (if c then 14 else 15)%nat a)
                     (XNode X_SingleType [] (leaf X_TypeName (lit "xs:" ++ n)) XNil)).
    assert (E : map pfinal (body (ECast c a n)) ++ r = toks_of (if c then 14 else 15) a ++ pfinal (top (if c then Y_castable else Y_cast)) :: 
       mkTok T_Name (lit "xs") :: mkTok T_Colon (lit ":") :: mkTok T_Name n :: r).
    { unfold body. cbn [level print]. rewrite Nat.ltb_irrefl. cbn [parens]. rewrite map_app, <- app_assoc. reflexivity. }
    rewrite E. clear E. assert (Nn := plain_nn n Wn).
    assert (T : (oplev (t_type (pfinal (top (if c then Y_castable else Y_cast)))) <= (if c then 14 else 15) <= 20)%nat) by (destruct c; cbn; lia).
    match goal with |- context [toks_of _ a ++ ?q] => assert (E := A (if c then 14 else 15)%nat q ltac:(apply T) ltac:(apply T)) end.
    destruct c; cbn [level tlevel plevel] in *; 
      (refine (with_type_ok _ _ _ _ _ _ _ _ _ _ E _ _); [|discriminate]); (apply single_type_plain; [auto|ty_cases O; reflexivity]).
  - (* EIf *) intros r O. destruct W as [Wc [Wa Wb]]. destruct (Hc Wc) as [C _]. destruct (Ha Wa) as [A _]. destruct (Hb Wb) as [B _].
    assert (E : map pfinal (body (EIf c a b)) ++ r = mkTok T_If (lit "if") :: mkTok T_LeftParen (lit "(") ::
      toks_of 0 c ++ mkTok T_RightParen (lit ")") :: mkTok T_Name (lit "then") :: toks_of 1 a ++ mkTok T_Name (lit "else") :: toks_of 1 b ++ r).
    { unfold body. cbn [level print]. rewrite Nat.ltb_irrefl. cbn [parens map]. rewrite map_app. cbn [map]. rewrite map_app.
      cbn [app]. rewrite <- app_assoc. cbn [app]. rewrite <- app_assoc. reflexivity. }
    rewrite E. clear E. cbn [level plevel] in *. unfold S1. rewrite parse_expr_single_unfold. fold S1.
    unfold parse_single_body. do 3 (rewrite or_else_nil by reflexivity).
    apply or_else_some; [|discriminate]. unfold parse_if_expr. isT. rewrite expect_ok. cbn [bind].
    match goal with |- context [parse_expr_with S1 ?t] => change (parse_expr_with S1 t) with (plevel 0 t) end.
    rewrite C by (cbn; lia). cbn [bind]. rewrite nn_if, expect_ok. cbn [bind]. rewrite expect_name_ok. cbn [bind]. s1 1%nat.
    rewrite A by (cbn; lia). cbn [bind]. rewrite nn_if, expect_name_ok. cbn [bind]. s1 1%nat. rewrite B by (cbn; lia). cbn [bind].
    rewrite nn_if. reflexivity.
  - (* EBind *) intros r O. destruct W as [Wv [We Wb]].
    assert (E : map pfinal (body (EBind q v e b)) ++ r = pfinal (qword q) :: mkTok T_Dollar (lit "$") :: mkTok T_Name v ::
      mkTok T_Name (lit "in") :: toks_of 1 e ++ mkTok T_Name (qlast q) :: toks_of 1 b ++ r).
    { unfold body. cbn [level print]. rewrite Nat.ltb_irrefl. cbn [parens map]. rewrite map_app. cbn [map].
      cbn [app]. rewrite <- app_assoc. reflexivity. }
    rewrite E. clear E. cbn [level plevel] in *. unfold S1. rewrite parse_expr_single_unfold. fold S1.
    change (tr (EBind q v e b)) with (XNode (qnode q) (match q with Q_for => lit "for" | Q_some => lit "some" | Q_every => lit "every" end)
                       XNil (XNode (qbind q) v (trk 1 e) (trk 1 b))).
    unfold parse_single_body.
    destruct q; repeat (rewrite or_else_nil by reflexivity); (apply or_else_some; [|discriminate]);
      unfold parse_quantified_expr; repeat (rewrite or_else_nil by reflexivity); try (apply or_else_some; [|discriminate]);
      unfold parse_for_expr, parse_binding_expr; cbn [qlast]; isT;
      match goal with |- context [bindings_loop S1 (S ?f) (parse_simple_binding S1 ?ty) ?kw] =>
        rewrite (proj1 (binding_ok e b v kw kw ty r We Wb He Hb Wv O ltac:(discriminate) f)) end; reflexivity.
  - (* ELet *) intros r O. destruct W as [Wv [We Wb]].
    assert (E : map pfinal (body (ELet v e b)) ++ r = mkTok T_Let (lit "let") :: mkTok T_Dollar (lit "$") :: mkTok T_Name v ::
      mkTok T_Bind (lit ":=") :: toks_of 1 e ++ mkTok T_Name (lit "return") :: toks_of 1 b ++ r).
    { unfold body. cbn [level print]. rewrite Nat.ltb_irrefl. cbn [parens map]. rewrite map_app. cbn [map].
      cbn [app]. rewrite <- app_assoc. reflexivity. }
    rewrite E. clear E. cbn [level plevel] in *. unfold S1. rewrite parse_expr_single_unfold. fold S1.
    change (tr (ELet v e b)) with (XNode X_LetExpr (lit "let") XNil (XNode X_LetVarBind v (trk 1 e) (trk 1 b))).
    unfold parse_single_body. rewrite or_else_nil by reflexivity. apply or_else_some; [|discriminate].
    unfold parse_let_expr, parse_binding_expr. isT.
    match goal with |- context [bindings_loop S1 (S ?f) (parse_simple_let_binding S1) ?kw] =>
        rewrite (proj2 (binding_ok e b v kw kw X_Nil r We Wb He Hb Wv O ltac:(discriminate) f)) end. reflexivity.
  - (* EStep *) intros r O. apply step_ok; auto.
  - (* EParent *) intros r O. reflexivity.
  - (* EFilter *) intros r O. destruct W as [Wa Wp]. destruct (Ha Wa) as [_ [_ [A _]]].
    assert (E : map pfinal (body (EFilter a p)) ++ r = toks_of 20 a ++ mkTok T_LeftBracket (lit "[") :: toks_of 0 p ++ mkTok T_RightBracket (lit "]") :: r).
    { unfold body. cbn [level print]. rewrite Nat.ltb_irrefl. cbn [parens]. rewrite map_app, <- app_assoc. cbn [map app].
      rewrite map_app, <- app_assoc. reflexivity. }
    rewrite E. clear E. match goal with |- context [toks_of 20 a ++ ?q] => destruct (A q) as [x1 [t1 [E1 [E2 E3]]]]; [cbn; lia|] end.
    exists x1, t1. split; auto. split; auto.
    eapply (pl_step _ _ _ _ (XNode X_PredicateTop [] (trk 0 p) XNil) r) in E3; [exact E3| |discriminate].
    unfold parse_postfix. cbn [next_type nxt t_type]. rewrite pred_one by auto. reflexivity.
  - (* EDyn *) intros r O. destruct W as [Wa Wp]. apply all_forall in Wp. destruct (Ha Wa) as [_ [_ [A _]]]. rewrite tr_dyn.
    assert (E : map pfinal (body (EDyn a args)) ++ r = toks_of 20 a ++ mkTok T_LeftParen (lit "(") ::
      match args with [] => [] | a :: rest => toks_of 1 a ++ args_toks rest end ++ mkTok T_RightParen (lit ")") :: r).
    { unfold body. cbn [level print]. rewrite Nat.ltb_irrefl. cbn [parens]. rewrite map_app, <- app_assoc. cbn [map app pfinal lpar].
      do 2 f_equal. rewrite map_app, <- app_assoc. f_equal. destruct args as [|b args]; [reflexivity|]. rewrite map_app, args_map. reflexivity. }
    rewrite E. clear E. match goal with |- context [toks_of 20 a ++ ?q] => destruct (A q) as [x1 [t1 [E1 [E2 E3]]]]; [cbn; lia|] end.
    exists x1, t1. split; auto. split; auto.
    eapply (pl_step _ _ _ _ (XNode X_ArgumentListTop [] (argt args) XNil) r) in E3; [exact E3| |discriminate].
    unfold parse_postfix. cbn [next_type nxt t_type]. rewrite arg_list_ok by auto. reflexivity.
  - (* ERoot *) intros r O. eexists. eexists. split; [|split; [|apply pl_refl]]; [|discriminate].
    apply (primary_paren (mkTok T_Slash (lit "/") :: mkTok T_RightParen (lit ")") :: r)).
    cbn [plevel]. apply bin_none; [|reflexivity]. unfold S1. rewrite parse_expr_single_unfold. reflexivity.
  - (* EPath *) intros r O. apply path_ok; auto.
  - (* ESquare *) intros r O. apply all_forall in W. rewrite tr_square. eexists. eexists. split; [|split; [|apply pl_refl]]; [|discriminate].
    assert (E : map pfinal (body (ESquare es)) ++ r = mkTok T_LeftBracket (lit "[") ::
      match es with [] => [] | a :: rest => toks_of 1 a ++ args_toks rest end ++ mkTok T_RightBracket (lit "]") :: r).
    { unfold body. cbn [level print]. rewrite Nat.ltb_irrefl. cbn [parens map app pfinal lbra]. f_equal. rewrite map_app, <- app_assoc. f_equal.
      destruct es as [|b es]; [reflexivity|]. rewrite map_app, args_map. reflexivity. }
    rewrite E. unfold parse_primary_expr. do 7 (rewrite or_else_nil by reflexivity). apply or_else_some; [|discriminate].
    rewrite or_else_nil by reflexivity. apply square_ok; auto.
  - (* ECurly *) intros r O. destruct (Ha W) as [A _]. eexists. eexists. split; [|split; [|apply pl_refl]]; [|discriminate].
    change (tr (ECurly a)) with (XNode X_CurlyArray [] (trk 0 a) XNil).
    assert (E : map pfinal (body (ECurly a)) ++ r = mkTok T_Array (lit "array") :: mkTok T_LeftCurly (lit "{") :: toks_of 0 a ++ mkTok T_RightCurly (lit "}") :: r).
    { unfold body. cbn [level print]. rewrite Nat.ltb_irrefl. cbn [parens map app pfinal lcur]. rewrite map_app, <- app_assoc. reflexivity. }
    rewrite E. unfold parse_primary_expr. do 7 (rewrite or_else_nil by reflexivity). apply or_else_some; [|discriminate].
    apply or_else_some; [|discriminate]. unfold parse_curly_array_constructor. isT. rewrite expect_ok. cbn [bind].
    match goal with |- context [parse_expr_with S1 ?t] => change (parse_expr_with S1 t) with (plevel 0 t) end.
    rewrite A by (cbn; lia). cbn [bind]. rewrite expect_ok. reflexivity.
  - (* EMap *) intros r O. apply entries_forall in W. rewrite tr_map. eexists. eexists. split; [|split; [|apply pl_refl]]; [|discriminate].
    assert (E : map pfinal (body (EMap es)) ++ r = mkTok T_Map (lit "map") :: mkTok T_LeftCurly (lit "{") ::
      match es with [] => [] | a :: rest => entry_toks a ++ entries_toks rest end ++ mkTok T_RightCurly (lit "}") :: r).
    { unfold body. cbn [level print]. rewrite Nat.ltb_irrefl. cbn [parens map app pfinal lcur]. do 2 f_equal. rewrite map_app, <- app_assoc. f_equal.
      destruct es as [|b es]; [reflexivity|]. rewrite map_app. cbn [map]. rewrite map_app, entries_map. unfold entry_toks.
      rewrite <- !app_assoc. reflexivity. }
    rewrite E. unfold parse_primary_expr. do 6 (rewrite or_else_nil by reflexivity). apply or_else_some; [|discriminate]. apply map_ok; auto.
  - (* EKey *) intros r O. change (tr (EKey k)) with (keyt k). change (map pfinal (body (EKey k))) with (map pfinal (key_toks k)).
    eexists. eexists. split; [|split; [|apply pl_refl]]; [|apply key_nn]. unfold parse_primary_expr.
    do 8 (rewrite or_else_nil by reflexivity). apply lookup_ok; auto.
  - (* EKeyOf *) intros r O.
    change (tr (EKeyOf k)) with (XNode X_UnaryLookupByExpr [] (XNode X_ParenthesizedExpr [] (trk 0 k) XNil) XNil).
    assert (E : map pfinal (body (EKeyOf k)) ++ r = mkTok T_Question (lit "?") :: mkTok T_LeftParen (lit "(") :: toks_of 0 k ++ mkTok T_RightParen (lit ")") :: r).
    { unfold body. cbn [level print]. rewrite Nat.ltb_irrefl. cbn [parens map app pfinal quest lpar]. rewrite map_app, <- app_assoc. reflexivity. }
    rewrite E. eexists. eexists. split; [|split; [|apply pl_refl]]; [|discriminate]. unfold parse_primary_expr.
    do 8 (rewrite or_else_nil by reflexivity). apply lookup_of_ok; auto.
  - (* ELook *) intros r O. destruct W as [Wa Wk]. destruct (Ha Wa) as [_ [_ [A _]]].
    change (tr (ELook a k)) with (XNode X_OperatorMap [] (trk 20 a) (keyt k)).
    assert (E : map pfinal (body (ELook a k)) ++ r = toks_of 20 a ++ map pfinal (key_toks k) ++ r).
    { unfold body. cbn [level print]. rewrite Nat.ltb_irrefl. cbn [parens]. rewrite map_app, <- app_assoc. reflexivity. }
    rewrite E. clear E. match goal with |- context [toks_of 20 a ++ ?q] => destruct (A q) as [x1 [t1 [E1 [E2 E3]]]]; [destruct k; cbn; lia|] end.
    exists x1, t1. split; auto. split; auto. assert (L := lookup_ok k r Wk).
    eapply (pl_step _ _ _ _ (keyt k) r) in E3; [|destruct k; exact L|apply key_nn]. destruct k; exact E3.
  - (* ELookOf *) intros r O. destruct W as [Wa Wk]. destruct (Ha Wa) as [_ [_ [A _]]].
    change (tr (ELookOf a k)) with (XNode X_OperatorMap [] (trk 20 a) (XNode X_UnaryLookupByExpr [] (XNode X_ParenthesizedExpr [] (trk 0 k) XNil) XNil)).
    assert (E : map pfinal (body (ELookOf a k)) ++ r = toks_of 20 a ++ mkTok T_Question (lit "?") :: mkTok T_LeftParen (lit "(") :: toks_of 0 k ++ mkTok T_RightParen (lit ")") :: r).
    { unfold body. cbn [level print]. rewrite Nat.ltb_irrefl. cbn [parens]. rewrite map_app, <- app_assoc. cbn [map app pfinal quest lpar].
      rewrite map_app, <- app_assoc. reflexivity. }
    rewrite E. clear E. match goal with |- context [toks_of 20 a ++ ?q] => destruct (A q) as [x1 [t1 [E1 [E2 E3]]]]; [cbn; lia|] end.
    exists x1, t1. split; auto. split; auto. assert (L := lookup_of_ok k r Hk Wk).
    eapply pl_step in E3; [|exact L|discriminate]. exact E3.
  - (* ERef *) intros r O. destruct W as [Wf Wd]. apply plain_nn in Wf. eexists. eexists. split; [|split; [|apply pl_refl]]; [|discriminate].
    change (map pfinal (body (ERef f d)) ++ r) with (mkTok T_Name f :: mkTok T_Sharp (lit "#") :: mkTok T_IntegerLiteral d :: r).
    unfold parse_primary_expr. do 4 (rewrite or_else_nil by reflexivity).
    rewrite or_else_nil by (unfold parse_function_call; rewrite eqname_fn by (auto; discriminate); reflexivity).
    apply or_else_some; [|discriminate]. apply or_else_some; [|discriminate].
    unfold parse_named_function_ref. rewrite eqname_fn by (auto; discriminate). cbn [bind].
    change (str_eqb (lit "fn:" ++ f) []) with false. cbn iota. reflexivity.
  - (* EFun *) intros r O. destruct W as [Wp Wb]. eexists. eexists. split; [|split; [|apply pl_refl]]; [|discriminate].
    change (tr (EFun ps b)) with (XNode X_InlineFunction (lit "(inline function)") (trk 0 b) (XNode X_ReturnType [] default_sequence_type (param_tree ps))).
    assert (E : map pfinal (body (EFun ps b)) ++ r = mkTok T_Function (lit "function") :: mkTok T_LeftParen (lit "(") :: map pfinal (params ps) ++
       mkTok T_RightParen (lit ")") :: mkTok T_LeftCurly (lit "{") :: toks_of 0 b ++ mkTok T_RightCurly (lit "}") :: r).
    { unfold body. cbn [level print]. rewrite Nat.ltb_irrefl. cbn [parens map app pfinal lpar]. rewrite map_app, <- app_assoc. cbn [map app pfinal rpar lcur].
      rewrite map_app, <- app_assoc. reflexivity. }
    rewrite E. unfold parse_primary_expr. do 5 (rewrite or_else_nil by reflexivity). apply or_else_some; [|discriminate].
    rewrite or_else_nil by reflexivity. apply function_ok; auto.
  - (* EArrow *) intros r O. apply aruns_parse; auto. apply arrow_runs; auto.
  - intros r O. apply arrow_runs; auto.
  - (* EPCall *) intros r O. destruct W as [[Wp Wf] [C W]]. apply all_forall in W. rewrite tr_pcall.
    eexists. eexists. split; [|split; [|apply pl_refl]]; [|discriminate].
    assert (E : map pfinal (body (EPCall p f args)) ++ r = mkTok T_Name p :: mkTok T_Colon (lit ":") :: mkTok T_Name f :: mkTok T_LeftParen (lit "(") ::
       match args with [] => [] | a :: rest => toks_of 1 a ++ args_toks rest end ++ mkTok T_RightParen (lit ")") :: r).
    { unfold body. cbn [level print]. rewrite Nat.ltb_irrefl. cbn [parens map app pfinal lpar]. do 4 f_equal. rewrite map_app, <- app_assoc. f_equal.
      destruct args as [|b es]; [reflexivity|]. rewrite map_app, args_map. reflexivity. }
    rewrite E. apply primary_pcall; auto.
  - (* EPart *) intros r O. destruct W as [[Wf Wn] [C W]]. apply owf_forall in W. rewrite tr_part.
    eexists. eexists. split; [|split; [|apply pl_refl]]; [|discriminate].
    assert (E : map pfinal (body (EPart f args)) ++ r = mkTok T_Name f :: mkTok T_LeftParen (lit "(") ::
       match args with [] => [] | a :: rest => oarg_toks a ++ oargs_toks rest end ++ mkTok T_RightParen (lit ")") :: r).
    { unfold body. cbn [level print]. rewrite Nat.ltb_irrefl. cbn [parens map app pfinal lpar]. do 2 f_equal. rewrite map_app, <- app_assoc. f_equal.
      destruct args as [|[b|] es]; [reflexivity| |]; rewrite map_app, oargs_map; reflexivity. }
    rewrite E. apply primary_part; auto.
  - (* EInst *) intros r O. destruct W as [Wa Wt]. apply inst_ok; auto.
  - (* EMulti *) intros r O. destruct W as [[W1 W2] [Wb W3]]. apply binds_forall in W3. destruct bs as [|x bs]; [cbn in W1; lia|].
    assert (E : map pfinal (body (EMulti q (x :: bs) b)) ++ r = pfinal (multi_word q) :: mkTok T_Dollar (lit "$") :: mkTok T_Name (fst x) :: pfinal (multi_in q) :: toks_of 1 (snd x) ++
       bind_toks q bs ++ mkTok T_Name (multi_last q) :: toks_of 1 b ++ r).
    { unfold body. cbn [level print]. rewrite Nat.ltb_irrefl. cbn [parens map app pfinal dollar]. do 4 f_equal.
      rewrite !map_app, bind_map, <- !app_assoc. reflexivity. }
    rewrite E. clear E. cbn [level plevel] in *. unfold S1. rewrite parse_expr_single_unfold. fold S1. rewrite tr_multi.
    apply Forall_cons_iff in Hbs. destruct Hbs as [Hx Hbs]. apply Forall_cons_iff in W2. destruct W2 as [Px W2]. apply Forall_cons_iff in W3. destruct W3 as [Wx W3].
    assert (K := binds_ok q b bs Hbs W3 W2 Hb Wb r x Hx Wx Px O). unfold parse_single_body.
    assert (F : forall t, (List.length bs < S (len (mkTok T_Dollar (lit "$") :: mkTok T_Name (fst x) :: pfinal (multi_in q) :: toks_of 1 (snd x) ++
       bind_toks q bs ++ t)))%nat).
    { intro t. cbn [List.length]. rewrite !app_length. assert (Z : (List.length bs <= len (bind_toks q bs))%nat); [|lia].
      clear. induction bs as [|y bs IH]; [cbn; lia|]. unfold bind_toks. cbn [flat_map List.length]. rewrite app_length. fold (bind_toks q bs). cbn [List.length]. lia. }
    destruct q as [[]|]; cbn [multi_word qword pfinal]; repeat (rewrite or_else_nil by reflexivity); (apply or_else_some; [|discriminate]);
      unfold parse_quantified_expr; repeat (rewrite or_else_nil by reflexivity); try (apply or_else_some; [|discriminate]);
      unfold parse_for_expr, parse_let_expr, parse_binding_expr; isT;
      match goal with |- context [bindings_loop S1 ?f _ _ _] => specialize (K f) end; cbn [multi_binder multi_last qlast qbind multi_in pfinal] in K |- *;
      (rewrite K; [reflexivity|]); match goal with |- context [?m :: toks_of 1 b ++ r] => specialize (F (m :: toks_of 1 b ++ r)) end;
      cbn [multi_in pfinal List.length] in F |- *; lia.
Qed.
Theorem parse_print : forall e, wf e -> parse_main (map pfinal (print 0 e)) = Ok (trk 0 e).
Proof.
  intros e W. destruct (okp_all e W) as [A _]. unfold parse_main, parse_expr. fold S1.
  change (parse_expr_with S1) with (plevel 0). assert (E := A 0%nat [] ltac:(lia) ltac:(cbn; lia)).
  rewrite app_nil_r in E. unfold toks_of in E. rewrite E. reflexivity.
Qed.

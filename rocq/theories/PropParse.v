(* C41-C46, C51: compiling XPath expressions. *)
Require Import Bool List NArith ZArith Ascii String Lia.
From Verif Require Import Str StrFacts Chars Lexer FuncTable Parser ParserFacts ParserMono SpecLex LexFacts PropLex SpecExpr PrecFacts LexPrint ParserSfx.
Import ListNotations.
Open Scope N_scope.

(* ---- C43: the parser terminates: on every token list it returns a tree or an error (the recursion depth
   the model allows, the number of tokens, is never exhausted), and so does compilation unless it panics ---- *)
Theorem C43_parser_terminates : forall t, (exists x, parse_main t = Ok x) \/ (exists e, parse_main t = Err e).
Proof. intro t. assert (H := parse_main_wp t). destruct (parse_main t); cbn in H; eauto; destruct H. Qed.
Print Assumptions C43_parser_terminates.
Theorem C43_compile_terminates : forall s, compile_xpath s <> Fuel.
Proof.
  intros s E. unfold compile_xpath, lexer_new in E.
  destruct (raw_tokens_step (S (List.length s)) s) as [Q1 [Q2 Q3]]; auto.
  destruct (raw_tokens s) as [ts|e| |] eqn:R; cbn [bind] in E; try discriminate; [|congruence].
  destruct (rewrite_operator_type T_EOF ts); cbn [bind] in E; [discriminate|].
  destruct (C43_parser_terminates (tokens_of (eof_token :: rewrite_name_and_symbol (eliminate_nops (rewrite_pair_words (t :: l))) ++ [eof_token])))
    as [[x Q]|[x Q]]; congruence.
Qed.
Print Assumptions C43_compile_terminates.

(* ---- C41: compiling panics on exactly the expressions that contain no token ---- *)
Theorem C41_compile_panics_partial : forall s, ~ In 0 s -> (compile_xpath s = Panic <-> ignorable s).
Proof.
  intros s H0. rewrite <- (C41_lexer_panics_iff_no_token s H0). unfold compile_xpath. split; intro E.
  - destruct (lexer_new s) as [v|e| |] eqn:L; cbn [bind] in E; auto; try discriminate.
    destruct (C43_parser_terminates (tokens_of v)) as [[x Q]|[x Q]]; congruence.
  - rewrite E. reflexivity.
Qed.
Print Assumptions C41_compile_panics_partial.
(* the full claim fails *)
Theorem C41_compile_refuted : compile_xpath [] = Panic /\ compile_xpath (lit "(: nothing :)") = Panic.
Proof. split; vm_compute; reflexivity. Qed.
Print Assumptions C41_compile_refuted.
Example C41_example : ~ In 0 (lit "1 + ") /\ ~ ignorable (lit "1") /\ compile_xpath (lit "1 +") <> Panic /\
  exists e, compile_xpath (lit "1 + )") = Err e.
Proof.
  split; [vm_compute; intuition discriminate|]. split.
  - intro H. assert (N : ~ In 0 (lit "1")) by (vm_compute; intuition discriminate).
    apply (proj2 (C41_lexer_panics_iff_no_token _ N)) in H. vm_compute in H. discriminate.
  - split; [vm_compute; discriminate|eexists; vm_compute; reflexivity].
Qed.

(* ---- C42: operator precedence ---- *)
(* The text of every expression, written with the fewest parentheses the grammar allows, compiles to a tree
   that stands for that expression. *)
Theorem C42_precedence : forall e, wf e -> exists x, compile_xpath (source e) = Ok x /\ reads x e.
Proof.
  intros e W. exists (trk 0 e). split; [|apply reads_trk; auto]. unfold compile_xpath. rewrite lexer_print by auto. cbn [bind].
  unfold tokens_of. cbn [tl]. rewrite removelast_last. apply parse_print. auto.
Qed.
Print Assumptions C42_precedence.

(* A tree stands for one expression only, up to spellings: | and union, the abbreviated axes, f(...) and
   fn:f(...), the arrow and the call it stands for, a lookup e?k and the map operator e!(?k), a lookup by a
   literal and by that literal in parentheses, and the two ways SpecExpr has of writing xs:n?. *)
Definition spell_key (k : lookup) : expr :=
  match k with
  | K_name n => EKeyOf (ELit L_string n)
  | K_number d => EKeyOf (ELit L_integer d)
  | K_all => EKey K_all
  end.
Fixpoint spell (e : expr) : expr :=
  match e with
  | ELit k s => ELit k s
  | EVar n => EVar n
  | EDot => EDot
  | EEmpty => EEmpty
  | ECall f args => ECall f (map spell args)
  | EBin o a b => EBin (match o with O_bar => O_union | _ => o end) (spell a) (spell b)
  | ESign m a => ESign m (spell a)
  | EType o a n =>
      match o with
      | Y_instance => EInst false (spell a) (T_of (I_atomic n) C_opt)
      | Y_treat => EInst true (spell a) (T_of (I_atomic n) C_opt)
      | _ => EType o (spell a) n
      end
  | ECast c a n => ECast c (spell a) n
  | EIf c a b => EIf (spell c) (spell a) (spell b)
  | EBind q v e b => EBind q v (spell e) (spell b)
  | ELet v e b => ELet v (spell e) (spell b)
  | EStep f t ps => EStep (F_axis (form_axis f)) t (map spell ps)
  | EParent => EParent
  | EFilter a p => EFilter (spell a) (spell p)
  | EDyn a args => EDyn (spell a) (map spell args)
  | ERoot => ERoot
  | EPath s a rest => EPath s (spell a) (map (fun x => (fst x, spell (snd x))) rest)
  | ESquare es => ESquare (map spell es)
  | ECurly e => ECurly (spell e)
  | EMap es => EMap (map (fun x => (spell (fst x), spell (snd x))) es)
  | EKey k => spell_key k
  | EKeyOf k => EKeyOf (spell k)
  | ELook a k => EBin O_map (spell a) (spell_key k)
  | ELookOf a k => EBin O_map (spell a) (EKeyOf (spell k))
  | ERef f d => ERef f d
  | EFun ps b => EFun ps (spell b)
  | EArrow v a f args =>
      if v then EDyn (EVar f) (spell a :: map spell args) else ECall f (spell a :: map spell args)
  | EPCall p f args => if str_eqb p (lit "fn") then ECall f (map spell args) else EPCall p f (map spell args)
  | EPart f args => EPart f (map (fun x => match x with Some a => Some (spell a) | None => None end) args)
  | EInst treat a t => EInst treat (spell a) t
  | EMulti q bs b => EMulti q (map (fun x => (fst x, spell (snd x))) bs) (spell b)
  end.
Lemma plain_no_question : forall n, plain_name n -> ~ In 63 n.
Proof.
  intros [|c n] [H _]; [destruct H|]. destruct H as [H1 H2]. intros [E|E]; [subst; discriminate|].
  rewrite Forall_forall in H2. specialize (H2 63 E). discriminate.
Qed.
Scheme reads_mind := Induction for reads Sort Prop with reads_op_mind := Induction for reads_op Sort Prop
  with reads_rel_mind := Induction for reads_rel Sort Prop with reads_tail_mind := Induction for reads_tail Sort Prop
  with reads_preds_mind := Induction for reads_preds Sort Prop with reads_args_mind := Induction for reads_args Sort Prop
  with reads_oargs_mind := Induction for reads_oargs Sort Prop with reads_items_mind := Induction for reads_items Sort Prop
  with reads_entries_mind := Induction for reads_entries Sort Prop with reads_binds_mind := Induction for reads_binds Sort Prop.
Ltac xkill := match goal with H : @eq xtype _ _ |- _ =>
  exfalso; repeat (match type of H with context [?v] => is_var v; destruct v end); discriminate H end.
Lemma reads_nil : forall e, ~ reads XNil e.
Proof. intros e H. inversion H. Qed.
Ltac inv R := inversion R; subst; try xkill; try (exfalso; eapply reads_nil; eassumption).
Ltac tail_eq := repeat match goal with
  | E : _ ++ _ = _ ++ _ |- _ => first [apply app_inv_head in E | apply app_inv_tail in E]
  | E : leaf _ _ = leaf _ _ |- _ => injection E as E
  | E : XNode _ _ _ _ = XNode _ _ _ _ |- _ => injection E; clear E; intros end.
Ltac qm W := exfalso; apply (plain_no_question _ W); match goal with E : _ = _ ++ _ |- _ => rewrite E | E : _ ++ _ = _ |- _ => rewrite <- E end;
  apply in_app_iff; cbn; auto.
Lemma plain_no_paren : forall n, plain_name n -> ~ In 40 n.
Proof.
  intros [|c n] [H _]; [destruct H|]. destruct H as [H1 H2]. intros [E|E]; [subst; discriminate|].
  rewrite Forall_forall in H2. specialize (H2 40 E). discriminate.
Qed.
Lemma plain_no_star : forall n, plain_name n -> n <> lit "*".
Proof. intros n [H _] ->. destruct H as [H _]. discriminate. Qed.
Lemma plain_avoids : forall c n, nc_start c = false -> nc_char c = false -> plain_name n -> ~ In c n.
Proof.
  intros c [|d n] H1 H2 [H _]; [destruct H|]. destruct H as [H3 H4]. intros [E|E]; [subst; congruence|].
  rewrite Forall_forall in H4. specialize (H4 c E). congruence.
Qed.
Lemma plain_no_colon : forall n, plain_name n -> ~ In 58 n.
Proof. intros n. apply plain_avoids; reflexivity. Qed.
Lemma plain_starless : forall n, plain_name n -> ~ In 42 n.
Proof. intros n. apply plain_avoids; reflexivity. Qed.
Lemma mem_not : forall c s, ~ In c s -> mem_char c s = false.
Proof.
  intros c s H. destruct (mem_char c s) eqn:E; auto. exfalso. apply H. unfold mem_char in E. apply existsb_exists in E.
  destruct E as [d [H1 H2]]. apply N.eqb_eq in H2. subst. auto.
Qed.
Lemma mem_in : forall c s, In c s -> mem_char c s = true.
Proof. intros c s H. unfold mem_char. apply existsb_exists. exists c. split; auto. apply N.eqb_refl. Qed.
Lemma plain_head : forall n, plain_name n -> match n with c :: _ => c =? 42 | [] => false end = false.
Proof.
  intros [|c n] H; auto. destruct (N.eqb_spec c 42) as [->|]; auto. exfalso. apply (plain_starless _ H). left. auto.
Qed.
(* The expression a tree stands for, read off the tree. *)
Fixpoint cut (c : N) (s : str) : str * str :=
  match s with
  | [] => ([], [])
  | d :: r => if d =? c then ([], r) else let (a, b) := cut c r in (d :: a, b)
  end.
Lemma cut_app : forall c a b, ~ In c a -> cut c (a ++ c :: b) = (a, b).
Proof.
  induction a as [|d a IH]; intros b H; cbn [app cut]; [rewrite N.eqb_refl; reflexivity|].
  destruct (N.eqb_spec d c) as [->|_]; [exfalso; apply H; left; reflexivity|].
  rewrite IH; [reflexivity|intro; apply H; right; auto].
Qed.
Lemma cut_none : forall c a, ~ In c a -> cut c a = (a, []).
Proof.
  induction a as [|d a IH]; intros H; cbn [cut]; [reflexivity|].
  destruct (N.eqb_spec d c) as [->|_]; [exfalso; apply H; left; reflexivity|].
  rewrite IH; [reflexivity|intro; apply H; right; auto].
Qed.
Definition kind_of (x : xnode) : nodetest :=
  match x with
  | XNode _ _ (XNode t n _ _) _ =>
      match t with
      | X_AnyKindTest => N_node | X_TextTest => N_text | X_CommentTest => N_comment
      | X_PITest => N_pi (match n with [] => None | _ => Some n end)
      | X_ElementTest => N_element (if str_eqb n (lit "*") then None else Some n)
      | X_AttributeTest => N_attribute (if str_eqb n (lit "*") then None else Some n)
      | X_DocumentTest => N_document | _ => N_namespace
      end
  | _ => N_any
  end.
Definition test_of (n : str) (x : xnode) : nodetest :=
  match x with
  | XNil =>
      if str_eqb n (lit "*") then N_any else
      if negb (mem_char 58 n) then N_name n else
      let (p, m) := cut 58 n in
      if str_eqb p (lit "*") then N_local m else if str_eqb m (lit "*") then N_prefix p else N_qname p m
  | _ => kind_of x
  end.
Definition item_of (x : xnode) : itemtype :=
  match x with
  | XNode X_ItemTest _ _ _ => I_item
  | XNode X_AtomicOrUnionType n _ _ => I_atomic (skipn 3 n)
  | XNode X_AnyFunctionTest _ _ _ => I_function
  | XNode X_MapTest _ _ _ => I_map
  | XNode X_ArrayTest _ _ _ => I_array
  | _ => I_test (kind_of x)
  end.
Definition seq_of (x : xnode) : seqtype :=
  match x with
  | XNode _ _ (XNode X_EmptySequenceTest _ _ _) _ => T_empty
  | XNode _ n l _ => T_of (item_of l)
      (match n with [] => C_one | c :: _ => if c =? 63 then C_opt else if c =? 42 then C_many else C_some end)
  | XNil => T_empty
  end.
Definition bin_of (t : xtype) : option binop :=
  match t with
  | X_OperatorConcatenate => Some O_comma | X_OperatorOr => Some O_or | X_OperatorAnd => Some O_and
  | X_OperatorValueEQ => Some O_eq | X_OperatorValueNE => Some O_ne | X_OperatorValueLT => Some O_lt
  | X_OperatorValueLE => Some O_le | X_OperatorValueGT => Some O_gt | X_OperatorValueGE => Some O_ge
  | X_OperatorGeneralEQ => Some O_geq | X_OperatorGeneralNE => Some O_gne | X_OperatorGeneralLT => Some O_glt
  | X_OperatorGeneralLE => Some O_gle | X_OperatorGeneralGT => Some O_ggt | X_OperatorGeneralGE => Some O_gge
  | X_OperatorIsSameNode => Some O_is | X_OperatorNodeBefore => Some O_before | X_OperatorNodeAfter => Some O_after
  | X_OperatorConcat => Some O_concat | X_OperatorTo => Some O_to | X_OperatorAdd => Some O_add | X_OperatorSubtract => Some O_sub
  | X_OperatorMultiply => Some O_mul | X_OperatorDiv => Some O_div | X_OperatorIDiv => Some O_idiv | X_OperatorMod => Some O_mod
  | X_OperatorUnion => Some O_union | X_OperatorIntersect => Some O_intersect | X_OperatorExcept => Some O_except
  | X_OperatorMap => Some O_map
  | _ => None
  end.
Definition axis_of (t : xtype) : axis :=
  match t with
  | X_AxisAncestor => A_ancestor | X_AxisAncestorOrSelf => A_ancestor_or_self | X_AxisAttribute => A_attribute
  | X_AxisChild => A_child | X_AxisDescendant => A_descendant | X_AxisDescendantOrSelf => A_descendant_or_self
  | X_AxisFollowing => A_following | X_AxisFollowingSibling => A_following_sibling | X_AxisParent => A_parent
  | X_AxisPreceding => A_preceding | X_AxisPrecedingSibling => A_preceding_sibling | _ => A_self
  end.
Definition bind_of (t : xtype) : option (option quant) :=
  match t with
  | X_ForVarBind => Some (Some Q_for) | X_SomeVarBind => Some (Some Q_some) | X_EveryVarBind => Some (Some Q_every)
  | X_LetVarBind => Some None | _ => None
  end.
Definition is_bind (x : xnode) : bool :=
  match x with XNode t _ _ _ => match bind_of t with Some _ => true | None => false end | XNil => false end.
Fixpoint params_of (x : xnode) : list str :=
  match x with XNode _ p _ r => p :: params_of r | XNil => [] end.
Definition is_any_depth (x : xnode) : bool :=
  match x with XNode X_AxisDescendantOrSelf n XNil XNil => str_eqb n (lit "node()") | _ => false end.
Definition is_root (x : xnode) : bool := match x with XNode X_AxisRoot _ _ _ => true | _ => false end.
Definition unmulti (e : expr) : expr :=
  match e with
  | EMulti (Some q) [(v, e)] b => EBind q v e b
  | EMulti None [(v, e)] b => ELet v e b
  | e => e
  end.
Definition more_binds (q : option quant) (v : str) (e rest : expr) : expr :=
  match rest with EMulti _ bs b => EMulti q ((v, e) :: bs) b | b => b end.
Fixpoint canon (x : xnode) : expr :=
  match x with
  | XNil => EDot
  | XNode t n l r =>
      match t with
      | X_ParenthesizedExpr => match l with XNil => EEmpty | _ => canon l end
      | X_StringLiteral => ELit L_string n | X_IntegerLiteral => ELit L_integer n
      | X_DecimalLiteral => ELit L_decimal n | X_DoubleLiteral => ELit L_double n
      | X_VarRef => EVar n
      | X_ContextItem => EDot
      | X_FunctionCall => let (p, f) := cut 58 n in if str_eqb p (lit "fn") then ECall f (cargs r) else EPCall p f (cargs r)
      | X_OperatorUnaryMinus => ESign true (canon r)
      | X_OperatorUnaryPlus => ESign false (canon r)
      | X_OperatorInstanceOf => EInst false (canon l) (seq_of r)
      | X_OperatorTreatAs => EInst true (canon l) (seq_of r)
      | X_OperatorCastAs | X_OperatorCastableAs =>
          let o := match t with X_OperatorCastAs => false | _ => true end in
          match r with
          | XNode _ _ (XNode _ m _ _) _ =>
              if mem_char 63 m then EType (if o then Y_castable else Y_cast) (canon l) (fst (cut 63 (skipn 3 m)))
              else ECast o (canon l) (skipn 3 m)
          | _ => EDot
          end
      | X_IfExpr => match r with XNode _ _ y z => EIf (canon l) (canon y) (canon z) | XNil => EDot end
      | X_ForExpr | X_SomeExpr | X_EveryExpr | X_LetExpr => unmulti (canon r)
      | X_ForVarBind | X_SomeVarBind | X_EveryVarBind | X_LetVarBind =>
          match bind_of t with
          | Some q => if is_bind r then more_binds q n (canon l) (canon r) else EMulti q [(n, canon l)] (canon r)
          | None => EDot
          end
      | X_ApplyPredicate => match r with XNode _ _ y _ => EFilter (canon l) (canon y) | XNil => EDot end
      | X_ApplyArgument => match r with XNode _ _ y _ => EDyn (canon l) (cargs y) | XNil => EDot end
      | X_OperatorPath =>
          if is_root l then
            match r with
            | XNil => ERoot
            | XNode X_OperatorPath _ l1 r1 =>
                if is_root l1 then EPath S_root ERoot [] else
                if is_any_depth l1 then
                  match r1 with
                  | XNode X_OperatorPath _ l2 r2 => if is_root l2 then EPath S_all ERoot [] else EPath S_all (canon l2) (ctail r2)
                  | _ => EPath S_all (canon r1) []
                  end
                else EPath S_root (canon l1) (ctail r1)
            | _ => EPath S_root (canon r) []
            end
          else EPath S_here (canon l) (ctail r)
      | X_SquareArray => ESquare (cargs l)
      | X_CurlyArray => ECurly (canon l)
      | X_Map => EMap (centries l)
      | X_UnaryLookupByExpr => EKeyOf (canon l)
      | X_UnaryLookupByWildcard => EKey K_all
      | X_NamedFunctionRef => let (f, d) := cut 35 (skipn 3 n) in ERef f d
      | X_InlineFunction => match r with XNode _ _ _ ps => EFun (params_of ps) (canon l) | XNil => EDot end
      | X_PartialFunctionCall => EPart (skipn 3 n) (coargs r)
      | X_AxisParent =>
          if str_eqb n (lit "node()") then EParent else EStep (F_axis A_parent) (test_of n l) (cargs r)
      | _ =>
          match bin_of t with
          | Some o => EBin o (canon l) (canon r)
          | None => EStep (F_axis (axis_of t)) (test_of n l) (cargs r)
          end
      end
  end
with cargs (x : xnode) : list expr := match x with XNil => [] | XNode _ _ l r => canon l :: cargs r end
with coargs (x : xnode) : list (option expr) :=
  match x with
  | XNil => []
  | XNode X_ArgumentPlaceholder _ _ r => None :: coargs r
  | XNode _ _ l r => Some (canon l) :: coargs r
  end
with centries (x : xnode) : list (expr * expr) :=
  match x with XNode _ _ (XNode _ _ k v) r => (canon k, canon v) :: centries r | _ => [] end
with ctail (x : xnode) : list (bool * expr) :=
  match x with
  | XNil => []
  | XNode _ _ l r =>
      if is_any_depth l then match r with XNode _ _ l2 r2 => (true, canon l2) :: ctail r2 | XNil => [] end
      else (false, canon l) :: ctail r
  end.
Lemma str_neq : forall a b, a <> b -> str_eqb a b = false.
Proof. intros. apply str_eqb_neq. auto. Qed.
Lemma opt_star : forall n, wf_opt n -> (if str_eqb (match n with Some n => n | None => lit "*" end) (lit "*") then None
  else Some (match n with Some n => n | None => lit "*" end)) = n.
Proof. intros [n|] W; [|reflexivity]. rewrite str_neq; auto. apply plain_no_star. auto. Qed.
Lemma opt_empty : forall n, wf_opt n -> match (match n with Some n => n | None => [] end) with [] => None | _ =>
  Some (match n with Some n => n | None => [] end) end = n.
Proof. intros [n|] W; [|reflexivity]. destruct n as [|c n]; [destruct W as [[] _]|reflexivity]. Qed.
Lemma kind_of_tree : forall t, wf_test t -> kind_test t -> kind_of (test_tree t) = t.
Proof.
  intros t W K. destruct t as [n| | | | |p n|p|n|n|n|n| |]; try destruct K; try reflexivity; cbn [test_tree kind_of leaf]; f_equal.
  - apply opt_empty. auto.
  - apply opt_star. auto.
  - apply opt_star. auto.
Qed.
Lemma test_of_tree : forall t, wf_test t -> test_of (test_name t) (test_tree t) = t.
Proof.
  intros t W. assert (K : {kind_test t} + {~ kind_test t}) by (destruct t; cbn; auto). destruct K as [K|K].
  - rewrite <- (kind_of_tree t W K) at 3. destruct t; try destruct K; reflexivity.
  - destruct t as [n| | | | |p n|p|n|n|n|n| |]; try (exfalso; apply K; exact I); cbn [test_name test_tree wf_test] in *; unfold test_of.
    + rewrite str_neq by (apply plain_no_star; auto). rewrite mem_not by (apply plain_no_colon; auto). reflexivity.
    + reflexivity.
    + destruct W as [W1 W2]. change (lit ":" ++ n) with (58 :: n). rewrite str_neq.
      2:{ intro E. apply (f_equal (mem_char 58)) in E. rewrite mem_in in E; [discriminate|]. apply in_app_iff. right. left. reflexivity. }
      rewrite mem_in by (apply in_app_iff; right; left; reflexivity). cbn [negb]. rewrite cut_app by (apply plain_no_colon; auto).
      rewrite !str_neq by (apply plain_no_star; auto). reflexivity.
    + change (lit ":*") with (58 :: lit "*"). rewrite str_neq.
      2:{ intro E. apply (f_equal (mem_char 58)) in E. rewrite mem_in in E; [discriminate|]. apply in_app_iff. right. left. reflexivity. }
      rewrite mem_in by (apply in_app_iff; right; left; reflexivity). cbn [negb]. rewrite cut_app by (apply plain_no_colon; auto).
      rewrite str_neq by (apply plain_no_star; auto). reflexivity.
    + change (lit "*:" ++ n) with (lit "*" ++ 58 :: n). rewrite str_neq by (intro E; discriminate E).
      rewrite mem_in by (apply in_app_iff; right; left; reflexivity). cbn [negb]. rewrite cut_app by (vm_compute; intuition discriminate). reflexivity.
Qed.
Lemma item_of_tree : forall t, wf_item t -> item_of (item_tree t) = t.
Proof.
  intros t W. destruct t as [|n|t| | |]; try reflexivity. destruct W as [K W]. rewrite <- (kind_of_tree t W K) at 2.
  destruct t; try destruct K; reflexivity.
Qed.
Lemma seq_of_tree : forall t, wf_seq t -> seq_of (seq_tree t) = t.
Proof.
  intros t W. destruct t as [|t c]; [reflexivity|]. cbn [wf_seq seq_tree seq_of] in *.
  rewrite <- (item_of_tree t W) at 2. assert (E : match item_tree t with XNode X_EmptySequenceTest _ _ _ => False | _ => True end).
  { destruct t as [| |t| | |]; try exact I. destruct W as [K _]. destruct t; try destruct K; exact I. }
  assert (C : match occ_name c with [] => C_one | c :: _ => if c =? 63 then C_opt else if c =? 42 then C_many else C_some end = c)
    by (destruct c; reflexivity).
  rewrite C. destruct (item_tree t) as [|ty m l r]; [reflexivity|]. destruct ty; try reflexivity. destruct E.
Qed.
Lemma params_of_tree : forall ps, params_of (param_tree ps) = ps.
Proof. induction ps as [|p ps IH]; [reflexivity|]. cbn [param_tree params_of]. rewrite IH. reflexivity. Qed.
Lemma node_name : forall t, wf_test t -> test_name t <> lit "node()".
Proof.
  intros t W E. assert (A : In 40 (test_name t)) by (rewrite E; vm_compute; auto 10). clear E.
  destruct t as [n| | | | |p n|p|n|n|n|n| |]; cbn [test_name wf_test] in *; try (vm_compute in A; intuition discriminate).
  - exact (plain_no_paren n W A).
  - destruct W as [W1 W2]. apply in_app_iff in A. destruct A as [A|A]; [exact (plain_no_paren p W1 A)|].
    change (58 = 40 \/ In 40 n) in A. destruct A as [A|A]; [discriminate|]. exact (plain_no_paren n W2 A).
  - apply in_app_iff in A. destruct A as [A|A]; [exact (plain_no_paren p W A)|]. vm_compute in A; intuition discriminate.
  - change (42 = 40 \/ 58 = 40 \/ In 40 n) in A. destruct A as [A|[A|A]]; [discriminate|discriminate|]. exact (plain_no_paren n W A).
Qed.
Lemma root_leaf : forall n e, ~ reads (leaf X_AxisRoot n) e.
Proof. intros n e H. inv H. Qed.
Lemma any_depth_no : forall e, wf e -> ~ reads any_depth e.
Proof. intros e W H. inv H. destruct W as [W _]. eapply node_name; [exact W|]. eauto. Qed.
Lemma path_level : forall nm x y e, reads (XNode X_OperatorPath nm x y) e -> (19 <= level e)%nat -> e = ERoot /\ y = XNil /\ exists n, x = leaf X_AxisRoot n.
Proof.
  intros nm x y e H L. inv H; cbn [level] in L; try (exfalso; lia). split; [reflexivity|split; [reflexivity|eauto]].
Qed.
Lemma op_reads : forall x e, reads_op x e -> reads x e.
Proof. intros x e H. inversion H; subst; auto. constructor. auto. Qed.
Definition swf (l : list (bool * expr)) : Prop := Forall (fun x => wf (snd x)) l.
Definition sspell (l : list (bool * expr)) := map (fun x => (fst x, spell (snd x))) l.
Lemma sspell_nil : forall a b, sspell a = sspell b -> a <> [] -> b <> [].
Proof. intros [|x a] [|y b] E N; try congruence. discriminate. Qed.
Lemma rel_any : forall nm y a rest, wf a -> ~ reads_rel (XNode X_OperatorPath nm any_depth y) a rest.
Proof.
  intros nm y a rest W H. inversion H as [? ? H1|? ? ? ? ? H1 H2]; subst.
  - inversion H1 as [|? ? H2 L]; subst. destruct (path_level _ _ _ _ H2 L) as [_ [_ [n E]]]. discriminate E.
  - eapply any_depth_no; [exact W|]. apply op_reads. auto.
Qed.
Lemma rel_nil : forall a rest, ~ reads_rel XNil a rest.
Proof. intros a rest H. inversion H; subst. eapply reads_nil. eapply op_reads; eauto. Qed.
Lemma op_root : forall n e, ~ reads_op (leaf X_AxisRoot n) e.
Proof. intros n e H. eapply root_leaf. apply op_reads. eauto. Qed.
Lemma reads_notroot : forall x e, reads x e -> is_root x = false.
Proof. intros x e H. destruct H; try reflexivity; [destruct k|destruct o|destruct m|destruct o|destruct c|destruct q|destruct (form_axis f)|destruct treat|destruct q as [[]|]]; reflexivity. Qed.
Lemma reads_notbind : forall x e, reads x e -> is_bind x = false.
Proof. intros x e H. destruct H; try reflexivity; [destruct k|destruct o|destruct m|destruct o|destruct c|destruct q|destruct (form_axis f)|destruct treat|destruct q as [[]|]]; reflexivity. Qed.
Lemma any_depth_eq : forall x, is_any_depth x = true -> x = any_depth.
Proof.
  intros [|t n l r] H; [discriminate|]. destruct t; try discriminate H. destruct l; [|discriminate H]. destruct r; [|discriminate H].
  cbn [is_any_depth] in H. apply str_eqb_eq in H. subst. reflexivity.
Qed.
Lemma op_not_any : forall x e, wf e -> reads_op x e -> is_any_depth x = false.
Proof.
  intros x e W H. destruct (is_any_depth x) eqn:E; auto. apply any_depth_eq in E. subst. exfalso. eapply any_depth_no; [exact W|].
  apply op_reads. auto.
Qed.
Lemma op_notroot : forall x e, reads_op x e -> is_root x = false.
Proof. intros x e H. inversion H; subst; [reflexivity|]. eapply reads_notroot; eauto. Qed.
(* the first step and the others of a relative path *)
Definition rel_of (y : xnode) : expr * list (bool * expr) :=
  match y with
  | XNode X_OperatorPath _ l r => if is_root l then (ERoot, []) else (canon l, ctail r)
  | _ => (canon y, [])
  end.
Lemma rel_one : forall x a, reads_op x a -> canon x = spell a -> rel_of x = (spell a, []).
Proof.
  intros x a H E. destruct x as [|t n l r]; [exfalso; eapply rel_nil; apply rr_one; eauto|].
  destruct t; try (cbn [rel_of]; rewrite E; reflexivity).
  inversion H as [|? ? H1 L]; subst. destruct (path_level _ _ _ _ H1 L) as [-> [-> [m ->]]]. reflexivity.
Qed.
Lemma paren_canon : forall x e nm r, reads x e -> canon (XNode X_ParenthesizedExpr nm x r) = canon x.
Proof. intros x e nm r H. destruct x; [exfalso; eapply reads_nil; eauto|reflexivity]. Qed.
Definition ospell (x : option expr) : option expr := match x with Some a => Some (spell a) | None => None end.
Definition pspell (x : expr * expr) : expr * expr := (spell (fst x), spell (snd x)).
Definition bspell (x : str * expr) : str * expr := (fst x, spell (snd x)).
Lemma reads_canon : forall x e, reads x e -> wf e -> canon x = spell e.
Proof.
  intros x e H. induction H using reads_mind with
    (P0 := fun x e _ => wf e -> canon x = spell e)
    (P1 := fun x a rest _ => wf a -> swf rest -> rel_of x = (spell a, sspell rest))
    (P2 := fun x rest _ => swf rest -> ctail x = sspell rest)
    (P3 := fun rv x es _ => Forall wf es -> cargs x = map spell es)
    (P4 := fun x es _ => Forall wf es -> cargs x = map spell es)
    (P5 := fun x es _ => Forall owf es -> coargs x = map ospell es)
    (P6 := fun x es _ => Forall wf es -> cargs x = map spell es)
    (P7 := fun x es _ => Forall (fun p => wf (fst p) /\ wf (snd p)) es -> centries x = map pspell es)
    (P8 := fun q x bs b _ => Forall (fun p => wf (snd p)) bs -> wf b -> 
       match bs with [] => is_bind x = false /\ canon x = spell b | _ => is_bind x = true /\ canon x = EMulti q (map bspell bs) (spell b) end);
    intros.
  all: try match goal with W : wf _ |- _ => cbn [wf] in W end.
  - (* paren *) erewrite paren_canon by eauto. auto.
  - destruct k; reflexivity.
  - reflexivity.
  - reflexivity.
  - reflexivity.
  - (* call *) match goal with W : wf_call _ |- _ => idtac | W : _ /\ _ |- _ => destruct W as [W1 [W2 W]]; apply all_forall in W end.
    change (lit "fn:" ++ f) with (lit "fn" ++ 58 :: f). cbn [canon]. rewrite cut_app by (vm_compute; intuition discriminate).
    rewrite str_eqb_refl. cbn [spell]. f_equal. auto.
  - (* bin *) match goal with W : _ /\ _ |- _ => destruct W as [Wa [Wb _]] end. destruct o; cbn [bnode canon bin_of spell]; f_equal; auto.
  - (* sign *) destruct m; cbn [canon spell]; f_equal; auto.
  - (* type *) match goal with W : _ /\ _ |- _ => destruct W as [Wa Wn] end.
    destruct o; cbn [tnode typetree canon spell leaf].
    + f_equal; auto.
    + f_equal; auto.
    + change (lit "xs:" ++ n ++ lit "?") with (120 :: 115 :: 58 :: n ++ [63]). cbn [skipn].
      rewrite mem_in by (do 3 right; apply in_app_iff; right; left; reflexivity). rewrite cut_app by (apply plain_no_question; auto).
      cbn [fst]. f_equal; auto.
    + change (lit "xs:" ++ n ++ lit "?") with (120 :: 115 :: 58 :: n ++ [63]). cbn [skipn].
      rewrite mem_in by (do 3 right; apply in_app_iff; right; left; reflexivity). rewrite cut_app by (apply plain_no_question; auto).
      cbn [fst]. f_equal; auto.
  - (* cast *) match goal with W : _ /\ _ |- _ => destruct W as [Wa Wn] end.
    assert (M : mem_char 63 (lit "xs:" ++ n) = false).
    { apply mem_not. intro Q. apply in_app_iff in Q. destruct Q as [Q|Q]; [vm_compute in Q; intuition discriminate|]. eapply plain_no_question; eauto. }
    destruct c; cbn [canon spell leaf]; rewrite M; f_equal; auto.
  - (* if *) match goal with W : _ /\ _ |- _ => destruct W as [W1 [W2 W3]] end. cbn [canon spell]. f_equal; auto.
  - (* bind *) match goal with W : _ /\ _ |- _ => destruct W as [W1 [W2 W3]] end.
    assert (B : is_bind y = false) by (eapply reads_notbind; eauto).
    destruct q; cbn [qnode qbind canon bind_of]; rewrite B; cbn [unmulti spell]; f_equal; auto.
  - (* let *) match goal with W : _ /\ _ |- _ => destruct W as [W1 [W2 W3]] end.
    assert (B : is_bind y = false) by (eapply reads_notbind; eauto).
    cbn [canon bind_of]. rewrite B. cbn [unmulti spell]. f_equal; auto.
  - (* step *) match goal with W : _ /\ _ |- _ => destruct W as [Wt Wp] end. apply all_forall in Wp. cbn [spell].
    assert (A : canon (XNode (anode (form_axis f)) (test_name t) (test_tree t) x) = EStep (F_axis (form_axis f)) (test_of (test_name t) (test_tree t)) (cargs x)).
    { destruct (form_axis f); cbn [anode canon bin_of axis_of]; try reflexivity. rewrite str_neq; [reflexivity|]. apply node_name. auto. }
    rewrite A, test_of_tree by auto. f_equal. auto.
  - reflexivity.
  - match goal with W : _ /\ _ |- _ => destruct W as [Wa Wp] end. cbn [canon spell]. f_equal; auto.
  - match goal with W : _ /\ _ |- _ => destruct W as [Wa Wp] end. apply all_forall in Wp. cbn [canon spell]. f_equal; auto.
  - reflexivity.
  - (* path *) match goal with W : _ /\ _ |- _ => destruct W as [_ [Wa Wr]] end. apply tails_forall in Wr. cbn [canon].
    erewrite op_notroot by eauto. cbn [spell]. f_equal; [auto|]. fold (sspell rest). auto.
  - (* /path *) match goal with W : _ /\ _ |- _ => destruct W as [_ [Wa Wr]] end. apply tails_forall in Wr. cbn [spell].
    specialize (IHreads Wa Wr). fold (sspell rest). 
    assert (NA := rel_any). destruct y as [|t n l0 r0]; [exfalso; eapply rel_nil; eauto|].
    destruct t; cbn [rel_of] in IHreads; try (injection IHreads as E1 E2; match type of E1 with ?c = _ => transitivity (EPath S_root c []); [reflexivity|rewrite E1, <- E2; reflexivity] end).
    cbn [canon is_root leaf]. destruct (is_root l0) eqn:RL; [injection IHreads as E1 E2; rewrite <- E1, <- E2; reflexivity|].
    destruct (is_any_depth l0) eqn:AD; [apply any_depth_eq in AD; subst l0; exfalso; eapply NA; eauto|].
    injection IHreads as E1 E2. rewrite E1, E2. reflexivity.
  - (* //path *) match goal with W : _ /\ _ |- _ => destruct W as [_ [Wa Wr]] end. apply tails_forall in Wr. cbn [spell].
    specialize (IHreads Wa Wr). fold (sspell rest). destruct y as [|t n l0 r0]; [exfalso; eapply rel_nil; eauto|].
    destruct t; cbn [rel_of] in IHreads; try (injection IHreads as E1 E2; match type of E1 with ?c = _ => transitivity (EPath S_all c []); [reflexivity|rewrite E1, <- E2; reflexivity] end).
    cbn [canon is_root leaf any_depth is_any_depth]. rewrite str_eqb_refl. destruct (is_root l0) eqn:RL; injection IHreads as E1 E2; [rewrite <- E1, <- E2; reflexivity|].
    rewrite E1, E2. reflexivity.
  - (* square *) match goal with W : _ |- _ => apply all_forall in W end. cbn [canon spell]. f_equal; auto.
  - cbn [canon spell]. f_equal; auto.
  - match goal with W : _ |- _ => apply entries_forall in W end. cbn [canon spell]. f_equal. auto.
  - reflexivity.
  - reflexivity.
  - reflexivity.
  - cbn [canon spell]. f_equal; auto.
  - match goal with W : _ /\ _ |- _ => destruct W as [Wa Wk] end. cbn [canon bin_of spell]. f_equal; auto.
  - match goal with W : _ /\ _ |- _ => destruct W as [Wa Wk] end. cbn [canon bin_of spell]. f_equal; auto.
  - (* ref *) match goal with W : _ /\ _ |- _ => destruct W as [Wf Wd] end.
    change (lit "fn:" ++ f ++ lit "#" ++ d) with (102 :: 110 :: 58 :: f ++ 35 :: d). cbn [canon leaf skipn].
    rewrite cut_app; [reflexivity|]. apply plain_avoids; auto.
  - match goal with W : _ /\ _ |- _ => destruct W as [Wp Wb] end. cbn [canon spell]. rewrite params_of_tree. f_equal; auto.
  - (* arrow *) match goal with W : _ /\ _ |- _ => destruct W as [W1 [W2 W]]; apply all_forall in W end.
    change (lit "fn:" ++ f) with (lit "fn" ++ 58 :: f). cbn [canon]. rewrite cut_app by (vm_compute; intuition discriminate).
    rewrite str_eqb_refl. cbn [spell]. f_equal. change (spell a :: map spell args) with (map spell (a :: args)). auto.
  - match goal with W : _ /\ _ |- _ => destruct W as [W1 [W2 W]]; apply all_forall in W end.
    cbn [canon leaf spell]. f_equal. change (spell a :: map spell args) with (map spell (a :: args)). auto.
  - (* pcall *) match goal with W : _ /\ _ |- _ => destruct W as [[W1 W2] [W3 W]]; apply all_forall in W end.
    change (p ++ lit ":" ++ f) with (p ++ 58 :: f). cbn [canon]. rewrite cut_app.
    + cbn [spell]. destruct (str_eqb p (lit "fn")); f_equal; auto.
    + destruct W1 as [<-|[<-|[<-|[]]]]; vm_compute; intuition discriminate.
  - match goal with W : _ /\ _ |- _ => destruct W as [W1 [W3 W]]; apply owf_forall in W end. cbn [canon spell].
    change (skipn 3 (lit "fn:" ++ f)) with f. f_equal. auto.
  - match goal with W : _ /\ _ |- _ => destruct W as [Wa Wt] end. destruct treat; cbn [canon spell]; rewrite seq_of_tree by auto; f_equal; auto.
  - (* multi *) match goal with W : _ /\ _ |- _ => destruct W as [[W1 W2] [W3 WW]]; apply binds_forall in WW end.
    specialize (IHreads WW W3). destruct bs as [|b1 [|b2 bs]]; cbn [List.length] in W1; try lia. destruct IHreads as [_ E].
    destruct q as [[]|]; cbn [multi_node qnode canon spell]; rewrite E; destruct b1; reflexivity.
  - erewrite paren_canon by eauto. auto.
  - auto.
  - rewrite (rel_one x a); auto.
  - cbn [rel_of]. erewrite op_notroot by eauto. f_equal; auto.
  - reflexivity.
  - match goal with W : swf _ |- _ => inversion W; subst end. cbn [snd] in *. cbn [ctail]. erewrite op_not_any by eauto. cbn [sspell map fst snd]. f_equal; [f_equal; auto|auto].
  - match goal with W : swf _ |- _ => inversion W; subst end. cbn [snd] in *. cbn [ctail any_depth leaf is_any_depth]. rewrite str_eqb_refl.
    cbn [sspell map fst snd]. f_equal; [f_equal; auto|auto].
  - reflexivity.
  - match goal with W : Forall _ _ |- _ => inversion W; subst end. cbn [cargs map]. f_equal; auto.
  - reflexivity.
  - match goal with W : Forall _ _ |- _ => inversion W; subst end. cbn [cargs map]. f_equal; auto.
  - reflexivity.
  - match goal with W : Forall _ _ |- _ => inversion W; subst end. cbn [coargs map ospell]. f_equal; [f_equal|]; auto.
  - match goal with W : Forall _ _ |- _ => inversion W; subst end. cbn [coargs map ospell]. f_equal; auto.
  - reflexivity.
  - match goal with W : Forall _ _ |- _ => inversion W; subst end. cbn [cargs map]. f_equal; auto.
  - reflexivity.
  - match goal with W : Forall _ _ |- _ => inversion W; subst end. cbn [fst snd] in *. cbn [centries map pspell fst snd]. f_equal; [unfold pspell; cbn [fst snd]; f_equal|]; intuition.
  - split; [eapply reads_notbind; eauto|auto].
  - match goal with W : Forall _ _ |- _ => inversion W; subst end. cbn [fst snd] in *.
    assert (B : bind_of (multi_bind q) = Some q) by (destruct q as [[]|]; reflexivity).
    assert (C : canon (XNode (multi_bind q) v x y) = if is_bind y then more_binds q v (canon x) (canon y) else EMulti q [(v, canon x)] (canon y))
      by (destruct q as [[]|]; reflexivity).
    rewrite C. split; [cbn [is_bind]; rewrite B; reflexivity|].
    match goal with IH : Forall _ bs -> _ |- _ => rename IH into IHB end. specialize (IHB ltac:(auto) ltac:(auto)).
    destruct bs as [|b1 bs]; destruct IHB as [-> ->]; cbn [more_binds map bspell fst snd]; f_equal; f_equal; unfold bspell; cbn [fst snd]; f_equal; auto.
Qed.
Lemma reads_unique : forall x e, reads x e -> wf e -> forall e', reads x e' -> wf e' -> spell e = spell e'.
Proof. intros x e H W e' H' W'. rewrite <- (reads_canon x e), <- (reads_canon x e') by auto. reflexivity. Qed.
(* So different expressions compile to different trees: no text is read as another grouping. *)
Theorem C42_unambiguous : forall e e', wf e -> wf e' -> compile_xpath (source e) = compile_xpath (source e') ->
  spell e = spell e'.
Proof.
  intros e e' W W' E. destruct (C42_precedence e W) as [x [Q1 R1]]. destruct (C42_precedence e' W') as [x' [Q2 R2]].
  rewrite Q1, Q2 in E. injection E as ->. eapply reads_unique; eauto.
Qed.
Print Assumptions C42_unambiguous.
(* Comparisons and ranges do not associate: a second operator of the level is a syntax error. *)
Theorem C42_nonassociative : forall o1 o2 a b c, nonassoc o1 = true -> blevel o2 = blevel o1 -> wf a -> wf b -> wf c ->
  let k := S (blevel o1) in
  (word_op o1 = true -> star_end k a = false) -> (word_op o2 = true -> star_end k b = false) ->
  compile_xpath (text (print k a ++ bop o1 :: print k b ++ bop o2 :: print k c)) = Err XPathSyntaxError.
Proof.
  intros o1 o2 a b c N L Wa Wb Wc k SA SB. unfold compile_xpath. rewrite lexer_text.
  - cbn [bind]. unfold tokens_of. cbn [tl]. rewrite removelast_last.
    rewrite map_app. cbn [map]. rewrite map_app. cbn [map].
    destruct (okp_all a Wa) as [A _]. destruct (okp_all b Wb) as [B _].
    assert (Lk : (k <= 20)%nat) by (pose proof (blevel_le o1); subst k; lia).
    specialize (A k (pfinal (bop o1) :: toks_of k b ++ pfinal (bop o2) :: toks_of k c) Lk). rewrite bop_lev in A.
    specialize (A (le_n k)).
    specialize (B k (pfinal (bop o2) :: toks_of k c) Lk). rewrite bop_lev, L in B. specialize (B (le_n k)).
    assert (E : plevel (blevel o1) (toks_of k a ++ pfinal (bop o1) :: toks_of k b ++ pfinal (bop o2) :: toks_of k c) =
      Ok (XNode (bnode o1) (t_name (pfinal (bop o1))) (trk k a) (trk k b), pfinal (bop o2) :: toks_of k c)).
    { subst k. destruct o1; try discriminate N; cbn [blevel plevel] in *;
        unfold parse_comparison_expr, parse_range_expr, parse_bin_op_sub; rewrite A; cbn; rewrite B; reflexivity. }
    apply (lift_to 0) in E; [|lia|pose proof (blevel_le o1); lia|discriminate| |right; rewrite bop_lev, L; auto].
    + unfold parse_main, parse_expr. fold S1. change (parse_expr_with S1) with (plevel 0).
      unfold toks_of in E. rewrite E. cbn [bind]. destruct o2; reflexivity.
    + apply fstok_mono with (k' := k); [subst k; lia|]. apply print_first. auto.
  - intro Q. apply app_eq_nil in Q. destruct Q as [Q _]. revert Q. apply print_nn.
  - apply print_ok; auto. intros ty Hty. apply bop_ok.
    { intro Q. destruct Hty as [Hty|[_ Hty]]; auto. rewrite SA in Hty by auto. discriminate. }
    intro ty'. apply print_ok; auto. intros ty2 H2. apply bop_ok.
    { intro Q. destruct H2 as [H2|[_ H2]]; auto. rewrite SB in H2 by auto. discriminate. }
    intro ty3. rewrite <- (app_nil_r (print k c)). apply print_ok; auto. intros; exact I.
Qed.
Print Assumptions C42_nonassociative.
Ltac pname := split; [nc | let H := fresh in intro H; vm_compute in H; repeat (destruct H as [H|H]; [discriminate H|]); destruct H].
(* 1 - 2 - 3 * (4 , $x) cast as xs:integer? eq if (.) then -1 else count(()) *)
Definition C42_sample : expr :=
  EBin O_eq (EBin O_sub (EBin O_sub (ELit L_integer (lit "1")) (ELit L_decimal (lit "2.5")))
     (EBin O_mul (ELit L_double (lit "3e1")) (EType Y_cast (EBin O_comma (ELit L_string (lit "a""b")) (EVar (lit "x"))) (lit "integer"))))
   (EIf EDot (ESign true (ELit L_integer (lit "1"))) (ECall (lit "count") [EEmpty])).
Example C42_example : wf C42_sample /\
  source C42_sample = lit "1 - 2.5 - 3e1 * ( ""a""""b"" , $ x ) cast as xs : integer ? eq ( if ( . ) then - 1 else count ( ( ) ) ) " /\
  nonassoc O_eq = true /\ wf (ELit L_integer (lit "1")).
Proof.
  assert (D : lexical L_integer (lit "1")) by (constructor; [discriminate|repeat constructor]).
  split; [|split; [vm_compute; reflexivity|split; [reflexivity|exact D]]].
  cbn [C42_sample wf]. repeat split; auto.
  - apply (lx_decimal (lit "2") (lit "5")); [discriminate|repeat constructor|repeat constructor].
  - apply (lx_double (lit "3") (lit "1")); [discriminate|repeat constructor|discriminate|repeat constructor].
  - constructor. vm_compute. intuition discriminate.
  - repeat constructor.
  - let H := fresh in intro H; vm_compute in H; repeat (destruct H as [H|H]; [discriminate H|]); destruct H.
  - repeat constructor.
  - let H := fresh in intro H; vm_compute in H; repeat (destruct H as [H|H]; [discriminate H|]); destruct H.
  - repeat constructor.
  - let H := fresh in intro H; vm_compute in H; repeat (destruct H as [H|H]; [discriminate H|]); destruct H.
Qed.
(* //a[@id = 'x'][2]/../following-sibling::*[.]/(b | c)[1]//text() *)
Definition C42_path_sample : expr :=
  EPath S_all (EStep F_child (N_name (lit "a")) [EBin O_geq (EStep F_at (N_name (lit "id")) []) (ELit L_string (lit "x")); ELit L_integer (lit "2")])
    [(false, EParent); (false, EStep (F_axis A_following_sibling) N_any [EDot]);
     (false, EFilter (EBin O_bar (EStep F_child (N_name (lit "b")) []) (EStep F_child (N_name (lit "c")) [])) (ELit L_integer (lit "1")));
     (true, EStep F_child N_text [])].
Example C42_path_example : wf C42_path_sample /\
  source C42_path_sample = lit "// a [ @ id = ""x"" ] [ 2 ] / .. / following-sibling :: * [ . ] / ( b | c ) [ 1 ] // text ( ) ".
Proof.
  assert (D : forall s, s = lit "1" \/ s = lit "2" -> lexical L_integer s) by
    (intros s [->| ->]; constructor; [discriminate|repeat constructor|discriminate|repeat constructor]).
  assert (X : lexical L_string (lit "x")) by (constructor; vm_compute; intuition discriminate).
  split; [|vm_compute; reflexivity]. cbn [C42_path_sample wf snd].
  assert (N : forall s, s = lit "a" \/ s = lit "b" \/ s = lit "c" \/ s = lit "id" -> plain_name s) by
    (intros s [->|[->|[->| ->]]]; pname).
  split; [discriminate|]. split.
  - split; [apply N; auto|]. split; [|split; [apply D; auto|exact I]]. split; [split; [apply N; tauto|exact I]|].
    split; [exact X|discriminate].
  - split; [exact I|]. split; [split; [exact I|split; exact I]|]. split; [|split; [split; exact I|exact I]].
    split; [split; [split; [apply N; tauto|exact I]|]|apply D; auto]. split; [split; [apply N; tauto|exact I]|discriminate].
Qed.
(* let $m := map { "a" : [1, $n] }, $f := function ($x, $y) { $x } return (array { $m?a?(1)?* }, 3 => $f(4) => count(),
   abs#1, concat(?, 2), map:size($m), @p:q instance of element(b)?) treat as item()+ *)
Definition C42_new_sample : expr :=
  EMulti None [(lit "m", EMap [(ELit L_string (lit "a"), ESquare [ELit L_integer (lit "1"); EVar (lit "n")])]);
               (lit "f", EFun [lit "x"; lit "y"] (EVar (lit "x")))]
   (EInst true (EBin O_comma (EBin O_comma (EBin O_comma (EBin O_comma (EBin O_comma
      (ECurly (ELook (ELookOf (ELook (EVar (lit "m")) (K_name (lit "a"))) (ELit L_integer (lit "1"))) K_all))
      (EArrow false (EArrow true (ELit L_integer (lit "3")) (lit "f") [ELit L_integer (lit "4")]) (lit "count") []))
      (ERef (lit "abs") (lit "1"))) (EPart (lit "concat") [None; Some (ELit L_integer (lit "2"))]))
      (EPCall (lit "map") (lit "size") [EVar (lit "m")]))
      (EInst false (EStep F_at (N_qname (lit "p") (lit "q")) []) (T_of (I_test (N_element (Some (lit "b")))) C_opt)))
      (T_of I_item C_some)).
Example C42_new_example : wf C42_new_sample /\ exists x,
  source C42_new_sample = lit "let $ m := map { ""a"" : [ 1 , $ n ] } , $ f := function ( $ x , $ y ) { $ x } return ( array { $ m ? a ? ( 1 ) ? * } , 3 => $ f ( 4 ) => count ( ) , abs # 1 , concat ( ? , 2 ) , map : size ( $ m ) , @ p : q instance of element ( b ) ? ) treat as item ( ) + " /\
  compile_xpath (source C42_new_sample) = Ok x /\ reads x C42_new_sample.
Proof.
  assert (D : forall s, In s [lit "1"; lit "2"; lit "3"; lit "4"] -> lexical L_integer s).
  { intros s H. repeat (destruct H as [<-|H]; [constructor; [discriminate|repeat constructor]|]). destruct H. }
  assert (X : lexical L_string (lit "a")) by (constructor; vm_compute; intuition discriminate).
  assert (N : forall s, In s [lit "a"; lit "b"; lit "m"; lit "n"; lit "f"; lit "x"; lit "y"; lit "p"; lit "q"; lit "abs"; lit "concat"; lit "count"; lit "size"] -> plain_name s).
  { intros s H. repeat (destruct H as [<-|H]; [pname|]). destruct H. }
  assert (W : wf C42_new_sample).
  { cbn [C42_new_sample wf fst snd wf_key wf_test wf_seq wf_item wf_opt kind_test].
    split; [split; [cbn; lia|constructor; [apply N; cbn; tauto|constructor; [apply N; cbn; tauto|constructor]]]|]. split.
    - split; [|exact I]. split; [|split; [|discriminate]].
      2: { split; [split; [split; apply N; cbn; tauto|exact I]|split; [exact I|apply N; cbn; tauto]]. }
      split; [|split; [|discriminate]].
      2: { split; [split; [cbn; tauto|apply N; cbn; tauto]|]. split; [vm_compute; reflexivity|]. split; [apply N; cbn; tauto|exact I]. }
      split; [|split; [|discriminate]].
      2: { split; [split; [apply N; cbn; tauto|left; reflexivity]|]. split; [vm_compute; reflexivity|]. split; [exact I|]. split; [apply D; cbn; tauto|exact I]. }
      split; [|split; [|discriminate]].
      2: { split; [apply N; cbn; tauto|apply D; cbn; tauto]. }
      split; [|split; [|discriminate]].
      + split; [|exact I]. split; [|apply D; cbn; tauto]. split; apply N; cbn; tauto.
      + split; [|split; [apply N; cbn; tauto|exact I]]. split; [apply D; cbn; tauto|]. split; [apply N; cbn; tauto|]. split; [apply D; cbn; tauto|exact I].
    - split; [|split; [|exact I]].
      + split; [|exact I]. split; [exact X|]. split; [apply D; cbn; tauto|]. split; [apply N; cbn; tauto|exact I].
      + split; [constructor; [apply N; cbn; tauto|constructor; [apply N; cbn; tauto|constructor]]|apply N; cbn; tauto]. }
  split; [exact W|]. destruct (C42_precedence _ W) as [x [E R]]. exists x. split; [vm_compute; reflexivity|auto].
Qed.
(* What the printed form avoids (XPath 3.1 allows these): a variable or a name as the key of a map, and an operator word
   after an occurrence indicator. *)
Theorem C42_key_refuted : compile_xpath (lit "map { $k : 1 }") = Err XPathSyntaxError /\ compile_xpath (lit "map { a : 1 }") = Err XPathSyntaxError /\
  exists x, compile_xpath (lit "map { ($k) : 1 }") = Ok x.
Proof. split; [vm_compute; reflexivity|]. split; [vm_compute; reflexivity|]. eexists. vm_compute. reflexivity. Qed.
Print Assumptions C42_key_refuted.

(* ---- C56: the name test * ---- *)
(* An operator word after the name test * is taken for a name, and the expression is rejected; with the name
   test in parentheses it is accepted. *)
Theorem C56_star_refuted : forall o, word_op o = true ->
  compile_xpath (lit "child::* " ++ ptext (bop o) ++ lit " 1") = Err XPathSyntaxError /\
  exists x, compile_xpath (lit "(child::*) " ++ ptext (bop o) ++ lit " 1") = Ok x.
Proof.
  intros o H. destruct o; try discriminate H; (split; [vm_compute; reflexivity|eexists; vm_compute; reflexivity]).
Qed.
Print Assumptions C56_star_refuted.
(* the same after an occurrence indicator and after the lookup ?*, and what follows is then not an operator *)
Theorem C56_indicator_refuted : forall o c, word_op o = true -> (7 < blevel o -> False)%nat -> In c [lit "instance of xs:integer*"; lit "instance of xs:integer+"; lit "?*"] ->
  compile_xpath (lit "$a " ++ c ++ lit " " ++ ptext (bop o) ++ lit " 1") = Err XPathSyntaxError /\
  exists x, compile_xpath (lit "($a " ++ c ++ lit ") " ++ ptext (bop o) ++ lit " 1") = Ok x.
Proof.
  intros o c H L [<-|[<-|[<-|[]]]]; destruct o; try discriminate H; try (exfalso; apply L; cbn; lia);
    (split; [vm_compute; reflexivity|eexists; vm_compute; reflexivity]).
Qed.
Print Assumptions C56_indicator_refuted.
(* What holds: after a name, a kind test, a predicate or a parenthesis an operator word is an operator (C42),
   and after the name test * every operator that is a symbol is. *)
Theorem C56_star_symbol_partial : forall o f b, word_op o = false -> wf b ->
  exists x, compile_xpath (source (EBin o (EStep f N_any []) b)) = Ok x /\ reads x (EBin o (EStep f N_any []) b).
Proof.
  intros o f b H W. apply C42_precedence. split; [split; [exact I|exact I]|]. split; auto. intro Q. congruence.
Qed.
Print Assumptions C56_star_symbol_partial.
Example C56_example : word_op O_mul = false /\ wf EDot /\
  source (EBin O_mul (EStep F_child N_any []) EDot) = lit "* * . ".
Proof. split; [reflexivity|split; [exact I|reflexivity]]. Qed.

(* ---- C44: all tokens are consumed ---- *)
Lemma assoc_str_in : forall (l : list (str * ttype)) n t, assoc_str n l = Some t -> exists m, In (m, t) l.
Proof.
  induction l as [|[m u] l IH]; intros n t H; [discriminate|]. cbn in H. destruct (str_eqb n m); [injection H as <-; exists m; cbn; auto|].
  destruct (IH n t H) as [k K]. exists k. cbn; auto.
Qed.
Lemma find_pair_in : forall l a b t, find_pair a b l = Some t -> exists x y, In (x, y, t) l.
Proof.
  induction l as [|[[x y] u] l IH]; intros a b t H; [discriminate|]. cbn in H. destruct (_ && _); [injection H as <-; exists x, y; cbn; auto|].
  destruct (IH a b t H) as [k [k' K]]. exists k, k'. cbn; auto.
Qed.
Lemma find_symbol_in : forall l a b t, find_symbol a b l = Some t -> exists x y, In (x, y, t) l.
Proof.
  induction l as [|[[x y] u] l IH]; intros a b t H; [discriminate|]. cbn in H. destruct (_ && _); [injection H as <-; exists x, y; cbn; auto|].
  destruct (IH a b t H) as [k [k' K]]. exists k, k'. cbn; auto.
Qed.
Ltac in_tbl H := cbn [In operator_words pair_words name_and_symbol_tbl] in H;
  repeat (destruct H as [H|H]; [injection H as _ _ <- || injection H as _ <-; discriminate|]); destruct H.
Definition noneof (t : token) : Prop := t_type t <> T_EOF.
Lemma raw_noneof : forall n s ts, raw_tokens_fuel n s = Ok ts -> Forall noneof ts.
Proof.
  induction n as [|n IH]; intros s ts E; [discriminate|]. cbn [raw_tokens_fuel] in E.
  destruct (get_tok (xskip_spaces s)) as [[t r]|e| |]; cbn [bind] in E; try discriminate.
  destruct (t_type t) eqn:T; try (injection E as <-; constructor); eauto;
    (destruct (raw_tokens_fuel n r) as [q|e| |] eqn:Q; cbn [bind] in E; try discriminate; injection E as <-;
     constructor; [unfold noneof; congruence|eauto]).
Qed.
Lemma pass1_noneof : forall ts p, Forall noneof ts -> Forall noneof (rewrite_operator_type p ts).
Proof.
  induction ts as [|t ts IH]; intros p H; [constructor|]. inversion H; subst. cbn [rewrite_operator_type]. constructor; auto.
  destruct (_ && _); auto. destruct (assoc_str _ _) as [y|] eqn:E; auto. apply assoc_str_in in E. destruct E as [m E].
  unfold noneof. cbn [set_type t_type]. in_tbl E.
Qed.
Lemma pass2_noneof : forall n ts, (List.length ts <= n)%nat -> Forall noneof ts -> Forall noneof (rewrite_pair_words ts).
Proof.
  induction n as [|n IH]; intros ts L H.
  - destruct ts; [constructor|cbn in L; lia].
  - destruct ts as [|a ts]; [constructor|]. inversion H as [|? ? Ha Hts]; subst. cbn [rewrite_pair_words].
    destruct ts as [|b ts]; [auto|]. inversion Hts as [|? ? Hb Hts']; subst.
    match goal with |- context [match ?q with Some _ => _ | None => _ end] => destruct q as [y|] eqn:E end.
    + match type of E with (if ?c then _ else _) = _ => destruct c; [|discriminate] end. apply find_pair_in in E. destruct E as [x1 [x2 E]].
      constructor; [unfold noneof; cbn; in_tbl E|]. constructor; [discriminate|]. apply IH; auto. cbn in L. lia.
    + constructor; auto. apply IH; auto. cbn in *. lia.
Qed.
Lemma pass4_noneof : forall ts, Forall noneof ts -> Forall noneof (rewrite_name_and_symbol ts).
Proof.
  induction ts as [|t ts IH]; intros H; [constructor|]. inversion H; subst. cbn [rewrite_name_and_symbol]. constructor; auto.
  destruct (ttype_eqb _ _); auto. destruct (find_symbol _ _ _) as [y|] eqn:E; [|discriminate].
  apply find_symbol_in in E. destruct E as [x1 [x2 E]]. unfold noneof. cbn [set_type t_type]. in_tbl E.
Qed.
Lemma lexer_noneof : forall s v, lexer_new s = Ok v -> exists ts, v = eof_token :: ts ++ [eof_token] /\ Forall noneof ts.
Proof.
  intros s v E. unfold lexer_new in E. destruct (raw_tokens s) as [ts|e| |] eqn:R; cbn [bind] in E; try discriminate.
  apply raw_noneof in R. apply (pass1_noneof _ T_EOF) in R. destruct (rewrite_operator_type T_EOF ts) as [|a q]; [discriminate|].
  injection E as <-. eexists. split; [reflexivity|]. apply pass4_noneof. unfold eliminate_nops.
  assert (R2 := pass2_noneof _ _ (le_n _) R). rewrite Forall_forall in R2. apply Forall_forall.
  intros x Hx. apply filter_In in Hx. destruct Hx as [Hx _]. apply R2. exact Hx.
Qed.
(* If an expression compiles, its token vector is the tokens ts between two EOF sentinels, reading an
   expression from ts ends with no token left, and reading an expression never skips a token: what it leaves
   is always a final part of what it was given. *)
Theorem C44_all_tokens_consumed : forall s x, compile_xpath s = Ok x ->
  exists ts, lexer_new s = Ok (eof_token :: ts ++ [eof_token]) /\ parse_expr ts = Ok (x, []).
Proof.
  intros s x E. unfold compile_xpath in E. destruct (lexer_new s) as [v|e| |] eqn:L; cbn [bind] in E; try discriminate.
  destruct (lexer_noneof _ _ L) as [ts [-> F]]. exists ts. split; auto.
  unfold tokens_of in E. cbn [tl] in E. rewrite removelast_last in E.
  unfold parse_main in E. destruct (parse_expr ts) as [[y r]|e| |] eqn:P; cbn [bind] in E; try discriminate.
  destruct (next_is T_EOF r) eqn:N; [|discriminate]. injection E as ->.
  destruct r as [|t r]; auto. exfalso. unfold next_is in N. apply ttype_eqb_eq in N. cbn in N.
  destruct (expr_sf _ _ _ P) as [c ->]. apply Forall_app in F. destruct F as [_ F]. inversion F; subst. auto.
Qed.
Print Assumptions C44_all_tokens_consumed.
Theorem C44_contiguous : forall t x r, parse_expr t = Ok (x, r) -> exists c, t = c ++ r.
Proof. exact expr_sf. Qed.
Print Assumptions C44_contiguous.
(* In particular an expression followed by any further symbols, names and literals, the first of which cannot
   continue it, is rejected. *)
Definition simple (p : ptok) : Prop :=
  match p with
  | PSym s ty => In (s, ty) keywords
  | PWord n => plain_name n
  | PStr s => lexical L_string s
  | PNum s ty => exists k, lexical k s /\ k <> L_string /\ literal k s = PNum s ty
  | _ => False
  end.
Definition cannot_continue (p : ptok) : Prop :=
  match p with PSym s _ => In s [lit ")"; lit "]"; lit "{"; lit "}"; lit "$"; lit "@"; lit ".."] | _ => True end.
Lemma keyword_pok : forall s ty, In (s, ty) keywords -> pok (PSym s ty).
Proof.
  intros s ty H. unfold keywords in H. cbn [In] in H.
  repeat (destruct H as [H|H]; [injection H as <- <-; sym|]). destruct H.
Qed.
Lemma simple_ok : forall l, Forall simple l -> forall prev, okl prev l.
Proof.
  intros l H. induction H as [|p l P H IH]; intro prev; [exact I|].
  destruct p; cbn [simple] in P; try contradiction; (split; [|split; [exact I|apply IH]]).
  - apply keyword_pok; auto.
  - apply plain_pok; auto.
  - inversion P; auto.
  - destruct P as [k [P1 [P2 P3]]]. rewrite <- P3. apply lit_pok; auto.
Qed.
Theorem C44_trailing_rejected : forall e p l, wf e -> Forall simple (p :: l) -> cannot_continue p ->
  compile_xpath (text (print 0 e ++ p :: l)) = Err XPathSyntaxError.
Proof.
  intros e p l W S C. unfold compile_xpath. rewrite lexer_text.
  - cbn [bind]. unfold tokens_of. cbn [tl]. rewrite removelast_last. rewrite map_app. cbn [map].
    destruct (okp_all e W) as [A _].
    assert (O : oplev (t_type (pfinal p)) = 0%nat /\ t_type (pfinal p) <> T_EOF).
    { inversion S as [|? ? P _]; subst. destruct p; cbn [simple pfinal t_type cannot_continue] in *; try contradiction;
        try (split; [reflexivity|discriminate]).
      - unfold keywords in P. cbn [In] in P. repeat (destruct P as [P|P]; [injection P as <- <-;
          first [split; [reflexivity|discriminate] | exfalso; vm_compute in C; intuition discriminate]|]). destruct P.
      - destruct P as [k [_ [P2 P3]]]. destruct k; try congruence; injection P3 as <-; (split; [reflexivity|discriminate]). }
    assert (E := A 0%nat (pfinal p :: map pfinal l) ltac:(lia)). cbn [next_type nxt] in E. unfold next_type in E. cbn [nxt] in E.
    rewrite (proj1 O) in E. specialize (E ltac:(lia)). unfold toks_of in E.
    unfold parse_main, parse_expr. fold S1. change (parse_expr_with S1) with (plevel 0). rewrite E. cbn [bind].
    unfold next_is, next_type. cbn [nxt]. rewrite (tt_neq _ T_EOF) by apply O. reflexivity.
  - intro Q. apply app_eq_nil in Q. destruct Q as [Q _]. revert Q. apply print_nn.
  - apply print_ok; auto. intros ty _. apply simple_ok; auto.
Qed.
Print Assumptions C44_trailing_rejected.
Example C44_example : wf (EBin O_add (ELit L_integer (lit "1")) (ELit L_integer (lit "2"))) /\
  Forall simple [rpar; PNum (lit "3") T_IntegerLiteral] /\ cannot_continue rpar /\
  exists x, compile_xpath (lit "1 + 2") = Ok x.
Proof.
  split; [split; [|split; [|discriminate]]; constructor; [discriminate|repeat constructor|discriminate|repeat constructor]|]. split.
  - constructor; [vm_compute; tauto|]. constructor; [|constructor]. exists L_integer. split; [constructor; [discriminate|repeat constructor]|].
    split; [discriminate|reflexivity].
  - split; [vm_compute; tauto|eexists; vm_compute; reflexivity].
Qed.

(* ---- C45: keywords ---- *)
(* The word in the place of a keyword is not looked at. *)
Theorem C45_keywords_refuted :
  compile_xpath (lit "for $x in (1, 2) foo $x") = compile_xpath (lit "for $x in (1, 2) return $x") /\
  compile_xpath (lit "if (1) foo 2 bar 3") = compile_xpath (lit "if (1) then 2 else 3") /\
  compile_xpath (lit "some $x at 1 holds $x") = compile_xpath (lit "some $x in 1 satisfies $x") /\
  compile_xpath (lit "let $x := 1 in $x") = compile_xpath (lit "let $x := 1 return $x") /\
  exists x, compile_xpath (lit "for $x in (1, 2) foo $x") = Ok x.
Proof. repeat split; try (vm_compute; reflexivity). eexists; vm_compute; reflexivity. Qed.
Print Assumptions C45_keywords_refuted.
(* What holds: with nothing in the place of the keyword the expression is rejected, for every binding
   expression and every condition. *)
Lemma main_err : forall t, S1 t = Err XPathSyntaxError -> parse_main t = Err XPathSyntaxError.
Proof. intros t E. unfold parse_main, parse_expr, parse_expr_with, parse_bin_op_sub. fold S1. rewrite E. reflexivity. Qed.
Lemma or_else_err : forall (p q : parser) t k, p t = Err k -> or_else p q t = Err k.
Proof. intros p q t k H. unfold or_else. rewrite H. reflexivity. Qed.
Lemma one_ok : forall e l, wf e -> (forall ty, lasts (star_end 1 e) ty -> okl ty l) -> okl T_InnerName (print 1 e ++ l).
Proof. intros. apply print_ok; auto. Qed.
Lemma key_ok : forall s ty sy y prev l, pok (PKey s ty) -> find_symbol s y name_and_symbol_tbl = Some ty ->
  pok (PSym sy y) -> okl y l -> okl prev (PKey s ty :: PSym sy y :: l).
Proof. intros. split; [auto|]. split; [auto|]. apply sym_ok; auto. Qed.
Theorem C45_keywords_partial : forall q v e c a, plain_name v -> wf e -> wf c -> wf a ->
  compile_xpath (text (qword q :: dollar :: PWord v :: PWord (lit "in") :: print 1 e)) = Err XPathSyntaxError /\
  compile_xpath (text (qword q :: dollar :: PWord v :: [])) = Err XPathSyntaxError /\
  compile_xpath (text (PKey (lit "let") T_Let :: dollar :: PWord v :: PSym (lit ":=") T_Bind :: print 1 e)) = Err XPathSyntaxError /\
  compile_xpath (text (PKey (lit "if") T_If :: lpar :: print 0 c ++ [rpar])) = Err XPathSyntaxError /\
  compile_xpath (text (PKey (lit "if") T_If :: lpar :: print 0 c ++ rpar :: PWord (lit "then") :: print 1 a)) = Err XPathSyntaxError.
Proof.
  intros q v e c a Hv We Wc Wa. assert (Nv := plain_nn v Hv).
  assert (LP : pok lpar) by sym. assert (RP : pok rpar) by sym. assert (DL : pok dollar) by sym.
  assert (BI : pok (PSym (lit ":=") T_Bind)) by sym. assert (IN : pok (PWord (lit "in"))) by word.
  assert (TH : pok (PWord (lit "then"))) by word.
  assert (QW : pok (qword q)) by (destruct q; (split; [nc|split; [reflexivity|intro; reflexivity]])).
  assert (LT : pok (PKey (lit "let") T_Let)) by (split; [nc|split; [reflexivity|intro; reflexivity]]).
  assert (IF : pok (PKey (lit "if") T_If)) by (split; [nc|split; [reflexivity|intro; reflexivity]]).
  assert (PV := plain_pok v Hv).
  destruct (okp_all e We) as [E _]. destruct (okp_all c Wc) as [C _]. destruct (okp_all a Wa) as [A _].
  assert (G : forall l, l <> [] -> okl T_EOF l -> S1 (map pfinal l) = Err XPathSyntaxError -> compile_xpath (text l) = Err XPathSyntaxError).
  { intros l N O P. unfold compile_xpath. rewrite lexer_text by auto. cbn [bind]. unfold tokens_of. cbn [tl].
    rewrite removelast_last. apply main_err. auto. }
  assert (B1 : forall ty kw f, bindings_loop S1 (S f) (parse_simple_binding S1 ty) kw
     (mkTok T_Dollar (lit "$") :: mkTok T_Name v :: mkTok T_Name (lit "in") :: toks_of 1 e) =
     if str_eqb [] kw then bindings_loop S1 (S f) (parse_simple_binding S1 ty) kw
     (mkTok T_Dollar (lit "$") :: mkTok T_Name v :: mkTok T_Name (lit "in") :: toks_of 1 e) else Err XPathSyntaxError).
  { intros ty kw f. destruct (str_eqb [] kw) eqn:K; auto. cbn [bindings_loop]. unfold parse_simple_binding. isT.
    rewrite eqname_plain by (auto; discriminate). cbn [bind str_eqb]. destruct v as [|x v]; [congruence|].
    cbn [str_eqb]. rewrite expect_name_ok. cbn [bind]. rewrite <- (app_nil_r (toks_of 1 e)). s1 1%nat.
    rewrite E by (cbn; lia). cbn [bind is_nil negb andb]. change (next_is T_Comma []) with false. cbn iota.
    unfold expect_name. change (next_is T_Name []) with false. cbn [negb andb nxt eof_token t_name]. rewrite K. reflexivity. }
  split; [|split; [|split; [|split]]].
  - apply G; [discriminate| |].
    + assert (K : okl T_Dollar (PWord v :: PWord (lit "in") :: print 1 e)).
      { apply word_ok; auto. apply word_ok; auto. rewrite <- (app_nil_r (print 1 e)). apply one_ok; auto. intros; exact I. }
      destruct q; (apply key_ok; [exact QW|reflexivity|exact DL|exact K]).
    + unfold S1. rewrite parse_expr_single_unfold. fold S1. cbn [map]. fold (toks_of 1 e).
      unfold parse_single_body.
      destruct q; repeat (rewrite or_else_nil by reflexivity); apply or_else_err;
      unfold parse_quantified_expr; repeat (rewrite or_else_nil by reflexivity); try apply or_else_err;
      unfold parse_for_expr, parse_binding_expr; isT; cbn [pfinal dollar]; rewrite B1; reflexivity.
  - apply G; [discriminate| |].
    + assert (K : okl T_Dollar [PWord v]) by (apply word_ok; [auto|exact I]).
      destruct q; (apply key_ok; [exact QW|reflexivity|exact DL|exact K]).
    + unfold S1. rewrite parse_expr_single_unfold. fold S1. cbn [map].
      unfold parse_single_body.
      destruct q; repeat (rewrite or_else_nil by reflexivity); apply or_else_err;
      unfold parse_quantified_expr; repeat (rewrite or_else_nil by reflexivity); try apply or_else_err;
      unfold parse_for_expr, parse_binding_expr; isT; cbn [pfinal dollar bindings_loop];
      unfold parse_simple_binding; isT; rewrite eqname_plain by (auto; discriminate); cbn [bind str_eqb];
      (destruct v as [|x v]; [congruence|]); reflexivity.
  - apply G; [discriminate| |].
    + apply key_ok; [exact LT|reflexivity|exact DL|]. apply word_ok; auto. apply sym_ok; auto.
      rewrite <- (app_nil_r (print 1 e)). apply print_ok; auto. intros; exact I.
    + unfold S1. rewrite parse_expr_single_unfold. fold S1. cbn [map]. fold (toks_of 1 e).
      unfold parse_single_body. rewrite or_else_nil by reflexivity. apply or_else_err.
      unfold parse_let_expr, parse_binding_expr. isT. cbn [pfinal dollar bindings_loop].
      unfold parse_simple_let_binding. isT. rewrite eqname_plain by (auto; discriminate). cbn [bind str_eqb].
      destruct v as [|x v]; [congruence|]. cbn [str_eqb]. rewrite expect_ok. cbn [bind].
      rewrite <- (app_nil_r (toks_of 1 e)). s1 1%nat. rewrite E by (cbn; lia). reflexivity.
  - apply G; [discriminate| |].
    + apply key_ok; [exact IF|reflexivity|exact LP|]. apply print_ok; auto. intros ty _. apply sym_ok; [auto|exact I].
    + unfold S1. rewrite parse_expr_single_unfold. fold S1. cbn [map]. rewrite map_app. fold (toks_of 0 c). cbn [map pfinal rpar lpar].
      unfold parse_single_body. do 3 (rewrite or_else_nil by reflexivity). apply or_else_err.
      unfold parse_if_expr. isT. rewrite expect_ok. cbn [bind].
      match goal with |- context [parse_expr_with S1 ?t] => change (parse_expr_with S1 t) with (plevel 0 t) end.
      rewrite C by (cbn; lia). cbn [bind]. rewrite nn_if, expect_ok. reflexivity.
  - apply G; [discriminate| |].
    + apply key_ok; [exact IF|reflexivity|exact LP|]. apply print_ok; auto. intros ty _.
      apply sym_ok; auto. apply word_ok; auto. rewrite <- (app_nil_r (print 1 a)). apply one_ok; auto. intros; exact I.
    + unfold S1. rewrite parse_expr_single_unfold. fold S1. cbn [map]. rewrite map_app. fold (toks_of 0 c). cbn [map pfinal rpar lpar].
      unfold parse_single_body. do 3 (rewrite or_else_nil by reflexivity). apply or_else_err.
      unfold parse_if_expr. isT. rewrite expect_ok. cbn [bind].
      match goal with |- context [parse_expr_with S1 ?t] => change (parse_expr_with S1 t) with (plevel 0 t) end.
      rewrite C by (cbn; lia). cbn [bind]. rewrite nn_if, expect_ok. cbn [bind]. rewrite expect_name_ok. cbn [bind].
      fold (toks_of 1 a). rewrite <- (app_nil_r (toks_of 1 a)). s1 1%nat. rewrite A by (cbn; lia). cbn [bind]. rewrite nn_if. reflexivity.
Qed.
Print Assumptions C45_keywords_partial.
Example C45_example : plain_name (lit "x") /\ wf EDot /\
  text (qword Q_some :: dollar :: PWord (lit "x") :: PWord (lit "in") :: print 1 EDot) = lit "some $ x in . ".
Proof. split; [pname|split; [exact I|reflexivity]]. Qed.

(* ---- C46: arguments ---- *)
(* An empty argument cuts off the arguments after it, and the call is then accepted with those before it. *)
Theorem C46_arguments_refuted :
  compile_xpath (lit "concat(1, 2 , , 3)") = compile_xpath (lit "concat(1, 2)") /\
  exists a, compile_xpath (lit "concat(1, 2 , , 3)") = Ok (XNode X_FunctionCall (lit "fn:concat") XNil a) /\ chain_length a = 2%nat.
Proof. split; [vm_compute; reflexivity|eexists; split; vm_compute; reflexivity]. Qed.
Print Assumptions C46_arguments_refuted.
(* What holds: when every argument is an expression, all are kept, in order. *)
Theorem C46_arguments_partial : forall f args, wf (ECall f args) ->
  exists a, compile_xpath (source (ECall f args)) = Ok (XNode X_FunctionCall (lit "fn:" ++ f) XNil a) /\
            reads_args a args /\ chain_length a = List.length args.
Proof.
  intros f args W. exists (argt args). unfold compile_xpath. rewrite lexer_print by auto. cbn [bind].
  unfold tokens_of. cbn [tl]. rewrite removelast_last, parse_print by auto. split; [|split; [|apply chain_argt]].
  - unfold trk. cbn [level Nat.ltb Nat.leb]. rewrite tr_call. reflexivity.
  - apply wf_call in W. destruct W as [_ [_ W]]. induction W; cbn [argt]; constructor; auto. apply reads_trk. auto.
Qed.
Print Assumptions C46_arguments_partial.
Example C46_example : wf (ECall (lit "concat") [ELit L_integer (lit "1"); EDot; EEmpty]).
Proof.
  split; [pname|split; [reflexivity|]]. repeat split. constructor; [discriminate|repeat constructor].
Qed.

(* ---- C51: arity ---- *)
Definition has_entry (name : str) (n : nat) : Prop :=
  exists ar fid, In (ar, name, fid) (func_context_tbl ++ func_tbl) /\ (ar = None \/ ar = Some n).
Lemma check_has_entry : forall name n, check_function_spec name n = true <-> has_entry name n.
Proof.
  intros name n. unfold check_function_spec, find_function. split.
  - destruct (find _ _) as [[[ar m] f]|] eqn:E; [|discriminate]. intros _. apply find_some in E. destruct E as [I M].
    unfold row_matches in M. exists ar, f. destruct ar as [k|].
    + apply andb_true_iff in M. destruct M as [M1 M2]. apply Nat.eqb_eq in M1. apply str_eqb_eq in M2. subst. auto.
    + apply str_eqb_eq in M. subst. auto.
  - intros [ar [f [I A]]]. destruct (find _ _) as [[[ar' m] f']|] eqn:E; auto. exfalso.
    apply find_none with (x := (ar, name, f)) in E; auto. unfold row_matches in E.
    destruct A as [->| ->]; rewrite ?Nat.eqb_refl, str_eqb_refl in E; discriminate.
Qed.
(* A call f(a1, ..., an) compiles if and only if the function table has an entry for f with n arguments (or
   with any number); otherwise compiling fails. *)
Theorem C51_arity_checked_partial : forall f args, plain_name f -> Forall wf args ->
  (has_entry (lit "fn:" ++ f) (List.length args) -> exists x, compile_xpath (source (ECall f args)) = Ok x) /\
  (~ has_entry (lit "fn:" ++ f) (List.length args) -> compile_xpath (source (ECall f args)) = Err XPathSyntaxError).
Proof.
  intros f args Pf Wa. split; intro H.
  - apply check_has_entry in H. assert (W : wf (ECall f args)).
    { split; auto. split; auto. clear H. induction Wa; cbn; auto. }
    destruct (C46_arguments_partial f args W) as [a [E _]]. eauto.
  - assert (C : check_function_spec (lit "fn:" ++ f) (List.length args) = false).
    { destruct (check_function_spec _ _) eqn:C; auto. apply check_has_entry in C. contradiction. }
    unfold compile_xpath, source. rewrite lexer_text.
    + cbn [bind]. unfold tokens_of. cbn [tl]. rewrite removelast_last. apply main_err.
      rewrite print_body. cbn [level Nat.ltb Nat.leb parens].
      assert (P : parse_primary_expr S1 (map pfinal (body (ECall f args))) = Err XPathSyntaxError).
      { assert (Q := primary_call f args [] (plain_nn f Pf)). rewrite app_nil_r in Q. rewrite Q, C; auto.
        apply Forall_forall. intros e _. apply okp_all. }
      assert (Sx : parse_step_expr S1 (map pfinal (body (ECall f args))) = Err XPathSyntaxError).
      { unfold parse_step_expr. apply or_else_err. unfold parse_postfix_expr. rewrite P. reflexivity. }
      rewrite call_body in Sx |- *. cbn [app] in *.
      unfold S1. rewrite parse_expr_single_unfold. fold S1. unfold parse_single_body.
      repeat (rewrite or_else_nil by reflexivity).
      match type of Sx with _ ?t = _ => set (tt := t) in * end.
      assert (V : parse_value_expr S1 tt = Err XPathSyntaxError).
      { unfold parse_value_expr, parse_bin_op_sub, parse_path_expr, parse_relative_path_expr.
        subst tt. cbn [next_type nxt t_type]. rewrite Sx. reflexivity. }
      assert (U : parse_arrow_expr S1 tt = Err XPathSyntaxError).
      { unfold parse_arrow_expr, parse_unary_expr. subst tt. cbn [next_type nxt t_type]. rewrite V. reflexivity. }
      unfold parse_or_expr, parse_and_expr, parse_comparison_expr, parse_string_concat_expr, parse_range_expr,
       parse_additive_expr, parse_multiplicative_expr, parse_union_expr, parse_intersect_except_expr,
       parse_instanceof_expr, parse_treat_expr, parse_castable_expr, parse_cast_expr, parse_bin_op_sub, with_type.
      rewrite U. reflexivity.
    + apply print_nn.
    + rewrite print_body. cbn [level Nat.ltb Nat.leb parens]. unfold body. cbn [level print]. rewrite Nat.ltb_irrefl. cbn [parens].
      assert (LP : pok lpar) by sym. assert (RP : pok rpar) by sym. assert (CM : pok (PSym (lit ",") T_Comma)) by sym.
      apply word_ok; [apply plain_pok; auto|]. apply sym_ok; auto.
      assert (Z : forall ty, okl ty [rpar]) by (intro; apply sym_ok; auto; exact I).
      clear C H. destruct Wa as [|a args Ha Wa]; [apply Z|]. rewrite <- app_assoc. apply print_ok; auto.
      intros ty _. clear Ha a. revert ty. induction Wa as [|a args Ha Wa IH]; intro ty; [apply Z|].
      cbn [flat_map app]. apply sym_ok; auto. rewrite <- app_assoc. apply print_ok; auto.
Qed.
Print Assumptions C51_arity_checked_partial.
(* The check is missing for calls written with the arrow operator. *)
Theorem C51_arrow_refuted : (exists x, compile_xpath (lit "1 => count(2, 3)") = Ok x) /\
  ~ has_entry (lit "fn:count") 3 /\ (exists x, compile_xpath (lit "1 => nosuch()") = Ok x) /\ forall n, ~ has_entry (lit "fn:nosuch") n.
Proof.
  split; [eexists; vm_compute; reflexivity|]. split; [|split; [eexists; vm_compute; reflexivity|]].
  - intro H. apply check_has_entry in H. vm_compute in H. discriminate.
  - intros n [ar [f [H _]]]. cbn [app func_context_tbl func_tbl In] in H.
    repeat (destruct H as [H|H]; [discriminate H|]). destruct H.
Qed.
Print Assumptions C51_arrow_refuted.
Example C51_example : has_entry (lit "fn:count") 1 /\ ~ has_entry (lit "fn:count") 2 /\ Forall wf [EDot; EDot] /\ plain_name (lit "count").
Proof.
  split; [apply check_has_entry; reflexivity|]. split; [intro H; apply check_has_entry in H; vm_compute in H; discriminate|].
  split; [repeat constructor|pname].
Qed.

(* Specification of operator precedence: expressions, how they are written with the fewest parentheses the
   XPath grammar allows, and which syntax tree stands for which expression. *)
Require Import Bool List NArith ZArith Ascii String.
From Verif Require Import Str Chars Lexer FuncTable Parser SpecLex.
Import ListNotations.
Open Scope N_scope.

Inductive binop : Type :=
| O_comma | O_or | O_and
| O_eq | O_ne | O_lt | O_le | O_gt | O_ge
| O_geq | O_gne | O_glt | O_gle | O_ggt | O_gge | O_is | O_before | O_after
| O_concat | O_to | O_add | O_sub | O_mul | O_div | O_idiv | O_mod
| O_union | O_bar | O_intersect | O_except | O_map.
Inductive typeop : Type := Y_instance | Y_treat | Y_castable | Y_cast.
Inductive litkind : Type := L_string | L_integer | L_decimal | L_double.
Inductive quant : Type := Q_for | Q_some | Q_every.

(* the axes; abbreviations: test alone is child::test, @test is attribute::test *)
Inductive axis : Type :=
| A_ancestor | A_ancestor_or_self | A_attribute | A_child | A_descendant | A_descendant_or_self | A_following
| A_following_sibling | A_parent | A_preceding | A_preceding_sibling | A_self.
Inductive stepform : Type := F_axis (a : axis) | F_at | F_child.
Inductive nodetest : Type :=
| N_name (n : str)          (* n *)
| N_any                     (* "*" *)
| N_node | N_text | N_comment   (* node(), text(), comment() *)
| N_qname (p n : str)       (* p:n *)
| N_prefix (p : str)        (* p:* *)
| N_local (n : str)         (* *:n *)
| N_pi (n : option str)     (* processing-instruction(), processing-instruction(n) *)
| N_element (n : option str)      (* element(), element(n) *)
| N_attribute (n : option str)    (* attribute(), attribute(n) *)
| N_document | N_namespace.       (* document-node(), namespace-node() *)
(* sequence types: an item type with an occurrence indicator, or empty-sequence() *)
Inductive itemtype : Type :=
| I_item                    (* item() *)
| I_atomic (n : str)        (* xs:n *)
| I_test (t : nodetest)     (* a kind test *)
| I_function | I_map | I_array.   (* function( * ), map( * ), array( * ) *)
Inductive occurrence : Type := C_one | C_opt | C_many | C_some.   (* nothing, ?, *, + *)
Inductive seqtype : Type := T_empty | T_of (t : itemtype) (c : occurrence).
(* what a lookup asks for, apart from an expression in parentheses *)
Inductive lookup : Type := K_name (n : str) | K_number (d : str) | K_all.   (* n, 12, * *)
Inductive pathstart : Type := S_here | S_root | S_all.   (* a...   /a...   //a... *)

Inductive expr : Type :=
| ELit (k : litkind) (s : str)
| EVar (n : str)
| EDot
| EEmpty                                       (* () *)
| ECall (f : str) (args : list expr)           (* f(args) *)
| EBin (o : binop) (a b : expr)
| ESign (minus : bool) (a : expr)              (* -a, +a *)
| EType (o : typeop) (a : expr) (n : str)      (* a OP xs:n?   *)
| ECast (castable : bool) (a : expr) (n : str) (* a cast as xs:n, without "?" *)
| EIf (c a b : expr)
| EBind (q : quant) (v : str) (e b : expr)     (* for/some/every $v in e return/satisfies b *)
| ELet (v : str) (e b : expr)                  (* let $v := e return b *)
| EStep (f : stepform) (t : nodetest) (ps : list expr)   (* axis::t[p1]...[pn] *)
| EParent                                      (* .. *)
| EFilter (e p : expr)                         (* e[p] *)
| EDyn (e : expr) (args : list expr)           (* e(args) *)
| ERoot                                        (* (/) *)
| EPath (s : pathstart) (a : expr) (rest : list (bool * expr))
                                               (* steps joined by / or, where the mark is true, // *)
| ESquare (es : list expr)                     (* [e1, ..., en] *)
| ECurly (e : expr)                            (* array { e } *)
| EMap (es : list (expr * expr))               (* map { k1 : v1, ..., kn : vn } *)
| EKey (k : lookup)                            (* ?k *)
| EKeyOf (k : expr)                            (* ?(k) *)
| ELook (e : expr) (k : lookup)                (* e?k *)
| ELookOf (e k : expr)                         (* e?(k) *)
| ERef (f d : str)                             (* f#d *)
| EFun (ps : list str) (b : expr)              (* function ($p1, ..., $pn) { b } *)
| EArrow (var : bool) (a : expr) (f : str) (args : list expr)   (* a => f(args), a => $f(args) *)
| EPCall (p f : str) (args : list expr)        (* p:f(args) *)
| EPart (f : str) (args : list (option expr))  (* f(args) where some arguments are ? *)
| EInst (treat : bool) (a : expr) (t : seqtype)                 (* a instance of t, a treat as t *)
| EMulti (q : option quant) (bs : list (str * expr)) (b : expr).
                                               (* for $v1 in e1, ..., $vn in en return b; also some, every, let *)

(* The precedence levels of the XPath 3.1 grammar: [6] Expr ... [35] ValueExpr,
   [36] PathExpr, [38] StepExpr, [49] PostfixExpr. *)
Definition blevel (o : binop) : nat :=
  match o with
  | O_comma => 0
  | O_or => 2
  | O_and => 3
  | O_eq | O_ne | O_lt | O_le | O_gt | O_ge | O_geq | O_gne | O_glt | O_gle | O_ggt | O_gge
  | O_is | O_before | O_after => 4
  | O_concat => 5
  | O_to => 6
  | O_add | O_sub => 7
  | O_mul | O_div | O_idiv | O_mod => 8
  | O_union | O_bar => 9
  | O_intersect | O_except => 10
  | O_map => 17
  end%nat.
(* comparisons and "to" do not associate *)
Definition nonassoc (o : binop) : bool := Nat.eqb (blevel o) 4 || Nat.eqb (blevel o) 6.
Definition tlevel (o : typeop) : nat :=
  match o with Y_instance => 11 | Y_treat => 12 | Y_castable => 13 | Y_cast => 14 end%nat.
Definition level (e : expr) : nat :=
  match e with
  | ELit _ _ | EVar _ | EDot | EEmpty | ECall _ _ | EFilter _ _ | EDyn _ _ | ERoot => 20
  | EStep _ _ _ | EParent => 19
  | EPath _ _ _ => 18
  | EBin o _ _ => blevel o
  | ESign _ _ => 16
  | EType o _ _ => tlevel o
  | ECast c _ _ => if c then 13 else 14
  | EIf _ _ _ | EBind _ _ _ _ | ELet _ _ _ | EMulti _ _ _ => 1
  | ESquare _ | ECurly _ | EMap _ | EKey _ | EKeyOf _ | ELook _ _ | ELookOf _ _ | ERef _ _ | EFun _ _ | EPCall _ _ _
  | EPart _ _ => 20
  | EArrow _ _ _ _ => 15
  | EInst _ _ (T_of _ C_one) => 6       (* an operator * or + would be taken for an occurrence indicator *)
  | EInst treat _ _ => if treat then 12 else 11
  end%nat.

(* What is written: symbols, names, operator words, two-word operators, words that are special before a
   symbol, literals. *)
Inductive ptok : Type :=
| PSym (s : str) (ty : ttype)
| PWord (s : str)
| POp (s : str) (ty : ttype)
| PPair (s1 s2 : str) (ty : ttype)
| PKey (s : str) (ty : ttype)
| PStr (s : str)
| PNum (s : str) (ty : ttype).
(* its spelling *)
Definition ptext (p : ptok) : str :=
  match p with
  | PSym s _ | PWord s | POp s _ | PKey s _ | PNum s _ => s
  | PPair s1 s2 _ => s1 ++ [32] ++ s2
  | PStr s => quote 34 s
  end.
Definition text (l : list ptok) : str := flat_map (fun p => ptext p ++ [32]) l.
(* the token it stands for *)
Definition pfinal (p : ptok) : token :=
  match p with
  | PSym s ty | POp s ty | PPair s _ ty | PKey s ty | PNum s ty => mkTok ty s
  | PWord s => mkTok T_Name s
  | PStr s => mkTok T_StringLiteral s
  end.

Definition bop (o : binop) : ptok :=
  match o with
  | O_comma => PSym (lit ",") T_Comma
  | O_or => POp (lit "or") T_Or
  | O_and => POp (lit "and") T_And
  | O_eq => POp (lit "eq") T_ValueEQ
  | O_ne => POp (lit "ne") T_ValueNE
  | O_lt => POp (lit "lt") T_ValueLT
  | O_le => POp (lit "le") T_ValueLE
  | O_gt => POp (lit "gt") T_ValueGT
  | O_ge => POp (lit "ge") T_ValueGE
  | O_geq => PSym (lit "=") T_GeneralEQ
  | O_gne => PSym (lit "!=") T_GeneralNE
  | O_glt => PSym (lit "<") T_GeneralLT
  | O_gle => PSym (lit "<=") T_GeneralLE
  | O_ggt => PSym (lit ">") T_GeneralGT
  | O_gge => PSym (lit ">=") T_GeneralGE
  | O_is => POp (lit "is") T_IsSameNode
  | O_before => PSym (lit "<<") T_NodeBefore
  | O_after => PSym (lit ">>") T_NodeAfter
  | O_concat => PSym (lit "||") T_OperatorConcat
  | O_to => POp (lit "to") T_To
  | O_add => PSym (lit "+") T_Plus
  | O_sub => PSym (lit "-") T_Minus
  | O_mul => PSym (lit "*") T_Asterisk
  | O_div => POp (lit "div") T_Div
  | O_idiv => POp (lit "idiv") T_IDiv
  | O_mod => POp (lit "mod") T_Mod
  | O_union => POp (lit "union") T_Union
  | O_bar => PSym (lit "|") T_Union
  | O_intersect => POp (lit "intersect") T_Intersect
  | O_except => POp (lit "except") T_Except
  | O_map => PSym (lit "!") T_OperatorMap
  end.
Definition top (o : typeop) : ptok :=
  match o with
  | Y_instance => PPair (lit "instance") (lit "of") T_InstanceOf
  | Y_treat => PPair (lit "treat") (lit "as") T_TreatAs
  | Y_castable => PPair (lit "castable") (lit "as") T_CastableAs
  | Y_cast => PPair (lit "cast") (lit "as") T_CastAs
  end.
Definition qword (q : quant) : ptok :=
  match q with
  | Q_for => PKey (lit "for") T_For
  | Q_some => PKey (lit "some") T_Some
  | Q_every => PKey (lit "every") T_Every
  end.
Definition qlast (q : quant) : str := match q with Q_for => lit "return" | _ => lit "satisfies" end.
Definition axis_word (a : axis) : str :=
  match a with
  | A_ancestor => lit "ancestor" | A_ancestor_or_self => lit "ancestor-or-self" | A_attribute => lit "attribute"
  | A_child => lit "child" | A_descendant => lit "descendant" | A_descendant_or_self => lit "descendant-or-self"
  | A_following => lit "following" | A_following_sibling => lit "following-sibling" | A_parent => lit "parent"
  | A_preceding => lit "preceding" | A_preceding_sibling => lit "preceding-sibling" | A_self => lit "self"
  end.
Definition lpar := PSym (lit "(") T_LeftParen.
Definition rpar := PSym (lit ")") T_RightParen.
Definition dollar := PSym (lit "$") T_Dollar.
Definition typename (n : str) : list ptok := [PWord (lit "xs"); PSym (lit ":") T_Colon; PWord n].
Definition literal (k : litkind) (s : str) : ptok :=
  match k with
  | L_string => PStr s
  | L_integer => PNum s T_IntegerLiteral
  | L_decimal => PNum s T_DecimalLiteral
  | L_double => PNum s T_DoubleLiteral
  end.

Definition form_toks (f : stepform) : list ptok :=
  match f with
  | F_axis a => [PKey (axis_word a) T_AxisName; PSym (lit "::") T_ColonColon]
  | F_at => [PSym (lit "@") T_At]
  | F_child => []
  end.
Definition opt_name (n : option str) : list ptok := match n with Some n => [PWord n] | None => [] end.
Definition test_toks (t : nodetest) : list ptok :=
  match t with
  | N_name n => [PWord n]
  | N_any => [PSym (lit "*") T_Asterisk]
  | N_node => [PKey (lit "node") T_AnyKindTest; lpar; rpar]
  | N_text => [PKey (lit "text") T_TextTest; lpar; rpar]
  | N_comment => [PKey (lit "comment") T_CommentTest; lpar; rpar]
  | N_qname p n => [PWord p; PSym (lit ":") T_Colon; PWord n]
  | N_prefix p => [PWord p; PSym (lit ":*") T_ColonAsterisk]
  | N_local n => [PSym (lit "*:") T_AsteriskColon; PWord n]
  | N_pi n => PKey (lit "processing-instruction") T_PITest :: lpar :: opt_name n ++ [rpar]
  | N_element n => PKey (lit "element") T_ElementTest :: lpar :: opt_name n ++ [rpar]
  | N_attribute n => PKey (lit "attribute") T_AttributeTest :: lpar :: opt_name n ++ [rpar]
  | N_document => [PKey (lit "document-node") T_DocumentTest; lpar; rpar]
  | N_namespace => [PKey (lit "namespace-node") T_NamespaceNodeTest; lpar; rpar]
  end.
Definition star := PSym (lit "*") T_Asterisk.
Definition comma := PSym (lit ",") T_Comma.
Definition quest := PSym (lit "?") T_Question.
Definition lcur := PSym (lit "{") T_LeftCurly.
Definition rcur := PSym (lit "}") T_RightCurly.
Definition item_toks (t : itemtype) : list ptok :=
  match t with
  | I_item => [PKey (lit "item") T_Item; lpar; rpar]
  | I_atomic n => typename n
  | I_test t => test_toks t
  | I_function => [PKey (lit "function") T_Function; lpar; star; rpar]
  | I_map => [PKey (lit "map") T_MapTest; lpar; star; rpar]
  | I_array => [PKey (lit "array") T_ArrayTest; lpar; star; rpar]
  end.
Definition occ_toks (c : occurrence) : list ptok :=
  match c with C_one => [] | C_opt => [quest] | C_many => [star] | C_some => [PSym (lit "+") T_Plus] end.
Definition seq_toks (t : seqtype) : list ptok :=
  match t with
  | T_empty => [PKey (lit "empty-sequence") T_EmptySequence; lpar; rpar]
  | T_of t c => item_toks t ++ occ_toks c
  end.
Definition key_toks (k : lookup) : list ptok :=
  quest :: match k with K_name n => [PWord n] | K_number d => [PNum d T_IntegerLiteral] | K_all => [star] end.
Definition params (ps : list str) : list ptok :=
  match ps with
  | [] => []
  | p :: r => dollar :: PWord p :: flat_map (fun q => [comma; dollar; PWord q]) r
  end.
Definition multi_word (q : option quant) : ptok := match q with Some q => qword q | None => PKey (lit "let") T_Let end.
Definition multi_in (q : option quant) : ptok := match q with Some _ => PWord (lit "in") | None => PSym (lit ":=") T_Bind end.
Definition multi_last (q : option quant) : str := match q with Some q => qlast q | None => lit "return" end.
Definition slash (double : bool) : ptok :=
  if double then PSym (lit "//") T_SlashSlash else PSym (lit "/") T_Slash.
Definition start_toks (s : pathstart) : list ptok :=
  match s with S_here => [] | S_root => [slash false] | S_all => [slash true] end.
Definition lbra := PSym (lit "[") T_LeftBracket.
Definition rbra := PSym (lit "]") T_RightBracket.

(* [print k e]: e where an expression of level at least k is required *)
Definition parens (b : bool) (l : list ptok) : list ptok := if b then lpar :: l ++ [rpar] else l.
(* the key of a map entry: a literal, or an expression in parentheses (a name before the colon would be taken
   for a prefix) *)
Definition key_level (e : expr) : nat := match e with ELit _ _ => 20 | _ => 21 end%nat.
Fixpoint print (k : nat) (e : expr) : list ptok :=
  parens (Nat.ltb (level e) k)
  match e with
  | ELit lk s => [literal lk s]
  | EVar n => [dollar; PWord n]
  | EDot => [PSym (lit ".") T_Dot]
  | EEmpty => [lpar; rpar]
  | ECall f args =>
      PWord f :: lpar ::
      match args with
      | [] => []
      | a :: rest => print 1 a ++ flat_map (fun b => PSym (lit ",") T_Comma :: print 1 b) rest
      end ++ [rpar]
  | EBin o a b =>
      print (if nonassoc o then S (blevel o) else blevel o) a ++ bop o :: print (S (blevel o)) b
  | ESign m a => PSym (if m then lit "-" else lit "+") (if m then T_Minus else T_Plus) :: print 17 a
  | EType o a n => print (S (tlevel o)) a ++ top o :: typename n ++ [PSym (lit "?") T_Question]
  | ECast c a n => print (if c then 14 else 15) a ++ top (if c then Y_castable else Y_cast) :: typename n
  | EIf c a b =>
      PKey (lit "if") T_If :: lpar :: print 0 c ++ rpar :: PWord (lit "then") :: print 1 a
        ++ PWord (lit "else") :: print 1 b
  | EBind q v e b =>
      qword q :: dollar :: PWord v :: PWord (lit "in") :: print 1 e ++ PWord (qlast q) :: print 1 b
  | ELet v e b =>
      PKey (lit "let") T_Let :: dollar :: PWord v :: PSym (lit ":=") T_Bind :: print 1 e
        ++ PWord (lit "return") :: print 1 b
  | EStep f t ps => form_toks f ++ test_toks t ++ flat_map (fun p => lbra :: print 0 p ++ [rbra]) ps
  | EParent => [PSym (lit "..") T_DotDot]
  | EFilter a p => print 20 a ++ lbra :: print 0 p ++ [rbra]
  | EDyn a args =>
      print 20 a ++ lpar ::
      match args with
      | [] => []
      | b :: rest => print 1 b ++ flat_map (fun b => PSym (lit ",") T_Comma :: print 1 b) rest
      end ++ [rpar]
  | ERoot => [lpar; slash false; rpar]
  | EPath s a rest =>
      start_toks s ++ print 19 a ++ flat_map (fun x => slash (fst x) :: print 19 (snd x)) rest
  | ESquare es =>
      lbra ::
      match es with
      | [] => []
      | a :: rest => print 1 a ++ flat_map (fun b => PSym (lit ",") T_Comma :: print 1 b) rest
      end ++ [rbra]
  | ECurly e => PKey (lit "array") T_Array :: lcur :: print 0 e ++ [rcur]
  | EMap es =>
      PKey (lit "map") T_Map :: lcur ::
      match es with
      | [] => []
      | a :: rest => print (key_level (fst a)) (fst a) ++ PSym (lit ":") T_Colon :: print 1 (snd a) ++
          flat_map (fun b => comma :: print (key_level (fst b)) (fst b) ++ PSym (lit ":") T_Colon :: print 1 (snd b)) rest
      end ++ [rcur]
  | EKey k => key_toks k
  | EKeyOf k => quest :: lpar :: print 0 k ++ [rpar]
  | ELook a k => print 20 a ++ key_toks k
  | ELookOf a k => print 20 a ++ quest :: lpar :: print 0 k ++ [rpar]
  | ERef f d => [PWord f; PSym (lit "#") T_Sharp; PNum d T_IntegerLiteral]
  | EFun ps b => PKey (lit "function") T_Function :: lpar :: params ps ++ rpar :: lcur :: print 0 b ++ [rcur]
  | EArrow v a f args =>
      print 15 a ++ PSym (lit "=>") T_Arrow :: (if v then [dollar] else []) ++ PWord f :: lpar ::
      match args with
      | [] => []
      | b :: rest => print 1 b ++ flat_map (fun b => PSym (lit ",") T_Comma :: print 1 b) rest
      end ++ [rpar]
  | EPCall p f args =>
      PKey p T_Name :: PSym (lit ":") T_Colon :: PWord f :: lpar ::
      match args with
      | [] => []
      | a :: rest => print 1 a ++ flat_map (fun b => PSym (lit ",") T_Comma :: print 1 b) rest
      end ++ [rpar]
  | EPart f args =>
      PWord f :: lpar ::
      match args with
      | [] => []
      | a :: rest => match a with Some a => print 1 a | None => [quest] end ++
          flat_map (fun b => comma :: match b with Some b => print 1 b | None => [quest] end) rest
      end ++ [rpar]
  | EInst treat a t => print (if treat then 13 else 12) a ++ top (if treat then Y_treat else Y_instance) :: seq_toks t
  | EMulti q bs b =>
      multi_word q ::
      match bs with
      | [] => []
      | x :: rest => dollar :: PWord (fst x) :: multi_in q :: print 1 (snd x) ++
          flat_map (fun y => comma :: dollar :: PWord (fst y) :: multi_in q :: print 1 (snd y)) rest
      end ++ PWord (multi_last q) :: print 1 b
  end.
Definition source (e : expr) : str := text (print 0 e).

(* Names: an NCName that is not one of the words with a special meaning. *)
(* NCName as in Namespaces in XML: production 5 of XML 1.0 (fifth edition) without the colon *)
Definition between (c : N) (l : list (N * N)) : bool := existsb (fun r => (fst r <=? c) && (c <=? snd r)) l.
Definition nc_start (c : N) : bool :=
  between c [(0x41, 0x5A); (0x5F, 0x5F); (0x61, 0x7A); (0xC0, 0xD6); (0xD8, 0xF6); (0xF8, 0x2FF); (0x370, 0x37D);
             (0x37F, 0x1FFF); (0x200C, 0x200D); (0x2070, 0x218F); (0x2C00, 0x2FEF); (0x3001, 0xD7FF); (0xF900, 0xFDCF);
             (0xFDF0, 0xFFFD); (0x10000, 0xEFFFF)].
Definition nc_char (c : N) : bool :=
  nc_start c || between c [(0x2D, 0x2D); (0x2E, 0x2E); (0x30, 0x39); (0xB7, 0xB7); (0x300, 0x36F); (0x203F, 0x2040)].
Definition ncname (s : str) : Prop :=
  match s with [] => False | c :: r => nc_start c = true /\ Forall (fun d => nc_char d = true) r end.
Definition reserved : list str :=
  map fst operator_words ++ map (fun x => fst (fst x)) pair_words ++ map (fun x => fst (fst x)) name_and_symbol_tbl.
Definition plain_name (s : str) : Prop := ncname s /\ ~ In s reserved.
Definition digits (s : str) : Prop := Forall (fun d => xis_digit d = true) s.
Inductive lexical : litkind -> str -> Prop :=
| lx_string : forall s, ~ In 0 s -> lexical L_string s
| lx_integer : forall s, s <> [] -> digits s -> lexical L_integer s
| lx_decimal : forall a b, a <> [] -> digits a -> digits b -> lexical L_decimal (a ++ 46 :: b)
| lx_double : forall a b, a <> [] -> digits a -> b <> [] -> digits b -> lexical L_double (a ++ 101 :: b)
| lx_double_point : forall a b c, a <> [] -> digits a -> digits b -> c <> [] -> digits c ->
    lexical L_double (a ++ 46 :: b ++ 101 :: c).
(* The last symbol printed is "*" (a name test, a lookup, an occurrence indicator) or the indicator "+".  The
   lexer takes a word after it for a name, so it has to be separated from an operator that is a word (and, or,
   div, ...). *)
Fixpoint star_end (k : nat) (e : expr) : bool :=
  negb (Nat.ltb (level e) k) &&
  match e with
  | EBin o _ b => star_end (S (blevel o)) b
  | ESign _ a => star_end 17 a
  | EIf _ _ b | EBind _ _ _ b | ELet _ _ b | EMulti _ _ b => star_end 1 b
  | EKey K_all | ELook _ K_all => true
  | EInst _ _ (T_of _ C_many) | EInst _ _ (T_of _ C_some) => true
  | EStep _ N_any [] => true
  | EPath _ a rest =>
      match rest with
      | [] => star_end 19 a
      | _ => (fix last l := match l with [] => false | [x] => star_end 19 (snd x) | _ :: r => last r end) rest
      end
  | _ => false
  end.
Definition word_op (o : binop) : bool := match bop o with POp _ _ => true | _ => false end.
Definition wf_opt (n : option str) : Prop := match n with Some n => plain_name n | None => True end.
Definition wf_test (t : nodetest) : Prop :=
  match t with
  | N_name n | N_prefix n | N_local n => plain_name n
  | N_qname p n => plain_name p /\ plain_name n
  | N_pi n | N_element n | N_attribute n => wf_opt n
  | _ => True
  end.
Definition kind_test (t : nodetest) : Prop :=
  match t with N_name _ | N_any | N_qname _ _ | N_prefix _ | N_local _ => False | _ => True end.
Definition wf_item (t : itemtype) : Prop :=
  match t with I_atomic n => plain_name n | I_test t => kind_test t /\ wf_test t | _ => True end.
Definition wf_seq (t : seqtype) : Prop := match t with T_empty => True | T_of t _ => wf_item t end.
Definition wf_key (k : lookup) : Prop :=
  match k with K_name n => plain_name n | K_number d => lexical L_integer d | K_all => True end.
(* the prefixes of the functions there are *)
Definition prefixes : list str := [lit "fn"; lit "map"; lit "array"].
Fixpoint wf (e : expr) : Prop :=
  match e with
  | ELit k s => lexical k s
  | EVar n => plain_name n
  | EDot | EEmpty => True
  | ECall f args => plain_name f /\ check_function_spec (lit "fn:" ++ f) (List.length args) = true /\
                    (fix all l := match l with [] => True | a :: r => wf a /\ all r end) args
  | EBin o a b => wf a /\ wf b /\
      (word_op o = true -> star_end (if nonassoc o then S (blevel o) else blevel o) a = false)
  | ESign _ a => wf a
  | EType _ a n | ECast _ a n => wf a /\ plain_name n
  | EIf c a b => wf c /\ wf a /\ wf b
  | EBind _ v e b | ELet v e b => plain_name v /\ wf e /\ wf b
  | EStep _ t ps => wf_test t /\
                    (fix all l := match l with [] => True | a :: r => wf a /\ all r end) ps
  | EParent | ERoot => True
  | EFilter a p => wf a /\ wf p
  | EDyn a args => wf a /\ (fix all l := match l with [] => True | a :: r => wf a /\ all r end) args
  | EPath s a rest => (s = S_here -> rest <> []) /\ wf a /\
                      (fix all l := match l with [] => True | x :: r => wf (snd x) /\ all r end) rest
  | ESquare es => (fix all l := match l with [] => True | a :: r => wf a /\ all r end) es
  | ECurly a | EKeyOf a => wf a
  | EMap es => (fix all l := match l with [] => True | x :: r => (wf (fst x) /\ wf (snd x)) /\ all r end) es
  | EKey k => wf_key k
  | ELook a k => wf a /\ wf_key k
  | ELookOf a k => wf a /\ wf k
  | ERef f d => plain_name f /\ lexical L_integer d
  | EFun ps b => Forall plain_name ps /\ wf b
  | EArrow _ a f args => wf a /\ plain_name f /\ (fix all l := match l with [] => True | a :: r => wf a /\ all r end) args
  | EPCall p f args => (In p prefixes /\ plain_name f) /\ check_function_spec (p ++ lit ":" ++ f) (List.length args) = true /\
                       (fix all l := match l with [] => True | a :: r => wf a /\ all r end) args
  | EPart f args => (plain_name f /\ In None args) /\ check_function_spec (lit "fn:" ++ f) (List.length args) = true /\
                    (fix all l := match l with [] => True | x :: r => match x with Some a => wf a | None => True end /\ all r end) args
  | EInst _ a t => wf a /\ wf_seq t
  | EMulti _ bs b => ((2 <= List.length bs)%nat /\ Forall (fun x => plain_name (fst x)) bs) /\ wf b /\
                     (fix all l := match l with [] => True | x :: r => wf (snd x) /\ all r end) bs
  end.

(* The node for each operator *)
Definition bnode (o : binop) : xtype :=
  match o with
  | O_comma => X_OperatorConcatenate | O_or => X_OperatorOr | O_and => X_OperatorAnd
  | O_eq => X_OperatorValueEQ | O_ne => X_OperatorValueNE | O_lt => X_OperatorValueLT
  | O_le => X_OperatorValueLE | O_gt => X_OperatorValueGT | O_ge => X_OperatorValueGE
  | O_geq => X_OperatorGeneralEQ | O_gne => X_OperatorGeneralNE | O_glt => X_OperatorGeneralLT
  | O_gle => X_OperatorGeneralLE | O_ggt => X_OperatorGeneralGT | O_gge => X_OperatorGeneralGE
  | O_is => X_OperatorIsSameNode | O_before => X_OperatorNodeBefore | O_after => X_OperatorNodeAfter
  | O_concat => X_OperatorConcat | O_to => X_OperatorTo | O_add => X_OperatorAdd | O_sub => X_OperatorSubtract
  | O_mul => X_OperatorMultiply | O_div => X_OperatorDiv | O_idiv => X_OperatorIDiv | O_mod => X_OperatorMod
  | O_union | O_bar => X_OperatorUnion | O_intersect => X_OperatorIntersect | O_except => X_OperatorExcept
  | O_map => X_OperatorMap
  end.
Definition tnode (o : typeop) : xtype :=
  match o with
  | Y_instance => X_OperatorInstanceOf | Y_treat => X_OperatorTreatAs
  | Y_castable => X_OperatorCastableAs | Y_cast => X_OperatorCastAs
  end.
(* the tree for the type xs:n? in the two syntactic categories *)
Definition typetree (o : typeop) (n : str) : xnode :=
  match o with
  | Y_instance | Y_treat =>
      XNode X_SequenceType (lit "?") (leaf X_AtomicOrUnionType (lit "xs:" ++ n)) XNil
  | _ => XNode X_SingleType [] (leaf X_TypeName (lit "xs:" ++ n ++ lit "?")) XNil
  end.
Definition lnode (k : litkind) : xtype :=
  match k with
  | L_string => X_StringLiteral | L_integer => X_IntegerLiteral
  | L_decimal => X_DecimalLiteral | L_double => X_DoubleLiteral
  end.
Definition qnode (q : quant) : xtype :=
  match q with Q_for => X_ForExpr | Q_some => X_SomeExpr | Q_every => X_EveryExpr end.
Definition qbind (q : quant) : xtype :=
  match q with Q_for => X_ForVarBind | Q_some => X_SomeVarBind | Q_every => X_EveryVarBind end.

Definition anode (a : axis) : xtype :=
  match a with
  | A_ancestor => X_AxisAncestor | A_ancestor_or_self => X_AxisAncestorOrSelf | A_attribute => X_AxisAttribute
  | A_child => X_AxisChild | A_descendant => X_AxisDescendant | A_descendant_or_self => X_AxisDescendantOrSelf
  | A_following => X_AxisFollowing | A_following_sibling => X_AxisFollowingSibling | A_parent => X_AxisParent
  | A_preceding => X_AxisPreceding | A_preceding_sibling => X_AxisPrecedingSibling | A_self => X_AxisSelf
  end.
Definition form_axis (f : stepform) : axis :=
  match f with F_axis a => a | F_at => A_attribute | F_child => A_child end.
(* the axes on which positions count backwards *)
Definition reverse_axis (a : axis) : bool :=
  match a with
  | A_ancestor | A_ancestor_or_self | A_parent | A_preceding | A_preceding_sibling => true
  | _ => false
  end.
(* the name and the left child of a step node *)
Definition test_name (t : nodetest) : str :=
  match t with
  | N_name n => n | N_any => lit "*" | N_qname p n => p ++ lit ":" ++ n | N_prefix p => p ++ lit ":*"
  | N_local n => lit "*:" ++ n | _ => []
  end.
Definition test_tree (t : nodetest) : xnode :=
  match t with
  | N_name _ | N_any | N_qname _ _ | N_prefix _ | N_local _ => XNil
  | N_node => XNode X_KindTest [] (leaf X_AnyKindTest []) XNil
  | N_text => XNode X_KindTest [] (leaf X_TextTest []) XNil
  | N_comment => XNode X_KindTest [] (leaf X_CommentTest []) XNil
  | N_pi n => XNode X_KindTest [] (leaf X_PITest (match n with Some n => n | None => [] end)) XNil
  | N_element n => XNode X_KindTest [] (XNode X_ElementTest (match n with Some n => n | None => lit "*" end)
                     (leaf X_KindTestTypeName (lit "xs:anyType?")) XNil) XNil
  | N_attribute n => XNode X_KindTest [] (XNode X_AttributeTest (match n with Some n => n | None => lit "*" end)
                       (leaf X_KindTestTypeName (lit "xs:anyType")) XNil) XNil
  | N_document => XNode X_KindTest [] (leaf X_DocumentTest []) XNil
  | N_namespace => XNode X_KindTest [] (leaf X_NamespaceNodeTest []) XNil
  end.
(* types *)
Definition item_tree (t : itemtype) : xnode :=
  match t with
  | I_item => leaf X_ItemTest []
  | I_atomic n => leaf X_AtomicOrUnionType (lit "xs:" ++ n)
  | I_test t => test_tree t
  | I_function => leaf X_AnyFunctionTest []
  | I_map => XNode X_MapTest [] (leaf X_AtomicOrUnionType (lit "xs:anyAtomicType")) default_sequence_type
  | I_array => XNode X_ArrayTest [] default_sequence_type XNil
  end.
Definition occ_name (c : occurrence) : str :=
  match c with C_one => [] | C_opt => lit "?" | C_many => lit "*" | C_some => lit "+" end.
Definition seq_tree (t : seqtype) : xnode :=
  match t with
  | T_empty => XNode X_SequenceType [] (leaf X_EmptySequenceTest []) XNil
  | T_of t c => XNode X_SequenceType (occ_name c) (item_tree t) XNil
  end.
(* parameters without a type *)
Fixpoint param_tree (ps : list str) : xnode :=
  match ps with [] => XNil | p :: r => XNode X_Param p default_sequence_type (param_tree r) end.
Definition multi_node (q : option quant) : xtype := match q with Some q => qnode q | None => X_LetExpr end.
Definition multi_bind (q : option quant) : xtype := match q with Some q => qbind q | None => X_LetVarBind end.
(* what a // stands for, and the root *)
Definition any_depth : xnode := leaf X_AxisDescendantOrSelf (lit "node()").

(* [reads x e]: the tree x, parenthesis nodes apart, stands for e *)
Inductive reads : xnode -> expr -> Prop :=
| rd_paren : forall x e, reads x e -> reads (XNode X_ParenthesizedExpr [] x XNil) e
| rd_lit : forall k s, reads (leaf (lnode k) s) (ELit k s)
| rd_var : forall n, reads (leaf X_VarRef n) (EVar n)
| rd_dot : reads (leaf X_ContextItem (lit ".")) EDot
| rd_empty : reads (XNode X_ParenthesizedExpr [] XNil XNil) EEmpty
| rd_call : forall f a args, reads_args a args -> reads (XNode X_FunctionCall (lit "fn:" ++ f) XNil a) (ECall f args)
| rd_bin : forall o nm x y a b, reads x a -> reads y b -> reads (XNode (bnode o) nm x y) (EBin o a b)
| rd_sign : forall (m : bool) nm x a, reads x a ->
    reads (XNode (if m then X_OperatorUnaryMinus else X_OperatorUnaryPlus) nm XNil x) (ESign m a)
| rd_type : forall o x a n, reads x a -> reads (XNode (tnode o) [] x (typetree o n)) (EType o a n)
| rd_cast : forall (c : bool) x a n, reads x a ->
    reads (XNode (if c then X_OperatorCastableAs else X_OperatorCastAs) [] x
             (XNode X_SingleType [] (leaf X_TypeName (lit "xs:" ++ n)) XNil)) (ECast c a n)
| rd_if : forall n1 n2 x y z c a b, reads x c -> reads y a -> reads z b ->
    reads (XNode X_IfExpr n1 x (XNode X_IfThenElse n2 y z)) (EIf c a b)
| rd_bind : forall nm q v x y e b, reads x e -> reads y b ->
    reads (XNode (qnode q) nm XNil (XNode (qbind q) v x y)) (EBind q v e b)
| rd_let : forall nm v x y e b, reads x e -> reads y b ->
    reads (XNode X_LetExpr nm XNil (XNode X_LetVarBind v x y)) (ELet v e b)
| rd_step : forall f t x ps, reads_preds (reverse_axis (form_axis f)) x ps ->
    reads (XNode (anode (form_axis f)) (test_name t) (test_tree t) x) (EStep f t ps)
| rd_parent : reads (leaf X_AxisParent (lit "node()")) EParent
| rd_filter : forall nm nm' x y a p, reads x a -> reads y p ->
    reads (XNode X_ApplyPredicate nm x (XNode X_PredicateTop nm' y XNil)) (EFilter a p)
| rd_dyn : forall nm nm' x y a args, reads x a -> reads_args y args ->
    reads (XNode X_ApplyArgument nm x (XNode X_ArgumentListTop nm' y XNil)) (EDyn a args)
| rd_root : forall nm nm', reads (XNode X_OperatorPath nm (leaf X_AxisRoot nm') XNil) ERoot
| rd_path : forall nm x y a rest, reads_op x a -> reads_tail y rest -> rest <> [] ->
    reads (XNode X_OperatorPath nm x y) (EPath S_here a rest)
| rd_path_root : forall nm nm' y a rest, reads_rel y a rest ->
    reads (XNode X_OperatorPath nm (leaf X_AxisRoot nm') y) (EPath S_root a rest)
| rd_path_all : forall nm nm' nm'' y a rest, reads_rel y a rest ->
    reads (XNode X_OperatorPath nm (leaf X_AxisRoot nm') (XNode X_OperatorPath nm'' any_depth y)) (EPath S_all a rest)
| rd_square : forall nm y es, reads_items y es -> reads (XNode X_SquareArray nm y XNil) (ESquare es)
| rd_curly : forall nm x e, reads x e -> reads (XNode X_CurlyArray nm x XNil) (ECurly e)
| rd_map : forall nm y es, reads_entries y es -> reads (XNode X_Map nm y XNil) (EMap es)
| rd_key_name : forall nm n, reads (XNode X_UnaryLookupByExpr nm (leaf X_StringLiteral n) XNil) (EKey (K_name n))
| rd_key_number : forall nm d, reads (XNode X_UnaryLookupByExpr nm (leaf X_IntegerLiteral d) XNil) (EKey (K_number d))
| rd_key_all : forall nm, reads (leaf X_UnaryLookupByWildcard nm) (EKey K_all)
| rd_key_of : forall nm x e, reads x e -> reads (XNode X_UnaryLookupByExpr nm x XNil) (EKeyOf e)
| rd_look : forall nm x y a k, reads x a -> reads y (EKey k) -> reads (XNode X_OperatorMap nm x y) (ELook a k)
| rd_look_of : forall nm x y a k, reads x a -> reads y (EKeyOf k) -> reads (XNode X_OperatorMap nm x y) (ELookOf a k)
| rd_ref : forall f d, reads (leaf X_NamedFunctionRef (lit "fn:" ++ f ++ lit "#" ++ d)) (ERef f d)
| rd_fun : forall nm nm' x ps b, reads x b ->
    reads (XNode X_InlineFunction nm x (XNode X_ReturnType nm' default_sequence_type (param_tree ps))) (EFun ps b)
| rd_arrow : forall f x a args, reads_args x (a :: args) ->
    reads (XNode X_FunctionCall (lit "fn:" ++ f) XNil x) (EArrow false a f args)
| rd_arrow_var : forall nm nm' f x a args, reads_args x (a :: args) ->
    reads (XNode X_ApplyArgument nm (leaf X_VarRef f) (XNode X_ArgumentListTop nm' x XNil)) (EArrow true a f args)
| rd_pcall : forall p f x args, reads_args x args -> reads (XNode X_FunctionCall (p ++ lit ":" ++ f) XNil x) (EPCall p f args)
| rd_part : forall f x args, reads_oargs x args -> reads (XNode X_PartialFunctionCall (lit "fn:" ++ f) XNil x) (EPart f args)
| rd_inst : forall (treat : bool) x a t, reads x a ->
    reads (XNode (if treat then X_OperatorTreatAs else X_OperatorInstanceOf) [] x (seq_tree t)) (EInst treat a t)
| rd_multi : forall nm q y bs b, reads_binds q y bs b -> reads (XNode (multi_node q) nm XNil y) (EMulti q bs b)
(* a step of a path: an expression of a lower level is in parentheses *)
with reads_op : xnode -> expr -> Prop :=
| ro_step : forall x e, reads x e -> (level e < 19)%nat -> reads_op (XNode X_ParenthesizedExpr [] x XNil) e
| ro_same : forall x e, reads x e -> (19 <= level e)%nat -> reads_op x e
with reads_rel : xnode -> expr -> list (bool * expr) -> Prop :=
| rr_one : forall x a, reads_op x a -> reads_rel x a []
| rr_more : forall nm x y a rest, reads_op x a -> reads_tail y rest -> rest <> [] ->
    reads_rel (XNode X_OperatorPath nm x y) a rest
with reads_tail : xnode -> list (bool * expr) -> Prop :=
| rt_nil : reads_tail XNil []
| rt_slash : forall nm x y e r, reads_op x e -> reads_tail y r ->
    reads_tail (XNode X_OperatorPath nm x y) ((false, e) :: r)
| rt_double : forall nm nm' x y e r, reads_op x e -> reads_tail y r ->
    reads_tail (XNode X_OperatorPath nm any_depth (XNode X_OperatorPath nm' x y)) ((true, e) :: r)
with reads_preds : bool -> xnode -> list expr -> Prop :=
| rp_nil : forall rev, reads_preds rev XNil []
| rp_cons : forall (rev : bool) nm x y p ps, reads x p -> reads_preds rev y ps ->
    reads_preds rev (XNode (if rev then X_PredicateRevTop else X_PredicateTop) nm x y) (p :: ps)
with reads_args : xnode -> list expr -> Prop :=
| ra_nil : reads_args XNil []
| ra_cons : forall x e r es, reads x e -> reads_args r es ->
    reads_args (XNode X_ArgumentTop [] x r) (e :: es)
(* arguments, some of them left open *)
with reads_oargs : xnode -> list (option expr) -> Prop :=
| rx_nil : reads_oargs XNil []
| rx_cons : forall x e r es, reads x e -> reads_oargs r es -> reads_oargs (XNode X_ArgumentTop [] x r) (Some e :: es)
| rx_open : forall nm r es, reads_oargs r es -> reads_oargs (XNode X_ArgumentPlaceholder nm XNil r) (None :: es)
(* the entries of an array and of a map *)
with reads_items : xnode -> list expr -> Prop :=
| ri_nil : reads_items XNil []
| ri_cons : forall nm x e r es, reads x e -> reads_items r es -> reads_items (XNode X_ArrayEntry nm x r) (e :: es)
with reads_entries : xnode -> list (expr * expr) -> Prop :=
| re_nil : reads_entries XNil []
| re_cons : forall nm nm' x y k v r es, reads x k -> reads y v -> reads_entries r es ->
    reads_entries (XNode X_MapConstruct nm (XNode X_MapEntry nm' x y) r) ((k, v) :: es)
(* the variables bound by one keyword *)
with reads_binds : option quant -> xnode -> list (str * expr) -> expr -> Prop :=
| rb_last : forall q y b, reads y b -> reads_binds q y [] b
| rb_more : forall q v x y e bs b, reads x e -> reads_binds q y bs b ->
    reads_binds q (XNode (multi_bind q) v x y) ((v, e) :: bs) b.

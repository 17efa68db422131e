(* Model of src/xpath_impl/lexer.rs: tokens and the lexer.
   The position in the character vector is represented by the list of characters not yet read; reading
   past the end gives U+0000 as in the program, and "unread" is modelled by peeking.  Error messages are
   not modelled. *)
Require Import Bool List NArith ZArith Ascii String.
From Verif Require Import Str Chars.
Import ListNotations.
Open Scope N_scope.

(* lexer.rs 17-122: TType *)
Inductive ttype : Type :=
| T_EOF | T_InnerName | T_Nop | T_Name | T_AxisName | T_SlashSlash | T_Slash | T_DotDot | T_Dot 
| T_ColonColon | T_Colon | T_ValueEQ | T_ValueNE | T_ValueGT | T_ValueGE | T_ValueLT | T_ValueLE 
| T_GeneralEQ | T_GeneralNE | T_GeneralGT | T_GeneralGE | T_GeneralLT | T_GeneralLE | T_IsSameNode 
| T_NodeBefore | T_NodeAfter | T_And | T_Or | T_Union | T_Intersect | T_Except | T_To | T_InstanceOf 
| T_TreatAs | T_CastableAs | T_CastAs | T_Plus | T_Minus | T_Div | T_IDiv | T_Mod | T_If | T_For 
| T_Some | T_Every | T_Asterisk | T_Dollar | T_LeftBracket | T_RightBracket | T_LeftParen | T_RightParen 
| T_At | T_Question | T_Comma | T_IntegerLiteral | T_DecimalLiteral | T_DoubleLiteral | T_StringLiteral 
| T_EmptySequence | T_Item | T_TypeSwitch | T_Switch | T_DocumentTest | T_ElementTest | T_AttributeTest 
| T_SchemaElementTest | T_SchemaAttributeTest | T_PITest | T_CommentTest | T_TextTest | T_NamespaceNodeTest 
| T_AnyKindTest | T_MapTest | T_ArrayTest | T_BracedURILiteral | T_OperatorConcat | T_Sharp 
| T_Bind | T_Arrow | T_LeftCurly | T_RightCurly | T_ColonAsterisk | T_AsteriskColon | T_OperatorMap 
| T_Let | T_Array | T_Map | T_Function .

(* equality of token types, through a numbering *)
Definition tcode (t : ttype) : nat :=
  match t with
  | T_EOF => 0%nat | T_InnerName => 1%nat | T_Nop => 2%nat | T_Name => 3%nat | T_AxisName => 4%nat 
  | T_SlashSlash => 5%nat | T_Slash => 6%nat | T_DotDot => 7%nat | T_Dot => 8%nat | T_ColonColon => 9%nat 
  | T_Colon => 10%nat | T_ValueEQ => 11%nat | T_ValueNE => 12%nat | T_ValueGT => 13%nat | T_ValueGE => 14%nat 
  | T_ValueLT => 15%nat | T_ValueLE => 16%nat | T_GeneralEQ => 17%nat | T_GeneralNE => 18%nat 
  | T_GeneralGT => 19%nat | T_GeneralGE => 20%nat | T_GeneralLT => 21%nat | T_GeneralLE => 22%nat 
  | T_IsSameNode => 23%nat | T_NodeBefore => 24%nat | T_NodeAfter => 25%nat | T_And => 26%nat 
  | T_Or => 27%nat | T_Union => 28%nat | T_Intersect => 29%nat | T_Except => 30%nat | T_To => 31%nat 
  | T_InstanceOf => 32%nat | T_TreatAs => 33%nat | T_CastableAs => 34%nat | T_CastAs => 35%nat 
  | T_Plus => 36%nat | T_Minus => 37%nat | T_Div => 38%nat | T_IDiv => 39%nat | T_Mod => 40%nat 
  | T_If => 41%nat | T_For => 42%nat | T_Some => 43%nat | T_Every => 44%nat | T_Asterisk => 45%nat 
  | T_Dollar => 46%nat | T_LeftBracket => 47%nat | T_RightBracket => 48%nat | T_LeftParen => 49%nat 
  | T_RightParen => 50%nat | T_At => 51%nat | T_Question => 52%nat | T_Comma => 53%nat | T_IntegerLiteral => 54%nat 
  | T_DecimalLiteral => 55%nat | T_DoubleLiteral => 56%nat | T_StringLiteral => 57%nat | T_EmptySequence => 58%nat 
  | T_Item => 59%nat | T_TypeSwitch => 60%nat | T_Switch => 61%nat | T_DocumentTest => 62%nat 
  | T_ElementTest => 63%nat | T_AttributeTest => 64%nat | T_SchemaElementTest => 65%nat | T_SchemaAttributeTest => 66%nat 
  | T_PITest => 67%nat | T_CommentTest => 68%nat | T_TextTest => 69%nat | T_NamespaceNodeTest => 70%nat 
  | T_AnyKindTest => 71%nat | T_MapTest => 72%nat | T_ArrayTest => 73%nat | T_BracedURILiteral => 74%nat 
  | T_OperatorConcat => 75%nat | T_Sharp => 76%nat | T_Bind => 77%nat | T_Arrow => 78%nat | T_LeftCurly => 79%nat 
  | T_RightCurly => 80%nat | T_ColonAsterisk => 81%nat | T_AsteriskColon => 82%nat | T_OperatorMap => 83%nat 
  | T_Let => 84%nat | T_Array => 85%nat | T_Map => 86%nat | T_Function => 87%nat 
  end.
Definition ttypes : list ttype := [
  T_EOF; T_InnerName; T_Nop; T_Name; T_AxisName; T_SlashSlash; T_Slash
 ; T_DotDot; T_Dot; T_ColonColon; T_Colon; T_ValueEQ; T_ValueNE; T_ValueGT
 ; T_ValueGE; T_ValueLT; T_ValueLE; T_GeneralEQ; T_GeneralNE; T_GeneralGT; T_GeneralGE
 ; T_GeneralLT; T_GeneralLE; T_IsSameNode; T_NodeBefore; T_NodeAfter; T_And; T_Or
 ; T_Union; T_Intersect; T_Except; T_To; T_InstanceOf; T_TreatAs; T_CastableAs
 ; T_CastAs; T_Plus; T_Minus; T_Div; T_IDiv; T_Mod; T_If
 ; T_For; T_Some; T_Every; T_Asterisk; T_Dollar; T_LeftBracket; T_RightBracket
 ; T_LeftParen; T_RightParen; T_At; T_Question; T_Comma; T_IntegerLiteral; T_DecimalLiteral
 ; T_DoubleLiteral; T_StringLiteral; T_EmptySequence; T_Item; T_TypeSwitch; T_Switch; T_DocumentTest
 ; T_ElementTest; T_AttributeTest; T_SchemaElementTest; T_SchemaAttributeTest; T_PITest; T_CommentTest; T_TextTest
 ; T_NamespaceNodeTest; T_AnyKindTest; T_MapTest; T_ArrayTest; T_BracedURILiteral; T_OperatorConcat; T_Sharp
 ; T_Bind; T_Arrow; T_LeftCurly; T_RightCurly; T_ColonAsterisk; T_AsteriskColon; T_OperatorMap
 ; T_Let; T_Array; T_Map; T_Function].
Lemma tcode_inv : forall t, nth (tcode t) ttypes T_EOF = t.
Proof. destruct t; reflexivity. Qed.
Lemma tcode_inj : forall a b, tcode a = tcode b -> a = b.
Proof. intros a b H. rewrite <- (tcode_inv a), <- (tcode_inv b), H. reflexivity. Qed.
Definition ttype_eqb (a b : ttype) : bool := Nat.eqb (tcode a) (tcode b).
Lemma ttype_eqb_eq : forall a b, ttype_eqb a b = true <-> a = b.
Proof.
  intros a b. unfold ttype_eqb. rewrite Nat.eqb_eq. split; [apply tcode_inj|congruence].
Qed.

(* lexer.rs 127-131 *)
Record token := mkTok { t_type : ttype; t_name : str }.

(* lexer.rs 307-342 *)
Definition keywords : list (str * ttype) := [
  (lit "//", T_SlashSlash);
  (lit "/", T_Slash);
  (lit "::", T_ColonColon);
  (lit ":=", T_Bind);
  (lit ":*", T_ColonAsterisk);
  (lit ":", T_Colon);
  (lit "=>", T_Arrow);
  (lit "=", T_GeneralEQ);
  (lit "!=", T_GeneralNE);
  (lit "!", T_OperatorMap);
  (lit "||", T_OperatorConcat);
  (lit "|", T_Union);
  (lit "<=", T_GeneralLE);
  (lit "<<", T_NodeBefore);
  (lit "<", T_GeneralLT);
  (lit ">=", T_GeneralGE);
  (lit ">>", T_NodeAfter);
  (lit ">", T_GeneralGT);
  (lit ",", T_Comma);
  (lit "?", T_Question);
  (lit "+", T_Plus);
  (lit "-", T_Minus);
  (lit "*:", T_AsteriskColon);
  (lit "*", T_Asterisk);
  (lit "$", T_Dollar);
  (lit "[", T_LeftBracket);
  (lit "]", T_RightBracket);
  (lit "(", T_LeftParen);
  (lit ")", T_RightParen);
  (lit "@", T_At);
  (lit "#", T_Sharp);
  (lit "{", T_LeftCurly);
  (lit "}", T_RightCurly);
  (lit "..", T_DotDot)].
(* lexer.rs 405-445 *)
Definition prev_t_types : list ttype := [
  T_EOF; T_At; T_ColonColon; T_LeftParen; T_LeftBracket; T_Comma; T_And
 ; T_Or; T_Div; T_IDiv; T_Mod; T_Slash; T_SlashSlash; T_Union
 ; T_Intersect; T_Except; T_InstanceOf; T_TreatAs; T_CastableAs; T_CastAs; T_Plus
 ; T_Minus; T_ValueEQ; T_ValueNE; T_ValueGT; T_ValueGE; T_ValueLT; T_ValueLE
 ; T_GeneralEQ; T_GeneralNE; T_GeneralGT; T_GeneralGE; T_GeneralLT; T_GeneralLE; T_IsSameNode
 ; T_To; T_NodeBefore; T_NodeAfter; T_Asterisk; T_Colon].
(* lexer.rs 447-464 *)
Definition operator_words : list (str * ttype) := [
  (lit "and", T_And);
  (lit "or", T_Or);
  (lit "div", T_Div);
  (lit "mod", T_Mod);
  (lit "idiv", T_IDiv);
  (lit "eq", T_ValueEQ);
  (lit "ne", T_ValueNE);
  (lit "lt", T_ValueLT);
  (lit "le", T_ValueLE);
  (lit "gt", T_ValueGT);
  (lit "ge", T_ValueGE);
  (lit "is", T_IsSameNode);
  (lit "to", T_To);
  (lit "union", T_Union);
  (lit "intersect", T_Intersect);
  (lit "except", T_Except)].
(* lexer.rs 484-489 *)
Definition pair_words : list (str * str * ttype) := [
  (lit "instance", lit "of", T_InstanceOf); (lit "treat", lit "as", T_TreatAs);
  (lit "castable", lit "as", T_CastableAs); (lit "cast", lit "as", T_CastAs)].
(* lexer.rs 512-550 *)
Definition name_and_symbol_tbl : list (str * ttype * ttype) := [
  (lit "array", T_LeftParen, T_ArrayTest);
  (lit "attribute", T_LeftParen, T_AttributeTest);
  (lit "comment", T_LeftParen, T_CommentTest);
  (lit "document-node", T_LeftParen, T_DocumentTest);
  (lit "element", T_LeftParen, T_ElementTest);
  (lit "empty-sequence", T_LeftParen, T_EmptySequence);
  (lit "function", T_LeftParen, T_Function);
  (lit "if", T_LeftParen, T_If);
  (lit "item", T_LeftParen, T_Item);
  (lit "map", T_LeftParen, T_MapTest);
  (lit "namespace-node", T_LeftParen, T_NamespaceNodeTest);
  (lit "node", T_LeftParen, T_AnyKindTest);
  (lit "processing-instruction", T_LeftParen, T_PITest);
  (lit "schema-attribute", T_LeftParen, T_SchemaAttributeTest);
  (lit "schema-element", T_LeftParen, T_SchemaElementTest);
  (lit "switch", T_LeftParen, T_Switch);
  (lit "text", T_LeftParen, T_TextTest);
  (lit "typeswitch", T_LeftParen, T_TypeSwitch);
  (lit "for", T_Dollar, T_For);
  (lit "some", T_Dollar, T_Some);
  (lit "every", T_Dollar, T_Every);
  (lit "let", T_Dollar, T_Let);
  (lit "ancestor", T_ColonColon, T_AxisName);
  (lit "ancestor-or-self", T_ColonColon, T_AxisName);
  (lit "attribute", T_ColonColon, T_AxisName);
  (lit "child", T_ColonColon, T_AxisName);
  (lit "descendant", T_ColonColon, T_AxisName);
  (lit "descendant-or-self", T_ColonColon, T_AxisName);
  (lit "following", T_ColonColon, T_AxisName);
  (lit "following-sibling", T_ColonColon, T_AxisName);
  (lit "namespace", T_ColonColon, T_AxisName);
  (lit "parent", T_ColonColon, T_AxisName);
  (lit "preceding", T_ColonColon, T_AxisName);
  (lit "preceding-sibling", T_ColonColon, T_AxisName);
  (lit "self", T_ColonColon, T_AxisName);
  (lit "map", T_LeftCurly, T_Map);
  (lit "array", T_LeftCurly, T_Array)].

(* ---- characters: lexer.rs 829-895 ---- *)
Definition xis_digit (c : char) : bool := (48 <=? c) && (c <=? 57).
Definition name_start_ranges : list (N * N) := [
  (0x41, 0x5A); (0x5F, 0x5F); (0x61, 0x7A); (0xC0, 0xD6); (0xD8, 0xF6); (0xF8, 0xFF); (0x100, 0x2FF);
  (0x370, 0x37D); (0x37F, 0x1FFF); (0x200C, 0x200D); (0x2070, 0x218F); (0x2C00, 0x2FEF);
  (0x3001, 0xD7FF); (0xF900, 0xFDCF); (0xFDF0, 0xFFFD); (0x10000, 0xEFFFF)].
Definition xis_name_start_char (c : char) : bool := char_is_in_ranges c name_start_ranges.
Definition xis_name_char (c : char) : bool :=
  xis_name_start_char c ||
  char_is_in_ranges c [(0x2D, 0x2E); (0x30, 0x39); (0xB7, 0xB7); (0x300, 0x36F); (0x203F, 0x2040)].
(* lexer.rs 14: end of input is represented by U+0000, also when that character occurs in the input *)
Definition xpeek (s : str) : char := match s with [] => 0 | c :: _ => c end.

(* lexer.rs 787-797: skip_spaces; an end-of-input character is consumed *)
Fixpoint xskip_spaces (s : str) : str :=
  match s with
  | [] => []
  | c :: s' => if c =? 0 then s' else if is_space c then xskip_spaces s' else s
  end.

(* lexer.rs 764-783: skip_comment, after the opening delimiter; [None]: unexpected end *)
Fixpoint xskip_comment (nest : nat) (s : str) : option str :=
  match nest with
  | O => Some s
  | S outer =>
      match s with
      | [] => None
      | c :: s' =>
          if c =? 0 then None
          else if c =? 40 then
            match s' with
            | 58 :: s'' => xskip_comment (S nest) s''
            | _ => xskip_comment nest s'
            end
          else if c =? 58 then
            match s' with
            | 41 :: s'' => xskip_comment outer s''
            | _ => xskip_comment nest s'
            end
          else xskip_comment nest s'
      end
  end.

(* lexer.rs 744-757: fetch_until *)
Fixpoint fetch_until (delim : char) (s : str) : option (str * str) :=
  match s with
  | [] => None
  | c :: s' =>
      if c =? 0 then None
      else if c =? delim then Some ([c], s')
      else match fetch_until delim s' with Some (l, r) => Some (c :: l, r) | None => None end
  end.

(* lexer.rs 720-738: fetch_string_literal *)
Fixpoint fetch_string_literal (delim : char) (s : str) : option (str * str) :=
  match s with
  | [] => None
  | c :: s' =>
      if c =? 0 then None
      else if c =? delim then
        match s' with
        | d :: s'' => if d =? delim
                      then match fetch_string_literal delim s'' with
                           | Some (l, r) => Some (delim :: l, r)
                           | None => None
                           end
                      else Some ([], s')
        | [] => Some ([], [])
        end
      else match fetch_string_literal delim s' with Some (l, r) => Some (c :: l, r) | None => None end
  end.

(* lexer.rs 695-709: fetch_digits *)
Fixpoint fetch_digits (s : str) : str * str :=
  match s with
  | c :: s' => if xis_digit c then let (d, r) := fetch_digits s' in (c :: d, r) else ([], s)
  | [] => ([], [])
  end.
(* lexer.rs 668-689: fetch_numeric_after_e *)
Definition fetch_numeric_after_e (s : str) : option (str * str) :=
  match s with
  | c :: s1 =>
      if (c =? 101) || (c =? 69) then
        let d := xpeek s1 in
        if (d =? 43) || (d =? 45)
        then let (ds, r) := fetch_digits (tl s1) in Some (c :: d :: ds, r)
        else if xis_digit d
        then let (ds, r) := fetch_digits s1 in Some (c :: ds, r)
        else None
      else Some ([], s)
  | [] => Some ([], [])
  end.
(* lexer.rs 658-667: fetch_numeric_after_period (called with '.' as next character) *)
Definition fetch_numeric_after_period (s : str) : option (str * str) :=
  match s with
  | 46 :: s1 =>
      let (ds, s2) := fetch_digits s1 in
      match fetch_numeric_after_e s2 with
      | Some (e, s3) => Some (46 :: ds ++ e, s3)
      | None => None
      end
  | c :: s1 => Some ([], s1)
  | [] => Some ([], [])
  end.
(* lexer.rs 620-644: fetch_numeric_literal *)
Definition fetch_numeric_literal (s : str) : option (str * str) :=
  match s with
  | c :: s1 =>
      if xis_digit c then
        let (ds, s2) := fetch_digits s1 in
        match (if xpeek s2 =? 46 then fetch_numeric_after_period s2 else Some ([], s2)) with
        | Some (p, s3) =>
            match fetch_numeric_after_e s3 with
            | Some (e, s4) => Some (c :: ds ++ p ++ e, s4)
            | None => None
            end
        | None => None
        end
      else if c =? 46 then fetch_numeric_after_period s
      else Some ([], s)
  | [] => Some ([], [])
  end.
(* lexer.rs 612-621: fetch_numerics *)
Definition fetch_numerics (s : str) : res (token * str) :=
  match fetch_numeric_literal s with
  | None => Err XPathSyntaxError
  | Some (l, r) =>
      if mem_char 101 l || mem_char 69 l then Ok (mkTok T_DoubleLiteral l, r)
      else if mem_char 46 l then Ok (mkTok T_DecimalLiteral l, r)
      else Ok (mkTok T_IntegerLiteral l, r)
  end.
Fixpoint fetch_name (s : str) : str * str :=
  match s with
  | c :: s' => if xis_name_char c then let (n, r) := fetch_name s' in (c :: n, r) else ([], s)
  | [] => ([], [])
  end.
(* lexer.rs 344-348: the first keyword of the table that is next *)
Fixpoint find_keyword (tbl : list (str * ttype)) (s : str) : option (token * str) :=
  match tbl with
  | [] => None
  | (k, t) :: tbl' => match strip_prefix k s with
                      | Some r => Some (mkTok t k, r)
                      | None => find_keyword tbl' s
                      end
  end.

(* lexer.rs 293-395: get_tok *)
Definition get_tok (s : str) : res (token * str) :=
  match strip_prefix (lit "(:") s with
  | Some r => match xskip_comment 1 r with
              | Some r' => Ok (mkTok T_Nop [], r')
              | None => Err XPathSyntaxError
              end
  | None =>
  match strip_prefix (lit "Q{") s with
  | Some _ => match fetch_until 125 s with
              | Some (l, r) => Ok (mkTok T_BracedURILiteral l, r)
              | None => Err XPathSyntaxError
              end
  | None =>
  match find_keyword keywords s with
  | Some tr => Ok tr
  | None =>
  match s with
  | [] => Ok (mkTok T_EOF [], [])
  | c :: s' =>
      if c =? 0 then Ok (mkTok T_EOF [], s')
      else if xis_name_start_char c then
        let (n, r) := fetch_name s' in Ok (mkTok T_InnerName (c :: n), r)
      else if (c =? 34) || (c =? 39) then
        match fetch_string_literal c s' with
        | Some (l, r) => Ok (mkTok T_StringLiteral l, r)
        | None => Err XPathSyntaxError
        end
      else if xis_digit c then fetch_numerics s
      else if c =? 46 then
        if xis_digit (xpeek s') then fetch_numerics s else Ok (mkTok T_Dot (lit "."), s')
      else Err XPathSyntaxError
  end end end end.

(* lexer.rs 255-266: cutting the input into tokens *)
Fixpoint raw_tokens_fuel (fuel : nat) (s : str) : res (list token) :=
  match fuel with
  | O => Fuel
  | S fuel' =>
      do (tok, r) <- get_tok (xskip_spaces s);
      match t_type tok with
      | T_EOF => Ok []
      | T_Nop => raw_tokens_fuel fuel' r
      | _ => do ts <- raw_tokens_fuel fuel' r; Ok (tok :: ts)
      end
  end.
(* every token but the last has at least one character (LexFacts.raw_tokens_enough) *)
Definition raw_tokens (s : str) : res (list token) := raw_tokens_fuel (S (List.length s)) s.

Definition set_type (t : ttype) (tok : token) : token := mkTok t (t_name tok).
Fixpoint assoc_str {A} (n : str) (l : list (str * A)) : option A :=
  match l with
  | [] => None
  | (m, a) :: l' => if str_eqb n m then Some a else assoc_str n l'
  end.

(* The three rewriting passes are given on the tokens between the two EOF sentinels. *)
(* lexer.rs 404-477: rewrite_operator_type; [prev] is the type of the token before (after rewriting) *)
Fixpoint rewrite_operator_type (prev : ttype) (ts : list token) : list token :=
  match ts with
  | [] => []
  | tok :: ts' =>
      let tok' :=
        if negb (existsb (ttype_eqb prev) prev_t_types) && ttype_eqb (t_type tok) T_InnerName
        then match assoc_str (t_name tok) operator_words with Some t => set_type t tok | None => tok end
        else tok in
      tok' :: rewrite_operator_type (t_type tok') ts'
  end.
(* lexer.rs 483-505: rewrite_pair_words *)
Fixpoint find_pair (a b : str) (l : list (str * str * ttype)) : option ttype :=
  match l with
  | [] => None
  | (x, y, t) :: l' => if str_eqb a x && str_eqb b y then Some t else find_pair a b l'
  end.
(* lexer.rs 483-504 *)
Fixpoint rewrite_pair_words (ts : list token) : list token :=
  match ts with
  | [] => []
  | a :: ts' =>
      match ts' with
      | [] => [a]
      | b :: ts'' =>
          match (if ttype_eqb (t_type a) T_InnerName && ttype_eqb (t_type b) T_InnerName
                 then find_pair (t_name a) (t_name b) pair_words else None) with
          | Some t => set_type t a :: set_type T_Nop b :: rewrite_pair_words ts''
          | None => a :: rewrite_pair_words ts'
          end
      end
  end.
(* lexer.rs 575-583 *)
Definition eliminate_nops (ts : list token) : list token :=
  filter (fun t => negb (ttype_eqb (t_type t) T_Nop)) ts.
(* lexer.rs 511-569: rewrite_name_and_symbol *)
Fixpoint find_symbol (n : str) (next : ttype) (l : list (str * ttype * ttype)) : option ttype :=
  match l with
  | [] => None
  | (x, y, t) :: l' => if str_eqb n x && ttype_eqb next y then Some t else find_symbol n next l'
  end.
(* lexer.rs 511-570 *)
Fixpoint rewrite_name_and_symbol (ts : list token) : list token :=
  match ts with
  | [] => []
  | a :: ts' =>
      let next := match ts' with b :: _ => t_type b | [] => T_EOF end in
      (if ttype_eqb (t_type a) T_InnerName
       then match find_symbol (t_name a) next name_and_symbol_tbl with
            | Some t => set_type t a
            | None => set_type T_Name a
            end
       else a) :: rewrite_name_and_symbol ts'
  end.

Definition eof_token : token := mkTok T_EOF [].
(* lexer.rs 240-289: Lexer::new.  The result is the token vector with its EOF sentinels at both ends.
   With no token between the sentinels, tokens[i+1] at line 491 is out of bounds. *)
Definition lexer_new (s : str) : res (list token) :=
  do ts <- raw_tokens s;
  let ts1 := rewrite_operator_type T_EOF ts in
  match ts1 with
  | [] => Panic
  | _ => Ok (eof_token :: rewrite_name_and_symbol (eliminate_nops (rewrite_pair_words ts1)) ++ [eof_token])
  end.

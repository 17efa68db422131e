(* Specification of the operators of XPath on values: comparisons, arithmetic, types. *)
Require Import Bool List NArith ZArith Ascii String.
From Verif Require Import Str Dom Lexer Parser Num Item Eval.
Import ListNotations.

(* the evaluation of [x] for the context [c] and the environment [e] ends, with the outcome [o] *)
Definition outcome (h : heap) (c : xseq) (x : xnode) (e : env) (o : res (xseq * env)) : Prop :=
  o <> Fuel /\ exists n, eval h n c x e = o.
(* A, then B, evaluated one after the other in context [c], give the values [l] and [r] *)
Definition operands (h : heap) (c : xseq) (A B : xnode) (e : env) (l r : xseq) (e2 : env) : Prop :=
  exists e1, outcome h c A e (Ok (l, e1)) /\ outcome h c B e1 (Ok (r, e2)).
(* the text [s], as an XPath for the node [i], gives [o] *)
Definition xpath_gives (h : heap) (i : nat) (s : str) (o : res xseq) : Prop :=
  o <> Fuel /\ exists n, eval_xpath n h i s = o.

(* the six comparisons, in their general (=, !=, ...) and value (eq, ne, ...) forms *)
Inductive cmpop : Type := CEq | CNe | CLt | CLe | CGt | CGe.
Definition general_node (op : cmpop) : xtype :=
  match op with
  | CEq => X_OperatorGeneralEQ | CNe => X_OperatorGeneralNE | CLt => X_OperatorGeneralLT
  | CLe => X_OperatorGeneralLE | CGt => X_OperatorGeneralGT | CGe => X_OperatorGeneralGE
  end.
Definition value_node (op : cmpop) : xtype :=
  match op with
  | CEq => X_OperatorValueEQ | CNe => X_OperatorValueNE | CLt => X_OperatorValueLT
  | CLe => X_OperatorValueLE | CGt => X_OperatorValueGT | CGe => X_OperatorValueGE
  end.
(* `$x op $y` (a value comparison) gives true when the variables hold the single items [x] and [y] *)
Definition value_holds (h : heap) (op : cmpop) (x y : xitem) : Prop :=
  exists e', outcome h [] (XNode (value_node op) [] (XNode X_VarRef (lit "x") XNil XNil)
                                                    (XNode X_VarRef (lit "y") XNil XNil))
                          (mkEnv 0 0 [(lit "x", [x]); (lit "y", [y])]) (Ok ([XIBoolean true], e')).

Definition rel_Z (op : cmpop) (a b : Z) : Prop :=
  match op with
  | CEq => a = b | CNe => a <> b | CLt => (a < b)%Z | CLe => (a <= b)%Z | CGt => (a > b)%Z | CGe => (a >= b)%Z
  end.
(* the lexicographic order of the code points *)
Inductive lex_lt : str -> str -> Prop :=
| lex_nil : forall c s, lex_lt [] (c :: s)
| lex_head : forall a b s t, (a < b)%N -> lex_lt (a :: s) (b :: t)
| lex_tail : forall a s t, lex_lt s t -> lex_lt (a :: s) (a :: t).
Definition rel_str (op : cmpop) (a b : str) : Prop :=
  match op with
  | CEq => a = b | CNe => a <> b | CLt => lex_lt a b | CLe => lex_lt a b \/ a = b
  | CGt => lex_lt b a | CGe => lex_lt b a \/ a = b
  end.
(* false < true *)
Definition rel_bool (op : cmpop) (a b : bool) : Prop := rel_Z op (Z.b2z a) (Z.b2z b).

(* numeric types, integer < decimal < double *)
Definition rank (it : xitem) : option nat :=
  match it with XIInteger _ => Some 0 | XIDecimal _ => Some 1 | XIDouble _ => Some 2 | _ => None end%nat.
(* the value of a numeric item as a double *)
Definition as_f64 (it : xitem) : f64 :=
  match it with XIInteger z => i64_to_f64 z | XIDecimal f => f | XIDouble f => f | _ => f_nan end.

Definition is_i64 (z : Z) : Prop := (- 2 ^ 63 <= z <= 2 ^ 63 - 1)%Z.
(* a numeric item as an operand of a decimal or double operation; an integer is converted through its
   decimal notation *)
Definition promote (it : xitem) : f64 :=
  match it with XIInteger z => atof (fmt_i64 z ++ lit ".0") | XIDecimal f => f | XIDouble f => f | _ => f_nan end.

(* Specification for C64-C66: which expressions call functions they compute, which can overflow, and which nodes a value holds. *)
Require Import List NArith Ascii String.
From Verif Require Import Str Dom Lexer Parser Item SpecExpr.
Import ListNotations.

(* [part a e]: the expression a occurs in e (or is e) *)
Inductive part (a : expr) : expr -> Prop :=
| part_self : part a a
| part_arg : forall f args e, In e args -> part a e -> part a (ECall f args)
| part_left : forall o x y, part a x -> part a (EBin o x y)
| part_right : forall o x y, part a y -> part a (EBin o x y)
| part_sign : forall m x, part a x -> part a (ESign m x)
| part_type : forall o x n, part a x -> part a (EType o x n)
| part_cast : forall c x n, part a x -> part a (ECast c x n)
| part_cond : forall c x y, part a c -> part a (EIf c x y)
| part_then : forall c x y, part a x -> part a (EIf c x y)
| part_else : forall c x y, part a y -> part a (EIf c x y)
| part_range : forall q v x y, part a x -> part a (EBind q v x y)
| part_body : forall q v x y, part a y -> part a (EBind q v x y)
| part_value : forall v x y, part a x -> part a (ELet v x y)
| part_scope : forall v x y, part a y -> part a (ELet v x y)
| part_pred : forall f t ps p, In p ps -> part a p -> part a (EStep f t ps)
| part_base : forall x p, part a x -> part a (EFilter x p)
| part_filter : forall x p, part a p -> part a (EFilter x p)
| part_fun : forall x args, part a x -> part a (EDyn x args)
| part_darg : forall x args e, In e args -> part a e -> part a (EDyn x args)
| part_first : forall s x rest, part a x -> part a (EPath s x rest)
| part_step : forall s x rest b e, In (b, e) rest -> part a e -> part a (EPath s x rest)
| part_item : forall es e, In e es -> part a e -> part a (ESquare es)
| part_curly : forall x, part a x -> part a (ECurly x)
| part_key : forall es k v, In (k, v) es -> part a k -> part a (EMap es)
| part_entry : forall es k v, In (k, v) es -> part a v -> part a (EMap es)
| part_keyof : forall k, part a k -> part a (EKeyOf k)
| part_look : forall x k, part a x -> part a (ELook x k)
| part_lookof : forall x k, part a x -> part a (ELookOf x k)
| part_lookkey : forall x k, part a k -> part a (ELookOf x k)
| part_function : forall ps x, part a x -> part a (EFun ps x)
| part_arrow : forall v x f args, part a x -> part a (EArrow v x f args)
| part_aarg : forall v x f args e, In e args -> part a e -> part a (EArrow v x f args)
| part_parg : forall p f args e, In e args -> part a e -> part a (EPCall p f args)
| part_oarg : forall f args e, In (Some e) args -> part a e -> part a (EPart f args)
| part_inst : forall b x t, part a x -> part a (EInst b x t)
| part_bound : forall q bs b v e, In (v, e) bs -> part a e -> part a (EMulti q bs b)
| part_bbody : forall q bs b, part a b -> part a (EMulti q bs b).
(* the function called by name: f(...), fn:f(...), e => f(...) *)
Definition called (e : expr) : option str :=
  match e with
  | ECall f _ | EArrow false _ f _ => Some f
  | EPCall p f _ => if list_eq_dec N.eq_dec p (lit "fn") then Some f else None
  | _ => None
  end.

(* An expression that calls a function it computes: e(args), e => $f(args), for-each(s, f), filter(s, f) *)
Definition computed_call (e : expr) : Prop :=
  match e with
  | EDyn _ _ | EArrow true _ _ _ => True
  | e => called e = Some (lit "for-each") \/ called e = Some (lit "filter")
  end.
(* An expression that computes with 64-bit integers: + - * idiv mod, the sign -, and the functions that add up numbers or positions *)
Definition integer_work (e : expr) : Prop :=
  match e with
  | EBin o _ _ => match o with O_add | O_sub | O_mul | O_idiv | O_mod => True | _ => False end
  | ESign m _ => m = true
  | e => exists f, called e = Some f /\ In f [lit "abs"; lit "substring"; lit "subsequence"; lit "insert-before"; lit "sum"; lit "avg"]
  end.
(* An expression that asks for all values of a map: ?*, e?* (this panics when a key of the map is a map or an array) *)
Definition all_values (e : expr) : Prop := match e with EKey K_all | ELook _ K_all => True | _ => False end.
Definition without (bad : expr -> Prop) (e : expr) : Prop := forall a, part a e -> ~ bad a.

(* the same for any compiled expression, by the nodes of its tree *)
Inductive occurs (y : xnode) : xnode -> Prop :=
| oc_self : occurs y y
| oc_left : forall ty nm l r, occurs y l -> occurs y (XNode ty nm l r)
| oc_right : forall ty nm l r, occurs y r -> occurs y (XNode ty nm l r).
Definition calling_node (y : xnode) : Prop :=
  x_type y = X_ApplyArgument \/ (x_type y = X_FunctionCall /\ (x_name y = lit "fn:for-each" \/ x_name y = lit "fn:filter")).

(* [holds it i]: the item is the node i, or a map or an array with the node i somewhere in it *)
Inductive holds (i : nat) : xitem -> Prop :=
| ho_node : holds i (XINode i)
| ho_key : forall m k v, In (k, v) m -> holds i k -> holds i (XIMap m)
| ho_value : forall m k v it, In (k, v) m -> In it v -> holds i it -> holds i (XIMap m)
| ho_array : forall a s it, In s a -> In it s -> holds i it -> holds i (XIArray a).

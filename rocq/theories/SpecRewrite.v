(* Specification of rewriting: laws by which an XPath expression may be replaced by another. *)
Require Import Bool List NArith ZArith Ascii String.
From Verif Require Import Str Lexer Parser SpecExpr SpecSame.
Import ListNotations.
Open Scope N_scope.

Definition call0 (f : string) : expr := ECall (lit f) [].
Definition call1 (f : string) (a : expr) : expr := ECall (lit f) [a].

Inductive law : expr -> expr -> Prop :=
(* sequences *)
| l_assoc : forall a b c, law (EBin O_comma (EBin O_comma a b) c) (EBin O_comma a (EBin O_comma b c))
| l_nil_left : forall a, law (EBin O_comma EEmpty a) a                          (* (), a *)
| l_nil_right : forall a, law (EBin O_comma a EEmpty) a                         (* a, () *)
| l_reverse : forall a, law (call1 "reverse" (call1 "reverse" a)) a             (* reverse(reverse(a)) *)
| l_head : forall a, law (call1 "head" a) (EFilter a (ELit L_integer (lit "1")))            (* head(a) is a[1] *)
| l_last : forall a, law (call1 "head" (call1 "reverse" a)) (EFilter a (call0 "last"))      (* a[last()] *)
| l_exists : forall a, law (call1 "exists" a) (call1 "not" (call1 "empty" a))
| l_all : forall a, law (EFilter a (call0 "true")) a                            (* a[true()] *)
| l_empty_filter : forall a, no_closures a = true -> law (EFilter EEmpty a) EEmpty          (* ()[a] *)
| l_map_dot : forall a, law (EBin O_map a EDot) a                               (* a ! . *)
| l_empty_map : forall a, no_closures a = true -> law (EBin O_map EEmpty a) EEmpty          (* () ! a *)
(* variables *)
| l_for : forall v a, law (EBind Q_for v a (EVar v)) a                          (* for $v in a return $v *)
| l_let : forall v a, law (ELet v a (EVar v)) a                                 (* let $v := a return $v *)
| l_empty_for : forall v a, no_closures a = true -> law (EBind Q_for v EEmpty a) EEmpty
| l_empty_some : forall v a, no_closures a = true -> law (EBind Q_some v EEmpty a) (call0 "false")
| l_empty_every : forall v a, no_closures a = true -> law (EBind Q_every v EEmpty a) (call0 "true")
| l_some_every : forall v a b, law (EBind Q_some v a b) (call1 "not" (EBind Q_every v a (call1 "not" b)))
| l_every_some : forall v a b, law (EBind Q_every v a b) (call1 "not" (EBind Q_some v a (call1 "not" b)))
(* truth *)
| l_not_not : forall a, law (call1 "not" (call1 "not" a)) (call1 "boolean" a)
| l_boolean : forall a, law (call1 "boolean" (call1 "boolean" a)) (call1 "boolean" a)
| l_de_morgan_and : forall a b, law (call1 "not" (EBin O_and a b)) (EBin O_or (call1 "not" a) (call1 "not" b))
| l_de_morgan_or : forall a b, law (call1 "not" (EBin O_or a b)) (EBin O_and (call1 "not" a) (call1 "not" b))
| l_and_if : forall a b, law (EBin O_and a b) (EIf a (call1 "boolean" b) (call0 "false"))
| l_or_if : forall a b, law (EBin O_or a b) (EIf a (call0 "true") (call1 "boolean" b))
| l_if_true : forall a b, no_closures b = true -> law (EIf (call0 "true") a b) a
| l_if_false : forall a b, no_closures a = true -> law (EIf (call0 "false") a b) b
| l_if_not : forall c a b, law (EIf (call1 "not" c) a b) (EIf c b a)
| l_if_boolean : forall c, law (EIf c (call0 "true") (call0 "false")) (call1 "boolean" c)
(* strings *)
| l_concat : forall a b, law (EBin O_concat a b) (ECall (lit "concat") [a; b])
(* abbreviations, see SpecSame *)
| l_full : forall a, no_closures a = true -> law a (full a).

(* any number of replacements, in either direction, anywhere in the expression *)
Inductive rewrites : expr -> expr -> Prop :=
| rw_law : forall a b, law a b -> rewrites a b
| rw_refl : forall a, rewrites a a
| rw_sym : forall a b, rewrites a b -> rewrites b a
| rw_trans : forall a b c, rewrites a b -> rewrites b c -> rewrites a c
| rw_call : forall f l a b r, rewrites a b -> rewrites (ECall f (l ++ a :: r)) (ECall f (l ++ b :: r))
| rw_bin : forall o a b a' b', rewrites a a' -> rewrites b b' -> rewrites (EBin o a b) (EBin o a' b')
| rw_sign : forall m a b, rewrites a b -> rewrites (ESign m a) (ESign m b)
| rw_type : forall o a b n, rewrites a b -> rewrites (EType o a n) (EType o b n)
| rw_cast : forall c a b n, rewrites a b -> rewrites (ECast c a n) (ECast c b n)
| rw_if : forall c a b c' a' b', rewrites c c' -> rewrites a a' -> rewrites b b' -> rewrites (EIf c a b) (EIf c' a' b')
| rw_bind : forall q v a b a' b', rewrites a a' -> rewrites b b' -> rewrites (EBind q v a b) (EBind q v a' b')
| rw_let : forall v a b a' b', rewrites a a' -> rewrites b b' -> rewrites (ELet v a b) (ELet v a' b')
| rw_step : forall f t l a b r, rewrites a b -> rewrites (EStep f t (l ++ a :: r)) (EStep f t (l ++ b :: r))
| rw_filter : forall a b a' b', rewrites a a' -> rewrites b b' -> rewrites (EFilter a b) (EFilter a' b')
| rw_dyn : forall a b args, rewrites a b -> rewrites (EDyn a args) (EDyn b args)
| rw_dyn_arg : forall f l a b r, rewrites a b -> rewrites (EDyn f (l ++ a :: r)) (EDyn f (l ++ b :: r))
| rw_path : forall s a b rest, rewrites a b -> rewrites (EPath s a rest) (EPath s b rest)
| rw_path_step : forall s x l d a b r, rewrites a b -> rewrites (EPath s x (l ++ (d, a) :: r)) (EPath s x (l ++ (d, b) :: r))
| rw_square : forall l a b r, rewrites a b -> rewrites (ESquare (l ++ a :: r)) (ESquare (l ++ b :: r))
| rw_curly : forall a b, rewrites a b -> rewrites (ECurly a) (ECurly b)
| rw_map : forall l k a k' a' r, rewrites k k' -> rewrites a a' -> rewrites (EMap (l ++ (k, a) :: r)) (EMap (l ++ (k', a') :: r))
| rw_keyof : forall a b, rewrites a b -> rewrites (EKeyOf a) (EKeyOf b)
| rw_look : forall a b k, rewrites a b -> rewrites (ELook a k) (ELook b k)
| rw_lookof : forall a b a' b', rewrites a a' -> rewrites b b' -> rewrites (ELookOf a b) (ELookOf a' b')
| rw_arrow : forall v a b f args, rewrites a b -> rewrites (EArrow v a f args) (EArrow v b f args)
| rw_arrow_arg : forall v x f l a b r, rewrites a b -> rewrites (EArrow v x f (l ++ a :: r)) (EArrow v x f (l ++ b :: r))
| rw_pcall : forall p f l a b r, rewrites a b -> rewrites (EPCall p f (l ++ a :: r)) (EPCall p f (l ++ b :: r))
| rw_inst : forall t a b ty, rewrites a b -> rewrites (EInst t a ty) (EInst t b ty)
| rw_multi : forall q bs a b, rewrites a b -> rewrites (EMulti q bs a) (EMulti q bs b)
| rw_multi_in : forall q l v a b r x, rewrites a b -> rewrites (EMulti q (l ++ (v, a) :: r) x) (EMulti q (l ++ (v, b) :: r) x).

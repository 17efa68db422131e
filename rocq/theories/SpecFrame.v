(* Which variables an expression can touch. *)
Require Import List NArith.
From Verif Require Import Str Sax Dom SpecEdit Lexer FuncTable Parser Num Item Types.
Import ListNotations.

(* the names after for, let, some and every, and the parameters of inline functions *)
Inductive names_bound : str -> xnode -> Prop :=
| nb_for : forall v l r, names_bound v (XNode X_ForVarBind v l r)
| nb_let : forall v l r, names_bound v (XNode X_LetVarBind v l r)
| nb_some : forall v l r, names_bound v (XNode X_SomeVarBind v l r)
| nb_every : forall v l r, names_bound v (XNode X_EveryVarBind v l r)
| nb_param : forall v n l r, In v (names (x_right r)) -> names_bound v (XNode X_InlineFunction n l r)
| nb_left : forall v ty n l r, names_bound v l -> names_bound v (XNode ty n l r)
| nb_right : forall v ty n l r, names_bound v r -> names_bound v (XNode ty n l r).

(* A value without functions that bind v, and whose nodes are nodes of the document. *)
Inductive clear_item (h : heap) (v : str) : xitem -> Prop :=
| cl_node : forall i, in_document h 0 i -> clear_item h v (XINode i)
| cl_fun : forall f, ~ names_bound v f -> clear_item h v (XIFun f)
| cl_map : forall m, (forall k s, In (k, s) m -> clear_item h v k) -> (forall k s it, In (k, s) m -> In it s -> clear_item h v it) -> clear_item h v (XIMap m)
| cl_array : forall a, (forall s it, In s a -> In it s -> clear_item h v it) -> clear_item h v (XIArray a)
| cl_string : forall s, clear_item h v (XIString s)
| cl_integer : forall z, clear_item h v (XIInteger z)
| cl_decimal : forall f, clear_item h v (XIDecimal f)
| cl_double : forall f, clear_item h v (XIDouble f)
| cl_boolean : forall b, clear_item h v (XIBoolean b).

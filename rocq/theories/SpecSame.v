(* Specification of abbreviations: what the abbreviated forms of XPath 3.1 stand for. *)
Require Import Bool List NArith ZArith Ascii String.
From Verif Require Import Str Lexer Parser SpecExpr.
Import ListNotations.
Open Scope N_scope.

(* functions that take the context when no argument is given *)
Definition on_context : list str :=
  [lit "nilled"; lit "string"; lit "data"; lit "number"; lit "string-length"; lit "normalize-space"; lit "name";
   lit "local-name"; lit "namespace-uri"; lit "root"].
Definition has_name (f : str) (l : list str) : bool := existsb (str_eqb f) l.
(* f() is f(.) for these; lang(a) is lang(a, .) *)
Definition with_context (f : str) (args : list expr) : list expr :=
  match args with
  | [] => if has_name f on_context then [EDot] else []
  | [a] => if str_eqb f (lit "lang") then [a; EDot] else [a]
  | _ => args
  end.
(* descendant-or-self::node() *)
Definition dos : expr := EStep (F_axis A_descendant_or_self) N_node [].
(* the variables of one keyword are bound one after the other *)
Definition bind_one (q : option quant) (v : str) (e b : expr) : expr :=
  match q with Some q => EBind q v e b | None => ELet v e b end.

(* [full e]: e without abbreviations *)
Fixpoint full (e : expr) : expr :=
  match e with
  | ECall f args => ECall f (with_context f (map full args))
  | EBin o a b => EBin (match o with O_bar => O_union | _ => o end) (full a) (full b)
  | ESign m a => ESign m (full a)
  | EType o a n => EType o (full a) n
  | ECast c a n => ECast c (full a) n
  | EIf c a b => EIf (full c) (full a) (full b)
  | EBind q v e b => EBind q v (full e) (full b)
  | ELet v e b => ELet v (full e) (full b)
  | EStep f t ps => EStep (F_axis (form_axis f)) t (map full ps)       (* t and @t *)
  | EParent => EStep (F_axis A_parent) N_node []                       (* .. *)
  | EFilter a p => EFilter (full a) (full p)
  | EDyn a args => EDyn (full a) (map full args)
  | EPath s a rest =>                                                   (* // is /descendant-or-self::node()/ *)
      let steps := flat_map (fun x => (if fst x : bool then [(false, dos)] else []) ++ [(false, full (snd x))]) rest in
      match s with
      | S_here => EPath S_here (full a) steps
      | S_root => EPath S_root (full a) steps
      | S_all => EPath S_root dos ((false, full a) :: steps)
      end
  | ESquare es => ESquare (map full es)
  | ECurly e => ECurly (full e)
  | EMap es => EMap (map (fun x => (full (fst x), full (snd x))) es)
  | EKeyOf k => EKeyOf (full k)
  | ELook a k => EBin O_map (full a) (EKey k)                           (* a?k is a ! ?k *)
  | ELookOf a k => EBin O_map (full a) (EKeyOf (full k))
  | EArrow v a f args =>                                                (* a => f(b) is f(a, b) *)
      if v then EDyn (EVar f) (full a :: map full args) else ECall f (with_context f (full a :: map full args))
  | EPCall p f args => if str_eqb p (lit "fn") then ECall f (with_context f (map full args)) else EPCall p f (map full args)
  | EInst treat a t => EInst treat (full a) t
  | EMulti q bs b => fold_right (fun x r => bind_one q (fst x) (full (snd x)) r) (full b) bs
  | _ => e
  end.

(* no inline function and no partial application: the value of these is the piece of text itself *)
Fixpoint no_closures (e : expr) : bool :=
  match e with
  | EFun _ _ | EPart _ _ => false
  | ECall _ args | EPCall _ _ args => forallb no_closures args
  | EBin _ a b => no_closures a && no_closures b
  | ESign _ a | EType _ a _ | ECast _ a _ | EInst _ a _ => no_closures a
  | EIf c a b => no_closures c && no_closures a && no_closures b
  | EBind _ _ e b | ELet _ e b => no_closures e && no_closures b
  | EStep _ _ ps => forallb no_closures ps
  | EFilter a p => no_closures a && no_closures p
  | EDyn a args | EArrow _ a _ args => no_closures a && forallb no_closures args
  | EPath _ a rest => no_closures a && forallb (fun x => no_closures (snd x)) rest
  | ESquare es => forallb no_closures es
  | ECurly e | EKeyOf e | ELook e _ => no_closures e
  | EMap es => forallb (fun x => no_closures (fst x) && no_closures (snd x)) es
  | ELookOf a k => no_closures a && no_closures k
  | EMulti _ bs b => forallb (fun x => no_closures (snd x)) bs && no_closures b
  | _ => true
  end.

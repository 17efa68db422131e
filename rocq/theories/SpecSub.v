(* Specification of the subtype relation of sequence types, XPath 3.1 sections 2.5.6.1 and 2.5.6.2. *)
Require Import Bool List NArith ZArith Ascii String.
From Verif Require Import Str Dom Lexer Parser Num Item Eval SpecOper SpecTypes SpecExpr.
Import ListNotations.

(* sequence types *)
Inductive ty : Type :=
| TNone                               (* empty-sequence() *)
| TOf (i : ity) (c : occurrence)      (* i, i?, i*, i+ *)
with ity : Type :=
| JAtomic (n : str)                   (* an atomic type *)
| JItem                               (* item() *)
| JNode | JText | JComment | JPi      (* node(), text(), comment(), processing-instruction() *)
| JFunction                           (* function( * ) *)
| JTyped (r : ty) (ps : list ty)      (* function(ps) as r *)
| JMap (k : str) (v : ty)             (* map(k, v) *)
| JArray (v : ty).                    (* array(v) *)

(* their syntax trees *)
Definition occ_text (c : occurrence) : str :=
  match c with C_one => [] | C_opt => lit "?" | C_many => lit "*" | C_some => lit "+" end.
Definition param_chain (l : list xnode) : xnode := fold_right (fun x r => XNode X_Param [] x r) XNil l.
Fixpoint tree (A : ty) : xnode :=
  match A with
  | TNone => XNode X_SequenceType [] (leaf X_EmptySequenceTest []) XNil
  | TOf i c => XNode X_SequenceType (occ_text c) (itree i) XNil
  end
with itree (i : ity) : xnode :=
  match i with
  | JAtomic n => leaf X_AtomicOrUnionType n
  | JItem => leaf X_ItemTest []
  | JNode => XNode X_KindTest [] (leaf X_AnyKindTest []) XNil
  | JText => XNode X_KindTest [] (leaf X_TextTest []) XNil
  | JComment => XNode X_KindTest [] (leaf X_CommentTest []) XNil
  | JPi => XNode X_KindTest [] (leaf X_PITest []) XNil
  | JFunction => leaf X_AnyFunctionTest []
  | JTyped r ps => XNode X_TypedFunctionTest [] XNil (XNode X_ReturnType [] (tree r) (param_chain (map tree ps)))
  | JMap k v => XNode X_MapTest [] (leaf X_AtomicOrUnionType k) (tree v)
  | JArray v => XNode X_ArrayTest [] (tree v) XNil
  end.
(* function($p1 as t1, ...) as r { body } *)
Definition inline (ps : list (str * ty)) (r : ty) (body : xnode) : xnode :=
  XNode X_InlineFunction (lit "(inline function)") body
    (XNode X_ReturnType [] (tree r) (fold_right (fun p x => XNode X_Param (fst p) (tree (snd p)) x) XNil ps)).

(* ---- the relation ---- *)
Inductive occ_le : occurrence -> occurrence -> Prop :=
| ol_one : forall c, occ_le C_one c
| ol_opt : occ_le C_opt C_opt
| ol_opt_many : occ_le C_opt C_many
| ol_many : occ_le C_many C_many
| ol_some : occ_le C_some C_some
| ol_some_many : occ_le C_some C_many.
Inductive ty_sub : ty -> ty -> Prop :=
| ts_none : ty_sub TNone TNone
| ts_none_opt : forall i, ty_sub TNone (TOf i C_opt)
| ts_none_many : forall i, ty_sub TNone (TOf i C_many)
| ts_of : forall i j c d, occ_le c d -> ity_sub i j -> ty_sub (TOf i c) (TOf j d)
with ity_sub : ity -> ity -> Prop :=
| is_atomic : forall a b, derives a b -> ity_sub (JAtomic a) (JAtomic b)
| is_item : forall i, ity_sub i JItem
| is_node : forall i, In i [JNode; JText; JComment; JPi] -> ity_sub i JNode
| is_text : ity_sub JText JText
| is_comment : ity_sub JComment JComment
| is_pi : ity_sub JPi JPi
| is_function : ity_sub JFunction JFunction
| is_typed_function : forall r ps, ity_sub (JTyped r ps) JFunction
| is_map_function : forall k v, ity_sub (JMap k v) JFunction
| is_array_function : forall v, ity_sub (JArray v) JFunction
(* results vary with the function, parameters against it *)
| is_typed : forall r ps r' ps', ty_sub r r' -> tys_sub ps' ps -> ity_sub (JTyped r ps) (JTyped r' ps')
| is_map : forall k v k' v', derives k k' -> ty_sub v v' -> ity_sub (JMap k v) (JMap k' v')
| is_array : forall v v', ty_sub v v' -> ity_sub (JArray v) (JArray v')
with tys_sub : list ty -> list ty -> Prop :=
| tys_nil : tys_sub [] []
| tys_cons : forall a b l m, ty_sub a b -> tys_sub l m -> tys_sub (a :: l) (b :: m).

(* Types considered: with [f], typed function types are allowed; with [c], map and array types.  xs:error, which the
   implementation treats apart, is left out. *)
Fixpoint allowed (f c : bool) (A : ty) : bool :=
  match A with TNone => true | TOf i _ => iallowed f c i end
with iallowed (f c : bool) (i : ity) : bool :=
  match i with
  | JAtomic n => negb (str_eqb n (lit "xs:error"))
  | JTyped r ps => f && allowed f c r && forallb (allowed f c) ps
  | JMap k v => c && negb (str_eqb k (lit "xs:error")) && allowed f c v
  | JArray v => c && allowed f c v
  | _ => true
  end.
(* `$x instance of A`, when $x holds [v], is true *)
Definition instance (h : heap) (v : list xitem) (A : ty) : Prop :=
  exists e', outcome h [] (XNode X_OperatorInstanceOf [] (XNode X_VarRef (lit "x") XNil XNil) (tree A))
                          (mkEnv 0 0 [(lit "x", v)]) (Ok ([XIBoolean true], e')).
(* no function types inside (maps and arrays may be).  "function( * )" is no name, so no atomic type has it. *)
Fixpoint functionless (A : ty) : bool :=
  match A with TNone => true | TOf i _ => ifunctionless i end
with ifunctionless (i : ity) : bool :=
  match i with JFunction | JTyped _ _ => false | JAtomic n => negb (str_eqb n (lit "function(*)")) | JMap _ v | JArray v => functionless v | _ => true end.

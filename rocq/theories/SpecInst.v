(* Specification of `instance of`: which values a sequence type has.  XPath 3.1, section 2.5.5. *)
Require Import Bool List NArith ZArith Ascii String.
From Verif Require Import Str Dom Lexer Parser Num Item Eval SpecOper SpecTypes SpecExpr SpecItem PropItem SpecSub.
Import ListNotations.

(* ---- the declared types of the library's functions; the functions on maps and arrays are left out ---- *)
Definition one_of (i : ity) : ty := TOf i C_one.
Definition opt_of (i : ity) : ty := TOf i C_opt.
Definition many_of (i : ity) : ty := TOf i C_many.
Definition at_ (s : string) : ity := JAtomic (lit s).
Definition declared : list (str * ty * list ty) := [
  (lit "fn:nilled#0", opt_of (at_ "xs:boolean"), []);
  (lit "fn:nilled#1", opt_of (at_ "xs:boolean"), [opt_of JNode]);
  (lit "fn:string#0", one_of (at_ "xs:string"), []);
  (lit "fn:string#1", one_of (at_ "xs:string"), [opt_of JItem]);
  (lit "fn:data#0", many_of (at_ "xs:anyAtomicType"), []);
  (lit "fn:data#1", many_of (at_ "xs:anyAtomicType"), [many_of JItem]);
  (lit "fn:abs#1", opt_of (at_ "xs:numeric"), [opt_of (at_ "xs:numeric")]);
  (lit "fn:ceiling#1", opt_of (at_ "xs:numeric"), [opt_of (at_ "xs:numeric")]);
  (lit "fn:floor#1", opt_of (at_ "xs:numeric"), [opt_of (at_ "xs:numeric")]);
  (lit "fn:round#1", opt_of (at_ "xs:numeric"), [opt_of (at_ "xs:numeric")]);
  (lit "fn:number#0", one_of (at_ "xs:double"), []);
  (lit "fn:number#1", one_of (at_ "xs:double"), [opt_of (at_ "xs:anyAtomicType")]);
  (lit "fn:codepoints-to-string#1", one_of (at_ "xs:string"), [many_of (at_ "xs:integer")]);
  (lit "fn:string-to-codepoints#1", many_of (at_ "xs:integer"), [many_of (at_ "xs:string")]);
  (lit "fn:compare#2", opt_of (at_ "xs:integer"), [opt_of (at_ "xs:string"); opt_of (at_ "xs:string")]);
  (lit "fn:compare#3", opt_of (at_ "xs:integer"), [opt_of (at_ "xs:string"); opt_of (at_ "xs:string"); one_of (at_ "xs:string")]);
  (lit "fn:codepoint-equal#2", opt_of (at_ "xs:boolean"), [opt_of (at_ "xs:string"); opt_of (at_ "xs:string")]);
  (lit "fn:concat#2", one_of (at_ "xs:string"), [opt_of (at_ "xs:anyAtomicType"); opt_of (at_ "xs:anyAtomicType")]);
  (lit "fn:string-join#1", one_of (at_ "xs:string"), [many_of (at_ "xs:string")]);
  (lit "fn:string-join#2", one_of (at_ "xs:string"), [many_of (at_ "xs:string"); one_of (at_ "xs:string")]);
  (lit "fn:substring#2", one_of (at_ "xs:string"), [opt_of (at_ "xs:string"); one_of (at_ "xs:double")]);
  (lit "fn:substring#3", one_of (at_ "xs:string"), [opt_of (at_ "xs:string"); one_of (at_ "xs:double"); one_of (at_ "xs:double")]);
  (lit "fn:string-length#0", one_of (at_ "xs:integer"), []);
  (lit "fn:string-length#1", one_of (at_ "xs:integer"), [opt_of (at_ "xs:string")]);
  (lit "fn:normalize-space#0", one_of (at_ "xs:integer"), []);
  (lit "fn:normalize-space#1", one_of (at_ "xs:integer"), [opt_of (at_ "xs:string")]);
  (lit "fn:upper-case#1", one_of (at_ "xs:string"), [opt_of (at_ "xs:string")]);
  (lit "fn:lower-case#1", one_of (at_ "xs:string"), [opt_of (at_ "xs:string")]);
  (lit "fn:translate#3", one_of (at_ "xs:string"), [opt_of (at_ "xs:string"); one_of (at_ "xs:string"); one_of (at_ "xs:string")]);
  (lit "fn:contains#2", one_of (at_ "xs:boolean"), [opt_of (at_ "xs:string"); opt_of (at_ "xs:string")]);
  (lit "fn:contains#3", one_of (at_ "xs:boolean"), [opt_of (at_ "xs:string"); opt_of (at_ "xs:string"); one_of (at_ "xs:string")]);
  (lit "fn:starts-with#2", one_of (at_ "xs:boolean"), [opt_of (at_ "xs:string"); opt_of (at_ "xs:string")]);
  (lit "fn:starts-with#3", one_of (at_ "xs:boolean"), [opt_of (at_ "xs:string"); opt_of (at_ "xs:string"); one_of (at_ "xs:string")]);
  (lit "fn:ends-with#2", one_of (at_ "xs:boolean"), [opt_of (at_ "xs:string"); opt_of (at_ "xs:string")]);
  (lit "fn:ends-with#3", one_of (at_ "xs:boolean"), [opt_of (at_ "xs:string"); opt_of (at_ "xs:string"); one_of (at_ "xs:string")]);
  (lit "fn:substring-before#2", one_of (at_ "xs:string"), [opt_of (at_ "xs:string"); opt_of (at_ "xs:string")]);
  (lit "fn:substring-before#3", one_of (at_ "xs:string"), [opt_of (at_ "xs:string"); opt_of (at_ "xs:string"); one_of (at_ "xs:string")]);
  (lit "fn:substring-after#2", one_of (at_ "xs:string"), [opt_of (at_ "xs:string"); opt_of (at_ "xs:string")]);
  (lit "fn:substring-after#3", one_of (at_ "xs:string"), [opt_of (at_ "xs:string"); opt_of (at_ "xs:string"); one_of (at_ "xs:string")]);
  (lit "fn:true#0", one_of (at_ "xs:boolean"), []);
  (lit "fn:false#0", one_of (at_ "xs:boolean"), []);
  (lit "fn:boolean#1", one_of (at_ "xs:boolean"), [many_of JItem]);
  (lit "fn:not#1", one_of (at_ "xs:boolean"), [many_of JItem]);
  (lit "fn:name#0", one_of (at_ "xs:string"), []);
  (lit "fn:name#1", one_of (at_ "xs:string"), [opt_of JNode]);
  (lit "fn:local-name#0", one_of (at_ "xs:string"), []);
  (lit "fn:local-name#1", one_of (at_ "xs:string"), [opt_of JNode]);
  (lit "fn:namespace-uri#0", one_of (at_ "xs:anyURI"), []);
  (lit "fn:namespace-uri#1", one_of (at_ "xs:anyURI"), [opt_of JNode]);
  (lit "fn:lang#1", one_of (at_ "xs:boolean"), [opt_of (at_ "xs:string")]);
  (lit "fn:lang#2", one_of (at_ "xs:boolean"), [opt_of (at_ "xs:string"); one_of JNode]);
  (lit "fn:root#0", one_of JNode, []);
  (lit "fn:root#1", opt_of JNode, [opt_of JNode]);
  (lit "fn:empty#1", one_of (at_ "xs:boolean"), [many_of JItem]);
  (lit "fn:exists#1", one_of (at_ "xs:boolean"), [many_of JItem]);
  (lit "fn:head#1", opt_of JItem, [many_of JItem]);
  (lit "fn:tail#1", many_of JItem, [many_of JItem]);
  (lit "fn:insert-before#3", many_of JItem, [many_of JItem; one_of (at_ "xs:integer"); many_of JItem]);
  (lit "fn:remove#2", many_of JItem, [many_of JItem; one_of (at_ "xs:integer")]);
  (lit "fn:reverse#1", many_of JItem, [many_of JItem]);
  (lit "fn:subsequence#2", many_of JItem, [many_of JItem; one_of (at_ "xs:double")]);
  (lit "fn:subsequence#3", many_of JItem, [many_of JItem; one_of (at_ "xs:double"); one_of (at_ "xs:double")]);
  (lit "fn:index-of#2", many_of (at_ "xs:integer"), [many_of (at_ "xs:anyAtomicType"); one_of (at_ "xs:anyAtomicType")]);
  (lit "fn:index-of#3", many_of (at_ "xs:integer"), [many_of (at_ "xs:anyAtomicType"); one_of (at_ "xs:anyAtomicType"); one_of (at_ "xs:string")]);
  (lit "fn:zero-or-one#1", opt_of JItem, [many_of JItem]);
  (lit "fn:one-or-more#1", opt_of JItem, [many_of JItem]);
  (lit "fn:exactly-one#1", opt_of JItem, [many_of JItem]);
  (lit "fn:count#1", one_of (at_ "xs:integer"), [many_of JItem]);
  (lit "fn:avg#1", opt_of (at_ "xs:anyAtomicType"), [many_of (at_ "xs:anyAtomicType")]);
  (lit "fn:max#1", opt_of (at_ "xs:anyAtomicType"), [many_of (at_ "xs:anyAtomicType")]);
  (lit "fn:max#2", opt_of (at_ "xs:anyAtomicType"), [many_of (at_ "xs:anyAtomicType"); one_of (at_ "xs:string")]);
  (lit "fn:min#1", opt_of (at_ "xs:anyAtomicType"), [many_of (at_ "xs:anyAtomicType")]);
  (lit "fn:min#2", opt_of (at_ "xs:anyAtomicType"), [many_of (at_ "xs:anyAtomicType"); one_of (at_ "xs:string")]);
  (lit "fn:sum#1", opt_of (at_ "xs:anyAtomicType"), [many_of (at_ "xs:anyAtomicType")]);
  (lit "fn:sum#2", opt_of (at_ "xs:anyAtomicType"), [many_of (at_ "xs:anyAtomicType"); opt_of (at_ "xs:anyAtomicType")]);
  (lit "fn:position#0", one_of (at_ "xs:integer"), []);
  (lit "fn:last#0", one_of (at_ "xs:integer"), []);
  (lit "fn:for-each#2", many_of JItem, [many_of JItem; one_of (JTyped (many_of JItem) [one_of JItem])]);
  (lit "fn:filter#2", many_of JItem, [many_of JItem; one_of (JTyped (one_of (at_ "xs:boolean")) [one_of JItem])]);
  (lit "array:flatten#1", many_of JItem, [many_of JItem])].
Definition undeclared_here : list str := map lit ["map:size#1"; "map:keys#1"; "map:contains#2"; "map:get#2"; "array:size#1"; "array:get#2"]%string.
(* the function item `name#arity` *)
Definition named (n : str) : xnode := XNode X_NamedFunctionRef n XNil XNil.

(* result type and parameter types of a function item *)
Inductive signature : xnode -> ty -> list ty -> Prop :=
| sg_inline : forall ps r body, signature (inline ps r body) r (map snd ps)
| sg_named : forall n r ps, In (n, r, ps) declared -> signature (named n) r ps.

(* ---- the values of a type ---- *)
Fixpoint value_of (h : heap) (A : ty) (v : list xitem) : Prop :=
  match A with
  | TNone => v = []
  | TOf i c => occurs (occ_text c) (List.length v) /\ forall it, In it v -> item_of h i it
  end
with item_of (h : heap) (i : ity) (it : xitem) : Prop :=
  match i with
  | JAtomic n => exists t, has_type it t /\ derives t n
  | JItem => forall x, it <> XIFun x                                 (* the implementation's item() excludes functions *)
  | JNode => exists z, it = XINode z
  | JText => exists z, it = XINode z /\ n_type (Dom.get h z) = Text
  | JComment => exists z, it = XINode z /\ n_type (Dom.get h z) = Comment
  | JPi => exists z, it = XINode z /\ n_type (Dom.get h z) = Instruction
  | JFunction => (exists x, it = XIFun x) \/ (exists m, it = XIMap m) \/ (exists a, it = XIArray a)
  | JMap k w => exists m, it = XIMap m /\
      forall key v, In (key, v) m -> (exists t, has_type key t /\ derives t k) /\ value_of h w v
  | JArray w => exists a, it = XIArray a /\ forall v, In v a -> value_of h w v
  | JTyped r ps =>
      (* a function: its declared type is a subtype *)
      (exists x r0 ps0, it = XIFun x /\ signature x r0 ps0 /\ ity_sub (JTyped r0 ps0) (JTyped r ps)) \/
      (* a map: as a function from keys to values.  The implementation wants every key to have the parameter's type *)
      (exists m p, it = XIMap m /\ ps = [p] /\
         forall key v, In (key, v) m -> (exists n o t, p = TOf (JAtomic n) o /\ has_type key t /\ derives t n) /\ value_of h r v) \/
      (* an array: as a function from positions to members *)
      (exists a, it = XIArray a /\ match ps with
         | [p] => value_of h p [XIInteger 1] /\ forall v, In v a -> value_of h r v
         | _ => False
         end)
  end.

(* ---- the values and types considered ---- *)
(* keys of maps are pairwise distinct (C35: duplicates are not rejected); functions are inline functions or references to library functions,
   with no map or array types in their signatures *)
Inductive plain (h : heap) : xitem -> Prop :=
| pl_node : forall z, plain h (XINode z)
| pl_atomic : forall it t, has_type it t -> plain h it
| pl_map : forall m, keyed h m -> (forall key v it, In (key, v) m -> In it v -> plain h it) -> plain h (XIMap m)
| pl_array : forall a, (forall v it, In v a -> In it v -> plain h it) -> plain h (XIArray a)
| pl_inline : forall ps r body, allowed true false r = true -> forallb (allowed true false) (map snd ps) = true -> plain h (XIFun (inline ps r body))
| pl_named : forall n, ~ In n undeclared_here -> plain h (XIFun (named n)).
(* atomic types have names of atomic types; function types have no map or array types inside *)
Definition atomic_name (n : str) : bool :=
  forallb (fun m => negb (str_eqb n m)) (map lit ["function(*)"; "map(*)"; "array(*)"; "node"; "xs:error"])%string.
Fixpoint considered (A : ty) : bool :=
  match A with TNone => true | TOf i _ => iconsidered i end
with iconsidered (i : ity) : bool :=
  match i with
  | JAtomic n => atomic_name n
  | JTyped r ps => considered r && forallb considered ps && allowed true false r && forallb (allowed true false) ps
  | JMap k w => atomic_name k && considered w
  | JArray w => considered w
  | _ => true
  end.
(* `$x instance of A`, when $x holds [v], gives [b] *)
Definition instance_gives (h : heap) (v : list xitem) (A : ty) (b : bool) : Prop :=
  exists e', outcome h [] (XNode X_OperatorInstanceOf [] (XNode X_VarRef (lit "x") XNil XNil) (tree A))
                          (mkEnv 0 0 [(lit "x", v)]) (Ok ([XIBoolean b], e')).

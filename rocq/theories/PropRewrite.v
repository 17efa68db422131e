(* C91: rewriting an expression by the laws of SpecRewrite leaves every outcome as it is. *)
Require Import Bool List NArith ZArith Ascii String Lia.
From Verif Require Import Str StrFacts Sax Dom Axes Lexer FuncTable Parser SpecExpr PrecFacts PropParse Num Item Func Types Eval
  EvalFacts SpecOper SpecSame SameFacts PropSame SpecRewrite LawFacts RewriteFacts.
Import ListNotations.
Open Scope nat_scope.

(* Two texts, one for each side of a chain of rewriting steps: every outcome of one, for any document and node, error
   or value, is an outcome of the other. *)
Theorem C91_rewrite : forall a b, rewrites a b -> no_closures a = true ->
  forall s s' x x', compile_xpath s = Ok x -> reads x a -> compile_xpath s' = Ok x' -> reads x' b ->
  forall h i o, xpath_gives h i s o <-> xpath_gives h i s' o.
Proof.
  intros a b W N s s' x x' C R C' R'. destruct (rewrites_same _ _ W) as [E S]. eapply same_gives; eauto.
  eapply same_trans; [apply (reads_same _ _ R); auto|]. eapply same_trans; [apply S; auto|].
  apply same_sym. apply reads_same; auto. congruence.
Qed.
Theorem C91_source : forall a b, rewrites a b -> no_closures a = true -> wf a -> wf b ->
  forall h i o, xpath_gives h i (source a) o <-> xpath_gives h i (source b) o.
Proof.
  intros a b W N A B h i o. destruct (C42_precedence _ A) as (x & C & R). destruct (C42_precedence _ B) as (x' & C' & R').
  eapply C91_rewrite; eauto.
Qed.
(* wherever the expressions stand: in any context item, with any variables bound, and leaving the same variables *)
Theorem C91_anywhere : forall a b, rewrites a b -> no_closures a = true -> forall x y, reads x a -> reads y b ->
  forall h c e o, outcome h c x e o <-> outcome h c y e o.
Proof.
  intros a b W N x y R R'. destruct (rewrites_same _ _ W) as [E S].
  assert (Q : same x y).
  { eapply same_trans; [apply (reads_same _ _ R); auto|]. eapply same_trans; [apply S; auto|]. apply same_sym. apply reads_same; auto. congruence. }
  destruct Q as [k (_ & _ & P & Q)]. intros h c e o. split; intros [F [n H]]; (split; [exact F|]; exists (k + n)).
  - destruct (P h n c e) as [A|A]; congruence.
  - destruct (Q h n c e) as [A|A]; congruence.
Qed.
Definition C91_a : expr :=
  EIf (call1 "not" (EStep F_child (N_name (lit "b")) [])) (ELit L_integer (lit "1"))
    (EPath S_here (EStep F_child (N_name (lit "a")) []) [(true, EStep F_child (N_name (lit "c")) [EBin O_and EDot (call1 "not" (EBin O_or EDot EParent))])]).
Definition C91_b : expr :=
  EIf (EStep F_child (N_name (lit "b")) [])
    (EPath S_here (EStep F_child (N_name (lit "a")) []) [(true, EStep F_child (N_name (lit "c")) [EBin O_and EDot (EBin O_and (call1 "not" EDot) (call1 "not" EParent))])])
    (ELit L_integer (lit "1")).
Example C91_example : rewrites C91_a C91_b /\ no_closures C91_a = true /\ wf C91_a /\ wf C91_b /\
  source C91_a = lit "if ( not ( b ) ) then 1 else a // c [ . and not ( . or .. ) ] " /\
  source C91_b = lit "if ( b ) then a // c [ . and ( not ( . ) and not ( .. ) ) ] else 1 ".
Proof.
  split; [|split; [reflexivity|split; [|split; [|split; reflexivity]]]].
  - eapply rw_trans; [apply rw_law, l_if_not|]. apply rw_if; [apply rw_refl| |apply rw_refl].
    apply (rw_path_step S_here _ []). apply (rw_step F_child _ [] _ _ []). apply rw_bin; [apply rw_refl|]. apply rw_law, l_de_morgan_or.
  - unfold C91_a. cbn [wf]. repeat split; auto; try pname; try discriminate; try (repeat constructor; discriminate); vm_compute; intuition discriminate.
  - unfold C91_b. cbn [wf]. repeat split; auto; try pname; try discriminate; try (repeat constructor; discriminate); vm_compute; intuition discriminate.
Qed.
Print Assumptions C91_rewrite.
Print Assumptions C91_source.
Print Assumptions C91_anywhere.

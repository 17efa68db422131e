(* C62, C63: what an expression means. *)
Require Import Bool List NArith ZArith Ascii String Lia Sorted.
From Verif Require Import Str StrFacts Sax Dom SpecTree HeapFacts BuildFacts DocFacts Axes SpecEdit SpecAxes SessionFacts Lexer FuncTable Parser SpecExpr PropParse Num Item Func Types Eval EvalFacts
  SpecOper ItemFacts SpecFunc FuncFacts SpecTypes SpecEval EnvFacts SpecInt IntFacts PropInt SpecSem SemFacts SemNode SemLib SemOper SemIn SemMain SemKind.
Import ListNotations.
Open Scope nat_scope.

Lemma no_vars_in : forall h, vars_in h no_vars.
Proof. intros h n v E. discriminate E. Qed.
(* An expression that has the value v by the rules of SpecSem, whatever the context position and size, gives v when its text
   is evaluated at a node of a document that was parsed and then edited.  Partial: the rules cover the grammar of SpecExpr
   with the restrictions noted there, and variables are used hygienically. *)
Theorem C63_meaning_partial : forall h order n e v stale, ordinary h -> preorder h 0 order -> in_document h 0 n ->
  wf e -> hygienic stale e ->
  (forall p s, means h order (mkFocus (XINode n) p s) no_vars e v) ->
  xpath_gives h n (source e) (Ok v).
Proof.
  intros h order n e v D O PO I W HY M. destruct (ordinary_session h O) as [SE AP].
  apply text_gives; auto; [discriminate|]. intros x R.
  destruct (proj1 (means_yields h order SE PO AP) _ _ _ _ (M 0 0) D HY W (item_node h n I) (no_vars_in h) x R new_eval_env) as [e' [E _]].
  - split; reflexivity.
  - intros m _. reflexivity.
  - exists (Ok (v, e')). split; [|reflexivity]. apply evals_outcome. exact E.
Qed.
Print Assumptions C63_meaning_partial.
(* so the rules give an expression at most one value, and its nodes are nodes of the document *)
Theorem C63_determined : forall h order n e v w stale, ordinary h -> preorder h 0 order -> in_document h 0 n ->
  wf e -> hygienic stale e ->
  (forall p s, means h order (mkFocus (XINode n) p s) no_vars e v) ->
  (forall p s, means h order (mkFocus (XINode n) p s) no_vars e w) -> v = w.
Proof.
  intros h order n e v w D O PO I W HY M1 M2.
  destruct (C63_meaning_partial h order n e v D O PO I W HY M1) as [_ [a A]].
  destruct (C63_meaning_partial h order n e w D O PO I W HY M2) as [_ [b B]].
  apply (eval_xpath_fuel h a (a + b)) in A; [|discriminate|lia]. apply (eval_xpath_fuel h b (a + b)) in B; [|discriminate|lia]. congruence.
Qed.
Theorem C63_nodes : forall h order n p s e v it i, ordinary h -> preorder h 0 order -> in_document h 0 n ->
  means h order (mkFocus (XINode n) p s) no_vars e v -> In it v -> within (XINode i) it -> in_document h 0 i.
Proof.
  intros h order n p s e v it i O PO N M I W. destruct (ordinary_session h O) as [SE AP].
  exact (proj1 (means_in h order SE PO) _ _ _ _ M (item_node h n N) (no_vars_in h) it I (XINode i) W).
Qed.

(* ---- an example ---- *)
Definition sem_text : str := lit "<r><a><b x=""1""/></a><b x=""2"">t<c/>u</b></r>".
Definition sem_heap : heap := Eval vm_compute in match new_document sem_text with Ok h => h | _ => [] end.
Definition sem_order : list nat := [0; 1; 2; 3; 4; 5; 6; 7; 8; 9].
Lemma sem_parsed : ordinary sem_heap.
Proof. apply or_parse with (xml := sem_text). vm_compute. reflexivity. Qed.
Lemma sem_preorder : preorder sem_heap 0 sem_order.
Proof.
  assert (G : forall i ls m, preorders sem_heap (children sem_heap i) ls -> m = i :: attributes sem_heap i ++ ls -> preorder sem_heap i m)
    by (intros i ls m P ->; constructor; auto).
  assert (C : forall c cs l ls m, preorder sem_heap c l -> preorders sem_heap cs ls -> m = l ++ ls -> preorders sem_heap (c :: cs) m)
    by (intros c cs l ls m P Q ->; constructor; auto).
  assert (L : forall i, children sem_heap i = [] -> preorder sem_heap i (i :: attributes sem_heap i))
    by (intros i E; apply (G i []); [rewrite E; constructor|rewrite app_nil_r; reflexivity]).
  assert (P3 := L 3 eq_refl). assert (P7 := L 7 eq_refl). assert (P8 := L 8 eq_refl). assert (P9 := L 9 eq_refl).
  assert (P2 : preorder sem_heap 2 [2; 3; 4]) by (eapply G; [eapply C; [exact P3|constructor|reflexivity]|reflexivity]).
  assert (P5 : preorder sem_heap 5 [5; 6; 7; 8; 9])
    by (eapply G; [eapply C; [exact P7|eapply C; [exact P8|eapply C; [exact P9|constructor|reflexivity]|reflexivity]|reflexivity]|reflexivity]).
  assert (P1 : preorder sem_heap 1 [1; 2; 3; 4; 5; 6; 7; 8; 9])
    by (eapply G; [eapply C; [exact P2|eapply C; [exact P5|constructor|reflexivity]|reflexivity]|reflexivity]).
  eapply G; [eapply C; [exact P1|constructor|reflexivity]|reflexivity].
Qed.
(* //b[@x = '2'] is the second b element, and its string value is tu *)
Definition sem_e1 : expr :=
  EPath S_all (EStep F_child (N_name (lit "b")) [EBin O_geq (EStep F_at (N_name (lit "x")) []) (ELit L_string (lit "2"))]) [].
Definition sem_e2 : expr := ECall (lit "string") [sem_e1].
Lemma sem_attached : Forall (attached sem_heap 0) [0; 1; 2; 3; 5; 7; 8; 9].
Proof.
  assert (A0 : attached sem_heap 0 0) by constructor.
  assert (A1 : attached sem_heap 0 1) by (apply att_child with (p := 0); [auto|left; reflexivity]).
  assert (A2 : attached sem_heap 0 2) by (apply att_child with (p := 1); [auto|left; reflexivity]).
  assert (A5 : attached sem_heap 0 5) by (apply att_child with (p := 1); [auto|right; left; reflexivity]).
  assert (A3 : attached sem_heap 0 3) by (apply att_child with (p := 2); [auto|left; reflexivity]).
  assert (A7 : attached sem_heap 0 7) by (apply att_child with (p := 5); [auto|left; reflexivity]).
  assert (A8 : attached sem_heap 0 8) by (apply att_child with (p := 5); [auto|right; left; reflexivity]).
  assert (A9 : attached sem_heap 0 9) by (apply att_child with (p := 5); [auto|right; right; left; reflexivity]).
  repeat (constructor; [assumption|]). constructor.
Qed.
(* the nodes of a step, computed *)
Lemma sem_step : forall n a t l, In n [0; 1; 2; 3; 5; 7; 8; 9] -> test_ok t ->
  axis_nodes sem_heap n (XNode (anode a) (test_name t) (test_tree t) XNil) = Ok l ->
  exactly sem_order (fun x => axis_has sem_heap sem_order a x n /\ passes sem_heap a t x) l /\ kind sem_heap n <> Attribute.
Proof.
  intros n a t l I T E. destruct (ordinary_session _ sem_parsed) as [SE AP].
  assert (A := proj1 (Forall_forall _ _) sem_attached n I).
  assert (K : kind sem_heap n <> Attribute) by exact (AP n A). split; auto.
  destruct (step_exactly sem_heap sem_order SE sem_preorder AP n a t XNil) as [l' [E' X]]; [left; auto|auto|congruence|].
  rewrite E in E'. injection E' as <-. exact X.
Qed.
Definition sem_b (n : nat) : list nat := match n with 1 => [5] | 2 => [3] | _ => [] end.
Definition sem_g (n : nat) : list nat := match n with 1 => [5] | _ => [] end.
Lemma sem_predicate : forall i p s, i = 3 \/ i = 5 ->
  means sem_heap sem_order (mkFocus (XINode i) p s) no_vars (EBin O_geq (EStep F_at (N_name (lit "x")) []) (ELit L_string (lit "2")))
    [XIBoolean (Nat.eqb i 5)].
Proof.
  intros i p s [-> | ->].
  - apply m_general_false with (op := CEq) (v := nodes [4]) (w := [XIString (lit "2")]); [reflexivity| |constructor|].
    + destruct (sem_step 3 A_attribute (N_name (lit "x")) [4]) as [X K]; [vm_compute; tauto|split; [pname|exact I]|vm_compute; reflexivity|].
      eapply m_step; [congruence|exact X|constructor|exact I].
    + intros x y [<-|[]] [<-|[]]. apply cp_texts with (a := lit "1") (b := lit "2"); [|constructor|].
      * apply ti_node, (sv_leaf sem_heap 4). right. left. reflexivity.
      * split; intro H; discriminate H.
  - apply m_general_true with (op := CEq) (v := nodes [6]) (w := [XIString (lit "2")]) (x := XINode 6) (y := XIString (lit "2"));
      [reflexivity| |constructor|left; reflexivity|left; reflexivity|].
    + destruct (sem_step 5 A_attribute (N_name (lit "x")) [6]) as [X K]; [vm_compute; tauto|split; [pname|exact I]|vm_compute; reflexivity|].
      eapply m_step; [congruence|exact X|constructor|exact I].
    + apply cp_texts with (a := lit "2") (b := lit "2"); [|constructor|split; reflexivity].
      apply ti_node, (sv_leaf sem_heap 6). right. left. reflexivity.
Qed.
Lemma sem_means1 : forall p s, means sem_heap sem_order (mkFocus (XINode 3) p s) no_vars sem_e1 [XINode 5].
Proof.
  intros p s. apply (m_path_all _ _ _ _ _ _ _ _ [5]). apply w_deep with (l' := [0; 1; 2; 3; 5; 7; 8; 9]).
  - destruct (sem_step 0 A_descendant_or_self N_node [0; 1; 2; 3; 5; 7; 8; 9]) as [X K]; [left; auto|split; exact I|vm_compute; reflexivity|].
    eapply exactly_ext; [|exact X]. intro x. cbn [axis_has passes]. split.
    + intros [D _]. exists 0. split; [left; auto|exact D].
    + intros [n [[<-|[]] D]]. auto.
  - apply w_last with (g := sem_g).
    + intros n q r I. destruct (sem_step n A_child (N_name (lit "b")) (sem_b n) I ltac:(split; [pname|exact Logic.I])) as [X K].
      { repeat (destruct I as [<-|I]; [vm_compute; reflexivity|]). destruct I. }
      eapply m_step; [congruence|exact X| |exact Logic.I].
      assert (C : n = 1 \/ n = 2 \/ sem_b n = [] /\ sem_g n = []).
      { repeat (destruct I as [<-|I]; [vm_compute; tauto|]). destruct I. }
      destruct C as [->|[->|[B G]]].
      * eapply nr_cons with (vals := fun _ => [XIBoolean true]) (keep := fun _ => true); [|constructor|constructor].
        intros [|k] it E; [|destruct k; discriminate E]. injection E as <-. apply sem_predicate. auto.
      * eapply nr_cons with (vals := fun _ => [XIBoolean false]) (keep := fun _ => false); [|constructor|constructor].
        intros [|k] it E; [|destruct k; discriminate E]. injection E as <-. apply sem_predicate. auto.
      * rewrite B, G. eapply nr_cons with (vals := fun _ => [XIBoolean false]) (keep := fun _ => false); [|constructor|constructor].
        intros [|k] it E; discriminate E.
    + split; [|repeat constructor]. intro x. split.
      * intros [<-|[]]. exists 1. split; [right; left; auto|left; auto].
      * intros [n [I J]]. repeat (destruct I as [<-|I]; [first [destruct J as [<-|[]]; left; reflexivity|destruct J]|]). destruct I.
Qed.
Lemma sem_string : string_value_of sem_heap 5 (lit "tu").
Proof.
  apply sv_tree; [right; reflexivity|]. change (children sem_heap 5) with [7; 8; 9].
  assert (S7 : string_value_of sem_heap 7 (lit "t")) by (apply (sv_leaf sem_heap 7); left; reflexivity).
  assert (S9 : string_value_of sem_heap 9 (lit "u")) by (apply (sv_leaf sem_heap 9); left; reflexivity).
  assert (S8 : string_value_of sem_heap 8 []) by (apply sv_tree; [right; reflexivity|constructor]).
  apply (sn_cons sem_heap 7 [8; 9] (lit "t") (lit "u")); [right; reflexivity|exact S7|].
  apply (sn_cons sem_heap 8 [9] [] (lit "u")); [left; reflexivity|exact S8|].
  apply (sn_cons sem_heap 9 [] (lit "u") []); [right; reflexivity|exact S9|constructor].
Qed.
Example C63_example : ordinary sem_heap /\ preorder sem_heap 0 sem_order /\ in_document sem_heap 0 3 /\
  (wf sem_e2 /\ hygienic [] sem_e2 /\ source sem_e2 = lit "string ( // b [ @ x = ""2"" ] ) ") /\
  forall p s, means sem_heap sem_order (mkFocus (XINode 3) p s) no_vars sem_e2 [XIString (lit "tu")].
Proof.
  split; [exact sem_parsed|]. split; [exact sem_preorder|].
  split; [left; apply (proj1 (Forall_forall _ _) sem_attached); vm_compute; tauto|]. split.
  - split; [|split; [cbn; tauto|vm_compute; reflexivity]].
    cbn. split; [pname|]. split; [reflexivity|]. split; auto. split; [discriminate|]. split; auto. split; [pname|]. split; auto.
    split; [split; [pname|auto]|]. split; [constructor; vm_compute; intuition discriminate|discriminate].
  - intros p s. eapply m_call; [constructor; [apply sem_means1|constructor]|]. apply fv_library, lb_string. constructor. constructor. exact sem_string.
Qed.

(* let $m := map { "k" : [ 5 , 7 ] } return for-each ( $m ? k ? * , function ( $x ) { $x + 1 } ) is 6, 8 *)
Definition sem_int (n : string) : expr := ELit L_integer (lit n).
Definition sem_e3 : expr :=
  ELet (lit "m") (EMap [(ELit L_string (lit "k"), ESquare [sem_int "5"; sem_int "7"])])
    (ECall (lit "for-each") [ELook (ELook (EVar (lit "m")) (K_name (lit "k"))) K_all; EFun [lit "x"] (EBin O_add (EVar (lit "x")) (sem_int "1"))]).
Lemma sem_means_int : forall h order f vs n, (Z.of_N (numeral (lit n)) < 2 ^ 63)%Z -> means h order f vs (sem_int n) [XIInteger (Z.of_N (numeral (lit n)))].
Proof. intros. constructor. auto. Qed.
Ltac lexi := match goal with
  | |- lexical L_string _ => apply lx_string; vm_compute; intuition discriminate
  | |- lexical L_integer _ => apply lx_integer; [discriminate|vm_compute; repeat constructor; discriminate]
  end.
Example C63_map_example : wf sem_e3 /\ hygienic [] sem_e3 /\
  forall h order f, means h order f no_vars sem_e3 [XIInteger 6; XIInteger 8].
Proof.
  split; [|split; [cbn; tauto|]].
  - cbn. intuition (try pname; try discriminate; try reflexivity). 
    all: try lexi.
    constructor; [pname|constructor].
  - intros h order f. set (m := [(XIString (lit "k"), [XIArray [[XIInteger 5]; [XIInteger 7]]])]).
    eapply m_let with (l := [XIMap m]).
    + apply m_mapping.
      * constructor; [constructor|constructor].
      * constructor; [|constructor]. apply m_square. constructor; [apply (sem_means_int h order f no_vars "5"); reflexivity|].
        constructor; [apply (sem_means_int h order f no_vars "7"); reflexivity|constructor].
      * apply (kd_cons h (XIString (lit "k")) _ [] (lit "k")); [constructor|intros p []|constructor].
      * intros p [<-|[]]. intros i E. discriminate E.
    + eapply (m_for_each h order f _ _ _ _ _ [XIInteger 5; XIInteger 7] (fun it => match it with XIInteger z => [XIInteger (z + 1)] | _ => [] end)).
      * eapply m_look with (l := [XIArray [[XIInteger 5]; [XIInteger 7]]]) (g := fun _ => [XIInteger 5; XIInteger 7]).
        -- eapply m_look with (l := [XIMap m]) (g := fun _ => [XIArray [[XIInteger 5]; [XIInteger 7]]]); [constructor; reflexivity|].
           intros it [<-|[]]. constructor. apply (lk_entry h [] (XIString (lit "k")) _ [] (lit "k")); [constructor|intros p []].
        -- intros it [<-|[]]. apply (lu_array h [[XIInteger 5]; [XIInteger 7]]).
      * apply fa_self. exact I.
      * intros v _. reflexivity.
      * intros it J. assert (G : exists z, it = XIInteger z /\ (0 <= z < 10)%Z) by (destruct J as [<-|[<-|[]]]; eexists; (split; [reflexivity|lia])).
        destruct G as [z [-> Z]]. apply ap_inline; [reflexivity|repeat constructor; intros []|]. intro f'.
        eapply m_arith with (x := z) (y := 1%Z); [constructor; reflexivity|apply (sem_means_int h order f' _ "1"); reflexivity|..].
        -- reflexivity.
        -- unfold is_i64. lia.
        -- unfold is_i64. lia.
        -- unfold is_i64. lia.
        -- intros [E _]. discriminate E.
Qed.
(* let $n := 1 return let $f := function ( $x ) { $x + $n } return ( 5 => $f ( ) , for-each ( $n , $f ) , $f ( 7 ) ) is 6, 2, 8;
   let $g := concat ( ? , "b" ) return ( for-each ( "a" , $g ) , for-each ( 5 , count#1 ) ) is "ab", 1 *)
Definition sem_f1 : expr :=
  ELet (lit "n") (sem_int "1") (ELet (lit "f") (EFun [lit "x"] (EBin O_add (EVar (lit "x")) (EVar (lit "n"))))
    (EBin O_comma (EBin O_comma (EArrow true (sem_int "5") (lit "f") []) (ECall (lit "for-each") [EVar (lit "n"); EVar (lit "f")]))
      (EDyn (EVar (lit "f")) [sem_int "7"]))).
Definition sem_f2 : expr :=
  ELet (lit "g") (EPart (lit "concat") [None; Some (ELit L_string (lit "b"))])
    (EBin O_comma (ECall (lit "for-each") [ELit L_string (lit "a"); EVar (lit "g")]) (ECall (lit "for-each") [sem_int "5"; ERef (lit "count") (lit "1")])).
Example C63_function_example : wf sem_f1 /\ hygienic [] sem_f1 /\ wf sem_f2 /\ hygienic [] sem_f2 /\ forall h order f,
  means h order f no_vars sem_f1 [XIInteger 6; XIInteger 2; XIInteger 8] /\ means h order f no_vars sem_f2 [XIString (lit "ab"); XIInteger 1].
Proof.
  split; [|split; [cbn; tauto|split; [|split; [cbn; tauto|]]]].
  - cbn. intuition (try pname; try discriminate; try reflexivity).
    all: try lexi.
    constructor; [pname|constructor].
  - cbn. intuition (try pname; try discriminate; try reflexivity).
    all: try lexi.
  - intros h order f. split.
    + eapply m_let; [apply (sem_means_int h order f no_vars "1"); reflexivity|]. eapply m_let_fun; [apply fa_self; exact I|cbn; tauto|].
      set (vs := bind_fun _ _ _ _).
      assert (SC : same_scope (EFun [lit "x"] (EBin O_add (EVar (lit "x")) (EVar (lit "n")))) (bind_var (lit "n") [XIInteger (Z.of_N (numeral (lit "1")))] no_vars) vs).
      { intros v V. cbn in V. destruct V as [<-|[]]. reflexivity. }
      assert (AP : forall z, (0 <= z < 10)%Z -> applies h order vs (EFun [lit "x"] (EBin O_add (EVar (lit "x")) (EVar (lit "n")))) [[XIInteger z]] [XIInteger (z + 1)]).
      { intros z Z. apply ap_inline; [reflexivity|repeat constructor; intros []|]. intro f'.
        eapply m_arith with (x := z) (y := 1%Z); [constructor; reflexivity|constructor; reflexivity|reflexivity|..]; unfold is_i64; try lia.
        }
      apply (m_comma h order f vs _ _ [XIInteger 6; XIInteger 2] [XIInteger 8]); [apply (m_comma h order f vs _ _ [XIInteger 6] [XIInteger 2])|].
      * eapply m_arrow_apply; [reflexivity|exact SC|constructor; [apply (sem_means_int h order f vs "5"); reflexivity|constructor]|]. apply (AP 5%Z). lia.
      * apply (m_for_each h order f vs _ _ (EFun [lit "x"] (EBin O_add (EVar (lit "x")) (EVar (lit "n")))) (bind_var (lit "n") [XIInteger (Z.of_N (numeral (lit "1")))] no_vars)
          [XIInteger 1] (fun _ => [XIInteger 2])); [constructor; reflexivity|apply fa_var; reflexivity|exact SC|]. intros it [<-|[]]. apply (AP 1%Z). lia.
      * eapply m_apply; [apply fa_var; reflexivity|exact SC|constructor; [apply (sem_means_int h order f vs "7"); reflexivity|constructor]|]. apply (AP 7%Z). lia.
    + eapply m_let_fun; [apply fa_self; exact I|cbn; tauto|]. set (vs := bind_fun _ _ _ _).
      apply (m_comma h order f vs _ _ [XIString (lit "ab")] [XIInteger 1]).
      * apply (m_for_each h order f vs _ _ (EPart (lit "concat") [None; Some (ELit L_string (lit "b"))]) no_vars [XIString (lit "a")] (fun _ => [XIString (lit "ab")]));
          [constructor|apply fa_var; reflexivity|intros v []|]. intros it [<-|[]].
        eapply ap_partial; [intro f'; apply fl_open, fl_value; [constructor|constructor]|]. intro f'. apply fv_library.
        apply (lb_concat h f' _ [lit "a"; lit "b"]); [cbn; auto|]. constructor; [apply ta_item; constructor|]. constructor; [apply ta_item; constructor|constructor].
      * apply (m_for_each h order f vs _ _ (ERef (lit "count") (lit "1")) vs [XIInteger 5] (fun _ => [XIInteger 1]));
          [apply (sem_means_int h order f vs "5"); reflexivity|apply fa_self; exact I|intros v []|]. intros it [<-|[]].
        apply ap_named; [reflexivity|reflexivity|]. intro f'. apply fv_library, (lb_count h f' [XIInteger 5]).
Qed.
(* some $x in 1 to 2 , $y in ( $x , 2 ) satisfies $x + $y = 4, and ( 5 => reverse ( ) ) instance of xs:integer + *)
Definition sem_e4 : expr :=
  EMulti (Some Q_some) [(lit "x", EBin O_to (sem_int "1") (sem_int "2")); (lit "y", sem_int "2")]
    (EBin O_geq (EBin O_add (EVar (lit "x")) (EVar (lit "y"))) (sem_int "4")).
Definition sem_e5 : expr := EInst false (EArrow false (sem_int "5") (lit "reverse") []) (T_of (I_atomic (lit "integer")) C_some).
Example C63_multi_example : wf sem_e4 /\ hygienic [lit "x"; lit "y"] sem_e4 /\ wf sem_e5 /\ hygienic [] sem_e5 /\
  forall h order f, means h order f no_vars sem_e4 [XIBoolean true] /\ means h order f no_vars sem_e5 [XIBoolean true].
Proof.
  split; [|split; [|split; [|split; [cbn; tauto|]]]].
  - cbn. intuition (try pname; try discriminate; try reflexivity).
    all: try lexi.
    repeat (constructor; [pname|]). constructor.
  - cbn. intuition congruence.
  - cbn. intuition (try pname; try discriminate; try reflexivity).
    all: try lexi.
  - intros h order f. split.
    + apply m_multi; [discriminate|].
      apply (bd_some h order f no_vars (lit "x") _ _ _ [XIInteger 1; XIInteger 2] (fun it => match it with XIInteger 2 => true | _ => false end)).
      * apply (m_to h order f no_vars _ _ 1 2 [1; 2]%Z); [apply (sem_means_int h order f no_vars "1"); reflexivity|
          apply (sem_means_int h order f no_vars "2"); reflexivity|..].
        -- intro k. cbn [In]. lia.
        -- repeat constructor.
      * intros it J. assert (G : exists z, it = XIInteger z /\ (z = 1 \/ z = 2)%Z) by (destruct J as [<-|[<-|[]]]; eauto).
        destruct G as [z [-> Z]].
        replace (match XIInteger z with XIInteger 2 => true | _ => false end) with (existsb (fun _ : xitem => (z =? 2)%Z) [XIInteger 2])
          by (destruct Z as [-> | ->]; reflexivity).
        apply (bd_some h order f _ (lit "y") _ _ _ [XIInteger 2] (fun _ => (z =? 2)%Z)).
        -- apply (sem_means_int h order f _ "2"); reflexivity.
        -- intros it [<-|[]]. apply bd_truth with (r := [XIBoolean (z =? 2)%Z]); [auto| |constructor].
           assert (MA : means h order f (bind_var (lit "y") [XIInteger 2] (bind_var (lit "x") [XIInteger z] no_vars))
             (EBin O_add (EVar (lit "x")) (EVar (lit "y"))) [XIInteger (z + 2)]).
           { eapply m_arith with (x := z) (y := 2%Z); [constructor; reflexivity|constructor; reflexivity|reflexivity|..]; unfold is_i64; try lia.
             }
           destruct Z as [-> | ->].
           ++ eapply m_general_false with (op := CEq); [reflexivity|exact MA|apply (sem_means_int h order f _ "4"); reflexivity|].
              intros x y [<-|[]] [<-|[]]. constructor. cbn. split; intro E; discriminate E.
           ++ eapply m_general_true with (op := CEq); [reflexivity|exact MA|apply (sem_means_int h order f _ "4"); reflexivity|left; reflexivity|left; reflexivity|].
              constructor. cbn. split; auto.
    + eapply (m_of_type h order f no_vars _ _ [XIInteger 5]).
      * eapply m_arrow; [constructor; [apply (sem_means_int h order f no_vars "5"); reflexivity|constructor]|]. apply fv_library, (lb_reverse h f [XIInteger 5]).
      * apply (ot_items h [XIInteger 5] (I_atomic (lit "integer")) C_some (fun _ => true)). intros it [<-|[]].
        apply (ii_atomic h (XIInteger 5) (lit "xs:integer")); [constructor|..].
        -- right. exists (lit "xs:decimal"). apply d_integer.
        -- split; auto. intros _. apply dv_refl.
Qed.

(* ---- C62: string values ---- *)
(* string(), string(.) and data(.) give the string value of the context node *)
Theorem C62_string_partial : forall h n s, ordinary h -> in_document h 0 n -> string_value_of h n s ->
  xpath_gives h n (lit "string ( ) ") (Ok [XIString s]) /\
  xpath_gives h n (lit "string ( . ) ") (Ok [XIString s]) /\
  xpath_gives h n (lit "data ( . ) ") (Ok [XIString s]).
Proof.
  intros h n s O I S. destruct (ordinary_session h O) as [SE _]. destruct (session_document h SE) as [t [D [T0 K]]].
  assert (PO := preorder_rep t h None (proj1 D)). rewrite T0 in PO.
  split; [|split].
  - apply (C63_meaning_partial h (ids t) n (ECall (lit "string") []) _ []); auto.
    + cbn. split; [pname|]. split; [reflexivity|exact Logic.I].
    + cbn. auto.
    + intros p q. eapply m_call; [constructor|]. apply fv_library, lb_string0. constructor. exact S.
  - apply (C63_meaning_partial h (ids t) n (ECall (lit "string") [EDot]) _ []); auto.
    + cbn. split; [pname|]. split; [reflexivity|auto].
    + cbn. auto.
    + intros p q. eapply m_call; [constructor; [constructor|constructor]|]. apply fv_library, lb_string. constructor. constructor. exact S.
  - apply (C63_meaning_partial h (ids t) n (ECall (lit "data") [EDot]) _ []); auto.
    + cbn. split; [pname|]. split; [reflexivity|auto].
    + cbn. auto.
    + intros p q. eapply m_call; [constructor; [constructor|constructor]|]. apply fv_library, (lb_data h _ [XINode n] [s]). constructor; [|constructor]. constructor. exact S.
Qed.
Print Assumptions C62_string_partial.
(* every node without comments and processing instructions below it has a string value, and only one *)
Definition plain_below (h : heap) (n : nat) : Prop :=
  kind h n <> Instruction /\ kind h n <> XMLDecl /\ kind h n <> Directive /\
  forall d, descendant h d n -> kind h d = Element \/ kind h d = Text.
Theorem C62_total : forall h n, ordinary h -> in_document h 0 n -> plain_below h n -> exists s, string_value_of h n s.
Proof.
  intros h n O I P. destruct (ordinary_session h O) as [SE _]. destruct (session_document h SE) as [t [D [T0 K]]].
  destruct I as [A|[p [A I]]].
  - rewrite <- T0 in A. destruct (attached_context h t n D A) as [fs [s [Et <-]]]. subst t. destruct D as [R _].
    clear A K T0. revert fs R P. induction s as [i ty nm v ats ks IH] using tree_ind'. intros fs R P.
    destruct (fill_get h fs (T i ty nm v ats ks) R) as [o [_ [Hg _]]]. cbn [tid tty tname tvalue tkids tattrs] in *.
    destruct P as [P1 [P2 [P3 P4]]].
    assert (KI : kind h i = ty) by (unfold kind; rewrite Hg; reflexivity).
    assert (CI : children h i = map tid ks) by (unfold children; rewrite Hg; reflexivity).
    assert (CASE : (kind h i = Text \/ kind h i = Attribute \/ kind h i = Comment) \/ (kind h i = DocumentRoot \/ kind h i = Element)).
    { rewrite KI in *. destruct ty; auto; congruence. }
    destruct CASE as [C|C]; [exists (n_value (Dom.get h i)); constructor; auto|].
    assert (G : exists s, string_values_of h (map tid ks) s).
    { assert (Q : forall k, In k ks -> exists s, string_value_of h (tid k) s).
      { intros k Ik. rewrite Forall_forall in IH. destruct (fill_kid fs (T i ty nm v ats ks) k Ik) as [f [E F]].
        apply (IH k Ik (f :: fs)); [rewrite <- E; exact R|].
        assert (DK : descendant h (tid k) i) by (constructor; rewrite CI; apply in_map; auto).
        split; [destruct (P4 _ DK) as [-> | ->]; discriminate|]. split; [destruct (P4 _ DK) as [-> | ->]; discriminate|].
        split; [destruct (P4 _ DK) as [-> | ->]; discriminate|]. intros d Dd. apply P4. eapply desc_down; [|exact Dd].
        rewrite CI. apply in_map. auto. }
      assert (KK : forall k, In k ks -> kind h (tid k) = Element \/ kind h (tid k) = Text).
      { intros k Ik. apply P4. constructor. rewrite CI. apply in_map. auto. }
      clear - Q KK. induction ks as [|k ks IH]; [exists []; constructor|].
      destruct IH as [s S]; [intros; apply Q; right; auto|intros; apply KK; right; auto|].
      destruct (Q k (or_introl eq_refl)) as [s' S']. exists (s' ++ s). constructor; auto. apply KK. left. auto. }
    destruct G as [s S]. exists s. apply sv_tree; auto. rewrite CI. exact S.
  - destruct (attribute_cell h p n SE A I) as [o [nm [v E]]]. exists (n_value (Dom.get h n)). constructor. unfold kind. rewrite E. auto.
Qed.
Theorem C62_unique : forall h n s t, ordinary h -> in_document h 0 n -> string_value_of h n s -> string_value_of h n t -> s = t.
Proof.
  intros h n s t O I S T. destruct (ordinary_session h O) as [SE _].
  destruct (string_value_spec h n s SE I S) as [A _]. destruct (string_value_spec h n t SE I T) as [B _]. congruence.
Qed.
Example C62_example : ordinary sem_heap /\ in_document sem_heap 0 1 /\ plain_below sem_heap 1 /\ string_value_of sem_heap 1 (lit "tu").
Proof.
  split; [exact sem_parsed|]. split; [left; apply (proj1 (Forall_forall _ _) sem_attached); vm_compute; tauto|]. split.
  - split; [discriminate|]. split; [discriminate|]. split; [discriminate|]. intros d D.
    destruct (sem_step 1 A_descendant N_node [2; 3; 5; 7; 8; 9]) as [X _]; [vm_compute; tauto|split; exact I|vm_compute; reflexivity|].
    assert (J : In d [2; 3; 5; 7; 8; 9]) by (apply X; split; [exact D|exact I]).
    repeat (destruct J as [<-|J]; [vm_compute; auto|]). destruct J.
  - apply sv_tree; [right; reflexivity|]. change (children sem_heap 1) with [2; 5].
    assert (S3 : string_value_of sem_heap 3 []) by (apply sv_tree; [right; reflexivity|constructor]).
    apply (sn_cons sem_heap 2 [5] [] (lit "tu")); [left; reflexivity| |].
    + apply sv_tree; [right; reflexivity|]. apply (sn_cons sem_heap 3 [] [] []); [left; reflexivity|exact S3|constructor].
    + apply (sn_cons sem_heap 5 [] (lit "tu") []); [left; reflexivity|exact sem_string|constructor].
Qed.
(* Refuted in general: comments and processing instructions below an element, and the XML declaration, count as text. *)
Definition odd_text : str := lit "<?xml version='1.0'?><r>a<!--c-->b<?p q?></r>".
Definition odd_heap : heap := Eval vm_compute in match new_document odd_text with Ok h => h | _ => [] end.
Theorem C62_comment_refuted : new_document odd_text = Ok odd_heap /\
  xpath_gives odd_heap 0 (lit "string(/r)") (Ok [XIString (lit "acbp q")]) /\
  xpath_gives odd_heap 0 (lit "string(/)") (Ok [XIString (lit "xml version='1.0'acbp q")]).
Proof. split; [vm_compute; reflexivity|]. split; (split; [discriminate|]; exists 20; vm_compute; reflexivity). Qed.

(* ---- C63: where the program does not follow the rules ---- *)
(* a path whose last step gives atomic values meets the nodes in another order (and, with overlapping steps, more than once) *)
Definition ord_text : str := lit "<r><a><b x='1'/></a><b x='2'/></r>".
Definition ord_heap : heap := Eval vm_compute in match new_document ord_text with Ok h => h | _ => [] end.
Theorem C63_values_order_refuted : new_document ord_text = Ok ord_heap /\
  xpath_gives ord_heap 0 (lit "//b/string(@x)") (Ok [XIString (lit "2"); XIString (lit "1")]) /\
  xpath_gives ord_heap 0 (lit "//b ! string(@x)") (Ok [XIString (lit "1"); XIString (lit "2")]).
Proof. split; [vm_compute; reflexivity|]. split; (split; [discriminate|]; exists 30; vm_compute; reflexivity). Qed.
(* untyped values of nodes are not converted to numbers: the comparison is false, the sum an error *)
Theorem C63_untyped_refuted :
  xpath_gives ord_heap 0 (lit "/r/b/@x = 2") (Ok [XIBoolean false]) /\
  xpath_gives ord_heap 0 (lit "/r/b/@x + 1") (Err TypeError) /\
  xpath_gives ord_heap 0 (lit "contains(/r/b/@x, '2')") (Err TypeError).
Proof. repeat (split; [split; [discriminate|]; exists 30; vm_compute; reflexivity|]). split; [discriminate|]. exists 30. vm_compute. reflexivity. Qed.
(* position() and last() are 0 outside predicates, in steps and on the right of ! *)
Theorem C63_position_refuted :
  xpath_gives ord_heap 0 (lit "position()") (Ok [XIInteger 0]) /\
  xpath_gives ord_heap 0 (lit "last()") (Ok [XIInteger 0]) /\
  xpath_gives ord_heap 0 (lit "(4, 5) ! position()") (Ok [XIInteger 0; XIInteger 0]) /\
  xpath_gives ord_heap 0 (lit "/r/*/position()") (Ok [XIInteger 0; XIInteger 0]).
Proof. repeat (split; [split; [discriminate|]; exists 30; vm_compute; reflexivity|]). split; [discriminate|]. exists 30. vm_compute. reflexivity. Qed.
(* a predicate with a string or a decimal value keeps nothing; arithmetic on the empty sequence is an error *)
Theorem C63_predicate_refuted :
  xpath_gives ord_heap 0 (lit "/r['x']") (Ok []) /\
  xpath_gives ord_heap 0 (lit "/r[1.0]") (Ok []) /\
  xpath_gives ord_heap 0 (lit "/r[b | a]") (Ok []) /\
  xpath_gives ord_heap 0 (lit "() + 1") (Err TypeError).
Proof. repeat (split; [split; [discriminate|]; exists 30; vm_compute; reflexivity|]). split; [discriminate|]. exists 30. vm_compute. reflexivity. Qed.

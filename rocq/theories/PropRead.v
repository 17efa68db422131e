(* C59: every spelling of a document is read; C60: navigation. *)
Require Import Bool List NArith ZArith Ascii String Lia.
From Verif Require Import Str StrFacts Chars Sax Dom SpecText SpecTokens SpecTree HeapFacts BuildFacts SaxFacts DocFacts SpecRead ReadFacts PropXml EditFacts.
Import ListNotations.
Open Scope nat_scope.

(* ------------------------------------------------------------------ C59 *)
(* Reading any text that spells the document x (carriage returns apart) gives a document with the content x. *)
Theorem C59_read : forall x s, document_text x (without_cr s) ->
  exists h t, new_document s = Ok h /\ document h t /\ tid t = 0 /\ erase t = x.
Proof.
  intros x s H. destruct (read_document x s H) as [h [t [E [R [I [Z X]]]]]]. exists h, t.
  split; auto. split; [split; auto; rewrite I; apply seq_NoDup|]. auto.
Qed.
Print Assumptions C59_read.

(* a heap holds one document only, hence a text spells one document only *)
Lemma rep_unique : forall t h par par' t', rep h par t -> rep h par' t' -> tid t = tid t' -> t = t'.
Proof.
  induction t as [i ty nm v ats ks IH] using tree_ind'. intros h par par' [i' ty' nm' v' ats' ks'] R R' E.
  cbn [tid] in E. subst i'. inversion R as [? ? ? ? ? ? o L G A K]; inversion R' as [? ? ? ? ? ? o' L' G' A' K']; subst.
  rewrite G in G'. injection G' as <- <- <- <- _ EK EA.
  f_equal.
  - clear - A A' EA. revert ats' A' EA. induction ats as [|[a [n w]] ats IH]; intros [|[a' [n' w']] ats'] A' EA; try discriminate EA; auto.
    injection EA as -> EA. inversion A as [|? ? [_ [o1 H1]] A1]; inversion A' as [|? ? [_ [o2 H2]] A2]; subst.
    cbn [fst snd] in *. rewrite H1 in H2. injection H2 as _ -> ->. f_equal. apply IH; auto.
  - clear - K K' EK IH. revert ks' K' EK. induction ks as [|k ks IHk]; intros [|k' ks'] K' EK; try discriminate EK; auto.
    injection EK as EK1 EK2. inversion K; inversion K'; inversion IH; subst. f_equal; eauto.
Qed.
Theorem C59_unique : forall x y s, document_text x s -> document_text y s -> ~ In 13%N s -> x = y.
Proof.
  intros x y s H1 H2 N. assert (E : without_cr s = s).
  { unfold without_cr. clear - N. induction s as [|c s IH]; auto. cbn [filter]. destruct (N.eqb_spec c 13); [subst; destruct N; left; auto|].
    cbn [negb]. f_equal. apply IH. intro. apply N. right. auto. }
  rewrite <- E in H1, H2. destruct (C59_read _ _ H1) as [h [t [P1 [[D1 _] [Z1 X1]]]]]. destruct (C59_read _ _ H2) as [h' [t' [P2 [[D2 _] [Z2 X2]]]]].
  assert (h = h') by congruence. subst h'. rewrite <- X1, <- X2. f_equal. eapply rep_unique; eauto. congruence.
Qed.
Print Assumptions C59_unique.
Definition C59_text : str :=
  lit "<?xml  version='1.0'?><!DOCTYPE r [ <!ELEMENT r ANY> ]><r  a = ""x&gt;y"" b='&#65;&quot;' ><![CDATA[<&amp;]]>t&amp;<e/><!--c--></r >".
Definition C59_tree : xtree :=
  X DocumentRoot [] [] []
    [X XMLDecl (lit "xml") (lit "version='1.0'") [] [];
     X Element (lit "r") [] [(lit "a", lit "x>y"); (lit "b", lit "A""")]
       [X Text [] (lit "<&amp;") [] []; X Text [] (lit "t&") [] []; X Element (lit "e") [] [] []; X Comment [] (lit "c") [] []]].
Ltac den := repeat first
  [ apply den_nil
  | match goal with |- denotes _ (38%N :: 35%N :: 54%N :: 53%N :: 59%N :: ?r) _ =>
      apply (den_cons _ (38%N :: 35%N :: lit "65" ++ [59%N]) 65%N r);
      [apply item_dec; [apply (num_snoc 10 dec_digit_value [54%N] 6%N 53%N 5%N); [apply num_one; reflexivity|reflexivity]|left; reflexivity|discriminate]|] end
  | match goal with |- denotes _ (38%N :: 103%N :: 116%N :: 59%N :: ?r) _ =>
      apply (den_cons _ (38%N :: lit "gt" ++ [59%N]) 62%N r); [apply item_entity; cbn; tauto|] end
  | match goal with |- denotes _ (38%N :: 97%N :: 109%N :: 112%N :: 59%N :: ?r) _ =>
      apply (den_cons _ (38%N :: lit "amp" ++ [59%N]) 38%N r); [apply item_entity; cbn; tauto|] end
  | match goal with |- denotes _ (38%N :: 113%N :: 117%N :: 111%N :: 116%N :: 59%N :: ?r) _ =>
      apply (den_cons _ (38%N :: lit "quot" ++ [59%N]) 34%N r); [apply item_entity; cbn; tauto|] end
  | match goal with |- denotes _ (?c :: ?r) _ => apply (den_cons _ [c] c r); [apply item_plain; discriminate|] end ].
Ltac sp := unfold spaces_text; repeat constructor; tauto.
Ltac nz := let H := fresh in intro H; vm_compute in H; discriminate H.
Ltac nin := cbn; intuition discriminate.
Example C59_example : document_text C59_tree C59_text /\ without_cr C59_text = C59_text.
Proof.
  split; [|reflexivity]. eexists _, false. split; [reflexivity|].
  change C59_text with ((lit "<?xml" ++ lit "  " ++ lit "version='1.0'" ++ lit "?>") ++
    lit "<!" ++ 68%N :: lit "OCTYPE r [ <!ELEMENT r ANY> ]" ++ [62%N] ++
    (([60%N] ++ lit "r" ++ ((lit "  " ++ lit "a" ++ lit " " ++ 61%N :: lit " " ++ 34%N :: lit "x&gt;y" ++ [34%N]) ++
       ((lit " " ++ lit "b" ++ [] ++ 61%N :: [] ++ 39%N :: lit "&#65;&quot;" ++ [39%N]) ++ [])) ++ lit " " ++ [62%N] ++
     ((lit "<![CDATA[" ++ lit "<&amp;" ++ lit "]]>") ++ (lit "t&amp;" ++ (([60%N] ++ lit "e" ++ [] ++ [] ++ lit "/>") ++ (lit "<!--" ++ lit "c" ++ lit "-->") ++ [])))
     ++ lit "</" ++ lit "r" ++ lit " " ++ [62%N]) ++ [])).
  eapply ns_node; [apply nt_decl; [nz|sp|nz|nin|not_contains]| |discriminate].
  eapply ns_declaration; [reflexivity| |].
  { change (lit "OCTYPE r [ <!ELEMENT r ANY> ]") with
      (79 :: 67 :: 84 :: 89 :: 80 :: 69 :: 32 :: 114 :: 32 :: 91 :: 32 :: (60 :: lit "!ELEMENT r ANY" ++ 62 :: lit " ]"))%N.
    repeat (first [apply br_nil | apply br_char; [discriminate|discriminate|discriminate|] | apply br_nest]). }
  eapply ns_node; [|apply ns_nil|reflexivity].
  apply nt_element with (b := false).
  - cbn. repeat constructor.
  - apply ats_cons; [|apply ats_cons; [|apply ats_nil]].
    + apply at_text; [nz|sp|cbn; repeat constructor|sp|sp|tauto|nin|split; [cbn; den|nin]].
    + apply at_text; [nz|sp|cbn; repeat constructor|sp|sp|tauto|nin|split; [cbn; den|nin]].
  - sp.
  - eapply ns_node; [apply nt_cdata; [nin|not_contains]| |discriminate].
    eapply ns_node; [apply nt_chars; [nz|nin|split; [cbn; den|nin]]| |reflexivity].
    eapply ns_node; [apply nt_empty; [cbn; repeat constructor|apply ats_nil|sp]| |discriminate].
    eapply ns_node; [apply nt_comment; [nin|not_contains]|apply ns_nil|discriminate].
  - sp.
Qed.

(* ------------------------------------------------------------------ C60 *)
(* [below t p s]: s is a subtree of t, p the node it hangs below *)
Inductive below (t : tree) : option nat -> tree -> Prop :=
| bl_top : below t None t
| bl_kid : forall p s k, below t p s -> In k (tkids s) -> below t (Some (tid s)) k.
Lemma below_rep : forall h t, rep h None t -> forall p s, below t p s -> rep h p s.
Proof.
  intros h t R p s B. induction B as [|p s k B IH K]; auto. destruct s as [i ty nm v ats ks]. inversion IH as [? ? ? ? ? ? o L G A F]; subst.
  rewrite Forall_forall in F. cbn [tid tkids] in *. auto.
Qed.
Lemma below_ids : forall t p s, below t p s -> incl (ids s) (ids t).
Proof.
  intros t p s B. induction B as [|p s k B IH K]; [intros x; auto|]. intros x I. apply IH. destruct s as [i ty nm v ats ks]. cbn [tkids] in K. cbn [ids].
  right. apply in_or_app. right. apply in_flat_map. eauto.
Qed.
Definition first_value (n : str) (l : list (nat * (str * str))) : option str :=
  option_map (fun a => snd (snd a)) (find (fun a => str_eqb (fst (snd a)) n) l).
(* Every accessor answers as the document's tree says. *)
Theorem C60_navigation : forall h t p s, document h t -> below t p s ->
  n_type (get h (tid s)) = tty s /\ n_name (get h (tid s)) = tname s /\ n_value (get h (tid s)) = tvalue s /\
  parent h (tid s) = p /\
  children h (tid s) = map tid (tkids s) /\
  (forall k, nth_child h (tid s) k = option_map tid (nth_error (tkids s) k)) /\
  first_child h (tid s) = option_map tid (hd_error (tkids s)) /\
  attributes h (tid s) = map fst (tattrs s) /\
  (forall n, attribute_value h (tid s) n = first_value n (tattrs s)) /\
  root h (tid s) = Ok (tid t) /\
  root_element h (tid s) = Ok (match find (fun k => node_type_eqb (tty k) Element) (tkids t) with Some k => tid k | None => tid t end).
Proof.
  intros h t p s [R ND] B. pose proof (below_rep h t R p s B) as RS. destruct s as [i ty nm v ats ks].
  inversion RS as [? ? ? ? ? ? o L G A F]; subst. cbn [tid tty tname tvalue tkids tattrs].
  assert (RT : root h i = Ok (tid t)).
  { apply root_document; [split; auto|]. apply (below_ids _ _ _ B). left. reflexivity. }
  rewrite G. cbn [n_type n_name n_value]. split; auto. split; auto. split; auto.
  unfold parent, children, first_child, nth_child, attributes. rewrite G. cbn [n_parent n_children n_attrs].
  split; auto. split; auto. split; [intro k; rewrite nth_error_map; reflexivity|].
  split; [destruct ks; reflexivity|]. split; auto. split.
  - intro n. rewrite attribute_value_lookup. unfold attributes. rewrite G. cbn [n_attrs]. unfold first_value.
    clear - A. induction ats as [|[a [m w]] ats IH]; [reflexivity|]. inversion A as [|? ? [_ [o1 H1]] A1]; subst. cbn [fst snd] in H1.
    cbn [map fst lookup_attr find snd]. rewrite H1. cbn [n_name n_value]. destruct (str_eqb m n); [reflexivity|]. apply IH; auto.
  - split; auto. unfold root_element. rewrite RT. cbn [bind]. destruct t as [i0 ty0 nm0 v0 ats0 ks0]. inversion R as [? ? ? ? ? ? o0 L0 G0 A0 F0]; subst.
    cbn [tid tkids]. rewrite G0. cbn [n_children].
    assert (K : find (fun c => node_type_eqb (n_type (get h c)) Element) (map tid ks0) =
                option_map tid (find (fun k => node_type_eqb (tty k) Element) ks0)).
    { clear - F0. induction ks0 as [|k ks0 IH]; [reflexivity|]. inversion F0 as [|? ? H1 H2]; subst. cbn [map find].
      destruct k as [j jty jnm jv jats jks]. inversion H1 as [? ? ? ? ? ? oj Lj Gj]; subst. cbn [tid tty]. rewrite Gj. cbn [n_type].
      destruct (node_type_eqb jty Element); [reflexivity|]. apply IH; auto. }
    rewrite K. destruct (find (fun k => node_type_eqb (tty k) Element) ks0); reflexivity.
Qed.
Print Assumptions C60_navigation.
Theorem C60_attribute_nodes : forall h t p s a n v, document h t -> below t p s -> In (a, (n, v)) (tattrs s) ->
  n_type (get h a) = Attribute /\ n_name (get h a) = n /\ n_value (get h a) = v /\ parent h a = Some (tid s) /\
  children h a = [] /\ attributes h a = [] /\ root h a = Ok (tid t).
Proof.
  intros h t p s a n v [R ND] B I. pose proof (below_rep h t R p s B) as RS. destruct s as [i ty nm w ats ks].
  inversion RS as [? ? ? ? ? ? o L G A F]; subst. cbn [tattrs tid] in *. rewrite Forall_forall in A. destruct (A _ I) as [_ [o1 H1]]. cbn [fst snd] in H1.
  unfold parent, children, attributes. rewrite H1. cbn. repeat (split; [reflexivity|]).
  apply root_document; [split; auto|]. apply (below_ids _ _ _ B). cbn [ids]. right. apply in_or_app. left. apply (in_map fst) in I. exact I.
Qed.
Print Assumptions C60_attribute_nodes.
Example C60_example : document doc1_heap doc1_tree /\ below doc1_tree (Some 2) (T 9 Element (lit "b") [] [] [T 10 Text [] (lit "z") [] []]).
Proof.
  split; [apply C04_example|].
  apply (bl_kid doc1_tree (Some 0) (T 2 Element (lit "a") [] [(3, (lit "x", lit "1<2")); (4, (lit "y", lit "&"))]
       [T 5 Comment [] (lit "c") [] []; T 6 Element (lit "b") [] [] []; T 7 Text [] (lit "t & u") [] [];
        T 8 Instruction (lit "p") (lit "d") [] []; T 9 Element (lit "b") [] [] [T 10 Text [] (lit "z") [] []]])).
  - apply (bl_kid doc1_tree None doc1_tree); [apply bl_top|]. right. left. reflexivity.
  - cbn. tauto.
Qed.

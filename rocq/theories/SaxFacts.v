(* The tokenizer on serialised trees. *)
Require Import Bool List NArith ZArith Ascii String Lia.
From Verif Require Import Str StrFacts Chars Sax Dom SpecText EntityFacts SpecTree HeapFacts BuildFacts.
Import ListNotations.
Open Scope N_scope.

(* ---- characters ---- *)
Lemma is_space_cases : forall c, is_space c = true -> c = 32 \/ c = 9 \/ c = 13 \/ c = 10.
Proof.
  intros c H. unfold is_space in H.
  repeat (apply orb_true_iff in H; destruct H as [H|H]); apply N.eqb_eq in H; subst; auto.
Qed.

Lemma name_first_not : forall c d, is_name_first_char c = true -> is_name_first_char d = false -> c <> d.
Proof. intros c d H1 H2 E. subst. congruence. Qed.
Lemma name_char_not : forall c d, is_name_char c = true -> is_name_char d = false -> c <> d.
Proof. intros c d H1 H2 E. subst. congruence. Qed.

Lemma name_first_not_space : forall c, is_name_first_char c = true -> is_space c = false.
Proof.
  intros c H. destruct (is_space c) eqn:E; auto.
  apply is_space_cases in E. destruct E as [E|[E|[E|E]]]; subst; vm_compute in H; discriminate.
Qed.

Lemma name_first_is_name_char : forall c, is_name_first_char c = true -> is_name_char c = true.
Proof.
  intros c H. unfold is_name_first_char, is_name_char in *.
  apply orb_true_iff in H; destruct H as [H|H]; [apply orb_true_iff in H; destruct H as [H|H]|];
    rewrite H; rewrite ?orb_true_r; reflexivity.
Qed.

Lemma legal_name_all : forall n, legal_name n -> Forall (fun x => is_name_char x = true) n.
Proof.
  intros [|c r] H; simpl in H; [contradiction|]. destruct H. constructor; auto using name_first_is_name_char.
Qed.

Lemma legal_name_not_in : forall n d, legal_name n -> is_name_char d = false -> ~ In d n.
Proof.
  intros n d H Hd Hin. apply legal_name_all in H. rewrite Forall_forall in H.
  apply H in Hin. congruence.
Qed.

Lemma get_name_rest_app : forall n d s, Forall (fun x => is_name_char x = true) n ->
  is_name_char d = false -> get_name_rest (n ++ d :: s) = (n, d :: s).
Proof.
  induction n as [|c n IH]; intros d s H Hd; cbn [app get_name_rest].
  - rewrite Hd. reflexivity.
  - inversion H as [|? ? Hc Hn]; subst. rewrite Hc, IH; auto.
Qed.

Lemma get_name_app : forall n d s, legal_name n -> is_name_char d = false ->
  get_name (n ++ d :: s) = (n, d :: s).
Proof.
  intros [|c r] d s H Hd; simpl in H; [contradiction|]. destruct H as [H1 H2].
  cbn [app get_name]. rewrite H1, get_name_rest_app; auto.
Qed.

Lemma get_name_none : forall d s, is_name_first_char d = false -> get_name (d :: s) = ([], d :: s).
Proof. intros d s H. cbn [get_name]. rewrite H. reflexivity. Qed.

Lemma skip_spaces_stop : forall c s, c <> 0 -> is_space c = false -> skip_spaces (c :: s) = c :: s.
Proof.
  intros c s H0 Hs. cbn [skip_spaces]. unfold cNUL. destruct (N.eqb_spec c 0); [contradiction|].
  rewrite Hs. reflexivity.
Qed.

Lemma skip_spaces_space : forall s, skip_spaces (32 :: s) = skip_spaces s.
Proof. reflexivity. Qed.

Lemma skip_spaces_name : forall n s, legal_name n -> skip_spaces (n ++ s) = n ++ s.
Proof.
  intros [|c r] s H; simpl in H; [contradiction|]. destruct H as [H _]. cbn [app].
  apply skip_spaces_stop; auto using name_first_not_space.
  apply name_first_not with (d := 0) in H; auto.
Qed.

(* ---- delimiters ---- *)
Lemma get_until_ch_app : forall q v r, q <> 0 -> ~ In q v -> ~ In 0 v ->
  get_until_ch q (v ++ q :: r) = Ok (v, r).
Proof.
  intros q v r Hq0. induction v as [|c v IH]; intros Hq H0; cbn [app get_until_ch]; unfold cNUL in *.
  - destruct (N.eqb_spec q 0); [contradiction|]. rewrite N.eqb_refl. reflexivity.
  - destruct (N.eqb_spec c 0); [subst; exfalso; apply H0; simpl; auto|].
    destruct (N.eqb_spec c q); [subst; exfalso; apply Hq; simpl; auto|].
    rewrite IH; auto; intro; [apply Hq|apply H0]; simpl; auto.
Qed.

Lemma app_split : forall (A : Type) (a b c d : list A), a ++ b = c ++ d ->
  (exists l, a = c ++ l /\ d = l ++ b) \/ (exists l, c = a ++ l /\ b = l ++ d).
Proof.
  intros A a. induction a as [|x a IH]; intros b c d E; simpl in *.
  - right. exists c. auto.
  - destruct c as [|y c]; simpl in *.
    + left. exists (x :: a). auto.
    + injection E as -> E. destruct (IH _ _ _ E) as [[l [-> ->]]|[l [-> ->]]].
      * left. exists l. auto.
      * right. exists l. auto.
Qed.

Lemma get_until_unfold : forall d s, get_until d s =
  match look_ahead_keyword d s with
  | Some s' => Ok ([], s')
  | None =>
      match s with
      | [] => Err XmlSyntaxError
      | c :: s' =>
          if c =? cNUL then Err XmlSyntaxError
          else do (r, k) <- get_until d s'; Ok (c :: r, k)
      end
  end.
Proof. destruct s; reflexivity. Qed.

Lemma get_until_app : forall p z v r, ~ In z p -> ~ In 0 v ->
  ~ contains (p ++ [z]) v ->
  get_until (p ++ [z]) (v ++ (p ++ [z]) ++ r) = Ok (v, r).
Proof.
  intros p z v r Hz. induction v as [|c v IH]; intros H0 Hc; rewrite get_until_unfold; cbn [app].
  - unfold look_ahead_keyword. rewrite strip_prefix_app. reflexivity.
  - destruct (look_ahead_keyword (p ++ [z]) (c :: v ++ (p ++ [z]) ++ r)) as [t|] eqn:E.
    + exfalso. apply strip_prefix_some in E.
      change (c :: v ++ (p ++ [z]) ++ r) with ((c :: v) ++ (p ++ [z]) ++ r) in E.
      apply app_split in E. destruct E as [[l [E1 E2]]|[l [E1 E2]]].
      * apply Hc. exists [], l. exact E1.
      * (* the occurrence runs into the delimiter: z would occur inside p *)
        destruct l as [|y l'] using rev_ind.
        -- rewrite app_nil_r in E1. apply Hc. exists [], []. rewrite app_nil_r. simpl. auto.
        -- clear IHl'. assert (Ey : y = z).
           { assert (E3 : p ++ [z] = ((c :: v) ++ l') ++ [y]) by (rewrite E1, app_assoc; reflexivity).
             apply app_inj_tail in E3. destruct E3. congruence. }
           subst y.
           assert (Hlen : (List.length l' < List.length p)%nat).
           { apply (f_equal (@List.length N)) in E1. rewrite !app_length in E1. simpl in E1. lia. }
           rewrite <- !app_assoc in E2. apply app_split in E2.
           destruct E2 as [[k [E3 E4]]|[k [E3 E4]]].
           ++ destruct k as [|x k]; simpl in *.
              ** rewrite app_nil_r in E3. subst. lia.
              ** injection E4 as <- _. apply Hz. rewrite E3. apply in_or_app. simpl. auto.
           ++ subst l'. rewrite app_length in Hlen. lia.
    + unfold cNUL. destruct (N.eqb_spec c 0); [subst; exfalso; apply H0; simpl; auto|].
      rewrite IH.
      * reflexivity.
      * intro. apply H0. simpl; auto.
      * intros [u [w Ew]]. apply Hc. exists (c :: u), w. rewrite Ew. reflexivity.
Qed.

Lemma get_chardata_app : forall v r, ~ In 0 v -> ~ In 60 v ->
  (r = [] \/ exists r', r = 60 :: r') -> get_chardata (v ++ r) = (v, r).
Proof.
  induction v as [|c v IH]; intros r H0 H6 Hr; cbn [app].
  - destruct Hr as [->|[r' ->]]; reflexivity.
  - cbn [get_chardata]. unfold cNUL, cLT.
    destruct (N.eqb_spec c 0); [subst; exfalso; apply H0; simpl; auto|].
    destruct (N.eqb_spec c 60); [subst; exfalso; apply H6; simpl; auto|].
    rewrite IH; auto; intro; [apply H0|apply H6]; simpl; auto.
Qed.

(* ---- escaped text ---- *)
Lemma enc1_in : forall c x, In x (enc1 c) -> x = c \/ In x (38 :: 59 :: lit "ampgtlquos").
Proof.
  intros c x H. destruct (enc1_cases c) as [[_ E]|[n [Hn E]]]; rewrite E in H.
  - destruct H as [->|[]]. auto.
  - right. cbn in Hn.
    repeat (destruct Hn as [Hn|Hn];
      [injection Hn as <- <-; cbn in H |- *;
       repeat (destruct H as [H|H]; [subst; tauto|]); contradiction|]).
    contradiction.
Qed.

Lemma encode_not_in : forall v d, ~ In d v -> ~ In d (38 :: 59 :: lit "ampgtlquos") ->
  ~ In d (encode_entity v).
Proof.
  intros v d Hv Hd Hin. rewrite encode_entity_flat in Hin. apply in_flat_map in Hin.
  destruct Hin as [c [Hc Hx]]. apply enc1_in in Hx. destruct Hx as [->|Hx]; auto.
Qed.

Lemma safe_text_not_special : forall s, safe_text s -> forall c, In c s -> special c -> c = 38.
Proof.
  intros s H. induction H as [|c s Hn H IH|name c s Hin H IH]; intros x Hx Hs.
  - contradiction.
  - destruct Hx as [<-|Hx]; [contradiction|auto].
  - destruct Hx as [<-|Hx]; auto. apply in_app_or in Hx. destruct Hx as [Hx|[<-|Hx]]; auto.
    + exfalso. cbn in Hin. unfold special in Hs.
      repeat (destruct Hin as [Hin|Hin]; [injection Hin as <- <-; cbn in Hx; intuition (subst; discriminate)|]).
      contradiction.
    + exfalso. unfold special in Hs. intuition discriminate.
Qed.

Lemma encode_no_special : forall v d, special d -> d <> 38 -> ~ In d (encode_entity v).
Proof. intros v d Hs Hn Hin. apply Hn. eapply safe_text_not_special; eauto. apply encode_safe. Qed.

Lemma encode_nonempty : forall v, v <> [] -> exists c r, encode_entity v = c :: r.
Proof.
  intros [|c v] H; [congruence|]. rewrite encode_entity_flat. cbn [flat_map].
  destruct (enc1_cases c) as [[_ ->]|[n [_ ->]]]; cbn [app]; eauto.
Qed.

(* ---- attribute lists ---- *)
Fixpoint attrs_str (ats : list (str * str)) : str :=
  match ats with
  | [] => []
  | (n, v) :: ats' => [32] ++ n ++ [61] ++ [34] ++ encode_entity v ++ [34] ++ attrs_str ats'
  end.

Definition tag_end (closed : bool) : str := if closed then [47; 62] else [62].

Definition attrs_ok (ats : list (str * str)) : Prop :=
  Forall (fun a => legal_name (fst a) /\ text_ok (snd a)) ats.

Lemma attr_loop_nil : forall fuel acc closed r,
  attr_loop (S fuel) acc (tag_end closed ++ r) = Ok (acc, closed, r).
Proof. intros fuel acc [] r; reflexivity. Qed.

Lemma attr_loop_ok : forall ats fuel acc closed r,
  attrs_ok ats -> ats <> [] -> (List.length ats <= fuel)%nat ->
  attr_loop fuel acc (tl (attrs_str ats) ++ tag_end closed ++ r) = Ok (acc ++ ats, closed, r).
Proof.
  induction ats as [|[n v] ats IH]; intros fuel acc closed r Hok Hne Hf; [congruence|].
  inversion Hok as [|? ? [Hn [Hv0 Hv13]] Hrest]; subst. cbn [fst snd] in *.
  destruct fuel as [|fuel]; [simpl in Hf; lia|].
  cbn [attrs_str tl app]. rewrite <- app_assoc. cbn [app].
  cbn [attr_loop]. rewrite skip_spaces_name by auto.
  rewrite get_name_app by (auto; reflexivity).
  assert (Hnn : exists c0 n0, n = c0 :: n0) by (destruct n; [contradiction|eauto]).
  destruct Hnn as [c0 [n0 En]]. rewrite En at 1.
  rewrite skip_spaces_stop by (try reflexivity; discriminate).
  cbn [getchar]. change (61 =? cEQ) with true. cbv iota.
  rewrite skip_spaces_stop by (try reflexivity; discriminate).
  cbn [getchar]. change ((34 =? cDQ) || (34 =? cSQ)) with true. cbv iota.
  rewrite <- !app_assoc. cbn [app].
  rewrite get_until_ch_app.
  2: discriminate.
  2: { apply encode_no_special; [unfold special; tauto | discriminate]. }
  2: { apply encode_not_in; auto. cbn. intuition discriminate. }
  cbn [bind]. rewrite decode_encode.
  destruct ats as [|[n2 v2] ats].
  - cbn [attrs_str app]. destruct closed; reflexivity.
  - cbn [attrs_str app getchar].
    change (32 =? cGT) with false. change (32 =? cSLASH) with false. cbv iota.
    specialize (IH fuel (acc ++ [(n, v)]) closed r Hrest ltac:(discriminate)).
    cbn [attrs_str tl app] in IH. rewrite IH by (simpl in *; lia).
    rewrite <- app_assoc. reflexivity.
Qed.

Lemma attr_loop_all : forall ats fuel closed r,
  attrs_ok ats -> (List.length ats < fuel)%nat ->
  attr_loop fuel [] (attrs_str ats ++ tag_end closed ++ r) = Ok (ats, closed, r).
Proof.
  intros [|[n v] ats] fuel closed r Hok Hf.
  - cbn [attrs_str app]. destruct fuel; [lia|]. apply attr_loop_nil.
  - destruct fuel as [|fuel]; [lia|].
    pose proof (attr_loop_ok ((n,v)::ats) (S fuel) [] closed r Hok ltac:(discriminate) ltac:(lia)) as H.
    cbn [app] in H. rewrite <- H.
    cbn [attrs_str tl app attr_loop].
    rewrite skip_spaces_space. reflexivity.
Qed.

(* ---- the printed form of a tree, indentation 0 ---- *)
Fixpoint pr (x : xtree) : str :=
  match x with
  | X ty nm v ats ks =>
      match ty with
      | DocumentRoot => flat_map pr ks
      | Element =>
          [60] ++ nm ++ attrs_str ats ++
          match ks with
          | [] => [47; 62]
          | _ :: _ => [62] ++ flat_map pr ks ++ [60; 47] ++ nm ++ [62]
          end
      | Text => encode_entity v
      | Comment => lit "<!--" ++ v ++ lit "-->"
      | XMLDecl => lit "<?xml " ++ v ++ lit "?>"
      | Instruction => lit "<?" ++ nm ++ lit " " ++ v ++ lit "?>"
      | Attribute | Directive => []
      end
  end.

Fixpoint toks (x : xtree) : list token :=
  match x with
  | X ty nm v ats ks =>
      match ty with
      | DocumentRoot => flat_map toks ks
      | Element => TStart nm ats :: flat_map toks ks ++ [TEnd nm]
      | Text => [TChar v]
      | Comment => [TComment v]
      | XMLDecl => [TPI (lit "xml") v]
      | Instruction => [TPI nm v]
      | Attribute | Directive => []
      end
  end.

(* ---- one token, many tokens ---- *)
Definition M (d : decoder) : nat :=
  2 * List.length (rest d) + match to_close d with [] => 0 | _ => 1 end.

Definition tok_step (d : decoder) (t : token) (d' : decoder) : Prop :=
  (M d' < M d)%nat /\ t <> TEOF /\
  forall fuel, (M d < fuel)%nat -> raw_token fuel d = Ok (t, d').

Inductive lexes : decoder -> list token -> decoder -> Prop :=
| lx_nil : forall d, lexes d [] d
| lx_cons : forall d t d1 ts d2, tok_step d t d1 -> lexes d1 ts d2 -> lexes d (t :: ts) d2.

Lemma lexes_app : forall d ts d1, lexes d ts d1 -> forall ts' d2, lexes d1 ts' d2 -> lexes d (ts ++ ts') d2.
Proof.
  intros d ts d1 H. induction H; intros ts' d3 H3; simpl; auto. econstructor; eauto.
Qed.

Lemma lexes_one : forall d t d1, tok_step d t d1 -> lexes d [t] d1.
Proof. intros. econstructor; eauto. constructor. Qed.

Lemma length_attrs_str : forall ats, (List.length ats <= List.length (attrs_str ats))%nat.
Proof.
  induction ats as [|[n v] ats IH]; [simpl; lia|]. cbn [attrs_str].
  rewrite !app_length. cbn [List.length]. lia.
Qed.

(* a start tag *)
Lemma tok_start : forall nm ats closed r,
  legal_name nm -> attrs_ok ats ->
  tok_step (mkDec ([60] ++ nm ++ attrs_str ats ++ tag_end closed ++ r) [])
           (TStart nm ats) (mkDec r (if closed then nm else [])).
Proof.
  intros nm ats closed r Hn Ha. split; [|split; [discriminate|]].
  - unfold M. cbn [rest to_close]. rewrite !app_length.
    destruct closed; cbn [List.length tag_end]; [destruct nm|]; lia.
  - intros fuel Hf. unfold raw_token. cbn [to_close rest app getchar].
    change (60 =? cNUL) with false. change (60 =? cLT) with true. cbv iota.
    assert (Hnn : exists c0 n0, nm = c0 :: n0 /\ is_name_first_char c0 = true).
    { destruct nm as [|c0 n0]; simpl in Hn; [contradiction|]. destruct Hn. eauto. }
    destruct Hnn as [c0 [n0 [En Hc0]]].
    assert (Hg : getchar (nm ++ attrs_str ats ++ tag_end closed ++ r) =
                 (c0, n0 ++ attrs_str ats ++ tag_end closed ++ r)) by (subst; reflexivity).
    rewrite Hg. cbv beta iota.
    unfold cNUL, cSLASH, cQUEST, cBANG.
    destruct (N.eqb_spec c0 0); [subst c0; vm_compute in Hc0; discriminate|].
    destruct (N.eqb_spec c0 47); [subst c0; vm_compute in Hc0; discriminate|].
    destruct (N.eqb_spec c0 63); [subst c0; vm_compute in Hc0; discriminate|].
    destruct (N.eqb_spec c0 33); [subst c0; vm_compute in Hc0; discriminate|].
    assert (Hgn : get_name (nm ++ attrs_str ats ++ tag_end closed ++ r) =
                  (nm, attrs_str ats ++ tag_end closed ++ r)).
    { destruct ats as [|[an av] ats].
      - cbn [attrs_str app]. destruct closed; cbn [tag_end app]; apply get_name_app; auto.
      - cbn [attrs_str app]. apply get_name_app; auto. }
    rewrite Hgn. cbv beta iota. rewrite attr_loop_all; auto.
    unfold M in Hf. cbn [rest to_close] in Hf. rewrite !app_length in Hf.
    pose proof (length_attrs_str ats). simpl List.length in Hf. lia.
Qed.

Lemma tok_close_pending : forall r nm, nm <> [] -> tok_step (mkDec r nm) (TEnd nm) (mkDec r []).
Proof.
  intros r nm H. destruct nm as [|c nm]; [congruence|].
  split; [|split; [discriminate|]].
  - unfold M. simpl. lia.
  - reflexivity.
Qed.

Lemma legal_nonempty : forall nm, legal_name nm -> nm <> [].
Proof. intros [|c n] H; [contradiction|discriminate]. Qed.

Lemma tok_end : forall nm r, legal_name nm ->
  tok_step (mkDec ([60; 47] ++ nm ++ [62] ++ r) []) (TEnd nm) (mkDec r []).
Proof.
  intros nm r Hn. split; [|split; [discriminate|]].
  - unfold M. cbn [rest to_close]. rewrite !app_length. simpl. lia.
  - intros fuel Hf. unfold raw_token. cbn [to_close rest app getchar].
    change (60 =? cNUL) with false. change (60 =? cLT) with true.
    change (47 =? cNUL) with false. change (47 =? cSLASH) with true. cbv iota.
    rewrite get_name_app by auto.
    reflexivity.
Qed.

Lemma tok_text : forall v r, v <> [] -> text_ok v -> (r = [] \/ exists r', r = 60 :: r') ->
  tok_step (mkDec (encode_entity v ++ r) []) (TChar v) (mkDec r []).
Proof.
  intros v r Hv [H0 H13] Hr. destruct (encode_nonempty v Hv) as [c [w Ev]].
  assert (N0 : ~ In 0 (encode_entity v)).
  { apply encode_not_in; auto. cbn. intuition discriminate. }
  assert (N60 : ~ In 60 (encode_entity v)).
  { apply encode_no_special; [unfold special; tauto|discriminate]. }
  split; [|split; [discriminate|]].
  - unfold M. cbn [rest to_close]. rewrite app_length, Ev. simpl. lia.
  - intros fuel Hf. unfold raw_token. cbn [to_close rest].
    rewrite get_chardata_app by auto. rewrite decode_encode.
    rewrite Ev in *. cbn [app getchar]. unfold cNUL, cLT.
    destruct (N.eqb_spec c 0); [subst c; exfalso; apply N0; simpl; auto|].
    destruct (N.eqb_spec c 60); [subst c; exfalso; apply N60; simpl; auto|]. reflexivity.
Qed.

Lemma tok_comment : forall v r, text_ok v -> ~ contains (lit "-->") v ->
  tok_step (mkDec ((lit "<!--" ++ v ++ lit "-->") ++ r) []) (TComment v) (mkDec r []).
Proof.
  intros v r [H0 _] Hc. split; [|split; [discriminate|]].
  - unfold M. cbn [rest to_close]. rewrite !app_length. simpl. lia.
  - intros fuel Hf. change (lit "<!--") with [60;33;45;45].
    cbn [app]. rewrite <- app_assoc. unfold raw_token. cbn [to_close rest getchar].
    change (60 =? cNUL) with false. change (60 =? cLT) with true.
    change (33 =? cNUL) with false. change (33 =? cSLASH) with false. change (33 =? cQUEST) with false.
    change (33 =? cBANG) with true. change (45 =? cMINUS) with true. cbv iota.
    change (lit "-->") with ([45;45] ++ [62]) in *.
    rewrite get_until_app; auto. cbn. intuition discriminate.
Qed.

Lemma skip_spaces_value : forall v r, ~ In 0 v -> ~ starts_with_space v ->
  skip_spaces (v ++ 63 :: r) = v ++ 63 :: r.
Proof.
  intros [|c v] r H0 Hs; [reflexivity|]. cbn [app]. apply skip_spaces_stop.
  - intro. subst. apply H0. simpl; auto.
  - simpl in Hs. destruct (is_space c); congruence.
Qed.

Lemma tok_pi : forall nm v r, legal_name nm -> text_ok v -> ~ contains (lit "?>") v ->
  ~ starts_with_space v ->
  tok_step (mkDec ((lit "<?" ++ nm ++ lit " " ++ v ++ lit "?>") ++ r) []) (TPI nm v) (mkDec r []).
Proof.
  intros nm v r Hn [H0 _] Hc Hs. split; [|split; [discriminate|]].
  - unfold M. cbn [rest to_close]. rewrite !app_length. simpl. lia.
  - intros fuel Hf. change (lit "<?") with [60;63]. change (lit " ") with [32].
    cbn [app]. rewrite <- app_assoc. cbn [app]. rewrite <- app_assoc.
    unfold raw_token. cbn [to_close rest getchar].
    change (60 =? cNUL) with false. change (60 =? cLT) with true.
    change (63 =? cNUL) with false. change (63 =? cSLASH) with false. change (63 =? cQUEST) with true.
    cbv iota. rewrite get_name_app by auto. rewrite skip_spaces_space.
    change (lit "?>") with ([63] ++ [62]) in *. cbn [app].
    rewrite skip_spaces_value by auto.
    change (v ++ 63 :: 62 :: r) with (v ++ ([63] ++ [62]) ++ r).
    pose proof (get_until_app [63] 62 v r) as G. cbn [app] in G.
    cbn [app] in *. rewrite G; auto. cbn. intuition discriminate.
Qed.

Lemma pr_head : forall x, clean x -> ~ is_text x -> exists s, pr x = 60 :: s.
Proof.
  intros x H Ht. inversion H; subst; try (exfalso; apply Ht; reflexivity); eexists; reflexivity.
Qed.

Definition lt_or_end (r : str) : Prop := r = [] \/ exists r', r = 60 :: r'.

Lemma clean_ind' : forall (P : xtree -> Prop),
  (forall nm ats ks, legal_name nm ->
    Forall (fun a => legal_name (fst a) /\ text_ok (snd a)) ats ->
    Forall clean ks -> no_adjacent_text ks -> Forall P ks -> P (X Element nm [] ats ks)) ->
  (forall v, v <> [] -> text_ok v -> P (X Text [] v [] [])) ->
  (forall v, text_ok v -> ~ contains (lit "-->") v -> P (X Comment [] v [] [])) ->
  (forall v, text_ok v -> ~ contains (lit "?>") v -> ~ starts_with_space v ->
    P (X XMLDecl (lit "xml") v [] [])) ->
  (forall nm v, legal_name nm -> nm <> lit "xml" ->
    text_ok v -> ~ contains (lit "?>") v -> ~ starts_with_space v -> P (X Instruction nm v [] [])) ->
  forall x, clean x -> P x.
Proof.
  intros P H1 H2 H3 H4 H5. induction x as [ty nm v ats ks IH] using xtree_ind'.
  intro H. inversion H; subst; auto. apply H1; auto.
  rewrite Forall_forall in *. auto.
Qed.

Lemma lexes_list : forall ks, no_adjacent_text ks -> Forall clean ks ->
  Forall (fun x => forall r, (is_text x -> lt_or_end r) ->
     lexes (mkDec (pr x ++ r) []) (toks x) (mkDec r [])) ks ->
  forall r, lt_or_end r -> lexes (mkDec (flat_map pr ks ++ r) []) (flat_map toks ks) (mkDec r []).
Proof.
  induction ks as [|x ks IH]; intros Hadj Hc Hk r Hr; cbn [flat_map app]; [constructor|].
  inversion Hc as [|? ? Hx Hc']; subst. inversion Hk as [|? ? Kx Kc]; subst.
  rewrite <- app_assoc. eapply lexes_app.
  - apply Kx. intro Ht. destruct ks as [|y ks]; [exact Hr|].
    destruct Hadj as [Hadj _]. right. inversion Hc' as [|? ? Hy _]; subst.
    destruct (pr_head y Hy) as [s Es]; [tauto|]. cbn [flat_map]. rewrite Es. cbn [app]. eauto.
  - apply IH; auto. destruct ks as [|y ks]; [exact I|]. apply Hadj.
Qed.

Lemma lexes_tree : forall x, clean x -> forall r, (is_text x -> lt_or_end r) ->
  lexes (mkDec (pr x ++ r) []) (toks x) (mkDec r []).
Proof.
  intros x H. induction H as [nm ats ks Hn Ha Hc Hadj IH|v Hv Ht|v Ht Hc|v Ht Hc Hs|nm v Hn Hx Ht Hc Hs]
    using clean_ind'; intros r Hr; cbn [pr toks].
  - destruct ks as [|k ks].
    + cbn [flat_map app].
      replace (60 :: (nm ++ attrs_str ats ++ [47; 62]) ++ r)
        with ([60] ++ nm ++ attrs_str ats ++ tag_end true ++ r)
        by (cbn [app tag_end]; rewrite <- !app_assoc; reflexivity).
      eapply lx_cons; [apply tok_start; auto|]. apply lexes_one. apply tok_close_pending.
      apply legal_nonempty. auto.
    + replace (([60] ++ nm ++ attrs_str ats ++ [62] ++ flat_map pr (k :: ks) ++ [60; 47] ++ nm ++ [62]) ++ r)
        with ([60] ++ nm ++ attrs_str ats ++ tag_end false ++
              (flat_map pr (k :: ks) ++ ([60; 47] ++ nm ++ [62] ++ r)))
        by (cbn [app tag_end]; repeat (rewrite <- !app_assoc; cbn [app]); reflexivity).
      eapply lx_cons; [apply tok_start; auto|]. eapply lexes_app.
      * apply lexes_list; auto. right. cbn [app]. eauto.
      * apply lexes_one. apply tok_end. auto.
  - apply lexes_one. apply tok_text; auto. apply Hr. reflexivity.
  - apply lexes_one. apply tok_comment; auto.
  - apply lexes_one.
    change (lit "<?xml " ++ v ++ lit "?>") with (lit "<?" ++ lit "xml" ++ lit " " ++ v ++ lit "?>").
    apply tok_pi; auto. cbn. repeat constructor.
  - apply lexes_one. apply tok_pi; auto.
Qed.

(* ---- tree construction from the tokens ---- *)
Fixpoint doc_steps (h : heap) (curr : nat) (ts : list token) : res (heap * nat) :=
  match ts with
  | [] => Ok (h, curr)
  | t :: ts' => do (h', curr') <- doc_step h curr t; doc_steps h' curr' ts'
  end.

Lemma doc_steps_app : forall ts h c ts' h1 c1, doc_steps h c ts = Ok (h1, c1) ->
  doc_steps h c (ts ++ ts') = doc_steps h1 c1 ts'.
Proof.
  induction ts as [|t ts IH]; intros h c ts' h1 c1 E; cbn [doc_steps app] in *.
  - injection E as <- <-. reflexivity.
  - destruct (doc_step h c t) as [[h2 c2]|?| |]; try discriminate. cbn [bind] in *. eauto.
Qed.

Lemma doc_loop_lexes : forall d ts d', lexes d ts d' ->
  forall fuel h c h' c', (M d < fuel)%nat -> doc_steps h c ts = Ok (h', c') ->
  exists fuel', (M d' < fuel')%nat /\ doc_loop fuel d h c = doc_loop fuel' d' h' c'.
Proof.
  intros d ts d' H. induction H as [d|d t d1 ts d2 Ht H IH]; intros fuel h c h' c' Hf E.
  - cbn in E. injection E as <- <-. exists fuel. auto.
  - destruct Ht as [Hm [Hne Ht]]. cbn [doc_steps] in E.
    destruct (doc_step h c t) as [[h1 c1]|?| |] eqn:E1; try discriminate. cbn [bind] in E.
    destruct fuel as [|fuel]; [lia|].
    destruct (IH fuel h1 c1 h' c') as [fuel' [Hf' El]]; auto; [lia|].
    exists fuel'. split; auto. rewrite <- El. cbn [doc_loop]. rewrite Ht by auto.
    destruct t; try congruence; rewrite E1; reflexivity.
Qed.

Lemma erase_add_kids : forall c k, erase (add_kid c k) =
  X (tty c) (tname c) (tvalue c) (map snd (tattrs c)) (map erase (tkids c) ++ [erase k]).
Proof. destruct c. intro k. simpl. rewrite map_app. reflexivity. Qed.

Definition adds (x : xtree) : Prop := forall h fs c, building h fs c ->
  exists h' k, doc_steps h (tid c) (toks x) = Ok (h', tid c) /\ building h' fs (add_kid c k) /\ erase k = x.

Definition add_kids (c : tree) (l : list tree) : tree :=
  match c with T i ty nm v ats ks => T i ty nm v ats (ks ++ l) end.
Lemma tid_add_kids : forall c l, tid (add_kids c l) = tid c.
Proof. destruct c; reflexivity. Qed.
Lemma add_kids_cons : forall c k l, add_kids c (k :: l) = add_kids (add_kid c k) l.
Proof. destruct c. intros. simpl. rewrite <- app_assoc. reflexivity. Qed.

Lemma adds_list : forall ks, Forall adds ks -> forall h fs c, building h fs c ->
  exists h' l, doc_steps h (tid c) (flat_map toks ks) = Ok (h', tid c) /\
               building h' fs (add_kids c l) /\ map erase l = ks.
Proof.
  induction ks as [|x ks IH]; intros Hk h fs c B; cbn [flat_map].
  - exists h, []. split; [reflexivity|]. split; auto. destruct c. simpl. rewrite app_nil_r. exact B.
  - inversion Hk as [|? ? Hx Hks]; subst.
    destruct (Hx h fs c B) as [h1 [k [E1 [B1 Ek]]]].
    destruct (IH Hks h1 fs (add_kid c k) B1) as [h2 [l [E2 [B2 El]]]].
    rewrite tid_add_kid in E2.
    exists h2, (k :: l). split; [|split].
    + rewrite (doc_steps_app _ _ _ _ _ _ E1). exact E2.
    + rewrite add_kids_cons. exact B2.
    + simpl. congruence.
Qed.

Lemma adds_leaf : forall ty nm v h fs c, building h fs c ->
  building (fst (make_new_child_rc_node h ty (tid c) nm v None)) fs
           (add_kid c (T (List.length h) ty nm v [] [])).
Proof.
  intros ty nm v h fs c B. destruct (make_new_child_rc_node h ty (tid c) nm v None) as [h1 id] eqn:E1.
  destruct (building_child _ _ _ _ _ _ _ _ B E1) as [-> B1]. exact B1.
Qed.

Lemma adds_clean : forall x, clean x -> adds x.
Proof.
  intros x H. induction H as [nm ats ks Hn Ha Hc Hadj IH|v Hv Ht|v Ht Hc|v Ht Hc Hs|nm v Hn Hx Ht Hc Hs]
    using clean_ind'; intros h fs c B; cbn [toks].
  - cbn [doc_steps doc_step].
    destruct (make_new_child_rc_node h Element (tid c) nm [] None) as [h1 id] eqn:E1.
    destruct (building_child _ _ _ _ _ _ _ _ B E1) as [-> B1].
    destruct c as [i ty cnm cv cats cks].
    pose proof (building_enter _ _ _ _ _ _ _ _ _ B1) as B2.
    destruct (building_attrs ats _ _ _ B2 eq_refl) as [c' [B3 [E2 [E3 [E4 [E5 [E6 E7]]]]]]].
    cbn [bind tid] in *.
    destruct (adds_list ks IH _ _ _ B3) as [h4 [l [E8 [B4 El]]]].
    rewrite E2 in E8. rewrite (doc_steps_app _ _ _ _ _ _ E8).
    pose proof (building_get _ _ _ B4) as [o Hg]. rewrite tid_add_kids, E2 in Hg.
    cbn [doc_steps doc_step]. rewrite Hg. cbn [n_name n_parent f_id].
    replace (tname (add_kids c' l)) with nm by (destruct c'; simpl in *; congruence).
    rewrite str_eqb_refl. cbn [bind].
    exists h4, (add_kids c' l). split; [reflexivity|]. split.
    + apply building_leave in B4. exact B4.
    + destruct c' as [ci cty cnm' cv' cats' cks']. simpl in *. subst. reflexivity.
  - exists (fst (make_new_child_rc_node h Text (tid c) [] v None)), (T (List.length h) Text [] v [] []).
    split; [reflexivity|]. split; [apply adds_leaf; auto | reflexivity].
  - exists (fst (make_new_child_rc_node h Comment (tid c) [] v None)), (T (List.length h) Comment [] v [] []).
    split; [reflexivity|]. split; [apply adds_leaf; auto | reflexivity].
  - exists (fst (make_new_child_rc_node h XMLDecl (tid c) (lit "xml") v None)),
           (T (List.length h) XMLDecl (lit "xml") v [] []).
    split; [reflexivity|]. split; [apply adds_leaf; auto | reflexivity].
  - exists (fst (make_new_child_rc_node h Instruction (tid c) nm v None)),
           (T (List.length h) Instruction nm v [] []).
    split; [|split; [apply adds_leaf; auto | reflexivity]].
    cbn [doc_steps doc_step]. apply str_eqb_neq in Hx. rewrite Hx. reflexivity.
Qed.

(* ---- carriage returns ---- *)
Lemma attrs_str_no_cr : forall ats, attrs_ok ats -> ~ In 13 (attrs_str ats).
Proof.
  induction ats as [|[n v] ats IH]; intros H Hin; [contradiction|].
  inversion H as [|? ? [Hn [Hv0 Hv13]] Hr]; subst. cbn [fst snd] in *. cbn [attrs_str] in Hin.
  repeat (apply in_app_or in Hin; destruct Hin as [Hin|Hin]).
  - cbn in Hin. intuition discriminate.
  - eapply legal_name_not_in; eauto; reflexivity.
  - cbn in Hin. intuition discriminate.
  - cbn in Hin. intuition discriminate.
  - revert Hin. apply encode_not_in; auto. cbn. intuition discriminate.
  - cbn in Hin. intuition discriminate.
  - apply IH; auto.
Qed.

Lemma pr_no_cr : forall x, clean x -> ~ In 13 (pr x).
Proof.
  intros x H. induction H as [nm ats ks Hn Ha Hc Hadj IH|v Hv Ht|v Ht Hc|v Ht Hc Hs|nm v Hn Hx Ht Hc Hs]
    using clean_ind'; cbn [pr]; intro Hin.
  - apply in_app_or in Hin. destruct Hin as [Hin|Hin]; [cbn in Hin; intuition discriminate|].
    apply in_app_or in Hin. destruct Hin as [Hin|Hin]; [eapply legal_name_not_in; eauto; reflexivity|].
    apply in_app_or in Hin. destruct Hin as [Hin|Hin]; [eapply attrs_str_no_cr; eauto|].
    destruct ks as [|k ks]; [cbn in Hin; intuition discriminate|].
    apply in_app_or in Hin. destruct Hin as [Hin|Hin]; [cbn in Hin; intuition discriminate|].
    apply in_app_or in Hin. destruct Hin as [Hin|Hin].
    + apply in_flat_map in Hin. destruct Hin as [y [Hy Hin]]. rewrite Forall_forall in IH.
      eapply IH; eauto.
    + apply in_app_or in Hin. destruct Hin as [Hin|Hin]; [cbn in Hin; intuition discriminate|].
      apply in_app_or in Hin. destruct Hin as [Hin|Hin]; [eapply legal_name_not_in; eauto; reflexivity|].
      cbn in Hin; intuition discriminate.
  - revert Hin. apply encode_not_in; [apply Ht|]. cbn. intuition discriminate.
  - apply in_app_or in Hin. destruct Hin as [Hin|Hin]; [cbn in Hin; intuition discriminate|].
    apply in_app_or in Hin. destruct Hin as [Hin|Hin]; [apply Ht; auto|cbn in Hin; intuition discriminate].
  - apply in_app_or in Hin. destruct Hin as [Hin|Hin]; [cbn in Hin; intuition discriminate|].
    apply in_app_or in Hin. destruct Hin as [Hin|Hin]; [apply Ht; auto|cbn in Hin; intuition discriminate].
  - apply in_app_or in Hin. destruct Hin as [Hin|Hin]; [cbn in Hin; intuition discriminate|].
    apply in_app_or in Hin. destruct Hin as [Hin|Hin]; [eapply legal_name_not_in; eauto; reflexivity|].
    apply in_app_or in Hin. destruct Hin as [Hin|Hin]; [cbn in Hin; intuition discriminate|].
    apply in_app_or in Hin. destruct Hin as [Hin|Hin]; [apply Ht; auto|cbn in Hin; intuition discriminate].
Qed.

Lemma filter_no_cr : forall s, ~ In 13 s -> filter (fun x => negb (x =? cCR)) s = s.
Proof.
  induction s as [|c s IH]; intro H; auto. cbn [filter]. unfold cCR at 1.
  destruct (N.eqb_spec c 13); [subst; exfalso; apply H; simpl; auto|].
  cbn [negb]. f_equal. apply IH. intro. apply H. simpl; auto.
Qed.

(* ---- parsing what was printed ---- *)
Lemma parse_pr : forall ks, Forall clean ks -> no_adjacent_text ks ->
  forall s, s = pr (X DocumentRoot [] [] [] ks) ->
  exists h t, new_document s = Ok h /\ rep h None t /\ ids t = seq 0 (List.length h) /\
              erase t = X DocumentRoot [] [] [] ks.
Proof.
  intros ks Hc Hadj s ->. cbn [pr].
  assert (Hcr : ~ In 13 (flat_map pr ks)).
  { intro Hin. apply in_flat_map in Hin. destruct Hin as [y [Hy Hin]].
    rewrite Forall_forall in Hc. eapply pr_no_cr; eauto. }
  unfold new_document, new_document_fuel, sax_new. rewrite filter_no_cr by auto.
  pose proof building_init as B.
  assert (Hadds : Forall adds ks) by (rewrite Forall_forall in *; auto using adds_clean).
  destruct (adds_list ks Hadds _ _ _ B) as [h' [l [E [B' El]]]].
  assert (L : lexes (mkDec (flat_map pr ks ++ []) []) (flat_map toks ks) (mkDec [] [])).
  { apply lexes_list; auto; [|left; reflexivity].
    rewrite Forall_forall in *. intros x Hx r Hr. apply lexes_tree; auto. }
  rewrite app_nil_r in L.
  cbv beta iota zeta delta [make_new_rc_node]. change (List.length (@nil node)) with 0%nat.
  destruct (doc_loop_lexes _ _ _ L (doc_fuel (flat_map pr ks)) _ _ _ _ ltac:(unfold M, doc_fuel; cbn [rest to_close]; lia) E)
    as [fuel' [Hf' El']].
  cbn [make_new_rc_node fst app tid] in El'. cbn [app]. rewrite El'.
  destruct fuel' as [|fuel']; [lia|].
  exists h', (add_kids (T 0 DocumentRoot [] [] [] []) l).
  split; [reflexivity|]. split; [apply (b_rep _ _ _ B')|]. split; [apply (b_ids _ _ _ B')|].
  cbn. rewrite El. reflexivity.
Qed.

(* ---- printing a heap tree ---- *)
Lemma attrs_string_pr : forall h e ats, Forall (attr_rep h e) ats ->
  attrs_string h (map fst ats) = attrs_str (map snd ats).
Proof.
  induction ats as [|[a [n v]] ats IH]; intro H; auto.
  inversion H as [|? ? [Hb [o Ha]] Hr]; subst. cbn [fst snd] in *. cbn [map attrs_string attrs_str fst snd].
  rewrite Ha, IH by auto. reflexivity.
Qed.

Fixpoint depth (t : tree) : nat :=
  match t with T _ _ _ _ _ ks => S (list_max (map depth ks)) end.

Lemma concat_opt_map : forall (A : Type) (f : A -> option str) (g : A -> str) l,
  (forall x, In x l -> f x = Some (g x)) -> concat_opt (map f l) = Some (flat_map g l).
Proof.
  induction l as [|x l IH]; intro H; auto. cbn [map concat_opt flat_map].
  rewrite H by (simpl; auto). rewrite IH; auto. intros. apply H. simpl; auto.
Qed.

Lemma list_max_in : forall l x, In x l -> (x <= list_max l)%nat.
Proof.
  induction l as [|y l IH]; intros x H; [contradiction|]. cbn [list_max fold_right].
  change (fold_right Init.Nat.max 0%nat l) with (list_max l).
  destruct H as [->|H]; [lia|]. apply IH in H. lia.
Qed.

Lemma to_string_pr : forall t h par fuel, rep h par t -> (depth t <= fuel)%nat ->
  to_string_with_indent fuel h (tid t) 0 0 = Some (pr (erase t)).
Proof.
  induction t as [i ty nm v ats ks IH] using tree_ind'. intros h par fuel H Hf.
  apply rep_inv in H. destruct H as [o [Hi [Hg [Ha Hk]]]].
  destruct fuel as [|fuel]; [simpl in Hf; lia|].
  assert (K : concat_opt (map (fun c => to_string_with_indent fuel h c 0 0) (map tid ks))
              = Some (flat_map pr (map erase ks))).
  { rewrite map_map. rewrite (concat_opt_map _ _ (fun t => pr (erase t))).
    - f_equal. clear. induction ks; simpl; congruence.
    - intros k Hin. rewrite Forall_forall in IH, Hk. eapply IH; eauto.
      assert (depth k <= list_max (map depth ks))%nat by (apply list_max_in, in_map; auto).
      simpl in Hf. lia. }
  cbn [tid to_string_with_indent]. rewrite Hg. cbn [n_type n_children n_name n_value n_attrs].
  rewrite (attrs_string_pr h i) by auto. cbn [erase pr Nat.add].
  rewrite K.
  destruct ty; cbn [spaces repeat nl_if_positive app]; rewrite ?app_nil_r; try reflexivity.
  destruct ks as [|k ks]; cbn [map].
  - f_equal. change (lit "<") with [60]. change (lit "/>") with [47;62]. cbn [app].
    rewrite <- !app_assoc. reflexivity.
  - f_equal. change (lit "<") with [60]. change (lit ">") with [62]. change (lit "</") with [60;47].
    repeat (cbn [app]; rewrite <- ?app_assoc). reflexivity.
Qed.

Lemma list_max_le : forall l n, (forall x, In x l -> x <= n)%nat -> (list_max l <= n)%nat.
Proof.
  induction l as [|y l IH]; intros n H; cbn; [lia|].
  change (fold_right Init.Nat.max 0%nat l) with (list_max l).
  assert (y <= n)%nat by (apply H; simpl; auto).
  assert (list_max l <= n)%nat by (apply IH; intros; apply H; simpl; auto). lia.
Qed.

Lemma in_length_flat_map : forall (A B : Type) (f : A -> list B) l x, In x l ->
  (List.length (f x) <= List.length (flat_map f l))%nat.
Proof.
  induction l as [|y l IH]; intros x H; [contradiction|]. cbn [flat_map]. rewrite app_length.
  destruct H as [->|H]; [lia|]. apply IH in H. lia.
Qed.

Lemma depth_ids : forall t, (depth t <= List.length (ids t))%nat.
Proof.
  induction t as [i ty nm v ats ks IH] using tree_ind'. cbn [depth ids List.length].
  apply le_n_S. rewrite app_length. apply Nat.le_trans with (List.length (flat_map ids ks)); [|lia].
  apply list_max_le. intros x Hx. apply in_map_iff in Hx. destruct Hx as [k [<- Hk]].
  rewrite Forall_forall in IH. apply Nat.le_trans with (List.length (ids k)); auto.
  apply in_length_flat_map; auto.
Qed.

Lemma document_size : forall h t, document h t -> (List.length (ids t) <= List.length h)%nat.
Proof.
  intros h t [H Hd]. rewrite <- (seq_length (List.length h) 0).
  apply NoDup_incl_length; auto. intros i Hi. apply in_seq.
  pose proof (rep_bound _ _ _ H i Hi). lia.
Qed.

Lemma to_string_document : forall h t, document h t -> to_string h (tid t) = Some (pr (erase t)).
Proof.
  intros h t H. unfold to_string. eapply to_string_pr; [apply H|].
  pose proof (depth_ids t). pose proof (document_size _ _ H). lia.
Qed.

Lemma roundtrip : forall h t s, document h t -> clean_doc (erase t) -> to_string h (tid t) = Some s ->
  exists h' t', new_document s = Ok h' /\ document h' t' /\ tid t' = 0%nat /\ erase t' = erase t.
Proof.
  intros h t s H Hc E. rewrite (to_string_document _ _ H) in E. injection E as <-.
  inversion Hc as [ks Hk Hadj E].
  destruct (parse_pr ks Hk Hadj _ eq_refl) as [h' [t' [E1 [R [I Ee]]]]].
  exists h', t'. split; [exact E1|]. split; [|split; [|exact Ee]].
  - split; auto. rewrite I. apply seq_NoDup.
  - destruct t' as [i ty nm v ats ksn]. simpl in I.
    destruct (List.length h'); [discriminate|]. injection I. auto.
Qed.

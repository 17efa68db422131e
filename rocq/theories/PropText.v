(* C01, C02, C03: character data. *)
Require Import Bool List NArith Ascii String.
From Verif Require Import Str StrFacts Sax Dom SpecText EntityFacts.
Import ListNotations.
Open Scope N_scope.

(* C01: un-escaping the escaped form of any string gives the string back. *)
Theorem C01_entity_roundtrip : forall s : str, decode_entity (encode_entity s) = s.
Proof. exact decode_encode. Qed.
Print Assumptions C01_entity_roundtrip.

(* no hypotheses; a string with every special character and a spelled-out reference *)
Example C01_example :
  encode_entity (lit "a<b>&amp;'") = lit "a&lt;b&gt;&amp;amp;&apos;" /\
  decode_entity (lit "a&lt;b&gt;&amp;amp;&apos;") = lit "a<b>&amp;'".
Proof. split; vm_compute; reflexivity. Qed.

(* C02: the escaped form has no bare special character; every & begins a predefined reference; and it denotes,
   by the XML rules, the string that was escaped. *)
Theorem C02_escaped_is_safe : forall s : str,
  safe_text (encode_entity s) /\ denotes (fun _ => True) (encode_entity s) s.
Proof. intro s. split; [exact (encode_safe s) | exact (encode_denotes _ s)]. Qed.
Print Assumptions C02_escaped_is_safe.

Example C02_example : encode_entity (lit "<&>") = lit "&lt;&amp;&gt;".
Proof. vm_compute. reflexivity. Qed.

(* C03 in full would be:
     forall s d, denotes (fun _ => True) s d -> decode_entity s = d.
   It is false: "&#38;lt;" denotes "&lt;" but is decoded twice, to "<". *)
Theorem C03_single_pass_refuted :
  exists s d, denotes (fun _ => True) s d /\ decode_entity s <> d.
Proof.
  exists (lit "&#38;lt;"), (lit "&lt;"). split; [|vm_compute; discriminate].
  change (lit "&#38;lt;") with ((38 :: 35 :: [51;56] ++ [59]) ++ [108] ++ [116] ++ [59] ++ []).
  apply den_cons.
  - apply item_dec; [| left; reflexivity | exact I].
    change [51;56] with ([51] ++ [56]). apply (num_snoc 10 dec_digit_value [51] 3 56 8); [apply num_one; reflexivity | reflexivity].
  - repeat (apply den_cons; [apply item_plain; discriminate|]). apply den_nil.
Qed.
Print Assumptions C03_single_pass_refuted.

(* What holds: data in which no numeric reference denotes the ampersand itself is decoded exactly
   as XML prescribes.  Missing: data containing &#38; / &#x26;. *)
Theorem C03_single_pass_partial : forall s d : str,
  denotes (fun v => v <> 38) s d -> decode_entity s = d.
Proof. exact decode_denotes. Qed.
Print Assumptions C03_single_pass_partial.

Example C03_example : denotes (fun v => v <> 38) (lit "&amp;#65;&#x41;<") (lit "&#65;A<")
  /\ decode_entity (lit "&amp;#65;&#x41;<") = lit "&#65;A<".
Proof.
  split; [|vm_compute; reflexivity].
  change (lit "&amp;#65;&#x41;<") with
    ((38 :: lit "amp" ++ [59]) ++ [35] ++ [54] ++ [53] ++ [59] ++
     (38 :: 35 :: 120 :: [52;49] ++ [59]) ++ [60] ++ []).
  apply den_cons. { apply item_entity. simpl; auto. }
  do 4 (apply den_cons; [apply item_plain; discriminate|]).
  apply den_cons.
  { apply item_hex; [| left; reflexivity | discriminate].
    change [52;49] with ([52] ++ [49]). apply (num_snoc 16 hex_digit_value [52] 4 49 1); [apply num_one; reflexivity | reflexivity]. }
  apply den_cons; [apply item_plain; discriminate|]. apply den_nil.
Qed.

(* Model of src/sax.rs: the pull tokenizer SaxDecoder.

   Simplification: SaxDecoder holds (char_vec, index); getchar (443-450) increments the index and
   returns '\0' past the end; ungetchar (454-458) decrements it.  In the code every ungetchar undoes
   the immediately preceding getchar (or, in look_ahead_keyword, the i+1 preceding ones), so the state
   is represented by the suffix of char_vec that starts at the index (the empty list for any index
   beyond the end), and "getchar then ungetchar" is represented by keeping the old suffix. *)
Require Import Bool List NArith ZArith Ascii String.
From Verif Require Import Str Chars.
Import ListNotations.
Open Scope N_scope.

Definition cNUL : char := 0.      (* src/sax.rs 87: const EOF *)
Definition cLT : char := 60.      (* < *)
Definition cGT : char := 62.      (* > *)
Definition cSLASH : char := 47.
Definition cQUEST : char := 63.
Definition cBANG : char := 33.
Definition cMINUS : char := 45.
Definition cLBRACK : char := 91.
Definition cEQ : char := 61.
Definition cDQ : char := 34.      (* double quote *)
Definition cSQ : char := 39.      (* single quote *)
Definition cCR : char := 13.

(* src/sax.rs 105-128 *)
Inductive token :=
| TEOF
| TStart (name : str) (attr : list (str * str))
| TEnd (name : str)
| TChar (chardata : str)
| TPI (target inst : str)
| TComment (comment : str)
| TDirective (directive : str).

(* src/sax.rs 93-99 *)
Record decoder := mkDec { rest : str; to_close : str }.

(* src/sax.rs 152-160: new() drops every '\r' *)
Definition sax_new (xml : str) : decoder :=
  mkDec (filter (fun x => negb (x =? cCR)) xml) [].

(* src/sax.rs 443-450: getchar *)
Definition getchar (s : str) : char * str :=
  match s with
  | [] => (cNUL, [])
  | c :: s' => (c, s')
  end.

(* src/sax.rs 303-312: skip_spaces; an EOF (or a literal U+0000) is consumed *)
Fixpoint skip_spaces (s : str) : str :=
  match s with
  | [] => []
  | c :: s' => if c =? cNUL then s'
               else if is_space c then skip_spaces s' else s
  end.

(* src/sax.rs 320-332: look_ahead_keyword.  (The keywords "CDATA[", "?>", "-->", "]]>" contain no
   U+0000, so running into the end of input is a mismatch.) *)
Definition look_ahead_keyword (kw s : str) : option str := strip_prefix kw s.

(* src/sax.rs 339-352: get_until *)
Fixpoint get_until (delim s : str) : res (str * str) :=
  match look_ahead_keyword delim s with
  | Some s' => Ok ([], s')
  | None =>
      match s with
      | [] => Err XmlSyntaxError
      | c :: s' =>
          if c =? cNUL then Err XmlSyntaxError
          else do (r, k) <- get_until delim s'; Ok (c :: r, k)
      end
  end.

(* src/sax.rs 360-372: get_until_ch *)
Fixpoint get_until_ch (delim : char) (s : str) : res (str * str) :=
  match s with
  | [] => Err XmlSyntaxError
  | c :: s' =>
      if c =? cNUL then Err XmlSyntaxError
      else if c =? delim then Ok ([], s')
      else do (r, k) <- get_until_ch delim s'; Ok (c :: r, k)
  end.

(* src/sax.rs 387-395: the loop of get_name *)
Fixpoint get_name_rest (s : str) : str * str :=
  match s with
  | [] => ([], [])
  | c :: s' => if is_name_char c
               then let (r, k) := get_name_rest s' in (c :: r, k)
               else ([], s)
  end.

(* src/sax.rs 378-397: get_name (U+0000 is not a name character) *)
Definition get_name (s : str) : str * str :=
  match s with
  | [] => ([], [])
  | c :: s' => if is_name_first_char c
               then let (r, k) := get_name_rest s' in (c :: r, k)
               else ([], s)
  end.

(* src/sax.rs 402-415: get_chardata *)
Fixpoint get_chardata (s : str) : str * str :=
  match s with
  | [] => ([], [])
  | c :: s' => if c =? cNUL then ([], s')
               else if c =? cLT then ([], s)
               else let (r, k) := get_chardata s' in (c :: r, k)
  end.

(* src/sax.rs 419-439: get_until_matching_bracket; [nest] is nest_level - 1 *)
Fixpoint get_until_matching_bracket (nest : nat) (s : str) : res (str * str) :=
  match s with
  | [] => Err XmlSyntaxError
  | c :: s' =>
      if c =? cNUL then Err XmlSyntaxError
      else if c =? cLT then
        do (r, k) <- get_until_matching_bracket (S nest) s'; Ok (c :: r, k)
      else if c =? cGT then
        match nest with
        | O => Ok ([c], s')
        | S n => do (r, k) <- get_until_matching_bracket n s'; Ok (c :: r, k)
        end
      else do (r, k) <- get_until_matching_bracket nest s'; Ok (c :: r, k)
  end.

(* u32::from_str_radix (Rust std) for radix 10 / 16: optional '+', at least one digit, no overflow *)
Definition digit_val (radix : N) (c : char) : option N :=
  let v := if (48 <=? c) && (c <=? 57) then Some (c - 48)
           else if (97 <=? c) && (c <=? 122) then Some (c - 87)
           else if (65 <=? c) && (c <=? 90) then Some (c - 55)
           else None in
  match v with
  | Some d => if d <? radix then Some d else None
  | None => None
  end.

Fixpoint radix_digits (radix acc : N) (s : str) : option N :=
  match s with
  | [] => Some acc
  | c :: s' =>
      match digit_val radix c with
      | Some d => let acc' := acc * radix + d in
                  if acc' <? 4294967296 then radix_digits radix acc' s' else None
      | None => None
      end
  end.

Definition from_str_radix (radix : N) (s : str) : option N :=
  match s with
  | [] => None
  | c :: s' => if c =? 43 then match s' with [] => None | _ => radix_digits radix 0 s' end
               else radix_digits radix 0 s
  end.

(* char::from_u32 (Rust std) *)
Definition char_from_u32 (u : N) : option char :=
  if u <? 55296 then Some u
  else if u <? 57344 then None
  else if u <? 1114112 then Some u else None.

Definition cGETA : char := 12307.   (* U+3013, src/sax.rs 895 *)

(* src/sax.rs 895-897 *)
Definition char_ref_value (radix : N) (entity : str) : char :=
  let u := match from_str_radix radix entity with Some u => u | None => cGETA end in
  match char_from_u32 u with Some c => c | None => cGETA end.

(* src/sax.rs 879-899: one pass of the `loop` for one (pattern, radix).  Every round shortens the
   buffer, so [length s] rounds always suffice (SaxFacts.decode_refs_fuel); the value returned when the
   fuel is exhausted is never used. *)
Fixpoint decode_refs (fuel : nat) (pattern : str) (radix : N) (buf : str) : str :=
  match fuel with
  | O => buf
  | S fuel' =>
      match split_once pattern buf with
      | None => buf
      | Some (head, v1) =>
          match split_once (lit ";") v1 with
          | None => buf
          | Some (entity, tail) =>
              decode_refs fuel' pattern radix (head ++ char_ref_value radix entity :: tail)
          end
      end
  end.

(* src/sax.rs 904-915 *)
Definition decode_named (buf : str) : str :=
  let b1 := replace (lit "&gt;") (lit ">") buf in
  let b2 := replace (lit "&lt;") (lit "<") b1 in
  let b3 := replace (lit "&quot;") [cDQ] b2 in
  let b4 := replace (lit "&apos;") (lit "'") b3 in
  replace (lit "&amp;") (lit "&") b4.

(* src/sax.rs 873-916: decode_entity *)
Definition decode_entity (s : str) : str :=
  let b1 := decode_refs (List.length s) (lit "&#x") 16 s in
  let b2 := decode_refs (List.length b1) (lit "&#") 10 b1 in
  decode_named b2.

(* src/sax.rs 246-286: the attribute loop of a start tag.  Result: the attributes, whether the tag
   ended in "/>", and the remaining input.  Out of fuel = the loop is still running. *)
Fixpoint attr_loop (fuel : nat) (acc : list (str * str)) (s : str)
  : res (list (str * str) * bool * str) :=
  match fuel with
  | O => Fuel
  | S fuel' =>
      let s1 := skip_spaces s in
      let (attr_name, s2) := get_name s1 in
      do (acc', s') <-
        (match attr_name with
         | [] => Ok (acc, s2)
         | _ :: _ =>
             let s3 := skip_spaces s2 in
             let (c, s4) := getchar s3 in
             if c =? cEQ then
               let s5 := skip_spaces s4 in
               let (q, s6) := getchar s5 in
               if (q =? cDQ) || (q =? cSQ) then
                 do (v, s7) <- get_until_ch q s6;
                 Ok (acc ++ [(attr_name, decode_entity v)], s7)
               else do _ <- get_until_ch cGT s6; Err XmlSyntaxError
             else do _ <- get_until_ch cGT s4; Err XmlSyntaxError
         end);
      let (c, s'') := getchar s' in
      if c =? cGT then Ok (acc', false, s'')
      else if c =? cSLASH then
        let (c2, s3) := getchar s'' in
        if c2 =? cGT then Ok (acc', true, s3) else Err XmlSyntaxError
      else attr_loop fuel' acc' s''
  end.

(* src/sax.rs 166-298: raw_token.  [fuel] bounds the attribute loop only. *)
Definition raw_token (fuel : nat) (d : decoder) : res (token * decoder) :=
  match to_close d with
  | _ :: _ => Ok (TEnd (to_close d), mkDec (rest d) [])
  | [] =>
      let (c, s1) := getchar (rest d) in
      if c =? cNUL then Ok (TEOF, mkDec s1 [])
      else if c =? cLT then
        let (c2, s2) := getchar s1 in
        if c2 =? cNUL then Err XmlSyntaxError
        else if c2 =? cSLASH then
          let (name, s3) := get_name s2 in
          do (_, s4) <- get_until_ch cGT s3;
          Ok (TEnd name, mkDec s4 [])
        else if c2 =? cQUEST then
          let (target, s3) := get_name s2 in
          do (inst, s4) <- get_until (lit "?>") (skip_spaces s3);
          Ok (TPI target inst, mkDec s4 [])
        else if c2 =? cBANG then
          let (c3, s3) := getchar s2 in
          if c3 =? cMINUS then
            let (c4, s4) := getchar s3 in
            if c4 =? cMINUS then
              do (comment, s5) <- get_until (lit "-->") s4;
              Ok (TComment comment, mkDec s5 [])
            else Err XmlSyntaxError
          else if c3 =? cLBRACK then
            match look_ahead_keyword (lit "CDATA[") s3 with
            | Some s4 => do (chardata, s5) <- get_until (lit "]]>") s4;
                         Ok (TChar chardata, mkDec s5 [])
            | None => Err XmlSyntaxError
            end
          else
            do (r, s4) <- get_until_matching_bracket 0 s3;
            Ok (TDirective (lit "<!" ++ c3 :: r), mkDec s4 [])
        else
          let (name, s3) := get_name s1 in
          do (attr, closed, s4) <- attr_loop fuel [] s3;
          Ok (TStart name attr, mkDec s4 (if closed : bool then name else []))
      else
        let (chardata, s2) := get_chardata (rest d) in
        Ok (TChar (decode_entity chardata), mkDec s2 [])
  end.

(* The whole token stream: raw_token called until it returns EOF (how src/dom.rs 183-238 and any other
   client drives the decoder). *)
Fixpoint tokens (fuel : nat) (d : decoder) : res (list token) :=
  match fuel with
  | O => Fuel
  | S fuel' =>
      match raw_token fuel d with
      | Ok (TEOF, _) => Ok []
      | Ok (t, d') => do ts <- tokens fuel' d'; Ok (t :: ts)
      | Err e => Err e
      | Panic => Panic
      | Fuel => Fuel
      end
  end.

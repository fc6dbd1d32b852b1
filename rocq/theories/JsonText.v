(** * JSON text: the reader and the compact writer of serde_json 1.0, as called
    by [serde_json::from_reader] at /repo/ethabi/src/contract.rs:140-142,
    [serde_json::from_slice] at /repo/ethabi/src/lib.rs (tests of the parameter
    modules) and [serde_json::to_string].

    The crate is a dependency and its source is not in /repo; this is its
    documented behaviour.  Simplifications: serde_json hands values to the
    visitors while it reads, here the whole text is read into a tree first, so
    of several failures in one text another one may be reported (all are
    [SerdeJson], but a type name on which [read] panics may come before a
    syntax error); bytes which are not UTF-8 are rejected at once, serde_json
    rejects them when it reaches them; numbers which do not fit an [f64] are
    accepted. *)
From Verif Require Import Base Utf8 Types TypeNames Function Event Json Contract.
From Coq Require Import String.
Set Implicit Arguments.
Local Open Scope N_scope.
Local Open Scope list_scope.

(** ** Reading *)
(** [parse_whitespace] *)
Definition is_blank (c : char) : bool := (c =? 32) || (c =? 10) || (c =? 9) || (c =? 13).
(** serde_json [parse_whitespace] *)
Definition skip_blanks (s : str) : str := drop_while is_blank s.

(** The digits [b'0'..=b'9'] of serde_json *)
Definition is_dec (c : char) : bool := (48 <=? c) && (c <=? 57).

(** [decode_hex_escape] *)
Definition hex4 (a b c d : char) : option N :=
  match hex_val a, hex_val b, hex_val c, hex_val d with
  | Some a, Some b, Some c, Some d => Some (((a * 16 + b) * 16 + c) * 16 + d)
  | _, _, _, _ => None
  end.
(** The one letter escapes of [parse_escape]. *)
Definition escape_char (e : char) : option char :=
  if e =? 34 then Some 34 else if e =? 92 then Some 92 else if e =? 47 then Some 47
  else if e =? 98 then Some 8 else if e =? 102 then Some 12 else if e =? 110 then Some 10
  else if e =? 114 then Some 13 else if e =? 116 then Some 9 else None.
(** A character in front of what the rest of a string gives *)
Definition cons_fst (c : char) (r : option (str * str)) : option (str * str) :=
  match r with Some (s, rest) => Some (c :: s, rest) | None => None end.
(** [parse_str]: the text after the opening quote; its contents and what
    follows the closing quote. *)
Fixpoint parse_string (s : str) : option (str * str) :=
  match s with
  | [] => None
  | c :: s1 =>
    if c =? 34 then Some ([], s1)
    else if c =? 92 then
      match s1 with
      | [] => None
      | e :: s2 =>
        if e =? 117 then
          match s2 with
          | a :: b :: c :: d :: s3 =>
            match hex4 a b c d with
            | Some n =>
              if (0xDC00 <=? n) && (n <=? 0xDFFF) then None
              else if (0xD800 <=? n) && (n <=? 0xDBFF) then
                match s3 with
                | x :: y :: a :: b :: c :: d :: s4 =>
                  if (x =? 92) && (y =? 117) then
                    match hex4 a b c d with
                    | Some n2 =>
                      if (0xDC00 <=? n2) && (n2 <=? 0xDFFF)
                      then cons_fst (0x10000 + (n - 0xD800) * 1024 + (n2 - 0xDC00)) (parse_string s4)
                      else None
                    | None => None
                    end
                  else None
                | _ => None
                end
              else cons_fst n (parse_string s3)
            | None => None
            end
          | _ => None
          end
        else match escape_char e with Some x => cons_fst x (parse_string s2) | None => None end
      end
    else if c <? 32 then None
    else cons_fst c (parse_string s1)
  end.

(** [parse_integer]: digits without a leading zero. *)
Definition parse_int (s : str) : option (str * str) :=
  match s with
  | c :: s1 =>
    if c =? 48 then
      match s1 with
      | d :: _ => if is_dec d then None else Some ([c], s1)
      | [] => Some ([c], s1)
      end
    else if is_dec c then Some (c :: take_while is_dec s1, drop_while is_dec s1)
    else None
  | [] => None
  end.
(** At least one digit. *)
Definition parse_digits (s : str) : option (str * str) :=
  match s with
  | c :: s1 => if is_dec c then Some (c :: take_while is_dec s1, drop_while is_dec s1) else None
  | [] => None
  end.
(** [parse_decimal] *)
Definition parse_fraction (s : str) : option (str * str) :=
  match s with
  | c :: s1 => if c =? 46 then cons_fst c (parse_digits s1) else Some ([], s)
  | [] => Some ([], s)
  end.
(** [parse_exponent] *)
Definition parse_exponent (s : str) : option (str * str) :=
  match s with
  | c :: s1 =>
    if (c =? 101) || (c =? 69) then
      cons_fst c
        match s1 with
        | g :: s2 => if (g =? 43) || (g =? 45) then cons_fst g (parse_digits s2) else parse_digits s1
        | [] => None
        end
    else Some ([], s)
  | [] => Some ([], s)
  end.
(** [parse_any_number] *)
Definition parse_unsigned (s : str) : option (str * str) :=
  match parse_int s with
  | Some (i, r1) =>
    match parse_fraction r1 with
    | Some (f, r2) =>
      match parse_exponent r2 with
      | Some (e, r3) => Some (i ++ f ++ e, r3)
      | None => None
      end
    | None => None
    end
  | None => None
  end.
(** serde_json [parse_any_number] *)
Definition parse_number (s : str) : option (str * str) :=
  match s with
  | c :: s1 => if c =? 45 then cons_fst c (parse_unsigned s1) else parse_unsigned s
  | [] => None
  end.

(** [parse_ident] *)
Definition parse_word (w : str) (j : json) (s : str) : option (json * str) :=
  if starts_with s w then Some (j, skipn (List.length w) s) else None.

(** [deserialize_any], [SeqAccess] and [MapAccess].  [d] is one less than
    [remaining_depth], which starts at 128. *)
Fixpoint parse_value (fuel : nat) (d : nat) (s : str) {struct fuel} : option (json * str) :=
  match fuel with
  | O => None
  | S f =>
    match s with
    | [] => None
    | c :: s1 =>
      if c =? 110 then parse_word (lit "null") JNull s
      else if c =? 116 then parse_word (lit "true") (JBool true) s
      else if c =? 102 then parse_word (lit "false") (JBool false) s
      else if c =? 34 then match parse_string s1 with Some (t, r) => Some (JStr t, r) | None => None end
      else if c =? 91 then
        match d with
        | O => None
        | S d =>
          match skip_blanks s1 with
          | x :: r => if x =? 93 then Some (JArr [], r)
                      else match parse_elements f d (x :: r) with Some (l, r) => Some (JArr l, r) | None => None end
          | [] => None
          end
        end
      else if c =? 123 then
        match d with
        | O => None
        | S d =>
          match skip_blanks s1 with
          | x :: r => if x =? 125 then Some (JObj [], r)
                      else match parse_members f d (x :: r) with Some (l, r) => Some (JObj l, r) | None => None end
          | [] => None
          end
        end
      else match parse_number s with Some (t, r) => Some (JNum t, r) | None => None end
    end
  end
with parse_elements (fuel : nat) (d : nat) (s : str) {struct fuel} : option (list json * str) :=
  match fuel with
  | O => None
  | S f =>
    match parse_value f d (skip_blanks s) with
    | Some (v, r) =>
      match skip_blanks r with
      | x :: r =>
        if x =? 93 then Some ([v], r)
        else if x =? 44 then match parse_elements f d r with Some (l, r) => Some (v :: l, r) | None => None end
        else None
      | [] => None
      end
    | None => None
    end
  end
with parse_members (fuel : nat) (d : nat) (s : str) {struct fuel} : option (list (str * json) * str) :=
  match fuel with
  | O => None
  | S f =>
    match skip_blanks s with
    | q :: s =>
      if q =? 34 then
        match parse_string s with
        | Some (k, r) =>
          match skip_blanks r with
          | x :: r =>
            if x =? 58 then
              match parse_value f d (skip_blanks r) with
              | Some (v, r) =>
                match skip_blanks r with
                | x :: r =>
                  if x =? 125 then Some ([(k, v)], r)
                  else if x =? 44 then match parse_members f d r with Some (l, r) => Some ((k, v) :: l, r) | None => None end
                  else None
                | [] => None
                end
              | None => None
              end
            else None
          | [] => None
          end
        | None => None
        end
      else None
    | [] => None
    end
  end.

(** A whole text: one value, and [Deserializer::end]. *)
Definition parse_text (s : str) : res json :=
  match parse_value (2 * List.length s + 2) 127 (skip_blanks s) with
  | Some (j, r) => match skip_blanks r with [] => Ok j | _ => Err SerdeJson end
  | None => Err SerdeJson
  end.

(** Bytes as text: [None] if they are not UTF-8. *)
Definition utf8_strict (l : list byte) : option str :=
  if str_eqb (map Byte.to_N (utf8 (utf8_lossy l))) (map Byte.to_N l) then Some (utf8_lossy l) else None.
(** [serde_json::from_reader]: contract.rs:140-142 *)
Definition parse_bytes (l : list byte) : res json :=
  match utf8_strict l with Some s => parse_text s | None => Err SerdeJson end.

(** [serde_json::from_reader] / [from_slice] *)
Definition from_bytes {A} (f : json -> res A) (l : list byte) : res A := do j <- parse_bytes l; f j.
(** /repo/ethabi/src/contract.rs:140-142 *)
Definition load_bytes (p : profile) (l : list byte) : res Contract := from_bytes (de_contract p) l.

(** ** Writing: [CompactFormatter] *)
Definition hex_lower (n : N) : char := if n <? 10 then 48 + n else 87 + n.
(** [format_escaped_str_contents] *)
Definition escape (c : char) : str :=
  if c =? 34 then [92; 34] else if c =? 92 then [92; 92]
  else if c =? 8 then [92; 98] else if c =? 12 then [92; 102] else if c =? 10 then [92; 110]
  else if c =? 13 then [92; 114] else if c =? 9 then [92; 116]
  else if c <? 32 then [92; 117; 48; 48; hex_lower (c / 16); hex_lower (c mod 16)]
  else [c].
(** serde_json [format_escaped_str] *)
Definition show_string (s : str) : str := 34 :: flat_map escape s ++ [34].
(** [serde_json::to_string] *)
Fixpoint show_json (j : json) : str :=
  match j with
  | JNull => lit "null"
  | JBool b => if b then lit "true" else lit "false"
  | JNum t => t
  | JStr s => show_string s
  | JArr l => 91 :: join [44] (map show_json l) ++ [93]
  | JObj l => 123 :: join [44] (map (fun e => show_string (fst e) ++ 58 :: show_json (snd e)) l) ++ [125]
  end.
(** [serde_json::to_vec] *)
Definition to_bytes (j : json) : list byte := utf8 (show_json j).

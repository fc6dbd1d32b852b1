(** * The texts of errors: /repo/ethabi/src/errors.rs

    The other models keep of a foreign error only which crate it is from.  Here
    the errors of [hex::decode] and [str::parse::<usize>] have their contents,
    and errors their texts ([Display]). *)
From Verif Require Import Base Types TypeNames Tokenizer.
From Coq Require Import String.
Set Implicit Arguments.
Local Open Scope N_scope.
Local Open Scope list_scope.

(** ** Crate hex 0.4 *)
(** [FromHexError]; its third variant is for arrays, which this crate does not
    decode to. *)
Inductive FromHexError := InvalidHexCharacter (c : char) (index : N) | OddLength.
(** [FromHex for Vec<u8>]: [hex.chunks(2).enumerate().map(..).collect()], where
    [collect] ends at the first error.  [i] is the number of chunks before. *)
Fixpoint hex_pairs (i : N) (l : list byte) : list byte + FromHexError :=
  match l with
  | a :: b :: l' =>
    match hex_val (Byte.to_N a) with
    | None => inr (InvalidHexCharacter (Byte.to_N a) (2 * i))
    | Some x =>
      match hex_val (Byte.to_N b) with
      | None => inr (InvalidHexCharacter (Byte.to_N b) (2 * i + 1))
      | Some y => match hex_pairs (i + 1) l' with inl r => inl (byte_of_N (x * 16 + y) :: r) | inr e => inr e end
      end
    end
  | _ => inl []
  end.
(** [hex::decode] of the bytes of a text *)
Definition hex_decode_detail (s : str) : list byte + FromHexError :=
  let hex := utf8 s in
  if negb (len hex mod 2 =? 0) then inr OddLength else hex_pairs 0 hex.
(** [Debug for char], for a byte as a char *)
Definition debug_char (c : char) : str :=
  lit "'" ++
  (if c =? 0 then lit "\0" else if c =? 9 then lit "\t" else if c =? 10 then lit "\n" else if c =? 13 then lit "\r"
   else if c =? 39 then lit "\'" else if c =? 92 then lit "\\"
   else if ((32 <=? c) && (c <=? 126)) || ((161 <=? c) && negb (c =? 173)) then [c]
   else lit "\u{" ++ (if c <? 16 then [hex_digit c] else [hex_digit (c / 16); hex_digit (c mod 16)]) ++ lit "}")
  ++ lit "'".
(** [Display for FromHexError] *)
Definition hex_text_of (e : FromHexError) : str :=
  match e with
  | InvalidHexCharacter c index => lit "Invalid character " ++ debug_char c ++ lit " at position " ++ show_dec index
  | OddLength => lit "Odd number of digits"
  end.

(** ** [ParseIntError] of the standard library *)
Inductive IntErrorKind := Empty | InvalidDigit | PosOverflow.
(** [usize::from_str_radix(s, 10)] *)
Fixpoint digits_detail (s : str) (acc : N) : N + IntErrorKind :=
  match s with
  | [] => inl acc
  | c :: s' =>
    match dec_digit c with
    | None => inr InvalidDigit
    | Some d => if acc * 10 + d <? two64 then digits_detail s' (acc * 10 + d) else inr PosOverflow
    end
  end.
(** [usize::from_str_radix(s, 10)], with the kind of the error *)
Definition parse_usize_detail (s : str) : N + IntErrorKind :=
  match s with
  | [] => inr Empty
  | c :: s' =>
    if (c =? 43) || (c =? 45) then
      match s' with
      | [] => inr InvalidDigit
      | _ => if c =? 43 then digits_detail s' 0 else digits_detail s 0
      end
    else digits_detail s 0
  end.
(** [Display for ParseIntError] *)
Definition int_text_of (e : IntErrorKind) : str :=
  match e with
  | Empty => lit "cannot parse integer from empty string"
  | InvalidDigit => lit "invalid digit found in string"
  | PosOverflow => lit "number too large to fit in target type"
  end.

(** ** [Display for Error]: errors.rs:18-40 *)
Definition hex_message (e : FromHexError) : str := lit "Hex parsing error: " ++ hex_text_of e.
(** errors.rs:18-40 for [Error::ParseInt] *)
Definition int_message (e : IntErrorKind) : str := lit "Integer parsing error: " ++ int_text_of e.
(** The errors that the model holds completely *)
Definition display_error (e : err) : option str :=
  match e with
  | InvalidName s => Some (lit "Invalid name: " ++ s)
  | InvalidData => Some (lit "Invalid data")
  | OtherErr s => Some s
  | _ => None
  end.

(** ** Tokenizers, with [hex_message] for the error of [hex::decode] *)
Definition hex_told (s : str) : res (list byte) :=
  match hex_decode_detail s with inl b => Ok b | inr e => Err (OtherErr (hex_message e)) end.
(** /repo/ethabi/src/token/strict.rs:15-25 *)
Definition told_address (value : str) : res (list byte) :=
  do hex <- hex_told value; if len hex =? 20 then copy_from_slice 20 hex else Err InvalidData.
(** strict.rs:43-49 *)
Definition told_fixed_bytes (value : str) (l : N) : res (list byte) :=
  do hex <- hex_told value; if len hex =? l then Ok hex else Err InvalidData.
(** strict.rs:51-65 *)
Definition told_uint (value : str) : res (list byte) :=
  do hex <- hex_told value; if len hex =? 32 then copy_from_slice 32 hex else Err InvalidData.
(** strict.rs:27-41 for the others *)
Definition StrictTold : Tokenizer :=
  mkTokenizer told_address strict_string strict_bool hex_told told_fixed_bytes told_uint told_uint.
(** /repo/ethabi/src/token/lenient.rs:20-75: for integers the error of
    [StrictTokenizer] is dropped. *)
Definition LenientTold : Tokenizer :=
  mkTokenizer told_address strict_string strict_bool hex_told told_fixed_bytes lenient_uint lenient_int.
(** The text of the error with which a value is rejected, if it is *)
Definition value_message (lenient : bool) (t : ParamType) (s : str) : option str :=
  match tokenize (if lenient then LenientTold else StrictTold) t s with Err e => display_error e | _ => None end.

(** ** The reader of names, with [int_message] for the error of [str::parse] *)
Definition usize_told (s : str) : res N :=
  match parse_usize_detail s with inl n => Ok n | inr e => Err (OtherErr (int_message e)) end.
(** /repo/ethabi/src/param_type/reader.rs:120-136 *)
Definition told_array (p : profile) (read_rec : str -> res ParamType) (name : str) : res ParamType :=
  let num := rev (take_while (fun c => negb (c =? ch_lbracket)) (skipn 1 (rev name))) in
  let count := len name in
  match num with
  | [] =>
    do e <- usize_sub p count 2;
    do sub <- str_slice name 0 e;
    do subtype <- read_rec sub;
    Ok (PArray subtype)
  | _ =>
    do l <- usize_told num;
    do e0 <- usize_sub p count (str_len num);
    do e <- usize_sub p e0 2;
    do sub <- str_slice name 0 e;
    do subtype <- read_rec sub;
    Ok (PFixedArray subtype l)
  end.
(** reader.rs:140-163 *)
Definition told_base (name : str) : res ParamType :=
  if str_eqb name (lit "address") then Ok PAddress
  else if str_eqb name (lit "bytes") then Ok PBytes
  else if str_eqb name (lit "bool") then Ok PBool
  else if str_eqb name (lit "string") then Ok PString
  else if str_eqb name (lit "int") then Ok (PInt 256)
  else if str_eqb name (lit "tuple") then Ok (PTuple [])
  else if str_eqb name (lit "uint") then Ok (PUint 256)
  else if starts_with name (lit "int") then
    do s <- str_from name 3; do l <- usize_told s; Ok (PInt l)
  else if starts_with name (lit "uint") then
    do s <- str_from name 4; do l <- usize_told s; Ok (PUint l)
  else if starts_with name (lit "bytes") then
    do s <- str_from name 5; do l <- usize_told s; Ok (PFixedBytes l)
  else Err (InvalidName name).
(** reader.rs:16-166, as [read_fuel]; [read_tuple] has no numbers of its own. *)
Fixpoint told_fuel (p : profile) (fuel : nat) (name : str) : res ParamType :=
  match fuel with
  | O => Err OutOfFuel
  | S f =>
    match last_char name with
    | Some c =>
      if c =? ch_close then read_tuple (told_fuel p f) name
      else if c =? ch_rbracket then told_array p (told_fuel p f) name
      else told_base name
    | None => told_base name
    end
  end.
(** reader.rs:16-166 *)
Definition read_told (p : profile) (name : str) : res ParamType := told_fuel p (S (List.length name)) name.
(** The text of the error with which a name is rejected, if it is *)
Definition name_message (p : profile) (s : str) : option str :=
  match read_told p s with Err e => display_error e | _ => None end.

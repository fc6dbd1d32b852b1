(** * Tokenizers: /repo/ethabi/src/token/mod.rs, strict.rs, lenient.rs, and
    [Display for Token] of /repo/ethabi/src/token/token.rs *)
From Verif Require Import Base Types.
From Coq Require Import String.
Set Implicit Arguments.
Local Open Scope N_scope.
Local Open Scope list_scope.

(** [Result::map] *)
Definition rmap {A B} (f : A -> B) (r : res A) : res B := do a <- r; Ok (f a).
(** [Option::ok_or(Error::InvalidData)?] is the match in the loops below. *)

(** The quotation mark *)
Definition ch_quote : char := 34.

(** The required methods of the trait, /repo/ethabi/src/token/mod.rs:158-176.
    [[u8; 20]] and [[u8; 32]] are byte lists. *)
Record Tokenizer := mkTokenizer {
  tokenize_address : str -> res (list byte);
  tokenize_string : str -> res str;
  tokenize_bool : str -> res bool;
  tokenize_bytes : str -> res (list byte);
  tokenize_fixed_bytes : str -> N -> res (list byte);
  tokenize_uint : str -> res (list byte);
  tokenize_int : str -> res (list byte) }.

(** Local variables of the loops in [tokenize_struct] and [tokenize_array].
    [tk_result] is in reverse order. *)
Record tstate := mkT {
  tk_result : list Token;
  tk_nested : Z;
  tk_ignore : bool;
  tk_last_item : N }.

(** Both loops, /repo/ethabi/src/token/mod.rs:62-94 ([op]='(' and [cl]=')')
    and 117-148 ([op]='[' and [cl]=']').  [St] is the state of [params], and
    [next] is [Self::tokenize(params.next().ok_or(..)?, sub)?] in the former,
    [Self::tokenize(param, sub)?] in the latter. *)
Section Loop.
Context {St : Type} (next : St -> str -> res (Token * St)) (op cl : char) (value : str).
(** token/mod.rs:62-94 and 117-148: the item that ends here *)
Definition take_item (s : tstate) (params : St) (nested : Z) (pos : N) : res (tstate * St) :=
  do sub <- str_slice value (tk_last_item s) pos;
  do (token, params') <- next params sub;
  Ok (mkT (token :: tk_result s) nested (tk_ignore s) (pos + 1), params').
(** token/mod.rs:62-94 and 117-148: one character *)
Definition token_char (s : tstate) (params : St) (pos : N) (ch : char) : res (tstate * St) :=
  if (ch =? op) && negb (tk_ignore s) then
    Ok (mkT (tk_result s) (tk_nested s + 1) (tk_ignore s) (tk_last_item s), params)
  else if (ch =? cl) && negb (tk_ignore s) then
    let nested := (tk_nested s - 1)%Z in
    if (nested <? 0)%Z then Err InvalidData
    else if (nested =? 0)%Z then take_item s params nested pos
    else Ok (mkT (tk_result s) nested (tk_ignore s) (tk_last_item s), params)
  else if ch =? ch_quote then
    Ok (mkT (tk_result s) (tk_nested s) (negb (tk_ignore s)) (tk_last_item s), params)
  else if (ch =? 44) && (tk_nested s =? 1)%Z && negb (tk_ignore s) then
    take_item s params (tk_nested s) pos
  else Ok (s, params).
(** token/mod.rs:62-94 and 117-148: the loop *)
Fixpoint token_loop (rest : str) (pos : N) (s : tstate) (params : St) : res tstate :=
  match rest with
  | [] => Ok s
  | ch :: rest' => do (s', params') <- token_char s params pos ch; token_loop rest' (pos + 1) s' params'
  end.
(** /repo/ethabi/src/token/mod.rs:48-101 and 104-155 *)
Definition tokenize_items (params : St) : res (list Token) :=
  if negb (starts_with_char value op) || negb (ends_with_char value cl) then Err InvalidData
  else if len value =? 2 then Ok []
  else
    do s <- token_loop value 0 (mkT [] 0 false 1) params;
    if tk_ignore s then Err InvalidData else Ok (rev (tk_result s)).
End Loop.

(** [Self::tokenize(params.next().ok_or(Error::InvalidData)?, sub)?]: the
    parameters are given by their tokenizing functions. *)
Definition next_field (params : list (str -> res Token)) (sub : str) : res (Token * list (str -> res Token)) :=
  match params with
  | [] => Err InvalidData
  | f :: params' => do token <- f sub; Ok (token, params')
  end.
(** [Self::tokenize(param, sub)?] *)
Definition next_element (f : str -> res Token) (params : unit) (sub : str) : res (Token * unit) :=
  do token <- f sub; Ok (token, tt).

Section Tokenize.
Context (T : Tokenizer).
(** /repo/ethabi/src/token/mod.rs:23-36; [tokenize_struct] 48-101,
    [tokenize_array] 104-155 and [tokenize_fixed_array] 39-45 are inlined. *)
Fixpoint tokenize (param : ParamType) (value : str) : res Token :=
  match param with
  | PAddress => rmap TAddress (tokenize_address T value)
  | PString => rmap TString (tokenize_string T value)
  | PBool => rmap TBool (tokenize_bool T value)
  | PBytes => rmap TBytes (tokenize_bytes T value)
  | PFixedBytes l => rmap TFixedBytes (tokenize_fixed_bytes T value l)
  | PUint _ => rmap (fun b => TUint (of_be b)) (tokenize_uint T value)
  | PInt _ => rmap (fun b => TInt (of_be b)) (tokenize_int T value)
  | PArray p => rmap TArray (tokenize_items (next_element (tokenize p)) 91 93 value tt)
  | PFixedArray p l =>
    rmap TFixedArray
      (do result <- tokenize_items (next_element (tokenize p)) 91 93 value tt;
       if len result =? l then Ok result else Err InvalidData)
  | PTuple ps => rmap TTuple (tokenize_items next_field 40 41 value (map tokenize ps))
  end.
End Tokenize.

(** ** /repo/ethabi/src/token/strict.rs *)
(** strict.rs:15-25 *)
Definition strict_address (value : str) : res (list byte) :=
  do hex <- hex_decode value;
  if len hex =? 20 then copy_from_slice 20 hex else Err InvalidData.
(** strict.rs:27-29 *)
Definition strict_string (value : str) : res str := Ok value.
(** strict.rs:31-37 *)
Definition strict_bool (value : str) : res bool :=
  if str_eqb value (lit "true") || str_eqb value (lit "1") then Ok true
  else if str_eqb value (lit "false") || str_eqb value (lit "0") then Ok false
  else Err InvalidData.
(** strict.rs:39-41 *)
Definition strict_bytes (value : str) : res (list byte) := hex_decode value.
(** strict.rs:43-49 *)
Definition strict_fixed_bytes (value : str) (l : N) : res (list byte) :=
  do hex <- hex_decode value;
  if len hex =? l then Ok hex else Err InvalidData.
(** strict.rs:51-61 *)
Definition strict_uint (value : str) : res (list byte) :=
  do hex <- hex_decode value;
  if len hex =? 32 then copy_from_slice 32 hex else Err InvalidData.
(** strict.rs:63-65 *)
Definition strict_int (value : str) : res (list byte) := strict_uint value.
(** /repo/ethabi/src/token/strict.rs:14-66 *)
Definition StrictTokenizer : Tokenizer :=
  mkTokenizer strict_address strict_string strict_bool strict_bytes strict_fixed_bytes strict_uint strict_int.

(** ** /repo/ethabi/src/token/lenient.rs *)
(** [Uint::from_dec_str] (crate uint 0.9): rejects non-digits first, then
    accumulates, rejecting overflow; the empty string is 0.  Errors converted
    as in /repo/ethabi/src/errors.rs:42-51. *)
Definition from_dec_str (value : str) : res N :=
  if forallb (fun c => (48 <=? c) && (c <=? 57)) value then
    match parse_digits two256 value 0 with
    | Some n => Ok n
    | None => Err (OtherErr (lit "Uint parse error: InvalidLength"))
    end
  else Err (OtherErr (lit "Uint parse error: InvalidCharacter")).
(** lenient.rs:40-48 *)
Definition lenient_uint (value : str) : res (list byte) :=
  match strict_uint value with
  | Ok r => Ok r
  | Panic => Panic
  | Err _ => do uint <- from_dec_str value; Ok (be_bytes 32 uint)
  end.
(** lenient.rs:53-75.  [!abs + 1] is on U256. *)
Definition lenient_int (value : str) : res (list byte) :=
  match strict_int value with
  | Ok r => Ok r
  | Panic => Panic
  | Err _ =>
    do abs <- from_dec_str (drop_while (fun c => c =? 45) value);
    let max := (two256 - 1) / 2 in
    if starts_with_char value 45 then
      if abs =? 0 then Ok (be_bytes 32 abs)
      else if max + 1 <? abs then Err (OtherErr (lit "int256 parse error: Underflow"))
      else Ok (be_bytes 32 ((two256 - 1 - abs) + 1))
    else
      if max <? abs then Err (OtherErr (lit "int256 parse error: Overflow"))
      else Ok (be_bytes 32 abs)
  end.
(** lenient.rs:20-38: the other methods call [StrictTokenizer]. *)
Definition LenientTokenizer : Tokenizer :=
  mkTokenizer strict_address strict_string strict_bool strict_bytes strict_fixed_bytes lenient_uint lenient_int.

(** ** [Display for Token]: /repo/ethabi/src/token/token.rs:66-86 *)
(** [{:x}] of a U256: lower-case hex without leading zeros. *)
Definition show_hex (n : N) : str :=
  match drop_while (fun c => c =? 48) (hex_encode (be_bytes 32 n)) with
  | [] => [48]
  | s => s
  end.
(** [Display for Token]: /repo/ethabi/src/token/token.rs:66-86 *)
Fixpoint display (v : Token) : str :=
  match v with
  | TBool b => if b then lit "true" else lit "false"
  | TString s => s
  | TAddress a => hex_encode a
  | TBytes b | TFixedBytes b => hex_encode b
  | TUint n | TInt n => show_hex n
  | TArray vs | TFixedArray vs => lit "[" ++ join (lit ",") (map display vs) ++ lit "]"
  | TTuple vs => lit "(" ++ join (lit ",") (map display vs) ++ lit ")"
  end.

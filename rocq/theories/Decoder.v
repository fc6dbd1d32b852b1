(** * Decoder: /repo/ethabi/src/decoder.rs (64-bit [usize]). *)
From Verif Require Import Base Utf8 Types Encoder.
From Coq Require Import String.
Set Implicit Arguments.
Local Open Scope N_scope.
Local Open Scope list_scope.

(** [|x| *x == 0]: decoder.rs:20 and 33 *)
Definition is_zero_byte (b : byte) : bool := Byte.to_N b =? 0.

(** /repo/ethabi/src/decoder.rs:19-30.  The shifts and sums cannot overflow a
    64-bit usize. *)
Definition as_usize (w : Word) : res N :=
  if forallb is_zero_byte (firstn 28 w) then
    let b i := Byte.to_N (nth i w x00) in
    Ok (b 28%nat * 2 ^ 24 + b 29%nat * 2 ^ 16 + b 30%nat * 2 ^ 8 + b 31%nat)
  else Err InvalidData.

(** /repo/ethabi/src/decoder.rs:32-38 *)
Definition as_bool (w : Word) : res bool :=
  if forallb is_zero_byte (firstn 31 w) then Ok (Byte.to_N (nth 31 w x00) =? 1)
  else Err InvalidData.

(** /repo/ethabi/src/decoder.rs:45-49 *)
Definition empty_data_msg : str :=
  lit "please ensure the contract and method you're calling exist! failed to decode empty bytes. if you're using jsonrpc this is likely due to jsonrpc returning `0x` in case contract or method don't exist".

Section WithProfile.
Context (p : profile).

(** /repo/ethabi/src/decoder.rs:65-71 *)
Definition peek (data : list byte) (offset l : N) : res (list byte) :=
  do e <- usize_add p offset l;
  if len data <? e then Err InvalidData else slice data offset e.

(** /repo/ethabi/src/decoder.rs:73-79 *)
Definition peek_32_bytes (data : list byte) (offset : N) : res Word := peek data offset 32.

(** /repo/ethabi/src/decoder.rs:81-87 *)
Definition take_bytes (data : list byte) (offset l : N) : res (list byte) :=
  do e <- usize_add p offset l;
  if len data <? e then Err InvalidData else slice data offset e.

(** One round of the [for] loops at decoder.rs:56-60, 151-155, 169-173 and
    199-203: the tokens are accumulated in reverse order here. *)
Definition decode_step (dec : N -> res (Token * N)) (s : list Token * N)
  : res (list Token * N) :=
  let '(tokens, offset) := s in
  do (token, new_offset) <- dec offset;
  Ok (token :: tokens, new_offset).

(** /repo/ethabi/src/decoder.rs:89-216; [DecodeResult] is the pair
    (token, new_offset). *)
Fixpoint decode_param (t : ParamType) (data : list byte) (offset : N) : res (Token * N) :=
  match t with
  | PAddress =>
    do w <- peek_32_bytes data offset;
    do o <- usize_add p offset 32;
    Ok (TAddress (skipn 12 w), o)
  | PInt _ =>
    do w <- peek_32_bytes data offset;
    do o <- usize_add p offset 32;
    Ok (TInt (of_be w), o)
  | PUint _ =>
    do w <- peek_32_bytes data offset;
    do o <- usize_add p offset 32;
    Ok (TUint (of_be w), o)
  | PBool =>
    do w <- peek_32_bytes data offset;
    do b <- as_bool w;
    do o <- usize_add p offset 32;
    Ok (TBool b, o)
  | PFixedBytes l =>
    do bytes <- take_bytes data offset l;
    do o <- usize_add p offset 32;
    Ok (TFixedBytes bytes, o)
  | PBytes =>
    do w <- peek_32_bytes data offset;
    do dynamic_offset <- as_usize w;
    do w <- peek_32_bytes data dynamic_offset;
    do l <- as_usize w;
    do start <- usize_add p dynamic_offset 32;
    do bytes <- take_bytes data start l;
    do o <- usize_add p offset 32;
    Ok (TBytes bytes, o)
  | PString =>
    do w <- peek_32_bytes data offset;
    do dynamic_offset <- as_usize w;
    do w <- peek_32_bytes data dynamic_offset;
    do l <- as_usize w;
    do start <- usize_add p dynamic_offset 32;
    do bytes <- take_bytes data start l;
    do o <- usize_add p offset 32;
    Ok (TString (utf8_lossy bytes), o)
  | PArray t' =>
    do w <- peek_32_bytes data offset;
    do len_offset <- as_usize w;
    do w <- peek_32_bytes data len_offset;
    do l <- as_usize w;
    do tail_offset <- usize_add p len_offset 32;
    do tl <- slice_from data tail_offset;
    do (tokens, _) <- iter_N (decode_step (decode_param t' tl)) l ([], 0);
    do o <- usize_add p offset 32;
    Ok (TArray (rev tokens), o)
  | PFixedArray t' l =>
    let is_dynamic := ptype_is_dynamic t in
    do (tl, start) <-
      (if is_dynamic then
         do w <- peek_32_bytes data offset;
         do o <- as_usize w;
         do tl <- slice_from data o;
         Ok (tl, 0)
       else Ok (data, offset));
    do (tokens, new_offset) <- iter_N (decode_step (decode_param t' tl)) l ([], start);
    do o <- (if is_dynamic then usize_add p offset 32 else Ok new_offset);
    Ok (TFixedArray (rev tokens), o)
  | PTuple ts =>
    let is_dynamic := ptype_is_dynamic t in
    do (tl, start) <-
      (if is_dynamic then
         do w <- peek_32_bytes data offset;
         do o <- as_usize w;
         if len data <? o then Err InvalidData
         else do tl <- slice_from data o; Ok (tl, 0)
       else Ok (data, offset));
    do (tokens, new_offset) <- foldM (fun s t' => decode_step (decode_param t' tl) s) ts ([], start);
    do o <- (if is_dynamic then usize_add p offset 32 else Ok new_offset);
    Ok (TTuple (rev tokens), o)
  end.

(** /repo/ethabi/src/decoder.rs:41-63 *)
Definition decode (types : list ParamType) (data : list byte) : res (list Token) :=
  if negb (forallb is_empty_bytes_valid_encoding types) && (len data =? 0)
  then Err (InvalidName empty_data_msg)
  else
    do (tokens, _) <- foldM (fun s t => decode_step (decode_param t data) s) types ([], 0);
    Ok (rev tokens).
End WithProfile.

(** * The decoder on targets with 32-bit [usize]

    /repo/ethabi/src/decoder.rs once more, compiled for a target such as
    wasm32, where [usize] has 32 bits: only the sums of positions and lengths
    differ from Decoder.v.  The shifts and sums in [as_usize] do not overflow
    there either, so that function is shared, as is the loop body. *)
From Verif Require Import Base Utf8 Types Encoder Decoder.
Set Implicit Arguments.
Local Open Scope N_scope.
Local Open Scope list_scope.

(** [a + b] on a 32-bit [usize] *)
Definition usize32_add (p : profile) (a b : N) : res N := checked p two32 (a + b).

Section WithProfile.
Context (p : profile).

(** /repo/ethabi/src/decoder.rs:65-71 and 81-87: [peek] and [take_bytes] *)
Definition peek32 (data : list byte) (offset l : N) : res (list byte) :=
  do e <- usize32_add p offset l;
  if len data <? e then Err InvalidData else slice data offset e.

(** /repo/ethabi/src/decoder.rs:89-216 *)
Fixpoint decode_param32 (t : ParamType) (data : list byte) (offset : N) : res (Token * N) :=
  match t with
  | PAddress =>
    do w <- peek32 data offset 32;
    do o <- usize32_add p offset 32;
    Ok (TAddress (skipn 12 w), o)
  | PInt _ =>
    do w <- peek32 data offset 32;
    do o <- usize32_add p offset 32;
    Ok (TInt (of_be w), o)
  | PUint _ =>
    do w <- peek32 data offset 32;
    do o <- usize32_add p offset 32;
    Ok (TUint (of_be w), o)
  | PBool =>
    do w <- peek32 data offset 32;
    do b <- as_bool w;
    do o <- usize32_add p offset 32;
    Ok (TBool b, o)
  | PFixedBytes l =>
    do bytes <- peek32 data offset l;
    do o <- usize32_add p offset 32;
    Ok (TFixedBytes bytes, o)
  | PBytes =>
    do w <- peek32 data offset 32;
    do dynamic_offset <- as_usize w;
    do w <- peek32 data dynamic_offset 32;
    do l <- as_usize w;
    do start <- usize32_add p dynamic_offset 32;
    do bytes <- peek32 data start l;
    do o <- usize32_add p offset 32;
    Ok (TBytes bytes, o)
  | PString =>
    do w <- peek32 data offset 32;
    do dynamic_offset <- as_usize w;
    do w <- peek32 data dynamic_offset 32;
    do l <- as_usize w;
    do start <- usize32_add p dynamic_offset 32;
    do bytes <- peek32 data start l;
    do o <- usize32_add p offset 32;
    Ok (TString (utf8_lossy bytes), o)
  | PArray t' =>
    do w <- peek32 data offset 32;
    do len_offset <- as_usize w;
    do w <- peek32 data len_offset 32;
    do l <- as_usize w;
    do tail_offset <- usize32_add p len_offset 32;
    do tl <- slice_from data tail_offset;
    do (tokens, _) <- iter_N (decode_step (decode_param32 t' tl)) l ([], 0);
    do o <- usize32_add p offset 32;
    Ok (TArray (rev tokens), o)
  | PFixedArray t' l =>
    let is_dynamic := ptype_is_dynamic t in
    do (tl, start) <-
      (if is_dynamic then
         do w <- peek32 data offset 32;
         do o <- as_usize w;
         do tl <- slice_from data o;
         Ok (tl, 0)
       else Ok (data, offset));
    do (tokens, new_offset) <- iter_N (decode_step (decode_param32 t' tl)) l ([], start);
    do o <- (if is_dynamic then usize32_add p offset 32 else Ok new_offset);
    Ok (TFixedArray (rev tokens), o)
  | PTuple ts =>
    let is_dynamic := ptype_is_dynamic t in
    do (tl, start) <-
      (if is_dynamic then
         do w <- peek32 data offset 32;
         do o <- as_usize w;
         if len data <? o then Err InvalidData
         else do tl <- slice_from data o; Ok (tl, 0)
       else Ok (data, offset));
    do (tokens, new_offset) <- foldM (fun s t' => decode_step (decode_param32 t' tl) s) ts ([], start);
    do o <- (if is_dynamic then usize32_add p offset 32 else Ok new_offset);
    Ok (TTuple (rev tokens), o)
  end.

(** /repo/ethabi/src/decoder.rs:41-63 *)
Definition decode32 (types : list ParamType) (data : list byte) : res (list Token) :=
  if negb (forallb is_empty_bytes_valid_encoding types) && (len data =? 0)
  then Err (InvalidName empty_data_msg)
  else
    do (tokens, _) <- foldM (fun s t => decode_step (decode_param32 t data) s) types ([], 0);
    Ok (rev tokens).
End WithProfile.

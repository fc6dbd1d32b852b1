(** * Encoder: /repo/ethabi/src/encoder.rs and pad_u32 of /repo/ethabi/src/util.rs

    Everything is monadic in [res] because u32 arithmetic can overflow: it
    panics in a [Debug] build and wraps in a [Release] build. *)
From Verif Require Import Base Types.
Set Implicit Arguments.
Local Open Scope N_scope.

(** [Word = [u8; 32]]: /repo/ethabi/src/lib.rs:57 *)
Definition Word := list byte.

(** /repo/ethabi/src/util.rs:14-18 *)
Definition pad_u32 (value : N) : Word := zeros 28 ++ be_bytes 4 value.

(** /repo/ethabi/src/encoder.rs:19-39.  [usize] arithmetic on a slice length
    cannot overflow (slices are at most isize::MAX long). *)
Definition pad_fixed_bytes (bytes : list byte) : res (list Word) :=
  let n := len bytes in
  let l := (n + 31) / 32 in
  mapM (fun i0 =>
          let i := N.of_nat i0 in
          let to_copy := if i =? l - 1
                         then match n mod 32 with 0 => 32 | x => x end
                         else 32 in
          let offset := 32 * i in
          do src <- slice bytes offset (offset + to_copy);
          do c <- copy_from_slice to_copy src;
          Ok (c ++ zeros (N.to_nat (32 - to_copy))))
       (seq 0 (N.to_nat l)).

(** /repo/ethabi/src/encoder.rs:13-17 *)
Definition pad_bytes (bytes : list byte) : res (list Word) :=
  do r <- pad_fixed_bytes bytes;
  Ok (pad_u32 (as_u32 (len bytes)) :: r).

(** /repo/ethabi/src/encoder.rs:42-49 *)
Inductive Mediate :=
| Raw (raw : list Word)
| Prefixed (pre : list Word)
| PrefixedArray (ms : list Mediate)
| PrefixedArrayWithLength (ms : list Mediate)
| RawTuple (ms : list Mediate)
| PrefixedTuple (ms : list Mediate).

Section WithProfile.
Context (p : profile).

(** /repo/ethabi/src/encoder.rs:52-61 *)
Fixpoint head_len (m : Mediate) : res N :=
  match m with
  | Raw raw => u32_mul p 32 (as_u32 (len raw))
  | RawTuple ms => foldM (fun acc m => do h <- head_len m; u32_add p acc h) ms 0
  | Prefixed _ | PrefixedArray _ | PrefixedArrayWithLength _ | PrefixedTuple _ => Ok 32
  end.

(** /repo/ethabi/src/encoder.rs:63-73 *)
Fixpoint tail_len (m : Mediate) : res N :=
  let sum := fun ms init =>
    foldM (fun acc m => do h <- head_len m;
                        do a <- u32_add p acc h;
                        do t <- tail_len m;
                        u32_add p a t) ms init in
  match m with
  | Raw _ | RawTuple _ => Ok 0
  | Prefixed pre => u32_mul p (as_u32 (len pre)) 32
  | PrefixedArray ms => sum ms 0
  | PrefixedArrayWithLength ms => sum ms 32
  | PrefixedTuple ms => sum ms 0
  end.

(** /repo/ethabi/src/encoder.rs:75-84 *)
Fixpoint head (m : Mediate) (suffix_offset : N) : list Word :=
  match m with
  | Raw raw => raw
  | RawTuple ms => flat_map (fun m => head m 0) ms
  | Prefixed _ | PrefixedArray _ | PrefixedArrayWithLength _ | PrefixedTuple _ =>
    [pad_u32 suffix_offset]
  end.

(** /repo/ethabi/src/encoder.rs:105-121, parametrised by the mutually
    recursive [Mediate::tail].  The vector capacities are not modelled, except
    that computing [len - heads_len] can underflow. *)
Definition encode_head_tail_with (tail : Mediate -> res (list Word)) (ms : list Mediate)
  : res (list Word) :=
  do heads_len <- foldM (fun acc m => do h <- head_len m; u32_add p acc h) ms 0;
  do (heads, l) <- foldM (fun '(acc, offset) m =>
                            do t <- tail_len m;
                            do o <- u32_add p offset t;
                            Ok (acc ++ head m offset, o)) ms ([], heads_len);
  do _ <- u32_sub p l heads_len;
  do tails <- foldM (fun acc m => do t <- tail m; Ok (acc ++ t)) ms [];
  Ok (heads ++ tails).

(** /repo/ethabi/src/encoder.rs:86-102 *)
Fixpoint tail (m : Mediate) : res (list Word) :=
  match m with
  | Raw _ | RawTuple _ => Ok []
  | PrefixedTuple ms => encode_head_tail_with tail ms
  | Prefixed raw => Ok raw
  | PrefixedArray ms => encode_head_tail_with tail ms
  | PrefixedArrayWithLength ms =>
    do head_tail <- encode_head_tail_with tail ms;
    Ok (pad_u32 (as_u32 (len ms)) :: head_tail)
  end.

(** /repo/ethabi/src/encoder.rs:105-121 *)
Definition encode_head_tail : list Mediate -> res (list Word) := encode_head_tail_with tail.

(** /repo/ethabi/src/encoder.rs:130-174 *)
Fixpoint encode_token (v : Token) : res Mediate :=
  match v with
  | TAddress a => do c <- copy_from_slice 20 a; Ok (Raw [zeros 12 ++ c])
  | TBytes b => do w <- pad_bytes b; Ok (Prefixed w)
  | TString s => do w <- pad_bytes (utf8 s); Ok (Prefixed w)
  | TFixedBytes b => do w <- pad_fixed_bytes b; Ok (Raw w)
  | TInt n => Ok (Raw [be_bytes 32 n])
  | TUint n => Ok (Raw [be_bytes 32 n])
  | TBool b => Ok (Raw [zeros 31 ++ [if b then x01 else x00]])
  | TArray vs => do ms <- mapM encode_token vs; Ok (PrefixedArrayWithLength ms)
  | TFixedArray vs =>
    do ms <- mapM encode_token vs;
    if token_is_dynamic v then Ok (PrefixedArray ms)
    else do w <- encode_head_tail ms; Ok (Raw w)
  | TTuple vs =>
    do ms <- mapM encode_token vs;
    if token_is_dynamic v then Ok (PrefixedTuple ms) else Ok (RawTuple ms)
  end.

(** /repo/ethabi/src/encoder.rs:124-128 *)
Definition encode (tokens : list Token) : res (list byte) :=
  do ms <- mapM encode_token tokens;
  do ws <- encode_head_tail ms;
  Ok (concat ws).
End WithProfile.

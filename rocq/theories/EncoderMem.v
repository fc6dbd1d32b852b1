(** * The memory that the encoder asks for

    /repo/ethabi/src/encoder.rs once more, with the calls of
    [Vec::with_capacity] that Encoder.v leaves out: every one panics with
    "capacity overflow" if the vector would have more than [room] bytes
    ([isize::MAX] of the target), and all are recorded in the order in which
    they are made, as numbers of 32-byte words.  Vectors that are made with
    [vec!], [collect] and [clone] are not recorded: what they reserve is up to
    the standard library. *)
From Verif Require Import Base Types Encoder.
Set Implicit Arguments.
Local Open Scope N_scope.

(** [Vec::<Word>::with_capacity(n)] *)
Definition with_capacity (room n : N) : res N := if 32 * n <=? room then Ok n else Panic.

Section Mem.
Context (room : N) (p : profile).

(** /repo/ethabi/src/encoder.rs:19-39 *)
Definition pad_fixed_bytes_mem (bytes : list byte) : res (list Word * list N) :=
  do c <- with_capacity room ((len bytes + 31) / 32);
  do ws <- pad_fixed_bytes bytes;
  Ok (ws, [c]).
(** /repo/ethabi/src/encoder.rs:13-17 *)
Definition pad_bytes_mem (bytes : list byte) : res (list Word * list N) :=
  do (r, c) <- pad_fixed_bytes_mem bytes;
  Ok (pad_u32 (as_u32 (len bytes)) :: r, c).

(** /repo/ethabi/src/encoder.rs:105-121, parametrised by [Mediate::tail] *)
Definition encode_head_tail_mem_with (tail : Mediate -> res (list Word * list N)) (ms : list Mediate) : res (list Word * list N) :=
  do heads_len <- foldM (fun acc m => do h <- head_len p m; u32_add p acc h) ms 0;
  do a <- with_capacity room heads_len;
  do (heads, l) <- foldM (fun '(acc, offset) m =>
                            do t <- tail_len p m;
                            do o <- u32_add p offset t;
                            Ok (acc ++ head m offset, o)) ms ([], heads_len);
  do d <- u32_sub p l heads_len;
  do b <- with_capacity room d;
  do (tails, cs) <- foldM (fun '(acc, cs) m => do (t, c) <- tail m; Ok (acc ++ t, cs ++ c)) ms ([], []);
  Ok (heads ++ tails, a :: b :: cs).
(** /repo/ethabi/src/encoder.rs:86-102 *)
Fixpoint tail_mem (m : Mediate) : res (list Word * list N) :=
  match m with
  | Raw _ | RawTuple _ => Ok ([], [])
  | PrefixedTuple ms => encode_head_tail_mem_with tail_mem ms
  | Prefixed raw => Ok (raw, [])
  | PrefixedArray ms => encode_head_tail_mem_with tail_mem ms
  | PrefixedArrayWithLength ms =>
    do (head_tail, c) <- encode_head_tail_mem_with tail_mem ms;
    Ok (pad_u32 (as_u32 (len ms)) :: head_tail, c)
  end.
(** /repo/ethabi/src/encoder.rs:105-121 *)
Definition encode_head_tail_mem : list Mediate -> res (list Word * list N) := encode_head_tail_mem_with tail_mem.

(** [tokens.iter().map(encode_token).collect()], with the records *)
Definition all_mem (f : Token -> res (Mediate * list N)) : list Token -> res (list Mediate * list N) :=
  fix go vs :=
    match vs with
    | [] => Ok ([], [])
    | v :: vs' => do (m, c) <- f v; do (ms, c') <- go vs'; Ok (m :: ms, c ++ c')
    end.
(** /repo/ethabi/src/encoder.rs:130-174 *)
Fixpoint encode_token_mem (v : Token) : res (Mediate * list N) :=
  match v with
  | TAddress a => do c <- copy_from_slice 20 a; Ok (Raw [zeros 12 ++ c], [])
  | TBytes b => do (w, c) <- pad_bytes_mem b; Ok (Prefixed w, c)
  | TString s => do (w, c) <- pad_bytes_mem (utf8 s); Ok (Prefixed w, c)
  | TFixedBytes b => do (w, c) <- pad_fixed_bytes_mem b; Ok (Raw w, c)
  | TInt n => Ok (Raw [be_bytes 32 n], [])
  | TUint n => Ok (Raw [be_bytes 32 n], [])
  | TBool b => Ok (Raw [zeros 31 ++ [if b then x01 else x00]], [])
  | TArray vs => do (ms, c) <- all_mem encode_token_mem vs; Ok (PrefixedArrayWithLength ms, c)
  | TFixedArray vs =>
    do (ms, c) <- all_mem encode_token_mem vs;
    if token_is_dynamic v then Ok (PrefixedArray ms, c)
    else do (w, c') <- encode_head_tail_mem ms; Ok (Raw w, c ++ c')
  | TTuple vs =>
    do (ms, c) <- all_mem encode_token_mem vs;
    if token_is_dynamic v then Ok (PrefixedTuple ms, c) else Ok (RawTuple ms, c)
  end.
(** /repo/ethabi/src/encoder.rs:124-128 *)
Definition encode_mem (tokens : list Token) : res (list byte * list N) :=
  do (ms, c) <- all_mem encode_token_mem tokens;
  do (ws, c') <- encode_head_tail_mem ms;
  Ok (concat ws, c ++ c').
End Mem.

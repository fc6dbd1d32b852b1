(** * The work of the decoder

    /repo/ethabi/src/decoder.rs once more, with a count of the calls of
    [decode_param] and [ParamType::is_dynamic], of the words and stretches of
    bytes that are looked at, of the bytes that are copied or made into text
    and of the tokens that are pushed.  An error or a panic ends the count. *)
From Verif Require Import Base Utf8 Types Encoder Decoder EncoderWork.
Set Implicit Arguments.
Local Open Scope N_scope.
Local Open Scope list_scope.

(** [for _ in 0..n], as [iter_N] *)
Definition iterW_pos {S} (f : S -> work S) : positive -> S -> work S :=
  fix go (p : positive) (s : S) : work S :=
    match p with
    | xH => f s
    | xO p' => wbind (go p' s) (go p')
    | xI p' => wbind (f s) (fun s' => wbind (go p' s') (go p'))
    end.
(** [for _ in 0..n], as [iter_N] *)
Definition iterW {S} (f : S -> work S) (n : N) (s : S) : work S :=
  match n with N0 => steps 0 (Ok s) | Npos p => iterW_pos f p s end.

(** /repo/ethabi/src/param_type/param_type.rs:58-65: [any] stops at the first *)
Definition any_type_work (f : ParamType -> work bool) : list ParamType -> work bool :=
  fix go ts := match ts with [] => steps 0 (Ok false) | t :: ts' => wbind (f t) (fun b => if b : bool then steps 0 (Ok true) else go ts') end.
(** param_type.rs:58-65, the number of calls *)
Fixpoint type_dynamic_work (t : ParamType) : work bool :=
  wbind (steps 1 (Ok tt)) (fun _ =>
  match t with
  | PBytes | PString | PArray _ => steps 0 (Ok true)
  | PFixedArray t _ => type_dynamic_work t
  | PTuple ts => any_type_work type_dynamic_work ts
  | _ => steps 0 (Ok false)
  end).

Section Work.
Context (p : profile).
(** /repo/ethabi/src/decoder.rs:65-79 *)
Definition peek_work (data : list byte) (offset : N) : work Word := steps 1 (peek_32_bytes p data offset).
(** /repo/ethabi/src/decoder.rs:81-87: [to_vec] copies *)
Definition take_work (data : list byte) (offset l : N) : work (list byte) :=
  let r := take_bytes p data offset l in steps (1 + match r with Ok b => len b | _ => 0 end) r.
(** [String::from_utf8_lossy], /repo/ethabi/src/decoder.rs:138 *)
Definition lossy_work (bytes : list byte) : work str := steps (len bytes) (Ok (utf8_lossy bytes)).
(** One round of a loop, as [decode_step] *)
Definition decode_step_work (dec : N -> work (Token * N)) (s : list Token * N) : work (list Token * N) :=
  let '(tokens, offset) := s in
  wbind (dec offset) (fun '(token, new_offset) => steps 1 (Ok (token :: tokens, new_offset))).

(** /repo/ethabi/src/decoder.rs:89-216 *)
Fixpoint decode_param_work (t : ParamType) (data : list byte) (offset : N) : work (Token * N) :=
  wbind (steps 1 (Ok tt)) (fun _ =>
  match t with
  | PAddress => wbind (peek_work data offset) (fun w => steps 0 (do o <- usize_add p offset 32; Ok (TAddress (skipn 12 w), o)))
  | PInt _ => wbind (peek_work data offset) (fun w => steps 0 (do o <- usize_add p offset 32; Ok (TInt (of_be w), o)))
  | PUint _ => wbind (peek_work data offset) (fun w => steps 0 (do o <- usize_add p offset 32; Ok (TUint (of_be w), o)))
  | PBool => wbind (peek_work data offset) (fun w => steps 0 (do b <- as_bool w; do o <- usize_add p offset 32; Ok (TBool b, o)))
  | PFixedBytes l => wbind (take_work data offset l) (fun bytes => steps 0 (do o <- usize_add p offset 32; Ok (TFixedBytes bytes, o)))
  | PBytes =>
    wbind (peek_work data offset) (fun w =>
    wbind (steps 0 (as_usize w)) (fun dynamic_offset =>
    wbind (peek_work data dynamic_offset) (fun w =>
    wbind (steps 0 (do l <- as_usize w; do start <- usize_add p dynamic_offset 32; Ok (l, start))) (fun '(l, start) =>
    wbind (take_work data start l) (fun bytes =>
    steps 0 (do o <- usize_add p offset 32; Ok (TBytes bytes, o)))))))
  | PString =>
    wbind (peek_work data offset) (fun w =>
    wbind (steps 0 (as_usize w)) (fun dynamic_offset =>
    wbind (peek_work data dynamic_offset) (fun w =>
    wbind (steps 0 (do l <- as_usize w; do start <- usize_add p dynamic_offset 32; Ok (l, start))) (fun '(l, start) =>
    wbind (take_work data start l) (fun bytes =>
    wbind (lossy_work bytes) (fun text =>
    steps 0 (do o <- usize_add p offset 32; Ok (TString text, o))))))))
  | PArray t' =>
    wbind (peek_work data offset) (fun w =>
    wbind (steps 0 (as_usize w)) (fun len_offset =>
    wbind (peek_work data len_offset) (fun w =>
    wbind (steps 0 (do l <- as_usize w; do tail_offset <- usize_add p len_offset 32; do tl <- slice_from data tail_offset; Ok (l, tl))) (fun '(l, tl) =>
    wbind (iterW (decode_step_work (decode_param_work t' tl)) l ([], 0)) (fun '(tokens, _) =>
    steps 0 (do o <- usize_add p offset 32; Ok (TArray (rev tokens), o)))))))
  | PFixedArray t' l =>
    wbind (type_dynamic_work t) (fun is_dynamic =>
    wbind (if is_dynamic : bool then wbind (peek_work data offset) (fun w => steps 0 (do o <- as_usize w; do tl <- slice_from data o; Ok (tl, 0)))
           else steps 0 (Ok (data, offset))) (fun '(tl, start) =>
    wbind (iterW (decode_step_work (decode_param_work t' tl)) l ([], start)) (fun '(tokens, new_offset) =>
    steps 0 (do o <- (if is_dynamic then usize_add p offset 32 else Ok new_offset); Ok (TFixedArray (rev tokens), o)))))
  | PTuple ts =>
    wbind (type_dynamic_work t) (fun is_dynamic =>
    wbind (if is_dynamic : bool then wbind (peek_work data offset) (fun w => steps 0 (do o <- as_usize w; if len data <? o then Err InvalidData else do tl <- slice_from data o; Ok (tl, 0)))
           else steps 0 (Ok (data, offset))) (fun '(tl, start) =>
    wbind (foldW (fun s t' => decode_step_work (decode_param_work t' tl) s) ts ([], start)) (fun '(tokens, new_offset) =>
    steps 0 (do o <- (if is_dynamic then usize_add p offset 32 else Ok new_offset); Ok (TTuple (rev tokens), o)))))
  end).

(** [types.iter().all(..)] stops at the first type that is not *)
Fixpoint all_empty_work (ts : list ParamType) : work bool :=
  match ts with
  | [] => steps 0 (Ok true)
  | t :: ts' => wbind (steps 1 (Ok (is_empty_bytes_valid_encoding t))) (fun b => if b : bool then all_empty_work ts' else steps 0 (Ok false))
  end.
(** /repo/ethabi/src/decoder.rs:41-63 *)
Definition decode_work (types : list ParamType) (data : list byte) : work (list Token) :=
  wbind (steps 1 (Ok tt)) (fun _ =>
  wbind (all_empty_work types) (fun valid =>
  if negb valid && (len data =? 0) then steps 0 (Err (InvalidName empty_data_msg))
  else
    wbind (foldW (fun s t => decode_step_work (decode_param_work t data) s) types ([], 0)) (fun '(tokens, _) =>
    steps 0 (Ok (rev tokens))))).
End Work.

(** * How deep the calls of the codec are nested

    /repo/ethabi/src/encoder.rs and decoder.rs once more, with the largest
    number of calls that are active at the same time.  Functions of this crate
    count; those of other crates, closures and destructors do not.  [stack A]
    is a result with the calls that were active above the place where it was
    computed. *)
From Verif Require Import Base Utf8 Types Encoder Decoder.
Set Implicit Arguments.
Local Open Scope N_scope.
Local Open Scope list_scope.

(** A result and the number of calls active at once *)
Definition stack (A : Type) : Type := N * res A.
(** no calls *)
Definition leaf {A} (r : res A) : stack A := (0, r).
(** one call, around [s] *)
Definition call {A} (s : stack A) : stack A := (1 + fst s, snd s).
(** one after the other *)
Definition sbind {A B} (r : stack A) (k : A -> stack B) : stack B :=
  match snd r with
  | Ok a => (N.max (fst r) (fst (k a)), snd (k a))
  | Err e => (fst r, Err e)
  | Panic => (fst r, Panic)
  end.
(** [iter.fold(init, f)], as [foldM] *)
Definition foldS {A S} (f : S -> A -> stack S) : list A -> S -> stack S :=
  fix go l s := match l with [] => leaf (Ok s) | x :: l' => sbind (f s x) (go l') end.
(** [iter.map(f).collect()], as [mapM] *)
Definition mapS {A B} (f : A -> stack B) : list A -> stack (list B) :=
  fix go l :=
    match l with
    | [] => leaf (Ok [])
    | x :: l' => sbind (f x) (fun y => sbind (go l') (fun ys => leaf (Ok (y :: ys))))
    end.
(** [for _ in 0..n], as [iter_N] *)
Definition iterS_pos {S} (f : S -> stack S) : positive -> S -> stack S :=
  fix go (p : positive) (s : S) : stack S :=
    match p with
    | xH => f s
    | xO p' => sbind (go p' s) (go p')
    | xI p' => sbind (f s) (fun s' => sbind (go p' s') (go p'))
    end.
(** [for _ in 0..n], as [iter_N] *)
Definition iterS {S} (f : S -> stack S) (n : N) (s : S) : stack S :=
  match n with N0 => leaf (Ok s) | Npos p => iterS_pos f p s end.
(** [iter.any(f)] stops at the first *)
Definition any_stack {A} (f : A -> stack bool) : list A -> stack bool :=
  fix go l := match l with [] => leaf (Ok false) | x :: l' => sbind (f x) (fun b => if b : bool then leaf (Ok true) else go l') end.

Section Stack.
Context (p : profile).
(** ** /repo/ethabi/src/encoder.rs *)
(** /repo/ethabi/src/util.rs:14-18 *)
Definition pad_u32_stack (value : N) : stack Word := call (leaf (Ok (pad_u32 value))).
(** encoder.rs:19-39 *)
Definition pad_fixed_bytes_stack (bytes : list byte) : stack (list Word) := call (leaf (pad_fixed_bytes bytes)).
(** encoder.rs:13-17 *)
Definition pad_bytes_stack (bytes : list byte) : stack (list Word) :=
  call (sbind (pad_u32_stack (as_u32 (len bytes))) (fun w =>
        sbind (pad_fixed_bytes_stack bytes) (fun r => leaf (Ok (w :: r))))).
(** encoder.rs:52-61 *)
Fixpoint head_len_stack (m : Mediate) : stack N :=
  call match m with
       | Raw raw => leaf (u32_mul p 32 (as_u32 (len raw)))
       | RawTuple ms => foldS (fun acc m => sbind (head_len_stack m) (fun h => leaf (u32_add p acc h))) ms 0
       | Prefixed _ | PrefixedArray _ | PrefixedArrayWithLength _ | PrefixedTuple _ => leaf (Ok 32)
       end.
(** encoder.rs:63-73 *)
Fixpoint tail_len_stack (m : Mediate) : stack N :=
  let sum := fun ms init =>
    foldS (fun acc m => sbind (head_len_stack m) (fun h => sbind (leaf (u32_add p acc h)) (fun a =>
                        sbind (tail_len_stack m) (fun t => leaf (u32_add p a t))))) ms init in
  call match m with
       | Raw _ | RawTuple _ => leaf (Ok 0)
       | Prefixed pre => leaf (u32_mul p (as_u32 (len pre)) 32)
       | PrefixedArray ms => sum ms 0
       | PrefixedArrayWithLength ms => sum ms 32
       | PrefixedTuple ms => sum ms 0
       end.
(** encoder.rs:75-84 *)
Fixpoint head_stack (m : Mediate) (suffix_offset : N) : stack (list Word) :=
  call match m with
       | Raw raw => leaf (Ok raw)
       | RawTuple ms => foldS (fun acc m => sbind (head_stack m 0) (fun ws => leaf (Ok (acc ++ ws)))) ms []
       | Prefixed _ | PrefixedArray _ | PrefixedArrayWithLength _ | PrefixedTuple _ =>
         sbind (pad_u32_stack suffix_offset) (fun w => leaf (Ok [w]))
       end.
(** encoder.rs:105-121 *)
Definition encode_head_tail_stack_with (tail : Mediate -> stack (list Word)) (ms : list Mediate) : stack (list Word) :=
  call (
  sbind (foldS (fun acc m => sbind (head_len_stack m) (fun h => leaf (u32_add p acc h))) ms 0) (fun heads_len =>
  sbind (foldS (fun '(acc, offset) m =>
           sbind (head_stack m offset) (fun ws =>
           sbind (tail_len_stack m) (fun t => sbind (leaf (u32_add p offset t)) (fun o =>
           leaf (Ok (acc ++ ws, o)))))) ms ([], heads_len)) (fun '(heads, l) =>
  sbind (leaf (u32_sub p l heads_len)) (fun _ =>
  sbind (foldS (fun acc m => sbind (tail m) (fun t => leaf (Ok (acc ++ t)))) ms []) (fun tails =>
  leaf (Ok (heads ++ tails))))))).
(** encoder.rs:86-102 *)
Fixpoint tail_stack (m : Mediate) : stack (list Word) :=
  call match m with
       | Raw _ | RawTuple _ => leaf (Ok [])
       | PrefixedTuple ms => encode_head_tail_stack_with tail_stack ms
       | Prefixed raw => leaf (Ok raw)
       | PrefixedArray ms => encode_head_tail_stack_with tail_stack ms
       | PrefixedArrayWithLength ms =>
         sbind (encode_head_tail_stack_with tail_stack ms) (fun head_tail =>
         sbind (pad_u32_stack (as_u32 (len ms))) (fun w => leaf (Ok (w :: head_tail))))
       end.
(** encoder.rs:105-121 *)
Definition encode_head_tail_stack : list Mediate -> stack (list Word) := encode_head_tail_stack_with tail_stack.
(** /repo/ethabi/src/token/token.rs:216-223 *)
Fixpoint is_dynamic_stack (v : Token) : stack bool :=
  call match v with
       | TBytes _ | TString _ | TArray _ => leaf (Ok true)
       | TFixedArray vs => any_stack is_dynamic_stack vs
       | TTuple vs => any_stack is_dynamic_stack vs
       | _ => leaf (Ok false)
       end.
(** encoder.rs:130-174 *)
Fixpoint encode_token_stack (v : Token) : stack Mediate :=
  call match v with
       | TAddress a => leaf (do c <- copy_from_slice 20 a; Ok (Raw [zeros 12 ++ c]))
       | TBytes b => sbind (pad_bytes_stack b) (fun ws => leaf (Ok (Prefixed ws)))
       | TString s => sbind (pad_bytes_stack (utf8 s)) (fun ws => leaf (Ok (Prefixed ws)))
       | TFixedBytes b => sbind (pad_fixed_bytes_stack b) (fun ws => leaf (Ok (Raw ws)))
       | TInt n => leaf (Ok (Raw [be_bytes 32 n]))
       | TUint n => leaf (Ok (Raw [be_bytes 32 n]))
       | TBool b => leaf (Ok (Raw [zeros 31 ++ [if b then x01 else x00]]))
       | TArray vs => sbind (mapS encode_token_stack vs) (fun ms => leaf (Ok (PrefixedArrayWithLength ms)))
       | TFixedArray vs =>
         sbind (mapS encode_token_stack vs) (fun ms =>
         sbind (is_dynamic_stack v) (fun d =>
         if d : bool then leaf (Ok (PrefixedArray ms))
         else sbind (encode_head_tail_stack ms) (fun w => leaf (Ok (Raw w)))))
       | TTuple vs =>
         sbind (is_dynamic_stack v) (fun d =>
         sbind (mapS encode_token_stack vs) (fun ms =>
         leaf (Ok (if d : bool then PrefixedTuple ms else RawTuple ms))))
       end.
(** encoder.rs:124-128 *)
Definition encode_stack (tokens : list Token) : stack (list byte) :=
  call (sbind (mapS encode_token_stack tokens) (fun ms =>
        sbind (encode_head_tail_stack ms) (fun ws =>
        leaf (Ok (concat ws))))).

(** ** /repo/ethabi/src/decoder.rs *)
(** /repo/ethabi/src/param_type/param_type.rs:58-65 *)
Fixpoint type_dynamic_stack (t : ParamType) : stack bool :=
  call match t with
       | PBytes | PString | PArray _ => leaf (Ok true)
       | PFixedArray t _ => type_dynamic_stack t
       | PTuple ts => any_stack type_dynamic_stack ts
       | _ => leaf (Ok false)
       end.
(** decoder.rs:65-79: [peek_32_bytes] calls [peek] *)
Definition peek_stack (data : list byte) (offset : N) : stack Word := call (call (leaf (peek_32_bytes p data offset))).
(** decoder.rs:81-87 *)
Definition take_stack (data : list byte) (offset l : N) : stack (list byte) := call (leaf (take_bytes p data offset l)).
(** decoder.rs:18-39 *)
Definition as_usize_stack (w : Word) : stack N := call (leaf (as_usize w)).
(** decoder.rs:32-38 *)
Definition as_bool_stack (w : Word) : stack bool := call (leaf (as_bool w)).
(** One round of a loop, as [decode_step] *)
Definition decode_step_stack (dec : N -> stack (Token * N)) (s : list Token * N) : stack (list Token * N) :=
  let '(tokens, offset) := s in
  sbind (dec offset) (fun '(token, new_offset) => leaf (Ok (token :: tokens, new_offset))).
(** decoder.rs:89-216 *)
Fixpoint decode_param_stack (t : ParamType) (data : list byte) (offset : N) : stack (Token * N) :=
  call match t with
  | PAddress => sbind (peek_stack data offset) (fun w => leaf (do o <- usize_add p offset 32; Ok (TAddress (skipn 12 w), o)))
  | PInt _ => sbind (peek_stack data offset) (fun w => leaf (do o <- usize_add p offset 32; Ok (TInt (of_be w), o)))
  | PUint _ => sbind (peek_stack data offset) (fun w => leaf (do o <- usize_add p offset 32; Ok (TUint (of_be w), o)))
  | PBool => sbind (peek_stack data offset) (fun w => sbind (as_bool_stack w) (fun b => leaf (do o <- usize_add p offset 32; Ok (TBool b, o))))
  | PFixedBytes l => sbind (take_stack data offset l) (fun bytes => leaf (do o <- usize_add p offset 32; Ok (TFixedBytes bytes, o)))
  | PBytes =>
    sbind (peek_stack data offset) (fun w =>
    sbind (as_usize_stack w) (fun dynamic_offset =>
    sbind (peek_stack data dynamic_offset) (fun w =>
    sbind (as_usize_stack w) (fun l =>
    sbind (leaf (usize_add p dynamic_offset 32)) (fun start =>
    sbind (take_stack data start l) (fun bytes =>
    leaf (do o <- usize_add p offset 32; Ok (TBytes bytes, o))))))))
  | PString =>
    sbind (peek_stack data offset) (fun w =>
    sbind (as_usize_stack w) (fun dynamic_offset =>
    sbind (peek_stack data dynamic_offset) (fun w =>
    sbind (as_usize_stack w) (fun l =>
    sbind (leaf (usize_add p dynamic_offset 32)) (fun start =>
    sbind (take_stack data start l) (fun bytes =>
    leaf (do o <- usize_add p offset 32; Ok (TString (utf8_lossy bytes), o))))))))
  | PArray t' =>
    sbind (peek_stack data offset) (fun w =>
    sbind (as_usize_stack w) (fun len_offset =>
    sbind (peek_stack data len_offset) (fun w =>
    sbind (as_usize_stack w) (fun l =>
    sbind (leaf (do tail_offset <- usize_add p len_offset 32; slice_from data tail_offset)) (fun tl =>
    sbind (iterS (decode_step_stack (decode_param_stack t' tl)) l ([], 0)) (fun '(tokens, _) =>
    leaf (do o <- usize_add p offset 32; Ok (TArray (rev tokens), o))))))))
  | PFixedArray t' l =>
    sbind (type_dynamic_stack t) (fun is_dynamic =>
    sbind (if is_dynamic : bool
           then sbind (peek_stack data offset) (fun w => sbind (as_usize_stack w) (fun o => leaf (do tl <- slice_from data o; Ok (tl, 0))))
           else leaf (Ok (data, offset))) (fun '(tl, start) =>
    sbind (iterS (decode_step_stack (decode_param_stack t' tl)) l ([], start)) (fun '(tokens, new_offset) =>
    leaf (do o <- (if is_dynamic then usize_add p offset 32 else Ok new_offset); Ok (TFixedArray (rev tokens), o)))))
  | PTuple ts =>
    sbind (type_dynamic_stack t) (fun is_dynamic =>
    sbind (if is_dynamic : bool
           then sbind (peek_stack data offset) (fun w => sbind (as_usize_stack w) (fun o =>
                leaf (if len data <? o then Err InvalidData else do tl <- slice_from data o; Ok (tl, 0))))
           else leaf (Ok (data, offset))) (fun '(tl, start) =>
    sbind (foldS (fun s t' => decode_step_stack (decode_param_stack t' tl) s) ts ([], start)) (fun '(tokens, new_offset) =>
    leaf (do o <- (if is_dynamic then usize_add p offset 32 else Ok new_offset); Ok (TTuple (rev tokens), o)))))
  end.
(** [types.iter().all(..)]: /repo/ethabi/src/param_type/param_type.rs:48-54 is called *)
Fixpoint all_empty_stack (ts : list ParamType) : stack bool :=
  match ts with
  | [] => leaf (Ok true)
  | t :: ts' => sbind (call (leaf (Ok (is_empty_bytes_valid_encoding t)))) (fun b => if b : bool then all_empty_stack ts' else leaf (Ok false))
  end.
(** decoder.rs:41-63 *)
Definition decode_stack (types : list ParamType) (data : list byte) : stack (list Token) :=
  call (
  sbind (all_empty_stack types) (fun valid =>
  if negb valid && (len data =? 0) then leaf (Err (InvalidName empty_data_msg))
  else
    sbind (foldS (fun s t => decode_step_stack (decode_param_stack t data) s) types ([], 0)) (fun '(tokens, _) =>
    leaf (Ok (rev tokens))))).
End Stack.

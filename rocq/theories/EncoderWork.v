(** * The work of the encoder

    /repo/ethabi/src/encoder.rs once more, with a count of the calls of its
    functions (and of [Token::is_dynamic]) and of the 32-byte words that are
    made or copied into a vector.  A panic ends the count. *)
From Verif Require Import Base Types Encoder.
Set Implicit Arguments.
Local Open Scope N_scope.

(** A result and the number of steps it took *)
Definition work (A : Type) : Type := N * res A.
(** [n] steps that give [r] *)
Definition steps {A} (n : N) (r : res A) : work A := (n, r).
(** One after the other: the steps add up. *)
Definition wbind {A B} (r : work A) (k : A -> work B) : work B :=
  match snd r with
  | Ok a => (fst r + fst (k a), snd (k a))
  | Err e => (fst r, Err e)
  | Panic => (fst r, Panic)
  end.
(** [iter.fold(init, f)], as [foldM] *)
Definition foldW {A S} (f : S -> A -> work S) : list A -> S -> work S :=
  fix go l s := match l with [] => steps 0 (Ok s) | x :: l' => wbind (f s x) (go l') end.
(** [iter.map(f).collect()], as [mapM] *)
Definition mapW {A B} (f : A -> work B) : list A -> work (list B) :=
  fix go l :=
    match l with
    | [] => steps 0 (Ok [])
    | x :: l' => wbind (f x) (fun y => wbind (go l') (fun ys => steps 0 (Ok (y :: ys))))
    end.
(** What words were made, and one step for each. *)
Definition made (r : res (list Word)) : work (list Word) := steps (match r with Ok ws => len ws | _ => 0 end) r.

Section Work.
Context (p : profile).
(** /repo/ethabi/src/encoder.rs:52-61 *)
Fixpoint head_len_work (m : Mediate) : work N :=
  wbind (steps 1 (Ok tt)) (fun _ =>
  match m with
  | Raw raw => steps 0 (u32_mul p 32 (as_u32 (len raw)))
  | RawTuple ms => foldW (fun acc m => wbind (head_len_work m) (fun h => steps 0 (u32_add p acc h))) ms 0
  | Prefixed _ | PrefixedArray _ | PrefixedArrayWithLength _ | PrefixedTuple _ => steps 0 (Ok 32)
  end).
(** /repo/ethabi/src/encoder.rs:63-73 *)
Fixpoint tail_len_work (m : Mediate) : work N :=
  let sum := fun ms init =>
    foldW (fun acc m => wbind (head_len_work m) (fun h => wbind (steps 0 (u32_add p acc h)) (fun a =>
                        wbind (tail_len_work m) (fun t => steps 0 (u32_add p a t))))) ms init in
  wbind (steps 1 (Ok tt)) (fun _ =>
  match m with
  | Raw _ | RawTuple _ => steps 0 (Ok 0)
  | Prefixed pre => steps 0 (u32_mul p (as_u32 (len pre)) 32)
  | PrefixedArray ms => sum ms 0
  | PrefixedArrayWithLength ms => sum ms 32
  | PrefixedTuple ms => sum ms 0
  end).
(** /repo/ethabi/src/encoder.rs:75-84: [clone], [collect] and [vec!] make the
    words of their result. *)
Fixpoint head_work (m : Mediate) (suffix_offset : N) : work (list Word) :=
  wbind (steps 1 (Ok tt)) (fun _ =>
  match m with
  | Raw raw => made (Ok raw)
  | RawTuple ms =>
    foldW (fun acc m => wbind (head_work m 0) (fun ws => steps (len ws) (Ok (acc ++ ws)))) ms []
  | Prefixed _ | PrefixedArray _ | PrefixedArrayWithLength _ | PrefixedTuple _ => made (Ok [pad_u32 suffix_offset])
  end).
(** /repo/ethabi/src/encoder.rs:105-121: [extend] copies the words it is given. *)
Definition encode_head_tail_work_with (tail : Mediate -> work (list Word)) (ms : list Mediate) : work (list Word) :=
  wbind (steps 1 (Ok tt)) (fun _ =>
  wbind (foldW (fun acc m => wbind (head_len_work m) (fun h => steps 0 (u32_add p acc h))) ms 0) (fun heads_len =>
  wbind (foldW (fun '(acc, offset) m =>
           wbind (head_work m offset) (fun ws => wbind (steps (len ws) (Ok tt)) (fun _ =>
           wbind (tail_len_work m) (fun t => wbind (steps 0 (u32_add p offset t)) (fun o =>
           steps 0 (Ok (acc ++ ws, o))))))) ms ([], heads_len)) (fun '(heads, l) =>
  wbind (steps 0 (u32_sub p l heads_len)) (fun _ =>
  wbind (foldW (fun acc m => wbind (tail m) (fun t => steps (len t) (Ok (acc ++ t)))) ms []) (fun tails =>
  steps (len tails) (Ok (heads ++ tails))))))).
(** /repo/ethabi/src/encoder.rs:86-102 *)
Fixpoint tail_work (m : Mediate) : work (list Word) :=
  wbind (steps 1 (Ok tt)) (fun _ =>
  match m with
  | Raw _ | RawTuple _ => steps 0 (Ok [])
  | PrefixedTuple ms => encode_head_tail_work_with tail_work ms
  | Prefixed raw => made (Ok raw)
  | PrefixedArray ms => encode_head_tail_work_with tail_work ms
  | PrefixedArrayWithLength ms =>
    wbind (encode_head_tail_work_with tail_work ms) (fun head_tail => made (Ok (pad_u32 (as_u32 (len ms)) :: head_tail)))
  end).
(** /repo/ethabi/src/encoder.rs:105-121 *)
Definition encode_head_tail_work : list Mediate -> work (list Word) := encode_head_tail_work_with tail_work.

(** /repo/ethabi/src/token/token.rs:216-223: [any] stops at the first *)
Definition any_work (f : Token -> work bool) : list Token -> work bool :=
  fix go vs := match vs with [] => steps 0 (Ok false) | v :: vs' => wbind (f v) (fun b => if b : bool then steps 0 (Ok true) else go vs') end.
(** token.rs:216-223, the number of calls *)
Fixpoint is_dynamic_work (v : Token) : work bool :=
  wbind (steps 1 (Ok tt)) (fun _ =>
  match v with
  | TBytes _ | TString _ | TArray _ => steps 0 (Ok true)
  | TFixedArray vs => any_work is_dynamic_work vs
  | TTuple vs => any_work is_dynamic_work vs
  | _ => steps 0 (Ok false)
  end).
(** /repo/ethabi/src/encoder.rs:130-174; [is_dynamic] is called by the guard
    of the first branch for tuples *)
Fixpoint encode_token_work (v : Token) : work Mediate :=
  wbind (steps 1 (Ok tt)) (fun _ =>
  match v with
  | TAddress a => wbind (made (do c <- copy_from_slice 20 a; Ok [zeros 12 ++ c])) (fun ws => steps 0 (Ok (Raw ws)))
  | TBytes b => wbind (made (pad_bytes b)) (fun ws => steps 0 (Ok (Prefixed ws)))
  | TString s => wbind (made (pad_bytes (utf8 s))) (fun ws => steps 0 (Ok (Prefixed ws)))
  | TFixedBytes b => wbind (made (pad_fixed_bytes b)) (fun ws => steps 0 (Ok (Raw ws)))
  | TInt n => wbind (made (Ok [be_bytes 32 n])) (fun ws => steps 0 (Ok (Raw ws)))
  | TUint n => wbind (made (Ok [be_bytes 32 n])) (fun ws => steps 0 (Ok (Raw ws)))
  | TBool b => wbind (made (Ok [zeros 31 ++ [if b then x01 else x00]])) (fun ws => steps 0 (Ok (Raw ws)))
  | TArray vs => wbind (mapW encode_token_work vs) (fun ms => steps 0 (Ok (PrefixedArrayWithLength ms)))
  | TFixedArray vs =>
    wbind (mapW encode_token_work vs) (fun ms =>
    wbind (is_dynamic_work v) (fun d =>
    if d : bool then steps 0 (Ok (PrefixedArray ms))
    else wbind (encode_head_tail_work ms) (fun w => steps 0 (Ok (Raw w)))))
  | TTuple vs =>
    wbind (is_dynamic_work v) (fun d =>
    wbind (mapW encode_token_work vs) (fun ms =>
    steps 0 (Ok (if d : bool then PrefixedTuple ms else RawTuple ms))))
  end).
(** /repo/ethabi/src/encoder.rs:124-128 *)
Definition encode_work (tokens : list Token) : work (list byte) :=
  wbind (steps 1 (Ok tt)) (fun _ =>
  wbind (mapW encode_token_work tokens) (fun ms =>
  wbind (encode_head_tail_work ms) (fun ws =>
  steps (len ws) (Ok (concat ws))))).
End Work.

(** * How much memory encoding takes: a specification, independent of the model

    In words of 32 bytes, one number for each vector that is asked for. *)
From Verif Require Import Base Types AbiSpec WrapSpec.
Set Implicit Arguments.
Local Open Scope N_scope.

(** Two vectors for a sequence: as many words as the heads have bytes, and as
    many words as the tails have bytes, both modulo 2^32. *)
Definition parts (vs : list Token) : list (bool * list byte) := map (fun v => (dynamic_value v, value32 v)) vs.
Definition for_sequence (vs : list Token) : list N := [heads_size (parts vs) mod 2 ^ 32; len (tails (parts vs)) mod 2 ^ 32].
(** What is asked for when the tail of a value is written: nothing for a value
    without a tail or with a flat one. *)
Fixpoint for_tail (v : Token) : list N :=
  match v with
  | TArray vs => for_sequence vs ++ flat_map for_tail vs
  | TFixedArray vs | TTuple vs => if existsb dynamic_value vs then for_sequence vs ++ flat_map for_tail vs else []
  | _ => []
  end.
(** What is asked for before that: the words of bytes and text, and the
    sequences of fixed arrays without tails. *)
Fixpoint for_token (v : Token) : list N :=
  match v with
  | TBytes b | TFixedBytes b => [(len b + 31) / 32]
  | TString s => [(len (utf8 s) + 31) / 32]
  | TArray vs | TTuple vs => flat_map for_token vs
  | TFixedArray vs => flat_map for_token vs ++ (if existsb dynamic_value vs then [] else for_sequence vs)
  | TAddress _ | TInt _ | TUint _ | TBool _ => []
  end.
Definition reservations (vs : list Token) : list N := flat_map for_token vs ++ for_sequence vs ++ flat_map for_tail vs.

Fixpoint sum (l : list N) : N := match l with [] => 0 | n :: l' => n + sum l' end.
(** How deep sequences are nested. *)
Fixpoint depth (v : Token) : N :=
  match v with
  | TArray vs | TFixedArray vs | TTuple vs => 1 + fold_right (fun v d => N.max (depth v) d) 0 vs
  | _ => 1
  end.

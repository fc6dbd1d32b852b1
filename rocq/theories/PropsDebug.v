(** * The text of [{:?}] for types (C89).
    Every theorem is proved elsewhere and closed here by [exact]. *)
From Verif Require Import Base Types TypeNames TypeNamesSpec FunctionFacts DebugType DebugSpec DebugTypeFacts.
From Coq Require Import String.
Local Open Scope N_scope.
Local Open Scope list_scope.

(** ** C89: the text of a type is the one of Rust's rules, it is another for every
    type, and where it ends in a longer text can be told. *)
Theorem C89_text : forall t s, debug_type t = s <-> shown t s.
Proof. exact debug_rules. Qed.
Print Assumptions C89_text.
Theorem C89_distinct : forall t t', debug_type t = debug_type t' -> t = t'.
Proof. exact debug_inj. Qed.
Print Assumptions C89_distinct.
Theorem C89_prefix : forall t t' r r', debug_type t ++ r = debug_type t' ++ r' -> t = t' /\ r = r'.
Proof. exact debug_prefix. Qed.
Print Assumptions C89_prefix.
(** Two types with the same name in JSON (where the fields of a tuple stand in the
    components), and their texts *)
Example C89_case : let t := PFixedArray (PTuple [PBool; PArray (PUint 8)]) 2 in
  debug_type t = lit "FixedArray(Tuple([Bool, Array(Uint(8))]), 2)" /\ debug_type (PTuple []) = lit "Tuple([])" /\
  write_for_abi t false = write_for_abi (PFixedArray (PTuple []) 2) false /\ debug_type t <> debug_type (PFixedArray (PTuple []) 2).
Proof. repeat split; try reflexivity. vm_compute. discriminate. Qed.
Example C89_text_case : shown (PFixedArray (PTuple [PBool; PArray (PUint 8)]) 2) (lit "FixedArray(Tuple([Bool, Array(Uint(8))]), 2)").
Proof.
  apply (@sh_fixed_array (PTuple [PBool; PArray (PUint 8)]) (lit "Tuple([Bool, Array(Uint(8))])") 2 (lit "2")); [|apply (show_dec_numeral 2)].
  apply (@sh_tuple [PBool; PArray (PUint 8)] [lit "Bool"; lit "Array(Uint(8))"]). constructor; [constructor|]. constructor; [|constructor].
  apply (@sh_array (PUint 8) (lit "Uint(8)")). apply (@sh_uint 8 (lit "8")). apply (show_dec_numeral 8).
Qed.

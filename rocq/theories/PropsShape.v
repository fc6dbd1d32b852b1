(** * Properties: values that do not fit their types (C09, C14, C15, C17, C39) *)
From Verif Require Import Base Types Encoder Decoder Function AbiSpec TypeNamesSpec Keccak ShapeSpec WrapSpec ShapeFacts Samples.
Set Implicit Arguments.
Local Open Scope N_scope.

(** ** C09: for which element types the size of an array is bounded by the
    data. *)
Theorem C09_exact : forall p t, wf_type t = true -> solidity_type t = true ->
  ((forall data vs, fits data -> decode p [PArray t] data = Ok [TArray vs] -> len vs <= len data / 32) <->
   zero_size t = false).
Proof. exact array_bounded_exact. Qed.
Print Assumptions C09_exact.
Example C09_exact_case : let t := PFixedArray (PTuple [PFixedArray (PUint 8) 0]) 5 in
  wf_type t = true /\ solidity_type t = true /\ zero_size t = true /\
  zero_size (PTuple [t; PFixedBytes 3]) = false.
Proof. vm_compute. repeat split. Qed.

(** ** C14: type_check panics exactly on values with too many fields that it
    reaches; with C14_decides this is its result for all values and types. *)
Theorem C14_panics : forall v t, type_check v t = Panic <-> overruns v t.
Proof. exact type_check_panics. Qed.
Print Assumptions C14_panics.
Example C14_panics_case :
  overruns (TArray [TTuple [TBool true]; TTuple [TBool true; TUint 1]]) (PArray (PTuple [PBool])) /\
  type_check (TArray [TTuple [TUint 1]; TTuple [TBool true; TUint 1]]) (PArray (PTuple [PBool])) = Ok false.
Proof.
  split; [|reflexivity]. apply (@over_array [_] _ []); [repeat constructor|]. apply (@over_long [_] _ []). repeat constructor.
Qed.

(** ** C15: the result of encode_input for all arguments whose encoding is
    below 128 GiB; otherwise it is the error of C15_error. *)
Theorem C15_exact : forall p f vs s data, canonical_signature (f_name f) (map p_kind (f_inputs f)) s ->
  forallb wf_token vs = true -> len (encoding32 vs) < 2 ^ 37 ->
  (encode_input p f vs = Ok data <->
   List.length vs = List.length (f_inputs f) /\ loosely_typed (TTuple vs) (PTuple (map p_kind (f_inputs f))) = true /\
   (p = Release \/ len (encoding32 vs) < 2 ^ 32) /\ data = firstn 4 (keccak256 (utf8 s)) ++ encoding32 vs).
Proof. exact encode_input_exact. Qed.
Print Assumptions C15_exact.
Theorem C15_panics : forall p f vs, forallb wf_token vs = true -> len (encoding32 vs) < 2 ^ 37 ->
  (encode_input p f vs = Panic <->
   List.length vs = List.length (f_inputs f) /\
   (overruns (TTuple vs) (PTuple (map p_kind (f_inputs f))) \/
    loosely_typed (TTuple vs) (PTuple (map p_kind (f_inputs f))) = true /\ p = Debug /\ 2 ^ 32 <= len (encoding32 vs))).
Proof. exact encode_input_panics. Qed.
Print Assumptions C15_panics.
Example C15_exact_case : forallb wf_token sample_values = true /\ len (encoding32 sample_values) < 2 ^ 32 /\
  loosely_typed (TTuple sample_values) (PTuple sample_types) = true.
Proof. vm_compute. repeat split. Qed.
Example C15_panics_case : let ts := [PTuple [PBool]; PString] in let vs := [TTuple [TBool true; TBool true]; TString []] in
  forallb wf_token vs = true /\ len (encoding32 vs) < 2 ^ 37 /\ overruns (TTuple vs) (PTuple ts).
Proof.
  repeat split. apply (@over_field [] _ [_] []); [constructor|]. apply (@over_long [_] _ []). repeat constructor.
Qed.

(** ** C17: the same for constructors. *)
Theorem C17_exact : forall p c code vs data, forallb wf_token vs = true -> len (encoding32 vs) < 2 ^ 37 ->
  (constructor_encode_input p c code vs = Ok data <->
   List.length vs = List.length (k_inputs c) /\ loosely_typed (TTuple vs) (PTuple (map p_kind (k_inputs c))) = true /\
   (p = Release \/ len (encoding32 vs) < 2 ^ 32) /\ data = code ++ encoding32 vs).
Proof. exact constructor_exact. Qed.
Print Assumptions C17_exact.
Theorem C17_panics : forall p c code vs, forallb wf_token vs = true -> len (encoding32 vs) < 2 ^ 37 ->
  (constructor_encode_input p c code vs = Panic <->
   List.length vs = List.length (k_inputs c) /\
   (overruns (TTuple vs) (PTuple (map p_kind (k_inputs c))) \/
    loosely_typed (TTuple vs) (PTuple (map p_kind (k_inputs c))) = true /\ p = Debug /\ 2 ^ 32 <= len (encoding32 vs))).
Proof. exact constructor_panics. Qed.
Print Assumptions C17_panics.
(** The error is the only remaining result. *)
Theorem C17_error : forall p c code vs e, constructor_encode_input p c code vs = Err e -> e = InvalidData.
Proof. exact constructor_error. Qed.
Print Assumptions C17_error.
Example C17_exact_case : forall p, let c := mkConstructor [mkParam [] PBool None; mkParam [] (PTuple [PBool]) None] in
  constructor_encode_input p c [Byte.xfe] [TBool true; TTuple [TBool true]] = Ok (Byte.xfe :: word 1 ++ word 1) /\
  constructor_encode_input p c [Byte.xfe] [TBool true; TTuple [TBool true; TBool true]] = Panic /\
  constructor_encode_input p c [Byte.xfe] [TUint 1; TTuple [TBool true; TBool true]] = Err InvalidData.
Proof. intros []; vm_compute; repeat split. Qed.

(** ** C39: what the values of a type show about it. *)
Theorem C39_exact : forall t v, has_type v t = true ->
  token_is_dynamic v = shows_dynamic t /\
  (token_is_dynamic v = ptype_is_dynamic t <-> (dynamic t = true -> shows_dynamic t = true)).
Proof. exact dynamic_both. Qed.
Print Assumptions C39_exact.
Example C39_exact_case : has_type (TTuple [TFixedArray []; TString []]) (PTuple [PFixedArray PString 0; PString]) = true /\
  shows_dynamic (PTuple [PFixedArray PString 0; PString]) = true /\
  shows_dynamic (PTuple [PFixedArray PString 0]) = false.
Proof. vm_compute. repeat split. Qed.

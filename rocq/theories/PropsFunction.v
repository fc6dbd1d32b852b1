(** * Properties of functions, constructors and signatures (C15-C19, C64).
    Every theorem is proved elsewhere and closed here by [exact], or is a
    computed counterexample. *)
From Verif Require Import Base Types AbiSpec DecoderSpec TypeNames TypeNamesSpec Encoder Decoder Keccak KeccakSpec Function FunctionFacts KeccakFacts HashFacts EventInverse Samples.
From Coq Require Import String.
Local Open Scope N_scope.
Local Open Scope list_scope.

(** foo(uint256,string,(bool,bytes)[],bytes3[2],address) returns the same *)
Definition sample_function : Function :=
  mkFunction (lit "foo") (map (fun t => mkParam (lit "x") t None) sample_types)
    (map (fun t => mkParam [] t None) sample_types) false NonPayable.
Definition sample_signature : str := lit "foo(uint256,string,(bool,bytes)[],bytes3[2],address)".

(** ** C15: the call data is the selector followed by the encoding. *)
Theorem C15_call_data : forall p f vs s,
  canonical_signature (f_name f) (map p_kind (f_inputs f)) s ->
  forallb solidity_type (map p_kind (f_inputs f)) = true -> have_types vs (map p_kind (f_inputs f)) = true ->
  forallb short_arrays vs = true -> enc_size (PTuple (map p_kind (f_inputs f))) (TTuple vs) < two32 ->
  encode_input p f vs = Ok (firstn 4 (keccak256 (utf8 s)) ++ abi_encode (map p_kind (f_inputs f)) vs).
Proof. exact encode_input_ok. Qed.
Print Assumptions C15_call_data.
(** Whatever is accepted has the right number of arguments, all of them of
    the right kind, and is selector ++ encode. *)
Theorem C15_accepted : forall p f vs data s,
  canonical_signature (f_name f) (map p_kind (f_inputs f)) s -> encode_input p f vs = Ok data ->
  List.length vs = List.length (f_inputs f) /\
  loosely_typed (TTuple vs) (PTuple (map p_kind (f_inputs f))) = true /\
  exists enc, encode p vs = Ok enc /\ data = firstn 4 (keccak256 (utf8 s)) ++ enc.
Proof. exact encode_input_prefix. Qed.
Print Assumptions C15_accepted.
(** The only error is [InvalidData]. *)
Theorem C15_error : forall p f vs e, encode_input p f vs = Err e -> e = InvalidData.
Proof. exact encode_input_err. Qed.
Print Assumptions C15_error.
(** Ill-typed arguments are rejected.  Missing: arguments that contain a tuple
    with a wrong number of fields or a bytesN of a wrong length, for which
    rejection fails (below). *)
Theorem C15_rejects_partial : forall p f vs, forallb wf_token vs = true ->
  List.length vs <> List.length (f_inputs f) \/ same_shape (TTuple vs) (PTuple (map p_kind (f_inputs f))) = true ->
  have_types vs (map p_kind (f_inputs f)) = false -> encode_input p f vs = Err InvalidData.
Proof. exact encode_input_rejects. Qed.
Print Assumptions C15_rejects_partial.
Example C15_case : canonical_signature (f_name sample_function) (map p_kind (f_inputs sample_function)) sample_signature /\
  have_types sample_values (map p_kind (f_inputs sample_function)) = true /\
  forallb solidity_type (map p_kind (f_inputs sample_function)) = true.
Proof. split; [apply canonical_iff; reflexivity|]. vm_compute. auto. Qed.
Example C15_case_rejected : let ts := map p_kind (f_inputs sample_function) in
  let vs := TBool true :: skipn 1 sample_values in
  forallb wf_token vs = true /\ same_shape (TTuple vs) (PTuple ts) = true /\ have_types vs ts = false.
Proof. vm_compute. auto. Qed.
Definition tuple_function : Function :=
  mkFunction (lit "f") [mkParam (lit "x") (PTuple [PBool; PString]) None] [] false View.
Theorem C15_refuted : forall p,
  have_types [TTuple [TBool true]] (map p_kind (f_inputs tuple_function)) = false /\
  is_ok (encode_input p tuple_function [TTuple [TBool true]]) = true /\
  encode_input p tuple_function [TTuple [TBool true; TString []; TBool true]] = Panic.
Proof. intros p. destruct p; vm_compute; auto. Qed.
Print Assumptions C15_refuted.

(** ** C16: decode_input inverts encode_input, the selector removed. *)
Theorem C16_round_trip : forall p p' f vs,
  forallb wf_type (map p_kind (f_inputs f)) = true ->
  forallb solidity_type (map p_kind (f_inputs f)) = true -> have_types vs (map p_kind (f_inputs f)) = true ->
  forallb short_arrays vs = true -> enc_size (PTuple (map p_kind (f_inputs f))) (TTuple vs) < two32 ->
  forallb zero_size (map p_kind (f_inputs f)) = false \/ f_inputs f = [] ->
  exists data, encode_input p f vs = Ok data /\ decode_input p' f (skipn 4 data) = Ok vs.
Proof. exact decode_input_inverts. Qed.
Print Assumptions C16_round_trip.
Theorem C16_exact : forall p p' f vs,
  forallb wf_type (map p_kind (f_inputs f)) = true ->
  forallb solidity_type (map p_kind (f_inputs f)) = true -> have_types vs (map p_kind (f_inputs f)) = true ->
  forallb short_arrays vs = true -> enc_size (PTuple (map p_kind (f_inputs f))) (TTuple vs) < two32 ->
  exists data, encode_input p f vs = Ok data /\
    (forallb zero_size (map p_kind (f_inputs f)) = false \/ Forall may_be_empty (map p_kind (f_inputs f)) ->
     decode_input p' f (skipn 4 data) = Ok vs) /\
    (forallb zero_size (map p_kind (f_inputs f)) = true -> ~ Forall may_be_empty (map p_kind (f_inputs f)) ->
     len data = 4 /\ decode_input p' f (skipn 4 data) = Err (InvalidName empty_data_msg)).
Proof. exact decode_input_exact. Qed.
Print Assumptions C16_exact.
Example C16_exact_case : let f := mkFunction (lit "f") [mkParam (lit "x") (PTuple []) None] [] false View in
  forallb zero_size (map p_kind (f_inputs f)) = true /\ have_types [TTuple []] (map p_kind (f_inputs f)) = true /\
  (~ Forall may_be_empty (map p_kind (f_inputs f))) /\ is_ok (encode_input Debug f [TTuple []]) = true /\
  decode_input Debug f [] = Err (InvalidName empty_data_msg).
Proof.
  cbv zeta. repeat (split; [reflexivity|]). split; [|split; vm_compute; reflexivity].
  intros F. apply Forall_cons_iff in F as [[F|[u F]] _]; discriminate.
Qed.
Theorem C16_output : forall p' f vs,
  forallb wf_type (map p_kind (f_outputs f)) = true ->
  forallb solidity_type (map p_kind (f_outputs f)) = true -> have_types vs (map p_kind (f_outputs f)) = true ->
  forallb short_arrays vs = true -> enc_size (PTuple (map p_kind (f_outputs f))) (TTuple vs) < two32 ->
  forallb zero_size (map p_kind (f_outputs f)) = false \/ f_outputs f = [] ->
  decode_output p' f (abi_encode (map p_kind (f_outputs f)) vs) = Ok vs.
Proof. exact (decode_output_inverts Debug). Qed.
Print Assumptions C16_output.
Example C16_case : forallb wf_type (map p_kind (f_inputs sample_function)) = true /\
  forallb wf_type (map p_kind (f_outputs sample_function)) = true /\
  forallb zero_size (map p_kind (f_inputs sample_function)) = false /\
  forallb zero_size (map p_kind (f_outputs sample_function)) = false /\
  have_types sample_values (map p_kind (f_outputs sample_function)) = true.
Proof. vm_compute. auto. Qed.
(** Applied to the whole call data, selector included, it does not. *)
Definition uint_function : Function :=
  mkFunction (lit "f") [mkParam (lit "x") (PUint 256) None] [] false View.
Theorem C16_refuted_with_selector : forall p p', exists data,
  encode_input p uint_function [TUint 7] = Ok data /\ decode_input p' uint_function data <> Ok [TUint 7].
Proof.
  intros p p'. eexists. split; [destruct p; vm_compute; reflexivity|]. destruct p'; vm_compute; discriminate.
Qed.
Print Assumptions C16_refuted_with_selector.

(** ** C17: constructor call data. *)
Theorem C17_call_data : forall p c code vs,
  forallb solidity_type (map p_kind (k_inputs c)) = true -> have_types vs (map p_kind (k_inputs c)) = true ->
  forallb short_arrays vs = true -> enc_size (PTuple (map p_kind (k_inputs c))) (TTuple vs) < two32 ->
  constructor_encode_input p c code vs = Ok (code ++ abi_encode (map p_kind (k_inputs c)) vs).
Proof. exact constructor_ok. Qed.
Print Assumptions C17_call_data.
Theorem C17_accepted : forall p c code vs data, constructor_encode_input p c code vs = Ok data ->
  List.length vs = List.length (k_inputs c) /\
  loosely_typed (TTuple vs) (PTuple (map p_kind (k_inputs c))) = true /\
  exists enc, encode p vs = Ok enc /\ data = code ++ enc.
Proof. exact constructor_prefix. Qed.
Print Assumptions C17_accepted.
(** Missing as in C15_rejects_partial. *)
Theorem C17_rejects_partial : forall p c code vs, forallb wf_token vs = true ->
  List.length vs <> List.length (k_inputs c) \/ same_shape (TTuple vs) (PTuple (map p_kind (k_inputs c))) = true ->
  have_types vs (map p_kind (k_inputs c)) = false -> constructor_encode_input p c code vs = Err InvalidData.
Proof. exact constructor_rejects. Qed.
Print Assumptions C17_rejects_partial.
Example C17_case : let c := mkConstructor (f_inputs sample_function) in
  have_types sample_values (map p_kind (k_inputs c)) = true /\ forallb solidity_type (map p_kind (k_inputs c)) = true /\
  have_types [] (map p_kind (k_inputs c)) = false.
Proof. vm_compute. auto. Qed.
Theorem C17_refuted : forall p code,
  constructor_encode_input p (mkConstructor (f_inputs tuple_function)) code [TTuple [TBool true; TString []; TBool true]] = Panic.
Proof. intros p code. destruct p; vm_compute; auto. Qed.
Print Assumptions C17_refuted.

(** ** C18: signature() identifies name, inputs and outputs. *)
Theorem C18_unique : forall f g, plain_name (f_name f) = true -> plain_name (f_name g) = true ->
  signature f = signature g ->
  f_name f = f_name g /\ map p_kind (f_inputs f) = map p_kind (f_inputs g) /\ map p_kind (f_outputs f) = map p_kind (f_outputs g).
Proof. exact signature_unique. Qed.
Print Assumptions C18_unique.
Example C18_case : plain_name (f_name sample_function) = true /\ signature sample_function =
  lit "foo(uint256,string,(bool,bytes)[],bytes3[2],address):(uint256,string,(bool,bytes)[],bytes3[2],address)".
Proof. vm_compute. auto. Qed.
(** The condition on names is needed (a name built by hand, not loaded). *)
Theorem C18_refuted_paren : let f := mkFunction (lit "a") [] [mkParam [] (PTuple []) None] false View in
  let g := mkFunction (lit "a():") [mkParam [] (PTuple []) None] [] false View in
  signature f = signature g /\ f_name f <> f_name g.
Proof. vm_compute. split; [reflexivity|discriminate]. Qed.
Print Assumptions C18_refuted_paren.

(** ** C19: selectors and topics hash the canonical signature. *)
Theorem C19_selector : forall name ts s h, canonical_signature name ts s -> is_keccak256 (utf8 s) h ->
  short_signature name ts = Ok (firstn 4 h).
Proof. exact short_signature_standard. Qed.
Print Assumptions C19_selector.
Theorem C19_topic : forall name ts s h, canonical_signature name ts s -> is_keccak256 (utf8 s) h ->
  long_signature name ts = Ok h.
Proof. exact long_signature_standard. Qed.
Print Assumptions C19_topic.
(** Every name and type list has exactly one canonical signature, and for
    plain names the canonical signature determines both. *)
Theorem C19_canonical : forall name ts, exists s, canonical_signature name ts s /\
  (forall s', canonical_signature name ts s' -> s' = s) /\
  (forall name' ts', plain_name name = true -> plain_name name' = true ->
     canonical_signature name' ts' s -> name' = name /\ ts' = ts).
Proof. exact canonical_unique. Qed.
Print Assumptions C19_canonical.
(** /repo/ethabi/src/signature.rs:43, /repo/ethabi/src/function.rs:114 *)
Example C19_case : short_signature (lit "baz") [PUint 32; PBool] = Ok [xcd; xcd; x77; xc0].
Proof. vm_compute. reflexivity. Qed.
Example C19_case_topic : match long_signature (lit "Transfer") [PAddress; PAddress; PUint 256] with
  | Ok h => hex_encode h = lit "ddf252ad1be2c89b69c2b068fc378daa952ba7f163c4a11628f55a4df523b3ef" | _ => False end.
Proof. vm_compute. reflexivity. Qed.

(** ** C64: the hash is the standard's Keccak-256, on all messages. *)
Theorem C64_keccak : forall m h, is_keccak256 m h <-> keccak256 m = h.
Proof. exact keccak256_iff. Qed.
Print Assumptions C64_keccak.
(** The standard's test vectors, around the block size of 136 bytes. *)
Example C64_vectors :
  hex_encode (keccak256 []) = lit "c5d2460186f7233c927e7db2dcc703c0e500b653ca82273b7bfad8045d85a470" /\
  hex_encode (keccak256 (repeat x61 135)) = lit "34367dc248bbd832f4e3e69dfaac2f92638bd0bbd18f2912ba4ef454919cf446" /\
  hex_encode (keccak256 (repeat x61 136)) = lit "a6c4d403279fe3e0af03729caada8374b5ca54d8065329a3ebcaeb4b60aa386e" /\
  hex_encode (keccak256 (repeat x61 200)) = lit "96ea54061def936c4be90b518992fdc6f12f535068a256229aca54267b4d084d".
Proof. vm_compute. repeat split. Qed.

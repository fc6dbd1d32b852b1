(** * Theorems: the text that the derive macro generates *)
From Verif Require Import Base Types AbiSpec TypeNames TypeNamesSpec Keccak Encoder Decoder Function Event EventSpec EventFacts Contract
  Heck Derive DeriveSpec DeriveSamples Samples RustSyntax Quote DeriveText DeriveTree RustEval GeneratedSpec DeriveGenerated DeriveWritten PropsDerive.
From Coq Require Import String.
Local Open Scope N_scope.
Local Open Scope list_scope.

(** ** C69: the generated text. *)
(** There is a text exactly for contracts whose names become identifiers and
    whose types contain no tuples; otherwise the macro panics. *)
Theorem C69_written : forall c fs es,
  ((exists text, contract_text c fs es = Ok text) <->
   (forall k, c_constructor c = Some k -> writable_constructor k) /\ Forall writable_function (iterate fs) /\ Forall writable_event (iterate es)) /\
  ((forall text, contract_text c fs es <> Ok text) -> contract_text c fs es = Panic).
Proof. exact text_written. Qed.
Print Assumptions C69_written.
(** Run, the text does what C45 and C59 to C61 say of the interface: the
    modules, functions and structs are there, under these names, with these
    signatures, and every call of them returns what the interface says. *)
Theorem C69_runs : forall p c fs es d, derive_contract p c fs es = Ok d ->
  exists items, contract_tree c fs es = Ok items /\ contract_text c fs es = Ok (wr_items items) /\ contract_code p d items.
Proof. exact contract_generated. Qed.
Print Assumptions C69_runs.
Example C69_case : is_ok (derive_contract Debug (mkContract (Some derive_c) [] [] false false)
    [(lit "setNames", [derive_f])] [(lit "NamesSet", [derive_e (lit "NamesSet")])]) = true /\
  is_ok (contract_text (mkContract (Some derive_c) [] [] false false) [(lit "setNames", [derive_f])] [(lit "NamesSet", [derive_e (lit "NamesSet")])]) = true.
Proof. vm_compute. auto. Qed.
(** A text is refused by the compiler exactly for the contracts that C62 does
    not list: it has a module or a struct with a keyword for a name, two
    items of the same name, a struct that is none, or a function that gets
    nowhere whatever it is given. *)
Theorem C69_refused : forall p c fs es text, contract_text c fs es = Ok text ->
  exists items, text = wr_items items /\ ((exists d, derive_contract p c fs es = Ok d) <-> ~ refused_code p items).
Proof. exact text_decided. Qed.
Print Assumptions C69_refused.
Example C69_refused_case :
  is_ok (contract_text default_contract [(lit "set", [typed_f (lit "function")])] []) = true /\
  is_ok (derive_contract Debug default_contract [(lit "set", [typed_f (lit "function")])] []) = false /\
  is_ok (contract_text default_contract [(lit "set", [typed_f (lit "kind")])] []) = true /\
  is_ok (derive_contract Debug default_contract [(lit "set", [typed_f (lit "kind")])] []) = true /\
  contract_text default_contract [(lit "set", [typed_f (lit "1")])] [] = Panic.
Proof. vm_compute. auto 10. Qed.
(** Together: the text of the module of a function, run on arguments that
    stand for values, returns the call data of the Solidity ABI. *)
Theorem C69_encode_input : forall p f d args xs s, derive_function p f = Ok d -> Forall3 argument (map p_kind (f_inputs f)) args xs ->
  canonical_signature (f_name f) (map p_kind (f_inputs f)) s -> forallb solidity_type (map p_kind (f_inputs f)) = true -> forallb short_arrays xs = true ->
  enc_size (PTuple (map p_kind (f_inputs f))) (TTuple xs) < two32 ->
  exists m items, function_text f = Ok (wr_item (IMod None m items)) /\
    forall n, call p (S (S n)) items [lit "encode_input"] (map inj args) = Done (VBytes (firstn 4 (keccak256 (utf8 s)) ++ abi_encode (map p_kind (f_inputs f)) xs)).
Proof. exact generated_encode. Qed.
Print Assumptions C69_encode_input.
Example C69_encode_input_case : is_ok (derive_function Debug derive_f) = true /\ Forall3 argument (map p_kind (f_inputs derive_f)) derive_args derive_values /\
  canonical_signature (f_name derive_f) (map p_kind (f_inputs derive_f)) (lit "setNames(address,bytes32[2],uint256[])").
Proof. exact (let '(conj a (conj _ (conj b (conj c _)))) := C45_encode_case in conj a (conj b c)). Qed.
Theorem C69_decode_output : forall p f d vs xs data, derive_function p f = Ok d -> f_outputs f <> [] ->
  Forall3 denotes (map p_kind (f_outputs f)) vs xs -> decode p (map p_kind (f_outputs f)) data = Ok xs ->
  exists m items, function_text f = Ok (wr_item (IMod None m items)) /\
    forall n, call p (S (S n)) items [lit "decode_output"] [VBytes data] = Done (VOk (results vs)).
Proof. exact generated_decode. Qed.
Print Assumptions C69_decode_output.
(** The text of the module of an event, run on an emitted log, returns the
    struct with its values. *)
Theorem C69_parse_log : forall p e d xs log vs, derive_event p e = Ok d -> camel (e_name e) \/ e_anonymous e = true -> emits e xs log ->
  have_types xs (map ep_kind (e_inputs e)) = true -> NoDup (map ep_name (e_inputs e)) ->
  forallb wf_type (map ep_kind (e_inputs e)) = true -> forallb solidity_type (map ep_kind (e_inputs e)) = true ->
  forallb short_arrays xs = true -> len (e_inputs e) < 2 ^ 56 ->
  enc_size (PTuple (map ep_kind (isel false (e_inputs e)))) (TTuple (values_of (select false (e_inputs e) xs))) < two32 ->
  forallb value_type (map ep_kind (isel true (e_inputs e))) = true -> Forall3 denotes (map ep_kind (e_inputs e)) vs xs ->
  exists m items names, event_text e = Ok (wr_item (IMod None m items)) /\ DeriveSpec.named field_name (e_inputs e) names /\
    forall n, call p (S (S n)) items [lit "parse_log"] [VRawLog log] =
      Done (VOk (VRecord (segments ["super"; "super"; "logs"]%string ++ [to_camel_case (e_name e)]) (combine names (map inj vs)))).
Proof. exact generated_parse. Qed.
Print Assumptions C69_parse_log.
(** The hypotheses of C69_decode_output and C69_parse_log are those
    of C45_decode_case and C59_case. *)
Example C69_decode_case : is_ok (derive_function Debug derive_f) = true /\ f_outputs derive_f <> [] /\
  Forall3 denotes (map p_kind (f_outputs derive_f)) derive_results derive_outputs /\
  decode Debug (map p_kind (f_outputs derive_f)) (abi_encode (map p_kind (f_outputs derive_f)) derive_outputs) = Ok derive_outputs.
Proof. split; [ vm_compute; reflexivity | ]. split; [ discriminate | ]. split; [ exact derive_results_ok | vm_compute; reflexivity ]. Qed.

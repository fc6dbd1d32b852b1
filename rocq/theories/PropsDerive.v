(** * Theorems: derived interfaces *)
From Verif Require Import Base Types AbiSpec DecoderSpec TypeNames TypeNamesSpec Encoder Decoder DecoderProps CodecLemmas Keccak Function FunctionFacts Event EventSpec EventFacts Json Contract
  Heck HeckFacts Derive DeriveSpec DeriveFacts DeriveCalls DeriveEvents DeriveAccepts DeriveSamples DeriveAny Samples.
From Coq Require Import String.
Local Open Scope N_scope.
Local Open Scope list_scope.

(** ** C45: the generated conversions are inverse. *)
(** For every type without fixed-size arrays and tuples, which are those that
    results and event fields may have (C62). *)
Theorem C45_inverse : forall t, plain_type t = true -> exists f g y, to_token t = Ok f /\ from_token t = Ok g /\ rust_type t = Ok y /\
  (forall v, of_type y v -> exists x, has_type x t = true /\ f v = Ok x /\ g x = Ok v) /\
  (forall x, has_type x t = true -> exists v, of_type y v /\ g x = Ok v /\ f v = Ok x) /\
  (forall v x, denotes t v x -> f v = Ok x /\ g x = Ok v).
Proof. exact conversions. Qed.
Print Assumptions C45_inverse.
Example C45_inverse_case : plain_type (PArray (PArray (PFixedBytes 3))) = true /\
  of_type (YVec (YVec (YByteArray 3))) (RVec [RVec [RByteArray [x01; x02; x03]]; RVec []]).
Proof. split; [reflexivity|]. exact of_type_sample. Qed.
(** A conversion from a token yields a value only if the token stands for it,
    and panics on all other tokens, such as those of another type. *)
Theorem C45_converts_only : forall t, plain_type t = true -> exists g, from_token t = Ok g /\ forall x, wf_token x = true ->
  (forall v, g x = Ok v <-> denotes t v x) /\ ((forall v, ~ denotes t v x) -> g x = Panic).
Proof. exact from_token_only. Qed.
Print Assumptions C45_converts_only.
Example C45_converts_only_case : plain_type (PInt 8) = true /\ wf_token (TUint 5) = true /\ (forall v, ~ denotes (PInt 8) v (TUint 5)) /\
  denotes (PInt 8) (RInt 5) (TInt 5).
Proof. split; [reflexivity|]. split; [reflexivity|]. split; [intros v (n & _ & _ & E); discriminate|]. exists 5. repeat split. Qed.
(** What the bounds of the generated signature admit are exactly the Rust
    values that stand for values of the types of the file. *)
Theorem C45_arguments : forall p f d args, derive_function p f = Ok d ->
  (Forall2 meets (df_bounds d) args <-> exists xs, Forall3 argument (map p_kind (f_inputs f)) args xs).
Proof. exact derived_arguments. Qed.
Print Assumptions C45_arguments.
(** The generated encode_input: selector, then the encoding of the values the
    arguments stand for. *)
Theorem C45_encode_input_partial : forall p f d args xs s, derive_function p f = Ok d ->
  Forall3 argument (map p_kind (f_inputs f)) args xs ->
  canonical_signature (f_name f) (map p_kind (f_inputs f)) s ->
  forallb solidity_type (map p_kind (f_inputs f)) = true -> forallb short_arrays xs = true ->
  enc_size (PTuple (map p_kind (f_inputs f))) (TTuple xs) < two32 ->
  df_encode_input d args = Ok (firstn 4 (keccak256 (utf8 s)) ++ abi_encode (map p_kind (f_inputs f)) xs).
Proof. exact derived_encode. Qed.
Print Assumptions C45_encode_input_partial.
(** In an optimised build it never hits its expect(), for any size. *)
Theorem C45_never_expects : forall f d args, derive_function Release f = Ok d -> Forall2 meets (df_bounds d) args ->
  exists data, df_encode_input d args = Ok data.
Proof. exact derived_encode_release. Qed.
Print Assumptions C45_never_expects.
Example C45_encode_case : is_ok (derive_function Debug derive_f) = true /\ is_ok (derive_function Release derive_f) = true /\
  Forall3 argument (map p_kind (f_inputs derive_f)) derive_args derive_values /\
  canonical_signature (f_name derive_f) (map p_kind (f_inputs derive_f)) (lit "setNames(address,bytes32[2],uint256[])") /\
  forallb solidity_type (map p_kind (f_inputs derive_f)) = true /\ forallb short_arrays derive_values = true /\
  enc_size (PTuple (map p_kind (f_inputs derive_f))) (TTuple derive_values) < two32.
Proof.
  split; [vm_compute; reflexivity|]. split; [vm_compute; reflexivity|]. split; [exact derive_args_ok|].
  split; [apply canonical_iff; reflexivity|]. vm_compute. auto.
Qed.
(** The generated constructor: code, then the encoding of the values. *)
Theorem C45_constructor_partial : forall p c d code args xs, derive_constructor p c = Ok d ->
  Forall3 argument (map p_kind (k_inputs c)) args xs ->
  forallb solidity_type (map p_kind (k_inputs c)) = true -> forallb short_arrays xs = true ->
  enc_size (PTuple (map p_kind (k_inputs c))) (TTuple xs) < two32 ->
  dk_encode d code args = Ok (code ++ abi_encode (map p_kind (k_inputs c)) xs).
Proof. exact derived_constructor. Qed.
Print Assumptions C45_constructor_partial.
Theorem C45_constructor_never_expects : forall c d code args, derive_constructor Release c = Ok d -> Forall2 meets (dk_bounds d) args ->
  exists data, dk_encode d code args = Ok data.
Proof. exact derived_constructor_release. Qed.
Print Assumptions C45_constructor_never_expects.
Example C45_constructor_case : is_ok (derive_constructor Debug derive_c) = true /\ is_ok (derive_constructor Release derive_c) = true /\
  Forall3 argument (map p_kind (k_inputs derive_c)) derive_args derive_values.
Proof. split; [vm_compute; reflexivity|]. split; [vm_compute; reflexivity|]. exact derive_args_ok. Qed.
(** The generated decode_output returns the Rust values that stand for the
    decoded ones; it panics, or fails, only if the decoder does. *)
Theorem C45_decode_output : forall p f d vs xs, derive_function p f = Ok d -> f_outputs f <> [] ->
  Forall3 denotes (map p_kind (f_outputs f)) vs xs -> forall data, decode p (map p_kind (f_outputs f)) data = Ok xs ->
  df_decode_output d data = Ok vs.
Proof. exact derived_decode. Qed.
Print Assumptions C45_decode_output.
Theorem C45_decode_fails : forall p f d data, derive_function p f = Ok d -> forallb wf_type (map p_kind (f_outputs f)) = true -> fits data ->
  (df_decode_output d data = Panic <-> f_outputs f <> [] /\ decode p (map p_kind (f_outputs f)) data = Panic) /\
  (forall e, df_decode_output d data = Err e <-> f_outputs f <> [] /\ decode p (map p_kind (f_outputs f)) data = Err e).
Proof. exact derived_decode_panic. Qed.
Print Assumptions C45_decode_fails.
Example C45_decode_case : is_ok (derive_function Debug derive_f) = true /\
  Forall3 denotes (map p_kind (f_outputs derive_f)) derive_results derive_outputs /\
  decode Debug (map p_kind (f_outputs derive_f)) (abi_encode (map p_kind (f_outputs derive_f)) derive_outputs) = Ok derive_outputs /\
  forallb wf_type (map p_kind (f_outputs derive_f)) = true.
Proof. split; [vm_compute; reflexivity|]. split; [exact derive_results_ok|]. vm_compute. auto. Qed.

(** ** C46: derived events keep their identity. *)
(** The inputs are always kept; the name, and with it the signature, exactly
    if it is in CamelCase. *)
Theorem C46_inputs : forall p e d, derive_event p e = Ok d -> e_inputs (de_event d) = e_inputs e /\ e_anonymous (de_event d) = e_anonymous e.
Proof. exact derived_event_kinds. Qed.
Print Assumptions C46_inputs.
Theorem C46_identity_partial : forall p e d, derive_event p e = Ok d -> (de_event d = e <-> camel (e_name e)).
Proof. exact derived_event_same. Qed.
Print Assumptions C46_identity_partial.
Theorem C46_signature_partial : forall p e d s s', derive_event p e = Ok d ->
  canonical_signature (e_name e) (map ep_kind (e_inputs e)) s ->
  canonical_signature (e_name (de_event d)) (map ep_kind (e_inputs (de_event d))) s' ->
  (s' = s <-> camel (e_name e)).
Proof. exact derived_signature. Qed.
Print Assumptions C46_signature_partial.
(** Logs of an event whose signature changed are refused. *)
Theorem C46_refuses : forall p e d vs log s s', derive_event p e = Ok d -> e_anonymous e = false -> emits e vs log ->
  canonical_signature (e_name e) (map ep_kind (e_inputs e)) s ->
  canonical_signature (e_name (de_event d)) (map ep_kind (e_inputs (de_event d))) s' ->
  keccak256 (utf8 s') <> keccak256 (utf8 s) -> de_parse_log d log = Err InvalidData.
Proof. exact derived_rejects. Qed.
Print Assumptions C46_refuses.
Theorem C46_refuted : forall p, exists e d vs log, derive_event p e = Ok d /\ emits e vs log /\ have_types vs (map ep_kind (e_inputs e)) = true /\
  is_ok (parse_log p e log) = true /\ event_signature (de_event d) <> event_signature e /\ de_parse_log d log = Err InvalidData.
Proof. exact camel_refused. Qed.
Print Assumptions C46_refuted.
Example C46_case : is_ok (derive_event Debug (derive_e (lit "NamesSet"))) = true /\ is_ok (derive_event Debug (derive_e (lit "namesSet"))) = true /\
  camel (lit "NamesSet") /\ ~ camel (lit "namesSet") /\ emits (derive_e (lit "namesSet")) derive_inputs (derive_log (lit "namesSet")).
Proof.
  split; [vm_compute; reflexivity|]. split; [vm_compute; reflexivity|]. split; [exact camel_sample|]. split; [exact not_camel_sample|]. apply derive_emits.
Qed.

(** ** C59: the generated parse_log. *)
(** It returns the Rust values that stand for the values of the inputs.
    Missing: names that are not in CamelCase (C46), indexed inputs that are
    hashed (C59_panics), and the limits of C28. *)
Theorem C59_values_partial : forall p e d xs log, derive_event p e = Ok d -> camel (e_name e) \/ e_anonymous e = true -> emits e xs log ->
  have_types xs (map ep_kind (e_inputs e)) = true -> NoDup (map ep_name (e_inputs e)) ->
  forallb wf_type (map ep_kind (e_inputs e)) = true -> forallb solidity_type (map ep_kind (e_inputs e)) = true ->
  forallb short_arrays xs = true -> len (e_inputs e) < 2 ^ 56 ->
  enc_size (PTuple (map ep_kind (isel false (e_inputs e)))) (TTuple (values_of (select false (e_inputs e) xs))) < two32 ->
  forall vs, forallb value_type (map ep_kind (isel true (e_inputs e))) = true ->
  Forall3 denotes (map ep_kind (e_inputs e)) vs xs -> de_parse_log d log = Ok vs.
Proof. exact derived_values. Qed.
Print Assumptions C59_values_partial.
Example C59_case : let e := derive_e (lit "NamesSet") in
  is_ok (derive_event Release e) = true /\ camel (e_name e) /\ emits e derive_inputs (derive_log (lit "NamesSet")) /\
  have_types derive_inputs (map ep_kind (e_inputs e)) = true /\ NoDup (map ep_name (e_inputs e)) /\
  Forall3 denotes (map ep_kind (e_inputs e)) derive_fields derive_inputs /\
  forallb wf_type (map ep_kind (e_inputs e)) = true /\ forallb solidity_type (map ep_kind (e_inputs e)) = true /\
  forallb short_arrays derive_inputs = true /\ len (e_inputs e) < 2 ^ 56 /\
  enc_size (PTuple (map ep_kind (isel false (e_inputs e)))) (TTuple (values_of (select false (e_inputs e) derive_inputs))) < two32 /\
  forallb value_type (map ep_kind (isel true (e_inputs e))) = true.
Proof.
  intros e. split; [vm_compute; reflexivity|]. split; [exact camel_sample|]. split; [apply derive_emits|]. split; [vm_compute; reflexivity|].
  split; [repeat constructor; cbn; intuition discriminate|]. split; [exact derive_fields_ok|]. vm_compute. auto 10.
Qed.
(** With an indexed string, bytes or array it always panics. *)
Theorem C59_panics : forall p e d xs log, derive_event p e = Ok d -> camel (e_name e) \/ e_anonymous e = true -> emits e xs log ->
  have_types xs (map ep_kind (e_inputs e)) = true -> NoDup (map ep_name (e_inputs e)) ->
  forallb wf_type (map ep_kind (e_inputs e)) = true -> forallb solidity_type (map ep_kind (e_inputs e)) = true ->
  forallb short_arrays xs = true -> len (e_inputs e) < 2 ^ 56 ->
  enc_size (PTuple (map ep_kind (isel false (e_inputs e)))) (TTuple (values_of (select false (e_inputs e) xs))) < two32 ->
  forallb value_type (map ep_kind (isel true (e_inputs e))) = false -> de_parse_log d log = Panic.
Proof. exact derived_panics. Qed.
Print Assumptions C59_panics.
Theorem C59_refuted : forall p, exists e d vs log, derive_event p e = Ok d /\ de_event d = e /\ emits e vs log /\
  have_types vs (map ep_kind (e_inputs e)) = true /\ is_ok (parse_log p e log) = true /\ de_parse_log d log = Panic.
Proof. exact hashed_panics. Qed.
Print Assumptions C59_refuted.

(** All logs: the fields are the Rust values that stand for the values found
    for the inputs, where inputs that share a name, such as unnamed ones, are
    all given the value of the last of them. *)
Theorem C59_exact : forall p e d log s, derive_event p e = Ok d ->
  canonical_signature (e_name (de_event d)) (map ep_kind (e_inputs e)) s ->
  forallb wf_type (map ep_kind (e_inputs e)) = true -> forallb topic_sized (map ep_kind (isel true (e_inputs e))) = true ->
  Forall (fun w => len w = 32) (rl_topics log) -> len (rl_topics log) < 2 ^ 57 -> fits (rl_data log) ->
  forall vs, de_parse_log d log = Ok vs <-> exists ys,
    (exists topics ts ds next, rl_topics log = topics_prefix (de_event d) s ++ topics /\
      topics_read (map ep_kind (isel true (e_inputs e))) topics ts /\
      (rl_data log <> [] \/ Forall may_be_empty (map ep_kind (isel false (e_inputs e)))) /\
      reads_seq (rl_data log) (map ep_kind (isel false (e_inputs e))) 0 ds next /\
      Forall2 (last_named (EventSpec.named true (e_inputs e) ts ++ EventSpec.named false (e_inputs e) ds)) (map ep_name (e_inputs e)) ys) /\
    Forall3 denotes (map ep_kind (e_inputs e)) vs ys.
Proof. exact derived_any. Qed.
Print Assumptions C59_exact.
(** It panics exactly if values are found that do not fit the fields. *)
Theorem C59_exact_panics : forall p e d log s, derive_event p e = Ok d ->
  canonical_signature (e_name (de_event d)) (map ep_kind (e_inputs e)) s ->
  forallb wf_type (map ep_kind (e_inputs e)) = true -> forallb topic_sized (map ep_kind (isel true (e_inputs e))) = true ->
  Forall (fun w => len w = 32) (rl_topics log) -> len (rl_topics log) < 2 ^ 57 -> fits (rl_data log) ->
  forallb fixed_bytes_sane (map ep_kind (e_inputs e)) = true ->
  (de_parse_log d log = Panic <-> exists ys,
    (exists topics ts ds next, rl_topics log = topics_prefix (de_event d) s ++ topics /\
      topics_read (map ep_kind (isel true (e_inputs e))) topics ts /\
      (rl_data log <> [] \/ Forall may_be_empty (map ep_kind (isel false (e_inputs e)))) /\
      reads_seq (rl_data log) (map ep_kind (isel false (e_inputs e))) 0 ds next /\
      Forall2 (last_named (EventSpec.named true (e_inputs e) ts ++ EventSpec.named false (e_inputs e) ds)) (map ep_name (e_inputs e)) ys) /\
    forall vs, ~ Forall3 denotes (map ep_kind (e_inputs e)) vs ys).
Proof. exact derived_any_panics. Qed.
Print Assumptions C59_exact_panics.
Definition nameless_event (k : ParamType) : Event := mkEvent (lit "E") [mkEventParam [] (PUint 256) true; mkEventParam [] k false] true.
Definition nameless_log : RawLog := mkRawLog [word 1] (word 2).
Example C59_exact_case : forall p, forallb wf_type (map ep_kind (e_inputs (nameless_event (PUint 8)))) = true /\
  forallb topic_sized (map ep_kind (isel true (e_inputs (nameless_event (PUint 8))))) = true /\
  forallb (fun w => len w =? 32) (rl_topics nameless_log) = true /\ len (rl_topics nameless_log) < 2 ^ 57 /\ fits (rl_data nameless_log) /\
  forallb fixed_bytes_sane (map ep_kind (e_inputs (nameless_event (PUint 8)))) = true /\
  (do d <- derive_event p (nameless_event (PUint 8)); de_parse_log d nameless_log) = Ok [RUint 2; RUint 2] /\
  is_ok (derive_event p (nameless_event (PFixedBytes 1))) = true /\
  (do d <- derive_event p (nameless_event (PFixedBytes 1)); de_parse_log d nameless_log) = Panic.
Proof. intros []; vm_compute; auto 10. Qed.

(** ** C60: the generated filters. *)
(** Arguments that the generated signature admits never hit the expect(), in
    an optimised build. *)
Theorem C60_never_expects : forall e d args, derive_event Release e = Ok d -> Forall2 topic_of_type (de_topic_types d) args ->
  exists f, de_filter d args = Ok f.
Proof. exact derived_filter_release. Qed.
Print Assumptions C60_never_expects.
(** The wildcard filter asks for the signature only. *)
Theorem C60_wildcard : forall p e d, derive_event p e = Ok d -> exists f, de_wildcard_filter d = Ok f /\
  topic1 f = Any /\ topic2 f = Any /\ topic3 f = Any /\
  (if e_anonymous e then topic0 f = Any
   else exists s, canonical_signature (e_name (de_event d)) (map ep_kind (e_inputs (de_event d))) s /\ topic0 f = This (keccak256 (utf8 s))).
Proof. exact derived_wildcard. Qed.
Print Assumptions C60_wildcard.
(** A filter matches a log exactly if the alternatives given for the first
    three indexed inputs include its values.  Missing: indexed inputs that
    are hashed (C30), further indexed inputs (C60_refuted). *)
Theorem C60_matches_partial : forall p e d args ts f xs log, derive_event p e = Ok d ->
  Forall3 topic_denotes (map ep_kind (isel true (e_inputs e))) args ts ->
  emits (de_event d) xs log -> have_types xs (map ep_kind (e_inputs e)) = true -> forallb solidity_type (map ep_kind (e_inputs e)) = true ->
  forallb value_type (map ep_kind (isel true (e_inputs e))) = true -> de_filter d args = Ok f ->
  (filter_matches f (rl_topics log) <->
   forall i t v, (i < 3)%nat -> nth_error ts i = Some t -> nth_error (values_of (select true (e_inputs e) xs)) i = Some v -> topic_matches t (Some v)).
Proof. exact derived_matches. Qed.
Print Assumptions C60_matches_partial.
Example C60_case : let e := derive_e (lit "NamesSet") in
  is_ok (derive_event Release e) = true /\ Forall3 topic_denotes (map ep_kind (isel true (e_inputs e))) derive_topics derive_tokens /\
  emits e derive_inputs (derive_log (lit "NamesSet")) /\ have_types derive_inputs (map ep_kind (e_inputs e)) = true /\
  forallb solidity_type (map ep_kind (e_inputs e)) = true /\ forallb value_type (map ep_kind (isel true (e_inputs e))) = true /\
  match derive_event Release e with Ok d => is_ok (de_filter d derive_topics) | _ => false end = true.
Proof.
  intros e. split; [vm_compute; reflexivity|]. split; [exact derive_topics_ok|]. split; [apply derive_emits|]. vm_compute. auto.
Qed.
(** Indexed inputs of any type: a filter matches a log exactly if for each of
    the first three some alternative asks for the topic of its value, see C30. *)
Theorem C60_exact : forall p e d args ts f xs log, let kinds := map ep_kind (isel true (e_inputs e)) in let values := values_of (select true (e_inputs e) xs) in
  derive_event p e = Ok d -> Forall3 topic_denotes kinds args ts ->
  emits (de_event d) xs log -> have_types xs (map ep_kind (e_inputs e)) = true -> forallb solidity_type (map ep_kind (e_inputs e)) = true ->
  (forall i, (i < 3)%nat -> topic_small (nth i ts Any) (nth_error kinds i)) -> de_filter d args = Ok f ->
  (filter_matches f (rl_topics log) <-> forall i, (i < 3)%nat -> asked_matches (nth i ts Any) (nth_error kinds i) (nth_error values i)).
Proof. exact derived_filter_any. Qed.
Print Assumptions C60_exact.
Definition bytes_event : Event := mkEvent (lit "E") [mkEventParam (lit "x") PBytes true] true.
Example C60_exact_case : forall p, is_ok (do d <- derive_event p bytes_event; de_filter d [This (RBytes [x01])]) = true /\
  Forall3 topic_denotes (map ep_kind (isel true (e_inputs bytes_event))) [This (RBytes [x01])] [This (TBytes [x01])] /\
  emits bytes_event [TBytes [x01]] (mkRawLog [keccak256 [x01]] []) /\ have_types [TBytes [x01]] (map ep_kind (e_inputs bytes_event)) = true /\
  (forall i, (i < 3)%nat -> topic_small (nth i [This (TBytes [x01])] Any) (nth_error (map ep_kind (isel true (e_inputs bytes_event))) i)).
Proof.
  intros p. split; [destruct p; vm_compute; reflexivity|]. split; [repeat constructor; now exists [x01]|]. split; [|split; [reflexivity|]].
  - split; [|reflexivity]. exists (lit "E(bytes)"). split; [apply canonical_iff; reflexivity|reflexivity].
  - intros [|i] _ k a E I; [|destruct i; discriminate E || (destruct i; discriminate E)]. injection E as <-. destruct I as [<-|[]]. vm_compute. auto.
Qed.
(** The alternatives for a fourth indexed input are ignored. *)
Theorem C60_refuted : forall p, exists e d f vs log, derive_event p e = Ok d /\ de_event d = e /\ emits e vs log /\
  have_types vs (map ep_kind (e_inputs e)) = true /\
  de_filter d [Any; Any; Any; This (RBool true)] = Ok f /\ vs = [TBool true; TBool true; TBool true; TBool false] /\ filter_matches f (rl_topics log).
Proof. exact four_ignored. Qed.
Print Assumptions C60_refuted.

(** ** C61: derived functions and constructors keep their identity. *)
(** Names and types, hence signatures and selectors, are those of the file;
    only the internal types are dropped. *)
Theorem C61_function : forall p f d, derive_function p f = Ok d ->
  f_name (df_function d) = f_name f /\ f_constant (df_function d) = f_constant f /\ f_state_mutability (df_function d) = f_state_mutability f /\
  map p_name (f_inputs (df_function d)) = map p_name (f_inputs f) /\ map p_kind (f_inputs (df_function d)) = map p_kind (f_inputs f) /\
  map p_name (f_outputs (df_function d)) = map p_name (f_outputs f) /\ map p_kind (f_outputs (df_function d)) = map p_kind (f_outputs f).
Proof. exact derived_function_same. Qed.
Print Assumptions C61_function.
Theorem C61_constructor : forall p c d, derive_constructor p c = Ok d ->
  map p_name (k_inputs (dk_constructor d)) = map p_name (k_inputs c) /\ map p_kind (k_inputs (dk_constructor d)) = map p_kind (k_inputs c).
Proof. exact derived_constructor_same. Qed.
Print Assumptions C61_constructor.
(** Every entry of the contract gets its interface, in order. *)
Theorem C61_contract : forall p c fs es d, derive_contract p c fs es = Ok d ->
  Forall2 (fun f d => derive_function p f = Ok d) (iterate fs) (dc_functions d) /\
  Forall2 (fun e d => derive_event p e = Ok d) (iterate es) (dc_events d) /\
  match c_constructor c, dc_constructor d with Some k, Some dk => derive_constructor p k = Ok dk | None, None => True | _, _ => False end.
Proof. exact derived_entries. Qed.
Print Assumptions C61_contract.
Example C61_case : is_ok (derive_contract Debug (mkContract (Some derive_c) [] [] false false)
  [(lit "setNames", [derive_f])] [(lit "NamesSet", [derive_e (lit "NamesSet")])]) = true.
Proof. vm_compute. reflexivity. Qed.

(** ** C62: what the macro accepts. *)
(** Necessary: no tuple anywhere, fixed-size arrays only as the outermost type
    of an argument. *)
Theorem C62_function_types : forall p f d, derive_function p f = Ok d ->
  forallb argument_type (map p_kind (f_inputs f)) = true /\ forallb plain_type (map p_kind (f_outputs f)) = true.
Proof. exact function_types. Qed.
Print Assumptions C62_function_types.
Theorem C62_event_types : forall p e d, derive_event p e = Ok d -> forallb plain_type (map ep_kind (e_inputs e)) = true.
Proof. exact event_types. Qed.
Print Assumptions C62_event_types.
(** Exactly what is accepted: types as above, and names, after the conversion
    to snake_case, that are identifiers, not keywords and all different; none
    of them may be the name of a local variable or of a function that the
    generated code uses after declaring the parameters. *)
Theorem C62_function_exact : forall p f, (exists d, derive_function p f = Ok d) <->
  forallb argument_type (map p_kind (f_inputs f)) = true /\ forallb plain_type (map p_kind (f_outputs f)) = true /\
  (exists names, named parameter_name (f_inputs f) names /\ Forall usable names /\ NoDup (lit "f" :: lit "function" :: names)) /\
  usable (to_snake_case (f_name f)).
Proof. exact function_exact. Qed.
Print Assumptions C62_function_exact.
Theorem C62_constructor_exact : forall p c, (exists d, derive_constructor p c = Ok d) <->
  forallb argument_type (map p_kind (k_inputs c)) = true /\
  exists names, named parameter_name (k_inputs c) names /\ Forall usable names /\ NoDup (lit "c" :: lit "code" :: names).
Proof. exact constructor_exact. Qed.
Print Assumptions C62_constructor_exact.
Theorem C62_event_exact : forall p e, (exists d, derive_event p e = Ok d) <->
  forallb plain_type (map ep_kind (e_inputs e)) = true /\
  (exists names, named field_name (e_inputs e) names /\ Forall usable names /\ NoDup names /\
     forall i x, nth_error (e_inputs e) i = Some x -> ep_indexed x = true -> nth_error names i <> Some (lit "event")) /\
  usable (to_snake_case (e_name e)) /\ usable (to_camel_case (e_name e)).
Proof. exact event_exact. Qed.
Print Assumptions C62_event_exact.
Theorem C62_contract_exact : forall p c fs es, (exists d, derive_contract p c fs es = Ok d) <->
  (forall k, c_constructor c = Some k -> exists d, derive_constructor p k = Ok d) /\
  Forall (fun f => exists d, derive_function p f = Ok d) (iterate fs) /\ Forall (fun e => exists d, derive_event p e = Ok d) (iterate es) /\
  NoDup (map (fun f => to_snake_case (f_name f)) (iterate fs)) /\ NoDup (map (fun e => to_snake_case (e_name e)) (iterate es)) /\
  NoDup (map (fun e => to_camel_case (e_name e)) (iterate es)) /\
  (forall e e' q, In e (iterate es) -> In e' (iterate es) -> In q (e_inputs e') ->
     ~ (to_camel_case (e_name e) = lit "String" /\ string_inside (ep_kind q)) /\ ~ (to_camel_case (e_name e) = lit "Vec" /\ exists t, ep_kind q = PArray t)).
Proof. exact contract_exact. Qed.
Print Assumptions C62_contract_exact.
Example C62_exact_case : forall p,
  (is_ok (derive_function p (typed_f (lit "kind"))) = true /\ is_ok (derive_function p (typed_f (lit "self"))) = true /\
   forall n, In n [lit "type"; lit "Type"; lit "_1"; lit "function"; lit "f"] -> is_ok (derive_function p (typed_f n)) = false) /\
  (is_ok (derive_event p (named_e (lit "String") PBool)) = true /\ is_ok (derive_event p (named_e (lit "Said") PString)) = true /\
   is_ok (derive_contract p default_contract [] [(lit "String", [named_e (lit "String") PBool]); (lit "Said", [named_e (lit "Said") PString])]) = false /\
   is_ok (derive_contract p default_contract [] [(lit "Text", [named_e (lit "Text") PBool]); (lit "Said", [named_e (lit "Said") PString])]) = true).
Proof. intros p. split; [apply keyword_sample|apply hidden_type_sample]. Qed.
(** Names of letters, digits and '_' become identifiers exactly if a letter
    comes first, apart from '_'. *)
Theorem C62_identifiers : forall s, (forall c, In c s -> letter c \/ digit c \/ c = 95) ->
  (identifier (to_snake_case s) <-> starts_with_letter s) /\ (identifier (to_camel_case s) <-> starts_with_letter s).
Proof. exact (fun s H => conj (@snake_identifier s H) (@camel_identifier s H)). Qed.
Print Assumptions C62_identifiers.
Example C62_identifiers_case : starts_with_letter (lit "_Transfer") /\ ~ starts_with_letter (lit "_1st").
Proof. exact letter_sample. Qed.
(** Sufficient, with names in the usual case. *)
Theorem C62_function_accepted : forall p f, forallb argument_type (map p_kind (f_inputs f)) = true -> forallb plain_type (map p_kind (f_outputs f)) = true ->
  Forall (fun s => snake s /\ usable s) (map p_name (f_inputs f)) -> NoDup (map p_name (f_inputs f)) ->
  ~ In (lit "f") (map p_name (f_inputs f)) -> ~ In (lit "function") (map p_name (f_inputs f)) ->
  snake (f_name f) -> usable (f_name f) -> exists d, derive_function p f = Ok d.
Proof. exact function_accepted. Qed.
Print Assumptions C62_function_accepted.
Theorem C62_event_accepted : forall p e, forallb plain_type (map ep_kind (e_inputs e)) = true ->
  Forall (fun s => snake s /\ usable s) (map ep_name (e_inputs e)) -> NoDup (map ep_name (e_inputs e)) ->
  ~ In (lit "event") (map ep_name (e_inputs e)) -> usable (to_snake_case (e_name e)) -> camel (e_name e) -> usable (e_name e) ->
  exists d, derive_event p e = Ok d.
Proof. exact event_accepted. Qed.
Print Assumptions C62_event_accepted.
Example C62_accepted_case : forallb argument_type (map p_kind (f_inputs accepted_f)) = true /\ forallb plain_type (map p_kind (f_outputs accepted_f)) = true /\
  Forall (fun s => snake s /\ usable s) (map p_name (f_inputs accepted_f)) /\ NoDup (map p_name (f_inputs accepted_f)) /\
  ~ In (lit "f") (map p_name (f_inputs accepted_f)) /\ ~ In (lit "function") (map p_name (f_inputs accepted_f)) /\ snake (f_name accepted_f) /\ usable (f_name accepted_f).
Proof. exact accepted_sample. Qed.
(** Overloaded functions and events are not accepted, nor is a parameter
    called f or function of a function, or c or code of a constructor. *)
Theorem C62_overloads : forall p c fs es f g l1 l2 l3, iterate fs = l1 ++ f :: l2 ++ g :: l3 -> f_name f = f_name g ->
  forall d, derive_contract p c fs es <> Ok d.
Proof. exact overloads. Qed.
Print Assumptions C62_overloads.
Theorem C62_overloaded_events : forall p c fs es f g l1 l2 l3, iterate es = l1 ++ f :: l2 ++ g :: l3 -> e_name f = e_name g ->
  forall d, derive_contract p c fs es <> Ok d.
Proof. exact overloaded_events. Qed.
Print Assumptions C62_overloaded_events.
Theorem C62_hidden_parameter : forall p f x, In x (f_inputs f) -> p_name x = lit "f" \/ p_name x = lit "function" -> forall d, derive_function p f <> Ok d.
Proof. exact function_refused. Qed.
Print Assumptions C62_hidden_parameter.
Theorem C62_hidden_constructor_parameter : forall p c x, In x (k_inputs c) -> p_name x = lit "c" \/ p_name x = lit "code" -> forall d, derive_constructor p c <> Ok d.
Proof. exact constructor_refused. Qed.
Print Assumptions C62_hidden_constructor_parameter.
(** A parameter called self is escaped in functions, not in events. *)
Theorem C62_event_self : forall p e x, In x (e_inputs e) -> ep_indexed x = true /\ ep_name x = lit "event" \/ ep_name x = lit "self" ->
  forall d, derive_event p e <> Ok d.
Proof. exact event_refused. Qed.
Print Assumptions C62_event_self.
(** Names that differ can still clash. *)
Theorem C62_distinct_names_clash : exists n m, n <> m /\ forall p, is_ok (derive_function p (plain_f n)) = true /\ is_ok (derive_function p (plain_f m)) = true /\
  forall d, derive_contract p default_contract [(n, [plain_f n]); (m, [plain_f m])] [] <> Ok d.
Proof. exact modules_clash. Qed.
Print Assumptions C62_distinct_names_clash.

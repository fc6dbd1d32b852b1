(** * Properties of events, logs and filters (C26-C31, C48).
    Every theorem is proved elsewhere and closed here by [exact], or is a
    computed counterexample. *)
From Verif Require Import Base Types AbiSpec DecoderSpec TypeNames TypeNamesSpec Encoder Decoder Keccak Function FunctionFacts
  Event EventSpec EventFacts EventExact EventInverse FilterFacts FilterExact FilterMisses Samples.
From Coq Require Import String.
Local Open Scope N_scope.
Local Open Scope list_scope.

(** event Sold(address indexed who, uint256 price, string indexed what, bytes3 indexed tag, string note) *)
Definition sample_event : Event :=
  mkEvent (lit "Sold") [mkEventParam (lit "who") PAddress true; mkEventParam (lit "price") (PUint 256) false;
    mkEventParam (lit "what") PString true; mkEventParam (lit "tag") (PFixedBytes 3) true;
    mkEventParam (lit "note") PString false] false.
Definition event_values : list Token :=
  [TAddress addr1; TUint 77; TString (lit "a hat"); TFixedBytes [x01; x02; x03]; TString (lit "thanks")].
Definition event_signature_text : str := lit "Sold(address,uint256,string,bytes3,string)".
Definition sample_log : RawLog :=
  mkRawLog (keccak256 (utf8 event_signature_text) :: indexed_topics (e_inputs sample_event) event_values)
    (abi_encode [PUint 256; PString] [TUint 77; TString (lit "thanks")]).

(** ** C26: every input is paired with its own value. *)
(** Missing: events two of whose inputs have the same name, for which it
    fails (below). *)
Theorem C26_paired_partial : forall p e log l s,
  canonical_signature (e_name e) (map ep_kind (e_inputs e)) s -> NoDup (map ep_name (e_inputs e)) ->
  forallb wf_type (map ep_kind (e_inputs e)) = true ->
  forallb topic_sized (map ep_kind (isel true (e_inputs e))) = true ->
  Forall (fun w => len w = 32) (rl_topics log) -> len (rl_topics log) < 2 ^ 57 -> fits (rl_data log) ->
  (parse_log p e log = Ok l <->
   exists topics ts ds next, rl_topics log = topics_prefix e s ++ topics /\
     topics_read (map ep_kind (isel true (e_inputs e))) topics ts /\
     (rl_data log <> [] \/ Forall may_be_empty (map ep_kind (isel false (e_inputs e)))) /\
     reads_seq (rl_data log) (map ep_kind (isel false (e_inputs e))) 0 ds next /\
     dealt (e_inputs e) ts ds (l_params l)).
Proof. exact parse_log_reads. Qed.
Print Assumptions C26_paired_partial.
Example C26_case :
  canonical_signature (e_name sample_event) (map ep_kind (e_inputs sample_event)) event_signature_text /\
  NoDup (map ep_name (e_inputs sample_event)) /\
  forallb wf_type (map ep_kind (e_inputs sample_event)) = true /\
  forallb topic_sized (map ep_kind (isel true (e_inputs sample_event))) = true /\
  forallb (fun w => len w =? 32) (rl_topics sample_log) = true /\ len (rl_topics sample_log) < 2 ^ 57 /\ fits (rl_data sample_log) /\
  is_ok (parse_log Debug sample_event sample_log) = true.
Proof.
  split; [apply canonical_iff; reflexivity|]. split; [|vm_compute; auto 10].
  repeat constructor; cbn; intuition discriminate.
Qed.
(** Whatever their names, one entry per input, in order, under its name. *)
Theorem C26_names : forall p e log l s,
  canonical_signature (e_name e) (map ep_kind (e_inputs e)) s ->
  forallb wf_type (map ep_kind (e_inputs e)) = true ->
  Forall (fun w => len w = 32) (rl_topics log) -> len (rl_topics log) < 2 ^ 57 ->
  parse_log p e log = Ok l -> map lp_name (l_params l) = map ep_name (e_inputs e).
Proof. exact (fun p e log l s C W T L E => proj1 (@parse_log_shape p e log l s C W T L E)). Qed.
Print Assumptions C26_names.
(** Two unnamed inputs: both entries get the value found in data; the value
    in the topic is lost. *)
Definition unnamed_event : Event :=
  mkEvent (lit "E") [mkEventParam [] (PUint 256) true; mkEventParam [] (PUint 256) false] true.
Definition unnamed_log : RawLog := mkRawLog [word 1] (word 2).
Theorem C26_refuted : forall p,
  emits unnamed_event [TUint 1; TUint 2] unnamed_log /\
  parse_log p unnamed_event unnamed_log = Ok (mkLog [mkLogParam [] (TUint 2); mkLogParam [] (TUint 2)]).
Proof.
  intros p. split; [|destruct p; vm_compute; reflexivity]. split; [|vm_compute; reflexivity].
  exists (lit "E(uint256,uint256)"). split; [apply canonical_iff; reflexivity|vm_compute; reflexivity].
Qed.
Print Assumptions C26_refuted.

(** For all events: every input gets the value of the last input of its name,
    where those found in data count as later than those found in topics. *)
Theorem C26_exact : forall p e log s,
  canonical_signature (e_name e) (map ep_kind (e_inputs e)) s ->
  forallb wf_type (map ep_kind (e_inputs e)) = true ->
  forallb topic_sized (map ep_kind (isel true (e_inputs e))) = true ->
  Forall (fun w => len w = 32) (rl_topics log) -> len (rl_topics log) < 2 ^ 57 -> fits (rl_data log) ->
  forall l, parse_log p e log = Ok l <->
   exists topics ts ds next, rl_topics log = topics_prefix e s ++ topics /\
     topics_read (map ep_kind (isel true (e_inputs e))) topics ts /\
     (rl_data log <> [] \/ Forall may_be_empty (map ep_kind (isel false (e_inputs e)))) /\
     reads_seq (rl_data log) (map ep_kind (isel false (e_inputs e))) 0 ds next /\
     map lp_name (l_params l) = map ep_name (e_inputs e) /\
     Forall (fun x => last_named (named true (e_inputs e) ts ++ named false (e_inputs e) ds) (lp_name x) (lp_value x)) (l_params l).
Proof. exact parse_log_any. Qed.
Print Assumptions C26_exact.
Example C26_exact_case : canonical_signature (e_name unnamed_event) (map ep_kind (e_inputs unnamed_event)) (lit "E(uint256,uint256)") /\
  forallb wf_type (map ep_kind (e_inputs unnamed_event)) = true /\
  forallb topic_sized (map ep_kind (isel true (e_inputs unnamed_event))) = true /\
  forallb (fun w => len w =? 32) (rl_topics unnamed_log) = true /\ len (rl_topics unnamed_log) < 2 ^ 57 /\ fits (rl_data unnamed_log) /\
  last_named (named true (e_inputs unnamed_event) [TUint 1] ++ named false (e_inputs unnamed_event) [TUint 2]) [] (TUint 2).
Proof.
  split; [apply canonical_iff; reflexivity|]. repeat (split; [vm_compute; auto|]). exists [mkLogParam [] (TUint 1)], []. split; [reflexivity|auto].
Qed.

(** ** C27: logs of other events are rejected. *)
Theorem C27_foreign : forall p e log l s,
  canonical_signature (e_name e) (map ep_kind (e_inputs e)) s ->
  forallb wf_type (map ep_kind (e_inputs e)) = true ->
  Forall (fun w => len w = 32) (rl_topics log) -> len (rl_topics log) < 2 ^ 57 ->
  parse_log p e log = Ok l ->
  exists topics, rl_topics log = (if e_anonymous e then [] else [keccak256 (utf8 s)]) ++ topics /\
    List.length topics = List.length (filter ep_indexed (e_inputs e)).
Proof. exact parse_log_topics. Qed.
Print Assumptions C27_foreign.
Example C27_case : is_ok (parse_log Release sample_event sample_log) = true /\
  parse_log Release sample_event (mkRawLog (tl (rl_topics sample_log)) (rl_data sample_log)) = Err InvalidData /\
  parse_log Release sample_event (mkRawLog (rl_topics sample_log ++ [word 0]) (rl_data sample_log)) = Err InvalidData.
Proof. vm_compute. auto. Qed.

(** ** C28: parsing inverts emission. *)
(** For an indexed input that is hashed into its topic the hash is returned.
    Missing: events two of whose inputs have the same name (C26_refuted), and
    data inputs that are all of a type that takes no room (C28_refuted). *)
Theorem C28_inverse_partial : forall p e vs log, emits e vs log ->
  have_types vs (map ep_kind (e_inputs e)) = true -> NoDup (map ep_name (e_inputs e)) ->
  forallb wf_type (map ep_kind (e_inputs e)) = true -> forallb solidity_type (map ep_kind (e_inputs e)) = true ->
  forallb short_arrays vs = true -> len (e_inputs e) < 2 ^ 56 ->
  enc_size (PTuple (map ep_kind (isel false (e_inputs e)))) (TTuple (values_of (select false (e_inputs e) vs))) < two32 ->
  forallb zero_size (map ep_kind (isel false (e_inputs e))) = false \/ isel false (e_inputs e) = [] ->
  parse_log p e log = Ok (mkLog (map (fun x => mkLogParam (ep_name (fst x)) (visible (fst x) (snd x))) (combine (e_inputs e) vs))).
Proof. exact parse_emitted. Qed.
Print Assumptions C28_inverse_partial.
Example C28_case : emits sample_event event_values sample_log /\
  have_types event_values (map ep_kind (e_inputs sample_event)) = true /\
  NoDup (map ep_name (e_inputs sample_event)) /\
  forallb wf_type (map ep_kind (e_inputs sample_event)) = true /\ forallb solidity_type (map ep_kind (e_inputs sample_event)) = true /\
  forallb short_arrays event_values = true /\ len (e_inputs sample_event) < 2 ^ 56 /\
  enc_size (PTuple (map ep_kind (isel false (e_inputs sample_event)))) (TTuple (values_of (select false (e_inputs sample_event) event_values))) < two32 /\
  forallb zero_size (map ep_kind (isel false (e_inputs sample_event))) = false.
Proof.
  split; [|split; [|split]].
  - split; [|vm_compute; reflexivity]. exists event_signature_text. split; [apply canonical_iff; reflexivity|reflexivity].
  - vm_compute. reflexivity.
  - repeat constructor; cbn; intuition discriminate.
  - vm_compute. auto 10.
Qed.
(** All events: of the inputs that share a name the last one's value is given
    for each of them, those in data counting after those in topics.  Data
    inputs that all take no room are found when they are arrays, and are an
    error otherwise. *)
Theorem C28_exact : forall p e vs log, emits e vs log ->
  have_types vs (map ep_kind (e_inputs e)) = true ->
  forallb wf_type (map ep_kind (e_inputs e)) = true -> forallb solidity_type (map ep_kind (e_inputs e)) = true ->
  forallb short_arrays vs = true -> len (e_inputs e) < 2 ^ 56 ->
  enc_size (PTuple (map ep_kind (isel false (e_inputs e)))) (TTuple (values_of (select false (e_inputs e) vs))) < two32 ->
  (forallb zero_size (map ep_kind (isel false (e_inputs e))) = false \/ Forall may_be_empty (map ep_kind (isel false (e_inputs e))) ->
   exists l, parse_log p e log = Ok l /\ map lp_name (l_params l) = map ep_name (e_inputs e) /\
     Forall (fun x => last_named (map (fun x => mkLogParam (ep_name (fst x)) (visible (fst x) (snd x)))
         (select true (e_inputs e) vs ++ select false (e_inputs e) vs)) (lp_name x) (lp_value x)) (l_params l)) /\
  (forallb zero_size (map ep_kind (isel false (e_inputs e))) = true -> ~ Forall may_be_empty (map ep_kind (isel false (e_inputs e))) ->
   parse_log p e log = Err (InvalidName empty_data_msg)).
Proof. exact emitted_exact. Qed.
Print Assumptions C28_exact.
Definition shared_event : Event := mkEvent (lit "E")
  [mkEventParam (lit "x") PBool false; mkEventParam (lit "x") PAddress true; mkEventParam (lit "y") (PUint 8) true] true.
Definition shared_values : list Token := [TBool true; TAddress (repeat x11 20); TUint 3].
Definition shared_log : RawLog := mkRawLog [zeros 12 ++ repeat x11 20; word 3] (word 1).
Example C28_exact_case : emits shared_event shared_values shared_log /\
  have_types shared_values (map ep_kind (e_inputs shared_event)) = true /\
  forallb wf_type (map ep_kind (e_inputs shared_event)) = true /\ forallb solidity_type (map ep_kind (e_inputs shared_event)) = true /\
  forallb zero_size (map ep_kind (isel false (e_inputs shared_event))) = false /\
  parse_log Release shared_event shared_log =
    Ok (mkLog [mkLogParam (lit "x") (TBool true); mkLogParam (lit "x") (TBool true); mkLogParam (lit "y") (TUint 3)]).
Proof.
  split; [|vm_compute; auto 10]. split; [|vm_compute; reflexivity].
  exists (lit "E(bool,address,uint8)"). split; [apply canonical_iff; reflexivity|reflexivity].
Qed.
Definition empty_event : Event := mkEvent (lit "E") [mkEventParam (lit "x") (PTuple []) false] true.
Theorem C28_refuted : forall p, emits empty_event [TTuple []] (mkRawLog [] []) /\
  is_ok (parse_log p empty_event (mkRawLog [] [])) = false.
Proof.
  intros p. split; [|destruct p; vm_compute; reflexivity]. split; [|vm_compute; reflexivity].
  exists (lit "E(())"). split; [apply canonical_iff; reflexivity|reflexivity].
Qed.
Print Assumptions C28_refuted.

(** ** C29: positions and checks of a filter. *)
Theorem C29_positions : forall p e raw f s, canonical_signature (e_name e) (map ep_kind (e_inputs e)) s ->
  let kinds := map ep_kind (isel true (e_inputs e)) in
  event_filter p e raw = Ok f <->
  exists t0 t1 t2,
    topic_accepted (raw_topic0 raw) (nth_error kinds 0) = true /\ turned (token_topic p) (raw_topic0 raw) t0 /\
    topic_accepted (raw_topic1 raw) (nth_error kinds 1) = true /\ turned (token_topic p) (raw_topic1 raw) t1 /\
    topic_accepted (raw_topic2 raw) (nth_error kinds 2) = true /\ turned (token_topic p) (raw_topic2 raw) t2 /\
    f = if e_anonymous e then mkFilter t0 t1 t2 Any else mkFilter (This (keccak256 (utf8 s))) t0 t1 t2.
Proof. exact event_filter_iff. Qed.
Print Assumptions C29_positions.
(** The only error is [InvalidData]. *)
Theorem C29_error : forall p e raw x, event_filter p e raw = Err x -> x = InvalidData.
Proof. exact event_filter_err. Qed.
Print Assumptions C29_error.
(** A filter whose values can be encoded and contain no overlong tuple is
    accepted exactly if every requested position is an indexed input and every
    value passes the type check of that input. *)
Theorem C29_accepts : forall p e raw, raw_safe p raw (map ep_kind (isel true (e_inputs e))) ->
  if raw_accepted raw (map ep_kind (isel true (e_inputs e))) then exists f, event_filter p e raw = Ok f
  else event_filter p e raw = Err InvalidData.
Proof. exact event_filter_accepts. Qed.
Print Assumptions C29_accepts.
(** In an optimised build all well-formed values can be encoded. *)
Theorem C29_safe : forall raw kinds,
  (forall v, In v (topic_tokens (raw_topic0 raw)) \/ In v (topic_tokens (raw_topic1 raw)) \/ In v (topic_tokens (raw_topic2 raw)) ->
     wf_token v = true /\ forall k, In k kinds -> no_long_tuple v k = true) ->
  raw_safe Release raw kinds.
Proof. exact release_safe. Qed.
Print Assumptions C29_safe.
Definition sample_raw : RawTopicFilter :=
  mkRawFilter (This (TAddress addr1)) Any (OneOf [TFixedBytes [x01; x02; x03]; TFixedBytes [x0a; x0b; x0c]]).
Example C29_case :
  raw_accepted sample_raw (map ep_kind (isel true (e_inputs sample_event))) = true /\
  is_ok (event_filter Debug sample_event sample_raw) = true /\
  raw_accepted (mkRawFilter (This (TBool true)) Any Any) (map ep_kind (isel true (e_inputs sample_event))) = false /\
  event_filter Debug sample_event (mkRawFilter (This (TBool true)) Any Any) = Err InvalidData /\
  event_filter Debug unnamed_event (mkRawFilter Any (OneOf []) Any) = Err InvalidData.
Proof. vm_compute. auto 10. Qed.

(** ** C30: filters and the logs they are for. *)
(** If every indexed input is of a value type, the filter matches an emitted
    log exactly if the requested alternatives include its values. *)
Theorem C30_matches_partial : forall p e raw f vs log, emits e vs log ->
  have_types vs (map ep_kind (e_inputs e)) = true -> forallb solidity_type (map ep_kind (e_inputs e)) = true ->
  raw_typed raw (map ep_kind (isel true (e_inputs e))) ->
  forallb value_type (map ep_kind (isel true (e_inputs e))) = true ->
  event_filter p e raw = Ok f ->
  (filter_matches f (rl_topics log) <-> raw_matches raw (values_of (select true (e_inputs e) vs))).
Proof. exact filter_matches_values. Qed.
Print Assumptions C30_matches_partial.
(** If indexed inputs are of static types other than the one-word structs and
    arrays, a filter for the values of a log matches that log.
    Missing: string, bytes, T[] and other dynamic types, and one-word structs
    and arrays, for which it fails (below). *)
Theorem C30_static_partial : forall p e raw f vs log, emits e vs log ->
  have_types vs (map ep_kind (e_inputs e)) = true -> forallb solidity_type (map ep_kind (e_inputs e)) = true ->
  raw_typed raw (map ep_kind (isel true (e_inputs e))) ->
  forallb topic_exact (map ep_kind (isel true (e_inputs e))) = true ->
  event_filter p e raw = Ok f ->
  raw_matches raw (values_of (select true (e_inputs e) vs)) -> filter_matches f (rl_topics log).
Proof. exact (fun p e raw f vs log E T S R X F => proj1 (@filter_matches_iff p e raw f vs log E T S R X F)). Qed.
Print Assumptions C30_static_partial.
Definition value_event : Event :=
  mkEvent (lit "Moved") [mkEventParam (lit "who") PAddress true; mkEventParam (lit "note") PString false;
    mkEventParam (lit "tag") (PFixedBytes 3) true; mkEventParam (lit "ok") PBool true] false.
Definition value_values : list Token := [TAddress addr1; TString (lit "n"); TFixedBytes [x01; x02; x03]; TBool true].
Definition value_log : RawLog :=
  mkRawLog (keccak256 (utf8 (lit "Moved(address,string,bytes3,bool)")) :: indexed_topics (e_inputs value_event) value_values)
    (abi_encode [PString] [TString (lit "n")]).
Definition value_raw : RawTopicFilter :=
  mkRawFilter (This (TAddress addr1)) (OneOf [TFixedBytes [x00; x00; x00]; TFixedBytes [x01; x02; x03]]) Any.
Example C30_case : emits value_event value_values value_log /\
  have_types value_values (map ep_kind (e_inputs value_event)) = true /\
  forallb solidity_type (map ep_kind (e_inputs value_event)) = true /\
  raw_typed value_raw (map ep_kind (isel true (e_inputs value_event))) /\
  forallb value_type (map ep_kind (isel true (e_inputs value_event))) = true /\
  is_ok (event_filter Debug value_event value_raw) = true /\
  raw_matches value_raw (values_of (select true (e_inputs value_event) value_values)).
Proof.
  split; [split; [exists (lit "Moved(address,string,bytes3,bool)"); split; [apply canonical_iff; reflexivity|reflexivity]|vm_compute; reflexivity]|].
  split; [vm_compute; reflexivity|]. split; [vm_compute; reflexivity|]. split.
  { repeat split; repeat constructor; cbn; eauto. }
  split; [vm_compute; reflexivity|]. split; [vm_compute; reflexivity|]. repeat split; try exact I. cbn. eauto.
Qed.
Definition pair_event : Event :=
  mkEvent (lit "P") [mkEventParam (lit "x") (PFixedArray (PUint 8) 2) true; mkEventParam (lit "y") (PTuple [PBool; PAddress]) true] true.
Example C30_case_static : forallb topic_exact (map ep_kind (isel true (e_inputs pair_event))) = true /\
  is_ok (event_filter Release pair_event (mkRawFilter (This (TFixedArray [TUint 1; TUint 2])) (This (TTuple [TBool true; TAddress addr1])) Any)) = true.
Proof. vm_compute. auto. Qed.
(** A filter for the very values of a log misses it, for an indexed string,
    an indexed bytes, an indexed array and an indexed uint256[1]. *)
Theorem C30_refuted : forall p,
  Forall (fun x : ParamType * Token => let '(k, v) := x in
    let e := mkEvent (lit "E") [mkEventParam (lit "x") k true] true in
    let log := mkRawLog [topic_of k v] [] in
    has_type v k = true /\ emits e [v] log /\ raw_matches (mkRawFilter (This v) Any Any) [v] /\
    exists f, event_filter p e (mkRawFilter (This v) Any Any) = Ok f /\ ~ filter_matches f (rl_topics log))
  [(PString, TString (lit "hello")); (PBytes, TBytes [x01; x02]); (PArray (PUint 256), TArray [TUint 1; TUint 2]);
   (PFixedArray (PUint 256) 1, TFixedArray [TUint 1])].
Proof. exact filter_misses. Qed.
Print Assumptions C30_refuted.
(** Exactly which logs match, for indexed inputs of any type: at each place
    some requested value asks for the topic of the emitted value. *)
Theorem C30_exact : forall p e raw f vs log, let kinds := map ep_kind (isel true (e_inputs e)) in let values := values_of (select true (e_inputs e) vs) in
  emits e vs log ->
  have_types vs (map ep_kind (e_inputs e)) = true -> forallb solidity_type (map ep_kind (e_inputs e)) = true ->
  raw_typed raw kinds ->
  topic_small (raw_topic0 raw) (nth_error kinds 0) -> topic_small (raw_topic1 raw) (nth_error kinds 1) -> topic_small (raw_topic2 raw) (nth_error kinds 2) ->
  event_filter p e raw = Ok f ->
  (filter_matches f (rl_topics log) <->
   asked_matches (raw_topic0 raw) (nth_error kinds 0) (nth_error values 0) /\
   asked_matches (raw_topic1 raw) (nth_error kinds 1) (nth_error values 1) /\
   asked_matches (raw_topic2 raw) (nth_error kinds 2) (nth_error values 2)).
Proof. exact filter_exact. Qed.
Print Assumptions C30_exact.
(** A value of a dynamic type asks for its own topic only if the hash function
    has the same value on two byte strings of different lengths ... *)
Theorem C30_dynamic : forall k v, dynamic k = true -> solidity_type k = true -> has_type v k = true -> asked_topic k v = topic_of k v ->
  let x := abi_encode [k] [v] in let y := hashed_encoding k v in len y < len x /\ keccak256 x = keccak256 y.
Proof. exact dynamic_collides. Qed.
Print Assumptions C30_dynamic.
(** ... and a struct or array of one word only if that word is its own hash. *)
Theorem C30_one_word : forall k v, dynamic k = false -> value_type k = false -> solidity_type k = true -> has_type v k = true -> head_width k = 32 ->
  (asked_topic k v = topic_of k v <-> keccak256 (abi_encode [k] [v]) = abi_encode [k] [v]).
Proof. exact one_word_asked. Qed.
Print Assumptions C30_one_word.
(** But every request for bytes finds the logs of other bytes. *)
Theorem C30_confused : forall b, asked_topic PBytes (TBytes b) = topic_of PBytes (TBytes (abi_encode [PBytes] [TBytes b])) /\
  TBytes b <> TBytes (abi_encode [PBytes] [TBytes b]).
Proof. exact confused_bytes. Qed.
Print Assumptions C30_confused.
Definition hashed_event : Event :=
  mkEvent (lit "E") [mkEventParam (lit "x") PBytes true; mkEventParam (lit "y") (PFixedArray (PUint 256) 1) true] true.
Definition hashed_raw : RawTopicFilter := mkRawFilter (OneOf [TBytes [x01]; TBytes []]) (This (TFixedArray [TUint 7])) Any.
Example C30_exact_case : forallb solidity_type (map ep_kind (e_inputs hashed_event)) = true /\
  raw_typed hashed_raw (map ep_kind (isel true (e_inputs hashed_event))) /\
  topic_small (raw_topic0 hashed_raw) (Some PBytes) /\ topic_small (raw_topic1 hashed_raw) (Some (PFixedArray (PUint 256) 1)) /\
  is_ok (event_filter Debug hashed_event hashed_raw) = true /\
  dynamic PBytes = true /\ head_width (PFixedArray (PUint 256) 1) = 32.
Proof.
  split; [reflexivity|]. split; [repeat split; repeat constructor; cbn; eauto|].
  split; [intros k a E [<-|[<-|[]]]; injection E as <-; vm_compute; auto|].
  split; [intros k a E [<-|[]]; injection E as <-; vm_compute; auto|].
  split; [vm_compute; reflexivity|]. auto.
Qed.

(** ** C31: topics are lists of alternatives. *)
Theorem C31_conversions : forall A B : Type,
  (forall t : Topic A, topic_into_vec t = topic_tokens t) /\
  (forall (f : A -> B) t, topic_tokens (topic_map f t) = map f (topic_tokens t)) /\
  (forall (f : A -> B) t o, topic_matches t o -> topic_matches (topic_map f t) (option_map f o)) /\
  (forall (f : A -> B) t o, (forall a b, f a = f b -> a = b) -> topic_matches (topic_map f t) (option_map f o) -> topic_matches t o) /\
  (forall t : Topic A, is_any t = true <-> forall o, topic_matches t o) /\
  (forall o : option A, topic_matches (@topic_default A) o) /\
  (forall (a : A) o, topic_matches (topic_from a) o <-> o = Some a) /\
  (forall (l : list A) o, topic_matches (topic_from_vec l) o <-> exists a, In a l /\ o = Some a) /\
  (forall (x : option A) o, topic_matches (topic_from_option x) o <-> x = None \/ o = x).
Proof. exact @topic_conversions. Qed.
Print Assumptions C31_conversions.
Theorem C31_index : forall (A : Type) (t : Topic A) i x, topic_index t i = Ok x <-> nth_error (topic_tokens t) (N.to_nat i) = Some x.
Proof. exact @topic_index_ok. Qed.
Print Assumptions C31_index.
Theorem C31_index_panics : forall (A : Type) (t : Topic A) i, topic_index t i = Panic <-> len (topic_tokens t) <= i.
Proof. exact @topic_index_panics. Qed.
Print Assumptions C31_index_panics.
Example C31_case : topic_index (OneOf [5; 6; 7]) 2 = Ok 7 /\ topic_index (OneOf [5; 6; 7]) 3 = Panic /\
  topic_index (This 5) 0 = Ok 5 /\ topic_index (This 5) 1 = Panic /\ topic_index (@Any N) 0 = Panic.
Proof. vm_compute. auto. Qed.

(** ** C48: parse_log does not panic. *)
(** Missing: data inputs with a fixed-size array of a dynamic type, on which
    the decoder panics (C05), and bytesN with N >= 2^62. *)
Theorem C48_no_panic_partial : forall p e log,
  forallb wf_type (map ep_kind (e_inputs e)) = true ->
  forallb no_dynamic_fixed_array (map ep_kind (isel false (e_inputs e))) = true ->
  forallb fixed_bytes_sane (map ep_kind (e_inputs e)) = true ->
  Forall (fun w => len w = 32) (rl_topics log) -> len (rl_topics log) < 2 ^ 57 -> fits (rl_data log) ->
  parse_log p e log <> Panic.
Proof. exact parse_log_not_panic. Qed.
Print Assumptions C48_no_panic_partial.
Example C48_case : forallb wf_type (map ep_kind (e_inputs sample_event)) = true /\
  forallb no_dynamic_fixed_array (map ep_kind (isel false (e_inputs sample_event))) = true /\
  forallb fixed_bytes_sane (map ep_kind (e_inputs sample_event)) = true.
Proof. vm_compute. auto. Qed.
Theorem C48_refuted : forall p,
  parse_log p (mkEvent (lit "E") [mkEventParam (lit "x") (PFixedArray PString 1) false] true) (mkRawLog [] (word 1000)) = Panic.
Proof. intros []; vm_compute; reflexivity. Qed.
Print Assumptions C48_refuted.
(** Exactly when it panics: the topics are those of the event, and decoding
    the data panics ([crashes_seq], see C63). *)
Theorem C48_panics : forall p e log s,
  canonical_signature (e_name e) (map ep_kind (e_inputs e)) s ->
  forallb wf_type (map ep_kind (e_inputs e)) = true ->
  forallb topic_sized (map ep_kind (isel true (e_inputs e))) = true ->
  Forall (fun w => len w = 32) (rl_topics log) -> len (rl_topics log) < 2 ^ 57 -> fits (rl_data log) ->
  (parse_log p e log = Panic <->
   exists topics ts, rl_topics log = topics_prefix e s ++ topics /\
     topics_read (map ep_kind (isel true (e_inputs e))) topics ts /\
     (rl_data log <> [] \/ Forall may_be_empty (map ep_kind (isel false (e_inputs e)))) /\
     crashes_seq p (rl_data log) (map ep_kind (isel false (e_inputs e))) 0).
Proof. exact parse_log_panics. Qed.
Print Assumptions C48_panics.
Definition crashing_event : Event :=
  mkEvent (lit "E") [mkEventParam (lit "a") (PUint 8) true; mkEventParam (lit "x") (PFixedArray PString 1) false] true.
Example C48_panics_case : canonical_signature (e_name crashing_event) (map ep_kind (e_inputs crashing_event)) (lit "E(uint8,string[1])") /\
  forallb wf_type (map ep_kind (e_inputs crashing_event)) = true /\
  forallb topic_sized (map ep_kind (isel true (e_inputs crashing_event))) = true /\
  parse_log Release crashing_event (mkRawLog [word 5] (word 1000)) = Panic /\
  parse_log Release crashing_event (mkRawLog [] (word 1000)) <> Panic.
Proof. split; [apply canonical_iff; reflexivity|]. split; [reflexivity|]. split; [reflexivity|]. split; vm_compute; [reflexivity|discriminate]. Qed.

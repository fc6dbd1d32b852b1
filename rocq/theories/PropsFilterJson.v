(** * What the JSON of a filter means (C54).
    Nothing but statements; the proofs are in the other files. *)
From Verif Require Import Base Types AbiSpec TypeNamesSpec Utf8 Keccak Event EventSpec Json JsonText JsonTextSpec FilterJsonSpec FilterJson FunctionFacts.
From Coq Require Import String.
Set Implicit Arguments.
Local Open Scope N_scope.
Local Open Scope list_scope.
Notation length := List.length.

(** A node that reads the JSON by the JSON-RPC convention, place by place,
    selects exactly the logs that the filter matches.  There are four places,
    each [null], a hash or a list of hashes. *)
Theorem C54_meaning : forall f, exists js, se_filter f = JArr js /\ length js = 4%nat /\ Forall place_form js /\
  forall topics, places_allow js topics <-> filter_matches f topics.
Proof. exact filter_meaning. Qed.
Print Assumptions C54_meaning.
(** A hash text writes one hash only. *)
Theorem C54_hash : forall s h h', hash_text s h -> hash_text s h' -> h = h'.
Proof. exact hash_text_unique. Qed.
Print Assumptions C54_hash.
(** The text that is sent denotes this JSON and no other. *)
Theorem C54_text : forall f j, json_text (show_json (se_filter f)) j <-> j = se_filter f.
Proof. exact filter_text. Qed.
Print Assumptions C54_text.
(** From the request to the log: whoever reads the text of the filter that an
    event made of a request selects a log of that event exactly if the request
    allows the values of its indexed inputs (of value types; C30 says what
    happens for the others). *)
Theorem C54_selects : forall p e raw f vs log j, emits e vs log ->
  have_types vs (map ep_kind (e_inputs e)) = true -> forallb solidity_type (map ep_kind (e_inputs e)) = true ->
  raw_typed raw (map ep_kind (isel true (e_inputs e))) ->
  forallb value_type (map ep_kind (isel true (e_inputs e))) = true ->
  event_filter p e raw = Ok f -> json_text (show_json (se_filter f)) j ->
  exists js, j = JArr js /\ (places_allow js (rl_topics log) <-> raw_matches raw (values_of (select true (e_inputs e) vs))).
Proof. exact filter_selects. Qed.
Print Assumptions C54_selects.
(** The filter of an event that is not anonymous selects only logs that begin
    with the hash of its signature. *)
Theorem C54_signature : forall p e raw f s j topics, canonical_signature (e_name e) (map ep_kind (e_inputs e)) s -> e_anonymous e = false ->
  event_filter p e raw = Ok f -> json_text (show_json (se_filter f)) j ->
  forall js, j = JArr js -> places_allow js topics -> nth_error topics 0 = Some (keccak256 (utf8 s)).
Proof. exact filter_signature. Qed.
Print Assumptions C54_signature.
Example C54_selects_case :
  let e := mkEvent (lit "Transfer") [mkEventParam (lit "from") PAddress true; mkEventParam (lit "to") PAddress true; mkEventParam (lit "value") (PUint 256) false] false in
  let raw := mkRawFilter Any (This (TAddress (repeat xab 20))) Any in
  raw_typed raw (map ep_kind (isel true (e_inputs e))) /\
  forallb value_type (map ep_kind (isel true (e_inputs e))) = true /\
  exists f, event_filter Release e raw = Ok f /\
    show_json (se_filter f) = lit "[""0xddf252ad1be2c89b69c2b068fc378daa952ba7f163c4a11628f55a4df523b3ef"",null,""0x000000000000000000000000abababababababababababababababababababab"",null]".
Proof.
  split; [repeat split; repeat constructor; cbn; eauto|]. split; [vm_compute; reflexivity|].
  eexists. split; vm_compute; reflexivity.
Qed.
Example C54_selects_log :
  let e := mkEvent (lit "Transfer") [mkEventParam (lit "from") PAddress true; mkEventParam (lit "to") PAddress true; mkEventParam (lit "value") (PUint 256) false] false in
  let vs := [TAddress (repeat x01 20); TAddress (repeat xab 20); TUint 7] in
  let log := mkRawLog (keccak256 (utf8 (lit "Transfer(address,address,uint256)")) :: indexed_topics (e_inputs e) vs) (abi_encode [PUint 256] [TUint 7]) in
  emits e vs log /\ have_types vs (map ep_kind (e_inputs e)) = true /\ forallb solidity_type (map ep_kind (e_inputs e)) = true /\
  raw_matches (mkRawFilter Any (This (TAddress (repeat xab 20))) Any) (values_of (select true (e_inputs e) vs)) /\
  ~ raw_matches (mkRawFilter (This (TAddress (repeat xab 20))) Any Any) (values_of (select true (e_inputs e) vs)).
Proof.
  cbn zeta. split; [split; [exists (lit "Transfer(address,address,uint256)"); split; [apply canonical_iff; reflexivity|reflexivity]|vm_compute; reflexivity]|].
  split; [vm_compute; reflexivity|]. split; [vm_compute; reflexivity|]. split; [repeat split|]. intros (H & _). vm_compute in H. discriminate H.
Qed.
Example C54_meaning_case :
  let f := mkFilter (This (repeat xab 32)) Any (OneOf [repeat x01 32; repeat x02 32]) Any in
  filter_matches f [repeat xab 32; repeat x07 32; repeat x02 32] /\
  ~ filter_matches f [repeat xab 32; repeat x02 32; repeat x07 32] /\
  ~ filter_matches f [repeat xab 32; repeat x02 32].
Proof.
  cbv [filter_matches topic_matches topic0 topic1 topic2 topic3 nth_error]. repeat split.
  - exists (repeat x02 32). cbn. auto.
  - intros (_ & _ & (a & [<-|[<-|[]]] & E) & _); discriminate E.
  - intros (_ & _ & (a & _ & E) & _); discriminate E.
Qed.

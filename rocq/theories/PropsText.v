(** * Properties of JSON as text (C67, and C23 and C24 down to the bytes).
    Nothing but statements; the proofs are in the other files. *)
From Verif Require Import Base Utf8 Types Function Event Json JsonSpec Contract ContractSpec JsonText JsonTextSpec JsonTextFacts JsonTextLoad TextSamples.
From Coq Require Import String Permutation.
Set Implicit Arguments.
Local Open Scope N_scope.
Local Open Scope list_scope.

(** ** C67: JSON is read as the JSON grammar says, and written so. *)
Theorem C67_reader : forall b j, parse_bytes b = Ok j <->
  exists s, wf_str s = true /\ b = utf8 s /\ json_text s j /\ json_depth j <= 127.
Proof. exact parse_bytes_exact. Qed.
Print Assumptions C67_reader.
Theorem C67_rejects : forall b, parse_bytes b = Err SerdeJson <->
  forall s j, wf_str s = true -> b = utf8 s -> json_text s j -> 127 < json_depth j.
Proof. exact parse_bytes_fails. Qed.
Print Assumptions C67_rejects.
(** A text denotes at most one value. *)
Theorem C67_unique : forall s j j', json_text s j -> json_text s j' -> j = j'.
Proof. exact json_text_unique. Qed.
Print Assumptions C67_unique.
Theorem C67_writer : forall j, writable j -> json_text (show_json j) j.
Proof. exact show_json_text. Qed.
Print Assumptions C67_writer.
Theorem C67_round : forall j, writable j -> scalar_json j = true ->
  parse_bytes (to_bytes j) = if json_depth j <=? 127 then Ok j else Err SerdeJson.
Proof. exact written_bytes. Qed.
Print Assumptions C67_round.
(** A contract loads from the bytes exactly if they are the text of a JSON
    value from which it loads. *)
Theorem C67_load : forall p b c, load_bytes p b = Ok c <->
  exists s j, wf_str s = true /\ b = utf8 s /\ json_text s j /\ load p j = Ok c.
Proof. exact load_bytes_exact. Qed.
Print Assumptions C67_load.
Theorem C67_load_panic : forall p b, load_bytes p b = Panic <->
  exists s j, wf_str s = true /\ b = utf8 s /\ json_text s j /\ load p j = Panic.
Proof. exact load_bytes_panic. Qed.
Print Assumptions C67_load_panic.
Example C67_case :
  parse_bytes (utf8 sample_text) = Ok sample_value /\ json_depth sample_value = 4 /\
  writable sample_value /\ scalar_json sample_value = true /\
  show_json sample_value = lit "[""a\n\""\u001f""," ++ [34; 0x1F600; 34] ++ lit ",{""k"":[-1.5e+3,true,{}]}]" /\
  parse_bytes (utf8 (lit "[1,]")) = Err SerdeJson /\ parse_bytes (utf8 (lit "01")) = Err SerdeJson /\
  parse_bytes (utf8 (lit """\ud83d""")) = Err SerdeJson.
Proof. repeat split; try (vm_compute; reflexivity). exact sample_writable. Qed.
Example C67_load_case : is_ok (load_bytes Debug (utf8 sample_abi)) = true /\ load_bytes Debug (utf8 panicking_abi) = Panic.
Proof. vm_compute. auto. Qed.

(** ** C23, C24: the round trips, down to the bytes. *)
Theorem C23_param_bytes : forall p a, wf_type (p_kind a) = true -> scalar_param a = true ->
  (from_bytes (de_param p Text) (to_bytes (se_param a)) = Ok a <-> component_depth (p_kind a) <= 126).
Proof. exact param_bytes. Qed.
Print Assumptions C23_param_bytes.
Theorem C23_event_param_bytes : forall p a, wf_type (ep_kind a) = true -> scalar_event_param a = true ->
  (from_bytes (de_event_param p Text) (to_bytes (se_event_param a)) = Ok a <-> component_depth (ep_kind a) <= 126).
Proof. exact event_param_bytes. Qed.
Print Assumptions C23_event_param_bytes.
Theorem C23_tuple_param_bytes : forall p a, wf_type (tp_kind a) = true -> scalar_tuple_param a = true ->
  (from_bytes (de_tuple_param p Text) (to_bytes (se_tuple_param a)) = Ok a <-> component_depth (tp_kind a) <= 126).
Proof. exact tuple_param_bytes. Qed.
Print Assumptions C23_tuple_param_bytes.
Theorem C24_bytes : forall p p' b c fs es, load_bytes p b = Ok c -> Permutation (c_functions c) fs -> Permutation (c_events c) es ->
  if forallb (fun k => component_depth k <=? 123) (types_of c)
  then exists c', load_bytes p' (to_bytes (se_contract c fs es)) = Ok c' /\ same_contract c c'
  else load_bytes p' (to_bytes (se_contract c fs es)) = Err SerdeJson.
Proof. exact rewritten_bytes. Qed.
Print Assumptions C24_bytes.
Example C24_bytes_case : exists c, load_bytes Debug (utf8 sample_abi) = Ok c /\ types_of c = [PTuple [PUint 256; PBool]] /\
  show_json (se_contract c (c_functions c) (c_events c)) = written_abi.
Proof. eexists. split; [vm_compute; reflexivity|]. vm_compute. auto. Qed.

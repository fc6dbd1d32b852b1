(** * Properties of the codec (C01-C14, C39, C40, C42, C63).
    Every theorem is proved elsewhere and closed here by [exact]. *)
From Verif Require Import Base Utf8 Types Encoder Decoder AbiSpec DecoderSpec
  Utf8Facts EncoderFacts EncoderTotal DecoderFacts DecoderProps CodecLemmas LossySpec LossyFacts DecoderPanics RoundTripExact Samples.
From Coq Require Import String.
Local Open Scope N_scope.
Local Open Scope list_scope.

(** ** C01: decode inverts encode, for any mix of build profiles. *)
Theorem C01_round_trip : forall p p' ts vs,
  forallb wf_type ts = true -> forallb solidity_type ts = true -> have_types vs ts = true ->
  forallb short_arrays vs = true -> enc_size (PTuple ts) (TTuple vs) < two32 ->
  forallb zero_size ts = false \/ ts = [] ->
  exists data, encode p vs = Ok data /\ decode p' ts data = Ok vs.
Proof. exact round_trip. Qed.
Print Assumptions C01_round_trip.
Example C01_case : forallb wf_type sample_types = true /\ forallb solidity_type sample_types = true /\
  have_types sample_values sample_types = true /\ forallb short_arrays sample_values = true /\
  enc_size (PTuple sample_types) (TTuple sample_values) < two32 /\ forallb zero_size sample_types = false.
Proof. vm_compute. repeat split. Qed.

(** Without the last condition: the encoding of types that take no room is
    empty, and decoding it either gives the values or fails. *)
Theorem C01_exact : forall p p' ts vs,
  forallb wf_type ts = true -> forallb solidity_type ts = true -> have_types vs ts = true ->
  forallb short_arrays vs = true -> enc_size (PTuple ts) (TTuple vs) < two32 ->
  exists data, encode p vs = Ok data /\
    (forallb zero_size ts = false \/ Forall may_be_empty ts -> decode p' ts data = Ok vs) /\
    (forallb zero_size ts = true -> ~ Forall may_be_empty ts -> data = [] /\ decode p' ts data = Err (InvalidName empty_data_msg)).
Proof. exact round_trip_exact. Qed.
Print Assumptions C01_exact.
Example C01_exact_case :
  let ts := [PFixedArray (PUint 8) 0; PFixedArray PBool 0] in
  let us := [PFixedArray (PUint 8) 0; PTuple [PFixedArray PBool 0]] in
  forallb wf_type ts = true /\ forallb solidity_type ts = true /\ Forall may_be_empty ts /\
  have_types [TFixedArray []; TFixedArray []] ts = true /\
  forallb wf_type us = true /\ forallb solidity_type us = true /\ forallb zero_size us = true /\
  have_types [TFixedArray []; TTuple [TFixedArray []]] us = true /\ ~ Forall may_be_empty us.
Proof.
  cbv zeta. do 2 (split; [reflexivity|]). split; [apply Forall_cons; [right; eauto|apply Forall_cons; [right; eauto|apply Forall_nil]]|].
  do 5 (split; [reflexivity|]). rewrite !Forall_cons_iff. intros (_ & [F|[u F]] & _); discriminate.
Qed.

(** The conditions on the types are needed: bytes33, string[0], and an
    encoding that is empty do not round trip. *)
Theorem C01_refuted_bytes33 : exists v, has_type v (PFixedBytes 33) = true /\
  forall p p', exists data, encode p [v; TUint 1] = Ok data /\ decode p' [PFixedBytes 33; PUint 256] data <> Ok [v; TUint 1].
Proof.
  exists (TFixedBytes (repeat x01 33)). split; [reflexivity|]. intros p p'.
  destruct p, p'; eexists; (split; [vm_compute; reflexivity|vm_compute; discriminate]).
Qed.
Print Assumptions C01_refuted_bytes33.
Theorem C01_refuted_empty_dynamic : forall p p', exists data,
  encode p [TFixedArray []; TUint 7] = Ok data /\ decode p' [PFixedArray PString 0; PUint 256] data <> Ok [TFixedArray []; TUint 7].
Proof. intros p p'. destruct p, p'; eexists; (split; [vm_compute; reflexivity|vm_compute; discriminate]). Qed.
Print Assumptions C01_refuted_empty_dynamic.
Theorem C01_refuted_unit : forall p p', exists data,
  encode p [TTuple []] = Ok data /\ decode p' [PTuple []] data <> Ok [TTuple []].
Proof. intros p p'. destruct p, p'; eexists; (split; [vm_compute; reflexivity|vm_compute; discriminate]). Qed.
Print Assumptions C01_refuted_unit.

(** ** C02: the encoder implements the ABI specification. *)
Theorem C02_conforms : forall p ts vs,
  forallb solidity_type ts = true -> have_types vs ts = true ->
  forallb short_arrays vs = true -> enc_size (PTuple ts) (TTuple vs) < two32 ->
  encode p vs = Ok (abi_encode ts vs).
Proof. exact encode_conforms. Qed.
Print Assumptions C02_conforms.
Example C02_case : have_types sample_values sample_types = true /\ len sample_data = 576.
Proof. vm_compute. repeat split. Qed.
(** The 4 GiB bound is needed: u32 arithmetic overflows (checked build) or
    silently produces something else (wrapping build). *)
Theorem C02_refuted_4GiB : forall b, two32 <= len b -> len b < 2 ^ 36 ->
  encode Debug [TBytes b] = Panic /\
  exists data, encode Release [TBytes b] = Ok data /\ data <> abi_encode [PBytes] [TBytes b].
Proof. exact encode_bytes_4GiB. Qed.
Print Assumptions C02_refuted_4GiB.
Example C02_4GiB_case : exists b, two32 <= @len byte b /\ @len byte b < 2 ^ 36.
Proof.
  exists (zeros (N.to_nat two32)). unfold len, zeros. rewrite repeat_length, Nnat.N2Nat.id. split; [apply N.le_refl|reflexivity].
Qed.

(** ** C03: whole words, and a length determined by types and sizes. *)
Theorem C03_whole_words : forall p vs data, encode p vs = Ok data -> len data mod 32 = 0.
Proof. exact encode_whole_words. Qed.
Print Assumptions C03_whole_words.
Example C03_case : exists data, encode Release [TTuple [TFixedBytes (repeat x01 45)]; TFixedArray [TBool true; TString (lit "x")]] = Ok data
   /\ data <> [].
Proof. eexists. split; [vm_compute; reflexivity|discriminate]. Qed.
Theorem C03_length : forall p ts vs data,
  forallb solidity_type ts = true -> have_types vs ts = true ->
  forallb short_arrays vs = true -> enc_size (PTuple ts) (TTuple vs) < two32 ->
  encode p vs = Ok data -> len data = enc_size (PTuple ts) (TTuple vs).
Proof. exact encode_len. Qed.
Print Assumptions C03_length.
Example C03_length_case : enc_size (PTuple sample_types) (TTuple sample_values) = 576.
Proof. vm_compute. reflexivity. Qed.

(** ** C04: the encoding is injective. *)
Theorem C04_injective : forall p p' ts vs vs' data,
  forallb solidity_type ts = true -> have_types vs ts = true -> have_types vs' ts = true ->
  forallb short_arrays vs = true -> forallb short_arrays vs' = true ->
  enc_size (PTuple ts) (TTuple vs) < two32 -> enc_size (PTuple ts) (TTuple vs') < two32 ->
  encode p vs = Ok data -> encode p' vs' = Ok data -> vs = vs'.
Proof. exact encode_injective. Qed.
Print Assumptions C04_injective.
Example C04_case : have_types [TString (lit "a")] [PString] = true /\ have_types [TString (lit "b")] [PString] = true /\
  is_ok (encode Debug [TString (lit "a")]) = true.
Proof. vm_compute. repeat split. Qed.

(** ** C05: decode does not panic, except for dynamic fixed-size arrays and
    absurd bytesN sizes. *)
Theorem C05_no_panic_partial : forall p ts data, fits data ->
  forallb no_dynamic_fixed_array ts = true -> forallb fixed_bytes_sane ts = true ->
  (exists vs, decode p ts data = Ok vs) \/ decode p ts data = Err InvalidData \/
  (data = [] /\ decode p ts data = Err (InvalidName empty_data_msg)).
Proof. exact decode_no_panic. Qed.
Print Assumptions C05_no_panic_partial.
Example C05_case : fits (repeat xff 100) /\ forallb no_dynamic_fixed_array sample_types = true /\
  forallb fixed_bytes_sane sample_types = true.
Proof. vm_compute. repeat split. Qed.
(** The full statement is false: an offset beyond the data panics for string[1]. *)
Theorem C05_refuted : exists data, len data = 32 /\ forall p, decode p [PFixedArray PString 1] data = Panic.
Proof. exists (word 1000). split; [reflexivity|]. intros []; vm_compute; reflexivity. Qed.
Print Assumptions C05_refuted.
Theorem C05_refuted_fixed_bytes : exists data n, wf_type (PFixedBytes n) = true /\ len data = 32 /\
  forall p, decode p [PUint 256; PFixedBytes n] data = Panic.
Proof.
  exists (word 1), (two64 - 1). split; [reflexivity|]. split; [reflexivity|]. intros []; vm_compute; reflexivity.
Qed.
Print Assumptions C05_refuted_fixed_bytes.

(** ** C06: decoded tokens have the requested types. *)
Theorem C06_typed : forall p ts data vs, forallb wf_type ts = true -> fits data -> decode p ts data = Ok vs ->
  List.length vs = List.length ts /\ have_types vs ts = true /\ types_check vs ts = Ok true.
Proof. exact decode_typed. Qed.
Print Assumptions C06_typed.
Example C06_case : decode Debug sample_types sample_data = Ok sample_values.
Proof. vm_compute. reflexivity. Qed.

(** ** C07: trailing bytes are ignored. *)
Theorem C07_suffix : forall p ts data x vs, forallb wf_type ts = true -> fits (data ++ x) ->
  decode p ts data = Ok vs -> decode p ts (data ++ x) = Ok vs.
Proof. exact decode_suffix. Qed.
Print Assumptions C07_suffix.
Example C07_case : decode Debug sample_types (sample_data ++ repeat xaa 7) = Ok sample_values.
Proof. vm_compute. reflexivity. Qed.

(** ** C08: decode succeeds exactly on data that holds the values. *)
Theorem C08_reads : forall p ts data vs, forallb wf_type ts = true -> fits data ->
  (decode p ts data = Ok vs <->
   (data <> [] \/ Forall may_be_empty ts) /\
   exists next, reads_seq data ts 0 vs next).
Proof. exact decode_reads. Qed.
Print Assumptions C08_reads.
(** A non-canonical layout: two strings sharing one tail. *)
Example C08_case : decode Release [PString; PString] (word 64 ++ word 64 ++ word 2 ++ [x68; x69]) =
  Ok [TString (lit "hi"); TString (lit "hi")].
Proof. vm_compute. reflexivity. Qed.

(** ** C09: array sizes are bounded by the data. *)
Theorem C09_bounded_partial : forall p ts data vs,
  forallb wf_type ts = true -> fits data -> forallb solidity_type ts = true ->
  forallb sized_elements ts = true -> decode p ts data = Ok vs ->
  forallb (arrays_bounded (len data / 32)) vs = true.
Proof. exact decode_bounded. Qed.
Print Assumptions C09_bounded_partial.
Example C09_case : forallb sized_elements sample_types = true /\ is_ok (decode Debug sample_types sample_data) = true.
Proof. vm_compute. repeat split. Qed.
(** False for elements without size: 64 bytes decode to any number of tokens. *)
Theorem C09_refuted : forall p n, n < two32 -> exists data, len data = 64 /\
  decode p [PArray (PTuple [])] data = Ok [TArray (repeat (TTuple []) (N.to_nat n))].
Proof. exact forged_length'. Qed.
Print Assumptions C09_refuted.
Example C09_refuted_case : 4000000000 < two32.
Proof. reflexivity. Qed.

(** ** C10: bool words. *)
Theorem C10_bool_partial : forall p pre data vs w,
  forallb wf_type pre = true -> fits data -> decode p pre data = Ok vs ->
  bytes_at data (heads_width pre) w -> len w = 32 ->
  decode p (pre ++ [PBool]) data =
    if of_be w <? 256 then Ok (vs ++ [TBool (of_be w =? 1)]) else Err InvalidData.
Proof. exact bool_word. Qed.
Print Assumptions C10_bool_partial.
Example C10_case : decode Debug [PUint 8] (word 9 ++ word 1) = Ok [TUint 9] /\
  bytes_at (word 9 ++ word 1) (heads_width [PUint 8]) (word 1) /\ of_be (word 1) = 1.
Proof. split; [vm_compute; reflexivity|]. split; [|vm_compute; reflexivity]. exists (word 9), []. split; reflexivity. Qed.
Theorem C10_refuted : forall p, decode p [PBool] (word 2) = Ok [TBool false].
Proof. intros []; vm_compute; reflexivity. Qed.
Print Assumptions C10_refuted.

(** ** C11: static words are read whole. *)
Theorem C11_static_words : forall p pre data vs w n,
  forallb wf_type pre = true -> fits data -> decode p pre data = Ok vs ->
  bytes_at data (heads_width pre) w -> len w = 32 ->
  decode p (pre ++ [PUint n]) data = Ok (vs ++ [TUint (of_be w)]) /\
  decode p (pre ++ [PInt n]) data = Ok (vs ++ [TInt (of_be w)]) /\
  decode p (pre ++ [PAddress]) data = Ok (vs ++ [TAddress (skipn 12 w)]).
Proof. exact uint_word. Qed.
Print Assumptions C11_static_words.
Theorem C11_fixed_bytes : forall p pre data vs b n,
  forallb wf_type pre = true -> fits data -> decode p pre data = Ok vs ->
  bytes_at data (heads_width pre) b -> len b = n -> 1 <= n -> n < two64 ->
  decode p (pre ++ [PFixedBytes n]) data = Ok (vs ++ [TFixedBytes b]).
Proof. exact fixed_bytes_word. Qed.
Print Assumptions C11_fixed_bytes.
Example C11_case : decode Debug [PString; PFixedArray PBool 2] (word 128 ++ word 1 ++ word 0 ++ word 77 ++ word 0) =
   Ok [TString []; TFixedArray [TBool true; TBool false]] /\
   heads_width [PString; PFixedArray PBool 2] = 96.
Proof. vm_compute. repeat split. Qed.

(** ** C12: offsets and lengths are range-checked. *)
Theorem C12_offset : forall p pre t post data vs w,
  forallb wf_type pre = true -> fits data -> decode p pre data = Ok vs -> dynamic t = true ->
  bytes_at data (heads_width pre) w -> len w = 32 -> two32 <= of_be w ->
  decode p (pre ++ t :: post) data = Err InvalidData.
Proof. exact big_offset. Qed.
Print Assumptions C12_offset.
Theorem C12_length : forall p pre t post data vs o w,
  forallb wf_type pre = true -> fits data -> decode p pre data = Ok vs ->
  (t = PBytes \/ t = PString \/ exists t', t = PArray t') ->
  index_at data (heads_width pre) o ->
  bytes_at data o w -> len w = 32 -> two32 <= of_be w ->
  decode p (pre ++ t :: post) data = Err InvalidData.
Proof. exact big_length. Qed.
Print Assumptions C12_length.
Example C12_case : decode Debug [PBool] (word 1 ++ word (two32 + 64) ++ word 0) = Ok [TBool true] /\
  decode Debug [PBool; PString] (word 1 ++ word (two32 + 64) ++ word 0) = Err InvalidData /\
  decode Debug [PBool; PString] (word 1 ++ word 64 ++ word two32) = Err InvalidData.
Proof. vm_compute. repeat split. Qed.

(** ** C13: strings. *)
Theorem C13_string : forall p pre data vs o b s,
  forallb wf_type pre = true -> fits data -> decode p pre data = Ok vs ->
  index_at data (heads_width pre) o -> index_at data o (len b) -> bytes_at data (o + 32) b -> lossy b s ->
  decode p (pre ++ [PString]) data = Ok (vs ++ [TString s]).
Proof. exact string_lossy. Qed.
Print Assumptions C13_string.
Theorem C13_lossy : forall b s, utf8_lossy b = s <-> lossy b s.
Proof. exact utf8_lossy_iff. Qed.
Print Assumptions C13_lossy.
Theorem C13_scalar : forall b, wf_str (utf8_lossy b) = true.
Proof. exact utf8_lossy_wf. Qed.
Print Assumptions C13_scalar.
Theorem C13_exact : forall s, wf_str s = true -> utf8_lossy (utf8 s) = s.
Proof. exact utf8_lossy_utf8. Qed.
Print Assumptions C13_exact.
Theorem C13_replacement : forall b, (forall s, wf_str s = true -> utf8 s <> b) -> In 0xFFFD (utf8_lossy b).
Proof. exact lossy_marks. Qed.
Print Assumptions C13_replacement.
Example C13_case : utf8_lossy [x68; xc3; xa9; xff; xe2; x82] = [104; 233; 0xFFFD; 0xFFFD] /\
  wf_str [104; 0x20AC; 0x1F600] = true.
Proof. vm_compute. repeat split. Qed.

(** ** C14: type_check. *)
Theorem C14_exact_partial : forall v t, wf_token v = true -> same_shape v t = true ->
  type_check v t = Ok (has_type v t).
Proof. exact type_check_shape. Qed.
Print Assumptions C14_exact_partial.
Theorem C14_decides : forall v t, type_check v t = Ok true <-> loosely_typed v t = true.
Proof. exact type_check_loose. Qed.
Print Assumptions C14_decides.
Theorem C14_total_partial : forall v t, no_long_tuple v t = true -> exists b, type_check v t = Ok b.
Proof. exact type_check_total. Qed.
Print Assumptions C14_total_partial.
Theorem C14_accepts : forall t v, has_type v t = true -> type_check v t = Ok true.
Proof. exact has_type_check. Qed.
Print Assumptions C14_accepts.
Example C14_case : same_shape (TTuple sample_values) (PTuple sample_types) = true /\
  has_type (TTuple sample_values) (PTuple sample_types) = true /\
  same_shape (TBool true) PString = true /\ has_type (TBool true) PString = false /\
  no_long_tuple (TTuple [TBool true]) (PTuple [PString; PBool]) = true.
Proof. vm_compute. repeat split. Qed.
Theorem C14_refuted_panic : type_check (TTuple [TBool true; TBool false]) (PTuple [PBool]) = Panic.
Proof. reflexivity. Qed.
Print Assumptions C14_refuted_panic.
Theorem C14_refuted_short : type_check (TTuple []) (PTuple [PBool; PString]) = Ok true /\
  has_type (TTuple []) (PTuple [PBool; PString]) = false /\
  type_check (TFixedBytes [x01]) (PFixedBytes 4) = Ok true /\ has_type (TFixedBytes [x01]) (PFixedBytes 4) = false.
Proof. repeat split. Qed.
Print Assumptions C14_refuted_short.

(** ** C39: token and type agree on being dynamic, and both mean the
    specification's "dynamic". *)
Theorem C39_dynamic_partial : forall t v, solidity_type t = true -> has_type v t = true ->
  token_is_dynamic v = ptype_is_dynamic t /\ ptype_is_dynamic t = dynamic t.
Proof. exact dynamic_agree. Qed.
Print Assumptions C39_dynamic_partial.
Example C39_case : solidity_type (PTuple sample_types) = true /\ has_type (TTuple sample_values) (PTuple sample_types) = true
  /\ dynamic (PTuple sample_types) = true.
Proof. vm_compute. repeat split. Qed.
Theorem C39_refuted : exists t v, has_type v t = true /\ token_is_dynamic v <> ptype_is_dynamic t.
Proof. exists (PFixedArray PString 0), (TFixedArray []). split; [reflexivity|discriminate]. Qed.
Print Assumptions C39_refuted.

(** ** C40: empty data. *)
Theorem C40_empty : forall p ts, ~ Forall may_be_empty ts ->
  decode p ts [] = Err (InvalidName empty_data_msg).
Proof. exact decode_empty. Qed.
Print Assumptions C40_empty.
Example C40_case : ~ Forall may_be_empty [PFixedBytes 0; PBool].
Proof. rewrite <- may_be_empty_all. discriminate. Qed.

(** ** C42: encode always returns. *)
Theorem C42_release : forall vs, forallb wf_token vs = true -> exists data, encode Release vs = Ok data.
Proof. exact encode_total_release. Qed.
Print Assumptions C42_release.
(** In a checked build it returns whenever the encoding is below 4 GiB;
    the tokens need not be of any type. *)
Theorem C42_debug : forall p vs, forallb wf_token vs = true -> forallb short_arrays vs = true ->
  len (enc_seq (map part vs)) < two32 -> encode p vs = Ok (enc_seq (map part vs)).
Proof. exact encode_parts. Qed.
Print Assumptions C42_debug.
Example C42_case : let vs := [TArray [TBool true; TString (lit "mixed"); TTuple []]] in
  forallb wf_token vs = true /\ forallb short_arrays vs = true /\ len (enc_seq (map part vs)) < two32.
Proof. vm_compute. repeat split. Qed.

(** ** C63: with C08, the outcome of decode for all types and data. *)
Theorem C63_panics : forall p ts data, forallb wf_type ts = true -> fits data ->
  (decode p ts data = Panic <-> (data <> [] \/ Forall may_be_empty ts) /\ crashes_seq p data ts 0).
Proof. exact decode_panics. Qed.
Print Assumptions C63_panics.
(** A value is read before the array, and an element before the one that
    crashes. *)
Example C63_case : forall p, decode p [PUint 8; PArray (PFixedArray PString 1)]
  (word 9 ++ word 64 ++ word 2 ++ word 64 ++ word 500 ++ word 32 ++ word 1 ++ word 0) = Panic.
Proof. intros []; vm_compute; reflexivity. Qed.
Theorem C63_errors : forall p ts data e, forallb wf_type ts = true -> fits data -> decode p ts data = Err e ->
  e = InvalidData \/ (data = [] /\ ~ Forall may_be_empty ts /\ e = InvalidName empty_data_msg).
Proof. exact decode_errors. Qed.
Print Assumptions C63_errors.
Example C63_errors_case : decode Debug [PFixedArray PString 1] (word 32 ++ word 32) = Err InvalidData.
Proof. vm_compute. reflexivity. Qed.

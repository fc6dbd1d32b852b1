(** * Theorems: decoding on targets with 32-bit [usize] *)
From Verif Require Import Base Utf8 Types Encoder Decoder AbiSpec DecoderSpec RoundTrip CodecLemmas Decoder32 Decoder32Spec Decoder32Facts Decoder32Trip.
Local Open Scope N_scope.
Local Open Scope list_scope.

(** ** C81: a 32-bit target decodes the same values, and panics where a 64-bit
    target reports an error. *)
Theorem C81_values : forall p ts data vs, forallb sized32 ts = true -> fits32 data -> (decode32 p ts data = Ok vs <-> decode p ts data = Ok vs).
Proof. exact decode32_values. Qed.
Print Assumptions C81_values.
(** The two differ in nothing but this panic. *)
Theorem C81_differs : forall p ts data, forallb sized32 ts = true -> fits32 data ->
  decode32 p ts data = decode p ts data \/ decode32 p ts data = Panic /\ decode p ts data = Err InvalidData.
Proof. exact decode32_or. Qed.
Print Assumptions C81_differs.
(** The data on which decoding panics. *)
Theorem C81_panics : forall p ts data, forallb sized32 ts = true -> fits32 data ->
  (decode32 p ts data = Panic <-> (data <> [] \/ Forall may_be_empty ts) /\ crashes32_seq p data ts 0).
Proof. exact decode32_panics. Qed.
Print Assumptions C81_panics.
(** Data without large numbers is treated alike. *)
Theorem C81_agrees : forall p ts data, forallb sized32 ts = true -> forallb moderate ts = true -> fits32 data -> calm data -> decode32 p ts data = decode p ts data.
Proof. exact decode32_agrees. Qed.
Print Assumptions C81_agrees.
(** What is encoded is decoded on any target. *)
Theorem C81_round_trip : forall p p' ts vs,
  forallb sized32 ts = true -> forallb solidity_type ts = true -> have_types vs ts = true -> forallb short_arrays vs = true ->
  enc_size (PTuple ts) (TTuple vs) < two32 -> forallb zero_size ts = false \/ ts = [] ->
  exists data, encode p vs = Ok data /\ (fits32 data -> decode32 p' ts data = Ok vs).
Proof. exact round_trip32. Qed.
Print Assumptions C81_round_trip.

(** A word that holds a 32-bit number. *)
Definition C81_word (a b c d : byte) : list byte := repeat x00 28 ++ [a; b; c; d].
Definition C81_text : list byte := C81_word x00 x00 x00 x20 ++ C81_word x00 x00 x00 x02 ++ [x68; x69] ++ repeat x00 30.
Example C81_values_case : sized32 (PTuple [PString; PArray PBytes; PFixedBytes 32]) = true /\ fits32 C81_text /\
  forall p, decode32 p [PString] C81_text = Ok [TString [104; 105]].
Proof. split; [reflexivity|]. split; [vm_compute; reflexivity|]. intros []; vm_compute; reflexivity. Qed.

(** One offset or one length makes the difference: text at the far end of the
    32-bit range, and text of almost 4 GiB. *)
Definition C81_far : list byte := C81_word xff xff xff xe0.
Definition C81_long : list byte := C81_word x00 x00 x00 x20 ++ C81_word xff xff xff xc0.
Theorem C81_refuted : forall p, decode p [PString] C81_far = Err InvalidData /\ decode32 p [PString] C81_far = Panic /\
  decode p [PBytes] C81_long = Err InvalidData /\ decode32 p [PBytes] C81_long = Panic.
Proof. intros []; vm_compute; auto. Qed.
Print Assumptions C81_refuted.
Example C81_far_case : forall p, crashes32_seq p C81_far [PString] 0.
Proof. intros p. apply (C81_panics p [PString] C81_far); [reflexivity|vm_compute; reflexivity|destruct p; vm_compute; reflexivity]. Qed.
(** One less, and both report an error. *)
Example C81_boundary : forall p, decode32 p [PString] (C81_word xff xff xff xdf) = Err InvalidData /\
  decode32 p [PBytes] (C81_word x00 x00 x00 x20 ++ C81_word xff xff xff xbf) = Err InvalidData.
Proof. intros []; vm_compute; auto. Qed.
(** A [bytesN] that ends beyond the 32-bit range: in release builds an error
    if the data ends early enough. *)
Example C81_size_case : forall data, data = C81_word x00 x00 x00 x01 ->
  decode32 Debug [PBool; PFixedBytes 4294967264] data = Panic /\ decode32 Release [PBool; PFixedBytes 4294967264] data = Panic /\
  decode32 Debug [PBool; PFixedBytes 4294967263] data = Err InvalidData /\
  decode32 Debug [PFixedBytes 1; PFixedBytes 4294967295] [x07] = Panic /\ decode32 Release [PFixedBytes 1; PFixedBytes 4294967295] [x07] = Err InvalidData.
Proof. intros data ->. vm_compute. auto. Qed.
Example C81_agrees_case : calm C81_text /\ forallb moderate [PString] = true.
Proof. split; [apply calm_check; vm_compute; reflexivity|reflexivity]. Qed.
Example C81_trip_case : sized32 (PArray PString) = true /\ (have_types [TArray [TString [104; 105]]] [PArray PString] = true) /\
  exists data, encode Debug [TArray [TString [104; 105]]] = Ok data /\ fits32 data.
Proof. split; [reflexivity|]. split; [reflexivity|]. eexists. split; [vm_compute; reflexivity|]. vm_compute. reflexivity. Qed.

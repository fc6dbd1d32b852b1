(** * Properties: encodings of any size *)
From Verif Require Import Base Types Encoder AbiSpec BaseFacts EncoderFacts WrapSpec WrapFacts WrapRight Samples.
Set Implicit Arguments.
Local Open Scope N_scope.

(** ** C71: encodings of 4 GiB and more. *)
(** For values of any size, of any type or none: an optimised build writes
    every offset and length modulo 2^32, and so does a checked build when the
    encoding is below 4 GiB (only an array can have more elements than that). *)
Theorem C71_wraps : forall p vs, forallb wf_token vs = true -> p = Release \/ len (encoding32 vs) < 2 ^ 32 ->
  encode p vs = Ok (encoding32 vs).
Proof. exact encode_wraps. Qed.
Print Assumptions C71_wraps.
(** The length word of 4 GiB of data is zero. *)
Example C71_wraps_case : forall b, len b = 2 ^ 32 ->
  forallb wf_token [TBytes b; TUint 7] = true /\ encoding32 [TBytes b; TUint 7] = word 64 ++ word 7 ++ word 0 ++ b.
Proof.
  intros b L. split; [reflexivity|]. unfold encoding32. cbn [value32 map dynamic_value].
  unfold word32. rewrite L. change (2 ^ 32 mod 2 ^ 32) with 0. unfold padding. change (2 ^ 32 mod 32) with 0.
  change (zeros (N.to_nat _)) with (@nil byte). rewrite app_nil_r.
  unfold seq32. cbn [heads32 heads_size head_size tails]. rewrite !app_nil_r, len_word, <- !app_assoc. reflexivity.
Qed.
(** A checked build panics exactly if the encoding has 4 GiB or more, up to
    128 GiB, where the number of words is itself cut off. *)
Theorem C71_checked : forall vs, forallb wf_token vs = true -> len (encoding32 vs) < 2 ^ 37 ->
  (encode Debug vs = Panic <-> 2 ^ 32 <= len (encoding32 vs)).
Proof. exact encode_checked. Qed.
Print Assumptions C71_checked.
Example C71_checked_case : exists b, forallb wf_token [TBytes b] = true /\
  len (encoding32 [TBytes b]) < 2 ^ 37 /\ 2 ^ 32 <= len (encoding32 [TBytes b]).
Proof.
  exists (zeros (N.to_nat (2 ^ 32))). split; [reflexivity|]. unfold encoding32. cbn [value32 map dynamic_value].
  rewrite seq32_len. cbn [heads_size head_size tails]. rewrite app_nil_r, !len_app, len_word32, len_zeros, Nnat.N2Nat.id.
  split; vm_compute; [reflexivity|discriminate].
Qed.
(** An optimised build writes the specified encoding exactly if all its
    offsets and lengths fit into 32 bits. *)
Theorem C71_right : forall ts vs, forallb solidity_type ts = true -> have_types vs ts = true ->
  forallb (arrays_bounded (2 ^ 63)) vs = true -> len (encoding32 vs) < 2 ^ 63 ->
  (encode Release vs = Ok (abi_encode ts vs) <-> words_fit (TTuple vs) = true).
Proof. exact encode_right. Qed.
Print Assumptions C71_right.
Example C71_right_case : forallb solidity_type sample_types = true /\ have_types sample_values sample_types = true /\
  forallb (arrays_bounded (2 ^ 63)) sample_values = true /\ len (encoding32 sample_values) < 2 ^ 63 /\
  words_fit (TTuple sample_values) = true.
Proof. vm_compute. repeat split. Qed.
(** Both happen above 4 GiB: the last value of a list may be that long, but
    nothing can follow it. *)
Example C71_right_large : forall b, len b = 2 ^ 32 - 1 ->
  words_fit (TTuple [TBytes b]) = true /\ words_fit (TTuple [TBytes b; TString []]) = false.
Proof.
  intros b L. cbn [words_fit forallb map]. unfold seq_fits. cbn [offsets_fit heads_size head_size dynamic_value value32].
  rewrite !len_app, len_word32, L. unfold padding. rewrite len_zeros, Nnat.N2Nat.id. split; vm_compute; reflexivity.
Qed.

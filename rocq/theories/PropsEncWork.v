(** * C84: encoding takes time at most proportional to size times depth, and does take it *)
From Verif Require Import Base Types AbiSpec WrapSpec MemSpec EncWorkSpec Encoder EncoderWork EncWorkErase EncWorkFacts EncWorkBound.
From Coq Require Import String.
Local Open Scope N_scope.
Local Open Scope list_scope.

(** Counting changes nothing. *)
Theorem C84_same : forall p vs, snd (encode_work p vs) = encode p vs.
Proof. exact encode_same. Qed.
Print Assumptions C84_same.

(** An encoding takes exactly the steps that the values determine; no run takes more. *)
Theorem C84_exact : forall p vs, fst (encode_work p vs) <= encoding vs /\ forall data, encode p vs = Ok data -> fst (encode_work p vs) = encoding vs.
Proof. exact (fun p vs => conj (work_most p vs) (fun data => @work_exact p vs data)). Qed.
Print Assumptions C84_exact.

(** A multiple of size times depth is enough, also for runs that panic. *)
Theorem C84_bound : forall p vs, fst (encode_work p vs) <= 2 + (5 * deepest vs + 3) * size vs.
Proof. exact work_bound. Qed.
Print Assumptions C84_bound.

(** The words counted in the size are those of the encoding. *)
Theorem C84_words : forall p vs data, encode p vs = Ok data -> len data = 32 * sum_of words vs.
Proof. exact words_exact. Qed.
Print Assumptions C84_words.

(** The depth cannot be left out: arrays in arrays take quadratic time. *)
Theorem C84_attained : forall k, exists data, encode Release [nested k] = Ok data /\ len data = 64 + 64 * N.of_nat k /\
  fst (encode_work Release [nested k]) = 15 + 17 * N.of_nat k + 4 * N.of_nat k * N.of_nat k.
Proof. exact nested_attained. Qed.
Print Assumptions C84_attained.
Theorem C84_tight : forall k, deepest [nested k] * size [nested k] <= encoding [nested k].
Proof. exact nested_tight. Qed.
Print Assumptions C84_tight.

(** A tuple with text, an array and a fixed array without tails: 9 values in 11 words, three deep. *)
Definition mixed : list Token := [TTuple [TString (lit "hello"%string); TArray [TUint 1; TUint 2]; TFixedArray [TBool true; TBool false]]; TFixedBytes [x01; x02]].
Example C84_case : exists data, encode Debug mixed = Ok data /\ len data = 32 * 11 /\ encoding mixed = 140 /\ fst (encode_work Debug mixed) = 140 /\ 2 + (5 * deepest mixed + 3) * size mixed = 362.
Proof. eexists. split; [vm_compute; reflexivity|]. repeat split; vm_compute; reflexivity. Qed.
Example C84_quadratic : encoding [nested 10] = 585 /\ encoding [nested 100] = 41715.
Proof. split; vm_compute; reflexivity. Qed.

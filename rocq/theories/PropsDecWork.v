(** * C85: how long decoding takes, on any data *)
From Verif Require Import Base Types AbiSpec DecoderSpec BombSpec Decoder EncoderWork DecoderWork DecWorkErase DecWorkSpec DecWorkFacts DecWorkBound DecWorkCases Samples.
Local Open Scope N_scope.
Local Open Scope list_scope.

(** Counting changes nothing. *)
Theorem C85_same : forall p ts data, snd (decode_work p ts data) = decode p ts data.
Proof. exact decode_same. Qed.
Print Assumptions C85_same.

(** No run takes more than the limit, whether it ends with values, an error or a panic. *)
Theorem C85_limit : forall p ts data, forallb wf_type ts = true -> fits data -> fst (decode_work p ts data) <= decode_limit (len data) ts.
Proof. exact decode_limited. Qed.
Print Assumptions C85_limit.
(** A fixed array of four billion numbers, given two words: the loop ends with the third. *)
Example C85_limit_case : forallb wf_type [PFixedArray (PUint 256) 4000000000] = true /\ fits (zeros 64) /\
  decode_limit 64 [PFixedArray (PUint 256) 4000000000] = 18 /\
  fst (decode_work Debug [PFixedArray (PUint 256) 4000000000] (zeros 64)) = 13 /\ decode Debug [PFixedArray (PUint 256) 4000000000] (zeros 64) = Err InvalidData.
Proof. repeat split; vm_compute; reflexivity. Qed.

(** A run that succeeds takes the steps that its result determines, up to the
    number of bytes of each character. *)
Theorem C85_result : forall p ts data vs, decode p ts data = Ok vs -> decoding 1 ts vs <= fst (decode_work p ts data) <= decoding 4 ts vs.
Proof. exact decode_spent. Qed.
Print Assumptions C85_result.
Theorem C85_exact : forall p ts data vs, forallb no_text ts = true -> decode p ts data = Ok vs -> fst (decode_work p ts data) = decoding 1 ts vs.
Proof. exact decode_exact. Qed.
Print Assumptions C85_exact.
(** Hence it is linear in the room that the result takes. *)
Theorem C85_linear : forall p ts data vs, forallb wf_type ts = true -> fits data -> decode p ts data = Ok vs ->
  weights vs <= fst (decode_work p ts data) <= 1 + len ts + (9 + total type_nodes ts) * weights vs.
Proof. exact decode_linear. Qed.
Print Assumptions C85_linear.

(** The limit is not linear in the data, and it cannot be: d levels of k
    offsets into the same place take k^d steps. *)
Theorem C85_shared : forall p k d, 32 * k < 2 ^ 32 -> N.of_nat (S d) * (k + 1) < 2 ^ 50 ->
  exists data, len data = 32 * (1 + N.of_nat (S d) * (k + 1)) /\ k ^ N.of_nat (S d) <= fst (decode_work p [nested (S d)] data).
Proof. exact bomb_work. Qed.
Print Assumptions C85_shared.
(** For elements that take no room two words can ask for billions of steps. *)
Theorem C85_empty : forall p n, n < two32 -> exists data, len data = 64 /\ fst (decode_work p [PArray (PTuple [])] data) = 6 + 3 * n.
Proof. exact empty_work. Qed.
Print Assumptions C85_empty.

Example C85_case : exists vs, decode Debug sample_types sample_data = Ok vs /\ forallb wf_type sample_types = true /\ fits sample_data /\
  decoding 1 sample_types vs = 81 /\ decoding 4 sample_types vs = 135 /\ fst (decode_work Debug sample_types sample_data) = 81 /\ decode_limit (len sample_data) sample_types = 12985.
Proof. eexists. split; [vm_compute; reflexivity|]. repeat split; vm_compute; reflexivity. Qed.

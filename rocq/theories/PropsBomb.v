(** * Properties: the room a decoded value takes (C72) *)
From Verif Require Import Base Types Decoder AbiSpec BombSpec BombFacts Samples.
Set Implicit Arguments.
Local Open Scope N_scope.

(** ** C72: how much larger than the data a decoded value can be. *)
(** At most a polynomial, each array in the type raising the degree by one.
    Elements that take no room are excluded: for them see C09_refuted. *)
Theorem C72_bounded : forall p ts data vs, forallb wf_type ts = true -> fits data ->
  forallb solidity_type ts = true -> forallb sized_elements ts = true ->
  decode p ts data = Ok vs -> weights vs <= weights_limit (len data) ts.
Proof. exact decode_weight. Qed.
Print Assumptions C72_bounded.
Example C72_bounded_case : forallb sized_elements sample_types = true /\ forallb solidity_type sample_types = true /\
  is_ok (decode Debug sample_types sample_data) = true /\ weight_limit 3200 (PArray (PArray (PUint 8))) = 10101.
Proof. vm_compute. repeat split. Qed.
(** The degree is attained: offsets may share what they point to, so that [d]
    levels of [k] offsets each make k^d values. *)
Theorem C72_attained : forall p k d, 32 * k < 2 ^ 32 -> N.of_nat (S d) * (k + 1) < 2 ^ 50 ->
  exists data vs, len data = 32 * (1 + N.of_nat (S d) * (k + 1)) /\
    decode p [nested (S d)] data = Ok vs /\ k ^ N.of_nat (S d) <= weights vs.
Proof. exact decode_bomb. Qed.
Print Assumptions C72_attained.
(** Less than four thousand bytes for a hundred billion values. *)
Example C72_attained_case : 32 * 10 < 2 ^ 32 /\ N.of_nat 11 * (10 + 1) < 2 ^ 50 /\ 32 * (1 + N.of_nat 11 * (10 + 1)) = 3904 /\
  10 ^ N.of_nat 11 = 100000000000.
Proof. vm_compute. repeat split. Qed.

(** * Selectors and topics in terms of the standard's hash *)
From Verif Require Import Base Types TypeNames TypeNamesSpec Keccak KeccakSpec Function FunctionFacts KeccakFacts.
Set Implicit Arguments.
Local Opaque keccak256.

Lemma short_signature_standard name ts s h : canonical_signature name ts s -> is_keccak256 (utf8 s) h ->
  short_signature name ts = Ok (firstn 4 h).
Proof. intros C H. apply keccak256_iff in H as <-. now apply short_signature_ok. Qed.
Lemma long_signature_standard name ts s h : canonical_signature name ts s -> is_keccak256 (utf8 s) h ->
  long_signature name ts = Ok h.
Proof. intros C H. apply keccak256_iff in H as <-. now apply long_signature_ok. Qed.

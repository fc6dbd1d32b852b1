(** * Theorems: the memory that encoding takes *)
From Verif Require Import Base Types Encoder AbiSpec WrapSpec EncoderMem MemSpec MemFacts MemErase MemCases.
Local Open Scope N_scope.
Local Open Scope list_scope.

(** ** C82: encoding reserves 32 times the memory that it needs. *)
(** The vectors it asks for, in order, and the panic if one of them would be
    larger than the target allows. *)
Theorem C82_exact : forall room p vs, forallb wf_token vs = true -> p = Release \/ len (encoding32 vs) < 2 ^ 32 ->
  encode_mem room p vs = if forallb (fun n => 32 * n <=? room) (reservations vs) then Ok (encoding32 vs, reservations vs) else Panic.
Proof. exact encode_room. Qed.
Print Assumptions C82_exact.
(** The record changes nothing: whatever the values, what is encoded is what
    the plain model encodes. *)
Theorem C82_data : forall room p vs data cs, encode_mem room p vs = Ok (data, cs) -> encode p vs = Ok data.
Proof. exact encode_mem_data. Qed.
Print Assumptions C82_data.
(** All in all at least as many words as the encoding has bytes, and at most
    that number for every level of nesting. *)
Theorem C82_least : forall vs, len (encoding32 vs) < 2 ^ 32 -> len (encoding32 vs) <= sum (reservations vs).
Proof. exact reserved_least. Qed.
Print Assumptions C82_least.
Theorem C82_most : forall vs, sum (reservations vs) <= depth (TTuple vs) * len (encoding32 vs).
Proof. exact reserved_most. Qed.
Print Assumptions C82_most.
Theorem C82_each : forall vs n, In n (reservations vs) -> n <= len (encoding32 vs).
Proof. exact reserved_each. Qed.
Print Assumptions C82_each.
(** Targets with 64-bit [usize] can ask for all this. *)
Theorem C82_wide : forall p vs, forallb wf_token vs = true -> p = Release \/ len (encoding32 vs) < 2 ^ 32 -> len (encoding32 vs) < 2 ^ 63 ->
  encode_mem (2 ^ 63 - 1) p vs = Ok (encoding32 vs, reservations vs).
Proof. exact encode_wide. Qed.
Print Assumptions C82_wide.
(** With 32-bit [usize] encoding panics exactly if a vector of 2^26 words or
    more is asked for, so never for encodings below 64 MiB. *)
Theorem C82_narrow : forall p vs, forallb wf_token vs = true -> p = Release \/ len (encoding32 vs) < 2 ^ 32 ->
  (encode_mem (2 ^ 31 - 1) p vs = Panic <-> exists n, In n (reservations vs) /\ 2 ^ 26 <= n).
Proof. exact encode_narrow. Qed.
Print Assumptions C82_narrow.
Theorem C82_narrow_small : forall p vs, forallb wf_token vs = true -> len (encoding32 vs) < 2 ^ 26 -> encode_mem (2 ^ 31 - 1) p vs = Ok (encoding32 vs, reservations vs).
Proof. exact encode_narrow_small. Qed.
Print Assumptions C82_narrow_small.
(** A single value of 64 MiB, 1/32 of what a slice can hold there, is too much. *)
Theorem C82_refuted : forall p b, len b = 2 ^ 26 -> encode_mem (2 ^ 31 - 1) p [TBytes b] = Panic /\ exists data, encode p [TBytes b] = Ok data /\ len data = 2 ^ 26 + 64.
Proof. exact narrow_bytes. Qed.
Print Assumptions C82_refuted.

Definition C82_value : list Token := [TUint 7; TArray [TString [104; 105]; TString [33]]; TFixedArray [TBool true; TBool false]; TTuple [TBytes [x01; x02]; TFixedBytes [x03]]].
Example C82_case : forallb wf_token C82_value = true /\ len (encoding32 C82_value) = 512 /\ depth (TTuple C82_value) = 3 /\
  reservations C82_value = [1; 1; 64; 0; 1; 1; 160; 352; 64; 128; 64; 64] /\ sum (reservations C82_value) = 900.
Proof. vm_compute. auto. Qed.
Example C82_model_case : encode_mem (2 ^ 31 - 1) Debug C82_value = Ok (encoding32 C82_value, reservations C82_value) /\ encode_mem 11000 Debug C82_value = Panic.
Proof. vm_compute. auto. Qed.
Example C82_refuted_case : exists b, @len byte b = 2 ^ 26.
Proof. exists (zeros (N.to_nat (2 ^ 26))). exact zeros_64M. Qed.

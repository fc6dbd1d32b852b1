(** * Memory on particular targets *)
From Verif Require Import Base Types Encoder AbiSpec BaseFacts EncoderFacts WrapSpec WrapFacts EncoderMem MemSpec MemFacts.
From Coq Require Import ZifyBool ZifyNat ZifyN.
Set Implicit Arguments.
Local Open Scope N_scope.
Local Open Scope list_scope.

Lemma encode_wide p vs : forallb wf_token vs = true -> p = Release \/ len (encoding32 vs) < 2 ^ 32 -> len (encoding32 vs) < 2 ^ 63 -> encode_mem (2 ^ 63 - 1) p vs = Ok (encoding32 vs, reservations vs).
Proof. intros T F L. apply encode_room64; [exact T|exact F|discriminate|]. lia. Qed.
Lemma encode_narrow p vs : forallb wf_token vs = true -> p = Release \/ len (encoding32 vs) < 2 ^ 32 -> (encode_mem (2 ^ 31 - 1) p vs = Panic <-> exists n, In n (reservations vs) /\ 2 ^ 26 <= n).
Proof.
  intros T F. rewrite encode_room_panics by assumption. split; intros (n & I & L); exists n; (split; [exact I|lia]).
Qed.
Lemma encode_narrow_small p vs : forallb wf_token vs = true -> len (encoding32 vs) < 2 ^ 26 -> encode_mem (2 ^ 31 - 1) p vs = Ok (encoding32 vs, reservations vs).
Proof.
  intros T L. assert (F : p = Release \/ len (encoding32 vs) < 2 ^ 32) by (right; lia). rewrite encode_room by assumption. destruct (forallb _ (reservations vs)) eqn:E; [reflexivity|]. exfalso.
  assert (X : encode_mem (2 ^ 31 - 1) p vs = Panic) by (rewrite encode_room by assumption; now rewrite E). apply encode_narrow in X as (n & I & N); [|assumption..]. apply reserved_each in I. lia.
Qed.
Lemma narrow_bytes p b : len b = 2 ^ 26 -> encode_mem (2 ^ 31 - 1) p [TBytes b] = Panic /\ exists data, encode p [TBytes b] = Ok data /\ len data = 2 ^ 26 + 64.
Proof.
  intros L. assert (T : forallb wf_token [TBytes b] = true) by reflexivity.
  assert (V : len (value32 (TBytes b)) = 2 ^ 26 + 32). { cbn [value32]. rewrite !len_app, len_word32. unfold padding. rewrite len_zeros, L. reflexivity. }
  assert (E : len (encoding32 [TBytes b]) = 2 ^ 26 + 64). { unfold encoding32. cbn [value32 map dynamic_value] in *. rewrite seq32_len. cbn [heads_size head_size tails]. rewrite app_nil_r, V. reflexivity. }
  assert (F : p = Release \/ len (encoding32 [TBytes b]) < 2 ^ 32) by (right; rewrite E; reflexivity). split.
  - apply encode_narrow; [exact T|exact F|]. exists (2 ^ 26 + 32). split; [|discriminate]. unfold reservations. apply in_or_app. right. apply in_or_app. left. unfold for_sequence, parts. cbn [map dynamic_value tails]. rewrite app_nil_r, V. right. left. reflexivity.
  - exists (encoding32 [TBytes b]). split; [apply encode32; [exact T|exact F]|exact E].
Qed.
Lemma zeros_64M : @len byte (zeros (N.to_nat (2 ^ 26))) = 2 ^ 26.
Proof. rewrite len_zeros. apply Nnat.N2Nat.id. Qed.

(** * The hash function of the model is the standard's *)
From Verif Require Import Base BaseFacts Keccak KeccakSpec.
From Coq Require Import ZifyBool ZifyNat ZifyN Bool.
Set Implicit Arguments.
Local Open Scope N_scope.
Ltac Zify.zify_post_hook ::= Z.div_mod_to_equations.

Notation tb n z := (N.testbit n (N.of_nat z)).

(** ** 64-bit words *)
Lemma word64_bits n : n < two64 -> forall z, (64 <= z)%nat -> tb n z = false.
Proof.
  intros H z Hz. destruct (N.eq_dec n 0) as [->|Z]; [apply N.bits_0|].
  apply N.bits_above_log2. apply N.log2_lt_pow2; [lia|]. apply N.lt_le_trans with (1 := H).
  change two64 with (2 ^ 64). apply N.pow_le_mono_r; lia.
Qed.
Lemma bits_word64 n : (forall z, (64 <= z)%nat -> tb n z = false) -> n < two64.
Proof.
  intros H. destruct (N.ltb_spec n two64) as [L|L]; [assumption|exfalso].
  assert (n <> 0) by (intros ->; unfold two64 in L; lia).
  assert (64 <= N.log2 n) by (apply N.log2_le_pow2; [lia|exact L]).
  specialize (H (N.to_nat (N.log2 n))). rewrite Nnat.N2Nat.id, N.bit_log2 in H by assumption.
  discriminate H. lia.
Qed.
Lemma lxor_word64 a b : a < two64 -> b < two64 -> N.lxor a b < two64.
Proof. intros Ha Hb. apply bits_word64. intros z Hz. rewrite N.lxor_spec, !word64_bits; auto. Qed.
Lemma land_word64 a b : b < two64 -> N.land a b < two64.
Proof. intros Hb. apply bits_word64. intros z Hz. rewrite N.land_spec, (word64_bits Hb); auto. now rewrite andb_false_r. Qed.
Lemma ones64 z : (z < 64)%nat -> tb (two64 - 1) z = true.
Proof. intros Hz. change (two64 - 1) with (N.ones 64). apply N.ones_spec_low. lia. Qed.
Lemma not64_bit a z : (z < 64)%nat -> tb (not64 a) z = negb (tb a z).
Proof. intros Hz. unfold not64. rewrite N.lxor_spec, ones64 by assumption. apply xorb_true_r. Qed.

Lemma rotl64_bit a n z : a < two64 -> (n < 64)%nat -> (z < 64)%nat ->
  tb (rotl64 a (N.of_nat n)) z = tb a (sub_mod 64 z n).
Proof.
  intros Ha Hn Hz. unfold rotl64, sub_mod. rewrite N.lor_spec. change two64 with (2 ^ 64).
  rewrite N.mod_pow2_bits_low by lia. rewrite N.shiftr_spec by lia.
  rewrite Nat.mod_small with (a := n) by lia.
  destruct (Nat.ltb_spec z n) as [L|L].
  - rewrite N.shiftl_spec_low by lia. cbn [orb]. f_equal. rewrite Nat.mod_small by lia. lia.
  - rewrite N.shiftl_spec_high by lia.
    replace (N.testbit a (N.of_nat z + (64 - N.of_nat n))) with false.
    + rewrite orb_false_r. f_equal. replace (z + (64 - n))%nat with (z - n + 1 * 64)%nat by lia.
      rewrite Nat.mod_add by lia. rewrite Nat.mod_small by lia. lia.
    + replace (N.of_nat z + (64 - N.of_nat n)) with (N.of_nat (z + (64 - n))) by lia.
      symmetry. apply word64_bits; [assumption|lia].
Qed.
Lemma rotl64_word a n : a < two64 -> n < 64 -> rotl64 a n < two64.
Proof.
  intros Ha Hn. unfold rotl64. apply bits_word64. intros z Hz. rewrite N.lor_spec. change two64 with (2 ^ 64).
  rewrite N.mod_pow2_bits_high by lia. rewrite N.shiftr_spec by lia. cbn [orb].
  replace (N.of_nat z + (64 - n)) with (N.of_nat (z + (64 - N.to_nat n))) by lia. apply word64_bits; [assumption|lia].
Qed.

(** ** States *)
Definition words (s : state) : Prop := length s = 25%nat /\ forall i, lane s i < two64.
Definition agrees (s : state) (a : array) : Prop := words s /\
  forall x y z, (x < 5)%nat -> (y < 5)%nat -> (z < 64)%nat -> tb (lane s (x + 5 * y)) z = a x y z.

Lemma lane_map (f : nat -> N) i : (i < 25)%nat -> lane (map f idx25) i = f i.
Proof.
  intros H. unfold lane, idx25. rewrite nth_indep with (d' := f 0%nat) by (now rewrite map_length, seq_length).
  rewrite map_nth, seq_nth by assumption. reflexivity.
Qed.
Lemma words_map f : (forall i, (i < 25)%nat -> f i < two64) -> words (map f idx25).
Proof.
  intros H. split; [reflexivity|]. intros i. destruct (Nat.ltb_spec i 25) as [L|L].
  - rewrite lane_map by assumption. auto.
  - unfold lane. rewrite nth_overflow by (cbn; lia). reflexivity.
Qed.
Lemma agrees_map f a : (forall i, (i < 25)%nat -> f i < two64) ->
  (forall x y z, (x < 5)%nat -> (y < 5)%nat -> (z < 64)%nat -> tb (f (x + 5 * y)%nat) z = a x y z) ->
  agrees (map f idx25) a.
Proof.
  intros H G. split; [now apply words_map|]. intros x y z Hx Hy Hz. rewrite lane_map by lia. auto.
Qed.
Lemma idx_mod x y : (x < 5)%nat -> ((x + 5 * y) mod 5 = x)%nat.
Proof. lia. Qed.
Lemma idx_div x y : (x < 5)%nat -> ((x + 5 * y) / 5 = y)%nat.
Proof. lia. Qed.

Lemma theta_agrees s a : agrees s a -> agrees (theta s) (theta_step a).
Proof.
  intros [[L W] A]. unfold theta.
  set (col := fun x : nat => N.lxor (lane s x) (N.lxor (lane s (x + 5)) (N.lxor (lane s (x + 10)) (N.lxor (lane s (x + 15)) (lane s (x + 20)))))).
  set (c := map col five).
  assert (Wc : forall x, col x < two64) by (intros x; unfold col; auto using lxor_word64).
  assert (Nc : forall x, (x < 5)%nat -> nth x c 0 = col x).
  { intros x Hx. unfold c. do 5 (destruct x as [|x]; [reflexivity|]). lia. }
  assert (Cb : forall x z, (x < 5)%nat -> (z < 64)%nat -> tb (col x) z = column a x z).
  { intros x z Hx Hz. unfold col, column. rewrite !N.lxor_spec.
    replace (x + 5)%nat with (x + 5 * 1)%nat by lia. replace (x + 10)%nat with (x + 5 * 2)%nat by lia.
    replace (x + 15)%nat with (x + 5 * 3)%nat by lia. replace (x + 20)%nat with (x + 5 * 4)%nat by lia.
    rewrite !A by lia. replace (lane s x) with (lane s (x + 5 * 0)) by (f_equal; lia). now rewrite A by lia. }
  set (dl := fun x : nat => N.lxor (nth ((x + 4) mod 5) c 0) (rotl64 (nth ((x + 1) mod 5) c 0) 1)).
  assert (Nd : forall x, (x < 5)%nat -> nth x (map dl five) 0 = dl x).
  { intros x Hx. do 5 (destruct x as [|x]; [reflexivity|]). lia. }
  assert (Wd : forall x, (x < 5)%nat -> dl x < two64).
  { intros x Hx. unfold dl. rewrite !Nc by (apply Nat.mod_upper_bound; lia). apply lxor_word64; [auto|]. apply rotl64_word; [auto|lia]. }
  apply agrees_map.
  - intros i Hi. apply lxor_word64; [auto|]. rewrite Nd by (apply Nat.mod_upper_bound; lia). apply Wd. apply Nat.mod_upper_bound. lia.
  - intros x y z Hx Hy Hz. rewrite N.lxor_spec, A by assumption. rewrite idx_mod by assumption.
    rewrite Nd by assumption. unfold dl. rewrite !Nc by (apply Nat.mod_upper_bound; lia).
    unfold theta_step. f_equal. rewrite N.lxor_spec.
    change 1 with (N.of_nat 1). rewrite rotl64_bit by (auto; lia).
    rewrite !Cb by (first [assumption | apply Nat.mod_upper_bound; lia]).
    f_equal.
Qed.

Lemma shifts : forall i, (i < 25)%nat -> nth i rho_offsets 0 = N.of_nat (shift (i mod 5) (i / 5) mod 64).
Proof.
  intros i Hi.
  assert (G : forallb (fun i => nth i rho_offsets 0 =? N.of_nat (shift (i mod 5) (i / 5) mod 64)) idx25 = true) by (vm_compute; reflexivity).
  rewrite forallb_forall in G. apply N.eqb_eq, G. apply in_seq. lia.
Qed.
Lemma rho_pi_agrees s a : agrees s a -> agrees (rho_pi s) (pi_step (rho_step a)).
Proof.
  intros [[L W] A]. unfold rho_pi. apply agrees_map.
  - intros i Hi. cbv zeta. apply rotl64_word; [auto|]. rewrite shifts by lia. pose proof (Nat.mod_upper_bound (shift (((i mod 5 + 3 * (i / 5)) mod 5 + 5 * (i mod 5)) mod 5) (((i mod 5 + 3 * (i / 5)) mod 5 + 5 * (i mod 5)) / 5)) 64). lia.
  - intros x y z Hx Hy Hz. cbv zeta. rewrite idx_mod, idx_div by assumption.
    assert (Hm : ((x + 3 * y) mod 5 < 5)%nat) by (apply Nat.mod_upper_bound; lia).
    rewrite shifts by lia. rewrite idx_mod, idx_div by assumption.
    rewrite rotl64_bit; [|auto|apply Nat.mod_upper_bound; lia|assumption].
    rewrite A; [|assumption|assumption|apply Nat.mod_upper_bound; lia].
    unfold pi_step, rho_step. f_equal. unfold sub_mod. now rewrite Nat.mod_mod by lia.
Qed.
Lemma chi_agrees s a : agrees s a -> agrees (chi s) (chi_step a).
Proof.
  intros [[L W] A]. unfold chi. apply agrees_map.
  - intros i Hi. cbv zeta. apply lxor_word64; [auto|]. now apply land_word64.
  - intros x y z Hx Hy Hz. cbv zeta. rewrite idx_mod, idx_div by assumption.
    rewrite N.lxor_spec, N.land_spec, not64_bit by assumption.
    rewrite !A; try assumption; try (apply Nat.mod_upper_bound; lia). reflexivity.
Qed.
Lemma round_bits : forall ir, (ir < 24)%nat -> nth ir round_constants 0 < two64 /\
  forall z, (z < 64)%nat -> tb (nth ir round_constants 0) z = round_bit ir z.
Proof.
  intros ir Hi. assert (I : In ir (seq 0 24)) by (apply in_seq; lia). revert ir I Hi. 
  assert (G : forallb (fun ir => (nth ir round_constants 0 <? two64) &&
     forallb (fun z => Bool.eqb (tb (nth ir round_constants 0) z) (round_bit ir z)) (seq 0 64)) (seq 0 24) = true) by (vm_compute; reflexivity).
  intros ir I _. rewrite forallb_forall in G. specialize (G ir I). apply andb_true_iff in G as [G1 G2].
  split; [lia|]. intros z Hz. rewrite forallb_forall in G2. apply eqb_prop, G2. apply in_seq. lia.
Qed.
Lemma iota_agrees s a ir : (ir < 24)%nat -> agrees s a -> agrees (iota (nth ir round_constants 0) s) (iota_step ir a).
Proof.
  intros Hi [[L W] A]. destruct (round_bits Hi) as [Wr Br]. destruct s as [|l0 s]; [discriminate|]. cbn [iota].
  split.
  - split; [assumption|]. intros [|i]; cbn.
    + apply lxor_word64; [apply (W 0%nat)|assumption].
    + apply (W (S i)).
  - intros x y z Hx Hy Hz. unfold iota_step. specialize (A x y z Hx Hy Hz).
    destruct x as [|x]; [destruct y as [|y]|].
    + cbn. rewrite N.lxor_spec, Br by assumption. f_equal. exact A.
    + cbn [Nat.eqb andb]. exact A.
    + cbn [Nat.eqb andb]. exact A.
Qed.
Lemma fold_agrees irs : (forall ir, In ir irs -> (ir < 24)%nat) -> forall s a, agrees s a ->
  agrees (fold_left (fun s rc => iota rc (chi (rho_pi (theta s)))) (map (fun ir => nth ir round_constants 0) irs) s) (fold_left round irs a).
Proof.
  induction irs as [|ir irs IH]; intros H s a A; [exact A|]. cbn [map fold_left]. apply IH; [intros; apply H; now right|].
  apply iota_agrees; [apply H; now left|]. apply chi_agrees, rho_pi_agrees, theta_agrees, A.
Qed.
Lemma keccak_f_agrees s a : agrees s a -> agrees (keccak_f s) (fold_left round (seq 0 24) a).
Proof.
  intros A. unfold keccak_f. replace round_constants with (map (fun ir => nth ir round_constants 0) (seq 0 24)) by reflexivity.
  apply fold_agrees; [|assumption]. intros ir I. apply in_seq in I. lia.
Qed.

(** ** Bit strings *)
Lemma len_bits m : length (bits m) = (8 * length m)%nat.
Proof. induction m as [|b m IH]; [reflexivity|]. cbn [bits flat_map]. rewrite app_length. fold (bits m). rewrite IH. cbn. lia. Qed.
Lemma bits_app m m' : bits (m ++ m') = bits m ++ bits m'.
Proof. unfold bits. now rewrite flat_map_app. Qed.
Lemma nth_bits m k z : (z < 8)%nat -> nth (8 * k + z) (bits m) false = tb (Byte.to_N (nth k m x00)) z.
Proof.
  intros Hz. revert k. induction m as [|b m IH]; intros k.
  - replace (nth k [] x00) with x00 by (now destruct k). rewrite nth_overflow by (cbn; lia). symmetry. exact (N.bits_0 (N.of_nat z)).
  - cbn [bits flat_map]. fold (bits m). destruct k as [|k].
    + rewrite app_nth1 by (cbn; lia). replace (8 * 0 + z)%nat with z by lia. unfold byte_bits.
      rewrite nth_indep with (d' := (fun i => tb (Byte.to_N b) i) 0%nat) by (rewrite map_length, seq_length; lia).
      rewrite (map_nth (fun i => tb (Byte.to_N b) i)), seq_nth by lia. reflexivity.
    + rewrite app_nth2 by (cbn; lia). cbn [nth]. rewrite <- IH. f_equal. change (length (byte_bits b)) with 8%nat. lia.
Qed.
Lemma byte_high b z : (8 <= z)%nat -> tb (Byte.to_N b) z = false.
Proof.
  intros Hz. pose proof (to_N_lt b) as H. destruct (N.eq_dec (Byte.to_N b) 0) as [->|Z]; [apply N.bits_0|].
  apply N.bits_above_log2. apply N.log2_lt_pow2; [lia|]. apply N.lt_le_trans with (1 := H).
  change 256 with (2 ^ 8). apply N.pow_le_mono_r; lia.
Qed.
Lemma of_le_bit l : forall k z, (z < 8)%nat -> tb (of_le l) (8 * k + z) = tb (Byte.to_N (nth k l x00)) z.
Proof.
  induction l as [|b l IH]; intros k z Hz.
  - replace (nth k [] x00) with x00 by (now destruct k). cbn [of_le]. change (Byte.to_N x00) with 0. now rewrite !N.bits_0.
  - cbn [of_le]. pose proof (to_N_lt b) as H.
    destruct k as [|k]; cbn [nth].
    + replace (8 * 0 + z)%nat with z by lia.
      rewrite <- (N.mod_pow2_bits_low _ 8 (N.of_nat z)) by lia.
      replace ((Byte.to_N b + 256 * of_le l) mod 2 ^ 8) with (Byte.to_N b); [reflexivity|]. change (2 ^ 8) with 256. lia.
    + rewrite <- IH by assumption. replace (of_le l) with ((Byte.to_N b + 256 * of_le l) / 2 ^ 8) at 2 by (change (2 ^ 8) with 256; lia).
      rewrite N.div_pow2_bits. f_equal. lia.
Qed.
Lemma of_le_word l : (length l <= 8)%nat -> of_le l < two64.
Proof.
  intros L. apply bits_word64. intros z Hz. replace z with (8 * (z / 8) + z mod 8)%nat by lia.
  rewrite of_le_bit by (apply Nat.mod_upper_bound; lia). rewrite nth_overflow by lia. apply N.bits_0.
Qed.
Lemma nth_firstn_lt (A : Type) (l : list A) k n d : (k < n)%nat -> nth k (firstn n l) d = nth k l d.
Proof. revert k l. induction n as [|n IH]; intros k l H; [lia|]. destruct l as [|x l]; [now destruct k|]. destruct k; [reflexivity|]. cbn. apply IH. lia. Qed.
Lemma nth_skipn_add (A : Type) (l : list A) k n d : nth k (skipn n l) d = nth (n + k) l d.
Proof. revert l. induction n as [|n IH]; intros l; [reflexivity|]. destruct l as [|x l]; [now destruct k|]. cbn. apply IH. Qed.
Lemma block_bit block i z : (z < 64)%nat ->
  tb (of_le (firstn 8 (skipn (8 * i) block))) z = nth (64 * i + z) (bits block) false.
Proof.
  intros Hz. replace z with (8 * (z / 8) + z mod 8)%nat at 1 by lia. rewrite of_le_bit by (apply Nat.mod_upper_bound; lia).
  replace (64 * i + z)%nat with (8 * (8 * i + z / 8) + z mod 8)%nat by lia. rewrite nth_bits by (apply Nat.mod_upper_bound; lia).
  now rewrite nth_firstn_lt, nth_skipn_add by lia.
Qed.

Lemma nth_flat_map (A B : Type) (f : A -> list B) n l k z d d' : (forall x, length (f x) = n) -> (z < n)%nat -> (k < length l)%nat ->
  nth (n * k + z) (flat_map f l) d = nth z (f (nth k l d')) d.
Proof.
  intros Lf Hz. revert k. induction l as [|x l IH]; intros k Hk; cbn in Hk; [lia|]. cbn [flat_map].
  destruct k as [|k].
  - rewrite app_nth1 by (rewrite Lf; lia). cbn [nth]. f_equal. lia.
  - rewrite app_nth2 by (rewrite Lf; lia). rewrite Lf. cbn [nth]. rewrite <- (IH k) by lia. f_equal. lia.
Qed.
Lemma len_flat_map (A B : Type) (f : A -> list B) n l : (forall x, length (f x) = n) -> length (flat_map f l) = (n * length l)%nat.
Proof. intros Lf. induction l as [|x l IH]; [cbn; lia|]. cbn [flat_map length]. rewrite app_length, Lf, IH. lia. Qed.
Lemma len_to_string a : length (to_string a) = 1600%nat.
Proof. reflexivity. Qed.
Lemma to_string_bit a x y z : (x < 5)%nat -> (y < 5)%nat -> (z < 64)%nat -> nth (64 * (5 * y + x) + z) (to_string a) false = a x y z.
Proof.
  intros Hx Hy Hz. unfold to_string.
  replace (64 * (5 * y + x) + z)%nat with (320 * y + (64 * x + z))%nat by lia.
  rewrite nth_flat_map with (n := 320%nat) (d' := 0%nat); [|reflexivity|lia|rewrite seq_length; lia].
  rewrite seq_nth by assumption.
  rewrite nth_flat_map with (n := 64%nat) (d' := 0%nat); [|reflexivity|lia|rewrite seq_length; lia].
  rewrite seq_nth by assumption. cbn [Nat.add].
  rewrite nth_indep with (d' := a x y 0%nat) by (now rewrite map_length, seq_length).
  now rewrite map_nth, seq_nth by assumption.
Qed.

(** The lanes of [s] hold the 1600 bits [t]. *)
Definition holds (s : state) (t : list bool) : Prop := words s /\ length t = 1600%nat /\
  forall i z, (i < 25)%nat -> (z < 64)%nat -> tb (lane s i) z = nth (64 * i + z) t false.
Lemma holds_array s t : holds s t -> agrees s (to_array t).
Proof.
  intros (W & L & H). split; [assumption|]. intros x y z Hx Hy Hz. rewrite H by lia. unfold to_array. f_equal. lia.
Qed.
Lemma agrees_string s a : agrees s a -> holds s (to_string a).
Proof.
  intros [W H]. split; [assumption|]. split; [apply len_to_string|]. intros i z Hi Hz.
  replace i with (i mod 5 + 5 * (i / 5))%nat at 1 by lia. rewrite H; [|apply Nat.mod_upper_bound; lia|lia|assumption].
  replace (64 * i)%nat with (64 * (5 * (i / 5) + i mod 5))%nat by lia.
  rewrite to_string_bit; [reflexivity|apply Nat.mod_upper_bound; lia|lia|assumption].
Qed.
Lemma keccak_f_holds s t : holds s t -> holds (keccak_f s) (keccak_p t).
Proof. intros H. apply agrees_string, keccak_f_agrees, holds_array, H. Qed.

Lemma nth_xor s t i : length s = length t -> nth i (xor_bits s t) false = xorb (nth i s false) (nth i t false).
Proof.
  intros L. unfold xor_bits. change false with (xorb (fst (false, false)) (snd (false, false))) at 1.
  rewrite (map_nth (fun q => xorb (fst q) (snd q))). rewrite combine_nth by assumption. reflexivity.
Qed.
Lemma len_xor s t : length s = length t -> length (xor_bits s t) = length t.
Proof. intros L. unfold xor_bits. rewrite map_length, combine_length. lia. Qed.
Lemma absorb_holds s t block : length block = 136%nat -> holds s t ->
  holds (absorb s block) (keccak_p (xor_bits t (bits block ++ repeat false (1600 - rate_bits)))).
Proof.
  intros Lb (W & L & H). unfold absorb. apply keccak_f_holds.
  assert (L2 : length (bits block ++ repeat false (1600 - rate_bits)) = 1600%nat).
  { rewrite app_length, len_bits, repeat_length, Lb. reflexivity. }
  assert (W' : forall i, (if (i <? 17)%nat then of_le (firstn 8 (skipn (8 * i) block)) else 0) < two64).
  { intros i. destruct (_ <? _)%nat; [|reflexivity]. apply of_le_word. rewrite firstn_length. lia. }
  split; [|split].
  - apply words_map. intros i Hi. apply lxor_word64; [apply W|apply W'].
  - rewrite len_xor; lia.
  - intros i z Hi Hz. rewrite lane_map by assumption. rewrite N.lxor_spec, H by assumption.
    rewrite nth_xor by lia. f_equal. destruct (Nat.ltb_spec i 17) as [Hl|Hl].
    + rewrite block_bit by assumption. rewrite app_nth1; [reflexivity|]. rewrite len_bits, Lb. lia.
    + rewrite N.bits_0. rewrite app_nth2 by (rewrite len_bits, Lb; lia). symmetry. apply nth_repeat.
Qed.

Lemma absorb_all_holds k : forall s t m, length m = (136 * k)%nat -> holds s t ->
  exists t', absorbed t (bits m) t' /\ holds (absorb_all k s m) t'.
Proof.
  induction k as [|k IH]; intros s t m L H.
  - destruct m; [|cbn in L; lia]. exists t. split; [constructor|exact H].
  - cbn [absorb_all]. unfold rate.
    assert (Lf : length (firstn 136 m) = 136%nat) by (rewrite firstn_length; lia).
    destruct (IH (absorb s (firstn 136 m)) (keccak_p (xor_bits t (bits (firstn 136 m) ++ repeat false (1600 - rate_bits)))) (skipn 136 m)) as (t' & A & H').
    { rewrite skipn_length. lia. }
    { apply absorb_holds; eassumption. }
    exists t'. split; [|exact H']. rewrite <- (firstn_skipn 136 m) at 1. rewrite bits_app. constructor; [|exact A].
    rewrite len_bits, Lf. reflexivity.
Qed.

(** ** Padding *)
Lemma bits_zeros n : bits (zeros n) = repeat false (8 * n).
Proof. induction n as [|n IH]; [reflexivity|]. replace (8 * S n)%nat with (8 + 8 * n)%nat by lia. rewrite repeat_app, <- IH. reflexivity. Qed.
Lemma pad_bits m : bits (keccak_pad m) = bits m ++ pad10star1 (length (bits m)).
Proof.
  unfold keccak_pad. rewrite bits_app. f_equal. rewrite len_bits. unfold pad10star1, rate, rate_bits.
  pose proof (Nat.mod_upper_bound (length m) 136) as Hm. set (q := (136 - length m mod 136)%nat).
  assert (Eq : sub_mod 1088 0 (8 * length m + 2) = (8 * q - 2)%nat) by (unfold sub_mod, q; lia). rewrite Eq.
  assert (Hq : (1 <= q)%nat) by (unfold q; lia). clearbody q.
  destruct q as [|[|q]]; [lia|reflexivity|].
  replace (S (S q) - 2)%nat with q by lia.
  replace (8 * S (S q) - 2)%nat with (7 + 8 * q + 7)%nat by lia.
  rewrite !repeat_app, <- bits_zeros. change (x01 :: zeros q ++ [x80]) with ([x01] ++ zeros q ++ [x80]). rewrite !bits_app.
  rewrite <- !app_assoc. reflexivity.
Qed.
Lemma len_keccak_pad m : (length (keccak_pad m) = 136 * (length (keccak_pad m) / 136))%nat.
Proof.
  assert (E : exists k, length (keccak_pad m) = (136 * k)%nat).
  { exists (length m / 136 + 1)%nat. unfold keccak_pad, rate. rewrite app_length.
    pose proof (Nat.mod_upper_bound (length m) 136) as Hm. set (q := (136 - length m mod 136)%nat).
    assert (Hq : (1 <= q)%nat) by (unfold q; lia). assert (Eq : (length m + q = 136 * (length m / 136 + 1))%nat) by (unfold q; lia).
    rewrite <- Eq. f_equal. clearbody q. destruct q as [|[|q]]; [lia|reflexivity|].
    cbn [length]. rewrite app_length. unfold zeros. rewrite repeat_length. cbn. lia. }
  destruct E as [k ->]. rewrite (Nat.mul_comm 136 k), Nat.div_mul by lia. lia.
Qed.

(** ** The digest *)
Lemma le_bytes_bits k n : forall z, (z < 8 * k)%nat -> nth z (bits (le_bytes k n)) false = tb n z.
Proof.
  revert n. induction k as [|k IH]; intros n z Hz; [lia|]. cbn [le_bytes].
  replace z with (8 * (z / 8) + z mod 8)%nat at 1 by lia. rewrite nth_bits by (apply Nat.mod_upper_bound; lia).
  destruct (z / 8)%nat as [|d] eqn:D; cbn [nth].
  - rewrite to_N_byte_of_N. change 256 with (2 ^ 8). rewrite N.mod_pow2_bits_low by lia. f_equal. lia.
  - rewrite <- nth_bits by (apply Nat.mod_upper_bound; lia). rewrite IH by lia. change 256 with (2 ^ 8). rewrite N.div_pow2_bits. f_equal. lia.
Qed.
Lemma len_le_bytes k n : length (le_bytes k n) = k.
Proof. revert n. induction k as [|k IH]; intros n; [reflexivity|]. cbn. now rewrite IH. Qed.
Lemma digest_bits s t : holds s t -> bits (flat_map (fun i => le_bytes 8 (lane s i)) [0; 1; 2; 3]%nat) = firstn 256 t.
Proof.
  intros (W & L & H).
  assert (Lh : length (flat_map (fun i => le_bytes 8 (lane s i)) [0; 1; 2; 3]%nat) = 32%nat).
  { rewrite len_flat_map with (n := 8%nat); [reflexivity|]. intros. apply len_le_bytes. }
  apply nth_ext with (d := false) (d' := false).
  - rewrite len_bits, Lh, firstn_length. lia.
  - intros n Hn. rewrite len_bits, Lh in Hn. rewrite nth_firstn_lt by lia.
    assert (E : bits (flat_map (fun i => le_bytes 8 (lane s i)) [0; 1; 2; 3]%nat) =
       flat_map (fun i => bits (le_bytes 8 (lane s i))) [0; 1; 2; 3]%nat).
    { cbn [flat_map]. now rewrite !bits_app. }
    rewrite E.
    replace n with (64 * (n / 64) + n mod 64)%nat by lia.
    rewrite nth_flat_map with (n := 64%nat) (d' := 0%nat); [|intros; rewrite len_bits, len_le_bytes; reflexivity|apply Nat.mod_upper_bound; lia|change (n / 64 < 4)%nat; lia].
    rewrite le_bytes_bits by (apply Nat.mod_upper_bound; lia).
    replace (nth (n / 64) [0; 1; 2; 3] 0)%nat with (n / 64)%nat.
    + apply H; [lia|apply Nat.mod_upper_bound; lia].
    + assert (n / 64 < 4)%nat by lia. destruct (n / 64)%nat as [|[|[|[|]]]]; try reflexivity; lia.
Qed.

Lemma holds_zero : holds (repeat 0 25) (repeat false 1600).
Proof.
  split; [|split].
  - split; [reflexivity|]. intros i. unfold lane. rewrite nth_repeat. reflexivity.
  - now rewrite repeat_length.
  - intros i z _ _. unfold lane. rewrite !nth_repeat. apply N.bits_0.
Qed.
Lemma keccak256_standard m : is_keccak256 m (keccak256 m).
Proof.
  unfold keccak256. pose proof (@absorb_all_holds _ _ _ _ (len_keccak_pad m) holds_zero) as (t & A & H).
  exists t. split.
  - rewrite <- pad_bits. exact A.
  - apply digest_bits. exact H.
Qed.

(** The standard determines the hash. *)
Lemma absorbed_inv s m b : absorbed s m b -> (m = [] /\ b = s) \/
  exists block rest, m = block ++ rest /\ length block = rate_bits /\
    absorbed (keccak_p (xor_bits s (block ++ repeat false (1600 - rate_bits)))) rest b.
Proof. intros H. destruct H; [auto|right; eauto]. Qed.
Lemma absorbed_det s m a : absorbed s m a -> forall b, absorbed s m b -> a = b.
Proof.
  intros H. induction H as [s|s block rest a Lb _ IH]; intros b B; apply absorbed_inv in B.
  - destruct B as [[_ B]|(block & rest & E & L & _)]; [auto|]. destruct block; [discriminate L|discriminate].
  - destruct B as [[E _]|(block' & rest' & E & L' & B)].
    + destruct block; [discriminate Lb|discriminate].
    + assert (Y : firstn (length block') (block' ++ rest') = firstn (length block) (block ++ rest)) by (rewrite L', Lb; now f_equal).
      rewrite !firstn_app, !firstn_all, !Nat.sub_diag in Y. cbn [firstn] in Y. rewrite !app_nil_r in Y. subst block'.
      apply app_inv_head in E. subst rest'. auto.
Qed.
Lemma byte_bits_inj b b' : byte_bits b = byte_bits b' -> b = b'.
Proof.
  intros E. apply to_N_inj. apply N.bits_inj. intros z. rewrite <- (Nnat.N2Nat.id z). generalize (N.to_nat z). clear z. intros z.
  destruct (Nat.ltb_spec z 8) as [L|L]; [|now rewrite !byte_high].
  assert (X := f_equal (fun l => nth z l false) E). cbn beta in X.
  pose proof (fun b => @nth_bits [b] 0 z L) as N. cbn [bits flat_map] in N.
  rewrite <- (app_nil_r (byte_bits b)), <- (app_nil_r (byte_bits b')) in X. cbn [nth] in N.
  replace (8 * 0 + z)%nat with z in N by lia. now rewrite !N in X.
Qed.
Lemma bits_inj m : forall m', bits m = bits m' -> m = m'.
Proof.
  induction m as [|b m IH]; intros [|b' m'] E; [reflexivity|discriminate|discriminate|].
  cbn [bits flat_map] in E. fold (bits m) (bits m') in E.
  assert (X : byte_bits b = byte_bits b') by (apply (f_equal (firstn 8)) in E; exact E).
  rewrite X in E. apply app_inv_head in E. f_equal; [now apply byte_bits_inj|auto].
Qed.
Lemma keccak256_iff m h : is_keccak256 m h <-> keccak256 m = h.
Proof.
  split; [|intros <-; apply keccak256_standard].
  intros (s & A & B). destruct (keccak256_standard m) as (s' & A' & B'). rewrite (absorbed_det A A') in B.
  apply bits_inj. congruence.
Qed.

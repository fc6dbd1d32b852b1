(** * The Keccak-256 hash function, from its standard

    FIPS 202, section 3 and 4, on bit strings: the permutation KECCAK-f[1600]
    on an array of bits A[x, y, z], and the sponge construction with rate 1088
    and padding 10*1.  Ethereum's Keccak-256 is this without the two suffix
    bits of SHA3-256.  Nothing of the model is used. *)
From Coq Require Import List Arith Bool NArith.
From Coq.Strings Require Import Byte.
Import ListNotations.

(** Bits of a byte string: least significant bit first (FIPS 202, B.1). *)
Definition byte_bits (b : byte) : list bool := map (fun i => N.testbit (Byte.to_N b) (N.of_nat i)) (seq 0 8).
Definition bits (m : list byte) : list bool := flat_map byte_bits m.

Definition array := nat -> nat -> nat -> bool.
(** 3.1.2, 3.1.3 *)
Definition to_array (s : list bool) : array := fun x y z => nth (64 * (5 * y + x) + z) s false.
Definition to_string (a : array) : list bool :=
  flat_map (fun y => flat_map (fun x => map (a x y) (seq 0 64)) (seq 0 5)) (seq 0 5).

(** 3.2.1.  [a - b mod m] is [sub_mod]. *)
Definition sub_mod (m a b : nat) : nat := (a + (m - b mod m)) mod m.
Definition column (a : array) (x z : nat) : bool :=
  xorb (a x 0 z) (xorb (a x 1 z) (xorb (a x 2 z) (xorb (a x 3 z) (a x 4 z)))).
Definition theta_step (a : array) : array := fun x y z =>
  xorb (a x y z) (xorb (column a (sub_mod 5 x 1) z) (column a ((x + 1) mod 5) (sub_mod 64 z 1))).
(** 3.2.2: the walk (1,0), (0,2), ... and the shift of each of its places *)
Fixpoint walk (t : nat) : nat * nat :=
  match t with
  | O => (1, 0)
  | S t' => let (x, y) := walk t' in (y, (2 * x + 3 * y) mod 5)
  end.
Definition shift (x y : nat) : nat :=
  match find (fun t => (fst (walk t) =? x) && (snd (walk t) =? y)) (seq 0 24) with
  | Some t => (t + 1) * (t + 2) / 2
  | None => 0
  end.
Definition rho_step (a : array) : array := fun x y z => a x y (sub_mod 64 z (shift x y)).
(** 3.2.3 *)
Definition pi_step (a : array) : array := fun x y z => a ((x + 3 * y) mod 5) x z.
(** 3.2.4 *)
Definition chi_step (a : array) : array := fun x y z =>
  xorb (a x y z) (negb (a ((x + 1) mod 5) y z) && a ((x + 2) mod 5) y z).
(** 3.2.5: a linear feedback shift register gives the round constants *)
Definition lfsr (r : list bool) : list bool :=
  match false :: r with
  | [r0; r1; r2; r3; r4; r5; r6; r7; r8] => [xorb r0 r8; r1; r2; r3; xorb r4 r8; xorb r5 r8; xorb r6 r8; r7]
  | _ => []
  end.
Definition rc (t : nat) : bool := nth 0 (Nat.iter (t mod 255) lfsr [true; false; false; false; false; false; false; false]) false.
Definition round_bit (ir z : nat) : bool :=
  match find (fun j => 2 ^ j - 1 =? z) (seq 0 7) with
  | Some j => rc (j + 7 * ir)
  | None => false
  end.
Definition iota_step (ir : nat) (a : array) : array := fun x y z =>
  if (x =? 0) && (y =? 0) then xorb (a 0 0 z) (round_bit ir z) else a x y z.
(** 3.3 *)
Definition round (a : array) (ir : nat) : array := iota_step ir (chi_step (pi_step (rho_step (theta_step a)))).
Definition keccak_p (s : list bool) : list bool := to_string (fold_left round (seq 0 24) (to_array s)).

(** Section 4 and 5.1 *)
Definition rate_bits : nat := 1088.
Definition pad10star1 (m : nat) : list bool := true :: repeat false (sub_mod rate_bits 0 (m + 2)) ++ [true].
Definition xor_bits (s t : list bool) : list bool := map (fun q => xorb (fst q) (snd q)) (combine s t).
Inductive absorbed : list bool -> list bool -> list bool -> Prop :=
| absorbed_nil s : absorbed s [] s
| absorbed_block s block rest s' :
    length block = rate_bits ->
    absorbed (keccak_p (xor_bits s (block ++ repeat false (1600 - rate_bits)))) rest s' ->
    absorbed s (block ++ rest) s'.
(** [h] is the hash of the message [m]. *)
Definition is_keccak256 (m h : list byte) : Prop :=
  exists s, absorbed (repeat false 1600) (bits m ++ pad10star1 (length (bits m))) s /\ bits h = firstn 256 s.

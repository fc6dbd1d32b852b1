(** * Keccak-256

    The crate calls [sha3::Keccak256::digest] (external crate, used at
    /repo/ethabi/src/signature.rs:33 and /repo/ethabi/src/event.rs:64,73).
    This is the Keccak[c=512] sponge of the Keccak reference (padding byte
    0x01, 24 rounds), written out so that hashes are computed, not assumed. *)
From Verif Require Import Base.
Set Implicit Arguments.
Local Open Scope N_scope.

(** [u64::rotate_left] *)
Definition rotl64 (x n : N) : N :=
  N.lor (N.shiftl x n mod two64) (N.shiftr x (64 - n)).

(** Lane (x,y) of the state is at index x + 5y. *)
Definition state := list N.
(** A lane of the state *)
Definition lane (s : state) (i : nat) : N := nth i s 0.

(** The coordinates *)
Definition five : list nat := [0; 1; 2; 3; 4]%nat.
(** The indices of the lanes *)
Definition idx25 : list nat := seq 0 25.

(** Step theta *)
Definition theta (s : state) : state :=
  let c := map (fun x => N.lxor (lane s x) (N.lxor (lane s (x + 5)) (N.lxor (lane s (x + 10))
                          (N.lxor (lane s (x + 15)) (lane s (x + 20)))))) five in
  let d := map (fun x => N.lxor (nth ((x + 4) mod 5) c 0) (rotl64 (nth ((x + 1) mod 5) c 0) 1)) five in
  map (fun i => N.lxor (lane s i) (nth (i mod 5) d 0)) idx25.

(** Rotation offsets, indexed by x + 5y. *)
Definition rho_offsets : list N :=
  [0; 1; 62; 28; 27; 36; 44; 6; 55; 20; 3; 10; 43; 25; 39; 41; 45; 15; 21; 8; 18; 2; 61; 56; 14].
(** B[y, 2x+3y] = rot(A[x,y], r[x,y]): position (X,Y) of B comes from
    x = (X + 3Y) mod 5, y = X. *)
Definition rho_pi (s : state) : state :=
  map (fun i => let X := (i mod 5)%nat in let Y := (i / 5)%nat in
                let j := ((X + 3 * Y) mod 5 + 5 * X)%nat in
                rotl64 (lane s j) (nth j rho_offsets 0)) idx25.
(** [!x] on u64 *)
Definition not64 (x : N) : N := N.lxor x (two64 - 1).
(** Step chi *)
Definition chi (s : state) : state :=
  map (fun i => let X := (i mod 5)%nat in let Y := (i / 5)%nat in
                N.lxor (lane s i)
                       (N.land (not64 (lane s ((X + 1) mod 5 + 5 * Y)))
                               (lane s ((X + 2) mod 5 + 5 * Y)))) idx25.
(** The constants of the 24 rounds *)
Definition round_constants : list N :=
  [0x0000000000000001; 0x0000000000008082; 0x800000000000808A; 0x8000000080008000;
   0x000000000000808B; 0x0000000080000001; 0x8000000080008081; 0x8000000000008009;
   0x000000000000008A; 0x0000000000000088; 0x0000000080008009; 0x000000008000000A;
   0x000000008000808B; 0x800000000000008B; 0x8000000000008089; 0x8000000000008003;
   0x8000000000008002; 0x8000000000000080; 0x000000000000800A; 0x800000008000000A;
   0x8000000080008081; 0x8000000000008080; 0x0000000080000001; 0x8000000080008008].
(** Step iota *)
Definition iota (rc : N) (s : state) : state :=
  match s with a :: r => N.lxor a rc :: r | [] => [] end.
(** Keccak-f[1600]: theta, rho and pi, chi and iota, 24 times *)
Definition keccak_f (s : state) : state :=
  fold_left (fun s rc => iota rc (chi (rho_pi (theta s)))) round_constants s.

(** Little-endian lanes. *)
Fixpoint of_le (l : list byte) : N :=
  match l with [] => 0 | b :: l' => Byte.to_N b + 256 * of_le l' end.
(** [k] bytes of [n], the least significant first *)
Fixpoint le_bytes (k : nat) (n : N) : list byte :=
  match k with O => [] | S k' => byte_of_N n :: le_bytes k' (n / 256) end.

(** The rate of Keccak-256 in bytes *)
Definition rate : nat := 136.
(** Message plus 0x01 0x00.. 0x80 up to a multiple of the rate. *)
Definition keccak_pad (m : list byte) : list byte :=
  let q := (rate - List.length m mod rate)%nat in
  m ++ match q with
       | 1%nat => [x81]
       | _ => x01 :: zeros (q - 2) ++ [x80]
       end.
(** One block *)
Definition absorb (s : state) (block : list byte) : state :=
  keccak_f (map (fun i => N.lxor (lane s i)
                   (if (i <? 17)%nat then of_le (firstn 8 (skipn (8 * i) block)) else 0)) idx25).
(** All blocks *)
Fixpoint absorb_all (blocks : nat) (s : state) (m : list byte) : state :=
  match blocks with
  | O => s
  | S k => absorb_all k (absorb s (firstn rate m)) (skipn rate m)
  end.
(** [sha3::Keccak256]: signature.rs:27-38, event.rs:65 *)
Definition keccak256 (m : list byte) : list byte :=
  let padded := keccak_pad m in
  let s := absorb_all (List.length padded / rate) (repeat 0 25) padded in
  flat_map (fun i => le_bytes 8 (lane s i)) [0; 1; 2; 3]%nat.

(** * Base: results, machine integers, bytes, strings.

    Models the Rust-level vocabulary the crate is written in. *)
From Coq Require Export List NArith ZArith Bool Lia Strings.Byte.
From Coq Require Import Ascii.
From Coq Require String.
Export ListNotations.
Set Implicit Arguments.

(** ** Strings
    [String]/[&str]: a list of Unicode scalar values ([char]).  Rust guarantees
    that every element is a scalar value ([wf_str] below). *)
Notation char := N (only parsing).
Notation str := (list N) (only parsing).

(** String literals of the Rust source (all ASCII). *)
Definition lit (s : String.string) : str := map N_of_ascii (String.list_ascii_of_string s).

(** ** Errors: /repo/ethabi/src/errors.rs:18-40.
    [SerdeJson], [ParseInt], [Hex] drop the payload of the wrapped foreign
    error; [Utf8] is never constructed by the crate.  [OtherErr] keeps the
    message.  [OutOfFuel] does not exist in Rust: it marks exhaustion of the
    explicit recursion fuel of [Reader.read] and is proved unreachable. *)
Inductive err :=
| InvalidName (s : str)
| InvalidData
| SerdeJson
| ParseIntErr
| HexErr
| OtherErr (s : str)
| OutOfFuel.

(** [Result<A, Error>] plus an explicit value for a Rust panic. *)
Inductive res (A : Type) :=
| Ok (a : A)
| Err (e : err)
| Panic.
Arguments Ok {A} a.
Arguments Err {A} e.
Arguments Panic {A}.

(** The [?] operator (panics propagate as well). *)
Definition bind {A B} (r : res A) (f : A -> res B) : res B :=
  match r with Ok a => f a | Err e => Err e | Panic => Panic end.
Notation "'do' x <- r ; k" := (bind r (fun x => k))
  (at level 60, x pattern, r at next level, k at level 60, right associativity).

(** [Result::is_ok] *)
Definition is_ok {A} (r : res A) : bool := match r with Ok _ => true | _ => false end.

(** [iter.map(f).collect::<Result<Vec<_>,_>>()]: stops at the first failure. *)
Definition mapM {A B} (f : A -> res B) : list A -> res (list B) :=
  fix go (l : list A) : res (list B) :=
    match l with
    | [] => Ok []
    | x :: l' => do y <- f x; do ys <- go l'; Ok (y :: ys)
    end.

(** [iter.fold(init, f)] where [f] may fail. *)
Definition foldM {A S} (f : S -> A -> res S) : list A -> S -> res S :=
  fix go (l : list A) (s : S) : res S :=
    match l with
    | [] => Ok s
    | x :: l' => do s' <- f s x; go l' s'
    end.

(** [for _ in 0..n { s = f(s)? }], by binary recursion on [n] so that an
    early failure stops the loop at once (a Rust [?] inside a [for] loop). *)
Definition iter_pos {S} (f : S -> res S) : positive -> S -> res S :=
  fix go (p : positive) (s : S) : res S :=
    match p with
    | xH => f s
    | xO p' => do s' <- go p' s; go p' s'
    | xI p' => do s' <- f s; do s'' <- go p' s'; go p' s''
    end.
(** [for _ in 0..n { s = f(s)? }]: decoder.rs:151-155 and 169-173 *)
Definition iter_N {S} (f : S -> res S) (n : N) (s : S) : res S :=
  match n with N0 => Ok s | Npos p => iter_pos f p s end.

(** ** Machine integers.  [Debug]: overflow checks on (panic); [Release]: wrap. *)
Inductive profile := Debug | Release.

(** The values of u32: /repo/ethabi/src/util.rs:14, encoder.rs:52-75 *)
Definition two32 : N := 2 ^ 32.
(** The values of usize on 64-bit targets *)
Definition two64 : N := 2 ^ 64.
(** The values of U256: /repo/ethabi/src/lib.rs:68-73 *)
Definition two256 : N := 2 ^ 256.

(** Integer arithmetic with the overflow checks of the profile *)
Definition checked (p : profile) (m v : N) : res N :=
  if (v <? m)%N then Ok v
  else match p with Debug => Panic | Release => Ok (v mod m)%N end.

(** [a + b] on u32: encoder.rs:19-115 *)
Definition u32_add (p : profile) (a b : N) : res N := checked p two32 (a + b)%N.
(** [a * b] on u32: encoder.rs:54 and 66 *)
Definition u32_mul (p : profile) (a b : N) : res N := checked p two32 (a * b)%N.
(** [a - b] on u32. *)
Definition u32_sub (p : profile) (a b : N) : res N :=
  if (b <=? a)%N then Ok (a - b)%N
  else match p with Debug => Panic | Release => Ok (a + two32 - b)%N end.
(** [x as u32] from usize: always truncates. *)
Definition as_u32 (v : N) : N := (v mod two32)%N.
(** [a + b] on usize: decoder.rs:65-216 *)
Definition usize_add (p : profile) (a b : N) : res N := checked p two64 (a + b)%N.
(** [a - b] on usize: reader.rs:133, event.rs:150 *)
Definition usize_sub (p : profile) (a b : N) : res N :=
  if (b <=? a)%N then Ok (a - b)%N
  else match p with Debug => Panic | Release => Ok (a + two64 - b)%N end.

(** [slice.len()] *)
Definition len {A} (l : list A) : N := N.of_nat (length l).

(** ** Bytes and big-endian numbers *)
Definition byte_of_N (n : N) : byte :=
  match Byte.of_N (n mod 256) with Some b => b | None => x00 end.

(** [n] as exactly [k] big-endian bytes (reduced mod 256^k):
    [u32::to_be_bytes], [From<U256> for [u8;32]]. *)
Fixpoint be_bytes (k : nat) (n : N) : list byte :=
  match k with
  | O => []
  | S k' => be_bytes k' (n / 256) ++ [byte_of_N n]
  end.

(** Big-endian value of bytes: [From<[u8;32]> for U256]. *)
Definition of_be (l : list byte) : N :=
  fold_left (fun acc b => acc * 256 + Byte.to_N b)%N l 0%N.

(** [[0u8; n]]: util.rs:14-18, decoder.rs:75 *)
Definition zeros (n : nat) : list byte := repeat x00 n.

(** ** UTF-8 *)
Definition is_scalar (c : char) : bool :=
  ((c <? 0xD800) || ((0xE000 <=? c) && (c <? 0x110000)))%N.
(** The characters of a [str] *)
Definition wf_str (s : str) : bool := forallb is_scalar s.
(** [char::is_ascii] *)
Definition is_ascii (c : char) : bool := (c <? 128)%N.
(** [str::is_ascii] *)
Definition all_ascii (s : str) : bool := forallb is_ascii s.

(** [char::len_utf8] *)
Definition char_len (c : char) : N :=
  (if c <? 0x80 then 1 else if c <? 0x800 then 2 else if c <? 0x10000 then 3 else 4)%N.

(** [char::encode_utf8] *)
Definition utf8_char (c : char) : list byte :=
  (if c <? 0x80 then [byte_of_N c]
   else if c <? 0x800 then [byte_of_N (0xC0 + c / 64); byte_of_N (0x80 + c mod 64)]
   else if c <? 0x10000 then
     [byte_of_N (0xE0 + c / 4096); byte_of_N (0x80 + (c / 64) mod 64); byte_of_N (0x80 + c mod 64)]
   else [byte_of_N (0xF0 + c / 262144); byte_of_N (0x80 + (c / 4096) mod 64);
         byte_of_N (0x80 + (c / 64) mod 64); byte_of_N (0x80 + c mod 64)])%N.

(** [str::as_bytes] *)
Definition utf8 (s : str) : list byte := flat_map utf8_char s.

(** [str::len] (in bytes) *)
Definition str_len (s : str) : N := fold_right (fun c a => char_len c + a)%N 0%N s.

(** Splitting at a byte offset; [None] if not a char boundary or past the end. *)
Fixpoint str_split (s : str) (n : N) : option (str * str) :=
  if (n =? 0)%N then Some ([], s)
  else match s with
       | [] => None
       | c :: s' =>
         if (n <? char_len c)%N then None
         else match str_split s' (n - char_len c) with
              | None => None
              | Some (a, b) => Some (c :: a, b)
              end
       end.

(** [&s[a..b]] with byte indices: panics as Rust does when [a > b], when an
    index is out of range or not on a char boundary. *)
Definition str_slice (s : str) (a b : N) : res str :=
  if (b <? a)%N then Panic
  else match str_split s a with
       | None => Panic
       | Some (_, r) =>
         match str_split r (b - a) with None => Panic | Some (m, _) => Ok m end
       end.

(** [&s[a..]] *)
Definition str_from (s : str) (a : N) : res str :=
  match str_split s a with None => Panic | Some (_, r) => Ok r end.

(** ** String helpers of std used by the crate *)
Definition str_eqb (a b : str) : bool :=
  (fix go (a b : str) : bool :=
     match a, b with
     | [], [] => true
     | x :: a', y :: b' => (x =? y)%N && go a' b'
     | _, _ => false
     end) a b.

(** [str::starts_with(&str)] *)
Fixpoint starts_with (s pre : str) : bool :=
  match pre, s with
  | [], _ => true
  | p :: pre', c :: s' => (p =? c)%N && starts_with s' pre'
  | _ :: _, [] => false
  end.

(** [s.chars().last()] *)
Fixpoint last_char (s : str) : option char :=
  match s with [] => None | [c] => Some c | _ :: s' => last_char s' end.
(** [str::starts_with(char)] / [ends_with(char)] *)
Definition starts_with_char (s : str) (c : char) : bool :=
  match s with x :: _ => (x =? c)%N | [] => false end.
(** [str::ends_with(char)]: token/mod.rs:49 and 105 *)
Definition ends_with_char (s : str) (c : char) : bool :=
  match last_char s with Some x => (x =? c)%N | None => false end.

(** [Vec<String>::join(sep)] *)
Fixpoint join (sep : str) (l : list str) : str :=
  match l with
  | [] => []
  | [x] => x
  | x :: l' => x ++ sep ++ join sep l'
  end.

(** [Iterator::take_while] *)
Fixpoint take_while {A} (f : A -> bool) (l : list A) : list A :=
  match l with [] => [] | x :: l' => if f x then x :: take_while f l' else [] end.
(** [Iterator::skip_while] *)
Fixpoint drop_while {A} (f : A -> bool) (l : list A) : list A :=
  match l with [] => [] | x :: l' => if f x then drop_while f l' else l end.

(** ** Number formatting and parsing *)
(** Decimal digits, least significant first, by fuel on the bit size. *)
Fixpoint dec_digits_rev (fuel : nat) (n : N) : list N :=
  match fuel with
  | O => []
  | S f => (n mod 10 :: (if n <? 10 then [] else dec_digits_rev f (n / 10)))%N
  end.
(** [format!("{}", n)] for an unsigned integer. *)
Definition show_dec (n : N) : str :=
  map (fun d => 48 + d)%N (rev (dec_digits_rev (S (N.size_nat n)) n)).

(** [char::to_digit(10)] *)
Definition dec_digit (c : char) : option N :=
  if ((48 <=? c) && (c <=? 57))%N then Some (c - 48)%N else None.

(** The loop of [from_str_radix]; [m] is the first number that does not fit. *)
Fixpoint parse_digits (m : N) (s : str) (acc : N) : option N :=
  match s with
  | [] => Some acc
  | c :: s' =>
    match dec_digit c with
    | None => None
    | Some d => let v := (acc * 10 + d)%N in
                if (v <? m)%N then parse_digits m s' v else None
    end
  end.

(** [str::parse::<usize>()] (core::num::from_str_radix, radix 10): the empty
    string and a lone sign are rejected, a leading '+' is accepted, overflow
    is an error. *)
Definition parse_usize (s : str) : res N :=
  match s with
  | [] => Err ParseIntErr
  | [c] => match dec_digit c with Some d => Ok d | None => Err ParseIntErr end
  | c :: s' =>
    match parse_digits two64 (if (c =? 43)%N then s' else s) 0 with
    | Some v => Ok v
    | None => Err ParseIntErr
    end
  end.

(** Hex digits. *)
Definition hex_digit (n : N) : char := (if n <? 10 then 48 + n else 87 + n)%N.
(** [val] of crate hex *)
Definition hex_val (c : char) : option N :=
  (if (48 <=? c) && (c <=? 57) then Some (c - 48)
   else if (97 <=? c) && (c <=? 102) then Some (c - 87)
   else if (65 <=? c) && (c <=? 70) then Some (c - 55)
   else None)%N.

(** [hex::encode] *)
Definition hex_encode (l : list byte) : str :=
  flat_map (fun b => [hex_digit (Byte.to_N b / 16); hex_digit (Byte.to_N b mod 16)]%N) l.

(** [hex::decode] (hex 0.4): odd length and non-hex characters are errors.
    It works on the UTF-8 bytes; a non-ASCII char is never a hex digit, so any
    such string is rejected either way. *)
Fixpoint hex_decode_pairs (s : str) : option (list byte) :=
  match s with
  | [] => Some []
  | [_] => None
  | a :: b :: s' =>
    match hex_val a, hex_val b, hex_decode_pairs s' with
    | Some x, Some y, Some r => Some (byte_of_N (x * 16 + y) :: r)
    | _, _, _ => None
    end
  end.
(** [hex::decode], as [hex_decode_pairs]: token/strict.rs:15-61 and main.rs *)
Definition hex_decode (s : str) : res (list byte) :=
  match hex_decode_pairs s with Some l => Ok l | None => Err HexErr end.

(** ** Slices *)
(** [&l[a..b]] *)
Definition slice {A} (l : list A) (a b : N) : res (list A) :=
  if ((a <=? b) && (b <=? len l))%N
  then Ok (firstn (N.to_nat (b - a)) (skipn (N.to_nat a) l))
  else Panic.
(** [&l[a..]] *)
Definition slice_from {A} (l : list A) (a : N) : res (list A) := slice l a (len l).
(** [&l[..b]] *)
Definition slice_to {A} (l : list A) (b : N) : res (list A) := slice l 0 b.

(** [dst.copy_from_slice(src)] where [dst] has length [n]: the new contents. *)
Definition copy_from_slice {A} (n : N) (src : list A) : res (list A) :=
  if (len src =? n)%N then Ok src else Panic.

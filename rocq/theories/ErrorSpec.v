(** * What an error is about (independent of the model's functions) *)
From Verif Require Import Base Types.
Set Implicit Arguments.
Local Open Scope list_scope.

(** Consecutive characters of a text. *)
Definition part_of (x s : str) : Prop := exists a b, s = a ++ x ++ b.
(** The types within a type that are neither arrays nor tuples. *)
Fixpoint leaves (t : ParamType) : list ParamType :=
  match t with
  | PArray t' | PFixedArray t' _ => leaves t'
  | PTuple ts => flat_map leaves ts
  | _ => [t]
  end.

(** ** Why a text is rejected as a value of a type that is not a container *)
From Verif Require Import TokenSpec.
From Coq Require Import String.
Local Open Scope N_scope.
(** Not two hexadecimal digits per byte, or not [n] bytes. *)
Definition bad_hex (n : N) (s : str) (e : err) : Prop :=
  ((forall b, ~ hex_text s b) /\ e = HexErr) \/ (exists b, hex_text s b /\ len b <> n /\ e = InvalidData).
Definition not_word (s : str) : Prop := forall b, hex_text s b -> len b <> 32.
Definition bad_bool (s : str) : Prop := ~ List.In s [lit "true"; lit "false"; lit "1"; lit "0"].
Definition bad_character := OtherErr (lit "Uint parse error: InvalidCharacter").
Definition too_long := OtherErr (lit "Uint parse error: InvalidLength").
Definition overflow := OtherErr (lit "int256 parse error: Overflow").
Definition underflow := OtherErr (lit "int256 parse error: Underflow").
Definition strict_error (t : ParamType) (s : str) (e : err) : Prop :=
  match t with
  | PAddress => bad_hex 20 s e
  | PBytes => (forall b, ~ hex_text s b) /\ e = HexErr
  | PFixedBytes n => bad_hex n s e
  | PUint _ | PInt _ => bad_hex 32 s e
  | PBool => bad_bool s /\ e = InvalidData
  | _ => False
  end.
Definition lenient_error (t : ParamType) (s : str) (e : err) : Prop :=
  match t with
  | PUint _ => not_word s /\
    (((forall n, ~ decimal_text s n) /\ e = bad_character) \/ (exists n, decimal_text s n /\ 2 ^ 256 <= n /\ e = too_long))
  | PInt _ => not_word s /\
    (((forall z, ~ minus_text s z) /\ e = bad_character) \/
     (exists z, minus_text s z /\
        ((2 ^ 256 <= Z.abs z /\ e = too_long) \/
         (2 ^ 255 <= z < 2 ^ 256 /\ e = overflow) \/ (- 2 ^ 256 < z < - 2 ^ 255 /\ e = underflow))%Z))
  | _ => strict_error t s e
  end.

(** ** The command line program *)
From Verif Require Import Cli.
(** A file that cannot be opened. *)
Definition io_error : err := OtherErr (lit "io error").
(** The contract file that a command reads. *)
Definition contract_path (opt : Opt) : option str :=
  match opt with
  | EncodeFunction path _ _ _ | DecodeFunction path _ _ | DecodeLog path _ _ _ => Some path
  | EncodeParams _ _ | DecodeParams _ _ => None
  end.

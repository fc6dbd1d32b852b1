(** * Lossy UTF-8 decoding: [String::from_utf8_lossy], used at
    /repo/ethabi/src/decoder.rs:136.

    The std algorithm (core::str::lossy::Utf8Chunks): scan maximal valid
    prefixes; every maximal invalid prefix becomes one U+FFFD. *)
From Verif Require Import Base.
Set Implicit Arguments.
Local Open Scope N_scope.

(** A range of bytes *)
Definition in_range (lo hi : N) (b : byte) : bool := (lo <=? Byte.to_N b) && (Byte.to_N b <=? hi).
(** A continuation byte *)
Definition is_cont (b : byte) : bool := in_range 0x80 0xBF b.
(** The bits of a continuation byte *)
Definition cont_bits (b : byte) : N := Byte.to_N b - 0x80.

(** Allowed second byte of a 3-byte sequence starting with [b]. *)
Definition second3 (b : N) (b1 : byte) : bool :=
  if b =? 0xE0 then in_range 0xA0 0xBF b1
  else if b =? 0xED then in_range 0x80 0x9F b1
  else in_range 0x80 0xBF b1.
(** Allowed second byte of a 4-byte sequence starting with [b]. *)
Definition second4 (b : N) (b1 : byte) : bool :=
  if b =? 0xF0 then in_range 0x90 0xBF b1
  else if b =? 0xF4 then in_range 0x80 0x8F b1
  else in_range 0x80 0xBF b1.

(** [char::REPLACEMENT_CHARACTER] *)
Definition replacement : char := 0xFFFD.

(** [String::from_utf8_lossy]: decoder.rs:136 *)
Fixpoint utf8_lossy (l : list byte) : str :=
  match l with
  | [] => []
  | b0 :: r0 =>
    let b := Byte.to_N b0 in
    if b <? 0x80 then b :: utf8_lossy r0
    else if (0xC2 <=? b) && (b <=? 0xDF) then
      match r0 with
      | b1 :: r1 =>
        if is_cont b1 then ((b - 0xC0) * 64 + cont_bits b1) :: utf8_lossy r1
        else replacement :: utf8_lossy r0
      | [] => replacement :: utf8_lossy r0
      end
    else if (0xE0 <=? b) && (b <=? 0xEF) then
      match r0 with
      | b1 :: r1 =>
        if second3 b b1 then
          match r1 with
          | b2 :: r2 =>
            if is_cont b2 then
              ((b - 0xE0) * 4096 + cont_bits b1 * 64 + cont_bits b2) :: utf8_lossy r2
            else replacement :: utf8_lossy r1
          | [] => replacement :: utf8_lossy r1
          end
        else replacement :: utf8_lossy r0
      | [] => replacement :: utf8_lossy r0
      end
    else if (0xF0 <=? b) && (b <=? 0xF4) then
      match r0 with
      | b1 :: r1 =>
        if second4 b b1 then
          match r1 with
          | b2 :: r2 =>
            if is_cont b2 then
              match r2 with
              | b3 :: r3 =>
                if is_cont b3 then
                  ((b - 0xF0) * 262144 + cont_bits b1 * 4096 + cont_bits b2 * 64 + cont_bits b3)
                    :: utf8_lossy r3
                else replacement :: utf8_lossy r2
              | [] => replacement :: utf8_lossy r2
              end
            else replacement :: utf8_lossy r1
          | [] => replacement :: utf8_lossy r1
          end
        else replacement :: utf8_lossy r0
      | [] => replacement :: utf8_lossy r0
      end
    else replacement :: utf8_lossy r0
  end.

(** * What goes wrong on targets with 32-bit [usize]: a relation, independent
    of the decoder model. *)
From Verif Require Import Base Utf8 Types AbiSpec DecoderSpec.
Set Implicit Arguments.
Local Open Scope N_scope.

(** No slice is longer than [isize::MAX]. *)
Definition fits32 (data : list byte) : Prop := len data < 2 ^ 31.
(** The sizes in the type are 32-bit numbers. *)
Fixpoint sized32 (t : ParamType) : bool :=
  match t with
  | PInt n | PUint n | PFixedBytes n => n <? 2 ^ 32
  | PArray t => sized32 t
  | PFixedArray t n => sized32 t && (n <? 2 ^ 32)
  | PTuple ts => forallb sized32 ts
  | _ => true
  end.
(** The types read through an offset to a length. *)
Definition counted (t : ParamType) : bool := match t with PBytes | PString | PArray _ => true | _ => false end.
Definition text_or_bytes (t : ParamType) : bool := match t with PBytes | PString => true | _ => false end.

(** As [crashes] of DecoderSpec.v, with two more causes: an offset so large
    that the end of the length it points to is not a 32-bit number, and a
    length of bytes or text so large that the end of these is not. *)
Inductive crashes32 (p : profile) : list byte -> ParamType -> N -> Prop :=
| crashes32_far data t pos o :
    counted t = true -> index_at data pos o -> 2 ^ 32 <= o + 32 -> crashes32 p data t pos
| crashes32_long data t pos o n :
    text_or_bytes t = true -> index_at data pos o -> index_at data o n -> 2 ^ 32 <= o + 32 + n -> crashes32 p data t pos
| crashes32_offset data t n pos o :
    dynamic t = true -> index_at data pos o -> len data < o -> crashes32 p data (PFixedArray t n) pos
| crashes32_size data n pos :
    2 ^ 32 <= pos + n -> (p = Debug \/ pos + n - 2 ^ 32 <= len data) -> crashes32 p data (PFixedBytes n) pos
| crashes32_array data t pos o n frame :
    index_at data pos o -> index_at data o n -> frame_at data (o + 32) frame ->
    crashes32_seq p frame (repeat t (N.to_nat n)) 0 ->
    crashes32 p data (PArray t) pos
| crashes32_fixed_array_static data t n pos :
    dynamic t = false -> crashes32_seq p data (repeat t (N.to_nat n)) pos ->
    crashes32 p data (PFixedArray t n) pos
| crashes32_fixed_array_dynamic data t n pos o frame :
    dynamic t = true -> index_at data pos o -> frame_at data o frame ->
    crashes32_seq p frame (repeat t (N.to_nat n)) 0 ->
    crashes32 p data (PFixedArray t n) pos
| crashes32_tuple_static data ts pos :
    dynamic (PTuple ts) = false -> crashes32_seq p data ts pos -> crashes32 p data (PTuple ts) pos
| crashes32_tuple_dynamic data ts pos o frame :
    dynamic (PTuple ts) = true -> index_at data pos o -> frame_at data o frame ->
    crashes32_seq p frame ts 0 -> crashes32 p data (PTuple ts) pos
with crashes32_seq (p : profile) : list byte -> list ParamType -> N -> Prop :=
| crashes32_here data t ts pos : crashes32 p data t pos -> crashes32_seq p data (t :: ts) pos
| crashes32_later data t ts pos v next :
    reads data t pos v next -> crashes32_seq p data ts next -> crashes32_seq p data (t :: ts) pos.

Scheme crashes32_ind2 := Induction for crashes32 Sort Prop
  with crashes32_seq_ind2 := Induction for crashes32_seq Sort Prop.
Combined Scheme crashes32_mutind from crashes32_ind2, crashes32_seq_ind2.

(** No 32 bytes in a row hold a number within the last part of the 32-bit
    range, as long as the data, and no bytesN is longer than half of that
    range. *)
Definition calm (data : list byte) : Prop := forall pos n, index_at data pos n -> n + len data < 2 ^ 32.
Fixpoint moderate (t : ParamType) : bool :=
  match t with
  | PFixedBytes n => n <? 2 ^ 31 - 32
  | PArray t | PFixedArray t _ => moderate t
  | PTuple ts => forallb moderate ts
  | _ => true
  end.

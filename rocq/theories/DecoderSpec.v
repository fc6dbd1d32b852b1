(** * What it means for a byte string to contain ABI data: a relation.

    Independent of the decoder model: no machine integers, no error values, no
    slicing function, only "these bytes occur at this position". *)
From Verif Require Import Base Utf8 Types AbiSpec.
Set Implicit Arguments.
Local Open Scope N_scope.

(** The bytes [bs] occur in [data] at position [pos]. *)
Definition bytes_at (data : list byte) (pos : N) (bs : list byte) : Prop :=
  exists pre post, data = pre ++ bs ++ post /\ len pre = pos.

(** The 32-byte word at [pos] holds the number [n], small enough to be an
    offset or a length (less than 2^32). *)
Definition index_at (data : list byte) (pos n : N) : Prop :=
  bytes_at data pos (word n) /\ n < two32.

(** [frame] is the part of [data] from position [pos] to its end. *)
Definition frame_at (data : list byte) (pos : N) (frame : list byte) : Prop :=
  exists pre, data = pre ++ frame /\ len pre = pos.

(** [reads data t pos v next]: reading a value of type [t] whose head is at
    [pos] gives [v], and the head of the next value is at [next].  Offsets are
    relative to the start of [data], the enclosing frame. *)
Inductive reads : list byte -> ParamType -> N -> Token -> N -> Prop :=
| reads_address data pos hi a :
    bytes_at data pos (hi ++ a) -> len hi = 12 -> len a = 20 ->
    reads data PAddress pos (TAddress a) (pos + 32)
| reads_int data n pos w :
    bytes_at data pos w -> len w = 32 -> reads data (PInt n) pos (TInt (of_be w)) (pos + 32)
| reads_uint data n pos w :
    bytes_at data pos w -> len w = 32 -> reads data (PUint n) pos (TUint (of_be w)) (pos + 32)
| reads_bool data pos b :
    bytes_at data pos (zeros 31 ++ [b]) ->
    reads data PBool pos (TBool (Byte.to_N b =? 1)) (pos + 32)
| reads_fixed_bytes data n pos b :
    bytes_at data pos b -> len b = n -> reads data (PFixedBytes n) pos (TFixedBytes b) (pos + 32)
| reads_bytes data pos o b :
    index_at data pos o -> index_at data o (len b) -> bytes_at data (o + 32) b ->
    reads data PBytes pos (TBytes b) (pos + 32)
| reads_string data pos o b :
    index_at data pos o -> index_at data o (len b) -> bytes_at data (o + 32) b ->
    reads data PString pos (TString (utf8_lossy b)) (pos + 32)
| reads_array data t pos o vs frame next :
    index_at data pos o -> index_at data o (len vs) -> frame_at data (o + 32) frame ->
    reads_seq frame (repeat t (length vs)) 0 vs next ->
    reads data (PArray t) pos (TArray vs) (pos + 32)
| reads_fixed_array_static data t n pos vs next :
    dynamic t = false -> len vs = n ->
    reads_seq data (repeat t (length vs)) pos vs next ->
    reads data (PFixedArray t n) pos (TFixedArray vs) next
| reads_fixed_array_dynamic data t n pos o vs frame next :
    dynamic t = true -> len vs = n ->
    index_at data pos o -> frame_at data o frame ->
    reads_seq frame (repeat t (length vs)) 0 vs next ->
    reads data (PFixedArray t n) pos (TFixedArray vs) (pos + 32)
| reads_tuple_static data ts pos vs next :
    dynamic (PTuple ts) = false ->
    reads_seq data ts pos vs next ->
    reads data (PTuple ts) pos (TTuple vs) next
| reads_tuple_dynamic data ts pos o vs frame next :
    dynamic (PTuple ts) = true ->
    index_at data pos o -> frame_at data o frame ->
    reads_seq frame ts 0 vs next ->
    reads data (PTuple ts) pos (TTuple vs) (pos + 32)
with reads_seq : list byte -> list ParamType -> N -> list Token -> N -> Prop :=
| reads_nil data pos : reads_seq data [] pos [] pos
| reads_cons data t ts pos v vs next last :
    reads data t pos v next -> reads_seq data ts next vs last ->
    reads_seq data (t :: ts) pos (v :: vs) last.

(** The types whose values the decoder finds even in no data at all. *)
Definition may_be_empty (t : ParamType) : Prop := t = PFixedBytes 0 \/ exists u, t = PFixedArray u 0.

Scheme reads_ind2 := Induction for reads Sort Prop
  with reads_seq_ind2 := Induction for reads_seq Sort Prop.
Combined Scheme reads_mutind from reads_ind2, reads_seq_ind2.

(** [crashes p data t pos]: reading a value of type [t] whose head is at [pos]
    panics in a build with profile [p].  Two things do it: the offset of a
    fixed-size array pointing beyond the end of the frame, and the end of a
    bytesN not being a 64-bit number (a wrapping build then panics only if the
    wrapped end lies within the data). *)
Inductive crashes (p : profile) : list byte -> ParamType -> N -> Prop :=
| crashes_offset data t n pos o :
    dynamic t = true -> index_at data pos o -> len data < o -> crashes p data (PFixedArray t n) pos
| crashes_size data n pos :
    2 ^ 64 <= pos + n -> (p = Debug \/ pos + n - 2 ^ 64 <= len data) -> crashes p data (PFixedBytes n) pos
| crashes_array data t pos o n frame :
    index_at data pos o -> index_at data o n -> frame_at data (o + 32) frame ->
    crashes_seq p frame (repeat t (N.to_nat n)) 0 ->
    crashes p data (PArray t) pos
| crashes_fixed_array_static data t n pos :
    dynamic t = false -> crashes_seq p data (repeat t (N.to_nat n)) pos ->
    crashes p data (PFixedArray t n) pos
| crashes_fixed_array_dynamic data t n pos o frame :
    dynamic t = true -> index_at data pos o -> frame_at data o frame ->
    crashes_seq p frame (repeat t (N.to_nat n)) 0 ->
    crashes p data (PFixedArray t n) pos
| crashes_tuple_static data ts pos :
    dynamic (PTuple ts) = false -> crashes_seq p data ts pos -> crashes p data (PTuple ts) pos
| crashes_tuple_dynamic data ts pos o frame :
    dynamic (PTuple ts) = true -> index_at data pos o -> frame_at data o frame ->
    crashes_seq p frame ts 0 -> crashes p data (PTuple ts) pos
(** The first values can be read, the next one crashes. *)
with crashes_seq (p : profile) : list byte -> list ParamType -> N -> Prop :=
| crashes_here data t ts pos : crashes p data t pos -> crashes_seq p data (t :: ts) pos
| crashes_later data t ts pos v next :
    reads data t pos v next -> crashes_seq p data ts next -> crashes_seq p data (t :: ts) pos.

Scheme crashes_ind2 := Induction for crashes Sort Prop
  with crashes_seq_ind2 := Induction for crashes_seq Sort Prop.
Combined Scheme crashes_mutind from crashes_ind2, crashes_seq_ind2.

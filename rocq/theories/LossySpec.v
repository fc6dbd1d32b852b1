(** * What decoding bytes of any kind as text should give

    The Unicode standard's recommendation for replacing what is not UTF-8 (section 3.9,
    "U+FFFD Substitution of Maximal Subparts"), which the documentation of
    [String::from_utf8_lossy] (used at /repo/ethabi/src/decoder.rs:136) refers to.  Stated
    with the encoding of characters only; nothing here looks at the decoder. *)
From Verif Require Import Base.
Set Implicit Arguments.

(** [u] is the beginning of the encoding of some character, and not all of it. *)
Definition cut_short (u : list byte) : Prop :=
  u <> [] /\ exists c w, is_scalar c = true /\ w <> [] /\ utf8_char c = u ++ w.

(** No character is encoded at the beginning of [l]. *)
Definition no_char (l : list byte) : Prop :=
  forall c r, is_scalar c = true -> utf8_char c ++ r <> l.

(** Characters are decoded; where there is none, the longest beginning of a character, or a
    single byte if there is no such beginning, becomes one U+FFFD. *)
Inductive lossy : list byte -> str -> Prop :=
| lossy_end : lossy [] []
| lossy_char c r s : is_scalar c = true -> lossy r s -> lossy (utf8_char c ++ r) (c :: s)
| lossy_cut u r s : cut_short u -> no_char (u ++ r) ->
    (forall v r', v ++ r' = u ++ r -> cut_short v -> (length v <= length u)%nat) ->
    lossy r s -> lossy (u ++ r) (0xFFFD%N :: s)
| lossy_byte b r s : no_char (b :: r) ->
    (forall v r', v ++ r' = b :: r -> ~ cut_short v) ->
    lossy r s -> lossy (b :: r) (0xFFFD%N :: s).

(** * Array and tuple literals, character by character (independent of the
    tokenizer model) *)
From Verif Require Import Base Types.
From Coq Require Import String.
Set Implicit Arguments.
Local Open Scope N_scope.
Local Open Scope list_scope.

(** How many of the first [p] positions satisfy [f]. *)
Definition count_below (f : nat -> bool) (p : nat) : nat := List.length (filter f (seq 0 p)).
(** The character at position [i] is [c]. *)
Definition is_at (s : str) (c : char) (i : nat) : bool := match nth_error s i with Some c' => c' =? c | None => false end.
(** Position [p] is inside quotes: an odd number of quotation marks precede it. *)
Definition quoted (s : str) (p : nat) : bool := Nat.odd (count_below (is_at s 34) p).
(** [c] at position [i], outside quotes. *)
Definition plain (s : str) (c : char) (i : nat) : bool := is_at s c i && negb (quoted s i).
(** Brackets opened and not closed before position [p]. *)
Definition depth (op cl : char) (s : str) (p : nat) : Z :=
  (Z.of_nat (count_below (plain s op) p) - Z.of_nat (count_below (plain s cl) p))%Z.
(** An item ends at a comma or closing bracket with one bracket open. *)
Definition ends_item (op cl : char) (s : str) (i : nat) : bool := (plain s 44 i || plain s cl i) && (depth op cl s i =? 1)%Z.
(** A closing bracket with none open. *)
Definition stray (op cl : char) (s : str) (i : nat) : bool := plain s cl i && (depth op cl s i <=? 0)%Z.
(** The items, each from behind the end of the one before, in characters. *)
Fixpoint ranges (start : nat) (ends : list nat) : list (nat * nat) :=
  match ends with [] => [] | e :: ends' => (start, e) :: ranges (S e) ends' end.
Definition item_ranges (op cl : char) (s : str) : list (nat * nat) :=
  ranges 1 (filter (ends_item op cl s) (seq 0 (List.length s))).
(** The part of a text from one byte offset to another. *)
Definition bytes_between (s : str) (r : nat * nat) (m : str) : Prop :=
  exists x y, s = x ++ m ++ y /\ List.length (utf8 x) = fst r /\ List.length (utf8 (x ++ m)) = snd r.
Definition bracketed (op cl : char) (s : str) : Prop := exists m, s = op :: m ++ [cl].
(** Something between the brackets, quotes closed, no stray bracket. *)
Definition sound_literal (op cl : char) (s : str) : Prop :=
  bracketed op cl s /\ s <> [op; cl] /\ quoted s (List.length s) = false /\ forall i, stray op cl s i = false.
(** Item [r] is the first that cannot be cut out or whose reading fails [bad]ly,
    and no stray bracket precedes its end. *)
Definition item_breaks (op cl : char) (s : str) (read_before : list (nat * nat) -> Prop) (bad : nat -> str -> Prop) : Prop :=
  bracketed op cl s /\ s <> [op; cl] /\ exists rs1 r rs2, item_ranges op cl s = rs1 ++ r :: rs2 /\
    (forall i, (i < snd r)%nat -> stray op cl s i = false) /\ read_before rs1 /\
    ((forall m, ~ bytes_between s r m) \/ exists m, bytes_between s r m /\ bad (List.length rs1) m).

(** * When array and tuple literals are rejected (independent of the tokenizer
    model) *)
From Verif Require Import Base Types LiteralSpec.
Set Implicit Arguments.
Local Open Scope N_scope.
Local Open Scope list_scope.

(** No bracket closes before the end of [r] that was not opened. *)
Definition undisturbed (op cl : char) (s : str) (r : nat * nat) : Prop := forall i, (i < snd r)%nat -> stray op cl s i = false.
(** Item [r] is the first that is rejected, and no stray bracket precedes its end. *)
Definition item_fails (op cl : char) (s : str) (read_before : list (nat * nat) -> Prop) (bad : nat -> str -> Prop) : Prop :=
  bracketed op cl s /\ s <> [op; cl] /\ exists rs1 r rs2 m, item_ranges op cl s = rs1 ++ r :: rs2 /\
    undisturbed op cl s r /\ read_before rs1 /\ bytes_between s r m /\ bad (List.length rs1) m.
(** There are no brackets around the text; or quotes are left open or a bracket
    is stray, and all items that end before any stray bracket are read. *)
Definition literal_spoilt (op cl : char) (s : str) (read_before : list (nat * nat) -> Prop) : Prop :=
  ~ bracketed op cl s \/
  (s <> [op; cl] /\ (quoted s (List.length s) = true \/ exists i, stray op cl s i = true) /\
   exists rs1 rs2, item_ranges op cl s = rs1 ++ rs2 /\ Forall (undisturbed op cl s) rs1 /\ Forall (fun r => ~ undisturbed op cl s r) rs2 /\ read_before rs1).

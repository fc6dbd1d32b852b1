(** * Texts in quotes, as Rust shows them (independent of the model) *)
From Verif Require Import Base.
From Coq Require Import String.
Set Implicit Arguments.
Local Open Scope N_scope.
Local Open Scope list_scope.

(** [h] is the lower-case hexadecimal numeral of [n], which is not 0. *)
Definition hex_value (c : char) : N := if c <=? 57 then c - 48 else c - 87.
Definition hex_numeral (h : str) (n : N) : Prop :=
  Forall (fun c => (48 <= c /\ c <= 57) \/ (97 <= c /\ c <= 102)) h /\ (forall r, h <> 48 :: r) /\ h <> [] /\
  fold_left (fun acc c => 16 * acc + hex_value c) h 0 = n.
(** An ASCII character between double quotes *)
Definition named_escapes : list (char * str) := [(0, lit "\0"); (9, lit "\t"); (10, lit "\n"); (13, lit "\r"); (34, lit "\"""); (92, lit "\\")].
Inductive quoted_char : char -> str -> Prop :=
| qc_named : forall c q, In (c, q) named_escapes -> quoted_char c q
| qc_plain : forall c, 32 <= c -> c <= 126 -> c <> 34 -> c <> 92 -> quoted_char c [c]
| qc_code : forall c h, c < 32 \/ c = 127 -> ~ In c [0; 9; 10; 13] -> hex_numeral h c -> quoted_char c (lit "\u{" ++ h ++ lit "}").
Definition quoted (s q : str) : Prop := exists l, Forall2 quoted_char s l /\ q = lit """" ++ List.concat l ++ lit """".

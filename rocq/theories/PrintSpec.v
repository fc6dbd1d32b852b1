(** * What the encode commands print, independent of the model *)
From Verif Require Import Base Types TokenSpec.
Set Implicit Arguments.
Local Open Scope N_scope.

(** Hexadecimal digits without capital letters. *)
Definition lower_hex_text (s : str) (b : list byte) : Prop := hex_text s b /\ Forall (fun c => ~ (65 <= c /\ c <= 70)) s.
(** The bytes of the texts, and one more for each of them. *)
Definition texts_size (texts : list str) : N := fold_right (fun s n => len (utf8 s) + 1 + n) 0 texts.

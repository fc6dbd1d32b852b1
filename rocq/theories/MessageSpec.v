(** * What the texts of errors say (independent of the model's functions) *)
From Verif Require Import Base Types ErrorSpec TokenSpec ReaderSpec.
From Coq Require Import String.
Set Implicit Arguments.
Local Open Scope N_scope.
Local Open Scope list_scope.

Definition hexadecimal (b : byte) : Prop :=
  let c := Byte.to_N b in (48 <= c /\ c <= 57) \/ (65 <= c /\ c <= 70) \/ (97 <= c /\ c <= 102).
(** [b], at position [i], is the first byte that is not a hexadecimal digit. *)
Definition first_bad (l : list byte) (i : N) (b : byte) : Prop :=
  exists before after, l = before ++ b :: after /\ len before = i /\ Forall hexadecimal before /\ ~ hexadecimal b.
(** The types of which values are written in hexadecimal *)
Definition in_hex (t : ParamType) : bool := match t with PAddress | PBytes | PFixedBytes _ | PUint _ | PInt _ => true | _ => false end.
(** ** How a byte is written in a message *)
Definition lower_hex (d : char) (v : N) : Prop := (v < 10 /\ d = 48 + v) \/ (10 <= v /\ v < 16 /\ d = 87 + v).
(** Latin-1 without controls, the no-break space and the soft hyphen *)
Definition printed (c : char) : Prop := (32 <= c /\ c <= 126) \/ (161 <= c /\ c <> 173).
Definition quoted (c : char) (m : str) : Prop :=
  List.In (c, m) [(0, lit "'\0'"); (9, lit "'\t'"); (10, lit "'\n'"); (13, lit "'\r'"); (39, lit "'\''"); (92, lit "'\\'")] \/
  (printed c /\ c <> 39 /\ c <> 92 /\ m = [39; c; 39]) \/
  (~ printed c /\ ~ List.In c [0; 9; 10; 13] /\
     ((exists d, lower_hex d c /\ m = lit "'\u{" ++ [d] ++ lit "}'") \/
      (16 <= c /\ exists d e, lower_hex d (c / 16) /\ lower_hex e (c mod 16) /\ m = lit "'\u{" ++ [d; e] ++ lit "}'"))).
Definition bad_hex_message (x m : str) : Prop :=
  (N.odd (len (utf8 x)) = true /\ m = lit "Hex parsing error: Odd number of digits") \/
  (N.odd (len (utf8 x)) = false /\ exists i b q, first_bad (utf8 x) i b /\ quoted (Byte.to_N b) q /\
     m = lit "Hex parsing error: Invalid character " ++ q ++ lit " at position " ++ show_dec i).
(** The message is about the part [x] of the text, as a value of type [t]. *)
Definition blames (lenient : bool) (t : ParamType) (x m : str) : Prop :=
  match t with
  | PAddress | PBytes | PFixedBytes _ => bad_hex_message x m
  | PUint _ | PInt _ => if lenient then lenient_error t x (OtherErr m) else bad_hex_message x m
  | _ => False
  end.

(** ** Numbers *)
Definition digit (c : char) : Prop := 48 <= c /\ c <= 57.
Definition number (d : str) : N := fold_left (fun acc c => 10 * acc + (c - 48)) d 0.
Definition unsigned (s : str) : str := match s with c :: s' => if c =? 43 then s' else s | [] => [] end.
(** More than 64 bits before anything else is wrong *)
Definition overflows (s : str) : Prop := exists d rest, unsigned s = d ++ rest /\ Forall digit d /\ 2 ^ 64 <= number d.
(** Where a type name has a size, [k] *)
Definition size_place (x k : str) : Prop :=
  x = lit "int" ++ k \/ x = lit "uint" ++ k \/ x = lit "bytes" ++ k \/
  (~ List.In 91 k /\ (x = k ++ lit "]" \/ exists y, x = y ++ lit "[" ++ k ++ lit "]")).

(** ** A result with the text of a hexadecimal error in place of the error *)
Definition retold {A} (r r' : res A) : Prop :=
  match r with
  | Err HexErr => exists why, r' = Err (OtherErr (lit "Hex parsing error: " ++ why))
  | _ => r' = r
  end.
(** Why a text is rejected as a value of a type that is not a container, in words *)
Definition told_error (lenient : bool) (t : ParamType) (s m : str) : Prop :=
  blames lenient t s m \/
  (m = lit "Invalid data" /\ if lenient then lenient_error t s InvalidData else strict_error t s InvalidData).

(** ** Names *)
(** A result with the text of the error about a number in place of the error *)
Definition recounted {A} (r r' : res A) : Prop :=
  match r with
  | Err ParseIntErr => exists why, r' = Err (OtherErr (lit "Integer parsing error: " ++ why))
  | _ => r' = r
  end.
(** Why [k] is not a size, in words *)
Definition bad_size_message (k m : str) : Prop :=
  (overflows k /\ m = lit "Integer parsing error: number too large to fit in target type") \/
  (~ overflows k /\ (forall n, ~ size_text k n) /\ m = lit "Integer parsing error: invalid digit found in string").
(** The error about a number, with its text *)
Definition number_told (k : str) (e : err) : Prop := exists m, e = OtherErr m /\ bad_size_message k m.

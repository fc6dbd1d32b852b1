(** * The text of a type name that is rejected in JSON *)
From Verif Require Import Base Types TypeNames Message.
From Coq Require Import String.
Set Implicit Arguments.
Local Open Scope N_scope.
Local Open Scope list_scope.

(** [Debug for str] of the standard library, for ASCII.  Which other characters
    are escaped is in tables that are not modelled: they are left as they are
    here, and no theorem speaks of them. *)
Definition debug_str_char (c : char) : str :=
  if c =? 0 then lit "\0" else if c =? 9 then lit "\t" else if c =? 10 then lit "\n" else if c =? 13 then lit "\r"
  else if c =? 34 then lit "\""" else if c =? 92 then lit "\\"
  else if (c <? 32) || (c =? 127) then lit "\u{" ++ (if c <? 16 then [hex_digit c] else [hex_digit (c / 16); hex_digit (c mod 16)]) ++ lit "}"
  else [c].
Definition debug_str (s : str) : str := lit """" ++ flat_map debug_str_char s ++ lit """".
(** The name of the kind of a [ParseIntError], from its text; the texts of the
    kinds are different. *)
Definition debug_kind (m : str) : str :=
  if str_eqb m (int_message PosOverflow) then lit "PosOverflow" else if str_eqb m (int_message Empty) then lit "Empty" else lit "InvalidDigit".
(** /repo/ethabi/src/param_type/deserialize.rs:34-39, the text given to
    [SerdeError::custom] for a name, if it is rejected; the derived [Debug] of
    /repo/ethabi/src/errors.rs:17-41. *)
Definition visit_error (p : profile) (value : str) : option str :=
  match read_told p value with
  | Err (InvalidName x) => Some (lit "InvalidName(" ++ debug_str x ++ lit ")")
  | Err (OtherErr m) => Some (lit "ParseInt(ParseIntError { kind: " ++ debug_kind m ++ lit " })")
  | _ => None
  end.

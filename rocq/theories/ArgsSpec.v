(** * Command lines, as sequences of positional arguments, flags and options *)
From Verif Require Import Base Cli.
From Coq Require Import String.
Set Implicit Arguments.
Local Open Scope N_scope.
Local Open Scope list_scope.
Notation length := List.length.

(** A text that is not taken for a flag or an option: it does not start with a
    hyphen, or is a lone hyphen. *)
Definition bare (w : str) : Prop := forall x r, w <> 45 :: x :: r.
(** Only [n] copies of a character. *)
Definition run (c : char) (n : nat) : str := repeat c n.

Section Line.
(** The letter of the option, the number of values it takes, whether they may
    look like options, and whether there is the flag "l"/"lenient". *)
Context (letter : option char) (n : nat) (hyphens lenient : bool).

(** "-", perhaps flags, and the letter of the option; perhaps directly followed
    by a value. *)
Inductive option_word : str -> nat -> list str -> Prop :=
| ow_alone : forall o j, letter = Some o -> lenient = true \/ j = O ->
    option_word (45 :: run 108 j ++ [o]) j []
| ow_attached : forall o j x u, letter = Some o -> lenient = true \/ j = O -> x <> 61 ->
    option_word (45 :: run 108 j ++ o :: x :: u) j [x :: u].
Definition may_be_value (u : str) : Prop := hyphens = true \/ bare u.
(** The number of values one use of the option takes if there are [k] already:
    up to the next multiple of [n]. *)
Definition wanted (k : nat) : nat := (n - k mod n)%nat.

(** [line k args vs f ps]: after [k] values of the option, the arguments [args]
    give it the further values [vs], contain the flag [f] times, and the
    positional arguments [ps]. *)
Inductive line : nat -> list str -> list str -> nat -> list str -> Prop :=
| l_end : forall k, line k [] [] O []
| l_rest : forall k ws, line k (lit "--" :: ws) [] O ws
| l_positional : forall k w args vs f ps, bare w -> line k args vs f ps -> line k (w :: args) vs f (w :: ps)
| l_flags : forall k j args vs f ps, lenient = true -> line k args vs f ps ->
    line k ((45 :: run 108 (S j)) :: args) vs (S j + f) ps
(** "--lenient"; more hyphens and a value do no harm. *)
| l_long : forall k h x args vs f ps, lenient = true -> (forall y r, x = y :: r -> y = 61) -> line k args vs f ps ->
    line k ((run 45 (2 + h) ++ lit "lenient" ++ x) :: args) vs (S f) ps
(** The option with all its values. *)
| l_option : forall k w j a us args vs f ps, option_word w j a -> Forall may_be_value us ->
    length (a ++ us) = wanted k -> line (k + wanted k) args vs f ps ->
    line k (w :: us ++ args) (a ++ us ++ vs) (j + f) ps
(** "-o=value" gives it one value; several '=' count as one. *)
| l_equals : forall k o j i u args vs f ps, letter = Some o -> lenient = true \/ j = O -> (forall y r, u = y :: r -> y <> 61) ->
    line (k + 1) args vs f ps ->
    line k ((45 :: run 108 j ++ o :: run 61 (S i) ++ u) :: args) (u :: vs) (j + f) ps
(** Too few values before the next flag or option: this is no error. *)
| l_fewer : forall k w j a us x args vs f ps, option_word w j a -> Forall may_be_value us -> hyphens = false ->
    (length (a ++ us) < wanted k)%nat -> ~ bare x -> (x = lit "--" -> 0 < k + length (a ++ us))%nat ->
    line (k + length (a ++ us)) (x :: args) vs f ps ->
    line k (w :: us ++ x :: args) (a ++ us ++ vs) (j + f) ps
(** Too few values at the end, but not none at all. *)
| l_last : forall k w j a us, option_word w j a -> Forall may_be_value us ->
    (length (a ++ us) < wanted k)%nat -> (0 < k + length (a ++ us))%nat ->
    line k (w :: us) (a ++ us) j [].
End Line.

(** ** The commands *)
Definition once (f : nat) (b : bool) : Prop := f = O /\ b = false \/ f = 1%nat /\ b = true.
Inductive command_line : list str -> Opt -> Prop :=
| cl_encode_function : forall prog args path name ps f b, line (Some 112) 1 false true 0 args ps f [path; name] -> once f b ->
    command_line (prog :: lit "encode" :: lit "function" :: args) (EncodeFunction path name ps b)
| cl_encode_params : forall prog args ps f b, line (Some 118) 2 true true 0 args ps f [] -> once f b -> Nat.even (length ps) = true ->
    command_line (prog :: lit "encode" :: lit "params" :: args) (EncodeParams ps b)
| cl_decode_function : forall prog args path name data, line None 1 false false 0 args [] 0 [path; name; data] ->
    command_line (prog :: lit "decode" :: lit "function" :: args) (DecodeFunction path name data)
| cl_decode_params : forall prog args ts data, line (Some 116) 1 false false 0 args ts 0 [data] ->
    command_line (prog :: lit "decode" :: lit "params" :: args) (DecodeParams ts data)
| cl_decode_log : forall prog args path name ts data, line (Some 108) 1 false false 0 args ts 0 [path; name; data] ->
    command_line (prog :: lit "decode" :: lit "log" :: args) (DecodeLog path name ts data).

(** ** Ordinary command lines: pieces in any order *)
Inductive piece := Positional (w : str) | Flag (long : bool) | Option (us : list str).
Definition piece_text (o : char) (x : piece) : list str :=
  match x with
  | Positional w => [w]
  | Flag long => [if long then lit "--lenient" else lit "-l"]
  | Option us => [45; o] :: us
  end.
Definition piece_ok (n : nat) (hyphens lenient : bool) (x : piece) : Prop :=
  match x with
  | Positional w => bare w
  | Flag _ => lenient = true
  | Option us => length us = n /\ Forall (may_be_value hyphens) us
  end.
Definition piece_values (x : piece) : list str := match x with Option us => us | _ => [] end.
Definition piece_flags (x : piece) : nat := match x with Flag _ => 1 | _ => 0 end.
Definition piece_positionals (x : piece) : list str := match x with Positional w => [w] | _ => [] end.

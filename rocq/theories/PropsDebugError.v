(** * What is said of a type that is rejected in JSON (C90).
    Every theorem is proved elsewhere and closed here by [exact]. *)
From Verif Require Import Base Types StrFacts TypeNames ReaderSpec NameErrorSpec Message MessageSpec DebugErrorSpec DebugError DebugErrorFacts.
From Coq Require Import String.
Local Open Scope N_scope.
Local Open Scope list_scope.

(** ** C90: the text that is handed to serde for a type name. *)
(** There is one for exactly the names that are rejected. *)
Theorem C90_given : forall p s, str_len s < 2 ^ 63 -> ((exists e, read p s = Err e) <-> exists m, visit_error p s = Some m).
Proof. exact visit_given. Qed.
Print Assumptions C90_given.
(** For ASCII names it is exactly one of these. *)
Theorem C90_text : forall p s m, len s < 2 ^ 63 -> all_ascii s = true -> (visit_error p s = Some m <->
  (exists x q, rejected_name number_told s (InvalidName x) /\ quoted x q /\ m = lit "InvalidName(" ++ q ++ lit ")") \/
  (rejected_name number_told s (OtherErr (lit "Integer parsing error: number too large to fit in target type")) /\ m = lit "ParseInt(ParseIntError { kind: PosOverflow })") \/
  (rejected_name number_told s (OtherErr (lit "Integer parsing error: invalid digit found in string")) /\ m = lit "ParseInt(ParseIntError { kind: InvalidDigit })")).
Proof. exact visit_text. Qed.
Print Assumptions C90_text.
(** Names that are told the same are rejected with the same error; the part of
    the name that the error holds can be read off, whatever quotes, backslashes
    and control characters it has. *)
Theorem C90_same : forall p s s' m, len s < 2 ^ 63 -> len s' < 2 ^ 63 -> all_ascii s = true -> all_ascii s' = true ->
  visit_error p s = Some m -> visit_error p s' = Some m -> read p s = read p s'.
Proof. exact visit_same. Qed.
Print Assumptions C90_same.
Theorem C90_quotes : forall s s' q, all_ascii s = true -> all_ascii s' = true -> quoted s q -> quoted s' q -> s = s'.
Proof. exact quoted_inj. Qed.
Print Assumptions C90_quotes.
Example C90_case : forall p, visit_error p (lit "(bool,fl""ag\" ++ [10; 27] ++ lit "[2])") = Some (lit "InvalidName(""fl\""ag\\\n\u{1b}"")") /\
  visit_error p (lit "uint8[3x]") = Some (lit "ParseInt(ParseIntError { kind: InvalidDigit })") /\
  visit_error p (lit "bytes99999999999999999999") = Some (lit "ParseInt(ParseIntError { kind: PosOverflow })") /\
  visit_error p (lit "bool[2]") = None /\ visit_error p (lit "flag") = visit_error p (lit "flag[]") /\
  all_ascii (lit "(bool,fl""ag\" ++ [10; 27] ++ lit "[2])") = true.
Proof. intros p. destruct p; vm_compute; repeat split; reflexivity. Qed.
Example C90_quotes_case : quoted ([34; 27] ++ lit "x") (lit """\""\u{1b}x""").
Proof.
  exists [lit "\"""; lit "\u{1b}"; lit "x"]. split; [|reflexivity]. constructor; [apply qc_named; cbn; tauto|]. constructor; [|constructor; [apply qc_plain; easy|constructor]].
  apply (@qc_code 27 (lit "1b")); [now left|cbn; intuition discriminate|]. split; [|split; [intros r E; discriminate E|split; [discriminate|reflexivity]]].
  constructor; [left; split; easy|]. constructor; [right; split; easy|constructor].
Qed.

(** * Which errors are returned, for names of any characters (C76, C87).
    Every theorem is proved elsewhere and closed here by [exact]. *)
From Verif Require Import Base StrFacts Types TypeNames ReaderSpec NameErrorSpec Message MessageSpec PlainErrorSpec PlainErrors.
From Coq Require Import String.
Local Open Scope N_scope.
Local Open Scope list_scope.

(** Of the names without ')', of whatever characters, exactly these are rejected,
    with exactly these errors.  (C65_plain_partial and C65_panics_partial say
    which are read and for which the reader panics.) *)
Theorem C76_plain_names : forall p s e, str_len s < 2 ^ 63 -> ~ In 41 s -> (read p s = Err e <-> rejected_plain number_error s e).
Proof. exact plain_errors. Qed.
Print Assumptions C76_plain_names.
(** "xé€[]" is rejected as "xé": of three characters, three bytes are looked at. *)
Example C76_plain_names_case : rejected_plain number_error (120 :: 233 :: 8364 :: lit "[]") (InvalidName [120; 233]) /\
  read Debug (120 :: 233 :: 8364 :: lit "[]") = Err (InvalidName [120; 233]) /\
  rejected_plain number_error (lit "bool[" ++ 233 :: lit "]") ParseIntErr /\ ~ In 41 (120 :: 233 :: 8364 :: lit "[]").
Proof.
  split; [|split; [vm_compute; reflexivity|split; [apply (plain_errors Debug); [reflexivity|vm_compute; intuition discriminate|vm_compute; reflexivity]|vm_compute; intuition discriminate]]].
  apply (@rp_array number_error [120; 233] [8364] (lit "[]")); [now left|reflexivity|]. apply rp_word.
  - intros r. split; [change (lit ")") with [41]|change (lit "]") with [93]]; intros E; apply (f_equal (fun l => List.last l 0)) in E; rewrite List.last_last in E; discriminate.
  - split; [cbn; intuition discriminate|]. intros w k [<-|[<-|[<-|[]]]]; discriminate.
Qed.

(** The messages, for the same names. *)
Theorem C87_plain_names : forall p s m, str_len s < 2 ^ 63 -> ~ In 41 s ->
  (name_message p s = Some m <->
   (exists x, rejected_plain number_told s (InvalidName x) /\ m = lit "Invalid name: " ++ x) \/ rejected_plain number_told s (OtherErr m)).
Proof. exact plain_messages. Qed.
Print Assumptions C87_plain_names.
Example C87_plain_names_case : rejected_plain number_told (120 :: 233 :: 8364 :: lit "[]") (InvalidName [120; 233]) /\
  name_message Debug (120 :: 233 :: 8364 :: lit "[]") = Some (lit "Invalid name: " ++ [120; 233]) /\
  rejected_plain number_told (233 :: lit "[9999999999999999999999]") (OtherErr (lit "Integer parsing error: number too large to fit in target type")) /\
  name_message Debug (233 :: lit "[9999999999999999999999]") = Some (lit "Integer parsing error: number too large to fit in target type").
Proof.
  split; [apply (told_plain Debug)|split; [vm_compute; reflexivity|split; [apply (told_plain Debug)|vm_compute; reflexivity]]];
    first [reflexivity|vm_compute; intuition discriminate].
Qed.

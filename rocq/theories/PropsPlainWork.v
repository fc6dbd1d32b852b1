(** * Reading names without ')', of any characters: text gone over, depth of calls (C75, C86).
    Every theorem is proved elsewhere and closed here by [exact]. *)
From Verif Require Import Base Types StrFacts TypeNames TypeNamesSpec DepthSpec Work TextStack PlainWork.
From Coq Require Import String.
Local Open Scope N_scope.
Local Open Scope list_scope.

(** A quarter of the square of the length, which by C75_names_attained is what
    some names take. *)
Theorem C75_plain_names : forall p s, str_len s < 2 ^ 63 -> ~ In 41 s -> 4 * name_work p s <= (len s + 2) * (len s + 2).
Proof. exact plain_work. Qed.
Print Assumptions C75_plain_names.
(** One call for two characters; for all fuel. *)
Theorem C86_plain_names : forall p f s, str_len s < 2 ^ 63 -> ~ In 41 s -> 2 * name_calls_fuel p f s <= len s + 2.
Proof. exact plain_calls_fuel. Qed.
Print Assumptions C86_plain_names.
(** "xé€[]": of the five characters two are read again.  Nothing but array
    suffixes takes the most calls. *)
Example C75_plain_names_case : forall p, let s := 120 :: 233 :: 8364 :: lit "[]" in ~ In 41 s /\ all_ascii s = false /\ str_len s < 2 ^ 63 /\ name_work p s = 9 /\ name_calls p s = 2 /\
  4 * name_work p (lit "[][][]") = (6 + 2) * (6 + 2) /\ 2 * name_calls p (lit "[][][]") = 6 + 2.
Proof. intros p s. split; [vm_compute; intuition discriminate|]. destruct p; vm_compute; repeat split; reflexivity. Qed.

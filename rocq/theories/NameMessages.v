(** * The messages about type names, exactly *)
From Verif Require Import Base Types BaseFacts StrFacts TypeNames TypeNamesSpec ReaderSpec ReaderFacts ReaderTotal ReaderGrammar NameErrorSpec NameErrors
  ErrorSpec ErrorFacts Message MessageSpec MessageFacts MessageNames.
From Coq Require Import String.
From Coq Require Import Lia ZifyBool ZifyNat ZifyN.
Set Implicit Arguments.
Local Open Scope N_scope.
Local Open Scope list_scope.
Notation length := List.length.

Lemma told_size s n : usize_told s = Ok n <-> size_text s n.
Proof. rewrite <- size_detail. unfold usize_told. destruct (parse_usize_detail s); split; congruence. Qed.
Lemma told_not_size s e : s <> [] -> (usize_told s = Err e <-> not_size s /\ number_told s e).
Proof.
  intros N. unfold usize_told, number_told. split.
  - destruct (parse_usize_detail s) as [n|k] eqn:E; [discriminate|]. intros X. injection X as <-. split; [intros n H; apply size_detail in H; congruence|].
    exists (int_message k). split; [reflexivity|now apply size_message].
  - intros [NS (m & -> & M)]. destruct (parse_usize_detail s) as [n|k] eqn:E; [apply size_detail in E; now apply NS in E|].
    apply size_message in E; [|exact N]. assert (U : int_message k = m) by (destruct M as [[O ->]|(O & _ & ->)], E as [[O' ->]|(O' & _ & ->)]; [reflexivity|contradiction..|reflexivity]).
    now rewrite U.
Qed.
Lemma recounted_ok A (r r' : res A) t : recounted r r' -> (r' = Ok t <-> r = Ok t).
Proof. destruct r as [a|e|]; cbn [recounted]; [intros ->; reflexivity| |intros ->; reflexivity]. destruct e; try (intros ->; split; discriminate). intros [w ->]. split; discriminate. Qed.
Theorem told_names p s e : len s < 2 ^ 63 -> all_ascii s = true -> (read_told p s = Err e <-> rejected_name number_told s e).
Proof.
  intros B A. unfold read_told. change (told_fuel p) with (gen_fuel usize_told p). apply name_err; auto; [apply told_size|apply told_not_size| | |].
  - intros s' t. apply recounted_ok, base_recounted.
  - intros s' E. pose proof (base_recounted s') as R. change (gen_base usize_told s') with (told_base s') in E. rewrite E in R.
    destruct (read_base s') as [t|e'|] eqn:X; cbn [recounted] in R; [discriminate|destruct e'; try discriminate; destruct R; discriminate|now apply read_base_not_panic in X].
  - intros f s' t. apply recounted_ok, (fuel_recounted p f s').
Qed.
Theorem name_messages_exact p s m : len s < 2 ^ 63 -> all_ascii s = true ->
  (name_message p s = Some m <->
   (exists x, rejected_name number_told s (InvalidName x) /\ m = lit "Invalid name: " ++ x) \/ rejected_name number_told s (OtherErr m)).
Proof.
  intros B A. rewrite <- (@told_names p s (OtherErr m) B A). unfold name_message. split.
  - pose proof (read_recounted p s) as R. destruct (read_told p s) as [t|e|] eqn:E; [discriminate| |discriminate].
    destruct e; cbn [display_error]; try discriminate; intros D.
    + left. exists s0. split; [now apply told_names with p|]. now injection D as <-.
    + exfalso. destruct (read p s) as [t|e|] eqn:X; cbn [recounted] in R; try discriminate.
      assert (B' : str_len s < 2 ^ 63) by (now rewrite (str_len_ascii _ A)).
      apply read_errors in X as [->|(x & _ & -> & _)]; [destruct R; discriminate|discriminate|exact B'].
    + right. injection D as ->. reflexivity.
  - intros [(x & R & ->)|E]; [apply (told_names p) in R; auto|]; [rewrite R|rewrite E]; reflexivity.
Qed.

(** * Proofs about the text of a type name that is rejected in JSON *)
From Verif Require Import Base BaseFacts StrFacts Types TypeNames TypeNamesSpec ReaderFacts ReaderSpec NameErrorSpec ErrorSpec ErrorFacts Message MessageSpec MessageFacts MessageNames NameMessages DebugErrorSpec DebugError.
From Coq Require Import String Lia ZifyBool ZifyNat ZifyN.
Set Implicit Arguments.
Local Open Scope N_scope.
Local Open Scope list_scope.
Notation length := List.length.

(** ** Characters *)
Lemma fold_hex_ge h : forall acc, acc <= fold_left (fun acc c => 16 * acc + hex_value c) h acc.
Proof. induction h as [|c h IH]; intros acc; cbn [fold_left]; [lia|]. specialize (IH (16 * acc + hex_value c)). lia. Qed.
Definition hex_of (c : N) : str := if c <? 16 then [hex_digit c] else [hex_digit (c / 16); hex_digit (c mod 16)].
Lemma digit_of c : (48 <= c /\ c <= 57) \/ (97 <= c /\ c <= 102) -> hex_digit (hex_value c) = c /\ hex_value c < 16 /\ (hex_value c = 0 -> c = 48).
Proof. intros H. unfold hex_digit, hex_value. repeat match goal with |- context [if ?b then _ else _] => destruct b eqn:? end; lia. Qed.
Lemma hex_unique h c : c < 128 -> hex_numeral h c -> h = hex_of c.
Proof.
  intros B (D & Z & NE & V). destruct h as [|a h]; [congruence|]. inversion D as [|? ? Da D1]; subst x l. destruct (digit_of Da) as (A1 & A2 & A3).
  assert (A0 : hex_value a <> 0) by (intros E; apply A3 in E; subst a; now apply (Z h)). cbn [fold_left] in V. rewrite N.mul_0_r, N.add_0_l in V.
  unfold hex_of. destruct h as [|b h]; cbn [fold_left] in V.
  - subst c. replace (hex_value a <? 16) with true by lia. now rewrite A1.
  - inversion D1 as [|? ? Db D2]; subst x l. destruct (digit_of Db) as (B1 & B2 & _). destruct h as [|d h]; cbn [fold_left] in V.
    + subst c. replace (16 * hex_value a + hex_value b <? 16) with false by lia.
      replace ((16 * hex_value a + hex_value b) / 16) with (hex_value a) by (apply N.div_unique with (hex_value b); lia).
      replace ((16 * hex_value a + hex_value b) mod 16) with (hex_value b) by (apply N.mod_unique with (hex_value a); lia). now rewrite A1, B1.
    + pose proof (fold_hex_ge h (16 * (16 * hex_value a + hex_value b) + hex_value d)) as G. rewrite V in G. lia.
Qed.
Ltac ascii_cases c H := destruct c as [|c]; [|do 7 (try destruct c as [c|c|]); try (exfalso; revert H; clear; intros; lia)].
Lemma hex_of_numeral c : 0 < c -> c < 128 -> hex_numeral (hex_of c) c.
Proof.
  intros P B. unfold hex_of, hex_numeral.
  assert (Dg : forall d, d < 16 -> ((48 <= hex_digit d /\ hex_digit d <= 57) \/ (97 <= hex_digit d /\ hex_digit d <= 102)) /\ hex_value (hex_digit d) = d /\ (hex_digit d = 48 -> d = 0)).
  { intros d L. unfold hex_digit, hex_value. repeat match goal with |- context [if ?b then _ else _] => destruct b eqn:? end; lia. }
  destruct (c <? 16) eqn:E.
  - destruct (Dg c ltac:(lia)) as (D1 & D2 & D3). split; [auto|]. split; [intros r X; injection X as X _; lia|]. split; [discriminate|]. cbn [fold_left]. lia.
  - pose proof (N.div_mod c 16 ltac:(lia)) as M. pose proof (N.mod_lt c 16 ltac:(lia)) as ML. set (a := c / 16) in *. set (b := c mod 16) in *. clearbody a b.
    destruct (Dg a ltac:(lia)) as (D1 & D2 & D3). destruct (Dg b ML) as (F1 & F2 & _).
    split; [auto|]. split; [intros r X; injection X as X _; lia|]. split; [discriminate|]. cbn [fold_left]. lia.
Qed.
Lemma char_quoted c q : c < 128 -> (quoted_char c q <-> q = debug_str_char c).
Proof.
  intros B. split.
  - intros [c' q' I|c' L1 L2 N1 N2|c' h C N H].
    + unfold named_escapes in I. cbn [In] in I. repeat (destruct I as [I|I]; [injection I as <- <-; reflexivity|]). destruct I.
    + unfold debug_str_char. repeat match goal with |- context [if ?b then _ else _] => replace b with false by lia end. reflexivity.
    + apply hex_unique in H; [|lia]. subst h. cbn [In] in N. unfold debug_str_char.
      repeat match goal with |- context [if c' =? ?b then _ else _] => replace (c' =? b) with false by lia end. replace ((c' <? 32) || (c' =? 127)) with true by lia. reflexivity.
  - intros ->. unfold debug_str_char.
    repeat match goal with |- quoted_char _ (if c =? ?b then _ else _) => destruct (N.eqb_spec c b) as [->|?]; [apply qc_named; cbn; tauto|] end.
    destruct ((c <? 32) || (c =? 127)) eqn:E; [apply qc_code; [lia|cbn; lia|apply hex_of_numeral; lia]|apply qc_plain; lia].
Qed.
Lemma str_quoted s q : all_ascii s = true -> (quoted s q <-> q = debug_str s).
Proof.
  intros A. assert (H : forall l, Forall2 quoted_char s l <-> l = map debug_str_char s).
  { revert A. induction s as [|c s IH]; intros A l; [split; [intros F; now inversion F|intros ->; constructor]|].
    cbn [all_ascii forallb] in A. apply andb_true_iff in A as [A1 A2]. unfold is_ascii in A1. specialize (IH A2). split.
    - intros F. inversion F as [|? q' ? l' Q F']; subst. apply char_quoted in Q; [|lia]. apply IH in F'. subst. reflexivity.
    - intros ->. cbn [map]. constructor; [apply char_quoted; [lia|reflexivity]|now apply IH]. }
  unfold quoted, debug_str. rewrite flat_map_concat_map. split.
  - intros (l & F & ->). apply H in F as ->. reflexivity.
  - intros ->. exists (map debug_str_char s). split; [now apply H|reflexivity].
Qed.
(** ** Reading back *)
Definition unquote (s : str) : option (char * str) :=
  match s with
  | 92 :: k :: r =>
    if k =? 48 then Some (0, r) else if k =? 116 then Some (9, r) else if k =? 110 then Some (10, r) else if k =? 114 then Some (13, r)
    else if k =? 117 then
      match r with
      | 123 :: a :: r1 => match r1 with 125 :: r2 => Some (hex_value a, r2) | b :: _ :: r2 => Some (16 * hex_value a + hex_value b, r2) | _ => None end
      | _ => None
      end
    else Some (k, r)
  | c :: r => Some (c, r)
  | [] => None
  end.
Lemma unquote_char c r : c < 128 -> unquote (debug_str_char c ++ r) = Some (c, r).
Proof. intros H. ascii_cases c H; reflexivity. Qed.
Lemma quotes_inj s : forall s', all_ascii s = true -> all_ascii s' = true -> flat_map debug_str_char s = flat_map debug_str_char s' -> s = s'.
Proof.
  assert (NE : forall c r, c < 128 -> [] <> debug_str_char c ++ r) by (intros c r L E; pose proof (unquote_char r L) as U; rewrite <- E in U; discriminate).
  induction s as [|c s IH]; intros [|c' s'] A A' E; cbn [all_ascii forallb] in A, A'; try (apply andb_true_iff in A as [A1 A2]; unfold is_ascii in A1); try (apply andb_true_iff in A' as [A1' A2']; unfold is_ascii in A1'); cbn [flat_map] in E.
  - reflexivity.
  - exfalso. apply NE in E; [easy|lia].
  - exfalso. symmetry in E. apply NE in E; [easy|lia].
  - apply (f_equal unquote) in E. rewrite !unquote_char in E by lia. injection E as <- E. f_equal. now apply IH.
Qed.
Lemma debug_str_inj s s' : all_ascii s = true -> all_ascii s' = true -> debug_str s = debug_str s' -> s = s'.
Proof. intros A A' E. unfold debug_str in E. apply app_inv_head, app_inv_tail in E. now apply quotes_inj. Qed.

(** ** Names *)
Definition too_large : str := lit "Integer parsing error: number too large to fit in target type".
Definition bad_digit : str := lit "Integer parsing error: invalid digit found in string".
(** The result of the reader with texts, whatever the characters *)
Lemma told_cases p s : str_len s < 2 ^ 63 ->
  match read_told p s with
  | Ok t => read p s = Ok t
  | Panic => read p s = Panic
  | Err e => (exists x, e = InvalidName x /\ part_of x s /\ read p s = Err (InvalidName x)) \/
             ((e = OtherErr too_large \/ e = OtherErr bad_digit) /\ read p s = Err ParseIntErr)
  end.
Proof.
  intros B. pose proof (read_recounted p s) as R. pose proof (@name_messages p s) as M. unfold name_message in M.
  destruct (read p s) as [t|e|] eqn:E; cbn [recounted] in R.
  - now rewrite R.
  - apply read_errors in E as [->|(x & P & -> & _)]; [| |exact B].
    + destruct R as [w R]. rewrite R in *. cbn [display_error] in M. destruct (M _ B eq_refl) as [(x & _ & _ & X & _)|(x & k & _ & _ & _ & _ & _ & [[_ W]|(_ & _ & W)])]; [discriminate X| |];
        right; (split; [|reflexivity]); rewrite W; [now left|now right].
    + rewrite R. left. exists x. auto.
  - now rewrite R.
Qed.
Theorem visit_given p s : str_len s < 2 ^ 63 -> ((exists e, read p s = Err e) <-> exists m, visit_error p s = Some m).
Proof.
  intros B. pose proof (@told_cases p s B) as T. unfold visit_error. destruct (read_told p s) as [t|e|].
  - rewrite T. split; intros [? X]; discriminate X.
  - destruct T as [(x & -> & _ & E)|[[-> | ->] E]]; rewrite E; split; intros _; eexists; reflexivity.
  - rewrite T. split; intros [? X]; discriminate X.
Qed.
Lemma part_ascii x s : part_of x s -> all_ascii s = true -> all_ascii x = true.
Proof. intros (a & b & ->) A. rewrite !all_ascii_app in A. apply andb_true_iff in A as [_ A]. now apply andb_true_iff in A as [A _]. Qed.
Lemma ascii_bytes s : len s < 2 ^ 63 -> all_ascii s = true -> str_len s < 2 ^ 63.
Proof. intros B A. now rewrite (str_len_ascii _ A). Qed.
Theorem visit_text p s m : len s < 2 ^ 63 -> all_ascii s = true -> (visit_error p s = Some m <->
  (exists x q, rejected_name number_told s (InvalidName x) /\ quoted x q /\ m = lit "InvalidName(" ++ q ++ lit ")") \/
  (rejected_name number_told s (OtherErr too_large) /\ m = lit "ParseInt(ParseIntError { kind: PosOverflow })") \/
  (rejected_name number_told s (OtherErr bad_digit) /\ m = lit "ParseInt(ParseIntError { kind: InvalidDigit })")).
Proof.
  intros B A. pose proof (@told_cases p s (ascii_bytes s B A)) as T.
  assert (H : forall e, rejected_name number_told s e <-> read_told p s = Err e) by (intros e; symmetry; now apply told_names).
  assert (Q : forall x q, rejected_name number_told s (InvalidName x) -> (quoted x q <-> q = debug_str x)).
  { intros x q R. apply H in R. rewrite R in T. apply str_quoted. destruct T as [(y & Y & P & _)|[[Y|Y] _]]; try discriminate Y. injection Y as ->. now apply part_ascii with s. }
  unfold visit_error. split.
  - destruct (read_told p s) as [t|e|]; [discriminate| |discriminate]. destruct T as [(x & -> & _ & _)|[[-> | ->] _]]; intros E; injection E as <-.
    + left. exists x, (debug_str x). assert (R : rejected_name number_told s (InvalidName x)) by now apply H. split; [exact R|]. split; [now apply Q|reflexivity].
    + right. left. split; [now apply H|reflexivity].
    + right. right. split; [now apply H|reflexivity].
  - intros [(x & q & R & K & ->)|[[R ->]|[R ->]]].
    + apply Q in K; [|exact R]. subst q. apply H in R. now rewrite R.
    + apply H in R. now rewrite R.
    + apply H in R. now rewrite R.
Qed.
Theorem visit_same p s s' m : len s < 2 ^ 63 -> len s' < 2 ^ 63 -> all_ascii s = true -> all_ascii s' = true ->
  visit_error p s = Some m -> visit_error p s' = Some m -> read p s = read p s'.
Proof.
  intros B B' A A' E E'. pose proof (@told_cases p s (ascii_bytes s B A)) as T. pose proof (@told_cases p s' (ascii_bytes s' B' A')) as T'. unfold visit_error in *.
  destruct (read_told p s) as [t|e|]; [discriminate| |discriminate]. destruct (read_told p s') as [t'|e'|]; [discriminate| |discriminate].
  assert (N : forall (a b : str), Some (lit "InvalidName(" ++ a) = Some m -> Some (lit "ParseInt(ParseIntError { kind: " ++ b) = Some m -> False).
  { intros a b K K'. rewrite <- K in K'. discriminate K'. }
  destruct T as [(x & -> & P & ->)|[[-> | ->] ->]], T' as [(x' & -> & P' & ->)|[[-> | ->] ->]]; try reflexivity; try (exfalso; eapply N; eassumption).
  assert (K : debug_str x = debug_str x') by (apply app_inv_tail with (lit ")"), (app_inv_head (lit "InvalidName(")); congruence).
  apply debug_str_inj in K as ->; eauto using part_ascii.
Qed.
Theorem quoted_inj s s' q : all_ascii s = true -> all_ascii s' = true -> quoted s q -> quoted s' q -> s = s'.
Proof. intros A A' Q Q'. apply str_quoted in Q, Q'; auto. apply debug_str_inj; congruence. Qed.

(** * Reading names without ')', of any characters: text gone over, depth of calls *)
From Verif Require Import Base Types BaseFacts StrFacts TypeNames TypeNamesSpec TypeNamesFacts ReaderSpec ReaderFacts ReaderTotal ReaderGrammar
  NameErrorSpec NameErrors Work TextStack.
From Coq Require Import String Lia ZifyBool ZifyNat ZifyN.
Set Implicit Arguments.
Local Open Scope N_scope.
Local Open Scope list_scope.
Notation length := List.length.

(** What the array branch reads: the beginning of the name, two characters
    shorter or more. *)
Lemma array_asks p s sub : last_char s = Some ch_rbracket -> str_len s < 2 ^ 63 -> asked (read_array p ask s) = Some sub ->
  exists r, s = sub ++ r /\ 2 <= len r.
Proof.
  intros L B. apply last_char_some in L as [s0 ->]. change ch_rbracket with 93 in *. destruct (split_bracket s0) as [(x & num & -> & NB)|NB].
  - rewrite <- app_assoc in *. cbn [app] in *. destruct (suffix_wrap_dec num) as [[w S]|S].
    + rewrite (read_array_wrap p ask x S). destruct (array_prefix x (91 :: num ++ [93])) as [(a & b & -> & _ & ->)|[_ ->]]; [|discriminate].
      cbn [bind ask asked]. intros E. injection E as ->. exists (b ++ 91 :: num ++ [93]). split; [now rewrite <- app_assoc|].
      rewrite len_app, len_cons, len_app. change (len [93]) with 1. lia.
    + rewrite read_array_split by exact NB. destruct num as [|d num]; [exfalso; apply (S PArray); left; auto|].
      rewrite size_err; [discriminate|]. intros n K. apply (S (fun t => PFixedArray t n)). right. eauto.
  - rewrite (@read_array_lone p ask s0 NB B). destruct s0 as [|d s0]; [discriminate|].
    destruct (parse_usize (d :: s0)) as [n|e|] eqn:P; [discriminate| |discriminate]. apply err_size in P as [_ ->]. discriminate.
Qed.
Section Plain.
Context (p : profile).
Lemma plain_rest (s sub r : str) : s = sub ++ r -> 2 <= len r -> str_len s < 2 ^ 63 -> ~ In 41 s -> str_len sub < 2 ^ 63 /\ ~ In 41 sub /\ len sub + 2 <= len s.
Proof using. intros -> R B N. rewrite str_len_app in B. rewrite len_app. split; [lia|]. split; [|lia]. intros I. apply N, in_app_iff. now left. Qed.
Lemma not_close s c : last_char s = Some c -> ~ In 41 s -> (c =? ch_close) = false.
Proof using. intros L N. apply last_char_some in L as [s0 ->]. apply N.eqb_neq. intros ->. apply N, in_app_iff. right. now left. Qed.
Lemma plain_work_fuel f : forall s, str_len s < 2 ^ 63 -> ~ In 41 s -> 4 * name_work_fuel p f s <= (len s + 2) * (len s + 2).
Proof.
  induction f as [|f IH]; intros s B N; cbn [name_work_fuel]; [lia|].
  assert (base : 4 * (1 + len s + 0) <= (len s + 2) * (len s + 2)) by nia.
  destruct (last_char s) as [c|] eqn:L; [|exact base]. rewrite (not_close s L N). destruct (N.eqb_spec c ch_rbracket) as [->|_]; [|exact base].
  unfold cost_asked. destruct (asked _) as [sub|] eqn:E; [|exact base]. apply array_asks in E as (r & Es & R); auto.
  destruct (@plain_rest s sub r Es R B N) as (B' & N' & L'). specialize (IH sub B' N'). set (a := len sub) in *. set (b := len s) in *.
  assert ((a + 2) * (a + 2) <= b * b) by (apply N.mul_le_mono; lia). lia.
Qed.
Lemma plain_calls_fuel f : forall s, str_len s < 2 ^ 63 -> ~ In 41 s -> 2 * name_calls_fuel p f s <= len s + 2.
Proof.
  induction f as [|f IH]; intros s B N; cbn [name_calls_fuel]; [lia|].
  destruct (last_char s) as [c|] eqn:L; [|lia]. rewrite (not_close s L N). destruct (N.eqb_spec c ch_rbracket) as [->|_]; [|lia].
  unfold cost_asked. destruct (asked _) as [sub|] eqn:E; [|lia]. apply array_asks in E as (r & Es & R); auto.
  destruct (@plain_rest s sub r Es R B N) as (B' & N' & L'). specialize (IH sub B' N'). lia.
Qed.
End Plain.
Theorem plain_work p s : str_len s < 2 ^ 63 -> ~ In 41 s -> 4 * name_work p s <= (len s + 2) * (len s + 2).
Proof. apply plain_work_fuel. Qed.

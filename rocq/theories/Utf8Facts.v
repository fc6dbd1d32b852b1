(** * Lossy decoding inverts UTF-8 encoding *)
From Verif Require Import Base Utf8 BaseFacts.
From Coq Require Import ZifyBool ZifyNat ZifyN.
Set Implicit Arguments.
Local Open Scope N_scope.
Ltac Zify.zify_post_hook ::= Z.div_mod_to_equations.

(** ** UTF-8 *)
Lemma char_cases c : is_scalar c = true ->
  c < 0x80 \/ (0x80 <= c /\ c < 0x800) \/
  (0x800 <= c /\ c < 0x10000 /\ (c < 0xD800 \/ 0xE000 <= c)) \/ (0x10000 <= c /\ c < 0x110000).
Proof. unfold is_scalar. lia. Qed.

Local Ltac tb := repeat rewrite to_N_small by lia.
Local Ltac cond := match goal with |- context [if ?b then _ else _] =>
   first [ replace b with true by (symmetry; unfold second3, second4, is_cont, in_range; tb;
                                   repeat match goal with |- context[if ?x then _ else _] => destruct x eqn:? end; lia)
         | replace b with false by (symmetry; unfold second3, second4, is_cont, in_range; tb;
                                   repeat match goal with |- context[if ?x then _ else _] => destruct x eqn:? end; lia) ] end.

Lemma utf8_lossy_char c r : is_scalar c = true -> utf8_lossy (utf8_char c ++ r) = c :: utf8_lossy r.
Proof.
  intros H. apply char_cases in H. unfold utf8_char.
  destruct H as [H|[[H1 H2]|[(H1 & H2 & H3)|[H1 H2]]]].
  - replace (c <? 0x80) with true by lia. cbn [app utf8_lossy]. tb. cond. reflexivity.
  - replace (c <? 0x80) with false by lia. replace (c <? 0x800) with true by lia.
    cbn [app utf8_lossy]. tb. do 3 cond. f_equal. unfold cont_bits. tb. lia.
  - replace (c / 4096) with (c / 64 / 64) by (now rewrite N.div_div).
    replace (c <? 0x80) with false by lia. replace (c <? 0x800) with false by lia.
    replace (c <? 0x10000) with true by lia.
    cbn [app utf8_lossy]. tb. do 5 cond. f_equal. unfold cont_bits. tb. lia.
  - replace (c / 262144) with (c / 64 / 64 / 64) by (now rewrite !N.div_div).
    replace (c / 4096) with (c / 64 / 64) by (now rewrite N.div_div).
    replace (c <? 0x80) with false by lia. replace (c <? 0x800) with false by lia.
    replace (c <? 0x10000) with false by lia.
    cbn [app utf8_lossy]. tb. do 7 cond. f_equal. unfold cont_bits. tb. lia.
Qed.
Lemma utf8_lossy_utf8 s : wf_str s = true -> utf8_lossy (utf8 s) = s.
Proof.
  induction s as [|c s IH]; cbn [wf_str forallb utf8 flat_map]; [reflexivity|].
  intros H. apply andb_true_iff in H as [H1 H2]. rewrite utf8_lossy_char by assumption.
  f_equal. now apply IH.
Qed.

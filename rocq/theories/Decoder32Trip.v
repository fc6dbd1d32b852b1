(** * Encoded values on 32-bit targets, and data without large numbers *)
From Verif Require Import Base Utf8 Types Encoder Decoder AbiSpec DecoderSpec BaseFacts EncoderFacts RoundTrip CodecLemmas DecoderFacts Decoder32 Decoder32Spec Decoder32Facts.
From Coq Require Import ZifyBool ZifyNat ZifyN.
Set Implicit Arguments.
Local Open Scope N_scope.
Local Open Scope list_scope.

Lemma round_trip32 p p' ts vs :
  forallb sized32 ts = true -> forallb solidity_type ts = true -> have_types vs ts = true -> forallb short_arrays vs = true ->
  enc_size (PTuple ts) (TTuple vs) < two32 -> forallb zero_size ts = false \/ ts = [] ->
  exists data, encode p vs = Ok data /\ (fits32 data -> decode32 p' ts data = Ok vs).
Proof.
  intros W T H S L Z. destruct (@round_trip p p' ts vs (sized32_all _ W) T H S L Z) as (data & E & D). exists data. split; [exact E|]. intros F. now apply decode32_values.
Qed.

(** A check for [calm]: no word but those whose last four bytes are small. *)
Fixpoint calm_words (m : N) (data : list byte) : bool :=
  match data with
  | [] => true
  | _ :: r => (match as_usize (firstn 32 data) with Ok n => (len data <? 32) || (n + m <? 2 ^ 32) | _ => true end) && calm_words m r
  end.
Lemma calm_words_at m data : calm_words m data = true -> forall pos n, index_at data pos n -> n + m < 2 ^ 32.
Proof.
  induction data as [|b r IH]; intros C pos n I.
  - destruct I as [(pre & rest & E & _) N]. destruct pre; [|discriminate]. cbn [app] in E. assert (X : len (word n) = 32) by apply len_word. destruct (word n); [rewrite len_nil in X; lia|discriminate].
  - cbn [calm_words] in C. apply andb_true_iff in C as [C1 C2]. destruct I as [(pre & rest & E & L) N]. destruct pre as [|c pre].
    + cbn [app] in E. rewrite E in C1. assert (X : len (word n) = 32) by apply len_word. assert (Y : firstn 32 (word n ++ rest) = word n).
      { rewrite firstn_app. assert (Z : length (word n) = 32%nat) by (unfold len in X; lia). rewrite Z. rewrite PeanoNat.Nat.sub_diag. rewrite firstn_O, app_nil_r. apply firstn_all2. lia. }
      rewrite Y in C1. rewrite (as_usize_word N) in C1. rewrite len_app in C1. lia.
    + cbn [app] in E. injection E as -> ->. apply (IH C2 (len pre)). split; [|exact N]. exists pre, rest. auto.
Qed.
Lemma calm_check data : calm_words (len data) data = true -> calm data.
Proof. intros C pos n. now apply calm_words_at. Qed.

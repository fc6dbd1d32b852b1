(** * When the encoding with 32-bit words is the specified one *)
From Verif Require Import Base Types Encoder AbiSpec BaseFacts EncoderFacts EncoderTotal DecoderFacts CodecLemmas WrapSpec WrapFacts.
From Coq Require Import ZifyBool ZifyNat ZifyN.
Set Implicit Arguments.
Local Open Scope N_scope.

Lemma app_split A (a b c d : list A) : len a = len c -> a ++ b = c ++ d -> a = c /\ b = d.
Proof.
  unfold len. intros L. apply Nnat.Nat2N.inj in L. revert c L. induction a as [|x a IH]; intros [|y c] L E; try discriminate.
  - auto.
  - cbn in *. injection E as -> E. injection L as L. destruct (IH c L E) as [-> ->]. auto.
Qed.
Lemma word32_fit n : n < 2 ^ 64 -> (word32 n = word n <-> n <? 2 ^ 32 = true).
Proof.
  intros L. rewrite N.ltb_lt. unfold word32. split.
  - intros E. assert (L1 : n mod 2 ^ 32 < 2 ^ 32) by (now apply N.mod_lt).
    apply word_inj in E; [now rewrite <- E| |].
    + eapply N.lt_trans; [exact L1|reflexivity].
    + eapply N.lt_trans; [exact L|reflexivity].
  - intros H. now rewrite N.mod_small.
Qed.

Lemma same_sizes cs cs' : Forall2 (fun c c' => fst c = fst c' /\ len (snd c) = len (snd c')) cs cs' ->
  heads_size cs = heads_size cs' /\ len (tails cs) = len (tails cs').
Proof.
  induction 1 as [|[d e] [d' e'] cs cs' [H1 H2] H [I1 I2]]; [auto|]. cbn [fst snd] in *; subst d'.
  cbn [heads_size]. rewrite I1. split.
  - f_equal. destruct d; cbn [head_size]; auto.
  - destruct d; cbn [tails]; rewrite ?len_app; lia.
Qed.
Lemma heads_fit cs cs' n : Forall2 (fun c c' => fst c = fst c' /\ len (snd c) = len (snd c')) cs cs' ->
  n + len (tails cs) < 2 ^ 64 ->
  (heads32 n cs ++ tails cs = heads n cs' ++ tails cs' <-> offsets_fit n cs = true /\ map snd cs = map snd cs').
Proof.
  intros H Ln. split.
  - intros E. apply app_split in E as [E1 E2]; [|rewrite heads32_len, heads_len; apply same_sizes; exact H].
    revert n Ln E1 E2. induction H as [|[d e] [d' e'] cs cs' [H1 H2] H IH]; intros n Ln E1 E2; [auto|].
    cbn [fst snd] in *; subst d'. destruct d; cbn [heads32 heads tails offsets_fit map snd] in *.
    + rewrite len_app in Ln. apply app_split in E1 as [E1 E3]; [|now rewrite len_word, len_word32].
      apply app_split in E2 as [-> E2]; [|exact H2]. apply word32_fit in E1; [|lia]. rewrite E1. cbn [andb].
      destruct (IH (n + len e')) as [-> ->]; auto. lia.
    + apply app_split in E1 as [-> E3]; [|exact H2]. destruct (IH n) as [-> ->]; auto.
  - intros [E1 E2]. assert (E : tails cs = tails cs').
    { clear - H E2. induction H as [|[d e] [d' e'] cs cs' [H1 H2] H IH]; [auto|]. cbn [fst snd map] in *; subst d'.
      injection E2 as -> E2. destruct d; cbn [tails]; now rewrite IH. }
    rewrite <- E. f_equal. clear E.
    revert n Ln E1 E2. induction H as [|[d e] [d' e'] cs cs' [H1 H2] H IH]; intros n Ln E1 E2; [auto|].
    cbn [fst snd] in *; subst d'. cbn [map snd] in E2. injection E2 as -> E2.
    destruct d; cbn [heads32 heads tails offsets_fit] in *.
    + rewrite len_app in Ln. apply andb_true_iff in E1 as [E1 E3]. apply word32_fit in E1; [|lia]. rewrite E1. f_equal. apply IH; auto. lia.
    + f_equal. apply IH; auto.
Qed.

Lemma seq32_enc_len cs cs' : Forall2 (fun c c' => fst c = fst c' /\ len (snd c) = len (snd c')) cs cs' -> len (seq32 cs) = len (enc_seq cs').
Proof. intros H. destruct (same_sizes H) as [E1 E2]. rewrite seq32_len, enc_seq_len. congruence. Qed.
Lemma parts_same vs : Forall (fun v => len (value32 v) = len (tok_enc v)) vs ->
  len (seq32 (map (fun v => (dynamic_value v, value32 v)) vs)) = len (enc_seq (map (fun v => (token_is_dynamic v, tok_enc v)) vs)).
Proof.
  intros H. apply seq32_enc_len. induction H as [|v vs Hv H IH]; cbn [map]; constructor; cbn [fst snd]; [|exact IH].
  split; [apply dynamic_value_eq|exact Hv].
Qed.
Lemma value32_len v : len (value32 v) = len (tok_enc v).
Proof.
  induction v using Token_ind'; cbn [value32 tok_enc]; rewrite ?len_app, ?len_word32, ?len_word; try reflexivity.
  - now apply parts_same.
  - f_equal. now apply parts_same.
  - now apply parts_same.
Qed.
Lemma parts_sizes vs : Forall2 (fun c c' : bool * list byte => fst c = fst c' /\ len (snd c) = len (snd c')) (map part32 vs) (map part vs).
Proof.
  induction vs as [|v vs IH]; cbn [map]; constructor; auto. cbn. split; [apply dynamic_value_eq|apply value32_len].
Qed.
Lemma seq_right vs : Forall (fun v => len (value32 v) < 2 ^ 63 -> (value32 v = tok_enc v <-> words_fit v = true)) vs ->
  len (seq32 (map part32 vs)) < 2 ^ 63 ->
  (seq32 (map part32 vs) = enc_seq (map part vs) <-> seq_fits (map part32 vs) && forallb words_fit vs = true).
Proof.
  intros H L. unfold seq32, enc_seq, seq_fits. destruct (same_sizes (parts_sizes vs)) as [Eh _]. rewrite <- Eh.
  rewrite (heads_fit _ (parts_sizes vs)).
  2:{ rewrite <- seq32_len. eapply N.lt_trans; [exact L|reflexivity]. }
  rewrite andb_true_iff, !map_map. cbn [part32 part snd].
  pose proof (parts_bound (map part32 vs)) as B. rewrite Forall_map in B.
  assert (G : map (fun x => value32 x) vs = map (fun x => tok_enc x) vs <-> forallb words_fit vs = true).
  { clear Eh. revert B. generalize (len (seq32 (map part32 vs))), L. intros k Lk B.
    induction vs as [|v vs IH]; cbn [map forallb]; [tauto|].
    inversion H as [|? ? H1 H2]; inversion B as [|? ? B1 B2]; subst. cbn [part32 snd] in B1.
    rewrite andb_true_iff, <- IH, <- H1 by first [assumption | eapply N.le_lt_trans; eassumption |
      (pose proof (seq32_len (map part32 (v :: vs))); pose proof (seq32_len (map part32 vs)); cbn [map heads_size] in *;
       rewrite (tails_cons (part32 v) (map part32 vs)) in *; lia)].
    split; [intros E; injection E; auto|intros [-> ->]; reflexivity]. }
  rewrite G. tauto.
Qed.
Lemma value32_right v : arrays_bounded (2 ^ 63) v = true -> len (value32 v) < 2 ^ 63 -> (value32 v = tok_enc v <-> words_fit v = true).
Proof.
  induction v using Token_ind'; intros A L; cbn [value32 tok_enc words_fit]; try tauto.
  - cbn [value32] in L. rewrite !len_app in L. rewrite <- word32_fit by (eapply N.lt_trans with (2 ^ 63); [|reflexivity]; lia).
    split; [intros E; apply app_split in E as [E _]; [exact E|now rewrite len_word, len_word32]|now intros ->].
  - cbn [value32] in L. rewrite !len_app in L. rewrite <- word32_fit by (eapply N.lt_trans with (2 ^ 63); [|reflexivity]; lia).
    split; [intros E; apply app_split in E as [E _]; [exact E|now rewrite len_word, len_word32]|now intros ->].
  - cbn [arrays_bounded value32] in *. change (fun v => (dynamic_value v, value32 v)) with part32 in *.
    change (fun v => (token_is_dynamic v, tok_enc v)) with part in *. apply seq_right; [|exact L].
    rewrite forallb_forall in A. rewrite Forall_forall in *. auto.
  - cbn [arrays_bounded value32] in *. change (fun v => (dynamic_value v, value32 v)) with part32 in *.
    change (fun v => (token_is_dynamic v, tok_enc v)) with part in *.
    apply andb_true_iff in A as [A1 A]. apply N.leb_le in A1. rewrite len_app in L.
    assert (L' : len (seq32 (map part32 vs)) < 2 ^ 63) by lia.
    rewrite <- andb_assoc, andb_true_iff, <- seq_right; [|rewrite forallb_forall in A; rewrite Forall_forall in *; auto|exact L'].
    rewrite <- word32_fit by (eapply N.le_lt_trans; [exact A1|reflexivity]). split.
    + intros E. apply app_split in E; [exact E|now rewrite len_word, len_word32].
    + now intros [-> ->].
  - cbn [arrays_bounded value32] in *. change (fun v => (dynamic_value v, value32 v)) with part32 in *.
    change (fun v => (token_is_dynamic v, tok_enc v)) with part in *. apply seq_right; [|exact L].
    rewrite forallb_forall in A. rewrite Forall_forall in *. auto.
Qed.

(** ** The statements *)
Lemma encode_wraps p vs : forallb wf_token vs = true -> p = Release \/ len (encoding32 vs) < 2 ^ 32 -> encode p vs = Ok (encoding32 vs).
Proof. exact (@encode32 p vs). Qed.
Lemma encode_checked vs : forallb wf_token vs = true -> len (encoding32 vs) < 2 ^ 37 ->
  (encode Debug vs = Panic <-> 2 ^ 32 <= len (encoding32 vs)).
Proof.
  intros T L. split; intros H.
  - apply N.nlt_ge. intros H'. rewrite (@encode_wraps Debug vs T (or_intror H')) in H. discriminate.
  - destruct (encode Debug vs) as [d|e|] eqn:E; [|now apply encode_not_err in E|reflexivity].
    apply (@encode_debug _ _ T L) in E. apply N.lt_nge in E. contradiction.
Qed.
Lemma encode_right ts vs : forallb solidity_type ts = true -> have_types vs ts = true -> forallb (arrays_bounded (2 ^ 63)) vs = true ->
  len (encoding32 vs) < 2 ^ 63 -> (encode Release vs = Ok (abi_encode ts vs) <-> words_fit (TTuple vs) = true).
Proof.
  intros Ss T A L. rewrite (@encode_wraps Release vs); [|exact (has_type_wf _ _ T)|now left].
  rewrite (abi_encode_parts _ _ Ss T). unfold encoding32 in *.
  rewrite <- (@value32_right (TTuple vs) A L). cbn [tok_enc]. change (fun v => (token_is_dynamic v, tok_enc v)) with part.
  split; [intros [= E]; exact E|now intros ->].
Qed.

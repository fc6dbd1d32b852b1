(** * The room a decoded value takes *)
From Verif Require Import Base Types Decoder AbiSpec Utf8 DecoderSpec BaseFacts EncoderFacts DecoderFacts DecoderProps BombSpec.
From Coq Require Import ZifyBool ZifyNat ZifyN.
Set Implicit Arguments.
Local Open Scope N_scope.

Lemma lossy_len b : len (utf8_lossy b) <= len b.
Proof.
  enough (G : forall n b, (List.length b <= n)%nat -> len (utf8_lossy b) <= len b) by (eapply G; reflexivity).
  clear b. induction n as [|n IH]; intros b L; (destruct b as [|b0 b]; [reflexivity|]); [cbn in L; lia|].
  cbn [List.length] in L. cbn [utf8_lossy].
  repeat match goal with
  | |- context [if ?c then _ else _] => destruct c
  | |- context [match ?l with [] => _ | _ => _ end] => is_var l; destruct l; cbn [List.length] in L
  end; rewrite !len_cons;
  (eapply N.le_trans; [apply N.add_le_mono_l || idtac; try (apply IH; cbn [List.length]; lia)|]); rewrite ?len_cons; try lia.
Qed.
Lemma limit_mono a b t : a <= b -> weight_limit a t <= weight_limit b t.
Proof.
  intros L. induction t using ParamType_ind'; cbn [weight_limit]; try lia.
  - apply N.add_le_mono_l, N.mul_le_mono; [apply N.div_le_mono; lia|exact IHt].
  - apply N.add_le_mono_l, N.mul_le_mono_l, IHt.
  - apply N.add_le_mono_l. induction H; cbn [fold_right]; [reflexivity|lia].
Qed.
Lemma limits_mono a b ts : a <= b -> weights_limit a ts <= weights_limit b ts.
Proof. intros L. induction ts as [|t ts IH]; [reflexivity|]. cbn [weights_limit fold_right]. fold (weights_limit a ts) (weights_limit b ts). pose proof (@limit_mono a b t L). lia. Qed.
Lemma limits_repeat s t n : weights_limit s (repeat t n) = N.of_nat n * weight_limit s t.
Proof. induction n as [|n IH]; [reflexivity|]. cbn [repeat weights_limit fold_right]. fold (weights_limit s (repeat t n)). rewrite IH. lia. Qed.
Lemma reads_weight_mut :
  (forall data t pos v next, reads data t pos v next -> solidity_type t = true -> sized_elements t = true -> weight v <= weight_limit (len data) t) /\
  (forall data ts pos vs next, reads_seq data ts pos vs next -> forallb solidity_type ts = true -> forallb sized_elements ts = true -> weights vs <= weights_limit (len data) ts).
Proof.
  assert (Rep : forall (f : ParamType -> bool) t n, f t = true -> forallb f (repeat t n) = true).
  { intros f t n Hf. apply forallb_forall. intros x Hx. apply repeat_spec in Hx. now subst. }
  apply reads_mutind; intros; cbn [weight weight_limit solidity_type sized_elements forallb] in *; try reflexivity.
  - apply bytes_at_le in b0. lia.
  - apply bytes_at_le in b0. lia.
  - apply bytes_at_le in b0. pose proof (lossy_len b). lia.
  - apply andb_true_iff in H1 as [Z H1]. pose proof (frame_len f) as Lf.
    assert (B : len vs <= len data / 32).
    { assert (0 + 32 * len vs <= next).
      { eapply seq_advance; [|exact r]. intros t0 p0 v0 n0 Hin R. apply repeat_spec in Hin. subst t0.
        apply reads_width_mut in R; auto. apply R. now destruct (zero_size t). }
      apply reads_width_mut in r; [|now apply Rep]. lia. }
    specialize (H (Rep _ _ _ H0) (Rep _ _ _ H1)). rewrite limits_repeat in H. fold (weights vs). apply N.add_le_mono_l.
    apply (N.le_trans _ _ _ H). apply N.mul_le_mono; [exact B|apply limit_mono; lia].
  - apply andb_true_iff in H0 as [H0 H2]. specialize (H (Rep _ _ _ H0) (Rep _ _ _ H1)). rewrite limits_repeat in H. fold (weights vs). unfold len in e0. subst n. lia.
  - apply andb_true_iff in H0 as [H0 H2]. pose proof (frame_len f) as Lf. specialize (H (Rep _ _ _ H0) (Rep _ _ _ H1)). rewrite limits_repeat in H. fold (weights vs).
    apply N.add_le_mono_l. apply (N.le_trans _ _ _ H). unfold len in e0. subst n. apply N.mul_le_mono_l, limit_mono. lia.
  - fold (weights vs) (weights_limit (len data) ts). specialize (H H0 H1). lia.
  - fold (weights vs) (weights_limit (len data) ts). specialize (H H0 H1). pose proof (frame_len f) as Lf.
    assert (weights_limit (len frame) ts <= weights_limit (len data) ts) by (apply limits_mono; lia). lia.
  - apply andb_true_iff in H1 as [S1 S2], H2 as [Z1 Z2]. cbn [weights weights_limit fold_right]. fold (weights vs) (weights_limit (len data) ts).
    specialize (H S1 Z1). specialize (H0 S2 Z2). lia.
Qed.
Lemma decode_weight p ts data vs : forallb wf_type ts = true -> fits data -> forallb solidity_type ts = true -> forallb sized_elements ts = true ->
  decode p ts data = Ok vs -> weights vs <= weights_limit (len data) ts.
Proof. intros W F S Z E. apply decode_iff in E as [_ (n & R)]; auto. eapply reads_weight_mut; eauto. Qed.

(** ** Sharing *)
Fixpoint levels (k : N) (d : nat) : list byte :=
  match d with
  | O => []
  | S O => word k ++ concat (repeat (word 7) (N.to_nat k))
  | S d' => word k ++ concat (repeat (word (32 * k)) (N.to_nat k)) ++ levels k d'
  end.
Lemma concat_words (w : list byte) n : len w = 32 -> len (concat (repeat w n)) = 32 * N.of_nat n.
Proof. intros L. induction n as [|n IH]; [reflexivity|]. cbn [repeat concat]. rewrite len_app, IH. lia. Qed.
Lemma levels_len k d : len (levels k d) = 32 * (N.of_nat d * (k + 1)).
Proof.
  induction d as [|d IH]; [reflexivity|]. destruct d as [|d].
  - cbn [levels]. rewrite len_app, concat_words, len_word by apply len_word. lia.
  - cbn [levels] in *. rewrite !len_app, concat_words, len_word, IH by apply len_word. lia.
Qed.
Lemma word_at (w : list byte) n i rest : (i < n)%nat -> len w = 32 -> bytes_at (concat (repeat w n) ++ rest) (32 * N.of_nat i) w.
Proof.
  intros L W. exists (concat (repeat w i)), (concat (repeat w (n - S i)) ++ rest). split; [|now apply concat_words].
  replace n with (i + S (n - S i))%nat at 1 by lia. rewrite repeat_app, concat_app. cbn [repeat concat]. now rewrite <- !app_assoc.
Qed.
Lemma reads_row data t v n : (forall i, (i < n)%nat -> reads data t (32 * N.of_nat i) v (32 * N.of_nat i + 32)) ->
  reads_seq data (repeat t n) 0 (repeat v n) (32 * N.of_nat n).
Proof.
  intros H. assert (G : forall m i, (i + m = n)%nat -> reads_seq data (repeat t m) (32 * N.of_nat i) (repeat v m) (32 * N.of_nat n)).
  { induction m as [|m IH]; intros i E; cbn [repeat].
    - replace i with n by lia. constructor.
    - econstructor; [apply H; lia|]. replace (32 * N.of_nat i + 32) with (32 * N.of_nat (S i)) by lia. apply IH. lia. }
  apply (G n O). reflexivity.
Qed.
Lemma reads_levels k : 32 * k < two32 -> forall d pre pos, index_at (pre ++ levels k (S d)) pos (len pre) ->
  reads (pre ++ levels k (S d)) (nested (S d)) pos (full k (S d)) (pos + 32).
Proof.
  intros K. assert (Kw : k < two32) by (change two32 with 4294967296 in *; lia).
  induction d as [|d IH]; intros pre pos I; cbn [nested full].
  - eapply reads_array with (o := len pre) (frame := concat (repeat (word 7) (N.to_nat k))) (next := 32 * N.of_nat (N.to_nat k)).
    + exact I.
    + rewrite len_repeat, N2Nat.id. split; [|exact Kw]. exists pre, (concat (repeat (word 7) (N.to_nat k))). auto.
    + exists (pre ++ word k). rewrite len_app, len_word, <- app_assoc. auto.
    + rewrite repeat_length. apply reads_row. intros i Li. replace (TUint 7) with (TUint (of_be (word 7))) by reflexivity.
      apply reads_uint; [|apply len_word]. rewrite <- (app_nil_r (concat _)). apply word_at; [exact Li|apply len_word].
  - set (frame := concat (repeat (word (32 * k)) (N.to_nat k)) ++ levels k (S d)).
    assert (El : levels k (S (S d)) = word k ++ frame) by reflexivity. rewrite El in *.
    eapply reads_array with (o := len pre) (frame := frame) (next := 32 * N.of_nat (N.to_nat k)).
    + exact I.
    + rewrite len_repeat, N2Nat.id. split; [|exact Kw]. exists pre, frame. auto.
    + exists (pre ++ word k). rewrite len_app, len_word, <- app_assoc. auto.
    + rewrite repeat_length. apply reads_row. intros i Li. apply IH.
      assert (El' : len (concat (repeat (word (32 * k)) (N.to_nat k))) = 32 * k) by (rewrite concat_words by apply len_word; lia).
      rewrite El'. split; [|exact K]. apply word_at; [exact Li|apply len_word].
Qed.
Lemma decode_levels p k d : 32 * k < two32 -> fits (word 32 ++ levels k (S d)) ->
  decode p [nested (S d)] (word 32 ++ levels k (S d)) = Ok [full k (S d)].
Proof.
  intros K F. apply decode_iff; [|exact F|].
  - cbn [forallb nested wf_type]. rewrite andb_true_r. clear. induction d; [reflexivity|exact IHd].
  - split; [left; destruct (word 32) eqn:E; [apply (f_equal len) in E; rewrite len_word in E; discriminate|discriminate]|]. exists 32.
    econstructor; [|constructor]. apply reads_levels with (pos := 0); [exact K|]. rewrite len_word. split; [|reflexivity].
    exists [], (levels k (S d)). auto.
Qed.
Lemma full_weight k d : k ^ N.of_nat d <= weight (full k d).
Proof.
  induction d as [|d IH]; [reflexivity|]. cbn [full weight]. rewrite Nat2N.inj_succ, N.pow_succ_r'.
  assert (E : fold_right (fun v n => weight v + n) 0 (repeat (full k d) (N.to_nat k)) = k * weight (full k d)).
  { rewrite <- (N2Nat.id k) at 3. induction (N.to_nat k) as [|n IHn]; [reflexivity|]. cbn [repeat fold_right]. rewrite IHn. lia. }
  rewrite E. pose proof (N.mul_le_mono_l _ _ k IH). lia.
Qed.
Lemma decode_bomb p k d : 32 * k < 2 ^ 32 -> N.of_nat (S d) * (k + 1) < 2 ^ 50 ->
  exists data vs, len data = 32 * (1 + N.of_nat (S d) * (k + 1)) /\ decode p [nested (S d)] data = Ok vs /\ k ^ N.of_nat (S d) <= weights vs.
Proof.
  intros K L. exists (word 32 ++ levels k (S d)), [full k (S d)].
  assert (El : len (word 32 ++ levels k (S d)) = 32 * (1 + N.of_nat (S d) * (k + 1))) by (rewrite len_app, len_word, levels_len; lia).
  split; [exact El|]. split.
  - apply decode_levels; [exact K|]. unfold fits. rewrite El. clear - L. lia.
  - cbn [weights fold_right]. rewrite N.add_0_r. apply full_weight.
Qed.

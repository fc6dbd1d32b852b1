(** * The work of decoding: against the result, and where the bounds are attained *)
From Verif Require Import Base Utf8 Types Encoder Decoder AbiSpec DecoderSpec BaseFacts EncoderFacts DecoderFacts DecoderProps BombSpec BombFacts EncoderWork EncWorkErase DecoderWork DecWorkErase DecWorkSpec DecWorkFacts DecWorkBound CodecLemmas.
Set Implicit Arguments.
Local Open Scope N_scope.
Local Open Scope list_scope.

Lemma weights_total vs : fold_right (fun v n => weight v + n) 0 vs = total weight vs.
Proof. induction vs as [|v vs IH]; cbn [fold_right total]; congruence. Qed.
Lemma weight_pos v : 1 <= weight v. Proof. destruct v; cbn [weight]; lia. Qed.
Lemma members_le k t vs f : Forall (fun v => has_type v t = true -> f v <= reading k t v) vs -> forallb (fun v => has_type v t) vs = true -> total f vs <= total (fun v => reading k t v + 1) vs.
Proof. induction 1 as [|v vs H F IH]; cbn [forallb total]; [reflexivity|]. intros T. apply andb_true_iff in T as [T1 T2]. specialize (H T1). specialize (IH T2). lia. Qed.
Lemma weight_reading v : forall t, has_type v t = true -> weight v <= reading 1 t v.
Proof.
  induction v using Token_ind'; intros t T; destruct t; try discriminate; cbn [reading weight]; try lia.
  - cbn [has_type] in T. apply andb_true_iff in T as [_ T]. rewrite weights_total. pose proof (@members_le 1 t vs weight). rewrite Forall_forall in *. specialize (H0 ltac:(auto) T). lia.
  - cbn [has_type] in T. rewrite weights_total. pose proof (@members_le 1 t vs weight). rewrite Forall_forall in *. specialize (H0 ltac:(auto) T). lia.
  - rewrite weights_total. fold (readings 1). enough (total weight vs <= readings 1 ts vs) by lia.
    rewrite tuple_type in T. clear - T H. revert H. induction T as [|v t vs ts X T IH]; intros H; cbn [total readings]; [lia|]. apply Forall_cons_iff in H as [H1 H2]. specialize (IH H2). specialize (H1 _ X). lia.
Qed.
Lemma weights_readings vs ts : have_types vs ts = true -> weights vs <= readings 1 ts vs.
Proof.
  unfold have_types, weights. rewrite tuple_type, weights_total. induction 1 as [|v t vs ts X T IH]; cbn [total readings]; [lia|]. apply weight_reading in X. lia.
Qed.
Lemma asking_type_nodes t : asking t <= type_nodes t.
Proof.
  induction t using ParamType_ind'; cbn [asking type_nodes]; try lia. apply N.add_le_mono_l.
  induction H as [|t ts Ht H IH]; cbn [upto_dynamic total]; [lia|]. destruct (dynamic t); lia.
Qed.
Lemma reading_weight v : forall t, has_type v t = true -> reading 4 t v <= (8 + type_nodes t) * weight v.
Proof.
  assert (Mem : forall t vs, Forall (fun v => forall t, has_type v t = true -> reading 4 t v <= (8 + type_nodes t) * weight v) vs -> forallb (fun v => has_type v t) vs = true ->
    total (fun v => reading 4 t v + 1) vs <= (8 + type_nodes t) * total weight vs + total weight vs).
  { clear v. intros t vs. induction 1 as [|v vs H F IH]; cbn [forallb total]; [lia|]. intros T. apply andb_true_iff in T as [T1 T2]. specialize (H _ T1). specialize (IH T2). pose proof (weight_pos v). lia. }
  assert (Off : forall t, offset_word t <= 1) by (intros t; unfold offset_word; destruct (dynamic t); lia).
  induction v using Token_ind'; intros t T; destruct t; try discriminate; try (cbn [reading weight type_nodes]; lia).
  - match goal with |- context [PFixedArray ?a ?b] => pose proof (asking_type_nodes (PFixedArray a b)) as A; pose proof (Off (PFixedArray a b)) as O end. cbn [has_type] in T. apply andb_true_iff in T as [_ T]. cbn [reading weight type_nodes] in *. rewrite weights_total. specialize (Mem _ _ H T). lia.
  - cbn [has_type] in T. cbn [reading weight type_nodes]. rewrite weights_total. specialize (Mem _ _ H T). lia.
  - pose proof (asking_type_nodes (PTuple ts)) as A. pose proof (Off (PTuple ts)) as O. cbn [reading weight type_nodes] in *. rewrite weights_total. fold (readings 4).
    enough (readings 4 ts vs <= (8 + total type_nodes ts) * total weight vs + total weight vs) by lia.
    rewrite tuple_type in T. clear - T H. revert H. induction T as [|v t vs ts X T IH]; intros H; cbn [total readings]; [lia|]. apply Forall_cons_iff in H as [H1 H2]. specialize (IH H2). specialize (H1 _ X). pose proof (weight_pos v).
    assert ((8 + type_nodes t) * weight v <= (8 + (type_nodes t + total type_nodes ts)) * weight v) by (apply N.mul_le_mono_r; lia).
    assert ((8 + total type_nodes ts) * total weight vs <= (8 + (type_nodes t + total type_nodes ts)) * total weight vs) by (apply N.mul_le_mono_r; lia). lia.
Qed.
Lemma readings_weights vs ts : have_types vs ts = true -> readings 4 ts vs <= (9 + total type_nodes ts) * weights vs.
Proof.
  unfold have_types, weights. rewrite tuple_type, weights_total. induction 1 as [|v t vs ts X T IH]; cbn [total readings]; [lia|]. apply reading_weight in X. pose proof (weight_pos v).
  assert ((8 + type_nodes t) * weight v <= (8 + (type_nodes t + total type_nodes ts)) * weight v) by (apply N.mul_le_mono_r; lia).
  assert ((9 + total type_nodes ts) * total weight vs <= (9 + (type_nodes t + total type_nodes ts)) * total weight vs) by (apply N.mul_le_mono_r; lia). lia.
Qed.
Lemma upto_sized_len ts : upto_sized ts <= len ts.
Proof. induction ts as [|t ts IH]; [reflexivity|]. rewrite len_cons. cbn [upto_sized]. destruct t as [| | | | | | |n|? n|]; try lia; destruct n; lia. Qed.
Lemma decode_typed p ts data vs : forallb wf_type ts = true -> fits data -> decode p ts data = Ok vs -> have_types vs ts = true.
Proof. intros W F E. apply decode_iff in E as [_ (n & R)]; auto. eapply reads_seq_typed; eauto. Qed.
Lemma decode_linear p ts data vs : forallb wf_type ts = true -> fits data -> decode p ts data = Ok vs ->
  weights vs <= fst (decode_work p ts data) <= 1 + len ts + (9 + total type_nodes ts) * weights vs.
Proof.
  intros W F E. pose proof (@decode_typed _ _ _ _ W F E) as T. pose proof (@decode_spent _ _ _ _ E) as B. pose proof (@weights_readings _ _ T). pose proof (@readings_weights _ _ T). pose proof (upto_sized_len ts). unfold decoding in B. lia.
Qed.
(** without text the count is exact *)
Lemma no_text_same v : forall t, no_text t = true -> reading 1 t v = reading 4 t v.
Proof.
  assert (Mem : forall t vs, Forall (fun v => forall t, no_text t = true -> reading 1 t v = reading 4 t v) vs -> no_text t = true -> total (fun v => reading 1 t v + 1) vs = total (fun v => reading 4 t v + 1) vs).
  { clear v. intros t vs F N. induction F as [|v vs H F IH]; cbn [total]; [reflexivity|]. rewrite (H _ N), IH. reflexivity. }
  induction v using Token_ind'; intros t N; destruct t; try discriminate; cbn [reading no_text] in *; try reflexivity; try (rewrite (Mem _ _ H N); reflexivity).
  f_equal. clear - H N. revert ts N. induction H as [|v vs Hv H IH]; intros [|t ts] N; try reflexivity. cbn [forallb] in N. apply andb_true_iff in N as [N1 N2]. rewrite (Hv _ N1). f_equal. apply IH. exact N2.
Qed.
Lemma no_texts_same vs : forall ts, forallb no_text ts = true -> readings 1 ts vs = readings 4 ts vs.
Proof. induction vs as [|v vs IH]; intros [|t ts] N; try reflexivity. cbn [forallb] in N. apply andb_true_iff in N as [N1 N2]. cbn [readings]. rewrite (no_text_same v t N1), (IH ts N2). reflexivity. Qed.
Lemma decode_exact p ts data vs : forallb no_text ts = true -> decode p ts data = Ok vs -> fst (decode_work p ts data) = decoding 1 ts vs.
Proof. intros N E. apply decode_spent in E. unfold decoding in *. rewrite (no_texts_same vs ts N) in *. lia. Qed.
(** shared tails *)
Lemma bomb_work p k d : 32 * k < 2 ^ 32 -> N.of_nat (S d) * (k + 1) < 2 ^ 50 ->
  exists data, len data = 32 * (1 + N.of_nat (S d) * (k + 1)) /\ k ^ N.of_nat (S d) <= fst (decode_work p [nested (S d)] data).
Proof.
  intros K L. destruct (@decode_bomb p k d K L) as (data & vs & E1 & E2 & E3). exists data. split; [exact E1|]. etransitivity; [exact E3|]. eapply decode_linear; [| |exact E2].
  - cbn [forallb nested wf_type]. rewrite andb_true_r. clear. induction d; [reflexivity|exact IHd].
  - unfold fits. rewrite E1. clear - L. lia.
Qed.
(** elements that take no room *)
Lemma empty_work p n : n < two32 -> exists data, len data = 64 /\ fst (decode_work p [PArray (PTuple [])] data) = 6 + 3 * n.
Proof.
  intros L. destruct (@forged_length' p n L) as (data & E1 & E2). exists data. split; [exact E1|]. rewrite (@decode_exact p [PArray (PTuple [])] data _ eq_refl E2). unfold decoding. cbn [upto_sized readings reading].
  enough (G : forall m, total (fun v => reading 1 (PTuple []) v + 1) (repeat (TTuple []) m) = 3 * N.of_nat m) by (rewrite G, N2Nat.id; lia).
  intros m. rewrite total_repeat. cbn [reading asking upto_dynamic offset_word dynamic existsb]. unfold offset_word. cbn [dynamic existsb]. lia.
Qed.

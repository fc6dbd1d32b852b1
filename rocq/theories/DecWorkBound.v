(** * Bounds on the work of decoding *)
From Verif Require Import Base Utf8 Types Encoder Decoder AbiSpec DecoderSpec BaseFacts EncoderFacts DecoderFacts DecoderProps BombSpec BombFacts EncoderWork EncWorkErase DecoderWork DecWorkErase DecWorkSpec DecWorkFacts.
Set Implicit Arguments.
Local Open Scope N_scope.
Local Open Scope list_scope.

Lemma reads_width_any :
  (forall data t pos v next, reads data t pos v next ->
     pos <= next /\ (next <= len data + 32 \/ next = pos) /\ (zero_size t = false -> pos + 32 <= next)) /\
  (forall data ts pos vs next, reads_seq data ts pos vs next ->
     pos <= next /\ (next <= len data + 32 \/ next = pos) /\ (forallb zero_size ts = false -> pos + 32 <= next)).
Proof.
  apply reads_mutind; intros; cbn [zero_size forallb] in *;
    try (match goal with
         | H : bytes_at _ _ _ |- _ => pose proof (bytes_at_le H)
         end; rewrite ?len_app, ?len_zeros in *; lia).
  - destruct i as [i _]. pose proof (bytes_at_le i). rewrite len_word in *. lia.
  - destruct i as [i _]. pose proof (bytes_at_le i). rewrite len_word in *. lia.
  - destruct i as [i _]. pose proof (bytes_at_le i). rewrite len_word in *. lia.
  - destruct H as (P1 & P2 & P3).
    split; [assumption|]. split; [assumption|]. intros Z. apply P3.
    rewrite e in Z. cbn [negb] in Z. destruct vs; [rewrite len_nil in *; subst n; discriminate|].
    cbn [List.length repeat forallb]. apply Bool.orb_false_iff in Z as [_ ->]. reflexivity.
  - destruct i as [i _]. pose proof (bytes_at_le i). rewrite len_word in *. lia.
  - destruct H as (P1 & P2 & P3). auto.
  - destruct i as [i _]. pose proof (bytes_at_le i). rewrite len_word in *. lia.
  - split; [lia|]. split; [now right|discriminate].
  - destruct H as (P1 & P2 & P3), H0 as (Q1 & Q2 & Q3).
    split; [lia|]. split; [lia|]. intros Z. apply Bool.andb_false_iff in Z as [Z|Z]; [specialize (P3 Z)|specialize (Q3 Z)]; lia.
Qed.
Lemma rounds_mono a b t n : a <= b -> rounds a t n <= rounds b t n.
Proof. intros L. unfold rounds. destruct (zero_size t); [reflexivity|]. pose proof (N.div_le_mono a b 32). lia. Qed.
Lemma work_limit_mono a b t : a <= b -> work_limit a t <= work_limit b t.
Proof.
  intros L. induction t using ParamType_ind'; cbn [work_limit]; try lia.
  - apply N.add_le_mono_l, N.mul_le_mono; [now apply rounds_mono|lia].
  - apply N.add_le_mono_l, N.mul_le_mono; [now apply rounds_mono|lia].
  - apply N.add_le_mono_l. induction H; cbn [total]; [reflexivity|lia].
Qed.
Lemma total_mono A (f g : A -> N) l : Forall (fun x => f x <= g x) l -> total f l <= total g l.
Proof. induction 1; cbn [total]; lia. Qed.
Lemma total_repeat A (f : A -> N) x n : total f (repeat x n) = N.of_nat n * f x.
Proof. induction n as [|n IH]; [reflexivity|]. cbn [repeat total]. rewrite IH. lia. Qed.

Section Bound.
Context (p : profile).
Notation dw := (decode_param_work p).
Definition limited (t : ParamType) : Prop := forall data pos, fits data -> fst (dw t data pos) <= work_limit (len data) t.
Lemma step_limited t tl acc pos : limited t -> fits tl -> fst (decode_step_work (dw t tl) (acc, pos)) <= work_limit (len tl) t + 1.
Proof. intros H F. cbn [decode_step_work]. apply atmost_bind; [now apply H|]. intros [v o] _. reflexivity. Qed.
Lemma loop_limited tl ts : fits tl -> Forall limited ts -> forall s, fst (loop p tl ts s) <= total (fun t => work_limit (len tl) t + 1) ts.
Proof.
  intros F. induction 1 as [|t ts Ht H IH]; intros [acc pos]; unfold loop in *; cbn [foldW total]; [reflexivity|]. apply atmost_bind; [now apply step_limited|]. intros s' _. apply IH.
Qed.
Lemma loop_ends t tl : fits tl -> wf_type t = true -> limited t -> zero_size t = false -> forall n acc pos,
  fst (loop p tl (repeat t n) (acc, pos)) <= N.min (N.of_nat n) ((len tl + 32 - pos) / 32 + 1) * (work_limit (len tl) t + 1).
Proof.
  intros F W Ht Z. set (w := work_limit (len tl) t + 1). induction n as [|n IH]; intros acc pos; unfold loop in *; cbn [repeat foldW]; [cbn [fst steps]; lia|].
  unfold wbind. destruct (snd (decode_step_work (dw t tl) (acc, pos))) as [[acc' pos']|e|] eqn:E; cbn [fst].
  - assert (G : pos + 32 <= pos' /\ pos' <= len tl + 32).
    { cbn [decode_step_work] in E. apply wbind_ok in E as ([v o] & E & E' & _). cbn [steps snd] in E'. injection E' as <- <-. rewrite decode_param_same in E. apply (@dec_iff_all p t W) in E; [|exact F].
      apply reads_width_any in E as (_ & G & K). specialize (K Z). lia. }
    pose proof (@step_limited t tl acc pos Ht F) as L. fold w in L. specialize (IH acc' pos').
    assert (D : (len tl + 32 - pos') / 32 + 1 <= (len tl + 32 - pos) / 32).
    { rewrite <- (N.div_add (len tl + 32 - pos') 1 32) by discriminate. apply N.div_le_mono; [discriminate|lia]. }
    assert (M : N.min (N.of_nat n) ((len tl + 32 - pos') / 32 + 1) + 1 <= N.min (N.of_nat (S n)) ((len tl + 32 - pos) / 32 + 1)) by lia.
    apply (N.mul_le_mono_r _ _ w) in M. lia.
  - pose proof (@step_limited t tl acc pos Ht F) as L. fold w in L. assert (M : 1 <= N.min (N.of_nat (S n)) ((len tl + 32 - pos) / 32 + 1)) by lia. apply (N.mul_le_mono_r _ _ w) in M. lia.
  - pose proof (@step_limited t tl acc pos Ht F) as L. fold w in L. assert (M : 1 <= N.min (N.of_nat (S n)) ((len tl + 32 - pos) / 32 + 1)) by lia. apply (N.mul_le_mono_r _ _ w) in M. lia.
Qed.
Lemma iter_limited t tl n s size : fits tl -> wf_type t = true -> limited t -> len tl <= size ->
  fst (iterW (decode_step_work (dw t tl)) n s) <= rounds size t n * (work_limit size t + 1).
Proof.
  intros F W Ht L. rewrite loop_iter. pose proof (@work_limit_mono _ _ t L) as M. unfold rounds. destruct (zero_size t) eqn:Z.
  - pose proof (@loop_limited tl (repeat t (N.to_nat n)) F) as B. specialize (B ltac:(apply Forall_forall; intros x Hx; apply repeat_spec in Hx; now subst) s).
    rewrite total_repeat in B. eapply N.le_trans; [exact B|]. apply N.mul_le_mono; lia.
  - destruct s as [acc pos]. pose proof (@loop_ends t tl F W Ht Z (N.to_nat n) acc pos) as B. eapply N.le_trans; [exact B|]. apply N.mul_le_mono; [|lia].
    assert ((len tl + 32 - pos) / 32 <= size / 32 + 1); [|lia]. replace (size / 32 + 1) with ((size + 1 * 32) / 32) by (now rewrite N.div_add). apply N.div_le_mono; [discriminate|lia].
Qed.
Lemma take_limited data pos l : fits data -> l < two64 -> fst (take_work p data pos l) <= 1 + N.min l (len data).
Proof.
  intros F L. unfold take_work. cbn [steps fst]. destruct (take_bytes p data pos l) as [b|e|] eqn:E; [|lia|lia].
  apply take_iff in E as [B E]; [|exact F|exact L]. apply bytes_at_le in B. lia.
Qed.
Lemma peek_word data pos w n : fits data -> snd (peek_work p data pos) = Ok w -> as_usize w = Ok n -> n < two32.
Proof. intros F E U. unfold peek_work in E. cbn [steps snd] in E. destruct (@index_inv p data pos w n F E U) as [_ X]. exact X. Qed.
Lemma limited_all t : wf_type t = true -> limited t.
Proof.
  induction t using ParamType_ind'; intros W data pos F; cbn [decode_param_work work_limit] in *.
  all: try (change 2 with (1 + (1 + 0)); apply atmost_step; apply atmost_bind; [reflexivity|]; intros w _; reflexivity).
  - (* bytes *) replace (4 + len data) with (1 + (1 + (0 + (1 + (0 + (1 + len data + 0)))))) by lia. apply atmost_step. apply atmost_bind; [reflexivity|]. intros w E1. apply atmost_bind; [reflexivity|]. intros o E2. cbn [steps snd] in E2.
    apply atmost_bind; [reflexivity|]. intros w' E3. apply atmost_bind; [reflexivity|]. intros [l start] E4. cbn [steps snd] in E4. apply bind_ok in E4 as (l' & E4 & E5). apply bind_ok in E5 as (s' & _ & E5). injection E5 as -> ->.
    pose proof (@peek_word _ _ _ _ F E3 E4). apply atmost_bind; [|intros; reflexivity]. pose proof (@take_limited data start l F). unfold two32, two64 in *. lia.
  - (* string *) replace (4 + 2 * len data) with (1 + (1 + (0 + (1 + (0 + (1 + len data + (len data + 0))))))) by lia. apply atmost_step. apply atmost_bind; [reflexivity|]. intros w E1. apply atmost_bind; [reflexivity|]. intros o E2. cbn [steps snd] in E2.
    apply atmost_bind; [reflexivity|]. intros w' E3. apply atmost_bind; [reflexivity|]. intros [l start] E4. cbn [steps snd] in E4. apply bind_ok in E4 as (l' & E4 & E5). apply bind_ok in E5 as (s' & _ & E5). injection E5 as -> ->.
    pose proof (@peek_word _ _ _ _ F E3 E4) as L. assert (L' : l < two64) by (unfold two32, two64 in *; lia). apply atmost_bind; [pose proof (@take_limited data start l F L'); lia|].
    intros b E6. unfold take_work in E6. cbn [steps snd] in E6. apply take_iff in E6 as [B E6]; [|exact F|exact L']. apply bytes_at_le in B. apply atmost_bind; [cbn [lossy_work steps fst]; lia|]. intros s _. reflexivity.
  - (* array *) match goal with |- _ <= 3 + ?x => replace (3 + x) with (1 + (1 + (0 + (1 + (0 + (x + 0)))))) by lia end. apply atmost_step. apply atmost_bind; [reflexivity|]. intros w E1. apply atmost_bind; [reflexivity|]. intros o E2. cbn [steps snd] in E2.
    apply atmost_bind; [reflexivity|]. intros w' E3. apply atmost_bind; [reflexivity|]. intros [l tl] E4. cbn [steps snd] in E4. apply bind_ok in E4 as (l' & E4 & E5). apply bind_ok in E5 as (s' & _ & E5). apply bind_ok in E5 as (tl' & E5 & E6). injection E6 as -> ->.
    pose proof (@peek_word _ _ _ _ F E3 E4) as L. apply frame_slice in E5. apply atmost_bind; [|intros [? ?] _; reflexivity].
    eapply N.le_trans; [apply (@iter_limited t tl l _ (len data)); [eapply frame_at_fits; eassumption|exact W|now apply IHt|pose proof (frame_len E5); lia]|].
    apply N.mul_le_mono_r. unfold rounds, two32 in *. destruct (zero_size t); lia.
  - (* fixed bytes *) replace (2 + N.min n (len data)) with (1 + (1 + N.min n (len data) + 0)) by lia. apply atmost_step. cbn [wf_type] in W. apply atmost_bind; [apply take_limited; [exact F|lia]|]. intros b _. reflexivity.
  - (* fixed array *) change (wbind (steps 1 (Ok tt)) (fun _ => type_dynamic_work t)) with (type_dynamic_work (PFixedArray t n)). cbn [wf_type] in W. apply andb_true_iff in W as [W1 W2].
    match goal with |- _ <= 1 + ?a + ?b + ?x => replace (1 + a + b + x) with (1 + (a + (b + (x + 0)))) by lia end. apply atmost_step. rewrite ask. apply atmost_bind; [reflexivity|]. intros d E. cbn [snd] in E. assert (Hd : dynamic t = d) by now injection E. clear E.
    apply atmost_bind.
    { unfold offset_word. cbn [dynamic]. rewrite Hd. destruct d; [|reflexivity]. replace 1 with (1 + 0) by reflexivity. apply atmost_bind; [reflexivity|]. intros; reflexivity. }
    intros [tl start] E. apply atmost_bind; [|intros [? ?] _; reflexivity].
    assert (G : fits tl /\ len tl <= len data).
    { destruct d; [|injection E as <- <-; split; [exact F|reflexivity]]. apply wbind_ok in E as (w & _ & E & _). cbn [steps snd] in E. apply bind_ok in E as (o & _ & E). apply bind_ok in E as (tl' & E & E'). injection E' as -> _.
      apply frame_slice in E. split; [eapply frame_at_fits; eassumption|pose proof (frame_len E); lia]. }
    apply iter_limited; [apply G|exact W1|now apply IHt|apply G].
  - (* tuple *) change (wbind (steps 1 (Ok tt)) (fun _ => any_type_work type_dynamic_work ts)) with (type_dynamic_work (PTuple ts)). cbn [wf_type] in W.
    match goal with |- _ <= 1 + ?a + ?b + ?x => replace (1 + a + b + x) with (1 + (a + (b + (x + 0)))) by lia end. apply atmost_step. rewrite ask. apply atmost_bind; [reflexivity|]. intros d E. cbn [snd] in E. assert (Hd : existsb dynamic ts = d) by now injection E. clear E.
    apply atmost_bind.
    { unfold offset_word. cbn [dynamic]. rewrite Hd. destruct d; [|reflexivity]. replace 1 with (1 + 0) by reflexivity. apply atmost_bind; [reflexivity|]. intros; reflexivity. }
    intros [tl start] E. apply atmost_bind; [|intros [? ?] _; reflexivity].
    assert (G : fits tl /\ len tl <= len data).
    { destruct d; [|injection E as <- <-; split; [exact F|reflexivity]]. apply wbind_ok in E as (w & _ & E & _). cbn [steps snd] in E. apply bind_ok in E as (o & _ & E). destruct (len data <? o); [discriminate|]. apply bind_ok in E as (tl' & E & E'). injection E' as -> _.
      apply frame_slice in E. split; [eapply frame_at_fits; eassumption|pose proof (frame_len E); lia]. }
    destruct G as [Ftl Ltl]. eapply N.le_trans; [apply (@loop_limited tl ts Ftl)|].
    + rewrite forallb_forall in W. rewrite Forall_forall in *. auto.
    + apply total_mono. apply Forall_forall. intros x _. pose proof (@work_limit_mono _ _ x Ltl). lia.
Qed.
Lemma decode_limited ts data : forallb wf_type ts = true -> fits data -> fst (decode_work p ts data) <= decode_limit (len data) ts.
Proof.
  intros W F. unfold decode_work, decode_limit. match goal with |- _ <= 1 + ?a + ?x => replace (1 + a + x) with (1 + (a + (x + 0))) by lia end. apply atmost_step. apply atmost_bind; [now rewrite all_empty_steps|].
  intros valid _. destruct (_ && _); [cbn [steps fst]; lia|]. apply atmost_bind; [|intros [? ?] _; reflexivity].
  apply (@loop_limited data ts F). rewrite forallb_forall in W. apply Forall_forall. intros t Ht. apply limited_all. auto.
Qed.
End Bound.

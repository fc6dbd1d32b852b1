(** * When decoding panics *)
From Verif Require Import Base Utf8 Types Encoder Decoder AbiSpec DecoderSpec BaseFacts EncoderFacts DecoderFacts RoundTrip DecoderProps CodecLemmas.
From Coq Require Import ZifyBool ZifyNat ZifyN.
Set Implicit Arguments.
Local Open Scope N_scope.
Ltac Zify.zify_post_hook ::= Z.div_mod_to_equations.

Section Panics.
Context (p : profile).

Definition steps (data : list byte) (ts : list ParamType) (s : list Token * N) : res (list Token * N) :=
  foldM (fun s t => decode_step (decode_param p t data) s) ts s.
Lemma iter_steps data t n s : iter_N (decode_step (decode_param p t data)) n s = steps data (repeat t (N.to_nat n)) s.
Proof.
  rewrite (iter_N_foldM _ t). unfold steps. revert s. induction (N.to_nat n) as [|k IH]; intros s; [reflexivity|].
  cbn [repeat foldM]. apply bind_ext. intros. apply IH.
Qed.

(** What can happen: a value, [InvalidData], or a panic that [crashes] predicts. *)
Definition outcome {A} (data : list byte) (C : Prop) (r : res (A * N)) : Prop :=
  (exists v n, r = Ok (v, n) /\ n <= len data + 32) \/ r = Err InvalidData \/ (r = Panic /\ C).
Definition dec_outcome (t : ParamType) : Prop := forall data pos, fits data -> pos <= len data + 32 ->
  outcome data (crashes p data t pos) (decode_param p t data pos).

Lemma steps_outcome data ts : fits data -> forallb wf_type ts = true -> Forall dec_outcome ts -> forall acc pos, pos <= len data + 32 ->
  outcome data (crashes_seq p data ts pos) (steps data ts (acc, pos)).
Proof.
  intros F W H. induction H as [|t ts Ht H IH]; intros acc pos L; cbn [steps foldM].
  - left. eauto.
  - cbn [forallb] in W. apply andb_true_iff in W as [W1 W2]. specialize (IH W2).
    cbn [decode_step]. destruct (Ht data pos F L) as [(v & n & E & Ln)|[E|[E C]]]; rewrite E; cbn [bind].
    + destruct (IH (v :: acc) n Ln) as [X|[X|[X C]]].
      * left. exact X.
      * right; left. exact X.
      * right; right. split; [exact X|]. apply (dec_iff_all p t W1) in E; [|assumption]. eapply crashes_later; eauto.
    + right; left. reflexivity.
    + right; right. split; [reflexivity|]. now apply crashes_here.
Qed.
Lemma repeat_all (A : Type) (P : A -> Prop) x k : P x -> Forall P (repeat x k).
Proof. intros H. apply Forall_forall. intros y Hy. apply repeat_spec in Hy. now subst. Qed.
Lemma repeat_wf t k : wf_type t = true -> forallb wf_type (repeat t k) = true.
Proof. intros H. apply forallb_forall. intros y Hy. apply repeat_spec in Hy. now subst. Qed.
Lemma iter_outcome data t n : fits data -> wf_type t = true -> dec_outcome t -> forall pos, pos <= len data + 32 ->
  outcome data (crashes_seq p data (repeat t (N.to_nat n)) pos) (iter_N (decode_step (decode_param p t data)) n ([], pos)).
Proof.
  intros F W H pos L. rewrite iter_steps. apply steps_outcome; auto using repeat_wf, repeat_all.
Qed.

(** An offset or length word: its value, or [InvalidData]. *)
Lemma index_outcome data pos : fits data -> pos < 2 ^ 63 + 32 ->
  (exists w n, peek_32_bytes p data pos = Ok w /\ as_usize w = Ok n /\ index_at data pos n) \/
  (exists w, peek_32_bytes p data pos = Ok w /\ as_usize w = Err InvalidData) \/
  peek_32_bytes p data pos = Err InvalidData.
Proof.
  intros F L. unfold fits in F.
  assert (G : (exists w, peek_32_bytes p data pos = Ok w) \/ peek_32_bytes p data pos = Err InvalidData).
  { unfold peek_32_bytes, peek. rewrite usize_add_small by (rewrite two64_eq; lia). cbn [bind].
    destruct (N.ltb_spec (len data) (pos + 32)); [now right|]. left.
    destruct (@slice_some _ data pos (pos + 32)) as (m & E & Lm); [lia|lia|]. eauto. }
  destruct G as [[w E]|E]; [|auto]. destruct (as_usize_safe w) as [(n & En & _)|En]; [|eauto].
  left. exists w, n. split; [assumption|]. split; [assumption|]. eapply index_inv; eauto.
Qed.
Lemma index_at_le data pos n : index_at data pos n -> pos + 32 <= len data.
Proof. intros [B _]. apply bytes_at_le in B. now rewrite len_word in B. Qed.
Lemma frame_exists data pos : pos <= len data -> exists f, slice_from data pos = Ok f /\ frame_at data pos f.
Proof.
  intros L. destruct (@slice_some _ data pos (len data)) as (f & E & _); [lia|lia|]. exists f. split; [exact E|].
  apply frame_slice. exact E.
Qed.
Lemma index_small data pos n : index_at data pos n -> n < 2 ^ 63 + 32.
Proof. intros [_ H]. rewrite two32_eq in H. lia. Qed.

Ltac index_word E I := let w := fresh "w" in let n := fresh "o" in let E1 := fresh E in let E2 := fresh E in
  match goal with |- context [peek_32_bytes p ?d ?o] =>
    destruct (@index_outcome d o) as [(w & n & E1 & E2 & I)|[(w & E1 & E2)|E1]]; [assumption|unfold fits in *; try lia; eauto using index_small|..];
    rewrite E1; cbn [bind]; try (rewrite E2; cbn [bind]); try (right; left; reflexivity) end.

Lemma plain_outcome t : no_dynamic_fixed_array t = true -> fixed_bytes_sane t = true -> dec_outcome t.
Proof.
  intros A B data pos F L. destruct (@decode_param_safe p t A B data pos F L) as [X|X]; [left|right; left]; exact X.
Qed.

Lemma decode_param_outcome t : wf_type t = true -> dec_outcome t.
Proof.
  induction t using ParamType_ind'; intros W; try (now apply plain_outcome); intros data pos F L; cbn [decode_param].
  - (* array *) cbn [wf_type] in W. specialize (IHt W).
    index_word E I1. index_word E' I2.
    pose proof (index_at_le I1). pose proof (index_at_le I2).
    rewrite usize_add_small by (unfold fits in *; rewrite two64_eq; lia). cbn [bind].
    destruct (@frame_exists data (o + 32)) as (f & Ef & Ff); [lia|]. rewrite Ef. cbn [bind].
    pose proof (frame_at_fits Ff F) as Fits.
    destruct (@iter_outcome f t o0) with (pos := 0) as [(v & k & Ev & Lk)|[Ev|[Ev C]]]; [assumption|assumption|assumption|lia|..];
      rewrite Ev; cbn [bind].
    + rewrite usize_add_small by (unfold fits in *; rewrite two64_eq; lia). cbn [bind].
      left. do 2 eexists. split; [reflexivity|lia].
    + right; left; reflexivity.
    + right; right. split; [reflexivity|]. eapply crashes_array; eauto.
  - (* bytesN *) cbn [wf_type] in W. apply N.ltb_lt in W. rewrite two64_eq in W. unfold take_bytes, fits in *.
    unfold usize_add at 1, checked. destruct (N.ltb_spec (pos + n) two64) as [H|H]; rewrite two64_eq in H.
    + cbn [bind]. destruct (N.ltb_spec (len data) (pos + n)); [right; left; reflexivity|].
      destruct (@slice_some _ data pos (pos + n)) as (m & E & Lm); [lia|lia|]. rewrite E. cbn [bind].
      rewrite usize_add_small by (rewrite two64_eq; lia). cbn [bind]. left. do 2 eexists. split; [reflexivity|lia].
    + destruct p eqn:Hp; cbn [bind].
      { right; right. split; [reflexivity|]. apply crashes_size; [lia|auto]. }
      replace ((pos + n) mod two64) with (pos + n - 2 ^ 64) by (rewrite two64_eq; lia).
      destruct (N.ltb_spec (len data) (pos + n - 2 ^ 64)) as [H'|H']; [right; left; reflexivity|].
      right; right. split; [|apply crashes_size; [lia|auto]].
      unfold slice. replace (pos <=? pos + n - 2 ^ 64) with false by lia. reflexivity.
  - (* fixed array *) cbn [wf_type] in W. apply andb_true_iff in W as [W1 W2]. specialize (IHt W1).
    rewrite dynamic_eq. cbn [dynamic]. destruct (dynamic t) eqn:D.
    + index_word E I1. pose proof (index_at_le I1).
      destruct (N.ltb_spec (len data) o) as [Ho|Ho].
      { right; right. split; [|eapply crashes_offset; eauto].
        unfold slice_from, slice. replace (o <=? len data) with false by lia. reflexivity. }
      destruct (@frame_exists data o) as (f & Ef & Ff); [lia|]. rewrite Ef. cbn [bind].
      pose proof (frame_at_fits Ff F) as Fits.
      destruct (@iter_outcome f t n) with (pos := 0) as [(v & k & Ev & Lk)|[Ev|[Ev C]]]; [assumption|assumption|assumption|lia|..];
        rewrite Ev; cbn [bind].
      * rewrite usize_add_small by (unfold fits in *; rewrite two64_eq; lia). cbn [bind].
        left. do 2 eexists. split; [reflexivity|lia].
      * right; left; reflexivity.
      * right; right. split; [reflexivity|]. eapply crashes_fixed_array_dynamic; eauto.
    + cbn [bind].
      destruct (@iter_outcome data t n) with (pos := pos) as [(v & k & Ev & Lk)|[Ev|[Ev C]]]; [assumption|assumption|assumption|lia|..];
        rewrite Ev; cbn [bind].
      * left. do 2 eexists. split; [reflexivity|lia].
      * right; left; reflexivity.
      * right; right. split; [reflexivity|]. eapply crashes_fixed_array_static; eauto.
  - (* tuple *) cbn [wf_type] in W.
    assert (IH : Forall dec_outcome ts).
    { rewrite forallb_forall in W. rewrite Forall_forall in *. auto. }
    rewrite dynamic_eq. destruct (dynamic (PTuple ts)) eqn:D.
    + index_word E I1. pose proof (index_at_le I1).
      destruct (N.ltb_spec (len data) o) as [Ho|Ho]; cbn [bind]; [right; left; reflexivity|].
      destruct (@frame_exists data o) as (f & Ef & Ff); [lia|]. rewrite Ef. cbn [bind].
      pose proof (frame_at_fits Ff F) as Fits.
      destruct (@steps_outcome f ts) with (acc := @nil Token) (pos := 0) as [(v & k & Ev & Lk)|[Ev|[Ev C]]]; [assumption|assumption|assumption|lia|..];
        unfold steps in Ev; rewrite Ev; cbn [bind].
      * rewrite usize_add_small by (unfold fits in *; rewrite two64_eq; lia). cbn [bind].
        left. do 2 eexists. split; [reflexivity|lia].
      * right; left; reflexivity.
      * right; right. split; [reflexivity|]. eapply crashes_tuple_dynamic; eauto.
    + cbn [bind].
      destruct (@steps_outcome data ts) with (acc := @nil Token) (pos := pos) as [(v & k & Ev & Lk)|[Ev|[Ev C]]]; [assumption|assumption|assumption|lia|..];
        unfold steps in Ev; rewrite Ev; cbn [bind].
      * left. do 2 eexists. split; [reflexivity|lia].
      * right; left; reflexivity.
      * right; right. split; [reflexivity|]. eapply crashes_tuple_static; eauto.
Qed.

Lemma crashes_panic_mut :
  (forall data t pos, crashes p data t pos -> wf_type t = true -> fits data -> pos <= len data + 32 -> decode_param p t data pos = Panic) /\
  (forall data ts pos, crashes_seq p data ts pos -> forallb wf_type ts = true -> fits data -> pos <= len data + 32 ->
    forall acc, steps data ts (acc, pos) = Panic).
Proof.
  apply crashes_mutind.
  - intros data t n pos o D I Ho W F L. cbn [decode_param]. rewrite dynamic_eq. cbn [dynamic]. rewrite D.
    destruct (index_fwd p F I) as [-> E1]. cbn [bind]. rewrite E1. cbn [bind].
    unfold slice_from, slice. replace (o <=? len data) with false by lia. reflexivity.
  - intros data n pos H C W F L. cbn [decode_param wf_type] in *. apply N.ltb_lt in W. rewrite two64_eq in W.
    unfold take_bytes, fits in *. unfold usize_add at 1, checked.
    replace (pos + n <? two64) with false by (rewrite two64_eq; lia).
    destruct p; [reflexivity|]. destruct C as [C|C]; [discriminate|]. cbn [bind].
    replace ((pos + n) mod two64) with (pos + n - 2 ^ 64) by (rewrite two64_eq; lia).
    replace (len data <? pos + n - 2 ^ 64) with false by lia.
    unfold slice. replace (pos <=? pos + n - 2 ^ 64) with false by lia. reflexivity.
  - intros data t pos o n frame I1 I2 Fr _ IH W F L. cbn [decode_param wf_type] in *.
    destruct (index_fwd p F I1) as [-> E1]. cbn [bind]. rewrite E1. cbn [bind].
    destruct (index_fwd p F I2) as [-> E2]. cbn [bind]. rewrite E2. cbn [bind].
    rewrite (index_next p F I2). cbn [bind]. rewrite (proj1 (frame_slice _ _ _) Fr). cbn [bind].
    rewrite iter_steps, IH; [reflexivity|now apply repeat_wf|eapply frame_at_fits; eauto|lia].
  - intros data t n pos D _ IH W F L. cbn [decode_param wf_type] in *. apply andb_true_iff in W as [W1 _].
    rewrite dynamic_eq. cbn [dynamic]. rewrite D. cbn [bind]. rewrite iter_steps, IH; auto using repeat_wf.
  - intros data t n pos o frame D I Fr _ IH W F L. cbn [decode_param wf_type] in *. apply andb_true_iff in W as [W1 _].
    rewrite dynamic_eq. cbn [dynamic]. rewrite D.
    destruct (index_fwd p F I) as [-> E1]. cbn [bind]. rewrite E1. cbn [bind].
    rewrite (proj1 (frame_slice _ _ _) Fr). cbn [bind].
    rewrite iter_steps, IH; [reflexivity|now apply repeat_wf|eapply frame_at_fits; eauto|lia].
  - intros data ts pos D _ IH W F L. cbn [decode_param wf_type] in *.
    rewrite dynamic_eq. rewrite D. cbn [bind]. unfold steps in IH. rewrite IH; auto.
  - intros data ts pos o frame D I Fr _ IH W F L. cbn [decode_param wf_type] in *.
    rewrite dynamic_eq. rewrite D.
    destruct (index_fwd p F I) as [-> E1]. cbn [bind]. rewrite E1. cbn [bind].
    pose proof (frame_at_le Fr). replace (len data <? o) with false by lia.
    rewrite (proj1 (frame_slice _ _ _) Fr). cbn [bind]. unfold steps in IH.
    rewrite IH; [reflexivity|assumption|eapply frame_at_fits; eauto|lia].
  - intros data t ts pos _ IH W F L acc. cbn [forallb] in W. apply andb_true_iff in W as [W1 W2].
    unfold steps. cbn [foldM decode_step]. rewrite IH; auto.
  - intros data t ts pos v next R _ IH W F L acc. cbn [forallb] in W. apply andb_true_iff in W as [W1 W2].
    apply (dec_iff_all p t W1) in R; [|assumption]. unfold steps. cbn [foldM decode_step]. rewrite R. cbn [bind].
    apply IH; auto.
    destruct (@decode_param_outcome t W1 data pos F L) as [(v' & n' & E & Ln)|[E|[E _]]]; congruence.
Qed.

Lemma decode_panics ts data : forallb wf_type ts = true -> fits data ->
  (decode p ts data = Panic <-> (data <> [] \/ Forall may_be_empty ts) /\ crashes_seq p data ts 0).
Proof.
  intros W F. rewrite <- may_be_empty_all. unfold decode.
  assert (G : (do (tokens, _) <- foldM (fun s t => decode_step (decode_param p t data) s) ts ([], 0); Ok (rev tokens)) = Panic <->
     crashes_seq p data ts 0).
  { split.
    - intros E. apply bind_panic in E as [E|([? ?] & _ & E)]; [|discriminate].
      destruct (@steps_outcome data ts F W) with (acc := @nil Token) (pos := 0) as [(v & n & E' & _)|[E'|[_ C]]];
        [|lia|unfold steps in E'; congruence..|assumption].
      rewrite forallb_forall in W. apply Forall_forall. intros. apply decode_param_outcome. auto.
    - intros C. apply (proj2 crashes_panic_mut) with (acc := @nil Token) in C; [|assumption|assumption|lia].
      unfold steps in C. rewrite C. reflexivity. }
  destruct (negb _ && _) eqn:C.
  - split; [discriminate|]. intros [[H|H] _]; apply andb_true_iff in C as [C1 C2].
    + exfalso. apply H. apply len_0. lia.
    + rewrite H in C1. discriminate.
  - rewrite G. split; [|tauto]. intros H; split; [|assumption].
    destruct data; [right|left; discriminate].
    rewrite len_nil in C. destruct (forallb is_empty_bytes_valid_encoding ts); [reflexivity|discriminate].
Qed.
Lemma decode_errors ts data e : forallb wf_type ts = true -> fits data -> decode p ts data = Err e ->
  e = InvalidData \/ (data = [] /\ ~ Forall may_be_empty ts /\ e = InvalidName empty_data_msg).
Proof.
  intros W F. rewrite <- may_be_empty_all. unfold decode. destruct (negb _ && _) eqn:C.
  - intros [= <-]. right. apply andb_true_iff in C as [C1 C2]. split; [apply len_0; lia|]. split; [|reflexivity].
    intros H. rewrite H in C1. discriminate.
  - intros E. left.
    destruct (@steps_outcome data ts F W) with (acc := @nil Token) (pos := 0) as [(v & n & E' & _)|[E'|[E' _]]].
    { rewrite forallb_forall in W. apply Forall_forall. intros. apply decode_param_outcome. auto. }
    { lia. }
    all: unfold steps in E'; rewrite E' in E; cbn [bind] in E; congruence.
Qed.
End Panics.

(** * Encoded data reads back as the encoded values *)
From Verif Require Import Base Utf8 Types Encoder Decoder AbiSpec DecoderSpec BaseFacts Utf8Facts
  EncoderFacts DecoderFacts.
From Coq Require Import ZifyBool ZifyNat ZifyN.
Set Implicit Arguments.
Local Open Scope N_scope.
Ltac Zify.zify_post_hook ::= Z.div_mod_to_equations.

Lemma bytes_at_app data pos a b :
  bytes_at data pos (a ++ b) <-> bytes_at data pos a /\ bytes_at data (pos + len a) b.
Proof.
  split.
  - intros (pre & post & -> & <-). split.
    + exists pre, (b ++ post). now rewrite <- !app_assoc.
    + exists (pre ++ a), post. rewrite len_app, <- !app_assoc. auto.
  - intros [(pre & post & -> & <-) (pre' & post' & E & L)].
    rewrite <- len_app in L. rewrite app_assoc in E.
    assert (pre ++ a = pre' /\ post = b ++ post') as [<- ->].
    { clear -E L. revert pre' L E. generalize (pre ++ a) as x. clear.
      induction x as [|c x IH]; intros [|c' pre'] L E; rewrite ?len_nil, ?len_cons in L; try lia.
      - now split.
      - cbn in E. injection E as -> E. apply IH in E as [-> ->]; [now split|lia]. }
    exists pre, post'. rewrite <- !app_assoc. auto.
Qed.
Lemma bytes_at_prefix data pos a b : bytes_at data pos (a ++ b) -> bytes_at data pos a.
Proof. rewrite bytes_at_app. tauto. Qed.
Lemma frame_bytes data pos frame off b : frame_at data pos frame ->
  (bytes_at frame off b <-> bytes_at data (pos + off) b).
Proof.
  intros (fpre & -> & <-). split.
  - intros (pre & post & -> & <-). exists (fpre ++ pre), post. rewrite len_app, <- !app_assoc. auto.
  - intros (pre & post & E & L).
    revert pre E L. induction fpre as [|c fpre IH]; intros pre E L.
    + rewrite len_nil in L. exists pre, post. cbn in E. split; [assumption|lia].
    + destruct pre as [|c' pre]; rewrite ?len_nil, ?len_cons in L; [lia|].
      cbn in E. injection E as -> E. apply IH with (pre := pre); [assumption|lia].
Qed.
Lemma frame_exists data pos b : bytes_at data pos b -> exists frame, frame_at data pos frame /\ bytes_at frame 0 b.
Proof.
  intros (pre & post & -> & <-). exists (b ++ post). split.
  - exists pre. auto.
  - exists [], post. auto.
Qed.

Lemma word_value n : n < two256 -> of_be (word n) = n.
Proof. intros H. apply of_be_be_bytes_small. now rewrite <- two256_eq. Qed.

Definition small (t : ParamType) (v : Token) : Prop := len (abi_enc t v) < two32.

Definition rt (t : ParamType) (v : Token) : Prop := forall data pos,
  if dynamic t
  then forall o, index_at data pos o -> bytes_at data o (abi_enc t v) -> reads data t pos v (pos + 32)
  else bytes_at data pos (abi_enc t v) -> reads data t pos v (pos + len (abi_enc t v)).

Definition parts (l : list (ParamType * Token)) := map (fun '(t, v) => (dynamic t, abi_enc t v)) l.

Lemma rt_seq l : Forall (fun '(t, v) => rt t v) l -> forall data pos nt,
  bytes_at data pos (heads nt (parts l)) ->
  (Forall (fun c => fst c = false) (parts l) \/
   (bytes_at data nt (tails (parts l)) /\ nt + len (tails (parts l)) < two32)) ->
  reads_seq data (map fst l) pos (map snd l) (pos + heads_size (parts l)).
Proof.
  induction 1 as [|[t v] l R H IH]; intros data pos nt B T; cbn [parts map heads heads_size head_size tails fst snd] in *.
  - rewrite N.add_0_r. constructor.
  - fold (parts l) in *. red in R. destruct (dynamic t) eqn:D.
    + destruct T as [T|[T1 T2]]; [inversion T; discriminate|].
      apply bytes_at_app in B as [B1 B2], T1 as [T1 T3]. rewrite len_word in B2. rewrite len_app in T2.
      econstructor.
      * apply (R data pos nt); [|assumption]. split; [assumption|lia].
      * rewrite N.add_assoc. eapply IH; [eassumption|]. right. split; [assumption|lia].
    + apply bytes_at_app in B as [B1 B2].
      econstructor; [apply R; assumption|].
      rewrite N.add_assoc. eapply IH; [eassumption|].
      destruct T as [T|[T1 T2]]; [left|right; auto]. now apply Forall_cons_iff in T as [_ T].
Qed.

Lemma rt_seq_frame l frame : Forall (fun '(t, v) => rt t v) l ->
  bytes_at frame 0 (enc_seq (parts l)) -> len (enc_seq (parts l)) < two32 ->
  reads_seq frame (map fst l) 0 (map snd l) (heads_size (parts l)).
Proof.
  intros R B L. unfold enc_seq in B. apply bytes_at_app in B as [B1 B2]. rewrite heads_len in B2.
  rewrite enc_seq_len in L.
  apply (rt_seq R) in B1; [exact B1|]. right. auto.
Qed.
Lemma rt_seq_static l data pos : Forall (fun '(t, v) => rt t v) l ->
  Forall (fun c => fst c = false) (parts l) -> bytes_at data pos (enc_seq (parts l)) ->
  reads_seq data (map fst l) pos (map snd l) (pos + len (enc_seq (parts l))).
Proof.
  intros R S B. rewrite enc_seq_len. destruct (static_heads 0 S) as [_ E]. rewrite E, len_nil, N.add_0_r.
  unfold enc_seq in B. apply bytes_at_prefix in B. eapply rt_seq; eauto.
Qed.

Lemma parts_repeat t vs : parts (map (fun v => (t, v)) vs) = map (fun v => (dynamic t, abi_enc t v)) vs.
Proof. unfold parts. now rewrite map_map. Qed.
Lemma fst_repeat A B (t : A) (vs : list B) : map fst (map (fun v => (t, v)) vs) = repeat t (length vs).
Proof. induction vs; cbn; congruence. Qed.
Lemma snd_repeat A B (t : A) (vs : list B) : map snd (map (fun v => (t, v)) vs) = vs.
Proof. rewrite map_map. cbn. apply map_id. Qed.
Lemma map_fst_combine A B (l : list A) (l' : list B) : length l = length l' -> map fst (combine l l') = l.
Proof. revert l'; induction l; intros [|]; cbn; intros; try discriminate; f_equal; auto. Qed.
Lemma map_snd_combine A B (l : list A) (l' : list B) : length l = length l' -> map snd (combine l l') = l'.
Proof. revert l'; induction l; intros [|]; cbn; intros; try discriminate; f_equal; auto. Qed.

Lemma part_small l t v : In (t, v) l -> len (enc_seq (parts l)) < two32 -> small t v.
Proof.
  intros Hin L. pose proof (heads_tails_bound (parts l)) as B. unfold parts in B. rewrite Forall_map in B.
  rewrite Forall_forall in B. specialize (B _ Hin). cbn in B. unfold small. fold (parts l) in B. lia.
Qed.

Lemma fixed_bytes_32 b : 1 <= len b -> len b <= 32 -> len (b ++ padding (len b)) = 32.
Proof. intros. rewrite len_app, len_padding. lia. Qed.

Lemma round_trip_reads t v : solidity_type t = true -> has_type v t = true -> short_arrays v = true ->
  small t v -> rt t v.
Proof.
  revert v. induction t using ParamType_ind'; intros v S T A L data pos; cbn [dynamic].
  - destruct v; try discriminate. cbn [has_type] in T. intros B. cbn [abi_enc] in *.
    rewrite len_app, len_zeros. replace (N.of_nat 12 + len a) with 32 by lia.
    eapply reads_address; [exact B|reflexivity|lia].
  - destruct v; try discriminate. intros o I B. unfold small in L. cbn [abi_enc] in *. rewrite !len_app, len_word in L.
    apply bytes_at_app in B as [B1 B2]. rewrite len_word in B2. apply bytes_at_prefix in B2.
    eapply reads_bytes; [exact I| |exact B2]. split; [assumption|lia].
  - destruct v; try discriminate. cbn [has_type] in T. intros B. cbn [abi_enc] in *. rewrite len_word.
    pose proof (reads_int n B (len_word n0)) as R.
    rewrite word_value in R by (now apply N.ltb_lt). exact R.
  - destruct v; try discriminate. cbn [has_type] in T. intros B. cbn [abi_enc] in *. rewrite len_word.
    pose proof (reads_uint n B (len_word n0)) as R.
    rewrite word_value in R by (now apply N.ltb_lt). exact R.
  - destruct v; try discriminate. intros B. cbn [abi_enc] in *. rewrite len_word.
    destruct b.
    + change (word 1) with (zeros 31 ++ [x01]) in B. exact (reads_bool B).
    + change (word 0) with (zeros 31 ++ [x00]) in B. exact (reads_bool B).
  - destruct v; try discriminate. intros o I B. unfold small in L. cbn [abi_enc has_type] in *. rewrite !len_app, len_word in L.
    apply bytes_at_app in B as [B1 B2]. rewrite len_word in B2. apply bytes_at_prefix in B2.
    rewrite <- (utf8_lossy_utf8 s T) at 1.
    eapply reads_string; [exact I| |exact B2]. split; [assumption|lia].
  - destruct v; try discriminate. intros o I B. unfold small in L. cbn [abi_enc has_type short_arrays solidity_type] in *.
    rewrite len_app, len_word in L. apply andb_true_iff in A as [A1 A2].
    apply bytes_at_app in B as [B1 B2]. rewrite len_word in B2.
    apply frame_exists in B2 as (frame & Fr & B2).
    rewrite <- parts_repeat in *.
    eapply reads_array; [exact I| |exact Fr|].
    + split; [assumption|lia].
    + rewrite <- (fst_repeat t vs). rewrite <- (snd_repeat t vs) at 2. apply rt_seq_frame; [|assumption|lia].
      apply Forall_map, Forall_forall. intros v Hv. rewrite forallb_forall in T, A2.
      apply IHt; auto. apply part_small with (l := map (fun v => (t, v)) vs); [|lia].
      apply in_map_iff. eauto.
  - destruct v; try discriminate. intros B. cbn [abi_enc has_type solidity_type] in *.
    apply andb_true_iff in S as [S1 S2]. rewrite fixed_bytes_32 by lia.
    apply bytes_at_prefix in B. apply reads_fixed_bytes; [assumption|lia].
  - destruct v; try discriminate. unfold small in L. cbn [abi_enc has_type short_arrays solidity_type] in *.
    apply andb_true_iff in S as [S1 S2], T as [T1 T2].
    assert (IH : Forall (fun '(t, v) => rt t v) (map (fun v => (t, v)) vs)).
    { apply Forall_map, Forall_forall. intros v Hv. rewrite forallb_forall in T2, A.
      apply IHt; auto. apply part_small with (l := map (fun v => (t, v)) vs).
      - apply in_map_iff. eauto.
      - now rewrite parts_repeat. }
    rewrite <- parts_repeat in *.
    destruct (dynamic t) eqn:D.
    + intros o I B. apply frame_exists in B as (frame & Fr & B).
      eapply reads_fixed_array_dynamic; [assumption|lia|exact I|exact Fr|].
      rewrite <- (fst_repeat t vs). rewrite <- (snd_repeat t vs) at 2. now apply rt_seq_frame.
    + intros B. apply reads_fixed_array_static; [assumption|lia|].
      rewrite <- (fst_repeat t vs). rewrite <- (snd_repeat t vs) at 2. apply rt_seq_static; auto.
      rewrite parts_repeat. apply Forall_map, Forall_forall. intros. exact D.
  - destruct v; try discriminate. apply tuple_type in T. unfold small in L. rewrite tuple_enc in L.
    fold (parts (combine ts vs)) in L.
    assert (Len : length ts = length vs) by (symmetry; eapply Forall2_length; eassumption).
    assert (IH : Forall (fun '(t, v) => rt t v) (combine ts vs)).
    { apply Forall_forall. intros [t v] Hin. cbn [solidity_type short_arrays] in *.
      rewrite forallb_forall in S, A. rewrite Forall_forall in H. apply H.
      - eapply in_combine_l; eassumption.
      - apply S. eapply in_combine_l; eassumption.
      - clear -T Hin. induction T; cbn in Hin; [destruct Hin|].
        destruct Hin as [E|Hin]; [injection E as -> ->; assumption|auto].
      - apply A. eapply in_combine_r; eassumption.
      - eapply part_small; eassumption. }
    change (existsb dynamic ts) with (dynamic (PTuple ts)).
    destruct (dynamic (PTuple ts)) eqn:D; rewrite tuple_enc; fold (parts (combine ts vs)).
    + intros o I B. apply frame_exists in B as (frame & Fr & B).
      eapply reads_tuple_dynamic; [assumption|exact I|exact Fr|].
      rewrite <- (map_fst_combine ts vs Len) at 1. rewrite <- (map_snd_combine ts vs Len) at 2.
      now apply rt_seq_frame.
    + intros B. apply reads_tuple_static; [assumption|].
      rewrite <- (map_fst_combine ts vs Len) at 1. rewrite <- (map_snd_combine ts vs Len) at 2.
      apply rt_seq_static; auto. apply Forall_map. cbn [dynamic] in D. apply existsb_Forall in D.
      rewrite Forall_forall in D |- *. intros [t v] Hin. cbn. apply D. eapply in_combine_l; eassumption.
Qed.

(** A whole argument list placed at the start of [data]. *)
Lemma round_trip_seq ts vs data : forallb solidity_type ts = true -> have_types vs ts = true ->
  forallb short_arrays vs = true -> len (abi_encode ts vs) < two32 ->
  bytes_at data 0 (abi_encode ts vs) -> exists next, reads_seq data ts 0 vs next.
Proof.
  intros S T A L B. unfold abi_encode in *. rewrite tuple_enc in *. fold (parts (combine ts vs)) in *.
  apply tuple_type in T.
  assert (Len : length ts = length vs) by (symmetry; eapply Forall2_length; eassumption).
  exists (heads_size (parts (combine ts vs))).
  rewrite <- (map_fst_combine ts vs Len) at 1. rewrite <- (map_snd_combine ts vs Len) at 2.
  apply rt_seq_frame; auto.
  apply Forall_forall. intros [t v] Hin.
  rewrite forallb_forall in S, A. apply round_trip_reads.
  - apply S. eapply in_combine_l; eassumption.
  - clear -T Hin. induction T; cbn in Hin; [destruct Hin|].
    destruct Hin as [E|Hin]; [injection E as -> ->; assumption|auto].
  - apply A. eapply in_combine_r; eassumption.
  - eapply part_small; eassumption.
Qed.

(** ** [reads] is deterministic *)
Lemma index_unique data pos a b : index_at data pos a -> index_at data pos b -> a = b.
Proof.
  intros [H1 L1] [H2 L2]. apply word_inj.
  - apply N.lt_trans with two32; [assumption|reflexivity].
  - apply N.lt_trans with two32; [assumption|reflexivity].
  - eapply bytes_at_unique; [eassumption|eassumption|]. now rewrite !len_word.
Qed.
Lemma frame_unique data pos a b : frame_at data pos a -> frame_at data pos b -> a = b.
Proof. rewrite !frame_slice. congruence. Qed.

Lemma app_len_inj A (a b c d : list A) : a ++ b = c ++ d -> len a = len c -> a = c /\ b = d.
Proof.
  revert c; induction a as [|x a IH]; intros [|y c] E L; rewrite ?len_nil, ?len_cons in L; try lia.
  - auto.
  - cbn in E. injection E as -> E. apply IH in E as [-> ->]; [auto|lia].
Qed.

Ltac uni := repeat match goal with
  | A : index_at ?d ?p ?x, B : index_at ?d ?p ?y |- _ =>
    assert (x = y) by exact (index_unique A B); clear B; try subst y
  | A : frame_at ?d ?p ?x, B : frame_at ?d ?p ?y |- _ =>
    assert (x = y) by exact (frame_unique A B); clear B; try subst y
  | A : bytes_at ?d ?p ?x, B : bytes_at ?d ?p ?y |- _ =>
    assert (x = y) by (apply (bytes_at_unique A B); rewrite ?len_app in *; lia); clear B
  end.
Ltac same_len vs vs0 :=
  replace (length vs0) with (length vs) in * by (unfold len in *; lia).

Lemma reads_det_mut :
  (forall data t pos v next, reads data t pos v next -> forall v' next', reads data t pos v' next' -> v = v' /\ next = next') /\
  (forall data ts pos vs next, reads_seq data ts pos vs next -> forall vs' next', reads_seq data ts pos vs' next' -> vs = vs' /\ next = next').
Proof.
  apply reads_mutind; intros *;
    try (intros; match goal with H : reads _ _ _ _ _ |- _ => inversion H; subst; uni; subst; split; congruence end).
  - intros B L1 L2 v' n' R. inversion R; subst. uni. split; [|reflexivity]. f_equal.
    match goal with H : _ ++ _ = _ ++ _ |- _ => apply app_len_inj in H as [_ ?]; [congruence|lia] end.
  - intros B v' n' R. inversion R as [| | |? ? b' B'| | | | | | | |]; subst. split; [|reflexivity].
    pose proof (bytes_at_unique B B' eq_refl) as E. injection E as ->. reflexivity.
  - intros I I2 F R IH v' n' R'. inversion R' as [| | | | | | |? ? ? ? vs0 | | | |]; subst. uni.
    split; [|reflexivity]. same_len vs vs0. f_equal. eapply IH; eassumption.
  - intros D L R IH v' n' R'. inversion R' as [| | | | | | | |? ? ? ? vs0 ? D' L'|? ? ? ? ? ? ? ? D' | |]; subst; [|congruence].
    same_len vs vs0. edestruct IH; [eassumption|]. subst. auto.
  - intros D L I F R IH v' n' R'. inversion R' as [| | | | | | | |? ? ? ? ? ? D' |? ? ? ? ? vs0 ? ? D' | |]; subst; [congruence|]. uni.
    split; [|reflexivity]. same_len vs vs0. f_equal. eapply IH; eassumption.
  - intros D R IH v' n' R'. inversion R' as [| | | | | | | | | |? ? ? ? ? D'|? ? ? ? ? ? ? D']; subst; [|congruence].
    edestruct IH; [eassumption|]. subst. auto.
  - intros D I F R IH v' n' R'. inversion R' as [| | | | | | | | | |? ? ? ? ? D'|? ? ? ? ? ? ? D']; subst; [congruence|]. uni.
    split; [|reflexivity]. f_equal. eapply IH; eassumption.
  - intros R. inversion R; subst; auto.
  - intros R IH1 Rs IH2 vs1 n1 R'. inversion R'; subst. edestruct IH1; [eassumption|]. subst.
    edestruct IH2; [eassumption|]. subst. auto.
Qed.
Lemma reads_seq_det data ts pos vs next vs' next' :
  reads_seq data ts pos vs next -> reads_seq data ts pos vs' next' -> vs = vs' /\ next = next'.
Proof. intros H. now apply reads_det_mut. Qed.

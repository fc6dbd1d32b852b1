(** * Consequences: typing, trailing bytes, bounds, absence of panics *)
From Verif Require Import Base Utf8 Types Encoder Decoder AbiSpec DecoderSpec BaseFacts Utf8Facts
  EncoderFacts EncoderTotal DecoderFacts RoundTrip.
From Coq Require Import ZifyBool ZifyNat ZifyN.
Set Implicit Arguments.
Local Open Scope N_scope.
Ltac Zify.zify_post_hook ::= Z.div_mod_to_equations.

(** ** Lossy strings are well formed *)
Lemma utf8_lossy_wf_len k : forall l, (length l <= k)%nat -> wf_str (utf8_lossy l) = true.
Proof.
  induction k as [|k IH]; intros [|b0 r0] L; cbn [length] in L; try reflexivity; [lia|].
  assert (R : forall r, (length r <= k)%nat -> wf_str (replacement :: utf8_lossy r) = true).
  { intros r Hr. cbn [wf_str forallb]. rewrite IH by assumption. reflexivity. }
  assert (K : forall c r, is_scalar c = true -> (length r <= k)%nat -> wf_str (c :: utf8_lossy r) = true).
  { intros c r Hc Hr. cbn [wf_str forallb]. now rewrite Hc, IH. }
  cbn [utf8_lossy].
  destruct (Byte.to_N b0 <? 0x80) eqn:C0.
  { apply K; [unfold is_scalar; lia|lia]. }
  destruct ((0xC2 <=? Byte.to_N b0) && (Byte.to_N b0 <=? 0xDF)) eqn:C1.
  { destruct r0 as [|b1 r1]; [apply R; cbn; lia|]. cbn [length] in L.
    destruct (is_cont b1) eqn:I1; [|apply R; cbn; lia].
    apply K; [|lia]. unfold is_cont, in_range in I1. unfold cont_bits, is_scalar. lia. }
  destruct ((0xE0 <=? Byte.to_N b0) && (Byte.to_N b0 <=? 0xEF)) eqn:C2.
  { destruct r0 as [|b1 r1]; [apply R; cbn; lia|]. cbn [length] in L.
    destruct (second3 (Byte.to_N b0) b1) eqn:I1; [|apply R; cbn; lia].
    destruct r1 as [|b2 r2]; [apply R; cbn; lia|]. cbn [length] in L.
    destruct (is_cont b2) eqn:I2; [|apply R; cbn; lia].
    apply K; [|lia].
    unfold second3 in I1. unfold is_cont, in_range in *. unfold cont_bits, is_scalar.
    destruct (Byte.to_N b0 =? 0xE0) eqn:Z1; [lia|]. destruct (Byte.to_N b0 =? 0xED) eqn:Z2; lia. }
  destruct ((0xF0 <=? Byte.to_N b0) && (Byte.to_N b0 <=? 0xF4)) eqn:C3.
  { destruct r0 as [|b1 r1]; [apply R; cbn; lia|]. cbn [length] in L.
    destruct (second4 (Byte.to_N b0) b1) eqn:I1; [|apply R; cbn; lia].
    destruct r1 as [|b2 r2]; [apply R; cbn; lia|]. cbn [length] in L.
    destruct (is_cont b2) eqn:I2; [|apply R; cbn; lia].
    destruct r2 as [|b3 r3]; [apply R; cbn; lia|]. cbn [length] in L.
    destruct (is_cont b3) eqn:I3; [|apply R; cbn; lia].
    apply K; [|lia].
    unfold second4 in I1. unfold is_cont, in_range in *. unfold cont_bits, is_scalar.
    destruct (Byte.to_N b0 =? 0xF0) eqn:Z1; [lia|]. destruct (Byte.to_N b0 =? 0xF4) eqn:Z2; lia. }
  apply R; lia.
Qed.
Lemma utf8_lossy_wf l : wf_str (utf8_lossy l) = true.
Proof. now apply (@utf8_lossy_wf_len (length l)). Qed.

(** ** C06: decoded values have the type *)
Lemma reads_typed_mut :
  (forall data t pos v next, reads data t pos v next -> has_type v t = true) /\
  (forall data ts pos vs next, reads_seq data ts pos vs next -> have_types vs ts = true).
Proof.
  assert (Rep : forall t vs, have_types vs (repeat t (length vs)) = true ->
      forallb (fun v => has_type v t) vs = true).
  { intros t vs. unfold have_types. rewrite tuple_type. induction vs; cbn [length repeat forallb]; [reflexivity|].
    intros H. inversion H; subst. rewrite H3. auto. }
  apply reads_mutind; intros; cbn [has_type]; try reflexivity; try lia.
  - apply N.ltb_lt. rewrite two256_eq. pose proof (of_be_lt w). rewrite e in H. exact H.
  - apply N.ltb_lt. rewrite two256_eq. pose proof (of_be_lt w). rewrite e in H. exact H.
  - apply utf8_lossy_wf.
  - auto.
  - rewrite Rep by assumption. lia.
  - rewrite Rep by assumption. lia.
  - exact H.
  - exact H.
  - unfold have_types in *. rewrite tuple_type in *. now constructor.
Qed.
Lemma reads_seq_typed data ts pos vs next : reads_seq data ts pos vs next -> have_types vs ts = true.
Proof. apply reads_typed_mut. Qed.

(** Strictly typed values pass [type_check]. *)
Lemma allM_true A (f : A -> res bool) l : Forall (fun x => f x = Ok true) l -> allM f l = Ok true.
Proof. induction 1; cbn; [reflexivity|]. now rewrite H. Qed.
Lemma has_type_check t v : has_type v t = true -> type_check v t = Ok true.
Proof.
  revert v. induction t using ParamType_ind'; intros v T; destruct v; try discriminate; try reflexivity.
  - cbn [has_type type_check] in *. apply allM_true. rewrite forallb_forall in T. apply Forall_forall. auto.
  - cbn [has_type type_check] in *. f_equal. lia.
  - cbn [has_type type_check] in *. apply andb_true_iff in T as [T1 T2].
    replace (n =? len vs) with true by lia. apply allM_true. rewrite forallb_forall in T2. apply Forall_forall. auto.
  - apply tuple_type in T. cbn [type_check]. revert H. induction T; intros H'; [reflexivity|].
    apply Forall_cons_iff in H' as [H1 H2]. cbn [all_indexed]. rewrite H1 by assumption. cbn [bind]. auto.
Qed.
Lemma have_types_check ts vs : have_types vs ts = true -> types_check vs ts = Ok true.
Proof.
  intros T. apply tuple_type in T. unfold types_check, len. rewrite (Forall2_length T), N.eqb_refl.
  induction T; [reflexivity|]. cbn [zip_all]. rewrite has_type_check by assumption. exact IHT.
Qed.

(** ** C07: trailing bytes *)
Lemma bytes_at_ext data x pos b : bytes_at data pos b -> bytes_at (data ++ x) pos b.
Proof. intros (pre & post & -> & L). exists pre, (post ++ x). now rewrite <- !app_assoc. Qed.
Lemma index_at_ext data x pos n : index_at data pos n -> index_at (data ++ x) pos n.
Proof. intros [H L]. split; [now apply bytes_at_ext|assumption]. Qed.
Lemma frame_at_ext data x pos f : frame_at data pos f -> frame_at (data ++ x) pos (f ++ x).
Proof. intros (pre & -> & L). exists pre. now rewrite app_assoc. Qed.
Lemma reads_ext_mut :
  (forall data t pos v next, reads data t pos v next -> forall x, reads (data ++ x) t pos v next) /\
  (forall data ts pos vs next, reads_seq data ts pos vs next -> forall x, reads_seq (data ++ x) ts pos vs next).
Proof.
  apply reads_mutind; intros;
    solve [ econstructor; eauto using bytes_at_ext, index_at_ext, frame_at_ext
          | eapply reads_fixed_array_dynamic; eauto using index_at_ext, frame_at_ext
          | eapply reads_tuple_dynamic; eauto using index_at_ext, frame_at_ext ].
Qed.

Lemma decode_suffix p ts data x vs : forallb wf_type ts = true -> fits (data ++ x) ->
  decode p ts data = Ok vs -> decode p ts (data ++ x) = Ok vs.
Proof.
  intros W F E. assert (F' : fits data) by (unfold fits in *; rewrite len_app in F; lia).
  apply decode_iff in E as [E (n & R)]; auto. apply decode_iff; auto. split.
  - destruct E; [left|now right]. intros E. apply app_eq_nil in E. tauto.
  - exists n. now apply reads_ext_mut.
Qed.

(** ** C01, C04 *)
Lemma abi_sub_len data x y : data = x ++ y -> bytes_at data 0 x.
Proof. intros ->. exists [], y. auto. Qed.

Lemma solidity_wf t v : solidity_type t = true -> has_type v t = true -> wf_token v = true.
Proof. intros _. apply has_type_wf. Qed.

Lemma decode_encode p p' ts vs data x :
  forallb wf_type ts = true -> forallb solidity_type ts = true -> have_types vs ts = true ->
  forallb short_arrays vs = true -> len (abi_encode ts vs) < two32 ->
  encode p vs = Ok data -> fits (data ++ x) ->
  (data ++ x <> [] \/ forallb is_empty_bytes_valid_encoding ts = true) ->
  decode p' ts (data ++ x) = Ok vs.
Proof.
  intros W S T A L E F G. rewrite encode_spec with (ts := ts) in E by assumption. injection E as <-.
  apply decode_iff; auto. split; [assumption|]. eapply round_trip_seq; eauto. eapply abi_sub_len; reflexivity.
Qed.

Lemma abi_encode_inj ts vs vs' :
  forallb solidity_type ts = true -> have_types vs ts = true -> have_types vs' ts = true ->
  forallb short_arrays vs = true -> forallb short_arrays vs' = true ->
  len (abi_encode ts vs) < two32 -> abi_encode ts vs = abi_encode ts vs' -> vs = vs'.
Proof.
  intros S T T' A A' L E.
  destruct (@round_trip_seq ts vs (abi_encode ts vs)) as (n & R); auto.
  { eapply abi_sub_len. now rewrite app_nil_r. }
  destruct (@round_trip_seq ts vs' (abi_encode ts vs)) as (n' & R'); auto.
  { now rewrite <- E. }
  { rewrite <- E. eapply abi_sub_len. now rewrite app_nil_r. }
  now apply (reads_seq_det R) in R' as [-> _].
Qed.

Lemma zero_size_static t : zero_size t = true -> dynamic t = false.
Proof.
  induction t using ParamType_ind'; cbn; try discriminate.
  - intros Z. apply orb_true_iff in Z as [Z|Z]; [|auto]. apply andb_true_iff in Z as [_ Z].
    now destruct (dynamic t).
  - intros Z. apply existsb_Forall. rewrite forallb_forall in Z. rewrite Forall_forall in *. auto.
Qed.
Lemma part_nonempty cs : Exists (fun c => snd c <> []) cs -> enc_seq cs <> [].
Proof.
  intros H E. pose proof (heads_tails_bound cs) as B. apply Exists_exists in H as (c & Hin & Hc).
  rewrite Forall_forall in B. specialize (B _ Hin). rewrite E, len_nil in B. apply Hc. apply len_0. lia.
Qed.
Lemma nonzero_nonempty t v : solidity_type t = true -> has_type v t = true -> zero_size t = false ->
  abi_enc t v <> [].
Proof.
  revert v. induction t using ParamType_ind'; intros v S T Z; destruct v; try discriminate;
    try (cbn [abi_enc]; intros E; apply (f_equal (@len _)) in E;
         rewrite ?len_app, ?len_word, ?len_zeros, len_nil in E; lia).
  - cbn [abi_enc]. intros E. apply (f_equal (@len _)) in E. cbn [solidity_type has_type] in *.
    rewrite len_app, len_nil in E. lia.
  - cbn [solidity_type has_type zero_size abi_enc] in *. apply andb_true_iff in S as [S1 S2], T as [T1 T2].
    apply orb_false_iff in Z as [Z1 Z2].
    destruct vs as [|v vs].
    { rewrite len_nil in T1. destruct (dynamic t); cbn [negb andb orb] in *; lia. }
    apply part_nonempty. cbn [map forallb] in *. constructor. cbn. apply IHt; auto.
    now apply andb_true_iff in T2 as [].
  - rewrite tuple_enc. apply tuple_type in T. apply part_nonempty. cbn [zero_size solidity_type] in *.
    revert H S Z. induction T; cbn [forallb combine map]; intros; [discriminate|].
    apply Forall_cons_iff in H0 as [H1 H2]. apply andb_true_iff in S as [S1 S2].
    apply andb_false_iff in Z as [Z|Z].
    + constructor. cbn. auto.
    + apply Exists_cons_tl. auto.
Qed.
Lemma nonzero_encode ts vs : forallb solidity_type ts = true -> have_types vs ts = true ->
  forallb zero_size ts = false -> abi_encode ts vs <> [].
Proof. intros. now apply nonzero_nonempty. Qed.

(** ** C09: bounds *)
Lemma arrays_bounded_mono n m v : n <= m -> arrays_bounded n v = true -> arrays_bounded m v = true.
Proof.
  intros L. induction v using Token_ind'; cbn; auto.
  - rewrite !forallb_forall. rewrite Forall_forall in H. auto.
  - rewrite !andb_true_iff, !forallb_forall. rewrite Forall_forall in H. intros [H1 H2]. split; [lia|auto].
  - rewrite !forallb_forall. rewrite Forall_forall in H. auto.
Qed.

Lemma frame_len data pos f : frame_at data pos f -> len data = pos + len f.
Proof. intros (pre & -> & <-). apply len_app. Qed.

Lemma seq_advance data ts pos vs next :
  (forall t pos v next, In t ts -> reads data t pos v next -> pos + 32 <= next) ->
  reads_seq data ts pos vs next -> pos + 32 * len vs <= next.
Proof.
  intros H R. revert H. induction R; intros H'.
  - rewrite len_nil. lia.
  - rewrite len_cons. specialize (IHR (fun t0 p v n Hin => H' t0 p v n (or_intror Hin))).
    assert (pos + 32 <= next) by (eapply H'; [now left|eassumption]). lia.
Qed.

Lemma reads_width_mut :
  (forall data t pos v next, reads data t pos v next -> solidity_type t = true ->
     pos <= next /\ (next <= len data + 31 \/ next = pos) /\ (zero_size t = false -> pos + 32 <= next)) /\
  (forall data ts pos vs next, reads_seq data ts pos vs next -> forallb solidity_type ts = true ->
     pos <= next /\ (next <= len data + 31 \/ next = pos) /\ (forallb zero_size ts = false -> pos + 32 <= next)).
Proof.
  apply reads_mutind; intros; cbn [solidity_type zero_size forallb] in *;
    try (match goal with
         | H : bytes_at _ _ _ |- _ => pose proof (bytes_at_le H)
         end; rewrite ?len_app, ?len_zeros in *; lia).
  - destruct i as [i _]. pose proof (bytes_at_le i). rewrite len_word in *. lia.
  - destruct i as [i _]. pose proof (bytes_at_le i). rewrite len_word in *. lia.
  - destruct i as [i _]. pose proof (bytes_at_le i). rewrite len_word in *. lia.
  - apply andb_true_iff in H0 as [H0 H1].
    destruct H as (P1 & P2 & P3).
    { apply forallb_forall. intros x Hx. apply repeat_spec in Hx. now subst. }
    split; [assumption|]. split; [assumption|]. intros Z. apply P3.
    rewrite e in Z. cbn [negb] in Z. destruct vs; [rewrite len_nil in *; subst n; discriminate|].
    cbn [length repeat forallb]. apply orb_false_iff in Z as [_ ->]. reflexivity.
  - destruct i as [i _]. pose proof (bytes_at_le i). rewrite len_word in *. lia.
  - destruct (H H0) as (P1 & P2 & P3). auto.
  - destruct i as [i _]. pose proof (bytes_at_le i). rewrite len_word in *. lia.
  - split; [lia|]. split; [now right|discriminate].
  - apply andb_true_iff in H1 as [S1 S2]. destruct (H S1) as (P1 & P2 & P3), (H0 S2) as (Q1 & Q2 & Q3).
    split; [lia|]. split; [lia|]. intros Z. apply andb_false_iff in Z as [Z|Z]; [specialize (P3 Z)|specialize (Q3 Z)]; lia.
Qed.

Lemma reads_arrays_mut :
  (forall data t pos v next, reads data t pos v next -> solidity_type t = true -> sized_elements t = true ->
     arrays_bounded (len data / 32) v = true) /\
  (forall data ts pos vs next, reads_seq data ts pos vs next -> forallb solidity_type ts = true ->
     forallb sized_elements ts = true -> forallb (arrays_bounded (len data / 32)) vs = true).
Proof.
  assert (Rep : forall (f : ParamType -> bool) t n, f t = true -> forallb f (repeat t n) = true).
  { intros f t n Hf. apply forallb_forall. intros x Hx. apply repeat_spec in Hx. now subst. }
  apply reads_mutind; intros; cbn [arrays_bounded solidity_type sized_elements forallb] in *; try reflexivity.
  - apply andb_true_iff in H1 as [Z H1]. pose proof (frame_len f) as Lf.
    apply andb_true_iff. split.
    + assert (0 + 32 * len vs <= next).
      { eapply seq_advance; [|exact r]. intros t0 p0 v0 n0 Hin R. apply repeat_spec in Hin. subst t0.
        apply reads_width_mut in R; auto. apply R. now destruct (zero_size t). }
      apply reads_width_mut in r; [|now apply Rep]. lia.
    + specialize (H (Rep _ _ _ H0) (Rep _ _ _ H1)). rewrite forallb_forall in *.
      intros v Hv. apply arrays_bounded_mono with (n := len frame / 32); [|auto].
      apply N.div_le_mono; lia.
  - apply andb_true_iff in H0 as [H0 H2]. apply H; now apply Rep.
  - apply andb_true_iff in H0 as [H0 H2]. pose proof (frame_len f) as Lf.
    specialize (H (Rep _ _ _ H0) (Rep _ _ _ H1)). rewrite forallb_forall in *.
    intros v Hv. apply arrays_bounded_mono with (n := len frame / 32); [|auto]. apply N.div_le_mono; lia.
  - auto.
  - pose proof (frame_len f) as Lf. specialize (H H0 H1). rewrite forallb_forall in *.
    intros v Hv. apply arrays_bounded_mono with (n := len frame / 32); [|auto]. apply N.div_le_mono; lia.
  - apply andb_true_iff in H1 as [S1 S2], H2 as [Z1 Z2]. now rewrite H, H0.
Qed.

(** ** C05: no panic *)
Section NoPanic.
Context (p : profile).

Lemma peek_safe data pos n : fits data -> pos <= len data + 32 -> n <= 2 ^ 62 -> 
  (exists b, peek p data pos n = Ok b /\ len b = n /\ pos + n <= len data) \/ peek p data pos n = Err InvalidData.
Proof.
  intros F L Hn. unfold fits in F. unfold peek.
  rewrite usize_add_small by (rewrite two64_eq; lia). cbn [bind].
  destruct (N.ltb_spec (len data) (pos + n)); [now right|]. left.
  destruct (@slice_some _ data pos (pos + n)) as (m & E & Lm); [lia|lia|]. exists m. rewrite E. split; [reflexivity|lia].
Qed.
Lemma as_usize_safe w : (exists n, as_usize w = Ok n /\ n < two32) \/ as_usize w = Err InvalidData.
Proof.
  unfold as_usize. destruct (forallb _ _); [left|now right]. eexists. split; [reflexivity|].
  pose proof (to_N_lt (nth 28 w x00)). pose proof (to_N_lt (nth 29 w x00)).
  pose proof (to_N_lt (nth 30 w x00)). pose proof (to_N_lt (nth 31 w x00)).
  rewrite two32_eq. change (2 ^ 24) with 16777216. change (2 ^ 16) with 65536. change (2 ^ 8) with 256. lia.
Qed.
Lemma as_bool_safe w : (exists b, as_bool w = Ok b) \/ as_bool w = Err InvalidData.
Proof. unfold as_bool. destruct (forallb _ _); eauto. Qed.

(** The result is a value with a bounded next offset, or [InvalidData]. *)
Definition safe {A} (data : list byte) (r : res (A * N)) : Prop :=
  (exists v n, r = Ok (v, n) /\ n <= len data + 32) \/ r = Err InvalidData.

Definition dec_safe (t : ParamType) : Prop := forall data pos, fits data -> pos <= len data + 32 ->
  safe data (decode_param p t data pos).

Lemma foldM_safe data ts : fits data -> Forall dec_safe ts -> forall acc pos, pos <= len data + 32 ->
  safe data (foldM (fun s t => decode_step (decode_param p t data) s) ts (acc, pos)).
Proof.
  intros F H. induction H as [|t ts Ht H IH]; intros acc pos L; cbn [foldM].
  - left. eauto.
  - cbn [decode_step]. destruct (Ht data pos F L) as [(v & n & -> & Ln)| ->]; cbn [bind]; [|now right]. now apply IH.
Qed.
Lemma iter_safe data t n : fits data -> dec_safe t -> forall pos, pos <= len data + 32 ->
  safe data (iter_N (decode_step (decode_param p t data)) n ([], pos)).
Proof.
  intros F H pos L. rewrite (iter_N_foldM _ t).
  assert (G := @foldM_safe data (repeat t (N.to_nat n)) F).
  assert (E : forall k s, foldM (fun s _ => decode_step (decode_param p t data) s) (repeat t k) s =
              foldM (fun s t => decode_step (decode_param p t data) s) (repeat t k) s).
  { induction k; intros s; [reflexivity|]. cbn [repeat foldM]. apply bind_ext. intros. apply IHk. }
  rewrite E. apply G; [|assumption]. apply Forall_forall. intros x Hx. apply repeat_spec in Hx. now subst.
Qed.

Ltac peekw := match goal with |- context [peek_32_bytes p ?d ?o] =>
   let E := fresh "Ew" in
   change (peek_32_bytes p d o) with (peek p d o 32);
   destruct (@peek_safe d o 32) as [(?w & E & ?Lw & ?Bw)|E];
   [assumption | try lia | lia | rewrite E; cbn [bind] | rewrite E; cbn [bind]; now right] end.
Ltac add32 := rewrite usize_add_small by (unfold fits in *; rewrite two64_eq; lia); cbn [bind].
Ltac usz := match goal with |- context [as_usize ?w] =>
   let E := fresh "En" in
   destruct (as_usize_safe w) as [(?n & E & ?Ln)|E]; rewrite E; cbn [bind]; [|now right] end.

Lemma decode_param_safe t : no_dynamic_fixed_array t = true -> fixed_bytes_sane t = true -> dec_safe t.
Proof.
  induction t using ParamType_ind'; intros N S data pos F L; cbn [decode_param].
  - peekw. add32. left. do 2 eexists. split; [reflexivity|lia].
  - peekw. usz. 
    destruct (N.leb_spec n (len data + 32)) as [Hn|Hn].
    2:{ unfold peek_32_bytes, peek. unfold fits in F. rewrite usize_add_small by (rewrite two64_eq, two32_eq in *; lia).
        cbn [bind]. replace (_ <? _) with true by lia. now right. }
    peekw. usz. add32.
    destruct (@peek_safe data (n + 32) n0) as [(b & Eb & Lb & Bb)|Eb]; [assumption|lia|rewrite two32_eq in *; lia| |];
      rewrite take_peek, Eb; cbn [bind]; [|now right]. add32. left. do 2 eexists. split; [reflexivity|lia].
  - peekw. add32. left. do 2 eexists. split; [reflexivity|lia].
  - peekw. add32. left. do 2 eexists. split; [reflexivity|lia].
  - peekw. destruct (as_bool_safe w) as [(b & Eb)|Eb]; rewrite Eb; cbn [bind]; [|now right].
    add32. left. do 2 eexists. split; [reflexivity|lia].
  - peekw. usz. 
    destruct (N.leb_spec n (len data + 32)) as [Hn|Hn].
    2:{ unfold peek_32_bytes, peek. unfold fits in F. rewrite usize_add_small by (rewrite two64_eq, two32_eq in *; lia).
        cbn [bind]. replace (_ <? _) with true by lia. now right. }
    peekw. usz. add32.
    destruct (@peek_safe data (n + 32) n0) as [(b & Eb & Lb & Bb)|Eb]; [assumption|lia|rewrite two32_eq in *; lia| |];
      rewrite take_peek, Eb; cbn [bind]; [|now right]. add32. left. do 2 eexists. split; [reflexivity|lia].
  - cbn [no_dynamic_fixed_array fixed_bytes_sane] in *. specialize (IHt N S).
    peekw. usz.
    destruct (N.leb_spec n (len data + 32)) as [Hn|Hn].
    2:{ unfold peek_32_bytes, peek. unfold fits in F. rewrite usize_add_small by (rewrite two64_eq, two32_eq in *; lia).
        cbn [bind]. replace (_ <? _) with true by lia. now right. }
    peekw. usz. add32.
    destruct (@slice_some _ data (n + 32) (len data)) as (tl & Et & Lt); [lia|lia|].
    unfold slice_from. rewrite Et. cbn [bind].
    destruct (@iter_safe tl t n0) with (pos := 0) as [(v & k & Ev & Lk)|Ev]; [unfold fits in *; lia|assumption|lia| |];
      rewrite Ev; cbn [bind]; [|now right].
    add32. left. do 2 eexists. split; [reflexivity|lia].
  - cbn [fixed_bytes_sane] in S.
    destruct (@peek_safe data pos n) as [(b & Eb & Lb & Bb)|Eb]; [assumption|assumption|lia| |];
      rewrite take_peek, Eb; cbn [bind]; [|now right]. add32. left. do 2 eexists. split; [reflexivity|lia].
  - cbn [no_dynamic_fixed_array fixed_bytes_sane] in *. apply andb_true_iff in N as [D N].
    specialize (IHt N S). rewrite dynamic_eq. cbn [dynamic]. destruct (dynamic t); [discriminate|]. cbn [bind].
    destruct (@iter_safe data t n) with (pos := pos) as [(v & k & Ev & Lk)|Ev]; [assumption|assumption|assumption| |];
      rewrite Ev; cbn [bind]; [|now right]. left. do 2 eexists. split; [reflexivity|assumption].
  - cbn [no_dynamic_fixed_array fixed_bytes_sane] in *.
    assert (IH : Forall dec_safe ts).
    { rewrite forallb_forall in N, S. rewrite Forall_forall in *. auto. }
    rewrite dynamic_eq. destruct (dynamic (PTuple ts)).
    + peekw. usz.
      destruct (N.ltb_spec (len data) n) as [Hn|Hn]; cbn [bind]; [now right|].
      destruct (@slice_some _ data n (len data)) as (tl & Et & Lt); [lia|lia|].
      unfold slice_from. rewrite Et. cbn [bind].
      destruct (@foldM_safe tl ts) with (acc := @nil Token) (pos := 0) as [(v & k & Ev & Lk)|Ev]; [unfold fits in *; lia|assumption|lia| |];
        rewrite Ev; cbn [bind]; [|now right].
      add32. left. do 2 eexists. split; [reflexivity|lia].
    + cbn [bind].
      destruct (@foldM_safe data ts) with (acc := @nil Token) (pos := pos) as [(v & k & Ev & Lk)|Ev]; [assumption|assumption|assumption| |];
        rewrite Ev; cbn [bind]; [|now right]. left. do 2 eexists. split; [reflexivity|assumption].
Qed.

Lemma decode_no_panic ts data : fits data ->
  forallb no_dynamic_fixed_array ts = true -> forallb fixed_bytes_sane ts = true ->
  (exists vs, decode p ts data = Ok vs) \/ decode p ts data = Err InvalidData \/
  (data = [] /\ decode p ts data = Err (InvalidName empty_data_msg)).
Proof.
  intros F N S. unfold decode. destruct (_ && _) eqn:C.
  - right; right. split; [|reflexivity]. apply andb_true_iff in C as [_ C]. apply len_0. lia.
  - destruct (@foldM_safe data ts) with (acc := @nil Token) (pos := 0) as [(v & k & Ev & Lk)|Ev]; [assumption| |lia| |];
      try (rewrite Ev; cbn [bind]; eauto).
    rewrite forallb_forall in N, S. apply Forall_forall. intros. apply decode_param_safe; auto.
Qed.
End NoPanic.

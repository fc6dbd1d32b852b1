(** * Filters built from an event match the logs of that event *)
From Verif Require Import Base BaseFacts Types AbiSpec TypeNames TypeNamesSpec Encoder EncoderFacts EncoderTotal Decoder
  DecoderSpec DecoderFacts RoundTrip DecoderProps CodecLemmas Keccak Function FunctionFacts Event EventSpec EventFacts.
Set Implicit Arguments.
Local Open Scope N_scope.
Local Open Scope list_scope.
From Coq Require Import ZifyBool ZifyNat ZifyN.
Local Opaque keccak256.

Section Filter.
Context (p : profile).
(** The topic the code computes for the value [v]. *)
Definition token_topic (v : Token) (h : list byte) : Prop :=
  exists enc, encode p [v] = Ok enc /\ h = if len enc =? 32 then enc else keccak256 enc.

Lemma copy32 (l : list byte) : len l = 32 -> copy_from_slice 32 l = Ok l.
Proof. intros L. unfold copy_from_slice. now rewrite L. Qed.
Lemma copy_keccak (l : list byte) : copy_from_slice 32 (keccak256 l) = Ok (keccak256 l).
Proof. apply copy32. unfold len. now rewrite keccak_length. Qed.
Lemma convert_token_ok v k h : convert_token p v k = Ok h <-> loosely_typed v k = true /\ token_topic v h.
Proof.
  unfold convert_token, token_topic. split.
  - intros E. apply bind_ok in E as (b & Eb & E). destruct b; [|discriminate]. apply type_check_loose in Eb. split; [exact Eb|].
    cbn [negb] in E. apply bind_ok in E as (enc & Ee & E). exists enc. split; [exact Ee|].
    destruct (N.eqb_spec (len enc) 32) as [L|L]; [rewrite copy32 in E by exact L|rewrite copy_keccak in E]; congruence.
  - intros (L & enc & Ee & ->). apply type_check_loose in L. rewrite L. cbn [bind negb]. rewrite Ee. cbn [bind].
    destruct (N.eqb_spec (len enc) 32) as [L'|L']; [now rewrite copy32 by exact L'|now rewrite copy_keccak].
Qed.
Lemma convert_token_err v k x : convert_token p v k = Err x -> x = InvalidData.
Proof.
  unfold convert_token. intros E. apply bind_err in E as [E|(b & _ & E)].
  - now apply type_check_not_err in E.
  - destruct b; cbn [negb] in E; [|congruence]. apply bind_err in E as [E|(enc & _ & E)]; [now apply encode_not_err in E|].
    destruct (N.eqb_spec (len enc) 32) as [L|L]; [rewrite copy32 in E by exact L|rewrite copy_keccak in E]; discriminate.
Qed.
Lemma convert_token_total v k : no_long_tuple v k = true -> (exists enc, encode p [v] = Ok enc) ->
  if loosely_typed v k then exists h, convert_token p v k = Ok h else convert_token p v k = Err InvalidData.
Proof.
  intros N [enc Ee]. destruct (loosely_typed v k) eqn:L.
  - eexists. apply convert_token_ok. split; [exact L|]. exists enc. eauto.
  - unfold convert_token. destruct (type_check_total v k N) as [[] Eb].
    + apply type_check_loose in Eb. congruence.
    + now rewrite Eb.
Qed.
Lemma convert_topic_ok t k out : convert_topic p t k = Ok out <-> topic_accepted t k = true /\ turned token_topic t out.
Proof.
  unfold convert_topic, topic_accepted, turned. destruct t as [|vs|v].
  - split; [intros E; injection E as <-; auto|]. intros [_ T]. destruct out; tauto.
  - destruct k as [k|]; [|split; [discriminate|intros [? _]; discriminate]]. cbn [topic_tokens].
    rewrite bind_ok. split.
    + intros (hs & E & E'). injection E' as <-. apply mapM_ok in E. split.
      * apply forallb_forall. intros v I. apply In_nth_error in I as [i I]. revert i I.
        induction E as [|v' h vs hs Ev E IH]; intros [|i] I; try discriminate; cbn in I; [|eauto].
        injection I as ->. now apply convert_token_ok in Ev.
      * induction E as [|v' h vs hs Ev E IH]; constructor; [now apply convert_token_ok in Ev|exact IH].
    + intros [A T]. destruct out as [|hs|h]; try tauto. exists hs. split; [|reflexivity]. apply mapM_ok.
      induction T as [|v h vs hs Tv T IH]; constructor; cbn [forallb] in A; apply andb_true_iff in A as [A1 A2]; [now apply convert_token_ok|auto].
  - destruct k as [k|]; [|split; [discriminate|intros [? _]; discriminate]]. cbn [topic_tokens forallb].
    rewrite bind_ok, andb_true_r. split.
    + intros (h & E & E'). injection E' as <-. now apply convert_token_ok.
    + intros T. destruct out as [|hs|h]; try tauto. exists h. split; [|reflexivity]. now apply convert_token_ok.
Qed.
Lemma mapM_err A B (f : A -> res B) l x (P : err -> Prop) :
  (forall a x, f a = Err x -> P x) -> mapM f l = Err x -> P x.
Proof.
  intros H. induction l as [|a l IH]; cbn [mapM]; intros E; [discriminate|].
  apply bind_err in E as [E|(b & _ & E)]; [now apply H in E|]. apply bind_err in E as [E|(bs & _ & E)]; [auto|discriminate].
Qed.
Lemma convert_topic_err t k x : convert_topic p t k = Err x -> x = InvalidData.
Proof.
  unfold convert_topic. destruct t as [|vs|v]; [discriminate|..]; (destruct k as [k|]; [|congruence]); intros E.
  - apply bind_err in E as [E|(hs & _ & E)]; [|discriminate]. revert E. apply (@mapM_err _ _ _ _ _ (fun x => x = InvalidData)). intros ? ?. apply convert_token_err.
  - apply bind_err in E as [E|(hs & _ & E)]; [|discriminate]. now apply convert_token_err in E.
Qed.
(** Values the filter can handle without panicking. *)
Definition topic_safe (t : Topic Token) (k : option ParamType) : Prop :=
  Forall (fun v => (exists enc, encode p [v] = Ok enc) /\ (forall t', k = Some t' -> no_long_tuple v t' = true)) (topic_tokens t).
Lemma convert_topic_not_panic t k : topic_safe t k -> convert_topic p t k <> Panic.
Proof.
  unfold topic_safe, convert_topic. intros S. destruct t as [|vs|v]; [discriminate|..]; (destruct k as [k|]; [|congruence]); intros E; cbn [topic_tokens] in S.
  - apply bind_panic in E as [E|(hs & _ & E)]; [|discriminate]. revert E. apply mapM_not_panic. eapply Forall_impl; [|exact S].
    intros v [[enc Ee] N] E. pose proof (convert_token_total v k (N k eq_refl) (ex_intro _ enc Ee)) as C. rewrite E in C.
    destruct (loosely_typed v k); [destruct C|]; discriminate.
  - apply bind_panic in E as [E|(hs & _ & E)]; [|discriminate]. apply Forall_inv in S as [[enc Ee] N].
    pose proof (convert_token_total v k (N k eq_refl) (ex_intro _ enc Ee)) as C. rewrite E in C.
    destruct (loosely_typed v k); [destruct C|]; discriminate.
Qed.

Lemma event_filter_iff e raw f s : canonical_signature (e_name e) (map ep_kind (e_inputs e)) s ->
  let kinds := map ep_kind (isel true (e_inputs e)) in
  event_filter p e raw = Ok f <->
  exists t0 t1 t2,
    topic_accepted (raw_topic0 raw) (nth_error kinds 0) = true /\ turned token_topic (raw_topic0 raw) t0 /\
    topic_accepted (raw_topic1 raw) (nth_error kinds 1) = true /\ turned token_topic (raw_topic1 raw) t1 /\
    topic_accepted (raw_topic2 raw) (nth_error kinds 2) = true /\ turned token_topic (raw_topic2 raw) t2 /\
    f = if e_anonymous e then mkFilter t0 t1 t2 Any else mkFilter (This (keccak256 (utf8 s))) t0 t1 t2.
Proof.
  intros C kinds. assert (Sig : event_signature e = Ok (keccak256 (utf8 s))) by exact (long_signature_ok C).
  unfold event_filter. change (indexed_params e true) with (isel true (e_inputs e)). fold kinds. cbv zeta.
  destruct (e_anonymous e).
  - rewrite bind_ok. split.
    + intros (t0 & E0 & E). apply bind_ok in E as (t1 & E1 & E). apply bind_ok in E as (t2 & E2 & E).
      apply convert_topic_ok in E0, E1, E2. injection E as <-. exists t0, t1, t2. tauto.
    + intros (t0 & t1 & t2 & A0 & T0 & A1 & T1 & A2 & T2 & ->). exists t0. rewrite convert_topic_ok. split; [auto|].
      rewrite bind_ok. exists t1. rewrite convert_topic_ok. split; [auto|].
      rewrite bind_ok. exists t2. rewrite convert_topic_ok. auto.
  - rewrite Sig. cbn [bind]. rewrite bind_ok. split.
    + intros (t0 & E0 & E). apply bind_ok in E as (t1 & E1 & E). apply bind_ok in E as (t2 & E2 & E).
      apply convert_topic_ok in E0, E1, E2. assert (f = mkFilter (This (keccak256 (utf8 s))) t0 t1 t2) by congruence. exists t0, t1, t2. tauto.
    + intros (t0 & t1 & t2 & A0 & T0 & A1 & T1 & A2 & T2 & ->). exists t0. rewrite convert_topic_ok. split; [auto|].
      rewrite bind_ok. exists t1. rewrite convert_topic_ok. split; [auto|].
      rewrite bind_ok. exists t2. rewrite convert_topic_ok. auto.
Qed.
Lemma event_filter_err e raw x : event_filter p e raw = Err x -> x = InvalidData.
Proof.
  destruct (canonical_exists (e_name e) (map ep_kind (e_inputs e))) as [s C].
  assert (Sig : event_signature e = Ok (keccak256 (utf8 s))) by exact (long_signature_ok C).
  unfold event_filter. cbv zeta. rewrite Sig. intros E.
  destruct (e_anonymous e); cbn [bind] in E;
  (apply bind_err in E as [E|(t0 & _ & E)]; [now apply convert_topic_err in E|];
   apply bind_err in E as [E|(t1 & _ & E)]; [now apply convert_topic_err in E|];
   apply bind_err in E as [E|(t2 & _ & E)]; [now apply convert_topic_err in E|discriminate]).
Qed.
Definition raw_safe (raw : RawTopicFilter) (kinds : list ParamType) : Prop :=
  topic_safe (raw_topic0 raw) (nth_error kinds 0) /\ topic_safe (raw_topic1 raw) (nth_error kinds 1) /\
  topic_safe (raw_topic2 raw) (nth_error kinds 2).
Lemma event_filter_not_panic e raw : raw_safe raw (map ep_kind (isel true (e_inputs e))) -> event_filter p e raw <> Panic.
Proof.
  destruct (canonical_exists (e_name e) (map ep_kind (e_inputs e))) as [s C].
  assert (Sig : event_signature e = Ok (keccak256 (utf8 s))) by exact (long_signature_ok C).
  unfold event_filter. change (indexed_params e true) with (isel true (e_inputs e)). cbv zeta. rewrite Sig. intros (S0 & S1 & S2) E.
  destruct (e_anonymous e); cbn [bind] in E;
  (apply bind_panic in E as [E|(t0 & _ & E)]; [now apply (convert_topic_not_panic S0) in E|];
   apply bind_panic in E as [E|(t1 & _ & E)]; [now apply (convert_topic_not_panic S1) in E|];
   apply bind_panic in E as [E|(t2 & _ & E)]; [now apply (convert_topic_not_panic S2) in E|discriminate]).
Qed.
(** Accepted exactly when every requested value fits an indexed input. *)
Lemma accepted_turned t k : topic_safe t k -> topic_accepted t k = true -> exists out, turned token_topic t out.
Proof.
  intros S A. destruct (convert_topic p t k) as [out|x|] eqn:E.
  - exists out. now apply convert_topic_ok in E.
  - exfalso. destruct t as [|vs|v]; [discriminate|..]; (destruct k as [k|]; [|discriminate]).
    + cbn [convert_topic] in E. apply bind_err in E as [E|(hs & _ & E)]; [|discriminate]. unfold topic_safe in S.
      cbn [topic_accepted topic_tokens] in A, S. induction S as [|v vs [[enc Ee] N] S IH]; [discriminate|].
      cbn [forallb mapM] in A, E. apply andb_true_iff in A as [A1 A2].
      pose proof (convert_token_total v k (N k eq_refl) (ex_intro _ enc Ee)) as C. rewrite A1 in C. destruct C as [h C]. rewrite C in E. cbn [bind] in E.
      apply bind_err in E as [E|(hs & _ & E)]; [auto|discriminate].
    + cbn [convert_topic] in E. apply bind_err in E as [E|(hs & _ & E)]; [|discriminate]. apply Forall_inv in S as [[enc Ee] N].
      pose proof (convert_token_total v k (N k eq_refl) (ex_intro _ enc Ee)) as C. cbn [topic_accepted topic_tokens forallb] in A.
      rewrite andb_true_r in A. rewrite A in C. destruct C as [h C]. congruence.
  - exfalso. now apply (convert_topic_not_panic S) in E.
Qed.
Lemma event_filter_accepts e raw : raw_safe raw (map ep_kind (isel true (e_inputs e))) ->
  if raw_accepted raw (map ep_kind (isel true (e_inputs e))) then exists f, event_filter p e raw = Ok f else event_filter p e raw = Err InvalidData.
Proof.
  intros R. destruct (canonical_exists (e_name e) (map ep_kind (e_inputs e))) as [s C]. pose proof R as (S0 & S1 & S2).
  destruct (raw_accepted _ _) eqn:A; unfold raw_accepted in A.
  - apply andb_true_iff in A as [A A2]. apply andb_true_iff in A as [A0 A1].
    destruct (accepted_turned S0 A0) as [t0 T0], (accepted_turned S1 A1) as [t1 T1], (accepted_turned S2 A2) as [t2 T2].
    eexists. apply (event_filter_iff e raw _ C). exists t0, t1, t2. repeat (split; [assumption|]). reflexivity.
  - destruct (event_filter p e raw) as [f|x|] eqn:E.
    + apply (event_filter_iff e raw _ C) in E as (t0 & t1 & t2 & A0 & _ & A1 & _ & A2 & _). rewrite A0, A1, A2 in A. discriminate.
    + now rewrite (@event_filter_err e raw x E).
    + now apply event_filter_not_panic in E.
Qed.
End Filter.

(** ** The computed topic and the emitted topic *)
Lemma static_size t v : dynamic t = false -> solidity_type t = true -> has_type v t = true -> enc_size t v = head_width t.
Proof.
  revert v. induction t using ParamType_ind'; intros v D S T; destruct v; try discriminate; try reflexivity.
  - cbn [enc_size head_width dynamic has_type solidity_type] in *. unfold ceil32. lia.
  - cbn [enc_size head_width dynamic has_type solidity_type] in *. rewrite D. apply andb_true_iff in S as [S _].
    apply andb_true_iff in T as [L T]. apply N.eqb_eq in L. subst.
    clear -IHt D S T. induction vs as [|v vs IH]; [unfold len; cbn; lia|]. cbn [forallb] in T. apply andb_true_iff in T as [T1 T2].
    cbn [fold_right]. rewrite IHt, IH by auto. unfold len. cbn [length]. lia.
  - apply tuple_type in T. rewrite head_width_tuple by exact D. cbn [enc_size dynamic solidity_type] in *. unfold heads_width.
    induction T as [|v t vs ts' T1 T IH]; [reflexivity|]. cbn [existsb forallb fold_right] in *.
    apply orb_false_iff in D as [D1 D2]. apply andb_true_iff in S as [S1 S2]. apply Forall_cons_iff in H as [H1 H2].
    rewrite D1, H1, IH by auto. lia.
Qed.
Lemma in_place_static t v : dynamic t = false -> has_type v t = true -> in_place t v = abi_enc t v.
Proof.
  assert (Q : forall cs, forallb (fun c => negb (fst c)) cs = true -> enc_seq cs = concat (map snd cs)).
  { intros cs. unfold enc_seq. generalize (heads_size cs). induction cs as [|[[] e] cs IH]; intros k C; try discriminate; [reflexivity|].
    cbn [forallb fst negb andb] in C. cbn [heads tails map snd concat]. rewrite <- app_assoc. f_equal. exact (IH k C). }
  revert v. induction t using ParamType_ind'; intros v D T; destruct v; try discriminate; try reflexivity.
  - cbn [in_place abi_enc dynamic has_type] in *. apply andb_true_iff in T as [_ T]. rewrite Q.
    + rewrite map_map. cbn [snd]. f_equal. rewrite forallb_forall in T. apply map_ext_in. intros v I. apply IHt; auto.
    + apply forallb_forall. intros c I. apply in_map_iff in I as (v & <- & I). cbn. now rewrite D.
  - apply tuple_type in T. cbn [in_place abi_enc dynamic] in *. rewrite Q.
    + induction T as [|v t vs ts' T1 T IH]; [reflexivity|]. cbn [existsb] in D. apply orb_false_iff in D as [D1 D2].
      apply Forall_cons_iff in H as [H1 H2]. cbn [map snd concat]. rewrite H1 by auto. f_equal. now apply IH.
    + clear H. induction T as [|v t vs ts' T1 T IH]; [reflexivity|]. cbn [existsb] in D. apply orb_false_iff in D as [D1 D2].
      cbn [forallb fst]. rewrite D1. cbn [negb andb]. now apply IH.
Qed.
Lemma static_short t v : dynamic t = false -> has_type v t = true -> short_arrays v = true.
Proof.
  revert v. induction t using ParamType_ind'; intros v D T; destruct v; try discriminate; try reflexivity.
  - cbn [short_arrays dynamic has_type] in *. apply andb_true_iff in T as [_ T]. rewrite forallb_forall in *. intros v I. apply IHt; auto.
  - apply tuple_type in T. cbn [short_arrays dynamic] in *. induction T as [|v t vs ts' T1 T IH]; [reflexivity|].
    cbn [existsb] in D. apply orb_false_iff in D as [D1 D2]. apply Forall_cons_iff in H as [H1 H2].
    cbn [forallb]. rewrite H1 by auto. now apply IH.
Qed.

Lemma static_encode p k v : dynamic k = false -> solidity_type k = true -> has_type v k = true -> head_width k < two32 ->
  encode p [v] = Ok (abi_enc k v) /\ len (abi_enc k v) = head_width k.
Proof.
  intros D S T W. split; [|now rewrite abi_enc_size, static_size].
  rewrite <- (@abi_encode_one k v D). apply encode_conforms.
  - cbn. now rewrite S.
  - unfold have_types. apply tuple_type. constructor; [exact T|constructor].
  - cbn. now rewrite (static_short _ _ D T).
  - cbn [enc_size]. rewrite D, static_size by assumption. lia.
Qed.
Lemma value_width k : value_type k = true -> head_width k = 32.
Proof. destruct k; try discriminate; reflexivity. Qed.
Lemma token_topic_exact p k v h : topic_exact k = true -> solidity_type k = true -> has_type v k = true ->
  (token_topic p v h <-> h = topic_of k v).
Proof.
  intros X S T. unfold token_topic, topic_of. unfold topic_exact in X. destruct (value_type k) eqn:V.
  - pose proof (value_type_static _ V) as D. destruct (@static_encode p k v D S T) as [E L]; [now rewrite value_width|].
    rewrite abi_encode_one by exact D. rewrite value_width in L by exact V. split.
    + intros (enc & E' & ->). assert (enc = abi_enc k v) as -> by congruence. now rewrite L.
    + intros ->. exists (abi_enc k v). now rewrite L.
  - cbn [orb] in X. apply andb_true_iff in X as [X W]. apply andb_true_iff in X as [D N]. apply negb_true_iff in D, N.
    destruct (@static_encode p k v D S T) as [E L]; [lia|].
    assert (HE : hashed_encoding k v = abi_enc k v) by (destruct k; try discriminate; now apply in_place_static).
    rewrite HE. split.
    + intros (enc & E' & ->). assert (enc = abi_enc k v) as -> by congruence. now rewrite L, N.
    + intros ->. exists (abi_enc k v). now rewrite L, N.
Qed.
Lemma topic_of_inj k v v' : value_type k = true -> solidity_type k = true -> has_type v k = true -> has_type v' k = true ->
  topic_of k v = topic_of k v' -> v = v'.
Proof.
  intros V S T T' E. unfold topic_of in E. rewrite V, !abi_encode_one in E by now apply value_type_static.
  pose proof (proj2 (scalar_topic k v V S T)) as A. pose proof (proj2 (scalar_topic k v' V S T')) as A'. rewrite E in A.
  destruct k; try discriminate; cbn [topic_value] in A, A'; try congruence. destruct A, A'. congruence.
Qed.

(** ** Matching *)
Section Match.
Context (p : profile).
Lemma turned_matches k t out o : topic_exact k = true -> solidity_type k = true ->
  topic_typed t (Some k) -> (forall v, o = Some v -> has_type v k = true) -> turned (token_topic p) t out ->
  (topic_matches t o -> topic_matches out (option_map (topic_of k) o)) /\
  (value_type k = true -> topic_matches out (option_map (topic_of k) o) -> topic_matches t o).
Proof.
  intros X S Ty To Tu. unfold topic_typed in Ty. destruct t as [|vs|v], out as [|hs|h]; cbn [turned topic_matches topic_tokens] in *; try tauto.
  - assert (F : Forall2 (fun v h => has_type v k = true /\ h = topic_of k v) vs hs).
    { induction Tu as [|v h vs hs Tv Tu IH]; constructor; apply Forall_cons_iff in Ty as [(k' & Ek & Tk) Ty]; [|auto].
      injection Ek as <-. split; [exact Tk|]. now apply (@token_topic_exact p k _ h X S Tk). }
    clear Ty Tu. split.
    + intros (v & I & ->). exists (topic_of k v). split; [|reflexivity].
      induction F as [|v' h vs hs [_ ->] F IH]; [destruct I|]. destruct I as [->|I]; [now left|right; auto].
    + intros V (h & I & E). destruct o as [v|]; [|discriminate]. cbn in E. injection E as <-. exists v. split; [|reflexivity].
      induction F as [|v' h vs hs [T' ->] F IH]; [destruct I|]. destruct I as [I|I]; [left|right; auto].
      eapply topic_of_inj; eauto.
  - apply Forall_inv in Ty as (k' & Ek & Tk). injection Ek as <-. apply (@token_topic_exact p k _ h X S Tk) in Tu. subst h. split.
    + now intros ->.
    + intros V E. destruct o as [v'|]; [|discriminate]. cbn in E. injection E as E. f_equal. eapply topic_of_inj; eauto.
Qed.
Lemma turned_none t out : topic_accepted t None = true -> turned (token_topic p) t out -> t = Any /\ out = Any.
Proof. destruct t, out; try discriminate; cbn; tauto. Qed.

Lemma indexed_at inputs vs i : Forall2 (fun v t => has_type v t = true) vs (map ep_kind inputs) ->
  (nth_error (map ep_kind (isel true inputs)) i = None /\ nth_error (values_of (select true inputs vs)) i = None /\
   nth_error (indexed_topics inputs vs) i = None) \/
  exists k v, nth_error (map ep_kind (isel true inputs)) i = Some k /\ nth_error (values_of (select true inputs vs)) i = Some v /\
   nth_error (indexed_topics inputs vs) i = Some (topic_of k v) /\ has_type v k = true.
Proof.
  unfold indexed_topics, values_of, isel, select. revert vs i. induction inputs as [|ep inputs IH]; intros vs i F; inversion F as [|v ? vs' ? T F']; subst.
  { left. destruct i; auto. }
  cbn [combine filter fst]. destruct (Bool.eqb (ep_indexed ep) true); [|now apply IH]. destruct i as [|i]; [|exact (IH vs' i F')].
  right. exists (ep_kind ep), v. cbn. auto.
Qed.
Lemma filter_position inputs vs raw t i : Forall2 (fun v t => has_type v t = true) vs (map ep_kind inputs) ->
  forallb solidity_type (map ep_kind inputs) = true ->
  forallb topic_exact (map ep_kind (isel true inputs)) = true ->
  topic_typed raw (nth_error (map ep_kind (isel true inputs)) i) ->
  topic_accepted raw (nth_error (map ep_kind (isel true inputs)) i) = true -> turned (token_topic p) raw t ->
  (topic_matches raw (nth_error (values_of (select true inputs vs)) i) -> topic_matches t (nth_error (indexed_topics inputs vs) i)) /\
  (forallb value_type (map ep_kind (isel true inputs)) = true ->
   topic_matches t (nth_error (indexed_topics inputs vs) i) -> topic_matches raw (nth_error (values_of (select true inputs vs)) i)).
Proof.
  intros F S X Ty A Tu. destruct (@indexed_at inputs vs i F) as [(E1 & E2 & E3)|(k & v & E1 & E2 & E3 & T)]; rewrite E1, ?E2, ?E3 in *.
  - apply turned_none in Tu as [-> ->]; auto.
  - assert (Ik : In k (map ep_kind (isel true inputs))) by now apply nth_error_In in E1.
    assert (Sk : solidity_type k = true).
    { rewrite forallb_forall in S. apply S. apply in_map_iff in Ik as (q & <- & Ik). apply filter_In in Ik as [Ik _]. now apply in_map. }
    rewrite forallb_forall in X. destruct (@turned_matches k raw t (Some v)) as [M1 M2]; auto.
    { intros v' E. injection E as <-. exact T. }
    split; [exact M1|]. intros V. rewrite forallb_forall in V. apply M2; auto.
Qed.
Lemma nth_error_cons_S {A} (x : A) l i : nth_error (x :: l) (S i) = nth_error l i.
Proof. reflexivity. Qed.
Lemma filter_matches_iff e raw f vs log : emits e vs log ->
  have_types vs (map ep_kind (e_inputs e)) = true -> forallb solidity_type (map ep_kind (e_inputs e)) = true ->
  raw_typed raw (map ep_kind (isel true (e_inputs e))) ->
  forallb topic_exact (map ep_kind (isel true (e_inputs e))) = true ->
  event_filter p e raw = Ok f ->
  (raw_matches raw (values_of (select true (e_inputs e) vs)) -> filter_matches f (rl_topics log)) /\
  (forallb value_type (map ep_kind (isel true (e_inputs e))) = true ->
   filter_matches f (rl_topics log) -> raw_matches raw (values_of (select true (e_inputs e) vs))).
Proof.
  intros [(s & C & Et) Ed] T S (Ty0 & Ty1 & Ty2) X E. unfold have_types in T. apply tuple_type in T.
  apply (event_filter_iff p e raw f C) in E as (t0 & t1 & t2 & A0 & T0 & A1 & T1 & A2 & T2 & ->).
  destruct (@filter_position _ _ _ _ _ T S X Ty0 A0 T0) as [M0 N0].
  destruct (@filter_position _ _ _ _ _ T S X Ty1 A1 T1) as [M1 N1].
  destruct (@filter_position _ _ _ _ _ T S X Ty2 A2 T2) as [M2 N2].
  unfold raw_matches, filter_matches. rewrite Et. destruct (e_anonymous e); cbn [app topic0 topic1 topic2 topic3];
    rewrite ?nth_error_cons_S.
  - split; [intros (H0 & H1 & H2)|intros V (H0 & H1 & H2 & _)]; repeat split; auto; exact I.
  - split; [intros (H0 & H1 & H2)|intros V (H3 & H0 & H1 & H2)]; repeat split; auto.
Qed.
End Match.

(** ** Topics as lists of alternatives *)
Section TopicLists.
Context {A B : Type}.
Lemma topic_index_ok (t : Topic A) i x : topic_index t i = Ok x <-> nth_error (topic_tokens t) (N.to_nat i) = Some x.
Proof.
  destruct t as [|l|a]; cbn [topic_index topic_tokens].
  - destruct (N.to_nat i); split; discriminate.
  - destruct (nth_error l (N.to_nat i)); split; congruence.
  - destruct (N.eqb_spec i 0) as [->|Ni]; cbn [negb].
    + cbn. split; congruence.
    + destruct (N.to_nat i) as [|k] eqn:E; [lia|]. cbn. destruct k; split; discriminate.
Qed.
Lemma topic_index_panics (t : Topic A) i : topic_index t i = Panic <-> len (topic_tokens t) <= i.
Proof.
  transitivity (nth_error (topic_tokens t) (N.to_nat i) = None).
  - destruct (topic_index t i) as [x|x|] eqn:E.
    + apply topic_index_ok in E. rewrite E. split; discriminate.
    + exfalso. destruct t as [|l|a]; cbn [topic_index] in E; [discriminate|destruct (nth_error l _); discriminate|destruct (negb _); discriminate].
    + split; [intros _|reflexivity]. destruct (nth_error _ _) as [x|] eqn:E'; [|reflexivity]. apply topic_index_ok in E'. congruence.
  - rewrite nth_error_None. unfold len. lia.
Qed.
Lemma topic_conversions :
  (forall t : Topic A, topic_into_vec t = topic_tokens t) /\
  (forall (f : A -> B) t, topic_tokens (topic_map f t) = map f (topic_tokens t)) /\
  (forall (f : A -> B) t o, topic_matches t o -> topic_matches (topic_map f t) (option_map f o)) /\
  (forall (f : A -> B) t o, (forall a b, f a = f b -> a = b) -> topic_matches (topic_map f t) (option_map f o) -> topic_matches t o) /\
  (forall t : Topic A, is_any t = true <-> forall o, topic_matches t o) /\
  (forall o : option A, topic_matches (@topic_default A) o) /\
  (forall (a : A) o, topic_matches (topic_from a) o <-> o = Some a) /\
  (forall (l : list A) o, topic_matches (topic_from_vec l) o <-> exists a, In a l /\ o = Some a) /\
  (forall (x : option A) o, topic_matches (topic_from_option x) o <-> x = None \/ o = x).
Proof.
  repeat match goal with |- _ /\ _ => split end.
  - now intros [].
  - now intros f [].
  - intros f [|l|a] o; cbn [topic_map topic_matches]; auto.
    + intros (a & I & ->). exists (f a). split; [now apply in_map|reflexivity].
    + now intros ->.
  - intros f [|l|a] o Inj; cbn [topic_map topic_matches]; auto.
    + intros (b & I & E). destruct o as [a'|]; [|discriminate]. cbn in E. injection E as <-. apply in_map_iff in I as (a & E & I).
      apply Inj in E as ->. eauto.
    + intros E. destruct o as [a'|]; [|discriminate]. injection E as E. now apply Inj in E as ->.
  - intros t. split; [destruct t; [intros _ o; exact I|discriminate..]|].
    intros H. specialize (H None). destruct t as [|l|a]; [reflexivity|destruct H as (a & _ & E); discriminate|discriminate].
  - intros o. exact I.
  - reflexivity.
  - reflexivity.
  - intros [a|] o; cbn; [|split; auto]. split; [now right|]. intros [E|E]; [discriminate|exact E].
Qed.
End TopicLists.

(** ** Forms used by the property theorems *)
Lemma isel_indexed inputs : isel true inputs = filter ep_indexed inputs.
Proof. unfold isel. apply filter_ext. intros q. now destruct (ep_indexed q). Qed.
Lemma parse_log_topics p e log l s :
  canonical_signature (e_name e) (map ep_kind (e_inputs e)) s ->
  forallb wf_type (map ep_kind (e_inputs e)) = true ->
  Forall (fun w => len w = 32) (rl_topics log) -> len (rl_topics log) < 2 ^ 57 ->
  parse_log p e log = Ok l ->
  exists topics, rl_topics log = (if e_anonymous e then [] else [keccak256 (utf8 s)]) ++ topics /\
    length topics = length (filter ep_indexed (e_inputs e)).
Proof.
  intros C W T L E. destruct (@parse_log_shape p e log l s C W T L E) as [_ (topics & Et & Lt)].
  exists topics. rewrite <- isel_indexed. auto.
Qed.
Lemma filter_matches_values p e raw f vs log : emits e vs log ->
  have_types vs (map ep_kind (e_inputs e)) = true -> forallb solidity_type (map ep_kind (e_inputs e)) = true ->
  raw_typed raw (map ep_kind (isel true (e_inputs e))) ->
  forallb value_type (map ep_kind (isel true (e_inputs e))) = true ->
  event_filter p e raw = Ok f ->
  (filter_matches f (rl_topics log) <-> raw_matches raw (values_of (select true (e_inputs e) vs))).
Proof.
  intros E T S R V F. destruct (@filter_matches_iff p e raw f vs log E T S R) as [M1 M2]; auto.
  - rewrite forallb_forall in *. intros k I. unfold topic_exact. now rewrite V.
  - split; auto.
Qed.
Lemma release_safe raw kinds :
  (forall v, In v (topic_tokens (raw_topic0 raw)) \/ In v (topic_tokens (raw_topic1 raw)) \/ In v (topic_tokens (raw_topic2 raw)) ->
     wf_token v = true /\ forall k, In k kinds -> no_long_tuple v k = true) ->
  raw_safe Release raw kinds.
Proof.
  intros H.
  assert (G : forall t i, (forall v, In v (topic_tokens t) -> wf_token v = true /\ forall k, In k kinds -> no_long_tuple v k = true) ->
    topic_safe Release t (nth_error kinds i)).
  { intros t i Ht. apply Forall_forall. intros v I. apply Ht in I as [W N]. split.
    - apply encode_total_release. cbn. now rewrite W.
    - intros k E. apply N. now apply nth_error_In in E. }
  repeat split; apply G; auto.
Qed.

(** * Exactly which logs a filter matches; indexed inputs that are hashed *)
From Verif Require Import Base BaseFacts Types AbiSpec TypeNames TypeNamesSpec Encoder EncoderFacts EncoderTotal Decoder
  DecoderSpec DecoderFacts RoundTrip DecoderProps CodecLemmas Keccak Function FunctionFacts Event EventSpec EventFacts FilterFacts.
Set Implicit Arguments.
Local Open Scope N_scope.
Local Open Scope list_scope.
From Coq Require Import ZifyBool ZifyNat ZifyN.
Local Opaque keccak256.

Section Exact.
Context (p : profile).
Lemma token_asked k v h : solidity_type k = true -> has_type v k = true -> short_arrays v = true ->
  enc_size (PTuple [k]) (TTuple [v]) < two32 -> (token_topic p v h <-> h = asked_topic k v).
Proof.
  intros S T A L. assert (E : encode p [v] = Ok (abi_encode [k] [v])).
  { apply encode_conforms; cbn [forallb]; rewrite ?S, ?A; auto. unfold have_types. apply tuple_type. constructor; [exact T|constructor]. }
  unfold token_topic, asked_topic. split.
  - intros (enc & E' & ->). assert (enc = abi_encode [k] [v]) as -> by congruence. reflexivity.
  - intros ->. eauto.
Qed.
Lemma turned_asked k t out w : solidity_type k = true -> topic_typed t (Some k) -> topic_small t (Some k) -> turned (token_topic p) t out ->
  (topic_matches out (Some w) <-> t = Any \/ exists a, In a (topic_tokens t) /\ asked_topic k a = w).
Proof.
  intros S Ty Sm Tu. unfold topic_typed in Ty. unfold topic_small in Sm.
  assert (K : forall a h, In a (topic_tokens t) -> token_topic p a h -> h = asked_topic k a).
  { intros a h I H. destruct (Sm k a eq_refl I) as [A L]. rewrite Forall_forall in Ty. destruct (Ty a I) as (k' & E & T). injection E as <-.
    now apply (@token_asked k a h S T A L). }
  destruct t as [|vs|v], out as [|hs|h]; cbn [turned topic_matches topic_tokens] in *; try tauto.
  - split.
    + intros (h & I & E). injection E as <-. right. clear Ty Sm. induction Tu as [|v h' vs hs Tv Tu IH]; [destruct I|]. destruct I as [->|I].
      * exists v. split; [now left|]. symmetry. apply K; [now left|exact Tv].
      * destruct IH as (a & Ia & Ea); [intros; apply K; auto; now right|exact I|]. exists a. split; [now right|exact Ea].
    + intros [E|(a & I & E)]; [discriminate|]. clear Ty Sm. induction Tu as [|v h' vs hs Tv Tu IH]; [destruct I|]. destruct I as [->|I].
      * exists h'. split; [now left|]. f_equal. rewrite <- E. symmetry. apply K; [now left|exact Tv].
      * destruct IH as (h & Ih & Eh); [intros; apply K; auto; now right|exact I|]. exists h. split; [now right|exact Eh].
  - rewrite (K v h (or_introl eq_refl) Tu). split.
    + intros E. injection E as ->. right. exists v. split; [now left|reflexivity].
    + intros [E|(a & [->|[]] & E)]; [discriminate|]. now rewrite E.
Qed.
Lemma position_exact inputs vs raw t i : Forall2 (fun v t => has_type v t = true) vs (map ep_kind inputs) ->
  forallb solidity_type (map ep_kind inputs) = true ->
  topic_typed raw (nth_error (map ep_kind (isel true inputs)) i) -> topic_small raw (nth_error (map ep_kind (isel true inputs)) i) ->
  topic_accepted raw (nth_error (map ep_kind (isel true inputs)) i) = true -> turned (token_topic p) raw t ->
  (topic_matches t (nth_error (indexed_topics inputs vs) i) <->
   asked_matches raw (nth_error (map ep_kind (isel true inputs)) i) (nth_error (values_of (select true inputs vs)) i)).
Proof.
  intros F S Ty Sm A Tu. unfold asked_matches. destruct (@indexed_at inputs vs i F) as [(E1 & E2 & E3)|(k & v & E1 & E2 & E3 & T)]; rewrite E1, ?E2, ?E3 in *.
  - apply turned_none in Tu as [-> ->]; auto. cbn. tauto.
  - assert (Ik : In k (map ep_kind (isel true inputs))) by now apply nth_error_In in E1.
    assert (Sk : solidity_type k = true).
    { rewrite forallb_forall in S. apply S. apply in_map_iff in Ik as (q & <- & Ik). apply filter_In in Ik as [Ik _]. now apply in_map. }
    rewrite (@turned_asked k raw t (topic_of k v) Sk Ty Sm Tu). split.
    + intros [->|(a & I & E)]; [now left|]. right. exists k, a, v. auto.
    + intros [->|(k' & a & v' & Ek & I & Ev & E)]; [now left|]. injection Ek as <-. injection Ev as <-. right. eauto.
Qed.
Lemma filter_exact e raw f vs log : let kinds := map ep_kind (isel true (e_inputs e)) in let values := values_of (select true (e_inputs e) vs) in
  emits e vs log ->
  have_types vs (map ep_kind (e_inputs e)) = true -> forallb solidity_type (map ep_kind (e_inputs e)) = true ->
  raw_typed raw kinds ->
  topic_small (raw_topic0 raw) (nth_error kinds 0) -> topic_small (raw_topic1 raw) (nth_error kinds 1) -> topic_small (raw_topic2 raw) (nth_error kinds 2) ->
  event_filter p e raw = Ok f ->
  (filter_matches f (rl_topics log) <->
   asked_matches (raw_topic0 raw) (nth_error kinds 0) (nth_error values 0) /\
   asked_matches (raw_topic1 raw) (nth_error kinds 1) (nth_error values 1) /\
   asked_matches (raw_topic2 raw) (nth_error kinds 2) (nth_error values 2)).
Proof.
  intros kinds values [(s & C & Et) Ed] T S (Ty0 & Ty1 & Ty2) M0 M1 M2 E. unfold have_types in T. apply tuple_type in T.
  apply (event_filter_iff p e raw f C) in E as (t0 & t1 & t2 & A0 & T0 & A1 & T1 & A2 & T2 & ->).
  pose proof (@position_exact _ _ _ _ _ T S Ty0 M0 A0 T0) as N0.
  pose proof (@position_exact _ _ _ _ _ T S Ty1 M1 A1 T1) as N1.
  pose proof (@position_exact _ _ _ _ _ T S Ty2 M2 A2 T2) as N2. fold kinds values in N0, N1, N2.
  rewrite <- N0, <- N1, <- N2. unfold filter_matches. rewrite Et. destruct (e_anonymous e); cbn [app topic0 topic1 topic2 topic3];
    rewrite ?nth_error_cons_S; cbn; tauto.
Qed.
End Exact.

(** ** What is hashed for an emitted value is shorter than what is hashed for a
    requested value *)
Lemma in_place_size t v : has_type v t = true -> len (in_place t v) <= enc_size t v.
Proof.
  revert v. induction t using ParamType_ind'; intros v T; destruct v; try discriminate;
    try (change (in_place ?t ?v) with (abi_enc t v); rewrite (abi_enc_size _ _ T); lia).
  - cbn [in_place enc_size]. rewrite len_app, ceil32_padding. lia.
  - cbn [in_place enc_size]. rewrite len_app, ceil32_padding. lia.
  - cbn [in_place enc_size has_type] in *. induction vs as [|v vs IH]; [cbn; lia|]. cbn [forallb] in T. apply andb_true_iff in T as [T1 T2].
    cbn [map concat fold_right]. rewrite len_app. specialize (IH T2). specialize (IHt v T1). lia.
  - cbn [in_place enc_size has_type] in *. apply andb_true_iff in T as [_ T]. induction vs as [|v vs IH]; [cbn; lia|]. cbn [forallb] in T.
    apply andb_true_iff in T as [T1 T2]. cbn [map concat fold_right]. rewrite len_app. specialize (IH T2). specialize (IHt v T1). lia.
  - apply tuple_type in T. cbn [in_place enc_size]. induction T as [|v t vs ts' T1 T IH]; [cbn; lia|]. apply Forall_cons_iff in H as [H1 H2].
    rewrite len_app. specialize (IH H2). specialize (H1 v T1). lia.
Qed.
Lemma hashed_size t v : has_type v t = true -> len (hashed_encoding t v) <= enc_size t v.
Proof.
  intros T. destruct t; try exact (in_place_size _ _ T); destruct v; try discriminate; cbn [hashed_encoding enc_size]; unfold ceil32; lia.
Qed.
Lemma asked_size t v : has_type v t = true -> len (abi_encode [t] [v]) = (if dynamic t then 32 else 0) + enc_size t v.
Proof.
  intros T. unfold abi_encode. rewrite abi_enc_size; [cbn [enc_size]; lia|]. apply tuple_type. constructor; [exact T|constructor].
Qed.
Lemma dynamic_size t v : dynamic t = true -> solidity_type t = true -> has_type v t = true -> 0 < enc_size t v.
Proof.
  revert v. induction t using ParamType_ind'; intros v D S T; destruct v; try discriminate; cbn [enc_size dynamic solidity_type has_type] in *; try lia.
  - rewrite D in *. apply andb_true_iff in S as [S N]. apply andb_true_iff in T as [L T]. destruct vs as [|v vs]; [apply N.eqb_eq in L; subst; discriminate|]. cbn [fold_right]. lia.
  - apply tuple_type in T. induction T as [|v t vs ts' T1 T IH]; [discriminate|]. cbn [existsb forallb] in *. apply andb_true_iff in S as [S1 S2].
    apply Forall_cons_iff in H as [H1 H2]. destruct (dynamic t); [lia|]. specialize (IH H2 D S2). lia.
Qed.
(** A requested value of a dynamic type finds itself only by a collision of the
    hash function. *)
Lemma dynamic_collides k v : dynamic k = true -> solidity_type k = true -> has_type v k = true -> asked_topic k v = topic_of k v ->
  let x := abi_encode [k] [v] in let y := hashed_encoding k v in len y < len x /\ keccak256 x = keccak256 y.
Proof.
  intros D S T E x y. pose proof (hashed_size _ _ T) as L1. pose proof (asked_size _ _ T) as L2. rewrite D in L2. fold x in L2. fold y in L1.
  pose proof (dynamic_size _ _ D S T) as L3. split; [lia|]. unfold asked_topic, topic_of in E.
  assert (V : value_type k = false) by (destruct k; try discriminate; reflexivity). rewrite V in E. fold x y in E. cbv zeta in E.
  destruct (N.eqb_spec (len x) 32); [lia|exact E].
Qed.
(** Structs and arrays of one word are requested unhashed. *)
Lemma one_word_asked k v : dynamic k = false -> value_type k = false -> solidity_type k = true -> has_type v k = true -> head_width k = 32 ->
  (asked_topic k v = topic_of k v <-> keccak256 (abi_encode [k] [v]) = abi_encode [k] [v]).
Proof.
  intros D V S T W. unfold asked_topic, topic_of. rewrite V. cbv zeta. rewrite (asked_size _ _ T), D, (static_size _ _ D S T), W. change (0 + 32 =? 32) with true. cbv iota.
  assert (HE : hashed_encoding k v = abi_encode [k] [v]).
  { rewrite abi_encode_one by exact D. destruct k; try discriminate; now apply in_place_static. }
  rewrite HE. split; congruence.
Qed.
(** A request for one value finds the logs of another. *)
Lemma confused_bytes b : asked_topic PBytes (TBytes b) = topic_of PBytes (TBytes (abi_encode [PBytes] [TBytes b])) /\
  TBytes b <> TBytes (abi_encode [PBytes] [TBytes b]).
Proof.
  assert (L : len (abi_encode [PBytes] [TBytes b]) = 64 + ceil32 (len b)) by (rewrite asked_size by reflexivity; cbn [dynamic enc_size]; lia).
  split.
  - unfold asked_topic, topic_of. cbn [value_type hashed_encoding]. cbv zeta. destruct (N.eqb_spec (len (abi_encode [PBytes] [TBytes b])) 32); [lia|reflexivity].
  - intros E. injection E as E. rewrite <- E in L. pose proof (ceil32_padding (len b)). lia.
Qed.

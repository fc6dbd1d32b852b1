(** * What parsing makes of an emitted log, for all events *)
From Verif Require Import Base Types AbiSpec DecoderSpec TypeNamesSpec Encoder Decoder Keccak Function Event EventSpec
  BaseFacts StrFacts EncoderFacts EncoderTotal DecoderFacts RoundTrip DecoderProps CodecLemmas DecoderPanics FunctionFacts ReaderTotal EventFacts EventExact RoundTripExact.
From Coq Require Import ZifyBool ZifyNat ZifyN Permutation.
Set Implicit Arguments.
Local Open Scope N_scope.
Local Opaque keccak256.

(** ** Calls *)
Lemma decode_input_exact p p' f vs :
  forallb wf_type (map p_kind (f_inputs f)) = true ->
  forallb solidity_type (map p_kind (f_inputs f)) = true -> have_types vs (map p_kind (f_inputs f)) = true ->
  forallb short_arrays vs = true -> enc_size (PTuple (map p_kind (f_inputs f))) (TTuple vs) < two32 ->
  exists data, encode_input p f vs = Ok data /\
    (forallb zero_size (map p_kind (f_inputs f)) = false \/ Forall may_be_empty (map p_kind (f_inputs f)) ->
     decode_input p' f (skipn 4 data) = Ok vs) /\
    (forallb zero_size (map p_kind (f_inputs f)) = true -> ~ Forall may_be_empty (map p_kind (f_inputs f)) ->
     len data = 4 /\ decode_input p' f (skipn 4 data) = Err (InvalidName empty_data_msg)).
Proof.
  intros W S T A L. destruct (canonical_exists (f_name f) (map p_kind (f_inputs f))) as [s C].
  destruct (@round_trip_exact p p' _ _ W S T A L) as (data & E & D1 & D2). rewrite encode_conforms with (ts := map p_kind (f_inputs f)) in E by assumption.
  injection E as <-. eexists. split; [apply (@encode_input_ok p f vs s); assumption|].
  rewrite skipn_app, skipn_all2 by (rewrite firstn_length; lia). rewrite firstn_length, keccak_length. cbn [app Nat.min Nat.sub skipn].
  split; [exact D1|]. intros Z N. destruct (D2 Z N) as [E D]. rewrite len_app, E. split; [|rewrite <- E; exact D].
  unfold len. rewrite firstn_length, keccak_length. reflexivity.
Qed.

(** ** Emitted logs *)
Lemma emitted_named b inputs vs : length vs = length inputs ->
  named b inputs (map (fun x => visible (fst x) (snd x)) (select b inputs vs)) =
  map (fun x => mkLogParam (ep_name (fst x)) (visible (fst x) (snd x))) (select b inputs vs).
Proof.
  unfold named, select, isel. revert vs. induction inputs as [|q inputs IH]; intros [|v vs] L; try discriminate; [reflexivity|].
  cbn [combine filter fst]. destruct (Bool.eqb (ep_indexed q) b); [|apply IH; now injection L].
  cbn [map combine fst snd]. f_equal. apply IH. now injection L.
Qed.
Lemma visible_data inputs vs : map (fun x => visible (fst x) (snd x)) (select false inputs vs) = values_of (select false inputs vs).
Proof.
  unfold values_of. apply map_ext_in. intros [q v] I. apply filter_In in I as [_ I]. cbn [fst] in I. unfold visible.
  destruct (ep_indexed (fst (q, v))) eqn:Q; cbn [fst] in Q; rewrite Q in I; [discriminate|reflexivity].
Qed.

Lemma selected_length b inputs (vs : list Token) : length vs = length inputs -> length (select b inputs vs) = length (isel b inputs).
Proof.
  intros L. pose proof (f_equal (@List.length _) (@select_kinds b inputs vs L)) as E. unfold kinds_of in E. now rewrite !map_length in E.
Qed.
Lemma mapM_found m names : (forall n, In n names -> In n (map fst m)) ->
  exists out, mapM (fun name => do v <- hm_index m name; Ok (mkLogParam name v)) names = Ok out.
Proof.
  induction names as [|n names IH]; intros H; [exists []; reflexivity|]. destruct IH as [out E]; [intros x I; apply H; now right|].
  destruct (@hm_get_some m n) as [v G]; [apply H; now left|]. exists (mkLogParam n v :: out). cbn [mapM]. unfold hm_index at 1. rewrite G. cbn [bind].
  rewrite E. reflexivity.
Qed.

Section Inverse.
Context (p : profile) (e : Event) (vs : list Token) (log : RawLog).
Hypothesis Em : emits e vs log.
Hypothesis T : have_types vs (map ep_kind (e_inputs e)) = true.
Hypothesis WF : forallb wf_type (map ep_kind (e_inputs e)) = true.
Hypothesis S : forallb solidity_type (map ep_kind (e_inputs e)) = true.
Hypothesis A : forallb short_arrays vs = true.
Hypothesis Li : len (e_inputs e) < 2 ^ 56.
Hypothesis Sz : enc_size (PTuple (map ep_kind (isel false (e_inputs e)))) (TTuple (values_of (select false (e_inputs e) vs))) < two32.

Lemma emitted_exact :
  (forallb zero_size (map ep_kind (isel false (e_inputs e))) = false \/ Forall may_be_empty (map ep_kind (isel false (e_inputs e))) ->
   exists l, parse_log p e log = Ok l /\ map lp_name (l_params l) = map ep_name (e_inputs e) /\
     Forall (fun x => last_named (map (fun x => mkLogParam (ep_name (fst x)) (visible (fst x) (snd x)))
         (select true (e_inputs e) vs ++ select false (e_inputs e) vs)) (lp_name x) (lp_value x)) (l_params l)) /\
  (forallb zero_size (map ep_kind (isel false (e_inputs e))) = true -> ~ Forall may_be_empty (map ep_kind (isel false (e_inputs e))) ->
   parse_log p e log = Err (InvalidName empty_data_msg)).
Proof.
  destruct Em as [(s & C & Et) Ed]. pose proof T as T'. unfold have_types in T'. apply tuple_type in T'.
  assert (Lv : length vs = length (e_inputs e)) by (apply Forall2_length in T'; now rewrite map_length in T').
  destruct (@emitted_topics_read (e_inputs e) vs T' S) as [W TR].
  assert (Sel : forall b (f : ParamType -> bool), forallb f (map ep_kind (e_inputs e)) = true -> forallb f (map ep_kind (isel b (e_inputs e))) = true).
  { intros b f H. rewrite forallb_forall in *. intros x I. apply in_map_iff in I as (q & <- & I). apply filter_In in I as [I _].
    apply H. now apply in_map. }
  rewrite select_kinds in Ed by exact Lv.
  destruct (@round_trip_exact p p (map ep_kind (isel false (e_inputs e))) (values_of (select false (e_inputs e) vs))) as (data & E & D1 & D2); auto.
  { unfold have_types. apply tuple_type. rewrite <- (@select_kinds false _ _ Lv). now apply typed_select. }
  { pose proof A as A'. rewrite forallb_forall in *. intros x I. apply in_map_iff in I as ([q v] & <- & I). apply filter_In in I as [I _].
    apply in_combine_r in I. auto. }
  assert (Edata : data = rl_data log).
  { rewrite encode_conforms with (ts := map ep_kind (isel false (e_inputs e))) in E; auto; [injection E as <-; now symmetry| |].
    - unfold have_types. apply tuple_type. rewrite <- (@select_kinds false _ _ Lv). now apply typed_select.
    - pose proof A as A'. rewrite forallb_forall in *. intros x I. apply in_map_iff in I as ([q v] & <- & I). apply filter_In in I as [I _].
      apply in_combine_r in I. auto. }
  subst data.
  assert (Lt : len (indexed_topics (e_inputs e) vs) <= len (e_inputs e)).
  { unfold indexed_topics, len. rewrite map_length. unfold select.
    assert (H : (length (filter (fun x => Bool.eqb (ep_indexed (fst x)) true) (combine (e_inputs e) vs)) <= length (combine (e_inputs e) vs))%nat).
    { generalize (combine (e_inputs e) vs). intros l. induction l as [|x l IH]; cbn [filter length]; [lia|]. destruct (Bool.eqb _ _); cbn [length]; lia. }
    rewrite combine_length in H. lia. }
  assert (Ls : len (rl_topics log) <= 1 + len (e_inputs e)).
  { rewrite Et, len_app. destruct (e_anonymous e); unfold len at 1; cbn [length]; lia. }
  assert (Wt : Forall (fun w => len w = 32) (rl_topics log)).
  { rewrite Et. apply Forall_app. split; [|exact W]. destruct (e_anonymous e); [constructor|]. constructor; [|constructor].
    unfold len. now rewrite keccak_length. }
  assert (Fd : fits (rl_data log)).
  { unfold fits. rewrite Ed. unfold abi_encode. rewrite abi_enc_size.
    - eapply N.lt_trans; [exact Sz|reflexivity].
    - apply tuple_type. rewrite <- (@select_kinds false _ _ Lv). now apply typed_select. }
  assert (St : forallb topic_sized (map ep_kind (isel true (e_inputs e))) = true).
  { rewrite forallb_forall. pose proof (Sel true _ S) as S'. rewrite forallb_forall in S'. intros x I. apply S' in I.
    destruct x; try reflexivity. cbn in *. lia. }
  assert (Lw : len (rl_topics log) < 2 ^ 57) by (change (2 ^ 57) with (2 * 2 ^ 56); lia).
  split.
  - intros Z. specialize (D1 Z).
    pose proof D1 as D3. apply decode_reads in D3 as [Ne [next R]]; [|apply (Sel false _ WF)|exact Fd].
    assert (X : exists out, mapM (fun name => do v <- hm_index (combine (map ep_name (isel true (e_inputs e))) (map (fun x => visible (fst x) (snd x)) (select true (e_inputs e) vs)) ++
        combine (map ep_name (isel false (e_inputs e))) (values_of (select false (e_inputs e) vs))) name; Ok (mkLogParam name v)) (map ep_name (e_inputs e)) = Ok out).
    { apply mapM_found. intros n I. rewrite map_app, !fst_combine.
      - rewrite <- map_app. eapply Permutation_in; [apply Permutation_map, Permutation_sym, isel_perm|exact I].
      - unfold values_of. rewrite !map_length. now rewrite (@selected_length _ _ _ Lv).
      - rewrite !map_length. now rewrite (@selected_length _ _ _ Lv). }
    destruct X as [out X]. apply mapM_last in X as [Nm F]. rewrite map_app, !named_entries in F.
    exists (mkLog out). rewrite (@parse_log_any p e log s C WF St Wt Lw Fd). cbn [l_params].
    rewrite <- visible_data, !emitted_named in F by exact Lv. rewrite <- map_app in F.
    split; [|split; [exact Nm|exact F]].
    exists (indexed_topics (e_inputs e) vs), (map (fun x => visible (fst x) (snd x)) (select true (e_inputs e) vs)),
      (values_of (select false (e_inputs e) vs)), next.
    split; [exact Et|]. split; [exact TR|]. split; [exact Ne|]. split; [exact R|]. split; [exact Nm|].
    rewrite <- visible_data, !emitted_named by exact Lv. now rewrite <- map_app.
  - intros Z N. destruct (D2 Z N) as [_ D].
    destruct (@parse_log_split p e log s C) as [(topics & Et' & ->)|[No _]]; [|exfalso; exact (No _ Et)].
    unfold topics_prefix in Et'. rewrite Et in Et'. apply app_inv_head in Et'. subst topics.
    assert (DT : decode p (map convert_topic_param_type (map ep_kind (isel true (e_inputs e)))) (concat (indexed_topics (e_inputs e) vs)) =
      Ok (map (fun x => visible (fst x) (snd x)) (select true (e_inputs e) vs)) /\
      len (map (fun x => visible (fst x) (snd x)) (select true (e_inputs e) vs)) = len (indexed_topics (e_inputs e) vs)).
    { apply decode_topics; auto. apply N.le_lt_trans with (1 := Lt). eapply N.lt_trans; [exact Li|reflexivity]. }
    destruct DT as [E1 Le]. unfold after_signature. rewrite E1. cbn [bind]. rewrite Le, N.eqb_refl. cbn [negb]. rewrite D. reflexivity.
Qed.
End Inverse.

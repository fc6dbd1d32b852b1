(** * The JSON of a topic filter allows the logs that the filter matches *)
From Verif Require Import Base BaseFacts Types AbiSpec TypeNamesSpec Utf8 Keccak Event EventSpec FilterFacts Json JsonText JsonTextSpec JsonTextFacts TokenSpec PrintSpec CliExact FilterJsonSpec.
From Coq Require Import String Lia.
Set Implicit Arguments.
Local Open Scope N_scope.
Local Open Scope list_scope.
Notation length := List.length.
Local Opaque keccak256.

Lemma hash_text_iff s h : hash_text s h <-> s = lit "0x" ++ hex_encode h.
Proof.
  unfold hash_text. split.
  - intros (d & -> & D). apply lower_hex_iff in D. now subst.
  - intros ->. eexists. split; [reflexivity|]. now apply lower_hex_iff.
Qed.
Lemma hash_text_unique s h h' : hash_text s h -> hash_text s h' -> h = h'.
Proof.
  rewrite !hash_text_iff. intros -> E. apply app_inv_head in E. now apply JsonLemmas.hex_inj.
Qed.
Lemma se_topic_allows t o : place_allows (se_topic t) o <-> topic_matches t o.
Proof.
  destruct t as [|l|a]; cbn [se_topic place_allows topic_matches].
  - tauto.
  - split.
    + intros (s & h & I & H & E). apply in_map_iff in I. destruct I as (a & X & I). injection X as X.
      apply hash_text_iff in H. assert (a = h) as ->; [|eauto].
      rewrite <- X in H. apply JsonLemmas.hex_inj. exact (app_inv_head (lit "0x") _ _ H).
    + intros (a & I & E). exists (lit "0x" ++ hex_encode a), a. split; [|split; [now apply hash_text_iff|exact E]].
      apply in_map_iff. exists a. split; [reflexivity|exact I].
  - split.
    + intros (h & H & E). apply hash_text_iff in H. assert (a = h) as ->; [|exact E].
      apply JsonLemmas.hex_inj. exact (app_inv_head (lit "0x") _ _ H).
    + intros E. exists a. split; [now apply hash_text_iff|exact E].
Qed.
Theorem filter_meaning f : exists js, se_filter f = JArr js /\ length js = 4%nat /\ Forall place_form js /\
  forall topics, places_allow js topics <-> filter_matches f topics.
Proof.
  eexists. split; [reflexivity|]. split; [reflexivity|]. split.
  - assert (F : forall t, place_form (se_topic t)).
    { intros [|l|a]; cbn [se_topic].
      - now left.
      - right; right. exists (map (fun h => lit "0x" ++ hex_encode h) l). split; [now rewrite map_map|].
        apply Forall_forall. intros s I. apply in_map_iff in I. destruct I as (h & <- & _).
        exists h. now apply hash_text_iff.
      - right; left. exists (lit "0x" ++ hex_encode a), a. split; [reflexivity|now apply hash_text_iff]. }
    do 4 (apply Forall_cons; [apply F|]). apply Forall_nil.
  - intros topics. unfold places_allow, filter_matches. split.
    + intros H. repeat split; apply se_topic_allows; apply H; reflexivity.
    + intros (A & B & C & D) i j E.
      destruct i as [|[|[|[|i]]]]; cbn in E; try (injection E as <-; now apply se_topic_allows).
      now destruct i.
Qed.

Lemma se_topic_writable t : writable (se_topic t).
Proof.
  destruct t as [|l|a]; cbn [se_topic]; try constructor.
  apply Forall_forall. intros j I. apply in_map_iff in I. destruct I as (h & <- & _). constructor.
Qed.
Lemma se_filter_writable f : writable (se_filter f).
Proof. unfold se_filter. constructor. do 4 (apply Forall_cons; [apply se_topic_writable|]). apply Forall_nil. Qed.
Theorem filter_text f j : json_text (show_json (se_filter f)) j <-> j = se_filter f.
Proof.
  pose proof (show_json_text (se_filter_writable f)) as W. split; [|now intros ->].
  intros H. exact (json_text_unique H W).
Qed.
Theorem filter_selects p e raw f vs log j : emits e vs log ->
  have_types vs (map ep_kind (e_inputs e)) = true -> forallb solidity_type (map ep_kind (e_inputs e)) = true ->
  raw_typed raw (map ep_kind (isel true (e_inputs e))) ->
  forallb value_type (map ep_kind (isel true (e_inputs e))) = true ->
  event_filter p e raw = Ok f -> json_text (show_json (se_filter f)) j ->
  exists js, j = JArr js /\ (places_allow js (rl_topics log) <-> raw_matches raw (values_of (select true (e_inputs e) vs))).
Proof.
  intros E T S R V F J. apply filter_text in J. subst j. destruct (filter_meaning f) as (js & X & _ & _ & M).
  exists js. split; [exact X|]. rewrite M. exact (@filter_matches_values p e raw f vs log E T S R V F).
Qed.
Theorem filter_signature p e raw f s j topics : canonical_signature (e_name e) (map ep_kind (e_inputs e)) s -> e_anonymous e = false ->
  event_filter p e raw = Ok f -> json_text (show_json (se_filter f)) j ->
  forall js, j = JArr js -> places_allow js topics -> nth_error topics 0 = Some (keccak256 (utf8 s)).
Proof.
  intros C A F J js X P. apply filter_text in J. subst j. destruct (filter_meaning f) as (js' & X' & _ & _ & M).
  assert (js' = js) as -> by congruence. apply M in P. apply (@event_filter_iff p e raw f s C) in F.
  destruct F as (t0 & t1 & t2 & _ & _ & _ & _ & _ & _ & ->). rewrite A in P. destruct P as (P & _). exact P.
Qed.

(** * The outcome of [parse_log] for all events *)
From Verif Require Import Base Types AbiSpec DecoderSpec TypeNamesSpec Encoder Decoder Keccak Function Event EventSpec
  BaseFacts StrFacts EncoderFacts EncoderTotal DecoderFacts RoundTrip DecoderProps CodecLemmas DecoderPanics FunctionFacts ReaderTotal EventFacts.
From Coq Require Import ZifyBool ZifyNat ZifyN Permutation.
Set Implicit Arguments.
Local Open Scope N_scope.
Local Opaque keccak256.

(** ** The map *)
Lemma find_first A (f : A -> bool) l x : find f l = Some x <-> exists a b, l = a ++ x :: b /\ f x = true /\ forallb (fun y => negb (f y)) a = true.
Proof.
  induction l as [|y l IH]; cbn [find].
  - split; [discriminate|]. intros (a & b & E & _). destruct a; discriminate.
  - destruct (f y) eqn:Fy.
    + split.
      * intros E. injection E as <-. exists [], l. auto.
      * intros ([|z a] & b & E & Fx & N); injection E as -> E; [reflexivity|]. cbn [forallb] in N. rewrite Fy in N. discriminate.
    + rewrite IH. split.
      * intros (a & b & -> & Fx & N). exists (y :: a), b. cbn [forallb]. rewrite Fy. auto.
      * intros ([|z a] & b & E & Fx & N); injection E as -> E; [congruence|]. cbn [forallb] in N. apply andb_true_iff in N as [_ N]. eauto.
Qed.
Definition entry (x : str * Token) : LogParam := mkLogParam (fst x) (snd x).
Lemma hm_get_last m k v : hm_get m k = Some v <-> last_named (map entry m) k v.
Proof.
  unfold hm_get, last_named.
  assert (E : option_map snd (find (fun e => str_eqb (fst e) k) (rev m)) = Some v <-> find (fun e => str_eqb (fst e) k) (rev m) = Some (k, v)).
  { destruct (find _ (rev m)) as [[k' v']|] eqn:F; [|split; discriminate]. apply find_first in F as (_ & _ & _ & Q & _). cbn [fst] in Q. apply str_eqb_eq in Q. subst k'.
    cbn [option_map snd]. split; intros E; injection E as ->; reflexivity. }
  rewrite E, find_first. clear E. split.
  - intros (a & b & E & _ & N). exists (map entry (rev b)), (map entry (rev a)). split.
    + rewrite <- (rev_involutive m), E, rev_app_distr. cbn [rev]. rewrite <- app_assoc, map_app. reflexivity.
    + intros I. rewrite map_map in I. apply in_map_iff in I as ([k' v'] & Ek & I). apply in_rev in I. rewrite forallb_forall in N. apply N in I.
      cbn in Ek, I. subst k'. now rewrite str_eqb_refl in I.
  - intros (a & b & E & N). apply map_eq_app in E as (a0 & b0 & -> & <- & E). destruct b0 as [|[k' v'] b0]; [discriminate|]. cbn [map] in E.
    injection E as -> -> <-. exists (rev b0), (rev a0). rewrite rev_app_distr. cbn [rev fst]. rewrite <- app_assoc, str_eqb_refl. repeat split.
    apply forallb_forall. intros [k' v'] I. apply in_rev in I. cbn [fst]. destruct (str_eqb k' k) eqn:Q; [|reflexivity]. apply str_eqb_eq in Q. subst k'.
    exfalso. apply N. rewrite map_map. apply in_map_iff. exists (k, v'). auto.
Qed.
Lemma mapM_last m names out : mapM (fun name => do v <- hm_index m name; Ok (mkLogParam name v)) names = Ok out <->
  map lp_name out = names /\ Forall (fun x => last_named (map entry m) (lp_name x) (lp_value x)) out.
Proof.
  rewrite mapM_ok. split.
  - induction 1 as [|n x names out E F IH]; [split; [reflexivity|constructor]|]. apply bind_ok in E as (v & E & Ex). injection Ex as <-.
    destruct IH as [<- IH]. split; [reflexivity|]. constructor; [|exact IH]. cbn [lp_name lp_value]. apply hm_get_last. unfold hm_index in E.
    destruct (hm_get m n); [now injection E as <-|discriminate].
  - intros [<- F]. induction F as [|[n v] out L F IH]; [constructor|]. cbn [map lp_name]. constructor; [|exact IH]. cbn [lp_name lp_value] in L.
    apply hm_get_last in L. unfold hm_index. rewrite L. reflexivity.
Qed.
Lemma named_entries b inputs (vs : list Token) : map entry (combine (map ep_name (isel b inputs)) vs) = named b inputs vs.
Proof.
  unfold named. generalize (isel b inputs). intros l. revert vs. induction l as [|q l IH]; intros [|v vs]; try reflexivity. cbn [map combine]. now rewrite IH.
Qed.

Section Exact.
Context (p : profile) (e : Event) (log : RawLog) (s : str).
Hypothesis C : canonical_signature (e_name e) (map ep_kind (e_inputs e)) s.
Definition after_signature (topics : list (list byte)) : res Log :=
  do tv <- decode p (map convert_topic_param_type (map ep_kind (isel true (e_inputs e)))) (concat topics);
  if negb (len tv =? len topics) then Err InvalidData
  else
    do dt <- decode p (map ep_kind (isel false (e_inputs e))) (rl_data log);
    do out <- mapM (fun name => do v <- hm_index (combine (map ep_name (isel true (e_inputs e))) tv ++ combine (map ep_name (isel false (e_inputs e))) dt) name;
      Ok (mkLogParam name v)) (map ep_name (e_inputs e));
    Ok (mkLog out).
Lemma parse_log_split : (exists topics, rl_topics log = topics_prefix e s ++ topics /\ parse_log p e log = after_signature topics) \/
  ((forall topics, rl_topics log <> topics_prefix e s ++ topics) /\ parse_log p e log = Err InvalidData).
Proof.
  assert (Sig : event_signature e = Ok (keccak256 (utf8 s))) by exact (long_signature_ok C).
  assert (K : forall topics k, skipn (N.to_nat k) (rl_topics log) = topics -> k <= len (rl_topics log) ->
    ((do topic_tokens <- decode p (map (fun q => convert_topic_param_type (ep_kind q)) (indexed_params e true)) (concat (skipn (N.to_nat k) (rl_topics log)));
      if negb (len topic_tokens =? len (rl_topics log) - k) then Err InvalidData
      else do data_tokens <- decode p (map ep_kind (indexed_params e false)) (rl_data log);
        do decoded_params <- mapM (fun name => do v <- hm_index (combine (map ep_name (indexed_params e true)) topic_tokens ++
           combine (map ep_name (indexed_params e false)) data_tokens) name; Ok (mkLogParam name v)) (params_names e);
        Ok (mkLog decoded_params)) = after_signature topics)).
  { intros topics k <- L. unfold after_signature. rewrite map_map.
    replace (len (skipn (N.to_nat k) (rl_topics log))) with (len (rl_topics log) - k) by (unfold len; rewrite skipn_length; lia). reflexivity. }
  unfold parse_log, topics_prefix. cbv zeta. destruct (e_anonymous e); cbn [bind].
  - left. exists (rl_topics log). split; [reflexivity|]. apply K; [reflexivity|lia].
  - destruct (rl_topics log) as [|t0 topics] eqn:T.
    + right. split; [intros topics X; discriminate|reflexivity].
    + rewrite Sig. cbn [bind]. destruct (bytes_eqb t0 (keccak256 (utf8 s))) eqn:Eq; cbn [negb bind].
      * apply bytes_eqb_eq in Eq. subst t0. left. exists topics. split; [reflexivity|]. apply K; [reflexivity|unfold len; cbn [length]; lia].
      * right. split; [|reflexivity]. intros topics' X. apply (f_equal (hd [])) in X. cbn [hd app] in X. subst t0.
        assert (X : bytes_eqb (keccak256 (utf8 s)) (keccak256 (utf8 s)) = true) by now apply bytes_eqb_eq. congruence.
Qed.
Hypothesis WF : forallb wf_type (map ep_kind (e_inputs e)) = true.
Hypothesis S : forallb topic_sized (map ep_kind (isel true (e_inputs e))) = true.
Hypothesis W : Forall (fun w => len w = 32) (rl_topics log).
Hypothesis Lw : len (rl_topics log) < 2 ^ 57.
Hypothesis Fd : fits (rl_data log).
Lemma sel_wf b : forallb wf_type (map ep_kind (isel b (e_inputs e))) = true.
Proof.
  rewrite forallb_forall in *. intros x I. apply in_map_iff in I as (q & <- & I). apply filter_In in I as [I _]. apply WF. now apply in_map.
Qed.
Lemma topics_sub topics : rl_topics log = topics_prefix e s ++ topics -> Forall (fun w => len w = 32) topics /\ len topics < 2 ^ 57.
Proof. intros E. rewrite E in W, Lw. apply Forall_app in W as [_ W']. rewrite len_app in Lw. split; [exact W'|lia]. Qed.
Lemma prefix_inj t t' : topics_prefix e s ++ t = topics_prefix e s ++ t' -> t = t'.
Proof. apply app_inv_head. Qed.

Lemma parse_log_any l : parse_log p e log = Ok l <->
  exists topics ts ds next, rl_topics log = topics_prefix e s ++ topics /\
     topics_read (map ep_kind (isel true (e_inputs e))) topics ts /\
     (rl_data log <> [] \/ Forall may_be_empty (map ep_kind (isel false (e_inputs e)))) /\
     reads_seq (rl_data log) (map ep_kind (isel false (e_inputs e))) 0 ds next /\
     map lp_name (l_params l) = map ep_name (e_inputs e) /\
     Forall (fun x => last_named (named true (e_inputs e) ts ++ named false (e_inputs e) ds) (lp_name x) (lp_value x)) (l_params l).
Proof.
  assert (A : forall topics, rl_topics log = topics_prefix e s ++ topics -> (after_signature topics = Ok l <->
    exists ts ds next, topics_read (map ep_kind (isel true (e_inputs e))) topics ts /\
     (rl_data log <> [] \/ Forall may_be_empty (map ep_kind (isel false (e_inputs e)))) /\
     reads_seq (rl_data log) (map ep_kind (isel false (e_inputs e))) 0 ds next /\
     map lp_name (l_params l) = map ep_name (e_inputs e) /\
     Forall (fun x => last_named (named true (e_inputs e) ts ++ named false (e_inputs e) ds) (lp_name x) (lp_value x)) (l_params l))).
  { intros topics Et. destruct (topics_sub _ Et) as [Wt Lt]. pose proof (fun vs => @decode_topics p _ topics vs (sel_wf true) S Wt Lt) as DT.
    unfold after_signature. split.
    - intros X. apply bind_ok in X as (ts & E1 & X). destruct (N.eqb_spec (len ts) (len topics)) as [Le|]; [|discriminate]. cbn [negb] in X.
      apply bind_ok in X as (ds & E2 & X). apply bind_ok in X as (out & E3 & X). injection X as <-. apply mapM_last in E3.
      rewrite map_app, !named_entries in E3. apply decode_reads in E2 as [Ne [next R]]; [|apply sel_wf|exact Fd].
      exists ts, ds, next. split; [apply DT; auto|]. auto.
    - intros (ts & ds & next & TR & Ne & R & Nm & F). apply DT in TR as [E1 Le]. rewrite E1. cbn [bind]. rewrite Le, N.eqb_refl. cbn [negb].
      assert (E2 : decode p (map ep_kind (isel false (e_inputs e))) (rl_data log) = Ok ds) by (apply decode_reads; eauto using sel_wf).
      rewrite E2. cbn [bind]. destruct l as [out]. cbn [l_params] in *.
      assert (E3 : mapM (fun name => do v <- hm_index (combine (map ep_name (isel true (e_inputs e))) ts ++ combine (map ep_name (isel false (e_inputs e))) ds) name;
        Ok (mkLogParam name v)) (map ep_name (e_inputs e)) = Ok out) by (apply mapM_last; rewrite map_app, !named_entries; auto).
      rewrite E3. reflexivity. }
  destruct parse_log_split as [(topics & Et & ->)|[N ->]].
  - rewrite (A topics Et). split.
    + intros (ts & ds & next & H). exists topics, ts, ds, next. auto.
    + intros (topics' & ts & ds & next & Et' & H). rewrite Et in Et'. apply prefix_inj in Et' as <-. eauto.
  - split; [discriminate|]. intros (topics & ts & ds & next & Et & _). now apply N in Et.
Qed.

Lemma parse_log_panics : parse_log p e log = Panic <->
  exists topics ts, rl_topics log = topics_prefix e s ++ topics /\
     topics_read (map ep_kind (isel true (e_inputs e))) topics ts /\
     (rl_data log <> [] \/ Forall may_be_empty (map ep_kind (isel false (e_inputs e)))) /\
     crashes_seq p (rl_data log) (map ep_kind (isel false (e_inputs e))) 0.
Proof.
  assert (A : forall topics, rl_topics log = topics_prefix e s ++ topics -> (after_signature topics = Panic <->
    exists ts, topics_read (map ep_kind (isel true (e_inputs e))) topics ts /\
     (rl_data log <> [] \/ Forall may_be_empty (map ep_kind (isel false (e_inputs e)))) /\
     crashes_seq p (rl_data log) (map ep_kind (isel false (e_inputs e))) 0)).
  { intros topics Et. destruct (topics_sub _ Et) as [Wt Lt]. pose proof (fun vs => @decode_topics p _ topics vs (sel_wf true) S Wt Lt) as DT.
    unfold after_signature. split.
    - intros X. apply bind_panic in X as [X|(ts & E1 & X)].
      { exfalso. revert X. apply decode_not_panic.
        - unfold fits. rewrite (concat_words_len Wt). change (2 ^ 63) with (64 * 2 ^ 57). lia.
        - rewrite forallb_forall. intros x I. apply in_map_iff in I as (t & <- & I). destruct t; reflexivity.
        - pose proof S as S'. rewrite forallb_forall in *. intros x I. apply in_map_iff in I as (t & <- & I).
          apply S' in I. destruct t; try reflexivity. cbn in *. lia. }
      destruct (N.eqb_spec (len ts) (len topics)) as [Le|]; [|discriminate]. cbn [negb] in X. exists ts. split; [apply DT; auto|].
      apply bind_panic in X as [X|(ds & E2 & X)]; [apply decode_panics in X; [exact X|apply sel_wf|exact Fd]|].
      exfalso. apply bind_panic in X as [X|(out & _ & X)]; [|discriminate]. revert X. apply mapM_not_panic.
      assert (L1 : length ts = length (isel true (e_inputs e))).
      { assert (TR : topics_read (map ep_kind (isel true (e_inputs e))) topics ts) by (apply DT; auto). destruct TR as [T1 T2]. rewrite map_length in T1. unfold len in Le. lia. }
      assert (L2 : length ds = length (isel false (e_inputs e))).
      { apply decode_length in E2; [now rewrite map_length in E2|apply sel_wf|exact Fd]. }
      apply Forall_forall. intros n I. unfold hm_index.
      destruct (@hm_get_some (combine (map ep_name (isel true (e_inputs e))) ts ++ combine (map ep_name (isel false (e_inputs e))) ds) n) as [v ->];
        [|discriminate].
      rewrite map_app, !fst_combine by now rewrite map_length. rewrite <- map_app.
      eapply Permutation_in; [apply Permutation_map, Permutation_sym, isel_perm|exact I].
    - intros (ts & TR & H). apply DT in TR as [E1 Le]. rewrite E1. cbn [bind]. rewrite Le, N.eqb_refl. cbn [negb].
      assert (E2 : decode p (map ep_kind (isel false (e_inputs e))) (rl_data log) = Panic) by (apply decode_panics; auto using sel_wf).
      rewrite E2. reflexivity. }
  destruct parse_log_split as [(topics & Et & ->)|[N ->]].
  - rewrite (A topics Et). split.
    + intros (ts & H). exists topics, ts. auto.
    + intros (topics' & ts & Et' & H). rewrite Et in Et'. apply prefix_inj in Et' as <-. eauto.
  - split; [discriminate|]. intros (topics & ts & Et & _). now apply N in Et.
Qed.
End Exact.

(** * Facts about events and filters *)
From Verif Require Import Base Types AbiSpec DecoderSpec TypeNamesSpec Encoder Decoder Keccak Function Event EventSpec
  BaseFacts StrFacts EncoderFacts EncoderTotal DecoderFacts RoundTrip DecoderProps CodecLemmas FunctionFacts ReaderTotal.
From Coq Require Import ZifyBool ZifyNat ZifyN Permutation.
Set Implicit Arguments.
Local Open Scope N_scope.
Local Opaque keccak256.

Lemma bytes_eqb_eq a b : bytes_eqb a b = true <-> a = b.
Proof.
  unfold bytes_eqb. rewrite andb_true_iff, N.eqb_eq. split.
  - intros [L F]. assert (L' : length a = length b) by (unfold len in L; lia). clear L. revert b L' F.
    induction a as [|x a IH]; intros [|y b] L F; try discriminate; [reflexivity|]. cbn [combine forallb fst snd] in F.
    apply andb_true_iff in F as [F1 F2]. apply Byte.byte_dec_bl in F1. subst y. f_equal. apply IH; [now injection L|exact F2].
  - intros ->. split; [reflexivity|]. induction b as [|x b IH]; [reflexivity|]. cbn [combine forallb fst snd]. rewrite IH.
    rewrite Byte.byte_dec_lb by reflexivity. reflexivity.
Qed.

(** ** Topics *)
Lemma reads_topic k w v next data pos : topic_sized k = true -> len w = 32 -> bytes_at data pos w ->
  (reads data (convert_topic_param_type k) pos v next <-> topic_value k w v /\ next = pos + 32).
Proof.
  intros S L B.
  assert (FB : forall n v next, n <= 32 -> (reads data (PFixedBytes n) pos v next <-> v = TFixedBytes (firstn (N.to_nat n) w) /\ next = pos + 32)).
  { intros n v' next' Hn. split.
    - inversion 1 as [| | | |? ? ? b Bb Lb| | | | | | |]; subst. split; [|reflexivity]. f_equal.
      rewrite <- (firstn_skipn (N.to_nat (len b)) w) in B. apply bytes_at_prefix in B.
      eapply bytes_at_unique; eauto. unfold len in *. rewrite firstn_length. lia.
    - intros [-> ->]. apply reads_fixed_bytes.
      + rewrite <- (firstn_skipn (N.to_nat n) w) in B. now apply bytes_at_prefix in B.
      + unfold len in *. rewrite firstn_length. lia. }
  assert (F32 : firstn (N.to_nat 32) w = w) by (apply firstn_all2; unfold len in L; lia).
  destruct k; cbn [convert_topic_param_type topic_value]; try (rewrite FB by lia; rewrite ?F32; reflexivity).
  - split.
    + inversion 1 as [? ? hi a Bb L1 L2| | | | | | | | | | |]; subst. split; [|reflexivity]. f_equal.
      assert (E : hi ++ a = w) by (eapply bytes_at_unique; eauto; rewrite len_app; lia). rewrite <- E.
      rewrite skipn_app. replace (12 - length hi)%nat with 0%nat by (unfold len in L1; lia).
      rewrite skipn_all2 by (unfold len in L1; lia). reflexivity.
    + intros [-> ->]. rewrite <- (firstn_skipn 12 w) in B. eapply reads_address; [exact B| |].
      * unfold len in *. rewrite firstn_length. lia.
      * unfold len in *. rewrite skipn_length. lia.
  - split.
    + inversion 1 as [|? ? ? w' Bb Lb| | | | | | | | | |]; subst. split; [|reflexivity]. do 2 f_equal.
      eapply bytes_at_unique; eauto. lia.
    + intros [-> ->]. now apply reads_int.
  - split.
    + inversion 1 as [| |? ? ? w' Bb Lb| | | | | | | | |]; subst. split; [|reflexivity]. do 2 f_equal.
      eapply bytes_at_unique; eauto. lia.
    + intros [-> ->]. now apply reads_uint.
  - split.
    + inversion 1 as [| | |? ? b Bb| | | | | | | |]; subst. split; [|reflexivity].
      assert (E : zeros 31 ++ [b] = w) by (eapply bytes_at_unique; eauto; rewrite len_app, len_zeros, L; reflexivity).
      rewrite <- E, of_be_app. change (of_be (zeros 31)) with 0. rewrite of_be_single, N.mul_0_l, N.add_0_l.
      pose proof (to_N_lt b). auto.
    + intros [[Hw ->] ->].
      assert (E : w = zeros 31 ++ [byte_of_N (of_be w)]).
      { rewrite <- (@be_bytes_of_be' 32 w) at 1 by (unfold len in L; lia).
        rewrite <- (@be_bytes_of_be' 32 (zeros 31 ++ [byte_of_N (of_be w)])) by (rewrite app_length; reflexivity).
        f_equal. rewrite of_be_app. change (of_be (zeros 31)) with 0. rewrite of_be_single, to_N_small by assumption. lia. }
      rewrite E in B. replace (of_be w) with (Byte.to_N (byte_of_N (of_be w))) by now apply to_N_small.
      apply reads_bool. exact B.
  - cbn [topic_sized] in S. rewrite FB by lia. reflexivity.
Qed.

Lemma reads_topics data ks : Forall (fun k => topic_sized k = true) ks -> forall ws pos vs next,
  Forall (fun w => len w = 32) ws -> length ws = length ks -> bytes_at data pos (concat ws) ->
  (reads_seq data (map convert_topic_param_type ks) pos vs next <->
   Forall2 (fun x v => topic_value (fst x) (snd x) v) (combine ks ws) vs /\ next = pos + 32 * len ks).
Proof.
  induction 1 as [|k ks S F IH]; intros [|w ws] pos vs next W L B; try discriminate; cbn [map combine].
  - split; [inversion 1; subst; split; [constructor|unfold len; cbn; lia]|intros [H ->]; inversion H; subst].
    replace (pos + 32 * len []) with pos by (unfold len; cbn; lia). constructor.
  - cbn [concat] in B. inversion W as [|? ? Lw W']; subst.
    assert (B1 : bytes_at data pos w) by now apply bytes_at_prefix in B.
    assert (B2 : bytes_at data (pos + 32) (concat ws)).
    { destruct B as (a & b & E & P). exists (a ++ w), b. rewrite <- !app_assoc in *. split; [exact E|]. rewrite len_app. lia. }
    assert (L' : length ws = length ks) by now injection L.
    assert (LK : len (k :: ks) = 1 + len ks) by (unfold len; cbn [length]; lia).
    split.
    + inversion 1 as [|? ? ? ? v vs' n1 n2 R1 R2]; subst. apply (@reads_topic k w v n1 data pos S Lw B1) in R1 as [T1 ->].
      apply (IH ws (pos + 32) vs' next W' L' B2) in R2 as [T2 ->]. split; [constructor; [exact T1|exact T2]|lia].
    + intros [T ->]. inversion T as [|? v ? vs' T1 T2]; subst. apply reads_cons with (next := pos + 32).
      * apply (@reads_topic k w v (pos + 32) data pos S Lw B1). auto.
      * apply (IH ws (pos + 32) vs' _ W' L' B2). split; [exact T2|lia].
Qed.
Lemma concat_words_len (ws : list (list byte)) : Forall (fun w => len w = 32) ws -> len (concat ws) = 32 * len ws.
Proof. induction 1 as [|w ws H F IH]; [reflexivity|]. cbn [concat]. rewrite len_app, H, IH. unfold len. cbn [length]. lia. Qed.
Lemma reads_seq_length data ts pos vs next : reads_seq data ts pos vs next -> length vs = length ts.
Proof. induction 1; cbn [length]; auto. Qed.
Lemma convert_wf k : wf_type k = true -> wf_type (convert_topic_param_type k) = true.
Proof. destruct k; cbn; auto. Qed.

Section WithProfile.
Context (p : profile).
Lemma decode_length ts data vs : forallb wf_type ts = true -> fits data -> decode p ts data = Ok vs -> length vs = length ts.
Proof. intros W F E. apply decode_iff in E as [_ [n R]]; auto. now apply reads_seq_length in R. Qed.
Lemma decode_topics ks ws vs : forallb wf_type ks = true -> forallb topic_sized ks = true ->
  Forall (fun w => len w = 32) ws -> len ws < 2 ^ 57 ->
  (decode p (map convert_topic_param_type ks) (concat ws) = Ok vs /\ len vs = len ws <-> topics_read ks ws vs).
Proof.
  intros WF S W Lw. pose proof (concat_words_len W) as CL.
  assert (Ft : fits (concat ws)) by (unfold fits; rewrite CL; change (2 ^ 63) with (64 * 2 ^ 57); lia).
  assert (WF' : forallb wf_type (map convert_topic_param_type ks) = true).
  { rewrite forallb_forall in *. intros x I. apply in_map_iff in I as (k & <- & I). now apply convert_wf, WF. }
  assert (S' : Forall (fun k => topic_sized k = true) ks) by (rewrite Forall_forall; now rewrite forallb_forall in S).
  assert (B : bytes_at (concat ws) 0 (concat ws)) by (exists [], []; rewrite app_nil_r; auto).
  unfold topics_read. split.
  - intros [E L]. pose proof (decode_length _ WF' Ft E) as DL. rewrite map_length in DL.
    assert (Lk : length ws = length ks) by (unfold len in L; lia). split; [exact Lk|].
    apply decode_iff in E as [_ [n R]]; auto. apply (@reads_topics _ _ S' ws 0 vs n W Lk B) in R. tauto.
  - intros [Lk T]. split.
    + apply decode_iff; auto. split.
      * destruct ks as [|k ks]; [right; reflexivity|left]. intros Z. rewrite Z in CL. unfold len in CL. cbn [length] in *. lia.
      * exists (0 + 32 * len ks). apply (@reads_topics _ _ S' ws 0 vs _ W Lk B). auto.
    + apply Forall2_length in T. rewrite combine_length in T. unfold len. lia.
Qed.
End WithProfile.

(** ** Dealing out values *)
Fixpoint deal (inputs : list EventParam) (ts ds : list Token) : list LogParam :=
  match inputs with
  | [] => []
  | ep :: inputs' =>
    if ep_indexed ep then match ts with v :: ts' => mkLogParam (ep_name ep) v :: deal inputs' ts' ds | [] => [] end
    else match ds with v :: ds' => mkLogParam (ep_name ep) v :: deal inputs' ts ds' | [] => [] end
  end.
Lemma deal_dealt inputs : forall ts ds, length ts = length (isel true inputs) -> length ds = length (isel false inputs) ->
  dealt inputs ts ds (deal inputs ts ds).
Proof.
  induction inputs as [|[n k b] inputs IH]; intros ts ds L1 L2; cbn [deal ep_indexed ep_name].
  - destruct ts, ds; try discriminate. constructor.
  - cbn [isel filter ep_indexed] in L1, L2. destruct b; cbn [Bool.eqb length] in *.
    + destruct ts as [|v ts]; [discriminate|]. constructor. apply IH; [now injection L1|exact L2].
    + destruct ds as [|v ds]; [discriminate|]. constructor. apply IH; [exact L1|now injection L2].
Qed.
Lemma dealt_deal inputs ts ds out : dealt inputs ts ds out -> out = deal inputs ts ds.
Proof. induction 1; cbn [deal ep_indexed ep_name]; congruence. Qed.
Lemma dealt_lengths inputs ts ds out : dealt inputs ts ds out ->
  length ts = length (isel true inputs) /\ length ds = length (isel false inputs).
Proof. induction 1 as [| |]; cbn [isel filter ep_indexed Bool.eqb length] in *; intuition. Qed.
Lemma deal_names inputs ts ds : length ts = length (isel true inputs) -> length ds = length (isel false inputs) ->
  map lp_name (deal inputs ts ds) = map ep_name inputs.
Proof.
  revert ts ds. induction inputs as [|[n k b] inputs IH]; intros ts ds L1 L2; [reflexivity|].
  cbn [isel filter ep_indexed deal ep_name] in *. destruct b; cbn [Bool.eqb length] in *.
  - destruct ts as [|v ts]; [discriminate|]. cbn [map lp_name ep_name]. f_equal. apply IH; [now injection L1|exact L2].
  - destruct ds as [|v ds]; [discriminate|]. cbn [map lp_name ep_name]. f_equal. apply IH; [exact L1|now injection L2].
Qed.
Lemma deal_in inputs : forall ts ds x, In x (deal inputs ts ds) ->
  In (lp_name x, lp_value x) (combine (map ep_name (isel true inputs)) ts ++ combine (map ep_name (isel false inputs)) ds).
Proof.
  induction inputs as [|[n k b] inputs IH]; intros ts ds x; cbn [deal]; [easy|].
  cbn [isel filter ep_indexed ep_name]. fold (isel true inputs). fold (isel false inputs). destruct b; cbn [Bool.eqb].
  - destruct ts as [|v ts]; [easy|]. cbn [map combine app ep_name]. intros [<-|I]; [left; reflexivity|right; now apply IH].
  - destruct ds as [|v ds]; [easy|]. cbn [map combine ep_name]. intros I. apply in_or_app.
    destruct I as [<-|I]; [right; left; reflexivity|]. apply IH, in_app_or in I as [I|I]; [left|right; right]; exact I.
Qed.

(** ** The map *)
Lemma find_nodup (m : list (str * Token)) k v : NoDup (map fst m) -> In (k, v) m ->
  find (fun e => str_eqb (fst e) k) m = Some (k, v).
Proof.
  induction m as [|[k' v'] m IH]; [easy|]. cbn [map fst find]. intros ND I. inversion ND as [|? ? NI ND']; subst.
  destruct I as [E|I].
  - injection E as -> ->. now rewrite str_eqb_refl.
  - destruct (str_eqb k' k) eqn:E; [|auto]. apply str_eqb_eq in E. subst k'. destruct NI. change k with (fst (k, v)). now apply in_map.
Qed.
Lemma hm_get_in m k v : NoDup (map fst m) -> In (k, v) m -> hm_get m k = Some v.
Proof.
  intros ND I. unfold hm_get. rewrite find_nodup with (v := v); [reflexivity| |now apply in_rev in I].
  rewrite map_rev. eapply Permutation_NoDup; [apply Permutation_rev|exact ND].
Qed.
Lemma isel_perm inputs : Permutation (isel true inputs ++ isel false inputs) inputs.
Proof.
  induction inputs as [|ep inputs IH]; [constructor|]. cbn [isel filter]. destruct (ep_indexed ep); cbn [Bool.eqb].
  - cbn [app]. now constructor.
  - apply Permutation_sym, Permutation_cons_app, Permutation_sym. exact IH.
Qed.
Lemma fst_combine A B (a : list A) (b : list B) : length b = length a -> map fst (combine a b) = a.
Proof. revert b. induction a as [|x a IH]; intros [|y b] L; try discriminate; [reflexivity|]. cbn [combine map fst]. f_equal. apply IH. now injection L. Qed.
Lemma named_nodup inputs (ts ds : list Token) : NoDup (map ep_name inputs) ->
  length ts = length (isel true inputs) -> length ds = length (isel false inputs) ->
  NoDup (map fst (combine (map ep_name (isel true inputs)) ts ++ combine (map ep_name (isel false inputs)) ds)).
Proof.
  intros ND L1 L2. rewrite map_app, !fst_combine by now rewrite map_length. rewrite <- map_app.
  eapply Permutation_NoDup; [|exact ND]. apply Permutation_map, Permutation_sym, isel_perm.
Qed.
Lemma names_deal inputs ts ds : NoDup (map ep_name inputs) ->
  length ts = length (isel true inputs) -> length ds = length (isel false inputs) ->
  mapM (fun name => do v <- hm_index (combine (map ep_name (isel true inputs)) ts ++ combine (map ep_name (isel false inputs)) ds) name;
    Ok (mkLogParam name v)) (map ep_name inputs) = Ok (deal inputs ts ds).
Proof.
  intros ND L1 L2. pose proof (named_nodup _ _ _ ND L1 L2) as NN. apply mapM_ok. rewrite <- (deal_names _ _ _ L1 L2).
  pose proof (@deal_in inputs ts ds) as DI. set (m := combine _ _ ++ _) in *. clearbody m.
  induction (deal inputs ts ds) as [|[n v] l IH]; [constructor|]. cbn [map lp_name]. constructor.
  - unfold hm_index. rewrite (hm_get_in _ _ v NN); [reflexivity|]. apply (DI (mkLogParam n v)). now left.
  - apply IH. intros x I. apply DI. now right.
Qed.

(** ** parse_log *)
Section Parse.
Context (p : profile).
Lemma parse_log_iff e log l s :
  canonical_signature (e_name e) (map ep_kind (e_inputs e)) s -> NoDup (map ep_name (e_inputs e)) ->
  forallb wf_type (map ep_kind (e_inputs e)) = true ->
  forallb topic_sized (map ep_kind (isel true (e_inputs e))) = true ->
  Forall (fun w => len w = 32) (rl_topics log) -> len (rl_topics log) < 2 ^ 57 -> fits (rl_data log) ->
  (parse_log p e log = Ok l <->
   exists topics ts ds, rl_topics log = topics_prefix e s ++ topics /\
     topics_read (map ep_kind (isel true (e_inputs e))) topics ts /\
     decode p (map ep_kind (isel false (e_inputs e))) (rl_data log) = Ok ds /\
     dealt (e_inputs e) ts ds (l_params l)).
Proof.
  intros C ND WF S W Lw Fd.
  assert (Sig : event_signature e = Ok (keccak256 (utf8 s))) by exact (long_signature_ok C).
  assert (WFs : forall b, forallb wf_type (map ep_kind (isel b (e_inputs e))) = true).
  { intros b. rewrite forallb_forall in *. intros x I. apply in_map_iff in I as (q & <- & I). apply filter_In in I as [I _].
    apply WF. now apply in_map. }
  assert (K : forall topics k, rl_topics log = firstn (N.to_nat k) (rl_topics log) ++ topics -> k <= len (rl_topics log) ->
    ((do topic_tokens <- decode p (map (fun q => convert_topic_param_type (ep_kind q)) (indexed_params e true)) (concat (skipn (N.to_nat k) (rl_topics log)));
      if negb (len topic_tokens =? len (rl_topics log) - k) then Err InvalidData
      else do data_tokens <- decode p (map ep_kind (indexed_params e false)) (rl_data log);
        do decoded_params <- mapM (fun name => do v <- hm_index (combine (map ep_name (indexed_params e true)) topic_tokens ++
           combine (map ep_name (indexed_params e false)) data_tokens) name; Ok (mkLogParam name v)) (params_names e);
        Ok (mkLog decoded_params)) = Ok l <->
     exists ts ds, topics_read (map ep_kind (isel true (e_inputs e))) topics ts /\
       decode p (map ep_kind (isel false (e_inputs e))) (rl_data log) = Ok ds /\ dealt (e_inputs e) ts ds (l_params l))).
  { intros topics k E Lk.
    assert (Et : skipn (N.to_nat k) (rl_topics log) = topics).
    { rewrite <- (firstn_skipn (N.to_nat k)) in E at 1. now apply app_inv_head in E. }
    rewrite Et. change (indexed_params e) with (fun b => isel b (e_inputs e)). cbv beta. rewrite <- map_map with (f := ep_kind).
    assert (Wt : Forall (fun w => len w = 32) topics).
    { rewrite <- Et. rewrite Forall_forall in *. intros x I. apply W. rewrite <- (firstn_skipn (N.to_nat k)). apply in_or_app. now right. }
    assert (Lt : len topics = len (rl_topics log) - k) by (rewrite <- Et; unfold len; rewrite skipn_length; lia).
    rewrite <- Lt.
    pose proof (fun vs => @decode_topics p _ topics vs (WFs true) S Wt ltac:(lia)) as DT.
    split.
    - intros X. apply bind_ok in X as (ts & E1 & X). destruct (N.eqb_spec (len ts) (len topics)) as [Le|]; [|discriminate]. cbn [negb] in X.
      apply bind_ok in X as (ds & E2 & X). apply bind_ok in X as (out & E3 & X). injection X as <-. exists ts, ds.
      assert (TR : topics_read (map ep_kind (isel true (e_inputs e))) topics ts) by (apply DT; auto).
      split; [exact TR|]. split; [exact E2|]. cbn [l_params].
      assert (L1 : length ts = length (isel true (e_inputs e))).
      { destruct TR as [T1 T2]. rewrite map_length in T1. unfold len in Le. lia. }
      assert (L2 : length ds = length (isel false (e_inputs e))).
      { apply decode_length in E2; auto. now rewrite map_length in E2. }
      unfold params_names in E3. rewrite (names_deal _ _ _ ND L1 L2) in E3. injection E3 as <-. now apply deal_dealt.
    - intros (ts & ds & TR & E2 & D). apply DT in TR as [E1 Le]. rewrite E1. cbn [bind]. rewrite Le, N.eqb_refl. cbn [negb].
      rewrite E2. cbn [bind]. destruct (dealt_lengths D) as [L1 L2]. unfold params_names. rewrite (names_deal _ _ _ ND L1 L2). cbn [bind].
      apply dealt_deal in D. destruct l as [lps]. cbn [l_params] in D. now rewrite D. }
  unfold parse_log, topics_prefix. cbv zeta. destruct (e_anonymous e) eqn:An; cbn [bind].
  - rewrite (K (rl_topics log) 0) by (try reflexivity; lia). cbn [app]. split.
    + intros (ts & ds & H). exists (rl_topics log), ts, ds. tauto.
    + intros (topics & ts & ds & -> & H). eauto.
  - destruct (rl_topics log) as [|t0 topics] eqn:T.
    + cbn [bind]. split; [discriminate|]. intros (topics & ts & ds & X & _). discriminate.
    + rewrite Sig. cbn [bind]. destruct (bytes_eqb t0 (keccak256 (utf8 s))) eqn:Eq; cbn [negb bind].
      * apply bytes_eqb_eq in Eq. subst t0. rewrite (K topics 1) by (try reflexivity; unfold len; cbn [length]; lia). split.
        -- intros (ts & ds & H). exists topics, ts, ds. tauto.
        -- intros (topics' & ts & ds & X & H). apply (f_equal (@tl _)) in X. cbn [tl app] in X. subst topics'. eauto.
      * split; [discriminate|]. intros (topics' & ts & ds & X & _). apply (f_equal (hd [])) in X. cbn [hd app] in X. subst t0.
        assert (X : bytes_eqb (keccak256 (utf8 s)) (keccak256 (utf8 s)) = true) by now apply bytes_eqb_eq. congruence.
Qed.
End Parse.

(** ** What any parsed log satisfies *)
Section Shape.
Context (p : profile).
Lemma mapM_names (f : str -> res Token) names out :
  mapM (fun name => do v <- f name; Ok (mkLogParam name v)) names = Ok out -> map lp_name out = names.
Proof.
  intros E. apply mapM_ok in E. induction E as [|n x names out E F IH]; [reflexivity|].
  apply bind_ok in E as (v & _ & E). injection E as <-. cbn [map lp_name]. now f_equal.
Qed.
Lemma parse_log_shape e log l s :
  canonical_signature (e_name e) (map ep_kind (e_inputs e)) s ->
  forallb wf_type (map ep_kind (e_inputs e)) = true ->
  Forall (fun w => len w = 32) (rl_topics log) -> len (rl_topics log) < 2 ^ 57 ->
  parse_log p e log = Ok l ->
  map lp_name (l_params l) = map ep_name (e_inputs e) /\
  exists topics, rl_topics log = topics_prefix e s ++ topics /\ length topics = length (isel true (e_inputs e)).
Proof.
  intros C WF W Lw E. assert (Sig : event_signature e = Ok (keccak256 (utf8 s))) by exact (long_signature_ok C).
  assert (WFt : forallb wf_type (map (fun q => convert_topic_param_type (ep_kind q)) (indexed_params e true)) = true).
  { rewrite forallb_forall in *. intros x I. apply in_map_iff in I as (q & <- & I). apply filter_In in I as [I _].
    apply convert_wf, WF. now apply in_map. }
  unfold parse_log in E. cbv zeta in E. apply bind_ok in E as (k & Ek & E). apply bind_ok in E as (ts & E1 & E).
  destruct (N.eqb_spec (len ts) (len (rl_topics log) - k)) as [Le|]; [|discriminate]. cbn [negb] in E.
  apply bind_ok in E as (ds & E2 & E). apply bind_ok in E as (out & E3 & E). injection E as <-. cbn [l_params].
  split; [now apply mapM_names in E3|]. exists (skipn (N.to_nat k) (rl_topics log)).
  assert (Wk : Forall (fun w => len w = 32) (skipn (N.to_nat k) (rl_topics log))).
  { rewrite Forall_forall in *. intros x I. apply W. rewrite <- (firstn_skipn (N.to_nat k)). apply in_or_app. now right. }
  assert (Lk : len (skipn (N.to_nat k) (rl_topics log)) = len (rl_topics log) - k) by (unfold len; rewrite skipn_length; lia).
  apply decode_length in E1; [|exact WFt|unfold fits; rewrite (concat_words_len Wk), Lk; change (2 ^ 63) with (64 * 2 ^ 57); lia].
  rewrite map_length in E1. change (indexed_params e true) with (isel true (e_inputs e)) in E1. split.
  - unfold topics_prefix. destruct (e_anonymous e); [injection Ek as <-; reflexivity|].
    destruct (rl_topics log) as [|t0 r]; [discriminate|]. rewrite Sig in Ek. cbn [bind] in Ek.
    destruct (bytes_eqb t0 _) eqn:B; [|discriminate]. cbn [negb] in Ek. injection Ek as <-. apply bytes_eqb_eq in B. now subst t0.
  - unfold len in Lk, Le. lia.
Qed.

(** ** parse_log does not panic *)
Lemma hm_get_some m k : In k (map fst m) -> exists v, hm_get m k = Some v.
Proof.
  intros I. unfold hm_get. destruct (find _ (rev m)) as [[k' v]|] eqn:E; [cbn; eauto|]. exfalso.
  apply in_map_iff in I as ([k' v] & <- & I). apply in_rev in I. apply (find_none _ _ E) in I. cbn [fst] in I.
  now rewrite str_eqb_refl in I.
Qed.
Lemma decode_not_panic ts data : fits data -> forallb no_dynamic_fixed_array ts = true -> forallb fixed_bytes_sane ts = true ->
  decode p ts data <> Panic.
Proof. intros F A B E. destruct (@decode_no_panic p ts data F A B) as [[vs E']|[E'|[_ E']]]; congruence. Qed.
Lemma parse_log_not_panic e log :
  forallb wf_type (map ep_kind (e_inputs e)) = true ->
  forallb no_dynamic_fixed_array (map ep_kind (isel false (e_inputs e))) = true ->
  forallb fixed_bytes_sane (map ep_kind (e_inputs e)) = true ->
  Forall (fun w => len w = 32) (rl_topics log) -> len (rl_topics log) < 2 ^ 57 -> fits (rl_data log) ->
  parse_log p e log <> Panic.
Proof.
  intros WF ND FS W Lw Fd E. unfold parse_log in E. cbv zeta in E.
  destruct (canonical_exists (e_name e) (map ep_kind (e_inputs e))) as [s C].
  assert (Sig : event_signature e = Ok (keccak256 (utf8 s))) by exact (long_signature_ok C).
  assert (Sel : forall b (f : ParamType -> bool), forallb f (map ep_kind (e_inputs e)) = true -> forallb f (map ep_kind (isel b (e_inputs e))) = true).
  { intros b f H. rewrite forallb_forall in *. intros x I. apply in_map_iff in I as (q & <- & I). apply filter_In in I as [I _].
    apply H. now apply in_map. }
  apply bind_panic in E as [E|(k & Ek & E)].
  { destruct (e_anonymous e); [discriminate|]. destruct (rl_topics log); [discriminate|]. rewrite Sig in E. cbn [bind] in E.
    destruct (negb _); discriminate. }
  change (indexed_params e) with (fun b => isel b (e_inputs e)) in E. cbv beta in E. rewrite <- map_map with (f := ep_kind) in E.
  assert (Wk : Forall (fun w => len w = 32) (skipn (N.to_nat k) (rl_topics log))).
  { rewrite Forall_forall in *. intros x I. apply W. rewrite <- (firstn_skipn (N.to_nat k)). apply in_or_app. now right. }
  assert (Ft : fits (concat (skipn (N.to_nat k) (rl_topics log)))).
  { unfold fits. rewrite (concat_words_len Wk). unfold len in *. rewrite skipn_length. change (2 ^ 63) with (64 * 2 ^ 57). lia. }
  apply bind_panic in E as [E|(ts & E1 & E)].
  { revert E. apply decode_not_panic; [exact Ft|..].
    - rewrite forallb_forall. intros x I. apply in_map_iff in I as (t & <- & I). destruct t; reflexivity.
    - pose proof (Sel true _ FS) as FS'. rewrite forallb_forall in *. intros x I. apply in_map_iff in I as (t & <- & I).
      apply FS' in I. destruct t; try reflexivity. exact I. }
  destruct (negb _); [discriminate|].
  apply bind_panic in E as [E|(ds & E2 & E)].
  { revert E. apply decode_not_panic; auto. }
  apply bind_panic in E as [E|(out & _ & E)]; [|discriminate]. revert E. apply mapM_not_panic.
  assert (L1 : length ts = length (isel true (e_inputs e))).
  { apply decode_length in E1; [now rewrite !map_length in E1| |exact Ft].
    pose proof (Sel true _ WF) as WF'. rewrite forallb_forall in *. intros x I. apply in_map_iff in I as (t & <- & I). now apply convert_wf, WF'. }
  assert (L2 : length ds = length (isel false (e_inputs e))).
  { apply decode_length in E2; [now rewrite map_length in E2|auto|exact Fd]. }
  apply Forall_forall. intros n I. unfold hm_index.
  destruct (@hm_get_some (combine (map ep_name (isel true (e_inputs e))) ts ++ combine (map ep_name (isel false (e_inputs e))) ds) n) as [v ->];
    [|discriminate].
  rewrite map_app, !fst_combine by now rewrite map_length. rewrite <- map_app.
  eapply Permutation_in; [apply Permutation_map, Permutation_sym, isel_perm|exact I].
Qed.
End Shape.

(** ** Emitted logs *)
Lemma abi_encode_one t v : dynamic t = false -> abi_encode [t] [v] = abi_enc t v.
Proof.
  intros D. unfold abi_encode. rewrite tuple_enc. cbn [combine map fst snd]. unfold enc_seq. cbn [heads tails map].
  rewrite D. cbn [heads tails]. now rewrite !app_nil_r.
Qed.
Lemma value_type_static t : value_type t = true -> dynamic t = false.
Proof. destruct t; try discriminate; reflexivity. Qed.
Lemma scalar_topic k v : value_type k = true -> solidity_type k = true -> has_type v k = true ->
  len (abi_enc k v) = 32 /\ topic_value k (abi_enc k v) v.
Proof.
  intros V S T. destruct k, v; try discriminate; cbn [abi_enc topic_value has_type] in *.
  - rewrite len_app, len_zeros. split; [lia|reflexivity].
  - split; [apply len_word|]. f_equal. symmetry. apply word_value. lia.
  - split; [apply len_word|]. f_equal. symmetry. apply word_value. lia.
  - split; [apply len_word|]. destruct b; rewrite word_value by reflexivity; split; reflexivity.
  - cbn [solidity_type] in S. rewrite len_app, ceil32_padding. unfold ceil32. split; [lia|].
    f_equal. rewrite firstn_app. replace (N.to_nat size - length b)%nat with 0%nat by (unfold len in T; lia).
    cbn [firstn]. rewrite app_nil_r. symmetry. apply firstn_all2. unfold len in T. lia.
Qed.
Lemma topic_of_len k v : solidity_type k = true -> has_type v k = true -> len (topic_of k v) = 32.
Proof.
  intros S T. unfold topic_of. destruct (value_type k) eqn:V.
  - rewrite abi_encode_one by now apply value_type_static. now apply scalar_topic.
  - unfold len. now rewrite keccak_length.
Qed.
Lemma topic_of_value k v b n : solidity_type k = true -> has_type v k = true ->
  topic_value k (topic_of k v) (visible (mkEventParam n k true) v) /\ visible (mkEventParam n k b) v = if b then visible (mkEventParam n k true) v else v.
Proof.
  intros S T. split; [|now destruct b]. unfold visible, topic_of. cbn [ep_indexed ep_kind andb]. destruct (value_type k) eqn:V; cbn [negb].
  - rewrite abi_encode_one by now apply value_type_static. now apply scalar_topic.
  - destruct k; try discriminate; reflexivity.
Qed.

Section Emit.
Context (p : profile).
Lemma select_kinds b inputs : forall vs, length vs = length inputs -> kinds_of (select b inputs vs) = map ep_kind (isel b inputs).
Proof.
  induction inputs as [|ep inputs IH]; intros [|v vs] L; try discriminate; [reflexivity|].
  unfold select, isel in *. cbn [combine filter fst]. specialize (IH vs ltac:(now injection L)).
  destruct (Bool.eqb (ep_indexed ep) b); [|exact IH]. cbn [kinds_of map fst]. f_equal. exact IH.
Qed.
Lemma typed_select b inputs vs : Forall2 (fun v t => has_type v t = true) vs (map ep_kind inputs) ->
  Forall2 (fun v t => has_type v t = true) (values_of (select b inputs vs)) (kinds_of (select b inputs vs)).
Proof.
  revert vs. induction inputs as [|ep inputs IH]; intros vs F; inversion F as [|v ? vs' ? T F']; subst; [constructor|].
  unfold select in *. cbn [combine filter fst]. destruct (Bool.eqb (ep_indexed ep) b); [|now apply IH].
  cbn [values_of kinds_of map fst snd]. constructor; [exact T|now apply IH].
Qed.
Lemma emitted_topics_read inputs vs : Forall2 (fun v t => has_type v t = true) vs (map ep_kind inputs) ->
  forallb solidity_type (map ep_kind inputs) = true ->
  Forall (fun w => len w = 32) (indexed_topics inputs vs) /\
  topics_read (map ep_kind (isel true inputs)) (indexed_topics inputs vs) (map (fun x => visible (fst x) (snd x)) (select true inputs vs)).
Proof.
  unfold topics_read, indexed_topics. revert vs. induction inputs as [|[n k b] inputs IH]; intros vs F S; inversion F as [|v ? vs' ? T F']; subst.
  { repeat constructor. }
  cbn [map forallb ep_kind] in S, T. apply andb_true_iff in S as [S1 S2]. specialize (IH vs' F' S2) as (IH1 & IH2 & IH3).
  unfold select in *. cbn [combine isel filter fst ep_indexed]. destruct b; cbn [Bool.eqb]; [|auto].
  cbn [map fst snd ep_kind combine length]. split; [constructor; [now apply topic_of_len|exact IH1]|].
  split; [f_equal; exact IH2|]. constructor; [|exact IH3]. cbn [fst snd]. now apply (@topic_of_value k v true n).
Qed.
Lemma emitted_dealt inputs vs : length vs = length inputs ->
  dealt inputs (map (fun x => visible (fst x) (snd x)) (select true inputs vs)) (values_of (select false inputs vs))
    (map (fun x => mkLogParam (ep_name (fst x)) (visible (fst x) (snd x))) (combine inputs vs)).
Proof.
  revert vs. induction inputs as [|[n k b] inputs IH]; intros [|v vs] L; try discriminate; [constructor|].
  specialize (IH vs ltac:(now injection L)). unfold select in *. cbn [combine filter fst ep_indexed map snd ep_name]. destruct b; cbn [Bool.eqb].
  - cbn [map fst snd]. now constructor.
  - cbn [values_of map fst snd]. now constructor.
Qed.
Lemma parse_emitted e vs log : emits e vs log ->
  have_types vs (map ep_kind (e_inputs e)) = true -> NoDup (map ep_name (e_inputs e)) ->
  forallb wf_type (map ep_kind (e_inputs e)) = true -> forallb solidity_type (map ep_kind (e_inputs e)) = true ->
  forallb short_arrays vs = true -> len (e_inputs e) < 2 ^ 56 ->
  enc_size (PTuple (map ep_kind (isel false (e_inputs e)))) (TTuple (values_of (select false (e_inputs e) vs))) < two32 ->
  forallb zero_size (map ep_kind (isel false (e_inputs e))) = false \/ isel false (e_inputs e) = [] ->
  parse_log p e log = Ok (mkLog (map (fun x => mkLogParam (ep_name (fst x)) (visible (fst x) (snd x))) (combine (e_inputs e) vs))).
Proof.
  intros [(s & C & Et) Ed] T ND WF S A Li Sz Z. unfold have_types in T. apply tuple_type in T.
  assert (Lv : length vs = length (e_inputs e)) by (apply Forall2_length in T; now rewrite map_length in T).
  destruct (@emitted_topics_read (e_inputs e) vs T S) as [W TR].
  assert (Sel : forall b (f : ParamType -> bool), forallb f (map ep_kind (e_inputs e)) = true -> forallb f (map ep_kind (isel b (e_inputs e))) = true).
  { intros b f H. rewrite forallb_forall in *. intros x I. apply in_map_iff in I as (q & <- & I). apply filter_In in I as [I _].
    apply H. now apply in_map. }
  assert (D : decode p (map ep_kind (isel false (e_inputs e))) (rl_data log) = Ok (values_of (select false (e_inputs e) vs))).
  { rewrite Ed, select_kinds by exact Lv. apply round_trip_data; auto.
    - unfold have_types. apply tuple_type. rewrite <- (@select_kinds false _ _ Lv). now apply typed_select.
    - rewrite forallb_forall in *. intros x I. apply in_map_iff in I as ([q v] & <- & I). apply filter_In in I as [I _].
      apply in_combine_r in I. auto.
    - destruct Z as [Z|Z]; [left; exact Z|right; now rewrite Z]. }
  assert (Ls : len (rl_topics log) <= 1 + len (e_inputs e)).
  { rewrite Et, len_app. assert (H : len (indexed_topics (e_inputs e) vs) <= len (e_inputs e)).
    { unfold indexed_topics, len. rewrite map_length. unfold select.
      assert (H : (length (filter (fun x => Bool.eqb (ep_indexed (fst x)) true) (combine (e_inputs e) vs)) <= length (combine (e_inputs e) vs))%nat).
      { generalize (combine (e_inputs e) vs). intros l. induction l as [|x l IH]; cbn [filter length]; [lia|]. destruct (Bool.eqb _ _); cbn [length]; lia. }
      rewrite combine_length in H. lia. }
    destruct (e_anonymous e); unfold len at 1; cbn [length]; lia. }
  assert (Wt : Forall (fun w => len w = 32) (rl_topics log)).
  { rewrite Et. apply Forall_app. split; [|exact W]. destruct (e_anonymous e); [constructor|]. constructor; [|constructor].
    unfold len. now rewrite keccak_length. }
  assert (Fd : fits (rl_data log)).
  { unfold fits. rewrite Ed, select_kinds by exact Lv. unfold abi_encode. rewrite abi_enc_size.
    - eapply N.lt_trans; [exact Sz|reflexivity].
    - apply tuple_type. rewrite <- (@select_kinds false _ _ Lv). now apply typed_select. }
  apply (@parse_log_iff p e log _ s C ND WF); auto.
  - rewrite forallb_forall. pose proof (Sel true _ S) as S'. rewrite forallb_forall in S'. intros x I. apply S' in I.
    destruct x; try reflexivity. cbn in *. lia.
  - change (2 ^ 57) with (2 * 2 ^ 56). lia.
  - exists (indexed_topics (e_inputs e) vs), (map (fun x => visible (fst x) (snd x)) (select true (e_inputs e) vs)),
      (values_of (select false (e_inputs e) vs)).
    split; [exact Et|]. split; [exact TR|]. split; [exact D|]. now apply emitted_dealt.
Qed.
End Emit.

(** [parse_log_iff] in terms of what can be read from the log. *)
Lemma parse_log_reads p e log l s :
  canonical_signature (e_name e) (map ep_kind (e_inputs e)) s -> NoDup (map ep_name (e_inputs e)) ->
  forallb wf_type (map ep_kind (e_inputs e)) = true ->
  forallb topic_sized (map ep_kind (isel true (e_inputs e))) = true ->
  Forall (fun w => len w = 32) (rl_topics log) -> len (rl_topics log) < 2 ^ 57 -> fits (rl_data log) ->
  (parse_log p e log = Ok l <->
   exists topics ts ds next, rl_topics log = topics_prefix e s ++ topics /\
     topics_read (map ep_kind (isel true (e_inputs e))) topics ts /\
     (rl_data log <> [] \/ Forall may_be_empty (map ep_kind (isel false (e_inputs e)))) /\
     reads_seq (rl_data log) (map ep_kind (isel false (e_inputs e))) 0 ds next /\
     dealt (e_inputs e) ts ds (l_params l)).
Proof.
  intros C ND WF S W Lw Fd. rewrite (@parse_log_iff p e log l s C ND WF S W Lw Fd).
  assert (WFs : forallb wf_type (map ep_kind (isel false (e_inputs e))) = true).
  { rewrite forallb_forall in *. intros x I. apply in_map_iff in I as (q & <- & I). apply filter_In in I as [I _].
    apply WF. now apply in_map. }
  split.
  - intros (topics & ts & ds & Et & TR & D & De). apply decode_reads in D as [Ne [next R]]; auto. exists topics, ts, ds, next. auto.
  - intros (topics & ts & ds & next & Et & TR & Ne & R & De). exists topics, ts, ds. split; [exact Et|]. split; [exact TR|].
    split; [|exact De]. apply decode_reads; eauto.
Qed.

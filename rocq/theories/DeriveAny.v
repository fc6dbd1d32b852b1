(** * The generated parse_log and filters on all logs *)
From Verif Require Import Base BaseFacts StrFacts Types AbiSpec TypeNames TypeNamesSpec DecoderSpec Decoder DecoderFacts DecoderProps EncoderFacts CodecLemmas Function Event EventSpec EventFacts EventExact EventInverse
  FilterFacts FilterExact Contract Keccak Derive DeriveSpec DeriveFacts DeriveCalls DeriveEvents.
From Coq Require Import String Lia.
Set Implicit Arguments.
Notation length := List.length.
Local Open Scope N_scope.
Local Open Scope list_scope.
Local Opaque keccak256.

Lemma convert_all_exact ks fs xs : mapM from_token ks = Ok fs -> forallb plain_type ks = true -> forallb wf_token xs = true -> length xs = length ks ->
  (forall vs, convert_all fs xs = Ok vs <-> Forall3 denotes ks vs xs) /\ ((forall vs, ~ Forall3 denotes ks vs xs) -> convert_all fs xs = Panic).
Proof.
  intros E. apply mapM_ok in E. revert xs. induction E as [|k f ks fs Ef E IH]; intros [|x xs] P W L; cbn [length] in L; try discriminate.
  - split; [|intros N; elim (N []); constructor]. intros vs. cbn [convert_all]. split; [intros H; injection H as <-; constructor|]. intros H. inversion H. reflexivity.
  - cbn [forallb] in P, W. apply andb_true_iff in P as [P1 P2], W as [W1 W2]. injection L as L. destruct (IH xs P2 W2 L) as [IO IP]. destruct (from_token_only k P1) as (g & Eg & G). rewrite Ef in Eg. injection Eg as <-.
    destruct (G x W1) as [GO GP]. cbn [convert_all]. split.
    + intros vs. split.
      * intros H. apply bind_ok in H as (v & H1 & H). apply bind_ok in H as (vs' & H2 & H). injection H as <-. constructor; [now apply GO|now apply IO].
      * intros H. inversion H as [|? v ? ? vs' ? H1 H2]; subst. apply GO in H1. apply IO in H2. rewrite H1. cbn [bind]. rewrite H2. reflexivity.
    + intros N. destruct (f x) as [v|er|] eqn:Fx; [|exfalso|reflexivity].
      * cbn [bind]. rewrite IP; [reflexivity|]. intros vs H. apply (N (v :: vs)). constructor; [now apply GO|exact H].
      * assert (C : forall v, ~ denotes k v x) by (intros v H; apply GO in H; congruence). apply GP in C. congruence.
Qed.
Lemma topic_value_wf k w v : len w = 32 -> topic_value k w v -> wf_token v = true.
Proof.
  intros L T. assert (B : of_be w < two256) by (pose proof (of_be_lt w) as B; rewrite L in B; exact B).
  destruct k; cbn [topic_value] in T; try (subst v; cbn [wf_token]; reflexivity); try (subst v; cbn [wf_token]; now apply N.ltb_lt).
  - subst v. cbn [wf_token]. apply N.eqb_eq. unfold len in *. rewrite skipn_length. lia.
  - destruct T as [_ ->]. reflexivity.
Qed.
Lemma topics_wf ks ws vs : Forall (fun w => len w = 32) ws -> topics_read ks ws vs -> forallb wf_token vs = true.
Proof.
  intros F [L R]. revert ks vs L R. induction F as [|w ws W F IH]; intros [|k ks] vs L R; try discriminate; cbn [combine] in R; inversion R as [|? v ? vs' T R']; subst; [reflexivity|].
  cbn [forallb]. cbn [fst snd] in T. rewrite (@topic_value_wf k w v W T). cbn [andb]. injection L as L. now apply (IH ks).
Qed.
Lemma last_named_in l n v : last_named l n v -> In v (map lp_value l).
Proof. intros (a & b & -> & _). rewrite map_app, in_app_iff. right. now left. Qed.
Lemma named_values b inputs vs v : In v (map lp_value (EventSpec.named b inputs vs)) -> In v vs.
Proof.
  unfold EventSpec.named. rewrite map_map. cbn [lp_value]. intros I. apply in_map_iff in I as ([q x] & <- & I). cbn [snd]. now apply in_combine_r in I.
Qed.
Lemma have_types_wf vs ts : have_types vs ts = true -> forallb wf_token vs = true.
Proof.
  intros H. unfold have_types in H. apply tuple_type in H. induction H as [|v t vs ts H F IH]; [reflexivity|]. cbn [forallb]. now rewrite (has_type_wf _ _ H), IH.
Qed.
Section Logs.
Context (p : profile) (e : Event) (d : DEvent) (log : RawLog) (s : str).
Hypothesis D : derive_event p e = Ok d.
Hypothesis C : canonical_signature (e_name (de_event d)) (map ep_kind (e_inputs e)) s.
Hypothesis W : forallb wf_type (map ep_kind (e_inputs e)) = true.
Hypothesis TS : forallb topic_sized (map ep_kind (isel true (e_inputs e))) = true.
Hypothesis T32 : Forall (fun w => len w = 32) (rl_topics log).
Hypothesis TL : len (rl_topics log) < 2 ^ 57.
Hypothesis FT : fits (rl_data log).
(** [ys] are the values found for the inputs. *)
Definition finds (ys : list Token) : Prop := exists topics ts ds next, rl_topics log = topics_prefix (de_event d) s ++ topics /\
  topics_read (map ep_kind (isel true (e_inputs e))) topics ts /\
  (rl_data log <> [] \/ Forall may_be_empty (map ep_kind (isel false (e_inputs e)))) /\
  reads_seq (rl_data log) (map ep_kind (isel false (e_inputs e))) 0 ds next /\
  Forall2 (last_named (EventSpec.named true (e_inputs e) ts ++ EventSpec.named false (e_inputs e) ds)) (map ep_name (e_inputs e)) ys.
Lemma event_same : e_inputs (de_event d) = e_inputs e.
Proof using D. apply derive_event_inv in D as (_ & -> & _). reflexivity. Qed.
Lemma parse_finds l : parse_log p (de_event d) log = Ok l -> finds (map lp_value (l_params l)) /\ map lp_name (l_params l) = map ep_name (e_inputs e).
Proof using D C W TS T32 TL FT.
  intros E. pose proof event_same as I. apply (@parse_log_any p (de_event d) log s) in E; rewrite ?I in *; auto. destruct E as (topics & ts & ds & next & E1 & E2 & E3 & E4 & E5 & E6).
  split; [|exact E5]. exists topics, ts, ds, next. repeat (split; [assumption|]). rewrite <- E5. clear - E6. induction E6; cbn [map]; constructor; auto.
Qed.
Lemma finds_parse ys : finds ys -> exists l, parse_log p (de_event d) log = Ok l /\ map lp_value (l_params l) = ys.
Proof using D C W TS T32 TL FT.
  intros (topics & ts & ds & next & E1 & E2 & E3 & E4 & E5). exists (mkLog (map (fun x => mkLogParam (fst x) (snd x)) (combine (map ep_name (e_inputs e)) ys))).
  assert (LY : length ys = length (map ep_name (e_inputs e))) by (symmetry; exact (Forall2_length E5)).
  split.
  - pose proof event_same as I. apply (@parse_log_any p (de_event d) log s); rewrite ?I; auto. exists topics, ts, ds, next. repeat (split; [assumption|]). cbn [l_params]. split.
    + rewrite map_map. cbn [lp_name]. clear - LY. revert ys LY. induction (map ep_name (e_inputs e)) as [|n l IH]; intros [|y ys] L; try discriminate; [reflexivity|]. cbn [combine map fst]. f_equal. apply IH. now injection L.
    + clear - E5. induction E5; cbn [combine map]; constructor; auto.
  - cbn [l_params]. rewrite map_map. cbn [lp_value]. clear - LY. revert ys LY. induction (map ep_name (e_inputs e)) as [|n l IH]; intros [|y ys] L; try discriminate; [reflexivity|]. cbn [combine map snd]. f_equal. apply IH. now injection L.
Qed.
Lemma finds_wf ys : finds ys -> forallb wf_token ys = true /\ length ys = length (map ep_kind (e_inputs e)).
Proof using T32.
  intros (topics & ts & ds & next & E1 & E2 & E3 & E4 & E5). split.
  - apply forallb_forall. intros y I. assert (H : exists n, last_named (EventSpec.named true (e_inputs e) ts ++ EventSpec.named false (e_inputs e) ds) n y).
    { clear - E5 I. induction E5; [easy|]. destruct I as [<-|I]; eauto. }
    destruct H as [n H]. apply last_named_in in H. rewrite map_app, in_app_iff in H.
    assert (TW : forallb wf_token ts = true). { eapply topics_wf; [|exact E2]. rewrite E1 in T32. apply Forall_app in T32. apply T32. }
    pose proof (reads_seq_typed E4) as DW. apply have_types_wf in DW. rewrite forallb_forall in TW, DW. destruct H as [H|H]; apply named_values in H; auto.
  - rewrite map_length. apply Forall2_length in E5. rewrite map_length in E5. now symmetry.
Qed.
Lemma derived_converts : exists fs, mapM from_token (map ep_kind (e_inputs e)) = Ok fs /\ forallb plain_type (map ep_kind (e_inputs e)) = true /\
  de_parse_log d log = do l <- parse_log p (de_event d) log; convert_all fs (map lp_value (l_params l)).
Proof using D.
  apply derive_event_inv in D as (P & _ & _ & _ & _ & (fs & F & Q) & _). exists fs. split; [|split; [exact P|apply Q]].
  apply mapM_ok. apply mapM_ok in F. clear - F. induction F; cbn [map]; constructor; auto.
Qed.
(** The result for any log. *)
Lemma derived_any vs : de_parse_log d log = Ok vs <-> exists ys, finds ys /\ Forall3 denotes (map ep_kind (e_inputs e)) vs ys.
Proof using D C W TS T32 TL FT.
  destruct derived_converts as (fs & F & P & ->). split.
  - intros E. apply bind_ok in E as (l & E & CV). apply parse_finds in E as [FD _]. exists (map lp_value (l_params l)). split; [exact FD|].
    destruct (finds_wf FD) as [WF L]. now apply (@convert_all_exact _ _ _ F P WF L).
  - intros (ys & FD & DN). destruct (finds_wf FD) as [WF L]. apply (proj1 (@convert_all_exact _ _ _ F P WF L)) in DN. destruct (finds_parse FD) as (l & E & <-). rewrite E. exact DN.
Qed.
Lemma plain_no_fixed l : forallb plain_type l = true -> forallb no_dynamic_fixed_array l = true.
Proof using.
  rewrite !forallb_forall. intros H k I. specialize (H k I). clear I. induction k; cbn [plain_type no_dynamic_fixed_array] in *; try reflexivity; try discriminate; auto.
Qed.
(** It panics if a value that is found does not fit its field. *)
Lemma derived_any_panics : forallb fixed_bytes_sane (map ep_kind (e_inputs e)) = true ->
  (de_parse_log d log = Panic <-> exists ys, finds ys /\ forall vs, ~ Forall3 denotes (map ep_kind (e_inputs e)) vs ys).
Proof using D C W TS T32 TL FT.
  intros SN. destruct derived_converts as (fs & F & P & ->). rewrite bind_panic. split.
  - intros [E|(l & E & CV)].
    + exfalso. revert E. pose proof event_same as I. apply parse_log_not_panic; rewrite ?I; auto. apply plain_no_fixed. rewrite forallb_forall in *. intros k K. apply P. apply in_map_iff in K as (q & <- & K). apply in_map. now apply filter_In in K.
    + apply parse_finds in E as [FD _]. exists (map lp_value (l_params l)). split; [exact FD|]. intros vs DN. destruct (finds_wf FD) as [WF L]. apply (proj1 (@convert_all_exact _ _ _ F P WF L)) in DN. congruence.
  - intros (ys & FD & N). right. destruct (finds_wf FD) as [WF L]. destruct (finds_parse FD) as (l & E & <-). exists l. split; [exact E|]. now apply (@convert_all_exact _ _ _ F P WF L).
Qed.
End Logs.
(** ** Filters, for indexed inputs of any type *)
Lemma derived_filter_any p e d args ts f xs log : let kinds := map ep_kind (isel true (e_inputs e)) in let values := values_of (select true (e_inputs e) xs) in
  derive_event p e = Ok d -> Forall3 topic_denotes kinds args ts ->
  emits (de_event d) xs log -> have_types xs (map ep_kind (e_inputs e)) = true -> forallb solidity_type (map ep_kind (e_inputs e)) = true ->
  (forall i, (i < 3)%nat -> topic_small (nth i ts Any) (nth_error kinds i)) -> de_filter d args = Ok f ->
  (filter_matches f (rl_topics log) <-> forall i, (i < 3)%nat -> asked_matches (nth i ts Any) (nth_error kinds i) (nth_error values i)).
Proof.
  intros kinds values D F Em T S Sm E. pose proof (@derived_event_kinds p e d D) as [K _]. destruct (@derived_raw p e d args ts D F) as [Q R]. rewrite Q in E.
  assert (E' : event_filter p (de_event d) (raw_filter ts) = Ok f) by (destruct (event_filter _ _ _); try discriminate; exact E).
  rewrite (@filter_exact p (de_event d) (raw_filter ts) f xs log); rewrite ?K; auto; [|apply (Sm 0%nat); lia|apply (Sm 1%nat); lia|apply (Sm 2%nat); lia].
  cbn [raw_topic0 raw_topic1 raw_topic2 raw_filter]. split.
  - intros (M0 & M1 & M2) [|[|[|i]]] L; [exact M0|exact M1|exact M2|lia].
  - intros M. split; [|split]; [apply (M 0%nat)|apply (M 1%nat)|apply (M 2%nat)]; lia.
Qed.

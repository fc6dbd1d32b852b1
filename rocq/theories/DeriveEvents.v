(** * Derived events and contracts *)
From Verif Require Import Base BaseFacts StrFacts Types TypeNames TypeNamesSpec Encoder EncoderTotal Decoder AbiSpec EncoderFacts DecoderProps CodecLemmas Keccak
  Function FunctionFacts Tokenizer TokenFacts Event EventSpec EventFacts FilterFacts Json Contract Heck HeckFacts Derive DeriveSpec DeriveFacts DeriveCalls.
From Coq Require Import String.
From Coq Require Import ZifyBool ZifyNat ZifyN Lia.
Set Implicit Arguments.
Local Open Scope N_scope.
Local Open Scope list_scope.
Notation length := List.length.
Local Opaque keccak256.

Lemma event_inputs_ok l r : event_inputs l = Ok r -> r = l.
Proof.
  unfold event_inputs. revert r. induction l as [|x l IH]; intros r E; cbn [mapM] in E; [now injection E as <-|].
  apply bind_ok in E as (a & Ea & E). apply bind_ok in E as (r' & Er & E). injection E as <-.
  apply bind_ok in Ea as (k & Ek & Ea). apply to_syntax_ok in Ek as [-> N]. injection Ea as <-. apply IH in Er as ->. now destruct x.
Qed.
Lemma plain_sized t : plain_type t = true -> zero_size t = false.
Proof. destruct t; cbn; auto; discriminate. Qed.

Section Profile.
Context (p : profile).
Definition derived_filter (e : Event) (to_tokens : list (rval -> res Token)) (event : Event) (args : list (Topic rval)) : res TopicFilter :=
  do raw <- mapM (fun x => topic_mapM (fst x) (snd x)) (combine to_tokens args);
  expect_ok (event_filter p event (raw_filter raw)).
Lemma derive_event_inv e d : derive_event p e = Ok d ->
  forallb plain_type (map ep_kind (e_inputs e)) = true /\
  de_event d = mkEvent (to_camel_case (e_name e)) (e_inputs e) (e_anonymous e) /\
  de_module d = to_snake_case (e_name e) /\
  mapM (fun q => rust_type (ep_kind q)) (isel true (e_inputs e)) = Ok (de_topic_types d) /\
  mapM (fun q => rust_type (ep_kind q)) (e_inputs e) = Ok (de_fields d) /\
  (exists fs, mapM (fun q => from_token (ep_kind q)) (e_inputs e) = Ok fs /\
     forall log, de_parse_log d log = do l <- parse_log p (de_event d) log; convert_all fs (map lp_value (l_params l))) /\
  (exists gs, mapM (fun q => to_token (ep_kind q)) (firstn 3 (isel true (e_inputs e))) = Ok gs /\
     (forall args, de_filter d args = derived_filter e gs (de_event d) args) /\
     de_wildcard_filter d = derived_filter e gs (de_event d) (map (fun _ => Any) (isel true (e_inputs e)))).
Proof.
  unfold derive_event. rewrite <- isel_indexed. intros E.
  apply bind_ok in E as (names & _ & E). apply bind_ok in E as (kinds & Ek & E). apply bind_ok in E as (fs & Ef & E).
  apply bind_ok in E as (tys & Et & E). apply bind_ok in E as (gs & Eg & E). apply bind_ok in E as (ins & Ei & E).
  apply bind_ok in E as (cn & _ & E). apply bind_ok in E as (m & Em & E).
  apply bind_ok in E as (u & Ec & E). apply check_ok in Ec as [Ec _]. apply andb_true_iff in Ec as [Ec C5]. apply andb_true_iff in Ec as [Ec C4]. apply andb_true_iff in Ec as [Ec C3]. apply andb_true_iff in Ec as [C1 C2].
  apply event_inputs_ok in Ei as ->. injection E as <-.
  cbn [de_event de_module de_topic_types de_fields de_filter de_wildcard_filter de_parse_log].
  split; [rewrite <- C1; symmetry; apply (mapM_kinds ep_kind rust_type plain_type compiles _ plain_rust Ek)|].
  split; [reflexivity|]. split; [now apply ident_ok in Em as [-> _]|].
  split; [exact Et|]. split; [exact Ek|]. split; [eauto|]. exists gs. unfold derived_filter. auto.
Qed.

(** ** Identity *)
Lemma derived_event_kinds e d : derive_event p e = Ok d -> e_inputs (de_event d) = e_inputs e /\ e_anonymous (de_event d) = e_anonymous e.
Proof. intros D. apply derive_event_inv in D as (_ & -> & _). auto. Qed.
Lemma derived_signature e d s s' : derive_event p e = Ok d ->
  canonical_signature (e_name e) (map ep_kind (e_inputs e)) s ->
  canonical_signature (e_name (de_event d)) (map ep_kind (e_inputs (de_event d))) s' ->
  (s' = s <-> camel (e_name e)).
Proof.
  intros D C C'. apply derive_event_inv in D as (_ & Ev & _). rewrite Ev in C'. cbn [e_name e_inputs] in C'.
  apply canonical_iff in C as ->. apply canonical_iff in C' as ->. rewrite <- camel_case_iff. split.
  - apply app_inv_tail.
  - now intros ->.
Qed.
Lemma derived_event_same e d : derive_event p e = Ok d -> (de_event d = e <-> camel (e_name e)).
Proof.
  intros D. apply derive_event_inv in D as (_ & -> & _). rewrite <- camel_case_iff. destruct e as [n i a]. cbn [e_name e_inputs e_anonymous].
  split; [intros E; now injection E|now intros ->].
Qed.
(** A log of the event of the file is taken for a foreign one. *)
Lemma derived_rejects e d vs log s s' : derive_event p e = Ok d -> e_anonymous e = false -> emits e vs log ->
  canonical_signature (e_name e) (map ep_kind (e_inputs e)) s ->
  canonical_signature (e_name (de_event d)) (map ep_kind (e_inputs (de_event d))) s' ->
  keccak256 (utf8 s') <> keccak256 (utf8 s) -> de_parse_log d log = Err InvalidData.
Proof.
  intros D A [(s0 & C0 & T) _] C C' NE. rewrite A in T. assert (s0 = s). { apply canonical_iff in C0. apply canonical_iff in C. congruence. } subst s0.
  pose proof (@derived_event_kinds e d D) as [_ A']. apply derive_event_inv in D as (_ & _ & _ & _ & _ & (fs & _ & Q) & _). rewrite Q.
  unfold parse_log. rewrite A', A, T. cbn [app]. unfold event_signature, event_param_types.
  rewrite (@long_signature_ok _ _ _ C'). cbn [bind].
  destruct (bytes_eqb _ _) eqn:B; [|reflexivity]. exfalso. apply NE. symmetry. now apply bytes_eqb_eq.
Qed.
Lemma convert_panics t g v : from_token t = Ok g -> plain_type t = true -> value_type t = false -> g (TFixedBytes v) = Panic.
Proof.
  destruct t; cbn [from_token value_type plain_type]; intros E P V; try discriminate; try (injection E as <-; reflexivity).
  apply bind_ok in E as (f & _ & E). injection E as <-. reflexivity.
Qed.
Lemma emits_derived e d vs log : derive_event p e = Ok d -> camel (e_name e) \/ e_anonymous e = true -> emits e vs log -> emits (de_event d) vs log.
Proof.
  intros D [C|A] Em.
  - apply (@derived_event_same e d D) in C. now rewrite C.
  - apply derive_event_inv in D as (_ & -> & _). destruct Em as [(s & C & T) Dt]. split; [|exact Dt]. cbn [e_name e_inputs e_anonymous].
    destruct (canonical_exists (to_camel_case (e_name e)) (map ep_kind (e_inputs e))) as [s' C']. exists s'. split; [exact C'|].
    rewrite T. now rewrite A.
Qed.
Section Logs.
Context (e : Event) (d : DEvent) (xs : list Token) (log : RawLog).
Hypothesis D : derive_event p e = Ok d.
Hypothesis NM : camel (e_name e) \/ e_anonymous e = true.
Hypothesis EM : emits e xs log.
Hypothesis T : have_types xs (map ep_kind (e_inputs e)) = true.
Hypothesis ND : NoDup (map ep_name (e_inputs e)).
Hypothesis W : forallb wf_type (map ep_kind (e_inputs e)) = true.
Hypothesis S : forallb solidity_type (map ep_kind (e_inputs e)) = true.
Hypothesis SA : forallb short_arrays xs = true.
Hypothesis LI : len (e_inputs e) < 2 ^ 56.
Hypothesis SZ : enc_size (PTuple (map ep_kind (isel false (e_inputs e)))) (TTuple (values_of (select false (e_inputs e) xs))) < two32.
Lemma derived_parse : exists fs, mapM (fun q => from_token (ep_kind q)) (e_inputs e) = Ok fs /\
  de_parse_log d log = convert_all fs (map (fun x => visible (fst x) (snd x)) (combine (e_inputs e) xs)).
Proof.
  pose proof (@derive_event_inv e d D) as (P & Ev & _ & _ & _ & (fs & Ef & Q) & _).
  exists fs. split; [exact Ef|]. rewrite Q.
  rewrite (@parse_emitted p (de_event d) xs log); rewrite ?Ev; cbn [e_inputs e_name]; auto.
  - cbn [bind l_params]. now rewrite map_map.
  - rewrite <- Ev. now apply emits_derived with (e := e).
  - destruct (isel false (e_inputs e)) as [|q l] eqn:I; [now right|]. left. cbn [map forallb]. rewrite plain_sized; [reflexivity|].
    rewrite forallb_forall in P. apply P. apply in_map. assert (In q (isel false (e_inputs e))) by (rewrite I; now left).
    now apply filter_In in H.
Qed.
Lemma derived_values vs : forallb value_type (map ep_kind (isel true (e_inputs e))) = true ->
  Forall3 denotes (map ep_kind (e_inputs e)) vs xs -> de_parse_log d log = Ok vs.
Proof.
  intros V F. destruct derived_parse as (fs & Ef & ->). pose proof (@derive_event_inv e d D) as (P & _).
  assert (E : map (fun x => visible (fst x) (snd x)) (combine (e_inputs e) xs) = xs).
  { clear -V T. unfold have_types in T. apply tuple_type in T. revert xs T. induction (e_inputs e) as [|q l IH]; intros xs T; inversion T as [|x ? xs' ? T1 T2]; subst; [reflexivity|].
    cbn [combine map fst snd]. unfold isel in V. cbn [filter] in V. destruct q as [n k []]; cbn [ep_indexed Bool.eqb map forallb ep_kind] in V.
    - apply andb_true_iff in V as [V1 V2]. unfold visible at 1. cbn [ep_indexed ep_kind]. rewrite V1. cbn [negb andb]. f_equal. now apply IH.
    - unfold visible at 1. cbn [ep_indexed andb]. f_equal. now apply IH. }
  rewrite E. eapply convert_all_ok; [exact Ef| |exact F]. now apply plain_no_tuples.
Qed.
Lemma derived_panics : forallb value_type (map ep_kind (isel true (e_inputs e))) = false -> de_parse_log d log = Panic.
Proof.
  intros V. destruct derived_parse as (fs & Ef & ->). pose proof (@derive_event_inv e d D) as (P & _).
  apply mapM_ok in Ef. clear -V T Ef P. unfold have_types in T. apply tuple_type in T. revert xs T V.
  induction Ef as [|q f l fs Ef F IH]; intros xs T V; inversion T as [|x ? xs' ? T1 T2]; subst; [discriminate|].
  cbn [map forallb] in P. apply andb_true_iff in P as [P1 P2].
  cbn [combine map fst snd convert_all]. unfold isel in V. cbn [filter] in V. destruct q as [n k []]; cbn [ep_indexed Bool.eqb map forallb ep_kind] in *.
  - unfold visible at 1. cbn [ep_indexed ep_kind andb]. destruct (value_type k) eqn:VK; cbn [negb andb] in *.
    + destruct (@denotes_exists _ P1 _ T1) as [v Dv]. destruct (from_token_ok k (plain_no_tuple _ P1)) as (g & Eg & G). rewrite Eg in Ef. injection Ef as <-.
      rewrite (G _ _ Dv). cbn [bind]. now rewrite (IH P2 _ T2 V).
    + now rewrite (@convert_panics _ _ _ Ef P1 VK).
  - unfold visible at 1. cbn [ep_indexed andb].
    destruct (@denotes_exists _ P1 _ T1) as [v Dv]. destruct (from_token_ok k (plain_no_tuple _ P1)) as (g & Eg & G). rewrite Eg in Ef. injection Ef as <-.
    rewrite (G _ _ Dv). cbn [bind]. now rewrite (IH P2 _ T2 V).
Qed.
End Logs.

(** ** Filters *)
Lemma topics_mapped inputs gs args ts : mapM (fun q => to_token (ep_kind q)) (firstn 3 inputs) = Ok gs ->
  forallb no_tuple (map ep_kind inputs) = true -> Forall3 topic_denotes (map ep_kind inputs) args ts ->
  mapM (fun x => topic_mapM (fst x) (snd x)) (combine gs args) = Ok (firstn 3 ts).
Proof.
  generalize 3%nat as n. intros n E P F. apply mapM_ok in E. remember (map ep_kind inputs) as ks eqn:K. revert n gs inputs K E.
  induction F as [|k a t ks args ts H F IH]; intros n gs inputs K E; destruct inputs as [|q inputs]; try discriminate.
  - rewrite firstn_nil in E. inversion E; subst. now rewrite firstn_nil.
  - cbn [map] in K. injection K as -> ->. destruct n as [|n]; cbn [firstn] in *; inversion E as [|? g ? gs' Eg E']; subst; [reflexivity|].
    cbn [combine mapM fst snd]. cbn [forallb] in P. apply andb_true_iff in P as [P1 P2].
    destruct (to_token_ok _ P1) as (g' & Eg' & G). rewrite Eg' in Eg. injection Eg as ->.
    assert (M : topic_mapM g a = Ok t).
    { destruct a as [|l|v], t as [|l'|x]; try (destruct H; fail); cbn [topic_mapM topic_denotes] in *; [reflexivity| |].
      - rewrite (proj2 (mapM_ok g l l')); [reflexivity|]. clear -H G. induction H; constructor; auto.
      - now rewrite (G _ _ H). }
    rewrite M. cbn [bind]. now rewrite (IH P2 n gs' inputs eq_refl E').
Qed.
Lemma topics_exist inputs ys args : mapM (fun q => rust_type (ep_kind q)) inputs = Ok ys ->
  forallb plain_type (map ep_kind inputs) = true -> Forall2 topic_of_type ys args -> exists ts, Forall3 topic_denotes (map ep_kind inputs) args ts.
Proof.
  intros E P M. apply mapM_ok in E. revert args M. induction E as [|q y inputs ys E F IH]; intros args M; inversion M as [|? a ? args' A M']; subst.
  - exists []. constructor.
  - cbn [map forallb] in *. apply andb_true_iff in P as [P1 P2]. destruct (IH P2 args' M') as [ts X].
    assert (Q : exists t, topic_denotes (ep_kind q) a t).
    { destruct a as [|l|v]; unfold topic_of_type in A; cbn [topic_tokens] in A.
      - now exists Any.
      - assert (L : exists l', Forall2 (denotes (ep_kind q)) l l').
        { clear M. induction A as [|v l V A [l' IHl]]; [exists []; constructor|]. apply (@denotes_value _ _ P1 E) in V as [x V]. exists (x :: l'). now constructor. }
        destruct L as [l' L]. exists (OneOf l'). exact L.
      - inversion A as [|? ? V _]; subst. apply (@denotes_value _ _ P1 E) in V as [x V]. now exists (This x). }
    destruct Q as [t Q]. exists (t :: ts). now constructor.
Qed.
Lemma topics_typed ks args ts i : Forall3 topic_denotes ks args ts -> topic_typed (nth i ts Any) (nth_error ks i).
Proof.
  intros F. revert i. induction F as [|k a t ks args ts H F IH]; intros i; [destruct i; constructor|].
  destruct i as [|i]; cbn [nth nth_error]; [|apply IH]. unfold topic_typed. destruct a as [|l|v], t as [|l'|x]; try (destruct H; fail); cbn [topic_tokens topic_denotes] in *.
  - constructor.
  - induction H; constructor; eauto using denotes_typed.
  - constructor; eauto using denotes_typed.
Qed.
Lemma nth_firstn3 A (l : list A) i a : (i < 3)%nat -> nth i (firstn 3 l) a = nth i l a.
Proof. intros H. destruct l as [|x [|y [|z l]]], i as [|[|[|i]]]; try reflexivity; try (cbn; now rewrite ?firstn_nil); lia. Qed.
Lemma raw_filter_first ts : raw_filter (firstn 3 ts) = raw_filter ts.
Proof. unfold raw_filter. rewrite !nth_firstn3 by lia. reflexivity. Qed.
Lemma derived_raw e d args ts : derive_event p e = Ok d -> Forall3 topic_denotes (map ep_kind (isel true (e_inputs e))) args ts ->
  de_filter d args = expect_ok (event_filter p (de_event d) (raw_filter ts)) /\ raw_typed (raw_filter ts) (map ep_kind (isel true (e_inputs e))).
Proof.
  intros D F. apply derive_event_inv in D as (P & _ & _ & _ & _ & _ & (gs & Eg & Q & _)). split.
  - rewrite Q. unfold derived_filter. rewrite (@topics_mapped _ _ args ts Eg); [cbn [bind]; now rewrite raw_filter_first| |exact F].
    rewrite forallb_forall in *. intros t I. apply plain_no_tuple, P. apply in_map_iff in I as (q & <- & I). apply in_map. now apply filter_In in I.
  - unfold raw_typed, raw_filter. cbn [raw_topic0 raw_topic1 raw_topic2]. split; [|split]; now apply (@topics_typed _ args).
Qed.
Lemma raw_matches_iff ts vals : (length ts <= length vals)%nat -> raw_matches (raw_filter ts) vals <->
  forall i t v, (i < 3)%nat -> nth_error ts i = Some t -> nth_error vals i = Some v -> topic_matches t (Some v).
Proof.
  intros L. unfold raw_matches, raw_filter. cbn [raw_topic0 raw_topic1 raw_topic2].
  assert (H : forall i, topic_matches (nth i ts Any) (nth_error vals i) <-> forall t v, nth_error ts i = Some t -> nth_error vals i = Some v -> topic_matches t (Some v)).
  { intros i. split.
    - intros M t v Et Ev. rewrite Ev in M. now rewrite (nth_error_nth _ _ _ Et) in M.
    - intros M. destruct (nth_error ts i) as [t|] eqn:Et.
      + rewrite (nth_error_nth _ _ _ Et). destruct (nth_error vals i) as [v|] eqn:Ev; [eauto|]. exfalso.
        apply nth_error_None in Ev. assert (i < length ts)%nat by (apply nth_error_Some; congruence). lia.
      + apply nth_error_None in Et. now rewrite nth_overflow. }
  rewrite !H. split.
  - intros (H0 & H1 & H2) [|[|[|i]]] t v I; eauto. lia.
  - intros M. repeat split; intros t v; apply M; lia.
Qed.
Lemma derived_matches e d args ts f xs log : derive_event p e = Ok d -> Forall3 topic_denotes (map ep_kind (isel true (e_inputs e))) args ts ->
  emits (de_event d) xs log -> have_types xs (map ep_kind (e_inputs e)) = true -> forallb solidity_type (map ep_kind (e_inputs e)) = true ->
  forallb value_type (map ep_kind (isel true (e_inputs e))) = true -> de_filter d args = Ok f ->
  (filter_matches f (rl_topics log) <->
   forall i t v, (i < 3)%nat -> nth_error ts i = Some t -> nth_error (values_of (select true (e_inputs e) xs)) i = Some v -> topic_matches t (Some v)).
Proof.
  intros D F Em T S V E. pose proof (@derived_event_kinds e d D) as [K _]. destruct (@derived_raw e d args ts D F) as [Q R]. rewrite Q in E.
  assert (E' : event_filter p (de_event d) (raw_filter ts) = Ok f) by (destruct (event_filter _ _ _); try discriminate; exact E).
  rewrite (@filter_matches_values p (de_event d) (raw_filter ts) f xs log); rewrite ?K; auto. apply raw_matches_iff.
  clear -F T. assert (L : forall ks (args : list (Topic rval)) ts, Forall3 topic_denotes ks args ts -> length ts = length ks) by (induction 1; cbn; auto).
  apply L in F. rewrite F, map_length. unfold have_types in T. apply tuple_type in T. clear -T. revert xs T.
  induction (e_inputs e) as [|q l IH]; intros xs T; inversion T as [|x ? xs' ? T1 T2]; subst; [reflexivity|].
  unfold isel, values_of, select. cbn [combine filter fst]. specialize (IH xs' T2). destruct (Bool.eqb (ep_indexed q) true); cbn [length map]; unfold isel, values_of, select in IH; lia.
Qed.
End Profile.

Lemma no_tuple_short x t k : plain_type t = true -> has_type x t = true -> no_long_tuple x k = true.
Proof.
  revert x k. induction t using ParamType_ind'; intros x k P T; cbn [plain_type] in P; try discriminate; destruct x; try discriminate; destruct k; try reflexivity.
  cbn [no_long_tuple has_type] in *. rewrite forallb_forall in *. intros v I. apply IHt; auto.
Qed.
Lemma has_loosely x k : has_type x k = true -> loosely_typed x k = true.
Proof. intros H. apply type_check_loose. now apply has_type_check. Qed.
Lemma topics_accepted ks args ts i : Forall3 topic_denotes ks args ts -> topic_accepted (nth i ts Any) (nth_error ks i) = true.
Proof.
  intros F. revert i. induction F as [|k a t ks args ts H F IH]; intros i; [now destruct i|].
  destruct i as [|i]; cbn [nth nth_error]; [|apply IH]. unfold topic_accepted. destruct a as [|l|v], t as [|l'|x]; try (destruct H; fail); cbn [topic_tokens topic_denotes] in *.
  - reflexivity.
  - apply forallb_forall. intros x I. apply has_loosely. induction H as [|v0 y0 vs0 ys0 D H IHl]; [easy|]. destruct I as [<-|I]; eauto using denotes_typed.
  - cbn [forallb]. rewrite has_loosely; [reflexivity|]. eauto using denotes_typed.
Qed.
Lemma derived_filter_release e d args : derive_event Release e = Ok d -> Forall2 topic_of_type (de_topic_types d) args ->
  exists f, de_filter d args = Ok f.
Proof.
  intros D M. pose proof (@derive_event_inv Release e d D) as (P & Ev & _ & Et & _).
  assert (P' : forallb plain_type (map ep_kind (isel true (e_inputs e))) = true).
  { rewrite forallb_forall in *. intros t I. apply P. apply in_map_iff in I as (q & <- & I). apply in_map. now apply filter_In in I. }
  destruct (@topics_exist _ _ _ Et P' M) as [ts F]. destruct (@derived_raw Release e d args ts D F) as [-> R].
  assert (SF : raw_safe Release (raw_filter ts) (map ep_kind (isel true (e_inputs (de_event d))))).
  { rewrite Ev. cbn [e_inputs]. apply release_safe. intros v I.
    assert (Q : exists k, In k (map ep_kind (isel true (e_inputs e))) /\ has_type v k = true).
    { destruct R as (R0 & R1 & R2). unfold topic_typed in *. rewrite Forall_forall in R0, R1, R2.
      destruct I as [I|[I|I]]; [apply R0 in I|apply R1 in I|apply R2 in I]; destruct I as (k & E & H); exists k; (split; [|exact H]); now apply nth_error_In in E. }
    destruct Q as (k & Ik & H). split; [now apply has_type_wf in H|]. intros k' _. rewrite forallb_forall in P'. now apply no_tuple_short with (t := k); auto. }
  pose proof (@event_filter_accepts Release (de_event d) (raw_filter ts) SF) as Q.
  assert (A : raw_accepted (raw_filter ts) (map ep_kind (isel true (e_inputs (de_event d)))) = true).
  { rewrite Ev. unfold raw_accepted, raw_filter. cbn [e_inputs raw_topic0 raw_topic1 raw_topic2]. now rewrite !(@topics_accepted _ _ _ _ F). }
  rewrite A in Q. destruct Q as [f ->]. now exists f.
Qed.
Lemma derived_wildcard p e d : derive_event p e = Ok d -> exists f, de_wildcard_filter d = Ok f /\
  topic1 f = Any /\ topic2 f = Any /\ topic3 f = Any /\
  (if e_anonymous e then topic0 f = Any
   else exists s, canonical_signature (e_name (de_event d)) (map ep_kind (e_inputs (de_event d))) s /\ topic0 f = This (keccak256 (utf8 s))).
Proof.
  intros D. pose proof (@derive_event_inv p e d D) as (P & Ev & _ & _ & _ & _ & (gs & Eg & _ & ->)).
  destruct (canonical_exists (e_name (de_event d)) (map ep_kind (e_inputs (de_event d)))) as [s C].
  pose proof (@derived_event_kinds p e d D) as [K A].
  assert (F : Forall3 topic_denotes (map ep_kind (isel true (e_inputs e))) (map (fun _ => Any) (isel true (e_inputs e))) (map (fun _ => Any) (isel true (e_inputs e)))).
  { generalize (isel true (e_inputs e)). intros l. induction l as [|q l IH]; cbn [map]; [apply Forall3_nil|apply Forall3_cons; [exact I|exact IH]]. }
  assert (P' : forallb no_tuple (map ep_kind (isel true (e_inputs e))) = true).
  { rewrite forallb_forall in *. intros t I. apply plain_no_tuple, P. apply in_map_iff in I as (q & <- & I). apply in_map. now apply filter_In in I. }
  unfold derived_filter. rewrite (@topics_mapped _ _ _ _ Eg P' F). cbn [bind]. rewrite raw_filter_first.
  assert (N : forall i, nth i (map (fun _ => @Any Token) (isel true (e_inputs e))) Any = Any).
  { generalize (isel true (e_inputs e)). induction l as [|q l IH]; intros [|i]; cbn; auto. }
  unfold raw_filter. rewrite !N. unfold event_filter, event_signature, event_param_types. rewrite A. cbn [raw_topic0 raw_topic1 raw_topic2 convert_topic bind].
  destruct (e_anonymous e).
  - cbn [bind expect_ok]. eexists. split; [reflexivity|]. auto.
  - rewrite (@long_signature_ok _ _ _ C). cbn [bind expect_ok]. eexists. split; [reflexivity|]. cbn [topic0 topic1 topic2 topic3]. eauto 6.
Qed.

(** ** Contracts: modules must have different names *)
Lemma distinct_NoDup l : distinct l = true <-> NoDup l.
Proof.
  induction l as [|x l IH]; cbn [distinct]; [split; constructor|]. rewrite andb_true_iff, negb_true_iff, IH. split.
  - intros [H N]. constructor; [|exact N]. intros I. assert (existsb (str_eqb x) l = true); [|congruence]. apply existsb_exists. exists x. split; [exact I|apply str_eqb_refl].
  - intros N. inversion N as [|? ? H N']; subst. split; [|exact N']. destruct (existsb _ l) eqn:E; [|reflexivity]. exfalso.
    apply existsb_exists in E as (y & I & E). apply str_eqb_eq in E as ->. contradiction.
Qed.
Lemma derived_contract p c fs es d : derive_contract p c fs es = Ok d ->
  NoDup (map (fun f => to_snake_case (f_name f)) (iterate fs)) /\ NoDup (map (fun e => to_snake_case (e_name e)) (iterate es)) /\
  NoDup (map (fun e => to_camel_case (e_name e)) (iterate es)) /\
  Forall2 (fun f d => derive_function p f = Ok d) (iterate fs) (dc_functions d) /\
  Forall2 (fun e d => derive_event p e = Ok d) (iterate es) (dc_events d) /\
  match c_constructor c, dc_constructor d with Some k, Some dk => derive_constructor p k = Ok dk | None, None => True | _, _ => False end.
Proof.
  unfold derive_contract. intros E. apply bind_ok in E as (k & Ek & E). apply bind_ok in E as (dfs & Ef & E). apply bind_ok in E as (des & Ee & E).
  apply check_ok in E as [C ->]. apply andb_true_iff in C as [C C4]. apply andb_true_iff in C as [C C3]. apply andb_true_iff in C as [C1 C2].
  apply distinct_NoDup in C1, C2, C3. apply mapM_ok in Ef, Ee. cbn [dc_functions dc_events dc_constructor].
  assert (Q1 : map df_module dfs = map (fun f => to_snake_case (f_name f)) (iterate fs)).
  { clear -Ef. induction Ef as [|f d l r H F IH]; [reflexivity|]. cbn [map]. rewrite IH. apply derive_function_inv in H as (_ & _ & _ & _ & -> & _). reflexivity. }
  assert (Q2 : map de_module des = map (fun e => to_snake_case (e_name e)) (iterate es) /\ map (fun e => e_name (de_event e)) des = map (fun e => to_camel_case (e_name e)) (iterate es)).
  { clear -Ee. induction Ee as [|f d l r H F [IH1 IH2]]; [auto|]. cbn [map]. rewrite IH1, IH2. apply derive_event_inv in H as (_ & -> & -> & _). auto. }
  destruct Q2 as [Q2 Q3]. rewrite Q1 in C1. rewrite Q2 in C2. rewrite Q3 in C3. repeat (split; [assumption|]).
  destruct (c_constructor c) as [k0|]; [|now injection Ek as <-]. apply bind_ok in Ek as (dk & Ek & Q). injection Q as <-. exact Ek.
Qed.
Lemma overloads p c fs es f g l1 l2 l3 : iterate fs = l1 ++ f :: l2 ++ g :: l3 -> f_name f = f_name g ->
  forall d, derive_contract p c fs es <> Ok d.
Proof.
  intros E N d H. apply derived_contract in H as (H & _). rewrite E in H. rewrite !map_app in H. cbn [map] in H. rewrite map_app in H. cbn [map] in H.
  apply NoDup_remove_2 in H. apply H. rewrite N. apply in_app_iff. right. apply in_app_iff. right. now left.
Qed.
Lemma overloaded_events p c fs es f g l1 l2 l3 : iterate es = l1 ++ f :: l2 ++ g :: l3 -> e_name f = e_name g ->
  forall d, derive_contract p c fs es <> Ok d.
Proof.
  intros E N d H. apply derived_contract in H as (_ & H & _). rewrite E in H. rewrite !map_app in H. cbn [map] in H. rewrite map_app in H. cbn [map] in H.
  apply NoDup_remove_2 in H. apply H. rewrite N. apply in_app_iff. right. apply in_app_iff. right. now left.
Qed.

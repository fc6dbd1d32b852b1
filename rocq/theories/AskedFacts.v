(** * The outcome of building a filter *)
From Verif Require Import Base BaseFacts Types AbiSpec TypeNamesSpec Encoder Keccak Function FunctionFacts CodecLemmas Event EventSpec EventFacts FilterFacts
  ShapeSpec WrapSpec ShapeFacts AskedSpec Derive DeriveSpec DeriveFacts DeriveEvents EncoderFacts EncoderTotal RoundTrip DecoderProps.
Set Implicit Arguments.
Local Open Scope N_scope.
Local Open Scope list_scope.
Local Opaque keccak256.

(** Outcomes without their values. *)
Definition cls A (r : res A) : res unit := match r with Ok _ => Ok tt | Err e => Err e | Panic => Panic end.
Lemma cls_bind A B (r : res A) (k : A -> res B) c : (forall a, r = Ok a -> cls (k a) = c) ->
  cls (bind r k) = match cls r with Ok _ => c | Err e => Err e | Panic => Panic end.
Proof. intros H. destruct r; cbn [bind cls]; auto. Qed.

Section Profile.
Context (p : profile).
Definition conv (x : option (Token * ParamType)) : res (list byte) :=
  match x with Some (v, k) => convert_token p v k | None => Err InvalidData end.
(** The outcome of the first item that is not converted. *)
Fixpoint outcome (l : list (option (Token * ParamType))) : res unit :=
  match l with
  | [] => Ok tt
  | x :: l' => match cls (conv x) with Ok _ => outcome l' | Err e => Err e | Panic => Panic end
  end.
Lemma outcome_app a b : outcome (a ++ b) = match outcome a with Ok _ => outcome b | Err e => Err e | Panic => Panic end.
Proof. induction a as [|x a IH]; cbn [app outcome]; [reflexivity|]. destruct (cls (conv x)); auto. Qed.
Lemma convert_topic_outcome t k : cls (convert_topic p t k) = outcome (asked t k).
Proof.
  destruct t as [|vs|v]; [reflexivity|..]; (destruct k as [k|]; [|reflexivity]); cbn [convert_topic asked topic_tokens map outcome conv].
  - rewrite (@cls_bind _ _ _ _ (Ok tt)) by reflexivity.
    induction vs as [|v vs IH]; [reflexivity|]. cbn [mapM map outcome conv].
    destruct (convert_token p v k) as [h|x|]; cbn [bind cls]; auto.
    rewrite (@cls_bind _ _ _ _ (Ok tt)) by reflexivity. rewrite <- IH. destruct (mapM _ vs); reflexivity.
  - rewrite (@cls_bind _ _ _ _ (Ok tt)) by reflexivity. reflexivity.
Qed.
Lemma event_filter_outcome e raw : cls (event_filter p e raw) = outcome (all_asked raw (map ep_kind (isel true (e_inputs e)))).
Proof.
  destruct (canonical_exists (e_name e) (map ep_kind (e_inputs e))) as [s C].
  assert (Sig : event_signature e = Ok (keccak256 (utf8 s))) by exact (long_signature_ok C).
  unfold event_filter, all_asked. change (indexed_params e true) with (isel true (e_inputs e)). cbv zeta. rewrite Sig.
  set (ks := map ep_kind _).
  assert (G : forall B (k : Topic hash -> Topic hash -> Topic hash -> B),
    cls (do t0 <- convert_topic p (raw_topic0 raw) (nth_error ks 0);
         do t1 <- convert_topic p (raw_topic1 raw) (nth_error ks 1);
         do t2 <- convert_topic p (raw_topic2 raw) (nth_error ks 2); Ok (k t0 t1 t2)) =
    outcome (asked (raw_topic0 raw) (nth_error ks 0) ++ asked (raw_topic1 raw) (nth_error ks 1) ++ asked (raw_topic2 raw) (nth_error ks 2))).
  { intros B k. rewrite !outcome_app, <- !convert_topic_outcome.
    destruct (convert_topic p (raw_topic0 raw) _); cbn [bind cls]; auto.
    destruct (convert_topic p (raw_topic1 raw) _); cbn [bind cls]; auto.
    destruct (convert_topic p (raw_topic2 raw) _); cbn [bind cls]; auto. }
  destruct (e_anonymous e); cbn [bind]; apply G.
Qed.

Lemma conv_cases x : measured x ->
  (cls (conv x) = Ok tt /\ fine p x) \/ (cls (conv x) = Panic /\ breaks p x) \/ (cls (conv x) = Err InvalidData /\ misfits x).
Proof.
  destruct x as [[v k]|]; cbn [measured conv fine breaks misfits]; [|auto]. intros [W L].
  assert (W1 : forallb wf_token [v] = true) by (cbn [forallb]; now rewrite W).
  unfold convert_token. destruct (type_check v k) as [[|]|x|] eqn:T; cbn [bind negb].
  - apply type_check_loose in T. destruct (@encode_outcome p [v] W1 L) as [[E H]|[E [-> H]]]; rewrite E; cbn [bind].
    + left. split; [|auto]. destruct (N.eqb_spec (len (encoding32 [v])) 32) as [Q|Q]; [now rewrite copy32 by exact Q|now rewrite copy_keccak].
    + right. left. auto 6.
  - right. right. split; [reflexivity|]. split.
    + destruct (loosely_typed v k) eqn:Q; [|reflexivity]. apply type_check_loose in Q. congruence.
    + intros O. apply type_check_panics in O. congruence.
  - exfalso. now apply type_check_not_err in T.
  - right. left. split; [reflexivity|]. left. now apply type_check_panics.
Qed.
Lemma excl x : (fine p x -> breaks p x -> False) /\ (fine p x -> misfits x -> False) /\ (breaks p x -> misfits x -> False).
Proof.
  destruct x as [[v k]|]; cbn [fine breaks misfits]; [|tauto].
  assert (O : overruns v k -> loosely_typed v k = true -> False).
  { intros A B. apply type_check_panics in A. apply type_check_loose in B. congruence. }
  repeat split.
  - intros [L [->|H]] [B|(_ & ? & ?)]; eauto; try discriminate; lia.
  - intros [L _] [M _]. congruence.
  - intros [B|[L _]] [M N]; [tauto|congruence].
Qed.
Lemma outcome_ok l : Forall measured l -> (outcome l = Ok tt <-> Forall (fine p) l).
Proof.
  induction 1 as [|x l M _ IH]; cbn [outcome]; [split; auto|]. destruct (@excl x) as (X1 & X2 & X3).
  destruct (@conv_cases x M) as [[-> F]|[[-> F]|[-> F]]].
  - rewrite IH. split; [auto|intros Q; now inversion Q].
  - split; [discriminate|]. intros Q. inversion Q; tauto.
  - split; [discriminate|]. intros Q. inversion Q; tauto.
Qed.
Lemma outcome_bad l (bad : option (Token * ParamType) -> Prop) (r : res unit) : Forall measured l ->
  (forall x, In x l -> (cls (conv x) = r <-> bad x)) -> r <> Ok tt ->
  (outcome l = r <-> first_bad p bad l).
Proof.
  intros M H R. induction M as [|x l M _ IH]; cbn [outcome].
  - split; [intros <-; tauto|]. intros ([|? ?] & ? & ? & ? & _); discriminate.
  - assert (Hx := H x (or_introl eq_refl)). specialize (IH (fun y I => H y (or_intror I))).
    destruct (@excl x) as (X1 & X2 & X3).
    destruct (@conv_cases x M) as [[E F]|[[E F]|[E F]]]; rewrite E in *; clear M.
    + rewrite IH. split.
      * intros (a & y & b & -> & Fa & B). exists (x :: a), y, b. repeat split; auto.
      * intros ([|z a] & y & b & Q & Fa & B); cbn [app] in Q; injection Q as -> ->.
        { apply Hx in B. congruence. }
        inversion Fa; subst. exists a, y, b. auto.
    + split.
      * intros Q. exists [], x, l. repeat split; auto. now apply Hx.
      * intros ([|z a] & y & b & Q & Fa & B); cbn [app] in Q; injection Q as -> ->; [now apply Hx|].
        inversion Fa; subst. tauto.
    + split.
      * intros Q. exists [], x, l. repeat split; auto. now apply Hx.
      * intros ([|z a] & y & b & Q & Fa & B); cbn [app] in Q; injection Q as -> ->; [now apply Hx|].
        inversion Fa; subst. tauto.
Qed.

Lemma event_filter_fine e raw : let asks := all_asked raw (map ep_kind (isel true (e_inputs e))) in
  Forall measured asks -> ((exists f, event_filter p e raw = Ok f) <-> Forall (fine p) asks).
Proof.
  intros asks M. unfold asks in *. clear asks. rewrite <- (outcome_ok M), <- event_filter_outcome. split; [intros [f ->]; reflexivity|].
  destruct (event_filter p e raw); try discriminate. eauto.
Qed.
Lemma event_filter_panics e raw : let asks := all_asked raw (map ep_kind (isel true (e_inputs e))) in
  Forall measured asks -> (event_filter p e raw = Panic <-> first_bad p (breaks p) asks).
Proof.
  intros asks M. unfold asks in *. clear asks. rewrite <- (@outcome_bad _ (breaks p) Panic M); [|intros x I|discriminate].
  - rewrite <- event_filter_outcome. destruct (event_filter p e raw); cbn [cls]; split; congruence.
  - rewrite Forall_forall in M. specialize (M x I). destruct (@excl x) as (X1 & X2 & X3).
    destruct (@conv_cases x M) as [[E F]|[[E F]|[E F]]]; rewrite E; split; auto; try discriminate; tauto.
Qed.
Lemma event_filter_refuses e raw : let asks := all_asked raw (map ep_kind (isel true (e_inputs e))) in
  Forall measured asks -> (event_filter p e raw = Err InvalidData <-> first_bad p misfits asks).
Proof.
  intros asks M. unfold asks in *. clear asks. rewrite <- (@outcome_bad _ misfits (Err InvalidData) M); [|intros x I|discriminate].
  - rewrite <- event_filter_outcome. destruct (event_filter p e raw); cbn [cls]; split; congruence.
  - rewrite Forall_forall in M. specialize (M x I). destruct (@excl x) as (X1 & X2 & X3).
    destruct (@conv_cases x M) as [[E F]|[[E F]|[E F]]]; rewrite E; split; auto; try discriminate; tauto.
Qed.

(** ** The generated filter functions *)
Lemma derived_all_fine ks args ts : Forall3 topic_denotes ks args ts -> forall i x, In x (asked (nth i ts Any) (nth_error ks i)) ->
  exists v k, x = Some (v, k) /\ has_type v k = true /\ In v (topic_tokens (nth i ts Any)) /\ nth_error ks i = Some k.
Proof.
  induction 1 as [|k a t ks args ts H F IH]; intros i x I; [now destruct i|]. destruct i as [|i]; cbn [nth nth_error] in *; [|now apply IH].
  destruct a as [|l|v], t as [|l'|y]; try (destruct H; fail); cbn [asked topic_tokens topic_denotes] in *; [destruct I|..].
  - apply in_map_iff in I as (y & <- & I). exists y, k. split; [reflexivity|]. split; [|split; [exact I|reflexivity]].
    revert I. induction H as [|v0 y0 vs0 ys0 D H IHl]; intros I; [destruct I|]. destruct I as [<-|I]; [now apply denotes_typed in D|auto].
  - destruct I as [<-|[]]. exists y, k. split; [reflexivity|]. split; [now apply denotes_typed in H|]. split; [now left|reflexivity].
Qed.
Lemma asked_of ks args ts : Forall3 topic_denotes ks args ts -> forall i v, In v (topic_tokens (nth i ts Any)) ->
  exists k, In (Some (v, k)) (asked (nth i ts Any) (nth_error ks i)).
Proof.
  induction 1 as [|k a t ks args ts H F IH]; intros i v I; [destruct i; destruct I|]. destruct i as [|i]; cbn [nth nth_error] in *; [|now apply IH].
  exists k. destruct t as [|l'|y]; cbn [asked topic_tokens] in *; [destruct I|..]; apply in_map_iff; exists v; auto.
Qed.
Lemma derived_filter_checked e d args ts : derive_event p e = Ok d ->
  Forall3 topic_denotes (map ep_kind (isel true (e_inputs e))) args ts ->
  (forall i v, (i < 3)%nat -> In v (topic_tokens (nth i ts Any)) -> len (encoding32 [v]) < 2 ^ 37) ->
  (de_filter d args = Panic <-> p = Debug /\ exists i v, (i < 3)%nat /\ In v (topic_tokens (nth i ts Any)) /\ 2 ^ 32 <= len (encoding32 [v])) /\
  (de_filter d args <> Panic -> exists f, de_filter d args = Ok f).
Proof.
  intros D F L. pose proof (@derived_event_kinds p e d D) as [K _]. destruct (@derived_raw p e d args ts D F) as [-> _].
  set (ks := map ep_kind (isel true (e_inputs e))) in *.
  assert (K' : map ep_kind (isel true (e_inputs (de_event d))) = ks).
  { pose proof (@derive_event_inv p e d D) as (_ & Ev & _). rewrite Ev. reflexivity. }
  assert (A : forall x, In x (all_asked (raw_filter ts) ks) -> exists i v k, (i < 3)%nat /\ x = Some (v, k) /\ has_type v k = true /\ In v (topic_tokens (nth i ts Any)) /\ In x (asked (nth i ts Any) (nth_error ks i))).
  { intros x I. unfold all_asked, raw_filter in I. cbn [raw_topic0 raw_topic1 raw_topic2] in I. rewrite !in_app_iff in I.
    destruct I as [I|[I|I]]; destruct (derived_all_fine F _ _ I) as (v & k & E & T & J & _); [exists 0%nat|exists 1%nat|exists 2%nat]; exists v, k; auto 6. }
  assert (M : Forall measured (all_asked (raw_filter ts) ks)).
  { apply Forall_forall. intros x I. destruct (A x I) as (i & v & k & Li & -> & T & J & _). cbn [measured]. split; [now apply has_type_wf in T|eauto]. }
  assert (NM : ~ first_bad p misfits (all_asked (raw_filter ts) ks)).
  { intros (a & x & b & E & _ & B). destruct (A x) as (i & v & k & _ & -> & T & _); [rewrite E; apply in_elt|].
    cbn [misfits] in B. apply has_loosely in T. destruct B; congruence. }
  assert (P1 := @event_filter_panics (de_event d) (raw_filter ts)). assert (P2 := @event_filter_refuses (de_event d) (raw_filter ts)). cbv zeta in P1, P2.
  rewrite K' in P1, P2. specialize (P1 M). specialize (P2 M).
  assert (NE : forall x, event_filter p (de_event d) (raw_filter ts) = Err x -> False).
  { intros x E. apply NM, P2. rewrite E. f_equal. now apply event_filter_err in E. }
  split.
  - assert (Q : expect_ok (event_filter p (de_event d) (raw_filter ts)) = Panic <-> event_filter p (de_event d) (raw_filter ts) = Panic).
    { destruct (event_filter p (de_event d) (raw_filter ts)) as [f|x|] eqn:E; cbn; split; congruence. }
    rewrite Q, P1. split.
    + intros (a & x & b & E & _ & B). destruct (A x) as (i & v & k & Li & -> & T & J & _); [rewrite E; apply in_elt|].
      cbn [breaks] in B. apply has_loosely in T. destruct B as [B|(_ & B1 & B2)]; [|eauto 8].
      exfalso. apply type_check_panics in B. apply type_check_loose in T. congruence.
    + intros [Ep (i & v & Li & J & H)]. destruct (asked_of F i v J) as [k I].
      assert (I' : In (Some (v, k)) (all_asked (raw_filter ts) ks)).
      { unfold all_asked, raw_filter. cbn [raw_topic0 raw_topic1 raw_topic2]. rewrite !in_app_iff. destruct i as [|[|[|i]]]; auto. lia. }
      apply P1. destruct (event_filter p (de_event d) (raw_filter ts)) as [f|x|] eqn:E; [|exfalso; now apply (NE x)|reflexivity].
      exfalso. assert (G := @event_filter_fine (de_event d) (raw_filter ts)). cbv zeta in G. rewrite K' in G.
      assert (G' := proj1 (G M) (ex_intro _ f E)). clear G. rename G' into G. rewrite Forall_forall in G. specialize (G _ I'). cbn [fine] in G.
      destruct G as [_ [G|G]]; [congruence|]. clear - G H. lia.
  - destruct (event_filter p (de_event d) (raw_filter ts)) as [f|x|] eqn:E; cbn [expect_ok]; [eauto|exfalso; now apply (NE x)|congruence].
Qed.
End Profile.

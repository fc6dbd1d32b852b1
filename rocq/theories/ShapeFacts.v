(** * Values that do not fit their types *)
From Verif Require Import Base Types Encoder Decoder Function AbiSpec DecoderSpec DecoderFacts DecoderProps TypeNamesSpec BaseFacts EncoderFacts EncoderTotal CodecLemmas FunctionFacts Keccak ShapeSpec WrapSpec WrapRight.
From Coq Require Import ZifyBool ZifyNat ZifyN.
Set Implicit Arguments.
Local Open Scope N_scope.

(** ** type_check *)
Lemma allM_panic A (f : A -> res bool) l : allM f l = Panic <->
  exists a x b, l = a ++ x :: b /\ Forall (fun y => f y = Ok true) a /\ f x = Panic.
Proof.
  induction l as [|x l IH].
  - split; [discriminate|]. intros ([|? ?] & y & b & E & _); discriminate.
  - cbn [allM]. split.
    + intros E. apply bind_panic in E as [E|(b & Eb & E)].
      * exists [], x, l. auto.
      * destruct b; [|discriminate]. apply IH in E as (a & y & c & -> & Ha & Hy). exists (x :: a), y, c. auto.
    + intros ([|z a] & y & b & E & Ha & Hy); injection E as <- ->.
      * now rewrite Hy.
      * inversion Ha as [|? ? H1 H2]; subst. rewrite H1. cbn [bind]. apply IH. eauto 6.
Qed.
Lemma all_indexed_panic A B (f : A -> B -> res bool) vs ts : all_indexed f vs ts = Panic <->
  exists a x b, vs = a ++ x :: b /\
    ((exists ts1 t ts2, ts = ts1 ++ t :: ts2 /\ Forall2 (fun y t => f y t = Ok true) a ts1 /\ f x t = Panic) \/
     Forall2 (fun y t => f y t = Ok true) a ts).
Proof.
  revert ts. induction vs as [|v vs IH]; intros ts.
  - split; [discriminate|]. intros ([|? ?] & y & b & E & _); discriminate.
  - cbn [all_indexed]. split.
    + destruct ts as [|t ts]; intros E.
      * exists [], v, vs. split; [reflexivity|]. right. constructor.
      * apply bind_panic in E as [E|(b & Eb & E)].
        -- exists [], v, vs. split; [reflexivity|]. left. exists [], t, ts. auto.
        -- destruct b; [|discriminate]. apply IH in E as (a & x & c & -> & [(ts1 & t' & ts2 & -> & H1 & H2)|H]).
           ++ exists (v :: a), x, c. split; [reflexivity|]. left. exists (t :: ts1), t', ts2. auto.
           ++ exists (v :: a), x, c. split; [reflexivity|]. right. auto.
    + intros ([|z a] & x & b & E & H); injection E as <- ->.
      * destruct H as [(ts1 & t & ts2 & -> & H1 & H2)|H]; inversion H1 || inversion H; subst; [|reflexivity]. cbn [app]. now rewrite H2.
      * destruct H as [(ts1 & t & ts2 & -> & H1 & H2)|H].
        -- inversion H1 as [|? t0 ? ts0 F1 F2]; subst. cbn [app]. rewrite F1. cbn [bind]. apply IH. exists a, x, b. split; [reflexivity|]. left. eauto 6.
        -- inversion H as [|? t0 ? ts0 F1 F2]; subst. rewrite F1. cbn [bind]. apply IH. exists a, x, b. auto.
Qed.
Lemma loose_all l t : Forall (fun x => type_check x t = Ok true) l <-> Forall (fun x => loosely_typed x t = true) l.
Proof. split; apply Forall_impl; intros x; apply type_check_loose. Qed.
Lemma loose_all2 l ts : Forall2 (fun x t => type_check x t = Ok true) l ts <-> Forall2 (fun x t => loosely_typed x t = true) l ts.
Proof. split; induction 1; constructor; auto; now apply type_check_loose. Qed.
Lemma type_check_panics v t : type_check v t = Panic <-> overruns v t.
Proof.
  split.
  - revert t. induction v using Token_ind'; intros t E; cbn [type_check] in E; try discriminate.
    + destruct t; try discriminate. destruct (_ =? _) eqn:L; [|discriminate]. apply N.eqb_eq in L.
      apply allM_panic in E as (a & x & b & -> & Ha & Hx). apply loose_all in Ha. apply Forall_app in H as [_ H].
      inversion H; subst. constructor; auto.
    + destruct t; try discriminate. apply allM_panic in E as (a & x & b & -> & Ha & Hx). apply loose_all in Ha.
      apply Forall_app in H as [_ H]. inversion H; subst. constructor; auto.
    + destruct t; try discriminate. apply all_indexed_panic in E as (a & x & b & -> & [(ts1 & t' & ts2 & -> & H1 & H2)|H1]).
      * apply loose_all2 in H1. apply Forall_app in H as [_ H]. inversion H; subst. constructor; auto.
      * apply loose_all2 in H1. now constructor.
  - induction 1; cbn [type_check].
    + apply allM_panic. apply loose_all in H. eauto 6.
    + rewrite H, N.eqb_refl. apply allM_panic. apply loose_all in H0. eauto 6.
    + apply all_indexed_panic. apply loose_all2 in H. exists before, v, after. split; [reflexivity|]. left. eauto 6.
    + apply all_indexed_panic. apply loose_all2 in H. exists before, v, after. auto.
Qed.

(** ** types_check *)
Lemma zip_all_indexed A B (f : A -> B -> res bool) vs ts : List.length vs = List.length ts -> zip_all f vs ts = all_indexed f vs ts.
Proof.
  revert ts. induction vs as [|v vs IH]; intros [|t ts] L; try discriminate; [reflexivity|].
  cbn [zip_all all_indexed]. injection L as L. destruct (f v t) as [[]| |]; cbn [bind]; auto.
Qed.
Lemma types_check_whole vs ts : List.length vs = List.length ts -> types_check vs ts = type_check (TTuple vs) (PTuple ts).
Proof.
  intros L. unfold types_check. unfold len. rewrite L, N.eqb_refl. cbn [type_check]. now apply zip_all_indexed.
Qed.
Lemma types_check_panics vs ts : types_check vs ts = Panic <-> List.length vs = List.length ts /\ overruns (TTuple vs) (PTuple ts).
Proof.
  split.
  - intros E. assert (L : List.length vs = List.length ts).
    { unfold types_check in E. destruct (len vs =? len ts) eqn:L; [|discriminate]. apply N.eqb_eq in L. unfold len in L. lia. }
    split; [exact L|]. apply type_check_panics. now rewrite <- types_check_whole.
  - intros [L E]. rewrite types_check_whole by exact L. now apply type_check_panics.
Qed.
Lemma types_check_loose vs ts : types_check vs ts = Ok true <-> List.length vs = List.length ts /\ loosely_typed (TTuple vs) (PTuple ts) = true.
Proof.
  split.
  - intros E. assert (L : List.length vs = List.length ts).
    { unfold types_check in E. destruct (len vs =? len ts) eqn:L; [|discriminate]. apply N.eqb_eq in L. unfold len in L. lia. }
    split; [exact L|]. apply type_check_loose. now rewrite <- types_check_whole.
  - intros [L E]. rewrite types_check_whole by exact L. now apply type_check_loose.
Qed.

(** ** Encoding, below 128 GiB *)
Lemma encode_outcome p vs : forallb wf_token vs = true -> len (encoding32 vs) < 2 ^ 37 ->
  (encode p vs = Ok (encoding32 vs) /\ (p = Release \/ len (encoding32 vs) < 2 ^ 32)) \/
  (encode p vs = Panic /\ p = Debug /\ 2 ^ 32 <= len (encoding32 vs)).
Proof.
  intros W L. destruct (N.lt_ge_cases (len (encoding32 vs)) (2 ^ 32)) as [H|H].
  - left. split; [|auto]. apply encode_wraps; auto.
  - destruct p.
    + right. split; [|auto]. now apply encode_checked.
    + left. split; [|auto]. apply encode_wraps; auto.
Qed.
Lemma encode_input_exact p f vs s data : canonical_signature (f_name f) (map p_kind (f_inputs f)) s ->
  forallb wf_token vs = true -> len (encoding32 vs) < 2 ^ 37 ->
  (encode_input p f vs = Ok data <->
   List.length vs = List.length (f_inputs f) /\ loosely_typed (TTuple vs) (PTuple (map p_kind (f_inputs f))) = true /\
   (p = Release \/ len (encoding32 vs) < 2 ^ 32) /\ data = firstn 4 (keccak256 (utf8 s)) ++ encoding32 vs).
Proof.
  intros C W L. split.
  - intros E. destruct (encode_input_prefix p _ _ C E) as (E1 & E2 & enc & E3 & ->). split; [exact E1|]. split; [exact E2|].
    destruct (encode_outcome p vs W L) as [[O H]|[O _]]; rewrite O in E3; [|discriminate]. injection E3 as <-. auto.
  - intros (E1 & E2 & H & ->). unfold encode_input, input_param_types.
    replace (types_check _ _) with (Ok true) by (symmetry; apply types_check_loose; rewrite map_length; auto).
    cbn [bind negb]. rewrite (short_signature_ok C). cbn [bind]. now rewrite encode_wraps.
Qed.
Lemma encode_input_panics p f vs : forallb wf_token vs = true -> len (encoding32 vs) < 2 ^ 37 ->
  (encode_input p f vs = Panic <->
   List.length vs = List.length (f_inputs f) /\
   (overruns (TTuple vs) (PTuple (map p_kind (f_inputs f))) \/
    loosely_typed (TTuple vs) (PTuple (map p_kind (f_inputs f))) = true /\ p = Debug /\ 2 ^ 32 <= len (encoding32 vs))).
Proof.
  intros W L. destruct (canonical_exists (f_name f) (input_param_types f)) as [s C].
  rewrite <- (map_length p_kind (f_inputs f)). unfold encode_input, input_param_types in *. split.
  - intros E. apply bind_panic in E as [E|(b & Eb & E)]; [apply types_check_panics in E; tauto|].
    destruct b; [|discriminate]. apply types_check_loose in Eb as [E1 E2]. split; [exact E1|right].
    cbn [negb] in E. rewrite (short_signature_ok C) in E. cbn [bind] in E. split; [exact E2|].
    destruct (encode_outcome p vs W L) as [[O H]|[O H]]; rewrite O in E; [discriminate|exact H].
  - intros [E1 [E2|(E2 & -> & H)]].
    + replace (types_check _ _) with (@Panic bool) by (symmetry; now apply types_check_panics). reflexivity.
    + replace (types_check _ _) with (Ok true) by (symmetry; now apply types_check_loose). cbn [bind negb].
      rewrite (short_signature_ok C). cbn [bind]. replace (encode Debug vs) with (@Panic (list byte)) by (symmetry; now apply encode_checked). reflexivity.
Qed.
Lemma constructor_exact p c code vs data : forallb wf_token vs = true -> len (encoding32 vs) < 2 ^ 37 ->
  (constructor_encode_input p c code vs = Ok data <->
   List.length vs = List.length (k_inputs c) /\ loosely_typed (TTuple vs) (PTuple (map p_kind (k_inputs c))) = true /\
   (p = Release \/ len (encoding32 vs) < 2 ^ 32) /\ data = code ++ encoding32 vs).
Proof.
  intros W L. rewrite <- (map_length p_kind (k_inputs c)). unfold constructor_encode_input, param_types. split.
  - intros E. apply bind_ok in E as (b & Eb & E). destruct b; [|discriminate]. apply types_check_loose in Eb as [E1 E2].
    apply bind_ok in E as (enc & E3 & E). injection E as <-.
    destruct (encode_outcome p vs W L) as [[O H]|[O _]]; rewrite O in E3; [|discriminate]. injection E3 as <-. auto.
  - intros (E1 & E2 & H & ->). replace (types_check _ _) with (Ok true) by (symmetry; now apply types_check_loose).
    cbn [bind]. now rewrite encode_wraps.
Qed.
Lemma constructor_panics p c code vs : forallb wf_token vs = true -> len (encoding32 vs) < 2 ^ 37 ->
  (constructor_encode_input p c code vs = Panic <->
   List.length vs = List.length (k_inputs c) /\
   (overruns (TTuple vs) (PTuple (map p_kind (k_inputs c))) \/
    loosely_typed (TTuple vs) (PTuple (map p_kind (k_inputs c))) = true /\ p = Debug /\ 2 ^ 32 <= len (encoding32 vs))).
Proof.
  intros W L. rewrite <- (map_length p_kind (k_inputs c)). unfold constructor_encode_input, param_types. split.
  - intros E. apply bind_panic in E as [E|(b & Eb & E)]; [apply types_check_panics in E; tauto|].
    destruct b; [|discriminate]. apply types_check_loose in Eb as [E1 E2]. split; [exact E1|right]. split; [exact E2|].
    destruct (encode_outcome p vs W L) as [[O H]|[O H]]; rewrite O in E; [discriminate|exact H].
  - intros [E1 [E2|(E2 & -> & H)]].
    + replace (types_check _ _) with (@Panic bool) by (symmetry; now apply types_check_panics). reflexivity.
    + replace (types_check _ _) with (Ok true) by (symmetry; now apply types_check_loose). cbn [bind].
      replace (encode Debug vs) with (@Panic (list byte)) by (symmetry; now apply encode_checked). reflexivity.
Qed.

(** ** Dynamic values *)
Lemma token_shows t v : has_type v t = true -> token_is_dynamic v = shows_dynamic t.
Proof.
  revert v. induction t using ParamType_ind'; intros v T; destruct v; try discriminate; try reflexivity.
  - cbn [has_type token_is_dynamic shows_dynamic] in *. apply andb_true_iff in T as [T1 T2]. apply N.eqb_eq in T1.
    destruct vs as [|v vs]; [rewrite len_nil in T1; now subst|]. rewrite len_cons in T1.
    replace (1 <=? n) with true by lia. cbn [andb]. cbn [forallb] in T2. apply andb_true_iff in T2 as [T2 T3].
    cbn [existsb]. rewrite (IHt _ T2). destruct (shows_dynamic t) eqn:D; [reflexivity|]. cbn [orb].
    apply existsb_Forall, Forall_forall. rewrite forallb_forall in T3. intros x Hx. now rewrite IHt by auto.
  - apply tuple_type in T. cbn [token_is_dynamic shows_dynamic].
    revert H. induction T as [|v t vs ts T1 T2 IH]; intros H; [reflexivity|]. inversion H; subst. cbn [existsb]. rewrite IH by assumption. f_equal. auto.
Qed.
Lemma shows_dynamic_le t : shows_dynamic t = true -> dynamic t = true.
Proof.
  induction t using ParamType_ind'; cbn [shows_dynamic dynamic]; auto.
  - intros E. apply andb_true_iff in E as [_ E]. auto.
  - intros E. apply existsb_exists in E as (x & Hx & E). apply existsb_exists. exists x. split; [exact Hx|]. rewrite Forall_forall in H. auto.
Qed.
Lemma dynamic_exact t v : has_type v t = true ->
  (token_is_dynamic v = ptype_is_dynamic t <-> (dynamic t = true -> shows_dynamic t = true)).
Proof.
  intros T. rewrite (token_shows _ _ T), dynamic_eq. pose proof (shows_dynamic_le t) as H.
  destruct (shows_dynamic t), (dynamic t); split; intros; auto; try (symmetry; auto); discriminate (H0 eq_refl) || discriminate || auto.
Qed.

(** ** Sizes of decoded arrays *)
Lemma zero_reads t : zero_size t = true -> exists v, forall data pos, reads data t pos v pos.
Proof.
  induction t using ParamType_ind'; intros Z; try discriminate.
  - pose proof (zero_size_static _ Z) as D. cbn [zero_size dynamic] in *. apply orb_true_iff in Z as [Z|Z].
    + apply andb_true_iff in Z as [Z _]. apply N.eqb_eq in Z. subst. exists (TFixedArray []). intros. apply reads_fixed_array_static; [assumption|reflexivity|constructor].
    + destruct (IHt Z) as [v Hv]. exists (TFixedArray (repeat v (N.to_nat n))). intros. apply reads_fixed_array_static; [assumption|rewrite len_repeat; lia|].
      rewrite repeat_length. clear - Hv. induction (N.to_nat n); cbn [repeat]; econstructor; eauto.
  - pose proof (zero_size_static _ Z) as D. cbn [zero_size] in Z.
    assert (G : exists vs, forall data pos, reads_seq data ts pos vs pos).
    { clear D. revert Z. induction H as [|t ts Ht H IH]; intros Z; [exists []; constructor|].
      cbn [forallb] in Z. apply andb_true_iff in Z as [Z1 Z2]. destruct (Ht Z1) as [v Hv], (IH Z2) as [vs Hvs].
      exists (v :: vs). intros. econstructor; eauto. }
    destruct G as [vs G]. exists (TTuple vs). intros. now apply reads_tuple_static.
Qed.
Lemma array_bounded_exact p t : wf_type t = true -> solidity_type t = true ->
  ((forall data vs, fits data -> decode p [PArray t] data = Ok [TArray vs] -> len vs <= len data / 32) <-> zero_size t = false).
Proof.
  intros W S. split.
  - intros H. destruct (zero_size t) eqn:Z; [|reflexivity]. exfalso.
    destruct (zero_reads _ Z) as [v Hv]. set (n := 3).
    assert (F : fits (word 32 ++ word n)) by (unfold fits; rewrite len_app, !len_word; reflexivity).
    specialize (H (word 32 ++ word n) (repeat v 3) F). rewrite len_app, !len_word in H.
    apply H; [|reflexivity]. apply decode_iff; [cbn [forallb wf_type]; now rewrite W|exact F|].
    split; [left; discriminate|]. exists 32. eapply reads_cons; [|constructor].
    eapply (@reads_array _ _ 0 32 _ [] 0).
    + split; [|reflexivity]. exists [], (word n). auto.
    + split; [|reflexivity]. exists (word 32), []. rewrite app_nil_r. split; [reflexivity|apply len_word].
    + exists (word 32 ++ word n). rewrite app_nil_r. split; [reflexivity|]. now rewrite len_app, !len_word.
    + cbn [repeat List.length]. repeat (econstructor; eauto).
  - intros Z data vs F E. apply decode_iff in E as [_ (n & R)]; [|cbn [forallb wf_type]; now rewrite W|exact F].
    inversion R as [|? ? ? ? ? ? ? ? R1 R2]; subst. inversion R1 as [| | | | | | |? ? ? o ? frame nx I1 I2 Fr Rs| | | |]; subst.
    pose proof (frame_len Fr) as Lf.
    assert (0 + 32 * len vs <= nx).
    { eapply seq_advance; [|eassumption]. intros t0 p0 v0 n0 Hin R0. apply repeat_spec in Hin. subst t0. apply reads_width_mut in R0; auto. now apply R0. }
    apply reads_width_mut in Rs; [|apply forallb_forall; intros x Hx; apply repeat_spec in Hx; now subst]. lia.
Qed.
Lemma dynamic_both t v : has_type v t = true ->
  token_is_dynamic v = shows_dynamic t /\
  (token_is_dynamic v = ptype_is_dynamic t <-> (dynamic t = true -> shows_dynamic t = true)).
Proof. intros T. split; [now apply token_shows|now apply dynamic_exact]. Qed.
Lemma constructor_error p c code vs e : constructor_encode_input p c code vs = Err e -> e = InvalidData.
Proof.
  unfold constructor_encode_input. intros E. apply bind_err in E as [E|(ok & _ & E)]; [now apply types_check_not_err in E|].
  destruct ok; [|congruence]. apply bind_err in E as [E|(enc & _ & E)]; [now apply encode_not_err in E|discriminate].
Qed.

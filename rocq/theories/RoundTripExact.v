(** * What decoding makes of an encoding, empty encodings included *)
From Verif Require Import Base Types AbiSpec DecoderSpec Encoder Decoder
  BaseFacts EncoderFacts EncoderTotal DecoderFacts RoundTrip DecoderProps CodecLemmas.
From Coq Require Import ZifyBool ZifyNat ZifyN.
Set Implicit Arguments.
Local Open Scope N_scope.

(** ** Empty encodings *)
Lemma enc_seq_empty cs : Forall (fun c => c = (false, [])) cs -> enc_seq cs = [].
Proof.
  unfold enc_seq. generalize (heads_size cs). intros n F. induction F as [|c cs -> F IH]; [reflexivity|]. exact IH.
Qed.
Lemma zero_empty t v : has_type v t = true -> zero_size t = true -> abi_enc t v = [].
Proof.
  revert v. induction t using ParamType_ind'; intros v T Z; try discriminate; destruct v; try discriminate.
  - cbn [has_type zero_size abi_enc] in *. apply andb_true_iff in T as [T1 T2]. apply orb_true_iff in Z as [Z|Z].
    + apply andb_true_iff in Z as [Z _]. assert (L : len vs = 0) by lia. apply len_0 in L. now rewrite L.
    + apply enc_seq_empty. rewrite Forall_map. rewrite forallb_forall in T2. apply Forall_forall. intros v I.
      now rewrite (IHt v (T2 v I) Z), (zero_size_static _ Z).
  - rewrite tuple_enc. apply tuple_type in T. apply enc_seq_empty. cbn [zero_size] in Z. revert H Z.
    induction T as [|v t vs ts Tv T IH]; cbn [forallb combine map]; intros F Z; [constructor|].
    apply Forall_cons_iff in F as [F1 F2]. apply andb_true_iff in Z as [Z1 Z2]. constructor; [|auto].
    now rewrite (F1 v Tv Z1), (zero_size_static _ Z1).
Qed.

Lemma round_trip_exact p p' ts vs :
  forallb wf_type ts = true -> forallb solidity_type ts = true -> have_types vs ts = true ->
  forallb short_arrays vs = true -> enc_size (PTuple ts) (TTuple vs) < two32 ->
  exists data, encode p vs = Ok data /\
    (forallb zero_size ts = false \/ Forall may_be_empty ts -> decode p' ts data = Ok vs) /\
    (forallb zero_size ts = true -> ~ Forall may_be_empty ts -> data = [] /\ decode p' ts data = Err (InvalidName empty_data_msg)).
Proof.
  intros W S T A L. assert (L' : len (abi_encode ts vs) < two32) by (unfold abi_encode; now rewrite abi_enc_size).
  exists (abi_encode ts vs). assert (E : encode p vs = Ok (abi_encode ts vs)) by (apply encode_spec; assumption).
  split; [assumption|]. split.
  - intros G. rewrite <- (app_nil_r (abi_encode ts vs)). apply (@decode_encode p p' ts vs _ []); auto.
    + unfold fits. rewrite app_nil_r. rewrite two32_eq in L'. lia.
    + destruct G as [G|G]; [left|right; now apply may_be_empty_all]. rewrite app_nil_r. now apply nonzero_encode.
  - intros Z G. assert (N : abi_encode ts vs = []) by (apply zero_empty; assumption). rewrite N. split; [reflexivity|]. now apply decode_empty.
Qed.

(** * When the encode commands succeed *)
From Verif Require Import Base BaseFacts StrFacts Types AbiSpec TypeNames TypeNamesSpec TypeNamesFacts Encoder EncoderFacts EncoderTotal Decoder DecoderSpec CodecLemmas Keccak
  Function FunctionFacts Tokenizer TokenSpec TokenFacts TokenTotal Event Json JsonSpec Contract ContractSpec Cli CliSpec CliFacts CliCommands.
From Coq Require Import String Lia ZifyBool ZifyNat ZifyN.
Set Implicit Arguments.
Local Open Scope N_scope.
Local Open Scope list_scope.
Local Opaque keccak256.
Notation length := List.length.

Lemma prefix_loose v : forall t, typed_prefix v t = true -> loosely_typed v t = true /\ wf_token v = true.
Proof.
  induction v using Token_ind'; intros t T; destruct t; try discriminate; cbn [typed_prefix loosely_typed wf_token] in *; auto.
  - split; [lia|reflexivity].
  - apply andb_true_iff in T as [L T]. rewrite L. cbn [andb]. induction vs as [|v vs IH]; [auto|]. apply Forall_cons_iff in H as [H1 H2].
    cbn [forallb] in *. apply andb_true_iff in T as [T1 T2]. destruct (H1 _ T1) as [-> ->]. cbn [andb].
    clear -H2 T2. induction vs as [|v vs IH]; [auto|]. apply Forall_cons_iff in H2 as [H1 H2]. cbn [forallb] in *.
    apply andb_true_iff in T2 as [T1 T2]. destruct (H1 _ T1) as [-> ->]. auto.
  - induction vs as [|v vs IH]; [auto|]. apply Forall_cons_iff in H as [H1 H2].
    cbn [forallb] in *. apply andb_true_iff in T as [T1 T2]. destruct (H1 _ T1) as [-> ->]. auto.
  - revert ts T. induction vs as [|v vs IH]; intros ts T; [auto|]. destruct ts as [|t ts]; [discriminate|].
    apply Forall_cons_iff in H as [H1 H2]. apply andb_true_iff in T as [T1 T2]. destruct (H1 _ T1) as [E1 E2].
    destruct (IH H2 _ T2) as [E3 E4]. cbn [forallb]. now rewrite E1, E2, E3, E4.
Qed.
Lemma checks_all vs ts : Forall2 (fun v t => loosely_typed v t = true) vs ts -> types_check vs ts = Ok true.
Proof.
  intros F. unfold types_check. assert (L : length vs = length ts) by (eapply Forall2_length; exact F).
  replace (len vs =? len ts) with true by (unfold len; lia). clear L. induction F as [|v t vs ts H F IH]; [reflexivity|].
  cbn [zip_all]. apply type_check_loose in H. rewrite H. cbn [bind]. exact IH.
Qed.
Lemma tokenizers lenient : tokenizer lenient = StrictTokenizer \/ tokenizer lenient = LenientTokenizer.
Proof. destruct lenient; auto. Qed.
Lemma denoted lenient ts : forall texts vs, forallb wf_str texts = true -> (length ts <= length texts)%nat -> texts_denote lenient ts texts vs ->
  Forall2 (fun v t => loosely_typed v t = true) vs ts /\ forallb wf_token vs = true.
Proof.
  unfold texts_denote. induction ts as [|t ts IH]; intros [|x texts] vs W L D; cbn [combine length] in *; try lia.
  - inversion D; subst. split; [constructor|reflexivity].
  - inversion D; subst. split; [constructor|reflexivity].
  - inversion D as [|? v ? vs' E D']; subst. cbn [fst snd forallb] in *. apply andb_true_iff in W as [W1 W2].
    destruct (IH texts vs' W2 ltac:(lia) D') as [F1 F2]. apply (loose_both (tokenizers lenient)) in E; [|exact W1]. apply prefix_loose in E as [E1 E2].
    split; [now constructor|]. cbn [forallb]. now rewrite E2, F2.
Qed.
Lemma encode_succeeds vs : forallb wf_token vs = true -> exists b, encode Release vs = Ok b.
Proof.
  intros W. destruct (encode Release vs) as [b|e|] eqn:E; [eauto|now apply encode_not_err in E|now apply encode_release in E].
Qed.

Section Accepts.
Context (files : str -> option json).
Lemma encode_function_accepts path n values lenient : forallb wf_str values = true ->
  (exists out, execute Release files (EncodeFunction path n values lenient) = Ok out) <->
  exists f vs, load_function Release files path n = Ok f /\ (length (f_inputs f) <= length values)%nat /\
    texts_denote lenient (map p_kind (f_inputs f)) values vs.
Proof.
  intros W. cbn [execute]. split.
  - intros [out E]. pose proof (enough_values _ _ _ _ _ _ E) as (f & Ef & L & _). exists f. unfold cli_encode_input in E. rewrite Ef in E. cbn [bind] in E.
    apply bind_ok in E as (vs & Ev & _). apply parse_tokens_iff in Ev. eauto.
  - intros (f & vs & Ef & L & D). destruct (@denoted lenient (map p_kind (f_inputs f)) values vs W) as [F V]; [now rewrite map_length|exact D|].
    apply parse_tokens_iff in D. unfold cli_encode_input. rewrite Ef. cbn [bind]. rewrite D. cbn [bind]. unfold encode_input, input_param_types.
    rewrite checks_all by exact F. cbn [bind negb]. destruct (canonical_exists (f_name f) (map p_kind (f_inputs f))) as [s C].
    rewrite (short_signature_ok C). cbn [bind]. destruct (encode_succeeds _ V) as [b ->]. cbn [bind]. eauto.
Qed.
Lemma even_flatten A (l : list A) : len l mod 2 = 0 -> exists l', l = flatten l'.
Proof.
  intros E. exists (pairs l). symmetry. apply flatten_pairs. apply Nat.even_spec. unfold len in E. exists (length l / 2)%nat.
  apply N.mod_divide in E as [k E]; [|lia]. assert (length l = 2 * N.to_nat k)%nat by lia. rewrite H, Nat.mul_comm, Nat.div_mul by lia. lia.
Qed.
Lemma encode_params_accepts params lenient : forallb wf_str params = true ->
  (exists out, execute Release files (EncodeParams params lenient) = Ok out) <->
  exists names ts texts vs, params = flatten (combine names texts) /\ length texts = length names /\
    Forall2 (fun n t => read Release n = Ok t) names ts /\ texts_denote lenient ts texts vs.
Proof.
  intros W. cbn [execute]. split.
  - intros [out E]. assert (O : len params mod 2 = 0). { unfold encode_params in E. destruct (N.eqb_spec (len params mod 2) 0); [assumption|discriminate]. }
    destruct (even_flatten _ O) as [l ->]. clear O W. rewrite encode_params_flatten in E. apply bind_ok in E as (ps & Ep & E).
    apply bind_ok in E as (vs & Ev & _). exists (map fst l), (map fst ps), (map snd l), vs. apply mapM_ok in Ep.
    split; [f_equal; clear; induction l as [|[a b] l IH]; cbn; congruence|]. split; [now rewrite !map_length|].
    assert (H : Forall2 (fun n t => read Release n = Ok t) (map fst l) (map fst ps) /\ map snd ps = map snd l).
    { clear Ev. induction Ep as [|[a b] q l ps H Ep [IH1 IH2]]; [split; constructor|]. apply bind_ok in H as (z & Hz & H). injection H as <-.
      cbn [map fst snd] in *. split; [now constructor|now rewrite IH2]. }
    destruct H as [H1 H2]. split; [exact H1|]. rewrite <- H2. apply parse_tokens_iff.
    replace (combine (map fst ps) (map snd ps)) with ps; [exact Ev|]. clear. induction ps as [|[a b] ps IH]; cbn; congruence.
  - intros (names & ts & texts & vs & -> & L & R & D). rewrite encode_params_flatten, (@read_pairs Release files names ts texts R L). cbn [bind].
    assert (W' : forallb wf_str texts = true).
    { apply forallb_forall. intros x I. rewrite forallb_forall in W. apply W. unfold flatten. apply in_flat_map.
      clear -I L. revert names L. induction texts as [|y texts IH]; intros [|n names] L; try discriminate; [destruct I|]. destruct I as [->|I].
      - exists (n, x). cbn. auto.
      - destruct (IH I names ltac:(cbn in L; lia)) as (q & Q1 & Q2). exists q. cbn. auto. }
    destruct (@denoted lenient ts texts vs W') as [F V]; [|exact D|].
    { apply Forall2_length in R. lia. }
    apply parse_tokens_iff in D. rewrite D. cbn [bind]. destruct (encode_succeeds _ V) as [b ->]. cbn [bind]. eauto.
Qed.
End Accepts.

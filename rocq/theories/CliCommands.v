(** * What the commands print *)
From Verif Require Import Base BaseFacts StrFacts Types AbiSpec TypeNames TypeNamesSpec TypeNamesFacts Encoder Decoder DecoderSpec DecoderProps CodecLemmas Keccak
  Function FunctionFacts Tokenizer TokenSpec TokenFacts TokenTotal Event EventSpec EventFacts Json JsonSpec JsonFacts ItemFacts LoadFacts Contract ContractSpec ContractFacts
  JsonLemmas Cli CliSpec CliFacts.
From Coq Require Import String Lia ZifyBool ZifyNat ZifyN.
Set Implicit Arguments.
Local Open Scope N_scope.
Local Open Scope list_scope.
Local Opaque keccak256.
Notation length := List.length.

Lemma hex_encode_text b : hex_text (hex_encode b) b.
Proof. apply hex_decode_spec, hex_round. Qed.
Lemma combine_firstn A B (l : list A) : forall (l' : list B), combine l (firstn (length l) l') = combine l l'.
Proof. induction l as [|x l IH]; intros [|y l']; cbn [combine firstn length]; [reflexivity..|]. now rewrite IH. Qed.
Lemma parse_tokens_iff lenient ts texts vs : parse_tokens (combine ts texts) lenient = Ok vs <-> texts_denote lenient ts texts vs.
Proof. unfold parse_tokens, texts_denote, tokenizer. rewrite mapM_ok. destruct lenient; reflexivity. Qed.
Lemma texts_length lenient ts texts vs : texts_denote lenient ts texts vs -> length vs = Nat.min (length ts) (length texts).
Proof. intros H. apply Forall2_length in H. now rewrite combine_length in H. Qed.

Lemma hex_digit_range c d : hex_digit_value c d -> c <> 32 /\ c <> 13 /\ c <> 10 /\ c <> 9 /\ c <> 120.
Proof. unfold hex_digit_value. lia. Qed.
Lemma hex_unblank s b : hex_text s b -> filter (fun c => negb ((c =? 32) || (c =? 13) || (c =? 10) || (c =? 9))) s = s.
Proof.
  induction 1 as [|a x b y s o l Ha Hb E H IH]; [reflexivity|]. cbn [filter]. rewrite IH.
  apply hex_digit_range in Ha, Hb. replace (negb _) with true by lia. replace (negb _) with true by lia. reflexivity.
Qed.
Lemma parse_hash_ok s w : topic_text s w -> parse_hash s = Ok w.
Proof.
  intros [L [H|(s' & -> & H)]]; unfold parse_hash.
  - replace (match s with 48 :: 120 :: t' => t' | _ => s end) with s.
    + rewrite (hex_unblank H). apply hex_decode_spec in H. rewrite H. cbn [bind]. now rewrite L.
    + inversion H as [|a x b y s0 o l Ha Hb E H0]; [reflexivity|]. subst. apply hex_digit_range in Hb.
      destruct a as [|q]; [reflexivity|]. destruct b as [|q']; [now repeat (destruct q as [q|q|]; try reflexivity)|].
      repeat (destruct q as [q|q|]; try reflexivity). repeat (destruct q' as [q'|q'|]; try reflexivity). lia.
  - change (lit "0x" ++ s') with (48 :: 120 :: s'). cbv iota. rewrite (hex_unblank H). apply hex_decode_spec in H. rewrite H. cbn [bind]. now rewrite L.
Qed.

Lemma after_0x s : (exists t, s = 48 :: 120 :: t /\ match s with 48 :: 120 :: t' => t' | _ => s end = t) \/
  ((forall t, s <> 48 :: 120 :: t) /\ match s with 48 :: 120 :: t' => t' | _ => s end = s).
Proof.
  destruct s as [|a s]; [right; split; [discriminate|reflexivity]|].
  destruct (N.eq_dec a 48) as [->|Na].
  - destruct s as [|b s]; [right; split; [discriminate|reflexivity]|].
    destruct (N.eq_dec b 120) as [->|Nb]; [left; exists s; split; reflexivity|]. right. split; [intros t Q; congruence|].
    destruct b as [|q]; [reflexivity|]. repeat (destruct q as [q|q|]; try reflexivity). now contradiction Nb.
  - right. split; [intros t Q; congruence|].
    destruct a as [|q]; [reflexivity|]. repeat (destruct q as [q|q|]; try reflexivity). now contradiction Na.
Qed.
Lemma parse_hash_iff s w : parse_hash s = Ok w <-> loose_topic_text s w.
Proof.
  unfold parse_hash, loose_topic_text. cbv zeta. change (filter _ ?x) with (unblanked x).
  destruct (after_0x s) as [(t & Q' & Q)|[N Q]]; rewrite Q; clear Q; [subst s|]; split.
  - intros E. apply bind_ok in E as (b & Eb & E). apply hex_decode_spec in Eb. destruct (len b =? 32) eqn:L; [|discriminate]. injection E as <-.
    apply N.eqb_eq in L. split; [exact L|]. exists t. split; [right; reflexivity|exact Eb].
  - intros (L & t' & [<-|X] & H).
    + exfalso. cbn in H. inversion H as [|a x b y s0 o l Ha Hb Eo H0]. subst. now apply hex_digit_range in Hb.
    + change (lit "0x" ++ t') with (48 :: 120 :: t') in X. injection X as <-. apply hex_decode_spec in H. rewrite H. cbn [bind]. now rewrite L.
  - intros E. apply bind_ok in E as (b & Eb & E). apply hex_decode_spec in Eb. destruct (len b =? 32) eqn:L; [|discriminate]. injection E as <-.
    apply N.eqb_eq in L. split; [exact L|]. exists s. split; [left; reflexivity|exact Eb].
  - intros (L & t' & [<-|X] & H); [|now apply N in X]. apply hex_decode_spec in H. rewrite H. cbn [bind]. now rewrite L.
Qed.

Section Commands.
Context (p : profile) (files : str -> option json).

(** ** encode function *)
Lemma enough_values path n values lenient out : cli_encode_input p files path n values lenient = Ok out ->
  exists f, load_function p files path n = Ok f /\ (length (f_inputs f) <= length values)%nat /\
  forall values', firstn (length (f_inputs f)) values' = firstn (length (f_inputs f)) values ->
    cli_encode_input p files path n values' lenient = Ok out.
Proof.
  unfold cli_encode_input. intros E. apply bind_ok in E as (f & Ef & E). exists f. split; [exact Ef|].
  apply bind_ok in E as (vs & Ev & E). apply bind_ok in E as (r & Er & E). injection E as <-.
  assert (L : length vs = length (f_inputs f)).
  { unfold encode_input in Er. apply bind_ok in Er as (ok & Eok & Er). destruct ok; [|discriminate].
    destruct (Nat.eq_dec (length vs) (length (input_param_types f))) as [X|X].
    - unfold input_param_types in X. now rewrite map_length in X.
    - rewrite types_check_length in Eok by exact X. discriminate. }
  split.
  - apply parse_tokens_iff, texts_length in Ev. rewrite map_length in Ev. lia.
  - intros values' Ev'. rewrite Ef. cbn [bind]. rewrite <- (combine_firstn _ values'), map_length, Ev'.
    rewrite <- (combine_firstn _ values), map_length in Ev. rewrite Ev. cbn [bind]. rewrite Er. reflexivity.
Qed.
Lemma encode_function_prints path n f values lenient vs s :
  load_function p files path n = Ok f -> texts_denote lenient (map p_kind (f_inputs f)) values vs ->
  canonical_signature (f_name f) (map p_kind (f_inputs f)) s ->
  forallb solidity_type (map p_kind (f_inputs f)) = true -> have_types vs (map p_kind (f_inputs f)) = true ->
  forallb short_arrays vs = true -> enc_size (PTuple (map p_kind (f_inputs f))) (TTuple vs) < two32 ->
  exists out, execute p files (EncodeFunction path n values lenient) = Ok out /\
  hex_text out (firstn 4 (keccak256 (utf8 s)) ++ abi_encode (map p_kind (f_inputs f)) vs).
Proof.
  intros F D C S T A L. eexists. cbn [execute]. unfold cli_encode_input. rewrite F. cbn [bind].
  apply parse_tokens_iff in D. rewrite D. cbn [bind]. rewrite (@encode_input_ok p f vs s) by assumption. cbn [bind].
  split; [reflexivity|]. apply hex_encode_text.
Qed.

(** ** encode params *)
Lemma pairs_flatten A (l : list (A * A)) : pairs (flatten l) = l.
Proof. unfold flatten. induction l as [|[x y] l IH]; [reflexivity|]. cbn [flat_map app pairs fst snd]. now rewrite IH. Qed.
Lemma flatten_length A (l : list (A * A)) : length (flatten l) = (2 * length l)%nat.
Proof. unfold flatten. induction l as [|x l IH]; [reflexivity|]. cbn [flat_map app length]. rewrite IH. lia. Qed.
Lemma flatten_pairs A (l : list A) : Nat.even (length l) = true -> flatten (pairs l) = l.
Proof.
  revert l. fix IH 1. intros [|x [|y l]] H; [reflexivity|discriminate|]. cbn [pairs flatten flat_map app fst snd]. do 2 f_equal. apply IH, H.
Qed.
Lemma encode_params_flatten l lenient : encode_params p (flatten l) lenient =
  do params <- mapM (fun x => do z <- read p (fst x); Ok (z, snd x)) l;
  do tokens <- parse_tokens params lenient;
  do result <- encode p tokens;
  Ok (hex_encode result).
Proof.
  unfold encode_params. rewrite pairs_flatten. replace (len (flatten l) mod 2) with 0; [reflexivity|].
  unfold len. rewrite flatten_length. replace (N.of_nat (2 * length l)) with (N.of_nat (length l) * 2) by lia. now rewrite N.mod_mul.
Qed.
Lemma read_pairs names ts (texts : list str) : Forall2 (fun n t => read p n = Ok t) names ts -> length texts = length names ->
  mapM (fun x => do z <- read p (fst x); Ok (z, snd x)) (combine names texts) = Ok (combine ts texts).
Proof.
  intros R. revert texts. induction R as [|n t names ts H R IH]; intros [|x texts] L; try discriminate; [reflexivity|].
  cbn [combine mapM fst snd]. rewrite H. cbn [bind]. rewrite IH by (cbn in L; lia). reflexivity.
Qed.
Lemma encode_params_prints names ts texts lenient vs :
  Forall2 (fun n t => read p n = Ok t) names ts -> length texts = length names -> texts_denote lenient ts texts vs ->
  forallb solidity_type ts = true -> have_types vs ts = true ->
  forallb short_arrays vs = true -> enc_size (PTuple ts) (TTuple vs) < two32 ->
  exists out, execute p files (EncodeParams (flatten (combine names texts)) lenient) = Ok out /\ hex_text out (abi_encode ts vs).
Proof.
  intros R L D S T A Sz. eexists. cbn [execute]. rewrite encode_params_flatten, (@read_pairs names ts texts R L). cbn [bind].
  apply parse_tokens_iff in D. rewrite D. cbn [bind]. rewrite (@encode_conforms p ts vs) by assumption. cbn [bind].
  split; [reflexivity|]. apply hex_encode_text.
Qed.
Lemma odd_params params lenient : Nat.odd (length params) = true -> execute p files (EncodeParams params lenient) = Panic.
Proof.
  intros O. cbn [execute]. unfold encode_params, len. destruct (N.eqb_spec (N.of_nat (length params) mod 2) 0) as [E|E]; [|reflexivity].
  exfalso. apply Nat.odd_spec in O as [m O]. rewrite O in E. lia.
Qed.

(** ** decode *)
Lemma show_values_lines ts canon vs : Forall2 type_name ts canon -> show_values ts vs = lines (combine canon (map display vs)).
Proof.
  intros F. unfold show_values, lines. f_equal. revert vs. induction F as [|t c ts canon H F IH]; intros [|v vs]; try reflexivity.
  cbn [combine map fst snd]. rewrite IH. f_equal. apply type_name_iff in H. subst c. reflexivity.
Qed.
Lemma decoded_length ts data vs : forallb wf_type ts = true -> fits data -> decode p ts data = Ok vs -> len ts =? len vs = true.
Proof. intros W F E. apply decode_typed in E as (L & _); auto. unfold len. rewrite L. apply N.eqb_refl. Qed.
Lemma names_wf names ts : Forall2 (fun n t => read p n = Ok t) names ts -> forallb wf_type ts = true.
Proof. induction 1 as [|n t names ts H F IH]; [reflexivity|]. cbn [forallb]. now rewrite (read_wf _ _ H), IH. Qed.
Lemma text_fits text data : len text < 2 ^ 63 -> hex_text text data -> fits data.
Proof. intros L H. apply hex_text_length in H. unfold fits, len in *. lia. Qed.
Lemma written_names ts : Forall2 type_name ts (map write ts).
Proof. induction ts; constructor; auto using type_name_written. Qed.
Lemma decode_params_iff names text out : len text < 2 ^ 63 ->
  (execute p files (DecodeParams names text) = Ok out <->
   exists ts data vs canon, Forall2 (fun n t => read p n = Ok t) names ts /\ hex_text text data /\
     decode p ts data = Ok vs /\ Forall2 type_name ts canon /\ out = lines (combine canon (map display vs))).
Proof.
  intros L. cbn [execute]. unfold decode_params. split.
  - intros E. apply bind_ok in E as (ts & Et & E). apply bind_ok in E as (data & Ed & E). apply bind_ok in E as (vs & Ev & E).
    apply mapM_ok in Et. apply hex_decode_spec in Ed. destruct (negb _); [discriminate|]. injection E as <-.
    exists ts, data, vs, (map write ts). pose proof (written_names ts). repeat split; auto. now apply show_values_lines.
  - intros (ts & data & vs & canon & R & Ht & Ev & C & ->). pose proof (names_wf R) as W. pose proof (text_fits L Ht) as Fi.
    apply mapM_ok in R. rewrite R. cbn [bind]. apply hex_decode_spec in Ht. rewrite Ht. cbn [bind]. rewrite Ev. cbn [bind].
    rewrite (@decoded_length ts data vs) by assumption. cbn [negb]. f_equal. now apply show_values_lines.
Qed.
(** The assertion that there are as many tokens as types never fails. *)
Lemma mapM_panic A B (f : A -> res B) l : mapM f l = Panic -> exists x, In x l /\ f x = Panic.
Proof.
  induction l as [|x l IH]; [discriminate|]. cbn [mapM]. intros E. apply bind_panic_iff in E as [E|(y & Ey & E)]; [exists x; cbn; auto|].
  apply bind_panic_iff in E as [E|(r & _ & E)]; [|discriminate]. destruct (IH E) as (z & I & Ez). exists z. cbn. auto.
Qed.
Lemma decode_params_panic names text : len text < 2 ^ 63 -> execute p files (DecodeParams names text) = Panic ->
  (exists n, In n names /\ read p n = Panic) \/
  exists ts data, Forall2 (fun n t => read p n = Ok t) names ts /\ hex_text text data /\ decode p ts data = Panic.
Proof.
  intros L E. cbn [execute] in E. unfold decode_params in E.
  apply bind_panic_iff in E as [E|(ts & Et & E)]; [left; now apply mapM_panic|]. apply mapM_ok in Et.
  apply bind_panic_iff in E as [E|(data & Ed & E)]; [destruct (hex_decode_cases text) as [[l X]|X]; congruence|]. apply hex_decode_spec in Ed.
  apply bind_panic_iff in E as [E|(vs & Ev & E)]; [right; eauto|].
  rewrite (@decoded_length ts data vs) in E by (eauto using names_wf, text_fits). discriminate.
Qed.
Lemma decode_params_round names ts texts lenient vs canon :
  Forall2 (fun n t => read p n = Ok t) names ts -> Forall2 type_name ts canon -> length texts = length names -> texts_denote lenient ts texts vs ->
  forallb solidity_type ts = true -> have_types vs ts = true ->
  forallb short_arrays vs = true -> enc_size (PTuple ts) (TTuple vs) < two32 -> forallb zero_size ts = false \/ ts = [] ->
  exists out, execute p files (EncodeParams (flatten (combine names texts)) lenient) = Ok out /\
  execute p files (DecodeParams names out) = Ok (lines (combine canon (map display vs))).
Proof.
  intros R C L D S T A Sz Z. destruct (@encode_params_prints names ts texts lenient vs) as (out & E & H); auto. exists out. split; [exact E|].
  pose proof (names_wf R) as W. assert (Lo : len (abi_encode ts vs) < two32) by (unfold abi_encode; now rewrite abi_enc_size).
  assert (len out < 2 ^ 63). { apply hex_text_length in H. unfold len in *. change two32 with 4294967296 in Lo. lia. }
  apply decode_params_iff; [assumption|]. exists ts, (abi_encode ts vs), vs, canon. repeat split; auto.
  apply (@round_trip_data p p ts vs); auto.
Qed.
(** ** decode function *)
Lemma loaded_function_wf path n f : load_function p files path n = Ok f ->
  wf_params (f_inputs f) = true /\ wf_params (f_outputs f) = true /\ plain_name (f_name f) = true.
Proof.
  unfold load_function, open_contract. intros E. apply bind_ok in E as (c & Ec & E). destruct (files path) as [j|]; [|discriminate].
  destruct (loaded_lookup _ _ Ec) as (items & ops & Ej & Eo & HF & _).
  assert (OK : forall g, In g (functions_of ops) -> wf_params (f_inputs g) = true /\ wf_params (f_outputs g) = true /\ plain_name (f_name g) = true).
  { intros g I. apply functions_in in I. apply mapM_ok in Eo. apply mapM_items in Eo. rewrite Forall_forall in Eo. destruct (Eo _ I) as [W P].
    cbn in W, P. apply andb_true_iff in W as [W1 W2]. auto. }
  assert (IN : forall k l g, functions_by_name c k = Ok l -> In g l -> In g (functions_of ops)).
  { intros k l g El I. rewrite HF in El. assert (X : In g (filter (fun f => str_eqb (f_name f) k) (functions_of ops))).
    { destruct (filter _ _); [discriminate|]. injection El as <-. exact I. }
    now apply filter_In in X. }
  destruct (str_find n 40) as [i|].
  - apply bind_ok in E as (n0 & _ & E). apply bind_ok in E as (l & El & E). destruct (find _ l) as [g|] eqn:Fi; [|discriminate]. injection E as <-.
    apply find_some in Fi as [I _]. eauto.
  - apply bind_ok in E as (l & El & E). destruct l as [|g [|h l]]; try discriminate. injection E as <-. apply OK. eapply IN; [exact El|cbn; auto].
Qed.
Lemma wf_params_types l : wf_params l = forallb wf_type (map p_kind l).
Proof. unfold wf_params. induction l as [|a l IH]; [reflexivity|]. cbn [forallb map]. now rewrite IH. Qed.
Lemma decode_function_iff path n text out : len text < 2 ^ 63 ->
  (execute p files (DecodeFunction path n text) = Ok out <->
   exists f data vs canon, load_function p files path n = Ok f /\ hex_text text data /\
     decode p (map p_kind (f_outputs f)) data = Ok vs /\ Forall2 type_name (map p_kind (f_outputs f)) canon /\
     out = lines (combine canon (map display vs))).
Proof.
  intros L. cbn [execute]. unfold decode_call_output, decode_output, output_param_types. split.
  - intros E. apply bind_ok in E as (f & Ef & E). apply bind_ok in E as (data & Ed & E). apply bind_ok in E as (vs & Ev & E).
    apply hex_decode_spec in Ed. destruct (negb _); [discriminate|]. injection E as <-.
    exists f, data, vs, (map write (map p_kind (f_outputs f))). pose proof (written_names (map p_kind (f_outputs f))). repeat split; auto. now apply show_values_lines.
  - intros (f & data & vs & canon & Ef & Ht & Ev & C & ->). pose proof (text_fits L Ht) as Fi. destruct (loaded_function_wf _ _ Ef) as (_ & W & _).
    rewrite wf_params_types in W. rewrite Ef. cbn [bind]. apply hex_decode_spec in Ht. rewrite Ht. cbn [bind]. rewrite Ev. cbn [bind].
    replace (len (f_outputs f)) with (len (map p_kind (f_outputs f))) by (unfold len; now rewrite map_length).
    rewrite (@decoded_length _ data vs) by assumption. cbn [negb]. f_equal. now apply show_values_lines.
Qed.
Lemma decode_function_panic path n text : len text < 2 ^ 63 -> execute p files (DecodeFunction path n text) = Panic ->
  load_function p files path n = Panic \/
  exists f data, load_function p files path n = Ok f /\ hex_text text data /\ decode p (map p_kind (f_outputs f)) data = Panic.
Proof.
  intros L E. cbn [execute] in E. unfold decode_call_output, decode_output, output_param_types in E.
  apply bind_panic_iff in E as [E|(f & Ef & E)]; [auto|].
  apply bind_panic_iff in E as [E|(data & Ed & E)]; [destruct (hex_decode_cases text) as [[l X]|X]; congruence|]. apply hex_decode_spec in Ed.
  apply bind_panic_iff in E as [E|(vs & Ev & E)]; [right; exists f, data; auto|].
  destruct (loaded_function_wf _ _ Ef) as (_ & W & _). rewrite wf_params_types in W.
  replace (len (f_outputs f)) with (len (map p_kind (f_outputs f))) in E by (unfold len; now rewrite map_length).
  rewrite (@decoded_length _ data vs) in E by (eauto using text_fits). discriminate.
Qed.
(** ** decode log *)
Lemma decode_log_prints path n e texts topics text vs data :
  load_event p files path n = Ok e -> Forall2 topic_text texts topics -> hex_text text data ->
  emits e vs (mkRawLog topics data) ->
  have_types vs (map ep_kind (e_inputs e)) = true -> NoDup (map ep_name (e_inputs e)) ->
  forallb wf_type (map ep_kind (e_inputs e)) = true -> forallb solidity_type (map ep_kind (e_inputs e)) = true ->
  forallb short_arrays vs = true -> len (e_inputs e) < 2 ^ 56 ->
  enc_size (PTuple (map ep_kind (isel false (e_inputs e)))) (TTuple (values_of (select false (e_inputs e) vs))) < two32 ->
  forallb zero_size (map ep_kind (isel false (e_inputs e))) = false \/ isel false (e_inputs e) = [] ->
  execute p files (DecodeLog path n texts text) =
    Ok (lines (map (fun x => (ep_name (fst x), display (visible (fst x) (snd x)))) (combine (e_inputs e) vs))).
Proof.
  intros El Ht Hd Em T ND W S A Li Sz Z. cbn [execute]. unfold decode_log. rewrite El. cbn [bind].
  assert (Et : mapM parse_hash texts = Ok topics).
  { apply mapM_ok. clear - Ht. induction Ht as [|x y l l' H F IH]; [constructor|]. constructor; [now apply parse_hash_ok|exact IH]. }
  rewrite Et. cbn [bind]. apply hex_decode_spec in Hd. rewrite Hd. cbn [bind]. rewrite (@parse_emitted p e vs _ Em) by assumption. cbn [bind l_params].
  unfold lines. rewrite !map_map. reflexivity.
Qed.
Lemma decode_log_iff path n texts text out :
  execute p files (DecodeLog path n texts text) = Ok out <->
  exists e topics data l, load_event p files path n = Ok e /\ Forall2 loose_topic_text texts topics /\ hex_text text data /\
    parse_log p e (mkRawLog topics data) = Ok l /\ out = lines (map (fun x => (lp_name x, display (lp_value x))) (l_params l)).
Proof.
  assert (TOP : forall topics, mapM parse_hash texts = Ok topics <-> Forall2 loose_topic_text texts topics).
  { intros topics. rewrite mapM_ok. split; (induction 1 as [|x y l l' H F IH]; constructor; [now apply parse_hash_iff|exact IH]). }
  cbn [execute]. unfold decode_log. split.
  - intros E. apply bind_ok in E as (e & Ee & E). apply bind_ok in E as (topics & Et & E). apply bind_ok in E as (data & Ed & E).
    apply bind_ok in E as (l & El & E). injection E as <-. apply TOP in Et. apply hex_decode_spec in Ed.
    exists e, topics, data, l. repeat split; auto. unfold lines. now rewrite map_map.
  - intros (e & topics & data & l & Ee & Et & Ed & El & ->). apply TOP in Et. apply hex_decode_spec in Ed.
    rewrite Ee. cbn [bind]. rewrite Et. cbn [bind]. rewrite Ed. cbn [bind]. rewrite El. cbn [bind]. unfold lines. now rewrite map_map.
Qed.
End Commands.

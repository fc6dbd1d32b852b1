(** * Facts about signatures, functions and constructors *)
From Verif Require Import Base Types AbiSpec TypeNames TypeNamesSpec Encoder Decoder Keccak Function
  BaseFacts StrFacts TypeNamesFacts DecoderProps CodecLemmas.
From Coq Require Import String.
From Coq Require Import ZifyBool ZifyNat ZifyN.
Set Implicit Arguments.
Local Open Scope N_scope.
Local Open Scope list_scope.
Notation length := List.length.

(** ** Numerals *)
Lemma dec_digits_lead f n l d : n < 10 ^ N.of_nat f -> dec_digits_rev f n = l ++ [d] -> d = 0 -> l = [].
Proof.
  revert n l. induction f as [|f IH]; intros n l B E Z; cbn [dec_digits_rev] in E; [destruct l; discriminate|].
  destruct l as [|x l]; [reflexivity|]. cbn [app] in E. injection E as _ E.
  destruct (N.ltb_spec n 10) as [H|H]; [destruct l; discriminate|].
  assert (B' : n / 10 < 10 ^ N.of_nat f).
  { apply N.div_lt_upper_bound; [lia|]. rewrite Nnat.Nat2N.inj_succ, N.pow_succ_r' in B. lia. }
  pose proof (IH _ _ B' E Z) as ->. subst d. destruct f as [|f]; [discriminate|]. cbn [dec_digits_rev app] in E.
  pose proof (N.div_le_mono 10 n 10 ltac:(lia) H) as G. change (10 / 10) with 1 in G.
  destruct (n / 10 <? 10) eqn:E10.
  - injection E as E. rewrite N.mod_small in E by lia. lia.
  - injection E as _ E. destruct f; [change (10 ^ N.of_nat 1) with 10 in B'; lia|discriminate E].
Qed.
Lemma show_dec_lead n r : show_dec n = 48 :: r -> r = [].
Proof.
  unfold show_dec. intros E. destruct (rev _) as [|d l] eqn:R; [discriminate|]. cbn [map] in E.
  pose proof (f_equal (hd 0) E) as E1. pose proof (f_equal (@tl _) E) as E2. cbn [hd tl] in E1, E2.
  apply (f_equal (@rev _)) in R. rewrite rev_involutive in R. cbn [rev] in R.
  apply dec_digits_lead in R; [|apply size_nat_bound|lia].
  apply (f_equal (@length _)) in R. rewrite rev_length in R. destruct l; [|discriminate]. cbn in E2. congruence.
Qed.
Lemma numeral_fold s acc : fold_left (fun acc c => 10 * acc + (c - 48)) s acc =
  fold_left (fun acc d => acc * 10 + d) (map (fun c => c - 48) s) acc.
Proof. revert acc. induction s as [|c s IH]; intros acc; [reflexivity|]. cbn [fold_left map]. rewrite IH. f_equal. lia. Qed.
Lemma digits_forall s : forallb is_digit s = true <-> Forall (fun c => 48 <= c /\ c <= 57) s.
Proof.
  rewrite forallb_forall, Forall_forall. unfold is_digit. split; intros H x I; specialize (H x I); lia.
Qed.
Lemma show_dec_numeral n : numeral (show_dec n) n.
Proof.
  split; [apply digits_forall, show_dec_digits|]. split; [apply show_dec_nonempty|]. split; [apply show_dec_lead|].
  rewrite numeral_fold. symmetry. apply show_dec_value.
Qed.
Lemma decimal_cons c s : decimal_value (c :: s) = (c - 48) * 10 ^ len s + decimal_value s.
Proof.
  unfold decimal_value at 1. cbn [map]. unfold dec_val. cbn [fold_left]. rewrite fold_val.
  rewrite N.mul_0_l, N.add_0_l. unfold len. now rewrite map_length.
Qed.
Lemma decimal_bound s : forallb is_digit s = true -> decimal_value s < 10 ^ len s.
Proof.
  induction s as [|c s IH]; intros D; [reflexivity|]. cbn [forallb] in D. apply andb_true_iff in D as [D1 D2].
  rewrite decimal_cons, len_cons, N.pow_add_r, N.pow_1_r. specialize (IH D2). unfold is_digit in D1. nia.
Qed.
Lemma numeral_low s n : numeral s n -> 0 < n -> 10 ^ (len s - 1) <= n.
Proof.
  intros (D & NE & LZ & V) P. apply digits_forall in D. rewrite numeral_fold in V. fold (dec_val (map (fun c => c - 48) s)) in V.
  fold (decimal_value s) in V. destruct s as [|c s]; [congruence|]. rewrite decimal_cons in V. rewrite len_cons.
  replace (len s + 1 - 1) with (len s) by lia. replace (1 + len s - 1) with (len s) by lia.
  cbn [forallb] in D. apply andb_true_iff in D as [D1 D2]. unfold is_digit in D1.
  destruct (N.eq_dec c 48) as [->|NC]; [rewrite (LZ _ eq_refl) in *; cbn in V; cbn; lia|nia].
Qed.
Lemma decimal_same_length a b : forallb is_digit a = true -> forallb is_digit b = true -> len a = len b ->
  decimal_value a = decimal_value b -> a = b.
Proof.
  revert b. induction a as [|c a IH]; intros [|d b] Da Db L V; rewrite ?len_cons, ?len_nil in L; try lia; [reflexivity|].
  cbn [forallb] in Da, Db. apply andb_true_iff in Da as [Da1 Da]. apply andb_true_iff in Db as [Db1 Db].
  rewrite !decimal_cons in V. assert (L' : len a = len b) by lia. rewrite L' in V.
  pose proof (decimal_bound a Da) as Ba. pose proof (decimal_bound b Db) as Bb. rewrite L' in Ba.
  unfold is_digit in Da1, Db1. assert (c = d) by nia. subst d. f_equal. apply IH; auto. nia.
Qed.
Lemma numeral_unique s n : numeral s n -> s = show_dec n.
Proof.
  intros H. pose proof (show_dec_numeral n) as H'.
  assert (V : forall s, numeral s n -> forallb is_digit s = true /\ decimal_value s = n /\ 1 <= len s).
  { intros s0 (D & NE & LZ & V). split; [now apply digits_forall|]. rewrite numeral_fold in V. split; [symmetry; exact V|].
    destruct s0; [congruence|]. rewrite len_cons. lia. }
  destruct (V _ H) as (D1 & V1 & L1). destruct (V _ H') as (D2 & V2 & L2).
  destruct (N.eq_dec n 0) as [->|NZ].
  - assert (Z : forall s, numeral s 0 -> s = [48]).
    { clear. intros s (D & NE & LZ & V). destruct s as [|c s]; [congruence|]. rewrite numeral_fold in V.
      change (0 = decimal_value (c :: s)) in V. rewrite decimal_cons in V. inversion D as [|? ? D1 D2]; subst.
      pose proof (N.pow_nonzero 10 (len s)). assert (c = 48) as -> by nia. now rewrite (LZ _ eq_refl). }
    now rewrite (Z _ H), (Z _ H').
  - apply decimal_same_length; try assumption; [|congruence].
    assert (W : forall a b, numeral a n -> numeral b n -> len a <= len b).
    { intros a b Ha Hb. destruct (V _ Hb) as (Db & Vb & Lb). destruct (V _ Ha) as (Da & Va & La).
      pose proof (numeral_low Ha ltac:(lia)) as Lo. pose proof (decimal_bound b Db) as Up. rewrite Vb in Up.
      assert (10 ^ (len a - 1) < 10 ^ len b) as G by lia. apply N.pow_lt_mono_r_iff in G; lia. }
    pose proof (W _ _ H H'). pose proof (W _ _ H' H). lia.
Qed.

(** ** Canonical names are exactly the written ones *)
Lemma comma_list_join l s : comma_list l s <-> s = join (lit ",") l.
Proof.
  split.
  - induction 1 as [| |s l r NE H IH]; [reflexivity..|]. destruct l as [|y l]; [congruence|].
    rewrite join_cons2, <- IH. reflexivity.
  - revert s. induction l as [|x l IH]; intros s ->; [constructor|]. destruct l as [|y l]; [constructor|].
    rewrite join_cons2. apply cl_cons; [discriminate|]. now apply IH.
Qed.
Lemma type_name_written t : type_name t (write t).
Proof.
  unfold write. induction t using ParamType_ind'; cbn [write_for_abi]; try constructor; auto using show_dec_numeral.
  apply tn_tuple with (l := map (fun t => write_for_abi t true) ts); [|now apply comma_list_join].
  induction H; cbn [map]; constructor; auto.
Qed.
Scheme type_name_mind := Induction for type_name Sort Prop
with type_names_mind := Induction for type_names Sort Prop.
Combined Scheme type_name_both from type_name_mind, type_names_mind.
Lemma type_name_unique_both :
  (forall t s, type_name t s -> s = write t) /\ (forall ts l, type_names ts l -> l = map write ts).
Proof.
  apply type_name_both; try reflexivity; intros; subst;
    repeat match goal with H : numeral _ _ |- _ => apply numeral_unique in H; subst end; try reflexivity.
  match goal with H : comma_list _ _ |- _ => apply comma_list_join in H; subst end. reflexivity.
Qed.
Lemma type_name_iff t s : type_name t s <-> s = write t.
Proof. split; [apply type_name_unique_both|intros ->; apply type_name_written]. Qed.
Lemma canonical_iff name ts s : canonical_signature name ts s <->
  s = name ++ lit "(" ++ join (lit ",") (map write ts) ++ lit ")".
Proof.
  split.
  - intros (l & args & Hl & Ha & ->). apply type_name_unique_both in Hl as ->. now apply comma_list_join in Ha as ->.
  - intros ->. exists (map write ts), (join (lit ",") (map write ts)). split; [|split; [now apply comma_list_join|reflexivity]].
    induction ts; cbn; constructor; auto using type_name_written.
Qed.

(** ** Hashes *)
Lemma le_bytes_length k n : length (le_bytes k n) = k.
Proof. revert n. induction k; intros n; cbn; auto. Qed.
Lemma keccak_length m : length (keccak256 m) = 32%nat.
Proof. unfold keccak256. cbn [flat_map]. rewrite !app_length, !le_bytes_length. reflexivity. Qed.
Lemma fill_signature_ok name ts l : l <= 32 -> forall s, canonical_signature name ts s ->
  fill_signature name ts l = Ok (firstn (N.to_nat l) (keccak256 (utf8 s))).
Proof.
  intros L s H. apply canonical_iff in H as ->. unfold fill_signature.
  set (k := keccak256 _). unfold slice_to, slice.
  assert (LK : length k = 32%nat) by apply keccak_length.
  replace ((0 <=? l) && (l <=? len k)) with true by (unfold len; rewrite LK; lia). cbn [bind skipn N.to_nat].
  change (N.to_nat 0) with 0%nat. cbn [skipn]. rewrite N.sub_0_r. unfold copy_from_slice.
  replace (len _ =? l) with true; [reflexivity|]. unfold len. rewrite firstn_length, LK. lia.
Qed.
Lemma short_signature_ok name ts s : canonical_signature name ts s ->
  short_signature name ts = Ok (firstn 4 (keccak256 (utf8 s))).
Proof. intros H. apply (@fill_signature_ok name ts 4 ltac:(lia) s H). Qed.
Lemma long_signature_ok name ts s : canonical_signature name ts s ->
  long_signature name ts = Ok (keccak256 (utf8 s)).
Proof.
  intros H. unfold long_signature. rewrite (@fill_signature_ok name ts 32 ltac:(lia) s H). apply (f_equal Ok).
  apply firstn_all2. rewrite keccak_length. lia.
Qed.
Lemma canonical_exists name ts : exists s, canonical_signature name ts s.
Proof. eexists. now apply canonical_iff. Qed.

(** ** Type gate of a call *)
Lemma types_check_true vs ts : types_check vs ts = Ok true ->
  length vs = length ts /\ loosely_typed (TTuple vs) (PTuple ts) = true.
Proof.
  unfold types_check. destruct (N.eqb_spec (len vs) (len ts)) as [L|]; [|discriminate].
  intros H. assert (L' : length vs = length ts) by (unfold len in L; lia). split; [assumption|]. clear L.
  revert ts H L'. induction vs as [|v vs IH]; intros [|t ts] H L; try discriminate; [reflexivity|].
  cbn [zip_all] in H. destruct (type_check v t) as [[]| |] eqn:E; try discriminate. cbn [bind] in H.
  apply type_check_loose in E. cbn [loosely_typed]. rewrite E. cbn [andb]. apply (IH ts H). cbn in L. lia.
Qed.
Lemma type_check_not_err v t e : type_check v t <> Err e.
Proof.
  revert t e. induction v using Token_ind'; intros t e'; destruct t; cbn [type_check]; try discriminate.
    - destruct (_ =? _); [|discriminate]. clear -H. induction H as [|v vs Hv H IH]; cbn; [discriminate|].
      destruct (type_check v t) as [[]| |] eqn:E; cbn; try discriminate; [assumption|]. now apply Hv in E.
    - clear -H. induction H as [|v vs Hv H IH]; cbn; [discriminate|].
      destruct (type_check v t) as [[]| |] eqn:E; cbn; try discriminate; [assumption|]. now apply Hv in E.
    - clear -H. revert ts. induction H as [|v vs Hv H IH]; intros [|t ts]; cbn; try discriminate.
      destruct (type_check v t) as [[]| |] eqn:E; cbn; try discriminate; [apply IH|]. now apply Hv in E.
Qed.
Lemma types_check_not_err vs ts e : types_check vs ts <> Err e.
Proof.
  unfold types_check. destruct (_ =? _); [|discriminate]. revert ts. induction vs as [|v vs IH]; intros [|t ts]; cbn; try discriminate.
  destruct (type_check v t) as [[]| |] eqn:E; cbn; try discriminate; [apply IH|]. now apply type_check_not_err in E.
Qed.
Lemma types_check_shape vs ts : forallb wf_token vs = true -> same_shape (TTuple vs) (PTuple ts) = true ->
  types_check vs ts = Ok (have_types vs ts).
Proof.
  intros W S. unfold types_check.
  assert (L : length vs = length ts).
  { clear W. revert ts S. induction vs as [|v vs IH]; intros [|t ts] S; try discriminate; [reflexivity|].
    cbn [same_shape] in S. apply andb_true_iff in S as [_ S]. cbn. f_equal. now apply IH. }
  replace (len vs =? len ts) with true by (unfold len; lia). clear L. unfold have_types.
  revert ts W S. induction vs as [|v vs IH]; intros [|t ts] W S; try discriminate; [reflexivity|].
  cbn [forallb] in W. apply andb_true_iff in W as [W1 W2]. cbn [same_shape] in S. apply andb_true_iff in S as [S1 S2].
  cbn [zip_all has_type]. rewrite type_check_shape by assumption. cbn [bind]. destruct (has_type v t); [|reflexivity].
  cbn [andb]. now apply IH.
Qed.
Lemma types_check_length vs ts : length vs <> length ts -> types_check vs ts = Ok false.
Proof. intros L. unfold types_check. replace (len vs =? len ts) with false by (unfold len; lia). reflexivity. Qed.
Lemma have_types_checks vs ts : have_types vs ts = true -> types_check vs ts = Ok true.
Proof. apply have_types_check. Qed.

Section Calls.
Context (p : profile).
Lemma encode_input_ok f vs s :
  canonical_signature (f_name f) (map p_kind (f_inputs f)) s ->
  forallb solidity_type (map p_kind (f_inputs f)) = true -> have_types vs (map p_kind (f_inputs f)) = true ->
  forallb short_arrays vs = true -> enc_size (PTuple (map p_kind (f_inputs f))) (TTuple vs) < two32 ->
  encode_input p f vs = Ok (firstn 4 (keccak256 (utf8 s)) ++ abi_encode (map p_kind (f_inputs f)) vs).
Proof.
  intros C S T A L. unfold encode_input, input_param_types. rewrite have_types_checks by assumption. cbn [bind negb].
  rewrite (short_signature_ok C). cbn [bind]. rewrite encode_conforms with (ts := map p_kind (f_inputs f)) by assumption. reflexivity.
Qed.
Lemma encode_input_prefix f vs data s :
  canonical_signature (f_name f) (map p_kind (f_inputs f)) s -> encode_input p f vs = Ok data ->
  length vs = length (f_inputs f) /\
  loosely_typed (TTuple vs) (PTuple (map p_kind (f_inputs f))) = true /\
  exists enc, encode p vs = Ok enc /\ data = firstn 4 (keccak256 (utf8 s)) ++ enc.
Proof.
  intros C E. unfold encode_input, input_param_types in E. apply bind_ok in E as (ok & E1 & E).
  destruct ok; [|discriminate]. cbn [negb] in E. apply types_check_true in E1 as [L T]. rewrite map_length in L.
  rewrite (short_signature_ok C) in E. cbn [bind] in E. apply bind_ok in E as (enc & E2 & E). injection E as <-. eauto.
Qed.
Lemma encode_input_err f vs e : encode_input p f vs = Err e -> e = InvalidData.
Proof.
  unfold encode_input. intros E. apply bind_err in E as [E|(ok & _ & E)]; [now apply types_check_not_err in E|].
  destruct ok; cbn [negb] in E; [|congruence].
  destruct (canonical_exists (f_name f) (input_param_types f)) as [s C]. rewrite (short_signature_ok C) in E. cbn [bind] in E.
  apply bind_err in E as [E|(enc & _ & E)]; [now apply encode_not_err in E|discriminate].
Qed.
Lemma encode_input_rejects f vs : forallb wf_token vs = true ->
  length vs <> length (f_inputs f) \/ same_shape (TTuple vs) (PTuple (map p_kind (f_inputs f))) = true ->
  have_types vs (map p_kind (f_inputs f)) = false -> encode_input p f vs = Err InvalidData.
Proof.
  intros W [L|S] T; unfold encode_input, input_param_types.
  - rewrite types_check_length by now rewrite map_length. reflexivity.
  - rewrite types_check_shape, T by assumption. reflexivity.
Qed.
Lemma round_trip_data p' ts vs : forallb wf_type ts = true -> forallb solidity_type ts = true ->
  have_types vs ts = true -> forallb short_arrays vs = true -> enc_size (PTuple ts) (TTuple vs) < two32 ->
  forallb zero_size ts = false \/ ts = [] -> decode p' ts (abi_encode ts vs) = Ok vs.
Proof.
  intros W S T A L Z. destruct (@round_trip p p' ts vs) as (data & E & D); auto.
  rewrite encode_conforms with (ts := ts) in E by assumption. injection E as <-. exact D.
Qed.
Lemma decode_input_inverts p' f vs :
  forallb wf_type (map p_kind (f_inputs f)) = true ->
  forallb solidity_type (map p_kind (f_inputs f)) = true -> have_types vs (map p_kind (f_inputs f)) = true ->
  forallb short_arrays vs = true -> enc_size (PTuple (map p_kind (f_inputs f))) (TTuple vs) < two32 ->
  forallb zero_size (map p_kind (f_inputs f)) = false \/ f_inputs f = [] ->
  exists data, encode_input p f vs = Ok data /\ decode_input p' f (skipn 4 data) = Ok vs.
Proof.
  intros W S T A L Z. destruct (canonical_exists (f_name f) (map p_kind (f_inputs f))) as [s C].
  eexists. split; [apply (@encode_input_ok f vs s); assumption|].
  rewrite skipn_app, skipn_all2 by (rewrite firstn_length; lia). rewrite firstn_length, keccak_length. cbn [app Nat.min Nat.sub skipn].
  apply round_trip_data; auto. destruct Z as [Z|Z]; [auto|right; now rewrite Z].
Qed.
Lemma decode_output_inverts p' f vs :
  forallb wf_type (map p_kind (f_outputs f)) = true ->
  forallb solidity_type (map p_kind (f_outputs f)) = true -> have_types vs (map p_kind (f_outputs f)) = true ->
  forallb short_arrays vs = true -> enc_size (PTuple (map p_kind (f_outputs f))) (TTuple vs) < two32 ->
  forallb zero_size (map p_kind (f_outputs f)) = false \/ f_outputs f = [] ->
  decode_output p' f (abi_encode (map p_kind (f_outputs f)) vs) = Ok vs.
Proof. intros W S T A L Z. apply round_trip_data; auto. destruct Z as [Z|Z]; [auto|right; now rewrite Z]. Qed.

Lemma constructor_ok c code vs :
  forallb solidity_type (map p_kind (k_inputs c)) = true -> have_types vs (map p_kind (k_inputs c)) = true ->
  forallb short_arrays vs = true -> enc_size (PTuple (map p_kind (k_inputs c))) (TTuple vs) < two32 ->
  constructor_encode_input p c code vs = Ok (code ++ abi_encode (map p_kind (k_inputs c)) vs).
Proof.
  intros S T A L. unfold constructor_encode_input, param_types. rewrite have_types_checks by assumption. cbn [bind].
  rewrite encode_conforms with (ts := map p_kind (k_inputs c)) by assumption. reflexivity.
Qed.
Lemma constructor_prefix c code vs data : constructor_encode_input p c code vs = Ok data ->
  length vs = length (k_inputs c) /\
  loosely_typed (TTuple vs) (PTuple (map p_kind (k_inputs c))) = true /\
  exists enc, encode p vs = Ok enc /\ data = code ++ enc.
Proof.
  intros E. unfold constructor_encode_input, param_types in E. apply bind_ok in E as (ok & E1 & E).
  destruct ok; [|discriminate]. apply types_check_true in E1 as [L T]. rewrite map_length in L.
  apply bind_ok in E as (enc & E2 & E). injection E as <-. eauto.
Qed.
Lemma constructor_rejects c code vs : forallb wf_token vs = true ->
  length vs <> length (k_inputs c) \/ same_shape (TTuple vs) (PTuple (map p_kind (k_inputs c))) = true ->
  have_types vs (map p_kind (k_inputs c)) = false -> constructor_encode_input p c code vs = Err InvalidData.
Proof.
  intros W [L|S] T; unfold constructor_encode_input, param_types.
  - rewrite types_check_length by now rewrite map_length. reflexivity.
  - rewrite types_check_shape, T by assumption. reflexivity.
Qed.
End Calls.

(** ** [Function::signature] *)
Lemma until_paren n1 n2 r1 r2 : plain_name n1 = true -> plain_name n2 = true ->
  n1 ++ 40 :: r1 = n2 ++ 40 :: r2 -> n1 = n2 /\ r1 = r2.
Proof.
  unfold plain_name. revert n2. induction n1 as [|c n1 IH]; intros [|d n2] H1 H2 E; cbn [app] in E.
  - injection E. auto.
  - injection E as <- _. discriminate.
  - injection E as -> _. discriminate.
  - cbn [forallb] in H1, H2. apply andb_true_iff in H1 as [_ H1]. apply andb_true_iff in H2 as [_ H2].
    injection E as <- E. destruct (IH _ H1 H2 E) as [-> ->]. auto.
Qed.
Lemma join_write_nil ts : join (lit ",") (map write ts) = [] -> ts = [].
Proof.
  destruct ts as [|t ts]; [reflexivity|]. destruct (write_head t) as (c & s & E & _).
  destruct ts as [|t' ts]; cbn [map]; [|rewrite join_cons2]; rewrite E; cbn; discriminate.
Qed.
Lemma signature_eq f : signature f =
  f_name f ++ 40 :: join (lit ",") (map write (input_param_types f)) ++ 41 ::
  match f_outputs f with [] => [] | _ => 58 :: 40 :: join (lit ",") (map write (output_param_types f)) ++ [41] end.
Proof.
  unfold signature, ptype_to_string, input_param_types, output_param_types. rewrite !map_map.
  destruct (N.eqb_spec (str_len (join (lit ",") (map (fun x => write (p_kind x)) (f_outputs f)))) 0) as [Z|Z].
  - apply str_len_0 in Z. rewrite <- (map_map p_kind write) in Z. apply join_write_nil in Z. destruct (f_outputs f); [|discriminate]. reflexivity.
  - destruct (f_outputs f); [cbn in Z; congruence|].
    change (lit "(") with [40]. change (lit "):(") with [41; 58; 40]. change (lit ")") with [41]. rewrite <- ?app_assoc. reflexivity.
Qed.
Lemma signature_unique f g : plain_name (f_name f) = true -> plain_name (f_name g) = true ->
  signature f = signature g ->
  f_name f = f_name g /\ map p_kind (f_inputs f) = map p_kind (f_inputs g) /\ map p_kind (f_outputs f) = map p_kind (f_outputs g).
Proof.
  intros Pf Pg E. rewrite !signature_eq in E. apply until_paren in E as [-> E]; [|assumption..].
  apply join_names_inj in E as [I E]. split; [reflexivity|]. split; [exact I|]. unfold output_param_types in E.
  destruct (f_outputs f) as [|a la], (f_outputs g) as [|b lb]; try discriminate; [reflexivity|].
  injection E as E. apply (join_names_inj (map p_kind (a :: la)) (map p_kind (b :: lb)) [] []) in E as [E _]. exact E.
Qed.
Lemma canonical_unique name ts : exists s, canonical_signature name ts s /\
  (forall s', canonical_signature name ts s' -> s' = s) /\
  (forall name' ts', plain_name name = true -> plain_name name' = true ->
     canonical_signature name' ts' s -> name' = name /\ ts' = ts).
Proof.
  destruct (canonical_exists name ts) as [s C]. exists s. split; [exact C|]. apply canonical_iff in C. split.
  - intros s' C'. apply canonical_iff in C'. congruence.
  - intros name' ts' P P' C'. apply canonical_iff in C'. rewrite C in C'.
    change (lit "(") with [40] in C'. change (lit ")") with [41] in C'. symmetry in C'.
    apply until_paren in C' as [-> C']; [|assumption..]. apply (join_names_inj ts' ts [] []) in C' as [-> _]. auto.
Qed.

(** * What the encode commands print, in both profiles *)
From Verif Require Import Base BaseFacts StrFacts Types AbiSpec TypeNames TypeNamesSpec TypeNamesFacts Encoder EncoderFacts Keccak
  Function FunctionFacts Tokenizer TokenSpec TokenFacts TokenTotal LiteralSpec LiteralExact Event Json JsonSpec Contract ContractSpec Cli CliSpec PrintSpec CliFacts CliCommands CliAccepts WrapSpec WrapFacts WrapRight.
From Coq Require Import String Lia ZifyBool ZifyNat ZifyN.
Set Implicit Arguments.
Local Open Scope N_scope.
Local Open Scope list_scope.
Local Opaque keccak256.
Notation length := List.length.

(** ** Lower case *)
Lemma lower_digit c d : hex_digit_value c d -> ~ (65 <= c /\ c <= 70) -> c = hex_digit d.
Proof. unfold hex_digit_value, hex_digit. intros H N. destruct (N.ltb_spec d 10); lia. Qed.
Lemma lower_hex_iff s b : lower_hex_text s b <-> s = hex_encode b.
Proof.
  split.
  - intros [H L]. induction H as [|a x c y s o l Ha Hc Ho H IH]; [reflexivity|].
    apply Forall_cons_iff in L as [L1 L]. apply Forall_cons_iff in L as [L2 L]. cbn [hex_encode flat_map app].
    rewrite (IH L). unfold hex_encode. f_equal; [|f_equal]; rewrite Ho.
    + rewrite (lower_digit Ha L1). f_equal. unfold hex_digit_value in *. symmetry. rewrite N.mul_comm, N.div_add_l, N.div_small by lia. lia.
    + rewrite (lower_digit Hc L2). f_equal. unfold hex_digit_value in *. symmetry. rewrite N.add_comm, N.mul_comm, N.mod_add, N.mod_small by lia. lia.
  - intros ->. split; [apply hex_encode_text|]. unfold hex_encode. apply Forall_forall. intros c I. apply in_flat_map in I as (o & _ & I).
    cbn [In] in I. unfold hex_digit in I. destruct I as [<-|[<-|[]]].
    + destruct (N.ltb_spec (Byte.to_N o / 16) 10); pose proof (Byte.to_N_bounded o); lia.
    + destruct (N.ltb_spec (Byte.to_N o mod 16) 10); lia.
Qed.

Lemma Forall2_impl' A B (P Q : A -> B -> Prop) l l' : (forall a b, P a b -> Q a b) -> Forall2 P l l' -> Forall2 Q l l'.
Proof. induction 2; constructor; auto. Qed.

(** ** A value takes at most 96 bytes for each byte of its text *)
Definition room (v : Token) : N := (if dynamic_value v then 32 else 0) + len (value32 v).
Definition rooms (vs : list Token) : N := fold_right (fun v n => room v + n) 0 vs.
Lemma seq_rooms vs : len (seq32 (map (fun v => (dynamic_value v, value32 v)) vs)) = rooms vs.
Proof.
  rewrite seq32_len. induction vs as [|v vs IH]; [reflexivity|]. cbn [map rooms fold_right]. fold (rooms vs). rewrite <- IH. unfold room.
  cbn [heads_size head_size tails]. destruct (dynamic_value v); cbn [heads_size head_size tails]; rewrite ?len_app; lia.
Qed.
Definition cost (s : str) : N := 96 * len (utf8 s) + 96.
Fixpoint widths (rs : list (nat * nat)) : nat := match rs with [] => 0%nat | (a, b) :: rs' => (S b - a + widths rs')%nat end.
Lemma ranges_widths op cl s n : forall pos start, (start <= pos)%nat ->
  (start + widths (ranges start (filter (ends_item op cl s) (seq pos n))) <= pos + n)%nat.
Proof.
  induction n as [|n IH]; intros pos start L; cbn [seq filter ranges widths]; [lia|].
  destruct (ends_item op cl s pos); [|specialize (IH (S pos) start); lia]. cbn [ranges widths]. specialize (IH (S pos) (S pos)). lia.
Qed.
Lemma utf8_length_ge s : (length s <= length (utf8 s))%nat.
Proof.
  induction s as [|c s IH]; [reflexivity|]. cbn [utf8 flat_map length]. rewrite app_length. fold (utf8 s).
  assert (1 <= length (utf8_char c))%nat; [|lia]. unfold utf8_char. repeat match goal with |- context [if ?b then _ else _] => destruct b end; cbn; lia.
Qed.
Lemma items_widths op cl s : (1 <= length s)%nat -> (1 + widths (item_ranges op cl s) <= length (utf8 s))%nat.
Proof.
  intros L. pose proof (utf8_length_ge s). destruct s as [|c s]; [cbn in L; lia|]. unfold item_ranges. cbn [length seq filter].
  assert (E : ends_item op cl (c :: s) 0 = false) by (unfold ends_item, depth; cbn; apply andb_false_r).
  rewrite E. pose proof (@ranges_widths op cl (c :: s) (length s) 1 1 (le_n 1)). cbn [length] in *. lia.
Qed.
Lemma between_width s r m : bytes_between s r m -> (S (length (utf8 m)) <= S (snd r) - fst r)%nat.
Proof. intros (x & y & _ & E1 & E2). unfold utf8 in *. rewrite flat_map_app, app_length in E2. lia. Qed.
Lemma ceil_padding n : n + len (padding n) <= n + 31.
Proof. unfold padding. rewrite len_zeros, Nnat.N2Nat.id. pose proof (N.mod_upper_bound (32 - n mod 32) 32 ltac:(discriminate)). lia. Qed.
Lemma item_rooms s : forall rs vs,
  Forall2 (fun r v => exists m, bytes_between s r m /\ room v <= cost m) rs vs -> rooms vs <= 96 * N.of_nat (widths rs).
Proof.
  induction 1 as [|r v rs vs (m & B & C) F IH]; [cbn; lia|]. apply between_width in B. destruct r as [a b]. cbn [rooms fold_right widths fst snd] in *. fold (rooms vs).
  unfold cost, len in C. lia.
Qed.
Lemma sound_rooms op cl s vs : sound_literal op cl s ->
  Forall2 (fun r v => exists m, bytes_between s r m /\ room v <= cost m) (item_ranges op cl s) vs -> 64 + rooms vs <= cost s.
Proof.
  intros [(m & Es) _] F. apply item_rooms in F. assert (L : (1 <= length s)%nat) by (subst s; cbn; lia).
  pose proof (items_widths op cl s L). unfold cost, len. lia.
Qed.
Section Size.
Context (T : Tokenizer) (ET : T = StrictTokenizer \/ T = LenientTokenizer).
Lemma exact_text (n : N) s b : (do hex <- hex_decode s; if len hex =? n then Ok hex else Err InvalidData) = Ok b -> len b = n /\ len (utf8 s) >= 2 * n.
Proof.
  intros E. apply bind_ok in E as (h & Eh & E). destruct (N.eqb_spec (len h) n) as [<-|]; [|discriminate]. injection E as <-. split; [reflexivity|].
  apply hex_decode_spec, hex_text_length in Eh. pose proof (utf8_length_ge s). unfold len. lia.
Qed.
Lemma address_text s b : tokenize_address T s = Ok b -> len b = 20.
Proof. destruct ET as [-> | ->]; cbn; rewrite strict_address_eq; intros E; now apply exact_text in E. Qed.
Lemma fixed_text s n b : tokenize_fixed_bytes T s n = Ok b -> 2 * len b <= len (utf8 s).
Proof. destruct ET as [-> | ->]; cbn [tokenize_fixed_bytes StrictTokenizer LenientTokenizer]; unfold strict_fixed_bytes; intros E; apply exact_text in E; lia. Qed.
Lemma bytes_text s b : tokenize_bytes T s = Ok b -> 2 * len b <= len (utf8 s).
Proof.
  destruct ET as [-> | ->]; cbn [tokenize_bytes StrictTokenizer LenientTokenizer]; unfold strict_bytes; intros E; apply hex_decode_spec, hex_text_length in E; pose proof (utf8_length_ge s); unfold len; lia.
Qed.
Lemma string_text s b : tokenize_string T s = Ok b -> b = s.
Proof. destruct ET as [-> | ->]; cbn; unfold strict_string; congruence. Qed.
Lemma array_room t s vs : (forall s v, tokenize T t s = Ok v -> room v <= cost s) -> tokenize T (PArray t) s = Ok (TArray vs) -> 64 + rooms vs <= cost s.
Proof.
  intros IH E. apply array_exact in E as [[-> ->]|[S F]]; [vm_compute; discriminate|]. apply (sound_rooms S).
  eapply Forall2_impl'; [|exact F]. intros r v (m & B & E). eauto.
Qed.
Lemma tokenize_room t : forall s v, tokenize T t s = Ok v -> room v <= cost s.
Proof.
  assert (Plain : forall s, 32 <= cost s) by (intros; unfold cost; lia).
  induction t using ParamType_ind'; intros s v E.
  - cbn [tokenize] in E; apply rmap_ok in E as (x & E & <-). apply address_text in E. unfold room; cbn [dynamic_value value32]. rewrite len_app, E. apply Plain.
  - cbn [tokenize] in E; apply rmap_ok in E as (x & E & <-). apply bytes_text in E. unfold room; cbn [dynamic_value value32].
    rewrite !len_app, len_word32. pose proof (ceil_padding (len x)). unfold cost. lia.
  - cbn [tokenize] in E; apply rmap_ok in E as (x & E & <-). unfold room; cbn [dynamic_value value32]. rewrite len_word. apply Plain.
  - cbn [tokenize] in E; apply rmap_ok in E as (x & E & <-). unfold room; cbn [dynamic_value value32]. rewrite len_word. apply Plain.
  - cbn [tokenize] in E; apply rmap_ok in E as (x & E & <-). unfold room; cbn [dynamic_value value32]. rewrite len_word. apply Plain.
  - cbn [tokenize] in E; apply rmap_ok in E as (x & E & <-). apply string_text in E as ->. unfold room; cbn [dynamic_value value32].
    rewrite !len_app, len_word32. pose proof (ceil_padding (len (utf8 s))). unfold cost. lia.
  - assert (exists vs, v = TArray vs) as [vs ->] by (cbn [tokenize] in E; apply rmap_ok in E as (x & _ & <-); eauto).
    apply (@array_room _ _ _ IHt) in E. unfold room; cbn [dynamic_value value32]. rewrite len_app, len_word32, seq_rooms. lia.
  - cbn [tokenize] in E; apply rmap_ok in E as (x & E & <-). apply fixed_text in E. unfold room; cbn [dynamic_value value32].
    rewrite len_app. pose proof (ceil_padding (len x)). unfold cost. lia.
  - assert (exists vs, v = TFixedArray vs) as [vs ->] by (cbn [tokenize] in E; apply rmap_ok in E as (x & _ & <-); eauto).
    apply fixed_array_exact in E as [_ E]. apply (@array_room _ _ _ IHt) in E. unfold room; cbn [dynamic_value value32]. rewrite seq_rooms. destruct (existsb _ _); lia.
  - assert (exists vs, v = TTuple vs) as [vs ->] by (cbn [tokenize] in E; apply rmap_ok in E as (x & _ & <-); eauto).
    unfold room; cbn [dynamic_value value32]. rewrite seq_rooms. enough (64 + rooms vs <= cost s) by (destruct (existsb _ _); lia).
    apply tuple_exact in E as [[-> ->]|(S & L & F)]; [vm_compute; discriminate|]. apply (sound_rooms S).
    clear S. revert ts vs H L F. generalize (item_ranges 40 41 s). induction l as [|r rs IH]; intros ts vs H L F.
    + replace (combine ts []) with (@nil (ParamType * (nat * nat))) in F by now destruct ts. inversion F. constructor.
    + destruct ts as [|t ts]; [cbn in L; lia|]. cbn [combine] in F. inversion F as [|? v ? vs' (m & B & E) F']; subst. inversion H; subst. cbn [fst snd length] in *.
      constructor; [eauto|]. apply (IH ts); auto. lia.
Qed.
End Size.
Lemma texts_room lenient ts : forall texts vs, texts_denote lenient ts texts vs -> len (encoding32 vs) <= 96 * texts_size texts.
Proof.
  intros texts vs D. unfold encoding32. cbn [value32]. rewrite seq_rooms. revert texts vs D. unfold texts_denote.
  induction ts as [|t ts IH]; intros [|x texts] vs D; cbn [combine] in D; inversion D as [|? v ? vs' E D']; subst; cbn [rooms fold_right]; try lia.
  fold (rooms vs'). cbn [texts_size fold_right]. fold (texts_size texts). apply IH in D'. apply (tokenize_room (tokenizers lenient)) in E. cbn [fst snd] in E. unfold cost in E. lia.
Qed.
Lemma encode_texts p lenient ts texts vs : forallb wf_token vs = true -> texts_denote lenient ts texts vs ->
  p = Release \/ texts_size texts < 2 ^ 25 -> encode p vs = Ok (encoding32 vs).
Proof.
  intros W D H. apply encode_wraps; [exact W|]. destruct H as [H|H]; [now left|right]. apply texts_room in D.
  apply (N.le_lt_trans _ _ _ D). apply N.lt_le_trans with (96 * 2 ^ 25); [|vm_compute; discriminate]. apply N.mul_lt_mono_pos_l; [reflexivity|exact H].
Qed.

Section Exact.
Context (files : str -> option json).
Lemma encode_function_exact p path n values lenient out : forallb wf_str values = true -> p = Release \/ texts_size values < 2 ^ 25 ->
  (execute p files (EncodeFunction path n values lenient) = Ok out <->
   exists f vs s, load_function p files path n = Ok f /\ (length (f_inputs f) <= length values)%nat /\
    texts_denote lenient (map p_kind (f_inputs f)) values vs /\ canonical_signature (f_name f) (map p_kind (f_inputs f)) s /\
    lower_hex_text out (firstn 4 (keccak256 (utf8 s)) ++ encoding32 vs)).
Proof.
  intros W H. cbn [execute]. split.
  - intros E. pose proof (enough_values _ _ _ _ _ _ E) as (f & Ef & L & _). unfold cli_encode_input in E. rewrite Ef in E. cbn [bind] in E.
    apply bind_ok in E as (vs & Ev & E). apply parse_tokens_iff in Ev. destruct (canonical_exists (f_name f) (map p_kind (f_inputs f))) as [s C].
    exists f, vs, s. do 4 (split; [assumption|]). apply bind_ok in E as (data & E & E'). injection E' as <-.
    destruct (encode_input_prefix p _ _ C E) as (_ & _ & enc & E3 & ->).
    destruct (@denoted lenient (map p_kind (f_inputs f)) values vs W) as [F V]; [now rewrite map_length|exact Ev|].
    rewrite (encode_texts V Ev H) in E3. injection E3 as <-. now apply lower_hex_iff.
  - intros (f & vs & s & Ef & L & D & C & O). destruct (@denoted lenient (map p_kind (f_inputs f)) values vs W) as [F V]; [now rewrite map_length|exact D|].
    pose proof (encode_texts V D H) as E. apply parse_tokens_iff in D. unfold cli_encode_input. rewrite Ef. cbn [bind]. rewrite D. cbn [bind]. unfold encode_input, input_param_types.
    rewrite checks_all by exact F. cbn [bind negb]. rewrite (short_signature_ok C). cbn [bind]. rewrite E. cbn [bind]. apply lower_hex_iff in O as ->. reflexivity.
Qed.
Lemma texts_size_app a b : texts_size (a ++ b) = texts_size a + texts_size b.
Proof. induction a as [|x a IH]; [reflexivity|]. cbn [app texts_size fold_right]. fold (texts_size a) (texts_size (a ++ b)). rewrite IH. lia. Qed.
Lemma flatten_texts (names texts : list str) : length texts = length names -> texts_size texts <= texts_size (flatten (combine names texts)).
Proof.
  revert texts. induction names as [|n names IH]; intros [|x texts] L; try discriminate. injection L as L. apply IH in L.
  change (flatten (combine (n :: names) (x :: texts))) with ([n; x] ++ flatten (combine names texts)). rewrite texts_size_app. cbn [texts_size fold_right] in *. fold (texts_size texts) in *. lia.
Qed.
Lemma encode_params_exact p params lenient out : forallb wf_str params = true -> p = Release \/ texts_size params < 2 ^ 25 ->
  (execute p files (EncodeParams params lenient) = Ok out <->
   exists names ts texts vs, params = flatten (combine names texts) /\ length texts = length names /\
    Forall2 (fun n t => read p n = Ok t) names ts /\ texts_denote lenient ts texts vs /\ lower_hex_text out (encoding32 vs)).
Proof.
  intros W H. cbn [execute].
  assert (G : forall names ts texts vs, params = flatten (combine names texts) -> length texts = length names ->
    Forall2 (fun n t => read p n = Ok t) names ts -> texts_denote lenient ts texts vs -> encode p vs = Ok (encoding32 vs)).
  { intros names ts texts vs -> L R D.
    assert (W' : forallb wf_str texts = true).
    { apply forallb_forall. intros x I. rewrite forallb_forall in W. apply W. unfold flatten. apply in_flat_map.
      clear -I L. revert names L. induction texts as [|y texts IH]; intros [|n names] L; try discriminate; [destruct I|]. destruct I as [->|I].
      - exists (n, x). cbn. auto.
      - destruct (IH I names ltac:(cbn in L; lia)) as (q & Q1 & Q2). exists q. cbn. auto. }
    destruct (@denoted lenient ts texts vs W') as [F V]; [|exact D|].
    { apply Forall2_length in R. lia. }
    apply (encode_texts V D). destruct H as [H|H]; [now left|right]. apply N.le_lt_trans with (2 := H). now apply flatten_texts. }
  split.
  - intros E. assert (O : len params mod 2 = 0). { unfold encode_params in E. destruct (N.eqb_spec (len params mod 2) 0); [assumption|discriminate]. }
    destruct (even_flatten _ O) as [l El]. clear O W. rewrite El, encode_params_flatten in E. apply bind_ok in E as (ps & Ep & E).
    apply bind_ok in E as (vs & Ev & E). exists (map fst l), (map fst ps), (map snd l), vs. apply mapM_ok in Ep.
    assert (X : params = flatten (combine (map fst l) (map snd l))).
    { rewrite El. f_equal. clear. induction l as [|[a b] l IH]; cbn; congruence. }
    split; [exact X|]. split; [now rewrite !map_length|].
    assert (Hp : Forall2 (fun n t => read p n = Ok t) (map fst l) (map fst ps) /\ map snd ps = map snd l).
    { clear - Ep. induction Ep as [|[a b] q l ps H Ep [IH1 IH2]]; [split; constructor|]. apply bind_ok in H as (z & Hz & H). injection H as <-.
      cbn [map fst snd] in *. split; [now constructor|now rewrite IH2]. }
    destruct Hp as [H1 H2]. split; [exact H1|].
    assert (D : texts_denote lenient (map fst ps) (map snd l) vs).
    { rewrite <- H2. apply parse_tokens_iff.
      replace (combine (map fst ps) (map snd ps)) with ps; [exact Ev|]. clear. induction ps as [|[a b] ps IH]; cbn; congruence. }
    split; [exact D|]. specialize (G _ _ _ _ X ltac:(now rewrite !map_length) H1 D). rewrite G in E. injection E as <-. now apply lower_hex_iff.
  - intros (names & ts & texts & vs & X & L & R & D & O). pose proof (G _ _ _ _ X L R D) as E. subst params.
    rewrite encode_params_flatten, (@read_pairs p files names ts texts R L). cbn [bind].
    apply parse_tokens_iff in D. rewrite D. cbn [bind]. rewrite E. cbn [bind]. apply lower_hex_iff in O as ->. reflexivity.
Qed.
End Exact.

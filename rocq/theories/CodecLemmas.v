(** * Lemmas stated in the form used by the property files *)
From Verif Require Import Base Utf8 Types Encoder Decoder AbiSpec DecoderSpec BaseFacts Utf8Facts
  EncoderFacts EncoderTotal DecoderFacts RoundTrip DecoderProps.
From Coq Require Import ZifyBool ZifyNat ZifyN.
Set Implicit Arguments.
Local Open Scope N_scope.
Ltac Zify.zify_post_hook ::= Z.div_mod_to_equations.

(** ** Sizes *)
Lemma seq_size_map (A : Type) (d : A -> bool) (f : A -> list byte) l :
  len (enc_seq (map (fun v => (d v, f v)) l)) =
  fold_right (fun v acc => (if d v then 32 else 0) + len (f v) + acc) 0 l.
Proof.
  rewrite enc_seq_len. induction l as [|v l IH]; [reflexivity|].
  cbn [map heads_size head_size tails fold_right]. destruct (d v); rewrite ?len_app; lia.
Qed.
Lemma ceil32_padding n : n + len (padding n) = ceil32 n.
Proof. rewrite len_padding. unfold ceil32. lia. Qed.
Lemma fold_right_ext_in A B (f g : A -> B -> B) b l :
  (forall x acc, In x l -> f x acc = g x acc) -> fold_right f b l = fold_right g b l.
Proof. induction l; cbn; intros H; [reflexivity|]. rewrite H by auto. f_equal. auto. Qed.

Lemma abi_enc_size t v : has_type v t = true -> len (abi_enc t v) = enc_size t v.
Proof.
  revert v. induction t using ParamType_ind'; intros v T; destruct v; try discriminate;
    cbn [abi_enc enc_size]; rewrite ?len_word; try reflexivity.
  - cbn [has_type] in T. rewrite len_app, len_zeros. lia.
  - rewrite !len_app, len_word, ceil32_padding. lia.
  - rewrite !len_app, len_word, ceil32_padding. lia.
  - cbn [has_type] in T. rewrite len_app, len_word, seq_size_map. f_equal.
    rewrite forallb_forall in T. apply fold_right_ext_in. intros. now rewrite IHt by auto.
  - now rewrite len_app, ceil32_padding.
  - cbn [has_type] in T. apply andb_true_iff in T as [_ T]. rewrite seq_size_map.
    rewrite forallb_forall in T. apply fold_right_ext_in. intros. now rewrite IHt by auto.
  - apply tuple_type in T. rewrite <- (tuple_enc ts vs) || idtac.
    change (len (abi_enc (PTuple ts) (TTuple vs)) = enc_size (PTuple ts) (TTuple vs)).
    rewrite tuple_enc. rewrite enc_seq_len. cbn [enc_size].
    revert H. induction T; intros H'; [reflexivity|].
    apply Forall_cons_iff in H' as [H1 H2]. specialize (IHT H2).
    cbn [combine map heads_size head_size tails]. rewrite <- IHT, <- H1 by assumption.
    destruct (dynamic y); rewrite ?len_app; lia.
Qed.
Lemma encode_len p ts vs data : forallb solidity_type ts = true -> have_types vs ts = true ->
  forallb short_arrays vs = true -> enc_size (PTuple ts) (TTuple vs) < two32 ->
  encode p vs = Ok data -> len data = enc_size (PTuple ts) (TTuple vs).
Proof.
  intros S T A L E. unfold have_types in T. rewrite <- (abi_enc_size _ _ T) in *.
  rewrite encode_spec with (ts := ts) in E by assumption. injection E as <-. reflexivity.
Qed.

(** ** Head positions *)
Lemma head_width_static_array t n : dynamic t = false -> head_width (PFixedArray t n) = n * head_width t.
Proof. intros D. cbn [head_width dynamic]. now rewrite D. Qed.
Lemma head_width_dyn t : dynamic t = true -> head_width t = 32.
Proof. intros D. destruct t; cbn [head_width]; cbn [dynamic] in *; try rewrite D; reflexivity. Qed.
Lemma head_width_tuple ts : dynamic (PTuple ts) = false -> head_width (PTuple ts) = heads_width ts.
Proof. intros D. cbn [head_width]. now rewrite D. Qed.
Lemma heads_width_repeat t n : heads_width (repeat t n) = N.of_nat n * head_width t.
Proof.
  induction n; [reflexivity|]. cbn [repeat]. change (heads_width (t :: repeat t n)) with (head_width t + heads_width (repeat t n)).
  rewrite IHn. lia.
Qed.

Lemma reads_next_mut :
  (forall data t pos v next, reads data t pos v next -> next = pos + head_width t) /\
  (forall data ts pos vs next, reads_seq data ts pos vs next -> next = pos + heads_width ts).
Proof.
  apply reads_mutind; intros; try reflexivity.
  - rewrite head_width_static_array by assumption. rewrite H, heads_width_repeat. unfold len in *. lia.
  - rewrite head_width_dyn by assumption. reflexivity.
  - now rewrite head_width_tuple by assumption.
  - rewrite head_width_dyn by assumption. reflexivity.
  - cbn. lia.
  - rewrite H0, H. cbn [heads_width fold_right]. fold (heads_width ts). lia.
Qed.

Section Pos.
Context (p : profile).

(** Decoding a longer type list continues after the heads of the first part. *)
Lemma decode_after pre t post data vs :
  forallb wf_type pre = true -> fits data -> data <> [] -> decode p pre data = Ok vs ->
  decode p (pre ++ t :: post) data =
  do s <- decode_step (decode_param p t data) (rev vs, heads_width pre);
  do (tokens, _) <- foldM (fun s t => decode_step (decode_param p t data) s) post s;
  Ok (rev tokens).
Proof.
  intros W F D E. unfold decode in *.
  assert (L : (len data =? 0) = false) by (destruct data; [congruence|reflexivity]).
  rewrite L, andb_false_r in *. apply bind_ok in E as ([out n] & E & E'). injection E' as <-.
  pose proof (proj1 (@step_iff p data pre F (dec_iff_types p _ W) [] 0 out n) E) as (vs & -> & R).
  apply reads_next_mut in R. rewrite app_nil_r, rev_involutive in *. subst n.
  rewrite foldM_app, E. cbn [bind foldM]. rewrite N.add_0_l, bind_assoc. reflexivity.
Qed.
Lemma decode_after_one pre t data vs :
  forallb wf_type pre = true -> fits data -> data <> [] -> decode p pre data = Ok vs ->
  decode p (pre ++ [t]) data =
  do (v, _) <- decode_param p t data (heads_width pre); Ok (vs ++ [v]).
Proof.
  intros W F D E. rewrite decode_after with (vs := vs) by assumption. cbn [decode_step foldM bind].
  rewrite !bind_assoc. apply bind_ext. intros [v n]. cbn [bind rev]. now rewrite rev_involutive.
Qed.
Lemma bytes_at_nonempty data pos b : bytes_at data pos b -> 0 < len b -> data <> [].
Proof. intros H L E. apply bytes_at_le in H. rewrite E, len_nil in H. lia. Qed.

(** ** bool *)
Lemma bool_word pre data vs w :
  forallb wf_type pre = true -> fits data -> decode p pre data = Ok vs ->
  bytes_at data (heads_width pre) w -> len w = 32 ->
  decode p (pre ++ [PBool]) data =
    if of_be w <? 256 then Ok (vs ++ [TBool (of_be w =? 1)]) else Err InvalidData.
Proof.
  intros W F E B L. rewrite decode_after_one with (vs := vs) by (eauto; eapply bytes_at_nonempty; eauto; lia).
  cbn [decode_param]. replace (peek_32_bytes p data (heads_width pre)) with (Ok w)
    by (symmetry; apply (peek32 p _ _ F); auto).
  cbn [bind]. rewrite (next32 p F B). unfold as_bool.
  destruct (forallb is_zero_byte (firstn 31 w)) eqn:Z.
  - destruct (@zeros_prefix 31 1 w Z L) as (r & -> & Lr). destruct r as [|x [|]]; try discriminate.
    rewrite of_be_app. change (of_be (zeros 31)) with 0. rewrite of_be_single.
    pose proof (to_N_lt x). cbn [bind]. rewrite N.mul_0_l, N.add_0_l.
    replace (Byte.to_N x <? 256) with true by lia. reflexivity.
  - cbn [bind]. destruct (N.ltb_spec (of_be w) 256) as [Hlt|]; [|reflexivity]. exfalso.
    assert (Ew : w = word (of_be w)).
    { symmetry. apply be_bytes_of_be'. unfold len in L. lia. }
    rewrite Ew in Z. unfold word in Z. change 32%nat with (31 + 1)%nat in Z.
    rewrite be_bytes_small in Z by exact Hlt.
    rewrite firstn_app in Z. change (firstn 31 (zeros 31)) with (zeros 31) in Z.
    change (31 - length (zeros 31))%nat with 0%nat in Z. cbn [firstn] in Z.
    rewrite app_nil_r, zeros_forall in Z. discriminate.
Qed.

(** ** other static words *)
Lemma uint_word pre data vs w n :
  forallb wf_type pre = true -> fits data -> decode p pre data = Ok vs ->
  bytes_at data (heads_width pre) w -> len w = 32 ->
  decode p (pre ++ [PUint n]) data = Ok (vs ++ [TUint (of_be w)]) /\
  decode p (pre ++ [PInt n]) data = Ok (vs ++ [TInt (of_be w)]) /\
  decode p (pre ++ [PAddress]) data = Ok (vs ++ [TAddress (skipn 12 w)]).
Proof.
  intros W F E B L.
  repeat split; rewrite decode_after_one with (vs := vs) by (eauto; eapply bytes_at_nonempty; eauto; lia);
  cbn [decode_param]; replace (peek_32_bytes p data (heads_width pre)) with (Ok w)
    by (symmetry; apply (peek32 p _ _ F); auto);
  cbn [bind]; rewrite (next32 p F B); reflexivity.
Qed.
Lemma fixed_bytes_word pre data vs b n :
  forallb wf_type pre = true -> fits data -> decode p pre data = Ok vs ->
  bytes_at data (heads_width pre) b -> len b = n -> 1 <= n -> n < two64 ->
  decode p (pre ++ [PFixedBytes n]) data = Ok (vs ++ [TFixedBytes b]).
Proof.
  intros W F E B L Hn Hn'. rewrite decode_after_one with (vs := vs) by (eauto; eapply bytes_at_nonempty; eauto; lia).
  cbn [decode_param]. replace (take_bytes p data (heads_width pre) n) with (Ok b).
  - cbn [bind]. rewrite (next32 p F B). reflexivity.
  - symmetry. apply take_iff; auto.
Qed.

(** ** offset and length words *)
Lemma as_usize_big w : len w = 32 -> two32 <= of_be w -> as_usize w = Err InvalidData.
Proof.
  intros L H. destruct (as_usize w) as [n|e|] eqn:E.
  - apply as_usize_inv in E as [-> Hn]; [|assumption]. exfalso.
    rewrite word_value in H; [lia|]. apply N.lt_trans with two32; [assumption|reflexivity].
  - unfold as_usize in E. destruct (forallb _ _); congruence.
  - now apply as_usize_err in E.
Qed.

Lemma big_offset pre t post data vs w :
  forallb wf_type pre = true -> fits data -> decode p pre data = Ok vs -> dynamic t = true ->
  bytes_at data (heads_width pre) w -> len w = 32 -> two32 <= of_be w ->
  decode p (pre ++ t :: post) data = Err InvalidData.
Proof.
  intros W F E D B L H. rewrite decode_after with (vs := vs) by (eauto; eapply bytes_at_nonempty; eauto; lia).
  cbn [decode_step].
  assert (G : decode_param p t data (heads_width pre) = Err InvalidData).
  { assert (P : peek_32_bytes p data (heads_width pre) = Ok w) by (apply (peek32 p _ _ F); auto).
    destruct t; try discriminate; cbn [decode_param]; rewrite ?dynamic_eq, ?D, P; cbn [bind];
      rewrite (as_usize_big w) by assumption; reflexivity. }
  rewrite G. reflexivity.
Qed.

(** Types whose tail starts with a length word. *)
Lemma big_length pre t post data vs o w :
  forallb wf_type pre = true -> fits data -> decode p pre data = Ok vs ->
  (t = PBytes \/ t = PString \/ exists t', t = PArray t') ->
  index_at data (heads_width pre) o ->
  bytes_at data o w -> len w = 32 -> two32 <= of_be w ->
  decode p (pre ++ t :: post) data = Err InvalidData.
Proof.
  intros W F E D I B L H. rewrite decode_after with (vs := vs) by (eauto; eapply bytes_at_nonempty; eauto; lia).
  cbn [decode_step].
  assert (G : decode_param p t data (heads_width pre) = Err InvalidData).
  { assert (P : peek_32_bytes p data o = Ok w) by (apply (peek32 p _ _ F); auto).
    destruct (index_fwd p F I) as [P0 P1].
    destruct D as [->|[->|[t' ->]]]; cbn [decode_param]; rewrite P0; cbn [bind]; rewrite P1; cbn [bind];
      rewrite P; cbn [bind]; rewrite (as_usize_big w) by assumption; reflexivity. }
  rewrite G. reflexivity.
Qed.

(** ** strings *)
Lemma string_bytes pre data vs o b :
  forallb wf_type pre = true -> fits data -> decode p pre data = Ok vs ->
  index_at data (heads_width pre) o -> index_at data o (len b) -> bytes_at data (o + 32) b ->
  decode p (pre ++ [PString]) data = Ok (vs ++ [TString (utf8_lossy b)]).
Proof.
  intros W F E I1 I2 B.
  assert (D : data <> []) by (eapply bytes_at_nonempty; [apply I1|rewrite len_word; lia]).
  rewrite decode_after_one with (vs := vs) by assumption.
  assert (R : reads data PString (heads_width pre) (TString (utf8_lossy b)) (heads_width pre + 32))
    by (eapply reads_string; eauto).
  apply (dec_iff_all p PString eq_refl) in R; [|assumption]. now rewrite R.
Qed.
End Pos.

(** Lossy decoding without U+FFFD is exact. *)
Lemma byte_id n (b : byte) : Byte.to_N b = n -> byte_of_N n = b.
Proof. intros <-. apply byte_of_to_N. Qed.

Lemma lossy_exact_len k : forall l, (length l <= k)%nat -> ~ In replacement (utf8_lossy l) -> utf8 (utf8_lossy l) = l.
Proof.
  induction k as [|k IH]; intros [|b0 r0] L; cbn [length] in L; try reflexivity; try (exfalso; lia).
  assert (R : forall r X, ~ In replacement (replacement :: utf8_lossy r) -> X).
  { intros r X H. exfalso. apply H. now left. }
  assert (K : forall c r pre, utf8_char c = pre -> (length r <= k)%nat ->
     ~ In replacement (c :: utf8_lossy r) -> utf8 (c :: utf8_lossy r) = pre ++ r).
  { intros c r pre Hc Hr H. cbn [utf8 flat_map]. rewrite Hc. f_equal. apply IH; [assumption|].
    intros X. apply H. now right. }
  cbn [utf8_lossy].
  destruct (Byte.to_N b0 <? 0x80) eqn:C0.
  { intros H. apply (K _ _ [b0]); [|lia|assumption]. unfold utf8_char. rewrite C0. now rewrite byte_of_to_N. }
  destruct ((0xC2 <=? Byte.to_N b0) && (Byte.to_N b0 <=? 0xDF)) eqn:C1.
  { destruct r0 as [|b1 r1]; [apply R|]. cbn [length] in L.
    destruct (is_cont b1) eqn:I1; [|apply R].
    intros H. apply (K _ _ [b0; b1]); [|lia|assumption].
    unfold is_cont, in_range in I1. unfold utf8_char, cont_bits.
    replace (_ <? 0x80) with false by lia. replace (_ <? 0x800) with true by lia.
    f_equal; [apply byte_id; lia|]. f_equal. apply byte_id; lia. }
  destruct ((0xE0 <=? Byte.to_N b0) && (Byte.to_N b0 <=? 0xEF)) eqn:C2.
  { destruct r0 as [|b1 r1]; [apply R|]. cbn [length] in L.
    destruct (second3 (Byte.to_N b0) b1) eqn:I1; [|apply R].
    destruct r1 as [|b2 r2]; [apply R|]. cbn [length] in L.
    destruct (is_cont b2) eqn:I2; [|apply R].
    intros H. apply (K _ _ [b0; b1; b2]); [|lia|assumption].
    assert (G : (Byte.to_N b0 = 0xE0 -> 0xA0 <= Byte.to_N b1) /\ 0x80 <= Byte.to_N b1 /\ Byte.to_N b1 <= 0xBF).
    { unfold second3, in_range in I1. destruct (Byte.to_N b0 =? 0xE0) eqn:Z1; [lia|].
      destruct (Byte.to_N b0 =? 0xED) eqn:Z2; lia. }
    unfold is_cont, in_range in I2. unfold utf8_char, cont_bits. clear I1 H K R IH.
    set (c := (Byte.to_N b0 - 224) * 4096 + (Byte.to_N b1 - 128) * 64 + (Byte.to_N b2 - 128)).
    assert (E1 : c / 64 = (Byte.to_N b0 - 224) * 64 + (Byte.to_N b1 - 128)) by (subst c; lia).
    assert (E3 : c mod 64 = Byte.to_N b2 - 128) by (subst c; lia).
    replace (c / 4096) with (c / 64 / 64) by (now rewrite N.div_div).
    replace (c <? 0x80) with false by (subst c; lia). replace (c <? 0x800) with false by (subst c; lia).
    replace (c <? 0x10000) with true by (subst c; lia).
    rewrite E1, E3. clear E1 E3 c.
    f_equal; [apply byte_id; lia|]. f_equal; [apply byte_id; lia|]. f_equal; apply byte_id; lia. }
  destruct ((0xF0 <=? Byte.to_N b0) && (Byte.to_N b0 <=? 0xF4)) eqn:C3.
  { destruct r0 as [|b1 r1]; [apply R|]. cbn [length] in L.
    destruct (second4 (Byte.to_N b0) b1) eqn:I1; [|apply R].
    destruct r1 as [|b2 r2]; [apply R|]. cbn [length] in L.
    destruct (is_cont b2) eqn:I2; [|apply R].
    destruct r2 as [|b3 r3]; [apply R|]. cbn [length] in L.
    destruct (is_cont b3) eqn:I3; [|apply R].
    intros H. apply (K _ _ [b0; b1; b2; b3]); [|lia|assumption].
    assert (G : (Byte.to_N b0 = 0xF0 -> 0x90 <= Byte.to_N b1) /\ 0x80 <= Byte.to_N b1 /\ Byte.to_N b1 <= 0xBF).
    { unfold second4, in_range in I1. destruct (Byte.to_N b0 =? 0xF0) eqn:Z1; [lia|].
      destruct (Byte.to_N b0 =? 0xF4) eqn:Z2; lia. }
    unfold is_cont, in_range in *. unfold utf8_char, cont_bits. clear I1 H K R IH.
    set (c := (Byte.to_N b0 - 240) * 262144 + (Byte.to_N b1 - 128) * 4096 + (Byte.to_N b2 - 128) * 64 + (Byte.to_N b3 - 128)).
    assert (E1 : c / 64 = (Byte.to_N b0 - 240) * 4096 + (Byte.to_N b1 - 128) * 64 + (Byte.to_N b2 - 128)) by (subst c; lia).
    assert (E3 : c mod 64 = Byte.to_N b3 - 128) by (subst c; lia).
    replace (c / 262144) with (c / 64 / 64 / 64) by (now rewrite !N.div_div).
    replace (c / 4096) with (c / 64 / 64) by (now rewrite N.div_div).
    replace (c <? 0x80) with false by (subst c; lia). replace (c <? 0x800) with false by (subst c; lia).
    replace (c <? 0x10000) with false by (subst c; lia).
    rewrite E1, E3. clear E1 E3. clearbody c. clear c.
    set (d := (Byte.to_N b0 - 240) * 4096 + (Byte.to_N b1 - 128) * 64 + (Byte.to_N b2 - 128)).
    assert (E1 : d / 64 = (Byte.to_N b0 - 240) * 64 + (Byte.to_N b1 - 128)) by (subst d; lia).
    assert (E3 : d mod 64 = Byte.to_N b2 - 128) by (subst d; lia).
    rewrite E1, E3. clear E1 E3. clearbody d. clear d.
    f_equal; [apply byte_id; lia|]. f_equal; [apply byte_id; lia|]. f_equal; [apply byte_id; lia|].
    f_equal; apply byte_id; lia. }
  apply R.
Qed.
Lemma lossy_exact l : ~ In replacement (utf8_lossy l) -> utf8 (utf8_lossy l) = l.
Proof. now apply (@lossy_exact_len (length l)). Qed.

(** ** type_check *)
Lemma type_check_shape v t : wf_token v = true -> same_shape v t = true -> type_check v t = Ok (has_type v t).
Proof.
  revert t. induction v using Token_ind'; intros t W S; destruct t; try reflexivity;
    cbn [type_check has_type wf_token same_shape] in *.
  - now rewrite W.
  - f_equal. lia.
  - now rewrite W.
  - now rewrite W.
  - now rewrite W.
  - rewrite N.eqb_sym. destruct (len vs =? size); [|reflexivity]. cbn [andb].
    induction H as [|v vs Hv H IH]; [reflexivity|]. cbn [forallb allM] in *.
    apply andb_true_iff in W as [], S as []. rewrite Hv by assumption. cbn [bind].
    destruct (has_type v t); [|reflexivity]. cbn [andb]. auto.
  - induction H as [|v vs Hv H IH]; [reflexivity|]. cbn [forallb allM] in *.
    apply andb_true_iff in W as [], S as []. rewrite Hv by assumption. cbn [bind].
    destruct (has_type v t); [|reflexivity]. cbn [andb]. auto.
  - revert ts S. induction H as [|v vs Hv H IH]; intros [|t ts] S; try discriminate; [reflexivity|].
    cbn [forallb all_indexed] in *.
    apply andb_true_iff in W as [], S as []. rewrite Hv by assumption. cbn [bind].
    destruct (has_type v t); [|reflexivity]. cbn [andb]. auto.
Qed.

(** ** empty-element arrays with a forged length *)
Lemma forged_length p n : n < two32 ->
  decode p [PArray (PTuple [])] (word 32 ++ word n) = Ok [TArray (repeat (TTuple []) (N.to_nat n))].
Proof.
  intros Hn. apply decode_iff; [reflexivity|..].
  - unfold fits. rewrite len_app, !len_word. reflexivity.
  - split; [left; discriminate|]. exists 32. eapply reads_cons; [|constructor].
    assert (Ln : len (repeat (TTuple []) (N.to_nat n)) = n) by (rewrite len_repeat; lia).
    eapply (@reads_array _ _ 0 32 _ [] 0).
    + split; [|reflexivity]. exists [], (word n). auto.
    + rewrite Ln. split; [|assumption]. exists (word 32), []. rewrite app_nil_r. split; [reflexivity|apply len_word].
    + exists (word 32 ++ word n). rewrite app_nil_r. split; [reflexivity|]. now rewrite len_app, !len_word.
    + clear. rewrite repeat_length. induction (N.to_nat n); [constructor|]. cbn [repeat].
      econstructor; [|exact IHn0]. apply reads_tuple_static; [reflexivity|constructor].
Qed.

Lemma type_check_loose v t : type_check v t = Ok true <-> loosely_typed v t = true.
Proof.
  revert t. induction v using Token_ind'; intros t; destruct t; cbn [type_check loosely_typed];
    try (split; congruence).
  - rewrite N.eqb_sym. destruct (len vs =? size); [|split; discriminate]. cbn [andb].
    induction H as [|v vs Hv H IH]; [easy|]. cbn [forallb allM]. rewrite andb_true_iff, <- Hv, <- IH.
    rewrite bind_ok. split; [intros (b & E & E')|intros [E1 E2]; exists true; auto]. destruct b; [auto|discriminate].
  - induction H as [|v vs Hv H IH]; [easy|]. cbn [forallb allM]. rewrite andb_true_iff, <- Hv, <- IH.
    rewrite bind_ok. split; [intros (b & E & E')|intros [E1 E2]; exists true; auto]. destruct b; [auto|discriminate].
  - revert ts. induction H as [|v vs Hv H IH]; intros [|t ts]; cbn [all_indexed]; try easy.
    rewrite andb_true_iff, <- Hv, <- IH.
    rewrite bind_ok. split; [intros (b & E & E')|intros [E1 E2]; exists true; auto]. destruct b; [auto|discriminate].
Qed.
Lemma type_check_total v t : no_long_tuple v t = true -> exists b, type_check v t = Ok b.
Proof.
  revert t. induction v using Token_ind'; intros t; destruct t; cbn [type_check no_long_tuple]; eauto; intros S.
  - destruct (size =? len vs); eauto.
    induction H as [|v vs Hv H IH]; [cbn; eauto|]. cbn [forallb allM] in *. apply andb_true_iff in S as [S1 S2].
    destruct (Hv _ S1) as [[] ->]; cbn [bind]; eauto.
  - induction H as [|v vs Hv H IH]; [cbn; eauto|]. cbn [forallb allM] in *. apply andb_true_iff in S as [S1 S2].
    destruct (Hv _ S1) as [[] ->]; cbn [bind]; eauto.
  - revert ts S. induction H as [|v vs Hv H IH]; intros [|t ts] S; cbn [all_indexed]; try discriminate; eauto.
    apply andb_true_iff in S as [S1 S2]. destruct (Hv _ S1) as [[] ->]; cbn [bind]; eauto.
Qed.

(** ** The encoder never returns an error value *)
Lemma bind_err A B (r : res A) (k : A -> res B) e :
  bind r k = Err e -> r = Err e \/ exists a, r = Ok a /\ k a = Err e.
Proof. destruct r; cbn; intros H; try discriminate; [right; eauto|left; congruence]. Qed.
Lemma mapM_not_err A B (f : A -> res B) l :
  Forall (fun x => forall e, f x <> Err e) l -> forall e, mapM f l <> Err e.
Proof.
  intros H. induction H; cbn; intros e E; [discriminate|].
  apply bind_err in E as [E|(y & _ & E)]; [now apply H in E|].
  apply bind_err in E as [E|(ys & _ & E)]; [now apply IHForall in E|discriminate].
Qed.
Lemma checked_not_err p m v e : checked p m v <> Err e.
Proof. unfold checked. destruct (_ <? _); [discriminate|destruct p; discriminate]. Qed.
Lemma slice_not_err A (l : list A) a b e : slice l a b <> Err e.
Proof. unfold slice. destruct (_ && _); discriminate. Qed.
Lemma pad_fixed_not_err b e : pad_fixed_bytes b <> Err e.
Proof. destruct (pad_fixed_bytes_spec b) as (ws & E & _). rewrite E. discriminate. Qed.
Lemma pad_bytes_not_err b e : pad_bytes b <> Err e.
Proof. unfold pad_bytes. destruct (pad_fixed_bytes_spec b) as (ws & E & _). rewrite E. discriminate. Qed.

Section NotErr.
Context (p : profile).
Lemma head_len_not_err m e : head_len p m <> Err e.
Proof.
  revert e. induction m using Mediate_ind'; cbn [head_len]; intros e; try discriminate; try apply checked_not_err.
  apply foldM_not_err. eapply Forall_impl; [|exact H]. intros m Hm s e' E. cbv beta in Hm.
  apply bind_err in E as [E|(h & _ & E)]; [now apply Hm in E|now apply checked_not_err in E].
Qed.
Lemma sum_not_err (ms : list Mediate) (f : Mediate -> res N) init e :
  Forall (fun m => forall e, f m <> Err e) ms ->
  foldM (fun acc m => do h <- head_len p m; do a <- u32_add p acc h; do t <- f m; u32_add p a t) ms init <> Err e.
Proof.
  intros H. apply foldM_not_err. eapply Forall_impl; [|exact H]. intros m Hm s e' E. cbv beta in Hm.
  apply bind_err in E as [E|(h & _ & E)]; [now apply head_len_not_err in E|].
  apply bind_err in E as [E|(a & _ & E)]; [now apply checked_not_err in E|].
  apply bind_err in E as [E|(t & _ & E)]; [now apply Hm in E|now apply checked_not_err in E].
Qed.
Lemma tail_len_not_err m e : tail_len p m <> Err e.
Proof.
  revert e. induction m using Mediate_ind'; cbn [tail_len]; intros e; try discriminate;
    try apply checked_not_err; now apply sum_not_err.
Qed.
Lemma head_tail_not_err f ms e : Forall (fun m => forall e, f m <> Err e) ms ->
  encode_head_tail_with p f ms <> Err e.
Proof.
  intros H E. unfold encode_head_tail_with in E.
  apply bind_err in E as [E|(h & _ & E)].
  { revert E. apply foldM_not_err. apply Forall_forall. intros m _ s e' E.
    apply bind_err in E as [E|(a & _ & E)]; [now apply head_len_not_err in E|now apply checked_not_err in E]. }
  apply bind_err in E as [E|([hs l] & _ & E)].
  { revert E. apply foldM_not_err. apply Forall_forall. intros m _ [acc o] e' E.
    apply bind_err in E as [E|(a & _ & E)]; [now apply tail_len_not_err in E|].
    apply bind_err in E as [E|(b & _ & E)]; [now apply checked_not_err in E|discriminate]. }
  apply bind_err in E as [E|(x & _ & E)].
  { unfold u32_sub in E. destruct (_ <=? _); [discriminate|destruct p; discriminate]. }
  apply bind_err in E as [E|(ts & _ & E)]; [|discriminate].
  revert E. apply foldM_not_err. eapply Forall_impl; [|exact H]. intros m Hm s e' E. cbv beta in Hm.
  apply bind_err in E as [E|(a & _ & E)]; [now apply Hm in E|discriminate].
Qed.
Lemma tail_not_err m e : tail p m <> Err e.
Proof.
  revert e. induction m using Mediate_ind'; cbn [tail]; intros e E; try discriminate;
    try (revert E; now apply head_tail_not_err).
  apply bind_err in E as [E|(a & _ & E)]; [|discriminate]. revert E; now apply head_tail_not_err.
Qed.
Lemma encode_head_tail_not_err ms e : encode_head_tail p ms <> Err e.
Proof. apply head_tail_not_err. apply Forall_forall. intros. apply tail_not_err. Qed.
Lemma encode_token_not_err v e : encode_token p v <> Err e.
Proof.
  revert e. induction v using Token_ind'; cbn [encode_token]; intros e E; try discriminate.
  - apply bind_err in E as [E|(c & _ & E)]; [|discriminate]. unfold copy_from_slice in E. destruct (_ =? _); discriminate.
  - apply bind_err in E as [E|(c & _ & E)]; [now apply pad_fixed_not_err in E|discriminate].
  - apply bind_err in E as [E|(c & _ & E)]; [now apply pad_bytes_not_err in E|discriminate].
  - apply bind_err in E as [E|(c & _ & E)]; [now apply pad_bytes_not_err in E|discriminate].
  - apply bind_err in E as [E|(ms & _ & E)]; [revert E; now apply mapM_not_err|].
    destruct (token_is_dynamic _); [discriminate|].
    apply bind_err in E as [E|(w & _ & E)]; [now apply encode_head_tail_not_err in E|discriminate].
  - apply bind_err in E as [E|(ms & _ & E)]; [revert E; now apply mapM_not_err|discriminate].
  - apply bind_err in E as [E|(ms & _ & E)]; [revert E; now apply mapM_not_err|].
    destruct (token_is_dynamic _); discriminate.
Qed.
Lemma encode_not_err vs e : encode p vs <> Err e.
Proof.
  unfold encode. intros E. apply bind_err in E as [E|(ms & _ & E)].
  - revert E. apply mapM_not_err. apply Forall_forall. intros. apply encode_token_not_err.
  - apply bind_err in E as [E|(w & _ & E)]; [now apply encode_head_tail_not_err in E|discriminate].
Qed.
End NotErr.
Lemma encode_total_release vs : forallb wf_token vs = true -> exists data, encode Release vs = Ok data.
Proof.
  intros W. destruct (encode Release vs) eqn:E; eauto; exfalso.
  - now apply encode_not_err in E.
  - now apply encode_release in E.
Qed.

(** ** Round trip in closed form *)
Lemma round_trip p p' ts vs :
  forallb wf_type ts = true -> forallb solidity_type ts = true -> have_types vs ts = true ->
  forallb short_arrays vs = true -> enc_size (PTuple ts) (TTuple vs) < two32 ->
  forallb zero_size ts = false \/ ts = [] ->
  exists data, encode p vs = Ok data /\ decode p' ts data = Ok vs.
Proof.
  intros W S T A L G. assert (L' : len (abi_encode ts vs) < two32) by (unfold abi_encode; now rewrite abi_enc_size).
  exists (abi_encode ts vs). assert (E : encode p vs = Ok (abi_encode ts vs)) by (apply encode_spec; assumption).
  split; [assumption|]. rewrite <- (app_nil_r (abi_encode ts vs)). apply (@decode_encode p p' ts vs _ []); auto.
  - unfold fits. rewrite app_nil_r. rewrite two32_eq in L'. lia.
  - destruct G as [G| ->]; [left|now right]. rewrite app_nil_r. now apply nonzero_encode.
Qed.
Lemma encode_conforms p ts vs :
  forallb solidity_type ts = true -> have_types vs ts = true ->
  forallb short_arrays vs = true -> enc_size (PTuple ts) (TTuple vs) < two32 ->
  encode p vs = Ok (abi_encode ts vs).
Proof. intros S T A L. apply encode_spec; auto. unfold abi_encode. now rewrite abi_enc_size. Qed.
Lemma encode_injective p p' ts vs vs' data :
  forallb solidity_type ts = true -> have_types vs ts = true -> have_types vs' ts = true ->
  forallb short_arrays vs = true -> forallb short_arrays vs' = true ->
  enc_size (PTuple ts) (TTuple vs) < two32 -> enc_size (PTuple ts) (TTuple vs') < two32 ->
  encode p vs = Ok data -> encode p' vs' = Ok data -> vs = vs'.
Proof.
  intros S T T' A A' L L' E E'. rewrite encode_conforms with (ts := ts) in E, E' by assumption.
  apply (@abi_encode_inj ts vs vs'); auto; [|congruence]. unfold abi_encode. now rewrite abi_enc_size.
Qed.
Lemma decode_typed p ts data vs : forallb wf_type ts = true -> fits data -> decode p ts data = Ok vs ->
  length vs = length ts /\ have_types vs ts = true /\ types_check vs ts = Ok true.
Proof.
  intros W F E. apply decode_iff in E as [_ (n & R)]; auto. pose proof (reads_seq_typed R) as T.
  split; [|split; [assumption|now apply have_types_check]]. apply tuple_type in T. now rewrite (Forall2_length T).
Qed.
Lemma decode_bounded p ts data vs :
  forallb wf_type ts = true -> fits data -> forallb solidity_type ts = true ->
  forallb sized_elements ts = true -> decode p ts data = Ok vs ->
  forallb (arrays_bounded (len data / 32)) vs = true.
Proof.
  intros W F S Z E. apply decode_iff in E as [_ (n & R)]; auto. eapply reads_arrays_mut; eauto.
Qed.
Lemma decode_empty p ts : ~ Forall may_be_empty ts -> decode p ts [] = Err (InvalidName empty_data_msg).
Proof.
  intros E. unfold decode. rewrite <- may_be_empty_all in E.
  destruct (forallb is_empty_bytes_valid_encoding ts); [now contradiction E|reflexivity].
Qed.

(** ** 4 GiB and beyond *)
Lemma encode_bytes_4GiB b : two32 <= len b -> len b < 2 ^ 36 ->
  encode Debug [TBytes b] = Panic /\
  exists data, encode Release [TBytes b] = Ok data /\ data <> abi_encode [PBytes] [TBytes b].
Proof.
  intros L U. rewrite two32_eq in L.
  destruct (pad_fixed_bytes_spec b) as (ws & E & C & F).
  assert (Lw : 32 * len ws = ceil32 (len b)).
  { rewrite <- ceil32_padding, <- len_app, <- C. symmetry. now apply concat_len. }
  unfold ceil32 in Lw. unfold encode. cbn [mapM encode_token]. unfold pad_bytes. rewrite E. cbn [bind].
  unfold encode_head_tail, encode_head_tail_with. cbn [foldM head_len bind].
  change (u32_add _ 0 32) with (@Ok N 32). cbn [bind foldM tail_len].
  assert (LW : as_u32 (len (pad_u32 (as_u32 (len b)) :: ws)) * 32 >= 2 ^ 32).
  { rewrite len_cons. unfold as_u32. rewrite two32_eq. lia. }
  split.
  - unfold u32_mul, checked. replace (_ <? two32) with false by (rewrite two32_eq; lia). reflexivity.
  - unfold u32_mul, u32_add, u32_sub, checked.
    replace (_ <? two32) with false by (rewrite two32_eq; lia). cbn [bind].
    match goal with |- context [if ?c then Ok ?a else Ok ?b] => set (X := if c then Ok a else Ok b) end.
    assert (HX : exists x, X = Ok x) by (subst X; destruct (_ <? _); eauto).
    destruct HX as [x HX]. rewrite HX. cbn [bind].
    match goal with |- context [if ?c then Ok ?a else Ok ?b] => set (Y := if c then Ok a else Ok b) end.
    assert (HY : exists y, Y = Ok y) by (subst Y; destruct (_ <=? _); eauto).
    destruct HY as [y HY]. rewrite HY. cbn [bind foldM tail head app].
    eexists. split; [reflexivity|]. intros Eq.
    unfold abi_encode in Eq. cbn [abi_enc] in Eq. unfold enc_seq in Eq.
    cbn [heads_size head_size heads tails dynamic] in Eq. rewrite !app_nil_r, N.add_0_r in Eq.
    cbn [concat] in Eq.
    change (pad_u32 32) with (word 32) in Eq. apply app_inv_head in Eq.
    apply (f_equal (@firstn byte 32)) in Eq.
    assert (P : pad_u32 (as_u32 (len b)) = word (as_u32 (len b))).
    { apply pad_u32_word. unfold as_u32. rewrite two32_eq. lia. }
    assert (Lx : forall n l, firstn 32 (word n ++ l) = word n).
    { intros. rewrite firstn_app. unfold word at 2. rewrite be_bytes_length, Nat.sub_diag.
      rewrite firstn_all2 by (unfold word; rewrite be_bytes_length; lia). apply app_nil_r. }
    rewrite P, !Lx in Eq.
    assert (two32 < two256) by reflexivity. assert (2 ^ 36 < two256) by reflexivity.
    apply word_inj in Eq; [|unfold as_u32; rewrite two32_eq in *; lia|lia].
    unfold as_u32 in Eq. rewrite two32_eq in Eq. lia.
Qed.

Lemma forged_length' p n : n < two32 -> exists data, len data = 64 /\
  decode p [PArray (PTuple [])] data = Ok [TArray (repeat (TTuple []) (N.to_nat n))].
Proof.
  intros H. exists (word 32 ++ word n). split; [|now apply forged_length].
  rewrite len_app, !len_word. reflexivity.
Qed.
Lemma lossy_marks b : (forall s, wf_str s = true -> utf8 s <> b) -> In 0xFFFD (utf8_lossy b).
Proof.
  intros H. destruct (in_dec N.eq_dec replacement (utf8_lossy b)) as [I|I]; [exact I|].
  exfalso. apply (H (utf8_lossy b)); [apply utf8_lossy_wf|now apply lossy_exact].
Qed.
Lemma dynamic_agree t v : solidity_type t = true -> has_type v t = true ->
  token_is_dynamic v = ptype_is_dynamic t /\ ptype_is_dynamic t = dynamic t.
Proof. intros S T. rewrite dynamic_eq. split; [now apply token_dynamic|reflexivity]. Qed.

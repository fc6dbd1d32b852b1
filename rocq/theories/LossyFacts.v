(** * Lossy decoding replaces exactly the maximal subparts *)
From Verif Require Import Base Utf8 Types Decoder AbiSpec DecoderSpec LossySpec BaseFacts Utf8Facts CodecLemmas.
From Coq Require Import ZifyBool ZifyNat ZifyN.
Set Implicit Arguments.
Local Open Scope N_scope.
Ltac Zify.zify_post_hook ::= Z.div_mod_to_equations.

Definition two (b0 : byte) : bool := in_range 0xC2 0xDF b0.
Definition three (b0 : byte) : bool := in_range 0xE0 0xEF b0.
Definition four (b0 : byte) : bool := in_range 0xF0 0xF4 b0.

(** The four forms an encoded character takes. *)
Definition form (c : char) (l : list byte) : Prop :=
  match l with
  | [b0] => Byte.to_N b0 < 0x80 /\ c = Byte.to_N b0
  | [b0; b1] => two b0 = true /\ is_cont b1 = true /\ c = (Byte.to_N b0 - 0xC0) * 64 + cont_bits b1
  | [b0; b1; b2] => three b0 = true /\ second3 (Byte.to_N b0) b1 = true /\ is_cont b2 = true /\
      c = (Byte.to_N b0 - 0xE0) * 4096 + cont_bits b1 * 64 + cont_bits b2
  | [b0; b1; b2; b3] => four b0 = true /\ second4 (Byte.to_N b0) b1 = true /\ is_cont b2 = true /\ is_cont b3 = true /\
      c = (Byte.to_N b0 - 0xF0) * 262144 + cont_bits b1 * 4096 + cont_bits b2 * 64 + cont_bits b3
  | _ => False
  end.

Lemma to_of n : n < 256 -> Byte.to_N (byte_of_N n) = n.
Proof. intros H. rewrite to_N_byte_of_N. now apply N.mod_small. Qed.

Lemma char_form c : is_scalar c = true -> form c (utf8_char c).
Proof.
  intros S. unfold is_scalar in S. unfold utf8_char.
  destruct (c <? 0x80) eqn:A. { cbn [form]. rewrite to_of by lia. lia. }
  destruct (c <? 0x800) eqn:B.
  { cbn [form]. unfold two, is_cont, in_range, cont_bits. rewrite !to_of by lia. repeat split; lia. }
  destruct (c <? 0x10000) eqn:C.
  { cbn [form]. unfold three, is_cont, second3, in_range, cont_bits. rewrite !to_of by lia.
    assert (E : c / 4096 = c / 64 / 64) by (now rewrite N.div_div). rewrite E. clear E.
    set (d := c / 64) in *. assert (c = d * 64 + c mod 64) by (subst d; lia).
    assert (c mod 64 < 64) by lia. assert (d < 1024) by lia. assert (32 <= d) by lia.
    assert (d < 0x360 \/ 0x380 <= d) by lia.
    generalize dependent (c mod 64). intros m. intros. clearbody d. clear S A B C.
    destruct (0xE0 + d / 64 =? 0xE0) eqn:Z1; [|destruct (0xE0 + d / 64 =? 0xED) eqn:Z2]; repeat split; lia. }
  cbn [form]. unfold four, is_cont, second4, in_range, cont_bits. rewrite !to_of by lia.
  assert (E : c / 4096 = c / 64 / 64) by (now rewrite N.div_div).
  assert (E' : c / 262144 = c / 64 / 64 / 64) by (now rewrite !N.div_div). rewrite E, E'. clear E E'.
  set (d := c / 64) in *. assert (c = d * 64 + c mod 64) by (subst d; lia).
  assert (c mod 64 < 64) by lia. assert (d < 17408) by lia. assert (1024 <= d) by lia.
  generalize dependent (c mod 64). intros m. intros. clearbody d. clear S A B C.
  set (e := d / 64) in *. assert (d = e * 64 + d mod 64) by (subst e; lia).
  assert (d mod 64 < 64) by lia. generalize dependent (d mod 64). intros k. intros. clearbody e.
  assert (e < 272) by lia. assert (16 <= e) by lia.
  destruct (0xF0 + e / 64 =? 0xF0) eqn:Z1; [|destruct (0xF0 + e / 64 =? 0xF4) eqn:Z2]; repeat split; lia.
Qed.

Lemma form_scalar c l : form c l -> is_scalar c = true.
Proof.
  destruct l as [|b0 [|b1 [|b2 [|b3 [|b4 l]]]]]; cbn; try tauto; unfold is_scalar, two, three, four, second3, second4, is_cont, in_range, cont_bits.
  - lia.
  - lia.
  - destruct (Byte.to_N b0 =? 0xE0) eqn:Z1; [lia|]. destruct (Byte.to_N b0 =? 0xED) eqn:Z2; lia.
  - destruct (Byte.to_N b0 =? 0xF0) eqn:Z1; [lia|]. destruct (Byte.to_N b0 =? 0xF4) eqn:Z2; lia.
Qed.

Lemma form_lossy c l r : form c l -> utf8_lossy (l ++ r) = c :: utf8_lossy r.
Proof.
  destruct l as [|b0 [|b1 [|b2 [|b3 [|b4 l]]]]]; cbn [form]; try tauto; cbn [app utf8_lossy].
  - intros (H & ->). now replace (Byte.to_N b0 <? 0x80) with true by lia.
  - unfold two, in_range. intros (H & K & ->). rewrite K, H. now replace (Byte.to_N b0 <? 0x80) with false by lia.
  - unfold three, in_range at 1. intros (H & J & K & ->). rewrite K, H, J.
    replace (Byte.to_N b0 <? 0x80) with false by lia.
    now replace ((0xC2 <=? Byte.to_N b0) && (Byte.to_N b0 <=? 0xDF)) with false by lia.
  - unfold four, in_range at 1. intros (H & J & K & L & ->). rewrite L, K, H, J.
    replace (Byte.to_N b0 <? 0x80) with false by lia.
    replace ((0xC2 <=? Byte.to_N b0) && (Byte.to_N b0 <=? 0xDF)) with false by lia.
    now replace ((0xE0 <=? Byte.to_N b0) && (Byte.to_N b0 <=? 0xEF)) with false by lia.
Qed.

(** A form is the encoding. *)
Lemma form_char c l : form c l -> utf8_char c = l.
Proof.
  intros F. destruct (N.eq_dec c replacement) as [->|R].
  - (* U+FFFD itself *)
    assert (S := @form_scalar _ _ F). destruct l as [|b0 [|b1 [|b2 [|b3 [|b4 l]]]]]; cbn in F; try tauto;
      unfold replacement, two, three, four, second3, second4, is_cont, in_range, cont_bits in F.
    + lia.
    + lia.
    + assert (Byte.to_N b0 = 0xEF /\ Byte.to_N b1 = 0xBF /\ Byte.to_N b2 = 0xBD) as (A & B & C).
      { destruct (Byte.to_N b0 =? 0xE0) eqn:Z1; [lia|]. destruct (Byte.to_N b0 =? 0xED) eqn:Z2; lia. }
      rewrite <- (byte_of_to_N b0), <- (byte_of_to_N b1), <- (byte_of_to_N b2), A, B, C. reflexivity.
    + destruct (Byte.to_N b0 =? 0xF0) eqn:Z1; [lia|]. destruct (Byte.to_N b0 =? 0xF4) eqn:Z2; lia.
  - assert (E := @form_lossy _ _ [] F). rewrite app_nil_r in E. cbn [utf8_lossy] in E.
    assert (X := @lossy_exact l). rewrite E in X. cbn [utf8 flat_map] in X. rewrite app_nil_r in X. apply X.
    intros [Q|[]]. congruence.
Qed.

Lemma prefix_form l : forall c r, is_scalar c = true -> utf8_char c ++ r = l ->
  exists k, k ++ r = l /\ form c k.
Proof. intros c r S E. exists (utf8_char c). split; [exact E|now apply char_form]. Qed.

(** The proper beginnings of characters. *)
Definition begins (u : list byte) : Prop :=
  match u with
  | [b0] => two b0 = true \/ three b0 = true \/ four b0 = true
  | [b0; b1] => three b0 = true /\ second3 (Byte.to_N b0) b1 = true \/ four b0 = true /\ second4 (Byte.to_N b0) b1 = true
  | [b0; b1; b2] => four b0 = true /\ second4 (Byte.to_N b0) b1 = true /\ is_cont b2 = true
  | _ => False
  end.

Lemma cut_begins u : cut_short u -> begins u.
Proof.
  intros (NE & c & w & S & W & E). apply char_form in S. rewrite E in S. clear E.
  destruct u as [|b0 [|b1 [|b2 u]]]; [tauto| | |]; destruct w as [|w0 w]; try tauto; cbn [app] in S.
  - destruct w as [|w1 [|w2 [|w3 w]]]; cbn in S |- *; tauto.
  - destruct w as [|w1 [|w2 w]]; cbn in S |- *; tauto.
  - destruct u as [|b3 u]; [|destruct u; cbn in S; tauto]. destruct w as [|w1 w]; cbn in S |- *; tauto.
Qed.

Lemma cut_of c u w : form c (u ++ w) -> u <> [] -> w <> [] -> cut_short u.
Proof. intros F U W. split; [exact U|]. exists c, w. split; [exact (@form_scalar _ _ F)|]. split; [exact W|]. now apply form_char. Qed.

Lemma second3_ex b0 : three b0 = true -> exists b1, second3 (Byte.to_N b0) b1 = true.
Proof.
  intros T. unfold second3. destruct (_ =? 0xE0); [exists xa0; reflexivity|].
  destruct (_ =? 0xED); exists x80; reflexivity.
Qed.
Lemma second4_ex b0 : four b0 = true -> exists b1, second4 (Byte.to_N b0) b1 = true.
Proof.
  intros T. unfold second4. destruct (_ =? 0xF0); [exists x90; reflexivity|].
  destruct (_ =? 0xF4); exists x80; reflexivity.
Qed.

Lemma begins_cut u : begins u -> cut_short u.
Proof.
  assert (C80 : is_cont x80 = true) by reflexivity.
  destruct u as [|b0 [|b1 [|b2 [|b3 u]]]]; cbn [begins]; try tauto.
  - intros [H|[H|H]].
    + eapply (@cut_of _ [b0] [x80]); [cbn; repeat split; eauto|congruence|congruence].
    + destruct (second3_ex _ H) as (b1 & K).
      eapply (@cut_of _ [b0] [b1; x80]); [cbn; repeat split; eauto|congruence|congruence].
    + destruct (second4_ex _ H) as (b1 & K).
      eapply (@cut_of _ [b0] [b1; x80; x80]); [cbn; repeat split; eauto|congruence|congruence].
  - intros [(H & K)|(H & K)].
    + eapply (@cut_of _ [b0; b1] [x80]); [cbn; repeat split; eauto|congruence|congruence].
    + eapply (@cut_of _ [b0; b1] [x80; x80]); [cbn; repeat split; eauto|congruence|congruence].
  - intros (H & K & L).
    eapply (@cut_of _ [b0; b1; b2] [x80]); [cbn; repeat split; eauto|congruence|congruence].
Qed.

(** One step: what the decoder does with the first bytes. *)
Lemma lossy_step l : l <> [] ->
  (exists c k r, form c k /\ l = k ++ r /\ utf8_lossy l = c :: utf8_lossy r) \/
  ((forall c k r, k ++ r = l -> ~ form c k) /\
   ((exists u r, begins u /\ l = u ++ r /\ utf8_lossy l = replacement :: utf8_lossy r /\
       forall v r', v ++ r' = l -> begins v -> (length v <= length u)%nat) \/
    (exists b r, l = b :: r /\ utf8_lossy l = replacement :: utf8_lossy r /\
       forall v r', v ++ r' = l -> ~ begins v))).
Proof.
  destruct l as [|b0 r0]; [tauto|]. intros _.
  Ltac pre E := 
    match type of E with ?v ++ ?r = _ => 
      destruct v as [|?v0 [|?v1 [|?v2 [|?v3 [|?v4 v]]]]]; cbn [app] in E; try discriminate E; inversion E; subst; clear E end.
  Ltac big B := cbn [begins length] in *; try lia; try tauto; try (intuition congruence); unfold two, three, four, in_range in *; lia.
  Ltac bad F := cbn in F; try tauto; try (intuition congruence); unfold two, three, four, in_range in *; lia.
  destruct (Byte.to_N b0 <? 0x80) eqn:C0.
  { left. exists (Byte.to_N b0), [b0], r0. split; [cbn; lia|]. split; [reflexivity|]. cbn [utf8_lossy]. now rewrite C0. }
  destruct (two b0) eqn:C1.
  { destruct r0 as [|b1 r1].
    - right. split.
      { intros c k r E F. pre E; bad F. }
      left. exists [b0], []. split; [cbn; tauto|]. split; [reflexivity|]. split.
      { cbn [utf8_lossy]. rewrite C0. unfold two, in_range in C1. now rewrite C1. }
      intros v r' E B. pre E; big B.
    - destruct (is_cont b1) eqn:I1.
      { left. eexists _, [b0; b1], r1. split; [cbn; eauto|]. split; [reflexivity|].
        now apply (@form_lossy _ [b0; b1]). }
      right. split.
      { intros c k r E F. pre E; bad F. }
      left. exists [b0], (b1 :: r1). split; [cbn; tauto|]. split; [reflexivity|]. split.
      { cbn [utf8_lossy]. rewrite C0, I1. unfold two, in_range in C1. now rewrite C1. }
      intros v r' E B. pre E; big B. }
  destruct (three b0) eqn:C2.
  { assert (N4 : four b0 = false) by (unfold three, four, in_range in *; lia).
    destruct r0 as [|b1 r1].
    - right. split.
      { intros c k r E F. pre E; bad F. }
      left. exists [b0], []. split; [cbn; tauto|]. split; [reflexivity|]. split.
      { cbn [utf8_lossy]. rewrite C0. unfold two, three, in_range in C1, C2. now rewrite C1, C2. }
      intros v r' E B. pre E; big B.
    - destruct (second3 (Byte.to_N b0) b1) eqn:I1.
      2:{ right. split.
          { intros c k r E F. pre E; bad F. }
          left. exists [b0], (b1 :: r1). split; [cbn; tauto|]. split; [reflexivity|]. split.
          { cbn [utf8_lossy]. rewrite C0, I1. unfold two, three, in_range in C1, C2. now rewrite C1, C2. }
          intros v r' E B. pre E; big B. }
      destruct r1 as [|b2 r2].
      + right. split.
        { intros c k r E F. pre E; bad F. }
        left. exists [b0; b1], []. split; [cbn; tauto|]. split; [reflexivity|]. split.
        { cbn [utf8_lossy]. rewrite C0, I1. unfold two, three, in_range in C1, C2. now rewrite C1, C2. }
        intros v r' E B. pre E; big B.
      + destruct (is_cont b2) eqn:I2.
        { left. eexists _, [b0; b1; b2], r2. split; [cbn; eauto|]. split; [reflexivity|].
          now apply (@form_lossy _ [b0; b1; b2]). }
        right. split.
        { intros c k r E F. pre E; bad F. }
        left. exists [b0; b1], (b2 :: r2). split; [cbn; tauto|]. split; [reflexivity|]. split.
        { cbn [utf8_lossy]. rewrite C0, I1, I2. unfold two, three, in_range in C1, C2. now rewrite C1, C2. }
        intros v r' E B. pre E; big B. }
  destruct (four b0) eqn:C3.
  { destruct r0 as [|b1 r1].
    - right. split.
      { intros c k r E F. pre E; bad F. }
      left. exists [b0], []. split; [cbn; tauto|]. split; [reflexivity|]. split.
      { cbn [utf8_lossy]. rewrite C0. unfold two, three, four, in_range in C1, C2, C3. now rewrite C1, C2, C3. }
      intros v r' E B. pre E; big B.
    - destruct (second4 (Byte.to_N b0) b1) eqn:I1.
      2:{ right. split.
          { intros c k r E F. pre E; bad F. }
          left. exists [b0], (b1 :: r1). split; [cbn; tauto|]. split; [reflexivity|]. split.
          { cbn [utf8_lossy]. rewrite C0, I1. unfold two, three, four, in_range in C1, C2, C3. now rewrite C1, C2, C3. }
          intros v r' E B. pre E; big B.  }
      destruct r1 as [|b2 r2].
      + right. split.
        { intros c k r E F. pre E; bad F. }
        left. exists [b0; b1], []. split; [cbn; tauto|]. split; [reflexivity|]. split.
        { cbn [utf8_lossy]. rewrite C0, I1. unfold two, three, four, in_range in C1, C2, C3. now rewrite C1, C2, C3. }
        intros v r' E B. pre E; big B.
      + destruct (is_cont b2) eqn:I2.
        2:{ right. split.
            { intros c k r E F. pre E; bad F. }
            left. exists [b0; b1], (b2 :: r2). split; [cbn; tauto|]. split; [reflexivity|]. split.
            { cbn [utf8_lossy]. rewrite C0, I1, I2. unfold two, three, four, in_range in C1, C2, C3. now rewrite C1, C2, C3. }
            intros v r' E B. pre E; big B. }
        destruct r2 as [|b3 r3].
        * right. split.
          { intros c k r E F. pre E; bad F. }
          left. exists [b0; b1; b2], []. split; [cbn; tauto|]. split; [reflexivity|]. split.
          { cbn [utf8_lossy]. rewrite C0, I1, I2. unfold two, three, four, in_range in C1, C2, C3. now rewrite C1, C2, C3. }
          intros v r' E B. pre E; big B.
        * destruct (is_cont b3) eqn:I3.
          { left. eexists _, [b0; b1; b2; b3], r3. split; [cbn; eauto 10|]. split; [reflexivity|].
            apply (@form_lossy _ [b0; b1; b2; b3]). cbn. eauto 10. }
          right. split.
          { intros c k r E F. pre E; bad F. }
          left. exists [b0; b1; b2], (b3 :: r3). split; [cbn; tauto|]. split; [reflexivity|]. split.
          { cbn [utf8_lossy]. rewrite C0, I1, I2, I3. unfold two, three, four, in_range in C1, C2, C3. now rewrite C1, C2, C3. }
          intros v r' E B. pre E; big B. }
  right. split.
  { intros c k r E F. pre E; bad F. }
  right. exists b0, r0. split; [reflexivity|]. split.
  { cbn [utf8_lossy]. rewrite C0. unfold two, three, four, in_range in C1, C2, C3. now rewrite C1, C2, C3. }
  intros v r' E B. pre E; big B.
Qed.

Lemma same_prefix A (a b c d : list A) : a ++ b = c ++ d -> length a = length c -> a = c /\ b = d.
Proof.
  revert c. induction a as [|x a IH]; intros [|y c] E L; cbn in *; try discriminate; [auto|].
  inversion E as [[E1 E2]]. destruct (IH c E2) as (A1 & A2); [lia|]. now subst.
Qed.

Lemma utf8_lossy_spec b : lossy b (utf8_lossy b).
Proof.
  induction b as [b IH] using (well_founded_induction (Wf_nat.well_founded_ltof _ (@length byte))).
  unfold Wf_nat.ltof in IH. destruct b as [|b0 b']; [constructor|]. assert (NE : b0 :: b' <> []) by discriminate. generalize dependent (b0 :: b'). intros l IH NE.
  destruct (@lossy_step l) as [(c & k & r & F & E & Q)|(NF & [(u & r & B & E & Q & M)|(x & r & E & Q & M)])]; [exact NE|..]; rewrite Q; clear Q.
  - subst l. assert (H := @form_char _ _ F).
    rewrite <- H at 1. constructor; [exact (@form_scalar _ _ F)|].
    apply IH. rewrite app_length. destruct k; cbn in *; [tauto|lia].
  - subst l. apply lossy_cut.
    + now apply begins_cut.
    + intros c r' S E'. eapply NF; [exact E'|now apply char_form].
    + intros v r' E' C. eapply M; [exact E'|now apply cut_begins].
    + apply IH. rewrite app_length. destruct u; cbn in *; [tauto|lia].
  - subst l. apply lossy_byte.
    + intros c r' S E'. eapply NF; [exact E'|now apply char_form].
    + intros v r' E' C. eapply M; [exact E'|now apply cut_begins].
    + apply IH. cbn. lia.
Qed.

Lemma lossy_unique b s : lossy b s -> s = utf8_lossy b.
Proof.
  induction 1 as [|c r s S L IH|u r s C NC M L IH|x r s NC M L IH].
  - reflexivity.
  - subst s. symmetry. apply form_lossy. now apply char_form.
  - subst s. assert (C' := C). destruct C' as (NE & _).
    destruct (@lossy_step (u ++ r)) as [(c & k & r' & F & E & ->)|(NF & [(v & r' & B & E & -> & M')|(x & r' & E & -> & M')])].
    + destruct u; [tauto|discriminate].
    + exfalso. apply (NC c r'); [exact (@form_scalar _ _ F)|]. now rewrite (@form_char _ _ F).
    + assert (K1 := M v r' (eq_sym E) (@begins_cut _ B)).
      assert (K2 := M' u r eq_refl (cut_begins C)).
      assert (u = v /\ r = r') as (-> & ->); [|reflexivity].
      apply same_prefix in E; [tauto|lia].
    + exfalso. apply (M' u r eq_refl). now apply cut_begins.
  - subst s. destruct (@lossy_step (x :: r)) as [(c & k & r' & F & E & ->)|(NF & [(v & r' & B & E & -> & M')|(y & r' & E & -> & M')])].
    + discriminate.
    + exfalso. apply (NC c r'); [exact (@form_scalar _ _ F)|]. now rewrite (@form_char _ _ F).
    + exfalso. apply (M v r' (eq_sym E)). now apply begins_cut.
    + now inversion E; subst.
Qed.

Lemma utf8_lossy_iff b s : utf8_lossy b = s <-> lossy b s.
Proof. split; [intros <-; apply utf8_lossy_spec|intros H; symmetry; now apply lossy_unique]. Qed.

Local Open Scope list_scope.
Lemma string_lossy p pre data vs o b s : forallb wf_type pre = true -> fits data ->
  decode p pre data = Ok vs -> index_at data (heads_width pre) o ->
  index_at data o (len b) -> bytes_at data (o + 32) b -> lossy b s ->
  decode p (pre ++ [PString]) data = Ok (vs ++ [TString s]).
Proof. intros W F D O L B S. apply lossy_unique in S. subst s. now apply string_bytes with (o := o). Qed.

(** * The decoder on 32-bit targets, compared with the one on 64-bit targets *)
From Verif Require Import Base Utf8 Types Encoder Decoder AbiSpec DecoderSpec BaseFacts EncoderFacts DecoderFacts RoundTrip DecoderProps CodecLemmas DecoderPanics Decoder32 Decoder32Spec.
From Coq Require Import ZifyBool ZifyNat ZifyN.
Set Implicit Arguments.
Local Open Scope N_scope.
Local Open Scope list_scope.
Ltac Zify.zify_post_hook ::= Z.div_mod_to_equations.

Lemma sized32_wf t : sized32 t = true -> wf_type t = true.
Proof.
  induction t using ParamType_ind'; cbn [sized32 wf_type]; intros W; try reflexivity; try (rewrite two64_eq; lia); auto.
  - apply andb_true_iff in W as [W1 W2]. rewrite (IHt W1). rewrite two64_eq. lia.
  - rewrite forallb_forall in *. rewrite Forall_forall in H. auto.
Qed.
Lemma sized32_all ts : forallb sized32 ts = true -> forallb wf_type ts = true.
Proof. rewrite !forallb_forall. intros H t I. apply sized32_wf. auto. Qed.
Lemma fits32_fits data : fits32 data -> fits data. Proof. unfold fits32, fits. lia. Qed.
Lemma frame_fits32 data pos f : frame_at data pos f -> fits32 data -> fits32 f.
Proof. unfold fits32. intros (pre & -> & _). rewrite len_app. lia. Qed.

Section Compare.
Context (p : profile).
Lemma add32_small a b : a + b < 2 ^ 32 -> usize32_add p a b = Ok (a + b).
Proof. intros H. apply checked_small. rewrite two32_eq. lia. Qed.
Lemma peek_same data pos n : fits32 data -> pos + n < 2 ^ 32 -> peek32 p data pos n = peek p data pos n.
Proof. intros F L. unfold peek32, peek. rewrite add32_small by exact L. rewrite usize_add_small by (rewrite two64_eq; lia). reflexivity. Qed.
Lemma peek_short data pos n : fits32 data -> pos < 2 ^ 63 -> n < 2 ^ 63 -> len data < pos + n -> peek p data pos n = Err InvalidData.
Proof. intros F P N L. unfold peek. rewrite usize_add_small by (rewrite two64_eq; lia). cbn [bind]. replace (len data <? pos + n) with true by lia. reflexivity. Qed.
Lemma peek_wraps data pos n : fits32 data -> pos < 2 ^ 32 -> n < 2 ^ 32 -> 2 ^ 32 <= pos + n -> pos + n - 2 ^ 32 <= len data -> peek32 p data pos n = Panic.
Proof.
  intros F P N L H. unfold peek32, usize32_add, checked. replace (pos + n <? two32) with false by (rewrite two32_eq; lia). destruct p; [reflexivity|]. cbn [bind].
  replace ((pos + n) mod two32) with (pos + n - 2 ^ 32) by (rewrite two32_eq; lia). replace (len data <? pos + n - 2 ^ 32) with false by lia.
  unfold slice. replace (pos <=? pos + n - 2 ^ 32) with false by lia. reflexivity.
Qed.

Definition alike {A} (C : Prop) (r32 r : res A) : Prop :=
  (exists v, r32 = Ok v /\ r = Ok v) \/ r32 = Err InvalidData /\ r = Err InvalidData \/ r32 = Panic /\ C /\ (r = Panic \/ r = Err InvalidData).
Definition dec_alike (t : ParamType) : Prop := forall data pos, fits32 data -> pos <= len data + 32 -> alike (crashes32 p data t pos) (decode_param32 p t data pos) (decode_param p t data pos).
Lemma next_pos t data pos v n : wf_type t = true -> fits data -> pos <= len data + 32 -> decode_param p t data pos = Ok (v, n) -> n <= len data + 32.
Proof. intros W F L E. destruct (@decode_param_outcome p t W data pos F L) as [(v' & n' & E' & Ln)|[E'|[E' _]]]; congruence. Qed.
Definition steps32 (data : list byte) (ts : list ParamType) (s : list Token * N) : res (list Token * N) := foldM (fun s t => decode_step (decode_param32 p t data) s) ts s.
Lemma iter_steps32 data t n s : iter_N (decode_step (decode_param32 p t data)) n s = steps32 data (repeat t (N.to_nat n)) s.
Proof.
  rewrite (iter_N_foldM _ t). unfold steps32. revert s. induction (N.to_nat n) as [|k IH]; intros s; [reflexivity|]. cbn [repeat foldM]. apply bind_ext. intros. apply IH.
Qed.
Lemma steps_alike data ts : fits32 data -> forallb sized32 ts = true -> Forall dec_alike ts -> forall acc pos, pos <= len data + 32 -> alike (crashes32_seq p data ts pos) (steps32 data ts (acc, pos)) (steps p data ts (acc, pos)).
Proof.
  intros F W H. induction H as [|t ts Ht H IH]; intros acc pos L; unfold steps32, steps; cbn [foldM]; [left; eauto|]. cbn [forallb] in W. apply andb_true_iff in W as [W1 W2]. specialize (IH W2).
  cbn [decode_step]. destruct (Ht data pos F L) as [([v n] & E & E')|[[E E']|(E & C & E')]].
  - rewrite E, E'. cbn [bind]. pose proof (@next_pos _ _ _ _ _ (sized32_wf _ W1) (fits32_fits F) L E') as Ln. destruct (IH (v :: acc) n Ln) as [X|[X|(X & C & Y)]]; [left; exact X|right; left; exact X|right; right].
    split; [exact X|]. split; [|exact Y]. apply (dec_iff_all p t (sized32_wf _ W1)) in E'; [|now apply fits32_fits]. eapply crashes32_later; eauto.
  - rewrite E, E'. right; left. split; reflexivity.
  - rewrite E. right; right. split; [reflexivity|]. split; [now apply crashes32_here|]. destruct E' as [-> | ->]; [left|right]; reflexivity.
Qed.
Lemma repeat_sized t k : sized32 t = true -> forallb sized32 (repeat t k) = true.
Proof. intros H. apply forallb_forall. intros y Hy. apply repeat_spec in Hy. now subst. Qed.
Lemma iter_alike data t n : fits32 data -> sized32 t = true -> dec_alike t -> forall pos, pos <= len data + 32 ->
  alike (crashes32_seq p data (repeat t (N.to_nat n)) pos) (iter_N (decode_step (decode_param32 p t data)) n ([], pos)) (iter_N (decode_step (decode_param p t data)) n ([], pos)).
Proof. intros F W H pos L. rewrite iter_steps32, iter_steps. apply steps_alike; auto using repeat_sized, repeat_all. Qed.

(** The word at a position where the next value is expected. *)
Lemma head_alike data pos : fits32 data -> pos <= len data + 32 ->
  (exists w, peek32 p data pos 32 = Ok w /\ peek_32_bytes p data pos = Ok w /\ pos + 32 <= len data) \/ peek32 p data pos 32 = Err InvalidData /\ peek_32_bytes p data pos = Err InvalidData.
Proof.
  intros F L. rewrite peek_same by (exact F || (unfold fits32 in F; lia)). change (peek p data pos 32) with (peek_32_bytes p data pos). destruct (@index_outcome p data pos (fits32_fits F)) as [(w & n & E & _ & I)|[(w & E & _)|E]]; [unfold fits32 in F; lia|..].
  - left. exists w. split; [exact E|]. split; [exact E|]. exact (index_at_le I).
  - left. exists w. split; [exact E|]. split; [exact E|]. apply (@DecoderFacts.peek32 p) in E as [B Lw]; [|now apply fits32_fits]. apply bytes_at_le in B. lia.
  - right. auto.
Qed.
Lemma index_alike data pos : fits32 data -> pos <= len data + 32 ->
  (exists w n, peek32 p data pos 32 = Ok w /\ peek_32_bytes p data pos = Ok w /\ as_usize w = Ok n /\ index_at data pos n) \/
  (exists w, peek32 p data pos 32 = Ok w /\ peek_32_bytes p data pos = Ok w /\ as_usize w = Err InvalidData) \/
  peek32 p data pos 32 = Err InvalidData /\ peek_32_bytes p data pos = Err InvalidData.
Proof.
  intros F L. rewrite peek_same by (exact F || (unfold fits32 in F; lia)). change (peek p data pos 32) with (peek_32_bytes p data pos). destruct (@index_outcome p data pos (fits32_fits F)) as [(w & n & E & N & I)|[(w & E & N)|E]]; [unfold fits32 in F; lia|..]; eauto 10.
Qed.
(** The word an offset points to. *)
Lemma second_alike data pos o : fits32 data -> index_at data pos o ->
  (exists w n, peek32 p data o 32 = Ok w /\ peek_32_bytes p data o = Ok w /\ as_usize w = Ok n /\ index_at data o n) \/
  (exists w, peek32 p data o 32 = Ok w /\ peek_32_bytes p data o = Ok w /\ as_usize w = Err InvalidData) \/
  (peek32 p data o 32 = Err InvalidData /\ peek_32_bytes p data o = Err InvalidData) \/
  (peek32 p data o 32 = Panic /\ peek_32_bytes p data o = Err InvalidData /\ 2 ^ 32 <= o + 32).
Proof.
  intros F I. pose proof (index_at_le I) as L. destruct I as [_ O]. rewrite two32_eq in O. destruct (N.lt_ge_cases (o + 32) (2 ^ 32)) as [S|S].
  - rewrite peek_same by assumption. change (peek p data o 32) with (peek_32_bytes p data o). destruct (@index_outcome p data o (fits32_fits F)) as [(w & n & E & N & I)|[(w & E & N)|E]]; [lia|..]; eauto 10.
  - right; right; right. split; [apply peek_wraps; (exact F || lia)|]. split; [|exact S]. apply peek_short; (exact F || (unfold fits32 in F; lia)).
Qed.

Ltac head_word E := let w := fresh "w" in let E1 := fresh E in let E2 := fresh E in let L := fresh "Lw" in
  match goal with |- context [peek32 p ?d ?o 32] => destruct (@head_alike d o) as [(w & E1 & E2 & L)|[E1 E2]]; [assumption|assumption|..]; rewrite E1, E2; cbn [bind]; [|right; left; split; reflexivity] end.
Ltac index_word E I := let w := fresh "w" in let n := fresh "o" in let E1 := fresh E in let E2 := fresh E in let E3 := fresh E in
  match goal with |- context [peek32 p ?d ?o 32] => destruct (@index_alike d o) as [(w & n & E1 & E2 & E3 & I)|[(w & E1 & E2 & E3)|[E1 E2]]]; [assumption|assumption|..]; rewrite E1, E2; cbn [bind]; [rewrite E3; cbn [bind]|rewrite E3; right; left; split; reflexivity|right; left; split; reflexivity] end.
Ltac second_word I E I' S := let w := fresh "w" in let n := fresh "o" in let E1 := fresh E in let E2 := fresh E in let E3 := fresh E in
  match type of I with index_at ?d ?pos ?o => destruct (@second_alike d pos o) as [(w & n & E1 & E2 & E3 & I')|[(w & E1 & E2 & E3)|[[E1 E2]|(E1 & E2 & S)]]]; [assumption|exact I|..]; rewrite E1, E2; cbn [bind]; [rewrite E3; cbn [bind]|rewrite E3; right; left; split; reflexivity|right; left; split; reflexivity|] end.
Ltac sums := rewrite ?add32_small by (unfold fits32 in *; lia); rewrite ?usize_add_small by (unfold fits32 in *; rewrite two64_eq; lia); cbn [bind].

(** Bytes of text or data. *)
Lemma long_alike data o n : fits32 data -> o <= len data -> n < 2 ^ 32 ->
  (exists b, peek32 p data o n = Ok b /\ take_bytes p data o n = Ok b) \/ peek32 p data o n = Err InvalidData /\ take_bytes p data o n = Err InvalidData \/
  peek32 p data o n = Panic /\ take_bytes p data o n = Err InvalidData /\ 2 ^ 32 <= o + n.
Proof.
  intros F O N. rewrite take_peek. destruct (N.lt_ge_cases (o + n) (2 ^ 32)) as [S|S].
  - rewrite peek_same by assumption. unfold peek. rewrite usize_add_small by (rewrite two64_eq; lia). cbn [bind]. destruct (N.ltb_spec (len data) (o + n)) as [H|H]; [auto|]. destruct (@slice_some _ data o (o + n)) as (m & E & _); [lia|lia|]. left. exists m. auto.
  - right; right. split; [apply peek_wraps; (exact F || (unfold fits32 in F; lia))|]. split; [apply peek_short; (exact F || (unfold fits32 in F; lia))|exact S].
Qed.

Lemma decode_param_alike t : sized32 t = true -> dec_alike t.
Proof.
  induction t using ParamType_ind'; intros W data pos F L; cbn [decode_param32 decode_param].
  - head_word E. sums. left. eauto.
  - index_word E Hi. second_word Hi K Hi2 Hs; [|right; right; split; [reflexivity|split; [eapply crashes32_far; eauto|auto]]]. pose proof (index_at_le Hi). pose proof (index_at_le Hi2). sums.
    destruct (@long_alike data (o + 32) o0) as [(b & -> & ->)|[[-> ->]|(-> & -> & Hs)]]; [assumption|lia|destruct Hi2 as [_ Hi2]; rewrite two32_eq in Hi2; lia|..]; cbn [bind]; [|right; left; split; reflexivity|right; right; split; [reflexivity|split; [eapply crashes32_long; eauto|auto]]].
    sums. left. eauto.
  - head_word E. sums. left. eauto.
  - head_word E. sums. left. eauto.
  - head_word E. unfold as_bool. destruct (forallb is_zero_byte (firstn 31 w)); cbn [bind]; [|right; left; split; reflexivity]. sums. left. eauto.
  - index_word E Hi. second_word Hi K Hi2 Hs; [|right; right; split; [reflexivity|split; [eapply crashes32_far; eauto|auto]]]. pose proof (index_at_le Hi). pose proof (index_at_le Hi2). sums.
    destruct (@long_alike data (o + 32) o0) as [(b & -> & ->)|[[-> ->]|(-> & -> & Hs)]]; [assumption|lia|destruct Hi2 as [_ Hi2]; rewrite two32_eq in Hi2; lia|..]; cbn [bind]; [|right; left; split; reflexivity|right; right; split; [reflexivity|split; [eapply crashes32_long; eauto|auto]]].
    sums. left. eauto.
  - cbn [sized32] in W. specialize (IHt W). index_word E Hi. second_word Hi K Hi2 Hs; [|right; right; split; [reflexivity|split; [eapply crashes32_far; eauto|auto]]]. pose proof (index_at_le Hi). pose proof (index_at_le Hi2). sums.
    destruct (@frame_exists data (o + 32)) as (f & Ef & Ff); [lia|]. rewrite Ef. cbn [bind]. pose proof (frame_fits32 Ff F) as Fits.
    destruct (@iter_alike f t o0 Fits W IHt 0 ltac:(lia)) as [([v k] & X1 & X2)|[[X1 X2]|(X1 & C & X2)]]; rewrite X1; cbn [bind].
    + rewrite X2. cbn [bind]. sums. left. eauto.
    + rewrite X2. right; left. split; reflexivity.
    + right; right. split; [reflexivity|]. split; [eapply crashes32_array; eauto|]. destruct X2 as [-> | ->]; [left|right]; reflexivity.
  - cbn [sized32] in W. apply N.ltb_lt in W. destruct (N.lt_ge_cases (pos + n) (2 ^ 32)) as [Hs|Hs].
    + rewrite take_peek, peek_same by assumption. unfold peek. rewrite usize_add_small by (rewrite two64_eq; lia). cbn [bind]. destruct (N.ltb_spec (len data) (pos + n)); [right; left; split; reflexivity|]. destruct (@slice_some _ data pos (pos + n)) as (m & E & _); [lia|lia|]. rewrite E. cbn [bind]. sums. left. eauto.
    + rewrite take_peek, peek_short by (exact F || (unfold fits32 in F; lia)). destruct (N.le_gt_cases (pos + n - 2 ^ 32) (len data)) as [H|H].
      * rewrite peek_wraps by (exact F || (unfold fits32 in F; lia)). right; right. split; [reflexivity|]. split; [apply crashes32_size; auto|auto].
      * unfold peek32, usize32_add, checked. replace (pos + n <? two32) with false by (rewrite two32_eq; lia). destruct p eqn:Hp; cbn [bind]; [right; right; split; [reflexivity|]; split; [apply crashes32_size; auto|auto]|].
        replace ((pos + n) mod two32) with (pos + n - 2 ^ 32) by (rewrite two32_eq; unfold fits32 in F; lia). replace (len data <? pos + n - 2 ^ 32) with true by lia. right; left. split; reflexivity.
  - cbn [sized32] in W. apply andb_true_iff in W as [W1 W2]. specialize (IHt W1). rewrite dynamic_eq. cbn [dynamic]. destruct (dynamic t) eqn:D.
    + index_word E Hi. pose proof (index_at_le Hi). destruct (N.ltb_spec (len data) o) as [Ho|Ho].
      { unfold slice_from, slice. replace (o <=? len data) with false by lia. cbn [andb bind]. right; right. split; [reflexivity|]. split; [eapply crashes32_offset; eauto|auto]. }
      destruct (@frame_exists data o) as (f & Ef & Ff); [lia|]. rewrite Ef. cbn [bind]. pose proof (frame_fits32 Ff F) as Fits.
      destruct (@iter_alike f t n Fits W1 IHt 0 ltac:(lia)) as [([v k] & X1 & X2)|[[X1 X2]|(X1 & C & X2)]]; rewrite X1; cbn [bind].
      * rewrite X2. cbn [bind]. sums. left. eauto.
      * rewrite X2. right; left. split; reflexivity.
      * right; right. split; [reflexivity|]. split; [eapply crashes32_fixed_array_dynamic; eauto|]. destruct X2 as [-> | ->]; [left|right]; reflexivity.
    + cbn [bind]. destruct (@iter_alike data t n F W1 IHt pos L) as [([v k] & X1 & X2)|[[X1 X2]|(X1 & C & X2)]]; rewrite X1; cbn [bind].
      * rewrite X2. cbn [bind]. left. eauto.
      * rewrite X2. right; left. split; reflexivity.
      * right; right. split; [reflexivity|]. split; [eapply crashes32_fixed_array_static; eauto|]. destruct X2 as [-> | ->]; [left|right]; reflexivity.
  - cbn [sized32] in W. assert (IH : Forall dec_alike ts) by (pose proof W as W'; rewrite forallb_forall in W'; rewrite Forall_forall in *; auto). rewrite dynamic_eq. destruct (dynamic (PTuple ts)) eqn:D.
    + index_word E Hi. pose proof (index_at_le Hi). destruct (N.ltb_spec (len data) o) as [Ho|Ho]; cbn [bind]; [right; left; split; reflexivity|].
      destruct (@frame_exists data o) as (f & Ef & Ff); [lia|]. rewrite Ef. cbn [bind]. pose proof (frame_fits32 Ff F) as Fits.
      destruct (@steps_alike f ts Fits W IH [] 0 ltac:(lia)) as [([v k] & X1 & X2)|[[X1 X2]|(X1 & C & X2)]]; unfold steps32, steps in X1, X2; rewrite X1; cbn [bind].
      * rewrite X2. cbn [bind]. sums. left. eauto.
      * rewrite X2. right; left. split; reflexivity.
      * right; right. split; [reflexivity|]. split; [eapply crashes32_tuple_dynamic; eauto|]. destruct X2 as [-> | ->]; [left|right]; reflexivity.
    + cbn [bind]. destruct (@steps_alike data ts F W IH [] pos L) as [([v k] & X1 & X2)|[[X1 X2]|(X1 & C & X2)]]; unfold steps32, steps in X1, X2; rewrite X1; cbn [bind].
      * rewrite X2. cbn [bind]. left. eauto.
      * rewrite X2. right; left. split; reflexivity.
      * right; right. split; [reflexivity|]. split; [eapply crashes32_tuple_static; eauto|]. destruct X2 as [-> | ->]; [left|right]; reflexivity.
Qed.
Lemma all_alike ts : forallb sized32 ts = true -> Forall dec_alike ts.
Proof. intros W. rewrite forallb_forall in W. apply Forall_forall. intros t I. apply decode_param_alike. auto. Qed.

(** ** The panics that [crashes32] predicts happen *)
Lemma crashes32_panic_mut :
  (forall data t pos, crashes32 p data t pos -> sized32 t = true -> fits32 data -> pos <= len data + 32 -> decode_param32 p t data pos = Panic) /\
  (forall data ts pos, crashes32_seq p data ts pos -> forallb sized32 ts = true -> fits32 data -> pos <= len data + 32 -> forall acc, steps32 data ts (acc, pos) = Panic).
Proof.
  assert (Fwd : forall data pos o, fits32 data -> index_at data pos o -> pos < 2 ^ 32 - 32 -> peek32 p data pos 32 = Ok (word o) /\ as_usize (word o) = Ok o).
  { intros data pos o F I L. rewrite peek_same by (assumption || lia). exact (index_fwd p (fits32_fits F) I). }
  assert (Pos : forall data pos o, fits32 data -> index_at data pos o -> pos < 2 ^ 32 - 32 /\ o < 2 ^ 32 /\ pos + 32 <= len data).
  { intros data pos o F I. pose proof (index_at_le I). destruct I as [_ O]. rewrite two32_eq in O. unfold fits32 in F. lia. }
  apply crashes32_mutind.
  - intros data t pos o T I S W F L. destruct (Pos _ _ _ F I) as (P1 & P2 & P3). destruct (Fwd _ _ _ F I P1) as [E1 E2].
    assert (E3 : peek32 p data o 32 = Panic) by (apply peek_wraps; (exact F || lia)). destruct t; try discriminate; cbn [decode_param32]; rewrite E1; cbn [bind]; rewrite E2; cbn [bind]; rewrite E3; reflexivity.
  - intros data t pos o n T I I' S W F L. destruct (Pos _ _ _ F I) as (P1 & P2 & P3). destruct (Pos _ _ _ F I') as (Q1 & Q2 & Q3). destruct (Fwd _ _ _ F I P1) as [E1 E2]. destruct (Fwd _ _ _ F I' Q1) as [E3 E4].
    assert (E5 : peek32 p data (o + 32) n = Panic) by (apply peek_wraps; (exact F || (unfold fits32 in F; lia))).
    destruct t; try discriminate; cbn [decode_param32]; rewrite E1; cbn [bind]; rewrite E2; cbn [bind]; rewrite E3; cbn [bind]; rewrite E4; cbn [bind]; rewrite add32_small by lia; cbn [bind]; rewrite E5; reflexivity.
  - intros data t n pos o D I Ho W F L. cbn [decode_param32]. rewrite dynamic_eq. cbn [dynamic]. rewrite D. destruct (Fwd _ _ _ F I (proj1 (Pos _ _ _ F I))) as [-> E1]. cbn [bind]. rewrite E1. cbn [bind].
    unfold slice_from, slice. replace (o <=? len data) with false by lia. reflexivity.
  - intros data n pos H C W F L. cbn [decode_param32 sized32] in *. apply N.ltb_lt in W. destruct C as [C|C].
    + unfold peek32, usize32_add, checked. replace (pos + n <? two32) with false by (rewrite two32_eq; lia). rewrite C. reflexivity.
    + rewrite peek_wraps by (exact F || (unfold fits32 in F; lia)). reflexivity.
  - intros data t pos o n frame I1 I2 Fr _ IH W F L. cbn [decode_param32 sized32] in *. destruct (Pos _ _ _ F I1) as (P1 & P2 & P3). destruct (Pos _ _ _ F I2) as (Q1 & Q2 & Q3).
    destruct (Fwd _ _ _ F I1 P1) as [-> E1]. cbn [bind]. rewrite E1. cbn [bind]. destruct (Fwd _ _ _ F I2 Q1) as [-> E2]. cbn [bind]. rewrite E2. cbn [bind]. rewrite add32_small by lia. cbn [bind].
    rewrite (proj1 (frame_slice _ _ _) Fr). cbn [bind]. rewrite iter_steps32, IH; [reflexivity|now apply repeat_sized|eapply frame_fits32; eauto|lia].
  - intros data t n pos D _ IH W F L. cbn [decode_param32 sized32] in *. apply andb_true_iff in W as [W1 _]. rewrite dynamic_eq. cbn [dynamic]. rewrite D. cbn [bind]. rewrite iter_steps32, IH; auto using repeat_sized.
  - intros data t n pos o frame D I Fr _ IH W F L. cbn [decode_param32 sized32] in *. apply andb_true_iff in W as [W1 _]. rewrite dynamic_eq. cbn [dynamic]. rewrite D.
    destruct (Fwd _ _ _ F I (proj1 (Pos _ _ _ F I))) as [-> E1]. cbn [bind]. rewrite E1. cbn [bind]. rewrite (proj1 (frame_slice _ _ _) Fr). cbn [bind]. rewrite iter_steps32, IH; [reflexivity|now apply repeat_sized|eapply frame_fits32; eauto|lia].
  - intros data ts pos D _ IH W F L. cbn [decode_param32 sized32] in *. rewrite dynamic_eq. rewrite D. cbn [bind]. unfold steps32 in IH. rewrite IH; auto.
  - intros data ts pos o frame D I Fr _ IH W F L. cbn [decode_param32 sized32] in *. rewrite dynamic_eq. rewrite D.
    destruct (Fwd _ _ _ F I (proj1 (Pos _ _ _ F I))) as [-> E1]. cbn [bind]. rewrite E1. cbn [bind]. pose proof (frame_at_le Fr). replace (len data <? o) with false by lia.
    rewrite (proj1 (frame_slice _ _ _) Fr). cbn [bind]. unfold steps32 in IH. rewrite IH; [reflexivity|assumption|eapply frame_fits32; eauto|lia].
  - intros data t ts pos _ IH W F L acc. cbn [forallb] in W. apply andb_true_iff in W as [W1 W2]. unfold steps32. cbn [foldM decode_step]. rewrite IH; auto.
  - intros data t ts pos v next R _ IH W F L acc. cbn [forallb] in W. apply andb_true_iff in W as [W1 W2]. apply (dec_iff_all p t (sized32_wf _ W1)) in R; [|now apply fits32_fits]. unfold steps32. cbn [foldM decode_step].
    pose proof (@next_pos _ _ _ _ _ (sized32_wf _ W1) (fits32_fits F) L R) as Ln. destruct (@decode_param_alike t W1 data pos F L) as [(x & E & E')|[[E E']|(E & _ & [E'|E'])]]; try congruence.
    rewrite R in E'. injection E' as <-. rewrite E. cbn [bind]. apply IH; auto.
Qed.

(** ** Whole data *)
Lemma decode32_alike ts data : forallb sized32 ts = true -> fits32 data -> (decode32 p ts data = Panic <-> (data <> [] \/ Forall may_be_empty ts) /\ crashes32_seq p data ts 0) /\
  (decode32 p ts data = decode p ts data \/ decode32 p ts data = Panic /\ decode p ts data = Err InvalidData).
Proof.
  intros W F. rewrite <- may_be_empty_all. unfold decode32, decode. destruct (negb _ && _) eqn:C.
  - split; [|left; reflexivity]. split; [discriminate|]. intros [[H|H] _]; apply andb_true_iff in C as [C1 C2]; [exfalso; apply H; apply len_0; lia|rewrite H in C1; discriminate].
  - assert (N : data <> [] \/ forallb is_empty_bytes_valid_encoding ts = true).
    { destruct data; [right|left; discriminate]. rewrite len_nil in C. destruct (forallb is_empty_bytes_valid_encoding ts); [reflexivity|discriminate]. }
    pose proof (@steps_alike data ts F W (all_alike _ W) [] 0 ltac:(lia)) as A. pose proof (fun H => proj2 crashes32_panic_mut data ts 0 H W F ltac:(lia) []) as B. unfold steps32, steps in A, B.
    destruct A as [([v k] & E1 & E2)|[[E1 E2]|(E1 & Cr & E2)]]; rewrite E1 in *; cbn [bind].
    + rewrite E2. split; [|left; reflexivity]. split; [discriminate|]. intros [_ X]. discriminate (B X).
    + rewrite E2. split; [|left; reflexivity]. split; [discriminate|]. intros [_ X]. discriminate (B X).
    + split; [tauto|]. destruct E2 as [-> | ->]; [left|right]; auto.
Qed.
Lemma decode32_panics ts data : forallb sized32 ts = true -> fits32 data -> (decode32 p ts data = Panic <-> (data <> [] \/ Forall may_be_empty ts) /\ crashes32_seq p data ts 0).
Proof. intros W F. exact (proj1 (@decode32_alike ts data W F)). Qed.
Lemma decode32_or ts data : forallb sized32 ts = true -> fits32 data -> decode32 p ts data = decode p ts data \/ decode32 p ts data = Panic /\ decode p ts data = Err InvalidData.
Proof. intros W F. exact (proj2 (@decode32_alike ts data W F)). Qed.
Lemma decode32_values ts data vs : forallb sized32 ts = true -> fits32 data -> (decode32 p ts data = Ok vs <-> decode p ts data = Ok vs).
Proof. intros W F. destruct (@decode32_or ts data W F) as [E|[E E']]; [now rewrite E|]. rewrite E, E'. split; discriminate. Qed.

(** ** Where the two agree *)
Lemma index_in_frame data pos f q n : frame_at data pos f -> index_at f q n -> index_at data (pos + q) n.
Proof. intros (pre & -> & <-) [(a & b & -> & <-) N]. split; [|exact N]. exists (pre ++ a), b. rewrite len_app, <- app_assoc. auto. Qed.
Lemma calm_frame data pos f : frame_at data pos f -> calm data -> calm f.
Proof. intros Fr C q n I. apply (index_in_frame Fr) in I. apply C in I. destruct Fr as (pre & -> & _). rewrite len_app in I. lia. Qed.
Lemma repeat_moderate t k : moderate t = true -> forallb moderate (repeat t k) = true.
Proof. intros H. apply forallb_forall. intros y Hy. apply repeat_spec in Hy. now subst. Qed.
Lemma crashes_calm :
  (forall data t pos, crashes32 p data t pos -> sized32 t = true -> moderate t = true -> fits32 data -> calm data -> pos <= len data + 32 -> crashes p data t pos) /\
  (forall data ts pos, crashes32_seq p data ts pos -> forallb sized32 ts = true -> forallb moderate ts = true -> fits32 data -> calm data -> pos <= len data + 32 -> crashes_seq p data ts pos).
Proof.
  apply crashes32_mutind.
  - intros data t pos o T I S W M F C L. pose proof (C _ _ I). pose proof (index_at_le I). lia.
  - intros data t pos o n T I I' S W M F C L. pose proof (C _ _ I'). pose proof (index_at_le I'). lia.
  - intros. eapply crashes_offset; eauto.
  - intros data n pos S H W M F C L. cbn [moderate] in M. unfold fits32 in F. lia.
  - intros data t pos o n frame I1 I2 Fr _ IH W M F C L. cbn [sized32 moderate] in *. eapply crashes_array; eauto. apply IH; auto using repeat_sized, repeat_moderate; [eapply frame_fits32; eauto|eapply calm_frame; eauto|lia].
  - intros data t n pos D _ IH W M F C L. cbn [sized32 moderate] in *. apply andb_true_iff in W as [W _]. apply crashes_fixed_array_static; [exact D|]. apply IH; auto using repeat_sized, repeat_moderate.
  - intros data t n pos o frame D I Fr _ IH W M F C L. cbn [sized32 moderate] in *. apply andb_true_iff in W as [W _]. eapply crashes_fixed_array_dynamic; eauto. apply IH; auto using repeat_sized, repeat_moderate; [eapply frame_fits32; eauto|eapply calm_frame; eauto|lia].
  - intros data ts pos D _ IH W M F C L. apply crashes_tuple_static; auto.
  - intros data ts pos o frame D I Fr _ IH W M F C L. eapply crashes_tuple_dynamic; eauto. apply IH; auto; [eapply frame_fits32; eauto|eapply calm_frame; eauto|lia].
  - intros data t ts pos _ IH W M F C L. cbn [forallb] in *. apply andb_true_iff in W as [W1 W2], M as [M1 M2]. apply crashes_here. auto.
  - intros data t ts pos v next R _ IH W M F C L. cbn [forallb] in *. apply andb_true_iff in W as [W1 W2], M as [M1 M2]. eapply crashes_later; [exact R|]. apply IH; auto.
    apply (dec_iff_all p t (sized32_wf _ W1)) in R; [|now apply fits32_fits]. exact (@next_pos _ _ _ _ _ (sized32_wf _ W1) (fits32_fits F) L R).
Qed.
Lemma decode32_agrees ts data : forallb sized32 ts = true -> forallb moderate ts = true -> fits32 data -> calm data -> decode32 p ts data = decode p ts data.
Proof.
  intros W M F C. destruct (@decode32_or ts data W F) as [E|[E E']]; [exact E|]. apply decode32_panics in E as [N X]; [|assumption..]. apply (proj2 crashes_calm) in X; [|assumption..|lia].
  assert (Y : decode p ts data = Panic) by (apply decode_panics; auto using sized32_all, fits32_fits). congruence.
Qed.
End Compare.

(** * The decoder succeeds exactly on the data described by [reads] *)
From Verif Require Import Base Utf8 Types Encoder Decoder AbiSpec DecoderSpec BaseFacts EncoderFacts.
From Coq Require Import ZifyBool ZifyNat ZifyN.
Set Implicit Arguments.
Local Open Scope N_scope.
Ltac Zify.zify_post_hook ::= Z.div_mod_to_equations.

Lemma Ok_inj A (a b : A) : Ok a = Ok b -> a = b. Proof. congruence. Qed.

Lemma Ok_pair_inj A B (a a' : A) (b b' : B) : Ok (a, b) = Ok (a', b') -> a = a' /\ b = b'.
Proof. split; congruence. Qed.

Lemma bytes_at_le data pos b : bytes_at data pos b -> pos + len b <= len data.
Proof. intros (pre & post & -> & <-). rewrite !len_app. lia. Qed.
Lemma bytes_at_slice data pos b : bytes_at data pos b -> slice data pos (pos + len b) = Ok b.
Proof. intros (pre & post & -> & <-). now apply slice_app. Qed.
Lemma slice_bytes_at data pos e b : slice data pos e = Ok b -> bytes_at data pos b /\ e = pos + len b.
Proof. intros H. apply slice_ok in H as (pre & post & -> & -> & ->). split; [|reflexivity]. now exists pre, post. Qed.
Lemma bytes_at_unique data pos b b' : bytes_at data pos b -> bytes_at data pos b' -> len b = len b' -> b = b'.
Proof.
  intros H H' L. apply bytes_at_slice in H, H'. rewrite L in H. congruence.
Qed.
Lemma frame_slice data pos f : frame_at data pos f <-> slice_from data pos = Ok f.
Proof.
  split.
  - intros (pre & -> & <-). now apply slice_from_app.
  - unfold slice_from. intros H. apply slice_ok in H as (pre & post & E & E1 & E2).
    exists pre. split; [|auto]. rewrite E in E2. rewrite !len_app in E2.
    assert (post = []) as -> by (apply len_0; lia). now rewrite app_nil_r in E.
Qed.
Lemma frame_at_fits data pos f : frame_at data pos f -> fits data -> fits f.
Proof. unfold fits. intros (pre & -> & _). rewrite len_app. lia. Qed.
Lemma frame_at_le data pos f : frame_at data pos f -> pos <= len data.
Proof. intros (pre & -> & <-). rewrite len_app. lia. Qed.

(** ** Words *)
Lemma be_bytes_4 n : be_bytes 4 n = [byte_of_N (n / 256 / 256 / 256); byte_of_N (n / 256 / 256); byte_of_N (n / 256); byte_of_N n].
Proof. reflexivity. Qed.
Lemma zeros_forall n : forallb is_zero_byte (zeros n) = true.
Proof. induction n; cbn; auto. Qed.
Lemma forall_zeros l : forallb is_zero_byte l = true -> l = zeros (length l).
Proof.
  induction l as [|x l IH]; cbn; [reflexivity|]. intros H. apply andb_true_iff in H as [H1 H2].
  f_equal; [|auto]. apply to_N_inj. unfold is_zero_byte in H1. cbn. lia.
Qed.
Lemma zeros_prefix a b w : forallb is_zero_byte (firstn a w) = true -> len w = N.of_nat (a + b) ->
  exists r, w = zeros a ++ r /\ length r = b.
Proof.
  intros Z L. apply forall_zeros in Z. unfold len in L. rewrite firstn_length in Z.
  replace (Nat.min a (length w)) with a in Z by lia.
  exists (skipn a w). split.
  - rewrite <- Z. symmetry. apply firstn_skipn.
  - rewrite skipn_length. lia.
Qed.
Lemma word_small n : n < two32 -> word n = zeros 28 ++ be_bytes 4 n.
Proof. intros. now rewrite <- pad_u32_word. Qed.

Lemma as_usize_word n : n < two32 -> as_usize (word n) = Ok n.
Proof.
  intros H. rewrite word_small by assumption. unfold as_usize.
  change (firstn 28 (zeros 28 ++ be_bytes 4 n)) with (zeros 28). rewrite zeros_forall.
  rewrite be_bytes_4. cbn [zeros repeat app nth]. rewrite !to_N_byte_of_N. rewrite two32_eq in H. f_equal.
  change (2 ^ 24) with 16777216. change (2 ^ 16) with 65536. change (2 ^ 8) with 256. lia.
Qed.
Lemma as_usize_inv w n : len w = 32 -> as_usize w = Ok n -> w = word n /\ n < two32.
Proof.
  intros L E. unfold as_usize in E. destruct (forallb _ _) eqn:Z; [|discriminate]. apply Ok_inj in E.
  destruct (@zeros_prefix 28 4 w Z L) as (r & -> & L').
  destruct r as [|b0 [|b1 [|b2 [|b3 [|]]]]]; try discriminate.
  cbn [zeros repeat app nth] in E.
  change (2 ^ 24) with 16777216 in E. change (2 ^ 16) with 65536 in E. change (2 ^ 8) with 256 in E.
  assert (En : n = of_be [b0; b1; b2; b3]) by (unfold of_be; cbn [fold_left]; lia).
  clear E.
  assert (Hn : n < two32) by (subst; exact (of_be_lt [b0; b1; b2; b3])).
  split; [|assumption]. rewrite word_small by assumption. f_equal. subst n.
  symmetry. now apply be_bytes_of_be'.
Qed.
Lemma as_usize_err w : as_usize w <> Panic.
Proof. unfold as_usize. destruct (forallb _ _); discriminate. Qed.
Lemma word_inj a b : a < two256 -> b < two256 -> word a = word b -> a = b.
Proof.
  intros Ha Hb E. apply (f_equal of_be) in E. unfold word in E.
  rewrite two256_eq in *. rewrite !of_be_be_bytes_small in E; assumption.
Qed.

Lemma as_bool_inv w b : len w = 32 -> as_bool w = Ok b ->
  exists x, w = zeros 31 ++ [x] /\ b = (Byte.to_N x =? 1).
Proof.
  intros L E. unfold as_bool in E. destruct (forallb _ _) eqn:Z; [|discriminate]. apply Ok_inj in E.
  destruct (@zeros_prefix 31 1 w Z L) as (r & -> & L').
  destruct r as [|b0 [|]]; try discriminate. exists b0. auto.
Qed.
Lemma as_bool_byte x : as_bool (zeros 31 ++ [x]) = Ok (Byte.to_N x =? 1).
Proof. unfold as_bool. change (firstn 31 (zeros 31 ++ [x])) with (zeros 31). now rewrite zeros_forall. Qed.

Section Dec.
Context (p : profile).

Lemma peek_at data pos n b : fits data -> bytes_at data pos b -> len b = n -> peek p data pos n = Ok b.
Proof.
  intros F H <-. pose proof (bytes_at_le H). unfold peek. unfold fits in F.
  rewrite usize_add_small by (rewrite two64_eq; lia). cbn [bind].
  replace (_ <? _) with false by lia. now apply bytes_at_slice.
Qed.
Lemma peek_inv data pos n b : n < two64 -> peek p data pos n = Ok b ->
  bytes_at data pos b /\ len b = n /\ pos + n < two64.
Proof.
  intros Hn E. unfold peek in E. apply bind_ok in E as (e & E1 & E).
  destruct (_ <? e); [discriminate|]. apply slice_bytes_at in E as [H ->].
  unfold usize_add, checked in E1. destruct (N.ltb_spec (pos + n) two64).
  - injection E1 as E1. split; [assumption|]. lia.
  - destruct p; [discriminate|]. injection E1 as E1. exfalso. rewrite two64_eq in *. lia.
Qed.
Lemma peek32 data pos w : fits data ->
  (peek_32_bytes p data pos = Ok w <-> bytes_at data pos w /\ len w = 32).
Proof.
  intros F. unfold peek_32_bytes. split.
  - intros E. apply peek_inv in E as (? & ? & ?); [auto|reflexivity].
  - intros [H L]. now apply peek_at.
Qed.
Lemma take_peek data pos n : take_bytes p data pos n = peek p data pos n.
Proof. reflexivity. Qed.
Lemma take_iff data pos n b : fits data -> n < two64 ->
  (take_bytes p data pos n = Ok b <-> bytes_at data pos b /\ len b = n).
Proof.
  intros F Hn. rewrite take_peek. split.
  - intros E. apply peek_inv in E as (? & ? & ?); auto.
  - intros [H L]. now apply peek_at.
Qed.
Lemma next32 data pos b : fits data -> bytes_at data pos b -> usize_add p pos 32 = Ok (pos + 32).
Proof.
  intros F H. apply bytes_at_le in H. unfold fits in F. apply usize_add_small.
  rewrite two64_eq. lia.
Qed.
Lemma index_iff data pos n : fits data ->
  ((do w <- peek_32_bytes p data pos; as_usize w) = Ok n <-> index_at data pos n).
Proof.
  intros F. rewrite bind_ok. unfold index_at. split.
  - intros (w & E & E'). apply (peek32 _ _ F) in E as [H L]. apply as_usize_inv in E' as [-> Hn]; auto.
  - intros [H Hn]. exists (word n). rewrite (peek32 _ _ F). rewrite len_word, as_usize_word; auto.
Qed.

Definition dec_iff (t : ParamType) : Prop := forall data pos v next, fits data ->
  (decode_param p t data pos = Ok (v, next) <-> reads data t pos v next).

Lemma step_iff data ts : fits data -> Forall dec_iff ts -> forall acc pos out next,
  foldM (fun s t => decode_step (decode_param p t data) s) ts (acc, pos) = Ok (out, next) <->
  exists vs, out = rev vs ++ acc /\ reads_seq data ts pos vs next.
Proof.
  intros F H. induction H as [|t ts Ht H IH]; intros acc pos out next; cbn [foldM].
  - split.
    + intros E. injection E as <- <-. exists []. split; [reflexivity|constructor].
    + intros (vs & -> & R). inversion R; subst. reflexivity.
  - rewrite bind_ok. split.
    + intros ([acc' pos'] & E & E'). cbn [decode_step] in E. apply bind_ok in E as ([v n] & E & E2).
      injection E2 as <- <-. apply IH in E' as (vs & -> & R). exists (v :: vs). cbn [rev].
      rewrite <- app_assoc. split; [reflexivity|]. apply Ht in E; [|assumption]. econstructor; eauto.
    + intros (vs & -> & R). inversion R as [|? ? ? ? v vs' n ? R1 R2]; subst.
      exists (v :: acc, n). split.
      * cbn [decode_step]. apply Ht in R1; [|assumption]. rewrite R1. reflexivity.
      * apply IH. exists vs'. cbn [rev]. rewrite <- app_assoc. auto.
Qed.

Lemma reads_seq_length data ts pos vs next : reads_seq data ts pos vs next -> length ts = length vs.
Proof. induction 1; cbn; auto. Qed.

Lemma iter_iff data t n : fits data -> dec_iff t -> forall pos out next,
  iter_N (decode_step (decode_param p t data)) n ([], pos) = Ok (out, next) <->
  exists vs, out = rev vs /\ len vs = n /\ reads_seq data (repeat t (length vs)) pos vs next.
Proof.
  intros F H pos out next. rewrite (iter_N_foldM _ t).
  assert (E : forall k s, foldM (fun s _ => decode_step (decode_param p t data) s) (repeat t k) s =
              foldM (fun s t => decode_step (decode_param p t data) s) (repeat t k) s).
  { induction k; intros s; [reflexivity|]. cbn [repeat foldM]. apply bind_ext. intros. apply IHk. }
  rewrite E, step_iff; [|assumption|].
  - split.
    + intros (vs & -> & R). exists vs. rewrite app_nil_r. pose proof (reads_seq_length R) as L.
      rewrite repeat_length in L. rewrite <- L. repeat split; [unfold len; lia|assumption].
    + intros (vs & -> & L & R). exists vs. rewrite app_nil_r. split; [reflexivity|].
      replace (N.to_nat n) with (length vs) by (unfold len in L; lia). assumption.
  - apply Forall_forall. intros x Hx. apply repeat_spec in Hx. now subst.
Qed.

Ltac inv_bind E := let H := fresh E in apply bind_ok in E as (? & H & E).

Lemma index_inv data pos w n : fits data -> peek_32_bytes p data pos = Ok w -> as_usize w = Ok n ->
  index_at data pos n.
Proof. intros F E1 E2. apply index_iff; [assumption|]. rewrite E1. exact E2. Qed.
Lemma index_fwd data pos n : fits data -> index_at data pos n ->
  peek_32_bytes p data pos = Ok (word n) /\ as_usize (word n) = Ok n.
Proof.
  intros F [H Hn]. split; [|now apply as_usize_word]. apply (peek32 _ _ F). split; [assumption|apply len_word].
Qed.
Lemma index_next data pos n : fits data -> index_at data pos n -> usize_add p pos 32 = Ok (pos + 32).
Proof. intros F [H _]. eapply next32; eauto. Qed.

Lemma dyn_bytes_iff data pos b next : fits data ->
  (do w <- peek_32_bytes p data pos;
   do dynamic_offset <- as_usize w;
   do w <- peek_32_bytes p data dynamic_offset;
   do l <- as_usize w;
   do start <- usize_add p dynamic_offset 32;
   do bytes <- take_bytes p data start l;
   do o <- usize_add p pos 32;
   Ok (bytes, o)) = Ok (b, next) <->
  exists o, index_at data pos o /\ index_at data o (len b) /\ bytes_at data (o + 32) b /\ next = pos + 32.
Proof.
  intros F. split.
  - intros E. apply bind_ok in E as (w & E1 & E). apply bind_ok in E as (o & E2 & E).
    apply bind_ok in E as (w' & E3 & E). apply bind_ok in E as (l & E4 & E).
    pose proof (index_inv _ F E1 E2) as I1. pose proof (index_inv _ F E3 E4) as I2.
    rewrite (index_next F I2) in E. cbn [bind] in E.
    apply bind_ok in E as (b' & E5 & E). rewrite (index_next F I1) in E. cbn [bind] in E.
    injection E as -> <-. apply take_iff in E5 as [B <-]; [|assumption|].
    + exists o. auto.
    + destruct I2 as [_ I2]. rewrite two32_eq, two64_eq in *. lia.
  - intros (o & I1 & I2 & B & ->).
    destruct (index_fwd F I1) as [-> E1]. cbn [bind]. rewrite E1. cbn [bind].
    destruct (index_fwd F I2) as [-> E2]. cbn [bind]. rewrite E2. cbn [bind].
    rewrite (index_next F I2). cbn [bind].
    replace (take_bytes p data (o + 32) (len b)) with (Ok b).
    + cbn [bind]. now rewrite (index_next F I1).
    + symmetry. apply take_iff; auto. destruct I2 as [_ I2]. rewrite two32_eq, two64_eq in *. lia.
Qed.

Lemma frame_iff data pos f (o : N) : fits data ->
  (do w <- peek_32_bytes p data pos; do o <- as_usize w; do tl <- slice_from data o; Ok (tl, 0)) = Ok (f, o) <->
  o = 0 /\ exists n, index_at data pos n /\ frame_at data n f.
Proof.
  intros F. split.
  - intros E. apply bind_ok in E as (w & E1 & E). apply bind_ok in E as (n & E2 & E).
    apply bind_ok in E as (tl & E3 & E). injection E as -> <-. split; [reflexivity|].
    exists n. split; [eapply index_inv; eauto|]. now apply frame_slice.
  - intros (-> & n & I & Fr). destruct (index_fwd F I) as [-> E1]. cbn [bind]. rewrite E1. cbn [bind].
    apply frame_slice in Fr. now rewrite Fr.
Qed.
Lemma frame_checked_iff data pos f (o : N) : fits data ->
  (do w <- peek_32_bytes p data pos; do o <- as_usize w;
   if len data <? o then Err InvalidData
   else do tl <- slice_from data o; Ok (tl, 0)) = Ok (f, o) <->
  o = 0 /\ exists n, index_at data pos n /\ frame_at data n f.
Proof.
  intros F. split.
  - intros E. apply bind_ok in E as (w & E1 & E). apply bind_ok in E as (n & E2 & E).
    destruct (_ <? _); [discriminate|].
    apply bind_ok in E as (tl & E3 & E). injection E as -> <-. split; [reflexivity|].
    exists n. split; [eapply index_inv; eauto|]. now apply frame_slice.
  - intros (-> & n & I & Fr). destruct (index_fwd F I) as [-> E1]. cbn [bind]. rewrite E1. cbn [bind].
    pose proof (frame_at_le Fr). replace (_ <? _) with false by lia.
    apply frame_slice in Fr. now rewrite Fr.
Qed.

Lemma dec_iff_all t : wf_type t = true -> dec_iff t.
Proof.
  induction t using ParamType_ind'; intros W data pos v next F; cbn [decode_param].
  - (* address *) rewrite bind_ok. split.
    + intros (w & E & E'). apply (peek32 _ _ F) in E as [B L]. rewrite (next32 F B) in E'. cbn [bind] in E'.
      apply Ok_pair_inj in E' as [<- <-]. pose proof (firstn_skipn 12 w) as Ew. rewrite <- Ew in B.
      eapply reads_address; [exact B| |].
      * unfold len in *. rewrite firstn_length. lia.
      * unfold len in *. rewrite skipn_length. lia.
    + intros R. inversion R as [? ? hi a B L1 L2| | | | | | | | | | | ]; subst.
      exists (hi ++ a). rewrite (peek32 _ _ F). rewrite (next32 F B). cbn [bind]. split.
      * split; [assumption|]. rewrite len_app. lia.
      * replace 12%nat with (length hi) by (unfold len in L1; lia).
        rewrite skipn_app, skipn_all, Nat.sub_diag. reflexivity.
  - (* bytes *)
    pose proof (fun d => @dyn_bytes_iff d pos) as G. split.
    + intros E. specialize (G data).
      assert (X : exists b, v = TBytes b /\
        (do w <- peek_32_bytes p data pos; do dynamic_offset <- as_usize w;
         do w <- peek_32_bytes p data dynamic_offset; do l <- as_usize w;
         do start <- usize_add p dynamic_offset 32; do bytes <- take_bytes p data start l;
         do o <- usize_add p pos 32; Ok (bytes, o)) = Ok (b, next)).
      { repeat (let x := fresh "x" in let Hx := fresh "H" in apply bind_ok in E as (x & Hx & E); rewrite Hx; cbn [bind]).
        injection E as <- <-. eauto. }
      destruct X as (b & -> & X). apply G in X as (o & I1 & I2 & B & ->); [|assumption].
      eapply reads_bytes; eassumption.
    + intros R. inversion R as [| | | | | ? ? o b I1 I2 B | | | | | |]; subst.
      assert (X := proj2 (G data b (pos + 32) F) (ex_intro _ o (conj I1 (conj I2 (conj B eq_refl))))).
      repeat (let x := fresh "x" in let Hx := fresh "H" in apply bind_ok in X as (x & Hx & X); rewrite Hx; cbn [bind]).
      injection X as -> ->. reflexivity.
  - (* int *) rewrite bind_ok. split.
    + intros (w & E & E'). apply (peek32 _ _ F) in E as [B L]. rewrite (next32 F B) in E'. cbn [bind] in E'.
      injection E' as <- <-. now constructor.
    + intros R. inversion R as [|? ? ? w B L| | | | | | | | | | ]; subst.
      exists w. rewrite (peek32 _ _ F). rewrite (next32 F B). auto.
  - (* uint *) rewrite bind_ok. split.
    + intros (w & E & E'). apply (peek32 _ _ F) in E as [B L]. rewrite (next32 F B) in E'. cbn [bind] in E'.
      injection E' as <- <-. now constructor.
    + intros R. inversion R as [| |? ? ? w B L| | | | | | | | | ]; subst.
      exists w. rewrite (peek32 _ _ F). rewrite (next32 F B). auto.
  - (* bool *) rewrite bind_ok. split.
    + intros (w & E & E'). apply (peek32 _ _ F) in E as [B L]. apply bind_ok in E' as (b & Eb & E').
      rewrite (next32 F B) in E'. cbn [bind] in E'.
      injection E' as <- <-. apply as_bool_inv in Eb as (x & -> & ->); [|assumption]. now constructor.
    + intros R. inversion R as [| | |? ? b B| | | | | | | | ]; subst.
      exists (zeros 31 ++ [b]). rewrite (peek32 _ _ F), as_bool_byte. cbn [bind]. rewrite (next32 F B). auto.
  - (* string *)
    pose proof (fun d => @dyn_bytes_iff d pos) as G. split.
    + intros E. specialize (G data).
      assert (X : exists b, v = TString (utf8_lossy b) /\
        (do w <- peek_32_bytes p data pos; do dynamic_offset <- as_usize w;
         do w <- peek_32_bytes p data dynamic_offset; do l <- as_usize w;
         do start <- usize_add p dynamic_offset 32; do bytes <- take_bytes p data start l;
         do o <- usize_add p pos 32; Ok (bytes, o)) = Ok (b, next)).
      { repeat (let x := fresh "x" in let Hx := fresh "H" in apply bind_ok in E as (x & Hx & E); rewrite Hx; cbn [bind]).
        injection E as <- <-. eauto. }
      destruct X as (b & -> & X). apply G in X as (o & I1 & I2 & B & ->); [|assumption].
      eapply reads_string; eassumption.
    + intros R. inversion R as [| | | | | | ? ? o b I1 I2 B | | | | |]; subst.
      assert (X := proj2 (G data b (pos + 32) F) (ex_intro _ o (conj I1 (conj I2 (conj B eq_refl))))).
      repeat (let x := fresh "x" in let Hx := fresh "H" in apply bind_ok in X as (x & Hx & X); rewrite Hx; cbn [bind]).
      injection X as -> ->. reflexivity.
  - (* array *) cbn [wf_type] in W. specialize (IHt W). split.
    + intros E. apply bind_ok in E as (w & E1 & E). apply bind_ok in E as (o & E2 & E).
      apply bind_ok in E as (w' & E3 & E). apply bind_ok in E as (l & E4 & E).
      pose proof (index_inv _ F E1 E2) as I1. pose proof (index_inv _ F E3 E4) as I2.
      rewrite (index_next F I2) in E. cbn [bind] in E.
      apply bind_ok in E as (f & E5 & E). apply frame_slice in E5.
      apply bind_ok in E as ([out o'] & E6 & E). rewrite (index_next F I1) in E. cbn [bind] in E.
      injection E as <- <-. apply iter_iff in E6 as (vs & -> & <- & R); [|eapply frame_at_fits; eassumption|assumption].
      rewrite rev_involutive. eapply reads_array; eassumption.
    + intros R. inversion R as [| | | | | | |? ? ? o vs f n I1 I2 Fr R1 | | | |]; subst.
      destruct (index_fwd F I1) as [-> E1]. cbn [bind]. rewrite E1. cbn [bind].
      destruct (index_fwd F I2) as [-> E2]. cbn [bind]. rewrite E2. cbn [bind].
      rewrite (index_next F I2). cbn [bind]. rewrite (proj1 (frame_slice _ _ _) Fr). cbn [bind].
      rewrite (index_next F I1).
      rewrite (proj2 (@iter_iff f t (len vs) (frame_at_fits Fr F) IHt 0 (rev vs) n)).
      * cbn [bind]. now rewrite rev_involutive.
      * exists vs. auto.
  - (* fixed bytes *) cbn [wf_type] in W. rewrite bind_ok. split.
    + intros (b & E & E'). apply take_iff in E as [B L]; [|assumption|lia].
      rewrite (next32 F B) in E'. cbn [bind] in E'. injection E' as <- <-. now constructor.
    + intros R. inversion R as [| | | |? ? ? b B L| | | | | | | ]; subst.
      exists b. rewrite take_iff by (assumption || lia). rewrite (next32 F B). auto.
  - (* fixed array *) cbn [wf_type] in W. apply andb_true_iff in W as [W1 W2]. specialize (IHt W1).
    rewrite dynamic_eq. cbn [dynamic]. destruct (dynamic t) eqn:D.
    + split.
      * intros E. apply bind_ok in E as ([f o] & E1 & E). apply frame_iff in E1 as (-> & i & I & Fr); [|assumption].
        apply bind_ok in E as ([out o'] & E6 & E). rewrite (index_next F I) in E. cbn [bind] in E.
        injection E as <- <-. apply iter_iff in E6 as (vs & -> & <- & R); [|eapply frame_at_fits; eassumption|assumption].
        rewrite rev_involutive. eapply reads_fixed_array_dynamic; eauto.
      * intros R. inversion R as [| | | | | | | |? ? ? ? ? ? D'|? ? ? ? o vs f k D' L I Fr R1 | |]; subst; [congruence|].
        rewrite (proj2 (@frame_iff data pos f 0 F)) by eauto. cbn [bind].
        rewrite (proj2 (@iter_iff f t (len vs) (frame_at_fits Fr F) IHt 0 (rev vs) k)) by eauto.
        cbn [bind]. rewrite (index_next F I). cbn [bind]. now rewrite rev_involutive.
    + cbn [bind]. split.
      * intros E. apply bind_ok in E as ([out o'] & E6 & E). cbn [bind] in E. injection E as <- <-.
        apply iter_iff in E6 as (vs & -> & <- & R); [|assumption|assumption].
        rewrite rev_involutive. eapply reads_fixed_array_static; eauto.
      * intros R. inversion R as [| | | | | | | |? ? ? ? vs ? D' L R1|? ? ? ? ? ? ? ? D' | |]; subst; [|congruence].
        rewrite (proj2 (@iter_iff data t (len vs) F IHt pos (rev vs) next)) by eauto.
        cbn [bind]. now rewrite rev_involutive.
  - (* tuple *) cbn [wf_type] in W.
    assert (IH : Forall (dec_iff) ts).
    { rewrite forallb_forall in W. rewrite Forall_forall in *. auto. }
    rewrite dynamic_eq. destruct (dynamic (PTuple ts)) eqn:D.
    + split.
      * intros E. apply bind_ok in E as ([f o] & E1 & E). apply frame_checked_iff in E1 as (-> & i & I & Fr); [|assumption].
        apply bind_ok in E as ([out o'] & E6 & E). rewrite (index_next F I) in E. cbn [bind] in E.
        injection E as <- <-. apply step_iff in E6 as (vs & -> & R); [|eapply frame_at_fits; eassumption|assumption].
        rewrite app_nil_r, rev_involutive. eapply reads_tuple_dynamic; eauto.
      * intros R. inversion R as [| | | | | | | | | |? ? ? ? ? D'|? ? ? o vs f k D' I Fr R1]; subst; [congruence|].
        rewrite (proj2 (@frame_checked_iff data pos f 0 F)) by eauto. cbn [bind].
        rewrite (proj2 (@step_iff f ts (frame_at_fits Fr F) IH [] 0 (rev vs) k)).
        2:{ exists vs. rewrite app_nil_r. auto. }
        cbn [bind]. rewrite (index_next F I). cbn [bind]. now rewrite rev_involutive.
    + cbn [bind]. split.
      * intros E. apply bind_ok in E as ([out o'] & E6 & E). cbn [bind] in E. injection E as <- <-.
        apply step_iff in E6 as (vs & -> & R); [|assumption|assumption].
        rewrite app_nil_r, rev_involutive. eapply reads_tuple_static; eauto.
      * intros R. inversion R as [| | | | | | | | | |? ? ? vs ? D' R1|? ? ? ? ? ? ? D']; subst; [|congruence].
        rewrite (proj2 (@step_iff data ts F IH [] pos (rev vs) next)).
        2:{ exists vs. rewrite app_nil_r. auto. }
        cbn [bind]. now rewrite rev_involutive.
Qed.

Lemma dec_iff_types ts : forallb wf_type ts = true -> Forall (dec_iff) ts.
Proof. rewrite forallb_forall, Forall_forall. intros. apply dec_iff_all. auto. Qed.

Lemma may_be_empty_iff t : is_empty_bytes_valid_encoding t = true <-> may_be_empty t.
Proof.
  unfold may_be_empty. destruct t; cbn; try (split; [discriminate|intros [H|(u & H)]; discriminate]).
  - rewrite N.eqb_eq. split; [intros ->; auto|]. intros [[= ->]|(u & H)]; [reflexivity|discriminate].
  - rewrite N.eqb_eq. split; [intros ->; eauto|]. intros [H|(u & [= _ ->])]; [discriminate|reflexivity].
Qed.
Lemma may_be_empty_all ts : forallb is_empty_bytes_valid_encoding ts = true <-> Forall may_be_empty ts.
Proof. rewrite forallb_forall, Forall_forall. split; intros H x I; apply may_be_empty_iff; auto. Qed.

(** [decode] succeeds exactly on readable data. *)
Lemma decode_iff ts data vs : forallb wf_type ts = true -> fits data ->
  (decode p ts data = Ok vs <->
   (data <> [] \/ forallb is_empty_bytes_valid_encoding ts = true) /\
   exists next, reads_seq data ts 0 vs next).
Proof.
  intros W F. unfold decode.
  assert (G : forall out, (do (tokens, _) <- foldM (fun s t => decode_step (decode_param p t data) s) ts ([], 0);
    Ok (rev tokens)) = Ok out <-> exists next, reads_seq data ts 0 out next).
  { intros out. rewrite bind_ok. split.
    - intros ([o n] & E & E'). injection E' as <-.
      apply step_iff in E as (vs' & -> & R); [|assumption|now apply dec_iff_types].
      rewrite app_nil_r, rev_involutive. eauto.
    - intros (n & R). exists (rev out, n). split.
      + apply step_iff; [assumption|now apply dec_iff_types|]. exists out. rewrite app_nil_r. auto.
      + now rewrite rev_involutive. }
  destruct (negb _ && _) eqn:C.
  - split; [discriminate|]. intros [[H|H] _]; apply andb_true_iff in C as [C1 C2].
    + exfalso. apply H. apply len_0. lia.
    + rewrite H in C1. discriminate.
  - rewrite G. split; [|tauto]. intros H; split; [|assumption].
    destruct data; [right|left; discriminate].
    rewrite len_nil in C. destruct (forallb is_empty_bytes_valid_encoding ts); [reflexivity|discriminate].
Qed.
End Dec.

Lemma decode_reads p ts data vs : forallb wf_type ts = true -> fits data ->
  (decode p ts data = Ok vs <-> (data <> [] \/ Forall may_be_empty ts) /\ exists next, reads_seq data ts 0 vs next).
Proof. intros W F. rewrite <- may_be_empty_all. now apply decode_iff. Qed.

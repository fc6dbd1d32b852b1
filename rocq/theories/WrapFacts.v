(** * The encoder on values of any size *)
From Verif Require Import Base Types Encoder AbiSpec BaseFacts EncoderFacts WrapSpec.
From Coq Require Import ZifyBool ZifyNat ZifyN.
Set Implicit Arguments.
Local Open Scope N_scope.

Lemma two32_eq : 2 ^ 32 = two32. Proof. reflexivity. Qed.
Lemma dynamic_value_eq v : dynamic_value v = token_is_dynamic v.
Proof.
  induction v using Token_ind'; cbn [dynamic_value token_is_dynamic]; try reflexivity;
    (induction H as [|x l Hx H IH]; cbn [existsb]; [reflexivity|now rewrite Hx, IH]).
Qed.
Lemma dynamic_values vs : existsb dynamic_value vs = existsb token_is_dynamic vs.
Proof. induction vs as [|v vs IH]; cbn [existsb]; [reflexivity|]. now rewrite dynamic_value_eq, IH. Qed.
Definition part32 (v : Token) : bool * list byte := (dynamic_value v, value32 v).

(** ** Arithmetic that wraps or stays small *)
Definition fine (p : profile) (n : N) : Prop := p = Release \/ n < two32.
Lemma fine_le p a b : fine p b -> a <= b -> fine p a.
Proof. intros [->|H] L; [now left|right; eapply N.le_lt_trans; eauto]. Qed.
Lemma checked_fine p v : fine p v -> checked p two32 v = Ok (v mod two32).
Proof.
  unfold checked. intros H. destruct (v <? two32) eqn:E.
  - now rewrite N.mod_small by (now apply N.ltb_lt).
  - destruct H as [->|H]; [reflexivity|]. apply N.ltb_ge in E. lia.
Qed.
Lemma two32_pos : two32 <> 0. Proof. discriminate. Qed.
Lemma add_fine p a b : fine p (a + b) -> u32_add p (a mod two32) (b mod two32) = Ok ((a + b) mod two32).
Proof.
  intros H. unfold u32_add. rewrite checked_fine.
  - now rewrite <- N.add_mod by apply two32_pos.
  - eapply fine_le; [exact H|]. apply N.add_le_mono; apply N.mod_le, two32_pos.
Qed.
Lemma mul_fine p a : fine p (32 * a) -> u32_mul p 32 (as_u32 a) = Ok ((32 * a) mod two32).
Proof.
  intros H. unfold u32_mul, as_u32. rewrite checked_fine.
  - now rewrite N.mul_mod_idemp_r by apply two32_pos.
  - eapply fine_le; [exact H|]. apply N.mul_le_mono_l, N.mod_le, two32_pos.
Qed.
Lemma mul_fine' p a : fine p (32 * a) -> u32_mul p (as_u32 a) 32 = Ok ((32 * a) mod two32).
Proof. intros H. rewrite <- (@mul_fine p a H). unfold u32_mul. now rewrite N.mul_comm. Qed.
Lemma pad_u32_mod n : pad_u32 (n mod two32) = word32 n.
Proof. unfold word32. rewrite two32_eq. apply pad_u32_word. apply N.mod_lt, two32_pos. Qed.

(** ** Mediates *)
Definition med32 (p : profile) (c : bool * list byte) (m : Mediate) : Prop :=
  let '(dyn, e) := c in
  if dyn then
    head_len p m = Ok 32 /\ (forall o, head m o = [pad_u32 o]) /\
    tail_len p m = Ok (len e mod two32) /\
    exists ws, tail p m = Ok ws /\ concat ws = e /\ Forall EncoderFacts.word32 ws
  else
    head_len p m = Ok (len e mod two32) /\
    (forall o, concat (head m o) = e /\ Forall EncoderFacts.word32 (head m o)) /\
    tail_len p m = Ok 0 /\ tail p m = Ok [].

Lemma len_word32 n : len (word32 n) = 32.
Proof. apply len_word. Qed.
Lemma heads32_len n cs : len (heads32 n cs) = heads_size cs.
Proof.
  revert n; induction cs as [|[[] e] cs IH]; intros n; cbn [heads32 heads_size head_size]; [reflexivity| |].
  - rewrite len_app, IH, len_word32. reflexivity.
  - rewrite len_app, IH. reflexivity.
Qed.
Lemma seq32_len cs : len (seq32 cs) = heads_size cs + len (tails cs).
Proof. unfold seq32. now rewrite len_app, heads32_len. Qed.
Lemma heads32_mod n cs : heads32 (n mod two32) cs = heads32 n cs.
Proof.
  revert n; induction cs as [|[[] e] cs IH]; intros n; cbn [heads32]; [reflexivity| |now rewrite IH].
  rewrite <- IH, N.add_mod_idemp_l, IH by apply two32_pos.
  unfold word32. rewrite two32_eq. now rewrite N.mod_mod by apply two32_pos.
Qed.

Section Seq.
Context (p : profile).
Lemma med32_head_len d e m : med32 p (d, e) m -> head_len p m = Ok (head_size (d, e) mod two32).
Proof. destruct d; intros (M & _); exact M. Qed.

Lemma fold_head_len32 cs ms acc :
  Forall2 (med32 p) cs ms -> fine p (acc + heads_size cs) ->
  foldM (fun acc m => do h <- head_len p m; u32_add p acc h) ms (acc mod two32) = Ok ((acc + heads_size cs) mod two32).
Proof.
  intros H. revert acc. induction H as [|[d e] m cs ms M H IH]; intros acc Hb.
  - cbn [foldM heads_size]. now rewrite N.add_0_r.
  - cbn [foldM heads_size] in *. rewrite (med32_head_len _ _ _ M). cbn [bind].
    rewrite add_fine by (eapply fine_le; [exact Hb|lia]). cbn [bind].
    rewrite IH by (eapply fine_le; [exact Hb|lia]). now rewrite N.add_assoc.
Qed.
Lemma fold_sum_len32 cs ms acc :
  Forall2 (med32 p) cs ms -> fine p (acc + heads_size cs + len (tails cs)) ->
  foldM (fun acc m => do h <- head_len p m;
                      do a <- u32_add p acc h;
                      do t <- tail_len p m;
                      u32_add p a t) ms (acc mod two32) = Ok ((acc + heads_size cs + len (tails cs)) mod two32).
Proof.
  intros H. revert acc. induction H as [|[d e] m cs ms M H IH]; intros acc Hb.
  - cbn [foldM heads_size tails]. rewrite len_nil. now rewrite !N.add_0_r.
  - assert (T : tail_len p m = Ok (len (tails [(d, e)]) mod two32)).
    { destruct d; destruct M as (_ & _ & M & _); rewrite M; cbn [tails]; rewrite ?app_nil_r; reflexivity. }
    assert (L : len (tails ((d, e) :: cs)) = len (tails [(d, e)]) + len (tails cs)).
    { destruct d; cbn [tails]; rewrite ?app_nil_r, ?len_app, ?len_nil; reflexivity. }
    rewrite L in *. cbn [foldM heads_size] in *. rewrite (med32_head_len _ _ _ M), T. cbn [bind].
    rewrite add_fine by (eapply fine_le; [exact Hb|lia]). cbn [bind].
    rewrite add_fine by (eapply fine_le; [exact Hb|lia]). cbn [bind].
    rewrite IH by (eapply fine_le; [exact Hb|lia]). f_equal. f_equal. lia.
Qed.
Lemma fold_heads32 cs ms off acc :
  Forall2 (med32 p) cs ms -> fine p (off + len (tails cs)) ->
  exists hs, foldM (fun '(acc, offset) m =>
                            do t <- tail_len p m;
                            do o <- u32_add p offset t;
                            Ok (acc ++ head m offset, o)) ms (acc, off mod two32)
             = Ok (acc ++ hs, (off + len (tails cs)) mod two32) /\
             concat hs = heads32 off cs /\ Forall EncoderFacts.word32 hs.
Proof.
  intros H. revert off acc. induction H as [|[d e] m cs ms M H IH]; intros off acc Hb.
  - exists []. cbn [foldM tails]. rewrite len_nil, app_nil_r, N.add_0_r. repeat split. constructor.
  - cbn [foldM tails heads32] in *.
    destruct d; cbn in M; destruct M as (_ & Mh & M2 & _); rewrite M2; cbn [bind]; rewrite ?len_app in *.
    + rewrite add_fine by (eapply fine_le; [exact Hb|lia]); cbn [bind].
      destruct (IH (off + len e) (acc ++ head m (off mod two32))) as (hs & E & C & W); [eapply fine_le; [exact Hb|lia]|].
      exists (pad_u32 (off mod two32) :: hs). rewrite E. split; [|split].
      * rewrite Mh, <- app_assoc. cbn [app]. do 2 f_equal. f_equal. lia.
      * cbn [concat]. now rewrite C, pad_u32_mod.
      * constructor; [apply pad_u32_len | assumption].
    + change 0 with (0 mod two32). rewrite add_fine by (eapply fine_le; [exact Hb|lia]); cbn [bind].
      destruct (IH (off + 0) (acc ++ head m (off mod two32))) as (hs & E & C & W); [eapply fine_le; [exact Hb|lia]|].
      exists (head m (off mod two32) ++ hs). rewrite E. split; [|split].
      * rewrite <- app_assoc. do 2 f_equal. f_equal. lia.
      * rewrite concat_app, C. rewrite N.add_0_r. now rewrite (proj1 (Mh _)).
      * apply Forall_app. split; [apply Mh | assumption].
Qed.
Lemma fold_tails32 cs ms acc :
  Forall2 (med32 p) cs ms ->
  exists ws, foldM (fun acc m => do t <- tail p m; Ok (acc ++ t)) ms acc = Ok (acc ++ ws) /\
             concat ws = tails cs /\ Forall EncoderFacts.word32 ws.
Proof.
  intros H. revert acc. induction H as [|[d e] m cs ms M H IH]; intros acc.
  - exists []. cbn. rewrite app_nil_r. repeat split. constructor.
  - cbn [foldM tails]. destruct d; cbn in M.
    + destruct M as (_ & _ & _ & ws & E & C & W). rewrite E. cbn [bind].
      destruct (IH (acc ++ ws)) as (ws' & E' & C' & W').
      exists (ws ++ ws'). rewrite E', <- app_assoc. repeat split.
      * rewrite concat_app. congruence.
      * apply Forall_app. now split.
    + destruct M as (_ & _ & _ & E). rewrite E. cbn [bind]. rewrite app_nil_r. apply IH.
Qed.
Lemma head_tail32 cs ms :
  Forall2 (med32 p) cs ms -> fine p (len (seq32 cs)) ->
  exists ws, encode_head_tail p ms = Ok ws /\ concat ws = seq32 cs /\ Forall EncoderFacts.word32 ws.
Proof.
  intros H Hb. rewrite seq32_len in Hb. unfold encode_head_tail, encode_head_tail_with.
  change (foldM _ ms 0) with (foldM (fun acc m => do h <- head_len p m; u32_add p acc h) ms (0 mod two32)).
  rewrite (fold_head_len32 _ H) by (eapply fine_le; [exact Hb|lia]). cbn [bind]. rewrite N.add_0_l.
  destruct (@fold_heads32 cs ms (heads_size cs) [] H) as (hs & E & C & W); [exact Hb|].
  rewrite E. cbn [bind].
  assert (S : exists n, u32_sub p ((heads_size cs + len (tails cs)) mod two32) (heads_size cs mod two32) = Ok n).
  { unfold u32_sub. destruct (_ <=? _) eqn:Le; [eauto|]. destruct Hb as [->|Hb]; [eauto|].
    rewrite !N.mod_small in Le by lia. apply N.leb_gt in Le. lia. }
  destruct S as (n & ->). cbn [bind].
  destruct (fold_tails32 [] H) as (ts & E' & C' & W'). rewrite E'. cbn [bind].
  eexists. split; [reflexivity|]. split.
  - cbn [app]. rewrite concat_app, C, C'. reflexivity.
  - cbn [app]. apply Forall_app. now split.
Qed.
End Seq.

(** ** Tokens *)
Section Tok.
Context (p : profile).
Definition tok32 (v : Token) : Prop := exists m, encode_token p v = Ok m /\ med32 p (part32 v) m.

Lemma parts_bound cs : Forall (fun c => len (snd c) <= len (seq32 cs)) cs.
Proof.
  pose proof (heads_tails_bound cs) as H. rewrite enc_seq_len in H. now rewrite seq32_len.
Qed.
Lemma toks32 vs : Forall (fun v => fine p (len (value32 v)) -> tok32 v) vs ->
  fine p (len (seq32 (map part32 vs))) ->
  exists ms, mapM (encode_token p) vs = Ok ms /\ Forall2 (med32 p) (map part32 vs) ms.
Proof.
  intros H Hb. pose proof (parts_bound (map part32 vs)) as B.
  rewrite Forall_map in B. rewrite Forall_forall in B, H.
  assert (G : Forall tok32 vs).
  { apply Forall_forall. intros v Hin. apply (H _ Hin). specialize (B _ Hin). eapply fine_le; eauto. }
  clear -G. induction G as [|v l (m & E & M) G (ms & Es & Ms)]; cbn [mapM map].
  - eexists; split; [reflexivity|constructor].
  - rewrite E, Es. cbn [bind]. eexists; split; [reflexivity|]. now constructor.
Qed.
Lemma raw32 ws : Forall EncoderFacts.word32 ws -> fine p (len (concat ws)) -> med32 p (false, concat ws) (Raw ws).
Proof.
  intros W Hb. cbn. pose proof (concat_len W) as L. rewrite L in *. rewrite mul_fine by exact Hb. auto.
Qed.
Lemma raw32_1 w : EncoderFacts.word32 w -> med32 p (false, w) (Raw [w]).
Proof.
  intros W. pose proof (@raw32 [w]) as G. cbn [concat] in G. rewrite app_nil_r in G. apply G.
  - now repeat constructor.
  - right. rewrite W. reflexivity.
Qed.
Lemma prefixed32 ws : Forall EncoderFacts.word32 ws -> fine p (len (concat ws)) -> med32 p (true, concat ws) (Prefixed ws).
Proof.
  intros W Hb. cbn. pose proof (concat_len W) as L. rewrite L in *.
  rewrite mul_fine' by exact Hb. repeat split. exists ws. auto.
Qed.
Lemma pad_bytes32 b : exists ws, pad_bytes b = Ok ws /\ concat ws = word32 (len b) ++ b ++ padding (len b) /\ Forall EncoderFacts.word32 ws.
Proof.
  destruct (pad_fixed_bytes_spec b) as (ws & E & C & W).
  unfold pad_bytes. rewrite E. cbn [bind]. eexists; split; [reflexivity|]. split.
  - cbn [concat]. unfold as_u32. now rewrite pad_u32_mod, C.
  - constructor; [apply pad_u32_len | assumption].
Qed.
Lemma static_heads32 cs o : Forall (fun c => fst c = false) cs ->
  heads32 o cs = concat (map snd cs) /\ tails cs = [].
Proof.
  revert o; induction cs as [|[d e] cs IH]; intros o H; [now split|].
  inversion H; subst. cbn in *; subst. destruct (IH o H3) as [E1 E2]. now rewrite E1.
Qed.
Lemma raw_tuple32 cs ms : Forall2 (med32 p) cs ms -> Forall (fun c => fst c = false) cs ->
  fine p (len (seq32 cs)) -> med32 p (false, seq32 cs) (RawTuple ms).
Proof.
  intros H St Hb. cbn [med32 head_len tail_len tail].
  pose proof (static_heads32 (heads_size cs) St) as [E1 E2].
  pose proof (seq32_len cs) as L. rewrite E2, len_nil, N.add_0_r in L. rewrite L in *.
  change (foldM _ ms 0) with (foldM (fun acc m => do h <- head_len p m; u32_add p acc h) ms (0 mod two32)).
  rewrite (fold_head_len32 _ H) by exact Hb. split; [reflexivity|]. split; [|split; reflexivity].
  intros o. cbn [head]. unfold seq32. rewrite E1, E2, app_nil_r. clear -H St.
  induction H as [|[d e] m cs ms M H IH]; cbn; [split; [reflexivity|constructor]|].
  inversion St; subst. cbn in *; subst. destruct M as (_ & M & _). destruct (M 0) as [M1 M2].
  destruct (IH H3) as [I1 I2]. rewrite concat_app, M1, I1. split; [reflexivity|].
  apply Forall_app; auto.
Qed.
Lemma prefixed_seq32 cs ms : Forall2 (med32 p) cs ms -> fine p (len (seq32 cs)) ->
  med32 p (true, seq32 cs) (PrefixedArray ms) /\ med32 p (true, seq32 cs) (PrefixedTuple ms).
Proof.
  intros H Hb. destruct (head_tail32 H Hb) as (ws & E & C & W).
  rewrite seq32_len in Hb.
  cbn [med32 head_len tail_len head tail].
  change (foldM ?f ms 0) with (foldM f ms (0 mod two32)).
  rewrite (fold_sum_len32 _ H) by (rewrite N.add_0_l; exact Hb). rewrite seq32_len, N.add_0_l.
  unfold encode_head_tail in E. rewrite E. cbn. split; repeat split; eauto.
Qed.
Lemma prefixed_len32 cs ms : Forall2 (med32 p) cs ms ->
  fine p (len (word32 (len cs) ++ seq32 cs)) ->
  med32 p (true, word32 (len cs) ++ seq32 cs) (PrefixedArrayWithLength ms).
Proof.
  intros H Hb. rewrite len_app, len_word32 in Hb.
  destruct (head_tail32 H) as (ws & E & C & W); [eapply fine_le; [exact Hb|lia]|].
  rewrite seq32_len in Hb.
  cbn [med32 head_len tail_len head tail].
  change (foldM ?f ms 32) with (foldM f ms (32 mod two32)).
  rewrite (fold_sum_len32 _ H) by (eapply fine_le; [exact Hb|lia]).
  rewrite len_app, len_word32, seq32_len, N.add_assoc.
  unfold encode_head_tail in E. rewrite E. cbn [bind].
  split; [reflexivity|]. split; [reflexivity|]. split; [reflexivity|].
  eexists. split; [reflexivity|].
  assert (El : len ms = len cs) by (unfold len; now rewrite (Forall2_length H)).
  unfold as_u32. rewrite El, pad_u32_mod. split.
  - cbn [concat]. now rewrite C.
  - constructor; [apply len_word32 | assumption].
Qed.
Lemma tok32_all v : wf_token v = true -> fine p (len (value32 v)) -> tok32 v.
Proof.
  induction v using Token_ind'; intros T L; unfold tok32, part32; cbn [encode_token dynamic_value value32].
  - cbn in T. unfold copy_from_slice. rewrite T. cbn [bind]. eexists. split; [reflexivity|].
    apply raw32_1. unfold EncoderFacts.word32. rewrite len_app, len_zeros. lia.
  - cbn [value32] in L. destruct (@pad_fixed_bytes_spec b) as (ws & E & C & W).
    exists (Raw ws). rewrite E. split; [reflexivity|].
    rewrite <- C in *. apply raw32; assumption.
  - cbn [value32] in L. destruct (@pad_bytes32 b) as (ws & E & C & W).
    exists (Prefixed ws). rewrite E. split; [reflexivity|]. rewrite <- C in *. now apply prefixed32.
  - eexists. split; [reflexivity|]. apply raw32_1, len_word.
  - eexists. split; [reflexivity|]. apply raw32_1, len_word.
  - eexists. split; [reflexivity|].
    replace (zeros 31 ++ [if b then x01 else x00]) with (word (if b then 1 else 0)) by (destruct b; reflexivity).
    apply raw32_1, len_word.
  - cbn [value32] in L. destruct (@pad_bytes32 (utf8 s)) as (ws & E & C & W).
    exists (Prefixed ws). rewrite E. split; [reflexivity|]. rewrite <- C in *. now apply prefixed32.
  - cbn [wf_token value32 token_is_dynamic] in *. change (fun v => (dynamic_value v, value32 v)) with part32 in *.
    rewrite forallb_forall in T. rewrite Forall_forall in H.
    destruct (@toks32 vs) as (ms & E & M); [apply Forall_forall; auto | exact L |].
    rewrite E. cbn [bind]. rewrite <- (dynamic_values vs).
    destruct (existsb dynamic_value vs).
    + eexists. split; [reflexivity|]. apply prefixed_seq32; assumption.
    + destruct (head_tail32 M L) as (ws & E' & C & W). rewrite E'. cbn [bind].
      eexists. split; [reflexivity|]. rewrite <- C in *. now apply raw32.
  - cbn [wf_token value32] in *. change (fun v => (dynamic_value v, value32 v)) with part32 in *.
    rewrite forallb_forall in T. rewrite Forall_forall in H.
    destruct (@toks32 vs) as (ms & E & M); [apply Forall_forall; auto | rewrite len_app in L; eapply fine_le; [exact L|lia] |].
    rewrite E. exists (PrefixedArrayWithLength ms). split; [reflexivity|].
    pose proof (prefixed_len32 M) as G. rewrite len_map in G. apply G; exact L.
  - cbn [wf_token value32 token_is_dynamic] in *. change (fun v => (dynamic_value v, value32 v)) with part32 in *.
    rewrite forallb_forall in T. rewrite Forall_forall in H.
    destruct (@toks32 vs) as (ms & E & M); [apply Forall_forall; auto | exact L |].
    rewrite E. cbn [bind]. rewrite <- (dynamic_values vs).
    destruct (existsb dynamic_value vs) eqn:D.
    + eexists. split; [reflexivity|]. apply prefixed_seq32; assumption.
    + eexists. split; [reflexivity|]. apply raw_tuple32; [assumption| |assumption].
      apply Forall_map. apply existsb_Forall in D. exact D.
Qed.
Lemma encode32 vs : forallb wf_token vs = true -> fine p (len (encoding32 vs)) -> encode p vs = Ok (encoding32 vs).
Proof.
  intros T L. unfold encoding32 in *. cbn [value32] in *. change (fun v => (dynamic_value v, value32 v)) with part32 in *.
  destruct (@toks32 vs) as (ms & E & M).
  - rewrite Forall_forall. rewrite forallb_forall in T. intros. apply tok32_all; auto.
  - assumption.
  - unfold encode. rewrite E. cbn [bind].
    destruct (head_tail32 M L) as (ws & E' & C & W). rewrite E'. cbn [bind]. now rewrite C.
Qed.
End Tok.

(** ** What a checked build returns is below 4 GiB *)
Lemma checked_debug v n : checked Debug two32 v = Ok n -> n = v /\ v < two32.
Proof. unfold checked. destruct (v <? two32) eqn:E; [|discriminate]. intros [= <-]. now apply N.ltb_lt in E. Qed.
Lemma foldM_cons A S (f : S -> A -> res S) x l s : foldM f (x :: l) s = do s' <- f s x; foldM f l s'.
Proof. reflexivity. Qed.
(** Each part counts as it should, provided it can be counted at all. *)
Definition counted (c : bool * list byte) (m : Mediate) : Prop :=
  forall h t, head_len Debug m = Ok h -> tail_len Debug m = Ok t -> h = head_size c /\ t = len (tails [c]).
Lemma head_debug cs ms acc n : Forall2 counted cs ms -> Forall (fun m => exists t, tail_len Debug m = Ok t) ms ->
  acc < two32 ->
  foldM (fun acc m => do h <- head_len Debug m; u32_add Debug acc h) ms acc = Ok n -> n = acc + heads_size cs /\ n < two32.
Proof.
  intros H. revert acc. induction H as [|c m cs ms M H IH]; intros acc F La E.
  - cbn in E. injection E as <-. cbn [heads_size tails]. rewrite ?len_nil. split; [lia|exact La].
  - rewrite foldM_cons in E. inversion F as [|? ? (t & Et) F']; subst.
    apply bind_ok in E as (a & Ea & E). apply bind_ok in Ea as (h & Eh & Ea).
    apply checked_debug in Ea as [-> La']. destruct (M _ _ Eh Et) as [-> _].
    destruct (IH _ F' La' E) as [-> B]. cbn [heads_size]. split; [lia|exact B].
Qed.
Lemma tails_cons c cs : len (tails (c :: cs)) = len (tails [c]) + len (tails cs).
Proof. destruct c as [[] e]; cbn [tails]; rewrite ?app_nil_r, ?len_app, ?len_nil; reflexivity. Qed.
Lemma sum_debug cs ms acc n : Forall2 counted cs ms -> acc < two32 ->
  foldM (fun acc m => do h <- head_len Debug m;
                      do a <- u32_add Debug acc h;
                      do t <- tail_len Debug m;
                      u32_add Debug a t) ms acc = Ok n -> n = acc + heads_size cs + len (tails cs) /\ n < two32.
Proof.
  intros H. revert acc. induction H as [|c m cs ms M H IH]; intros acc La E.
  - cbn in E. injection E as <-. cbn [heads_size tails]. rewrite ?len_nil. split; [lia|exact La].
  - rewrite foldM_cons in E.
    apply bind_ok in E as (a & Ea & E). apply bind_ok in Ea as (h & Eh & Ea).
    apply bind_ok in Ea as (b & Eb & Ea). apply bind_ok in Ea as (t & Et & Ea).
    apply checked_debug in Ea as [-> La']. apply checked_debug in Eb as [-> _]. destruct (M _ _ Eh Et) as [-> ->].
    destruct (IH _ La' E) as [-> B]. rewrite (tails_cons c cs). change (heads_size (c :: cs)) with (head_size c + heads_size cs). split; [lia|exact B].
Qed.
Lemma heads_debug cs ms acc off r n : Forall2 counted cs ms -> Forall (fun m => exists h, head_len Debug m = Ok h) ms -> off < two32 ->
  foldM (fun '(acc, offset) m =>
           do t <- tail_len Debug m;
           do o <- u32_add Debug offset t;
           Ok (acc ++ head m offset, o)) ms (acc, off) = Ok (r, n) -> n = off + len (tails cs) /\ n < two32.
Proof.
  intros H. revert acc off. induction H as [|c m cs ms M H IH]; intros acc off F La E.
  - cbn in E. injection E as <- <-. cbn [tails]. rewrite len_nil. split; [lia|exact La].
  - rewrite foldM_cons in E. inversion F as [|? ? (h & Eh) F']; subst.
    apply bind_ok in E as ([a o] & Ea & E). apply bind_ok in Ea as (t & Et & Ea). apply bind_ok in Ea as (o' & Eo & Ea).
    injection Ea as <- <-. apply checked_debug in Eo as [-> La']. destruct (M _ _ Eh Et) as [_ ->].
    destruct (IH _ _ F' La' E) as [-> B]. rewrite (tails_cons c cs). split; [lia|exact B].
Qed.
Lemma fold_head_ok ms acc n :
  foldM (fun acc m => do h <- head_len Debug m; u32_add Debug acc h) ms acc = Ok n -> Forall (fun m => exists h, head_len Debug m = Ok h) ms.
Proof.
  revert acc. induction ms as [|m ms IH]; intros acc E; [constructor|]. rewrite foldM_cons in E.
  apply bind_ok in E as (a & Ea & E). apply bind_ok in Ea as (h & Eh & _). constructor; eauto.
Qed.
Lemma fold_tail_ok ms s n :
  foldM (fun '(acc, offset) m =>
           do t <- tail_len Debug m;
           do o <- u32_add Debug offset t;
           Ok (acc ++ head m offset, o)) ms s = Ok n -> Forall (fun m => exists t, tail_len Debug m = Ok t) ms.
Proof.
  revert s. induction ms as [|m ms IH]; intros [acc off] E; [constructor|]. rewrite foldM_cons in E.
  apply bind_ok in E as (a & Ea & E). apply bind_ok in Ea as (h & Eh & _). constructor; eauto.
Qed.
Lemma head_tail_debug cs ms ws : Forall2 counted cs ms -> encode_head_tail Debug ms = Ok ws -> len (seq32 cs) < two32.
Proof.
  intros H E. unfold encode_head_tail, encode_head_tail_with in E.
  apply bind_ok in E as (hl & Eh & E). apply bind_ok in E as ([hs l] & El & E).
  destruct (@head_debug _ _ 0 _ H (fold_tail_ok _ _ El) eq_refl Eh) as [-> B].
  destruct (@heads_debug _ _ _ _ _ _ H (fold_head_ok _ _ Eh) B El) as [-> B']. rewrite seq32_len. exact B'.
Qed.

(** What [encode_token] gives in a checked build. *)
Definition sized (v : Token) (m : Mediate) : Prop :=
  (forall h t, head_len Debug m = Ok h -> tail_len Debug m = Ok t -> len (value32 v) < two32).
Lemma sized_counted v m : wf_token v = true -> encode_token Debug v = Ok m -> sized v m -> counted (part32 v) m.
Proof.
  intros T E Sz h t Eh Et. pose proof (Sz _ _ Eh Et) as L.
  destruct (@tok32_all Debug v T (or_intror L)) as (m' & E' & M). rewrite E in E'. injection E' as <-.
  unfold part32 in *. destruct (dynamic_value v); destruct M as (M1 & _ & M2 & _); rewrite M1 in Eh; rewrite M2 in Et;
    injection Eh as <-; injection Et as <-; cbn [head_size tails]; rewrite ?app_nil_r, ?N.mod_small by exact L; auto.
Qed.
Lemma all_counted vs ms : mapM (encode_token Debug) vs = Ok ms -> forallb wf_token vs = true ->
  Forall (fun v => forall m, encode_token Debug v = Ok m -> sized v m) vs -> Forall2 counted (map part32 vs) ms.
Proof.
  revert ms. induction vs as [|v vs IH]; intros ms E T H.
  - injection E as <-. constructor.
  - cbn [mapM] in E. apply bind_ok in E as (m & Em & E). apply bind_ok in E as (ms' & Es & E). injection E as <-.
    cbn [forallb] in T. apply andb_true_iff in T as [T1 T2]. inversion H; subst. cbn [map]. constructor; [|auto].
    apply sized_counted; auto.
Qed.
Lemma words_debug ws n : Forall EncoderFacts.word32 ws -> len (concat ws) < 2 ^ 37 -> u32_mul Debug 32 (as_u32 (len ws)) = Ok n ->
  len (concat ws) < two32.
Proof.
  intros W L E. rewrite (concat_len W) in *. unfold u32_mul in E. rewrite as_u32_small in E.
  - apply checked_debug in E as [_ E]. exact E.
  - change (2 ^ 37) with (32 * two32) in L. lia.
Qed.
Lemma all_sized vs : Forall (fun v => wf_token v = true -> len (value32 v) < 2 ^ 37 -> forall m, encode_token Debug v = Ok m -> sized v m) vs ->
  forallb wf_token vs = true -> len (seq32 (map part32 vs)) < 2 ^ 37 -> Forall (fun v => forall m, encode_token Debug v = Ok m -> sized v m) vs.
Proof.
  intros H T L. pose proof (parts_bound (map part32 vs)) as B. rewrite Forall_map in B. rewrite forallb_forall in T.
  rewrite Forall_forall in *. intros v Hin. apply H; auto. specialize (B _ Hin). cbn [part32 snd] in B. eapply N.le_lt_trans; eauto.
Qed.
Lemma static_tails cs : Forall (fun c => fst c = false) cs -> tails cs = [].
Proof. intros H. apply (static_heads32 0 H). Qed.
Lemma sized_all v : wf_token v = true -> len (value32 v) < 2 ^ 37 -> forall m, encode_token Debug v = Ok m -> sized v m.
Proof.
  induction v using Token_ind'; intros T L mm E hh tt Eh Et; cbn [encode_token value32] in *.
  - cbn [wf_token] in T. rewrite len_app, len_zeros. clear -T. apply N.eqb_eq in T. rewrite T. reflexivity.
  - apply bind_ok in E as (ws & Ew & E). injection E as <-. destruct (pad_fixed_bytes_spec b) as (ws' & E' & C & W).
    rewrite Ew in E'. injection E' as <-. rewrite <- C in *. eapply words_debug; eauto.
  - apply bind_ok in E as (ws & Ew & E). injection E as <-. destruct (pad_bytes32 b) as (ws' & E' & C & W).
    rewrite Ew in E'. injection E' as <-. rewrite <- C in *. eapply words_debug; eauto.
    cbn [tail_len] in Et. unfold u32_mul in *. rewrite N.mul_comm. exact Et.
  - now rewrite len_word.
  - now rewrite len_word.
  - now rewrite len_word.
  - apply bind_ok in E as (ws & Ew & E). injection E as <-. destruct (pad_bytes32 (utf8 s)) as (ws' & E' & C & W).
    rewrite Ew in E'. injection E' as <-. rewrite <- C in *. eapply words_debug; eauto.
    cbn [tail_len] in Et. unfold u32_mul in *. rewrite N.mul_comm. exact Et.
  - cbn [wf_token token_is_dynamic] in *. change (fun v => (dynamic_value v, value32 v)) with part32 in *.
    apply bind_ok in E as (ms & Em & E). pose proof (all_counted Em T (all_sized H T L)) as Cn.
    destruct (existsb token_is_dynamic vs).
    + injection E as <-. cbn [tail_len] in Et. apply (@sum_debug _ _ 0 _ Cn eq_refl) in Et as [-> B]. rewrite seq32_len. exact B.
    + apply bind_ok in E as (ws & Ew & E). exact (head_tail_debug Cn Ew).
  - cbn [wf_token] in *. change (fun v => (dynamic_value v, value32 v)) with part32 in *.
    apply bind_ok in E as (ms & Em & E). injection E as <-. rewrite len_app, len_word32 in *.
    assert (L' : len (seq32 (map part32 vs)) < 2 ^ 37) by (eapply N.le_lt_trans; [|exact L]; apply N.le_add_l).
    pose proof (all_counted Em T (all_sized H T L')) as Cn.
    cbn [tail_len] in Et. apply (@sum_debug _ _ 32 _ Cn eq_refl) in Et as [-> B]. rewrite seq32_len, N.add_assoc. exact B.
  - cbn [wf_token token_is_dynamic] in *. change (fun v => (dynamic_value v, value32 v)) with part32 in *.
    apply bind_ok in E as (ms & Em & E). pose proof (all_counted Em T (all_sized H T L)) as Cn.
    rewrite <- dynamic_values in E. destruct (existsb dynamic_value vs) eqn:D.
    + injection E as <-. cbn [tail_len] in Et. apply (@sum_debug _ _ 0 _ Cn eq_refl) in Et as [-> B]. rewrite seq32_len. exact B.
    + injection E as <-. cbn [head_len] in Eh.
      assert (St : Forall (fun c => fst c = false) (map part32 vs)) by (apply Forall_map; apply existsb_Forall in D; exact D).
      assert (Ft : Forall (fun m => exists t, tail_len Debug m = Ok t) ms).
      { apply existsb_Forall in D. clear - Em D. revert ms Em. induction D as [|v vs Dv D IH]; intros ms Em.
        - injection Em as <-. constructor.
        - cbn [mapM] in Em. apply bind_ok in Em as (m & E & Em). apply bind_ok in Em as (ms' & Es & Em). injection Em as <-.
          constructor; [|auto]. rewrite dynamic_value_eq in Dv. destruct v; cbn [encode_token] in E; try discriminate Dv.
          + apply bind_ok in E as (? & _ & E). injection E as <-. now exists 0.
          + apply bind_ok in E as (? & _ & E). injection E as <-. now exists 0.
          + injection E as <-. now exists 0.
          + injection E as <-. now exists 0.
          + injection E as <-. now exists 0.
          + apply bind_ok in E as (? & _ & E). rewrite Dv in E. apply bind_ok in E as (? & _ & E). injection E as <-. now exists 0.
          + apply bind_ok in E as (? & _ & E). rewrite Dv in E. injection E as <-. now exists 0. }
      destruct (@head_debug _ _ 0 _ Cn Ft eq_refl Eh) as [-> B]. rewrite seq32_len, (static_tails St), len_nil, N.add_0_r. exact B.
Qed.
Lemma encode_debug vs data : forallb wf_token vs = true -> len (encoding32 vs) < 2 ^ 37 -> encode Debug vs = Ok data ->
  len (encoding32 vs) < 2 ^ 32.
Proof.
  unfold encoding32. cbn [value32]. change (fun v => (dynamic_value v, value32 v)) with part32.
  intros T L E. unfold encode in E. apply bind_ok in E as (ms & Em & E). apply bind_ok in E as (ws & Ew & _).
  refine (head_tail_debug (all_counted Em T (@all_sized vs _ T L)) Ew).
  apply Forall_forall. intros v _. apply sized_all.
Qed.

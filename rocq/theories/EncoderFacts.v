(** * The encoder computes the Solidity ABI encoding *)
From Verif Require Import Base Types Encoder AbiSpec BaseFacts.
From Coq Require Import ZifyBool ZifyNat ZifyN.
Set Implicit Arguments.
Local Open Scope N_scope.
Ltac Zify.zify_post_hook ::= Z.div_mod_to_equations.

Lemma skipn_add A a b (l : list A) : skipn a (skipn b l) = skipn (b + a) l.
Proof.
  revert l; induction b as [|b IH]; intros l; [reflexivity|].
  destruct l; cbn; [apply skipn_nil|apply IH].
Qed.
Definition word32 (w : Word) : Prop := len w = 32.

Lemma pad_u32_word n : n < two32 -> pad_u32 n = word n.
Proof.
  intros. unfold pad_u32, word. change 32%nat with (28 + 4)%nat.
  rewrite be_bytes_small; [reflexivity|]. exact H.
Qed.
Lemma pad_u32_len n : word32 (pad_u32 n).
Proof. unfold word32, pad_u32. rewrite len_app, len_zeros, len_be_bytes. reflexivity. Qed.
Lemma len_word n : len (word n) = 32.
Proof. apply len_be_bytes. Qed.

Lemma concat_len ws : Forall word32 ws -> len (concat ws) = 32 * len ws.
Proof.
  induction 1; [reflexivity|]. cbn [concat]. rewrite len_app, len_cons, IHForall, H. lia.
Qed.

(** ** pad_fixed_bytes *)
Lemma len_padding n : len (padding n) = (32 - n mod 32) mod 32.
Proof. unfold padding. rewrite len_zeros. lia. Qed.

Lemma pad_fixed_bytes_spec b :
  exists ws, pad_fixed_bytes b = Ok ws /\ concat ws = b ++ padding (len b) /\ Forall word32 ws.
Proof.
  destruct b as [|b0 br].
  { exists []. split; [reflexivity|]. split; [reflexivity|constructor]. }
  remember (b0 :: br) as b eqn:Eb.
  assert (Hn : 0 < len b) by (subst; rewrite len_cons; lia). clear Eb b0 br.
  unfold pad_fixed_bytes. set (l := (len b + 31) / 32).
  match goal with |- context [mapM ?f _] => set (F := f) end.
  assert (G : forall k i, (0 < k)%nat -> (i + k)%nat = N.to_nat l ->
     exists ws, mapM F (seq i k) = Ok ws /\
       concat ws = skipn (32 * i) b ++ padding (len b) /\ Forall word32 ws).
  { induction k as [|k IH]; intros i Hk Hik; [lia|]. cbn [seq mapM].
    destruct (Nat.eq_dec k 0) as [->|Hk0].
    - cbn [seq mapM]. unfold F at 1. cbn beta zeta.
      replace (N.of_nat i =? l - 1) with true by lia.
      set (tc := match len b mod 32 with 0 => 32 | N.pos p => N.pos p end).
      assert (Etc : 32 * N.of_nat i + tc = len b /\ tc <= 32 /\ 0 < tc /\
                    N.to_nat (32 - tc) = N.to_nat ((32 - len b mod 32) mod 32)).
      { subst tc l. destruct (len b mod 32) eqn:E; lia. }
      destruct Etc as (E1 & E2 & E3 & E4).
      destruct (@slice_some _ b (32 * N.of_nat i) (32 * N.of_nat i + tc)) as (m & Em & Lm); try lia.
      rewrite Em. cbn [bind]. unfold copy_from_slice. rewrite Lm.
      replace (_ =? tc) with true by lia. cbn [bind].
      eexists. split; [reflexivity|].
      apply slice_eq in Em.
      split.
      + cbn [concat]. rewrite app_nil_r. f_equal.
        * rewrite <- Em.
          replace (N.to_nat (32 * N.of_nat i)) with (32 * i)%nat by lia.
          apply firstn_all2. rewrite skipn_length. unfold len in *. lia.
        * unfold padding. now rewrite E4.
      + constructor; [|constructor]. unfold word32. rewrite len_app, len_zeros. lia.
    - destruct (IH (S i)) as (ws & E & C & W); [lia|lia|]. rewrite E.
      unfold F at 1. cbn beta zeta.
      replace (N.of_nat i =? l - 1) with false by lia.
      destruct (@slice_some _ b (32 * N.of_nat i) (32 * N.of_nat i + 32)) as (m & Em & Lm); try lia.
      rewrite Em. cbn [bind]. unfold copy_from_slice. rewrite Lm.
      replace (_ =? 32) with true by lia. cbn [bind].
      eexists. split; [reflexivity|].
      apply slice_eq in Em.
      split.
      + cbn [concat]. rewrite C. change (N.to_nat (32 - 32)) with 0%nat. cbn [zeros repeat].
        rewrite app_nil_r, app_assoc. f_equal.
        rewrite <- Em. replace (N.to_nat (32 * N.of_nat i)) with (32 * i)%nat by lia.
        replace (N.to_nat _) with 32%nat by lia.
        replace (32 * S i)%nat with (32 * i + 32)%nat by lia.
        rewrite <- (firstn_skipn 32 (skipn (32 * i) b)) at 2. f_equal.
        symmetry. apply skipn_add.
      + constructor; [|assumption]. unfold word32. rewrite len_app, len_zeros. lia. }
  destruct (G (N.to_nat l) 0%nat) as (ws & E & C & W).
  - subst l. lia.
  - lia.
  - rewrite Nat.mul_0_r in C. cbn [skipn] in C. eauto.
Qed.

Lemma pad_bytes_spec b : len b < two32 ->
  exists ws, pad_bytes b = Ok ws /\ concat ws = word (len b) ++ b ++ padding (len b) /\ Forall word32 ws.
Proof.
  intros H. destruct (pad_fixed_bytes_spec b) as (ws & E & C & W).
  unfold pad_bytes. rewrite E. cbn [bind]. eexists; split; [reflexivity|]. split.
  - cbn [concat]. now rewrite as_u32_small, pad_u32_word, C.
  - constructor; [apply pad_u32_len | assumption].
Qed.

(** ** Mediates *)
Definition med_ok (p : profile) (c : bool * list byte) (m : Mediate) : Prop :=
  let '(dyn, e) := c in
  if dyn then
    head_len p m = Ok 32 /\ (forall o, head m o = [pad_u32 o]) /\
    tail_len p m = Ok (len e) /\
    exists ws, tail p m = Ok ws /\ concat ws = e /\ Forall word32 ws
  else
    head_len p m = Ok (len e) /\
    (forall o, concat (head m o) = e /\ Forall word32 (head m o)) /\
    tail_len p m = Ok 0 /\ tail p m = Ok [].

Lemma heads_len n cs : len (heads n cs) = heads_size cs.
Proof.
  revert n; induction cs as [|[[] e] cs IH]; intros n; cbn [heads heads_size head_size]; [reflexivity| |].
  - rewrite len_app, IH, len_word. reflexivity.
  - rewrite len_app, IH. reflexivity.
Qed.
Lemma enc_seq_len cs : len (enc_seq cs) = heads_size cs + len (tails cs).
Proof. unfold enc_seq. now rewrite len_app, heads_len. Qed.

Section Seq.
Context (p : profile).

Lemma fold_head_len cs ms acc :
  Forall2 (med_ok p) cs ms -> acc + heads_size cs < two32 ->
  foldM (fun acc m => do h <- head_len p m; u32_add p acc h) ms acc = Ok (acc + heads_size cs).
Proof.
  intros H. revert acc. induction H as [|[d e] m cs ms M H IH]; intros acc Hb.
  - cbn. f_equal. lia.
  - cbn [foldM heads_size] in *.
    assert (E : head_len p m = Ok (head_size (d, e))).
    { destruct d; cbn in M; destruct M as (M & _); exact M. }
    rewrite E. cbn [bind]. rewrite u32_add_small by lia. cbn [bind].
    rewrite IH by lia. f_equal. lia.
Qed.

Lemma fold_sum_len cs ms acc :
  Forall2 (med_ok p) cs ms -> acc + heads_size cs + len (tails cs) < two32 ->
  foldM (fun acc m => do h <- head_len p m;
                      do a <- u32_add p acc h;
                      do t <- tail_len p m;
                      u32_add p a t) ms acc = Ok (acc + heads_size cs + len (tails cs)).
Proof.
  intros H. revert acc. induction H as [|[d e] m cs ms M H IH]; intros acc Hb.
  - cbn. f_equal. lia.
  - cbn [foldM heads_size tails] in *.
    destruct d; cbn in M; destruct M as (M1 & _ & M2 & _); rewrite M1, M2; cbn [bind head_size] in *;
      rewrite ?len_app in *.
    + rewrite u32_add_small by lia. cbn [bind]. rewrite u32_add_small by lia. cbn [bind].
      rewrite IH by lia. f_equal. lia.
    + rewrite u32_add_small by lia. cbn [bind]. rewrite u32_add_small by lia. cbn [bind].
      rewrite IH by lia. f_equal. lia.
Qed.

Lemma fold_heads cs ms off acc :
  Forall2 (med_ok p) cs ms -> off + len (tails cs) < two32 ->
  exists hs, foldM (fun '(acc, offset) m =>
                            do t <- tail_len p m;
                            do o <- u32_add p offset t;
                            Ok (acc ++ head m offset, o)) ms (acc, off)
             = Ok (acc ++ hs, off + len (tails cs)) /\
             concat hs = heads off cs /\ Forall word32 hs.
Proof.
  intros H. revert off acc. induction H as [|[d e] m cs ms M H IH]; intros off acc Hb.
  - exists []. cbn. rewrite app_nil_r. repeat split; [|constructor]. do 2 f_equal. lia.
  - cbn [foldM tails heads] in *.
    destruct d; cbn in M; destruct M as (_ & Mh & M2 & _); rewrite M2; cbn [bind];
      rewrite ?len_app in *; rewrite u32_add_small by lia; cbn [bind].
    + destruct (IH (off + len e) (acc ++ head m off)) as (hs & E & C & W); [lia|].
      exists (pad_u32 off :: hs). rewrite E. split; [|split].
      * rewrite Mh, <- app_assoc. cbn [app]. do 2 f_equal. lia.
      * cbn [concat]. now rewrite C, pad_u32_word by lia.
      * constructor; [apply pad_u32_len | assumption].
    + destruct (IH (off + 0) (acc ++ head m off)) as (hs & E & C & W); [lia|].
      exists (head m off ++ hs). rewrite E. split; [|split].
      * rewrite <- app_assoc. do 2 f_equal. lia.
      * rewrite concat_app, C. rewrite N.add_0_r. now rewrite (proj1 (Mh off)).
      * apply Forall_app. split; [apply Mh | assumption].
Qed.

Lemma fold_tails cs ms acc :
  Forall2 (med_ok p) cs ms ->
  exists ws, foldM (fun acc m => do t <- tail p m; Ok (acc ++ t)) ms acc = Ok (acc ++ ws) /\
             concat ws = tails cs /\ Forall word32 ws.
Proof.
  intros H. revert acc. induction H as [|[d e] m cs ms M H IH]; intros acc.
  - exists []. cbn. rewrite app_nil_r. repeat split. constructor.
  - cbn [foldM tails].
    destruct d; cbn in M.
    + destruct M as (_ & _ & _ & ws & E & C & W). rewrite E. cbn [bind].
      destruct (IH (acc ++ ws)) as (ws' & E' & C' & W').
      exists (ws ++ ws'). rewrite E', <- app_assoc. repeat split.
      * rewrite concat_app. congruence.
      * apply Forall_app. now split.
    + destruct M as (_ & _ & _ & E). rewrite E. cbn [bind]. rewrite app_nil_r. apply IH.
Qed.

Lemma encode_head_tail_spec cs ms :
  Forall2 (med_ok p) cs ms -> len (enc_seq cs) < two32 ->
  exists ws, encode_head_tail p ms = Ok ws /\ concat ws = enc_seq cs /\ Forall word32 ws.
Proof.
  intros H Hb. rewrite enc_seq_len in Hb. unfold encode_head_tail, encode_head_tail_with.
  rewrite (fold_head_len _ H) by lia. cbn [bind].
  destruct (@fold_heads cs ms (0 + heads_size cs) [] H) as (hs & E & C & W); [lia|].
  rewrite E. cbn [bind]. unfold u32_sub. replace (_ <=? _) with true by lia. cbn [bind].
  destruct (fold_tails [] H) as (ts & E' & C' & W'). rewrite E'. cbn [bind].
  eexists. split; [reflexivity|]. split.
  - cbn [app]. rewrite concat_app, C, C'. reflexivity.
  - cbn [app]. apply Forall_app. now split.
Qed.
End Seq.

(** ** Tokens *)
Lemma tuple_enc ts vs :
  abi_enc (PTuple ts) (TTuple vs) = enc_seq (map (fun '(t, v) => (dynamic t, abi_enc t v)) (combine ts vs)).
Proof.
  cbn [abi_enc]. f_equal. revert vs; induction ts as [|t ts IH]; intros [|v vs]; cbn; try reflexivity.
  f_equal. apply IH.
Qed.
Lemma tuple_type ts vs :
  has_type (TTuple vs) (PTuple ts) = true <-> Forall2 (fun v t => has_type v t = true) vs ts.
Proof.
  cbn [has_type]. revert vs; induction ts as [|t ts IH]; intros [|v vs];
    try (split; [discriminate | intros H; inversion H]).
  - split; [constructor | reflexivity].
  - rewrite andb_true_iff, IH. split.
    + intros [H1 H2]; constructor; assumption.
    + intros H; inversion H; subst; auto.
Qed.
Lemma Forall2_combine A B (P : A -> B -> Prop) l l' :
  Forall2 P l l' -> Forall (fun '(x, y) => P x y) (combine l l').
Proof. induction 1; cbn; constructor; auto. Qed.

Lemma dynamic_eq t : ptype_is_dynamic t = dynamic t.
Proof.
  induction t using ParamType_ind'; cbn; auto.
Qed.

Lemma existsb_Forall A (f : A -> bool) l : existsb f l = false <-> Forall (fun x => f x = false) l.
Proof.
  induction l; cbn; [split; [constructor|reflexivity]|].
  rewrite orb_false_iff, IHl. split; [intros []; constructor; auto | intros H; inversion H; auto].
Qed.

Lemma token_dynamic t v : solidity_type t = true -> has_type v t = true ->
  token_is_dynamic v = dynamic t.
Proof.
  revert v. induction t using ParamType_ind'; intros v S T; destruct v; try discriminate; try reflexivity.
  - cbn [has_type solidity_type token_is_dynamic dynamic] in *.
    apply andb_true_iff in T as [T1 T2], S as [S1 S2].
    destruct (dynamic t) eqn:D.
    + destruct vs as [|v vs]; [rewrite len_nil in T1; cbn [negb] in *; lia|]. cbn [forallb existsb] in *.
      apply andb_true_iff in T2 as [T2 T3]. rewrite IHt by assumption. reflexivity.
    + apply existsb_Forall. rewrite forallb_forall in T2. apply Forall_forall. intros v Hv.
      apply IHt; auto.
  - apply tuple_type in T. cbn [solidity_type token_is_dynamic dynamic] in *.
    revert H S. induction T as [|v t vs ts T1 T2 IH]; intros H S; [reflexivity|].
    cbn in *. apply andb_true_iff in S as [S1 S2]. inversion H; subst.
    rewrite H2 by assumption. now rewrite IH by assumption.
Qed.

Lemma Forall2_map_l A B C (P : B -> C -> Prop) (f : A -> B) l l' :
  Forall2 (fun x y => P (f x) y) l l' -> Forall2 P (map f l) l'.
Proof. induction 1; cbn; constructor; auto. Qed.

Lemma heads_tails_bound cs : Forall (fun c => len (snd c) <= len (enc_seq cs)) cs.
Proof.
  rewrite enc_seq_len. apply Forall_forall. intros [d e] Hin. cbn [snd].
  induction cs as [|[d' e'] cs IH]; [destruct Hin|].
  destruct Hin as [E|Hin].
  - injection E as -> ->. destruct d; cbn [heads_size head_size tails]; rewrite ?len_app; lia.
  - specialize (IH Hin). destruct d'; cbn [heads_size head_size tails]; rewrite ?len_app; lia.
Qed.


(** ** The encoding of a value without its type (each token carries its shape) *)
Fixpoint tok_enc (v : Token) : list byte :=
  match v with
  | TAddress a => zeros 12 ++ a
  | TInt n | TUint n => word n
  | TBool b => word (if b then 1 else 0)
  | TFixedBytes b => b ++ padding (len b)
  | TBytes b => word (len b) ++ b ++ padding (len b)
  | TString s => word (len (utf8 s)) ++ utf8 s ++ padding (len (utf8 s))
  | TArray vs => word (len vs) ++ enc_seq (map (fun v => (token_is_dynamic v, tok_enc v)) vs)
  | TFixedArray vs | TTuple vs => enc_seq (map (fun v => (token_is_dynamic v, tok_enc v)) vs)
  end.
Definition part (v : Token) : bool * list byte := (token_is_dynamic v, tok_enc v).

Lemma abi_tok_enc t v : solidity_type t = true -> has_type v t = true -> abi_enc t v = tok_enc v.
Proof.
  revert v. induction t using ParamType_ind'; intros v S T; destruct v; try discriminate; try reflexivity.
  - cbn [has_type solidity_type abi_enc tok_enc] in *. do 2 f_equal. apply map_ext_in. intros v Hv.
    rewrite forallb_forall in T. rewrite IHt by auto. now rewrite (token_dynamic t v) by auto.
  - cbn [has_type solidity_type abi_enc tok_enc] in *.
    apply andb_true_iff in S as [S1 S2], T as [T1 T2]. f_equal. apply map_ext_in. intros v Hv.
    rewrite forallb_forall in T2. rewrite IHt by auto. now rewrite (token_dynamic t v) by auto.
  - apply tuple_type in T. rewrite tuple_enc. cbn [tok_enc]. f_equal. cbn [solidity_type] in S.
    revert H S. induction T as [|v t vs ts T1 T2 IH]; intros H S; [reflexivity|].
    cbn [combine map forallb] in *. apply andb_true_iff in S as [S1 S2]. inversion H; subst.
    rewrite H2 by assumption. rewrite IH by assumption. now rewrite (token_dynamic t v).
Qed.
Lemma abi_encode_parts ts vs : forallb solidity_type ts = true -> have_types vs ts = true ->
  abi_encode ts vs = enc_seq (map part vs).
Proof. intros. unfold abi_encode. now rewrite abi_tok_enc. Qed.

Section Tok.
Context (p : profile).

Definition tok_ok (v : Token) : Prop := exists m, encode_token p v = Ok m /\ med_ok p (part v) m.

Lemma toks_ok vs : Forall (fun v => len (tok_enc v) < two32 -> tok_ok v) vs ->
  len (enc_seq (map part vs)) < two32 ->
  exists ms, mapM (encode_token p) vs = Ok ms /\ Forall2 (med_ok p) (map part vs) ms.
Proof.
  intros H Hb. pose proof (heads_tails_bound (map part vs)) as B.
  rewrite Forall_map in B. rewrite Forall_forall in B, H.
  assert (G : Forall tok_ok vs).
  { apply Forall_forall. intros v Hin. apply (H _ Hin). specialize (B _ Hin). cbn [part snd] in B. lia. }
  clear -G. induction G as [|v l (m & E & M) G (ms & Es & Ms)]; cbn [mapM map].
  - eexists; split; [reflexivity|constructor].
  - rewrite E, Es. cbn [bind]. eexists; split; [reflexivity|]. now constructor.
Qed.

Lemma static_heads cs o : Forall (fun c => fst c = false) cs ->
  heads o cs = concat (map snd cs) /\ tails cs = [].
Proof.
  revert o; induction cs as [|[d e] cs IH]; intros o H; [now split|].
  inversion H; subst. cbn in *; subst. destruct (IH o H3) as [E1 E2]. now rewrite E1.
Qed.

Lemma med_raw ws : Forall word32 ws -> len (concat ws) < two32 -> med_ok p (false, concat ws) (Raw ws).
Proof.
  intros W Hb. cbn. pose proof (concat_len W) as L. rewrite L in Hb.
  rewrite as_u32_small by lia. rewrite u32_mul_small by lia. rewrite L. auto.
Qed.
Lemma med_raw1 w : word32 w -> med_ok p (false, w) (Raw [w]).
Proof.
  intros W. pose proof (@med_raw [w]) as G. cbn [concat] in G. rewrite app_nil_r in G. apply G.
  - now repeat constructor.
  - rewrite W. reflexivity.
Qed.
Lemma med_prefixed ws : Forall word32 ws -> len (concat ws) < two32 -> med_ok p (true, concat ws) (Prefixed ws).
Proof.
  intros W Hb. cbn. pose proof (concat_len W) as L. rewrite L in Hb.
  rewrite as_u32_small by lia. rewrite u32_mul_small by lia. rewrite L.
  repeat split. - f_equal. lia. - exists ws. auto.
Qed.

Lemma med_raw_tuple cs ms : Forall2 (med_ok p) cs ms -> Forall (fun c => fst c = false) cs ->
  len (enc_seq cs) < two32 -> med_ok p (false, enc_seq cs) (RawTuple ms).
Proof.
  intros H S Hb. cbn [med_ok head_len tail_len tail].
  pose proof (static_heads (heads_size cs) S) as [E1 E2].
  pose proof (enc_seq_len cs) as L. rewrite E2, len_nil in L.
  rewrite (fold_head_len _ H) by lia. split; [f_equal; lia|]. split; [|split; reflexivity].
  intros o. cbn [head]. unfold enc_seq. rewrite E1, E2, app_nil_r. clear -H S.
  induction H as [|[d e] m cs ms M H IH]; cbn; [split; [reflexivity|constructor]|].
  inversion S; subst. cbn in *; subst. destruct M as (_ & M & _). destruct (M 0) as [M1 M2].
  destruct (IH H3) as [I1 I2]. rewrite concat_app, M1, I1. split; [reflexivity|].
  apply Forall_app; auto.
Qed.

Lemma med_prefixed_seq cs ms : Forall2 (med_ok p) cs ms -> len (enc_seq cs) < two32 ->
  med_ok p (true, enc_seq cs) (PrefixedArray ms) /\ med_ok p (true, enc_seq cs) (PrefixedTuple ms).
Proof.
  intros H Hb. destruct (encode_head_tail_spec H Hb) as (ws & E & C & W).
  rewrite enc_seq_len in Hb.
  cbn [med_ok head_len tail_len head tail]. rewrite (fold_sum_len _ H) by lia. rewrite enc_seq_len.
  unfold encode_head_tail in E. rewrite E. cbn. split; repeat split; eauto.
Qed.
Lemma med_prefixed_len cs ms : Forall2 (med_ok p) cs ms -> len cs < two32 ->
  len (word (len cs) ++ enc_seq cs) < two32 ->
  med_ok p (true, word (len cs) ++ enc_seq cs) (PrefixedArrayWithLength ms).
Proof.
  intros H Hl Hb. rewrite len_app, len_word in Hb.
  destruct (encode_head_tail_spec H) as (ws & E & C & W); [lia|].
  rewrite enc_seq_len in Hb.
  cbn [med_ok head_len tail_len head tail]. rewrite (fold_sum_len _ H) by lia.
  rewrite len_app, len_word, enc_seq_len.
  unfold encode_head_tail in E. rewrite E. cbn [bind].
  split; [reflexivity|]. split; [reflexivity|]. split; [f_equal; lia|].
  eexists. split; [reflexivity|].
  assert (El : len ms = len cs) by (unfold len; now rewrite (Forall2_length H)).
  rewrite El, as_u32_small, pad_u32_word by assumption. split.
  - cbn [concat]. now rewrite C.
  - constructor; [apply len_word | assumption].
Qed.


Lemma toks_ok_IH vs :
  Forall (fun v => wf_token v = true -> short_arrays v = true -> len (tok_enc v) < two32 -> tok_ok v) vs ->
  forallb wf_token vs = true -> forallb short_arrays vs = true ->
  Forall (fun v => len (tok_enc v) < two32 -> tok_ok v) vs.
Proof. rewrite !forallb_forall, !Forall_forall. auto. Qed.

Lemma tok_ok_all v : wf_token v = true -> short_arrays v = true ->
  len (tok_enc v) < two32 -> tok_ok v.
Proof.
  induction v using Token_ind'; intros T A L; unfold tok_ok, part; cbn [encode_token token_is_dynamic tok_enc].
  - (* address *) cbn in T.
    unfold copy_from_slice. rewrite T. cbn [bind]. eexists. split; [reflexivity|].
    apply med_raw1. unfold word32. rewrite len_app, len_zeros. lia.
  - (* fixed bytes *) cbn [tok_enc] in L.
    destruct (@pad_fixed_bytes_spec b) as (ws & E & C & W).
    exists (Raw ws). rewrite E. split; [reflexivity|].
    rewrite <- C. apply med_raw; [assumption|]. now rewrite C.
  - (* bytes *) cbn [tok_enc] in L. rewrite !len_app in L.
    destruct (@pad_bytes_spec b) as (ws & E & C & W); [lia|].
    exists (Prefixed ws). rewrite E. split; [reflexivity|].
    rewrite <- C. apply med_prefixed; [assumption|]. rewrite C, !len_app. lia.
  - (* int *) eexists. split; [reflexivity|]. apply med_raw1, len_word.
  - (* uint *) eexists. split; [reflexivity|]. apply med_raw1, len_word.
  - (* bool *) eexists. split; [reflexivity|].
    replace (zeros 31 ++ [if b then x01 else x00]) with (word (if b then 1 else 0)) by (destruct b; reflexivity).
    apply med_raw1, len_word.
  - (* string *) cbn [tok_enc] in L. rewrite !len_app in L.
    destruct (@pad_bytes_spec (utf8 s)) as (ws & E & C & W); [lia|].
    exists (Prefixed ws). rewrite E. split; [reflexivity|].
    rewrite <- C. apply med_prefixed; [assumption|]. rewrite C, !len_app. lia.
  - (* fixed array *) cbn [wf_token short_arrays tok_enc] in *. fold part in *.
    destruct (@toks_ok vs) as (ms & E & M); [now apply toks_ok_IH | exact L |].
    rewrite E. cbn [bind]. destruct (existsb token_is_dynamic vs).
    + eexists. split; [reflexivity|]. apply med_prefixed_seq; assumption.
    + destruct (encode_head_tail_spec M L) as (ws & E' & C & W). rewrite E'. cbn [bind].
      eexists. split; [reflexivity|].
      change (fun v => (token_is_dynamic v, tok_enc v)) with part. rewrite <- C. apply med_raw; [assumption|].
      now rewrite C.
  - (* array *) cbn [wf_token short_arrays tok_enc] in *. apply andb_true_iff in A as [A1 A2].
    change (fun v => (token_is_dynamic v, tok_enc v)) with part in *.
    destruct (@toks_ok vs) as (ms & E & M); [now apply toks_ok_IH | rewrite len_app in L; lia |].
    rewrite E. exists (PrefixedArrayWithLength ms). split; [reflexivity|].
    pose proof (med_prefixed_len M) as G. rewrite len_map in G. apply G; [lia|exact L].
  - (* tuple *) cbn [wf_token short_arrays tok_enc] in *.
    change (fun v => (token_is_dynamic v, tok_enc v)) with part in *.
    destruct (@toks_ok vs) as (ms & E & M); [now apply toks_ok_IH | exact L |].
    rewrite E. cbn [bind]. destruct (existsb token_is_dynamic vs) eqn:D.
    + eexists. split; [reflexivity|]. apply med_prefixed_seq; assumption.
    + eexists. split; [reflexivity|]. apply med_raw_tuple; [assumption| |assumption].
      apply Forall_map. apply existsb_Forall in D. exact D.
Qed.

(** The encoder on any tokens, well-typed or not. *)
Lemma encode_parts vs : forallb wf_token vs = true -> forallb short_arrays vs = true ->
  len (enc_seq (map part vs)) < two32 -> encode p vs = Ok (enc_seq (map part vs)).
Proof.
  intros T A L. destruct (@toks_ok vs) as (ms & E & M).
  - rewrite Forall_forall. rewrite forallb_forall in T, A. intros. apply tok_ok_all; auto.
  - assumption.
  - unfold encode. rewrite E. cbn [bind].
    destruct (encode_head_tail_spec M L) as (ws & E' & C & W). rewrite E'. cbn [bind]. now rewrite C.
Qed.

Lemma has_type_wf t v : has_type v t = true -> wf_token v = true.
Proof.
  revert v. induction t using ParamType_ind'; intros v T; destruct v; try discriminate; try reflexivity; try exact T.
  - cbn in *. rewrite forallb_forall in *. auto.
  - cbn [has_type wf_token] in *. apply andb_true_iff in T as [_ T]. rewrite forallb_forall in *. auto.
  - apply tuple_type in T. cbn [wf_token]. revert H. induction T as [|v t vs ts T1 T2 IH]; intros H; [reflexivity|].
    apply Forall_cons_iff in H as [H1 H2]. cbn [forallb]. now rewrite H1, IH by assumption.
Qed.

(** The main fact: for well-typed tokens the encoder output is the ABI encoding. *)
Lemma encode_spec ts vs :
  forallb solidity_type ts = true -> have_types vs ts = true ->
  forallb short_arrays vs = true -> len (abi_encode ts vs) < two32 ->
  encode p vs = Ok (abi_encode ts vs).
Proof.
  intros S T A L. rewrite abi_encode_parts in L |- * by assumption. apply encode_parts; auto.
  apply (has_type_wf (PTuple ts) (TTuple vs) T).
Qed.
End Tok.

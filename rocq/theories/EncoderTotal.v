(** * Facts about the encoder on arbitrary tokens (no size bound) *)
From Verif Require Import Base Types Encoder AbiSpec BaseFacts EncoderFacts.
From Coq Require Import ZifyBool ZifyNat ZifyN.
Set Implicit Arguments.
Local Open Scope N_scope.
Ltac Zify.zify_post_hook ::= Z.div_mod_to_equations.

Section MInd.
  Context (P : Mediate -> Prop).
  Context (HR : forall ws, P (Raw ws)) (HP : forall ws, P (Prefixed ws)).
  Context (HA : forall ms, Forall P ms -> P (PrefixedArray ms)).
  Context (HL : forall ms, Forall P ms -> P (PrefixedArrayWithLength ms)).
  Context (HT : forall ms, Forall P ms -> P (RawTuple ms)).
  Context (HD : forall ms, Forall P ms -> P (PrefixedTuple ms)).
  Fixpoint Mediate_ind' (m : Mediate) : P m :=
    let all := (fix go l : Forall P l :=
        match l with [] => Forall_nil P | x :: l' => Forall_cons x (Mediate_ind' x) (go l') end) in
    match m with
    | Raw ws => HR ws
    | Prefixed ws => HP ws
    | PrefixedArray ms => HA (all ms)
    | PrefixedArrayWithLength ms => HL (all ms)
    | RawTuple ms => HT (all ms)
    | PrefixedTuple ms => HD (all ms)
    end.
End MInd.

Fixpoint med_wf (m : Mediate) : bool :=
  match m with
  | Raw ws | Prefixed ws => forallb (fun w => len w =? 32) ws
  | PrefixedArray ms | PrefixedArrayWithLength ms | RawTuple ms | PrefixedTuple ms => forallb med_wf ms
  end.

Lemma words_forallb ws : forallb (fun w => len w =? 32) ws = true <-> Forall word32 ws.
Proof.
  rewrite forallb_forall, Forall_forall. unfold word32.
  split; intros H w Hw; specialize (H w Hw); lia.
Qed.

Lemma head_words m o : med_wf m = true -> Forall word32 (head m o).
Proof.
  revert o. induction m using Mediate_ind'; intros o W; cbn [head med_wf] in *;
    try (repeat constructor; apply pad_u32_len).
  - now apply words_forallb.
  - induction H; cbn [flat_map forallb] in *; [constructor|].
    apply andb_true_iff in W as []. apply Forall_app. auto.
Qed.

Lemma foldM_inv A S (I : S -> Prop) (f : S -> A -> res S) l s s' :
  Forall (fun x => forall s s', I s -> f s x = Ok s' -> I s') l ->
  I s -> foldM f l s = Ok s' -> I s'.
Proof.
  intros H. revert s. induction H; cbn; intros s Is E; [congruence|].
  apply bind_ok in E as (s1 & E1 & E2). eauto.
Qed.
Lemma foldM_not_panic A S (f : S -> A -> res S) l s :
  Forall (fun x => forall s, f s x <> Panic) l -> foldM f l s <> Panic.
Proof.
  intros H. revert s. induction H; cbn; intros s E; [discriminate|].
  apply bind_panic in E as [E|(s1 & E1 & E2)]; [now apply H in E|now apply IHForall in E2].
Qed.

Lemma eht_words p tl ms ws :
  Forall (fun m => forall ws, tl m = Ok ws -> Forall word32 ws) ms ->
  forallb med_wf ms = true ->
  encode_head_tail_with p tl ms = Ok ws -> Forall word32 ws.
Proof.
  intros HT W E. unfold encode_head_tail_with in E.
  apply bind_ok in E as (hl & _ & E). apply bind_ok in E as ([hs l] & E1 & E).
  apply bind_ok in E as (? & _ & E). apply bind_ok in E as (ts & E2 & E). injection E as <-.
  apply Forall_app. split.
  - eapply (@foldM_inv _ _ (fun s => Forall word32 (fst s))) in E1; [exact E1| |constructor].
    rewrite forallb_forall in W. apply Forall_forall. intros m Hm [acc o] s' Ha E.
    apply bind_ok in E as (? & _ & E). apply bind_ok in E as (? & _ & E). injection E as <-.
    cbn [fst] in *. apply Forall_app. split; [assumption|]. now apply head_words, W.
  - eapply (@foldM_inv _ _ (Forall word32)) in E2; [exact E2| |constructor].
    eapply Forall_impl; [|exact HT]. cbn beta. intros m Hm s s' Hs E.
    apply bind_ok in E as (? & E & E'). injection E' as <-. apply Forall_app. eauto.
Qed.

Lemma tail_words p m : med_wf m = true -> forall ws, tail p m = Ok ws -> Forall word32 ws.
Proof.
  induction m using Mediate_ind'; cbn [med_wf tail]; intros W ws0 E.
  - injection E as <-. constructor.
  - injection E as <-. now apply words_forallb.
  - eapply eht_words in E; [exact E| |assumption].
    rewrite forallb_forall in W. rewrite Forall_forall in *. eauto.
  - apply bind_ok in E as (ht & E & E'). injection E' as <-. constructor; [apply pad_u32_len|].
    eapply eht_words in E; [exact E| |assumption].
    rewrite forallb_forall in W. rewrite Forall_forall in *. eauto.
  - injection E as <-. constructor.
  - eapply eht_words in E; [exact E| |assumption].
    rewrite forallb_forall in W. rewrite Forall_forall in *. eauto.
Qed.

Lemma encode_head_tail_words p ms ws : forallb med_wf ms = true ->
  encode_head_tail p ms = Ok ws -> Forall word32 ws.
Proof.
  intros W. apply eht_words; [|assumption].
  rewrite forallb_forall in W. apply Forall_forall. intros. eapply tail_words; eauto.
Qed.

Lemma mapM_forallb A B (f : A -> res B) (g : B -> bool) l l' :
  Forall (fun x => forall y, f x = Ok y -> g y = true) l -> mapM f l = Ok l' -> forallb g l' = true.
Proof.
  intros H E. apply mapM_ok in E. revert H. induction E; intros H'; [reflexivity|].
  apply Forall_cons_iff in H' as [H1 H2]. cbn. now rewrite H1, IHE.
Qed.

Lemma encode_token_wf p v m : encode_token p v = Ok m -> med_wf m = true.
Proof.
  revert m. induction v using Token_ind'; intros m E; cbn [encode_token] in E.
  - apply bind_ok in E as (c & E & E'). assert (m = Raw [zeros 12 ++ c]) as -> by congruence. clear E'.
    unfold copy_from_slice in E.
    destruct (_ =? _) eqn:L; [|discriminate]. injection E as <-. cbn [med_wf forallb].
    rewrite len_app, len_zeros. lia.
  - destruct (pad_fixed_bytes_spec b) as (ws & E1 & _ & W). rewrite E1 in E. injection E as <-.
    now apply words_forallb.
  - apply bind_ok in E as (c & E & E'). injection E' as <-. unfold pad_bytes in E.
    destruct (pad_fixed_bytes_spec b) as (ws & E1 & _ & W). rewrite E1 in E. injection E as <-.
    apply words_forallb. constructor; [apply pad_u32_len|assumption].
  - assert (m = Raw [word n]) as -> by (unfold word; congruence).
    cbn [med_wf forallb]. rewrite len_word. reflexivity.
  - assert (m = Raw [word n]) as -> by (unfold word; congruence).
    cbn [med_wf forallb]. rewrite len_word. reflexivity.
  - injection E as <-. destruct b; reflexivity.
  - apply bind_ok in E as (c & E & E'). injection E' as <-. unfold pad_bytes in E.
    destruct (pad_fixed_bytes_spec (utf8 s)) as (ws & E1 & _ & W). rewrite E1 in E. injection E as <-.
    apply words_forallb. constructor; [apply pad_u32_len|assumption].
  - apply bind_ok in E as (ms & Em & E). eapply mapM_forallb in Em; [|exact H].
    destruct (token_is_dynamic _).
    + injection E as <-. exact Em.
    + apply bind_ok in E as (ws & Ew & E). injection E as <-. apply words_forallb.
      eapply encode_head_tail_words; eassumption.
  - apply bind_ok in E as (ms & Em & E). eapply mapM_forallb in Em; [|exact H].
    injection E as <-. exact Em.
  - apply bind_ok in E as (ms & Em & E). eapply mapM_forallb in Em; [|exact H].
    destruct (token_is_dynamic _); injection E as <-; exact Em.
Qed.

Lemma encode_whole_words p vs data : encode p vs = Ok data -> len data mod 32 = 0.
Proof.
  unfold encode. intros E. apply bind_ok in E as (ms & Em & E). apply bind_ok in E as (ws & Ew & E).
  injection E as <-. rewrite concat_len; [lia|].
  eapply encode_head_tail_words; [|exact Ew]. eapply mapM_forallb; [|exact Em].
  apply Forall_forall. intros v _ m. apply encode_token_wf.
Qed.

(** ** A release build never panics *)
Lemma checked_release m v : checked Release m v <> Panic.
Proof. unfold checked. destruct (_ <? _); discriminate. Qed.
Lemma u32_sub_release a b : u32_sub Release a b <> Panic.
Proof. unfold u32_sub. destruct (_ <=? _); discriminate. Qed.
Ltac nopanic := intros E; repeat (apply bind_panic in E as [E|(? & _ & E)]);
  try discriminate; try (now apply checked_release in E); try (now apply u32_sub_release in E).

Lemma head_len_release m : head_len Release m <> Panic.
Proof.
  induction m using Mediate_ind'; cbn [head_len]; try discriminate; try apply checked_release.
  apply foldM_not_panic. eapply Forall_impl; [|exact H]. cbn beta. intros m Hm s. nopanic. contradiction.
Qed.
Lemma tail_len_release m : tail_len Release m <> Panic.
Proof.
  induction m using Mediate_ind'; cbn [tail_len]; try discriminate; try apply checked_release;
  (apply foldM_not_panic; eapply Forall_impl; [|exact H]; cbn beta; intros m Hm s; nopanic;
   [now apply head_len_release in E | contradiction]).
Qed.
Lemma eht_release tl ms : Forall (fun m => tl m <> Panic) ms ->
  encode_head_tail_with Release tl ms <> Panic.
Proof.
  intros H E. unfold encode_head_tail_with in E.
  apply bind_panic in E as [E|(hl & _ & E)].
  { revert E. apply foldM_not_panic. apply Forall_forall. intros m _ s. nopanic.
    now apply head_len_release in E. }
  apply bind_panic in E as [E|([hs l] & _ & E)].
  { revert E. apply foldM_not_panic. apply Forall_forall. intros m _ [a o]. nopanic.
    now apply tail_len_release in E. }
  apply bind_panic in E as [E|(? & _ & E)]; [now apply u32_sub_release in E|].
  apply bind_panic in E as [E|(? & _ & E)]; [|discriminate].
  revert E. apply foldM_not_panic. eapply Forall_impl; [|exact H]. cbn beta. intros m Hm s. nopanic.
  contradiction.
Qed.
Lemma tail_release m : tail Release m <> Panic.
Proof.
  induction m using Mediate_ind'; cbn [tail]; try discriminate; try (apply eht_release; assumption).
  intros E; apply bind_panic in E as [E|(?&_&E)]; [now apply eht_release in E|discriminate].
Qed.
Lemma encode_head_tail_release ms : encode_head_tail Release ms <> Panic.
Proof. apply eht_release. apply Forall_forall. intros. apply tail_release. Qed.

Lemma pad_bytes_not_panic b : pad_bytes b <> Panic.
Proof.
  unfold pad_bytes. destruct (pad_fixed_bytes_spec b) as (ws & E & _). rewrite E. discriminate.
Qed.
Lemma forallb_Forall_impl A (f : A -> bool) (P Q : A -> Prop) l :
  Forall P l -> forallb f l = true -> (forall x, P x -> f x = true -> Q x) -> Forall Q l.
Proof. rewrite forallb_forall, !Forall_forall. auto. Qed.

Lemma encode_token_release v : wf_token v = true -> encode_token Release v <> Panic.
Proof.
  induction v using Token_ind'; intros W; cbn [encode_token wf_token] in *; try discriminate.
  - unfold copy_from_slice. rewrite W. discriminate.
  - destruct (pad_fixed_bytes_spec b) as (ws & E & _). rewrite E. discriminate.
  - intros E; apply bind_panic in E as [E|(?&_&E)]; [now apply pad_bytes_not_panic in E|discriminate].
  - intros E; apply bind_panic in E as [E|(?&_&E)]; [now apply pad_bytes_not_panic in E|discriminate].
  - intros E. apply bind_panic in E as [E|(ms & _ & E)].
    + revert E. apply mapM_not_panic. eapply forallb_Forall_impl; eauto.
    + destruct (token_is_dynamic _); [discriminate|]. apply bind_panic in E as [E|(?&_&E)]; [now apply encode_head_tail_release in E|discriminate].
  - intros E. apply bind_panic in E as [E|(ms & _ & E)]; [|discriminate].
    revert E. apply mapM_not_panic. eapply forallb_Forall_impl; eauto.
  - intros E. apply bind_panic in E as [E|(ms & _ & E)].
    + revert E. apply mapM_not_panic. eapply forallb_Forall_impl; eauto.
    + destruct (token_is_dynamic _); discriminate.
Qed.

Lemma encode_release vs : forallb wf_token vs = true -> encode Release vs <> Panic.
Proof.
  intros W. unfold encode. intros E. apply bind_panic in E as [E|(ms & _ & E)].
  - revert E. apply mapM_not_panic. rewrite forallb_forall in W. apply Forall_forall.
    intros. apply encode_token_release. auto.
  - apply bind_panic in E as [E|(?&_&E)]; [now apply encode_head_tail_release in E|discriminate].
Qed.

(** The encoder never returns an [Err]: its Rust type has no error case. *)
Lemma foldM_not_err A S (f : S -> A -> res S) l s :
  Forall (fun x => forall s e, f s x <> Err e) l -> forall e, foldM f l s <> Err e.
Proof.
  intros H. revert s. induction H; cbn; intros s e E; [discriminate|].
  destruct (f s x) eqn:F; cbn in E; [now apply IHForall in E|now apply H in F|discriminate].
Qed.

(** * Counting calls does not change what is encoded and decoded *)
From Verif Require Import Base Utf8 Types Encoder Decoder BaseFacts EncoderFacts EncoderTotal EncWorkErase Stack.
Set Implicit Arguments.
Local Open Scope N_scope.
Local Open Scope list_scope.

Lemma snd_sbind A B (r : stack A) (k : A -> stack B) : snd (sbind r k) = bind (snd r) (fun a => snd (k a)).
Proof. unfold sbind. destruct (snd r); reflexivity. Qed.
Lemma snd_leaf A (r : res A) : snd (leaf r) = r. Proof. reflexivity. Qed.
Lemma snd_call A (s : stack A) : snd (call s) = snd s. Proof. reflexivity. Qed.
Lemma snd_foldS A S (f : S -> A -> stack S) (g : S -> A -> res S) l : Forall (fun x => forall s, snd (f s x) = g s x) l -> forall s, snd (foldS f l s) = foldM g l s.
Proof. induction 1 as [|x l Hx H IH]; intros s; cbn [foldS foldM]; [reflexivity|]. rewrite snd_sbind, Hx. apply bind_ext. exact IH. Qed.
Lemma snd_mapS A B (f : A -> stack B) (g : A -> res B) l : Forall (fun x => snd (f x) = g x) l -> snd (mapS f l) = mapM g l.
Proof. induction 1 as [|x l Hx H IH]; cbn [mapS mapM]; [reflexivity|]. rewrite snd_sbind, Hx. apply bind_ext. intros y. rewrite snd_sbind, IH. reflexivity. Qed.
Lemma snd_iterS S (f : S -> stack S) (g : S -> res S) : (forall s, snd (f s) = g s) -> forall n s, snd (iterS f n s) = iter_N g n s.
Proof.
  intros E n s. destruct n as [|q]; [reflexivity|]. cbn [iterS iter_N]. revert s. induction q as [q IH|q IH|]; intros s; cbn [iterS_pos iter_pos].
  - rewrite snd_sbind, E. apply bind_ext. intros s'. rewrite snd_sbind, IH. apply bind_ext. exact IH.
  - rewrite snd_sbind, IH. apply bind_ext. exact IH.
  - apply E.
Qed.
Lemma snd_any A (f : A -> stack bool) g l : Forall (fun x => snd (f x) = Ok (g x)) l -> snd (any_stack f l) = Ok (existsb g l).
Proof. induction 1 as [|v vs E H IH]; cbn [any_stack existsb]; [reflexivity|]. rewrite snd_sbind, E. cbn [bind]. destruct (g v); [reflexivity|exact IH]. Qed.

Section Erase.
Context (p : profile).
(** ** Encoding *)
Lemma head_len_same m : snd (head_len_stack p m) = head_len p m.
Proof.
  induction m using Mediate_ind'; cbn [head_len_stack head_len]; rewrite snd_call; try reflexivity.
  apply snd_foldS. eapply Forall_impl; [|eassumption]. intros m E s. cbn beta. now rewrite snd_sbind, E.
Qed.
Lemma tail_sum_same ms : Forall (fun m => snd (tail_len_stack p m) = tail_len p m) ms -> forall n,
  snd (foldS (fun acc m => sbind (head_len_stack p m) (fun h => sbind (leaf (u32_add p acc h)) (fun a => sbind (tail_len_stack p m) (fun t => leaf (u32_add p a t))))) ms n) =
  foldM (fun acc m => do h <- head_len p m; do a <- u32_add p acc h; do t <- tail_len p m; u32_add p a t) ms n.
Proof.
  intros H. apply snd_foldS. eapply Forall_impl; [|eassumption]. intros m E s. cbn beta. rewrite snd_sbind, head_len_same. apply bind_ext. intros h.
  rewrite snd_sbind, snd_leaf. apply bind_ext. intros a. rewrite snd_sbind, E. reflexivity.
Qed.
Lemma tail_len_same m : snd (tail_len_stack p m) = tail_len p m.
Proof. induction m using Mediate_ind'; cbn [tail_len_stack tail_len]; rewrite snd_call; try reflexivity; now apply tail_sum_same. Qed.
Lemma head_same m : forall o, snd (head_stack m o) = Ok (head m o).
Proof.
  induction m using Mediate_ind'; intros o; cbn [head_stack head]; rewrite snd_call; try reflexivity.
  match goal with H : Forall _ ?l |- _ => rename H into F; rename l into ms end.
  enough (G : forall acc, snd (foldS (fun acc m => sbind (head_stack m 0) (fun ws => leaf (Ok (acc ++ ws)))) ms acc) = Ok (acc ++ flat_map (fun m => head m 0) ms)) by apply (G []).
  induction F as [|m l Hm H IH]; intros acc; cbn [foldS flat_map]; [now rewrite app_nil_r|].
  rewrite snd_sbind, snd_sbind, Hm. cbn [bind]. rewrite snd_leaf. cbn [bind]. rewrite IH, <- app_assoc. reflexivity.
Qed.
Lemma seq_same ms : Forall (fun m => snd (tail_stack p m) = tail p m) ms -> snd (encode_head_tail_stack_with p (tail_stack p) ms) = encode_head_tail_with p (tail p) ms.
Proof.
  intros H. unfold encode_head_tail_stack_with, encode_head_tail_with. rewrite snd_call, snd_sbind.
  rewrite (@snd_foldS _ _ _ (fun acc m => do h <- head_len p m; u32_add p acc h)) by (apply Forall_forall; intros; rewrite snd_sbind, head_len_same; reflexivity).
  apply bind_ext. intros hl. rewrite snd_sbind.
  rewrite (@snd_foldS _ _ _ (fun '(acc, offset) m => do t <- tail_len p m; do o <- u32_add p offset t; Ok (acc ++ head m offset, o))).
  2:{ apply Forall_forall. intros m _ [acc offset]. rewrite snd_sbind, head_same. cbn [bind]. rewrite snd_sbind, tail_len_same. apply bind_ext. intros t.
      rewrite snd_sbind, snd_leaf. reflexivity. }
  apply bind_ext. intros [heads l]. rewrite snd_sbind, snd_leaf. apply bind_ext. intros _. rewrite snd_sbind.
  rewrite (@snd_foldS _ _ _ (fun acc m => do t <- tail p m; Ok (acc ++ t))); [reflexivity|].
  eapply Forall_impl; [|exact H]. intros m E s. cbn beta. rewrite snd_sbind, E. reflexivity.
Qed.
Lemma tail_same m : snd (tail_stack p m) = tail p m.
Proof.
  induction m using Mediate_ind'; cbn [tail_stack tail]; rewrite snd_call; try reflexivity; try (now apply seq_same).
  rewrite snd_sbind, seq_same by assumption. reflexivity.
Qed.
Lemma head_tail_same ms : snd (encode_head_tail_stack p ms) = encode_head_tail p ms.
Proof. apply seq_same. apply Forall_forall. intros. apply tail_same. Qed.
Lemma is_dynamic_same v : snd (is_dynamic_stack v) = Ok (token_is_dynamic v).
Proof. induction v using Token_ind'; cbn [is_dynamic_stack token_is_dynamic]; rewrite snd_call; try reflexivity; now apply snd_any. Qed.
Lemma pad_same b : snd (pad_bytes_stack b) = pad_bytes b.
Proof. unfold pad_bytes_stack, pad_bytes. rewrite snd_call, snd_sbind. cbn [pad_u32_stack call leaf snd bind]. rewrite snd_sbind. now apply bind_ext. Qed.
Lemma token_same v : snd (encode_token_stack p v) = encode_token p v.
Proof.
  induction v using Token_ind'; cbn [encode_token_stack]; rewrite snd_call; try reflexivity; try (rewrite snd_sbind, pad_same; reflexivity); try (rewrite snd_sbind; cbn [encode_token]; now apply bind_ext).
  - rewrite snd_sbind, (@snd_mapS _ _ _ _ _ H). cbn [encode_token]. apply bind_ext. intros ms. rewrite snd_sbind, is_dynamic_same. cbn [bind]. destruct (token_is_dynamic _); [reflexivity|].
    rewrite snd_sbind, head_tail_same. reflexivity.
  - rewrite snd_sbind, (@snd_mapS _ _ _ _ _ H). reflexivity.
  - rewrite snd_sbind, is_dynamic_same. cbn [bind]. rewrite snd_sbind, (@snd_mapS _ _ _ _ _ H). cbn [encode_token]. apply bind_ext. intros ms. rewrite snd_leaf. destruct (token_is_dynamic _); reflexivity.
Qed.
Lemma encode_same vs : snd (encode_stack p vs) = encode p vs.
Proof.
  unfold encode_stack, encode. rewrite snd_call, snd_sbind, (@snd_mapS _ _ _ (encode_token p)) by (apply Forall_forall; intros; apply token_same).
  apply bind_ext. intros ms. rewrite snd_sbind, head_tail_same. reflexivity.
Qed.

(** ** Decoding *)
Lemma type_dynamic_same t : snd (type_dynamic_stack t) = Ok (ptype_is_dynamic t).
Proof. induction t using ParamType_ind'; cbn [type_dynamic_stack ptype_is_dynamic]; rewrite snd_call; try reflexivity; [exact IHt|now apply snd_any]. Qed.
Lemma step_same dec dec' s : (forall o, snd (dec o) = dec' o) -> snd (decode_step_stack dec s) = decode_step dec' s.
Proof. intros E. destruct s as [tokens offset]. cbn [decode_step_stack decode_step]. rewrite snd_sbind, E. apply bind_ext. intros [token o]. reflexivity. Qed.
Ltac onward x := rewrite snd_sbind; apply bind_ext; intros x.
Lemma decode_param_same t : forall data offset, snd (decode_param_stack p t data offset) = decode_param p t data offset.
Proof.
  induction t using ParamType_ind'; intros data offset; cbn [decode_param_stack decode_param]; rewrite snd_call.
  all: try (onward w; first [reflexivity | onward b; reflexivity]).
  - onward w. onward o. onward w'. onward l. onward start. onward b. reflexivity.
  - onward w. onward o. onward w'. onward l. onward start. onward b. reflexivity.
  - onward w. onward o. onward w'. onward l. rewrite snd_sbind, snd_leaf, bind_assoc. apply bind_ext. intros to. apply bind_ext. intros tl. rewrite snd_sbind.
    rewrite (snd_iterS _ (decode_step (decode_param p t tl))) by (intros s; now apply step_same). apply bind_ext. intros [tokens q]. reflexivity.
  - rewrite snd_sbind. change (call (type_dynamic_stack t)) with (type_dynamic_stack (PFixedArray t n)). rewrite type_dynamic_same. cbn [bind]. rewrite snd_sbind.
    destruct (ptype_is_dynamic (PFixedArray t n)).
    + rewrite snd_sbind, !bind_assoc. apply bind_ext. intros w. rewrite snd_sbind, !bind_assoc. apply bind_ext. intros o. rewrite snd_leaf, !bind_assoc. apply bind_ext. intros tl. cbn [bind]. rewrite snd_sbind.
      rewrite (snd_iterS _ (decode_step (decode_param p t tl))) by (intros s; now apply step_same). apply bind_ext. intros [tokens q]. reflexivity.
    + rewrite snd_leaf. cbn [bind]. rewrite snd_sbind. rewrite (snd_iterS _ (decode_step (decode_param p t data))) by (intros s; now apply step_same). apply bind_ext. intros [tokens q]. reflexivity.
  - rewrite snd_sbind. change (call (any_stack type_dynamic_stack ts)) with (type_dynamic_stack (PTuple ts)). rewrite type_dynamic_same. cbn [bind]. rewrite snd_sbind.
    assert (Fold : forall tl s, snd (foldS (fun s t' => decode_step_stack (decode_param_stack p t' tl) s) ts s) = foldM (fun s t' => decode_step (decode_param p t' tl) s) ts s).
    { intros tl s. apply snd_foldS. eapply Forall_impl; [|exact H]. intros t E s'. cbn beta. apply step_same. intros o. apply E. }
    destruct (ptype_is_dynamic (PTuple ts)).
    + rewrite snd_sbind, !bind_assoc. apply bind_ext. intros w. rewrite snd_sbind, !bind_assoc. apply bind_ext. intros o. rewrite snd_leaf. destruct (len data <? o); [reflexivity|].
      rewrite !bind_assoc. apply bind_ext. intros tl. cbn [bind]. rewrite snd_sbind, Fold. apply bind_ext. intros [tokens q]. reflexivity.
    + rewrite snd_leaf. cbn [bind]. rewrite snd_sbind, Fold. apply bind_ext. intros [tokens q]. reflexivity.
Qed.
Lemma all_empty_same ts : snd (all_empty_stack ts) = Ok (forallb is_empty_bytes_valid_encoding ts).
Proof. induction ts as [|t ts IH]; cbn [all_empty_stack forallb]; [reflexivity|]. rewrite snd_sbind, snd_call, snd_leaf. cbn [bind]. destruct (is_empty_bytes_valid_encoding t); [exact IH|reflexivity]. Qed.
Lemma decode_same ts data : snd (decode_stack p ts data) = decode p ts data.
Proof.
  unfold decode_stack, decode. rewrite snd_call, snd_sbind, all_empty_same. cbn [bind]. destruct (_ && _); [reflexivity|].
  rewrite snd_sbind, (@snd_foldS _ _ _ (fun s t => decode_step (decode_param p t data) s)).
  - apply bind_ext. intros [tokens q]. reflexivity.
  - apply Forall_forall. intros t _ s. apply step_same. intros o. apply decode_param_same.
Qed.
End Erase.

(** * Counting does not change what is decoded *)
From Verif Require Import Base Utf8 Types Encoder Decoder BaseFacts EncoderWork EncWorkErase DecoderWork.
Set Implicit Arguments.
Local Open Scope N_scope.
Local Open Scope list_scope.

Lemma snd_iter S (f : S -> work S) (g : S -> res S) : (forall s, snd (f s) = g s) -> forall n s, snd (iterW f n s) = iter_N g n s.
Proof.
  intros E n s. destruct n as [|q]; [reflexivity|]. cbn [iterW iter_N]. revert s. induction q as [q IH|q IH|]; intros s; cbn [iterW_pos iter_pos].
  - rewrite snd_wbind, E. apply bind_ext. intros s'. rewrite snd_wbind, IH. apply bind_ext. exact IH.
  - rewrite snd_wbind, IH. apply bind_ext. exact IH.
  - apply E.
Qed.
Lemma any_type_same ts : Forall (fun t => snd (type_dynamic_work t) = Ok (ptype_is_dynamic t)) ts -> snd (any_type_work type_dynamic_work ts) = Ok (existsb ptype_is_dynamic ts).
Proof. induction 1 as [|t ts E H IH]; cbn [any_type_work existsb]; [reflexivity|]. rewrite snd_wbind, E. cbn [bind]. destruct (ptype_is_dynamic t); [reflexivity|exact IH]. Qed.
Lemma type_dynamic_same t : snd (type_dynamic_work t) = Ok (ptype_is_dynamic t).
Proof. induction t using ParamType_ind'; cbn [type_dynamic_work ptype_is_dynamic]; rewrite snd_wbind, snd_steps; cbn [bind]; try reflexivity; [exact IHt|now apply any_type_same]. Qed.

Section Erase.
Context (p : profile).
Lemma step_same dec dec' s : (forall o, snd (dec o) = dec' o) -> snd (decode_step_work dec s) = decode_step dec' s.
Proof. intros E. destruct s as [tokens offset]. cbn [decode_step_work decode_step]. rewrite snd_wbind, E. apply bind_ext. intros [token o]. reflexivity. Qed.
Ltac walk := repeat (first [rewrite snd_wbind | rewrite snd_steps | rewrite bind_assoc | progress cbn [bind]]).
Lemma decode_param_same t : forall data offset, snd (decode_param_work p t data offset) = decode_param p t data offset.
Proof.
  induction t using ParamType_ind'; intros data offset; cbn [decode_param_work decode_param]; rewrite snd_wbind, snd_steps; cbn [bind]; rewrite snd_wbind.
  all: try (unfold peek_work; rewrite snd_steps; apply bind_ext; intros w; reflexivity).
  - unfold peek_work. rewrite snd_steps. apply bind_ext. intros w. rewrite snd_wbind, snd_steps. apply bind_ext. intros o. rewrite snd_wbind, snd_steps. apply bind_ext. intros w'.
    rewrite snd_wbind, snd_steps, bind_assoc. apply bind_ext. intros l. rewrite bind_assoc. apply bind_ext. intros start. cbn [bind]. rewrite snd_wbind. reflexivity.
  - unfold peek_work. rewrite snd_steps. apply bind_ext. intros w. rewrite snd_wbind, snd_steps. apply bind_ext. intros o. rewrite snd_wbind, snd_steps. apply bind_ext. intros w'.
    rewrite snd_wbind, snd_steps, bind_assoc. apply bind_ext. intros l. rewrite bind_assoc. apply bind_ext. intros start. cbn [bind]. rewrite snd_wbind. unfold take_work, lossy_work. rewrite snd_steps. apply bind_ext. intros bytes.
    rewrite snd_wbind. reflexivity.
  - unfold peek_work. rewrite snd_steps. apply bind_ext. intros w. rewrite snd_wbind, snd_steps. apply bind_ext. intros o. rewrite snd_wbind, snd_steps. apply bind_ext. intros w'.
    rewrite snd_wbind, snd_steps, bind_assoc. apply bind_ext. intros l. rewrite bind_assoc. apply bind_ext. intros start. rewrite bind_assoc. apply bind_ext. intros tl. cbn [bind]. rewrite snd_wbind.
    rewrite (snd_iter _ (decode_step (decode_param p t tl))) by (intros s; now apply step_same). apply bind_ext. intros [tokens q]. reflexivity.
  - unfold take_work. rewrite snd_steps. reflexivity.
  - change (wbind (steps 1 (Ok tt)) (fun _ => type_dynamic_work t)) with (type_dynamic_work (PFixedArray t n)). rewrite type_dynamic_same. cbn [bind]. rewrite snd_wbind.
    destruct (ptype_is_dynamic (PFixedArray t n)).
    + unfold peek_work. rewrite snd_wbind, snd_steps, !bind_assoc. apply bind_ext. intros w. rewrite snd_steps, !bind_assoc. apply bind_ext. intros o. rewrite !bind_assoc. apply bind_ext. intros tl. cbn [bind]. rewrite snd_wbind.
      rewrite (snd_iter _ (decode_step (decode_param p t tl))) by (intros s; now apply step_same). apply bind_ext. intros [tokens q]. reflexivity.
    + rewrite snd_steps. cbn [bind]. rewrite snd_wbind. rewrite (snd_iter _ (decode_step (decode_param p t data))) by (intros s; now apply step_same). apply bind_ext. intros [tokens q]. reflexivity.
  - change (wbind (steps 1 (Ok tt)) (fun _ => any_type_work type_dynamic_work ts)) with (type_dynamic_work (PTuple ts)). rewrite type_dynamic_same. cbn [bind]. rewrite snd_wbind.
    assert (Fold : forall tl s, snd (foldW (fun s t' => decode_step_work (decode_param_work p t' tl) s) ts s) = foldM (fun s t' => decode_step (decode_param p t' tl) s) ts s).
    { intros tl s. apply snd_fold. eapply Forall_impl; [|exact H]. intros t E s'. cbn beta. apply step_same. intros o. apply E. }
    destruct (ptype_is_dynamic (PTuple ts)).
    + unfold peek_work. rewrite snd_wbind, snd_steps, !bind_assoc. apply bind_ext. intros w. rewrite snd_steps, !bind_assoc. apply bind_ext. intros o. destruct (len data <? o); [reflexivity|].
      rewrite !bind_assoc. apply bind_ext. intros tl. cbn [bind]. rewrite snd_wbind, Fold. apply bind_ext. intros [tokens q]. reflexivity.
    + rewrite snd_steps. cbn [bind]. rewrite snd_wbind, Fold. apply bind_ext. intros [tokens q]. reflexivity.
Qed.
Lemma all_empty_same ts : snd (all_empty_work ts) = Ok (forallb is_empty_bytes_valid_encoding ts).
Proof. induction ts as [|t ts IH]; cbn [all_empty_work forallb]; [reflexivity|]. rewrite snd_wbind, snd_steps. cbn [bind]. destruct (is_empty_bytes_valid_encoding t); [exact IH|reflexivity]. Qed.
Lemma decode_same ts data : snd (decode_work p ts data) = decode p ts data.
Proof.
  unfold decode_work, decode. rewrite snd_wbind, snd_steps. cbn [bind]. rewrite snd_wbind, all_empty_same. cbn [bind]. destruct (_ && _); [reflexivity|].
  rewrite snd_wbind, (@snd_fold _ _ _ (fun s t => decode_step (decode_param p t data) s)).
  - apply bind_ext. intros [tokens q]. reflexivity.
  - apply Forall_forall. intros t _ s. apply step_same. intros o. apply decode_param_same.
Qed.
End Erase.

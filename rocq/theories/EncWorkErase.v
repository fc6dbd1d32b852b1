(** * Counting does not change what is encoded *)
From Verif Require Import Base Types Encoder BaseFacts EncoderFacts EncoderTotal EncoderWork.
Set Implicit Arguments.
Local Open Scope N_scope.
Local Open Scope list_scope.

Lemma snd_wbind A B (r : work A) (k : A -> work B) : snd (wbind r k) = bind (snd r) (fun a => snd (k a)).
Proof. unfold wbind. destruct (snd r); reflexivity. Qed.
Lemma snd_steps A n (r : res A) : snd (steps n r) = r. Proof. reflexivity. Qed.
Lemma snd_made r : snd (made r) = r. Proof. reflexivity. Qed.
Lemma bind_ext A B (r : res A) (f g : A -> res B) : (forall a, f a = g a) -> bind r f = bind r g.
Proof. intros E. destruct r; cbn [bind]; [apply E|reflexivity|reflexivity]. Qed.
Lemma snd_fold A S (f : S -> A -> work S) (g : S -> A -> res S) l : Forall (fun x => forall s, snd (f s x) = g s x) l -> forall s, snd (foldW f l s) = foldM g l s.
Proof. induction 1 as [|x l Hx H IH]; intros s; cbn [foldW foldM]; [reflexivity|]. rewrite snd_wbind, Hx. apply bind_ext. exact IH. Qed.
Lemma snd_map A B (f : A -> work B) (g : A -> res B) l : Forall (fun x => snd (f x) = g x) l -> snd (mapW f l) = mapM g l.
Proof. induction 1 as [|x l Hx H IH]; cbn [mapW mapM]; [reflexivity|]. rewrite snd_wbind, Hx. apply bind_ext. intros y. rewrite snd_wbind, IH. reflexivity. Qed.

Section Erase.
Context (p : profile).
Lemma head_len_same m : snd (head_len_work p m) = head_len p m.
Proof.
  induction m using Mediate_ind'; cbn [head_len_work head_len]; rewrite snd_wbind, snd_steps; cbn [bind]; try reflexivity.
  apply snd_fold. eapply Forall_impl; [|eassumption]. intros m E s. cbn beta. now rewrite snd_wbind, E.
Qed.
Lemma tail_sum_same ms : Forall (fun m => snd (tail_len_work p m) = tail_len p m) ms -> forall n,
  snd (foldW (fun acc m => wbind (head_len_work p m) (fun h => wbind (steps 0 (u32_add p acc h)) (fun a => wbind (tail_len_work p m) (fun t => steps 0 (u32_add p a t))))) ms n) =
  foldM (fun acc m => do h <- head_len p m; do a <- u32_add p acc h; do t <- tail_len p m; u32_add p a t) ms n.
Proof.
  intros H. apply snd_fold. eapply Forall_impl; [|eassumption]. intros m E s. cbn beta. rewrite snd_wbind, head_len_same. apply bind_ext. intros h.
  rewrite snd_wbind, snd_steps. apply bind_ext. intros a. rewrite snd_wbind, E. reflexivity.
Qed.
Lemma tail_len_same m : snd (tail_len_work p m) = tail_len p m.
Proof.
  induction m using Mediate_ind'; cbn [tail_len_work tail_len]; rewrite snd_wbind, snd_steps; cbn [bind]; try reflexivity; now apply tail_sum_same.
Qed.
Lemma head_same m : forall o, snd (head_work m o) = Ok (head m o).
Proof.
  induction m using Mediate_ind'; intros o; cbn [head_work head]; rewrite snd_wbind, snd_steps; cbn [bind]; try reflexivity.
  match goal with H : Forall _ ?l |- _ => rename H into F; rename l into ms end.
  enough (G : forall acc, snd (foldW (fun acc m => wbind (head_work m 0) (fun ws => steps (len ws) (Ok (acc ++ ws)))) ms acc) = Ok (acc ++ flat_map (fun m => head m 0) ms)) by apply (G []).
  induction F as [|m l Hm H IH]; intros acc; cbn [foldW flat_map]; [now rewrite app_nil_r|].
  rewrite snd_wbind, snd_wbind, Hm. cbn [bind]. rewrite snd_steps. cbn [bind]. rewrite IH, <- app_assoc. reflexivity.
Qed.
Lemma seq_same ms : Forall (fun m => snd (tail_work p m) = tail p m) ms -> snd (encode_head_tail_work_with p (tail_work p) ms) = encode_head_tail_with p (tail p) ms.
Proof.
  intros H. unfold encode_head_tail_work_with, encode_head_tail_with. rewrite snd_wbind, snd_steps. cbn [bind]. rewrite snd_wbind.
  rewrite (@snd_fold _ _ _ (fun acc m => do h <- head_len p m; u32_add p acc h)) by (apply Forall_forall; intros; rewrite snd_wbind, head_len_same; reflexivity).
  apply bind_ext. intros hl. rewrite snd_wbind.
  rewrite (@snd_fold _ _ _ (fun '(acc, offset) m => do t <- tail_len p m; do o <- u32_add p offset t; Ok (acc ++ head m offset, o))).
  2:{ apply Forall_forall. intros m _ [acc offset]. rewrite snd_wbind, head_same. cbn [bind]. rewrite snd_wbind, snd_steps. cbn [bind]. rewrite snd_wbind, tail_len_same. apply bind_ext. intros t.
      rewrite snd_wbind, snd_steps. reflexivity. }
  apply bind_ext. intros [heads l]. rewrite snd_wbind, snd_steps. apply bind_ext. intros _. rewrite snd_wbind.
  rewrite (@snd_fold _ _ _ (fun acc m => do t <- tail p m; Ok (acc ++ t))); [reflexivity|].
  eapply Forall_impl; [|exact H]. intros m E s. cbn beta. rewrite snd_wbind, E. reflexivity.
Qed.
Lemma tail_same m : snd (tail_work p m) = tail p m.
Proof.
  induction m using Mediate_ind'; cbn [tail_work tail]; rewrite snd_wbind, snd_steps; cbn [bind]; try reflexivity; try (now apply seq_same).
  rewrite snd_wbind, seq_same by assumption. reflexivity.
Qed.
Lemma head_tail_same ms : snd (encode_head_tail_work p ms) = encode_head_tail p ms.
Proof. apply seq_same. apply Forall_forall. intros. apply tail_same. Qed.
Lemma any_same f g vs : Forall (fun v => snd (f v) = Ok (g v)) vs -> snd (any_work f vs) = Ok (existsb g vs).
Proof. induction 1 as [|v vs E H IH]; cbn [any_work existsb]; [reflexivity|]. rewrite snd_wbind, E. cbn [bind]. destruct (g v); [reflexivity|exact IH]. Qed.
Lemma is_dynamic_same v : snd (is_dynamic_work v) = Ok (token_is_dynamic v).
Proof. induction v using Token_ind'; cbn [is_dynamic_work token_is_dynamic]; rewrite snd_wbind, snd_steps; cbn [bind]; try reflexivity; now apply any_same. Qed.
Lemma bind_assoc A B C (r : res A) (f : A -> res B) (g : B -> res C) : bind (bind r f) g = bind r (fun a => bind (f a) g).
Proof. destruct r; reflexivity. Qed.
Lemma token_same v : snd (encode_token_work p v) = encode_token p v.
Proof.
  induction v using Token_ind'; cbn [encode_token_work]; rewrite snd_wbind, snd_steps; cbn [bind]; try reflexivity; try (rewrite snd_wbind, snd_made; cbn [encode_token]; rewrite ?bind_assoc; reflexivity).
  - rewrite snd_wbind, (@snd_map _ _ _ _ _ H). cbn [encode_token]. apply bind_ext. intros ms. rewrite snd_wbind, is_dynamic_same. cbn [bind]. destruct (token_is_dynamic _); [reflexivity|].
    rewrite snd_wbind, head_tail_same. reflexivity.
  - rewrite snd_wbind, (@snd_map _ _ _ _ _ H). reflexivity.
  - rewrite snd_wbind, is_dynamic_same. cbn [bind]. rewrite snd_wbind, (@snd_map _ _ _ _ _ H). cbn [encode_token]. apply bind_ext. intros ms. rewrite snd_steps. destruct (token_is_dynamic _); reflexivity.
Qed.
Lemma encode_same vs : snd (encode_work p vs) = encode p vs.
Proof.
  unfold encode_work, encode. rewrite snd_wbind, snd_steps. cbn [bind]. rewrite snd_wbind, (@snd_map _ _ _ (encode_token p)) by (apply Forall_forall; intros; apply token_same).
  apply bind_ext. intros ms. rewrite snd_wbind, head_tail_same. reflexivity.
Qed.
End Erase.

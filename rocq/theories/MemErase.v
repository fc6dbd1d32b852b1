(** * The two models of the encoder agree on what is encoded *)
From Verif Require Import Base Types Encoder BaseFacts EncoderMem.
Set Implicit Arguments.
Local Open Scope N_scope.
Local Open Scope list_scope.

(** Same result, unless the request for memory is what fails. *)
Definition erases (A C : Type) (r : res (A * C)) (s : res A) : Prop :=
  r = Panic \/ match r, s with Ok (a, _), Ok a' => a = a' | Err e, Err e' => e = e' | _, _ => False end.
Lemma erases_bind A B C D (r : res (A * C)) (s : res A) (f : A * C -> res (B * D)) (g : A -> res B) : erases r s -> (forall a c, erases (f (a, c)) (g a)) -> erases (bind r f) (bind s g).
Proof.
  intros [->|H] K; [left; reflexivity|]. destruct r as [[a c]|e|], s as [a'|e'|]; try contradiction; cbn [bind]; [subst; apply K|subst; right; reflexivity].
Qed.
Lemma erases_same A B C (r : res A) (f : A -> res (B * C)) (g : A -> res B) : (forall a, erases (f a) (g a)) -> erases (bind r f) (bind r g).
Proof. intros K. destruct r; cbn [bind]; [apply K|right; reflexivity|left; reflexivity]. Qed.
Lemma erases_capacity room n B C (f : N -> res (B * C)) (g : res B) : (forall a, erases (f a) g) -> erases (bind (with_capacity room n) f) g.
Proof. intros K. unfold with_capacity. destruct (32 * n <=? room); cbn [bind]; [apply K|left; reflexivity]. Qed.
Lemma erases_ok A C (a : A) (c : C) : erases (Ok (a, c)) (Ok a). Proof. right. reflexivity. Qed.

Section Erase.
Context (room : N) (p : profile).
Lemma pad_fixed_erases b : erases (pad_fixed_bytes_mem room b) (pad_fixed_bytes b).
Proof. unfold pad_fixed_bytes_mem. apply erases_capacity. intros c. destruct (pad_fixed_bytes b); cbn [bind]; [apply erases_ok|right; reflexivity|left; reflexivity]. Qed.
Lemma pad_erases b : erases (pad_bytes_mem room b) (pad_bytes b).
Proof. unfold pad_bytes_mem, pad_bytes. apply erases_bind; [apply pad_fixed_erases|]. intros. apply erases_ok. Qed.
Lemma tails_erase ms : Forall (fun m => erases (tail_mem room p m) (tail p m)) ms -> forall acc cs,
  erases (foldM (fun '(acc, cs) m => do (t, c) <- tail_mem room p m; Ok (acc ++ t, cs ++ c)) ms (acc, cs)) (foldM (fun acc m => do t <- tail p m; Ok (acc ++ t)) ms acc).
Proof.
  induction 1 as [|m ms Hm H IH]; intros acc cs; cbn [foldM]; [apply erases_ok|].
  apply (@erases_bind _ _ (list N) (list N)); [|intros a c; apply IH]. apply erases_bind; [exact Hm|]. intros. apply erases_ok.
Qed.
Lemma seq_erases ms : Forall (fun m => erases (tail_mem room p m) (tail p m)) ms -> erases (encode_head_tail_mem_with room p (tail_mem room p) ms) (encode_head_tail_with p (tail p) ms).
Proof.
  intros H. unfold encode_head_tail_mem_with, encode_head_tail_with. apply erases_same. intros hl. apply erases_capacity. intros c. apply erases_same. intros [hs l]. apply erases_same. intros d. apply erases_capacity. intros c'.
  apply erases_bind; [now apply tails_erase|]. intros. apply erases_ok.
Qed.
Fixpoint tail_erases (m : Mediate) : erases (tail_mem room p m) (tail p m).
Proof.
  assert (All : forall ms, Forall (fun m => erases (tail_mem room p m) (tail p m)) ms) by (induction ms as [|x l IH]; constructor; [apply tail_erases|exact IH]).
  destruct m; cbn [tail_mem tail]; try apply erases_ok; try (apply seq_erases, All). apply erases_bind; [apply seq_erases, All|]. intros. apply erases_ok.
Qed.
Lemma head_tail_erases ms : erases (encode_head_tail_mem room p ms) (encode_head_tail p ms).
Proof. apply seq_erases. apply Forall_forall. intros. apply tail_erases. Qed.
Lemma all_erases vs : Forall (fun v => erases (encode_token_mem room p v) (encode_token p v)) vs -> erases (all_mem (encode_token_mem room p) vs) (mapM (encode_token p) vs).
Proof.
  induction 1 as [|v vs Hv H IH]; cbn [all_mem mapM]; [apply erases_ok|]. apply erases_bind; [exact Hv|]. intros m c. apply erases_bind; [exact IH|]. intros. apply erases_ok.
Qed.
Lemma token_erases v : erases (encode_token_mem room p v) (encode_token p v).
Proof.
  induction v using Token_ind'; cbn [encode_token_mem encode_token]; try apply erases_ok.
  - apply erases_same. intros. apply erases_ok.
  - apply erases_bind; [apply pad_fixed_erases|]. intros. apply erases_ok.
  - apply erases_bind; [apply pad_erases|]. intros. apply erases_ok.
  - apply erases_bind; [apply pad_erases|]. intros. apply erases_ok.
  - apply erases_bind; [now apply all_erases|]. intros ms c. destruct (token_is_dynamic _); [apply erases_ok|]. apply erases_bind; [apply head_tail_erases|]. intros. apply erases_ok.
  - apply erases_bind; [now apply all_erases|]. intros. apply erases_ok.
  - apply erases_bind; [now apply all_erases|]. intros ms c. destruct (token_is_dynamic _); apply erases_ok.
Qed.
Lemma encode_erases vs : erases (encode_mem room p vs) (encode p vs).
Proof.
  unfold encode_mem, encode. apply erases_bind; [apply all_erases; apply Forall_forall; intros; apply token_erases|]. intros ms c. apply erases_bind; [apply head_tail_erases|]. intros. apply erases_ok.
Qed.
Lemma encode_mem_data vs data cs : encode_mem room p vs = Ok (data, cs) -> encode p vs = Ok data.
Proof. intros E. destruct (encode_erases vs) as [X|X]; rewrite E in X; [discriminate|]. destruct (encode p vs); try contradiction. now subst. Qed.
End Erase.

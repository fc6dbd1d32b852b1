(** * How many steps encoding takes *)
From Verif Require Import Base Types AbiSpec WrapSpec MemSpec EncWorkSpec Encoder BaseFacts EncoderFacts EncoderTotal WrapFacts EncoderWork EncWorkErase.
Set Implicit Arguments.
Local Open Scope N_scope.
Local Open Scope list_scope.

(** At most [n] steps, and exactly [n] steps with a result that is [P] if there is a result. *)
Definition costs (A : Type) (r : work A) (n : N) (P : A -> Prop) : Prop :=
  fst r <= n /\ forall a, snd r = Ok a -> fst r = n /\ P a.
Definition anything {A} (a : A) : Prop := True.
Lemma costs_eq A (r : work A) n n' P : costs r n P -> n = n' -> costs r n' P. Proof. now intros H ->. Qed.
Lemma costs_weaken A (r : work A) n (P Q : A -> Prop) : costs r n P -> (forall a, P a -> Q a) -> costs r n Q.
Proof. intros [L H] I. split; [exact L|]. intros a E. destruct (H a E) as [E' X]. auto. Qed.
Lemma costs_bind A B (r : work A) (k : A -> work B) n m (P : A -> Prop) (Q : B -> Prop) :
  costs r n P -> (forall a, P a -> costs (k a) m Q) -> costs (wbind r k) (n + m) Q.
Proof.
  intros [L H] K. unfold costs, wbind. destruct (snd r) as [a|e|]; cbn [fst snd].
  - destruct (H a eq_refl) as [-> X]. destruct (K a X) as [L' H']. split; [lia|]. intros b E. destruct (H' b E) as [-> Y]. auto.
  - split; [lia|]. discriminate.
  - split; [lia|]. discriminate.
Qed.
Lemma costs_step A (k : unit -> work A) n P : costs (k tt) n P -> costs (wbind (steps 1 (Ok tt)) k) (1 + n) P.
Proof. intros H. apply costs_bind with (P := anything); [split; [cbn; lia|]; intros [] _; split; [reflexivity|exact Logic.I]|]. now intros [] _. Qed.
Lemma costs_none A (r : res A) : costs (steps 0 r) 0 anything. Proof. split; [reflexivity|]. intros a _. split; [reflexivity|exact Logic.I]. Qed.
Lemma costs_ok A n (a : A) (P : A -> Prop) : P a -> costs (steps n (Ok a)) n P. Proof. intros H. split; [reflexivity|]. intros b [= <-]. split; [reflexivity|exact H]. Qed.
Lemma costs_made r n : (forall ws, r = Ok ws -> len ws = n) -> costs (made r) n (fun ws => len ws = n).
Proof.
  intros H. split.
  - cbn [made steps fst]. destruct r as [ws| |]; cbn; [rewrite (H _ eq_refl)|..]; lia.
  - cbn [made steps fst snd]. intros ws ->. rewrite (H _ eq_refl). split; reflexivity.
Qed.

Section Facts.
Context (p : profile).
(** [m] costs what [v] should *)
Definition like (v : Token) (m : Mediate) : Prop :=
  costs (head_len_work p m) (measuring_head v) anything /\
  costs (tail_len_work p m) (measuring_tail v) anything /\
  (forall o, costs (head_work m o) (writing_head v) (fun ws => len ws = head_room v)) /\
  costs (tail_work p m) (writing_tail v) (fun ws => len ws = tail_room v).

Lemma fold_costs A S (R : Token -> A -> Prop) (f : S -> A -> work S) (c : Token -> N) (Inv : N -> S -> Prop) (g : Token -> N) vs xs :
  Forall2 R vs xs -> (forall v x n s, R v x -> Inv n s -> costs (f s x) (c v) (Inv (n + g v))) ->
  forall n s, Inv n s -> costs (foldW f xs s) (sum_of c vs) (Inv (n + sum_of g vs)).
Proof.
  intros F H. induction F as [|v x vs xs X F IH]; intros n s I; cbn [foldW sum_of].
  - rewrite N.add_0_r. now apply costs_ok.
  - eapply costs_bind; [apply H; eassumption|]. intros s' I'. rewrite N.add_assoc. now apply IH.
Qed.
Lemma sum_of_ext f g vs : (forall v, f v = g v) -> sum_of f vs = sum_of g vs. Proof. intros E. induction vs as [|v vs IH]; cbn [sum_of]; congruence. Qed.
Lemma sum_of_plus f g vs : sum_of (fun v => f v + g v) vs = sum_of f vs + sum_of g vs.
Proof. induction vs as [|v vs IH]; cbn [sum_of]; [reflexivity|]. rewrite IH. lia. Qed.

Lemma measuring_costs vs ms : Forall2 like vs ms -> forall n, costs (foldW (fun acc m => wbind (head_len_work p m) (fun h => steps 0 (u32_add p acc h))) ms n) (sum_of measuring_head vs) anything.
Proof.
  intros F n. refine (@fold_costs _ _ like _ measuring_head (fun _ => anything) (fun _ => 0) _ _ F _ 0 n Logic.I).
  intros v m k s (H & _) _. eapply costs_eq; [eapply costs_bind; [exact H|]; intros; apply costs_none|lia].
Qed.
Lemma tails_costs vs ms : Forall2 like vs ms -> forall n,
  costs (foldW (fun acc m => wbind (head_len_work p m) (fun h => wbind (steps 0 (u32_add p acc h)) (fun a => wbind (tail_len_work p m) (fun t => steps 0 (u32_add p a t))))) ms n)
    (sum_of (fun v => measuring_head v + measuring_tail v) vs) anything.
Proof.
  intros F n. refine (@fold_costs _ _ like _ (fun v => measuring_head v + measuring_tail v) (fun _ => anything) (fun _ => 0) _ _ F _ 0 n Logic.I).
  intros v m k s (H & T & _) _. eapply costs_bind; [exact H|]. intros h _. eapply costs_eq; [eapply costs_bind; [apply costs_none|]; intros a _; eapply costs_bind; [exact T|]; intros; apply costs_none|lia].
Qed.
Lemma writing_costs vs ms : Forall2 like vs ms ->
  costs (encode_head_tail_work p ms) (writing vs) (fun ws => len ws = sum_of words vs).
Proof.
  intros F. unfold encode_head_tail_work, encode_head_tail_work_with.
  eapply costs_eq with (n := 1 + (sum_of measuring_head vs + (sum_of (fun v => writing_head v + (head_room v + measuring_tail v)) vs + (0 + (sum_of (fun v => writing_tail v + tail_room v) vs + sum_of tail_room vs))))).
  2:{ unfold writing, writing_with. rewrite !sum_of_plus. lia. }
  apply costs_step. eapply costs_bind; [apply measuring_costs; exact F|]. intros hl _.
  eapply costs_bind with (P := fun '(heads, _) => len heads = 0 + sum_of head_room vs).
  - apply (@fold_costs _ _ like _ (fun v => writing_head v + (head_room v + measuring_tail v)) (fun n '(heads, _) => len heads = n) head_room _ _ F); [|reflexivity].
    intros v m n [acc o] (H & T & W & _) E. eapply costs_bind; [apply W|]. intros ws L. cbn beta in L.
    eapply costs_bind with (P := anything); [rewrite L; now apply costs_ok|]. intros _ _.
    eapply costs_eq; [eapply costs_bind; [exact T|]; intros t _; eapply costs_bind; [apply costs_none|]; intros o' _; apply costs_ok; rewrite len_app; lia|lia].
  - intros [heads l] LH. eapply costs_bind; [apply costs_none|]. intros _ _.
    eapply costs_bind with (P := fun tails : list Word => len tails = 0 + sum_of tail_room vs).
    + apply (@fold_costs _ _ like _ (fun v => writing_tail v + tail_room v) (fun n (tails : list Word) => len tails = n) tail_room _ _ F); [|reflexivity].
      intros v m n acc (_ & _ & _ & W) E. eapply costs_bind; [exact W|]. intros t L. cbn beta in L. rewrite L. apply costs_ok. rewrite len_app. lia.
    + intros tails LT. cbn beta in LT. rewrite LT. apply costs_ok. rewrite len_app. unfold words. rewrite sum_of_plus. lia.
Qed.
Lemma any_costs vs : Forall (fun v => costs (is_dynamic_work v) (asking v) (fun b => b = dynamic_value v)) vs ->
  costs (any_work is_dynamic_work vs) (upto_dynamic asking vs) (fun b => b = existsb dynamic_value vs).
Proof.
  induction 1 as [|v vs H F IH]; cbn [any_work upto_dynamic existsb]; [now apply costs_ok|].
  eapply costs_bind; [exact H|]. intros b ->. destruct (dynamic_value v); [now apply costs_ok|exact IH].
Qed.
Lemma asking_costs v : costs (is_dynamic_work v) (asking v) (fun b => b = dynamic_value v).
Proof.
  induction v using Token_ind'; cbn [is_dynamic_work asking dynamic_value];
    try (apply (@costs_step _ _ 0); now apply costs_ok); apply costs_step; now apply any_costs.
Qed.
Lemma map_costs vs : Forall (fun v => costs (encode_token_work p v) (preparing v) (like v)) vs ->
  costs (mapW (encode_token_work p) vs) (sum_of preparing vs) (Forall2 like vs).
Proof.
  induction 1 as [|v vs H F IH]; cbn [mapW sum_of]; [now apply costs_ok|].
  eapply costs_bind; [exact H|]. intros m L. eapply costs_eq; [eapply costs_bind; [exact IH|]; intros ms Ls; apply costs_ok; now constructor|lia].
Qed.
Lemma pad_fixed_len b ws : pad_fixed_bytes b = Ok ws -> len ws = words_for (len b).
Proof.
  intros E. unfold pad_fixed_bytes in E. apply mapM_ok in E. apply Forall2_length in E. rewrite seq_length in E. unfold len at 1. rewrite <- E. unfold words_for. lia.
Qed.
Lemma pad_len b ws : pad_bytes b = Ok ws -> len ws = 1 + words_for (len b).
Proof. unfold pad_bytes. destruct (pad_fixed_bytes b) as [r| |] eqn:E; try discriminate. cbn [bind]. intros [= <-]. rewrite len_cons. now rewrite (pad_fixed_len _ E). Qed.
Ltac likely := split; [|split; [|split; [intros o|]]].
(** words without a tail *)
Lemma like_raw v ws : len ws = head_room v -> measuring_head v = 1 -> measuring_tail v = 1 -> writing_head v = 1 + head_room v -> writing_tail v = 1 -> tail_room v = 0 -> like v (Raw ws).
Proof.
  intros L E1 E2 E3 E4 E5. unfold like. rewrite E1, E2, E3, E4, E5. cbn [head_len_work tail_len_work head_work tail_work]. likely.
  1,2,4: apply (@costs_step _ _ 0); first [apply costs_none|now apply costs_ok].
  apply costs_step. apply costs_made. now intros ? [= <-].
Qed.
(** words that are a tail *)
Lemma like_prefixed v ws : len ws = tail_room v -> head_room v = 1 -> measuring_head v = 1 -> measuring_tail v = 1 -> writing_head v = 2 -> writing_tail v = 1 + tail_room v -> like v (Prefixed ws).
Proof.
  intros L E1 E2 E3 E4 E5. unfold like. rewrite E1, E2, E3, E4, E5. cbn [head_len_work tail_len_work head_work tail_work]. likely.
  1,2: apply (@costs_step _ _ 0); first [apply costs_none|now apply costs_ok].
  - apply (@costs_step _ _ 1). apply costs_made. now intros ? [= <-].
  - apply costs_step. apply costs_made. now intros ? [= <-].
Qed.
Lemma like_array vs ms : Forall2 like vs ms -> like (TArray vs) (PrefixedArrayWithLength ms).
Proof.
  intros F. unfold like. cbn [measuring_head measuring_tail writing_head writing_tail head_room tail_room head_len_work tail_len_work head_work tail_work]. likely.
  - apply (@costs_step _ _ 0). apply costs_none.
  - apply costs_step. now apply tails_costs.
  - apply (@costs_step _ _ 1). apply costs_made. now intros ? [= <-].
  - rewrite <- N.add_assoc. apply costs_step. eapply costs_bind; [apply (writing_costs F)|]. intros ws L. apply costs_made. intros ? [= <-]. rewrite len_cons, L. reflexivity.
Qed.
Lemma like_dynamic vs ms m v : m = PrefixedArray ms /\ v = TFixedArray vs \/ m = PrefixedTuple ms /\ v = TTuple vs -> existsb dynamic_value vs = true -> Forall2 like vs ms -> like v m.
Proof.
  intros [[-> ->]|[-> ->]] D F; unfold like; cbn [measuring_head measuring_tail writing_head writing_tail head_room tail_room head_len_work tail_len_work head_work tail_work]; rewrite D; likely.
  1,5: apply (@costs_step _ _ 0); apply costs_none.
  1,4: apply costs_step; now apply tails_costs.
  1,3: apply (@costs_step _ _ 1); apply costs_made; now intros ? [= <-].
  1,2: apply costs_step; apply (writing_costs F).
Qed.
Lemma like_tuple vs ms : existsb dynamic_value vs = false -> Forall2 like vs ms -> like (TTuple vs) (RawTuple ms).
Proof.
  intros D F; unfold like; cbn [measuring_head measuring_tail writing_head writing_tail head_room tail_room head_len_work tail_len_work head_work tail_work]; rewrite D; likely.
  - apply costs_step. now apply measuring_costs.
  - apply (@costs_step _ _ 0). apply costs_none.
  - apply costs_step. change (sum_of head_room vs) with (0 + sum_of head_room vs).
    apply (@fold_costs _ _ like _ (fun v => writing_head v + head_room v) (fun n (ws : list Word) => len ws = n) head_room _ _ F); [|reflexivity].
    intros v m n acc (_ & _ & W & _) E. eapply costs_bind; [apply W|]. intros ws L. cbn beta in L. rewrite L. apply costs_ok. rewrite len_app. lia.
  - apply (@costs_step _ _ 0). now apply costs_ok.
Qed.
Lemma static_room v : dynamic_value v = false -> words v = head_room v.
Proof. unfold words. destruct v; cbn [dynamic_value tail_room]; intros D; try discriminate; try rewrite D; lia. Qed.
Lemma static_rooms vs : existsb dynamic_value vs = false -> sum_of words vs = sum_of head_room vs.
Proof.
  induction vs as [|v vs IH]; cbn [existsb sum_of]; [reflexivity|]. intros D. apply Bool.orb_false_iff in D as [D1 D2]. now rewrite (static_room _ D1), (IH D2).
Qed.
Lemma preparing_costs v : costs (encode_token_work p v) (preparing v) (like v).
Proof.
  induction v using Token_ind'; cbn [encode_token_work preparing]; try rewrite <- !N.add_assoc; try apply costs_step.
  all: try (apply (@costs_step _ _ 1)).
  all: try (eapply costs_eq; [eapply costs_bind; [apply costs_made with (n := 1)|intros ws L; apply costs_ok; now apply like_raw]|reflexivity]; intros ws; try (now intros [= <-]); destruct (copy_from_slice _ _); cbn [bind]; try discriminate; now intros [= <-]).
  - eapply costs_eq; [eapply costs_bind; [apply costs_made; apply pad_fixed_len|intros ws L; apply costs_ok; now apply like_raw]|lia].
  - eapply costs_eq; [eapply costs_bind; [apply costs_made; apply pad_len|intros ws L; apply costs_ok; now apply like_prefixed]|lia].
  - eapply costs_eq; [eapply costs_bind; [apply costs_made; apply pad_len|intros ws L; apply costs_ok; now apply like_prefixed]|lia].
  - eapply costs_bind; [now apply map_costs|]. intros ms F. eapply costs_bind; [apply asking_costs|]. intros b ->. cbn [dynamic_value]. destruct (existsb dynamic_value vs) eqn:D; cbv beta iota.
    + apply costs_ok. eapply like_dynamic; eauto.
    + eapply costs_eq; [eapply costs_bind; [apply (writing_costs F)|]|apply N.add_0_r]. intros ws L. apply costs_ok. apply like_raw; cbn [measuring_head measuring_tail writing_head writing_tail head_room tail_room]; rewrite ?D; try reflexivity.
      rewrite L. now apply static_rooms.
  - eapply costs_eq; [eapply costs_bind; [now apply map_costs|]; intros ms F; apply costs_ok; now apply like_array|lia].
  - eapply costs_bind; [apply asking_costs|]. intros b ->. eapply costs_eq; [eapply costs_bind; [now apply map_costs|]; intros ms F; apply costs_ok|lia]. cbn [dynamic_value]. destruct (existsb dynamic_value vs) eqn:D.
    + eapply like_dynamic; eauto.
    + now apply like_tuple.
Qed.
Lemma encoding_costs vs : costs (encode_work p vs) (encoding vs) anything.
Proof.
  unfold encode_work, encoding. rewrite <- !N.add_assoc. apply costs_step. eapply costs_bind; [apply map_costs; apply Forall_forall; intros; apply preparing_costs|]. intros ms F.
  eapply costs_bind; [apply (writing_costs F)|]. intros ws L. cbn beta in L. rewrite L. now apply costs_ok.
Qed.
End Facts.

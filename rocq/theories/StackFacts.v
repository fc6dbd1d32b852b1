(** * How deep the calls are nested when a run succeeds *)
From Verif Require Import Base Utf8 Types Encoder Decoder AbiSpec WrapSpec BaseFacts EncoderFacts EncoderTotal DecoderFacts CodecLemmas WrapFacts EncWorkErase Stack StackErase StackSpec.
Set Implicit Arguments.
Local Open Scope N_scope.
Local Open Scope list_scope.

(** At most [n] calls, and exactly [n] calls with a result that is [P] if there is a result. *)
Definition reach (A : Type) (r : stack A) (n : N) (P : A -> Prop) : Prop :=
  fst r <= n /\ forall a, snd r = Ok a -> fst r = n /\ P a.
Definition anything {A} (a : A) : Prop := True.
Lemma reach_eq A (r : stack A) n n' P : reach r n P -> n = n' -> reach r n' P. Proof. now intros H ->. Qed.
Lemma reach_weaken A (r : stack A) n (P Q : A -> Prop) : reach r n P -> (forall a, P a -> Q a) -> reach r n Q.
Proof. intros [L H] K. split; [exact L|]. intros a E. destruct (H a E) as [E' X]. auto. Qed.
Lemma reach_bind A B (r : stack A) (k : A -> stack B) n m (P : A -> Prop) (Q : B -> Prop) :
  reach r n P -> (forall a, P a -> reach (k a) m Q) -> reach (sbind r k) (N.max n m) Q.
Proof.
  intros [L H] K. unfold reach, sbind. destruct (snd r) as [a|e|]; cbn [fst snd].
  - destruct (H a eq_refl) as [-> X]. destruct (K a X) as [L' H']. split; [lia|]. intros b E. destruct (H' b E) as [-> Y]. auto.
  - split; [lia|]. discriminate.
  - split; [lia|]. discriminate.
Qed.
Lemma reach_call A (r : stack A) n P : reach r n P -> reach (call r) (1 + n) P.
Proof. intros [L H]. split; cbn [call fst snd]; [lia|]. intros a E. destruct (H a E) as [-> X]. auto. Qed.
Lemma reach_none A (r : res A) : reach (leaf r) 0 anything. Proof. split; [reflexivity|]. intros a _. split; [reflexivity|exact Logic.I]. Qed.
Lemma reach_ok A (a : A) (P : A -> Prop) : P a -> reach (leaf (Ok a)) 0 P. Proof. intros H. split; [reflexivity|]. intros b [= <-]. split; [reflexivity|exact H]. Qed.
Lemma most_max A (f g : A -> N) l : most (fun x => N.max (f x) (g x)) l = N.max (most f l) (most g l).
Proof. induction l as [|x l IH]; cbn [most]; lia. Qed.
Lemma most_ext A (f g : A -> N) l : (forall x, f x = g x) -> most f l = most g l.
Proof. intros E. induction l as [|x l IH]; cbn [most]; [reflexivity|]. now rewrite E, IH. Qed.

(** ** Encoding *)
Section Encoding.
Context (p : profile).
(** the calls for [m] are those for [v] *)
Definition like (v : Token) (m : Mediate) : Prop :=
  reach (head_len_stack p m) (head_measured v) anything /\
  reach (tail_len_stack p m) (tail_measured v) anything /\
  (forall o, reach (head_stack m o) (head_written v) anything) /\
  reach (tail_stack p m) (tail_written v) anything.

Lemma fold_reach A S (R : Token -> A -> Prop) (f : S -> A -> stack S) (c : Token -> N) vs xs :
  Forall2 R vs xs -> (forall v x s, R v x -> reach (f s x) (c v) anything) -> forall s, reach (foldS f xs s) (most c vs) anything.
Proof.
  intros F H. induction F as [|v x vs xs X F IH]; intros s; cbn [foldS most]; [now apply reach_ok|].
  eapply reach_bind; [apply H; exact X|]. intros s' _. apply IH.
Qed.
Lemma heads_measured vs ms : Forall2 like vs ms -> forall n, reach (foldS (fun acc m => sbind (head_len_stack p m) (fun h => leaf (u32_add p acc h))) ms n) (most head_measured vs) anything.
Proof.
  intros F. apply (@fold_reach _ _ like _ _ _ _ F). intros v m s (H & _). eapply reach_eq; [eapply reach_bind; [exact H|]; intros; apply reach_none|lia].
Qed.
Lemma tails_measured vs ms : Forall2 like vs ms -> forall n,
  reach (foldS (fun acc m => sbind (head_len_stack p m) (fun h => sbind (leaf (u32_add p acc h)) (fun a => sbind (tail_len_stack p m) (fun t => leaf (u32_add p a t))))) ms n)
    (most (fun v => N.max (head_measured v) (tail_measured v)) vs) anything.
Proof.
  intros F. apply (@fold_reach _ _ like _ _ _ _ F). intros v m s (H & T & _). eapply reach_bind; [exact H|]. intros h _.
  eapply reach_eq; [eapply reach_bind; [apply reach_none|]; intros a _; eapply reach_bind; [exact T|]; intros; apply reach_none|lia].
Qed.
Lemma sequence_reach vs ms : Forall2 like vs ms -> reach (encode_head_tail_stack p ms) (sequence vs) anything.
Proof.
  intros F. unfold encode_head_tail_stack, encode_head_tail_stack_with, sequence, sequence_with. apply reach_call.
  eapply reach_eq with (n := N.max (most head_measured vs) (N.max (most (fun v => N.max (head_written v) (tail_measured v)) vs) (N.max 0 (N.max (most tail_written vs) 0)))).
  2:{ rewrite !most_max. lia. }
  eapply reach_bind; [apply heads_measured; exact F|]. intros hl _.
  eapply reach_bind.
  - apply (@fold_reach _ _ like _ _ _ _ F). intros v m [acc o] (_ & T & W & _). eapply reach_bind; [apply W|]. intros ws _.
    eapply reach_eq; [eapply reach_bind; [exact T|]; intros t _; eapply reach_bind; [apply reach_none|]; intros o' _; now apply reach_ok|lia].
  - intros [heads l] _. eapply reach_bind; [apply reach_none|]. intros _ _. eapply reach_bind.
    + apply (@fold_reach _ _ like _ _ _ _ F). intros v m acc (_ & _ & _ & W). eapply reach_eq; [eapply reach_bind; [exact W|]; intros; now apply reach_ok|apply N.max_0_r].
    + intros tails _. now apply reach_ok.
Qed.
Lemma any_reach A (f : A -> stack bool) q c l : Forall (fun x => reach (f x) (c x) (fun b => b = q x)) l ->
  reach (any_stack f l) (most_until q c l) (fun b => b = existsb q l).
Proof.
  induction 1 as [|v vs H F IH]; cbn [any_stack most_until existsb]; [now apply reach_ok|].
  eapply reach_bind; [exact H|]. intros b ->. destruct (q v); [now apply reach_ok|exact IH].
Qed.
Lemma asking_reach v : reach (is_dynamic_stack v) (asking_value v) (fun b => b = dynamic_value v).
Proof.
  induction v using Token_ind'; cbn [is_dynamic_stack asking_value dynamic_value];
    try (apply (@reach_call _ _ 0); now apply reach_ok); apply reach_call; now apply any_reach.
Qed.
Lemma map_reach vs : Forall (fun v => reach (encode_token_stack p v) (prepared v) (like v)) vs ->
  reach (mapS (encode_token_stack p) vs) (most prepared vs) (Forall2 like vs).
Proof.
  induction 1 as [|v vs H F IH]; cbn [mapS most]; [now apply reach_ok|].
  eapply reach_bind; [exact H|]. intros m L. eapply reach_eq; [eapply reach_bind; [exact IH|]; intros ms Ls; apply reach_ok; now constructor|apply N.max_0_r].
Qed.
Lemma pad_reach b : reach (pad_bytes_stack b) 2 anything.
Proof.
  unfold pad_bytes_stack. apply (@reach_call _ _ 1). apply (@reach_bind _ _ _ _ 1 1 anything); [apply (@reach_call _ _ 0), reach_none|]. intros w _.
  apply (@reach_bind _ _ _ _ 1 0 anything); [apply (@reach_call _ _ 0), reach_none|]. intros r _. now apply reach_ok.
Qed.
Ltac likely := split; [|split; [|split; [intros o|]]].
Lemma offset_reach o : reach (sbind (pad_u32_stack o) (fun w => leaf (Ok [w]))) 1 anything.
Proof. apply (@reach_bind _ _ _ _ 1 0 anything); [apply (@reach_call _ _ 0), reach_none|]. intros. now apply reach_ok. Qed.
Lemma like_raw v ws : head_measured v = 1 -> tail_measured v = 1 -> head_written v = 1 -> tail_written v = 1 -> like v (Raw ws).
Proof.
  intros E1 E2 E3 E4. unfold like. rewrite E1, E2, E3, E4. cbn [head_len_stack tail_len_stack head_stack tail_stack]. likely; apply (@reach_call _ _ 0); apply reach_none.
Qed.
Lemma like_prefixed v ws : head_measured v = 1 -> tail_measured v = 1 -> head_written v = 2 -> tail_written v = 1 -> like v (Prefixed ws).
Proof.
  intros E1 E2 E3 E4. unfold like. rewrite E1, E2, E3, E4. cbn [head_len_stack tail_len_stack head_stack tail_stack]. likely.
  1,2,4: apply (@reach_call _ _ 0); apply reach_none.
  apply (@reach_call _ _ 1), offset_reach.
Qed.
Lemma like_array vs ms : Forall2 like vs ms -> like (TArray vs) (PrefixedArrayWithLength ms).
Proof.
  intros F. unfold like. cbn [head_measured tail_measured head_written tail_written head_len_stack tail_len_stack head_stack tail_stack]. likely.
  - apply (@reach_call _ _ 0). apply reach_none.
  - apply reach_call. now apply tails_measured.
  - apply (@reach_call _ _ 1), offset_reach.
  - apply reach_call. eapply reach_eq; [eapply reach_bind; [apply (sequence_reach F)|]|]; [intros ws _; apply (@reach_bind _ _ _ _ 1 0 anything); [apply (@reach_call _ _ 0), reach_none|intros; now apply reach_ok]|].
    unfold sequence, sequence_with. lia.
Qed.
Lemma like_dynamic vs ms m v : m = PrefixedArray ms /\ v = TFixedArray vs \/ m = PrefixedTuple ms /\ v = TTuple vs -> existsb dynamic_value vs = true -> Forall2 like vs ms -> like v m.
Proof.
  intros [[-> ->]|[-> ->]] D F; unfold like; cbn [head_measured tail_measured head_written tail_written head_len_stack tail_len_stack head_stack tail_stack]; rewrite D; likely.
  1,5: apply (@reach_call _ _ 0); apply reach_none.
  1,4: apply reach_call; now apply tails_measured.
  1,3: apply (@reach_call _ _ 1), offset_reach.
  1,2: apply reach_call; apply (sequence_reach F).
Qed.
Lemma like_tuple vs ms : existsb dynamic_value vs = false -> Forall2 like vs ms -> like (TTuple vs) (RawTuple ms).
Proof.
  intros D F; unfold like; cbn [head_measured tail_measured head_written tail_written head_len_stack tail_len_stack head_stack tail_stack]; rewrite D; likely.
  - apply reach_call. now apply heads_measured.
  - apply (@reach_call _ _ 0). apply reach_none.
  - apply reach_call. apply (@fold_reach _ _ like _ _ _ _ F). intros v m acc (_ & _ & W & _). eapply reach_eq; [eapply reach_bind; [apply W|]; intros; now apply reach_ok|apply N.max_0_r].
  - apply (@reach_call _ _ 0). apply reach_none.
Qed.
Lemma prepared_reach v : reach (encode_token_stack p v) (prepared v) (like v).
Proof.
  induction v using Token_ind'; cbn [encode_token_stack prepared].
  all: try (apply (@reach_call _ _ 0); now (apply reach_ok; apply like_raw)).
  - apply (@reach_call _ _ 0). split; [reflexivity|]. cbn [leaf fst snd]. intros m E. apply bind_ok in E as (c & _ & E). injection E as <-. split; [reflexivity|now apply like_raw].
  - apply (@reach_call _ _ 1). apply (@reach_bind _ _ _ _ 1 0 anything); [apply (@reach_call _ _ 0), reach_none|]. intros ws _. apply reach_ok. now apply like_raw.
  - apply (@reach_call _ _ 2). apply (@reach_bind _ _ _ _ 2 0 anything); [apply pad_reach|]. intros ws _. apply reach_ok. now apply like_prefixed.
  - apply (@reach_call _ _ 2). apply (@reach_bind _ _ _ _ 2 0 anything); [apply pad_reach|]. intros ws _. apply reach_ok. now apply like_prefixed.
  - apply reach_call. eapply reach_bind; [now apply map_reach|]. intros ms F. eapply reach_bind; [apply asking_reach|]. intros b ->. cbn [dynamic_value]. destruct (existsb dynamic_value vs) eqn:D; cbv beta iota.
    + apply reach_ok. eapply like_dynamic; eauto.
    + eapply reach_eq; [eapply reach_bind; [apply (sequence_reach F)|]|apply N.max_0_r]. intros ws _. apply reach_ok. apply like_raw; cbn [head_measured tail_measured head_written tail_written]; rewrite ?D; reflexivity.
  - apply reach_call. eapply reach_eq; [eapply reach_bind; [now apply map_reach|]; intros ms F; apply reach_ok; now apply like_array|apply N.max_0_r].
  - apply reach_call. eapply reach_bind; [apply asking_reach|]. intros b ->. eapply reach_eq; [eapply reach_bind; [now apply map_reach|]; intros ms F; apply reach_ok|apply N.max_0_r]. cbn [dynamic_value]. destruct (existsb dynamic_value vs) eqn:D.
    + eapply like_dynamic; eauto.
    + now apply like_tuple.
Qed.
Lemma encoding_reach vs : reach (encode_stack p vs) (encoding_calls vs) anything.
Proof.
  unfold encode_stack, encoding_calls. apply reach_call. eapply reach_bind; [apply map_reach; apply Forall_forall; intros; apply prepared_reach|]. intros ms F.
  eapply reach_eq; [eapply reach_bind; [apply (sequence_reach F)|]; intros; now apply reach_ok|apply N.max_0_r].
Qed.
Lemma encoding_most vs : fst (encode_stack p vs) <= encoding_calls vs.
Proof. apply encoding_reach. Qed.
Lemma encoding_exact vs bytes : encode p vs = Ok bytes -> fst (encode_stack p vs) = encoding_calls vs.
Proof. rewrite <- encode_same. intros E. now apply (proj2 (encoding_reach vs)) in E as [E _]. Qed.
End Encoding.

(** ** Decoding *)
Lemma sbind_ok A B (r : stack A) (k : A -> stack B) b : snd (sbind r k) = Ok b -> exists a, snd r = Ok a /\ snd (k a) = Ok b /\ fst (sbind r k) = N.max (fst r) (fst (k a)).
Proof. unfold sbind. destruct (snd r) as [a|e|]; cbn [fst snd]; try discriminate. intros E. exists a. auto. Qed.
Lemma sbind_ext A B (r : stack A) (f g : A -> stack B) : (forall a, f a = g a) -> sbind r f = sbind r g.
Proof. intros E. unfold sbind. destruct (snd r); [now rewrite E|reflexivity|reflexivity]. Qed.
Lemma sbind_assoc A B C (r : stack A) (f : A -> stack B) (g : B -> stack C) : sbind (sbind r f) g = sbind r (fun a => sbind (f a) g).
Proof. unfold sbind. destruct (snd r) as [a|e|]; cbn [fst snd]; try reflexivity. destruct (snd (f a)); cbn [fst snd]; rewrite ?N.max_assoc; reflexivity. Qed.
Lemma foldS_app A S (f : S -> A -> stack S) l1 l2 s : foldS f (l1 ++ l2) s = sbind (foldS f l1 s) (foldS f l2).
Proof.
  revert s. induction l1 as [|x l1 IH]; intros s; cbn [app foldS].
  - unfold sbind. cbn [fst snd leaf]. rewrite N.max_0_l. now rewrite <- surjective_pairing.
  - rewrite sbind_assoc. apply sbind_ext. exact IH.
Qed.
Lemma iterS_fold A S (g : A -> S -> stack S) t n s : iterS (g t) n s = foldS (fun s x => g x s) (repeat t (N.to_nat n)) s.
Proof.
  destruct n as [|q]; [reflexivity|]. cbn [iterS N.to_nat]. revert s. induction q as [q IH|q IH|]; intros s; cbn [iterS_pos].
  - replace (Pos.to_nat q~1) with (1 + (Pos.to_nat q + Pos.to_nat q))%nat by lia. cbn [Nat.add repeat foldS]. apply sbind_ext. intros s'. rewrite repeat_app, foldS_app, IH. apply sbind_ext. exact IH.
  - replace (Pos.to_nat q~0) with (Pos.to_nat q + Pos.to_nat q)%nat by lia. rewrite repeat_app, foldS_app, IH. apply sbind_ext. exact IH.
  - change (Pos.to_nat 1) with 1%nat. cbn [repeat foldS]. unfold sbind. destruct (g t s) as [n [a|e|]]; cbn [fst snd leaf]; rewrite ?N.max_0_r; reflexivity.
Qed.
Lemma ask_type t : type_dynamic_stack t = (asking_type t, Ok (dynamic t)).
Proof.
  assert (H : reach (type_dynamic_stack t) (asking_type t) (fun b => b = dynamic t)).
  { induction t using ParamType_ind'; cbn [type_dynamic_stack asking_type dynamic]; try (apply (@reach_call _ _ 0); now apply reach_ok); apply reach_call; [exact IHt|now apply any_reach]. }
  pose proof (type_dynamic_same t) as E. destruct H as [_ H]. specialize (H _ E) as [E1 E2]. rewrite (surjective_pairing (type_dynamic_stack t)), E1, E, dynamic_eq. reflexivity.
Qed.

Section Decoding.
Context (p : profile).
Notation ds := (decode_param_stack p).
Definition loop (tl : list byte) := foldS (fun s t' => decode_step_stack (ds t' tl) s).
Lemma loop_iter t tl n s : iterS (decode_step_stack (ds t tl)) n s = loop tl (repeat t (N.to_nat n)) s.
Proof. apply (iterS_fold (fun t' => decode_step_stack (ds t' tl))). Qed.
Definition exactly (t : ParamType) : Prop := forall data pos v next, snd (ds t data pos) = Ok (v, next) -> fst (ds t data pos) = reading_calls t v.
Lemma loop_exactly ts : Forall exactly ts -> forall tl acc pos out next, snd (loop tl ts (acc, pos)) = Ok (out, next) ->
  exists vs, out = rev vs ++ acc /\ length vs = length ts /\ fst (loop tl ts (acc, pos)) = readings_calls ts vs.
Proof.
  induction 1 as [|t ts Ht H IH]; intros tl acc pos out next E; unfold loop in *; cbn [foldS] in *.
  - injection E as <- <-. exists []. cbn. auto.
  - apply sbind_ok in E as ([acc' pos'] & E1 & E2 & ->). cbn [decode_step_stack] in E1 |- *. apply sbind_ok in E1 as ([v o] & E3 & E4 & ->). cbn [leaf fst snd] in E4 |- *. injection E4 as <- <-.
    apply IH in E2 as (vs & -> & L & B). exists (v :: vs). cbn [rev List.length readings_calls]. rewrite <- app_assoc. split; [reflexivity|]. split; [now rewrite L|].
    apply Ht in E3. lia.
Qed.
Lemma readings_repeat t vs : readings_calls (repeat t (length vs)) vs = most (reading_calls t) vs.
Proof. induction vs as [|v vs IH]; [reflexivity|]. cbn [List.length repeat readings_calls most]. now rewrite IH. Qed.
Lemma peek_calls data pos : fst (peek_stack p data pos) = 2. Proof. reflexivity. Qed.
Ltac onward E a E1 := apply sbind_ok in E as (a & E1 & E & ->).
Ltac ending E := cbn [leaf call fst snd] in E |- *; apply bind_ok in E as (? & _ & E); injection E as <- <-; cbn [reading_calls]; try (cbn; lia).
Lemma exactly_all t : exactly t.
Proof.
  induction t using ParamType_ind'; intros data pos v next E; cbn [decode_param_stack] in *; rewrite snd_call in E; unfold call at 1; cbn [fst].
  all: try (onward E w E1; rewrite peek_calls; ending E; fail).
  - (* bytes *) onward E w E1. rewrite peek_calls. onward E o E2. onward E w' E3. rewrite peek_calls. onward E l E4. onward E s E5. onward E b E6. ending E.
  - (* bool *) onward E w E1. rewrite peek_calls. onward E b E2. ending E.
  - (* string *) onward E w E1. rewrite peek_calls. onward E o E2. onward E w' E3. rewrite peek_calls. onward E l E4. onward E s E5. onward E b E6. ending E.
  - (* array *) onward E w E1. rewrite peek_calls. onward E o E2. onward E w' E3. rewrite peek_calls. onward E l E4. onward E rest E5. onward E r E6. destruct r as [tokens q]. cbn [leaf fst snd] in E.
    apply bind_ok in E as (o' & _ & E). injection E as <- <-. rewrite loop_iter in E6 |- *. apply loop_exactly in E6 as (vs & -> & L & B); [|apply Forall_forall; intros x Hx; apply repeat_spec in Hx; now subst].
    rewrite repeat_length in L. rewrite B. rewrite <- L, readings_repeat. rewrite app_nil_r, rev_involutive. cbn [reading_calls]. cbn [as_usize_stack call leaf fst]. lia.
  - (* fixed bytes *) onward E b E1. ending E.
  - (* fixed array *) change (call (type_dynamic_stack t)) with (type_dynamic_stack (PFixedArray t n)) in *. rewrite ask_type in *. onward E d E0. cbn [fst snd] in E0 |- *. injection E0 as <-.
    onward E s E1. destruct s as [tl start].
    match type of E1 with snd ?x = _ => assert (E2 : fst x = if dynamic (PFixedArray t n) then 2 else 0) end.
    { cbn [dynamic]. destruct (dynamic t); [|reflexivity]. onward E1 w E3. onward E1 w' E4. reflexivity. }
    rewrite E2. onward E r E5. destruct r as [tokens q]. cbn [leaf fst snd] in E. apply bind_ok in E as (o' & _ & E). injection E as <- <-. rewrite loop_iter in E5 |- *.
    apply loop_exactly in E5 as (vs & -> & L & B); [|apply Forall_forall; intros x Hx; apply repeat_spec in Hx; now subst].
    rewrite repeat_length in L. rewrite B, <- L, readings_repeat. rewrite app_nil_r, rev_involutive. cbn [reading_calls leaf fst]. lia.
  - (* tuple *) change (call (any_stack type_dynamic_stack ts)) with (type_dynamic_stack (PTuple ts)) in *. rewrite ask_type in *. onward E d E0. cbn [fst snd] in E0 |- *. injection E0 as <-.
    onward E s E1. destruct s as [tl start].
    match type of E1 with snd ?x = _ => assert (E2 : fst x = if dynamic (PTuple ts) then 2 else 0) end.
    { cbn [dynamic]. destruct (existsb dynamic ts); [|reflexivity]. onward E1 w E3. onward E1 w' E4. reflexivity. }
    rewrite E2. onward E r E5. destruct r as [tokens q]. cbn [leaf fst snd] in E |- *. apply bind_ok in E as (o' & _ & E). injection E as <- <-.
    apply (loop_exactly H) in E5 as (vs & -> & L & B). rewrite app_nil_r, rev_involutive. cbn [reading_calls]. unfold loop in B. fold readings_calls. lia.
Qed.
Lemma readings_pos ts vs : length vs = length ts -> ts <> [] -> 2 <= readings_calls ts vs.
Proof.
  destruct ts as [|t ts], vs as [|v vs]; try discriminate; try congruence. intros _ _. cbn [readings_calls].
  enough (2 <= reading_calls t v) by lia. destruct t, v; cbn [reading_calls asking_type]; lia.
Qed.
Lemma all_empty_calls ts : fst (all_empty_stack ts) = match ts with [] => 0 | _ => 1 end.
Proof.
  induction ts as [|t ts IH]; [reflexivity|]. cbn [all_empty_stack]. unfold sbind. cbn [fst snd call leaf].
  destruct (is_empty_bytes_valid_encoding t); cbn [fst leaf]; [|reflexivity]. rewrite IH. destruct ts; reflexivity.
Qed.
Lemma decoding_exact ts data vs : decode p ts data = Ok vs -> fst (decode_stack p ts data) = decoding_calls ts vs.
Proof.
  rewrite <- decode_same. unfold decode_stack, decoding_calls. rewrite snd_call. unfold call. cbn [fst]. intros E. onward E valid E1. rewrite all_empty_calls. destruct (_ && _); [discriminate|].
  onward E r E2. destruct r as [tokens q]. cbn [leaf fst snd] in E |- *. injection E as <-.
  apply (@loop_exactly ts) in E2 as (vs & -> & L & B); [|apply Forall_forall; intros; apply exactly_all]. rewrite app_nil_r, rev_involutive. unfold loop in B. rewrite B.
  pose proof (@readings_pos ts vs L). destruct ts as [|t ts]; [cbn [readings_calls]; lia|]. specialize (H ltac:(discriminate)). lia.
Qed.
End Decoding.

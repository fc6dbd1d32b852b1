(** * How many steps decoding takes *)
From Verif Require Import Base Utf8 Types Encoder Decoder AbiSpec DecoderSpec BaseFacts EncoderFacts DecoderFacts DecoderProps BombSpec BombFacts EncoderWork EncWorkErase DecoderWork DecWorkErase DecWorkSpec.
Set Implicit Arguments.
Local Open Scope N_scope.
Local Open Scope list_scope.

Lemma wbind_ok A B (r : work A) (k : A -> work B) b : snd (wbind r k) = Ok b -> exists a, snd r = Ok a /\ snd (k a) = Ok b /\ fst (wbind r k) = fst r + fst (k a).
Proof. unfold wbind. destruct (snd r) as [a|e|]; cbn [fst snd]; try discriminate. intros E. exists a. auto. Qed.
Lemma wbind_ext A B (r : work A) (f g : A -> work B) : (forall a, f a = g a) -> wbind r f = wbind r g.
Proof. intros E. unfold wbind. destruct (snd r); [now rewrite E|reflexivity|reflexivity]. Qed.
Lemma wbind_assoc A B C (r : work A) (f : A -> work B) (g : B -> work C) : wbind (wbind r f) g = wbind r (fun a => wbind (f a) g).
Proof. unfold wbind. destruct (snd r) as [a|e|]; cbn [fst snd]; try reflexivity. destruct (snd (f a)); cbn [fst snd]; rewrite ?N.add_assoc; reflexivity. Qed.
Lemma foldW_app A S (f : S -> A -> work S) l1 l2 s : foldW f (l1 ++ l2) s = wbind (foldW f l1 s) (foldW f l2).
Proof.
  revert s. induction l1 as [|x l1 IH]; intros s; cbn [app foldW].
  - unfold wbind. cbn [fst snd steps]. now rewrite N.add_0_l, <- surjective_pairing.
  - rewrite wbind_assoc. apply wbind_ext. exact IH.
Qed.
Lemma iter_fold A S (g : A -> S -> work S) t n s : iterW (g t) n s = foldW (fun s x => g x s) (repeat t (N.to_nat n)) s.
Proof.
  destruct n as [|q]; [reflexivity|]. cbn [iterW N.to_nat]. revert s. induction q as [q IH|q IH|]; intros s; cbn [iterW_pos].
  - replace (Pos.to_nat q~1) with (1 + (Pos.to_nat q + Pos.to_nat q))%nat by lia. cbn [Nat.add repeat foldW]. apply wbind_ext. intros s'. rewrite repeat_app, foldW_app, IH. apply wbind_ext. exact IH.
  - replace (Pos.to_nat q~0) with (Pos.to_nat q + Pos.to_nat q)%nat by lia. rewrite repeat_app, foldW_app, IH. apply wbind_ext. exact IH.
  - change (Pos.to_nat 1) with 1%nat. cbn [repeat foldW]. unfold wbind. destruct (g t s) as [n [a|e|]]; cbn [fst snd steps]; rewrite ?N.add_0_r; reflexivity.
Qed.
Lemma atmost_bind A B (r : work A) (k : A -> work B) n m : fst r <= n -> (forall a, snd r = Ok a -> fst (k a) <= m) -> fst (wbind r k) <= n + m.
Proof. intros L K. unfold wbind. destruct (snd r) as [a|e|] eqn:E; cbn [fst]; [specialize (K a eq_refl)|..]; lia. Qed.
Lemma atmost_step A (k : unit -> work A) n : fst (k tt) <= n -> fst (wbind (steps 1 (Ok tt)) k) <= 1 + n.
Proof. intros L. apply atmost_bind; [reflexivity|]. now intros [] _. Qed.

(** ** Asking a type *)
Lemma any_type_steps ts : Forall (fun t => fst (type_dynamic_work t) = asking t) ts -> fst (any_type_work type_dynamic_work ts) = upto_dynamic asking ts.
Proof.
  induction 1 as [|t ts E H IH]; cbn [any_type_work upto_dynamic]; [reflexivity|]. unfold wbind. rewrite type_dynamic_same. cbn [fst snd]. rewrite E, dynamic_eq.
  destruct (dynamic t); cbn [fst steps]; lia.
Qed.
Lemma asking_steps t : fst (type_dynamic_work t) = asking t.
Proof.
  induction t using ParamType_ind'; cbn [type_dynamic_work asking]; unfold wbind; cbn [fst snd steps]; try reflexivity; f_equal; [exact IHt|now apply any_type_steps].
Qed.
Lemma ask t : type_dynamic_work t = (asking t, Ok (dynamic t)).
Proof. rewrite (surjective_pairing (type_dynamic_work t)), asking_steps, type_dynamic_same, dynamic_eq. reflexivity. Qed.

(** ** Text *)
Lemma lossy_bytes b : len b <= 4 * len (utf8_lossy b).
Proof.
  enough (G : forall n b, (List.length b <= n)%nat -> len b <= 4 * len (utf8_lossy b)) by (eapply G; reflexivity).
  clear b. induction n as [|n IH]; intros b L; (destruct b as [|b0 b]; [reflexivity|]); [cbn in L; lia|].
  cbn [List.length] in L. cbn [utf8_lossy].
  repeat match goal with
  | |- context [if ?c then _ else _] => destruct c
  | |- context [match ?l with [] => _ | _ => _ end] => is_var l; destruct l; cbn [List.length] in L
  end; rewrite !len_cons;
  try (match goal with |- context [utf8_lossy ?l] => let H := fresh in assert (H : len l <= 4 * len (utf8_lossy l)) by (apply IH; cbn [List.length]; lia); rewrite ?len_cons in H end); try lia.
Qed.

Section Facts.
Context (p : profile).
Notation dw := (decode_param_work p).
Definition loop (tl : list byte) := foldW (fun s t' => decode_step_work (dw t' tl) s).
Lemma loop_iter t tl n s : iterW (decode_step_work (dw t tl)) n s = loop tl (repeat t (N.to_nat n)) s.
Proof. apply (iter_fold (fun t' => decode_step_work (dw t' tl))). Qed.

(** ** Runs that succeed *)
Definition spent (t : ParamType) : Prop := forall data pos v next, snd (dw t data pos) = Ok (v, next) -> reading 1 t v <= fst (dw t data pos) <= reading 4 t v.
Lemma loop_spent ts : Forall spent ts -> forall tl acc pos out next, snd (loop tl ts (acc, pos)) = Ok (out, next) ->
  exists vs, out = rev vs ++ acc /\ length vs = length ts /\ readings 1 ts vs <= fst (loop tl ts (acc, pos)) <= readings 4 ts vs.
Proof.
  induction 1 as [|t ts Ht H IH]; intros tl acc pos out next E; unfold loop in *; cbn [foldW] in *.
  - injection E as <- <-. exists []. cbn. split; [reflexivity|]. split; [reflexivity|]. lia.
  - apply wbind_ok in E as ([acc' pos'] & E1 & E2 & ->). cbn [decode_step_work] in E1 |- *. apply wbind_ok in E1 as ([v o] & E3 & E4 & ->). cbn [steps fst snd] in E4 |- *. injection E4 as <- <-.
    apply IH in E2 as (vs & -> & L & B). exists (v :: vs). cbn [rev List.length readings]. rewrite <- app_assoc. split; [reflexivity|]. split; [now rewrite L|].
    apply Ht in E3. lia.
Qed.
Lemma readings_repeat k t vs : readings k (repeat t (length vs)) vs = total (fun v => reading k t v + 1) vs.
Proof. induction vs as [|v vs IH]; [reflexivity|]. cbn [List.length repeat readings total]. now rewrite IH. Qed.
Lemma peek_spent data pos : fst (peek_work p data pos) = 1. Proof. reflexivity. Qed.
Lemma take_spent data pos l b : snd (take_work p data pos l) = Ok b -> fst (take_work p data pos l) = 1 + len b.
Proof. unfold take_work. cbn [steps fst snd]. now intros ->. Qed.
Ltac onward E a E1 := apply wbind_ok in E as (a & E1 & E & ->).
Lemma spent_all t : spent t.
Proof.
  induction t using ParamType_ind'; intros data pos v next E; cbn [decode_param_work] in *; onward E x0 E0; cbn [steps fst snd] in E0 |- *; clear x0 E0.
  all: try (onward E w E1; rewrite peek_spent; cbn [steps fst snd] in E |- *; apply bind_ok in E as (o & _ & E); injection E as <- <-; cbn [reading]; lia).
  - (* bytes *) onward E w E1. rewrite peek_spent. onward E o E2. onward E w' E3. rewrite peek_spent. onward E s E4. destruct s as [l start]. onward E b E5. rewrite (take_spent _ _ _ E5). cbn [steps fst snd] in E |- *.
    apply bind_ok in E as (o' & _ & E). injection E as <- <-. cbn [reading]. lia.
  - (* bool *) onward E w E1. rewrite peek_spent. cbn [steps fst snd] in E |- *. apply bind_ok in E as (b & _ & E). apply bind_ok in E as (o & _ & E). injection E as <- <-. cbn [reading]. lia.
  - (* string *) onward E w E1. rewrite peek_spent. onward E o E2. onward E w' E3. rewrite peek_spent. onward E s E4. destruct s as [l start]. onward E b E5. rewrite (take_spent _ _ _ E5). onward E s E6. unfold lossy_work in E6 |- *. cbn [steps fst snd] in E, E6 |- *.
    injection E6 as <-. apply bind_ok in E as (o' & _ & E). injection E as <- <-. cbn [reading]. pose proof (lossy_len b). pose proof (lossy_bytes b). lia.
  - (* array *) onward E w E1. rewrite peek_spent. onward E o E2. onward E w' E3. rewrite peek_spent. onward E s E4. destruct s as [l tl]. onward E r E5. destruct r as [tokens q]. cbn [steps fst snd] in E |- *.
    apply bind_ok in E as (o' & _ & E). injection E as <- <-. rewrite loop_iter in E5 |- *. apply loop_spent in E5 as (vs & -> & L & B); [|apply Forall_forall; intros x Hx; apply repeat_spec in Hx; now subst].
    rewrite repeat_length in L. rewrite <- L, !readings_repeat in B. rewrite L in B. rewrite app_nil_r, rev_involutive. cbn [reading]. lia.
  - (* fixed bytes *) onward E b E1. rewrite (take_spent _ _ _ E1). cbn [steps fst snd] in E |- *. apply bind_ok in E as (o & _ & E). injection E as <- <-. cbn [reading]. lia.
  - (* fixed array *) change (wbind (steps 1 (Ok tt)) (fun _ => type_dynamic_work t)) with (type_dynamic_work (PFixedArray t n)) in *. rewrite ask in *. onward E d E0. cbn [fst snd] in E0 |- *. injection E0 as <-.
    onward E s E1. destruct s as [tl start].
    match type of E1 with snd ?x = _ => assert (E2 : fst x = offset_word (PFixedArray t n)) end.
    { unfold offset_word. cbn [dynamic]. destruct (dynamic t); [|reflexivity]. onward E1 w E3. rewrite peek_spent. reflexivity. }
    rewrite E2. onward E r E5. destruct r as [tokens q]. cbn [steps fst snd] in E |- *. apply bind_ok in E as (o' & _ & E). injection E as <- <-. rewrite loop_iter in E5 |- *.
    apply loop_spent in E5 as (vs & -> & L & B); [|apply Forall_forall; intros x Hx; apply repeat_spec in Hx; now subst].
    rewrite repeat_length in L. rewrite <- L, !readings_repeat in B. rewrite L in B. rewrite app_nil_r, rev_involutive. cbn [reading]. lia.
  - (* tuple *) change (wbind (steps 1 (Ok tt)) (fun _ => any_type_work type_dynamic_work ts)) with (type_dynamic_work (PTuple ts)) in *. rewrite ask in *. onward E d E0. cbn [fst snd] in E0 |- *. injection E0 as <-.
    onward E s E1. destruct s as [tl start].
    match type of E1 with snd ?x = _ => assert (E2 : fst x = offset_word (PTuple ts)) end.
    { unfold offset_word. cbn [dynamic]. destruct (existsb dynamic ts); [|reflexivity]. onward E1 w E3. rewrite peek_spent. reflexivity. }
    rewrite E2. onward E r E5. destruct r as [tokens q]. cbn [steps fst snd] in E |- *. apply bind_ok in E as (o' & _ & E). injection E as <- <-.
    apply (loop_spent H) in E5 as (vs & -> & L & B). rewrite app_nil_r, rev_involutive. cbn [reading]. unfold loop in B. fold (readings 1) (readings 4). lia.
Qed.
Lemma all_empty_steps ts : fst (all_empty_work ts) = upto_sized ts.
Proof.
  induction ts as [|t ts IH]; cbn [all_empty_work upto_sized]; [reflexivity|]. unfold wbind. cbn [fst snd steps].
  destruct t as [| | | | | | |n| ? n|]; cbn [is_empty_bytes_valid_encoding]; try reflexivity; destruct n as [|n]; cbn [N.eqb]; cbn [fst steps]; rewrite ?IH; reflexivity.
Qed.
Lemma decode_spent ts data vs : decode p ts data = Ok vs -> decoding 1 ts vs <= fst (decode_work p ts data) <= decoding 4 ts vs.
Proof.
  rewrite <- decode_same. unfold decode_work, decoding. intros E. onward E x0 E0. cbn [steps fst snd] in E0 |- *. clear x0 E0. onward E valid E1. rewrite all_empty_steps. destruct (_ && _); [discriminate|].
  onward E r E2. destruct r as [tokens q]. cbn [steps fst snd] in E |- *. injection E as <-.
  apply (@loop_spent ts) in E2 as (vs & -> & _ & B); [|apply Forall_forall; intros; apply spent_all]. rewrite app_nil_r, rev_involutive. unfold loop in B. lia.
Qed.
End Facts.

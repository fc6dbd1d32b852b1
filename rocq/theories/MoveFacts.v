(** * No value is used after it has been moved *)
From Verif Require Import Base BaseFacts StrFacts RustSyntax RustCheck SoundFacts SoundEval MoveSpec.
From Coq Require Import String Lia.
Set Implicit Arguments.
Notation length := List.length.
Notation obind := RustCheck.obind.
Notation tenv := (list (str * bool * rt * bool)).
Local Open Scope list_scope.

Lemma copied_iff t : copied t = true <-> copies t.
Proof.
  induction t as [t H HT] using rt_all. split; intros C.
  - destruct t; try discriminate C; try (apply cp_plain; cbn [In]; auto 10; fail); [..|idtac]; first [apply cp_ref|apply cp_arr|apply cp_option|apply cp_tuple|idtac].
    + apply H. exact C.
    + specialize (HT l eq_refl). cbn [copied] in C. rewrite forallb_forall in C. rewrite Forall_forall in *. intros t I. apply HT; auto.
    + apply H. exact C.
  - inversion C as [? I|?|? ? C'|? C'|? F]; subst; cbn [copied one] in *; try reflexivity.
    + repeat (destruct I as [<-|I]; [reflexivity|]). destruct I.
    + now apply H.
    + now apply H.
    + specialize (HT l eq_refl). apply forallb_forall. rewrite Forall_forall in *. intros t I. apply HT; auto.
Qed.

(** Whether [x] has its value after [l]; [nc]: it is not copied *)
Fixpoint after (x : str) (nc : bool) (h : bool) (l : list (str * bool)) : option bool :=
  match l with
  | [] => Some h
  | (y, o) :: l' => if str_eqb x y then if h then after x nc (negb (o && nc)) l' else None else after x nc h l'
  end.
Lemma after_app x nc l l' : forall h, after x nc h (l ++ l') = let? h1 := after x nc h l in after x nc h1 l'.
Proof. induction l as [|[y o] l IH]; intros h; [reflexivity|]. cbn [after app]. destruct (str_eqb x y); [|apply IH]. destruct h; [apply IH|reflexivity]. Qed.
Lemma after_without x nc y l : forall h, after x nc h (without y l) = if str_eqb x y then Some h else after x nc h l.
Proof.
  induction l as [|[z o] l IH]; intros h; cbn [without filter after fst]; [now destruct (str_eqb x y)|]. fold (without y l). destruct (str_eqb y z) eqn:E; cbn [negb].
  - apply str_eqb_eq in E. subst z. rewrite IH. destruct (str_eqb x y); reflexivity.
  - cbn [after]. destruct (str_eqb x z) eqn:E2; [|apply IH]. apply str_eqb_eq in E2. subst z. destruct (str_eqb x y) eqn:E3; [apply str_eqb_eq in E3; subst y; now rewrite str_eqb_refl in E|]. destruct h; [apply IH|reflexivity].
Qed.
Lemma after_false x nc l h : after x nc false l = Some h -> forall h1, after x nc h1 l = Some h1.
Proof. induction l as [|[y o] l IH]; [reflexivity|]. cbn [after]. destruct (str_eqb x y); [discriminate|exact IH]. Qed.
Lemma after_once x l1 l2 h h' : after x true h (l1 ++ (x, true) :: l2) = Some h' -> forall b, ~ In (x, b) l2.
Proof.
  rewrite after_app. intros E. apply obind_some in E as (h1 & _ & E). cbn [after] in E. rewrite str_eqb_refl in E. destruct h1; [|discriminate]. cbn [negb andb] in E. clear h. intros b I. induction l2 as [|[y o] l2 IH]; [destruct I|]. cbn [after] in E. destruct (str_eqb x y) eqn:X; [discriminate|]. destruct I as [I|I]; [injection I as <- _; now rewrite str_eqb_refl in X|exact (IH E I)].
Qed.

(** ** Positions *)
Definition name_of (d : str * bool * rt * bool) : str := fst (fst (fst d)).
Definition hidden (s : tenv) (i : nat) (x : str) : bool := existsb (str_eqb x) (map name_of (firstn i s)).
Lemma hidden_shape s s' i x : shape s = shape s' -> hidden s i x = hidden s' i x.
Proof.
  unfold hidden. intros E. f_equal. revert s' i E. induction s as [|a s IH]; intros [|a' s'] i E; try discriminate; [reflexivity|]. destruct i; [reflexivity|]. unfold shape in E. cbn [map] in E. injection E as E1 E2. cbn [firstn map]. unfold name_of at 1 3. rewrite E1. f_equal. now apply IH.
Qed.
Lemma nth_moved s x : forall i y m u h, nth_error s i = Some (y, m, u, h) -> nth_error (moved s x) i = Some (y, m, u, if str_eqb x y && negb (hidden s i y) then false else h).
Proof.
  induction s as [|[[[z m0] u0] h0] s IH]; intros [|i] y m u h E; try discriminate; cbn [nth_error] in E.
  - injection E as -> -> -> ->. cbn [moved]. destruct (str_eqb x y); reflexivity.
  - cbn [moved]. destruct (str_eqb x z) eqn:X.
    + cbn [nth_error]. rewrite E. unfold hidden. cbn [firstn map existsb name_of fst]. destruct (str_eqb x y) eqn:Y; [|reflexivity]. apply str_eqb_eq in X, Y. subst y z. rewrite str_eqb_refl. reflexivity.
    + cbn [nth_error]. rewrite (IH _ _ _ _ _ E). unfold hidden. cbn [firstn map existsb name_of fst]. destruct (str_eqb x y) eqn:Y; [|reflexivity]. apply str_eqb_eq in Y. subst y. rewrite X. reflexivity.
Qed.
Lemma nth_lookup s i x m u h : nth_error s i = Some (x, m, u, h) -> hidden s i x = false -> tlookup s x = Some (m, u, h).
Proof.
  revert i. induction s as [|[[[z m0] u0] h0] s IH]; intros [|i] E H; try discriminate; cbn [nth_error tlookup] in *.
  - injection E as -> -> -> ->. now rewrite str_eqb_refl.
  - unfold hidden in H. cbn [firstn map existsb name_of fst] in H. apply orb_false_iff in H as [H1 H2]. rewrite H1. exact (IH _ E H2).
Qed.
Lemma nth_skip A (l : list A) k i : nth_error (skipn k l) i = nth_error l (k + i).
Proof. revert l. induction k as [|k IH]; intros [|a l]; cbn [skipn plus nth_error]; [reflexivity|reflexivity|now destruct i|apply IH]. Qed.

Section Moves.
Context (c : ctx) (gs : list generic) (ret : rt).
Notation inf := (infer c gs ret).
Definition follows (s s1 : tenv) (l : list (str * bool)) : Prop :=
  shape s1 = shape s /\ forall i x m u h, nth_error s i = Some (x, m, u, h) -> exists h', nth_error s1 i = Some (x, m, u, h') /\ after x (negb (copied u)) h (if hidden s i x then [] else l) = Some h'.
Definition moves (e : expr) : Prop := forall own s t s1, inf e own s = Some (t, s1) -> follows s s1 (uses e own).
Lemma follows_nil s : follows s s [].
Proof. split; [reflexivity|]. intros i x m u h E. exists h. split; [exact E|]. destruct (hidden _ _ _); reflexivity. Qed.
Lemma follows_app s s1 s2 l l' : follows s s1 l -> follows s1 s2 l' -> follows s s2 (l ++ l').
Proof.
  intros [S1 F1] [S2 F2]. split; [congruence|]. intros i x m u h E. destruct (F1 _ _ _ _ _ E) as (h1 & E1 & A1). destruct (F2 _ _ _ _ _ E1) as (h2 & E2 & A2). exists h2. split; [exact E2|]. rewrite (hidden_shape _ _ i x S1) in A2. destruct (hidden s i x); [cbn in *; congruence|]. rewrite after_app, A1. exact A2.
Qed.
Lemma follows_seq A B (f : A -> tenv -> option (B * tenv)) (g : A -> list (str * bool)) l : Forall (fun a => forall s b s1, f a s = Some (b, s1) -> follows s s1 (g a)) l -> forall s r s1, seqO f l s = Some (r, s1) -> follows s s1 (List.concat (map g l)).
Proof.
  induction 1 as [|a l H _ IH]; intros s r s1 E; cbn [seqO] in E; [injection E as _ <-; apply follows_nil|]. fold (seqO f) in E. apply obind_some in E as ([b s2] & E1 & E). apply obind_some in E as ([bs s3] & E2 & E). injection E as _ <-. cbn [map List.concat]. eapply follows_app; [exact (H _ _ _ E1)|exact (IH _ _ _ E2)].
Qed.
Definition uses_block (e : expr) : list (binder * expr) -> list (str * bool) :=
  fix go l := match l with [] => uses e true | x :: l' => uses (snd x) true ++ unbound (fst x) (go l') end.
Lemma block_moves l e : Forall (fun x => moves (snd x)) l -> moves e -> forall s t s1, block c gs ret e l s = Some (t, s1) -> follows s (tleave s s1) (uses_block e l).
Proof.
  intros F K. assert (KK : forall l s t s1, block c gs ret e l s = Some (t, s1) -> (length s <= length s1)%nat /\ shape (tleave s s1) = shape s).
  { intros l0 s t s1 E. apply (@block_keeps c gs ret l0 e) with (t := t); [|apply infer_keeps|exact E]. apply Forall_forall. intros x _. apply infer_keeps. }
  induction F as [|[b x] l H _ IH]; intros s t s1 E; (split; [exact (proj2 (KK _ _ _ _ E))|]); cbn [block uses_block] in *.
  - destruct (K _ _ _ _ E) as [S F]. apply shape_length in S. unfold tleave. rewrite S, Nat.sub_diag. exact F.
  - apply obind_some in E as ([t1 s2] & E1 & E). cbn [fst snd] in *. destruct (H _ _ _ _ E1) as [S2 F2]. pose proof (shape_length _ _ S2) as L2. destruct (KK _ _ _ _ E) as [L _]. specialize (IH _ _ _ E) as [_ IH]. intros i y m u h Ey. destruct (F2 _ _ _ _ _ Ey) as (h1 & Ey1 & A1).
    assert (Z : forall m0 z, b = Let z \/ b = LetMut z -> tbind b t1 s2 = (z, m0, t1, true) :: s2 -> exists h', nth_error (tleave s s1) i = Some (y, m, u, h') /\ after y (negb (copied u)) h (if hidden s i y then [] else uses x true ++ unbound b (uses_block e l)) = Some h').
    { intros m0 z Bz Tz. rewrite Tz in IH, L. cbn [length] in L. destruct (IH (S i) y m u h1 Ey1) as (h' & En & A'). exists h'. split.
      - rewrite <- En. unfold tleave. rewrite !nth_skip. f_equal. cbn [length]. lia.
      - unfold hidden in A'. cbn [firstn map existsb name_of fst] in A'. fold (hidden s2 i y) in A'. rewrite (hidden_shape _ _ i y S2) in A'. destruct (hidden s i y); [rewrite orb_true_r in A'; cbn in *; congruence|]. rewrite orb_false_r in A'. rewrite after_app, A1. cbn [obind].
        replace (unbound b (uses_block e l)) with (without z (uses_block e l)) by (destruct Bz as [-> | ->]; reflexivity). rewrite after_without. destruct (str_eqb y z); exact A'. }
    destruct b as [z|z|]; [apply (Z false z); auto|apply (Z true z); auto|]. clear Z. cbn [tbind unbound] in *. destruct (IH i y m u h1 Ey1) as (h' & En & A'). exists h'. split; [unfold tleave in *; now rewrite L2 in En|]. rewrite (hidden_shape _ _ i y S2) in A'. destruct (hidden s i y); [cbn in *; congruence|]. rewrite after_app, A1. exact A'.
Qed.
Lemma nth_lost s i x m u h : nth_error s i = Some (x, m, u, h) -> nth_error (lost s) i = Some (x, m, u, false).
Proof. intros E. unfold lost. exact (map_nth_error _ _ _ E). Qed.
Lemma closure_moves a x body s r s1 : moves body -> inf body true ((x, false, a, true) :: lost s) = Some (r, s1) -> follows s s (without x (uses body true)).
Proof.
  intros K E. split; [reflexivity|]. intros i y m u h Ey. exists h. split; [exact Ey|]. destruct (hidden s i y) eqn:Hd; [reflexivity|]. rewrite after_without. destruct (str_eqb y x) eqn:X; [reflexivity|]. destruct (K _ _ _ _ E) as [_ F]. destruct (F (S i) y m u false (nth_lost _ _ Ey)) as (h' & _ & A'). unfold hidden in A'. cbn [firstn map existsb name_of fst] in A'. rewrite X in A'. fold (hidden (lost s) i y) in A'. rewrite (hidden_shape _ s i y (shape_lost s)), Hd in A'. cbn [orb] in A'. exact (after_false _ _ _ A' h).
Qed.
Lemma infer_moves e : moves e.
Proof.
  induction e as [e H] using expr_all. intros own s t s1 E.
  assert (SL : forall l, Forall moves l -> forall s r s1, seqO (fun e s => inf e true s) l s = Some (r, s1) -> follows s s1 (List.concat (map (fun a => uses a true) l))) by (intros l F; apply follows_seq; eapply Forall_impl; [|exact F]; intros a K s2 b s3; apply K).
  assert (SR : forall l, Forall (fun x : str * expr => moves (snd x)) l -> forall s r s1, seqO (fun (x : str * expr) s => let? (t, s1) := inf (snd x) true s in Some ((fst x, t), s1)) l s = Some (r, s1) -> follows s s1 (List.concat (map (fun x => uses (snd x) true) l))).
  { intros l F. apply follows_seq. eapply Forall_impl; [|exact F]. intros a K s2 b s3 Q. apply obind_some in Q as ([t' s'] & Q & Q'). injection Q' as _ <-. exact (K _ _ _ _ Q). }
  destruct e; cbn [parts] in H; cbn [infer uses] in *.
  - assert (N : forall q, (if is_path q ["INTERNAL_ERR"%string] then if cx_err c then Some (SRef SStr, s) else None else let? t := at_name q constants in Some (t, s)) = Some (t, s1) -> s1 = s).
    { intros q Q. destruct (is_path q _); [destruct (cx_err c); congruence|]. apply obind_some in Q as (? & _ & Q). congruence. }
    destruct p as [|x [|y p]]; [rewrite (N [] E); apply follows_nil| |rewrite (N (x :: y :: p) E); apply follows_nil].
    destruct (tlookup s x) as [[[m t'] here]|] eqn:Lk.
    + destruct here; [|discriminate]. injection E as <- <-. split; [destruct (own && _); [apply shape_moved|reflexivity]|]. intros i y m0 u h Ey. destruct (hidden s i y) eqn:Hd.
      * exists h. split; [|reflexivity]. destruct (own && _); [|exact Ey]. rewrite (nth_moved _ x _ Ey), Hd. cbn [negb]. now rewrite andb_false_r.
      * cbn [after]. destruct (str_eqb y x) eqn:X.
        -- apply str_eqb_eq in X. subst y. pose proof (nth_lookup _ _ Ey Hd) as L. rewrite Lk in L. injection L as <- <- <-. exists (negb (own && negb (copied t'))). split; [|reflexivity]. destruct (own && negb (copied t')); [|exact Ey]. rewrite (nth_moved _ x _ Ey), Hd, str_eqb_refl. reflexivity.
        -- exists h. split; [|reflexivity]. destruct (own && _); [|exact Ey]. rewrite (nth_moved _ x _ Ey). destruct (str_eqb x y) eqn:X2; [apply str_eqb_eq in X2; subst y; now rewrite str_eqb_refl in X|reflexivity].
    + rewrite (N [x] E). split; [reflexivity|]. intros i y m0 u h Ey. exists h. split; [exact Ey|]. destruct (hidden s i y) eqn:Hd; [reflexivity|]. cbn [after]. destruct (str_eqb y x) eqn:X; [|reflexivity]. apply str_eqb_eq in X. subst y. rewrite (nth_lookup _ _ Ey Hd) in Lk. discriminate.
  - injection E as _ <-. apply follows_nil.
  - assert (s1 = s) as -> by (cases E; congruence). apply follows_nil.
  - injection E as _ <-. apply follows_nil.
  - assert (E' : exists a, seqO (fun e s => inf e true s) args s = Some a /\ (let (ts, s2) := a in obind (call_type c p ts) (fun t => Some (t, s2))) = Some (t, s1)).
    { destruct p as [|x [|y p]]; [|destruct (tlookup s x); [discriminate|]|]; apply obind_some in E; exact E. }
    destruct E' as ([ts s2] & E1 & E2). apply obind_some in E2 as (? & _ & E2). injection E2 as _ <-. exact (SL _ H _ _ _ E1).
  - destruct H as [H1 H2]. apply obind_some in E as ([t1 s2] & E1 & E). pose proof (H1 _ _ _ _ E1) as S1. destruct (str_eqb m (lit "map")).
    + destruct t1; try discriminate E. destruct turbofish; [|discriminate E]. destruct args as [|a [|]]; try discriminate E; try (destruct a; discriminate E). destruct a; try discriminate E. destruct (is_path p _) eqn:P; [|discriminate E]. apply is_path_eq in P. subst p. apply obind_some in E as (? & _ & E). injection E as _ <-. cbn. rewrite app_nil_r. exact S1.
    + apply obind_some in E as ([ts s3] & E2 & E). apply obind_some in E as (r & _ & E). assert (s1 = s3) as -> by (clear -E; cases E; congruence). eapply follows_app; [exact S1|exact (SL _ H2 _ _ _ E2)].
  - destruct H as [H1 H2]. apply obind_some in E as ([t1 s2] & E1 & E). pose proof (H1 _ _ _ _ E1) as S1. destruct t1; try discriminate E; apply obind_some in E as ([? ?] & E2 & E); injection E as _ <-; (eapply follows_app; [exact S1|exact (@closure_moves _ _ _ _ _ _ H2 E2)]).
  - apply obind_some in E as ([t1 s2] & E1 & E). apply obind_some in E as (? & _ & E). injection E as _ <-. exact (H _ _ _ _ E1).
  - apply obind_some in E as ([t1 s2] & E1 & E). apply obind_some in E as (? & _ & E). destruct own; [discriminate|]. injection E as _ <-. exact (H _ _ _ _ E1).
  - apply obind_some in E as ([t1 s2] & E1 & E). assert (s1 = s2) as -> by (clear -E; cases E; congruence). exact (H _ _ _ _ E1).
  - apply obind_some in E as ([t1 s2] & E1 & E). injection E as _ <-. exact (H _ _ _ _ E1).
  - apply obind_some in E as ([t1 s2] & E1 & E). assert (s1 = s2) as -> by (clear -E; cases E; congruence). exact (H _ _ _ _ E1).
  - destruct l as [|x [|y l]]; [injection E as _ <-; apply follows_nil|discriminate|]. apply obind_some in E as ([ts s2] & E1 & E). injection E as _ <-. exact (SL _ H _ _ _ E1).
  - apply obind_some in E as ([ts s2] & E1 & E). apply obind_some in E as (? & _ & E). injection E as _ <-. exact (SL _ H _ _ _ E1).
  - apply obind_some in E as ([t1 s2] & E1 & E). assert (s1 = s2) as -> by (clear -E; cases E; congruence). exact (H _ _ _ _ E1).
  - apply obind_some in E as ([ts s2] & E1 & E). apply obind_some in E as (? & _ & E). injection E as _ <-. exact (SL _ H _ _ _ E1).
  - destruct H as [H1 H2]. apply obind_some in E as ([t1 s2] & E1 & E). injection E as _ <-. exact (@block_moves _ _ H1 H2 _ _ _ E1).
  - apply obind_some in E as ([ts s2] & E1 & E). apply obind_some in E as (? & _ & E). injection E as _ <-. exact (SR _ H _ _ _ E1).
  - apply obind_some in E as ([ts s2] & E1 & E). apply obind_some in E as (? & _ & E). injection E as _ <-. exact (SR _ H _ _ _ E1).
  - apply obind_some in E as ([ts s2] & E1 & E). apply obind_some in E as (? & _ & E). injection E as _ <-. exact (SR _ H _ _ _ E1).
Qed.
End Moves.

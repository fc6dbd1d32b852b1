(** * The type name reader: fuel is never exhausted; when it does not panic *)
From Verif Require Import Base Types TypeNames TypeNamesSpec BaseFacts StrFacts TypeNamesFacts ReaderFacts.
From Coq Require Import String.
From Coq Require Import ZifyBool ZifyNat ZifyN.
Set Implicit Arguments.
Local Open Scope N_scope.
Local Open Scope list_scope.
Notation length := List.length.

Lemma str_slice_not_err s a b e : str_slice s a b <> Err e.
Proof. unfold str_slice. destruct (_ <? _); [discriminate|]. destruct (str_split s a) as [[]|]; [|discriminate]. destruct (str_split _ _) as [[]|]; discriminate. Qed.
Lemma str_from_not_err s a e : str_from s a <> Err e.
Proof. unfold str_from. destruct (str_split s a) as [[]|]; discriminate. Qed.
Lemma usize_sub_not_err p a b e : usize_sub p a b <> Err e.
Proof. unfold usize_sub. destruct (_ <=? _); [discriminate|]. destruct p; discriminate. Qed.
Lemma parse_usize_not_fuel s : parse_usize s <> Err OutOfFuel.
Proof.
  unfold parse_usize. destruct s as [|c [|c' s]]; [discriminate|destruct (dec_digit c); discriminate|].
  destruct (parse_digits _ _ _); discriminate.
Qed.
Lemma parse_usize_not_panic s : parse_usize s <> Panic.
Proof.
  unfold parse_usize. destruct s as [|c [|c' s]]; [discriminate|destruct (dec_digit c); discriminate|].
  destruct (parse_digits _ _ _); discriminate.
Qed.
Lemma bind_err' A B (r : res A) (k : A -> res B) e :
  bind r k = Err e -> r = Err e \/ exists a, r = Ok a /\ k a = Err e.
Proof. destruct r; cbn; intros H; try discriminate; [right; eauto|left; congruence]. Qed.
Lemma push_at_not_err l i x e : push_at l i x <> Err e.
Proof.
  revert i. induction l as [|a l IH]; intros [|i]; cbn; try discriminate. intros E.
  apply bind_err' in E as [E|(r & _ & E)]; [now apply IH in E|discriminate].
Qed.
Lemma take_at_not_err l i e : take_at l i <> Err e.
Proof.
  revert i. induction l as [|a l IH]; intros [|i]; cbn; try discriminate. intros E.
  apply bind_err' in E as [E|([x r] & _ & E)]; [now apply IH in E|discriminate].
Qed.
Lemma slice_shorter s i j m : str_slice s i j = Ok m -> 1 <= i -> (length m < length s)%nat.
Proof.
  intros E Hi. apply str_slice_ok in E as (a & b & -> & Ei & _). destruct a as [|c a]; [cbn in Ei; lia|].
  cbn [app length]. rewrite !app_length. lia.
Qed.
Lemma slice_prefix_shorter s j m : str_slice s 0 j = Ok m -> j < len s -> (length m < length s)%nat.
Proof.
  intros E Hj. apply str_slice_ok in E as (a & b & E & Ei & Ej). pose proof (str_len_ge m) as L. unfold len in *. lia.
Qed.

(** ** Fuel *)
Section Fuel.
Context (p : profile).
Section Loop.
Context (rd : str -> res ParamType) (name : str).
Context (Hrd : forall s, (exists i j, str_slice name i j = Ok s /\ True) -> (length s < length name)%nat -> rd s <> Err OutOfFuel).

Definition fuel_inv (pos : N) (st : rstate) : Prop :=
  1 <= last_item st /\ ((2 <= nested st)%Z -> 1 <= top_level_paren_open st) /\ (pos = 0 -> (nested st <= 0)%Z).

Ltac unb := match goal with
  | E : bind _ _ = Err _ |- _ => apply bind_err' in E as [E|(? & ? & E)]
  end.
Lemma read_char_fuel pos c rest st : fuel_inv pos st ->
  read_char rd name st pos c rest <> Err OutOfFuel /\
  forall st' k, read_char rd name st pos c rest = Ok (st', k) -> fuel_inv (pos + 1) st'.
Proof.
  intros (I1 & I2 & I3). unfold read_char.
  destruct (c =? ch_open).
  { destruct (1 <? nested st + 1)%Z eqn:N1; (split; [discriminate|]); intros st' k H; injection H as <- <-;
      unfold fuel_inv; cbn [last_item nested top_level_paren_open]; repeat split; lia. }
  destruct (c =? ch_close).
  { destruct (nested st - 1 <? 0)%Z eqn:N1; [split; discriminate|]. split.
    - intros E. unb; [now apply str_slice_not_err in E|].
      destruct x as [|x0 x]; [discriminate|].
      destruct (nested st - 1 =? 0)%Z eqn:N2.
      + unb; [|discriminate]. revert E. apply Hrd; [eauto|]. eapply slice_shorter; eauto.
      + cbv zeta in E. unb; [now apply str_slice_not_err in E|].
        unb; [revert E; apply Hrd; [eauto|]; eapply slice_shorter; eauto; lia|].
        destruct (1 <? nested st - 1)%Z eqn:N3; [|discriminate].
        unb; [now apply take_at_not_err in E|]. destruct x3. discriminate.
    - intros st' k E. apply bind_ok in E as (x & Ex & E).
      destruct x as [|x0 x]; [injection E as <- <-; unfold fuel_inv; cbn [last_item nested top_level_paren_open]; repeat split; lia|].
      destruct (nested st - 1 =? 0)%Z eqn:N2.
      + apply bind_ok in E as (y & Ey & E). injection E as <- <-. unfold fuel_inv; cbn [last_item nested top_level_paren_open]; repeat split; lia.
      + cbv zeta in E. apply bind_ok in E as (y & Ey & E). apply bind_ok in E as (z & Ez & E).
        destruct (1 <? nested st - 1)%Z eqn:N3.
        * apply bind_ok in E as ([u v] & Eu & E). injection E as <- <-. unfold fuel_inv; cbn [last_item nested top_level_paren_open]; repeat split; lia.
        * injection E as <- <-. unfold fuel_inv; cbn [last_item nested top_level_paren_open]; repeat split; lia. }
  destruct (c =? ch_comma).
  { split.
    - intros E. unb; [now apply str_slice_not_err in E|]. destruct x as [|x0 x]; [discriminate|].
      destruct (nested st =? 1)%Z.
      + unb; [|discriminate]. revert E. apply Hrd; [eauto|]. eapply slice_shorter; eauto.
      + destruct (1 <? nested st)%Z; [|discriminate].
        unb; [revert E; apply Hrd; [eauto|]; eapply slice_shorter; eauto|].
        unb; [now apply push_at_not_err in E|discriminate].
    - intros st' k E. apply bind_ok in E as (x & Ex & E).
      assert (P : pos + 1 <> 0) by lia.
      destruct x as [|x0 x]; [injection E as <- <-; unfold fuel_inv; cbn [last_item nested top_level_paren_open]; repeat split; lia|].
      destruct (nested st =? 1)%Z eqn:N2.
      + apply bind_ok in E as (y & Ey & E). injection E as <- <-. unfold fuel_inv; cbn [last_item nested top_level_paren_open]; repeat split; lia.
      + destruct (1 <? nested st)%Z eqn:N3.
        * apply bind_ok in E as (y & Ey & E). apply bind_ok in E as (z & Ez & E). injection E as <- <-.
          unfold fuel_inv; cbn [last_item nested top_level_paren_open]; repeat split; lia.
        * injection E as <- <-. unfold fuel_inv. repeat split; try lia; auto. }
  split; [discriminate|]. intros st' k E. injection E as <- <-. unfold fuel_inv. repeat split; try lia; auto.
Qed.
Lemma fuel_inv_next pos st : fuel_inv pos st -> fuel_inv (pos + 1) st.
Proof. intros (I1 & I2 & I3). repeat split; auto. lia. Qed.
Lemma loop_fuel rest : forall pos skip st, fuel_inv pos st ->
  read_tuple_loop rd name rest pos skip st <> Err OutOfFuel.
Proof.
  induction rest as [|c rest IH]; intros pos skip st I; cbn [read_tuple_loop]; [discriminate|].
  destruct skip as [|k]; [|apply IH; now apply fuel_inv_next].
  destruct (@read_char_fuel pos c rest st I) as [H1 H2]. intros E.
  apply bind_err' in E as [E|([st' k] & E1 & E)]; [congruence|]. revert E. apply IH. eauto.
Qed.
End Loop.

Lemma read_base_not_fuel name : read_base name <> Err OutOfFuel.
Proof.
  unfold read_base. repeat match goal with |- context [str_eqb ?a ?b] => destruct (str_eqb a b); [discriminate|] end.
  repeat match goal with |- context [starts_with ?a ?b] => destruct (starts_with a b);
    [intros E; apply bind_err' in E as [E|(s & _ & E)]; [now apply str_from_not_err in E|];
     apply bind_err' in E as [E|(l & _ & E)]; [now apply parse_usize_not_fuel in E|discriminate] |] end.
  discriminate.
Qed.
Lemma take_while_len A (f : A -> bool) l : (length (take_while f l) <= length l)%nat.
Proof. induction l; cbn; [lia|]. destruct (f a); cbn; lia. Qed.
Lemma parse_digits_ascii m s acc v : parse_digits m s acc = Some v -> all_ascii s = true.
Proof.
  revert acc. induction s as [|c s IH]; intros acc; cbn; [reflexivity|].
  destruct (dec_digit c) eqn:D; [|discriminate]. destruct (_ <? _); [|discriminate]. intros E.
  unfold all_ascii in IH. rewrite (IH _ E), andb_true_r. unfold dec_digit in D. unfold is_ascii.
  destruct ((48 <=? c) && (c <=? 57)) eqn:B; [|discriminate]. lia.
Qed.
Lemma parse_usize_ascii s v : parse_usize s = Ok v -> all_ascii s = true.
Proof.
  unfold parse_usize. destruct s as [|c [|c' s]]; [discriminate| |].
  - unfold dec_digit, all_ascii, is_ascii. cbn. destruct ((48 <=? c) && (c <=? 57)) eqn:B; [|discriminate]. lia.
  - destruct (c =? 43) eqn:P; (destruct (parse_digits _ _ _) eqn:E; [|discriminate]); intros _; apply parse_digits_ascii in E; [|exact E].
    cbn [all_ascii forallb]. unfold all_ascii in E. cbn [forallb] in E. rewrite E. unfold is_ascii. lia.
Qed.
Lemma slice_beyond s j m : str_slice s 0 j = Ok m -> j <= str_len s.
Proof. intros E. apply str_slice_ok in E as (a & b & -> & Ea & Ej). rewrite !str_len_app. lia. Qed.
Lemma slice_len s i j m : str_slice s i j = Ok m -> str_len m <= str_len s.
Proof. intros E. apply str_slice_ok in E as (a & b & -> & Ea & Ej). rewrite !str_len_app. lia. Qed.
(** The prefix taken by the array branch is shorter. *)
Lemma usize_sub_inv a b c : usize_sub p a b = Ok c -> (b <= a /\ c = a - b) \/ (a < b /\ c = a + two64 - b).
Proof.
  unfold usize_sub. destruct (N.leb_spec b a); [intros E; injection E as <-; auto|].
  destruct p; [discriminate|]. intros E; injection E as <-; auto.
Qed.

Lemma read_fuel_enough f : forall name, str_len name < 2 ^ 63 -> (length name < f)%nat ->
  read_fuel p f name <> Err OutOfFuel.
Proof.
  induction f as [|f IH]; intros name B L; [lia|]. cbn [read_fuel].
  destruct (last_char name) as [c|] eqn:EL; [|apply read_base_not_fuel].
  destruct (c =? ch_close).
  - unfold read_tuple. destruct (starts_with_char name ch_open); [|discriminate].
    intros E. apply bind_err' in E as [E|(st & _ & E)]; [|discriminate]. revert E. apply loop_fuel.
    + intros s (i & j & Es & _) Ls. apply IH; [|lia]. apply slice_len in Es. lia.
    + unfold fuel_inv; cbn [last_item nested top_level_paren_open]; repeat split; lia.
  - destruct (c =? ch_rbracket); [|apply read_base_not_fuel].
    assert (T : two64 = 2 ^ 64) by reflexivity.
    assert (Hs : forall sub e, str_slice name 0 e = Ok sub -> e < len name -> read_fuel p f sub <> Err OutOfFuel).
    { intros sub e E1 E2. apply IH; [apply slice_len in E1; lia|]. apply slice_prefix_shorter in E1; [lia|assumption]. }
    assert (N1 : 1 <= len name) by (apply last_char_some in EL as [s' ->]; rewrite len_app; change (len [c]) with 1; lia).
    unfold read_array. destruct (rev _) as [|n0 num] eqn:EN; intros E.
    + apply bind_err' in E as [E|(e & E1 & E)]; [now apply usize_sub_not_err in E|].
      apply bind_err' in E as [E|(sub & E2 & E)]; [now apply str_slice_not_err in E|].
      apply bind_err' in E as [E|(t & _ & E)]; [|discriminate]. revert E. apply (Hs _ _ E2).
      apply slice_beyond in E2. apply usize_sub_inv in E1 as [[G ->]|[G ->]]; lia.
    + apply bind_err' in E as [E|(l & EP & E)]; [now apply parse_usize_not_fuel in E|].
      apply bind_err' in E as [E|(e0 & E0 & E)]; [now apply usize_sub_not_err in E|].
      apply bind_err' in E as [E|(e & E1 & E)]; [now apply usize_sub_not_err in E|].
      apply bind_err' in E as [E|(sub & E2 & E)]; [now apply str_slice_not_err in E|].
      apply bind_err' in E as [E|(t & _ & E)]; [|discriminate]. revert E. apply (Hs _ _ E2).
      apply parse_usize_ascii, str_len_ascii in EP. rewrite EP in E0.
      assert (LN : len (n0 :: num) + 1 <= len name).
      { rewrite <- EN. unfold len. rewrite rev_length. pose proof (take_while_len (fun c => negb (c =? ch_lbracket)) (skipn 1 (rev name))) as W.
        rewrite skipn_length, rev_length in W. unfold len in N1. lia. }
      pose proof (str_len_ge name).
      apply slice_beyond in E2. apply usize_sub_inv in E0 as [[G ->]|[G ->]]; [|lia].
      apply usize_sub_inv in E1 as [[G1 ->]|[G1 ->]]; lia.
Qed.
End Fuel.

(** ** Panics *)
Lemma brackets_prefix b s r : brackets_ok b (s ++ r) = true -> brackets_ok b s = true.
Proof.
  revert b. induction s as [|c s IH]; intros b; [reflexivity|]. cbn [app brackets_ok].
  destruct (c =? 91); [apply IH|]. destruct ((c =? 40) || (c =? 41) || (c =? 44)); [apply IH|].
  destruct (c =? 93); [|apply IH]. destruct b; [apply IH|auto].
Qed.
Lemma brackets_suffix b s r : brackets_ok b (s ++ r) = true -> exists b', brackets_ok b' r = true.
Proof.
  revert b. induction s as [|c s IH]; intros b; [eauto|]. cbn [app brackets_ok].
  destruct (c =? 91); [apply IH|]. destruct ((c =? 40) || (c =? 41) || (c =? 44)); [apply IH|].
  destruct (c =? 93); [|apply IH]. destruct b; [apply IH|discriminate].
Qed.
Lemma brackets_punct b c s : punct c = true -> brackets_ok b (c :: s) = brackets_ok false s.
Proof. unfold punct. intros P. cbn [brackets_ok]. replace (c =? 91) with false by lia. now rewrite P. Qed.
Lemma brackets_close b s : brackets_ok b (s ++ [93]) = true -> b = true \/ In 91 s.
Proof.
  revert b. induction s as [|c s IH]; intros b; [cbn; destruct b; auto|]. cbn [app brackets_ok].
  destruct (N.eqb_spec c 91); [subst; cbn; auto|].
  destruct ((c =? 40) || (c =? 41) || (c =? 44)); [intros E; apply IH in E as [E|E]; [discriminate|cbn; auto]|].
  destruct (c =? 93); [|intros E; apply IH in E as [E|E]; cbn; auto].
  destruct b; [auto|discriminate].
Qed.
Lemma take_while_in A (f : A -> bool) x l : In x l -> f x = false -> (length (take_while f l) < length l)%nat.
Proof.
  intros I F. induction l as [|a l IH]; [destruct I|]. cbn. destruct I as [->|I]; [rewrite F; cbn; lia|].
  apply IH in I. destruct (f a); cbn; lia.
Qed.
Lemma skipn_mid A (a b : list A) : skipn (N.to_nat (len a)) (a ++ b) = b.
Proof. unfold len. rewrite Nnat.Nat2N.id, skipn_app, skipn_all, Nat.sub_diag. reflexivity. Qed.
Lemma slice_is s i j : all_ascii s = true -> i <= j -> j <= len s ->
  str_slice s i j = Ok (firstn (N.to_nat (j - i)) (skipn (N.to_nat i) s)).
Proof. apply str_slice_ascii. Qed.
Lemma bind_panic A B (r : res A) (k : A -> res B) :
  bind r k = Panic -> r = Panic \/ exists a, r = Ok a /\ k a = Panic.
Proof. destruct r; cbn; intros H; try discriminate; [right; eauto|left; congruence]. Qed.
Lemma all_ascii_sub i k s : all_ascii s = true -> all_ascii (firstn k (skipn i s)) = true.
Proof.
  unfold all_ascii. rewrite !forallb_forall. intros H x I. apply H.
  rewrite <- (firstn_skipn i s). apply in_or_app. right. rewrite <- (firstn_skipn k (skipn i s)). apply in_or_app. now left.
Qed.
Lemma brackets_sub i k s : brackets_ok false (skipn i s) = true -> brackets_ok false (firstn k (skipn i s)) = true.
Proof. intros H. rewrite <- (firstn_skipn k (skipn i s)) in H. now apply brackets_prefix in H. Qed.
Lemma push_at_panic l i x : (i < length l)%nat -> push_at l i x <> Panic.
Proof.
  revert i. induction l as [|a l IH]; intros [|i]; cbn; try lia; try discriminate. intros L E.
  apply bind_panic in E as [E|(r & _ & E)]; [|discriminate]. revert E. apply IH. lia.
Qed.
Lemma take_at_panic l i : (i < length l)%nat -> take_at l i <> Panic.
Proof.
  revert i. induction l as [|a l IH]; intros [|i]; cbn; try lia; try discriminate. intros L E.
  apply bind_panic in E as [E|([x r] & _ & E)]; [|discriminate]. revert E. apply IH. lia.
Qed.
Lemma push_at_length l i x l' : push_at l i x = Ok l' -> length l' = length l.
Proof.
  revert i l'. induction l as [|a l IH]; intros [|i] l'; cbn; try discriminate; [intros E; injection E as <-; reflexivity|].
  intros E. apply bind_ok in E as (r & E1 & E). injection E as <-. cbn. f_equal. eauto.
Qed.
Lemma take_at_length l i x l' : take_at l i = Ok (x, l') -> length l' = length l.
Proof.
  revert i x l'. induction l as [|a l IH]; intros [|i] x l'; cbn; try discriminate; [intros E; injection E as <- <-; reflexivity|].
  intros E. apply bind_ok in E as ([y r] & E1 & E). injection E as <- <-. cbn. f_equal. eauto.
Qed.

Section NoPanic.
Context (p : profile).
Definition good (s : str) : Prop := all_ascii s = true /\ brackets_ok false s = true.

Section Loop.
Context (rd : str -> res ParamType) (name : str).
Context (Hname : good name).
Context (Hrd : forall s, good s -> (length s < length name)%nat -> rd s <> Panic).

Definition good_at (i : N) : Prop := brackets_ok false (skipn (N.to_nat i) name) = true.
Definition panic_inv (pos : N) (skip : nat) (st : rstate) : Prop :=
  1 <= last_item st /\ last_item st <= N.max (pos + N.of_nat skip) 1 /\ top_level_paren_open st <= pos /\
  (nested st <= Z.of_nat (length (subtuples st)) + 1)%Z /\
  ((2 <= nested st)%Z -> 1 <= top_level_paren_open st) /\ (pos = 0 -> (nested st <= 0)%Z) /\
  good_at (last_item st) /\ good_at (top_level_paren_open st).

Lemma good_item i j : 1 <= i -> i <= j -> j <= len name -> good_at i ->
  exists item, str_slice name i j = Ok item /\ rd item <> Panic.
Proof.
  intros I1 I2 I3 G. destruct Hname as [HA HB]. eexists. split; [now apply slice_is|]. apply Hrd.
  - split; [now apply all_ascii_sub|now apply brackets_sub].
  - rewrite firstn_length, skipn_length. unfold len in I3. lia.
Qed.
Ltac unp := match goal with
  | E : bind _ _ = Panic |- _ => apply bind_panic in E as [E|(? & ? & E)]
  end.
Ltac inv_goal := unfold panic_inv; cbn [last_item nested top_level_paren_open subtuples]; repeat split; try lia; auto.

Lemma read_char_panic pre c rest st : name = pre ++ c :: rest -> panic_inv (len pre) 0 st ->
  (pre = [] -> c = ch_open) ->
  read_char rd name st (len pre) c rest <> Panic /\
  forall st' k, read_char rd name st (len pre) c rest = Ok (st', k) ->
    (k <= length rest)%nat /\ panic_inv (len pre + 1) k st'.
Proof.
  intros Hn (I1 & I2 & I3 & I4 & I5 & I6 & I7 & I8) H0.
  assert (L : len name = len pre + 1 + len rest) by (rewrite Hn, len_app, len_cons; lia).
  assert (Hafter : punct c = true -> good_at (len pre) /\ good_at (len pre + 1)).
  { intros P. destruct Hname as [_ HB]. rewrite Hn in HB. apply brackets_suffix in HB as [b' HB].
    unfold good_at. rewrite Hn. rewrite skipn_mid, brackets_punct by assumption.
    replace (len pre + 1) with (len (pre ++ [c])) by (rewrite len_app; reflexivity).
    change (c :: rest) with ([c] ++ rest). rewrite app_assoc, skipn_mid.
    rewrite brackets_punct in HB by assumption. auto. }
  unfold read_char.
  destruct (N.eqb_spec c ch_open) as [->|NO].
  { destruct (Hafter eq_refl) as [A1 A2].
    destruct (1 <? nested st + 1)%Z eqn:N1; (split; [discriminate|]); intros st' k H; injection H as <- <-;
      (split; [lia|]); inv_goal. rewrite app_length. cbn. lia. }
  assert (P1 : 1 <= len pre) by (destruct pre; [now destruct (NO (H0 eq_refl))|rewrite len_cons; lia]).
  destruct (N.eqb_spec c ch_close) as [->|NC].
  { destruct (Hafter eq_refl) as [A1 A2].
    destruct (nested st - 1 <? 0)%Z eqn:N1; [split; discriminate|].
    destruct (@good_item (last_item st) (len pre)) as (item & E1 & E2); [lia..|assumption|]. rewrite E1. cbn [bind].
    destruct item as [|x0 x]; [split; [discriminate|]; intros st' k H; injection H as <- <-; (split; [lia|]); inv_goal|].
    destruct (nested st - 1 =? 0)%Z eqn:N2.
    - split.
      + intros E. unp; [congruence|discriminate].
      + intros st' k E. apply bind_ok in E as (y & Ey & E). injection E as <- <-. split; [lia|]. inv_goal.
    - cbv zeta. set (sk := take_while _ rest).
      assert (SK : rest = sk ++ drop_while (fun c => negb ((c =? ch_comma) || (c =? ch_close))) rest) by (symmetry; apply take_drop_while).
      assert (LS : len sk <= len rest) by (rewrite SK at 1; rewrite len_app; lia).
      destruct (@good_item (top_level_paren_open st) (len pre + len sk + 1)) as (inner & E3 & E4); [lia..|assumption|]. rewrite E3. cbn [bind].
      assert (A3 : good_at (len pre + len sk + 1)).
      { unfold good_at. rewrite Hn. replace (len pre + len sk + 1) with (len (pre ++ ch_close :: sk)) by (rewrite len_app, len_cons; lia).
        rewrite SK at 1. change (ch_close :: sk ++ ?a) with ((ch_close :: sk) ++ a). rewrite app_assoc, skipn_mid.
        destruct Hname as [_ HB]. rewrite Hn, SK in HB. change (ch_close :: sk ++ ?a) with ((ch_close :: sk) ++ a) in HB.
        rewrite app_assoc in HB. apply brackets_suffix in HB as [b' HB].
        destruct (drop_while _ rest) as [|d r] eqn:ED; [reflexivity|].
        assert (PD : punct d = true).
        { clear -ED. induction rest as [|a l IH]; [discriminate|]. cbn in ED.
          destruct ((a =? ch_comma) || (a =? ch_close)) eqn:E; [|cbn in ED; auto].
          cbn in ED. injection ED as -> _. unfold punct, ch_comma, ch_close in *. lia. }
        rewrite brackets_punct in HB |- * by assumption. exact HB. }
      assert (LK : (length sk <= length rest)%nat) by (unfold len in LS; lia).
      split.
      + intros E. unp; [congruence|]. destruct (1 <? nested st - 1)%Z eqn:N3; [|discriminate].
        unp; [revert E; apply take_at_panic; lia|]. destruct x2. discriminate.
      + intros st' k E. apply bind_ok in E as (y & Ey & E).
        destruct (1 <? nested st - 1)%Z eqn:N3.
        * apply bind_ok in E as ([u v] & Eu & E). injection E as <- <-. split; [exact LK|].
          apply take_at_length in Eu. unfold len in *. inv_goal. 
        * injection E as <- <-. split; [exact LK|]. unfold len in *. inv_goal. }
  destruct (N.eqb_spec c ch_comma) as [->|NM].
  { destruct (Hafter eq_refl) as [A1 A2].
    destruct (@good_item (last_item st) (len pre)) as (item & E1 & E2); [lia..|assumption|]. rewrite E1. cbn [bind].
    destruct item as [|x0 x]; [split; [discriminate|]; intros st' k H; injection H as <- <-; (split; [lia|]); inv_goal|].
    destruct (nested st =? 1)%Z eqn:N2.
    - split.
      + intros E. unp; [congruence|discriminate].
      + intros st' k E. apply bind_ok in E as (y & Ey & E). injection E as <- <-. split; [lia|]. inv_goal.
    - destruct (1 <? nested st)%Z eqn:N3.
      + split.
        * intros E. unp; [congruence|]. unp; [revert E; apply push_at_panic; lia|discriminate].
        * intros st' k E. apply bind_ok in E as (y & Ey & E). apply bind_ok in E as (z & Ez & E). injection E as <- <-.
          apply push_at_length in Ez. split; [lia|]. inv_goal.
      + split; [discriminate|]. intros st' k E. injection E as <- <-. split; [lia|]. inv_goal. }
  split; [discriminate|]. intros st' k E. injection E as <- <-. split; [lia|]. inv_goal.
Qed.

Lemma loop_panic rest : forall pre skip st, name = pre ++ rest -> panic_inv (len pre) skip st ->
  (skip <= length rest)%nat -> (pre = [] -> skip = O /\ exists r, rest = ch_open :: r) ->
  read_tuple_loop rd name rest (len pre) skip st <> Panic.
Proof.
  induction rest as [|c rest IH]; intros pre skip st Hn I LK H0; cbn [read_tuple_loop]; [discriminate|].
  assert (Hn' : name = (pre ++ [c]) ++ rest) by (rewrite <- app_assoc; exact Hn).
  assert (LP : len pre + 1 = len (pre ++ [c])) by (rewrite len_app; reflexivity).
  assert (NE : pre ++ [c] = [] -> forall P, P) by (destruct pre; discriminate).
  destruct skip as [|k].
  - destruct (@read_char_panic pre c rest st Hn I) as [H1 H2].
    { intros E. destruct (H0 E) as [_ [r Hr]]. congruence. }
    intros E. apply bind_panic in E as [E|([st' k] & E1 & E)]; [congruence|].
    apply H2 in E1 as [Lk I']. rewrite LP in *. revert E. apply IH; auto. intros E. now apply NE.
  - rewrite LP. apply IH; auto.
    + destruct I as (I1 & I2 & I3 & I4 & I5 & I6 & I7 & I8). rewrite <- LP. inv_goal.
    + cbn in LK. lia.
    + intros E. now apply NE.
Qed.
End Loop.

Lemma starts_with_inv s pre : starts_with s pre = true -> exists r, s = pre ++ r.
Proof.
  revert s. induction pre as [|c pre IH]; intros s; [exists s; reflexivity|]. destruct s as [|x s]; [discriminate|]. cbn.
  rewrite andb_true_iff, N.eqb_eq. intros [-> H]. apply IH in H as [r ->]. now exists r.
Qed.
Lemma read_base_not_panic name : read_base name <> Panic.
Proof.
  unfold read_base. repeat match goal with |- context [str_eqb ?a ?b] => destruct (str_eqb a b); [discriminate|] end.
  repeat match goal with |- context [starts_with ?a ?b] => destruct (starts_with a b) eqn:?;
    [match goal with H : starts_with _ _ = true |- _ => apply starts_with_inv in H as [r ->] end;
     rewrite str_from_lit by reflexivity; cbn [bind];
     intros E; apply bind_panic in E as [E|(l & _ & E)]; [now apply parse_usize_not_panic in E|discriminate] |] end.
  discriminate.
Qed.

Lemma read_not_panic f : forall name, good name -> read_fuel p f name <> Panic.
Proof.
  induction f as [|f IH]; intros name G; [discriminate|]. cbn [read_fuel].
  destruct (last_char name) as [c|] eqn:EL; [|apply read_base_not_panic].
  destruct (N.eqb_spec c ch_close).
  - unfold read_tuple. destruct (starts_with_char name ch_open) eqn:ES; [|discriminate].
    intros E. apply bind_panic in E as [E|(st & _ & E)]; [|discriminate]. revert E.
    destruct name as [|x name]; [discriminate|]. cbn in ES. apply N.eqb_eq in ES as ->.
    change 0 with (len (@nil N)) at 1. apply loop_panic; auto.
    + unfold panic_inv, good_at; cbn [last_item nested top_level_paren_open subtuples]. change (len []) with 0.
      destruct G as [_ G]. repeat split; try lia; auto.
      all: try (change (N.to_nat 1) with 1%nat; cbn [skipn]; rewrite brackets_punct in G by reflexivity; exact G).
    + lia.
    + eauto.
  - destruct (N.eqb_spec c ch_rbracket) as [->|]; [|apply read_base_not_panic].
    apply last_char_some in EL as [s ->]. destruct G as [GA GB].
    assert (I : In 91 s) by (apply brackets_close in GB as [|]; [discriminate|assumption]).
    rewrite all_ascii_app in GA. apply andb_true_iff in GA as [GA _]. apply brackets_prefix in GB.
    assert (LT : len (rev (take_while (fun c => negb (c =? ch_lbracket)) (rev s))) + 1 <= len s).
    { unfold len. rewrite rev_length. apply in_rev in I. apply (take_while_in (fun c => negb (c =? ch_lbracket))) in I; [|reflexivity].
      rewrite rev_length in I. lia. }
    assert (Hsub : forall e, e <= len s -> exists sub, str_slice (s ++ [ch_rbracket]) 0 e = Ok sub /\ read_fuel p f sub <> Panic).
    { intros e He. eexists. split; [apply slice_is; [rewrite all_ascii_app, GA; reflexivity|lia|rewrite len_app; lia]|].
      apply IH. cbn [skipn N.to_nat]. change (N.to_nat 0) with 0%nat. cbn [skipn].
      replace (firstn _ (s ++ _)) with (firstn (N.to_nat (e - 0)) s).
      - split; [now apply (all_ascii_sub 0)|now apply (brackets_sub 0)].
      - rewrite firstn_app. unfold len in He. replace (_ - length s)%nat with 0%nat by lia. cbn. now rewrite app_nil_r. }
    unfold read_array. rewrite rev_app_distr. cbn [rev app skipn].
    set (num := rev (take_while _ (rev s))) in *. rewrite len_app. change (len [ch_rbracket]) with 1.
    assert (NA : all_ascii num = true).
    { unfold all_ascii in *. rewrite forallb_forall in GA |- *. intros x Hx. apply GA.
      apply in_rev in Hx. apply in_rev. rewrite <- (take_drop_while (fun c => negb (c =? ch_lbracket)) (rev s)).
      apply in_or_app. now left. }
    apply str_len_ascii in NA.
    clearbody num. destruct num as [|n0 num]; intros E.
    + rewrite usize_sub_ok in E by (change (len (@nil N)) with 0 in LT; lia). cbn [bind] in E.
      destruct (Hsub (len s + 1 - 2)) as (sub & E1 & E2); [lia|]. rewrite E1 in E. cbn [bind] in E.
      apply bind_panic in E as [E|(t & _ & E)]; [congruence|discriminate].
    + apply bind_panic in E as [E|(l & EP & E)]; [now apply parse_usize_not_panic in E|].
      rewrite NA in E. rewrite usize_sub_ok in E by lia. cbn [bind] in E.
      rewrite usize_sub_ok in E by lia. cbn [bind] in E.
      destruct (Hsub (len s + 1 - len (n0 :: num) - 2)) as (sub & E1 & E2); [lia|]. rewrite E1 in E. cbn [bind] in E.
      apply bind_panic in E as [E|(t & _ & E)]; [congruence|discriminate].
Qed.
End NoPanic.

(** * Facts about strings, decimal and hexadecimal numerals *)
From Verif Require Import Base BaseFacts.
From Coq Require Import ZifyBool ZifyNat ZifyN.
Set Implicit Arguments.
Local Open Scope N_scope.
Ltac Zify.zify_post_hook ::= Z.div_mod_to_equations.

Lemma str_eqb_eq a b : str_eqb a b = true <-> a = b.
Proof.
  unfold str_eqb. revert b. induction a as [|x a IH]; intros [|y b]; split; try discriminate; try reflexivity; intros H.
  - apply andb_true_iff in H as [H1 H2]. apply IH in H2. apply N.eqb_eq in H1. congruence.
  - injection H as -> ->. rewrite N.eqb_refl. cbn. now apply IH.
Qed.
Lemma str_eqb_refl a : str_eqb a a = true.
Proof. now apply str_eqb_eq. Qed.
Lemma str_eqb_neq a b : a <> b -> str_eqb a b = false.
Proof. intros H. destruct (str_eqb a b) eqn:E; [|reflexivity]. now apply str_eqb_eq in E. Qed.
Lemma str_eqb_sym a b : str_eqb a b = str_eqb b a.
Proof.
  destruct (str_eqb a b) eqn:E.
  - apply str_eqb_eq in E. subst. now rewrite str_eqb_refl.
  - destruct (str_eqb b a) eqn:E'; [|reflexivity]. apply str_eqb_eq in E'. subst. now rewrite str_eqb_refl in E.
Qed.
Definition str_dec : forall a b : str, {a = b} + {a <> b} := list_eq_dec N.eq_dec.

(** ** Slicing *)
Lemma char_len_pos c : 1 <= char_len c.
Proof. unfold char_len. repeat destruct (_ <? _); lia. Qed.
Lemma char_len_ascii c : is_ascii c = true -> char_len c = 1.
Proof. unfold is_ascii, char_len. intros H. replace (c <? 0x80) with true by lia. reflexivity. Qed.
Lemma str_len_app a b : str_len (a ++ b) = str_len a + str_len b.
Proof. unfold str_len. induction a; cbn; [reflexivity|]. rewrite IHa. lia. Qed.
Lemma str_len_cons c s : str_len (c :: s) = char_len c + str_len s.
Proof. reflexivity. Qed.
Lemma str_len_ascii s : all_ascii s = true -> str_len s = len s.
Proof.
  induction s; [reflexivity|]. cbn [all_ascii forallb]. intros H. apply andb_true_iff in H as [H1 H2].
  rewrite str_len_cons, len_cons, char_len_ascii, IHs by assumption. lia.
Qed.
Lemma str_len_ge s : len s <= str_len s.
Proof. induction s; [reflexivity|]. rewrite str_len_cons, len_cons. pose proof (char_len_pos a). lia. Qed.
Lemma str_len_0 s : str_len s = 0 -> s = [].
Proof. destruct s as [|c s]; [reflexivity|]. rewrite str_len_cons. pose proof (char_len_pos c). lia. Qed.

Lemma str_split_app a b : str_split (a ++ b) (str_len a) = Some (a, b).
Proof.
  induction a as [|c a IH].
  - destruct b; reflexivity.
  - cbn [app str_split]. rewrite str_len_cons. pose proof (char_len_pos c).
    replace (_ =? 0) with false by lia. replace (_ <? _) with false by lia.
    replace (char_len c + str_len a - char_len c) with (str_len a) by lia. now rewrite IH.
Qed.
Lemma str_split_some s n a b : str_split s n = Some (a, b) -> s = a ++ b /\ n = str_len a.
Proof.
  revert n a b. induction s as [|c s IH]; intros n a b; cbn [str_split].
  - destruct (n =? 0) eqn:E; [|discriminate]. intros H. injection H as <- <-. split; [reflexivity|]. cbn. lia.
  - destruct (n =? 0) eqn:E.
    + intros H. injection H as <- <-. split; [reflexivity|]. cbn. lia.
    + destruct (n <? char_len c) eqn:E1; [discriminate|].
      destruct (str_split s (n - char_len c)) as [[a' b']|] eqn:E2; [|discriminate].
      intros H. injection H as <- <-. apply IH in E2 as [-> E2]. split; [reflexivity|].
      rewrite str_len_cons. lia.
Qed.
Lemma str_slice_app a m b : str_slice (a ++ m ++ b) (str_len a) (str_len a + str_len m) = Ok m.
Proof.
  unfold str_slice. replace (_ <? _) with false by lia. rewrite str_split_app.
  replace (str_len a + str_len m - str_len a) with (str_len m) by lia. now rewrite str_split_app.
Qed.
Lemma str_slice_ok s i j m : str_slice s i j = Ok m ->
  exists a b, s = a ++ m ++ b /\ i = str_len a /\ j = i + str_len m.
Proof.
  unfold str_slice. destruct (j <? i) eqn:E; [discriminate|].
  destruct (str_split s i) as [[a r]|] eqn:E1; [|discriminate].
  destruct (str_split r (j - i)) as [[m' b]|] eqn:E2; [|discriminate].
  intros H. injection H as <-. apply str_split_some in E1 as [-> E1], E2 as [-> E2]. exists a, b. repeat split; lia.
Qed.
Lemma str_slice_ascii s i j : all_ascii s = true -> i <= j -> j <= len s ->
  str_slice s i j = Ok (firstn (N.to_nat (j - i)) (skipn (N.to_nat i) s)).
Proof.
  intros A H1 H2.
  assert (F : forall n l, all_ascii l = true -> all_ascii (firstn n l) = true).
  { intros n l Hl. unfold all_ascii in *. rewrite forallb_forall in *. intros x Hx. apply Hl.
    rewrite <- (firstn_skipn n l). apply in_or_app. now left. }
  assert (K : forall n l, all_ascii l = true -> all_ascii (skipn n l) = true).
  { intros n l Hl. unfold all_ascii in *. rewrite forallb_forall in *. intros x Hx. apply Hl.
    rewrite <- (firstn_skipn n l). apply in_or_app. now right. }
  pose proof (str_slice_app (firstn (N.to_nat i) s) (firstn (N.to_nat (j - i)) (skipn (N.to_nat i) s))
     (skipn (N.to_nat (j - i)) (skipn (N.to_nat i) s))) as H.
  rewrite !firstn_skipn in H. rewrite !str_len_ascii in H by auto.
  unfold len in *. rewrite !firstn_length, skipn_length in H.
  replace (N.of_nat (Nat.min (N.to_nat i) (length s))) with i in H by lia.
  replace (i + N.of_nat (Nat.min (N.to_nat (j - i)) (length s - N.to_nat i))) with j in H by lia. exact H.
Qed.
Lemma str_from_app a b : str_from (a ++ b) (str_len a) = Ok b.
Proof. unfold str_from. now rewrite str_split_app. Qed.

Lemma starts_with_app a b : starts_with (a ++ b) a = true.
Proof. induction a; [destruct b; reflexivity|]. cbn. now rewrite N.eqb_refl. Qed.
Lemma last_char_app s c : last_char (s ++ [c]) = Some c.
Proof. induction s as [|x s IH]; [reflexivity|]. cbn [app last_char]. rewrite IH. destruct s; reflexivity. Qed.
Lemma last_char_some s c : last_char s = Some c -> exists s', s = s' ++ [c].
Proof.
  induction s as [|x s IH]; [discriminate|]. cbn [last_char]. destruct s as [|y s].
  - intros H. injection H as ->. now exists [].
  - intros H. destruct (IH H) as [s' E]. exists (x :: s'). now rewrite E.
Qed.
Lemma last_char_none s : last_char s = None -> s = [].
Proof. destruct s as [|c s] using rev_ind; [reflexivity|]. now rewrite last_char_app. Qed.

Lemma take_while_app A (f : A -> bool) a b : forallb f a = true ->
  take_while f (a ++ b) = a ++ take_while f b.
Proof.
  induction a as [|x a IH]; [reflexivity|]. cbn. intros H. apply andb_true_iff in H as [H1 H2].
  rewrite H1, IH by assumption. reflexivity.
Qed.
Lemma take_while_stop A (f : A -> bool) a c b : forallb f a = true -> f c = false ->
  take_while f (a ++ c :: b) = a.
Proof. intros H1 H2. rewrite take_while_app by assumption. cbn. rewrite H2. apply app_nil_r. Qed.
Lemma take_while_all A (f : A -> bool) a : forallb f a = true -> take_while f a = a.
Proof. intros H. rewrite <- (app_nil_r a) at 1. rewrite take_while_app by assumption. apply app_nil_r. Qed.
Lemma take_while_forallb A (f : A -> bool) l : forallb f (take_while f l) = true.
Proof. induction l; [reflexivity|]. cbn. destruct (f a) eqn:E; [|reflexivity]. cbn. now rewrite E. Qed.
Lemma take_drop_while A (f : A -> bool) l : take_while f l ++ drop_while f l = l.
Proof. induction l; [reflexivity|]. cbn. destruct (f a); [|reflexivity]. cbn. now rewrite IHl. Qed.

(** ** Decimal *)
Definition is_digit (c : char) : bool := (48 <=? c) && (c <=? 57).
Lemma dec_digits_lt f n : Forall (fun d => d < 10) (dec_digits_rev f n).
Proof.
  revert n. induction f; intros n; cbn; constructor; [lia|]. destruct (n <? 10); [constructor|apply IHf].
Qed.
(** Value of digits given least significant first. *)
Fixpoint val_rev (l : list N) : N := match l with [] => 0 | d :: l' => d + 10 * val_rev l' end.
Lemma dec_digits_val f n : n < 10 ^ N.of_nat f -> val_rev (dec_digits_rev f n) = n.
Proof.
  revert n. induction f as [|f IH]; intros n H.
  - cbn in *. lia.
  - cbn [dec_digits_rev val_rev]. destruct (n <? 10) eqn:E; cbn [val_rev]; [lia|].
    rewrite IH; [lia|]. rewrite Nnat.Nat2N.inj_succ, N.pow_succ_r' in H. lia.
Qed.
Lemma size_nat_bound n : n < 10 ^ N.of_nat (S (N.size_nat n)).
Proof.
  assert (n < 2 ^ N.of_nat (N.size_nat n)) as H.
  { destruct n as [|q]; [cbn; lia|]. change (N.size_nat (N.pos q)) with (Pos.size_nat q).
    pose proof (Pos.size_gt q).
    assert (E : N.of_nat (Pos.size_nat q) = N.pos (Pos.size q)).
    { clear H. induction q; cbn [Pos.size_nat Pos.size]; rewrite ?Nnat.Nat2N.inj_succ, ?IHq; lia. }
    rewrite E. change (2 ^ N.pos (Pos.size q)) with (N.pos (2 ^ Pos.size q)). lia. }
  eapply N.lt_le_trans; [exact H|]. rewrite Nnat.Nat2N.inj_succ.
  transitivity (10 ^ N.of_nat (N.size_nat n)); [apply N.pow_le_mono_l; lia|apply N.pow_le_mono_r; lia].
Qed.
Definition dec_val (ds : list N) : N := fold_left (fun acc d => acc * 10 + d) ds 0.
Lemma fold_val ds acc : fold_left (fun acc d => acc * 10 + d) ds acc = acc * 10 ^ len ds + dec_val ds.
Proof.
  unfold dec_val. revert acc. induction ds as [|d ds IH]; intros acc; cbn [fold_left].
  - rewrite len_nil, N.pow_0_r. lia.
  - rewrite IH, (IH (0 * 10 + d)), len_cons, N.pow_add_r, N.pow_1_r. ring.
Qed.
Lemma dec_val_rev l : dec_val (rev l) = val_rev l.
Proof.
  induction l as [|d l IH]; [reflexivity|]. cbn [rev val_rev]. unfold dec_val in *.
  rewrite fold_left_app, IH. cbn [fold_left]. lia.
Qed.
Lemma show_dec_digits n : forallb is_digit (show_dec n) = true.
Proof.
  unfold show_dec. apply forallb_forall. intros c H. apply in_map_iff in H as (d & <- & H).
  apply in_rev in H. pose proof (dec_digits_lt (S (N.size_nat n)) n) as F.
  rewrite Forall_forall in F. specialize (F d H). unfold is_digit. lia.
Qed.
Lemma show_dec_nonempty n : show_dec n <> [].
Proof.
  unfold show_dec. cbn [dec_digits_rev rev]. intros E. apply (f_equal (@length _)) in E.
  rewrite map_length, app_length in E. cbn in E. lia.
Qed.
(** The number a digit string denotes. *)
Definition decimal_value (s : str) : N := dec_val (map (fun c => c - 48) s).
Lemma show_dec_value n : decimal_value (show_dec n) = n.
Proof.
  unfold decimal_value, show_dec. rewrite map_map. rewrite map_ext with (g := fun x => x) by (intros; lia).
  rewrite map_id, dec_val_rev. apply dec_digits_val, size_nat_bound.
Qed.
Lemma show_dec_inj a b : show_dec a = show_dec b -> a = b.
Proof. intros H. rewrite <- (show_dec_value a), <- (show_dec_value b). now rewrite H. Qed.
Lemma dec_digit_is c : is_digit c = true -> dec_digit c = Some (c - 48).
Proof. unfold is_digit, dec_digit. intros ->. reflexivity. Qed.
Lemma parse_digits_value m s acc : forallb is_digit s = true ->
  acc * 10 ^ len s + decimal_value s < m ->
  parse_digits m s acc = Some (acc * 10 ^ len s + decimal_value s).
Proof.
  revert acc. induction s as [|c s IH]; intros acc D L.
  - unfold decimal_value. cbn [parse_digits map dec_val fold_left]. rewrite len_nil, N.pow_0_r. change (dec_val []) with 0. f_equal. lia.
  - cbn [forallb] in D. apply andb_true_iff in D as [D1 D2]. cbn [parse_digits]. rewrite dec_digit_is by assumption.
    assert (E : decimal_value (c :: s) = (c - 48) * 10 ^ len s + decimal_value s).
    { unfold decimal_value at 1. cbn [map]. unfold dec_val. cbn [fold_left]. rewrite fold_val.
      rewrite N.mul_0_l, N.add_0_l. unfold len. now rewrite map_length. }
    rewrite E in *. rewrite len_cons, N.pow_add_r, N.pow_1_r in *.
    assert (P : 1 <= 10 ^ len s) by (pose proof (N.pow_nonzero 10 (len s)); lia).
    replace (_ <? m) with true by nia. rewrite IH; [f_equal; lia|assumption|lia].
Qed.
Lemma parse_digits_big m s acc : forallb is_digit s = true ->
  acc < m -> m <= acc * 10 ^ len s + decimal_value s -> parse_digits m s acc = None.
Proof.
  revert acc. induction s as [|c s IH]; intros acc D A L.
  - exfalso. unfold decimal_value in L. cbn [map] in L. rewrite len_nil, N.pow_0_r in L. change (dec_val []) with 0 in L. lia.
  - cbn [forallb] in D. apply andb_true_iff in D as [D1 D2]. cbn [parse_digits]. rewrite dec_digit_is by assumption.
    assert (E : decimal_value (c :: s) = (c - 48) * 10 ^ len s + decimal_value s).
    { unfold decimal_value at 1. cbn [map]. unfold dec_val. cbn [fold_left]. rewrite fold_val.
      rewrite N.mul_0_l, N.add_0_l. unfold len. now rewrite map_length. }
    rewrite E in *. rewrite len_cons, N.pow_add_r, N.pow_1_r in *.
    destruct (_ <? m) eqn:Lt; [|reflexivity]. apply IH; [assumption|lia|lia].
Qed.
Lemma parse_usize_show n : n < two64 -> parse_usize (show_dec n) = Ok n.
Proof.
  intros H. pose proof (show_dec_digits n) as D. pose proof (show_dec_nonempty n) as NE.
  pose proof (show_dec_value n) as V. unfold parse_usize.
  destruct (show_dec n) as [|c [|c' s]] eqn:E; [congruence| |].
  - cbn [forallb] in D. rewrite andb_true_r in D. rewrite dec_digit_is by assumption.
    unfold decimal_value, dec_val in V. cbn [map fold_left] in V. f_equal. lia.
  - assert (C : c =? 43 = false) by (cbn [forallb] in D; unfold is_digit in D; lia).
    rewrite C, parse_digits_value; rewrite ?V; auto.
Qed.

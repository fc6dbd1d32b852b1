(** * Facts about type names *)
From Verif Require Import Base Types TypeNames TypeNamesSpec BaseFacts StrFacts DecoderFacts.
From Coq Require Import String.
From Coq Require Import ZifyBool ZifyNat ZifyN.
Set Implicit Arguments.
Local Open Scope N_scope.
Local Open Scope list_scope.
Notation length := List.length.

(** ** The written form: core name and array suffixes *)
Fixpoint core (t : ParamType) : ParamType :=
  match t with PArray t' | PFixedArray t' _ => core t' | _ => t end.
Fixpoint sfx (t : ParamType) : list (option N) :=
  match t with
  | PArray t' => sfx t' ++ [None]
  | PFixedArray t' n => sfx t' ++ [Some n]
  | _ => []
  end.
Definition wrap1 (t : ParamType) (o : option N) : ParamType :=
  match o with None => PArray t | Some n => PFixedArray t n end.
Definition wrap (t : ParamType) (l : list (option N)) : ParamType := fold_left wrap1 l t.
Definition show1 (o : option N) : str :=
  lit "[" ++ match o with None => [] | Some n => show_dec n end ++ lit "]".
Definition show_sfx (l : list (option N)) : str := flat_map show1 l.

Lemma wrap_core t : wrap (core t) (sfx t) = t.
Proof.
  unfold wrap. induction t using ParamType_ind'; try reflexivity; cbn [core sfx];
    rewrite fold_left_app; cbn [fold_left wrap1]; now rewrite IHt.
Qed.
Lemma write_core t : write t = write (core t) ++ show_sfx (sfx t).
Proof.
  unfold write, show_sfx. induction t using ParamType_ind'; cbn [core sfx];
    try (cbn [flat_map]; rewrite app_nil_r; reflexivity).
  - cbn [write_for_abi]. rewrite IHt, flat_map_app. cbn [flat_map]. now rewrite <- app_assoc.
  - cbn [write_for_abi]. rewrite IHt, flat_map_app. cbn [flat_map]. unfold show1.
    rewrite <- !app_assoc. now rewrite app_nil_r.
Qed.
Lemma write_tuple ts : write (PTuple ts) = 40 :: join (lit ",") (map write ts) ++ [41].
Proof. reflexivity. Qed.

Definition is_alnum (c : char) : bool := is_digit c || ((97 <=? c) && (c <=? 122)).
(** Starts with no letter or digit. *)
Definition no_alnum (r : str) : Prop := match r with [] => True | c :: _ => is_alnum c = false end.
(** Starts with no letter, digit or '['. *)
Definition stop (r : str) : Prop := match r with [] => True | c :: _ => is_alnum c = false /\ c <> 91 end.
Definition is_core (t : ParamType) : Prop := core t = t.
Lemma core_core t : core (core t) = core t.
Proof. induction t using ParamType_ind'; cbn; auto. Qed.

Lemma digit_alnum s : forallb is_digit s = true -> forallb is_alnum s = true.
Proof. rewrite !forallb_forall. intros H c Hc. unfold is_alnum. now rewrite H. Qed.
Lemma core_not_array t : match core t with PArray _ | PFixedArray _ _ => False | _ => True end.
Proof. induction t using ParamType_ind'; cbn [core]; auto. Qed.
Lemma leaf_alnum t : is_core t -> match t with PTuple _ => False | _ => True end -> forallb is_alnum (write t) = true.
Proof.
  intros C T. pose proof (core_not_array t) as N. rewrite C in N.
  destruct t; try reflexivity; try contradiction; unfold write; cbn [write_for_abi];
    rewrite forallb_app, (@digit_alnum (show_dec size)) by apply show_dec_digits; reflexivity.
Qed.
Lemma take_alnum a r : forallb is_alnum a = true -> no_alnum r -> take_while is_alnum (a ++ r) = a.
Proof.
  intros A R. rewrite take_while_app by assumption. destruct r as [|c r]; cbn; [|rewrite R]; apply app_nil_r.
Qed.
Lemma leaf_inj t1 t2 : is_core t1 -> is_core t2 ->
  match t1 with PTuple _ => False | _ => True end -> match t2 with PTuple _ => False | _ => True end ->
  write t1 = write t2 -> t1 = t2.
Proof.
  intros C1 C2 T1 T2. pose proof (core_not_array t1) as N1. pose proof (core_not_array t2) as N2.
  rewrite C1 in N1. rewrite C2 in N2. clear C1 C2.
  destruct t1, t2; try contradiction; try reflexivity; unfold write; cbn [write_for_abi]; intros H; try discriminate H;
    try (apply app_inv_head, show_dec_inj in H; congruence);
    exfalso; apply (@show_dec_nonempty size).
  - apply (@app_inv_head _ (lit "bytes")). symmetry. now rewrite app_nil_r.
  - apply (@app_inv_head _ (lit "bytes")). now rewrite app_nil_r.
Qed.

(** Array suffixes *)
Definition not_bracket (r : str) : Prop := match r with [] => True | c :: _ => c <> 91 end.
Lemma digits_until (a b : str) r1 r2 : forallb is_digit a = true -> forallb is_digit b = true ->
  a ++ 93 :: r1 = b ++ 93 :: r2 -> a = b /\ r1 = r2.
Proof.
  intros A B E. assert (a = b).
  { pose proof (@take_while_stop _ is_digit a 93 r1 A eq_refl) as T1.
    pose proof (@take_while_stop _ is_digit b 93 r2 B eq_refl) as T2.
    exact (eq_trans (eq_sym T1) (eq_trans (f_equal (take_while is_digit) E) T2)). }
  subst. split; [reflexivity|]. apply app_inv_head in E. congruence.
Qed.
Lemma show_sfx_inj a b r1 r2 : not_bracket r1 -> not_bracket r2 ->
  show_sfx a ++ r1 = show_sfx b ++ r2 -> a = b /\ r1 = r2.
Proof.
  intros H1 H2. revert b. induction a as [|o a IH]; intros [|o' b] E.
  - auto.
  - exfalso. cbn in E. subst r1. now apply H1.
  - exfalso. cbn in E. subst r2. now apply H2.
  - unfold show_sfx in *. cbn [flat_map] in E. unfold show1 in E at 1 3.
    change (lit "[") with [91] in E. change (lit "]") with [93] in E.
    rewrite <- !app_assoc in E. cbn [app] in E. injection E as E.
    apply digits_until in E as [E E']; [|destruct o; [apply show_dec_digits|reflexivity]|destruct o'; [apply show_dec_digits|reflexivity]].
    apply IH in E' as [-> ->]. split; [|reflexivity]. f_equal.
    destruct o as [n|], o' as [n'|]; try reflexivity.
    + f_equal. now apply show_dec_inj.
    + now apply show_dec_nonempty in E.
    + symmetry in E. now apply show_dec_nonempty in E.
Qed.
Lemma sfx_no_alnum l r : no_alnum r -> no_alnum (show_sfx l ++ r).
Proof. destruct l; [auto|]. intros _. reflexivity. Qed.

Definition name_unique (t1 : ParamType) : Prop := forall t2 r1 r2, stop r1 -> stop r2 ->
  write t1 ++ r1 = write t2 ++ r2 -> t1 = t2 /\ r1 = r2.
Definition core_unique (t1 : ParamType) : Prop := forall t2 r1 r2, no_alnum r1 -> no_alnum r2 ->
  write (core t1) ++ r1 = write (core t2) ++ r2 -> core t1 = core t2 /\ r1 = r2.
Lemma stop_no_alnum r : stop r -> no_alnum r.
Proof. destruct r; [auto|]. now intros []. Qed.
Lemma stop_not_bracket r : stop r -> not_bracket r.
Proof. destruct r; [auto|]. now intros []. Qed.
Lemma core_name t : core_unique t -> name_unique t.
Proof.
  intros C t2 r1 r2 S1 S2 E. rewrite (write_core t), (write_core t2), <- !app_assoc in E.
  apply C in E as [E1 E2]; [|now apply sfx_no_alnum, stop_no_alnum|now apply sfx_no_alnum, stop_no_alnum].
  apply show_sfx_inj in E2 as [E2 ->]; [|now apply stop_not_bracket|now apply stop_not_bracket].
  split; [|reflexivity]. rewrite <- (wrap_core t), <- (wrap_core t2). congruence.
Qed.

Lemma write_head t : exists c s, write t = c :: s /\ (is_alnum c = true \/ c = 40).
Proof.
  rewrite write_core. pose proof (core_not_array t) as N.
  destruct (core t) eqn:E; try contradiction; unfold write; cbn [write_for_abi]; do 2 eexists; (split; [reflexivity|auto]).
Qed.
Lemma join_cons2 sep x y l : join sep (x :: y :: l) = x ++ sep ++ join sep (y :: l).
Proof. reflexivity. Qed.
Lemma names_unique ts1 : Forall name_unique ts1 -> forall ts2 r1 r2,
  join (lit ",") (map write ts1) ++ 41 :: r1 = join (lit ",") (map write ts2) ++ 41 :: r2 ->
  ts1 = ts2 /\ r1 = r2.
Proof.
  assert (S0 : forall r, stop (41 :: r)) by (intros; split; [reflexivity|discriminate]).
  assert (S1 : forall r, stop (44 :: r)) by (intros; split; [reflexivity|discriminate]).
  assert (H0 : forall t l r x, join (lit ",") (map write (t :: l)) ++ r <> 41 :: x).
  { intros t l r x E. destruct (write_head t) as (c & s & W & C). destruct l; cbn [map] in E;
      [cbn [join] in E|rewrite join_cons2 in E]; rewrite W in E; cbn in E; injection E as -> _;
      destruct C as [C|C]; discriminate. }
  intros H. induction H as [|t ts1 Ht H IH]; intros [|t2 ts2] r1 r2 E.
  - cbn in E. split; [reflexivity|congruence].
  - exfalso. symmetry in E. now apply H0 in E.
  - exfalso. now apply H0 in E.
  - destruct ts1 as [|u us], ts2 as [|u2 us2]; cbn [map] in *.
    + cbn [join] in E. apply Ht in E as [-> E]; auto. split; congruence.
    + rewrite join_cons2 in E. cbn [join] in E. rewrite <- !app_assoc in E. change (lit ",") with [44] in E at 1.
      apply Ht in E as [_ E]; auto; [discriminate|apply S1].
    + rewrite join_cons2 in E. cbn [join] in E. rewrite <- !app_assoc in E. change (lit ",") with [44] in E at 1.
      apply Ht in E as [_ E]; auto; [discriminate|apply S1].
    + rewrite !join_cons2 in E. rewrite <- !app_assoc in E.
      change (lit "," ++ join (lit ",") (write u :: map write us) ++ 41 :: r1) with
        (44 :: join (lit ",") (map write (u :: us)) ++ 41 :: r1) in E.
      change (lit "," ++ join (lit ",") (write u2 :: map write us2) ++ 41 :: r2) with
        (44 :: join (lit ",") (map write (u2 :: us2)) ++ 41 :: r2) in E.
      apply Ht in E as [-> E]; auto. injection E as E. apply (IH (u2 :: us2) r1 r2) in E as [-> ->]. auto.
Qed.

Lemma core_unique_all t : core_unique t.
Proof.
  assert (Leaf : forall t, is_core t -> match t with PTuple _ => False | _ => True end ->
    forall t2 r1 r2, no_alnum r1 -> no_alnum r2 -> write t ++ r1 = write (core t2) ++ r2 -> t = core t2 /\ r1 = r2).
  { intros t0 C T t2 r1 r2 R1 R2 E.
    assert (T2 : match core t2 with PTuple _ => False | _ => True end).
    { destruct (core t2) eqn:E2; auto. rewrite write_tuple in E. pose proof (leaf_alnum C T) as A.
      destruct (write_head t0) as (c & s & W & _). rewrite W in E, A. cbn in E. injection E as E _.
      cbn [forallb] in A. apply andb_true_iff in A as [A _]. subst c. discriminate. }
    pose proof (core_core t2) as C2. pose proof (leaf_alnum C T) as A1. pose proof (leaf_alnum C2 T2) as A2.
    assert (EW : write t0 = write (core t2)).
    { pose proof (take_alnum _ _ A1 R1) as T3. pose proof (take_alnum _ _ A2 R2) as T4.
      exact (eq_trans (eq_sym T3) (eq_trans (f_equal (take_while is_alnum) E) T4)). }
    split; [now apply leaf_inj|]. rewrite EW in E. now apply app_inv_head in E. }
  induction t using ParamType_ind'; try (intros t2 r1 r2; apply Leaf; [reflexivity|exact I]); try exact IHt.
  intros t2 r1 r2 R1 R2 E. cbn [core] in *. rewrite write_tuple in E.
  destruct (core t2) as [| | | | | | | | |ts2] eqn:E2; try (exfalso; revert E; pose proof (core_core t2) as C2; rewrite E2 in C2;
    match goal with |- _ = write ?u ++ _ -> _ => pose proof (@leaf_alnum u C2 I) as A; destruct (write_head u) as (c & s & W & _);
       rewrite W in *; cbn [app]; intros E; injection E as E _; cbn [forallb] in A; subst c; discriminate end).
  rewrite write_tuple in E. cbn [app] in E. injection E as E. rewrite <- !app_assoc in E. cbn [app] in E.
  apply names_unique in E as [-> ->]; [auto|]. eapply Forall_impl; [|exact H]. intros a Ha. now apply core_name.
Qed.
Lemma name_unique_all t : name_unique t.
Proof. apply core_name, core_unique_all. Qed.
Lemma write_inj t1 t2 : write t1 = write t2 -> t1 = t2.
Proof.
  intros E. apply (@name_unique_all t1 t2 [] []); [exact I|exact I|]. now rewrite E.
Qed.
Lemma join_names_inj ts1 ts2 r1 r2 :
  join (lit ",") (map write ts1) ++ 41 :: r1 = join (lit ",") (map write ts2) ++ 41 :: r2 ->
  ts1 = ts2 /\ r1 = r2.
Proof. apply names_unique. apply Forall_forall. intros. apply name_unique_all. Qed.

(** * The nesting of types read from names *)
From Verif Require Import Base BaseFacts StrFacts Types TypeNames TypeNamesSpec ReaderSpec ReaderFacts ReaderTotal ReaderGrammar ReaderExact ReaderNested DepthSpec.
From Coq Require Import String Lia ZifyBool ZifyNat ZifyN.
Set Implicit Arguments.
Notation length := List.length.
Local Open Scope nat_scope.
Local Open Scope list_scope.

Lemma levels_tuple ts n : (forall t, In t ts -> levels t <= n) -> levels (PTuple ts) <= S n.
Proof.
  intros H. cbn [levels]. apply le_n_S. induction ts as [|t ts IH]; cbn [fold_right]; [lia|].
  assert (levels t <= n) by (apply H; now left). assert (fold_right (fun t n => Nat.max (levels t) n) 0 ts <= n) by (apply IH; intros; apply H; now right). lia.
Qed.
Lemma levels_field ts t : In t ts -> levels t < levels (PTuple ts).
Proof.
  cbn [levels]. induction ts as [|u ts IH]; [easy|]. intros [->|I]; cbn [fold_right]; [lia|]. specialize (IH I). lia.
Qed.

Lemma levels_tuple2 ts m : (forall t, In t ts -> 2 * levels t <= m) -> 2 * levels (PTuple ts) <= m + 2.
Proof.
  intros H. assert (levels (PTuple ts) <= S (m / 2)); [|assert (m / 2 * 2 <= m); [|lia]].
  - apply levels_tuple. intros t I. apply H in I. apply PeanoNat.Nat.div_le_lower_bound; lia.
  - rewrite PeanoNat.Nat.mul_comm. apply PeanoNat.Nat.mul_div_le. lia.
Qed.

(** ** ASCII names *)
Lemma spelled_levels s t : spelled s t -> 2 * levels t + 1 <= length s.
Proof.
  induction 1; cbn [levels]; rewrite ?app_length; try (cbn; lia).
Qed.
Lemma arrays_levels y t0 t : arrays_text y t0 t -> 2 * levels t <= 2 * levels t0 + length y.
Proof. induction 1; cbn [levels]; rewrite ?app_length; cbn [lit length] in *; rewrite ?app_length; cbn; lia. Qed.
Lemma closed_levels g us : closed_fields g us -> forall u, In u us -> 2 * levels u + 2 <= length g.
Proof.
  induction 1 as [|g ts H IH|x t g ts S H IH]; intros u I; [destruct I| |].
  - apply IH in I. cbn [length]. lia.
  - rewrite app_length. cbn [length]. destruct I as [<-|I]; [apply spelled_levels in S; lia|]. apply IH in I. lia.
Qed.

Lemma tuple_levels g us x z y t : closed_fields g us -> spelled x z -> arrays_text y (PTuple (us ++ [z])) t ->
  2 * levels t <= length g + length x + length y + 1.
Proof.
  intros C Sp A. pose proof (arrays_levels A) as Q. pose proof (spelled_levels Sp) as R.
  assert (2 * levels (PTuple (us ++ [z])) <= (length g + length x - 1) + 2); [|lia].
  apply levels_tuple2. intros v J. rewrite in_app_iff in J. destruct J as [J|[<-|[]]]; [|lia]. pose proof (closed_levels C v J). lia.
Qed.

Scheme body_ind2 := Minimality for body Sort Prop
  with opened_ind2 := Minimality for opened Sort Prop.
Combined Scheme body_opened_ind2 from body_ind2, opened_ind2.

Section Bound.
(** The length of the whole text after the first parenthesis. *)
Variable B : nat.
Definition low (k : waiting) : Prop := forall i u, In u (k i) -> 2 * levels u + 2 <= B.
Lemma low_add k n us : low k -> (forall u, In u us -> 2 * levels u + 2 <= B) -> low (add_waiting k n us).
Proof.
  intros L H i u. unfold add_waiting, set_waiting. destruct (Nat.eqb i n); [|apply L]. rewrite in_app_iff. intros [I|I]; [now apply L in I|auto].
Qed.
Lemma low_clear k n : low k -> low (set_waiting k n []).
Proof. intros L i u. unfold set_waiting. destruct (Nat.eqb i n); [intros []|apply L]. Qed.

Lemma body_levels :
  (forall n k s ts, body n k s ts -> low k -> length s + n <= B + 1 -> forall t, In t ts -> 2 * levels t <= B) /\
  (forall n k s ts, opened n k s ts -> low k -> length s + n <= B + 1 -> forall t, In t ts -> 2 * levels t <= B).
Proof.
  apply body_opened_ind2.
  - intros n k _ _ t [].
  - intros n k s ts _ IH L H t I. cbn [length] in H. apply IH; auto. lia.
  - intros k x u s ts S _ IH L H t [<-|I]; rewrite app_length in H; cbn [length] in H.
    + apply spelled_levels in S. lia.
    + apply IH; auto. lia.
  - intros n k x u s ts S _ IH L H t I. rewrite app_length in H; cbn [length] in H. apply IH; auto; [|lia].
    apply low_add; [exact L|]. intros v [<-|[]]. apply spelled_levels in S. lia.
  - intros n k s ts _ IH L H t I. cbn [length] in H. apply IH; auto. lia.
  - intros k x u s ts S _ IH L H t [<-|I]; rewrite app_length in H; cbn [length] in H.
    + apply spelled_levels in S. lia.
    + apply IH; auto. lia.
  - intros n k x s ts _ _ IH L H t I. rewrite app_length in H; cbn [length] in H. apply IH; auto. lia.
  - intros k j x s ts _ _ _ IH L H t I. rewrite app_length in H; cbn [length] in H. rewrite app_length in H; cbn [length] in H. apply IH; auto. lia.
  - intros n k g us s ts C _ IH L H t I. rewrite app_length in H; cbn [length] in H. apply IH; auto; [|lia].
    apply low_add; [exact L|]. intros v J. pose proof (closed_levels C v J). lia.
  - intros n k g us x s ts C _ _ IH L H t I. rewrite !app_length in H; cbn [length] in H. apply IH; auto; [|lia].
    apply low_add; [exact L|]. intros v J. pose proof (closed_levels C v J). lia.
  - intros k g us x z y u s ts C Sp A _ _ IH L H t I. rewrite !app_length in H; cbn [length] in H. rewrite app_length in H.
    pose proof (tuple_levels C Sp A) as Q. destruct I as [<-|I]; [lia|].
    apply IH; auto; [|lia]. apply low_add; [exact L|]. intros v J. pose proof (closed_levels C v J). lia.
  - intros n k g us x z y u s ts C Sp A _ _ IH L H t I. rewrite !app_length in H; cbn [length] in H. rewrite app_length in H.
    pose proof (tuple_levels C Sp A) as Q. destruct I as [<-|I].
    + assert (2 * levels (PTuple (k (S (S n)) ++ [u])) <= (B - 2) + 2); [|lia].
      apply levels_tuple2. intros v J. rewrite in_app_iff in J. destruct J as [J|[<-|[]]]; [apply L in J; lia|lia].
    + apply IH; auto; [|lia]. apply low_clear, low_add; [exact L|]. intros v J. pose proof (closed_levels C v J). lia.
Qed.
End Bound.

Lemma accepted_levels s t : accepted s t -> 2 * levels t <= length s + 1.
Proof.
  induction 1 as [s t H|s ts H|s t H IH|s t k n H IH K].
  - apply spelled_levels in H. lia.
  - rewrite !app_length. cbn [lit length]. assert (2 * levels (PTuple ts) <= length (s ++ lit ")") + 2).
    { apply levels_tuple2. apply (proj1 (@body_levels _) _ _ _ _ H); [intros i u []|]. lia. }
    rewrite app_length in H0. cbn in *. lia.
  - cbn [levels]. rewrite app_length. cbn. lia.
  - cbn [levels]. rewrite !app_length. cbn. lia.
Qed.
Lemma read_levels p s t : (len s < 2 ^ 63)%N -> all_ascii s = true -> read p s = Ok t -> 2 * levels t <= length s + 1.
Proof. intros L A E. apply (@nested_read p (S (length s)) s (le_n _) L A t) in E. now apply accepted_levels. Qed.

(** ** The bound is attained *)
Fixpoint suffixes (k : nat) : str := match k with O => [] | S k' => suffixes k' ++ lit "[]" end.
Fixpoint arrays (k : nat) (t : ParamType) : ParamType := match k with O => t | S k' => PArray (arrays k' t) end.
Definition deep_name (k : nat) : str := lit "(((int" ++ suffixes k ++ lit ")".
Definition deep_type (k : nat) : ParamType := PTuple [PTuple [PTuple [arrays k (PInt 256)]]].
Lemma suffixes_length k : length (suffixes k) = 2 * k.
Proof. induction k as [|k IH]; cbn [suffixes]; [reflexivity|]. rewrite app_length, IH. cbn. lia. Qed.
Lemma suffixes_ascii k : all_ascii (suffixes k) = true.
Proof. induction k as [|k IH]; cbn [suffixes]; [reflexivity|]. unfold all_ascii in *. now rewrite forallb_app, IH. Qed.
Lemma arrays_level k t : levels (arrays k t) = k + levels t.
Proof. induction k as [|k IH]; cbn [arrays levels]; lia. Qed.
Lemma int_spelled k : spelled (lit "int" ++ suffixes k) (arrays k (PInt 256)).
Proof. induction k as [|k IH]; cbn [suffixes arrays]; [apply sp_int256|]. rewrite app_assoc. now apply sp_array. Qed.
Lemma deep_accepted k : accepted (deep_name k) (deep_type k).
Proof.
  assert (E : deep_name k = lit "(" ++ (lit "((int" ++ suffixes k) ++ lit ")") by (unfold deep_name; now rewrite !app_assoc).
  rewrite E. apply ac_tuple.
  change ((lit "((int" ++ suffixes k) ++ lit ")") with ([] ++ 40%N :: [] ++ [] ++ 40%N :: (lit "int" ++ suffixes k) ++ 41%N :: []).
  apply bd_open; [intros c []|].
  apply (@op_deeper 0 _ [] [] []); [constructor|intros c []|].
  change [PTuple [PTuple [arrays k (PInt 256)]]] with [PTuple (add_waiting (fun _ : nat => []) 2 [] 2 ++ [PTuple ([] ++ [arrays k (PInt 256)])])].
  apply (@op_inner 0 (add_waiting (fun _ : nat => []) 2 []) [] [] (lit "int" ++ suffixes k) (arrays k (PInt 256)) [] _ [] []); [constructor|apply int_spelled|constructor|now left|].
  apply bd_end.
Qed.
Lemma deep_reads p k : (N.of_nat k < 2 ^ 60)%N -> read p (deep_name k) = Ok (deep_type k) /\ 2 * levels (deep_type k) = length (deep_name k) + 1.
Proof.
  intros K. assert (L : length (deep_name k) = 7 + 2 * k) by (unfold deep_name; rewrite !app_length, suffixes_length; cbn; lia). split.
  - apply (@nested_read p (S (length (deep_name k))) (deep_name k) (le_n _)).
    + unfold len. rewrite L. lia.
    + unfold deep_name, all_ascii in *. rewrite !forallb_app. now rewrite suffixes_ascii.
    + apply deep_accepted.
  - rewrite L. unfold deep_type. cbn [levels fold_right]. rewrite arrays_level. cbn. lia.
Qed.

(** ** All names *)
Section Any.
Context (p : profile).
Section Loop.
Context (rd : str -> res ParamType) (name : str).
Hypothesis Hrd : forall s t, rd s = Ok t -> (str_len s < 2 ^ 63)%N -> levels t <= length s.
Hypothesis small : (str_len name < 2 ^ 63)%N.
Definition lev_inv (pos : N) (st : rstate) : Prop :=
  (1 <= last_item st)%N /\ (0 <= nested st)%Z /\ (nested st <= Z.of_N pos)%Z /\ (nested st <= Z.of_N (top_level_paren_open st) + 1)%Z /\
  (forall t, In t (subtypes st) -> levels t + 1 <= length name) /\
  (forall l t, In l (subtuples st) -> In t l -> levels t + 2 <= length name).
Lemma slice_levels i j s t : str_slice name i j = Ok s -> rd s = Ok t -> (N.of_nat (levels t) + i <= j)%N.
Proof.
  intros E R. assert (B := slice_len _ _ _ E). apply Hrd in R; [|lia]. apply str_slice_ok in E as (a & b & _ & _ & ->).
  pose proof (str_len_ge s). unfold len in *. lia.
Qed.
Lemma take_levels l i x r : take_at l i = Ok (x, r) -> In x l /\ (forall y, In y r -> y = [] \/ In y l).
Proof.
  revert i x r. induction l as [|a l IH]; intros i x r E; [discriminate|]. destruct i as [|i]; cbn [take_at] in E.
  - injection E as <- <-. split; [now left|]. intros y [<-|I]; auto. right. now right.
  - apply bind_ok in E as ([x' r'] & E1 & E). injection E as <- <-. apply IH in E1 as [I1 I2]. split; [now right|].
    intros y [<-|I]; [right; now left|]. apply I2 in I as [->|I]; auto. right. now right.
Qed.
Lemma push_levels l i x r : push_at l i x = Ok r -> forall y t, In y r -> In t y -> t = x \/ exists y', In y' l /\ In t y'.
Proof.
  revert i r. induction l as [|a l IH]; intros i r E y t Iy It; [discriminate|]. destruct i as [|i]; cbn [push_at] in E.
  - injection E as <-. destruct Iy as [<-|Iy].
    + rewrite in_app_iff in It. destruct It as [It|[<-|[]]]; auto. right. exists a. split; [now left|auto].
    + right. exists y. split; [now right|auto].
  - apply bind_ok in E as (r' & E1 & E). injection E as <-. destruct Iy as [<-|Iy].
    + right. exists a. split; [now left|auto].
    + destruct (IH _ _ E1 y t Iy It) as [->|(y' & I & J)]; auto. right. exists y'. split; [now right|auto].
Qed.
Ltac inv6 := unfold lev_inv; cbn [last_item nested top_level_paren_open subtypes subtuples]; split; [lia|split; [lia|split; [lia|split; [lia|split]]]].
Lemma read_char_levels pos c rest st st' k : lev_inv pos st -> (pos + 1 + len rest = len name)%N ->
  read_char rd name st pos c rest = Ok (st', k) -> lev_inv (pos + 1) st'.
Proof.
  intros (I1 & I2 & I3 & I4 & I5 & I6) P. unfold len in P. unfold read_char.
  destruct (c =? ch_open)%N.
  { destruct (1 <? nested st + 1)%Z eqn:N1; intros H; injection H as <- <-; inv6; auto.
    intros l t I. rewrite in_app_iff in I. destruct I as [I|[<-|[]]]; [now apply I6|intros []]. }
  destruct (c =? ch_close)%N.
  { destruct (nested st - 1 <? 0)%Z eqn:N1; [discriminate|]. intros E. apply bind_ok in E as (x & Ex & E).
    destruct x as [|x0 x]; [injection E as <- <-; inv6; auto|].
    destruct (nested st - 1 =? 0)%Z eqn:N2.
    - apply bind_ok in E as (y & Ey & E). injection E as <- <-. pose proof (slice_levels _ _ Ex Ey) as Q. inv6; auto.
      intros t I. rewrite in_app_iff in I. destruct I as [I|[<-|[]]]; [now apply I5|lia].
    - cbv zeta in E. apply bind_ok in E as (y & Ey & E). apply bind_ok in E as (z & Ez & E). pose proof (slice_levels _ _ Ey Ez) as Q.
      pose proof (@take_while_len _ (fun c => negb ((c =? ch_comma) || (c =? ch_close)))%N rest) as W. unfold len in Q.
      destruct (1 <? nested st - 1)%Z eqn:N3.
      + apply bind_ok in E as ([u v] & Eu & E). injection E as <- <-. apply take_levels in Eu as [U1 U2]. inv6.
        * intros t I. rewrite in_app_iff in I. destruct I as [I|[<-|[]]]; [now apply I5|].
          assert (levels (PTuple (u ++ [z])) <= S (length name - 2)); [|lia].
          apply levels_tuple. intros t I. rewrite in_app_iff in I. destruct I as [I|[<-|[]]]; [pose proof (I6 u t U1 I); lia|lia].
        * intros l t I J. apply U2 in I as [->|I]; [destruct J|now apply (I6 l)].
      + injection E as <- <-. inv6; auto.
        intros t I. rewrite in_app_iff in I. destruct I as [I|[<-|[]]]; [now apply I5|lia]. }
  destruct (c =? ch_comma)%N.
  { intros E. apply bind_ok in E as (x & Ex & E).
    destruct x as [|x0 x]; [injection E as <- <-; inv6; auto|].
    destruct (nested st =? 1)%Z eqn:N2.
    - apply bind_ok in E as (y & Ey & E). injection E as <- <-. pose proof (slice_levels _ _ Ex Ey) as Q. inv6; auto.
      intros t I. rewrite in_app_iff in I. destruct I as [I|[<-|[]]]; [now apply I5|lia].
    - destruct (1 <? nested st)%Z eqn:N3.
      + apply bind_ok in E as (y & Ey & E). apply bind_ok in E as (z & Ez & E). injection E as <- <-. pose proof (slice_levels _ _ Ex Ey) as Q. inv6; auto.
        intros l t I J. destruct (@push_levels _ _ _ _ Ez l t I J) as [->|(l' & I' & J')]; [lia|now apply (I6 l')].
      + injection E as <- <-. inv6; auto. }
  intros E. injection E as <- <-. inv6; auto.
Qed.
Lemma loop_levels rest : forall pos skip st st', lev_inv pos st -> (pos + len rest = len name)%N ->
  read_tuple_loop rd name rest pos skip st = Ok st' -> forall t, In t (subtypes st') -> levels t + 1 <= length name.
Proof.
  induction rest as [|c rest IH]; intros pos skip st st' I P E; cbn [read_tuple_loop] in E.
  - injection E as <-. apply I.
  - rewrite len_cons in P. destruct skip as [|k].
    + apply bind_ok in E as ([st1 k] & E1 & E). eapply IH; [|  |exact E]; [|lia]. eapply read_char_levels; [exact I| |exact E1]. lia.
    + eapply IH; [|  |exact E]; [|lia]. destruct I as (I1 & I2 & I3 & I4 & I5 & I6). inv6; auto.
Qed.
End Loop.
Lemma base_levels name t : read_base name = Ok t -> levels t = 1 /\ 1 <= length name.
Proof.
  unfold read_base. repeat match goal with |- context [str_eqb ?a ?b] => destruct (str_eqb a b) eqn:?; [intros E; injection E as <-; split; [reflexivity|] |] end;
    try (match goal with H : str_eqb ?a _ = true |- _ => apply str_eqb_eq in H; subst; cbn; lia end).
  assert (G : forall n c, name = [] -> starts_with name (n :: c) = false) by (intros n c ->; reflexivity).
  destruct name as [|c0 name]; [intros E; discriminate E|]. intros E. split; [|cbn; lia]. revert E.
  repeat match goal with |- context [starts_with ?a ?b] => destruct (starts_with a b);
    [intros E; apply bind_ok in E as (s & _ & E); apply bind_ok in E as (l & _ & E); injection E as <-; reflexivity|] end. discriminate.
Qed.
Lemma read_fuel_levels f : forall name t, read_fuel p f name = Ok t -> (str_len name < 2 ^ 63)%N -> levels t <= length name.
Proof.
  induction f as [|f IH]; intros name t E B; [discriminate|]. cbn [read_fuel] in E.
  destruct (last_char name) as [c|] eqn:EL; [|apply base_levels in E; lia].
  destruct (c =? ch_close)%N.
  - unfold read_tuple in E. destruct (starts_with_char name ch_open) eqn:SW; [|discriminate].
    apply bind_ok in E as (st & E & E'). injection E' as <-.
    assert (H := @loop_levels (read_fuel p f) name IH B name 0%N 0 (mkR [] [] 0 0 1) st).
    assert (L : 1 <= length name) by (destruct name; [discriminate|cbn; lia]).
    assert (levels (PTuple (subtypes st)) <= S (length name - 1)); [|lia].
    apply levels_tuple. intros t I. assert (levels t + 1 <= length name); [|lia]. apply H; auto.
    unfold lev_inv; cbn [last_item nested top_level_paren_open subtypes subtuples]. repeat split; try lia; intros; easy.
  - destruct (c =? ch_rbracket)%N; [|apply base_levels in E; lia].
    assert (T : two64 = (2 ^ 64)%N) by reflexivity.
    assert (Hs : forall sub e u, str_slice name 0 e = Ok sub -> (e < len name)%N -> read_fuel p f sub = Ok u -> levels u + 1 <= length name).
    { intros sub e u E1 E2 E3. apply IH in E3; [|apply slice_len in E1; lia].
      apply str_slice_ok in E1 as (a & b & _ & _ & Q). pose proof (str_len_ge sub). unfold len in *. lia. }
    assert (N1 : (1 <= len name)%N) by (apply last_char_some in EL as [s' ->]; rewrite len_app; change (len [c]) with 1%N; lia).
    unfold read_array in E. destruct (rev _) as [|n0 num] eqn:EN.
    + apply bind_ok in E as (e & E1 & E). apply bind_ok in E as (sub & E2 & E). apply bind_ok in E as (u & E3 & E). injection E as <-.
      assert (H := Hs _ _ u E2). cbn [levels]. assert (levels u + 1 <= length name); [|lia]. apply H; [|exact E3].
      apply slice_beyond in E2. apply usize_sub_inv in E1 as [[G ->]|[G ->]]; lia.
    + apply bind_ok in E as (l & EP & E). apply bind_ok in E as (e0 & E0 & E). apply bind_ok in E as (e & E1 & E).
      apply bind_ok in E as (sub & E2 & E). apply bind_ok in E as (u & E3 & E). injection E as <-.
      assert (H := Hs _ _ u E2). cbn [levels]. assert (levels u + 1 <= length name); [|lia]. apply H; [|exact E3].
      apply parse_usize_ascii, str_len_ascii in EP. rewrite EP in E0.
      assert (LN : (len (n0 :: num) + 1 <= len name)%N).
      { rewrite <- EN. unfold len. rewrite rev_length. pose proof (take_while_len (fun c => negb (c =? ch_lbracket)%N) (skipn 1 (rev name))) as W.
        rewrite skipn_length, rev_length in W. unfold len in N1. lia. }
      pose proof (str_len_ge name).
      apply slice_beyond in E2. apply usize_sub_inv in E0 as [[G ->]|[G ->]]; [|lia].
      apply usize_sub_inv in E1 as [[G1 ->]|[G1 ->]]; lia.
Qed.
Lemma read_any_levels name t : (str_len name < 2 ^ 63)%N -> read p name = Ok t -> levels t <= length name.
Proof. intros L E. now apply (@read_fuel_levels _ _ _ E). Qed.
End Any.

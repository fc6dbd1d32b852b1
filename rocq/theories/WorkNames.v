(** * Proofs about the work of reading type names *)
From Verif Require Import Base BaseFacts StrFacts Types TypeNames TypeNamesSpec ReaderSpec ReaderFacts ReaderTotal ReaderGrammar Work.
From Coq Require Import Lia ZifyBool ZifyNat ZifyN.
Set Implicit Arguments.
Notation length := List.length.
Local Open Scope N_scope.
Local Open Scope list_scope.

Definition occ (c : char) (s : str) : N := len (filter (N.eqb c) s).
Lemma occ_app c a b : occ c (a ++ b) = occ c a + occ c b.
Proof. unfold occ. now rewrite filter_app, len_app. Qed.
Lemma occ_cons c d s : occ c (d :: s) = (if c =? d then 1 else 0) + occ c s.
Proof. unfold occ. cbn [filter]. destruct (c =? d); rewrite ?len_cons; lia. Qed.
Lemma occ_none c s : ~ In c s -> occ c s = 0.
Proof.
  induction s as [|d s IH]; intros N; [reflexivity|]. rewrite occ_cons, IH by (intros I; apply N; now right).
  destruct (N.eqb_spec c d) as [->|]; [|lia]. exfalso. apply N. now left.
Qed.
Lemma occ_some c s : In c s -> 1 <= occ c s.
Proof.
  induction s as [|d s IH]; intros I; [destruct I|]. rewrite occ_cons. destruct I as [->|I]; [rewrite N.eqb_refl; lia|]. apply IH in I. lia.
Qed.
(** At most one '(' up to the last ')'. *)
Definition early (s : str) : Prop := exists u v, s = u ++ v /\ occ 40 u <= 1 /\ ~ In 41 v.
Lemma early_prefix a b : early (a ++ b) -> early a.
Proof.
  intros (u & v & E & O & N). apply app_eq_app in E as (l & [[-> ->]|[-> ->]]).
  - exists u, l. split; [reflexivity|]. split; [exact O|]. intros I. apply N. apply in_app_iff. now left.
  - exists a, []. split; [now rewrite app_nil_r|]. split; [|auto]. rewrite occ_app in O. lia.
Qed.
Lemma early_closed s : early (s ++ [41]) -> occ 40 (s ++ [41]) <= 1.
Proof.
  intros (u & v & E & O & N). destruct v as [|c v] using rev_ind; [rewrite app_nil_r in E; congruence|].
  rewrite app_assoc in E. apply app_inj_tail in E as [_ <-]. exfalso. apply N. apply in_app_iff. right. now left.
Qed.

(** ** The array branch *)
Lemma usize_err s e : parse_usize s = Err e -> e = ParseIntErr.
Proof.
  unfold parse_usize. destruct s as [|c [|d s]]; [now injection 1|destruct (dec_digit c); [discriminate|now injection 1]|].
  destruct (parse_digits _ _ _); [discriminate|now injection 1].
Qed.
Section Array.
Context (p : profile).
Lemma array_asked name : all_ascii name = true -> len name < 2 ^ 63 -> last_char name = Some ch_rbracket ->
  match asked (read_array p ask name) with
  | Some sub => exists num w, suffix_wrap num w /\ name = sub ++ 91 :: num ++ [93] /\
      forall rd t, read_array p rd name = Ok t -> exists u, rd sub = Ok u
  | None => forall rd t, read_array p rd name <> Ok t
  end.
Proof.
  intros A B EL. apply last_char_some in EL as [s0 ->]. change ch_rbracket with 93 in *.
  destruct (split_bracket s0) as [(x & num & -> & NB)|NB].
  - rewrite <- app_assoc in *. cbn [app] in *. destruct (suffix_wrap_dec num) as [[w S]|S].
    + assert (R : forall rd, read_array p rd (x ++ 91 :: num ++ [93]) = (do t <- rd x; Ok (w t))).
      { intros rd. rewrite (read_array_wrap p rd x S). rewrite all_ascii_app in A. apply andb_true_iff in A as [A _].
        pose proof (@ascii_slice [] x (91 :: num ++ [93]) eq_refl A) as E. cbn [app] in E. rewrite len_nil, N.add_0_l in E. rewrite E. reflexivity. }
      rewrite R. cbn [bind ask asked]. exists num, w. split; [exact S|]. split; [reflexivity|]. intros rd t. rewrite R. intros E.
      apply bind_ok in E as (u & E & _). eauto.
    + assert (R : forall rd, exists e, read_array p rd (x ++ 91 :: num ++ [93]) = Err e /\ e = ParseIntErr).
      { intros rd. destruct (read_array_bad p rd x NB S) as [e E]. exists e. split; [exact E|]. revert E. rewrite read_array_split by assumption.
        destruct num as [|c num]; [exfalso; apply (S PArray); now left|]. destruct (parse_usize (c :: num)) as [n|e'|] eqn:EP; cbn [bind].
        - exfalso. apply (S (fun t => PFixedArray t n)). right. exists n. split; [now apply parse_usize_iff|reflexivity].
        - injection 1 as <-. now apply usize_err in EP.
        - discriminate. }
      destruct (R ask) as (e & -> & ->). cbn [asked]. intros rd t E. destruct (R rd) as (e & E' & _). congruence.
  - rewrite <- (str_len_ascii _ A) in B. assert (R : forall rd, read_array p rd (s0 ++ [93]) = match s0 with [] => Panic | _ => do _ <- parse_usize s0; Panic end)
      by (intros rd; now apply read_array_lone).
    rewrite R. destruct s0 as [|c s0]; cbn [asked].
    + intros rd t. rewrite R. discriminate.
    + destruct (parse_usize (c :: s0)) as [n|e|] eqn:EP; cbn [bind asked].
      * intros rd t. rewrite R. cbn. discriminate.
      * apply usize_err in EP as ->. intros rd t. rewrite R. cbn. discriminate.
      * intros rd t. rewrite R. cbn. discriminate.
Qed.
End Array.
Lemma suffix_plain num w : suffix_wrap num w -> occ 40 (91 :: num ++ [93]) = 0 /\ occ 41 (91 :: num ++ [93]) = 0.
Proof.
  assert (P : forall c n, c = 40 \/ c = 41 -> (num = [] \/ size_text num n) -> ~ In c (91 :: num ++ [93])).
  { intros c n C H [I|I]; [lia|]. apply in_app_iff in I as [I|[I|[]]]; [|lia]. destruct H as [->|H]; [destruct I|].
    apply size_text_facts in H as (_ & _ & F & _). rewrite Forall_forall in F. specialize (F _ I). lia. }
  intros [[H _]|(n & H & _)]; split; apply occ_none; [apply (P _ 0)|apply (P _ 0)|apply (P _ n)|apply (P _ n)]; auto.
Qed.

(** ** The tuple branch: where the loop stands *)
Section Loop.
Context (rd : str -> res ParamType) (name : str).
Hypothesis A : all_ascii name = true.
Definition stands (pre : str) (st : rstate) : Prop :=
  (exists a m, pre = a ++ m /\ len a = last_item st /\ ~ In 41 m) /\
  (exists b q, pre = b ++ 40 :: q /\ len b = top_level_paren_open st /\ ~ In 40 q).
(** A call on an item: the text since the last one. *)
Definition item_call (pre : str) (c : char) (rest : str) (st : rstate) (s : str) : Prop :=
  (exists a, pre = a ++ s /\ len a = last_item st) /\ ~ In 41 s /\
  forall st' k, read_char rd name st (len pre) c rest = Ok (st', k) ->
    k = O /\ stands (pre ++ [c]) st' /\ last_item st' = len pre + 1 /\ top_level_paren_open st' = top_level_paren_open st /\ (nested st' <= nested st)%Z.
(** A call on an inner tuple: the text since the last '('. *)
Definition inner_call (pre : str) (rest : str) (st : rstate) (s : str) : Prop :=
  (2 <= nested st)%Z /\ exists b q sk rest', pre = b ++ 40 :: q /\ len b = top_level_paren_open st /\ ~ In 40 q /\ rest = sk ++ rest' /\
    s = 40 :: q ++ 41 :: sk /\ ~ In 41 sk /\ (forall r, rest' <> 40 :: r) /\
    forall st' k, read_char rd name st (len pre) 41 rest = Ok (st', k) -> (exists t, rd s = Ok t) /\
      k = length sk /\ last_item st' = len (pre ++ 41 :: sk) /\ top_level_paren_open st' = top_level_paren_open st.
Definition no_call (pre : str) (c : char) (rest : str) (st : rstate) : Prop :=
  forall st' k, read_char rd name st (len pre) c rest = Ok (st', k) ->
    k = O /\ stands (pre ++ [c]) st' /\ last_item st <= last_item st' /\ last_item st' <= len pre + 1 /\
    top_level_paren_open st' = (if c =? 40 then len pre else top_level_paren_open st) /\ (nested st' <= nested st + if (c =? 40)%N then 1 else 0)%Z.
Lemma stands_close pre c st' : c <> 40 -> (exists b q, pre = b ++ 40 :: q /\ len b = top_level_paren_open st' /\ ~ In 40 q) ->
  last_item st' = len pre + 1 -> stands (pre ++ [c]) st'.
Proof.
  intros C (b & q & -> & Lb & Q) L. split.
  - exists ((b ++ 40 :: q) ++ [c]), []. split; [now rewrite app_nil_r|]. split; [|auto]. rewrite len_app, L. reflexivity.
  - exists b, (q ++ [c]). split; [now rewrite <- app_assoc|]. split; [exact Lb|]. intros I. apply in_app_iff in I as [I|[I|[]]]; auto.
Qed.
Lemma char_calls pre c rest st : name = pre ++ c :: rest -> stands pre st ->
  match asked (read_char ask name st (len pre) c rest) with
  | None => no_call pre c rest st
  | Some s => item_call pre c rest st s \/ (c = 41 /\ inner_call pre rest st s)
  end.
Proof.
  intros E ((a & m & Ea & La & Nm) & T). unfold no_call, item_call, inner_call, read_char. change ch_open with 40. change ch_close with 41. change ch_comma with 44.
  assert (Ap : all_ascii pre = true) by (rewrite E, all_ascii_app in A; now apply andb_true_iff in A as [A _]).
  assert (SL : str_slice name (last_item st) (len pre) = Ok m).
  { rewrite Ea, all_ascii_app in Ap. apply andb_true_iff in Ap as [A1 A2]. rewrite E, Ea, <- La, <- app_assoc, len_app. now apply ascii_slice. }
  destruct (N.eqb_spec c 40) as [->|C1].
  { assert (S1 : forall st', last_item st' = last_item st -> top_level_paren_open st' = len pre -> stands (pre ++ [40]) st').
    { intros st' L1 L2. split.
      - exists a, (m ++ [40]). split; [rewrite Ea; apply app_assoc_reverse|]. split; [congruence|]. intros I. apply in_app_iff in I as [I|[I|[]]]; [auto|discriminate].
      - exists pre, []. split; [reflexivity|]. split; [auto|auto]. }
    assert (LI : last_item st <= len pre) by (rewrite Ea, len_app; lia).
    destruct (1 <? nested st + 1)%Z; cbn [asked]; intros st' k H; injection H as <- <-; cbn [last_item top_level_paren_open nested].
    - split; [reflexivity|]. split; [|split; [lia|split; [lia|split; [reflexivity|lia]]]]. split; cbn [last_item top_level_paren_open].
      + exists (pre ++ [40]), []. split; [now rewrite app_nil_r|]. split; [rewrite len_app; reflexivity|auto].
      + exists pre, []. split; [reflexivity|]. split; [auto|auto].
    - split; [reflexivity|]. split; [|split; [lia|split; [lia|split; [reflexivity|lia]]]]. now apply S1. }
  destruct (N.eqb_spec c 41) as [->|C2].
  { destruct (nested st - 1 <? 0)%Z eqn:N1; [cbn [asked]; discriminate|]. rewrite SL. cbn [bind].
    destruct m as [|m0 m].
    { cbn [asked]. intros st' k H. injection H as <- <-. cbn [last_item top_level_paren_open nested].
      split; [reflexivity|]. split; [now apply stands_close|]. rewrite Ea, app_nil_r, La. split; [lia|split; [lia|split; [reflexivity|lia]]]. }
    destruct (nested st - 1 =? 0)%Z eqn:N2.
    { cbn [bind ask asked]. left. split; [now exists a|]. split; [exact Nm|]. intros st' k H. apply bind_ok in H as (t & _ & H).
      injection H as <- <-. cbn [last_item top_level_paren_open nested]. split; [reflexivity|]. split; [now apply stands_close|]. split; [reflexivity|]. split; [reflexivity|lia]. }
    cbv zeta. set (sk := take_while _ rest).
    destruct T as (b & q & Eb & Lb & Q).
    assert (SK : exists rest', rest = sk ++ rest' /\ ~ In 41 sk /\ forall r, rest' <> 40 :: r).
    { clear - sk. subst sk. induction rest as [|d r IH]; [exists []; split; [reflexivity|split; [intros []|intros r0 H; discriminate H]]|]. cbn [take_while].
      destruct (d =? 44) eqn:D1; [apply N.eqb_eq in D1 as ->; cbn [negb orb]; exists (44 :: r); split; [reflexivity|split; [intros []|intros r0 H; discriminate H]]|].
      destruct (d =? 41) eqn:D2; [apply N.eqb_eq in D2 as ->; cbn [negb orb]; exists (41 :: r); split; [reflexivity|split; [intros []|intros r0 H; discriminate H]]|].
      cbn [negb orb]. destruct IH as (r' & E & N & H). exists r'. split; [cbn; f_equal; exact E|]. split; [|exact H]. intros [I|I]; [rewrite I in D2; discriminate|auto]. }
    destruct SK as (rest' & Er & Nsk & Hr).
    assert (SI : str_slice name (top_level_paren_open st) (len pre + len sk + 1) = Ok (40 :: q ++ 41 :: sk)).
    { rewrite <- Lb. assert (EN : name = b ++ (40 :: q ++ 41 :: sk) ++ rest') by (rewrite E, Er, Eb, <- app_assoc; cbn [app]; now rewrite <- app_assoc).
      assert (AN := A). rewrite EN in AN. rewrite !all_ascii_app in AN. apply andb_true_iff in AN as [A1 AN]. apply andb_true_iff in AN as [A2 _].
      rewrite EN. replace (len pre + len sk + 1) with (len b + len (40 :: q ++ 41 :: sk)) by (rewrite Eb, len_app, !len_cons, len_app, len_cons; lia). now apply ascii_slice. }
    rewrite SI. cbn [bind ask asked]. right. split; [reflexivity|]. split; [lia|]. exists b, q, sk, rest'. repeat split; auto.
    - apply bind_ok in H as (t & H & _). eauto.
    - apply bind_ok in H as (t & _ & H). destruct (1 <? _)%Z; [apply bind_ok in H as ([? ?] & _ & H)|]; now injection H as <- <-.
    - apply bind_ok in H as (t & _ & H). rewrite len_app, len_cons. destruct (1 <? _)%Z; [apply bind_ok in H as ([? ?] & _ & H)|]; injection H as <- <-; cbn [last_item]; lia.
    - apply bind_ok in H as (t & _ & H). destruct (1 <? _)%Z; [apply bind_ok in H as ([? ?] & _ & H)|]; now injection H as <- <-. }
  assert (SAME : stands (pre ++ [c]) st).
  { split.
    - exists a, (m ++ [c]). split; [rewrite Ea; apply app_assoc_reverse|]. split; [exact La|]. intros I. apply in_app_iff in I as [I|[I|[]]]; auto.
    - destruct T as (b & q & -> & Lb & Q). exists b, (q ++ [c]). split; [now rewrite <- app_assoc|]. split; [exact Lb|]. intros I. apply in_app_iff in I as [I|[I|[]]]; auto. }
  assert (LI : last_item st <= len pre) by (rewrite Ea, len_app; lia).
  destruct (N.eqb_spec c 44) as [->|C3].
  { rewrite SL. cbn [bind]. destruct m as [|m0 m].
    { cbn [asked]. intros st' k H. injection H as <- <-. cbn [last_item top_level_paren_open nested].
      split; [reflexivity|]. split; [now apply stands_close|]. split; [lia|split; [lia|split; [reflexivity|lia]]]. }
    destruct (nested st =? 1)%Z.
    { cbn [bind ask asked]. left. split; [now exists a|]. split; [exact Nm|]. intros st' k H. apply bind_ok in H as (t & _ & H).
      injection H as <- <-. cbn [last_item top_level_paren_open nested]. split; [reflexivity|]. split; [now apply stands_close|]. split; [reflexivity|]. split; [reflexivity|lia]. }
    destruct (1 <? nested st)%Z.
    { cbn [bind ask asked]. left. split; [now exists a|]. split; [exact Nm|]. intros st' k H. apply bind_ok in H as (t & _ & H). apply bind_ok in H as (l & _ & H).
      injection H as <- <-. cbn [last_item top_level_paren_open nested]. split; [reflexivity|]. split; [now apply stands_close|]. split; [reflexivity|]. split; [reflexivity|lia]. }
    cbn [asked]. intros st' k H. injection H as <- <-. split; [reflexivity|]. split; [exact SAME|]. split; [lia|split; [lia|split; [reflexivity|lia]]]. }
  cbn [asked]. intros st' k H. injection H as <- <-. split; [reflexivity|]. split; [exact SAME|]. split; [lia|split; [lia|split; [reflexivity|lia]]].
Qed.

Lemma skip_work cost w rest pos st :
  tuple_work rd cost name (w ++ rest) pos (length w) st = tuple_work rd cost name rest (pos + len w) 0 st.
Proof.
  revert pos. induction w as [|c w IH]; intros pos; cbn [app length].
  - rewrite len_nil, N.add_0_r. reflexivity.
  - cbn [tuple_work]. rewrite IH, len_cons. f_equal. lia.
Qed.

Lemma stands_last pre st : stands pre st -> last_item st <= len pre.
Proof. intros ((a & m & -> & <- & _) & _). rewrite len_app. lia. Qed.
Lemma sq_add a b : a * a + b * b <= (a + b) * (a + b).
Proof. nia. Qed.
Lemma sq_le a b : a <= b -> a * a <= b * b.
Proof. intros L. now apply N.mul_le_mono. Qed.

Context (cost : str -> N).
Hypothesis Hitem : forall m, ~ In 41 m -> all_ascii m = true -> len m <= len name -> cost m <= (1 + len m) * (1 + len m).
Lemma item_cost pre c rest st s : name = pre ++ c :: rest -> item_call pre c rest st s ->
  cost s + last_item st * last_item st <= (len pre + 1) * (len pre + 1).
Proof.
  intros E ((a & -> & <-) & N & _). pose proof (sq_add (1 + len s) (len a)) as Q. replace (1 + len s + len a) with (len (a ++ s) + 1) in Q by (rewrite len_app; lia).
  assert (H : cost s <= (1 + len s) * (1 + len s)); [|lia]. apply Hitem; [exact N| |rewrite E, !len_app, len_cons; lia].
  rewrite E, !all_ascii_app in A. apply andb_true_iff in A as [A' _]. now apply andb_true_iff in A' as [_ A'].
Qed.

Section Flat.
Hypothesis one : occ 40 name <= 1.
Lemma occ_pre c pre rest : name = pre ++ rest -> occ c pre <= occ c name.
Proof. intros ->. rewrite occ_app. lia. Qed.
Lemma flat_loop rest : forall pre st, name = pre ++ rest -> stands pre st -> (nested st <= Z.of_N (occ 40 pre))%Z ->
  tuple_work rd cost name rest (len pre) 0 st + last_item st * last_item st <= len name * len name.
Proof.
  induction rest as [|c rest IH]; intros pre st E S D; cbn [tuple_work].
  - rewrite app_nil_r in E. rewrite E, N.add_0_l. apply sq_le. now apply stands_last.
  - assert (E' : name = (pre ++ [c]) ++ rest) by now rewrite <- app_assoc.
    assert (LP : len (pre ++ [c]) = len pre + 1) by (rewrite len_app; reflexivity).
    assert (LN : len pre + 1 <= len name) by (rewrite E, len_app, len_cons; lia).
    pose proof (@char_calls _ _ _ _ E S) as H. unfold cost_asked. pose proof (@occ_pre 40 _ _ E) as O.
    assert (O' : occ 40 (pre ++ [c]) = occ 40 pre + if c =? 40 then 1 else 0) by (rewrite occ_app, occ_cons, (N.eqb_sym 40 c); unfold occ; cbn; lia).
    destruct (asked _) as [s|].
    + destruct H as [I|[_ (D2 & _)]]; [|exfalso; lia]. pose proof (@item_cost _ _ _ _ _ E I) as Q. destruct I as (_ & _ & I).
      destruct (read_char rd name st (len pre) c rest) as [[st' k]|?|] eqn:RC.
      * destruct (I _ _ eq_refl) as (-> & S' & L' & _ & D'). assert (B : (nested st' <= Z.of_N (occ 40 (pre ++ [c])))%Z) by lia.
        pose proof (IH _ _ E' S' B) as R. rewrite LP in R. rewrite L' in R. lia.
      * pose proof (sq_le LN). lia.
      * pose proof (sq_le LN). lia.
    + destruct (read_char rd name st (len pre) c rest) as [[st' k]|?|] eqn:RC.
      * destruct (H _ _ RC) as (-> & S' & L1 & L2 & _ & D'). assert (B : (nested st' <= Z.of_N (occ 40 (pre ++ [c])))%Z) by (rewrite O'; destruct (c =? 40); lia).
        pose proof (IH _ _ E' S' B) as R. rewrite LP in R. pose proof (sq_le L1). lia.
      * pose proof (sq_le (N.le_trans _ _ _ (stands_last S) (N.le_trans _ _ _ (N.le_add_r _ 1) LN))). lia.
      * pose proof (sq_le (N.le_trans _ _ _ (stands_last S) (N.le_trans _ _ _ (N.le_add_r _ 1) LN))). lia.
Qed.
Lemma char_nested st pos c rest st' k : read_char rd name st pos c rest = Ok (st', k) -> (0 <= nested st)%Z ->
  (nested st' = nested st + (if (c =? 40)%N then 1 else 0) - (if (c =? 41)%N then 1 else 0) /\ 0 <= nested st')%Z.
Proof.
  unfold read_char. change ch_open with 40. change ch_close with 41. change ch_comma with 44. intros H P.
  destruct (N.eqb_spec c 40) as [->|C1].
  { change (40 =? 41) with false. destruct (1 <? _)%Z; injection H as <- <-; cbn [nested]; lia. }
  destruct (N.eqb_spec c 41) as [->|C2].
  { destruct (_ <? 0)%Z eqn:N1; [discriminate|]. apply bind_ok in H as (x & _ & H). destruct x; [injection H as <- <-; cbn [nested]; lia|].
    destruct (_ =? 0)%Z; [apply bind_ok in H as (t & _ & H); injection H as <- <-; cbn [nested]; lia|].
    apply bind_ok in H as (t & _ & H). apply bind_ok in H as (t' & _ & H). destruct (1 <? _)%Z; [apply bind_ok in H as ([? ?] & _ & H)|]; injection H as <- <-; cbn [nested]; lia. }
  destruct (c =? 44); [|injection H as <- <-; lia].
  apply bind_ok in H as (x & _ & H). destruct x; [injection H as <- <-; cbn [nested]; lia|].
  destruct (nested st =? 1)%Z; [apply bind_ok in H as (t & _ & H); injection H as <- <-; cbn [nested]; lia|].
  destruct (1 <? nested st)%Z; [apply bind_ok in H as (t & _ & H); apply bind_ok in H as (l & _ & H); injection H as <- <-; cbn [nested]; lia|].
  injection H as <- <-. lia.
Qed.
Lemma flat_closes rest : forall pre st st', name = pre ++ rest -> stands pre st -> (0 <= nested st)%Z -> (nested st = Z.of_N (occ 40 pre) - Z.of_N (occ 41 pre))%Z ->
  read_tuple_loop rd name rest (len pre) 0 st = Ok st' -> occ 41 name <= occ 40 name.
Proof.
  induction rest as [|c rest IH]; intros pre st st' E S P D R; cbn [read_tuple_loop] in R.
  - rewrite app_nil_r in E. rewrite E. lia.
  - assert (E' : name = (pre ++ [c]) ++ rest) by now rewrite <- app_assoc.
    apply bind_ok in R as ([st1 k] & R1 & R). pose proof (char_nested _ _ _ _ R1 P) as [D1 P1].
    pose proof (@char_calls _ _ _ _ E S) as H. pose proof (@occ_pre 40 _ _ E) as O.
    assert (Q : k = 0%nat /\ stands (pre ++ [c]) st1).
    { destruct (asked _) as [s|]; [|destruct (H _ _ R1) as (-> & ? & _); auto].
      destruct H as [(_ & _ & I)|[_ (D2 & _)]]; [destruct (I _ _ R1) as (-> & ? & _); auto|exfalso; lia]. }
    destruct Q as [-> S']. replace (len pre + 1) with (len (pre ++ [c])) in R by (rewrite len_app; reflexivity).
    refine (IH _ _ _ E' S' P1 _ R). rewrite !occ_app, !occ_cons, D1, D. change (occ 40 []) with 0. change (occ 41 []) with 0. rewrite (N.eqb_sym 40 c), (N.eqb_sym 41 c).
    destruct (c =? 40), (c =? 41); lia.
Qed.
End Flat.

Section Deep.
Hypothesis Hinner : forall m, early m -> all_ascii m = true -> len m <= len name -> cost m <= (1 + len m) * (1 + len m).
Hypothesis Hok : forall m t, early m -> all_ascii m = true -> len m <= len name -> rd m = Ok t -> occ 40 m <= 1 /\ occ 41 m <= 1.
Definition reached (X : N) (used : bool) (pre rest : str) (st : rstate) : Prop :=
  if used then (forall b q, pre = b ++ 40 :: q -> len b = top_level_paren_open st -> In 41 q) /\ (X <= len pre \/ (X = len pre + 1 /\ forall r, rest <> 40 :: r))
  else X = top_level_paren_open st.
Lemma deep_loop n : forall rest, (length rest <= n)%nat -> forall pre st X used, name = pre ++ rest -> pre <> [] -> stands pre st -> reached X used pre rest st ->
  tuple_work rd cost name rest (len pre) 0 st + last_item st * last_item st + X * X <=
  len name * len name + (len name + 1) * (len name + 1) + (len name + 1) * (len name + 1).
Proof.
  assert (XB : forall X used pre rest st, name = pre ++ rest -> stands pre st -> reached X used pre rest st -> X <= len name + 1).
  { intros X used pre rest st E (_ & b & q & Eb & Lb & _) H. unfold reached in H. rewrite E, len_app. destruct used; [lia|]. rewrite H, <- Lb, Eb, len_app. lia. }
  assert (LB : forall pre rest st, name = pre ++ rest -> stands pre st -> last_item st <= len name).
  { intros pre rest st E S. pose proof (stands_last S). rewrite E, len_app. lia. }
  induction n as [|n IH]; intros rest Ln pre st X used E NE S RX.
  { destruct rest; [|cbn in Ln; lia]. cbn [tuple_work]. pose proof (sq_le (XB _ _ _ _ _ E S RX)). pose proof (sq_le (LB _ _ _ E S)). lia. }
  pose proof (sq_le (XB _ _ _ _ _ E S RX)) as XQ. pose proof (sq_le (LB _ _ _ E S)) as LQ.
  destruct rest as [|c rest]; cbn [tuple_work]; [lia|]. cbn [length] in Ln.
  assert (E' : name = (pre ++ [c]) ++ rest) by now rewrite <- app_assoc.
  assert (LP : len (pre ++ [c]) = len pre + 1) by (rewrite len_app; reflexivity).
  assert (LN : len pre + 1 <= len name) by (rewrite E, len_app, len_cons; lia).
  assert (NE' : pre ++ [c] <> []) by now destruct pre.
  pose proof (@char_calls _ _ _ _ E S) as H. unfold cost_asked.
  assert (keep : forall st', top_level_paren_open st' = top_level_paren_open st -> c <> 40 -> reached X used (pre ++ [c]) rest st').
  { intros st' T C. unfold reached in *. rewrite T. destruct used; [|exact RX]. destruct RX as [R1 R2]. split.
    - intros b q Eb Lb. destruct q as [|d q _] using rev_ind.
      + exfalso. apply app_inj_tail in Eb as [_ Eb]. congruence.
      + change (b ++ 40 :: q ++ [d]) with (b ++ (40 :: q) ++ [d]) in Eb. rewrite app_assoc in Eb. apply app_inj_tail in Eb as [-> _].
        apply in_app_iff. left. now apply (R1 b q).
    - left. rewrite LP. destruct R2 as [R2|[-> _]]; lia. }
  destruct (asked _) as [s|].
  - destruct H as [I|[-> (D2 & b & q & sk & rest' & Eb & Lb & Nq & Er & Es & Nsk & Hr & I)]].
    + (* an item *)
      pose proof (@item_cost _ _ _ _ _ E I) as Q. destruct I as (_ & N41 & I).
      destruct (read_char rd name st (len pre) c rest) as [[st' k]|?|] eqn:RC.
      * destruct (I _ _ eq_refl) as (-> & S' & L' & T' & _).
        assert (C40 : c <> 40). { intros ->. revert RC L'. unfold read_char. change (40 =? ch_open) with true. cbv iota. intros RC L'.
          destruct (1 <? _)%Z; injection RC as <-; cbn [last_item] in L'; [|pose proof (stands_last S); lia]. clear - T' S. cbn [top_level_paren_open] in T'.
          destruct S as (_ & b & q & -> & Lb & _). rewrite len_app, len_cons in T'. lia. }
        pose proof (IH rest ltac:(lia) _ _ X used E' NE' S' (keep _ T' C40)) as R. rewrite LP, L' in R. lia.
      * pose proof (sq_le LN). lia.
      * pose proof (sq_le LN). lia.
    + (* an inner tuple *)
      assert (EN : name = (pre ++ 41 :: sk) ++ rest') by (rewrite E, Er, <- app_assoc; reflexivity).
      assert (EE : early s).
      { exists (40 :: q ++ [41]), sk. rewrite Es. split; [cbn [app]; now rewrite <- app_assoc|]. split; [|exact Nsk].
        rewrite occ_cons, occ_app, (occ_none _ _ Nq). cbn. lia. }
      assert (Lpre : len pre = len b + 1 + len q) by (rewrite Eb, len_app, len_cons; lia).
      assert (Ls : len s = 2 + len q + len sk) by (rewrite Es, len_cons, len_app, len_cons; lia).
      assert (AS : all_ascii s = true).
      { assert (AN := A). rewrite EN, Eb, Es in *. rewrite !all_ascii_app in AN. unfold all_ascii in *. cbn [forallb] in *. rewrite forallb_app in *. cbn [forallb] in *.
        repeat (apply andb_true_iff in AN as [AN ?]). repeat match goal with H : _ && _ = true |- _ => apply andb_true_iff in H as [? ?] end.
        repeat (apply andb_true_iff; split); assumption. }
      assert (LNsk : len pre + 1 + len sk <= len name) by (rewrite EN, !len_app, len_cons; lia).
      assert (NB : len s <= len name) by lia.
      pose proof (Hinner EE AS NB) as Q.
      destruct (read_char rd name st (len pre) 41 rest) as [[st' k]|?|] eqn:RC.
      * destruct (I _ _ eq_refl) as ((t & Et) & -> & L' & T'). destruct (Hok EE AS NB Et) as [O1 O2].
        rewrite Es in O1, O2. rewrite occ_cons, occ_app, occ_cons in O1, O2. change (40 =? 40) with true in O1. change (40 =? 41) with false in O1. change (41 =? 40) with false in O2. change (41 =? 41) with true in O2. cbv iota in O1, O2.
        assert (Nq' : ~ In 41 q) by (intros J; apply occ_some in J; lia).
        assert (Nsk' : ~ In 40 sk) by (intros J; apply occ_some in J; lia).
        destruct used.
        { exfalso. destruct RX as [R _]. now apply Nq', (R b q). }
        unfold reached in RX.
        assert (LL : len (pre ++ 41 :: sk) = len pre + 1 + len sk) by (rewrite len_app, len_cons; lia).
        assert (S' : stands (pre ++ 41 :: sk) st').
        { split.
          - exists (pre ++ 41 :: sk), []. split; [now rewrite app_nil_r|]. split; [congruence|auto].
          - exists b, (q ++ 41 :: sk). split; [rewrite Eb, <- app_assoc; reflexivity|]. split; [congruence|]. intros J. apply in_app_iff in J as [J|[J|J]]; [auto|discriminate|auto]. }
        assert (RX' : reached (len (pre ++ 41 :: sk) + 1) true (pre ++ 41 :: sk) rest' st').
        { split; [|right; auto]. intros b' q' E1 L1. assert (b' = b /\ q' = q ++ 41 :: sk) as [-> ->].
          { rewrite Eb, <- app_assoc in E1. cbn [app] in E1. assert (LB' : length b = length b') by (unfold len in *; lia).
            clear - E1 LB'. revert b' E1 LB'. induction b as [|x b IHb]; intros [|y b'] E1 LB'; try discriminate; cbn [app] in E1; [injection E1 as E2; auto|]. injection E1 as E2 E3.
            destruct (IHb b' E3 ltac:(now injection LB')) as [-> ->]. now subst. }
          apply in_app_iff. right. now left. }
        assert (Ln' : (length rest' <= n)%nat) by (rewrite Er, app_length in Ln; lia).
        pose proof (IH rest' Ln' _ _ _ true EN ltac:(now destruct pre) S' RX') as R. rewrite L', LL in R.
        rewrite Er, skip_work. replace (len pre + 1 + len sk) with (len pre + 1 + len sk) in R by lia.
        pose proof (sq_add (1 + len s) X) as Q2. replace (1 + len s + X) with (len pre + 1 + len sk + 1) in Q2 by lia.
        pose proof (@sq_le (last_item st) (len pre + 1 + len sk) ltac:(pose proof (stands_last S); lia)). lia.
      * pose proof (@sq_le (1 + len s) (len name + 1) ltac:(lia)). lia.
      * pose proof (@sq_le (1 + len s) (len name + 1) ltac:(lia)). lia.
  - destruct (read_char rd name st (len pre) c rest) as [[st' k]|?|] eqn:RC; [|lia..].
    destruct (H _ _ RC) as (-> & S' & L1 & L2 & T' & _). pose proof (sq_le L1).
    destruct (N.eqb_spec c 40) as [->|C40].
    + pose proof (IH rest ltac:(lia) _ _ (len pre) false E' NE' S' (eq_sym T')) as R. rewrite LP in R.
      assert (X <= len pre); [|pose proof (@sq_le X (len pre) ltac:(lia)); lia].
      unfold reached in RX. destruct used; [|rewrite RX; destruct S as (_ & b & q & -> & Lb & _); rewrite len_app; lia].
      destruct RX as [_ [?|[_ Z]]]; [assumption|]. exfalso. now apply (Z rest).
    + pose proof (IH rest ltac:(lia) _ _ X used E' NE' S' (keep _ T' C40)) as R. rewrite LP in R. lia.
Qed.
End Deep.
End Loop.

(** ** Whole names *)
Section Names.
Context (p : profile).
Lemma ascii_of_prefix a b : all_ascii (a ++ b) = true -> all_ascii a = true.
Proof. rewrite all_ascii_app. intros H. now apply andb_true_iff in H as [H _]. Qed.
Lemma plain_parens s : forallb plain_char s = true -> occ 40 s = 0 /\ occ 41 s = 0.
Proof. intros H. rewrite forallb_forall in H. split; apply occ_none; intros I; apply H in I; discriminate. Qed.
Definition opened : rstate := mkR [] [] 1 0 1.
Lemma stands_opened : stands [40] opened.
Proof. split; [exists [40], []|exists [], []]; cbn; auto. Qed.
Lemma open_work rd cost r : tuple_work rd cost (40 :: r) (40 :: r) 0 0 (mkR [] [] 0 0 1) = tuple_work rd cost (40 :: r) r (len [40]) 0 opened.
Proof. reflexivity. Qed.
Lemma open_loop rd r : read_tuple_loop rd (40 :: r) (40 :: r) 0 0 (mkR [] [] 0 0 1) = read_tuple_loop rd (40 :: r) r (len [40]) 0 opened.
Proof. reflexivity. Qed.
Lemma no_close_early s : ~ In 41 s -> early s.
Proof. intros N. exists [], s. split; [reflexivity|]. split; [vm_compute; discriminate|exact N]. Qed.
Lemma starts_open s : starts_with_char s ch_open = true -> exists r, s = 40 :: r.
Proof. destruct s as [|c r]; [discriminate|]. cbn. intros E. apply N.eqb_eq in E as ->. now exists r. Qed.

Lemma early_ok f : forall s t, all_ascii s = true -> len s < 2 ^ 63 -> early s -> read_fuel p f s = Ok t -> occ 40 s <= 1 /\ occ 41 s <= 1.
Proof.
  induction f as [|f IH]; intros s t A B E R; [discriminate|]. cbn [read_fuel] in R.
  assert (base : read_base s = Ok t -> occ 40 s <= 1 /\ occ 41 s <= 1).
  { intros W. apply read_base_iff, word_chars in W as [W _]. apply plain_parens in W as [-> ->]. split; vm_compute; discriminate. }
  destruct (last_char s) as [c|] eqn:L; [|auto].
  destruct (N.eqb_spec c ch_close) as [->|_].
  - apply last_char_some in L as [s0 ES]. change ch_close with 41 in ES. rewrite ES in E. apply early_closed in E. rewrite <- ES in E. clear s0 ES. split; [exact E|].
    unfold read_tuple in R. destruct (starts_with_char s ch_open) eqn:S; [|discriminate]. apply starts_open in S as [r ->].
    apply bind_ok in R as (st & R & _). rewrite open_loop in R.
    assert (Q := @flat_closes (read_fuel p f) (40 :: r) A (fun _ => 0) ltac:(intros; apply N.le_0_l) E r [40] opened st eq_refl stands_opened ltac:(discriminate) eq_refl R). lia.
  - destruct (N.eqb_spec c ch_rbracket) as [->|_]; [|auto].
    pose proof (@array_asked p s A B L) as H. destruct (asked _) as [sub|]; [|now apply H in R].
    destruct H as (num & w & S & Es & H). apply H in R as [u R]. rewrite Es in A, B, E |- *.
    apply IH in R; [|now apply ascii_of_prefix in A|rewrite len_app in B; lia|now apply early_prefix in E].
    rewrite !occ_app. apply suffix_plain in S as [-> ->]. lia.
Qed.
Lemma early_work f : forall s, all_ascii s = true -> len s < 2 ^ 63 -> early s -> name_work_fuel p f s <= (1 + len s) * (1 + len s).
Proof.
  induction f as [|f IH]; intros s A B E; cbn [name_work_fuel]; [lia|].
  assert (base : 1 + len s + 0 <= (1 + len s) * (1 + len s)) by nia.
  destruct (last_char s) as [c|] eqn:L; [|exact base].
  destruct (N.eqb_spec c ch_close) as [->|_].
  - destruct (starts_with_char s ch_open) eqn:S; [|exact base]. apply last_char_some in L as [s0 ES]. change ch_close with 41 in ES. rewrite ES in E. apply early_closed in E. rewrite <- ES in E. clear s0 ES.
    apply starts_open in S as [r ->]. rewrite open_work.
    assert (Hitem : forall m, ~ In 41 m -> all_ascii m = true -> len m <= len (40 :: r) -> name_work_fuel p f m <= (1 + len m) * (1 + len m)).
    { intros m N Am Lm. apply IH; [exact Am|lia|now apply no_close_early]. }
    pose proof (@flat_loop (read_fuel p f) (40 :: r) A (name_work_fuel p f) Hitem E r [40] opened eq_refl stands_opened ltac:(discriminate)) as Q.
    cbn [last_item opened] in Q. nia.
  - destruct (N.eqb_spec c ch_rbracket) as [->|_]; [|exact base].
    pose proof (@array_asked p s A B L) as H. unfold cost_asked. destruct (asked _) as [sub|]; [|exact base].
    destruct H as (num & w & S & Es & _). rewrite Es in A, B, E.
    assert (Q : name_work_fuel p f sub <= (1 + len sub) * (1 + len sub)) by (apply IH; [now apply ascii_of_prefix in A|rewrite len_app in B; lia|now apply early_prefix in E]).
    assert (LS : len sub + 2 <= len s) by (rewrite Es, len_app, len_cons, len_app; change (len [93]) with 1; lia). clear - Q LS. nia.
Qed.
Lemma name_work_fuel_bound f : forall s, all_ascii s = true -> len s < 2 ^ 63 -> name_work_fuel p f s <= 3 * ((1 + len s) * (1 + len s)).
Proof.
  induction f as [|f IH]; intros s A B; cbn [name_work_fuel]; [lia|].
  assert (base : 1 + len s + 0 <= 3 * ((1 + len s) * (1 + len s))) by nia.
  destruct (last_char s) as [c|] eqn:L; [|exact base].
  destruct (N.eqb_spec c ch_close) as [->|_].
  - destruct (starts_with_char s ch_open) eqn:S; [|exact base]. apply starts_open in S as [r ->]. rewrite open_work.
    assert (Hinner : forall m, early m -> all_ascii m = true -> len m <= len (40 :: r) -> name_work_fuel p f m <= (1 + len m) * (1 + len m)).
    { intros m E Am Lm. apply early_work; [exact Am|lia|exact E]. }
    assert (Hitem : forall m, ~ In 41 m -> all_ascii m = true -> len m <= len (40 :: r) -> name_work_fuel p f m <= (1 + len m) * (1 + len m)).
    { intros m E. apply Hinner. now apply no_close_early. }
    assert (Hok : forall m t, early m -> all_ascii m = true -> len m <= len (40 :: r) -> read_fuel p f m = Ok t -> occ 40 m <= 1 /\ occ 41 m <= 1).
    { intros m t E Am Lm. apply early_ok; [exact Am|lia|exact E]. }
    pose proof (@deep_loop (read_fuel p f) (40 :: r) A (name_work_fuel p f) Hitem Hinner Hok (length r) r (le_n _) [40] opened 0 false eq_refl ltac:(discriminate) stands_opened eq_refl) as Q.
    cbn [last_item opened] in Q. clear - Q. nia.
  - destruct (N.eqb_spec c ch_rbracket) as [->|_]; [|exact base].
    pose proof (@array_asked p s A B L) as H. unfold cost_asked. destruct (asked _) as [sub|]; [|exact base].
    destruct H as (num & w & S & Es & _). rewrite Es in A, B.
    assert (Q : name_work_fuel p f sub <= 3 * ((1 + len sub) * (1 + len sub))) by (apply IH; [now apply ascii_of_prefix in A|rewrite len_app in B; lia]).
    assert (LS : len sub + 2 <= len s) by (rewrite Es, len_app, len_cons, len_app; change (len [93]) with 1; lia). clear - Q LS. nia.
Qed.
Lemma name_work_bound s : all_ascii s = true -> len s < 2 ^ 63 -> name_work p s <= 3 * ((1 + len s) * (1 + len s)).
Proof. apply name_work_fuel_bound. Qed.
End Names.

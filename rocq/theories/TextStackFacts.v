(** * Proofs about how deep the calls are nested that read text *)
From Verif Require Import Base BaseFacts StrFacts Types TypeNames TypeNamesSpec Tokenizer ReaderSpec ReaderFacts ReaderTotal ReaderGrammar DepthSpec DepthFacts Work WorkNames WorkFacts WorkLower Stack StackSpec StackFacts StackBound TextStack.
From Coq Require Import String.
From Coq Require Import Lia ZifyBool ZifyNat ZifyN.
Set Implicit Arguments.
Notation length := List.length.
Local Open Scope N_scope.
Local Open Scope list_scope.

(** ** Names in ASCII *)
Lemma nested_step (rd : str -> res ParamType) name st pos c rest st' k : read_char rd name st pos c rest = Ok (st', k) -> (0 <= nested st)%Z ->
  (nested st' = nested st + (if (c =? 40)%N then 1 else 0) - (if (c =? 41)%N then 1 else 0) /\ 0 <= nested st')%Z.
Proof.
  unfold read_char. change ch_open with 40. change ch_close with 41. change ch_comma with 44. intros H P.
  destruct (N.eqb_spec c 40) as [->|C1].
  { change (40 =? 41) with false. destruct (1 <? _)%Z; injection H as <- <-; cbn [nested]; lia. }
  destruct (N.eqb_spec c 41) as [->|C2].
  { destruct (_ <? 0)%Z eqn:N1; [discriminate|]. apply bind_ok in H as (x & _ & H). destruct x; [injection H as <- <-; cbn [nested]; lia|].
    destruct (_ =? 0)%Z; [apply bind_ok in H as (t & _ & H); injection H as <- <-; cbn [nested]; lia|].
    apply bind_ok in H as (t & _ & H). apply bind_ok in H as (t' & _ & H). destruct (1 <? _)%Z; [apply bind_ok in H as ([? ?] & _ & H)|]; injection H as <- <-; cbn [nested]; lia. }
  destruct (c =? 44); [|injection H as <- <-; lia].
  apply bind_ok in H as (x & _ & H). destruct x; [injection H as <- <-; cbn [nested]; lia|].
  destruct (nested st =? 1)%Z; [apply bind_ok in H as (t & _ & H); injection H as <- <-; cbn [nested]; lia|].
  destruct (1 <? nested st)%Z; [apply bind_ok in H as (t & _ & H); apply bind_ok in H as (l & _ & H); injection H as <- <-; cbn [nested]; lia|].
  injection H as <- <-. lia.
Qed.
Section Loop.
Context (rd : str -> res ParamType) (name : str) (calls : str -> N) (K : N).
Hypothesis A : all_ascii name = true.
Hypothesis Hit : forall m, ~ In 41 m -> all_ascii m = true -> len m + 2 <= len name -> 2 * calls m <= K.
Hypothesis Hin : 2 <= occ 40 name -> forall m, early m -> all_ascii m = true -> len m + 1 <= len name -> 2 * calls m <= K.
Hypothesis Hok : 2 <= occ 40 name -> forall m t, early m -> all_ascii m = true -> len m <= len name -> rd m = Ok t -> occ 40 m <= 1 /\ occ 41 m <= 1.
Lemma skip_calls w rest pos st :
  tuple_calls rd calls name (w ++ rest) pos (length w) st = tuple_calls rd calls name rest (pos + len w) 0 st.
Proof.
  revert pos. induction w as [|c w IH]; intros pos; cbn [app length].
  - rewrite len_nil, N.add_0_r. reflexivity.
  - cbn [tuple_calls]. rewrite IH, len_cons. f_equal. lia.
Qed.
Lemma loop_calls n : forall rest, (length rest <= n)%nat -> forall pre st, name = pre ++ rest -> stands pre st -> 1 <= last_item st ->
  (0 <= nested st <= Z.of_N (occ 40 pre))%Z -> 2 * tuple_calls rd calls name rest (len pre) 0 st <= K.
Proof.
  induction n as [|n IH]; intros rest Ln pre st E S LI D; [destruct rest; [cbn; lia|cbn in Ln; lia]|].
  destruct rest as [|c rest]; cbn [tuple_calls]; [lia|]. cbn [length] in Ln.
  assert (E' : name = (pre ++ [c]) ++ rest) by now rewrite <- app_assoc.
  assert (LP : len (pre ++ [c]) = len pre + 1) by (rewrite len_app; reflexivity).
  assert (O' : occ 40 (pre ++ [c]) = occ 40 pre + if c =? 40 then 1 else 0) by (rewrite occ_app, occ_cons, (N.eqb_sym 40 c); unfold occ; cbn; lia).
  pose proof (@char_calls rd name A _ _ _ _ E S) as H. unfold cost_asked.
  assert (M : forall a b, 2 * a <= K -> 2 * b <= K -> 2 * N.max a b <= K) by lia.
  destruct (asked _) as [s|].
  - destruct H as [(( a & Ea & La) & N41 & I)|[-> (D2 & b & q & sk & rest' & Eb & Lb & Nq & Er & Es & Nsk & _ & I)]].
    + apply M.
      * apply Hit; [exact N41| |].
        { rewrite E, Ea, !all_ascii_app in A. apply andb_true_iff in A as [A' _]. now apply andb_true_iff in A' as [_ A']. }
        rewrite E, Ea, !len_app, len_cons. lia.
      * destruct (read_char rd name st (len pre) c rest) as [[st' k]|?|] eqn:RC; [|lia..].
        destruct (I _ _ eq_refl) as (-> & S' & L' & _ & D'). rewrite <- LP. apply IH; [lia|exact E'|exact S'|lia|].
        pose proof (proj2 (@nested_step rd name _ _ _ _ _ _ RC ltac:(lia))). lia.
    + assert (EN : name = (pre ++ 41 :: sk) ++ rest') by (rewrite E, Er, <- app_assoc; reflexivity).
      assert (EE : early s).
      { exists (40 :: q ++ [41]), sk. rewrite Es. split; [cbn [app]; now rewrite <- app_assoc|]. split; [|exact Nsk].
        rewrite occ_cons, occ_app, (occ_none _ _ Nq). cbn. lia. }
      assert (Ob : 1 <= occ 40 b) by (rewrite Eb, occ_app, occ_cons, (occ_none _ _ Nq) in D; change (40 =? 40) with true in D; cbv iota in D; lia).
      assert (Bb : 1 <= len b) by (destruct b; [vm_compute in Ob; congruence|rewrite len_cons; lia]).
      assert (O2 : 2 <= occ 40 name) by (rewrite EN, occ_app, (occ_app 40 pre); lia).
      assert (Lpre : len pre = len b + 1 + len q) by (rewrite Eb, len_app, len_cons; lia).
      assert (Ls : len s = 2 + len q + len sk) by (rewrite Es, len_cons, len_app, len_cons; lia).
      assert (LNsk : len pre + 1 + len sk <= len name) by (rewrite EN, !len_app, len_cons; lia).
      assert (AS : all_ascii s = true).
      { assert (AN := A). rewrite EN, Eb in AN. rewrite Es. rewrite !all_ascii_app in AN. unfold all_ascii in *. cbn [forallb] in *. rewrite forallb_app in *. cbn [forallb] in *.
        repeat (apply andb_true_iff in AN as [AN ?]). repeat match goal with H : _ && _ = true |- _ => apply andb_true_iff in H as [? ?] end.
        repeat (apply andb_true_iff; split); assumption. }
      apply M; [apply Hin; auto; lia|].
      destruct (read_char rd name st (len pre) 41 rest) as [[st' k]|?|] eqn:RC; [|lia..].
      destruct (I _ _ eq_refl) as ((t & Et) & -> & L' & T'). destruct (Hok O2 EE AS ltac:(lia) Et) as [O1 _].
      rewrite Es in O1. rewrite occ_cons, occ_app, occ_cons in O1. change (40 =? 40) with true in O1. change (40 =? 41) with false in O1. cbv iota in O1.
      assert (Nsk' : ~ In 40 sk) by (intros J; apply occ_some in J; lia).
      assert (S' : stands (pre ++ 41 :: sk) st').
      { split.
        - exists (pre ++ 41 :: sk), []. split; [now rewrite app_nil_r|]. split; [congruence|auto].
        - exists b, (q ++ 41 :: sk). split; [rewrite Eb, <- app_assoc; reflexivity|]. split; [congruence|]. intros J. apply in_app_iff in J as [J|[J|J]]; [auto|discriminate|auto]. }
      assert (LL : len (pre ++ 41 :: sk) = len pre + 1 + len sk) by (rewrite len_app, len_cons; lia).
      rewrite Er, skip_calls. rewrite <- LL.
      pose proof (@nested_step rd name _ _ _ _ _ _ RC ltac:(lia)) as [D3 D4]. change (41 =? 40) with false in D3. change (41 =? 41) with true in D3. cbv iota in D3.
      apply IH; [rewrite Er, app_length in Ln; lia|exact EN|exact S'|rewrite L', LL; lia|]. rewrite occ_app. lia.
  - rewrite N.max_0_l. destruct (read_char rd name st (len pre) c rest) as [[st' k]|?|] eqn:RC; [|lia..].
    destruct (H _ _ RC) as (-> & S' & L1 & L2 & _ & D'). rewrite <- LP. apply IH; [lia|exact E'|exact S'|lia|].
    pose proof (proj2 (@nested_step rd name _ _ _ _ _ _ RC ltac:(lia))). rewrite O'. destruct (c =? 40); lia.
Qed.
End Loop.
Section Names.
Context (p : profile).
Lemma open_calls rd calls r : tuple_calls rd calls (40 :: r) (40 :: r) 0 0 (mkR [] [] 0 0 1) = tuple_calls rd calls (40 :: r) r (len [40]) 0 opened.
Proof. cbn [tuple_calls]. change (cost_asked calls (read_char ask (40 :: r) (mkR [] [] 0 0 1) 0 40 r)) with 0. rewrite N.max_0_l. reflexivity. Qed.
Lemma early_calls f : forall s, all_ascii s = true -> len s < 2 ^ 63 -> early s -> 2 * name_calls_fuel p f s <= len s + 2.
Proof.
  induction f as [|f IH]; intros s A B E; cbn [name_calls_fuel]; [lia|].
  assert (base : 2 * (1 + 0) <= len s + 2) by lia.
  destruct (last_char s) as [c|] eqn:L; [|exact base].
  destruct (N.eqb_spec c ch_close) as [->|_].
  - destruct (starts_with_char s ch_open) eqn:S; [|exact base]. apply last_char_some in L as [s0 ES]. change ch_close with 41 in ES. rewrite ES in E. apply early_closed in E. rewrite <- ES in E. clear s0 ES.
    apply starts_open in S as [r ->]. rewrite open_calls.
    assert (Q : 2 * tuple_calls (read_fuel p f) (name_calls_fuel p f) (40 :: r) r (len [40]) 0 opened <= len (40 :: r)); [|lia].
    apply (@loop_calls _ (40 :: r) _ _ A) with (n := length r); try (intros; exfalso; lia); auto.
    + intros m N Am Lm. etransitivity; [apply IH; [exact Am|lia|now apply no_close_early]|lia].
    + apply stands_opened.
    + cbn. lia.
    + cbn. lia.
  - destruct (N.eqb_spec c ch_rbracket) as [->|_]; [|exact base].
    pose proof (@array_asked p s A B L) as H. unfold cost_asked. destruct (asked _) as [sub|]; [|exact base].
    destruct H as (num & w & S & Es & _). rewrite Es in A, B, E.
    assert (Q : 2 * name_calls_fuel p f sub <= len sub + 2) by (apply IH; [now apply ascii_of_prefix in A|rewrite len_app in B; lia|now apply early_prefix in E]).
    assert (LS : len sub + 2 <= len s) by (rewrite Es, len_app, len_cons, len_app; change (len [93]) with 1; lia). lia.
Qed.
Lemma ascii_calls_fuel f : forall s, all_ascii s = true -> len s < 2 ^ 63 -> 2 * name_calls_fuel p f s <= len s + 3.
Proof.
  induction f as [|f IH]; intros s A B; cbn [name_calls_fuel]; [lia|].
  assert (base : 2 * (1 + 0) <= len s + 3) by lia.
  destruct (last_char s) as [c|] eqn:L; [|exact base].
  destruct (N.eqb_spec c ch_close) as [->|_].
  - destruct (starts_with_char s ch_open) eqn:S; [|exact base]. apply starts_open in S as [r ->]. rewrite open_calls.
    assert (Q : 2 * tuple_calls (read_fuel p f) (name_calls_fuel p f) (40 :: r) r (len [40]) 0 opened <= len (40 :: r) + 1); [|lia].
    apply (@loop_calls _ (40 :: r) _ _ A) with (n := length r); auto.
    + intros m N Am Lm. etransitivity; [apply early_calls; [exact Am|lia|now apply no_close_early]|lia].
    + intros _ m E Am Lm. etransitivity; [apply early_calls; [exact Am|lia|exact E]|lia].
    + intros _ m t E Am Lm. apply early_ok; [exact Am|lia|exact E].
    + apply stands_opened.
    + cbn. lia.
    + cbn. lia.
  - destruct (N.eqb_spec c ch_rbracket) as [->|_]; [|exact base].
    pose proof (@array_asked p s A B L) as H. unfold cost_asked. destruct (asked _) as [sub|]; [|exact base].
    destruct H as (num & w & S & Es & _). rewrite Es in A, B.
    assert (Q : 2 * name_calls_fuel p f sub <= len sub + 3) by (apply IH; [now apply ascii_of_prefix in A|rewrite len_app in B; lia]).
    assert (LS : len sub + 2 <= len s) by (rewrite Es, len_app, len_cons, len_app; change (len [93]) with 1; lia). lia.
Qed.
(** ** Any name *)
Lemma array_short name s : last_char name = Some ch_rbracket -> str_len name < 2 ^ 63 -> asked (read_array p ask name) = Some s -> (length s < length name)%nat /\ str_len s <= str_len name.
Proof.
  intros EL B E. assert (T : two64 = 2 ^ 64) by reflexivity.
  assert (N1 : 1 <= len name) by (apply last_char_some in EL as [s' ->]; rewrite len_app; change (len [ch_rbracket]) with 1; lia).
  assert (Hs : forall e, str_slice name 0 e = Ok s -> e < len name -> (length s < length name)%nat /\ str_len s <= str_len name).
  { intros e E1 E2. split; [now apply slice_prefix_shorter in E1|now apply slice_len in E1]. }
  assert (NU : forall a b s, asked (usize_sub p a b) <> Some s) by (intros a b x; unfold usize_sub; destruct (_ <=? _); [|destruct p]; discriminate).
  assert (NS : forall a b s, asked (str_slice name a b) <> Some s) by (intros a b x; destruct (str_slice name a b) as [?|e|] eqn:Q; try discriminate; now apply slice_not_asked in Q).
  unfold read_array in E. destruct (rev _) as [|n0 num] eqn:EN.
  - apply asked_bind in E as [E|(e & E1 & E)]; [now apply NU in E|]. apply asked_bind in E as [E|(sub & E2 & E)]; [now apply NS in E|]. cbn in E. injection E as ->.
    apply (Hs _ E2). apply slice_beyond in E2. apply usize_sub_inv in E1 as [[G ->]|[G ->]]; lia.
  - apply asked_bind in E as [E|(l & EP & E)].
    { destruct (parse_usize (n0 :: num)) as [?|e|] eqn:Q; try discriminate. apply usize_err in Q as ->. discriminate. }
    apply asked_bind in E as [E|(e0 & E0 & E)]; [now apply NU in E|]. apply asked_bind in E as [E|(e & E1 & E)]; [now apply NU in E|].
    apply asked_bind in E as [E|(sub & E2 & E)]; [now apply NS in E|]. cbn in E. injection E as ->. apply (Hs _ E2).
    apply parse_usize_ascii, str_len_ascii in EP. rewrite EP in E0.
    assert (LN : len (n0 :: num) + 1 <= len name).
    { rewrite <- EN. unfold len. rewrite rev_length. pose proof (take_while_len (fun c => negb (c =? ch_lbracket)) (skipn 1 (rev name))) as W.
      rewrite skipn_length, rev_length in W. unfold len in N1. lia. }
    pose proof (str_len_ge name).
    apply slice_beyond in E2. apply usize_sub_inv in E0 as [[G ->]|[G ->]]; [|lia].
    apply usize_sub_inv in E1 as [[G1 ->]|[G1 ->]]; lia.
Qed.
Lemma char_short name pos c rest st s : fuel_inv pos st -> asked (read_char ask name st pos c rest) = Some s -> (length s < length name)%nat /\ str_len s <= str_len name.
Proof.
  intros I E. pose proof (char_calls_once name st pos c rest) as C. rewrite E in C. destruct C as [k C].
  destruct ((length s <? length name)%nat && (str_len s <=? str_len name)) eqn:Q; [apply andb_true_iff in Q as [Q1 Q2]; apply PeanoNat.Nat.ltb_lt in Q1; lia|]. exfalso.
  set (rd := fun x : str => if (length x <? length name)%nat && (str_len x <=? str_len name) then Ok PBool else @Err ParamType OutOfFuel).
  destruct (@read_char_fuel rd name) with (pos := pos) (c := c) (rest := rest) (st := st) as [H _]; [|exact I|].
  - intros x (i & j & Ex & _) Lx. unfold rd. apply slice_len in Ex. apply PeanoNat.Nat.ltb_lt in Lx. rewrite Lx. apply N.leb_le in Ex. rewrite Ex. discriminate.
  - apply H. rewrite C. unfold rd. rewrite Q. reflexivity.
Qed.
Lemma char_inv rd name pos c rest st st' k : fuel_inv pos st -> read_char rd name st pos c rest = Ok (st', k) -> fuel_inv (pos + 1) st'.
Proof.
  intros I E. pose proof (char_calls_once name st pos c rest) as C.
  set (rd' := fun x => match rd x with Ok t => Ok t | _ => @Panic ParamType end).
  destruct (@read_char_fuel rd' name) with (pos := pos) (c := c) (rest := rest) (st := st) as [_ H]; [|exact I|].
  - intros x _ _. unfold rd'. destruct (rd x); discriminate.
  - apply (H st' k). destruct (asked _) as [s|].
    + destruct C as [g C]. rewrite C in E |- *. unfold rd'. destruct (rd s); [exact E|discriminate..].
    + rewrite C in E |- *. exact E.
Qed.
Lemma inv_next pos st : fuel_inv pos st -> fuel_inv (pos + 1) st.
Proof. intros (I1 & I2 & I3). repeat split; auto. lia. Qed.
Lemma any_loop rd calls name K : (forall s, (length s < length name)%nat -> str_len s <= str_len name -> calls s <= K) ->
  forall rest pos skip st, fuel_inv pos st -> tuple_calls rd calls name rest pos skip st <= K.
Proof.
  intros H. induction rest as [|c rest IH]; intros pos skip st I; cbn [tuple_calls]; [lia|]. destruct skip as [|k]; [|apply IH; now apply inv_next].
  apply N.max_lub.
  - unfold cost_asked. destruct (asked _) as [s|] eqn:E; [|lia]. apply char_short in E as [E1 E2]; auto.
  - destruct (read_char rd name st pos c rest) as [[st' k]|?|] eqn:E; [|lia..]. apply IH. now apply char_inv in E.
Qed.
Lemma any_calls_fuel f : forall s, str_len s < 2 ^ 63 -> name_calls_fuel p f s <= len s + 1.
Proof.
  induction f as [|f IH]; intros s B; cbn [name_calls_fuel]; [lia|].
  destruct (last_char s) as [c|] eqn:L; [|lia].
  assert (S : forall x, (length x < length s)%nat -> str_len x <= str_len s -> name_calls_fuel p f x <= len s) by (intros x L1 L2; etransitivity; [apply IH; lia|unfold len; lia]).
  destruct (N.eqb_spec c ch_close) as [->|_].
  - destruct (starts_with_char s ch_open); [|lia]. rewrite (N.add_comm (len s)). apply N.add_le_mono_l. apply any_loop; [exact S|]. unfold fuel_inv; cbn [last_item nested top_level_paren_open]; repeat split; lia.
  - destruct (N.eqb_spec c ch_rbracket) as [->|_]; [|lia]. rewrite (N.add_comm (len s)). apply N.add_le_mono_l. unfold cost_asked. destruct (asked _) as [x|] eqn:E; [|lia].
    apply array_short in E as [E1 E2]; auto.
Qed.
(** ** attained *)
Lemma suffixed_calls b k : all_ascii b = true -> (forall f, name_calls_fuel p (S f) b = 1) -> forall f, (k <= f)%nat -> name_calls_fuel p (S f) (b ++ suffixes k) = N.of_nat k + 1.
Proof.
  intros Ab H. induction k as [|k IH]; intros f Lf; [cbn [suffixes]; rewrite app_nil_r; apply H|]. destruct f as [|f]; [lia|]. cbn [suffixes]. rewrite app_assoc.
  change (lit "[]") with (91 :: [] ++ [93]). set (x := b ++ suffixes k) in *. remember (S f) as g. cbn [name_calls_fuel]. subst g.
  assert (L : last_char (x ++ 91 :: [] ++ [93]) = Some 93) by (rewrite app_comm_cons, app_assoc; apply last_char_app).
  rewrite L. change (93 =? ch_close) with false. change (93 =? ch_rbracket) with true. cbv iota.
  rewrite (read_array_wrap p ask x (num := []) (w := PArray)) by now left.
  assert (A : all_ascii x = true) by (unfold x; rewrite all_ascii_app, suffixes_ascii, Ab; reflexivity).
  pose proof (@ascii_slice [] x (91 :: [] ++ [93]) eq_refl A) as E. cbn [app] in E. rewrite len_nil, N.add_0_l in E. cbn [app]. rewrite E.
  unfold cost_asked. cbn [bind ask asked]. rewrite (IH f) by lia. lia.
Qed.
Lemma int_calls k : name_calls p (lit "int" ++ suffixes k) = N.of_nat k + 1.
Proof. unfold name_calls. apply suffixed_calls; [reflexivity|reflexivity|]. rewrite app_length. rewrite suffixes_length. lia. Qed.
Lemma plain_loop rd calls name w rest pos st : forallb (fun c => (c =? 91) || (c =? 93)) w = true ->
  tuple_calls rd calls name (w ++ rest) pos 0 st = tuple_calls rd calls name rest (pos + len w) 0 st.
Proof.
  revert pos. induction w as [|c w IH]; intros pos H; [now rewrite len_nil, N.add_0_r|]. cbn [forallb] in H. apply andb_true_iff in H as [C H].
  cbn [app tuple_calls]. assert (R : forall r, read_char r name st pos c (w ++ rest) = Ok (st, O)).
  { intros r. unfold read_char. unfold ch_open, ch_close, ch_comma. apply orb_true_iff in C as [C|C]; apply N.eqb_eq in C as ->; reflexivity. }
  rewrite !R. unfold cost_asked. cbn [asked]. rewrite N.max_0_l, IH by exact H. f_equal. rewrite len_cons. lia.
Qed.
Lemma suffixes_plain k : forallb (fun c => (c =? 91) || (c =? 93)) (suffixes k) = true.
Proof. induction k as [|k IH]; [reflexivity|]. cbn [suffixes]. now rewrite forallb_app, IH. Qed.
Definition bad_name (k : nat) : str := lit "((" ++ suffixes k ++ lit ")".
Lemma closing_calls rd calls pre x st : let name := pre ++ x ++ [41] in all_ascii name = true -> x <> [] -> len pre = last_item st -> nested st = 1%Z ->
  tuple_calls rd calls name [41] (len pre + len x) 0 st = calls x.
Proof.
  intros name A X L N. cbn [tuple_calls]. set (r := match read_char rd name st (len pre + len x) 41 [] with Ok (st', k) => 0 | _ => 0 end).
  replace r with 0 by (unfold r; destruct (read_char _ _ _ _ _ _) as [[? ?]| |]; reflexivity). rewrite N.max_0_r.
  unfold read_char. change (41 =? ch_open) with false. change (41 =? ch_close) with true. cbv iota. rewrite N. change (1 - 1 <? 0)%Z with false. cbv iota.
  assert (SL : str_slice name (last_item st) (len pre + len x) = Ok x).
  { rewrite <- L. unfold name in *. rewrite !all_ascii_app in A. apply andb_true_iff in A as [A1 A]. apply andb_true_iff in A as [A2 _]. now apply ascii_slice. }
  rewrite SL. cbn [bind]. destruct x as [|c x]; [congruence|]. change (1 - 1 =? 0)%Z with true. cbv iota. reflexivity.
Qed.
Lemma one_paren k f : (S k < f)%nat -> name_calls_fuel p (S f) (lit "(" ++ suffixes (S k) ++ lit ")") = N.of_nat (S k) + 2.
Proof.
  intros Lf. destruct f as [|f]; [lia|]. remember (S f) as g. cbn [name_calls_fuel]. subst g.
  rewrite app_assoc. change (lit ")") with [41]. rewrite last_char_app. rewrite <- app_assoc. change (41 =? ch_close) with true. change (lit "(") with [40].
  change (starts_with_char ([40] ++ suffixes (S k) ++ [41]) ch_open) with true. cbv iota. cbn [app]. rewrite open_calls.
  rewrite plain_loop by apply suffixes_plain.
  change (40 :: suffixes (S k) ++ [41]) with ([40] ++ suffixes (S k) ++ [41]). rewrite (@closing_calls _ _ [40] (suffixes (S k)) opened); try reflexivity.
  - pose proof (@suffixed_calls [] (S k) eq_refl (fun f => eq_refl) f) as Q. cbn [app] in Q. rewrite Q by lia. lia.
  - rewrite !all_ascii_app, suffixes_ascii. reflexivity.
  - intros E. apply (f_equal (@List.length _)) in E. rewrite suffixes_length in E. cbn in E. lia.
Qed.
Lemma bad_calls k : name_calls p (bad_name (S k)) = N.of_nat (S k) + 3 /\ len (bad_name (S k)) + 3 = 2 * name_calls p (bad_name (S k)).
Proof.
  assert (L : len (bad_name (S k)) = 2 * N.of_nat (S k) + 3) by (unfold bad_name; rewrite !len_app, suffixes_len; change (len (lit "((")) with 2; change (len (lit ")")) with 1; lia).
  assert (Q : name_calls p (bad_name (S k)) = N.of_nat (S k) + 3); [|split; [exact Q|lia]].
  unfold name_calls. assert (Lf : (S (S k) < length (bad_name (S k)))%nat) by (unfold len in L; lia). revert Lf. generalize (length (bad_name (S k))) as f. intros f Lf. clear L.
  destruct f as [|f]; [lia|]. remember (S f) as g. cbn [name_calls_fuel]. subst g. unfold bad_name. change (lit ")") with [41].
  rewrite app_assoc, last_char_app, <- app_assoc. change (41 =? ch_close) with true. change (lit "((") with [40; 40].
  change (starts_with_char ([40; 40] ++ suffixes (S k) ++ [41]) ch_open) with true. cbv iota. change ([40; 40] ++ suffixes (S k) ++ [41]) with (40 :: 40 :: suffixes (S k) ++ [41]). rewrite open_calls.
  set (name := 40 :: 40 :: suffixes (S k) ++ [41]). cbn [tuple_calls]. change (cost_asked _ (read_char ask name opened (len [40]) 40 (suffixes (S k) ++ [41]))) with 0. rewrite N.max_0_l.
  change (read_char (read_fuel p (S f)) name opened (len [40]) 40 (suffixes (S k) ++ [41])) with (@Ok (rstate * nat) (mkR [] [[]] 2 1 2, 0%nat)). cbv iota beta.
  rewrite plain_loop by apply suffixes_plain. cbn [tuple_calls].
  set (r := match read_char (read_fuel p (S f)) name _ _ 41 [] with Ok (st', k) => 0 | _ => 0 end).
  replace r with 0 by (unfold r; destruct (read_char _ _ _ _ _ _) as [[? ?]| |]; reflexivity). rewrite N.max_0_r.
  unfold read_char. change (41 =? ch_open) with false. change (41 =? ch_close) with true. cbv iota. cbn [nested last_item top_level_paren_open]. change (2 - 1 <? 0)%Z with false. change (2 - 1 =? 0)%Z with false. cbv iota zeta. cbn [take_while].
  assert (A : all_ascii (suffixes (S k)) = true) by apply suffixes_ascii.
  change (len [40] + 1) with 2. rewrite len_nil, N.add_0_r.
  pose proof (@ascii_slice [40; 40] (suffixes (S k)) [41] eq_refl A) as SL. change (len [40; 40]) with 2 in SL. cbn [app] in SL. fold name in SL. rewrite SL. cbn [bind].
  assert (A' : all_ascii (40 :: suffixes (S k) ++ [41]) = true) by (change (all_ascii (suffixes (S k) ++ [41]) = true); now rewrite all_ascii_app, A).
  pose proof (@ascii_slice [40] (40 :: suffixes (S k) ++ [41]) [] eq_refl A') as SL'. rewrite app_nil_r in SL'. cbn [app] in SL'. fold name in SL'.
  replace (len [40] + len (40 :: suffixes (S k) ++ [41])) with (2 + len (suffixes (S k)) + 1) in SL' by (change (len [40]) with 1; rewrite len_cons, len_app; change (len [41]) with 1; lia).
  change (len [40]) with 1 in SL'. rewrite SL'. destruct (suffixes (S k)) as [|x0 x] eqn:EX.
  { apply (f_equal (@List.length _)) in EX. rewrite suffixes_length in EX. cbn in EX. lia. }
  cbn [bind ask asked cost_asked]. unfold cost_asked. cbn [bind ask asked]. rewrite <- EX. pose proof (@one_paren k f ltac:(lia)) as Q. change (lit "(") with [40] in Q. change (lit ")") with [41] in Q. cbn [app] in Q. rewrite Q. lia.
Qed.
End Names.

(** ** Values *)
Section Items.
Context {St C : Type} (next : St -> str -> res (Token * St)) (cost : C -> str -> N) (left : C -> C) (op cl : char) (value : str).
Context (Good : C -> Prop) (K : N).
Hypothesis Hcost : forall c s, Good c -> cost c s <= K.
Hypothesis Hleft : forall c, Good c -> Good (left c).
Lemma items_most rest : forall pos s params costs, Good costs -> items_calls next cost left op cl value rest pos s params costs <= K.
Proof.
  induction rest as [|ch rest IH]; intros pos s params costs G; cbn [items_calls]; [apply N.le_0_l|]. cbv zeta. unfold cost_asked. destruct (asked _) as [sub|].
  - apply N.max_lub; [auto|]. destruct (token_char next _ _ _ _ _ _ _) as [[s' params']|?|]; [|apply N.le_0_l..]. apply IH. auto.
  - apply N.max_lub; [apply N.le_0_l|]. destruct (token_char next _ _ _ _ _ _ _) as [[s' params']|?|]; [|apply N.le_0_l..]. now apply IH.
Qed.
Lemma group_most params costs : Good costs -> group_calls next cost left op cl value params costs <= 1 + K.
Proof. intros G. unfold group_calls. apply N.add_le_mono_l. destruct (_ || _); [lia|]. destruct (_ =? 2); [lia|]. now apply items_most. Qed.
End Items.
Lemma value_most T own m t : (forall u, own u <= m) -> 1 <= m -> forall s, value_calls T own t s + 2 <= 3 * nlevels t + m.
Proof.
  intros Ho M. induction t using ParamType_ind'; intros s; cbn [value_calls].
  all: try (match goal with |- 1 + ?f ?u + 2 <= _ => pose proof (Ho u) end; unfold nlevels; cbn [levels]; lia).
  - pose proof (@group_most _ _ (next_element (tokenize T t)) (fun _ : unit => value_calls T own t) (fun u => u) 91 93 s (fun _ => True) (3 * nlevels t + m - 2) ltac:(intros u x _; specialize (IHt x); cbv beta; lia) ltac:(auto) tt tt Logic.I).
    pose proof (nlevels_pos t). unfold nlevels in *. cbn [levels]. lia.
  - pose proof (@group_most _ _ (next_element (tokenize T t)) (fun _ : unit => value_calls T own t) (fun u => u) 91 93 s (fun _ => True) (3 * nlevels t + m - 2) ltac:(intros u x _; specialize (IHt x); cbv beta; lia) ltac:(auto) tt tt Logic.I).
    pose proof (nlevels_pos t). unfold nlevels in *. cbn [levels]. lia.
  - rewrite nlevels_tuple.
    pose proof (@group_most _ _ next_field (fun (l : list (str -> N)) s => match l with [] => 0 | f :: _ => f s end) (@tl _) 40 41 s (Forall (fun f : str -> N => forall s, f s <= 3 * most nlevels ts + m - 2)) (3 * most nlevels ts + m - 2)) as Q.
    specialize (Q ltac:(intros [|f l] x G; [lia|]; now apply (Forall_inv G)) ltac:(intros [|f l] G; [exact G|]; now apply Forall_inv_tail in G) (map (tokenize T) ts) (map (value_calls T own) ts)).
    assert (G : Forall (fun f : str -> N => forall s, f s <= 3 * most nlevels ts + m - 2) (map (value_calls T own) ts)).
    { rewrite Forall_map. rewrite Forall_forall in *. intros t I x. specialize (H t I x). pose proof (most_in nlevels _ _ I). lia. }
    specialize (Q G). lia.
Qed.
(** attained *)
Section Walk.
Context {St C : Type} (next : St -> str -> res (Token * St)) (cost : C -> str -> N) (left : C -> C) (value : str).
Lemma walk_calls k : forall rest pos n r l params costs, (1 <= n)%Z ->
  items_calls next cost left 91 93 value (nested_value k ++ rest) pos (mkT r n false l) params costs =
  items_calls next cost left 91 93 value rest (pos + len (nested_value k)) (mkT r n false l) params costs.
Proof.
  induction k as [|k IH]; intros rest pos n r l params costs P.
  - change (nested_value 0 ++ rest) with (116 :: 114 :: 117 :: 101 :: rest). cbn [items_calls]. unfold token_char.
    change (116 =? 91) with false. change (114 =? 91) with false. change (117 =? 91) with false. change (101 =? 91) with false.
    change (116 =? 93) with false. change (114 =? 93) with false. change (117 =? 93) with false. change (101 =? 93) with false.
    change (116 =? 44) with false. change (114 =? 44) with false. change (117 =? 44) with false. change (101 =? 44) with false.
    change (116 =? ch_quote) with false. change (114 =? ch_quote) with false. change (117 =? ch_quote) with false. change (101 =? ch_quote) with false.
    cbn [andb cost_asked asked]. unfold cost_asked. cbn [asked]. change (len (nested_value 0)) with 4. rewrite !N.max_0_l. f_equal. lia.
  - rewrite nested_S. cbn [app]. rewrite <- app_assoc. cbn [items_calls]. cbv zeta. unfold token_char. change (91 =? 91) with true. cbn [negb andb tk_ignore tk_result tk_nested tk_last_item].
    unfold cost_asked at 1. cbn [asked]. rewrite N.max_0_l. rewrite IH by lia. cbn [app items_calls]. cbv zeta. unfold token_char. change (93 =? 91) with false. change (93 =? 93) with true. cbn [negb andb tk_ignore tk_result tk_nested tk_last_item].
    cbv zeta. replace (n + 1 - 1 <? 0)%Z with false by lia. replace (n + 1 - 1 =? 0)%Z with false by lia. unfold cost_asked at 1. cbn [asked]. rewrite N.max_0_l.
    replace (n + 1 - 1)%Z with n by lia. rewrite len_cons, len_app. change (len [93]) with 1. f_equal. lia.
Qed.
End Walk.
Lemma nested_group {St C : Type} (next : St -> str -> res (Token * St)) (cost : C -> str -> N) left k params costs :
  group_calls next cost left 91 93 (nested_value (S k)) params costs = 1 + cost costs (nested_value k).
Proof.
  unfold group_calls. f_equal. destruct (nested_shape k) as [-> ->]. pose proof (nested_slice k) as SL. rewrite nested_S at 2. cbn [items_calls]. cbv zeta. unfold token_char. change (91 =? 91) with true. cbn [negb andb tk_ignore tk_result tk_nested tk_last_item].
  unfold cost_asked at 1. cbn [asked]. rewrite walk_calls by lia. cbn [items_calls]. cbv zeta. unfold token_char. change (93 =? 91) with false. change (93 =? 93) with true. cbn [negb andb tk_ignore tk_result tk_nested tk_last_item].
  cbv zeta. change (0 + 1 - 1 <? 0)%Z with false. change (0 + 1 - 1 =? 0)%Z with true. cbv iota. unfold take_item. cbn [tk_last_item]. rewrite SL. cbn [bind ask]. unfold cost_asked. cbn [asked].
  destruct (next _ _) as [[? ?]|?|]; cbn [bind]; lia.
Qed.
Lemma fixed_value_calls T own k : value_calls T own (fixed k PBool) (nested_value k) = 3 * N.of_nat k + 1 + own PBool.
Proof. induction k as [|k IH]; [reflexivity|]. cbn [fixed value_calls]. rewrite nested_group, IH. lia. Qed.
Lemma fixed_value_reads T k : tokenize_bool T (lit "true") = Ok true -> tokenize T (fixed k PBool) (nested_value k) = Ok (one_value k (TBool true)).
Proof.
  intros H. induction k as [|k IH]; [cbn [fixed tokenize]; change (nested_value 0) with (lit "true"); now rewrite H|]. cbn [fixed tokenize one_value]. unfold tokenize_items.
  destruct (nested_shape k) as [-> ->]. pose proof (nested_slice k) as SL. rewrite nested_S at 2. cbn [token_loop]. unfold token_char at 1. change (91 =? 91) with true. cbn [negb andb tk_ignore tk_result tk_nested tk_last_item bind].
  rewrite walk_loop by lia. cbn [token_loop]. unfold token_char at 1. change (93 =? 91) with false. change (93 =? 93) with true. cbn [negb andb tk_ignore tk_result tk_nested tk_last_item bind].
  cbv zeta. change (0 + 1 - 1 <? 0)%Z with false. change (0 + 1 - 1 =? 0)%Z with true. cbv iota. unfold take_item. cbn [tk_last_item]. rewrite SL. cbn [bind]. unfold next_element. rewrite IH. reflexivity.
Qed.

Lemma values_most t s :
  value_calls StrictTokenizer strict_own t s <= 3 * N.of_nat (levels t) /\
  value_calls LenientTokenizer lenient_own t s <= 3 * N.of_nat (levels t) + 1.
Proof.
  split.
  - pose proof (@value_most StrictTokenizer strict_own 2 t ltac:(intros []; cbn; lia) ltac:(lia) s). unfold nlevels in *. lia.
  - pose proof (@value_most LenientTokenizer lenient_own 3 t ltac:(intros []; cbn; lia) ltac:(lia) s). unfold nlevels in *. lia.
Qed.
Lemma values_attained k : let t := fixed k PBool in let s := nested_value k in
  tokenize StrictTokenizer t s = Ok (one_value k (TBool true)) /\ tokenize LenientTokenizer t s = Ok (one_value k (TBool true)) /\
  value_calls StrictTokenizer strict_own t s = 3 * N.of_nat k + 2 /\
  value_calls LenientTokenizer lenient_own t s = 3 * N.of_nat k + 3 /\ levels t = S k.
Proof.
  intros t s. unfold t, s. rewrite !fixed_value_calls, !fixed_value_reads by reflexivity. pose proof (fixed_levels k PBool) as L. unfold nlevels in L. cbn [levels] in L.
  change (strict_own PBool) with 1. change (lenient_own PBool) with 2. repeat split; lia.
Qed.

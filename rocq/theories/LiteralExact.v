(** * Array and tuple literals: the loops against the positions of items *)
From Verif Require Import Base BaseFacts StrFacts Types ReaderTotal ReaderGrammar Tokenizer TokenSpec TokenFacts TokenTotal LiteralSpec.
From Coq Require Import String Lia ZifyBool ZifyNat ZifyN.
Set Implicit Arguments.
Local Open Scope N_scope.
Local Open Scope list_scope.
Notation length := List.length.

Lemma count_S f p : count_below f (S p) = (count_below f p + (if f p then 1 else 0))%nat.
Proof. unfold count_below. rewrite seq_S, filter_app, app_length. cbn. now destruct (f p). Qed.
Lemma count_zero f p : count_below f p = 0%nat <-> forall i, (i < p)%nat -> f i = false.
Proof.
  induction p as [|p IH]; [split; [lia|reflexivity]|]. rewrite count_S. split.
  - intros H i L. destruct (f p) eqn:E; [lia|]. destruct (Nat.eq_dec i p) as [->|]; [exact E|]. apply IH; lia.
  - intros H. rewrite (H p) by lia. rewrite (proj2 IH); [reflexivity|]. intros; apply H; lia.
Qed.
Lemma slice_between s a b m : str_slice s (N.of_nat a) (N.of_nat b) = Ok m <-> bytes_between s (a, b) m.
Proof.
  unfold bytes_between. cbn [fst snd]. split.
  - intros H. apply str_slice_ok in H as (x & y & -> & H1 & H2). exists x, y. split; [reflexivity|].
    pose proof (utf8_len x). pose proof (utf8_len (x ++ m)). rewrite str_len_app in H0. unfold len in *. lia.
  - intros (x & y & -> & H1 & H2). pose proof (utf8_len x). pose proof (utf8_len (x ++ m)). rewrite str_len_app in H0. unfold len in *.
    replace (N.of_nat a) with (str_len x) by lia. replace (N.of_nat b) with (str_len x + str_len m) by lia. apply str_slice_app.
Qed.
Lemma slice_panics s a b : str_slice s (N.of_nat a) (N.of_nat b) = Panic <-> forall m, ~ bytes_between s (a, b) m.
Proof.
  split.
  - intros H m B. apply slice_between in B. congruence.
  - intros H. destruct (str_slice s (N.of_nat a) (N.of_nat b)) as [m|e|] eqn:E; [|now apply str_slice_not_err in E|reflexivity].
    apply slice_between in E. now apply H in E.
Qed.
Lemma ascii_utf8 s : all_ascii s = true -> length (utf8 s) = length s.
Proof. intros A. pose proof (utf8_len s) as H. rewrite str_len_ascii in H by exact A. unfold len in H. lia. Qed.
Lemma ascii_between s a b m : all_ascii s = true ->
  (bytes_between s (a, b) m <-> (a <= b)%nat /\ (b <= length s)%nat /\ m = firstn (b - a) (skipn a s)).
Proof.
  intros A. split.
  - intros (x & y & -> & H1 & H2). cbn [fst snd] in *. unfold all_ascii in A. rewrite !forallb_app in A. apply andb_true_iff in A as [A1 A2]. apply andb_true_iff in A2 as [A2 A3].
    rewrite ascii_utf8 in H1 by exact A1. rewrite ascii_utf8, app_length in H2 by (unfold all_ascii; now rewrite forallb_app, A1, A2).
    rewrite !app_length. split; [lia|]. split; [lia|]. subst a b. rewrite skipn_app, skipn_all, Nat.sub_diag. cbn [skipn app].
    replace (length x + length m - length x)%nat with (length m + 0)%nat by lia. rewrite firstn_app_2. cbn [firstn]. now rewrite app_nil_r.
  - intros (H1 & H2 & ->). apply slice_between. rewrite str_slice_ascii; [|exact A|lia|unfold len; lia].
    do 3 f_equal; lia.
Qed.

Section Loop.
Context {St : Type} (next : St -> str -> res (Token * St)) (op cl : char) (value : str).
Hypothesis plain_op : op <> 34 /\ op <> 44 /\ op <> cl /\ cl <> 34 /\ cl <> 44.
Fixpoint runs (rs : list (nat * nat)) (params : St) : res (list Token * St) :=
  match rs with
  | [] => Ok ([], params)
  | (a, b) :: rs' =>
    do sub <- str_slice value (N.of_nat a) (N.of_nat b);
    do (token, params') <- next params sub;
    do (tokens, params'') <- runs rs' params';
    Ok (token :: tokens, params'')
  end.
Definition calm_below (i : nat) : bool := (count_below (stray op cl value) i =? 0)%nat.
Definition ends_from pos n := filter (fun i => ends_item op cl value i && calm_below i) (seq pos n).
Lemma calm_mono i j : (i <= j)%nat -> calm_below j = true -> calm_below i = true.
Proof.
  unfold calm_below. intros L H. apply Nat.eqb_eq. apply Nat.eqb_eq in H. rewrite count_zero in *. intros; apply H; lia.
Qed.
Lemma ends_none pos n : calm_below pos = false -> ends_from pos n = [].
Proof.
  intros H. unfold ends_from. revert pos H. induction n as [|n IH]; intros pos H; [reflexivity|]. cbn [seq filter]. rewrite H, andb_false_r. apply IH.
  destruct (calm_below (S pos)) eqn:E; [|reflexivity]. rewrite (@calm_mono pos (S pos)) in H; [discriminate|lia|exact E].
Qed.
Lemma depth_S p : depth op cl value (S p) = (depth op cl value p + (if plain value op p then 1 else 0) - (if plain value cl p then 1 else 0))%Z.
Proof. unfold depth. rewrite !count_S. destruct (plain value op p), (plain value cl p); lia. Qed.
Lemma quoted_S p : quoted value (S p) = xorb (quoted value p) (is_at value 34 p).
Proof. unfold quoted. rewrite count_S. destruct (is_at value 34 p); [rewrite Nat.add_1_r, Nat.odd_succ, <- Nat.negb_odd; now destruct (Nat.odd _)|now rewrite Nat.add_0_r, xorb_false_r]. Qed.

Definition view (s : tstate) : list Token * bool := (tk_result s, tk_ignore s).
Lemma loop_runs : forall rest pre s params last, value = pre ++ rest -> calm_below (length pre) = true ->
  tk_nested s = depth op cl value (length pre) -> tk_ignore s = quoted value (length pre) -> tk_last_item s = N.of_nat last ->
  rmap view (token_loop next op cl value rest (len pre) s params) =
  do (tokens, params') <- runs (ranges last (ends_from (length pre) (length rest))) params;
  if calm_below (length value) then Ok (rev tokens ++ tk_result s, quoted value (length value)) else Err InvalidData.
Proof.
  induction rest as [|ch rest IH]; intros pre s params last V C N Q L.
  - cbn. rewrite app_nil_r in V. subst pre. rewrite C. unfold view. rewrite Q. reflexivity.
  - assert (A : forall c, is_at value c (length pre) = (ch =? c)). { intros c. unfold is_at. rewrite V, nth_error_app2, Nat.sub_diag by lia. reflexivity. }
    assert (P : forall c, plain value c (length pre) = (ch =? c) && negb (tk_ignore s)). { intros c. unfold plain. now rewrite A, Q. }
    assert (V' : value = (pre ++ [ch]) ++ rest) by (rewrite <- app_assoc; exact V).
    assert (L1 : len pre + 1 = len (pre ++ [ch])) by (rewrite len_app; reflexivity).
    assert (L2 : length (pre ++ [ch]) = S (length pre)) by (rewrite app_length; cbn; lia).
    assert (C' : calm_below (S (length pre)) = negb (stray op cl value (length pre))).
    { unfold calm_below in *. rewrite count_S. destruct (stray op cl value (length pre)); cbn [negb]; lia. }
    pose proof (depth_S (length pre)) as D. rewrite !P in D. pose proof (quoted_S (length pre)) as Q'. rewrite A, <- Q in Q'. rewrite <- N in D.
    assert (E : ends_item op cl value (length pre) = ((ch =? 44) || (ch =? cl)) && negb (tk_ignore s) && (tk_nested s =? 1)%Z).
    { unfold ends_item. rewrite !P, <- N. now destruct (ch =? 44), (ch =? cl), (tk_ignore s). }
    assert (S' : stray op cl value (length pre) = (ch =? cl) && negb (tk_ignore s) && (tk_nested s <=? 0)%Z) by (unfold stray; now rewrite P, <- N).
    cbn [token_loop length]. unfold ends_from. cbn [seq filter]. rewrite E, C, andb_true_r. fold (ends_from (S (length pre)) (length rest)).
    assert (STEP : forall s', tk_nested s' = depth op cl value (S (length pre)) -> tk_ignore s' = quoted value (S (length pre)) -> forall last' params',
      tk_last_item s' = N.of_nat last' -> calm_below (S (length pre)) = true ->
      rmap view (token_loop next op cl value rest (len pre + 1) s' params') =
      do (tokens, params'') <- runs (ranges last' (ends_from (S (length pre)) (length rest))) params';
      if calm_below (length value) then Ok (rev tokens ++ tk_result s', quoted value (length value)) else Err InvalidData).
    { intros s' H1 H2 last' params' H3 H4. rewrite L1, <- L2. apply IH; rewrite ?L2; auto. }
    assert (TAKE : forall nested, ends_item op cl value (length pre) = true -> nested = depth op cl value (S (length pre)) ->
      tk_ignore s = quoted value (S (length pre)) -> calm_below (S (length pre)) = true ->
      rmap view (do (s', params') <- take_item next value s params nested (len pre); token_loop next op cl value rest (len pre + 1) s' params') =
      do (tokens, params') <- runs (ranges last (length pre :: ends_from (S (length pre)) (length rest))) params;
      if calm_below (length value) then Ok (rev tokens ++ tk_result s, quoted value (length value)) else Err InvalidData).
    { intros nested _ H1 H2 H3. unfold take_item. rewrite L. unfold len at 1. cbn [ranges runs].
      destruct (str_slice value (N.of_nat last) (N.of_nat (length pre))) as [sub|e|]; [|reflexivity..]. cbn [bind].
      destruct (next params sub) as [[token params']|e|]; [|reflexivity..]. cbn [bind].
      erewrite STEP with (last' := S (length pre)); [|exact H1|exact H2|cbn [tk_last_item]; unfold len; lia|exact H3]. cbn [tk_result].
      destruct (runs (ranges (S (length pre)) (ends_from (S (length pre)) (length rest))) params') as [[tokens params'']|e|]; [|reflexivity..]. cbn [bind].
      destruct (calm_below (length value)); [|reflexivity]. cbn [rev]. now rewrite <- app_assoc. }
    unfold token_char. destruct (tk_ignore s) eqn:I; cbn [negb] in *; rewrite ?andb_true_r, ?andb_false_r in *; cbn [andb] in *.
    + (* inside quotes *)
      destruct (ch =? ch_quote) eqn:Hq.
      * cbn [bind]. unfold ch_quote in Hq. rewrite Hq in Q'. cbn [xorb] in Q'. erewrite STEP with (last' := last).
        -- reflexivity.
        -- cbn [tk_nested]. lia.
        -- cbn [tk_ignore]. now rewrite Q'.
        -- exact L.
        -- rewrite C', S'. reflexivity.
      * cbn [bind]. unfold ch_quote in Hq. rewrite Hq in Q'. cbn [xorb] in Q'. erewrite STEP with (last' := last).
        -- reflexivity.
        -- lia.
        -- now rewrite I, Q'.
        -- exact L.
        -- rewrite C', S'. reflexivity.
    + destruct plain_op as (O1 & O2 & O3 & O4 & O5). destruct (N.eqb_spec ch op) as [->|H1].
      { cbn [bind]. replace (op =? 44) with false in * by lia. replace (op =? cl) with false in * by lia. replace (op =? 34) with false in * by lia. cbn [orb andb xorb] in *.
        erewrite STEP with (last' := last).
        - reflexivity.
        - cbn [tk_nested]. lia.
        - cbn [tk_ignore]. now rewrite Q'.
        - exact L.
        - rewrite C', S'. reflexivity. }
      destruct (N.eqb_spec ch cl) as [->|H2].
      { replace (cl =? 44) with false in * by lia. replace (cl =? 34) with false in * by lia. cbn [orb andb xorb] in *.
        destruct (tk_nested s - 1 <? 0)%Z eqn:Z1.
        - replace (tk_nested s =? 1)%Z with false by lia. assert (S1 : stray op cl value (length pre) = true) by (rewrite S'; lia).
          rewrite S1 in C'. cbn [negb] in C'. rewrite (@ends_none (S (length pre))) by exact C'. cbn [bind rmap ranges runs].
          destruct (calm_below (length value)) eqn:CV; [|reflexivity]. rewrite (@calm_mono (S (length pre)) (length value)) in C'; [discriminate| |exact CV].
          rewrite V, app_length. cbn. lia.
        - assert (S1 : calm_below (S (length pre)) = true) by (rewrite C', S'; lia). destruct (tk_nested s - 1 =? 0)%Z eqn:Z2.
          + replace (tk_nested s =? 1)%Z with true by lia. apply TAKE; auto; try lia.
          + replace (tk_nested s =? 1)%Z with false by lia. cbn [bind]. erewrite STEP with (last' := last).
            * reflexivity.
            * cbn [tk_nested]. lia.
            * cbn [tk_ignore]. now rewrite Q'.
            * exact L.
            * exact S1. }
      assert (S1 : calm_below (S (length pre)) = true) by (rewrite C', S'; reflexivity).
      unfold ch_quote. destruct (N.eqb_spec ch 34) as [->|H3].
      { cbn [N.eqb Pos.eqb orb andb xorb bind] in *. erewrite STEP with (last' := last).
        - reflexivity.
        - cbn [tk_nested]. lia.
        - cbn [tk_ignore]. now rewrite Q'.
        - exact L.
        - exact S1. }
      cbn [xorb] in Q'. destruct (N.eqb_spec ch 44) as [->|H4]; cbn [orb andb] in *.
      * destruct (tk_nested s =? 1)%Z eqn:Z1.
        -- apply TAKE; auto; try lia.
        -- cbn [bind]. erewrite STEP with (last' := last); [reflexivity|lia|now rewrite I, Q'|exact L|exact S1].
      * cbn [bind]. erewrite STEP with (last' := last); [reflexivity|lia|now rewrite I, Q'|exact L|exact S1].
Qed.

Lemma bracketed_iff : bracketed op cl value <-> starts_with_char value op && ends_with_char value cl = true.
Proof.
  unfold bracketed, starts_with_char, ends_with_char. split.
  - intros [m ->]. rewrite app_comm_cons, last_char_app. now rewrite !N.eqb_refl.
  - intros H. apply andb_true_iff in H as [H1 H2]. destruct value as [|c v] eqn:V; [discriminate|]. apply N.eqb_eq in H1. subst c.
    destruct v as [|c v'] using rev_ind.
    + cbn in H2. destruct plain_op as (_ & _ & O & _). lia.
    + rewrite app_comm_cons, last_char_app in H2. apply N.eqb_eq in H2. subst. eauto.
Qed.
Lemma two_chars : bracketed op cl value -> len value = 2 <-> value = [op; cl].
Proof.
  intros [m ->]. split; [|now intros ->]. unfold len. cbn [length]. rewrite app_length. cbn. intros H. destruct m; [reflexivity|cbn in H; lia].
Qed.
Lemma calm_all : calm_below (length value) = true <-> forall i, stray op cl value i = false.
Proof.
  unfold calm_below. rewrite Nat.eqb_eq, count_zero. split; [|auto]. intros H i. destruct (Nat.lt_ge_cases i (length value)) as [L|L]; [auto|].
  unfold stray, plain, is_at. now rewrite (proj2 (nth_error_None value i)).
Qed.
Lemma items_runs params : bracketed op cl value -> value <> [op; cl] -> tokenize_items next op cl value params =
  do (tokens, params') <- runs (ranges 1 (ends_from 0 (length value))) params;
  if calm_below (length value) then if quoted value (length value) then Err InvalidData else Ok tokens else Err InvalidData.
Proof.
  intros B T. unfold tokenize_items. pose proof (proj1 bracketed_iff B) as E. apply andb_true_iff in E as [-> ->]. cbn [negb orb].
  destruct (N.eqb_spec (len value) 2) as [E|_]; [now apply two_chars in E|].
  pose proof (@loop_runs value [] (mkT [] 0 false 1) params 1 eq_refl eq_refl eq_refl eq_refl eq_refl) as R. change (len (@nil char)) with 0 in R. cbn [length tk_result] in R.
  destruct (token_loop next op cl value value 0 (mkT [] 0 false 1) params) as [s|e|]; unfold rmap in R; cbn [bind tk_result] in *;
    destruct (runs (ranges 1 (ends_from 0 (length value))) params) as [[tokens params']|e'|]; cbn [bind] in *; try congruence.
  - destruct (calm_below (length value)); [|discriminate].
    unfold view in R. injection R as R1 R2. rewrite R1, R2, app_nil_r, rev_involutive. reflexivity.
  - destruct (calm_below (length value)); congruence.
  - destruct (calm_below (length value)); congruence.
Qed.
Lemma items_not params : ~ bracketed op cl value -> tokenize_items next op cl value params = Err InvalidData.
Proof.
  intros B. unfold tokenize_items. rewrite bracketed_iff in B.
  destruct (starts_with_char value op), (ends_with_char value cl); try reflexivity. now destruct B.
Qed.
Lemma items_empty params : value = [op; cl] -> tokenize_items next op cl value params = Ok [].
Proof.
  intros E. assert (B : bracketed op cl value) by (exists []; now rewrite E). pose proof (proj1 bracketed_iff B) as S1.
  apply andb_true_iff in S1 as [S1 S2]. unfold tokenize_items. rewrite S1, S2, E. reflexivity.
Qed.
Lemma ends_calm : calm_below (length value) = true -> forall pos n, ends_from pos n = filter (ends_item op cl value) (seq pos n).
Proof.
  intros C pos n. apply filter_ext. intros i. replace (calm_below i) with true; [apply andb_true_r|]. symmetry.
  pose proof (proj1 calm_all C) as C'. unfold calm_below. apply Nat.eqb_eq, count_zero. auto.
Qed.
Lemma bracketed_dec : bracketed op cl value \/ ~ bracketed op cl value.
Proof. rewrite bracketed_iff. destruct (starts_with_char value op && ends_with_char value cl); auto. Qed.
Lemma pair_dec : value = [op; cl] \/ value <> [op; cl].
Proof. destruct (list_eq_dec N.eq_dec value [op; cl]); auto. Qed.
Lemma items_ok params tokens : tokenize_items next op cl value params = Ok tokens <->
  (value = [op; cl] /\ tokens = []) \/
  (sound_literal op cl value /\ exists params', runs (item_ranges op cl value) params = Ok (tokens, params')).
Proof.
  destruct bracketed_dec as [B|B].
  2:{ rewrite items_not by exact B. split; [discriminate|]. intros [[E _]|[(B' & _) _]]; [|easy]. destruct B. exists []. now rewrite E. }
  destruct pair_dec as [E|E].
  { rewrite items_empty by exact E. split; [intros H; injection H as <-; auto|]. intros [[_ ->]|[(_ & H & _) _]]; [reflexivity|easy]. }
  rewrite items_runs by assumption. unfold sound_literal. rewrite <- calm_all. unfold item_ranges. split.
  - intros H. right. apply bind_ok in H as ([tokens' params'] & H1 & H2). destruct (calm_below (length value)) eqn:C; [|discriminate].
    destruct (quoted value (length value)) eqn:Q; [discriminate|]. injection H2 as ->. rewrite ends_calm in H1 by exact C. eauto 10.
  - intros [[E' _]|[(_ & _ & Q & C) [params' R]]]; [easy|]. rewrite ends_calm, R by exact C. cbn [bind]. now rewrite C, Q.
Qed.

Lemma runs_panic rs : forall params, runs rs params = Panic <->
  exists rs1 a b rs2 tokens params', rs = rs1 ++ (a, b) :: rs2 /\ runs rs1 params = Ok (tokens, params') /\
   (str_slice value (N.of_nat a) (N.of_nat b) = Panic \/ exists sub, str_slice value (N.of_nat a) (N.of_nat b) = Ok sub /\ next params' sub = Panic).
Proof.
  induction rs as [|[a b] rs IH]; intros params.
  - split; [discriminate|]. intros (rs1 & a & b & rs2 & _ & _ & H & _). destruct rs1; discriminate.
  - cbn [runs]. split.
    + intros H. destruct (str_slice value (N.of_nat a) (N.of_nat b)) as [sub|e|] eqn:E1; [|discriminate|].
      2:{ exists [], a, b, rs, [], params. auto. }
      cbn [bind] in H. destruct (next params sub) as [[token params']|e|] eqn:E2; [|discriminate|].
      2:{ exists [], a, b, rs, [], params. split; [reflexivity|]. split; [reflexivity|]. right. eauto. }
      cbn [bind] in H. destruct (runs rs params') as [[tokens params'']|e|] eqn:E3; [discriminate..|].
      apply IH in E3 as (rs1 & a' & b' & rs2 & tokens & p2 & -> & R & X). exists ((a, b) :: rs1), a', b', rs2, (token :: tokens), p2.
      split; [reflexivity|]. split; [|exact X]. cbn [runs]. rewrite E1. cbn [bind]. rewrite E2. cbn [bind]. now rewrite R.
    + intros (rs1 & a' & b' & rs2 & tokens & p2 & E & R & X). destruct rs1 as [|[a1 b1] rs1].
      * cbn [app] in E. injection E as -> -> ->. cbn [runs] in R. injection R as <- <-. destruct X as [->|(sub & -> & X)]; [reflexivity|]. cbn [bind]. now rewrite X.
      * cbn [app] in E. injection E as -> -> ->. cbn [runs] in R. destruct (str_slice value (N.of_nat a1) (N.of_nat b1)) as [sub|e|]; [|discriminate..].
        cbn [bind] in *. destruct (next params sub) as [[token params']|e|]; [|discriminate..]. cbn [bind] in *.
        destruct (runs rs1 params') as [[t2 p3]|e|] eqn:E3; [|discriminate..]. cbn [bind] in R. injection R as <- <-.
        rewrite (proj2 (IH params')); [reflexivity|]. exists rs1, a', b', rs2, t2, p3. auto.
Qed.
Lemma ranges_split n : forall pos start, exists l2,
  ranges start (filter (ends_item op cl value) (seq pos n)) = ranges start (ends_from pos n) ++ l2 /\
  Forall (fun r => calm_below (snd r) = false) l2 /\ Forall (fun r => calm_below (snd r) = true) (ranges start (ends_from pos n)).
Proof.
  unfold ends_from. induction n as [|n IH]; intros pos start; [exists []; cbn; auto|]. cbn [seq filter].
  destruct (ends_item op cl value pos) eqn:E; cbn [andb]; [|apply IH]. destruct (calm_below pos) eqn:C.
  - cbn [ranges]. destruct (IH (S pos) (S pos)) as (l2 & H1 & H2 & H3). exists l2. rewrite H1. cbn [app]. auto.
  - assert (C' : calm_below (S pos) = false).
    { destruct (calm_below (S pos)) eqn:C1; [|reflexivity]. rewrite (@calm_mono pos (S pos)) in C; [discriminate|lia|exact C1]. }
    fold (ends_from (S pos) n). rewrite ends_none by exact C'. cbn [ranges app].
    exists ((start, pos) :: ranges (S pos) (filter (ends_item op cl value) (seq (S pos) n))). split; [reflexivity|]. split; [|constructor].
    constructor; [exact C|]. destruct (IH (S pos) (S pos)) as (l2 & H1 & H2 & _). fold (ends_from (S pos) n) in H1. rewrite ends_none in H1 by exact C'.
    cbn [ranges app] in H1. now rewrite H1.
Qed.
Lemma items_panic params : tokenize_items next op cl value params = Panic <->
  bracketed op cl value /\ value <> [op; cl] /\ exists rs1 r rs2 tokens params', item_ranges op cl value = rs1 ++ r :: rs2 /\
    (forall i, (i < snd r)%nat -> stray op cl value i = false) /\ runs rs1 params = Ok (tokens, params') /\
    ((forall m, ~ bytes_between value r m) \/ exists m, bytes_between value r m /\ next params' m = Panic).
Proof.
  destruct bracketed_dec as [B|B].
  2:{ rewrite items_not by exact B. split; [discriminate|]. tauto. }
  destruct pair_dec as [E|E].
  { rewrite items_empty by exact E. split; [discriminate|tauto]. }
  rewrite items_runs by assumption. destruct (ranges_split (length value) 0 1) as (l2 & H1 & H2 & H3). fold (item_ranges op cl value) in H1.
  transitivity (runs (ranges 1 (ends_from 0 (length value))) params = Panic).
  { destruct (runs _ params) as [[tokens params']|e|]; cbn [bind]; [|easy..]. destruct (calm_below (length value)); [|easy].
    destruct (quoted value (length value)); easy. }
  rewrite runs_panic. split.
  - intros (rs1 & a & b & rs2 & tokens & params' & X1 & X2 & X3). split; [exact B|]. split; [exact E|].
    exists rs1, (a, b), (rs2 ++ l2), tokens, params'. split; [rewrite H1, X1, <- app_assoc; reflexivity|]. split; [|split; [exact X2|]].
    + rewrite X1 in H3. apply Forall_app in H3 as [_ H3]. apply Forall_inv in H3. unfold calm_below in H3. apply Nat.eqb_eq in H3. rewrite count_zero in H3. exact H3.
    + rewrite slice_panics in X3. destruct X3 as [X3|(sub & X3 & X4)]; [auto|]. apply slice_between in X3. eauto.
  - intros (_ & _ & rs1 & [a b] & rs2 & tokens & params' & X1 & X2 & X3 & X4). rewrite X1 in H1. symmetry in H1.
    assert (X : exists l, ranges 1 (ends_from 0 (length value)) = rs1 ++ (a, b) :: l).
    { clear -H1 H2 X2. revert H1. generalize (ranges 1 (ends_from 0 (length value))) as l1. revert rs1.
      induction rs1 as [|r rs1 IH]; intros [|r1 l1] H1; cbn [app] in *.
      - subst l2. apply Forall_inv in H2. unfold calm_below in H2. apply Nat.eqb_neq in H2. destruct H2. now apply count_zero.
      - injection H1 as -> _. eauto.
      - rewrite H1 in H2. rewrite Forall_forall in H2. specialize (H2 (a, b)). unfold calm_below in H2.
        assert (X : In (a, b) (r :: rs1 ++ (a, b) :: rs2)) by (right; apply in_elt). apply H2 in X. apply Nat.eqb_neq in X. destruct X. now apply count_zero.
      - injection H1 as -> H1. apply IH in H1 as [l ->]. eauto. }
    destruct X as [l ->]. exists rs1, a, b, l, tokens, params'. split; [reflexivity|]. split; [exact X3|]. rewrite slice_panics.
    destruct X4 as [X4|(m & X4 & X5)]; [auto|]. apply slice_between in X4. eauto.
Qed.
End Loop.

Section Tokens.
Context (T : Tokenizer).
Lemma runs_array t value rs : forall vs u, runs (next_element (tokenize T t)) value rs tt = Ok (vs, u) <->
  Forall2 (fun r v => exists m, bytes_between value r m /\ tokenize T t m = Ok v) rs vs.
Proof.
  induction rs as [|[a b] rs IH]; intros vs u; cbn [runs].
  - destruct u. split; [intros H; injection H as <-; constructor|intros H; inversion H; reflexivity].
  - split.
    + intros H. apply bind_ok in H as (sub & H1 & H). apply slice_between in H1. apply bind_ok in H as ([v []] & H2 & H). apply bind_ok in H as ([vs' []] & H3 & H).
      injection H as <- <-. unfold next_element in H2. apply bind_ok in H2 as (v' & H2 & E). injection E as ->. apply IH in H3. constructor; eauto.
    + intros H. inversion H as [|? v ? vs' (m & H1 & H2) H3]; subst. apply slice_between in H1. rewrite H1. cbn [bind]. unfold next_element at 1. rewrite H2. cbn [bind].
      apply (IH vs' u) in H3. rewrite H3. reflexivity.
Qed.
Lemma runs_tuple value rs : forall fs vs fs', runs next_field value rs fs = Ok (vs, fs') <->
  (length rs <= length fs)%nat /\ fs' = skipn (length rs) fs /\
  Forall2 (fun x v => exists m, bytes_between value (snd x) m /\ fst x m = Ok v) (combine fs rs) vs.
Proof.
  induction rs as [|[a b] rs IH]; intros fs vs fs'; cbn [runs length].
  - assert (C : combine fs (@nil (nat * nat)) = []) by now destruct fs. rewrite C. cbn [skipn].
    split; [intros H; injection H as <- <-; split; [lia|]; auto|intros (_ & -> & H); inversion H; reflexivity].
  - split.
    + intros H. apply bind_ok in H as (sub & H1 & H). apply slice_between in H1. apply bind_ok in H as ([v fs1] & H2 & H). apply bind_ok in H as ([vs' fs2] & H3 & H).
      injection H as <- <-. unfold next_field in H2. destruct fs as [|f fs]; [discriminate|]. apply bind_ok in H2 as (v' & H2 & E). injection E as -> ->.
      apply IH in H3 as (H3 & H4 & H5). cbn [length skipn combine]. split; [lia|]. split; [exact H4|]. constructor; cbn [fst snd]; eauto.
    + intros (L & E & F). destruct fs as [|f fs]; [cbn in L; lia|]. cbn [length skipn combine] in *. inversion F as [|? v ? vs' (m & H1 & H2) H3]; subst.
      cbn [fst snd] in *. apply slice_between in H1. rewrite H1. cbn [bind next_field]. rewrite H2. cbn [bind].
      rewrite (proj2 (IH fs vs' (skipn (length rs) fs))); [reflexivity|]. split; [lia|auto].
Qed.
Lemma squares : 91 <> 34 /\ 91 <> 44 /\ 91 <> 93 /\ 93 <> 34 /\ 93 <> 44.
Proof. lia. Qed.
Lemma rounds : 40 <> 34 /\ 40 <> 44 /\ 40 <> 41 /\ 41 <> 34 /\ 41 <> 44.
Proof. lia. Qed.
Lemma rmap_ok A B (f : A -> B) r b : rmap f r = Ok b <-> exists a, r = Ok a /\ f a = b.
Proof. unfold rmap. destruct r; cbn [bind]; split; try discriminate; try (intros (? & H & _); discriminate). - intros H. injection H as <-. eauto. - intros (a' & H & <-). now injection H as ->. Qed.
Lemma rmap_panic A B (f : A -> B) r : rmap f r = Panic <-> r = Panic.
Proof. unfold rmap. destruct r; cbn [bind]; easy. Qed.

Lemma array_exact t s vs : tokenize T (PArray t) s = Ok (TArray vs) <->
  (s = lit "[]" /\ vs = []) \/
  (sound_literal 91 93 s /\ Forall2 (fun r v => exists m, bytes_between s r m /\ tokenize T t m = Ok v) (item_ranges 91 93 s) vs).
Proof.
  cbn [tokenize]. rewrite rmap_ok. change (lit "[]") with [91; 93]. split.
  - intros (vs' & H & E). injection E as ->. apply (items_ok _ _ squares) in H as [H|(H1 & [] & H2)]; [auto|]. apply runs_array in H2. auto.
  - intros H. exists vs. split; [|reflexivity]. apply (items_ok _ _ squares). destruct H as [H|[H1 H2]]; [auto|]. right. split; [exact H1|]. exists tt. now apply runs_array.
Qed.
Lemma fixed_array_exact t n s vs : tokenize T (PFixedArray t n) s = Ok (TFixedArray vs) <-> len vs = n /\ tokenize T (PArray t) s = Ok (TArray vs).
Proof.
  cbn [tokenize]. rewrite !rmap_ok. split.
  - intros (vs' & H & E). injection E as ->. apply bind_ok in H as (vs' & H1 & H2). destruct (N.eqb_spec (len vs') n) as [E|E]; [|discriminate].
    injection H2 as ->. eauto.
  - intros (L & vs' & H & E). injection E as ->. exists vs. split; [|reflexivity]. rewrite H. cbn [bind]. rewrite L, N.eqb_refl. reflexivity.
Qed.
Lemma combine_map A B C (f : A -> C) (l : list A) (l' : list B) : combine (map f l) l' = map (fun x => (f (fst x), snd x)) (combine l l').
Proof. revert l'. induction l as [|a l IH]; intros [|b l']; [reflexivity..|]. cbn. now rewrite IH. Qed.
Lemma Forall2_map_l A B C (f : A -> B) (P : B -> C -> Prop) l l' : Forall2 P (map f l) l' <-> Forall2 (fun a c => P (f a) c) l l'.
Proof.
  revert l'. induction l as [|a l IH]; intros l'; cbn [map]; (split; intros H; inversion H; subst; constructor; auto); now apply IH.
Qed.
Lemma tuple_exact ts s vs : tokenize T (PTuple ts) s = Ok (TTuple vs) <->
  (s = lit "()" /\ vs = []) \/
  (sound_literal 40 41 s /\ (length (item_ranges 40 41 s) <= length ts)%nat /\
   Forall2 (fun x v => exists m, bytes_between s (snd x) m /\ tokenize T (fst x) m = Ok v) (combine ts (item_ranges 40 41 s)) vs).
Proof.
  cbn [tokenize]. rewrite rmap_ok. change (lit "()") with [40; 41].
  assert (X : (exists params', runs next_field s (item_ranges 40 41 s) (map (tokenize T) ts) = Ok (vs, params')) <->
    (length (item_ranges 40 41 s) <= length ts)%nat /\
    Forall2 (fun x v => exists m, bytes_between s (snd x) m /\ tokenize T (fst x) m = Ok v) (combine ts (item_ranges 40 41 s)) vs).
  { split.
    - intros [fs H]. apply runs_tuple in H as (L & _ & H). rewrite map_length in L. rewrite combine_map, Forall2_map_l in H. auto.
    - intros [L H]. exists (skipn (length (item_ranges 40 41 s)) (map (tokenize T) ts)). apply runs_tuple. rewrite map_length, combine_map, Forall2_map_l. auto. }
  rewrite <- X. split.
  - intros (vs' & H & E). injection E as ->. apply (items_ok _ _ rounds) in H. exact H.
  - intros H. exists vs. split; [|reflexivity]. apply (items_ok _ _ rounds). exact H.
Qed.
Lemma array_panics t s : tokenize T (PArray t) s = Panic <->
  item_breaks 91 93 s (Forall (fun r => exists m v, bytes_between s r m /\ tokenize T t m = Ok v)) (fun _ m => tokenize T t m = Panic).
Proof.
  cbn [tokenize]. rewrite rmap_panic, (items_panic _ _ squares). unfold item_breaks.
  assert (N : forall m, next_element (tokenize T t) tt m = Panic <-> tokenize T t m = Panic).
  { intros m. unfold next_element. destruct (tokenize T t m); cbn [bind]; easy. }
  assert (R : forall rs, (exists vs, Forall2 (fun r v => exists m, bytes_between s r m /\ tokenize T t m = Ok v) rs vs) <->
     Forall (fun r => exists m v, bytes_between s r m /\ tokenize T t m = Ok v) rs).
  { induction rs as [|r rs IH]; split.
    - constructor.
    - exists []. constructor.
    - intros [vs H]. inversion H as [|? v ? vs' (m & H1 & H2) H3]; subst. constructor; [eauto|]. apply IH. eauto.
    - intros H. inversion H as [|? ? (m & v & H1 & H2) H3]; subst. apply IH in H3 as [vs H3]. exists (v :: vs). constructor; eauto. }
  split.
  - intros (B & E & rs1 & r & rs2 & tokens & [] & H1 & H2 & H3 & H4). split; [exact B|]. split; [exact E|]. exists rs1, r, rs2.
    apply runs_array in H3. split; [exact H1|]. split; [exact H2|]. split; [apply R; eauto|]. destruct H4 as [H4|(m & H4 & H5)]; [auto|]. apply N in H5. eauto.
  - intros (B & E & rs1 & r & rs2 & H1 & H2 & H3 & H4). split; [exact B|]. split; [exact E|]. apply R in H3 as [vs H3].
    exists rs1, r, rs2, vs, tt. split; [exact H1|]. split; [exact H2|]. split; [now apply runs_array|]. destruct H4 as [H4|(m & H4 & H5)]; [auto|]. apply N in H5. eauto.
Qed.
Lemma fixed_array_panics t n s : tokenize T (PFixedArray t n) s = Panic <-> tokenize T (PArray t) s = Panic.
Proof.
  cbn [tokenize]. rewrite !rmap_panic. destruct (tokenize_items _ 91 93 s tt) as [vs|e|]; cbn [bind]; [|easy..]. destruct (len vs =? n); easy.
Qed.
Lemma tuple_panics ts s : tokenize T (PTuple ts) s = Panic <->
  item_breaks 40 41 s
    (fun rs => (length rs <= length ts)%nat /\ Forall (fun x => exists m v, bytes_between s (snd x) m /\ tokenize T (fst x) m = Ok v) (combine ts rs))
    (fun k m => exists t, nth_error ts k = Some t /\ tokenize T t m = Panic).
Proof.
  cbn [tokenize]. rewrite rmap_panic, (items_panic _ _ rounds). unfold item_breaks.
  assert (N : forall k m, next_field (skipn k (map (tokenize T) ts)) m = Panic <-> exists t, nth_error ts k = Some t /\ tokenize T t m = Panic).
  { clear. intros k. induction ts as [|t ts IH] in k |- *; intros m; destruct k as [|k]; cbn [map skipn nth_error next_field]; try apply IH.
    1-2: split; [discriminate|intros (? & H & _); discriminate].
    destruct (tokenize T t m) as [|e|] eqn:E; cbn [bind]; (split; [try discriminate; eauto|intros (t' & H & H2); injection H as <-; congruence]). }
  assert (R : forall rs, (exists vs, Forall2 (fun x v => exists m, bytes_between s (snd x) m /\ tokenize T (fst x) m = Ok v) (combine ts rs) vs) <->
     Forall (fun x => exists m v, bytes_between s (snd x) m /\ tokenize T (fst x) m = Ok v) (combine ts rs)).
  { intros rs. generalize (combine ts rs) as l. clear. induction l as [|r l IH]; split.
    - constructor.
    - exists []. constructor.
    - intros [vs H]. inversion H as [|? v ? vs' (m & H1 & H2) H3]; subst. constructor; [eauto|]. apply IH. eauto.
    - intros H. inversion H as [|? ? (m & v & H1 & H2) H3]; subst. apply IH in H3 as [vs H3]. exists (v :: vs). constructor; eauto. }
  split.
  - intros (B & E & rs1 & r & rs2 & tokens & fs & H1 & H2 & H3 & H4). split; [exact B|]. split; [exact E|]. exists rs1, r, rs2.
    apply runs_tuple in H3 as (L & -> & H3). rewrite map_length in L. rewrite combine_map, Forall2_map_l in H3. cbn [fst snd] in H3.
    split; [exact H1|]. split; [exact H2|]. split; [split; [exact L|]; apply R; eauto|]. destruct H4 as [H4|(m & H4 & H5)]; [auto|]. apply N in H5. eauto.
  - intros (B & E & rs1 & r & rs2 & H1 & H2 & [L H3] & H4). split; [exact B|]. split; [exact E|]. apply R in H3 as [vs H3].
    exists rs1, r, rs2, vs, (skipn (length rs1) (map (tokenize T) ts)). split; [exact H1|]. split; [exact H2|].
    split; [apply runs_tuple; rewrite map_length, combine_map, Forall2_map_l; auto|]. destruct H4 as [H4|(m & H4 & H5)]; [auto|]. apply N in H5. eauto.
Qed.
End Tokens.

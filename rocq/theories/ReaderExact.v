(** * Exactly which written names are read back *)
From Verif Require Import Base Types BaseFacts StrFacts TypeNames TypeNamesSpec TypeNamesFacts ReaderSpec ReaderFacts ReaderTotal ReaderGrammar.
From Coq Require Import String Lia ZifyBool ZifyNat ZifyN.
Set Implicit Arguments.
Local Open Scope N_scope.
Local Open Scope list_scope.
Notation length := List.length.

(** ** What can come out of the reader *)
(** Names without the letter p do not contain the word "tuple". *)
Lemma spelled_tuple_free s t : spelled s t -> ~ In 112 s -> tuple_free t = true.
Proof.
  induction 1 as [| | | | | | |s n H|s n H|s n H|s t H IH|s t k n H IH Hk]; intros N; try reflexivity.
  - exfalso. apply N. cbn. auto.
  - apply IH. intros I. apply N, in_app_iff. now left.
  - apply IH. intros I. apply N, in_app_iff. now left.
Qed.
Lemma fields_tuple_free s ts : fields_text s ts -> ~ In 112 s -> forallb tuple_free ts = true.
Proof.
  induction 1 as [|s t H|s ts H IH|s t r ts H Hr IH]; intros N; cbn [forallb]; try reflexivity.
  - now rewrite (spelled_tuple_free H N).
  - apply IH. intros I. apply N. now right.
  - rewrite (spelled_tuple_free H), IH; [reflexivity| |]; intros I; apply N, in_app_iff; [right; now right|now left].
Qed.
Lemma wrap_core_tuple num w t : suffix_wrap num w -> core (w t) = core t.
Proof. intros [[_ ->]|(n & _ & ->)]; reflexivity. Qed.
Lemma core_tuple_arrays t us : core t = PTuple us -> us <> [] -> forallb tuple_free us = true -> tuple_arrays t = Some us.
Proof.
  induction t using ParamType_ind'; intros C N F; try discriminate; cbn [core tuple_arrays] in *; auto.
  injection C as ->. rewrite F. destruct us; [congruence|reflexivity].
Qed.
(** A tuple without '(' inside, then something without ')': what follows is array
    suffixes. *)
Lemma tail_read p f : forall u v t, let s := 40 :: u ++ 41 :: v in
  (length s < f)%nat -> len s < 2 ^ 63 -> all_ascii s = true -> ~ In 40 u -> ~ In 41 v -> read_fuel p f s = Ok t ->
  ~ In 40 v /\ exists us, fields_text u us /\ core t = PTuple us.
Proof.
  cbv zeta. induction f as [|f IH]; intros u v t L B A N40 N41 E; [lia|].
  destruct (list_eq_dec N.eq_dec v []) as [->|NV].
  - split; [auto|]. rewrite <- (str_len_ascii _ A) in B. apply flat_read in E; [|exact L|exact B|].
    + apply flat_inv in E as [E|[(body & ts & E & F & ->)|(x & num & w & t' & E & _)]].
      * exfalso. apply spelled_no_paren in E as [E _]. apply E. now left.
      * exists ts. split; [|reflexivity]. change (lit "(" ++ body ++ lit ")") with (40 :: body ++ [41]) in E. injection E as E. apply app_inj_tail in E as [-> _]. exact F.
      * exfalso. change (40 :: u ++ [41]) with ((40 :: u) ++ [41]) in E. change (x ++ 91 :: num ++ [93]) with (x ++ (91 :: num) ++ [93]) in E.
        rewrite app_assoc in E. apply app_inj_tail in E as [_ E]. discriminate.
    + cbn [tl]. intros I. apply in_app_iff in I as [I|[I|[]]]; [contradiction|discriminate].
  - destruct (exists_last NV) as (v0 & c & ->). cbn [read_fuel] in E.
    assert (ES : 40 :: u ++ 41 :: v0 ++ [c] = (40 :: u ++ 41 :: v0) ++ [c]) by (cbn [app]; now rewrite <- app_assoc).
    rewrite ES, last_char_app in E. change ch_close with 41 in E. change ch_rbracket with 93 in E.
    assert (C : c <> 41) by (intros ->; apply N41, in_app_iff; right; now left). apply N.eqb_neq in C. rewrite C in E.
    destruct (N.eqb_spec c 93) as [->|C'].
    2:{ exfalso. apply read_base_iff, word_chars in E as (P & _). cbn [app forallb] in P. discriminate. }
    destruct (split_bracket (40 :: u ++ 41 :: v0)) as [(x & num & EX & NB)|NB].
    + rewrite EX, <- app_assoc in E. cbn [app] in E. destruct (suffix_wrap_dec num) as [[w S]|S].
      2:{ destruct (read_array_bad p (read_fuel p f) x NB S) as [e E']. rewrite E' in E. discriminate. }
      rewrite (read_array_wrap p (read_fuel p f) x S) in E.
      assert (VX : exists v1, v0 = v1 ++ 91 :: num /\ x = 40 :: u ++ 41 :: v1).
      { change (40 :: u ++ 41 :: v0) with ((40 :: u) ++ 41 :: v0) in EX. apply app_eq_app in EX as (l & [[E1 E2]|[E1 E2]]).
        - exfalso. destruct l as [|y l]; [discriminate E2|]. cbn [app] in E2. injection E2 as <- E2.
          destruct (suffix_chars S) as [P _]. rewrite E2, forallb_app in P. apply andb_true_iff in P as [_ P]. discriminate.
        - destruct l as [|y l]; [discriminate E2|]. cbn [app] in E2. injection E2 as <- E2. exists l. split; [exact E2|]. rewrite E1. reflexivity. }
      destruct VX as (v1 & -> & ->).
      assert (A' : all_ascii (40 :: u ++ 41 :: v1) = true).
      { replace (40 :: u ++ 41 :: (v1 ++ 91 :: num) ++ [93]) with ((40 :: u ++ 41 :: v1) ++ 91 :: num ++ [93]) in A.
        - rewrite all_ascii_app in A. now apply andb_true_iff in A as [A _].
        - cbn [app]. rewrite <- ?app_assoc; cbn [app]; rewrite <- ?app_assoc; reflexivity. }
      destruct (array_prefix (40 :: u ++ 41 :: v1) (91 :: num ++ [93])) as [(a & b & EA & La & EQ)|[_ EQ]]; rewrite EQ in E; [|discriminate]. cbn [bind] in E.
      assert (Aa : all_ascii a = true). { rewrite EA, all_ascii_app in A'. now apply andb_true_iff in A' as [A' _]. }
      assert (b = []) by (apply (ascii_prefix a b Aa); congruence). subst b. rewrite app_nil_r in EA. subst a.
      apply bind_ok in E as (t' & E & Et). injection Et as <-.
      destruct (IH u v1 t') as (V & us & F & Cu); [| |exact A'|exact N40| |exact E|].
      * clear - L. cbn [length] in *. rewrite app_length in *. cbn [length] in *. rewrite !app_length in L. cbn [length] in L. lia.
      * clear - B. rewrite len_cons, len_app, len_cons in *. rewrite !len_app in B. lia.
      * intros I. apply N41. apply in_app_iff. left. apply in_app_iff. now left.
      * split; [|exists us; split; [exact F|now rewrite (wrap_core_tuple _ S)]].
        intros I. apply in_app_iff in I as [I|[I|[]]]; [|discriminate]. apply in_app_iff in I as [I|[I|I]]; [contradiction|discriminate|].
        destruct (suffix_chars S) as [P _]. rewrite forallb_forall in P. apply P in I. discriminate.
    + exfalso. rewrite <- (str_len_ascii _ A), ES in B. rewrite (@read_array_lone p (read_fuel p f) _ NB B) in E.
      apply bind_ok in E as (n & _ & E). discriminate.
Qed.

(** The fields of a tuple that the reader returns. *)
Definition field_form (t : ParamType) : Prop :=
  tuple_free t = true \/ (exists us, tuple_arrays t = Some us) \/ exists us, t = PTuple us /\ ends_in_tuple us = true.
Lemma ends_app ys z us : forallb tuple_free ys = true -> tuple_arrays z = Some us -> ends_in_tuple (ys ++ [z]) = true.
Proof.
  intros F T. induction ys as [|y ys IH]; cbn [app ends_in_tuple forallb] in *; [now rewrite T|].
  apply andb_true_iff in F as [F1 F2]. rewrite F1, (IH F2). destruct (ys ++ [z]) eqn:E; [destruct ys; discriminate|reflexivity].
Qed.
Section Forms.
Context (name : str) (rd : str -> res ParamType).
Hypothesis NA : all_ascii name = true.
Hypothesis NP : ~ In 112 name.
Hypothesis HP : forall m t, (length m < length name)%nat -> all_ascii m = true -> ~ In 41 m -> ~ In 112 m -> rd m = Ok t -> tuple_free t = true.
Hypothesis HT : forall (u v : str) t, (length (40 :: u ++ 41 :: v)%N < length name)%nat -> all_ascii (40 :: u ++ 41 :: v) = true -> ~ In 40 u -> ~ In 41 v ->
  rd (40 :: u ++ 41 :: v) = Ok t -> ~ In 40 v /\ exists us, fields_text u us /\ core t = PTuple us.

Definition form_inv (pre : str) (st : rstate) : Prop :=
  Forall field_form (subtypes st) /\ Forall (fun l => forallb tuple_free l = true) (subtuples st) /\ (0 <= nested st)%Z /\
  exists A w, pre = A ++ w /\ len A = last_item st /\ A <> [] /\ ~ In 41 w /\
  ((1 <= nested st)%Z -> exists T u, pre = T ++ 40 :: u /\ len T = top_level_paren_open st /\ ~ In 40 u /\
    ((2 <= nested st)%Z -> T <> [] /\ exists u1, u = u1 ++ w /\ ~ In 44 w)).

Lemma item_is A w rest : name = A ++ w ++ rest -> str_slice name (len A) (len A + len w) = Ok w.
Proof.
  intros EN. rewrite EN in NA. rewrite !all_ascii_app in NA. apply andb_true_iff in NA as [A1 A2]. apply andb_true_iff in A2 as [A2 A3].
  rewrite EN. now apply ascii_slice.
Qed.
Lemma item_rd A w rest t : name = A ++ w ++ rest -> A <> [] -> ~ In 41 w -> rd w = Ok t -> tuple_free t = true.
Proof.
  intros EN NE N R. pose proof NA as NA'. rewrite EN in NA'. rewrite !all_ascii_app in NA'. apply andb_true_iff in NA' as [A1 A2]. apply andb_true_iff in A2 as [A2 A3].
  eapply HP; [|exact A2|exact N| |exact R].
  - rewrite EN, !app_length. destruct A; [congruence|]. cbn [length]. lia.
  - intros I. apply NP. rewrite EN. apply in_app_iff. right. apply in_app_iff. now left.
Qed.
Lemma push_forms l i x l' : push_at l i x = Ok l' -> tuple_free x = true -> Forall (fun l => forallb tuple_free l = true) l -> Forall (fun l => forallb tuple_free l = true) l'.
Proof.
  revert i l'. induction l as [|a l IH]; intros [|i] l' E T F; cbn [push_at] in E; try discriminate; inversion F as [|? ? Fa Fl]; subst.
  - injection E as <-. constructor; [|exact Fl]. rewrite forallb_app, Fa. cbn. now rewrite T.
  - apply bind_ok in E as (r & E & Er). injection Er as <-. constructor; [exact Fa|eauto].
Qed.
Lemma take_forms l i x l' : take_at l i = Ok (x, l') -> Forall (fun l => forallb tuple_free l = true) l ->
  forallb tuple_free x = true /\ Forall (fun l => forallb tuple_free l = true) l'.
Proof.
  revert i x l'. induction l as [|a l IH]; intros [|i] x l' E F; cbn [take_at] in E; try discriminate; inversion F as [|? ? Fa Fl]; subst.
  - injection E as <- <-. split; [exact Fa|]. constructor; [reflexivity|exact Fl].
  - apply bind_ok in E as ([y r] & E & Er). injection Er as <- <-. destruct (IH _ _ _ E Fl) as [H1 H2]. auto.
Qed.
Lemma form_step pre c rest st st' k : name = pre ++ c :: rest -> form_inv pre st -> read_char rd name st (len pre) c rest = Ok (st', k) ->
  exists sk rest', rest = sk ++ rest' /\ length sk = k /\ form_inv (pre ++ c :: sk) st'.
Proof.
  intros EN (F1 & F2 & NN & A & w & EP & LA & NE & N41 & TT) E.
  assert (SL : str_slice name (last_item st) (len pre) = Ok w).
  { rewrite <- LA, EP, len_app. apply (@item_is A w (c :: rest)). rewrite EN, EP, <- app_assoc. reflexivity. }
  assert (RD : forall t, rd w = Ok t -> tuple_free t = true).
  { intros t. apply (@item_rd A w (c :: rest)); [|exact NE|exact N41]. rewrite EN, EP, <- app_assoc. reflexivity. }
  assert (PN : pre <> []) by (rewrite EP; now destruct A).
  unfold read_char in E. change ch_open with 40 in E. change ch_close with 41 in E. change ch_comma with 44 in E.
  destruct (N.eqb_spec c 40) as [->|C40].
  - destruct (Z.ltb_spec 1 (nested st + 1)) as [L|L]; injection E as <- <-; exists [], rest; (split; [reflexivity|]); (split; [reflexivity|]); unfold form_inv; cbn [subtypes subtuples nested last_item top_level_paren_open].
    + split; [exact F1|]. split; [apply Forall_app; split; [exact F2|constructor; [reflexivity|constructor]]|]. split; [lia|].
      exists (pre ++ [40]), []. split; [now rewrite app_nil_r|]. split; [rewrite len_app; reflexivity|]. split; [now destruct pre|]. split; [auto|].
      intros _. exists pre, []. split; [reflexivity|]. split; [reflexivity|]. split; [auto|]. intros _. split; [exact PN|]. exists []. auto.
    + split; [exact F1|]. split; [exact F2|]. split; [lia|]. exists A, (w ++ [40]). split; [rewrite EP, <- app_assoc; reflexivity|]. split; [exact LA|]. split; [exact NE|].
      split; [intros I; apply in_app_iff in I as [I|[I|[]]]; [contradiction|discriminate]|]. intros _. exists pre, []. repeat split; auto; intros; lia.
  - destruct (N.eqb_spec c 41) as [->|C41].
    + destruct (Z.ltb_spec (nested st - 1) 0) as [L|L]; [discriminate|]. rewrite SL in E. cbn [bind] in E. destruct w as [|x w].
      * injection E as <- <-. exists [], rest. split; [reflexivity|]. split; [reflexivity|]. unfold form_inv; cbn [subtypes subtuples nested last_item top_level_paren_open].
        split; [exact F1|]. split; [exact F2|]. split; [lia|]. exists (pre ++ [41]), []. split; [now rewrite app_nil_r|]. split; [rewrite len_app; reflexivity|].
        split; [now destruct pre|]. split; [auto|]. intros N1. destruct TT as (T & u & ET & LT & Nu & N2); [lia|]. exists T, (u ++ [41]).
        split; [rewrite ET, <- app_assoc; reflexivity|]. split; [exact LT|]. split; [intros I; apply in_app_iff in I as [I|[I|[]]]; [contradiction|discriminate]|].
        intros N3. destruct N2 as [TN _]; [lia|]. split; [exact TN|]. exists (u ++ [41]). split; [now rewrite app_nil_r|auto].
      * destruct (Z.eqb_spec (nested st - 1) 0) as [Z|Z].
        -- destruct (rd (x :: w)) as [t|e|] eqn:R; cbn [bind] in E; try discriminate. injection E as <- <-. exists [], rest. split; [reflexivity|]. split; [reflexivity|].
           unfold form_inv; cbn [subtypes subtuples nested last_item top_level_paren_open]. split; [apply Forall_app; split; [exact F1|constructor; [left; now apply RD|constructor]]|].
           split; [exact F2|]. split; [lia|]. exists (pre ++ [41]), []. split; [now rewrite app_nil_r|]. split; [rewrite len_app; reflexivity|].
           split; [now destruct pre|]. split; [auto|]. intros; lia.
        -- destruct TT as (T & u & ET & LT & Nu & N2); [lia|]. destruct N2 as (TN & u1 & Eu & N44); [lia|].
           set (sk := take_while (fun c => negb ((c =? 44) || (c =? 41))) rest) in *.
           assert (ER : exists rest', rest = sk ++ rest') by (exists (drop_while (fun c => negb ((c =? 44) || (c =? 41))) rest); symmetry; apply take_drop_while).
           destruct ER as [rest' ER].
           assert (SK : ~ In 41 sk). { intros I. pose proof (take_while_forallb (fun c => negb ((c =? 44) || (c =? 41))) rest) as K. fold sk in K. rewrite forallb_forall in K. apply K in I. discriminate. }
           assert (EN' : name = T ++ (40 :: u ++ 41 :: sk) ++ rest').
           { rewrite EN, ET, ER, <- !app_assoc. cbn [app]. rewrite <- !app_assoc. cbn [app]. reflexivity. }
           assert (SL' : str_slice name (top_level_paren_open st) (len pre + len sk + 1) = Ok (40 :: u ++ 41 :: sk)).
           { rewrite <- LT. replace (len pre + len sk + 1) with (len T + len (40 :: u ++ 41 :: sk)); [exact (@item_is T _ _ EN')|].
             rewrite ET. rewrite !len_app, !len_cons, !len_app, !len_cons. lia. }
           rewrite SL' in E. cbn [bind] in E. destruct (rd (40 :: u ++ 41 :: sk)) as [t|e|] eqn:R; cbn [bind] in E; try discriminate.
           assert (Asub : all_ascii (40 :: u ++ 41 :: sk) = true).
           { pose proof NA as NA'. rewrite EN' in NA'. rewrite !all_ascii_app in NA'. apply andb_true_iff in NA' as [_ A2]. now apply andb_true_iff in A2 as [A2 _]. }
           destruct (@HT u sk t) as (S40 & us & FT & CT); auto.
           { rewrite EN'. rewrite !app_length. destruct T; [congruence|]. cbn [length]. lia. }
           assert (NU : ~ In 112 u). { intros I. apply NP. rewrite EN'. apply in_app_iff. right. cbn [app]. right. apply in_app_iff. left. apply in_app_iff. now left. }
           pose proof (fields_tuple_free FT NU) as FU.
           assert (UN : us <> []).
           { intros ->. apply fields_only_commas in FT. rewrite Forall_forall in FT. apply N44. left. apply FT. rewrite Eu. apply in_app_iff. right. now left. }
           pose proof (core_tuple_arrays t CT UN FU) as TA.
           assert (REST : forall st'', (0 <= nested st'')%Z -> nested st'' = (nested st - 1)%Z -> top_level_paren_open st'' = top_level_paren_open st -> last_item st'' = len pre + len sk + 1 ->
             Forall field_form (subtypes st'') -> Forall (fun l => forallb tuple_free l = true) (subtuples st'') -> form_inv (pre ++ 41 :: sk) st'').
           { intros st'' H0 H1 H2 H3 H4 H5. split; [exact H4|]. split; [exact H5|]. split; [exact H0|]. exists (pre ++ 41 :: sk), []. split; [now rewrite app_nil_r|].
             split; [rewrite H3, len_app, len_cons; lia|]. split; [now destruct pre|]. split; [auto|]. intros _. exists T, (u ++ 41 :: sk).
             split; [rewrite ET, <- app_assoc; reflexivity|]. split; [now rewrite H2|]. split; [intros I; apply in_app_iff in I as [I|[I|I]]; [contradiction|discriminate|contradiction]|].
             intros _. split; [exact TN|]. exists (u ++ 41 :: sk). split; [now rewrite app_nil_r|auto]. }
           destruct (Z.ltb_spec 1 (nested st - 1)) as [L1|L1].
           ++ destruct (take_at (subtuples st) (Z.to_nat (nested st - 1 - 2))) as [[sub sts]|e|] eqn:TK; cbn [bind] in E; try discriminate. injection E as <- <-.
              destruct (@take_forms _ _ _ _ TK F2) as [FS FSS]. exists sk, rest'. split; [exact ER|]. split; [reflexivity|]. apply REST; auto.
              cbn [subtypes]. apply Forall_app. split; [exact F1|]. constructor; [|constructor]. right. right. exists (sub ++ [t]). split; [reflexivity|]. eapply ends_app; eauto.
           ++ injection E as <- <-. exists sk, rest'. split; [exact ER|]. split; [reflexivity|]. apply REST; auto.
              cbn [subtypes]. apply Forall_app. split; [exact F1|]. constructor; [|constructor]. right. left. eauto.
    + destruct (N.eqb_spec c 44) as [->|C44].
      * rewrite SL in E. cbn [bind] in E.
        assert (NEXT : forall st'', nested st'' = nested st -> top_level_paren_open st'' = top_level_paren_open st -> last_item st'' = len pre + 1 ->
             Forall field_form (subtypes st'') -> Forall (fun l => forallb tuple_free l = true) (subtuples st'') -> form_inv (pre ++ [44]) st'').
        { intros st'' H1 H2 H3 H4 H5. split; [exact H4|]. split; [exact H5|]. split; [lia|]. exists (pre ++ [44]), []. split; [now rewrite app_nil_r|].
          split; [rewrite H3, len_app; reflexivity|]. split; [now destruct pre|]. split; [auto|]. intros N1. destruct TT as (T & u & ET & LT & Nu & N2); [lia|].
          exists T, (u ++ [44]). split; [rewrite ET, <- app_assoc; reflexivity|]. split; [now rewrite H2|].
          split; [intros I; apply in_app_iff in I as [I|[I|[]]]; [contradiction|discriminate]|]. intros N3. destruct N2 as [TN _]; [lia|]. split; [exact TN|].
          exists (u ++ [44]). split; [now rewrite app_nil_r|auto]. }
        destruct w as [|x w]; [injection E as <- <-; exists [], rest; split; [reflexivity|]; split; [reflexivity|]; now apply NEXT|].
        destruct (Z.eqb_spec (nested st) 1) as [Z|Z].
        -- destruct (rd (x :: w)) as [t|e|] eqn:R; cbn [bind] in E; try discriminate. injection E as <- <-. exists [], rest. split; [reflexivity|]. split; [reflexivity|].
           apply NEXT; auto. cbn [subtypes]. apply Forall_app; split; [exact F1|constructor; [left; now apply RD|constructor]].
        -- destruct (Z.ltb_spec 1 (nested st)) as [L|L].
           ++ destruct (rd (x :: w)) as [t|e|] eqn:R; cbn [bind] in E; try discriminate.
              destruct (push_at (subtuples st) (Z.to_nat (nested st - 2)) t) as [sts|e|] eqn:PU; cbn [bind] in E; try discriminate. injection E as <- <-.
              exists [], rest. split; [reflexivity|]. split; [reflexivity|]. apply NEXT; auto. cbn [subtuples]. eapply push_forms; eauto.
           ++ injection E as <- <-. exists [], rest. split; [reflexivity|]. split; [reflexivity|]. split; [exact F1|]. split; [exact F2|]. split; [exact NN|].
              exists A, ((x :: w) ++ [44]). split; [rewrite EP, <- app_assoc; reflexivity|]. split; [exact LA|]. split; [exact NE|].
              split; [intros I; apply in_app_iff in I as [I|[I|[]]]; [contradiction|discriminate]|]. intros; lia.
      * injection E as <- <-. exists [], rest. split; [reflexivity|]. split; [reflexivity|]. split; [exact F1|]. split; [exact F2|]. split; [exact NN|].
        exists A, (w ++ [c]). split; [rewrite EP, <- app_assoc; reflexivity|]. split; [exact LA|]. split; [exact NE|].
        split; [intros I; apply in_app_iff in I as [I|[I|[]]]; [contradiction|congruence]|]. intros N1. destruct TT as (T & u & ET & LT & Nu & N2); [exact N1|].
        exists T, (u ++ [c]). split; [rewrite ET, <- app_assoc; reflexivity|]. split; [exact LT|].
        split; [intros I; apply in_app_iff in I as [I|[I|[]]]; [contradiction|congruence]|]. intros N3. destruct N2 as (TN & u1 & Eu & N44); [exact N3|]. split; [exact TN|].
        exists u1. split; [rewrite Eu, <- app_assoc; reflexivity|]. intros I; apply in_app_iff in I as [I|[I|[]]]; [contradiction|congruence].
Qed.
Lemma form_loop n : forall rest pre st st', (length rest <= n)%nat -> name = pre ++ rest -> form_inv pre st ->
  read_tuple_loop rd name rest (len pre) 0 st = Ok st' -> Forall field_form (subtypes st').
Proof.
  induction n as [|n IH]; intros [|c rest] pre st st' L EN I E; cbn [read_tuple_loop length] in E, L; try lia; try (injection E as <-; apply I).
  apply bind_ok in E as ([st1 k] & E1 & E). destruct (@form_step pre c rest st st1 k EN I E1) as (sk & rest' & -> & <- & I1). rewrite loop_skip in E.
  apply (IH rest' (pre ++ c :: sk) st1 st').
  - rewrite app_length in L. lia.
  - rewrite EN, <- app_assoc. reflexivity.
  - exact I1.
  - rewrite len_app, len_cons. replace (len pre + (1 + len sk)) with (len pre + 1 + len sk) by lia. exact E.
Qed.
Lemma read_tuple_forms t : read_tuple rd name = Ok t -> exists ts, t = PTuple ts /\ Forall field_form ts.
Proof.
  unfold read_tuple. destruct (starts_with_char name ch_open) eqn:SW; [|discriminate]. intros E. apply bind_ok in E as (st & E & Et). injection Et as <-.
  exists (subtypes st). split; [reflexivity|].
  assert (ES : exists s, name = 40 :: s).
  { destruct name as [|c s]; [discriminate|]. cbn in SW. apply N.eqb_eq in SW. change ch_open with 40 in SW. subst. eauto. }
  destruct ES as [s ES]. rewrite ES in E at 2. cbn [read_tuple_loop] in E. unfold read_char at 1 in E. change (40 =? ch_open) with true in E. cbv iota in E.
  cbn [nested] in E. change (1 <? 0 + 1)%Z with false in E. cbn [bind subtypes subtuples last_item] in E. change (0 + 1)%Z with 1%Z in E. change (0 + 1) with (len [40]) in E.
  eapply form_loop; [apply le_n| | |exact E].
  - exact ES.
  - split; [constructor|]. split; [constructor|]. cbn [nested]. split; [lia|]. exists [40], []. split; [reflexivity|]. split; [reflexivity|]. split; [discriminate|]. split; [auto|].
    intros _. exists [], []. repeat split; auto; lia.
Qed.
End Forms.

(** ** What the reader makes of the fields of a written tuple *)
Fixpoint add_at (l : list (list ParamType)) (i : nat) (xs : list ParamType) : list (list ParamType) :=
  match l, i with
  | [], _ => []
  | a :: l', O => (a ++ xs) :: l'
  | a :: l', S i' => a :: add_at l' i' xs
  end.
Lemma push_add l i x : (i < length l)%nat -> push_at l i x = Ok (add_at l i [x]).
Proof. revert i. induction l as [|a l IH]; intros [|i] L; cbn [length push_at add_at] in *; try lia; [reflexivity|]. rewrite IH by lia. reflexivity. Qed.
Lemma add_add l i a b : add_at (add_at l i a) i b = add_at l i (a ++ b).
Proof. revert i. induction l as [|x l IH]; intros [|i]; cbn [add_at]; try reflexivity; [now rewrite app_assoc|now rewrite IH]. Qed.
Lemma add_nothing l i : add_at l i [] = l.
Proof. revert i. induction l as [|x l IH]; intros [|i]; cbn [add_at]; try reflexivity; [now rewrite app_nil_r|now rewrite IH]. Qed.
Lemma add_length l i a : length (add_at l i a) = length l.
Proof. revert i. induction l as [|x l IH]; intros [|i]; cbn [add_at length]; auto. Qed.

Definition with_commas (ys : list ParamType) : str := flat_map (fun y => write y ++ [44]) ys.
Lemma join_last ys z : join (lit ",") (map write (ys ++ [z])) = with_commas ys ++ write z.
Proof.
  induction ys as [|y ys IH]; [reflexivity|]. cbn [app map with_commas flat_map]. fold (with_commas ys). rewrite <- app_assoc, <- app_assoc, <- IH.
  destruct (ys ++ [z]) eqn:E; [destruct ys; discriminate|]. cbn [map]. rewrite join_cons2. reflexivity.
Qed.
Lemma with_commas_ascii ys : all_ascii (with_commas ys) = true.
Proof. induction ys as [|y ys IH]; [reflexivity|]. cbn [with_commas flat_map]. rewrite !all_ascii_app, write_ascii. exact IH. Qed.

Section Run.
Context (rd : str -> res ParamType) (name : str).
Definition plain_field (t : ParamType) : Prop := tuple_free t = true /\ rd (write t) = Ok t.

Lemma comma_run n ys : (2 <= n)%Z -> Forall plain_field ys -> forall pre rest acc sts top,
  name = pre ++ with_commas ys ++ rest -> all_ascii pre = true -> (Z.to_nat (n - 2) < length sts)%nat ->
  read_tuple_loop rd name (with_commas ys ++ rest) (len pre) 0 (mkR acc sts n top (len pre)) =
  read_tuple_loop rd name rest (len pre + len (with_commas ys)) 0 (mkR acc (add_at sts (Z.to_nat (n - 2)) ys) n top (len pre + len (with_commas ys))).
Proof.
  intros Hn H. induction H as [|y ys [Hf Hr] H IH]; intros pre rest acc sts top EN A L.
  - cbn [with_commas flat_map app]. change (len []) with 0. now rewrite N.add_0_r, add_nothing.
  - cbn [with_commas flat_map] in *. fold (with_commas ys) in *. rewrite <- !app_assoc in *. rewrite loop_plain by (now apply write_plain).
    cbn [app] in *. cbn [read_tuple_loop]. unfold read_char at 1. change (44 =? ch_open) with false. change (44 =? ch_close) with false.
    change (44 =? ch_comma) with true. cbv iota. cbn [last_item nested subtuples subtypes top_level_paren_open].
    rewrite EN at 1. rewrite ascii_slice by (assumption || apply write_ascii). cbn [bind].
    destruct (write_head y) as (c & s & EW & _). rewrite EW at 1. replace (n =? 1)%Z with false by lia. replace (1 <? n)%Z with true by lia.
    cbv iota. rewrite Hr. cbn [bind]. rewrite push_add by assumption. cbn [bind].
    pose proof (IH (pre ++ write y ++ [44]) rest acc (add_at sts (Z.to_nat (n - 2)) [y]) top) as E.
    rewrite add_add in E. cbn [app] in E. rewrite !len_app in E. change (len [44]) with 1 in E. rewrite !N.add_assoc in E. rewrite E.
    + rewrite !len_app, len_cons. replace (len pre + len (write y) + 1 + len (with_commas ys)) with (len pre + (len (write y) + (1 + len (with_commas ys)))) by lia. reflexivity.
    + rewrite EN. rewrite <- !app_assoc. reflexivity.
    + rewrite !all_ascii_app, A, write_ascii. reflexivity.
    + now rewrite add_length.
Qed.

(** A tuple (with array suffixes) inside [n] others, up to the separator after it. *)
Lemma close_tuple t ys z : core t = PTuple (ys ++ [z]) -> rd (write t) = Ok t -> Forall plain_field ys -> plain_field z ->
  forall n pre c post acc sts top acc' sts', (1 <= n)%Z -> is_sep c ->
  name = pre ++ write t ++ c :: post -> all_ascii pre = true -> (Z.to_nat (n - 1) <= length sts)%nat ->
  (if (1 <? n)%Z then exists sub, take_at (add_at (sts ++ [[]]) (Z.to_nat (n - 1)) ys) (Z.to_nat (n - 2)) = Ok (sub, sts') /\ acc' = acc ++ [PTuple (sub ++ [t])]
   else sts' = add_at (sts ++ [[]]) (Z.to_nat (n - 1)) ys /\ acc' = acc ++ [t]) ->
  read_tuple_loop rd name (write t ++ c :: post) (len pre) 0 (mkR acc sts n top (len pre)) =
  read_tuple_loop rd name (c :: post) (len pre + len (write t)) 0 (mkR acc' sts' n (len pre) (len pre + len (write t))).
Proof.
  intros EC Hr FY [FZ RZ] n pre c post acc sts top acc' sts' Hn S EN A L K.
  pose proof (write_core t) as EW. rewrite EC, write_tuple, join_last in EW. cbn [app] in EW.
  set (SX := show_sfx (sfx t)) in *. set (W := with_commas ys) in *.
  assert (EX : write t ++ c :: post = 40 :: W ++ write z ++ 41 :: SX ++ c :: post).
  { rewrite EW. cbn [app]. rewrite <- !app_assoc. reflexivity. }
  assert (LW : len (write t) = 1 + len W + len (write z) + 1 + len SX).
  { rewrite EW, len_cons, !len_app. change (len [41]) with 1. lia. }
  pose proof EN as EN0. rewrite EX in EN |- *.
  cbn [read_tuple_loop]. unfold read_char at 1. change (40 =? ch_open) with true. cbv iota.
  cbn [nested subtypes subtuples last_item top_level_paren_open]. replace (1 <? n + 1)%Z with true by lia. cbv iota. cbn [bind].
  pose proof (@comma_run (n + 1)%Z ys ltac:(lia) FY (pre ++ [40]) (write z ++ 41 :: SX ++ c :: post) acc (sts ++ [[]]) (len pre)) as E.
  fold W in E. rewrite len_app in E. change (len [40]) with 1 in E. replace (n + 1 - 2)%Z with (n - 1)%Z in E by lia. rewrite E; clear E.
  2:{ rewrite EN, <- app_assoc. reflexivity. }
  2:{ rewrite all_ascii_app, A. reflexivity. }
  2:{ rewrite app_length. cbn [length]. lia. }
  rewrite loop_plain by (now apply write_plain).
  assert (EZ : str_slice name (len pre + 1 + len W) (len pre + 1 + len W + len (write z)) = Ok (write z)).
  { pose proof (@ascii_slice (pre ++ 40 :: W) (write z) (41 :: SX ++ c :: post)) as E. rewrite len_app, len_cons, N.add_assoc in E.
    rewrite EN. replace (pre ++ 40 :: W ++ write z ++ 41 :: SX ++ c :: post) with ((pre ++ 40 :: W) ++ write z ++ 41 :: SX ++ c :: post) by (now rewrite <- app_assoc).
    apply E; [|apply write_ascii]. rewrite all_ascii_app, A. apply with_commas_ascii. }
  cbn [read_tuple_loop]. unfold read_char at 1. change (41 =? ch_open) with false. change (41 =? ch_close) with true. cbv iota.
  cbn [nested subtypes subtuples last_item top_level_paren_open]. replace (n + 1 - 1)%Z with n by lia. replace (n <? 0)%Z with false by lia. cbv iota.
  slice_rw EZ. cbn [bind]. destruct (write_head z) as (c0 & s0 & EWz & _). rewrite EWz at 1. replace (n =? 0)%Z with false by lia. cbv iota zeta.
  rewrite take_while_stop with (a := SX).
  2:{ eapply forallb_weaken; [|apply show_sfx_plain]. unfold punct, ch_comma, ch_close. intros x. lia. }
  2:{ destruct S as [-> | ->]; reflexivity. }
  assert (EI : str_slice name (len pre) (len pre + 1 + len W + len (write z) + len SX + 1) = Ok (write t)).
  { replace (len pre + 1 + len W + len (write z) + len SX + 1) with (len pre + len (write t)) by lia. rewrite EN0. apply ascii_slice; [assumption|apply write_ascii]. }
  slice_rw EI. cbn [bind]. rewrite Hr. cbn [bind].
  replace (len pre + 1 + len W + len (write z) + len SX + 1) with (len pre + len (write t)) by lia.
  assert (LP : len pre + 1 + len W + len (write z) + 1 + len SX = len pre + len (write t)) by lia.
  destruct (1 <? n)%Z.
  - destruct K as (sub & E & ->). rewrite E. cbn [bind]. rewrite loop_skip, LP. reflexivity.
  - destruct K as [-> ->]. cbn [bind]. rewrite loop_skip, LP. reflexivity.
Qed.

(** The fields the reader returns; [rest]: fields left over from earlier tuples. *)
Fixpoint run (rest : list ParamType) (ts : list ParamType) : list ParamType :=
  match ts with
  | [] => []
  | t :: r =>
    if tuple_free t then t :: run rest r
    else match tuple_arrays t with
         | Some us => t :: run (rest ++ removelast us) r
         | None => match t with PTuple us => PTuple (rest ++ us) :: run [] r | _ => [] end
         end
  end.
Definition run_item (L : list ParamType) (t : ParamType) : ParamType * list ParamType :=
  if tuple_free t then (t, L)
  else match tuple_arrays t with
       | Some us => (t, L ++ removelast us)
       | None => match t with PTuple us => (PTuple (L ++ us), []) | _ => (t, L) end
       end.
Definition field_read (t : ParamType) : Prop :=
  plain_field t \/
  (exists ys z, tuple_arrays t = Some (ys ++ [z]) /\ core t = PTuple (ys ++ [z]) /\ tuple_free t = false /\ rd (write t) = Ok t /\ Forall plain_field ys /\ plain_field z) \/
  (exists us x xs y, t = PTuple (us ++ [x]) /\ tuple_arrays t = None /\ core x = PTuple (xs ++ [y]) /\ rd (write x) = Ok x /\
     Forall plain_field us /\ Forall plain_field xs /\ plain_field y).
Lemma item_run t : field_read t -> forall pre c post acc sts top, is_sep c ->
  name = pre ++ write t ++ c :: post -> all_ascii pre = true ->
  exists sts' top',
  read_tuple_loop rd name (write t ++ c :: post) (len pre) 0 (mkR acc sts 1 top (len pre)) =
  read_tuple_loop rd name post (len pre + len (write t) + 1) 0
    (mkR (acc ++ [fst (run_item (hd [] sts) t)]) sts' (if c =? 44 then 1 else 0) top' (len pre + len (write t) + 1)) /\
  hd [] sts' = snd (run_item (hd [] sts) t).
Proof.
  intros H pre c post acc sts top S EN A. unfold run_item.
  assert (SEP : forall acc' sts' top', read_tuple_loop rd name (c :: post) (len pre + len (write t)) 0 (mkR acc' sts' 1 top' (len pre + len (write t))) =
     read_tuple_loop rd name post (len pre + len (write t) + 1) 0 (mkR acc' sts' (if c =? 44 then 1 else 0) top' (len pre + len (write t) + 1))).
  { intros acc' sts' top'. pose proof (@sep_step rd name (pre ++ write t) c post acc' sts' top' S) as E. rewrite len_app in E. apply E.
    - rewrite EN, <- app_assoc. reflexivity.
    - now rewrite all_ascii_app, A, write_ascii. }
  destruct H as [[F R]|[(ys & z & TA & EC & NF & R & FY & FZ)|(us & x & xs & y & -> & TA & EC & R & FU & FX & FYY)]].
  - rewrite F. cbn [fst snd]. exists sts, top. split; [|reflexivity]. rewrite loop_plain by (now apply write_plain).
    cbn [read_tuple_loop]. unfold read_char. cbn [last_item nested subtuples subtypes top_level_paren_open].
    assert (E : str_slice name (len pre) (len pre + len (write t)) = Ok (write t)).
    { rewrite EN. apply ascii_slice; [assumption|apply write_ascii]. }
    destruct (write_head t) as (x & s & EW & _).
    destruct S as [-> | ->].
    + change (44 =? ch_open) with false. change (44 =? ch_close) with false. change (44 =? ch_comma) with true. cbv iota.
      rewrite E. cbn [bind]. rewrite EW at 1. change (1 =? 1)%Z with true. cbv iota. rewrite R. reflexivity.
    + change (41 =? ch_open) with false. change (41 =? ch_close) with true. change (1 - 1 <? 0)%Z with false. cbv iota.
      rewrite E. cbn [bind]. rewrite EW at 1. change (1 - 1 =? 0)%Z with true. cbv iota. rewrite R. reflexivity.
  - rewrite NF, TA. cbn [fst snd]. exists (add_at (sts ++ [[]]) 0 ys), (len pre). split.
    + rewrite (@close_tuple t ys z EC R FY FZ 1%Z pre c post acc sts top (acc ++ [t]) (add_at (sts ++ [[]]) 0 ys)); auto; [lia|cbn; lia|].
      change (1 <? 1)%Z with false. cbv iota. auto.
    + rewrite removelast_last. destruct sts; reflexivity.
  - cbn [tuple_free]. rewrite TA. cbn [fst snd].
    set (W := with_commas us) in *.
    assert (EW : write (PTuple (us ++ [x])) = 40 :: W ++ write x ++ [41]).
    { rewrite write_tuple, join_last, <- app_assoc. reflexivity. }
    rewrite EW in EN, SEP |- *. clear EW.
    assert (EX : (40 :: W ++ write x ++ [41]) ++ c :: post = 40 :: W ++ write x ++ 41 :: c :: post).
    { cbn [app]. rewrite <- !app_assoc. reflexivity. }
    rewrite EX in EN |- *. clear EX.
    exists ([] :: tl (add_at (add_at (sts ++ [[]]) 0 us ++ [[]]) 1 xs)), (len pre + 1 + len W).
    split; [|reflexivity].
    cbn [read_tuple_loop]. unfold read_char at 1. change (40 =? ch_open) with true. cbv iota.
    cbn [nested subtypes subtuples last_item top_level_paren_open]. change (1 <? 1 + 1)%Z with true. cbv iota. cbn [bind]. change (1 + 1)%Z with 2%Z.
    pose proof (@comma_run 2%Z us ltac:(lia) FU (pre ++ [40]) (write x ++ 41 :: c :: post) acc (sts ++ [[]]) (len pre)) as E.
    fold W in E. rewrite len_app in E. change (len [40]) with 1 in E. change (Z.to_nat (2 - 2)) with O in E. rewrite E; clear E.
    2:{ rewrite EN, <- app_assoc. reflexivity. }
    2:{ rewrite all_ascii_app, A. reflexivity. }
    2:{ rewrite app_length. cbn [length]. lia. }
    pose proof (@close_tuple x xs y EC R FX FYY 2%Z (pre ++ 40 :: W) 41 (c :: post) acc (add_at (sts ++ [[]]) 0 us) (len pre)
      (acc ++ [PTuple (hd [] sts ++ us ++ [x])]) ([] :: tl (add_at (add_at (sts ++ [[]]) 0 us ++ [[]]) 1 xs))) as E.
    rewrite len_app, len_cons in E. rewrite N.add_assoc in E. rewrite E; clear E; [|lia|now right| | | |].
    + assert (LW : len (40 :: W ++ write x ++ [41]) = 1 + len W + len (write x) + 1).
      { rewrite len_cons, !len_app. change (len [41]) with 1. lia. }
      rewrite LW in SEP |- *. cbn [read_tuple_loop]. cbn [read_tuple_loop] in SEP. unfold read_char at 1. change (41 =? ch_open) with false. change (41 =? ch_close) with true. cbv iota.
      cbn [nested subtypes subtuples last_item top_level_paren_open]. change (2 - 1 <? 0)%Z with false. cbv iota.
      assert (ES : str_slice name (len pre + 1 + len W + len (write x)) (len pre + 1 + len W + len (write x)) = Ok []).
      { pose proof (@ascii_slice (pre ++ 40 :: W ++ write x) [] (41 :: c :: post)) as E. rewrite len_app, len_cons, len_app in E. cbn [app] in E. change (len []) with 0 in E.
        rewrite N.add_0_r in E. rewrite EN. replace (pre ++ 40 :: W ++ write x ++ 41 :: c :: post) with ((pre ++ 40 :: W ++ write x) ++ 41 :: c :: post) by (rewrite <- app_assoc; cbn [app]; now rewrite <- app_assoc).
        replace (len pre + 1 + len W + len (write x)) with (len pre + (1 + (len W + len (write x)))) by lia. apply E; [|reflexivity].
        rewrite all_ascii_app, A. cbn [all_ascii forallb andb]. rewrite !all_ascii_app, write_ascii, andb_true_r. apply with_commas_ascii. }
      slice_rw ES. cbn [bind]. change (2 - 1)%Z with 1%Z.
      replace (len pre + 1 + len W + len (write x) + 1) with (len pre + (1 + len W + len (write x) + 1)) by lia.
      rewrite SEP. reflexivity.
    + rewrite EN, <- app_assoc. reflexivity.
    + rewrite all_ascii_app, A. apply with_commas_ascii.
    + rewrite add_length, app_length. cbn [length]. change (Z.to_nat (2 - 1)) with 1%nat. lia.
    + change (1 <? 2)%Z with true. cbv iota. change (Z.to_nat (2 - 1)) with 1%nat. change (Z.to_nat (2 - 2)) with 0%nat.
      exists (hd [] sts ++ us). split; [|now rewrite <- app_assoc]. destruct sts as [|s0 sts]; reflexivity.
Qed.
Lemma run_cons L t r : field_read t -> run L (t :: r) = fst (run_item L t) :: run (snd (run_item L t)) r.
Proof.
  intros H. cbn [run]. unfold run_item. destruct (tuple_free t) eqn:F; [reflexivity|].
  destruct H as [[F' _]|[(ys & z & TA & _)|(us & x & xs & y & -> & TA & _)]]; [congruence|rewrite TA; reflexivity|rewrite TA; reflexivity].
Qed.
Lemma items_run ts : ts <> [] -> Forall field_read ts -> forall pre acc sts top,
  name = pre ++ join (lit ",") (map write ts) ++ [41] -> all_ascii pre = true ->
  exists st, read_tuple_loop rd name (join (lit ",") (map write ts) ++ [41]) (len pre) 0 (mkR acc sts 1 top (len pre)) = Ok st /\
    subtypes st = acc ++ run (hd [] sts) ts.
Proof.
  intros NE H. induction H as [|t ts K H IH]; [congruence|]. clear NE. intros pre acc sts top EN A. rewrite run_cons by assumption.
  destruct ts as [|t' ts].
  - cbn [map join] in *. destruct (@item_run t K pre 41 [] acc sts top) as (sts' & top' & E & _); [now right|assumption|assumption|].
    rewrite E. cbn [read_tuple_loop]. eexists. split; reflexivity.
  - cbn [map] in *. rewrite join_cons2 in *. rewrite <- !app_assoc in *.
    change (lit "," ++ join (lit ",") (write t' :: map write ts) ++ [41]) with
      (44 :: join (lit ",") (write t' :: map write ts) ++ [41]) in *.
    destruct (@item_run t K pre 44 (join (lit ",") (write t' :: map write ts) ++ [41]) acc sts top)
      as (sts' & top' & E & EL); [now left|assumption|assumption|].
    rewrite E. change (44 =? 44) with true. cbv iota.
    destruct (IH ltac:(discriminate) (pre ++ write t ++ [44]) (acc ++ [fst (run_item (hd [] sts) t)]) sts' top') as (st & E' & ES).
    { rewrite EN, <- !app_assoc. reflexivity. }
    { rewrite !all_ascii_app, A, write_ascii. reflexivity. }
    rewrite !len_app in E'. change (len [44]) with 1 in E'. rewrite N.add_assoc in E'.
    exists st. split; [exact E'|]. rewrite ES, EL, <- app_assoc. reflexivity.
Qed.
End Run.
Lemma read_run p f ts : Forall (field_read (read_fuel p f)) ts -> read_fuel p (S f) (write (PTuple ts)) = Ok (PTuple (run [] ts)).
Proof.
  intros H. cbn [read_fuel]. rewrite write_tuple.
  change (40 :: join (lit ",") (map write ts) ++ [41]) with ((40 :: join (lit ",") (map write ts)) ++ [41]) at 1.
  rewrite last_char_app. change (41 =? ch_close) with true. cbv iota.
  unfold read_tuple. change (starts_with_char _ ch_open) with true. cbv iota.
  cbn [read_tuple_loop]. unfold read_char at 1. change (40 =? ch_open) with true. cbv iota.
  cbn [nested subtypes subtuples last_item top_level_paren_open]. change (1 <? 0 + 1)%Z with false. cbv iota. cbn [bind].
  change (0 + 1)%Z with 1%Z. change (0 + 1) with 1.
  destruct ts as [|t ts].
  - reflexivity.
  - destruct (@items_run (read_fuel p f) (40 :: join (lit ",") (map write (t :: ts)) ++ [41]) (t :: ts)) with
      (pre := [40]) (acc := @nil ParamType) (sts := @nil (list ParamType)) (top := 0) as (st & E & ES); auto; [discriminate|].
    change (len [40]) with 1 in E. rewrite E. cbn [bind]. now rewrite ES.
Qed.

(** ** The fields come back unchanged *)
Lemma tuple_arrays_core t us : tuple_arrays t = Some us -> core t = PTuple us /\ us <> [] /\ forallb tuple_free us = true /\ tuple_free t = false /\ shallow t = true.
Proof.
  induction t using ParamType_ind'; intros E; try discriminate; cbn [tuple_arrays core tuple_free shallow] in *; auto.
  destruct (forallb tuple_free ts) eqn:F; [|discriminate]. destruct ts as [|t ts]; [discriminate|]. injection E as <-. repeat split; auto; discriminate.
Qed.
Lemma ends_in_inv us : ends_in_tuple us = true -> exists ys z vs, us = ys ++ [z] /\ forallb tuple_free ys = true /\ tuple_arrays z = Some vs.
Proof.
  induction us as [|u us IH]; [discriminate|]. cbn [ends_in_tuple]. destruct us as [|u' us].
  - destruct (tuple_arrays u) as [vs|] eqn:E; [|discriminate]. intros _. exists [], u, vs. auto.
  - intros H. apply andb_true_iff in H as [F H]. destruct (IH H) as (ys & z & vs & -> & FY & E). exists (u :: ys), z, vs. cbn [forallb]. now rewrite F, FY.
Qed.
Lemma readable_forms ts : forall b, readable_fields b ts = true -> Forall field_form ts.
Proof.
  induction ts as [|t r IH]; intros b H; [constructor|]. cbn [readable_fields] in H. destruct (tuple_free t) eqn:F; [constructor; [now left|eauto]|].
  destruct (tuple_arrays t) as [us|] eqn:TA; [constructor; [right; left; eauto|eauto]|]. destruct t; try discriminate.
  apply andb_true_iff in H as [H1 H2]. apply andb_true_iff in H1 as [H1 _]. constructor; [right; right; eauto|eauto].
Qed.
Lemma last_split A (us : list A) : us <> [] -> exists ys z, us = ys ++ [z].
Proof. intros N. destruct (exists_last N) as (ys & z & ->). eauto. Qed.
Lemma run_same ts : forall L, Forall field_form ts -> (run L ts = ts <-> readable_fields (match L with [] => true | _ => false end) ts = true).
Proof.
  induction ts as [|t r IH]; intros L F; [split; reflexivity|]. inversion F as [|? ? Ft Fr]; subst. cbn [run readable_fields].
  destruct (tuple_free t) eqn:TF.
  - rewrite <- (IH L Fr). split; [intros E; now injection E|now intros ->].
  - destruct (tuple_arrays t) as [us|] eqn:TA.
    + destruct (tuple_arrays_core t TA) as (_ & NE & _). destruct (last_split NE) as (ys & z & ->). rewrite removelast_last.
      assert (Q : (match L with [] => true | _ => false end) && (len (ys ++ [z]) =? 1) = match L ++ ys with [] => true | _ => false end).
      { destruct L; [|reflexivity]. cbn [app andb]. rewrite len_app. change (len [z]) with 1. destruct ys as [|y ys]; [reflexivity|]. rewrite len_cons. lia. }
      rewrite Q, <- (IH (L ++ ys) Fr). split; [intros E; now injection E|now intros ->].
    + destruct Ft as [X|[[us X]|(us & -> & X)]]; [congruence|congruence|]. rewrite X. cbn [andb]. rewrite andb_true_iff, <- (IH [] Fr). destruct L as [|l L].
      * cbn [app]. split; [intros E; injection E; auto|intros [_ ->]; reflexivity].
      * split; [|intros [? _]; discriminate]. intros E. injection E as E _. exfalso. apply (f_equal (@length _)) in E. cbn [length] in E. rewrite app_length in E. lia.
Qed.
Section Fields.
Context (p : profile) (f : nat).
Lemma short_read t : wf_type t = true -> shallow t = true -> (length (write t) < f)%nat -> read_fuel p f (write t) = Ok t.
Proof. intros W S L. apply (@read_written_size p (length (write t))); auto. now apply shallow_two. Qed.
Lemma field_len t ts : In t ts -> (length (write t) + 2 <= length (write (PTuple ts)))%nat.
Proof.
  intros Ht. pose proof (@join_in (write t) (map write ts) (in_map _ _ _ Ht)) as J. rewrite write_tuple.
  cbn [length]. rewrite app_length. cbn [length]. unfold len in J. lia.
Qed.
Lemma core_length t : (length (write (core t)) <= length (write t))%nat.
Proof. pose proof (core_len t). unfold len in *. lia. Qed.
Lemma plain_fields us : forallb wf_type us = true -> forallb tuple_free us = true -> (length (write (PTuple us)) < f)%nat -> Forall (plain_field (read_fuel p f)) us.
Proof.
  rewrite !forallb_forall. intros W T L. apply Forall_forall. intros u I. split; [auto|]. apply short_read; [auto|apply tuple_free_shallow; auto|].
  pose proof (field_len _ _ I). lia.
Qed.
Lemma form_read t : field_form t -> wf_type t = true -> (length (write t) < f)%nat -> field_read (read_fuel p f) t.
Proof.
  intros H W L. destruct (tuple_free t) eqn:TF.
  - left. split; [exact TF|]. apply short_read; auto. now apply tuple_free_shallow.
  - destruct (tuple_arrays t) as [vs|] eqn:TA.
    + destruct (tuple_arrays_core t TA) as (C & NE & FV & _ & SH). right. left. destruct (last_split NE) as (ys & z & ->). exists ys, z.
      assert (PF : Forall (plain_field (read_fuel p f)) (ys ++ [z])).
      { apply plain_fields; [exact (wf_core t W C)|exact FV|]. pose proof (core_length t). rewrite C in H0. lia. }
      apply Forall_app in PF as [P1 P2]. inversion P2; subst. repeat (split; auto). now apply short_read.
    + destruct H as [X|[[us X]|(us & -> & X)]]; [congruence|congruence|]. right. right.
      destruct (ends_in_inv _ X) as (ys & z & vs & -> & FY & TZ). destruct (tuple_arrays_core z TZ) as (C & NE & FV & _ & SH).
      destruct (last_split NE) as (xs & y & ->). cbn [wf_type] in W. rewrite forallb_app in W. cbn [forallb] in W. apply andb_true_iff in W as [WY WZ]. rewrite andb_true_r in WZ.
      assert (LZ : (length (write z) < f)%nat). { pose proof (field_len z (ys ++ [z]) ltac:(apply in_app_iff; right; now left)). lia. }
      assert (PF : Forall (plain_field (read_fuel p f)) (xs ++ [y])).
      { apply plain_fields; [exact (wf_core z WZ C)|exact FV|]. pose proof (core_length z) as H0. rewrite C in H0. lia. }
      apply Forall_app in PF as [P1 P2]. inversion P2; subst. exists ys, z, xs, y. repeat (split; auto).
      * now apply short_read.
      * rewrite forallb_forall in WY, FY. apply Forall_forall. intros u I. split; [auto|]. apply short_read; [auto|apply tuple_free_shallow; auto|].
        pose proof (field_len u (ys ++ [z]) ltac:(apply in_app_iff; now left)). lia.
Qed.
End Fields.
Lemma write_no_p t : ~ In 112 (write t).
Proof.
  assert (H : forallb (fun c => negb (c =? 112)) (write t) = true).
  { assert (D : forall n, forallb (fun c => negb (c =? 112)) (show_dec n) = true).
    { intros n. eapply forallb_weaken; [|apply show_dec_digits]. unfold is_digit. lia. }
    unfold write. induction t using ParamType_ind'; try reflexivity; cbn [write_for_abi]; rewrite ?forallb_app, ?IHt, ?D; try reflexivity.
    rewrite join_forallb; [reflexivity|reflexivity|]. clear -H. induction H; cbn [map]; constructor; auto. }
  intros I. rewrite forallb_forall in H. apply H in I. discriminate.
Qed.
Lemma read_wrap p f x num w : suffix_wrap num w -> all_ascii x = true ->
  read_fuel p (S f) (x ++ 91 :: num ++ [93]) = (do t <- read_fuel p f x; Ok (w t)).
Proof.
  intros S A. cbn [read_fuel]. replace (x ++ 91 :: num ++ [93]) with ((x ++ 91 :: num) ++ [93]) at 1 by (now rewrite <- app_assoc).
  rewrite last_char_app. change (93 =? ch_close) with false. change (93 =? ch_rbracket) with true. cbv iota. rewrite (read_array_wrap p (read_fuel p f) x S).
  pose proof (@ascii_slice [] x (91 :: num ++ [93]) eq_refl A) as H. cbn [app] in H. change (len []) with 0 in H. rewrite N.add_0_l in H. slice_rw H. reflexivity.
Qed.
Lemma wrap_iff p f x num w t : suffix_wrap num w -> all_ascii x = true ->
  (read_fuel p (S f) (x ++ 91 :: num ++ [93]) = Ok (w t) <-> read_fuel p f x = Ok t).
Proof.
  intros S A. rewrite (@read_wrap p f x num w S A). split; [|now intros ->]. intros E. apply bind_ok in E as (t' & E & Et). injection Et as Et.
  now rewrite <- (@wrap_inj _ _ _ _ _ S S Et).
Qed.
Lemma read_exact_fuel p t : forall f, wf_type t = true -> len (write t) < 2 ^ 63 -> (length (write t) < f)%nat ->
  (read_fuel p f (write t) = Ok t <-> readable t = true).
Proof.
  induction t using ParamType_ind'; intros f W B L; (destruct f as [|f]; [lia|]);
    try (split; [intros _; reflexivity|intros _; eapply read_written_size; [apply le_n|exact W|reflexivity|exact L]]).
  - change (write (PArray t)) with (write t ++ 91 :: [] ++ [93]) in *. cbn [readable].
    rewrite (@wrap_iff p f (write t) [] PArray t); [|now left|apply write_ascii]. rewrite app_length in L. rewrite len_app in B. cbn [length app] in L. apply IHt; [exact W|lia|lia].
  - change (write (PFixedArray t n)) with (write t ++ 91 :: show_dec n ++ [93]) in *. cbn [readable wf_type] in *. apply andb_true_iff in W as [W1 W2].
    rewrite (@wrap_iff p f (write t) (show_dec n) (fun t => PFixedArray t n) t); [| |apply write_ascii].
    + rewrite app_length in L. rewrite len_app in B. cbn [length app] in L. apply IHt; [assumption|lia|lia].
    + right. exists n. split; [|reflexivity]. apply parse_usize_iff. apply parse_usize_show. lia.
  - cbn [readable]. change true with (match @nil ParamType with [] => true | _ => false end) at 1.
    assert (FR : Forall field_form ts -> Forall (field_read (read_fuel p f)) ts).
    { intros F. rewrite Forall_forall in *. intros t I. apply form_read; [auto| |].
      - cbn [wf_type] in W. rewrite forallb_forall in W. auto.
      - pose proof (field_len t ts I). lia. }
    split; intros E.
    + assert (F : Forall field_form ts).
      { pose proof E as E0. cbn [read_fuel] in E0. rewrite write_tuple in E0 at 1.
        change (40 :: join (lit ",") (map write ts) ++ [41]) with ((40 :: join (lit ",") (map write ts)) ++ [41]) in E0 at 1.
        rewrite last_char_app in E0. change (41 =? ch_close) with true in E0. cbv iota in E0.
        destruct (@read_tuple_forms (write (PTuple ts)) (read_fuel p f)) with (t := PTuple ts) as (ts' & ET & F).
        - apply write_ascii.
        - apply write_no_p.
        - intros m t Lm A N41 NP R. rewrite <- (str_len_ascii _ (write_ascii (PTuple ts))) in B.
          eapply spelled_tuple_free; [|exact NP]. apply (@plain_read p f m); [lia| |exact N41|exact R].
          rewrite (str_len_ascii _ A). rewrite (str_len_ascii _ (write_ascii (PTuple ts))) in B. unfold len in *. lia.
        - intros u v t Lm A N40 N41 R. apply (@tail_read p f u v t); auto; [lia|]. unfold len in *. lia.
        - exact E0.
        - injection ET as ->. exact F. }
      rewrite (@read_run p f ts (FR F)) in E. injection E as E. now apply (run_same [] F).
    + assert (F : Forall field_form ts) by (eapply readable_forms; exact E). rewrite (@read_run p f ts (FR F)). f_equal. f_equal. now apply (run_same [] F).
Qed.
Lemma read_exact p t : wf_type t = true -> len (write t) < 2 ^ 63 -> (read p (write t) = Ok t <-> readable t = true).
Proof. intros W B. unfold read. apply read_exact_fuel; auto. Qed.

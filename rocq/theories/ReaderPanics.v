(** * The names that make the reader panic *)
From Verif Require Import Base Types BaseFacts StrFacts TypeNames TypeNamesSpec TypeNamesFacts ReaderSpec ReaderFacts ReaderTotal ReaderGrammar ReaderExact ReaderNested.
From Coq Require Import String Lia ZifyBool ZifyNat ZifyN.
Set Implicit Arguments.
Local Open Scope N_scope.
Local Open Scope list_scope.
Notation length := List.length.

Lemma panicking_chars x : panicking x -> all_ascii x = true -> x <> [] /\ no_separator x.
Proof.
  assert (SUF : forall y, array_suffix y -> y <> [] /\ no_separator y).
  { intros y H. apply array_suffix_iff in H as (num & w & S & ->). split; [discriminate|]. destruct (suffix_chars S) as [P _]. rewrite forallb_forall in P.
    intros c [<-|I]; [repeat split; discriminate|]. apply in_app_iff in I as [I|[<-|[]]]; [|repeat split; discriminate]. apply P in I. unfold plain_char in I. lia. }
  induction 1 as [s L|s x S C|a b x S L P IH]; intros A.
  - destruct L as [-> |(k & n & K & ->)].
    + split; [discriminate|]. intros c [<-|[]]. repeat split; discriminate.
    + destruct (size_text_facts K) as (N & _ & F & _). split; [now destruct k|]. rewrite Forall_forall in F.
      intros c I. apply in_app_iff in I as [I|[<-|[]]]; [|repeat split; discriminate]. apply F in I. lia.
  - exfalso. rewrite all_ascii_app in A. apply andb_true_iff in A as [A _]. apply (C s []); [now rewrite app_nil_r|]. rewrite utf8_len. now apply str_len_ascii.
  - rewrite all_ascii_app in A. apply andb_true_iff in A as [A _]. rewrite utf8_len in L. pose proof (ascii_prefix a b A L) as ->. cbn [app]. destruct (IH A) as [NE NS], (SUF x S) as [_ NX].
    split; [now destruct a|]. intros c I. apply in_app_iff in I as [I|I]; auto.
Qed.
Lemma arrays_any y t0 t t1 : arrays_text y t0 t -> exists t', arrays_text y t1 t'.
Proof. induction 1 as [t|y t0 t H [t' IH]|y t0 t k n H [t' IH] Hk]; eexists; econstructor; eassumption. Qed.
Lemma no_paren_app a b : no_paren (a ++ b) <-> no_paren a /\ no_paren b.
Proof. unfold no_paren. split; [intros H; split; intros c I; apply H, in_app_iff; auto|]. intros [H1 H2] c I. apply in_app_iff in I as [I|I]; auto. Qed.
Lemma ascii_app_l a b : all_ascii (a ++ b) = true -> all_ascii a = true.
Proof. rewrite all_ascii_app. now intros H%andb_true_iff. Qed.
Lemma ascii_app_r a b : all_ascii (a ++ b) = true -> all_ascii b = true.
Proof. rewrite all_ascii_app. now intros H%andb_true_iff. Qed.
Lemma ascii_cons c s : all_ascii (c :: s) = true -> all_ascii s = true.
Proof. change (c :: s) with ([c] ++ s). apply ascii_app_r. Qed.

Section Items.
Context (rd : str -> res ParamType) (bad : err) (B : N).
Hypothesis HI : forall m t, len m <= B -> all_ascii m = true -> ~ In 41 m -> (rd m = Ok t <-> spelled m t).
Hypothesis HP : forall m, len m <= B -> all_ascii m = true -> ~ In 41 m -> (rd m = Panic <-> panicking m).
Notation texts := (texts rd bad).
Ltac lens := repeat rewrite ?len_app, ?len_cons in *; change (len (@nil char)) with 0 in *; lia.

Lemma item_cases x : len x <= B -> all_ascii x = true -> no_separator x ->
  (exists t, rd x = Ok t /\ spelled x t) \/ (rd x = Panic /\ panicking x) \/ exists e, rd x = Err e.
Proof.
  intros L A N. assert (N41 : ~ In 41 x) by (intros I; now destruct (N 41 I)).
  destruct (rd x) as [t|e|] eqn:R; [left; exists t; split; [reflexivity|now apply HI]|right; right; eauto|right; left; split; [reflexivity|now apply HP]].
Qed.
Lemma closed_split M : forall g, (length g <= M)%nat -> no_paren g -> all_ascii g = true -> (g = [] \/ exists g', g = g' ++ [44]) -> len g <= B ->
  (exists us, closed_fields g us) \/
  (exists g1 us x r, g = g1 ++ x ++ 44 :: r /\ closed_fields g1 us /\ no_separator x /\ x <> [] /\ (rd x = Panic /\ panicking x \/ exists e, rd x = Err e)).
Proof.
  induction M as [|M IH]; intros g LM N A G L.
  { destruct g; [|cbn [length] in LM; lia]. left. exists []. constructor. }
  destruct G as [-> |[g' Eg]]; [left; exists []; constructor|].
  destruct (first_char (fun c => c =? 44) g) as [P|(x & c & g2 & -> & P & F)].
  { exfalso. rewrite forallb_forall in P. specialize (P 44). rewrite Eg in P. discriminate P. apply in_app_iff. right. now left. }
  apply N.eqb_eq in F. subst c.
  assert (X : no_separator x).
  { intros c I. destruct (N c) as [A1 A2]; [apply in_app_iff; now left|]. rewrite forallb_forall in P. specialize (P c I). cbv beta in P. repeat split; auto. intros ->. discriminate P. }
  assert (N2 : no_paren g2) by (intros c I; apply N, in_app_iff; right; now right).
  assert (G2 : g2 = [] \/ exists g', g2 = g' ++ [44]).
  { destruct g2 as [|y g2 _] using rev_ind; [now left|]. right. exists g2. change (x ++ 44 :: g2 ++ [y]) with (x ++ (44 :: g2) ++ [y]) in Eg. rewrite app_assoc in Eg.
    apply app_inj_tail in Eg as [_ ->]. reflexivity. }
  assert (Ax := ascii_app_l _ _ A). apply ascii_app_r, ascii_cons in A. rewrite app_length in LM. cbn [length] in LM.
  assert (L2 : len g2 <= B) by lens. assert (Lx : len x <= B) by lens.
  destruct x as [|c x].
  - destruct (IH g2) as [[us C]|(g1 & us & x & r & -> & C & K)]; auto; [lia| |].
    + left. exists us. now constructor.
    + right. exists (44 :: g1), us, x, r. split; [reflexivity|]. split; [now constructor|exact K].
  - destruct (@item_cases (c :: x) Lx Ax X) as [(t & R & S)|K].
    + cbn [length] in LM. destruct (IH g2) as [[us C]|(g1 & us & y & r & -> & C & K)]; auto; [lia| |].
      * left. exists (t :: us). now constructor.
      * right. exists ((c :: x) ++ 44 :: g1), (t :: us), y, r. split; [now rewrite <- app_assoc|]. split; [now constructor|exact K].
    + right. exists [], [], (c :: x), g2. split; [reflexivity|]. split; [constructor|]. split; [exact X|]. split; [discriminate|]. exact K.
Qed.
Lemma texts_closed1 g us s u acc sts : closed_fields g us -> len (g ++ s) <= B -> texts (g ++ s) 0 1 [] u acc sts = texts s 0 1 [] (u ++ g) (acc ++ us) sts.
Proof.
  intros C. revert u acc. induction C as [|g ts C IH|x t g ts SX C IH]; intros u acc L.
  - now rewrite !app_nil_r.
  - cbn [app] in *. rewrite texts_nothing, IH by lens. now rewrite <- app_assoc.
  - rewrite <- app_assoc in L |- *. destruct (spelled_no_sep SX) as [N X]. rewrite texts_plain by exact N. cbn [app]. pose proof (@rd_spelled rd B HI _ _ ((44 :: g) ++ s) SX L) as R.
    destruct x as [|c x]; [congruence|]. rewrite texts_comma, R. cbn [bind]. cbn [app] in L. rewrite IH by lens. rewrite <- !app_assoc. reflexivity.
Qed.
Lemma texts_bad n g us x r u acc sts : closed_fields g us -> no_separator x -> x <> [] -> len (g ++ x ++ 44 :: r) <= B -> (n <= length sts)%nat ->
  (rd x = Panic -> texts (g ++ x ++ 44 :: r) 0 (S n) [] u acc sts = Panic) /\ (forall e, rd x = Err e -> texts (g ++ x ++ 44 :: r) 0 (S n) [] u acc sts = Err e).
Proof.
  intros C X NX L NS. destruct n as [|n].
  - rewrite (texts_closed1 (us := us)) by assumption. rewrite texts_plain by exact X. cbn [app]. destruct x as [|c x]; [congruence|]. rewrite texts_comma. split; [intros -> |intros e ->]; reflexivity.
  - rewrite (@texts_closed rd bad B HI g us) by (assumption || lia). rewrite texts_plain by exact X. cbn [app]. destruct x as [|c x]; [congruence|]. rewrite texts_waits. split; [intros -> |intros e ->]; reflexivity.
Qed.
Lemma flat_panics f u acc sts : no_paren f -> all_ascii f = true -> len f + 1 <= B -> (texts (f ++ [41]) 0 1 [] u acc sts = Panic <-> panicking_fields f).
Proof.
  intros N A L. split.
  - destruct (last_comma N) as (g & x & -> & G & X). apply no_paren_app in N as [N _]. pose proof (ascii_app_l _ _ A) as Ag. apply ascii_app_r in A. rewrite <- app_assoc.
    destruct (@closed_split (length g) g (le_n _) N Ag G) as [[us C]|(g1 & us & y & r & -> & C & Y & NY & K)]; [lens| |].
    + rewrite (texts_closed1 (us := us)) by (assumption || (change (len (g ++ x ++ [41])) with (len (g ++ x ++ 41 :: [])); lens)). rewrite texts_plain by exact X. cbn [app].
      destruct x as [|c x]; [rewrite texts_close; discriminate|]. rewrite texts_last.
      destruct (@item_cases (c :: x)) as [(t & -> & _)|[[R P]|[e ->]]]; [lens|exact A|exact X|discriminate| |discriminate].
      intros _. exists g, us, (c :: x), []. rewrite app_nil_r. auto 6.
    + replace ((g1 ++ y ++ 44 :: r) ++ x ++ [41]) with (g1 ++ y ++ 44 :: r ++ x ++ [41]) by (rewrite <- !app_assoc; reflexivity).
      destruct (@texts_bad 0 g1 us y (r ++ x ++ [41]) u acc sts) as [_ TE]; auto; [|lia|].
      { rewrite !len_app in L. rewrite !len_app, len_cons, !len_app. rewrite len_cons in L. change (len [41]) with 1. lia. }
      destruct K as [[R P]|[e R]]; [|rewrite (TE e R); discriminate]. intros _. exists g1, us, y, (44 :: r ++ x). rewrite <- !app_assoc. cbn [app]. rewrite <- ?app_assoc. eauto 8.
  - intros (g & us & x & r & C & X & P & R & ->). pose proof (ascii_app_l _ _ (ascii_app_r _ _ A)) as Ax. destruct (panicking_chars P Ax) as [NX _].
    assert (RX : rd x = Panic) by (apply HP; [lens|exact Ax|intros I; now destruct (X 41 I)|exact P]).
    destruct R as [-> |[r' ->]].
    + rewrite app_nil_r in *. rewrite <- app_assoc. rewrite (texts_closed1 (us := us)); [|exact C|change (x ++ [41]) with (x ++ 41 :: []); lens]. rewrite texts_plain by exact X. cbn [app].
      destruct x as [|c x]; [congruence|]. rewrite texts_last, RX. reflexivity.
    + replace ((g ++ x ++ 44 :: r') ++ [41]) with (g ++ x ++ 44 :: r' ++ [41]) by (rewrite <- !app_assoc; reflexivity).
      apply (@texts_bad 0 g us x); auto; [|lia]. rewrite !len_app, len_cons, len_app. rewrite !len_app, len_cons in L. change (len [41]) with 1. lia.
Qed.
Lemma outside_err s : forall w u acc sts, ~ In 40 s -> In 41 s -> texts s 0 0 w u acc sts = Err bad.
Proof.
  induction s as [|c s IH]; intros w u acc sts N I; [destruct I|]. cbn [ReaderNested.texts].
  destruct (N.eqb_spec c 40) as [->|C1]; [exfalso; apply N; now left|]. destruct (N.eqb_spec c 41) as [->|C2]; [reflexivity|].
  assert (N' : ~ In 40 s) by (intros X; apply N; now right). assert (I' : In 41 s) by (destruct I; [congruence|assumption]).
  destruct (c =? 44); [destruct w|]; now apply IH.
Qed.
Lemma closed_twice f us u2 u acc sts : fields_text f us -> ~ In 40 u2 -> len f + len u2 + 2 <= B -> texts (f ++ 41 :: u2 ++ [41]) 0 1 [] u acc sts = Err bad.
Proof.
  intros F N L. assert (O : forall w u acc, texts (u2 ++ [41]) 0 0 w u acc sts = Err bad).
  { intros. apply outside_err; [|apply in_app_iff; right; now left]. intros I. apply in_app_iff in I as [I|[I|[]]]; [contradiction|discriminate]. }
  assert (LL : len (u2 ++ [41]) = len u2 + 1) by (rewrite len_app; reflexivity).
  apply fields_cases in F as [C|(g & ts & x & z & -> & C & S & ->)].
  - rewrite (texts_closed1 (us := us)); [|exact C|rewrite len_app, len_cons; lia]. rewrite texts_close. apply O.
  - rewrite <- app_assoc. rewrite len_app in L. rewrite (texts_closed1 (us := ts)); [|exact C|rewrite !len_app, len_cons; lia]. destruct (spelled_no_sep S) as [X NX]. rewrite texts_plain by exact X. cbn [app].
    assert (R : rd x = Ok z). { apply HI; [lia|now apply spelled_chars in S| |exact S]. intros I. now destruct (X 41 I). }
    destruct x as [|c x]; [congruence|]. rewrite texts_last, R. apply O.
Qed.
End Items.

(** ** Inner tuples *)
Lemma tuple_texts p f s : all_ascii (40 :: s ++ [41]) = true -> read_tuple (read_fuel p f) (40 :: s ++ [41]) =
  (do ts <- texts (read_fuel p f) (InvalidName (40 :: s ++ [41])) (s ++ [41]) 0 1 [] [] [] []; Ok (PTuple ts)).
Proof.
  intros A. set (name := 40 :: s ++ [41]) in *. unfold read_tuple. change (starts_with_char name ch_open) with true. cbv iota.
  assert (E : fields_of (read_tuple_loop (read_fuel p f) name name 0 0 (mkR [] [] 0 0 1)) = texts (read_fuel p f) (InvalidName name) (s ++ [41]) 0 1 [] [] [] []).
  { unfold name at 2. cbn [read_tuple_loop]. unfold read_char at 1. change (40 =? ch_open) with true. cbv iota. cbn [nested subtypes subtuples last_item].
    change (1 <? 0 + 1)%Z with false. cbv iota. cbn [bind]. change (0 + 1)%Z with (Z.of_nat 1). change (0 + 1) with (len [40]). change 1 with (len [40]) at 1.
    eapply (@loop_texts (read_fuel p f) name A (length (s ++ [41])) (s ++ [41]) [40] 1 [40] []); [apply le_n|reflexivity|reflexivity|]. intros _. exists []. auto. }
  rewrite <- E. unfold fields_of. now destruct (read_tuple_loop _ _ _ _ _ _).
Qed.

Lemma arrays_inv v t0 t : arrays_text v t0 t <-> (v = [] /\ t = t0) \/ exists v1 num w t', v = v1 ++ 91 :: num ++ [93] /\ suffix_wrap num w /\ arrays_text v1 t0 t' /\ t = w t'.
Proof.
  split.
  - intros [t1|y t1 t2 H|y t1 t2 k n H K]; [now left|right..].
    + exists y, [], PArray, t2. repeat split; auto. now left.
    + exists y, k, (fun t => PFixedArray t n), t2. repeat split; auto. right. eauto.
  - intros [[-> ->]|(v1 & num & w & t' & -> & [[-> ->]|(n & K & ->)] & H & ->)]; [constructor|now apply at_array|now apply at_fixed_array].
Qed.
Definition only_arrays (v : str) : Prop := exists t0 t, arrays_text v t0 t.
Lemma only_arrays_suffix v num : ~ In 91 num -> (only_arrays (v ++ 91 :: num ++ [93]) <-> (exists w, suffix_wrap num w) /\ only_arrays v).
Proof.
  intros N. split.
  - intros (t0 & t & H). apply arrays_inv in H as [[E _]|(v1 & num' & w & t' & E & SX & H & _)]; [now destruct v|].
    apply last_bracket_unique in E as [-> ->]; eauto using suffix_wrap_no_bracket. split; [eauto|]. now exists t0, t'.
  - intros ([w SX] & t0 & t & H). exists t0, (w t). apply arrays_inv. right. exists v, num, w, t. auto.
Qed.
(** A tuple and what follows it, given when the tuple panics. *)
Lemma window_panics p u (Q : Prop) : (forall f, (length (40 :: u ++ [41])%N <= f)%nat -> (read_tuple (read_fuel p f) (40 :: u ++ [41]) = Panic <-> Q)) ->
  forall f v, (length (40 :: u ++ 41 :: v)%N < f)%nat -> len (40 :: u ++ 41 :: v) < 2 ^ 63 -> all_ascii (40 :: u ++ 41 :: v) = true -> ~ In 41 v ->
  (read_fuel p f (40 :: u ++ 41 :: v) = Panic <-> only_arrays v /\ Q).
Proof.
  intros HQ. induction f as [|f IH]; intros v L B A N41; [lia|].
  destruct (list_eq_dec N.eq_dec v []) as [->|NV].
  - assert (EL : last_char (40 :: u ++ [41]) = Some 41) by (change (40 :: u ++ [41]) with ((40 :: u) ++ [41]); apply last_char_app).
    cbn [read_fuel]. rewrite EL. change (41 =? ch_close) with true. cbv iota. rewrite HQ by (clear - L; lia). split; [|tauto]. intros H. split; [|exact H]. exists PBool, PBool. constructor.
  - destruct (exists_last NV) as (v0 & c & ->).
    assert (ES : 40 :: u ++ 41 :: v0 ++ [c] = (40 :: u ++ 41 :: v0) ++ [c]) by (cbn [app]; now rewrite <- app_assoc).
    assert (C : c <> 41) by (intros ->; apply N41, in_app_iff; right; now left).
    destruct (N.eqb_spec c 93) as [->|C'].
    2:{ cbn [read_fuel]. rewrite ES, last_char_app. change ch_close with 41. change ch_rbracket with 93. apply N.eqb_neq in C, C'. rewrite C, C'. split.
        - intros E. now apply read_base_not_panic in E.
        - intros ((t0 & t & H) & _). exfalso. apply arrays_inv in H as [[E _]|(v1 & num & w & t' & E & _)]; [now destruct v0|].
          change (v1 ++ 91 :: num ++ [93]) with (v1 ++ (91 :: num) ++ [93]) in E. rewrite app_assoc in E. apply app_inj_tail in E as [_ ->]. discriminate. }
    destruct (split_bracket (40 :: u ++ 41 :: v0)) as [(x & num & EX & NB)|NB].
    + destruct (suffix_wrap_dec num) as [[w SX]|SX].
      * assert (VX : exists v1, v0 = v1 ++ 91 :: num /\ x = 40 :: u ++ 41 :: v1).
        { change (40 :: u ++ 41 :: v0) with ((40 :: u) ++ 41 :: v0) in EX. apply app_eq_app in EX as (l & [[E1 E2]|[E1 E2]]).
          - exfalso. destruct l as [|y l]; [discriminate E2|]. cbn [app] in E2. injection E2 as <- E2.
            destruct (suffix_chars SX) as [P _]. rewrite E2, forallb_app in P. apply andb_true_iff in P as [_ P]. discriminate.
          - destruct l as [|y l]; [discriminate E2|]. cbn [app] in E2. injection E2 as <- E2. exists l. split; [exact E2|]. rewrite E1. reflexivity. }
        destruct VX as (v1 & -> & ->).
        assert (EV : 40 :: u ++ 41 :: (v1 ++ 91 :: num) ++ [93] = (40 :: u ++ 41 :: v1) ++ 91 :: num ++ [93]).
        { cbn [app]. rewrite <- ?app_assoc; cbn [app]; rewrite <- ?app_assoc; reflexivity. }
        rewrite EV in *. assert (A' := ascii_app_l _ _ A). rewrite (@read_wrap p f _ num w SX A').
        replace ((v1 ++ 91 :: num) ++ [93]) with (v1 ++ 91 :: num ++ [93]) by (now rewrite <- app_assoc). rewrite only_arrays_suffix by exact NB.
        assert (IHv : read_fuel p f (40 :: u ++ 41 :: v1) = Panic <-> only_arrays v1 /\ Q).
        { apply IH; [clear - L; rewrite app_length in L; cbn [length] in L |- *; lia|clear - B; rewrite len_app in B; lia|exact A'|].
          intros I. apply N41. apply in_app_iff. left. apply in_app_iff. now left. }
        split.
        -- intros E. apply bind_panic in E as [E|(t' & _ & E)]; [|discriminate]. apply IHv in E as [E1 E2]. eauto.
        -- intros [[_ O] H]. destruct IHv as [_ IHv]. rewrite IHv by auto. reflexivity.
      * cbn [read_fuel]. rewrite ES, last_char_app. change (93 =? ch_close) with false. change (93 =? ch_rbracket) with true. cbv iota.
        rewrite EX, <- app_assoc. cbn [app]. destruct (read_array_bad p (read_fuel p f) x NB SX) as [e ->]. split; [discriminate|]. intros ((t0 & t & H) & _). exfalso.
        apply arrays_inv in H as [[E _]|(v1 & num' & w & t' & E & SX' & _)]; [now destruct v0|].
        assert (E' : (x ++ 91 :: num) ++ [93] = ((40 :: u ++ 41 :: v1) ++ 91 :: num') ++ [93]).
        { rewrite <- EX, <- ES, E. cbn [app]. rewrite <- ?app_assoc; cbn [app]; rewrite <- ?app_assoc; reflexivity. }
        rewrite <- !app_assoc in E'. cbn [app] in E'. change (40 :: (u ++ 41 :: v1) ++ 91 :: num' ++ [93]) with ((40 :: u ++ 41 :: v1) ++ 91 :: num' ++ [93]) in E'.
        apply last_bracket_unique in E' as [_ ->]; eauto using suffix_wrap_no_bracket. now apply SX in SX'.
    + cbn [read_fuel]. rewrite ES, last_char_app. change (93 =? ch_close) with false. change (93 =? ch_rbracket) with true. cbv iota.
      rewrite <- (str_len_ascii _ A), ES in B. rewrite (@read_array_lone p (read_fuel p f) _ NB B). split.
      * intros E. exfalso. apply bind_panic in E as [E|(n & E & _)]; [now apply parse_usize_not_panic in E|]. apply parse_usize_iff, size_text_facts in E as (_ & _ & F & _).
        inversion F as [|? ? F1 F2]. clear - F1. lia.
      * intros ((t0 & t & H) & _). exfalso. apply arrays_inv in H as [[E _]|(v1 & num' & w & t' & E & SX' & _)]; [now destruct v0|].
        change (v1 ++ 91 :: num' ++ [93]) with (v1 ++ (91 :: num') ++ [93]) in E. rewrite app_assoc in E. apply app_inj_tail in E as [-> _]. apply NB.
        right. apply in_app_iff. right. right. apply in_app_iff. right. now left.
Qed.

Section Panics.
Context (rd : str -> res ParamType) (bad : err) (B : N).
Hypothesis HI : forall m t, len m <= B -> all_ascii m = true -> ~ In 41 m -> (rd m = Ok t <-> spelled m t).
Hypothesis HP : forall m, len m <= B -> all_ascii m = true -> ~ In 41 m -> (rd m = Panic <-> panicking m).
Hypothesis HW : forall u v t, len (40 :: u ++ 41 :: v) <= B -> all_ascii (40 :: u ++ 41 :: v) = true -> ~ In 40 u -> ~ In 41 v ->
  (rd (40 :: u ++ 41 :: v) = Ok t <-> exists us, fields_text u us /\ arrays_text v (PTuple us) t).
Hypothesis HWP : forall u v, len (40 :: u ++ 41 :: v) <= B -> all_ascii (40 :: u ++ 41 :: v) = true -> no_paren u -> ~ In 41 v ->
  (rd (40 :: u ++ 41 :: v) = Panic <-> only_arrays v /\ panicking_fields u).
Hypothesis HWN : forall g us u v, len (40 :: (g ++ 41 :: u) ++ 41 :: v) <= B -> all_ascii (40 :: (g ++ 41 :: u) ++ 41 :: v) = true -> fields_text g us -> ~ In 40 u -> ~ In 41 v ->
  rd (40 :: (g ++ 41 :: u) ++ 41 :: v) <> Panic.
Notation texts := (texts rd bad).
Ltac lens := repeat rewrite ?len_app, ?len_cons in *; change (len (@nil char)) with 0 in *; lia.

Scheme panicking_body_mut := Minimality for panicking_body Sort Prop with panicking_opened_mut := Minimality for panicking_opened Sort Prop.
Combined Scheme panicking_mut from panicking_body_mut, panicking_opened_mut.
Lemma rd_panics x s : panicking x -> no_separator x -> len (x ++ s) <= B -> all_ascii (x ++ s) = true -> rd x = Panic /\ x <> [].
Proof.
  intros P X L A. assert (Ax := ascii_app_l _ _ A). destruct (panicking_chars P Ax) as [NX _]. split; [|exact NX]. apply HP; [lens|exact Ax| |exact P]. intros I. now destruct (X 41 I).
Qed.
Definition body_panics (n : nat) (s : str) : Prop := forall u acc sts, (n <= S (length sts))%nat -> len s <= B -> all_ascii s = true -> texts s 0 n [] u acc sts = Panic.
Definition opened_panics (n : nat) (s : str) : Prop :=
  forall acc sts, (1 <= n <= S (length sts))%nat -> len s + 1 <= B -> all_ascii s = true -> texts s 0 (S n) [] [] acc (sts ++ [[]]) = Panic.
Ltac asc := match goal with H : all_ascii (_ ++ _) = true |- _ => apply ascii_app_r in H; asc | H : all_ascii (_ :: _) = true |- _ => apply ascii_cons in H; asc | _ => assumption end.
Lemma grammar_panics : (forall n s, panicking_body n s -> body_panics n s) /\ (forall n s, panicking_opened n s -> opened_panics n s).
Proof.
  apply panicking_mut; unfold body_panics, opened_panics.
  - intros n x s X P u acc sts N L A. destruct (@rd_panics x (44 :: s) P X L A) as [R NX].
    apply (@texts_bad rd bad B HI HP n [] [] x s u acc sts); auto; [constructor|lia].
  - intros x s X P u acc sts N L A. destruct (@rd_panics x (41 :: s) P X L A) as [R NX]. rewrite texts_plain by exact X. cbn [app]. destruct x as [|c x]; [congruence|]. rewrite texts_last, R. reflexivity.
  - intros n s _ IH u acc sts N L A. rewrite texts_nothing. apply IH; [exact N|lens|asc].
  - intros n x t s SX _ IH u acc sts N L A. destruct (spelled_no_sep SX) as [X NX]. rewrite texts_plain by exact X. pose proof (@rd_spelled rd B HI _ _ (44 :: s) SX L) as R. cbn [app].
    destruct x as [|c x]; [congruence|]. destruct n as [|n].
    + rewrite texts_comma, R. cbn [bind]. apply IH; [exact N|lens|asc].
    + rewrite texts_waits, R. cbn [bind]. rewrite push_add by lia. cbn [bind]. apply IH; [rewrite add_length; lia|lens|asc].
  - intros n s _ IH u acc sts N L A. rewrite texts_close. apply IH; [lia|lens|asc].
  - intros x t s SX _ IH u acc sts N L A. destruct (spelled_no_sep SX) as [X NX]. rewrite texts_plain by exact X. pose proof (@rd_spelled rd B HI _ _ (41 :: s) SX L) as R. cbn [app].
    destruct x as [|c x]; [congruence|]. rewrite texts_last, R. cbn [bind]. apply IH; [lia|lens|asc].
  - intros n x s X _ IH u acc sts N L A. rewrite texts_plain by exact X. rewrite texts_open. apply IH; [lia|lens|asc].
  - intros j x s J X _ IH u acc sts N L A. destruct (@texts_outside_any rd bad j (40 :: x ++ 40 :: s) [] u acc sts J) as (w' & u' & ->). rewrite texts_reopen.
    rewrite texts_plain by exact X. rewrite texts_open. apply IH; [lia|lens|asc].
  - intros n g us x s C X P acc sts N L A. destruct (@rd_panics x (44 :: s) P X) as [R NX]; [lens|now apply ascii_app_r in A|].
    apply (@texts_bad rd bad B HI HP n g us x s [] acc); auto; [lens|rewrite app_length; cbn [length]; lia].
  - intros n g us x y t0 t s C X P AR SP acc sts N L A. destruct n as [|n]; [lia|]. destruct (@rd_panics x (41 :: y ++ s) P X) as [R NX]; [lens|now apply ascii_app_r in A|].
    rewrite (texts_closed rd bad HI (us := us)); [|exact C|lens|rewrite app_length; cbn [length]; lia]. rewrite texts_plain by exact X. cbn [app].
    destruct (@tail_split y s (arrays_tail AR) SP) as [E1 E2]. destruct (plain_not_in _ (proj1 (arrays_chars AR))) as (_ & Y & _).
    assert (NP : no_paren (g ++ x)). { apply no_paren_app. split; [now apply closed_chars in C|]. intros c I. destruct (X c I) as (X1 & X2 & _). auto. }
    assert (RW : rd (40 :: (g ++ x) ++ 41 :: y) = Panic).
    { apply HWP; [lens| |exact NP|exact Y|].
      - replace (g ++ x ++ 41 :: y ++ s) with (((g ++ x) ++ 41 :: y) ++ s) in A by (rewrite <- !app_assoc; reflexivity). apply ascii_app_l in A.
        change (40 :: (g ++ x) ++ 41 :: y) with ([40] ++ (g ++ x) ++ 41 :: y). now rewrite all_ascii_app, A.
      - split; [now exists t0, t|]. exists g, us, x, []. rewrite app_nil_r. auto 6. }
    destruct x as [|c x]; [congruence|]. destruct n as [|n]; [rewrite texts_field, E1, RW|rewrite texts_inner, E1, RW]; reflexivity.
  - intros n g us s C _ IH acc sts N L A. destruct n as [|n]; [lia|]. rewrite (texts_closed rd bad HI (us := us)); [|exact C|lens|rewrite app_length; cbn [length]; lia]. rewrite texts_close.
    apply IH; [rewrite add_length, app_length; cbn [length]; lia|lens|asc].
  - intros n g us x s C X _ IH acc sts N L A. destruct n as [|n]; [lia|]. rewrite (texts_closed rd bad HI (us := us)); [|exact C|lens|rewrite app_length; cbn [length]; lia]. rewrite texts_plain by exact X. rewrite texts_open.
    apply IH; [rewrite add_length, app_length; cbn [length]; lia|lens|asc].
  - intros n g us x z y t0 t s C SX AR SP _ IH acc sts N L A. destruct n as [|n]; [lia|]. rewrite (texts_closed rd bad HI (us := us)); [|exact C|lens|rewrite app_length; cbn [length]; lia].
    destruct (spelled_no_sep SX) as [X NX]. rewrite texts_plain by exact X. cbn [app]. destruct (@tail_split y s (arrays_tail AR) SP) as [E1 E2].
    destruct (@arrays_any y t0 t (PTuple (us ++ [z])) AR) as [t' AR'].
    assert (R : rd (40 :: (g ++ x) ++ 41 :: y) = Ok t') by (apply (rd_window rd HW C SX AR'); lens).
    assert (LS : (length (add_at (sts ++ [[]]) n us) = S (length sts))%nat) by (rewrite add_length, app_length; cbn [length]; lia).
    destruct x as [|c x]; [congruence|]. destruct n as [|n].
    + rewrite texts_field, E1, E2, R. cbn [bind]. apply IH; [lia|lens|asc].
    + destruct (@take_nth (add_at (sts ++ [[]]) (S n) us) n) as (l' & ET & EL & EN); [lia|]. rewrite texts_inner, E1, E2, R. cbn [bind]. rewrite ET. cbn [bind].
      apply IH; [lia|lens|asc].
Qed.

Definition closed_once (u s : str) : Prop := (exists g us u2, u = g ++ 41 :: u2 /\ fields_text g us /\ ~ In 40 u2) /\ len u + len s + 1 <= B /\ all_ascii u = true.
Definition body_panics_only (n : nat) (s : str) : Prop :=
  forall u acc sts, (n <= S (length sts))%nat -> len s <= B -> ((2 <= n)%nat -> closed_once u s) -> texts s 0 n [] u acc sts = Panic -> panicking_body n s.
Definition opened_panics_only (n : nat) (s : str) : Prop :=
  forall acc sts, (n <= S (length sts))%nat -> len s + 1 <= B -> texts s 0 (S n) [] [] acc (sts ++ [[]]) = Panic -> panicking_opened n s.
Lemma grammar_panics_only M : (forall n s, (length s <= M)%nat -> ends s -> all_ascii s = true -> body_panics_only n s) /\
  (forall n s, (length s <= M)%nat -> s <> [] -> ends s -> all_ascii s = true -> opened_panics_only (S n) s).
Proof.
  induction M as [|M [IHb IHo]].
  { split; intros n s L; [|intros N; destruct s; [congruence|cbn [length] in L; lia]]. destruct s; [|cbn [length] in L; lia]. intros _ _ u acc sts N1 L1 U E. discriminate E. }
  split.
  - intros n s LM EN AS u acc sts NL L U E.
    destruct s as [|c0 s0] eqn:ES0; [discriminate E|].
    rewrite <- ES0 in *. assert (NE : s <> []) by (rewrite ES0; discriminate). clear c0 s0 ES0.
    destruct n as [|n].
    + destruct (first_paren NE EN) as (j & c & s1 & -> & J & C). assert (AJ := ascii_app_l _ _ AS). assert (AS0 := ascii_app_r _ _ AS).
      destruct (@texts_outside rd bad j (c :: s1) [] u acc sts J AJ) as (w & u' & E' & W & WA & WL); [intros []|reflexivity|]. rewrite E' in E. clear E'.
      destruct C as [-> | ->]; [|discriminate]. rewrite texts_reopen in E. destruct (@ends_tail _ _ _ EN) as [N1 EN1]; [discriminate|].
      destruct (first_separator N1 EN1) as (x & c & s2 & -> & X & C). rewrite texts_plain in E by exact X. cbn [app] in E.
      assert (I40 : In 40 ((w ++ [40]) ++ x)) by (apply in_app_iff; left; apply in_app_iff; right; now left).
      assert (N41 : ~ In 41 ((w ++ [40]) ++ x)).
      { intros I. apply in_app_iff in I as [I|I]; [|now destruct (X 41 I)]. apply in_app_iff in I as [I|[I|[]]]; [|discriminate]. contradiction. }
      assert (AW : all_ascii ((w ++ [40]) ++ x) = true).
      { apply ascii_cons, ascii_app_l in AS0. rewrite !all_ascii_app, WA, AS0. reflexivity. }
      assert (LW : len ((w ++ [40]) ++ x) <= B) by (change (len []) with 0 in WL; lens).
      assert (BAD : exists e, rd ((w ++ [40]) ++ x) = Err e).
      { destruct (rd ((w ++ [40]) ++ x)) as [t|e|] eqn:R; [|eauto|]; exfalso.
        - apply HI in R; auto. apply spelled_no_paren in R as [R _]. contradiction.
        - apply HP in R; auto. apply panicking_chars in R as [_ R]; [|exact AW]. now destruct (R 40 I40). }
      destruct BAD as [e BAD]. destruct ((w ++ [40]) ++ x) as [|c1 w1] eqn:EW; [now destruct w|].
      destruct C as [-> |[-> | ->]].
      * rewrite texts_open in E. destruct (@ends_tail _ _ _ EN1) as [N2 EN2]; [discriminate|].
        apply pb_again; [exact J|exact X|]. refine (IHo O s2 _ N2 EN2 _ acc sts _ _ E).
        -- rewrite app_length in LM. cbn [length] in LM. rewrite app_length in LM. cbn [length] in LM. lia.
        -- now apply ascii_cons, ascii_app_r, ascii_cons in AS0.
        -- lia.
        -- lens.
      * rewrite texts_last, BAD in E. discriminate.
      * rewrite texts_comma, BAD in E. discriminate.
    + destruct (first_separator NE EN) as (x & c & s1 & -> & X & C). rewrite texts_plain in E by exact X. cbn [app] in E.
      assert (LM1 : (length s1 <= M)%nat) by (rewrite app_length in LM; cbn [length] in LM; lia).
      assert (AX := ascii_app_l _ _ AS). assert (AS1 := ascii_cons _ _ (ascii_app_r _ _ AS)).
      assert (LX : len x <= B) by lens. pose proof (@item_cases rd B HI HP x LX AX X) as IC.
      assert (X40 : ~ In 40 x) by (intros I; now destruct (X 40 I)).
      assert (UP : (2 <= S n)%nat -> forall d, d <> 40 -> is_ascii d = true -> closed_once (u ++ x ++ [d]) s1).
      { intros H2 d D AD. destruct (U H2) as ((g & us & u2 & -> & F & U2) & U3 & U4). split; [|split].
        - exists g, us, (u2 ++ x ++ [d]). split; [now rewrite <- app_assoc|]. split; [exact F|]. intros I. apply in_app_iff in I as [I|I]; [contradiction|].
          apply in_app_iff in I as [I|[I|[]]]; [contradiction|congruence].
        - change (x ++ c :: s1) with (x ++ [c] ++ s1) in U3. rewrite !len_app in *. change (len [d]) with 1. change (len [c]) with 1 in U3. lia.
        - rewrite !(all_ascii_app (g ++ 41 :: u2)), U4, all_ascii_app, AX. cbn. now rewrite AD. }
      destruct C as [-> |[-> | ->]].
      * rewrite texts_open in E. destruct (@ends_tail _ _ _ EN) as [N2 EN2]; [discriminate|].
        apply pb_open; [exact X|]. refine (IHo n s1 LM1 N2 EN2 AS1 acc sts NL _ E). lens.
      * assert (EN1 := ends_rest _ _ _ EN). destruct x as [|d x].
        { rewrite texts_close in E. apply pb_close. refine (IHb n s1 LM1 EN1 AS1 _ acc sts _ _ _ E); [lia|lens|].
          intros H2. rewrite app_nil_r. apply (UP ltac:(lia) 41); [discriminate|reflexivity]. }
        destruct n as [|n].
        { rewrite texts_last in E. destruct IC as [(t & R & SX)|[[R P]|[e R]]]; rewrite R in E; cbn [bind] in E; [| |discriminate E].
          - apply pb_last with t; [exact SX|]. refine (IHb 0%nat s1 LM1 EN1 AS1 _ _ sts _ _ _ E); [lia|lens|lia].
          - now apply pb_last_item. }
        exfalso. destruct U as ((g & us & u2 & -> & F & U2) & U3 & U4); [lia|].
        pose proof (take_drop_while is_tail s1) as TD. set (y := take_while is_tail s1) in *. set (s2 := drop_while is_tail s1) in *.
        assert (Y : ~ In 41 y). { intros I. pose proof (take_while_forallb is_tail s1) as P. fold y in P. rewrite forallb_forall in P. apply P in I. discriminate. }
        assert (EU : (g ++ 41 :: u2) ++ d :: x = g ++ 41 :: u2 ++ d :: x) by (now rewrite <- app_assoc).
        assert (LW : len (40 :: ((g ++ 41 :: u2) ++ d :: x) ++ 41 :: y) <= B) by (rewrite <- TD in U3; lens).
        assert (AW : all_ascii (40 :: ((g ++ 41 :: u2) ++ d :: x) ++ 41 :: y) = true).
        { rewrite <- TD in AS1. apply ascii_app_l in AS1. change (40 :: ((g ++ 41 :: u2) ++ d :: x) ++ 41 :: y) with ([40] ++ ((g ++ 41 :: u2) ++ d :: x) ++ [41] ++ y).
          rewrite (all_ascii_app [40]), (all_ascii_app ((g ++ 41 :: u2) ++ d :: x)), (all_ascii_app (g ++ 41 :: u2)), (all_ascii_app [41]), U4, AX, AS1. reflexivity. }
        assert (N40 : ~ In 40 (u2 ++ d :: x)) by (intros I; apply in_app_iff in I as [I|I]; contradiction).
        assert (BAD : exists e, rd (40 :: ((g ++ 41 :: u2) ++ d :: x) ++ 41 :: y) = Err e).
        { destruct (rd (40 :: ((g ++ 41 :: u2) ++ d :: x) ++ 41 :: y)) as [t|e|] eqn:R; [|eauto|]; exfalso.
          - apply HW in R as (us' & F' & _); auto.
            + apply fields_chars in F' as (_ & _ & F'). apply F'. rewrite EU. apply in_app_iff. right. now left.
            + rewrite EU. apply fields_chars in F as (_ & F & _). intros I. apply in_app_iff in I as [I|[I|I]]; [contradiction|discriminate|contradiction].
          - rewrite EU in *. revert R. now apply HWN with us. }
        destruct BAD as [e BAD]. destruct n as [|n]; [rewrite texts_field in E|rewrite texts_inner in E]; fold y in E; rewrite BAD in E; discriminate E.
      * assert (EN1 := ends_rest _ _ _ EN). destruct x as [|d x].
        { rewrite texts_nothing in E. apply pb_nothing. refine (IHb (S n) s1 LM1 EN1 AS1 _ acc sts NL _ _ E); [lens|].
          intros H2. rewrite app_nil_r. apply (UP H2 44); [discriminate|reflexivity]. }
        destruct IC as [(t & R & SX)|[[R P]|[e R]]].
        2:{ now apply pb_item. }
        2:{ destruct n as [|n]; [rewrite texts_comma, R in E|rewrite texts_waits, R in E]; discriminate E. }
        apply pb_field with t; [exact SX|]. destruct n as [|n].
        { rewrite texts_comma, R in E. cbn [bind] in E. refine (IHb 1%nat s1 LM1 EN1 AS1 _ _ sts NL _ _ E); [lens|lia]. }
        rewrite texts_waits, R in E. cbn [bind] in E. rewrite push_add in E by lia. cbn [bind] in E.
        refine (IHb (S (S n)) s1 LM1 EN1 AS1 _ acc _ _ _ _ E); [rewrite add_length; exact NL|lens|].
        intros H2. rewrite <- app_assoc. apply (UP H2 44); [discriminate|reflexivity].
  - intros n s LM NE EN AS acc sts NL L E. destruct (first_paren NE EN) as (f & c & s1 & -> & FP & C).
    destruct (last_comma FP) as (g & x & -> & G & X). rewrite <- app_assoc in *.
    assert (GP : no_paren g) by (intros d I; apply FP, in_app_iff; now left).
    assert (LS : (n < length (sts ++ [[]]))%nat) by (rewrite app_length; cbn [length]; lia).
    assert (AG := ascii_app_l _ _ AS). assert (AX := ascii_app_l _ _ (ascii_app_r _ _ AS)). assert (AS1 := ascii_cons _ _ (ascii_app_r _ _ (ascii_app_r _ _ AS))).
    assert (LM1 : (length s1 <= M)%nat) by (rewrite !app_length in LM; cbn [length] in LM; lia).
    assert (LA : forall us, length (add_at (sts ++ [[]]) n us) = S (length sts)) by (intros; rewrite add_length, app_length; cbn [length]; lia).
    assert (LG : len g <= B) by lens.
    destruct (@closed_split rd B HI HP (length g) g (le_n _) GP AG G LG) as [[us CF]|(g1 & us & y & r & -> & CF & Y & NY & K)].
    2:{ replace ((g1 ++ y ++ 44 :: r) ++ x ++ c :: s1) with (g1 ++ y ++ 44 :: r ++ x ++ c :: s1) in * by (rewrite <- !app_assoc; reflexivity).
        destruct K as [[R P]|[e R]]; [now apply po_item with us|].
        destruct (@texts_bad rd bad B HI HP (S n) g1 us y (r ++ x ++ c :: s1) [] acc (sts ++ [[]])) as [_ TE]; auto; [lia|]. rewrite (TE e R) in E. discriminate. }
    rewrite (texts_closed rd bad HI (us := us)) in E; [|exact CF|lens|exact LS]. rewrite texts_plain in E by exact X. cbn [app] in E.
    destruct C as [-> | ->].
    + rewrite texts_open in E. rewrite app_assoc in EN. destruct (@ends_tail _ _ _ EN) as [N2 EN2]; [discriminate|].
      apply po_deeper with us; [exact CF|exact X|]. refine (IHo (S n) s1 LM1 N2 EN2 AS1 _ _ _ _ E); [rewrite LA; lia|lens].
    + assert (EN1 : ends s1) by (rewrite app_assoc in EN; now apply ends_rest in EN).
      destruct x as [|d x].
      { rewrite texts_close in E. cbn [app]. apply po_lost with us; [exact CF|]. refine (IHb (S n) s1 LM1 EN1 AS1 _ _ _ _ _ _ E); [rewrite LA; lia|lens|].
        intros _. rewrite app_nil_r. split; [exists g, us, []; split; [reflexivity|split; [now apply closed_fields_text|auto]]|]. split; [cbn [app] in L; lens|].
        now rewrite all_ascii_app, AG. }
      pose proof (take_drop_while is_tail s1) as TD. pose proof (tail_separator s1) as SP. set (y := take_while is_tail s1) in *. set (s2 := drop_while is_tail s1) in *.
      assert (Y : ~ In 41 y). { intros I. pose proof (take_while_forallb is_tail s1) as P. fold y in P. rewrite forallb_forall in P. apply P in I. discriminate. }
      assert (AY : all_ascii y = true) by (rewrite <- TD in AS1; now apply ascii_app_l in AS1).
      assert (AU : all_ascii ((g ++ d :: x) ++ 41 :: y) = true).
      { change ((g ++ d :: x) ++ 41 :: y) with ((g ++ d :: x) ++ [41] ++ y). now rewrite !all_ascii_app, AG, AX, AY. }
      assert (AW : all_ascii (40 :: (g ++ d :: x) ++ 41 :: y) = true).
      { change (40 :: (g ++ d :: x) ++ 41 :: y) with ([40] ++ (g ++ d :: x) ++ 41 :: y). now rewrite all_ascii_app, AU. }
      assert (LW : len (40 :: (g ++ d :: x) ++ 41 :: y) <= B) by (rewrite <- TD in L; lens).
      assert (LX : len (d :: x) <= B) by lens.
      rewrite <- TD. destruct (rd (40 :: (g ++ d :: x) ++ 41 :: y)) as [t|e|] eqn:R.
      * assert (AW' := AW). assert (LW' := LW). rewrite <- app_assoc in AW', LW'.
        destruct (@window_only rd B HW g (d :: x) y t G GP X) as (us2 & z & C2 & S2 & A2); auto; [discriminate|].
        apply po_tuple with us2 z (PTuple (us2 ++ [z])) t; auto.
        assert (AN : ends s2). { destruct s2 as [|d2 s2'] eqn:E2; [now left|]. apply (@ends_app y); [discriminate|]. now rewrite TD. }
        assert (L2 : (length s2 <= M)%nat) by (rewrite <- TD, app_length in LM1; lia).
        assert (A3 : all_ascii s2 = true) by (rewrite <- TD in AS1; now apply ascii_app_r in AS1).
        assert (UU : closed_once ((g ++ d :: x) ++ 41 :: y) s2).
        { split; [|split; [rewrite <- TD in L; lens|exact AU]]. exists (g ++ d :: x), (us2 ++ [z]), y. split; [reflexivity|]. split; [now apply closed_last|].
          now destruct (plain_not_in _ (proj1 (arrays_chars A2))) as (V & _). }
        assert (LB : len s2 <= B) by (destruct UU as (_ & UU & _); lia).
        destruct n as [|n].
        -- rewrite texts_field in E. fold y in E. fold s2 in E. rewrite R in E. cbn [bind] in E. refine (IHb 1%nat s2 L2 AN A3 _ _ _ _ LB (fun _ => UU) E). lia.
        -- rewrite texts_inner in E. fold y in E. fold s2 in E. rewrite R in E. cbn [bind] in E.
           destruct (@take_nth (add_at (sts ++ [[]]) (S n) us) n) as (l' & ET & EL & ENt); [rewrite LA; lia|]. rewrite ET in E. cbn [bind] in E. rewrite LA in EL.
           refine (IHb (S (S n)) s2 L2 AN A3 _ _ _ _ LB (fun _ => UU) E). lia.
      * exfalso. destruct n as [|n]; [rewrite texts_field in E|rewrite texts_inner in E]; fold y in E; rewrite R in E; discriminate E.
      * clear E. apply HWP in R as [(t0 & t & AR) PF]; auto.
        destruct (@item_cases rd B HI HP (d :: x) LX AX X) as [(z & RX & SX)|[[RX P]|[e RX]]].
        -- exfalso. apply (flat_panics rd bad HI HP [] [] [] FP) in PF; [|now apply ascii_app_l in AU|lens]. rewrite <- app_assoc in PF.
           rewrite (texts_closed1 rd bad HI HP (us := us)) in PF; [|exact CF|change ((d :: x) ++ [41]) with ((d :: x) ++ 41 :: []); lens]. rewrite texts_plain in PF by exact X. cbn [app] in PF.
           rewrite texts_last, RX in PF. discriminate PF.
        -- now apply po_last_item with us t0 t.
        -- exfalso. apply (flat_panics rd bad HI HP [] [] [] FP) in PF; [|now apply ascii_app_l in AU|lens]. rewrite <- app_assoc in PF.
           rewrite (texts_closed1 rd bad HI HP (us := us)) in PF; [|exact CF|change ((d :: x) ++ [41]) with ((d :: x) ++ 41 :: []); lens]. rewrite texts_plain in PF by exact X. cbn [app] in PF.
           rewrite texts_last, RX in PF. discriminate PF.
Qed.
End Panics.

(** ** The reader *)
Section Reader.
Context (p : profile) (f : nat) (B : N).
Hypothesis LB : B < 2 ^ 63.
Hypothesis LF : forall m : str, len m <= B -> (length m < f)%nat.
Lemma fuel_items m t : len m <= B -> all_ascii m = true -> ~ In 41 m -> (read_fuel p f m = Ok t <-> spelled m t).
Proof using LB LF. intros L A N. apply plain_read; [now apply LF| |exact N]. rewrite (str_len_ascii _ A). now apply N.le_lt_trans with B. Qed.
Lemma fuel_items_panic m : len m <= B -> all_ascii m = true -> ~ In 41 m -> (read_fuel p f m = Panic <-> panicking m).
Proof using LB LF. intros L A N. apply plain_read; [now apply LF| |exact N]. rewrite (str_len_ascii _ A). now apply N.le_lt_trans with B. Qed.
Lemma fuel_windows u v t : len (40 :: u ++ 41 :: v) <= B -> all_ascii (40 :: u ++ 41 :: v) = true -> ~ In 40 u -> ~ In 41 v ->
  (read_fuel p f (40 :: u ++ 41 :: v) = Ok t <-> exists us, fields_text u us /\ arrays_text v (PTuple us) t).
Proof using LB LF. intros L A N1 N2. apply window_read; auto. now apply N.le_lt_trans with B. Qed.
End Reader.
Lemma len_bound (m name : str) f : len m <= len name - 1 -> (1 <= length name <= f)%nat -> (length m < f)%nat.
Proof. unfold len. lia. Qed.
Lemma name_len u : length (40 :: u ++ [41]) = S (S (length u)).
Proof. cbn [length]. rewrite app_length. cbn [length]. lia. Qed.
Lemma name_lens (u : str) : len (40 :: u ++ [41]) - 1 = len u + 1.
Proof. rewrite len_cons, len_app. change (len [41]) with 1. lia. Qed.
Lemma fresh_panics p u f : no_paren u -> all_ascii (40 :: u ++ [41]) = true -> len (40 :: u ++ [41]) < 2 ^ 63 -> (length (40 :: u ++ [41])%N <= f)%nat ->
  (read_tuple (read_fuel p f) (40 :: u ++ [41]) = Panic <-> panicking_fields u).
Proof.
  intros N A L F. rewrite tuple_texts by exact A. assert (L2 : len u + 1 < 2 ^ 63) by (rewrite <- name_lens; apply N.le_lt_trans with (len (40 :: u ++ [41])); [apply N.le_sub_l|exact L]).
  assert (LF : forall m : str, len m <= len u + 1 -> (length m < f)%nat) by (intros m; rewrite <- name_lens; intros H; apply (len_bound _ _ H); split; [rewrite name_len; apply le_n_S, Nat.le_0_l|exact F]).
  rewrite <- (flat_panics (read_fuel p f) (InvalidName (40 :: u ++ [41])) (fuel_items p L2 LF) (fuel_items_panic p L2 LF) [] [] [] N); [|now apply ascii_cons, ascii_app_l in A|apply N.le_refl].
  split; [|intros ->; reflexivity]. intros E. apply bind_panic in E as [E|(t & _ & E)]; [exact E|discriminate].
Qed.
Lemma twice_panics p g us u f : fields_text g us -> ~ In 40 u -> all_ascii (40 :: (g ++ 41 :: u) ++ [41]) = true -> len (40 :: (g ++ 41 :: u) ++ [41]) < 2 ^ 63 ->
  (length (40 :: (g ++ 41 :: u) ++ [41])%N <= f)%nat -> (read_tuple (read_fuel p f) (40 :: (g ++ 41 :: u) ++ [41]) = Panic <-> False).
Proof.
  intros FT N A L F. rewrite tuple_texts by exact A. set (v := g ++ 41 :: u) in *.
  assert (L2 : len v + 1 < 2 ^ 63) by (rewrite <- name_lens; apply N.le_lt_trans with (len (40 :: v ++ [41])); [apply N.le_sub_l|exact L]).
  assert (LF : forall m : str, len m <= len v + 1 -> (length m < f)%nat) by (intros m; rewrite <- name_lens; intros H; apply (len_bound _ _ H); split; [rewrite name_len; apply le_n_S, Nat.le_0_l|exact F]).
  unfold v at 2. replace ((g ++ 41 :: u) ++ [41]) with (g ++ 41 :: u ++ [41]) by (now rewrite <- app_assoc).
  rewrite (@closed_twice (read_fuel p f) (InvalidName (40 :: v ++ [41])) (len v + 1) (fuel_items p L2 LF) (fuel_items_panic p L2 LF) g us u [] [] [] FT N).
  - split; [discriminate|tauto].
  - unfold v. rewrite len_app, len_cons. clear. lia.
Qed.
Lemma nested_tuple_panics p f name r : all_ascii name = true -> len name < 2 ^ 63 -> (length name <= f)%nat -> name = r ++ [41] ->
  (read_tuple (read_fuel p f) name = Panic <-> exists s, name = lit "(" ++ s ++ lit ")" /\ panicking_body 1 (s ++ lit ")")).
Proof.
  intros A BB L EN. destruct (starts_with_char name ch_open) eqn:SW.
  2:{ unfold read_tuple. rewrite SW. split; [discriminate|]. intros (s & -> & _). discriminate SW. }
  assert (ES : exists s, name = 40 :: s ++ [41]).
  { destruct name as [|c s]; [discriminate|]. cbn in SW. apply N.eqb_eq in SW. change ch_open with 40 in SW. subst c. destruct r as [|x r]; [discriminate|]. injection EN as _ ->. eauto. }
  destruct ES as [s ES]. clear r EN SW. subst name.
  assert (L2 : len s + 1 < 2 ^ 63) by (rewrite <- name_lens; apply N.le_lt_trans with (len (40 :: s ++ [41])); [apply N.le_sub_l|exact BB]).
  assert (LF : forall m : str, len m <= len s + 1 -> (length m < f)%nat) by (intros m; rewrite <- name_lens; intros H; apply (len_bound _ _ H); split; [rewrite name_len; apply le_n_S, Nat.le_0_l|exact L]).
  pose proof (fuel_items p L2 LF) as HI. pose proof (fuel_items_panic p L2 LF) as HP. pose proof (fuel_windows p L2 LF) as HW.
  assert (LE : forall a b : str, len (40 :: a ++ [41]) <= len (40 :: a ++ 41 :: b)) by (intros a b; rewrite !len_cons, !len_app, !len_cons; change (len []) with 0; clear; lia).
  assert (AE : forall a b : str, all_ascii (40 :: a ++ 41 :: b) = true -> all_ascii (40 :: a ++ [41]) = true).
  { intros a b H. change (40 :: a ++ 41 :: b) with ([40] ++ a ++ [41] ++ b) in H. rewrite !app_assoc in H. apply ascii_app_l in H. now rewrite <- app_assoc in H. }
  assert (HWP : forall u v, len (40 :: u ++ 41 :: v) <= len s + 1 -> all_ascii (40 :: u ++ 41 :: v) = true -> no_paren u -> ~ In 41 v ->
    (read_fuel p f (40 :: u ++ 41 :: v) = Panic <-> only_arrays v /\ panicking_fields u)).
  { intros u v Lw Aw NP N41. apply window_panics; auto; [|now apply N.le_lt_trans with (len s + 1)].
    intros f' F'. apply fresh_panics; auto; [now apply AE in Aw|]. apply N.le_lt_trans with (len s + 1); [|exact L2]. now apply N.le_trans with (len (40 :: u ++ 41 :: v)). }
  assert (HWN : forall g us u v, len (40 :: (g ++ 41 :: u) ++ 41 :: v) <= len s + 1 -> all_ascii (40 :: (g ++ 41 :: u) ++ 41 :: v) = true -> fields_text g us -> ~ In 40 u -> ~ In 41 v ->
    read_fuel p f (40 :: (g ++ 41 :: u) ++ 41 :: v) <> Panic).
  { intros g us u v Lw Aw FT N40 N41 E. apply (@window_panics p (g ++ 41 :: u) False) in E as [_ E]; auto; [|now apply N.le_lt_trans with (len s + 1)].
    intros f' F'. apply twice_panics with us; auto; [now apply AE in Aw|]. apply N.le_lt_trans with (len s + 1); [|exact L2]. now apply N.le_trans with (len (40 :: (g ++ 41 :: u) ++ 41 :: v)). }
  assert (LS : len (s ++ [41]) <= len s + 1) by (rewrite len_app; apply N.le_refl). pose proof (ascii_cons _ _ A) as A1.
  rewrite tuple_texts by exact A. change (lit "(") with [40]. change (lit ")") with [41]. split.
  - intros E. exists s. split; [reflexivity|]. apply bind_panic in E as [E|(t & _ & E)]; [|discriminate].
    destruct (@grammar_panics_only (read_fuel p f) (InvalidName (40 :: s ++ [41])) (len s + 1) HI HP HW HWP HWN (length (s ++ [41]))) as [G _].
    refine (G 1%nat (s ++ [41]) (le_n _) _ A1 [] [] [] (le_n _) LS _ E); [right; eauto|]. intros H. apply le_S_n in H. inversion H.
  - intros (s' & E & PB). injection E as E. apply app_inj_tail in E as [<- _].
    destruct (@grammar_panics (read_fuel p f) (InvalidName (40 :: s ++ [41])) (len s + 1) HI HP HW HWP HWN) as [G _].
    rewrite (G 1%nat (s ++ [41]) PB [] [] [] (le_n _) LS A1). reflexivity.
Qed.
Lemma panicking_name_inv s : panicking_name s <-> (no_separator s /\ panicking s) \/ (exists b, s = lit "(" ++ b ++ lit ")" /\ panicking_body 1 (b ++ lit ")")) \/
  exists x num w, s = x ++ 91 :: num ++ [93] /\ suffix_wrap num w /\ panicking_name x.
Proof.
  split.
  - intros [s1 N P|b P|x y SX P]; [now left|right; left; eauto|]. right. right. apply array_suffix_iff in SX as (num & w & SX & ->). eauto 7.
  - intros [[N P]|[(b & -> & P)|(x & num & w & -> & SX & P)]]; [now constructor|now apply pnm_tuple|]. apply pnm_array; [|exact P]. apply array_suffix_iff. eauto.
Qed.
Lemma nested_panics p f : forall s, (length s < f)%nat -> len s < 2 ^ 63 -> all_ascii s = true -> (read_fuel p f s = Panic <-> panicking_name s).
Proof.
  induction f as [|f IH]; intros s L B A; [lia|]. pose proof B as B'. rewrite <- (str_len_ascii _ A) in B'.
  destruct (in_dec N.eq_dec 41 s) as [I41|N41].
  2:{ destruct (@plain_read p (S f) s L B' N41) as [_ H]. rewrite H. clear H IH. split.
      - intros P. destruct (panicking_chars P A) as [_ N]. now constructor.
      - clear L. intros P. induction P as [s N P|b P|x y SX P IHP]; [exact P| |].
        + exfalso. apply N41. apply in_app_iff. right. apply in_app_iff. right. now left.
        + assert (Ax := ascii_app_l _ _ A). change (x ++ y) with (x ++ [] ++ y). apply pn_prefix; [exact SX|rewrite app_nil_r, utf8_len; now apply str_len_ascii|].
          apply IHP; auto; [clear - B; rewrite len_app in B; lia|clear - B'; rewrite str_len_app in B'; lia|]. intros I. apply N41, in_app_iff. now left. }
  destruct (last_char s) as [c|] eqn:EL; [|apply last_char_none in EL; subst; destruct I41].
  pose proof EL as EL0. apply last_char_some in EL as [s0 ES].
  assert (NOP : ~ (no_separator s /\ panicking s)) by (intros [X _]; now destruct (X 41 I41)).
  rewrite panicking_name_inv. destruct (N.eqb_spec c 41) as [->|EC].
  - cbn [read_fuel]. rewrite EL0. change (41 =? ch_close) with true. cbv iota. rewrite (@nested_tuple_panics p f s s0); auto; [|apply le_S_n; exact L].
    split; [auto|]. intros [H|[H|(x & num & w & E & _)]]; [contradiction|exact H|].
    rewrite ES in E. change (x ++ 91 :: num ++ [93]) with (x ++ (91 :: num) ++ [93]) in E. rewrite app_assoc in E. apply app_inj_tail in E as [_ E]. discriminate.
  - assert (NOT : ~ exists b, s = lit "(" ++ b ++ lit ")" /\ panicking_body 1 (b ++ lit ")")).
    { intros (b & E & _). rewrite ES in E. change (lit "(" ++ b ++ lit ")") with ((40 :: b) ++ [41]) in E. apply app_inj_tail in E as [_ ->]. congruence. }
    destruct (N.eqb_spec c 93) as [->|EB].
    + destruct (split_bracket s0) as [(x & num & -> & NB)|NB].
      * rewrite <- app_assoc in ES. cbn [app] in ES. subst s. destruct (suffix_wrap_dec num) as [[w SX]|SX].
        -- assert (Ax := ascii_app_l _ _ A). rewrite (@read_wrap p f x num w SX Ax).
           assert (IHx : read_fuel p f x = Panic <-> panicking_name x).
           { apply IH; [clear - L; rewrite app_length in L; cbn [length] in L; lia|clear - B; rewrite len_app in B; lia|exact Ax]. }
           split.
           ++ intros E. apply bind_panic in E as [E|(t' & _ & E)]; [|discriminate]. apply IHx in E. right. right. exists x, num, w. auto.
           ++ intros [H|[H|(x' & num' & w' & E & SX' & P)]]; [contradiction..|]. apply last_bracket_unique in E as [<- <-]; eauto using suffix_wrap_no_bracket.
              apply IHx in P. rewrite P. reflexivity.
        -- cbn [read_fuel]. rewrite EL0. change (93 =? ch_close) with false. change (93 =? ch_rbracket) with true. cbv iota.
           destruct (read_array_bad p (read_fuel p f) x NB SX) as [e ->]. split; [discriminate|]. intros [H|[H|(x' & num' & w' & E & SX' & P)]]; [contradiction..|].
           apply last_bracket_unique in E as [_ ->]; eauto using suffix_wrap_no_bracket. now apply SX in SX'.
      * cbn [read_fuel]. rewrite EL0. change (93 =? ch_close) with false. change (93 =? ch_rbracket) with true. cbv iota. subst s.
        rewrite (@read_array_lone p (read_fuel p f) s0 NB B'). split.
        -- intros E. exfalso. destruct s0 as [|c s0]; [destruct I41 as [I|[]]; discriminate|]. apply bind_panic in E as [E|(n & E & _)]; [now apply parse_usize_not_panic in E|].
           apply parse_usize_iff, size_plain in E. rewrite forallb_forall in E. apply in_app_iff in I41 as [I|[I|[]]]; [apply E in I|]; discriminate.
        -- intros [H|[H|(x & num & w & E & _)]]; [contradiction..|]. exfalso. apply NB.
           change (x ++ 91 :: num ++ [93]) with (x ++ (91 :: num) ++ [93]) in E. rewrite app_assoc in E. apply app_inj_tail in E as [-> _]. apply in_app_iff. right. now left.
    + cbn [read_fuel]. rewrite EL0. change ch_close with 41. change ch_rbracket with 93. apply N.eqb_neq in EC, EB. rewrite EC, EB. split.
      * intros E. now apply read_base_not_panic in E.
      * intros [H|[H|(x & num & w & E & _)]]; [contradiction..|]. exfalso.
        rewrite ES in E. change (x ++ 91 :: num ++ [93]) with (x ++ (91 :: num) ++ [93]) in E. rewrite app_assoc in E. apply app_inj_tail in E as [_ ->]. discriminate.
Qed.

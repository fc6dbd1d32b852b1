(** * Which item of a literal a message is about *)
From Verif Require Import Base BaseFacts StrFacts Types Tokenizer TokenSpec TokenFacts TokenTotal ErrorSpec ErrorFacts Message MessageSpec MessageFacts MessageValues.
From Coq Require Import String.
From Coq Require Import Lia ZifyBool ZifyNat ZifyN.
Set Implicit Arguments.
Local Open Scope N_scope.
Local Open Scope list_scope.

Lemma elements_err T t items e :
  next_all (next_element (tokenize T t)) tt items = Err e <->
  exists before x after, items = before ++ x :: after /\ Forall (fun y => exists v, tokenize T t y = Ok v) before /\ tokenize T t x = Err e.
Proof.
  induction items as [|s items IH].
  { split; [discriminate|]. intros (b & x & a & X & _). now destruct b. }
  rewrite next_all_cons. unfold next_element at 1. destruct (tokenize T t s) as [v|e'|] eqn:E; cbn [bind].
  - split.
    + intros H. assert (H' : next_all (next_element (tokenize T t)) tt items = Err e).
      { destruct (next_all _ tt items); cbn [bind] in H; [discriminate|exact H|discriminate]. }
      apply IH in H' as (b & x & a & -> & F & Q). exists (s :: b), x, a. split; [reflexivity|]. split; [constructor; eauto|exact Q].
    + intros (b & x & a & X & F & Q). destruct b as [|y b]; cbn [app] in X; injection X as -> ->; [congruence|]. inversion F; subst.
      assert (H' : next_all (next_element (tokenize T t)) tt (b ++ x :: a) = Err e) by (apply IH; eauto 8). now rewrite H'.
  - split.
    + intros H. injection H as ->. exists [], s, items. auto.
    + intros (b & x & a & X & F & Q). destruct b as [|y b]; cbn [app] in X; injection X as -> ->; [congruence|]. inversion F as [|? ? [v V]]; subst. congruence.
  - split; [discriminate|].
    intros (b & x & a & X & F & Q). destruct b as [|y b]; cbn [app] in X; injection X as -> ->; [congruence|]. inversion F as [|? ? [v V]]; subst. congruence.
Qed.
Lemma fields_err T items : forall ts e,
  next_all next_field (map (tokenize T) ts) items = Err e <->
  (exists before x after us u ws, items = before ++ x :: after /\ ts = us ++ u :: ws /\
     Forall2 (fun t y => exists v, tokenize T t y = Ok v) us before /\ tokenize T u x = Err e) \/
  (exists before after, items = before ++ after /\ after <> [] /\ Forall2 (fun t y => exists v, tokenize T t y = Ok v) ts before /\ e = InvalidData).
Proof.
  induction items as [|s items IH]; intros ts e.
  { split; [discriminate|]. intros [(b & x & a & us & u & ws & X & _)|(b & a & X & N & _)]; [now destruct b|]. destruct b, a; cbn in X; congruence. }
  rewrite next_all_cons. destruct ts as [|t ts]; cbn [map next_field].
  { cbn [bind]. split.
    - intros H. injection H as <-. right. exists [], (s :: items). split; [reflexivity|]. split; [discriminate|]. split; [constructor|reflexivity].
    - intros [(b & x & a & us & u & ws & X & Y & _)|(b & a & X & N & F & ->)]; [now destruct us|reflexivity]. }
  destruct (tokenize T t s) as [v|e'|] eqn:E; cbn [bind].
  - split.
    + intros H. assert (H' : next_all next_field (map (tokenize T) ts) items = Err e).
      { destruct (next_all next_field _ items); cbn [bind] in H; [discriminate|exact H|discriminate]. }
      apply IH in H' as [(b & x & a & us & u & ws & -> & -> & F & Q)|(b & a & -> & N & F & ->)].
      * left. exists (s :: b), x, a, (t :: us), u, ws. split; [reflexivity|]. split; [reflexivity|]. split; [constructor; eauto|exact Q].
      * right. exists (s :: b), a. split; [reflexivity|]. split; [exact N|]. split; [constructor; eauto|reflexivity].
    + intros H. assert (H' : next_all next_field (map (tokenize T) ts) items = Err e).
      { apply IH. destruct H as [(b & x & a & us & u & ws & X & Y & F & Q)|(b & a & X & N & F & ->)].
        - destruct us as [|u' us]; cbn [app] in Y; injection Y as -> ->.
          { inversion F; subst. cbn [app] in X. injection X as -> ->. congruence. }
          inversion F as [|? y ? b' V F']; subst. cbn [app] in X. injection X as -> ->. left. exists b', x, a, us, u, ws. auto.
        - inversion F as [|? y ? b' V F']; subst. cbn [app] in X. injection X as -> ->. right. exists b', a. auto. }
      now rewrite H'.
  - split.
    + intros H. injection H as ->. left. exists [], s, items, [], t, ts. auto.
    + intros [(b & x & a & us & u & ws & X & Y & F & Q)|(b & a & X & N & F & ->)].
      * destruct us as [|u' us]; cbn [app] in Y; injection Y as -> ->.
        { inversion F; subst. cbn [app] in X. injection X as -> ->. congruence. }
        inversion F as [|? y ? b' [v V] F']; subst. cbn [app] in X. injection X as -> ->. congruence.
      * inversion F as [|? y ? b' [v V] F']; subst. cbn [app] in X. injection X as -> ->. congruence.
  - split; [discriminate|]. intros [(b & x & a & us & u & ws & X & Y & F & Q)|(b & a & X & N & F & ->)].
    + destruct us as [|u' us]; cbn [app] in Y; injection Y as -> ->.
      { inversion F; subst. cbn [app] in X. injection X as -> ->. congruence. }
      inversion F as [|? y ? b' [v V] F']; subst. cbn [app] in X. injection X as -> ->. congruence.
    + inversion F as [|? y ? b' [v V] F']; subst. cbn [app] in X. injection X as -> ->. congruence.
Qed.

(** ** Errors of literals *)
Lemma array_err T t items e : items_readable 91 93 items = true ->
  (tokenize T (PArray t) (lit "[" ++ join (lit ",") items ++ lit "]") = Err e <->
   exists before x after, items = before ++ x :: after /\ Forall (fun y => exists v, tokenize T t y = Ok v) before /\ tokenize T t x = Err e).
Proof.
  intros R. change (lit "[" ++ join (lit ",") items ++ lit "]") with (91 :: join (lit ",") items ++ [93]).
  cbn [tokenize]. rewrite items_read by (auto; discriminate). now rewrite rmap_err, elements_err.
Qed.
Lemma fixed_err T t n items e : items_readable 91 93 items = true ->
  (tokenize T (PFixedArray t n) (lit "[" ++ join (lit ",") items ++ lit "]") = Err e <->
   (exists before x after, items = before ++ x :: after /\ Forall (fun y => exists v, tokenize T t y = Ok v) before /\ tokenize T t x = Err e) \/
   (Forall (fun y => exists v, tokenize T t y = Ok v) items /\ len items <> n /\ e = InvalidData)).
Proof.
  intros R. change (lit "[" ++ join (lit ",") items ++ lit "]") with (91 :: join (lit ",") items ++ [93]).
  cbn [tokenize]. rewrite items_read by (auto; discriminate). rewrite rmap_err. rewrite <- elements_err.
  assert (A : (exists vs, next_all (next_element (tokenize T t)) tt items = Ok vs /\ len vs = len items) <-> Forall (fun y => exists v, tokenize T t y = Ok v) items).
  { split.
    - intros (vs & V & _). apply next_all_elements_iff in V. clear R. induction V; constructor; eauto.
    - intros F. assert (exists vs, Forall2 (fun s v => tokenize T t s = Ok v) items vs) as (vs & V).
      { clear R. induction F as [|y l [v V] F [vs IH]]; [exists []; constructor|exists (v :: vs); now constructor]. }
      exists vs. split; [now apply next_all_elements_iff|]. unfold len. now rewrite (Forall2_length V). }
  destruct (next_all (next_element (tokenize T t)) tt items) as [vs|e'|] eqn:E; cbn [bind].
  - assert (L : len vs = len items). { apply next_all_elements_iff in E. unfold len. now rewrite (Forall2_length E). }
    destruct (N.eqb_spec (len vs) n) as [Q|Q]; split.
    + discriminate.
    + intros [X|(_ & X & _)]; [discriminate|congruence].
    + intros X. injection X as <-. right. split; [apply A; eauto|]. split; [congruence|reflexivity].
    + intros [X|(_ & _ & ->)]; [discriminate|reflexivity].
  - split; [intros X; left; exact X|]. intros [X|(F & _)]; [exact X|]. apply A in F as (vs & V & _). discriminate.
  - split; [discriminate|]. intros [X|(F & _)]; [discriminate|]. apply A in F as (vs & V & _). discriminate.
Qed.
Lemma tuple_err T ts items e : items_readable 40 41 items = true ->
  (tokenize T (PTuple ts) (lit "(" ++ join (lit ",") items ++ lit ")") = Err e <->
  (exists before x after us u ws, items = before ++ x :: after /\ ts = us ++ u :: ws /\
     Forall2 (fun t y => exists v, tokenize T t y = Ok v) us before /\ tokenize T u x = Err e) \/
  (exists before after, items = before ++ after /\ after <> [] /\ Forall2 (fun t y => exists v, tokenize T t y = Ok v) ts before /\ e = InvalidData)).
Proof.
  intros R. change (lit "(" ++ join (lit ",") items ++ lit ")") with (40 :: join (lit ",") items ++ [41]).
  cbn [tokenize]. rewrite items_read by (auto; discriminate). rewrite rmap_err. apply fields_err.
Qed.

(** ** Messages of literals *)
Lemma ascii_wf s : all_ascii s = true -> wf_str s = true.
Proof.
  unfold all_ascii, wf_str. rewrite !forallb_forall. intros H c I. apply H in I. unfold is_ascii in I. unfold is_scalar. lia.
Qed.
Lemma readable_wf op cl items : items_readable op cl items = true -> Forall (fun s => wf_str s = true) items.
Proof.
  intros R. apply andb_true_iff in R as [R _]. rewrite forallb_forall in R. apply Forall_forall. intros x I. apply R, andb_true_iff in I as [_ I]. now apply ascii_wf.
Qed.
Lemma retold_ok A (r r' : res A) : retold r r' -> ((exists v, r = Ok v) <-> exists v, r' = Ok v).
Proof.
  destruct r as [a|e|]; cbn [retold]; [intros ->; tauto| |intros ->; tauto].
  destruct e; try (intros ->; tauto). intros (w & ->). split; intros [v V]; discriminate V.
Qed.
Lemma ok_told lenient t s : wf_str s = true -> ((exists v, tokenize (Plain lenient) t s = Ok v) <-> exists v, tokenize (Told lenient) t s = Ok v).
Proof. intros W. destruct (both_retold t s W) as [A B]. destruct lenient; apply retold_ok; assumption. Qed.
Lemma message_err lenient t s m : value_message lenient t s = Some m <-> exists e, tokenize (Told lenient) t s = Err e /\ display_error e = Some m.
Proof.
  rewrite message_unfold. destruct (tokenize (Told lenient) t s) as [v|e|]; split; try discriminate; try (intros (e' & X & _); discriminate X); eauto.
  intros (e' & X & D). now injection X as ->.
Qed.
Lemma ok_told_all lenient t items : Forall (fun s => wf_str s = true) items ->
  (Forall (fun y => exists v, tokenize (Plain lenient) t y = Ok v) items <-> Forall (fun y => exists v, tokenize (Told lenient) t y = Ok v) items).
Proof. intros W. rewrite !Forall_forall in *. split; intros H x I; apply (@ok_told lenient t x (W x I)), H, I. Qed.
Lemma ok_told_fields lenient ts items : Forall (fun s => wf_str s = true) items ->
  (Forall2 (fun t y => exists v, tokenize (Plain lenient) t y = Ok v) ts items <-> Forall2 (fun t y => exists v, tokenize (Told lenient) t y = Ok v) ts items).
Proof.
  intros W. split; intros F; induction F as [|t s ts items V F IH]; inversion W; subst; constructor; auto; now apply ok_told.
Qed.

Lemma array_message lenient t items m : items_readable 91 93 items = true ->
  (value_message lenient (PArray t) (lit "[" ++ join (lit ",") items ++ lit "]") = Some m <->
   exists before x after, items = before ++ x :: after /\ Forall (fun y => exists v, tokenize (Plain lenient) t y = Ok v) before /\ value_message lenient t x = Some m).
Proof.
  intros R. pose proof (readable_wf _ _ _ R) as W. rewrite message_err. split.
  - intros (e & E & D). apply array_err in E as (b & x & a & -> & F & Q); auto. exists b, x, a. split; [reflexivity|]. apply Forall_app in W as [W _].
    split; [now apply ok_told_all|]. apply message_err. eauto.
  - intros (b & x & a & X & F & Q). apply message_err in Q as (e & Q & D). exists e. split; [|exact D]. apply array_err; auto. exists b, x, a. split; [exact X|].
    subst items. apply Forall_app in W as [W _]. split; [now apply ok_told_all|exact Q].
Qed.
Lemma fixed_message lenient t n items m : items_readable 91 93 items = true ->
  (value_message lenient (PFixedArray t n) (lit "[" ++ join (lit ",") items ++ lit "]") = Some m <->
   (exists before x after, items = before ++ x :: after /\ Forall (fun y => exists v, tokenize (Plain lenient) t y = Ok v) before /\ value_message lenient t x = Some m) \/
   (Forall (fun y => exists v, tokenize (Plain lenient) t y = Ok v) items /\ len items <> n /\ m = lit "Invalid data")).
Proof.
  intros R. pose proof (readable_wf _ _ _ R) as W. rewrite message_err. split.
  - intros (e & E & D). apply fixed_err in E as [(b & x & a & -> & F & Q)|(F & N & ->)]; auto.
    + left. exists b, x, a. split; [reflexivity|]. apply Forall_app in W as [W _]. split; [now apply ok_told_all|]. apply message_err. eauto.
    + right. split; [now apply ok_told_all|]. split; [exact N|]. now injection D as <-.
  - intros [(b & x & a & X & F & Q)|(F & N & ->)].
    + apply message_err in Q as (e & Q & D). exists e. split; [|exact D]. apply fixed_err; auto. left. exists b, x, a. split; [exact X|].
      subst items. apply Forall_app in W as [W _]. split; [now apply ok_told_all|exact Q].
    + exists InvalidData. split; [|reflexivity]. apply fixed_err; auto. right. split; [now apply ok_told_all|auto].
Qed.
Lemma tuple_message lenient ts items m : items_readable 40 41 items = true ->
  (value_message lenient (PTuple ts) (lit "(" ++ join (lit ",") items ++ lit ")") = Some m <->
   (exists before x after us u ws, items = before ++ x :: after /\ ts = us ++ u :: ws /\
      Forall2 (fun t y => exists v, tokenize (Plain lenient) t y = Ok v) us before /\ value_message lenient u x = Some m) \/
   (exists before after, items = before ++ after /\ after <> [] /\ Forall2 (fun t y => exists v, tokenize (Plain lenient) t y = Ok v) ts before /\ m = lit "Invalid data")).
Proof.
  intros R. pose proof (readable_wf _ _ _ R) as W. rewrite message_err. split.
  - intros (e & E & D). apply tuple_err in E as [(b & x & a & us & u & ws & -> & Y & F & Q)|(b & a & -> & N & F & ->)]; auto; apply Forall_app in W as [W _].
    + left. exists b, x, a, us, u, ws. split; [reflexivity|]. split; [exact Y|]. split; [now apply ok_told_fields|]. apply message_err. eauto.
    + right. exists b, a. split; [reflexivity|]. split; [exact N|]. split; [now apply ok_told_fields|]. now injection D as <-.
  - intros [(b & x & a & us & u & ws & X & Y & F & Q)|(b & a & X & N & F & ->)].
    + apply message_err in Q as (e & Q & D). exists e. split; [|exact D]. apply tuple_err; auto. left. exists b, x, a, us, u, ws. split; [exact X|]. split; [exact Y|].
      subst items. apply Forall_app in W as [W _]. split; [now apply ok_told_fields|exact Q].
    + exists InvalidData. split; [|reflexivity]. apply tuple_err; auto. right. exists b, a. split; [exact X|]. split; [exact N|].
      subst items. apply Forall_app in W as [W _]. split; [now apply ok_told_fields|reflexivity].
Qed.

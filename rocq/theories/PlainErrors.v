(** * The errors of type names without ')', whatever their characters *)
From Verif Require Import Base Types BaseFacts StrFacts TypeNames TypeNamesSpec TypeNamesFacts ReaderSpec ReaderFacts ReaderTotal ReaderGrammar
  NameErrorSpec NameErrors ErrorSpec ErrorFacts Message MessageSpec MessageFacts MessageNames NameMessages PlainErrorSpec.
From Coq Require Import String Lia ZifyBool ZifyNat ZifyN.
Set Implicit Arguments.
Local Open Scope N_scope.
Local Open Scope list_scope.
Notation length := List.length.

Section Plain.
Context (pu : str -> res N) (bad_number : str -> err -> Prop) (p : profile).
Hypothesis PO : forall s n, pu s = Ok n <-> size_text s n.
Hypothesis PE : forall s e, s <> [] -> (pu s = Err e <-> not_size s /\ bad_number s e).
Hypothesis BO : forall s t, gen_base pu s = Ok t <-> read_base s = Ok t.
Hypothesis BP : forall s, gen_base pu s <> Panic.
Hypothesis FO : forall f s t, gen_fuel pu p f s = Ok t <-> read_fuel p f s = Ok t.
Notation rejected_plain := (rejected_plain bad_number).
Notation base_error := (base_error bad_number).
Lemma word_errors s e : gen_base pu s = Err e <-> base_error s e.
Proof using PE BO BP. split; [eapply base_err; exact PE|apply err_base; assumption]. Qed.
Lemma array_cut rd x num w : suffix_wrap num w ->
  gen_array pu p rd (x ++ 91 :: num ++ [93]) = (do sub <- str_slice (x ++ 91 :: num ++ [93]) 0 (len x); do t <- rd sub; Ok (w t)).
Proof using PO PE BO BP FO.
  intros S. rewrite (@array_split pu bad_number p PO PE BO BP FO) by (eauto using suffix_wrap_no_bracket). destruct S as [[-> ->]|(n & H & ->)]; [reflexivity|].
  pose proof (size_text_facts H) as (NE & _). destruct num as [|c num]; [congruence|]. apply PO in H. rewrite H. reflexivity.
Qed.
Lemma tail_two (x num : str) : x ++ 91 :: num ++ [93] = (x ++ 91 :: num) ++ [93].
Proof using. now rewrite <- app_assoc. Qed.
(** The ways a name is rejected, by its end *)
Lemma plain_cases s e : rejected_plain s e <->
  (ends_plain s /\ base_error s e) \/
  (exists x num, s = x ++ 91 :: num ++ [93] /\ ~ In 91 num /\
     ((num <> [] /\ not_size num /\ bad_number num e) \/ ((exists w, suffix_wrap num w) /\ exists a b, x = a ++ b /\ str_len a = len x /\ rejected_plain a e))) \/
  (exists x, s = x ++ [93] /\ ~ In 91 x /\ x <> [] /\ not_size x /\ bad_number x e).
Proof using.
  split.
  - intros [s0 P W|w k e0 I NK NS BN P|y k e0 Y NK N91 NS BN|a b x e0 SX La R].
    + left. split; [exact P|]. left. auto.
    + left. split; [exact P|]. right. exists w, k. auto 6.
    + right. destruct Y as [-> |[z ->]].
      * right. exists k. auto 6.
      * left. exists z, k. split; [now rewrite <- app_assoc|]. auto 6.
    + right. left. apply array_suffix_iff in SX as (num & w & SX & ->). exists (a ++ b), num. split; [now rewrite <- app_assoc|].
      split; [eauto using suffix_wrap_no_bracket|]. right. split; [eauto|]. exists a, b. rewrite utf8_len in La. auto.
  - intros [[P [[W ->]|(w & k & I & NK & NS & BN & ->)]]|[(x & num & -> & N91 & [(NK & NS & BN)|[[w SX] (a & b & -> & La & R)]])|(x & -> & N91 & NK & NS & BN)]].
    + now apply rp_word.
    + now apply rp_size.
    + replace (x ++ 91 :: num ++ [93]) with ((x ++ lit "[") ++ num ++ lit "]") by (now rewrite <- app_assoc). apply rp_count; eauto.
    + rewrite <- app_assoc. apply rp_array; [apply array_suffix_iff; eauto|now rewrite utf8_len|exact R].
    + change (x ++ [93]) with ([] ++ x ++ lit "]"). apply rp_count; auto.
Qed.
Lemma plain_err f : forall s, (length s < f)%nat -> str_len s < 2 ^ 63 -> ~ In 41 s -> forall e, gen_fuel pu p f s = Err e <-> rejected_plain s e.
Proof using PO PE BO BP FO.
  induction f as [|f IH]; intros s L B N e; [lia|]. cbn [gen_fuel]. rewrite plain_cases.
  assert (NT : forall x, s <> x ++ [41]) by (intros x ->; apply N, in_app_iff; right; now left).
  assert (BASE : (forall s0, s <> s0 ++ [93]) -> forall P : Prop, (P -> exists x, s = x ++ [93]) -> (gen_base pu s = Err e <-> (ends_plain s /\ base_error s e) \/ P)).
  { intros NB P HP. rewrite word_errors. split.
    - intros H. left. split; [intros r; split; [apply NT|apply NB]|exact H].
    - intros [[_ H]|H]; [exact H|]. apply HP in H as [x H]. now apply NB in H. }
  assert (ENDS : forall P Q, (exists x num, s = x ++ 91 :: num ++ [93] /\ P x num) \/ (exists x, s = x ++ [93] /\ Q x) -> exists x, s = x ++ [93]).
  { intros P Q [(x & num & E & _)|(x & E & _)]; [rewrite tail_two in E|]; eauto. }
  destruct (last_char s) as [c|] eqn:EL.
  2:{ apply BASE; [|apply ENDS]. intros s0 E. apply last_char_none in EL. subst. now destruct s0. }
  apply last_char_some in EL as [s0 ES].
  replace (c =? ch_close) with false.
  2:{ unfold ch_close. destruct (N.eqb_spec c 41) as [->|]; [|reflexivity]. now apply NT in ES. }
  destruct (c =? ch_rbracket) eqn:EC.
  2:{ apply BASE; [|apply ENDS]. intros s1 E. rewrite ES in E. apply app_inj_tail in E as [_ ->]. discriminate. }
  apply N.eqb_eq in EC. change ch_rbracket with 93 in EC. subst c s. clear BASE ENDS.
  assert (NP : ~ ends_plain (s0 ++ [93])) by (intros P; destruct (P s0) as [_ P1]; now apply P1).
  destruct (split_bracket s0) as [(x & num & -> & NB)|NB].
  - rewrite <- app_assoc in *. cbn [app] in *.
    assert (NL : forall y, x ++ 91 :: num ++ [93] = y ++ [93] -> In 91 y).
    { intros y E. rewrite tail_two in E. apply app_inj_tail in E as [<- _]. apply in_app_iff. right. now left. }
    destruct (suffix_wrap_dec num) as [[w S]|S].
    + assert (NS : ~ (num <> [] /\ not_size num)) by (intros [NK K]; destruct S as [[-> _]|(n & H & _)]; [congruence|now apply K in H]).
      rewrite (array_cut (gen_fuel pu p f) x S).
      destruct (array_prefix x (91 :: num ++ [93])) as [(a & b & -> & La & ->)|[C ->]]; cbn [bind].
      * assert (IHa : gen_fuel pu p f a = Err e <-> rejected_plain a e).
        { apply IH.
          - rewrite app_length in L. rewrite app_length in L. cbn [length] in L. lia.
          - rewrite !str_len_app in B. lia.
          - intros I. apply N. rewrite <- app_assoc. apply in_app_iff. now left. }
        split.
        -- intros E. right. left. exists (a ++ b), num. split; [reflexivity|]. split; [exact NB|]. right. split; [eauto|]. exists a, b. split; [reflexivity|]. split; [exact La|].
           apply IHa. destruct (gen_fuel pu p f a); cbn [bind] in E; congruence.
        -- intros [[P _]|[(x' & num' & E & N' & H)|(y & E & N' & _)]]; [contradiction| |now apply NL in E].
           apply last_bracket_unique in E as [<- <-]; auto. destruct H as [(NK & K & _)|[_ (a' & b' & E & La' & H)]]; [now destruct NS|].
           assert (a' = a).
           { pose proof (split_exact a b eq_refl) as X. pose proof (@split_exact a' b' (str_len a) ltac:(congruence)) as Y. rewrite E in X. congruence. }
           subst a'. apply IHa in H. rewrite H. reflexivity.
      * split; [discriminate|]. intros [[P _]|[(x' & num' & E & N' & H)|(y & E & N' & _)]]; [contradiction| |now apply NL in E].
        apply last_bracket_unique in E as [<- <-]; auto. destruct H as [(NK & K & _)|[_ (a' & b' & E & La' & H)]]; [now destruct NS|]. now apply (C a' b') in La'.
    + assert (NN : num <> [] /\ not_size num).
      { split; [intros ->; apply (S PArray); left; auto|intros n K; apply (S (fun t => PFixedArray t n)); right; eauto]. }
      destruct NN as [NN NS].
      assert (RB : gen_array pu p (gen_fuel pu p f) (x ++ 91 :: num ++ [93]) = Err e <-> not_size num /\ bad_number num e).
      { rewrite (@array_split pu bad_number p PO PE BO BP FO) by exact NB. rewrite <- (PE e NN). destruct num as [|d num]; [congruence|]. set (num' := d :: num) in *.
        destruct (pu num') as [n|e'|] eqn:P; [apply PO in P; now apply NS in P|cbn [bind]; split; congruence|cbn [bind]; split; congruence]. }
      rewrite RB. split.
      * intros E. right. left. exists x, num. tauto.
      * intros [[P _]|[(x' & num' & E & N' & H)|(y & E & N' & _)]]; [contradiction| |now apply NL in E].
        apply last_bracket_unique in E as [<- <-]; auto. destruct H as [(_ & H)|[[w H] _]]; [exact H|now apply S in H].
  - rewrite (@array_lone pu bad_number p PO PE BO BP FO (gen_fuel pu p f) s0 e NB B). split.
    + intros E. right. right. exists s0. auto.
    + intros [[P _]|[(x & num & E & _)|(y & E & N' & H)]]; [contradiction| |].
      * exfalso. rewrite tail_two in E. apply app_inj_tail in E as [-> _]. apply NB, in_app_iff. right. now left.
      * apply app_inj_tail in E as [<- _]. exact H.
Qed.
End Plain.
Theorem plain_errors p s e : str_len s < 2 ^ 63 -> ~ In 41 s -> (read p s = Err e <-> rejected_plain number_error s e).
Proof.
  intros L N. unfold read. change (read_fuel p) with (gen_fuel parse_usize p). apply plain_err; auto; try reflexivity; [apply parse_usize_iff| |apply read_base_not_panic].
  intros k e' _. unfold number_error. split; [apply err_size|]. intros [M ->]. now apply size_err.
Qed.

(** ** With the texts of the errors *)
Theorem told_plain p s e : str_len s < 2 ^ 63 -> ~ In 41 s -> (read_told p s = Err e <-> rejected_plain number_told s e).
Proof.
  intros L N. unfold read_told. change (told_fuel p) with (gen_fuel usize_told p). apply plain_err; auto; [apply told_size|apply told_not_size| | |].
  - intros s' t. apply recounted_ok, base_recounted.
  - intros s' E. pose proof (base_recounted s') as R. change (gen_base usize_told s') with (told_base s') in E. rewrite E in R.
    destruct (read_base s') as [t|e'|] eqn:X; cbn [recounted] in R; [discriminate|destruct e'; try discriminate; destruct R; discriminate|now apply read_base_not_panic in X].
  - intros f s' t. apply recounted_ok, (fuel_recounted p f s').
Qed.
Theorem plain_messages p s m : str_len s < 2 ^ 63 -> ~ In 41 s ->
  (name_message p s = Some m <->
   (exists x, rejected_plain number_told s (InvalidName x) /\ m = lit "Invalid name: " ++ x) \/ rejected_plain number_told s (OtherErr m)).
Proof.
  intros B A. rewrite <- (@told_plain p s (OtherErr m) B A). unfold name_message. split.
  - pose proof (read_recounted p s) as R. destruct (read_told p s) as [t|e|] eqn:E; [discriminate| |discriminate].
    destruct e; cbn [display_error]; try discriminate; intros D.
    + left. exists s0. split; [now apply told_plain with p|]. now injection D as <-.
    + exfalso. destruct (read p s) as [t|e|] eqn:X; cbn [recounted] in R; try discriminate.
      apply read_errors in X as [->|(x & _ & -> & _)]; [destruct R; discriminate|discriminate|exact B].
    + right. injection D as ->. reflexivity.
  - intros [(x & R & ->)|E]; [apply (told_plain p) in R; auto|]; [rewrite R|rewrite E]; reflexivity.
Qed.

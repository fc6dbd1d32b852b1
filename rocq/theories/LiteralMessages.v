(** * The messages for array and tuple literals that are rejected *)
From Verif Require Import Base BaseFacts StrFacts Types Tokenizer TokenSpec TokenFacts TokenTotal LiteralSpec LiteralErrorSpec LiteralExact LiteralErrors ErrorSpec ErrorFacts
  Message MessageSpec MessageFacts MessageValues MessageFirst.
From Coq Require Import String Lia ZifyBool ZifyNat ZifyN.
Set Implicit Arguments.
Notation length := List.length.
Local Open Scope N_scope.
Local Open Scope list_scope.

Lemma between_wf s r m : wf_str s = true -> bytes_between s r m -> wf_str m = true.
Proof. intros W (x & y & -> & _). unfold wf_str in *. rewrite !forallb_app in W. apply andb_true_iff in W as [_ W]. now apply andb_true_iff in W as [W _]. Qed.
Lemma elements_told lenient t s rs : wf_str s = true -> (Elements (Plain lenient) t s rs <-> Elements (Told lenient) t s rs).
Proof.
  intros W. unfold Elements. split; apply Forall_impl; intros r (m & v & B & V);
    (destruct (@ok_told lenient t _ (@between_wf _ _ _ W B)) as [X Y]; destruct (X (ex_intro _ v V)) as [w Z] || destruct (Y (ex_intro _ v V)) as [w Z]); eauto.
Qed.
Lemma fields_told lenient ts s rs : wf_str s = true -> (Fields (Plain lenient) ts s rs <-> Fields (Told lenient) ts s rs).
Proof.
  intros W. unfold Fields. split; intros (L & H); (split; [exact L|]); (eapply Forall_impl; [|exact H]); intros r (m & v & B & V);
    (destruct (@ok_told lenient (fst r) _ (@between_wf _ _ _ W B)) as [X Y]; destruct (X (ex_intro _ v V)) as [w Z] || destruct (Y (ex_intro _ v V)) as [w Z]); eauto.
Qed.
Lemma fails_ext op cl s (P P' : list (nat * nat) -> Prop) (Q Q' : nat -> str -> Prop) :
  (forall rs, P rs -> P' rs) -> (forall k m, Q k m -> Q' k m) -> item_fails op cl s P Q -> item_fails op cl s P' Q'.
Proof. intros HP HQ (B & E & rs1 & r & rs2 & m & X & Y & R & Z & W). split; [exact B|]. split; [exact E|]. exists rs1, r, rs2, m. auto 10. Qed.
Lemma spoilt_ext op cl s (P P' : list (nat * nat) -> Prop) : (forall rs, P rs -> P' rs) -> literal_spoilt op cl s P -> literal_spoilt op cl s P'.
Proof. intros HP [B|(E & X & rs1 & rs2 & Y & F & G & R)]; [now left|]. right. split; [exact E|]. split; [exact X|]. exists rs1, rs2. auto. Qed.
Lemma array_told lenient t s m : wf_str s = true ->
  (value_message lenient (PArray t) s = Some m <->
   item_fails 91 93 s (Elements (Plain lenient) t s) (fun _ x => value_message lenient t x = Some m) \/
   (m = lit "Invalid data" /\ literal_spoilt 91 93 s (Elements (Plain lenient) t s))).
Proof.
  intros W. rewrite message_err. split.
  - intros (e & E & D). apply array_rejected in E as [X|[-> X]].
    + left. revert X. apply fails_ext; [intros rs; now apply elements_told|]. intros _ x X. apply message_err. eauto.
    + right. injection D as <-. split; [reflexivity|]. revert X. apply spoilt_ext. intros rs. now apply elements_told.
  - intros [(B & E & rs1 & r & rs2 & x & X1 & X2 & X3 & X4 & X5)|[-> X]].
    + apply message_err in X5 as (e & X5 & D). exists e. split; [|exact D]. apply array_rejected. left. split; [exact B|]. split; [exact E|].
      exists rs1, r, rs2, x. apply elements_told in X3; auto.
    + exists InvalidData. split; [|reflexivity]. apply array_rejected. right. split; [reflexivity|]. revert X. apply spoilt_ext. intros rs. now apply elements_told.
Qed.
Lemma fixed_array_told lenient t n s m : wf_str s = true ->
  (value_message lenient (PFixedArray t n) s = Some m <->
   value_message lenient (PArray t) s = Some m \/ (m = lit "Invalid data" /\ exists vs, tokenize (Plain lenient) (PArray t) s = Ok (TArray vs) /\ len vs <> n)).
Proof.
  intros W. rewrite !message_err.
  assert (O : forall vs, tokenize (Told lenient) (PArray t) s = Ok (TArray vs) <-> tokenize (Plain lenient) (PArray t) s = Ok (TArray vs)).
  { intros vs. pose proof (@tokenize_retold lenient (PArray t) s W) as R. fold (Told lenient) (Plain lenient) in R.
    destruct (tokenize (Plain lenient) (PArray t) s) as [v|e|]; cbn [retold] in R; [now rewrite R| |now rewrite R].
    destruct e; try (now rewrite R). destruct R as [w ->]. split; discriminate. }
  split.
  - intros (e & E & D). apply fixed_array_rejected in E as [X|(-> & vs & X & Y)]; [eauto|]. right. injection D as <-. split; [reflexivity|]. exists vs. now rewrite <- O.
  - intros [(e & E & D)|(-> & vs & X & Y)].
    + exists e. split; [|exact D]. apply fixed_array_rejected. auto.
    + exists InvalidData. split; [|reflexivity]. apply fixed_array_rejected. right. split; [reflexivity|]. exists vs. now rewrite O.
Qed.
Lemma tuple_told lenient ts s m : wf_str s = true ->
  (value_message lenient (PTuple ts) s = Some m <->
   item_fails 40 41 s (Fields (Plain lenient) ts s) (fun k x => match nth_error ts k with Some t => value_message lenient t x = Some m | None => m = lit "Invalid data" end) \/
   (m = lit "Invalid data" /\ literal_spoilt 40 41 s (Fields (Plain lenient) ts s))).
Proof.
  intros W. rewrite message_err. split.
  - intros (e & E & D). apply tuple_rejected in E as [X|[-> X]].
    + left. revert X. apply fails_ext; [intros rs; now apply fields_told|]. intros k x X. destruct (nth_error ts k); [apply message_err; eauto|]. subst e. now injection D as <-.
    + right. injection D as <-. split; [reflexivity|]. revert X. apply spoilt_ext. intros rs. now apply fields_told.
  - intros [(B & E & rs1 & r & rs2 & x & X1 & X2 & X3 & X4 & X5)|[-> X]].
    + assert (Y : exists e, match nth_error ts (length rs1) with Some t => tokenize (Told lenient) t x = Err e | None => e = InvalidData end /\ display_error e = Some m).
      { destruct (nth_error ts (length rs1)); [now apply message_err in X5|]. exists InvalidData. subst m. auto. }
      destruct Y as (e & Y & D). exists e. split; [|exact D]. apply tuple_rejected. left. split; [exact B|]. split; [exact E|].
      exists rs1, r, rs2, x. apply fields_told in X3; auto.
    + exists InvalidData. split; [|reflexivity]. apply tuple_rejected. right. split; [reflexivity|]. revert X. apply spoilt_ext. intros rs. now apply fields_told.
Qed.

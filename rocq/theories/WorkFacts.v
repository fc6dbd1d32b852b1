(** * Proofs about the work of reading values *)
From Verif Require Import Base BaseFacts StrFacts Types TypeNames Tokenizer Work DepthSpec DepthFacts.
From Coq Require Import Lia ZifyBool.
Set Implicit Arguments.
Local Open Scope N_scope.
Local Open Scope list_scope.

(** ** The calls are the ones made *)
Lemma asked_bind A B (r : res A) (k : A -> res B) s : asked (do x <- r; k x) = Some s ->
  (asked r = Some s) \/ (exists a, r = Ok a /\ asked (k a) = Some s).
Proof. destruct r as [a|[]|]; cbn; intros H; eauto; discriminate. Qed.
Definition calls_once {A} (f : (str -> res ParamType) -> res A) : Prop :=
  match asked (f ask) with
  | None => forall rd, f rd = f ask
  | Some s => forall rd rd', rd s = rd' s -> f rd = f rd'
  end.

Section Items.
Context {St C : Type} (next : St -> str -> res (Token * St)) (cost : C -> str -> N) (left : C -> C) (op cl : char) (value : str).
Context (Good : C -> Prop) (K : N).
Hypothesis Hcost : forall c s, Good c -> cost c s <= K * (1 + str_len s).
Hypothesis Hleft : forall c, Good c -> Good (left c).
Lemma char_step s params pos ch : tk_last_item s <= str_len value + 1 ->
  match asked (token_char (fun _ : St => ask) op cl value s params pos ch) with
  | Some sub => str_len sub + tk_last_item s = pos /\ pos <= str_len value /\
    forall s' params', token_char next op cl value s params pos ch = Ok (s', params') -> tk_last_item s' = pos + 1
  | None => forall s' params', token_char next op cl value s params pos ch = Ok (s', params') -> tk_last_item s' = tk_last_item s
  end.
Proof.
  intros L. unfold token_char.
  assert (I : forall n, match asked (take_item (fun _ : St => ask) value s params n pos) with
    | Some sub => str_len sub + tk_last_item s = pos /\ pos <= str_len value /\
      forall s' params', take_item next value s params n pos = Ok (s', params') -> tk_last_item s' = pos + 1
    | None => forall s' params', take_item next value s params n pos = Ok (s', params') -> tk_last_item s' = tk_last_item s
    end).
  { intros n. unfold take_item. destruct (str_slice value (tk_last_item s) pos) as [sub|e|] eqn:E; cbn [bind asked ask].
    - apply str_slice_ok in E as (a & b & -> & E1 & E2). rewrite !str_len_app. split; [lia|split; [lia|]].
      intros s' params' H. destruct (next params sub) as [[tk ps]|?|]; cbn in H; [|discriminate..]. now injection H as <- <-.
    - destruct e; intros; try discriminate. exfalso. revert E. unfold str_slice. destruct (_ <? _); [discriminate|].
      destruct (str_split _ _) as [[? ?]|]; [|discriminate]. destruct (str_split _ _) as [[? ?]|]; discriminate.
    - discriminate. }
  destruct ((ch =? op) && _); [cbn; intros s' params' H; now injection H as <- <-|].
  destruct ((ch =? cl) && _).
  { cbv zeta. destruct (_ <? 0)%Z; [cbn; discriminate|]. destruct (_ =? 0)%Z; [apply I|]. cbn; intros s' params' H; now injection H as <- <-. }
  destruct (ch =? ch_quote); [cbn; intros s' params' H; now injection H as <- <-|].
  destruct (_ && _ && _); [apply I|]. cbn; intros s' params' H; now injection H as <- <-.
Qed.
Lemma items_bound rest : forall pos s params costs, Good costs -> tk_last_item s <= str_len value + 1 ->
  items_work next cost left op cl value rest pos s params costs <= K * (str_len value + 1 - tk_last_item s).
Proof.
  induction rest as [|ch rest IH]; intros pos s params costs G L; cbn [items_work]; [apply N.le_0_l|]. cbv zeta.
  pose proof (char_step s params pos ch L) as H. unfold cost_asked.
  destruct (asked _) as [sub|].
  - destruct H as (H1 & H2 & H3). pose proof (Hcost sub G) as Hc.
    assert (R : K * (1 + str_len sub) + K * (str_len value + 1 - (pos + 1)) = K * (str_len value + 1 - tk_last_item s)) by
      (rewrite <- N.mul_add_distr_l; apply (f_equal (N.mul K)); clear - H1 H2; lia).
    rewrite <- R. destruct (token_char next op cl value s params pos ch) as [[s' params']|?|] eqn:E; [|apply N.add_le_mono; [exact Hc|apply N.le_0_l]..].
    specialize (H3 _ _ eq_refl). assert (L' : tk_last_item s' <= str_len value + 1) by lia.
    pose proof (IH (pos + 1) s' params' (left costs) (Hleft G) L') as B. rewrite H3 in B. now apply N.add_le_mono.
  - destruct (token_char next op cl value s params pos ch) as [[s' params']|?|] eqn:E; [|apply N.le_0_l..].
    specialize (H _ _ eq_refl). rewrite <- H in L. pose proof (IH (pos + 1) s' params' costs G L) as B. now rewrite H in B.
Qed.
Lemma group_bound params costs : Good costs -> group_work next cost left op cl value params costs <= K * str_len value.
Proof.
  intros G. unfold group_work. destruct (_ || _); [lia|]. destruct (_ =? 2); [lia|].
  rewrite items_bound by (cbn; assumption || lia). cbn [tk_last_item]. replace (str_len value + 1 - 1) with (str_len value) by lia. lia.
Qed.
End Items.
Lemma value_bound T t : forall s, value_work T t s <= N.of_nat (levels t) * (1 + str_len s).
Proof.
  assert (step : forall k s w, w <= N.of_nat k * str_len s -> 1 + str_len s + w <= N.of_nat (S k) * (1 + str_len s)) by
    (intros k s w H; rewrite Nnat.Nat2N.inj_succ, N.mul_succ_l; lia).
  induction t using ParamType_ind'; intros s; cbn [value_work levels]; apply step; try apply N.le_0_l.
  - apply group_bound with (Good := fun _ => True); auto.
  - apply group_bound with (Good := fun _ => True); auto.
  - apply group_bound with (Good := Forall (fun f : str -> N => forall s, f s <= N.of_nat (fold_right (fun t n => Nat.max (levels t) n) 0%nat ts) * (1 + str_len s))).
    + intros [|f l] x G; [lia|]. now apply (Forall_inv G).
    + intros [|f l] G; [exact G|]. now apply Forall_inv_tail in G.
    + rewrite Forall_map. rewrite Forall_forall in *. intros t I x. rewrite (H t I x). apply N.mul_le_mono_r.
      assert (Q : (levels t <= fold_right (fun t n => Nat.max (levels t) n) 0 ts)%nat); [|lia].
      clear - I. induction ts as [|u ts IH]; [destruct I|]. cbn [fold_right]. destruct I as [->|I]; [lia|specialize (IH I); lia].
Qed.

(** * Array and tuple literals that are rejected *)
From Verif Require Import Base BaseFacts StrFacts Types Tokenizer TokenSpec TokenFacts TokenTotal LiteralSpec LiteralErrorSpec LiteralExact ErrorSpec ErrorFacts.
From Coq Require Import String Lia ZifyBool ZifyNat ZifyN.
Set Implicit Arguments.
Notation length := List.length.
Local Open Scope N_scope.
Local Open Scope list_scope.

Lemma splits_same A (P : A -> Prop) : forall a b a' b', a ++ b = a' ++ b' -> Forall P a -> Forall (fun x => ~ P x) b -> Forall P a' -> Forall (fun x => ~ P x) b' -> a = a'.
Proof.
  induction a as [|x a IH]; intros b a' b' E Pa Pb Pa' Pb'; destruct a' as [|x' a']; auto; cbn [app] in E.
  - subst b. inversion Pb; inversion Pa'; subst; contradiction.
  - subst b'. inversion Pb'; inversion Pa; subst; contradiction.
  - injection E as -> E. inversion Pa; inversion Pa'; subst. f_equal. eauto.
Qed.
Lemma split_inside A (P : A -> Prop) : forall a b l1 x l2, a ++ b = l1 ++ x :: l2 -> Forall (fun y => ~ P y) b -> P x -> exists l, a = l1 ++ x :: l.
Proof.
  induction a as [|y a IH]; intros b l1 x l2 E Pb Px; cbn [app] in E.
  - subst b. apply Forall_app in Pb as [_ Pb]. inversion Pb; contradiction.
  - destruct l1 as [|y' l1]; cbn [app] in E; injection E as -> E; [exists a; reflexivity|]. destruct (IH _ _ _ _ E Pb Px) as [l ->]. exists l. reflexivity.
Qed.

Section Loop.
Context {St : Type} (next : St -> str -> res (Token * St)) (op cl : char) (value : str).
Hypothesis plain_op : op <> 34 /\ op <> 44 /\ op <> cl /\ cl <> 34 /\ cl <> 44.
Lemma runs_err rs : forall params e, runs next value rs params = Err e <->
  exists rs1 r rs2 tokens params' m, rs = rs1 ++ r :: rs2 /\ runs next value rs1 params = Ok (tokens, params') /\ bytes_between value r m /\ next params' m = Err e.
Proof.
  induction rs as [|[a b] rs IH]; intros params e.
  - split; [discriminate|]. intros (rs1 & r & rs2 & tk & p & m & H & _). destruct rs1; discriminate.
  - cbn [runs]. split.
    + intros H. destruct (str_slice value (N.of_nat a) (N.of_nat b)) as [sub|e'|] eqn:E1; [|now apply ReaderTotal.str_slice_not_err in E1|discriminate].
      pose proof E1 as B. apply slice_between in B.
      cbn [bind] in H. destruct (next params sub) as [[token params']|e'|] eqn:E2; [| |discriminate].
      2:{ injection H as ->. exists [], (a, b), rs, [], params, sub. auto. }
      cbn [bind] in H. destruct (runs next value rs params') as [[tokens params'']|e'|] eqn:E3; [discriminate| |discriminate]. injection H as ->.
      apply IH in E3 as (rs1 & r & rs2 & tokens & p2 & m & -> & R & X). exists ((a, b) :: rs1), r, rs2, (token :: tokens), p2, m.
      split; [reflexivity|]. split; [|exact X]. cbn [runs]. rewrite E1. cbn [bind]. rewrite E2. cbn [bind]. now rewrite R.
    + intros (rs1 & r & rs2 & tokens & p2 & m & E & R & X & Y). destruct rs1 as [|[a1 b1] rs1].
      * cbn [app] in E. injection E as <- ->. cbn [runs] in R. injection R as <- <-. apply slice_between in X. rewrite X. cbn [bind]. now rewrite Y.
      * cbn [app] in E. injection E as -> -> ->. cbn [runs] in R. destruct (str_slice value (N.of_nat a1) (N.of_nat b1)) as [sub|e'|]; [|discriminate..].
        cbn [bind] in *. destruct (next params sub) as [[token params']|e'|]; [|discriminate..]. cbn [bind] in *.
        destruct (runs next value rs1 params') as [[t2 p3]|e'|] eqn:E3; [|discriminate..]. cbn [bind] in R. injection R as <- <-.
        rewrite (proj2 (IH params' e)); [reflexivity|]. exists rs1, r, rs2, t2, p3, m. auto.
Qed.
Lemma calm_iff n : calm_below op cl value n = true <-> forall i, (i < n)%nat -> stray op cl value i = false.
Proof. unfold calm_below. rewrite Nat.eqb_eq. apply count_zero. Qed.
Lemma restless n : calm_below op cl value n = false -> exists i, stray op cl value i = true.
Proof.
  induction n as [|n IH]; [discriminate|]. intros H. destruct (stray op cl value n) eqn:E; [eauto|]. apply IH.
  unfold calm_below in *. rewrite count_S, E, Nat.add_0_r in H. exact H.
Qed.
Lemma items_err params e : tokenize_items next op cl value params = Err e <->
  (~ bracketed op cl value /\ e = InvalidData) \/
  (bracketed op cl value /\ value <> [op; cl] /\ exists rs1 r rs2 tokens params' m, item_ranges op cl value = rs1 ++ r :: rs2 /\
     undisturbed op cl value r /\ runs next value rs1 params = Ok (tokens, params') /\ bytes_between value r m /\ next params' m = Err e) \/
  (bracketed op cl value /\ value <> [op; cl] /\ e = InvalidData /\ (quoted value (length value) = true \/ exists i, stray op cl value i = true) /\
   exists rs1 rs2 tokens params', item_ranges op cl value = rs1 ++ rs2 /\ Forall (undisturbed op cl value) rs1 /\ Forall (fun r => ~ undisturbed op cl value r) rs2 /\
     runs next value rs1 params = Ok (tokens, params')).
Proof.
  destruct (bracketed_dec next value plain_op) as [B|B].
  2:{ rewrite items_not by auto. split; [intros H; injection H as <-; auto|]. intros [[_ ->]|[(X & _)|(X & _)]]; [reflexivity|contradiction..]. }
  destruct (pair_dec op cl value) as [E|E].
  { rewrite items_empty by auto. split; [discriminate|]. intros [[X _]|[(_ & X & _)|(_ & X & _)]]; contradiction. }
  rewrite items_runs by assumption. destruct (ranges_split next value plain_op (length value) 0 1) as (l2 & H1 & H2 & H3). fold (item_ranges op cl value) in H1.
  set (L := ranges 1 (ends_from op cl value 0 (length value))) in *. clearbody L.
  assert (U : Forall (undisturbed op cl value) L). { eapply Forall_impl; [|exact H3]. intros r C. exact (proj1 (calm_iff (snd r)) C). }
  assert (D : Forall (fun r => ~ undisturbed op cl value r) l2).
  { eapply Forall_impl; [|exact H2]. intros r C X. apply (proj2 (calm_iff (snd r))) in X. congruence. }
  split.
  - intros H. destruct (runs next value L params) as [[tokens params']|e'|] eqn:R; cbn [bind] in H; [| |discriminate].
    + right. right. split; [exact B|]. split; [exact E|].
      assert (X : e = InvalidData /\ (quoted value (length value) = true \/ exists i, stray op cl value i = true)).
      { destruct (calm_below op cl value (length value)) eqn:C; [destruct (quoted value (length value)); [injection H as <-; auto|discriminate]|].
        injection H as <-. split; [reflexivity|]. right. now apply restless with (length value). }
      destruct X as [-> X]. split; [reflexivity|]. split; [exact X|]. exists L, l2, tokens, params'. auto.
    + injection H as ->. apply runs_err in R as (rs1 & r & rs2 & tokens & params' & m & -> & R & X & Y). right. left. split; [exact B|]. split; [exact E|].
      exists rs1, r, (rs2 ++ l2), tokens, params', m. split; [rewrite H1, <- app_assoc; reflexivity|]. apply Forall_app in U as [_ U]. inversion U; subst. auto.
  - intros [[X _]|[(_ & _ & rs1 & r & rs2 & tokens & params' & m & X & Y & R & Z & Q)|(_ & _ & -> & X & rs1 & rs2 & tokens & params' & Y & F & G & R)]]; [contradiction| |].
    + rewrite X in H1. destruct (@split_inside _ (undisturbed op cl value) _ _ _ _ _ (eq_sym H1) D Y) as [l ->].
      assert (R' : runs next value (rs1 ++ r :: l) params = Err e) by (apply runs_err; exists rs1, r, l, tokens, params', m; auto). now rewrite R'.
    + rewrite Y in H1. rewrite <- (@splits_same _ (undisturbed op cl value) _ _ _ _ H1 F G U D). rewrite R. cbn [bind].
      destruct (calm_below op cl value (length value)) eqn:C; [|reflexivity]. destruct X as [->|(i & I)]; [reflexivity|]. exfalso.
      rewrite (proj1 (calm_all op cl value) C i) in I. discriminate.
Qed.
End Loop.

Section Tokens.
Context (T : Tokenizer).
Lemma ok_forall2 A (P : A -> Token -> Prop) l : (exists vs, Forall2 P l vs) <-> Forall (fun x => exists v, P x v) l.
Proof.
  induction l as [|x l IH]; split.
  - constructor.
  - exists []. constructor.
  - intros [vs H]. inversion H; subst. constructor; [eauto|]. apply IH. eauto.
  - intros H. inversion H as [|? ? [v V] F]; subst. apply IH in F as [vs F]. exists (v :: vs). now constructor.
Qed.
Definition Elements t s := Forall (fun r => exists m v, bytes_between s r m /\ tokenize T t m = Ok v).
Definition Fields ts s rs := (length rs <= length ts)%nat /\ Forall (fun x => exists m v, bytes_between s (snd x) m /\ tokenize T (fst x) m = Ok v) (combine ts rs).
Lemma elements_run t s rs : (exists vs u, runs (next_element (tokenize T t)) s rs tt = Ok (vs, u)) <-> Elements t s rs.
Proof.
  unfold Elements. transitivity (exists vs, Forall2 (fun r v => exists m, bytes_between s r m /\ tokenize T t m = Ok v) rs vs).
  - split; [intros (vs & [] & H); apply runs_array in H; eauto|intros (vs & H); exists vs, tt; now apply runs_array].
  - rewrite ok_forall2. split; apply Forall_impl; intros r; [intros (v & m & H)|intros (m & v & H)]; eauto.
Qed.
Lemma fields_run ts s rs : (exists vs u, runs next_field s rs (map (tokenize T) ts) = Ok (vs, u)) <-> Fields ts s rs.
Proof.
  unfold Fields. transitivity ((length rs <= length ts)%nat /\ exists vs, Forall2 (fun x v => exists m, bytes_between s (snd x) m /\ tokenize T (fst x) m = Ok v) (combine ts rs) vs).
  - split.
    + intros (vs & u & H). apply runs_tuple in H as (L & _ & H). rewrite map_length in L. rewrite combine_map, Forall2_map_l in H. eauto.
    + intros (L & vs & H). exists vs, (skipn (length rs) (map (tokenize T) ts)). apply runs_tuple. rewrite map_length, combine_map, Forall2_map_l. auto.
  - rewrite ok_forall2. split; intros (L & H); (split; [exact L|]); (eapply Forall_impl; [|exact H]); intros r; [intros (v & m & X)|intros (m & v & X)]; eauto.
Qed.
Lemma array_rejected t s e : tokenize T (PArray t) s = Err e <->
  item_fails 91 93 s (Elements t s) (fun _ m => tokenize T t m = Err e) \/ (e = InvalidData /\ literal_spoilt 91 93 s (Elements t s)).
Proof.
  cbn [tokenize]. rewrite rmap_err, (items_err _ _ squares). unfold item_fails, literal_spoilt.
  assert (N : forall u m, next_element (tokenize T t) u m = Err e <-> tokenize T t m = Err e).
  { intros u m. unfold next_element. destruct (tokenize T t m); cbn [bind]; split; intros X; try discriminate X; injection X as ->; reflexivity. }
  split.
  - intros [[X ->]|[(B & E & rs1 & r & rs2 & tk & u & m & X & Y & R & Z & Q)|(B & E & -> & X & rs1 & rs2 & tk & u & Y & F & G & R)]].
    + right. auto.
    + left. split; [exact B|]. split; [exact E|]. exists rs1, r, rs2, m. apply N in Q. repeat split; auto. apply elements_run. eauto.
    + right. split; [reflexivity|]. right. split; [exact E|]. split; [exact X|]. exists rs1, rs2. repeat split; auto. apply elements_run. eauto.
  - intros [(B & E & rs1 & r & rs2 & m & X & Y & R & Z & Q)|[-> [X|(E & X & rs1 & rs2 & Y & F & G & R)]]].
    + right. left. split; [exact B|]. split; [exact E|]. apply elements_run in R as (vs & u & R). exists rs1, r, rs2, vs, u, m. apply (N u) in Q. auto 10.
    + left. auto.
    + destruct (bracketed_dec (next_element (tokenize T t)) s squares) as [B|B]; [|left; auto]. right. right. split; [exact B|]. split; [exact E|]. split; [reflexivity|]. split; [exact X|].
      apply elements_run in R as (vs & u & R). exists rs1, rs2, vs, u. auto.
Qed.
Lemma fixed_array_rejected t n s e : tokenize T (PFixedArray t n) s = Err e <->
  tokenize T (PArray t) s = Err e \/ (e = InvalidData /\ exists vs, tokenize T (PArray t) s = Ok (TArray vs) /\ len vs <> n).
Proof.
  cbn [tokenize]. rewrite !rmap_err. destruct (tokenize_items _ 91 93 s tt) as [vs|e'|]; cbn [bind rmap].
  - destruct (N.eqb_spec (len vs) n) as [Q|Q]; split; intros H.
    + discriminate.
    + destruct H as [X|(_ & vs' & X & Y)]; [discriminate|]. injection X as <-. contradiction.
    + injection H as <-. right. split; [reflexivity|]. eauto.
    + destruct H as [X|(-> & _)]; [discriminate|reflexivity].
  - split; [auto|]. intros [X|(_ & vs & X & _)]; [exact X|discriminate].
  - split; [auto|]. intros [X|(_ & vs & X & _)]; [exact X|discriminate].
Qed.
Lemma tuple_rejected ts s e : tokenize T (PTuple ts) s = Err e <->
  item_fails 40 41 s (Fields ts s) (fun k m => match nth_error ts k with Some t => tokenize T t m = Err e | None => e = InvalidData end) \/
  (e = InvalidData /\ literal_spoilt 40 41 s (Fields ts s)).
Proof.
  cbn [tokenize]. rewrite rmap_err, (items_err _ _ rounds). unfold item_fails, literal_spoilt.
  assert (N : forall k m, next_field (skipn k (map (tokenize T) ts)) m = Err e <-> match nth_error ts k with Some t => tokenize T t m = Err e | None => e = InvalidData end).
  { clear. intros k. induction ts as [|t ts IH] in k |- *; intros m; destruct k as [|k]; cbn [map skipn nth_error next_field]; try apply IH.
    1-2: split; congruence.
    destruct (tokenize T t m) as [|e'|] eqn:E; cbn [bind]; split; intros X; try discriminate X; injection X as ->; reflexivity. }
  split.
  - intros [[X ->]|[(B & E & rs1 & r & rs2 & tk & u & m & X & Y & R & Z & Q)|(B & E & -> & X & rs1 & rs2 & tk & u & Y & F & G & R)]].
    + right. auto.
    + left. split; [exact B|]. split; [exact E|]. exists rs1, r, rs2, m. pose proof R as R'. apply runs_tuple in R' as (_ & -> & _). apply N in Q.
      split; [exact X|]. split; [exact Y|]. split; [apply fields_run; eauto|]. split; [exact Z|exact Q].
    + right. split; [reflexivity|]. right. split; [exact E|]. split; [exact X|]. exists rs1, rs2. split; [exact Y|]. split; [exact F|]. split; [exact G|]. apply fields_run. eauto.
  - intros [(B & E & rs1 & r & rs2 & m & X & Y & R & Z & Q)|[-> [X|(E & X & rs1 & rs2 & Y & F & G & R)]]].
    + right. left. split; [exact B|]. split; [exact E|]. apply fields_run in R as (vs & u & R). exists rs1, r, rs2, vs, u, m. apply N in Q.
      pose proof R as R'. apply runs_tuple in R' as (_ & -> & _). auto 10.
    + left. auto.
    + destruct (bracketed_dec next_field s rounds) as [B|B]; [|left; auto]. right. right. split; [exact B|]. split; [exact E|]. split; [reflexivity|]. split; [exact X|].
      apply fields_run in R as (vs & u & R). exists rs1, rs2, vs, u. auto.
Qed.
End Tokens.

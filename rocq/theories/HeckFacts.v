(** * Facts about case conversion *)
From Verif Require Import Base BaseFacts Types Heck Event Derive DeriveSpec.
From Coq Require Import ZifyBool ZifyNat ZifyN Lia.
Set Implicit Arguments.
Local Open Scope N_scope.
Local Open Scope list_scope.

Lemma upper_iff c : is_upper c = true <-> upper c. Proof. unfold is_upper, upper. lia. Qed.
Lemma lower_iff c : is_lower c = true <-> lower c. Proof. unfold is_lower, lower. lia. Qed.

Definition capital_ok (w : str) : bool :=
  match w with [] => true | c :: w' => negb (is_lower c) && forallb (fun c => negb (is_upper c)) w' end.
Lemma capitalize_fix w : capitalize w = w <-> capital_ok w = true.
Proof.
  destruct w as [|c w]; [easy|]. cbn [capitalize capital_ok]. unfold to_upper.
  rewrite andb_true_iff, negb_true_iff. split.
  - intros E. injection E as E1 E2. split.
    + destruct (is_lower c) eqn:L; [|easy]. apply lower_iff in L. unfold lower in L. lia.
    + clear E1. induction w as [|d w IH]; [easy|]. cbn [map forallb] in *. injection E2 as E2 E3.
      rewrite IH by exact E3. rewrite andb_true_r, negb_true_iff. unfold to_lower in E2.
      destruct (is_upper d) eqn:U; [|easy]. lia.
  - intros [L F]. rewrite L. f_equal. induction w as [|d w IH]; [easy|]. cbn [map forallb] in *.
    apply andb_true_iff in F as [F1 F2]. rewrite IH by exact F2. f_equal. unfold to_lower. now destruct (is_upper d).
Qed.
Lemma capitalize_length w : List.length (capitalize w) = List.length w.
Proof. destruct w; [easy|]. cbn. now rewrite map_length. Qed.

Lemma forallb_Forall_iff A (f : A -> bool) l : forallb f l = true <-> Forall (fun x => f x = true) l.
Proof. rewrite forallb_forall, Forall_forall. reflexivity. Qed.
(** Without '_' the words make up the text. *)
Lemma words_concat s : forall cur m, ~ In 95 s -> s <> [] -> concat (words s cur m) = cur ++ s.
Proof.
  induction s as [|c s IH]; intros cur m U N; [easy|]. cbn [words].
  destruct (c =? 95) eqn:C; [exfalso; apply U; left; lia|].
  assert (U' : ~ In 95 s) by (intros I; apply U; now right).
  destruct s as [|d s]; [cbn; now rewrite app_nil_r|].
  assert (N' : d :: s <> []) by discriminate.
  set (nm := if is_lower c then _ else _). clearbody nm.
  destruct (_ || _).
  - cbn [concat]. rewrite IH by easy. rewrite <- app_assoc. reflexivity.
  - destruct (_ && _ && _).
    + cbn [concat]. rewrite IH by easy. reflexivity.
    + rewrite IH by easy. now rewrite <- app_assoc.
Qed.
(** No word has a '_'. *)
Lemma words_no s : forall cur m, ~ In 95 cur -> (forall s', s = 95 :: s' -> cur = []) -> Forall (fun w => ~ In 95 w) (words s cur m).
Proof.
  induction s as [|c s IH]; intros cur m U N; [constructor|]. cbn [words].
  destruct (c =? 95) eqn:C.
  - apply N.eqb_eq in C. subst c. rewrite (N s eq_refl). apply IH; [easy|reflexivity].
  - assert (U' : ~ In 95 (cur ++ [c])). { rewrite in_app_iff. cbn. intros [I|[I|[]]]; [easy|lia]. }
    destruct s as [|d s]; [constructor; [exact U'|constructor]|].
    set (nm := if is_lower c then _ else _). clearbody nm.
    destruct (_ || _) eqn:D.
    + constructor; [exact U'|]. apply IH; [easy|reflexivity].
    + apply orb_false_iff in D as [D _].
      destruct (_ && _ && _); [constructor; [exact U|]|]; apply IH; try exact U'.
      * cbn. intros [I|[]]. lia.
      * intros s' E. injection E as -> _. discriminate.
      * intros s' E. injection E as -> _. discriminate.
Qed.
Lemma capitalize_no w : ~ In 95 w -> ~ In 95 (capitalize w).
Proof.
  destruct w as [|c w]; [easy|]. cbn. intros U [I|I].
  - unfold to_upper in I. destruct (is_lower c) eqn:L; [unfold is_lower in L; lia|]. apply U. now left.
  - apply in_map_iff in I as [d [D I]]. unfold to_lower in D. destruct (is_upper d) eqn:L; [unfold is_upper in L; lia|].
    subst d. apply U. now right.
Qed.
Lemma camel_case_no s : ~ In 95 (to_camel_case s).
Proof.
  unfold to_camel_case. intros I. apply in_concat in I as [w [W I]]. apply in_map_iff in W as [v [<- V]].
  revert I. apply capitalize_no. pose proof (@words_no s [] Boundary (fun x => x) (fun _ _ => eq_refl)) as F.
  rewrite Forall_forall in F. exact (F v V).
Qed.
Lemma app_inj_len A (a b c d : list A) : a ++ b = c ++ d -> List.length a = List.length c -> a = c /\ b = d.
Proof.
  revert c. induction a as [|x a IH]; intros [|y c] E L; try discriminate; [easy|]. injection E as -> E.
  injection L as L. destruct (IH c E L) as [-> ->]. easy.
Qed.
Lemma concat_same A (f : list A -> list A) (ls : list (list A)) : (forall l, List.length (f l) = List.length l) ->
  (concat (map f ls) = concat ls <-> Forall (fun l => f l = l) ls).
Proof.
  intros L. induction ls as [|l ls IH]; cbn; [split; constructor|]. split.
  - intros E. apply app_inj_len in E as [E1 E2]; [|apply L]. constructor; [exact E1|]. now apply IH.
  - intros F. inversion F; subst. rewrite H1. f_equal. now apply IH.
Qed.
Lemma camel_case_words s : to_camel_case s = s <-> ~ In 95 s /\ Forall (fun w => capital_ok w = true) (words s [] Boundary).
Proof.
  assert (C : ~ In 95 s -> concat (words s [] Boundary) = s).
  { intros U. destruct s as [|c s]; [reflexivity|]. now rewrite words_concat. }
  unfold to_camel_case. split.
  - intros E. assert (U : ~ In 95 s) by (rewrite <- E; apply camel_case_no). split; [exact U|].
    rewrite <- (C U) in E at 2. apply concat_same in E; [|apply capitalize_length].
    eapply Forall_impl; [|exact E]. intros w. apply capitalize_fix.
  - intros [U F]. rewrite <- (C U) at 2. apply concat_same; [apply capitalize_length|].
    eapply Forall_impl; [|exact F]. intros w. apply capitalize_fix.
Qed.

(** The condition on capitals, read from left to right: [last] is the last
    letter so far (is it a capital?). *)
Definition next_lower (s : str) : bool := match s with d :: _ => is_lower d | [] => false end.
Definition note (last : option bool) (c : char) : option bool :=
  if is_upper c then Some true else if is_lower c then Some false else last.
Fixpoint humps (first : bool) (last : option bool) (s : str) : bool :=
  match s with
  | [] => true
  | c :: s' =>
    (if first then negb (is_lower c)
     else if is_upper c then match last with Some false => true | Some true => next_lower s' | None => false end else true)
    && humps false (note last c) s'
  end.

Definition state_ok (m : mode) (last : option bool) (s : str) : Prop :=
  (m = Lowercase /\ last = Some false /\ match s with d :: _ => is_upper d = false | [] => True end) \/
  (m = Uppercase /\ last = Some true) \/
  (m = Boundary /\ last = None) \/
  (m = Boundary /\ last = Some true /\ next_lower s = true).
Lemma upper_not_lower c : is_upper c = true -> is_lower c = false.
Proof. unfold is_upper, is_lower. lia. Qed.
Lemma capital_ok_snoc cur c : cur <> [] -> capital_ok (cur ++ [c]) = capital_ok cur && negb (is_upper c).
Proof.
  destruct cur as [|d cur]; [easy|]. intros _. cbn [app capital_ok]. rewrite forallb_app. cbn [forallb].
  now rewrite andb_true_r, andb_assoc.
Qed.
Definition is_nil {A} (l : list A) : bool := match l with [] => true | _ => false end.
Lemma words_humps s : forall cur m last, ~ In 95 s -> s <> [] -> (cur = [] -> m = Boundary /\ last = None) -> state_ok m last s ->
  forallb capital_ok (words s cur m) = capital_ok cur && humps (is_nil cur) last s.
Proof.
  induction s as [|c s IH]; intros cur m last U N B R; [easy|]. cbn [words].
  destruct (c =? 95) eqn:C; [exfalso; apply U; left; lia|].
  assert (U' : ~ In 95 s) by (intros I; apply U; now right).
  assert (K : cur <> [] -> is_upper c = true -> next_lower s = false ->
     match last with Some false => true | Some true => next_lower s | None => false end = false).
  { intros NC X NL. destruct R as [[-> [-> R]]|[[-> ->]|[[-> ->]|[-> [-> R]]]]]; try easy; congruence. }
  assert (K' : cur <> [] -> is_upper c = true -> last = Some false -> False).
  { intros NC X ->. destruct R as [[-> [_ R]]|[[_ R]|[[_ R]|[_ [R _]]]]]; congruence. }
  destruct s as [|d s].
  { cbn [forallb humps]. rewrite !andb_true_r. destruct cur as [|x cur].
    - cbn. now rewrite andb_true_r.
    - rewrite capital_ok_snoc by easy. cbn [is_nil]. destruct (is_upper c) eqn:X; cbn [negb]; [|reflexivity].
      rewrite K by easy. reflexivity. }
  assert (N' : d :: s <> []) by discriminate.
  set (nm := if is_lower c then Lowercase else if is_upper c then Uppercase else m).
  assert (D : (d =? 95) = false). { apply N.eqb_neq. intros ->. apply U'. now left. }
  rewrite D. cbn [orb].
  assert (F1 : capital_ok (cur ++ [c]) = capital_ok cur && (if is_nil cur then negb (is_lower c) else negb (is_upper c))).
  { destruct cur as [|x cur]; [cbn; now rewrite andb_true_r|]. now rewrite capital_ok_snoc. }
  destruct (match nm with Lowercase => true | _ => false end && is_upper d) eqn:S1.
  - apply andb_true_iff in S1 as [S1 X]. cbn [forallb]. rewrite (IH [] Boundary None) by (auto; right; right; left; auto).
    rewrite F1. cbn [capital_ok andb is_nil]. cbn [humps]. rewrite (upper_not_lower _ X). cbn [negb andb].
    assert (NU : is_upper c = false /\ (cur = [] -> is_lower c = true)).
    { unfold nm in S1. destruct (is_lower c) eqn:L; [split; [|easy]|].
      - destruct (is_upper c) eqn:Y; [|easy]. now rewrite (upper_not_lower _ Y) in L.
      - destruct (is_upper c) eqn:Y; [easy|]. split; [easy|]. intros E. destruct (B E) as [-> _]. discriminate. }
    destruct NU as [NU NE]. rewrite NU. cbn [negb].
    assert (L : note last c = Some false).
    { unfold note. rewrite NU. unfold nm in S1. destruct (is_lower c); [easy|]. rewrite NU in S1.
      destruct R as [[-> [-> R]]|[[-> ->]|[[-> ->]|[-> [-> R]]]]]; easy. }
    rewrite L, X. unfold note. rewrite X. cbn [andb]. rewrite <- andb_assoc. destruct (is_nil cur); reflexivity.
  - destruct (match m with Uppercase => true | _ => false end && is_upper c && is_lower d) eqn:S2.
    + apply andb_true_iff in S2 as [S2 Y]. apply andb_true_iff in S2 as [S2 X].
      assert (M : m = Uppercase) by now destruct m.
      assert (NC : cur <> []). { intros E. destruct (B E). congruence. }
      assert (LA : last = Some true). { destruct R as [[Q _]|[[_ Q]|[[Q _]|[Q _]]]]; congruence. }
      cbn [forallb]. rewrite (IH [c] Boundary (Some true)); [|easy|easy|discriminate|right; right; right; auto].
      f_equal. cbn [capital_ok forallb is_nil]. rewrite (upper_not_lower _ X). cbn [negb andb].
      assert (E : humps (is_nil cur) last (c :: d :: s) = next_lower (d :: s) && humps false (Some true) (d :: s)).
      { subst last. destruct cur; [easy|]. cbn [is_nil]. change (humps false (Some true) (c :: d :: s)) with
          ((if is_upper c then next_lower (d :: s) else true) && humps false (note (Some true) c) (d :: s)).
        unfold note. now rewrite X. }
      rewrite E. cbn [next_lower]. rewrite Y. reflexivity.
    + rewrite (IH (cur ++ [c]) nm (note last c)); [|easy|easy|now destruct cur|].
      * rewrite F1. assert (NN : is_nil (cur ++ [c]) = false) by now destruct cur. rewrite NN. rewrite <- andb_assoc. f_equal.
        change (humps (is_nil cur) last (c :: d :: s)) with
          ((if is_nil cur then negb (is_lower c) else if is_upper c then match last with Some false => true | Some true => next_lower (d :: s) | None => false end else true)
           && humps false (note last c) (d :: s)). f_equal.
        destruct cur as [|x cur]; [reflexivity|]. cbn [is_nil]. destruct (is_upper c) eqn:X; [|reflexivity]. cbn [negb].
        symmetry. destruct last as [[]|]; [|exfalso; now apply K'|reflexivity].
        cbn [next_lower]. destruct (is_lower d) eqn:Y; [|reflexivity]. exfalso.
        destruct R as [[_ [Q _]]|[[-> _]|[[_ Q]|[_ [_ Q]]]]]; try discriminate.
        cbn [next_lower] in Q. rewrite (upper_not_lower _ X) in Q. discriminate.
      * unfold state_ok, note, nm in *. destruct (is_lower c) eqn:L.
        -- destruct (is_upper c) eqn:X; [now rewrite (upper_not_lower _ X) in L|]. left. cbn [andb] in S1. auto.
        -- destruct (is_upper c) eqn:X; [right; left; auto|].
           destruct R as [[-> [-> R]]|[[-> ->]|[[-> ->]|[-> [-> R]]]]].
           ++ left. cbn [andb] in S1. auto.
           ++ right; left; auto.
           ++ right; right; left; auto.
           ++ cbn [next_lower] in R. congruence.
Qed.
Lemma camel_case_humps s : to_camel_case s = s <-> ~ In 95 s /\ humps true None s = true.
Proof.
  rewrite camel_case_words. destruct s as [|c s]; [cbn; intuition constructor|].
  assert (Q : ~ In 95 (c :: s) -> (Forall (fun w => capital_ok w = true) (words (c :: s) [] Boundary) <-> humps true None (c :: s) = true)).
  { intros U. rewrite <- forallb_Forall_iff, (@words_humps (c :: s) [] Boundary None U); [reflexivity|discriminate|auto|].
    right; right; left; auto. }
  split; intros [U H]; (split; [exact U|]); apply (Q U); exact H.
Qed.

(** The same condition in terms of positions. *)
Lemma last_letter_snoc l d b : last_letter (l ++ [d]) b <->
  (if is_upper d || is_lower d then b = d else last_letter l b).
Proof.
  destruct (is_upper d || is_lower d) eqn:E.
  - assert (L : upper d \/ lower d) by (apply orb_true_iff in E as [E|E]; [left; now apply upper_iff|right; now apply lower_iff]).
    split; [|intros ->; now constructor]. intros H. inversion H as [l' c Q Q'|l' c d' Q Q1 Q2 Q']; subst;
      apply app_inj_tail in Q' as [-> ->]; [reflexivity|tauto].
  - apply orb_false_iff in E as [E1 E2].
    assert (L : ~ upper d /\ ~ lower d) by (rewrite <- upper_iff, <- lower_iff; split; congruence).
    split; [|intros H; constructor; tauto]. intros H. inversion H as [l' c Q Q'|l' c d' Q Q1 Q2 Q']; subst;
      apply app_inj_tail in Q' as [-> ->]; [tauto|easy].
Qed.
Lemma last_letter_nil b : ~ last_letter [] b.
Proof. intros H. inversion H as [l ? ? E|l ? ? ? ? ? E]; destruct l; discriminate. Qed.
Definition noted (pre : str) (last : option bool) : Prop :=
  match last with
  | None => forall b, ~ last_letter pre b
  | Some up => exists b, last_letter pre b /\ (forall b', last_letter pre b' -> b' = b) /\ is_upper b = up /\ is_lower b = negb up
  end.
Lemma noted_snoc pre last c : noted pre last -> noted (pre ++ [c]) (note last c).
Proof.
  intros H. unfold note. destruct (is_upper c) eqn:U; [|destruct (is_lower c) eqn:L].
  - exists c. setoid_rewrite last_letter_snoc. rewrite U. cbn. repeat split; auto. now apply upper_not_lower.
  - exists c. setoid_rewrite last_letter_snoc. rewrite U, L. cbn. auto.
  - unfold noted in *. destruct last as [up|].
    + destruct H as [b H]. exists b. setoid_rewrite last_letter_snoc. now rewrite U, L.
    + intros b. rewrite last_letter_snoc, U, L. apply H.
Qed.
Lemma humps_iff s : forall pre last, pre <> [] -> noted pre last ->
  (humps false last s = true <->
   forall l1 c l2, s = l1 ++ c :: l2 -> upper c ->
     exists b, last_letter (pre ++ l1) b /\ (lower b \/ exists d l3, l2 = d :: l3 /\ lower d)).
Proof.
  induction s as [|c s IH]; intros pre last NE N.
  - split; [|reflexivity]. intros _ l1 c l2 E. destruct l1; discriminate.
  - cbn [humps]. rewrite andb_true_iff, (IH (pre ++ [c])); [|now destruct pre|now apply noted_snoc]. clear IH.
    split.
    + intros [H1 H2] l1 d l2 E D. destruct l1 as [|x l1]; injection E as -> ->.
      * rewrite app_nil_r. apply upper_iff in D. rewrite D in H1. destruct last as [up|]; [|discriminate].
        destruct N as [b [N1 [_ [N2 N3]]]]. exists b. split; [exact N1|]. destruct up.
        -- right. destruct l2 as [|y l3]; [discriminate|]. exists y, l3. split; [easy|]. now apply lower_iff.
        -- left. now apply lower_iff.
      * destruct (H2 l1 d l2 eq_refl D) as [b [B1 B2]]. exists b. rewrite <- app_assoc in B1. easy.
    + intros H. split.
      * destruct (is_upper c) eqn:U; [|reflexivity]. destruct (H [] c s eq_refl (proj1 (upper_iff c) U)) as [b [B1 B2]].
        rewrite app_nil_r in B1. destruct last as [[]|]; [|reflexivity|now apply N in B1].
        destruct N as [b' [N1 [N4 [N2 N3]]]]. rewrite (N4 b B1) in B2. destruct B2 as [B2|[d [l3 [-> B2]]]].
        -- apply lower_iff in B2. cbn [negb] in N3. congruence.
        -- cbn. now apply lower_iff.
      * intros l1 d l2 -> D. destruct (H (c :: l1) d l2 eq_refl D) as [b [B1 B2]]. exists b. rewrite <- app_assoc. easy.
Qed.
Lemma camel_case_iff s : to_camel_case s = s <-> camel s.
Proof.
  rewrite camel_case_humps. unfold camel. apply and_iff_compat_l. destruct s as [|c s].
  - split; [|reflexivity]. intros _. split; [discriminate|]. intros [|] ? ? E; discriminate.
  - cbn [humps]. rewrite andb_true_iff, negb_true_iff, (@humps_iff s [c]); [|discriminate|apply (@noted_snoc [] None c last_letter_nil)].
    split.
    + intros [H1 H2]. split.
      * intros d s' E. injection E as -> ->. rewrite <- lower_iff. congruence.
      * intros [|x l1] d l2 E NE D; [easy|]. injection E as -> ->. exact (H2 l1 d l2 eq_refl D).
    + intros [H1 H2]. split.
      * destruct (is_lower c) eqn:L; [|reflexivity]. exfalso. apply (H1 c s eq_refl). now apply lower_iff.
      * intros l1 d l2 -> D. apply (H2 (c :: l1) d l2 eq_refl); [discriminate|exact D].
Qed.

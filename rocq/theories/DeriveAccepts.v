(** * What the derive macro accepts *)
From Verif Require Import Base BaseFacts StrFacts Types TypeNames Encoder Decoder AbiSpec Function Tokenizer Event EventSpec EventFacts Json Contract
  Heck HeckFacts Derive DeriveSpec DeriveFacts DeriveCalls DeriveEvents.
From Coq Require Import String.
From Coq Require Import ZifyBool ZifyNat ZifyN Lia.
Set Implicit Arguments.
Local Open Scope N_scope.
Local Open Scope list_scope.
Notation length := List.length.

(** ** Snake case *)
Lemma words_nonempty s : forall cur m, (m = Uppercase -> cur <> []) -> Forall (fun w => w <> []) (words s cur m).
Proof.
  induction s as [|c s IH]; intros cur m H; cbn [words]; [constructor|].
  destruct (c =? 95). { apply IH. intros E. specialize (H E). destruct cur; [contradiction|discriminate]. }
  destruct s as [|n s]; [constructor; [now destruct cur|constructor]|].
  destruct (_ || _). { constructor; [now destruct cur|]. apply IH. discriminate. }
  destruct m; cbn [andb]; try (apply IH; intros _; now destruct cur).
  destruct (_ && _); [|apply IH; intros _; now destruct cur]. constructor; [auto|]. apply IH. discriminate.
Qed.
Lemma words_exist s : forall cur m, (exists c, In c s /\ c <> 95) -> words s cur m <> [].
Proof.
  induction s as [|c s IH]; intros cur m (x & I & N); [destruct I|]. cbn [words].
  destruct (c =? 95) eqn:C. { destruct I as [->|I]; [lia|]. apply IH. eauto. }
  destruct s as [|n s]; [discriminate|]. cbv zeta. destruct ((n =? 95) || _) eqn:E; [discriminate|]. destruct (_ && is_lower n); [discriminate|]. apply IH.
  exists n. split; [now left|]. lia.
Qed.
Lemma words_none s : forall cur m, (forall c, In c s -> c = 95) -> words s cur m = [].
Proof.
  induction s as [|c s IH]; intros cur m H; cbn [words]; [reflexivity|]. rewrite (H c (or_introl eq_refl)). cbn. apply IH. intros x I. apply H. now right.
Qed.
Lemma snake_case_nil s : to_snake_case s = [] <-> forall c, In c s -> c = 95.
Proof.
  split.
  - intros E c I. destruct (N.eq_dec c 95) as [|N]; [assumption|]. exfalso. pose proof (@words_exist s [] Boundary (ex_intro _ c (conj I N))) as X.
    pose proof (@words_nonempty s [] Boundary ltac:(discriminate)) as Y. unfold to_snake_case in E. destruct (words s [] Boundary) as [|w l]; [contradiction|].
    inversion Y as [|? ? Z _]; subst. destruct w as [|a w]; [contradiction|]. cbn [map] in E. destruct l; discriminate.
  - intros H. unfold to_snake_case. now rewrite words_none.
Qed.
Lemma lower_char c : lower c \/ digit c \/ c = 95 -> is_upper c = false /\ to_lower c = c.
Proof. unfold lower, digit, to_lower, is_upper. intros H. assert ((65 <=? c) && (c <=? 90) = false) by lia. rewrite H0. auto. Qed.
Lemma words_snake n : forall s cur m, (length s <= n)%nat -> snake s ->
  join (lit "_") (map (map to_lower) (words s cur m)) = map to_lower cur ++ s /\ words s cur m <> [].
Proof.
  induction n as [|n IH]; intros s cur m L (S1 & S2 & S3 & S4 & S5); [destruct s; [contradiction|cbn in L; lia]|].
  destruct s as [|c s]; [contradiction|]. cbn [words]. assert (C : (c =? 95) = false). { destruct (c =? 95) eqn:E; [|reflexivity]. exfalso. apply (S3 s). f_equal. lia. }
  rewrite C. destruct (lower_char (S2 c (or_introl eq_refl))) as [U W].
  destruct s as [|d s]. { split; [|discriminate]. cbn [map join]. rewrite map_app. cbn [map]. now rewrite W. }
  destruct (lower_char (S2 d (or_intror (or_introl eq_refl)))) as [U' W'].
  rewrite U, U', andb_false_r, orb_false_r. rewrite andb_false_r. cbn [andb].
  destruct (d =? 95) eqn:D.
  - assert (d = 95) by lia. subst d. cbn [words]. cbn [N.eqb Pos.eqb]. assert (SN : snake s).
    { repeat split.
      - intros ->. now apply (S4 [c]).
      - intros x I. apply S2. right. now right.
      - intros s' ->. now apply (S5 [c] s').
      - intros s' ->. now apply (S4 (c :: 95 :: s')).
      - intros l1 l2 ->. now apply (S5 (c :: 95 :: l1) l2). }
    destruct (IH s [] Boundary ltac:(cbn in L; lia) SN) as [E N]. split; [|discriminate].
    cbn [map]. destruct (words s [] Boundary) as [|w l] eqn:Q; [contradiction|]. cbn [map join] in E |- *. cbn [map] in E. cbn [app] in E. 
    rewrite E. rewrite map_app. cbn [map]. rewrite W. rewrite <- !app_assoc. reflexivity.
  - assert (SN : snake (d :: s)).
    { repeat split; [discriminate| | | |].
      - intros x I. apply S2. now right.
      - intros s' E. injection E as E _. lia.
      - intros s' E. apply (S4 (c :: s')). cbn [app]. now rewrite <- E.
      - intros l1 l2 E. apply (S5 (c :: l1) l2). cbn [app]. now rewrite <- E. }
    match goal with |- context [words (d :: s) (cur ++ [c]) ?m'] => destruct (IH (d :: s) (cur ++ [c]) m' ltac:(cbn in L |- *; lia) SN) as [E N] end.
    split; [|exact N]. rewrite E, map_app. cbn [map]. now rewrite W, <- app_assoc.
Qed.
Lemma snake_case_fix s : snake s -> to_snake_case s = s.
Proof. intros S. unfold to_snake_case. destruct (@words_snake (length s) s [] Boundary ltac:(lia) S) as [-> _]. reflexivity. Qed.

(** The first character of the words. *)
Definition first_ok (cur s : str) (c : char) : Prop :=
  match cur with d :: _ => c = d | [] => exists l r, s = l ++ c :: r /\ (forall x, In x l -> x = 95) /\ c <> 95 end.
Lemma words_first s : forall cur m, (m = Uppercase -> cur <> []) -> (forall d cur', cur = d :: cur' -> d <> 95) ->
  match words s cur m with [] => forall x, In x s -> x = 95 | w :: _ => exists c w', w = c :: w' /\ first_ok cur s c end.
Proof.
  induction s as [|c s IH]; intros cur m H D; cbn [words]; [intros ? []|].
  assert (FC : c <> 95 -> exists a w', cur ++ [c] = a :: w' /\ first_ok cur (c :: s) a).
  { intros C. destruct cur as [|d cur']; [|exists d, (cur' ++ [c]); now split]. exists c, []. split; [reflexivity|]. exists [], s. repeat split; [intros ? []|exact C]. }
  destruct (c =? 95) eqn:C.
  - assert (c = 95) by lia. subst c. destruct cur as [|d cur'].
    + specialize (IH [] m H D). destruct (words s [] m) as [|w ws]; [intros x [<-|I]; auto|]. destruct IH as (c & w' & -> & l & r & -> & L & C').
      exists c, w'. split; [reflexivity|]. exists (95 :: l), r. repeat split; [intros x [<-|I]; auto|exact C'].
    + assert (D' : forall d0 cur0, (d :: cur') ++ [95] = d0 :: cur0 -> d0 <> 95) by (intros ? ? E; injection E as <- _; eapply D; reflexivity).
      specialize (IH ((d :: cur') ++ [95]) m ltac:(intros; discriminate) D'). destruct (words s _ m) as [|w ws]; [intros x [<-|I]; auto|]. exact IH.
  - assert (C' : c <> 95) by lia. specialize (FC C'). destruct s as [|n s]; [exact FC|]. cbv zeta. destruct ((n =? 95) || _) eqn:NX; [exact FC|].
    assert (D' : forall d0 cur0, cur ++ [c] = d0 :: cur0 -> d0 <> 95).
    { destruct cur as [|d cur']; cbn [app]; intros d0 cur0 E; injection E as <- _; [exact C'|]. eapply D; reflexivity. }
    assert (NE : cur ++ [c] <> []) by now destruct cur.
    match goal with |- context [if ?b then _ else _] => destruct b eqn:B end.
    + destruct m; try discriminate. specialize (H eq_refl). destruct cur as [|d cur']; [contradiction|]. exists d, cur'. now split.
    + match goal with |- context [words (n :: s) (cur ++ [c]) ?m'] => specialize (IH (cur ++ [c]) m' (fun _ => NE) D'); destruct (words (n :: s) (cur ++ [c]) m') as [|w ws] eqn:W end.
      * exfalso. eapply words_exist; [|exact W]. exists n. split; [now left|]. lia.
      * destruct IH as (a & w' & -> & F). exists a, w'. split; [reflexivity|]. destruct cur as [|d cur']; cbn [app first_ok] in F |- *; subst a; [|reflexivity].
        exists [], (n :: s). repeat split; [intros ? []|exact C'].
Qed.

(** ** Which names become identifiers *)
Definition ident_part (c : char) : Prop := letter c \/ digit c \/ c = 95.
Lemma words_chars (P : char -> Prop) s : forall cur m, (forall c, In c s -> P c) -> (forall c, In c cur -> P c) ->
  Forall (fun w => forall c, In c w -> P c) (words s cur m).
Proof.
  induction s as [|c s IH]; intros cur m S C; cbn [words]; [constructor|].
  assert (S' : forall x, In x s -> P x) by (intros x I; apply S; now right).
  assert (C' : forall x, In x (cur ++ [c]) -> P x). { intros x I. apply in_app_iff in I as [I|[<-|[]]]; [auto|]. apply S. now left. }
  assert (CC : forall x, In x [c] -> P x). { intros x [<-|[]]. apply S. now left. }
  destruct (c =? 95). { apply IH; [exact S'|]. destruct cur; [intros ? []|exact C']. }
  destruct s as [|n s]; [constructor; [exact C'|constructor]|].
  destruct (_ || _). { constructor; [exact C'|]. apply IH; [exact S'|intros ? []]. }
  destruct (_ && is_lower n). { constructor; [exact C|]. now apply IH. }
  now apply IH.
Qed.
Lemma to_lower_part c : ident_part c -> ident_part (to_lower c).
Proof. unfold ident_part, to_lower, is_upper, letter, upper, lower, digit. destruct (_ && _) eqn:E; lia. Qed.
Lemma to_upper_part c : ident_part c -> ident_part (to_upper c).
Proof. unfold ident_part, to_upper, is_lower, letter, upper, lower, digit. destruct (_ && _) eqn:E; lia. Qed.
Lemma to_lower_letter c : letter (to_lower c) <-> letter c.
Proof. unfold to_lower, is_upper, letter, upper, lower. destruct (_ && _) eqn:E; lia. Qed.
Lemma to_upper_letter c : letter (to_upper c) <-> letter c.
Proof. unfold to_upper, is_lower, letter, upper, lower. destruct (_ && _) eqn:E; lia. Qed.
Lemma join_parts l : Forall (fun w => forall c, In c w -> ident_part c) l -> forall c, In c (join (lit "_") l) -> ident_part c.
Proof.
  induction 1 as [|w l H F IH]; intros c I; [destruct I|]. destruct l as [|w' l]; [auto|].
  change (join (lit "_") (w :: w' :: l)) with (w ++ lit "_" ++ join (lit "_") (w' :: l)) in I. apply in_app_iff in I as [I|I]; [auto|].
  apply in_app_iff in I as [[<-|[]]|I]; [right; now right|auto].
Qed.
Lemma join_first c w l : exists r, join (lit "_") ((c :: w) :: l) = c :: r.
Proof. destruct l; [exists w; reflexivity|eexists; reflexivity]. Qed.
Lemma starts_unique (l : str) c r : forall l' c' r', l ++ c :: r = l' ++ c' :: r' -> (forall x, In x l -> x = 95) -> (forall x, In x l' -> x = 95) -> c <> 95 -> c' <> 95 -> c = c'.
Proof.
  induction l as [|a l IH]; intros [|a' l'] c' r' E L L' C C'; cbn [app] in E.
  - now injection E.
  - injection E as -> _. destruct C. apply L'. now left.
  - injection E as <- _. destruct C'. apply L. now left.
  - injection E as _ E. eapply IH; [exact E| | |exact C|exact C']; intros x I; [apply L|apply L']; now right.
Qed.
Lemma first_case (g : char -> char) s (t : str) : (forall c, letter (g c) <-> letter c) -> (forall c, In c s -> ident_part c) ->
  (forall c, In c t -> ident_part c) ->
  (match words s [] Boundary with [] => t = [] | w :: _ => forall c w', w = c :: w' -> exists r, t = g c :: r end) ->
  (forall c r, t = c :: r -> c <> 95) ->
  (identifier t <-> starts_with_letter s).
Proof.
  intros G S T M U. pose proof (@words_first s [] Boundary ltac:(discriminate) ltac:(discriminate)) as F. destruct (words s [] Boundary) as [|w ws].
  - subst t. split; [intros (? & ? & E & _); discriminate|]. intros (l & c & r & -> & L & C). specialize (F c ltac:(apply in_app_iff; right; now left)). subst c.
    unfold letter, upper, lower in C. lia.
  - destruct F as (c & w' & -> & l & r & -> & L & C). destruct (M _ _ eq_refl) as [r' ->]. split.
    + intros (c0 & s0 & E & H & _). injection E as <- <-. exists l, c, r. split; [reflexivity|]. split; [exact L|]. apply G. destruct H as [H|H]; [exact H|].
      destruct (U _ _ eq_refl H).
    + intros (l1 & c1 & r1 & E & L1 & C1). assert (c1 <> 95) by (unfold letter, upper, lower in C1; lia).
      pose proof (@starts_unique _ _ _ _ _ _ E L L1 C H). subst c1. exists (g c), r'. split; [reflexivity|]. split; [left; now apply G|]. intros d I. apply T. now right.
Qed.
Lemma to_lower_95 c : to_lower c = 95 -> c = 95.
Proof. unfold to_lower, is_upper. destruct (_ && _) eqn:E; lia. Qed.
Lemma to_upper_95 c : to_upper c = 95 -> c = 95.
Proof. unfold to_upper, is_lower. destruct (_ && _) eqn:E; lia. Qed.
Lemma snake_identifier s : (forall c, In c s -> letter c \/ digit c \/ c = 95) -> (identifier (to_snake_case s) <-> starts_with_letter s).
Proof.
  intros S. pose proof (@words_chars ident_part s [] Boundary S ltac:(intros ? [])) as W.
  pose proof (@words_first s [] Boundary ltac:(discriminate) ltac:(discriminate)) as F. unfold to_snake_case.
  apply (@first_case to_lower); [exact to_lower_letter|exact S| | |].
  - apply join_parts. clear F. induction W as [|w l H W IH]; [constructor|]. constructor; [|apply IH]. intros c I. apply in_map_iff in I as (d & <- & I). apply to_lower_part. auto.
  - destruct (words s [] Boundary) as [|w ws]; [reflexivity|]. intros c w' ->. cbn [map]. apply join_first.
  - intros c r. destruct (words s [] Boundary) as [|w ws]; [discriminate|]. destruct F as (d & w' & -> & l & r' & _ & _ & D). cbn [map].
    destruct (join_first (to_lower d) (map to_lower w') (map (map to_lower) ws)) as [q ->]. intros E. injection E as <- _. intros X. now apply to_lower_95 in X.
Qed.
Lemma camel_identifier s : (forall c, In c s -> letter c \/ digit c \/ c = 95) -> (identifier (to_camel_case s) <-> starts_with_letter s).
Proof.
  intros S. pose proof (@words_chars ident_part s [] Boundary S ltac:(intros ? [])) as W.
  pose proof (@words_first s [] Boundary ltac:(discriminate) ltac:(discriminate)) as F. unfold to_camel_case.
  apply (@first_case to_upper); [exact to_upper_letter|exact S| | |].
  - intros c I. apply in_concat in I as (w & I & J). apply in_map_iff in I as (w0 & <- & I). rewrite Forall_forall in W. specialize (W _ I).
    destruct w0 as [|d w0]; [destruct J|]. destruct J as [<-|J]; [apply to_upper_part, W; now left|]. apply in_map_iff in J as (d' & <- & J). apply to_lower_part, W. now right.
  - destruct (words s [] Boundary) as [|w ws]; [reflexivity|]. intros c w' ->. cbn [map List.concat capitalize app]. eauto.
  - intros c r. destruct (words s [] Boundary) as [|w ws]; [discriminate|]. destruct F as (d & w' & -> & l & r' & _ & _ & D). cbn [map List.concat capitalize app].
    intros E. injection E as <- _. intros X. now apply to_upper_95 in X.
Qed.

(** ** Names of parameters *)
Lemma keyword_iff s : keyword s = true <-> In s reserved_words.
Proof.
  unfold keyword. change keywords with reserved_words. rewrite existsb_exists. split; [intros (x & I & E)|intros I; exists s; split; [exact I|apply str_eqb_refl]].
  apply str_eqb_eq in E. now subst.
Qed.
Lemma declarable_iff l : declarable l = true <-> NoDup l /\ Forall (fun s => ~ In s reserved_words) l.
Proof.
  unfold declarable. rewrite andb_true_iff, distinct_NoDup, negb_true_iff. split; intros [N E]; (split; [exact N|]).
  - apply Forall_forall. intros s I K. apply keyword_iff in K. assert (existsb keyword l = true); [|congruence]. apply existsb_exists. eauto.
  - destruct (existsb keyword l) eqn:X; [|reflexivity]. apply existsb_exists in X as (s & I & K). apply keyword_iff in K. rewrite Forall_forall in E. destruct (E s I K).
Qed.
Lemma not_keyword s : negb (keyword s) = true <-> ~ In s reserved_words.
Proof. rewrite negb_true_iff, <- keyword_iff. destruct (keyword s); split; congruence. Qed.
Lemma idents_ok A (f : nat -> A -> res str) (g : nat -> A -> str) (l : list A) : (forall i x, f i x = ident (g i x)) ->
  forall i names, mapM (fun r => r) (mapi_from f i l) = Ok names <-> names = mapi_from g i l /\ Forall identifier names.
Proof.
  intros H. induction l as [|x l IH]; intros i names; cbn [mapi_from mapM].
  - split; [intros E; injection E as <-; auto|now intros [-> _]].
  - rewrite H. split.
    + intros E. apply bind_ok in E as (n & En & E). apply bind_ok in E as (r & Er & E). injection E as <-. apply ident_ok in En as [-> En]. apply IH in Er as [-> Er]. auto.
    + intros [-> F]. inversion F as [|? ? F1 F2]; subst. rewrite (proj2 (ident_ok _ _) (conj eq_refl F1)). cbn [bind]. rewrite (proj2 (IH (S i) _) (conj eq_refl F2)). reflexivity.
Qed.
Lemma mapi_from_nth A (g : nat -> A -> str) (l : list A) : forall k i x, nth_error l i = Some x -> nth_error (mapi_from g k l) i = Some (g (k + i)%nat x).
Proof.
  induction l as [|a l IH]; intros k [|i] x E; try discriminate; cbn [mapi_from nth_error] in *; [injection E as <-; now rewrite Nat.add_0_r|].
  rewrite (IH _ _ _ E). now rewrite Nat.add_succ_r.
Qed.
Lemma mapi_from_length A B (g : nat -> A -> B) l : forall k, length (mapi_from g k l) = length l.
Proof. induction l as [|a l IH]; intros k; cbn; auto. Qed.
Lemma nth_error_eq A (l l' : list A) : (forall i, nth_error l i = nth_error l' i) -> l = l'.
Proof.
  revert l'. induction l as [|x l IH]; intros [|y l'] H; [reflexivity|specialize (H 0%nat); discriminate|specialize (H 0%nat); discriminate|].
  pose proof (H 0%nat) as E. injection E as <-. f_equal. apply IH. intros i. exact (H (S i)).
Qed.
Lemma named_iff A (P : nat -> A -> str -> Prop) (g : nat -> A -> str) (l : list A) names : (forall i x n, P i x n <-> n = g i x) ->
  (named P l names <-> names = mapi g l).
Proof.
  intros H. unfold named, mapi. split.
  - intros [L N]. apply nth_error_eq. intros i. destruct (nth_error l i) as [x|] eqn:E.
    + destruct (N _ _ E) as (n & -> & X). apply H in X as ->. now rewrite (mapi_from_nth g l 0 i E).
    + apply nth_error_None in E. rewrite (proj2 (nth_error_None names i)) by lia. symmetry. apply nth_error_None. rewrite mapi_from_length. lia.
  - intros ->. split; [apply mapi_from_length|]. intros i x E. exists (g i x). rewrite (mapi_from_nth g l 0 i E). split; [reflexivity|]. now apply H.
Qed.
Definition parameter_text (i : nat) (x : Param) : str := match p_name x with [] => numbered (lit "param") i | name => rust_variable name end.
Definition field_text (i : nat) (x : EventParam) : str :=
  match ep_name x with [] => numbered (if ep_indexed x then lit "topic" else lit "param") i | name => to_snake_case name end.
Lemma parameter_name_iff i x n : parameter_name i x n <-> n = parameter_text i x.
Proof.
  unfold parameter_name, parameter_text, numbered. destruct (p_name x) as [|c s] eqn:E.
  - split; [intros (H & _); auto|intros ->]. repeat split; [discriminate|contradiction].
  - unfold rust_variable. destruct (str_eqb (c :: s) (lit "self")) eqn:Q.
    + apply str_eqb_eq in Q. split; [intros (_ & H & _); auto|intros ->]. repeat split; [discriminate|contradiction].
    + assert (c :: s <> lit "self") by (intros X; rewrite X in Q; discriminate). split; [intros (_ & _ & H1); apply H1; [discriminate|assumption]|intros ->].
      repeat split; [discriminate|contradiction].
Qed.
Lemma field_name_iff i x n : field_name i x n <-> n = field_text i x.
Proof.
  unfold field_name, field_text, numbered. destruct (ep_name x) as [|c s] eqn:E.
  - destruct (ep_indexed x); (split; [intros (H1 & H2 & _); auto|intros ->]); repeat split; congruence.
  - split; [intros (_ & _ & H); apply H; discriminate|intros ->]. repeat split; discriminate.
Qed.
Lemma input_names_iff inputs names : input_names inputs = Ok names <-> named parameter_name inputs names /\ Forall identifier names.
Proof.
  rewrite (@named_iff _ _ parameter_text) by apply parameter_name_iff. unfold input_names, mapi.
  apply (@idents_ok _ _ parameter_text). intros i x. unfold parameter_text. now destruct (p_name x).
Qed.
Lemma field_names_iff inputs names : field_names inputs = Ok names <-> named field_name inputs names /\ Forall identifier names.
Proof.
  rewrite (@named_iff _ _ field_text) by apply field_name_iff. unfold field_names, mapi.
  apply (@idents_ok _ _ field_text). intros i x. unfold field_text. now destruct (ep_name x).
Qed.
Lemma usable_all names : Forall identifier names -> Forall (fun s => ~ In s reserved_words) names -> Forall usable names.
Proof. intros A B. induction A; inversion B; subst; constructor; [now split|auto]. Qed.
Lemma usable_split names : Forall usable names -> Forall identifier names /\ Forall (fun s => ~ In s reserved_words) names.
Proof. intros F. split; (eapply Forall_impl; [|exact F]); now intros s []. Qed.
Lemma topic_names_iff inputs names n : length names = length inputs ->
  (In n (topic_names inputs names) <-> exists i x, nth_error inputs i = Some x /\ ep_indexed x = true /\ nth_error names i = Some n).
Proof.
  unfold topic_names. revert names. induction inputs as [|x inputs IH]; intros [|m names] L; try discriminate; cbn [combine filter map].
  - split; [intros []|intros ([|i] & ? & E & _); discriminate].
  - injection L as L. specialize (IH names L). cbn [fst]. split.
    + intros I. assert (X : ep_indexed x = true /\ m = n \/ In n (map snd (filter (fun x => ep_indexed (fst x)) (combine inputs names)))).
      { destruct (ep_indexed x); [|now right]. destruct I as [<-|I]; [now left|now right]. }
      destruct X as [[X <-]|X]; [exists 0%nat, x; auto|]. apply IH in X as (i & y & A & B & C). exists (S i), y. auto.
    + intros ([|i] & y & A & B & C); cbn [nth_error] in A, C.
      * injection A as <-. injection C as <-. rewrite B. now left.
      * assert (X : In n (map snd (filter (fun x => ep_indexed (fst x)) (combine inputs names)))) by (apply IH; eauto). destruct (ep_indexed x); [now right|exact X].
Qed.

(** ** Acceptance *)
Lemma kinds_ok A B (k : A -> ParamType) (g : ParamType -> res B) l : (forall t, no_tuple t = true -> exists y, g t = Ok y) ->
  forallb no_tuple (map k l) = true -> exists r, mapM (fun x => g (k x)) l = Ok r.
Proof.
  intros H P. apply mapM_exists. apply Forall_forall. intros x I. apply H. rewrite forallb_forall in P. apply P. now apply in_map.
Qed.
Lemma template_exists t : no_tuple t = true -> exists y, template_param_type t = Ok y.
Proof.
  intros N. pose proof (proj2 (rust_type_ok t) N) as [y E]. destruct t; cbn [template_param_type no_tuple] in *; try (rewrite E; cbn [bind]; eauto; fail).
  all: destruct (proj2 (rust_type_ok t) N) as [y' E']; rewrite E'; cbn [bind]; eauto.
Qed.
Lemma arguments_no_tuples ks : forallb argument_type ks = true -> forallb no_tuple ks = true.
Proof. rewrite !forallb_forall. intros H t I. auto using argument_no_tuple. Qed.
Lemma tokenize_exists inputs : forallb no_tuple (map p_kind inputs) = true -> exists tok, tokenize_params inputs = Ok tok.
Proof.
  intros N. unfold tokenize_params.
  destruct (@mapM_exists Param _ (fun param => do f <- to_token (p_kind param); Ok (fun v => f (from_template_param (p_kind param) v))) inputs) as [r ->]; [|cbn [bind]; eauto].
  apply Forall_forall. intros x I. rewrite forallb_forall in N. destruct (to_token_ok _ (N _ (in_map p_kind _ _ I))) as (f & -> & _). cbn [bind]. eauto.
Qed.
Lemma rust_exists t : no_tuple t = true -> exists y, rust_type t = Ok y. Proof. apply rust_type_ok. Qed.
Lemma to_token_exists t : no_tuple t = true -> exists y, to_token t = Ok y. Proof. intros N. destruct (to_token_ok _ N) as (f & E & _). eauto. Qed.
Lemma from_token_exists t : no_tuple t = true -> exists y, from_token t = Ok y. Proof. intros N. destruct (from_token_ok _ N) as (f & E & _). eauto. Qed.
Definition reserved_free (s : str) : Prop := ~ In s reserved_words.
Lemma free_f : reserved_free (lit "f"). Proof. apply not_keyword. reflexivity. Qed.
Lemma free_function : reserved_free (lit "function"). Proof. apply not_keyword. reflexivity. Qed.
Lemma free_c : reserved_free (lit "c"). Proof. apply not_keyword. reflexivity. Qed.
Lemma free_code : reserved_free (lit "code"). Proof. apply not_keyword. reflexivity. Qed.

Section Profile.
Context (p : profile).
Lemma function_exact f : (exists d, derive_function p f = Ok d) <->
  forallb argument_type (map p_kind (f_inputs f)) = true /\ forallb plain_type (map p_kind (f_outputs f)) = true /\
  (exists names, named parameter_name (f_inputs f) names /\ Forall usable names /\ NoDup (lit "f" :: lit "function" :: names)) /\
  usable (to_snake_case (f_name f)).
Proof.
  split.
  - intros [d E]. pose proof (@derive_function_inv p f d E) as (A & O & _). split; [exact A|]. split; [exact O|]. unfold derive_function in E.
    apply bind_ok in E as (names & En & E). do 7 apply bind_ok in E as (? & _ & E). apply bind_ok in E as (m & Em & E). apply bind_ok in E as (u & Ec & _).
    apply check_ok in Ec as [Ec _]. rewrite !andb_true_iff in Ec. destruct Ec as [[_ D] K]. apply input_names_iff in En as [N I]. apply ident_ok in Em as [-> Im].
    apply declarable_iff in D as [D F]. inversion F as [|? ? _ F']; subst. inversion F' as [|? ? _ F'']; subst. split; [|split; [exact Im|now apply not_keyword]].
    exists names. split; [exact N|]. split; [now apply usable_all|exact D].
  - intros (A & O & (names & N & U & ND) & UM). pose proof (arguments_no_tuples _ A) as NA. pose proof (plain_no_tuples _ O) as NO.
    apply usable_split in U as [UI UR]. destruct UM as [MI MR].
    unfold derive_function. rewrite (proj2 (input_names_iff _ _) (conj N UI)). cbn [bind].
    destruct (@kinds_ok _ _ p_kind _ (f_inputs f) template_exists NA) as [bounds Eb]. rewrite Eb. cbn [bind].
    destruct (@kinds_ok _ _ p_kind _ (f_inputs f) rust_exists NA) as [kinds ->]. cbn [bind].
    destruct (tokenize_exists _ NA) as [tok ->]. cbn [bind].
    destruct (@kinds_ok _ _ p_kind _ (f_outputs f) rust_exists NO) as [results Er]. rewrite Er. cbn [bind].
    destruct (@kinds_ok _ _ p_kind _ (f_outputs f) from_token_exists NO) as [convs ->]. cbn [bind].
    rewrite (proj2 (param_vec_ok (f_inputs f) _) (conj eq_refl NA)). cbn [bind].
    rewrite (proj2 (param_vec_ok (f_outputs f) _) (conj eq_refl NO)). cbn [bind].
    rewrite (proj2 (ident_ok _ _) (conj eq_refl MI)). cbn [bind].
    rewrite (mapM_kinds p_kind template_param_type argument_type bound_compiles _ template_ok Eb), A.
    rewrite (mapM_kinds p_kind rust_type plain_type compiles _ plain_rust Er), O.
    rewrite (proj2 (declarable_iff _)) by (split; [exact ND|constructor; [apply free_f|constructor; [apply free_function|exact UR]]]).
    rewrite (proj2 (not_keyword _) MR). cbn [andb check bind]. eauto.
Qed.
Lemma constructor_exact c : (exists d, derive_constructor p c = Ok d) <->
  forallb argument_type (map p_kind (k_inputs c)) = true /\
  exists names, named parameter_name (k_inputs c) names /\ Forall usable names /\ NoDup (lit "c" :: lit "code" :: names).
Proof.
  split.
  - intros [d E]. pose proof (@derive_constructor_inv p c d E) as (A & _). split; [exact A|]. unfold derive_constructor in E.
    apply bind_ok in E as (names & En & E). do 4 apply bind_ok in E as (? & _ & E). apply bind_ok in E as (u & Ec & _).
    apply check_ok in Ec as [Ec _]. rewrite !andb_true_iff in Ec. destruct Ec as [_ D]. apply input_names_iff in En as [N I].
    apply declarable_iff in D as [D F]. inversion F as [|? ? _ F']; subst. inversion F' as [|? ? _ F'']; subst.
    exists names. split; [exact N|]. split; [now apply usable_all|exact D].
  - intros (A & names & N & U & ND). pose proof (arguments_no_tuples _ A) as NA. apply usable_split in U as [UI UR].
    unfold derive_constructor. rewrite (proj2 (input_names_iff _ _) (conj N UI)). cbn [bind].
    destruct (@kinds_ok _ _ p_kind _ (k_inputs c) template_exists NA) as [bounds Eb]. rewrite Eb. cbn [bind].
    destruct (@kinds_ok _ _ p_kind _ (k_inputs c) rust_exists NA) as [kinds ->]. cbn [bind].
    destruct (tokenize_exists _ NA) as [tok ->]. cbn [bind].
    rewrite (proj2 (param_vec_ok (k_inputs c) _) (conj eq_refl NA)). cbn [bind].
    rewrite (mapM_kinds p_kind template_param_type argument_type bound_compiles _ template_ok Eb), A.
    rewrite (proj2 (declarable_iff _)) by (split; [exact ND|constructor; [apply free_c|constructor; [apply free_code|exact UR]]]).
    cbn [andb check bind]. eauto.
Qed.
Lemma event_exact e : (exists d, derive_event p e = Ok d) <->
  forallb plain_type (map ep_kind (e_inputs e)) = true /\
  (exists names, named field_name (e_inputs e) names /\ Forall usable names /\ NoDup names /\
     forall i x, nth_error (e_inputs e) i = Some x -> ep_indexed x = true -> nth_error names i <> Some (lit "event")) /\
  usable (to_snake_case (e_name e)) /\ usable (to_camel_case (e_name e)).
Proof.
  split.
  - intros [d E]. pose proof (@derive_event_inv p e d E) as (A & _). split; [exact A|]. unfold derive_event in E.
    apply bind_ok in E as (names & En & E). do 5 apply bind_ok in E as (? & _ & E). apply bind_ok in E as (cm & Ecm & E). apply bind_ok in E as (m & Em & E).
    apply bind_ok in E as (u & Ec & _). apply check_ok in Ec as [Ec _]. rewrite !andb_true_iff in Ec. destruct Ec as [[[[_ D] T] K1] K2].
    apply field_names_iff in En as [N I]. apply ident_ok in Em as [-> Im], Ecm as [-> Icm]. apply declarable_iff in D as [D F]. apply not_keyword in K1, K2.
    split; [|now repeat split]. exists names. split; [exact N|]. split; [now apply usable_all|]. split; [exact D|]. intros i y Ex X Ey.
    apply negb_true_iff in T. assert (Y : existsb (str_eqb (lit "event")) (topic_names (e_inputs e) names) = true); [|congruence].
    apply existsb_exists. exists (lit "event"). split; [|apply str_eqb_refl]. apply topic_names_iff; [apply N|eauto].
  - intros (A & (names & N & U & ND & T) & [MI MR] & [CI CR]). pose proof (plain_no_tuples _ A) as NA. apply usable_split in U as [UI UR].
    unfold derive_event. rewrite (proj2 (field_names_iff _ _) (conj N UI)). cbn [bind].
    assert (NT : forallb no_tuple (map ep_kind (filter ep_indexed (e_inputs e))) = true).
    { rewrite forallb_forall in *. intros t I. apply NA. apply in_map_iff in I as (q & <- & I). apply in_map. now apply filter_In in I. }
    assert (NT3 : forallb no_tuple (map ep_kind (firstn 3 (filter ep_indexed (e_inputs e)))) = true).
    { rewrite forallb_forall in *. intros t I. apply NT. apply in_map_iff in I as (q & <- & I). apply in_map.
      revert I. generalize (filter ep_indexed (e_inputs e)). generalize 3%nat. induction n as [|n IH]; intros [|y l] I; cbn in I; try (destruct I; fail). destruct I as [->|I]; [now left|right; auto]. }
    destruct (@kinds_ok _ _ ep_kind _ (e_inputs e) rust_exists NA) as [kinds Ek]. rewrite Ek. cbn [bind].
    destruct (@kinds_ok _ _ ep_kind _ (e_inputs e) from_token_exists NA) as [convs ->]. cbn [bind].
    destruct (@kinds_ok _ _ ep_kind _ _ rust_exists NT) as [tks ->]. cbn [bind].
    destruct (@kinds_ok _ _ ep_kind _ _ to_token_exists NT3) as [tts ->]. cbn [bind].
    assert (EI : exists r, event_inputs (e_inputs e) = Ok r).
    { unfold event_inputs. apply mapM_exists. apply Forall_forall. intros x I. rewrite forallb_forall in NA. specialize (NA _ (in_map ep_kind _ _ I)).
      rewrite (proj2 (to_syntax_ok (ep_kind x) (ep_kind x)) (conj eq_refl NA)). cbn [bind]. eauto. }
    destruct EI as [r ->]. cbn [bind]. rewrite (proj2 (ident_ok _ _) (conj eq_refl CI)). cbn [bind]. rewrite (proj2 (ident_ok _ _) (conj eq_refl MI)). cbn [bind].
    rewrite (mapM_kinds ep_kind rust_type plain_type compiles _ plain_rust Ek), A. rewrite (proj2 (declarable_iff _) (conj ND UR)).
    rewrite (proj2 (not_keyword _) MR), (proj2 (not_keyword _) CR).
    destruct (existsb (str_eqb (lit "event")) (topic_names (e_inputs e) names)) eqn:X; [|cbn [andb negb check bind]; eauto].
    exfalso. apply existsb_exists in X as (n & I & Q). apply str_eqb_eq in Q as <-. apply topic_names_iff in I as (i & x & X1 & X2 & X3); [|apply N]. exact (T i x X1 X2 X3).
Qed.
Lemma mentions_rust n t y : plain_type t = true -> rust_type t = Ok y ->
  (mentions n y = true <-> n = lit "String" /\ string_inside t \/ n = lit "Vec" /\ exists t', t = PArray t').
Proof.
  revert y. induction t using ParamType_ind'; intros y P E; cbn [rust_type plain_type] in *; try discriminate;
    try (injection E as <-; try match goal with |- context [if ?b then _ else _] => destruct b end; cbn [mentions string_inside];
      (split; [discriminate|intros [[_ []]|[_ [? Q]]]; discriminate]); fail).
  - injection E as <-. cbn [mentions string_inside]. rewrite str_eqb_eq. split; [auto|]. intros [[-> _]|[_ [? Q]]]; [reflexivity|discriminate].
  - apply bind_ok in E as (y' & Ey & E). injection E as <-. cbn [mentions string_inside]. rewrite orb_true_iff, str_eqb_eq, (IHt y' P Ey). split.
    + intros [->|[[-> S]|[-> _]]]; [right|left|right]; eauto.
    + intros [[-> S]|[-> _]]; auto.
Qed.
Lemma hides_iff n es des : Forall2 (fun e d => derive_event p e = Ok d) es des ->
  (hides (map de_fields des) n = true <-> exists e q, In e es /\ In q (e_inputs e) /\
     (n = lit "String" /\ string_inside (ep_kind q) \/ n = lit "Vec" /\ exists t, ep_kind q = PArray t)).
Proof.
  unfold hides. induction 1 as [|e d es des D F IH]; cbn [map existsb]; [split; [discriminate|intros (? & ? & [] & _)]|].
  apply derive_event_inv in D as (P & _ & _ & _ & K & _). rewrite orb_true_iff, IH. clear IH F.
  assert (X : existsb (mentions n) (de_fields d) = true <-> exists q, In q (e_inputs e) /\ (n = lit "String" /\ string_inside (ep_kind q) \/ n = lit "Vec" /\ exists t, ep_kind q = PArray t)).
  { apply mapM_ok in K. revert P. induction K as [|q y l r E F IH]; cbn [map existsb forallb]; intros P; [split; [discriminate|intros (? & [] & _)]|].
    apply andb_true_iff in P as [P1 P2]. rewrite orb_true_iff, (IH P2), (mentions_rust n _ P1 E). split.
    - intros [H|(q' & I & H)]; [exists q|exists q']; (split; [|exact H]); [now left|now right].
    - intros (q' & [->|I] & H); [now left|right; eauto]. }
  rewrite X. split.
  - intros [(q & I & H)|(e' & q & I & J & H)]; [exists e, q|exists e', q]; (split; [|split; assumption]); [now left|now right].
  - intros (e' & q & [<-|I] & J & H); [left; eauto|right; eauto 6].
Qed.
Lemma contract_exact c fs es : (exists d, derive_contract p c fs es = Ok d) <->
  (forall k, c_constructor c = Some k -> exists d, derive_constructor p k = Ok d) /\
  Forall (fun f => exists d, derive_function p f = Ok d) (iterate fs) /\ Forall (fun e => exists d, derive_event p e = Ok d) (iterate es) /\
  NoDup (map (fun f => to_snake_case (f_name f)) (iterate fs)) /\ NoDup (map (fun e => to_snake_case (e_name e)) (iterate es)) /\
  NoDup (map (fun e => to_camel_case (e_name e)) (iterate es)) /\
  (forall e e' q, In e (iterate es) -> In e' (iterate es) -> In q (e_inputs e') ->
     ~ (to_camel_case (e_name e) = lit "String" /\ string_inside (ep_kind q)) /\ ~ (to_camel_case (e_name e) = lit "Vec" /\ exists t, ep_kind q = PArray t)).
Proof.
  split.
  - intros [d D]. pose proof (@derived_contract p c fs es d D) as (N1 & N2 & N3 & F & E & K).
    split; [intros k Q; rewrite Q in K; destruct (dc_constructor d); [eauto|destruct K]|].
    split; [clear -F; induction F; constructor; eauto|]. split; [clear -E; induction E; constructor; eauto|]. repeat (split; [assumption|]).
    intros e e' q I I' J. assert (H : hides (map de_fields (dc_events d)) (to_camel_case (e_name e)) = false).
    { unfold derive_contract in D. apply bind_ok in D as (k & _ & D). apply bind_ok in D as (dfs & _ & D). apply bind_ok in D as (des & Ee & D).
      apply check_ok in D as [C ->]. apply andb_true_iff in C as [_ C]. apply negb_true_iff in C. cbn [dc_events].
      destruct (hides (map de_fields des) (to_camel_case (e_name e))) eqn:H; [|reflexivity]. rewrite <- C. symmetry. apply existsb_exists. exists (to_camel_case (e_name e)).
      split; [|exact H]. cbn [dc_events] in E. clear -E I. induction E as [|x y l r Q F IH]; [destruct I|]. destruct I as [->|I]; [left|right; auto].
      apply derive_event_inv in Q as (_ & -> & _). reflexivity. }
    split; intros X; (assert (Y : hides (map de_fields (dc_events d)) (to_camel_case (e_name e)) = true); [|congruence]);
      apply (hides_iff _ E); exists e', q; auto.
  - intros (K & F & E & N1 & N2 & N3 & H). unfold derive_contract.
    assert (Q : exists k, match c_constructor c with None => Ok None | Some k => do d <- derive_constructor p k; Ok (Some d) end = Ok k).
    { destruct (c_constructor c); [destruct (K _ eq_refl) as [d ->]; cbn [bind]; eauto|eauto]. }
    destruct Q as [k ->]. cbn [bind]. apply mapM_exists in F as [dfs Ef], E as [des Ee]. rewrite Ef, Ee. cbn [bind].
    apply mapM_ok in Ef, Ee.
    assert (Q1 : map df_module dfs = map (fun f => to_snake_case (f_name f)) (iterate fs)).
    { clear -Ef. induction Ef as [|f d l r H F IH]; [reflexivity|]. cbn [map]. rewrite IH. apply derive_function_inv in H as (_ & _ & _ & _ & -> & _). reflexivity. }
    assert (Q2 : map de_module des = map (fun e => to_snake_case (e_name e)) (iterate es) /\ map (fun e => e_name (de_event e)) des = map (fun e => to_camel_case (e_name e)) (iterate es)).
    { clear -Ee. induction Ee as [|f d l r H F [IH1 IH2]]; [auto|]. cbn [map]. rewrite IH1, IH2. apply derive_event_inv in H as (_ & -> & -> & _). auto. }
    destruct Q2 as [Q2 Q3]. rewrite Q1, Q2, Q3, !(proj2 (distinct_NoDup _)) by assumption.
    destruct (existsb (hides (map de_fields des)) _) eqn:X; [|cbn [andb negb check]; eauto].
    exfalso. apply existsb_exists in X as (n & I & X). apply (hides_iff _ Ee) in X as (e' & q & I' & J & X). apply in_map_iff in I as (e & <- & I).
    destruct (H e e' q I I' J) as [H1 H2]. destruct X as [X|X]; auto.
Qed.

(** ** Names that are kept *)
Lemma names_kept A (P : nat -> A -> str -> Prop) (name : A -> str) l : (forall i x, In x l -> P i x (name x)) -> named P l (map name l).
Proof.
  intros H. split; [apply map_length|]. intros i x E. exists (name x). split; [now rewrite nth_error_map, E|]. apply H. eapply nth_error_In, E.
Qed.
Lemma function_accepted f : forallb argument_type (map p_kind (f_inputs f)) = true -> forallb plain_type (map p_kind (f_outputs f)) = true ->
  Forall (fun s => snake s /\ usable s) (map p_name (f_inputs f)) -> NoDup (map p_name (f_inputs f)) ->
  ~ In (lit "f") (map p_name (f_inputs f)) -> ~ In (lit "function") (map p_name (f_inputs f)) ->
  snake (f_name f) -> usable (f_name f) -> exists d, derive_function p f = Ok d.
Proof.
  intros A O V ND NF NF' NM U. apply function_exact. split; [exact A|]. split; [exact O|]. rewrite (snake_case_fix NM). split; [|exact U].
  exists (map p_name (f_inputs f)). rewrite Forall_forall in V. split; [|split].
  - apply names_kept. intros i x I. destruct (V _ (in_map p_name _ _ I)) as [S [_ R]]. pose proof (proj1 S) as NE. repeat split; try contradiction.
    + intros Q. destruct R. rewrite Q. apply keyword_iff. reflexivity.
    + intros _ _. now rewrite snake_case_fix.
  - apply Forall_forall. intros s I. apply V, I.
  - constructor; [|now constructor]. intros [Q|I]; [discriminate|contradiction].
Qed.
Lemma event_accepted e : forallb plain_type (map ep_kind (e_inputs e)) = true ->
  Forall (fun s => snake s /\ usable s) (map ep_name (e_inputs e)) -> NoDup (map ep_name (e_inputs e)) ->
  ~ In (lit "event") (map ep_name (e_inputs e)) -> usable (to_snake_case (e_name e)) -> camel (e_name e) -> usable (e_name e) ->
  exists d, derive_event p e = Ok d.
Proof.
  intros A V ND NE NM C U. apply event_exact. split; [exact A|]. rewrite (proj2 (camel_case_iff _) C). split; [|now split].
  exists (map ep_name (e_inputs e)). rewrite Forall_forall in V. split; [|split; [|split]].
  - apply names_kept. intros i x I. destruct (V _ (in_map ep_name _ _ I)) as [S [_ R]]. pose proof (proj1 S) as NE'. repeat split; try contradiction.
    intros _. now rewrite snake_case_fix.
  - apply Forall_forall. intros s I. apply V, I.
  - exact ND.
  - intros i x Ex _ En. apply NE. eapply nth_error_In, En.
Qed.
(** ** Names that are not taken *)
Lemma named_in A (P : nat -> A -> str -> Prop) l names x : named P l names -> In x l -> exists i n, P i x n /\ In n names.
Proof. intros [_ N] I. apply In_nth_error in I as [i E]. destruct (N _ _ E) as (n & En & H). exists i, n. split; [exact H|eapply nth_error_In, En]. Qed.
Lemma function_refused f x : In x (f_inputs f) -> p_name x = lit "f" \/ p_name x = lit "function" -> forall d, derive_function p f <> Ok d.
Proof.
  intros I N d E. assert (X : exists d, derive_function p f = Ok d) by eauto. apply function_exact in X as (_ & _ & (names & NM & _ & ND) & _).
  destruct (named_in _ NM I) as (i & n & H & In). apply parameter_name_iff in H. unfold parameter_text in H.
  inversion ND as [|? ? N1 ND1]; subst. inversion ND1 as [|? ? N2 _]; subst. destruct N as [N|N]; rewrite N in In; [apply N1; right|apply N2]; exact In.
Qed.
Lemma constructor_refused c x : In x (k_inputs c) -> p_name x = lit "c" \/ p_name x = lit "code" -> forall d, derive_constructor p c <> Ok d.
Proof.
  intros I N d E. assert (X : exists d, derive_constructor p c = Ok d) by eauto. apply constructor_exact in X as (_ & (names & NM & _ & ND)).
  destruct (named_in _ NM I) as (i & n & H & In). apply parameter_name_iff in H. unfold parameter_text in H.
  inversion ND as [|? ? N1 ND1]; subst. inversion ND1 as [|? ? N2 _]; subst. destruct N as [N|N]; rewrite N in In; [apply N1; right|apply N2]; exact In.
Qed.
Lemma event_refused e x : In x (e_inputs e) -> ep_indexed x = true /\ ep_name x = lit "event" \/ ep_name x = lit "self" -> forall d, derive_event p e <> Ok d.
Proof.
  intros I N d E. assert (X : exists d, derive_event p e = Ok d) by eauto. apply event_exact in X as (_ & (names & NM & U & _ & T) & _).
  apply In_nth_error in I as [i Ei]. destruct (proj2 NM _ _ Ei) as (n & En & H). apply field_name_iff in H. unfold field_text in H.
  destruct N as [[X N]|N]; rewrite N in H.
  - apply (T i x Ei X). now rewrite En, H.
  - rewrite Forall_forall in U. destruct (U n (nth_error_In _ _ En)) as [_ R]. apply R. rewrite H. apply keyword_iff. reflexivity.
Qed.
End Profile.

Lemma strip_names l : map p_name (map strip l) = map p_name l.
Proof. rewrite map_map. now apply map_ext. Qed.
Lemma derived_function_same p f d : derive_function p f = Ok d ->
  f_name (df_function d) = f_name f /\ f_constant (df_function d) = f_constant f /\ f_state_mutability (df_function d) = f_state_mutability f /\
  map p_name (f_inputs (df_function d)) = map p_name (f_inputs f) /\ map p_kind (f_inputs (df_function d)) = map p_kind (f_inputs f) /\
  map p_name (f_outputs (df_function d)) = map p_name (f_outputs f) /\ map p_kind (f_outputs (df_function d)) = map p_kind (f_outputs f).
Proof. intros D. apply derive_function_inv in D as (_ & _ & -> & _). cbn [f_name f_constant f_state_mutability f_inputs f_outputs]. now rewrite !strip_names, !strip_kinds. Qed.
Lemma derived_constructor_same p c d : derive_constructor p c = Ok d ->
  map p_name (k_inputs (dk_constructor d)) = map p_name (k_inputs c) /\ map p_kind (k_inputs (dk_constructor d)) = map p_kind (k_inputs c).
Proof. intros D. apply derive_constructor_inv in D as (_ & -> & _). cbn [k_inputs]. now rewrite !strip_names, !strip_kinds. Qed.
Lemma derived_entries p c fs es d : derive_contract p c fs es = Ok d ->
  Forall2 (fun f d => derive_function p f = Ok d) (iterate fs) (dc_functions d) /\
  Forall2 (fun e d => derive_event p e = Ok d) (iterate es) (dc_events d) /\
  match c_constructor c, dc_constructor d with Some k, Some dk => derive_constructor p k = Ok dk | None, None => True | _, _ => False end.
Proof. intros D. now apply derived_contract in D as (_ & _ & _ & D). Qed.
Lemma function_types p f d : derive_function p f = Ok d ->
  forallb argument_type (map p_kind (f_inputs f)) = true /\ forallb plain_type (map p_kind (f_outputs f)) = true.
Proof. intros D. apply derive_function_inv in D as (A & B & _). auto. Qed.
Lemma event_types p e d : derive_event p e = Ok d -> forallb plain_type (map ep_kind (e_inputs e)) = true.
Proof. intros D. now apply derive_event_inv in D as (A & _). Qed.

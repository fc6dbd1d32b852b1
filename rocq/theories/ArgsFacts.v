(** * The argument parser accepts exactly the lines of ArgsSpec.v *)
From Verif Require Import Base BaseFacts StrFacts Types AbiSpec TypeNames TypeNamesSpec Encoder Decoder Function FunctionFacts Tokenizer TokenSpec TokenFacts
  Json Contract JsonText JsonTextFacts JsonTextLoad Cli CliSpec CliFacts CliCommands Args ArgsSpec.
From Coq Require Import String Lia.
Set Implicit Arguments.
Local Open Scope N_scope.
Local Open Scope list_scope.
Notation length := List.length.

Section Exact.
Context (c : command).
Hypothesis N0 : c_values c <> O.
Hypothesis Letter : forall o, c_letter c = Some o -> o <> 45 /\ (c_lenient c = true -> o <> 108).
Let n := c_values c.
Notation line := (line (c_letter c) n (c_hyphens c) (c_lenient c)).
Notation option_word := (option_word (c_letter c) (c_lenient c)).
Notation may_be_value := (may_be_value (c_hyphens c)).
Notation wanted := (wanted n).
Definition give (st : seen) (b : bool) (vs : list str) (f : nat) (ps : list str) : seen :=
  mkSeen b (trailing st) (values st ++ vs) (lenients st + f) (positionals st ++ ps).

Lemma bare_new st arg : is_new_arg c st arg = true <-> ~ bare arg /\ (needs st && c_hyphens c = false).
Proof.
  unfold is_new_arg, bare. destruct (needs st && c_hyphens c); [split; [discriminate|intros [_ H]; discriminate]|].
  destruct arg as [|x [|y r]].
  - split; [discriminate|]. intros [H _]. exfalso. apply H. intros ? ? E; discriminate.
  - split; [discriminate|]. intros [H _]. exfalso. apply H. intros ? ? E; discriminate.
  - rewrite N.eqb_eq. unfold hyphen. split.
    + intros ->. split; [|reflexivity]. intros H. exact (H _ _ eq_refl).
    + intros [H _]. destruct (N.eq_dec x 45) as [|Ne]; [assumption|]. exfalso. apply H. intros ? ? E. injection E as E _ _. contradiction.
Qed.
Lemma bare_dec w : bare w \/ exists x r, w = 45 :: x :: r.
Proof.
  destruct w as [|x [|y r]]; [left; intros ? ? E; discriminate|left; intros ? ? E; discriminate|].
  destruct (N.eq_dec x 45) as [->|Ne]; [right; eauto|left]. intros ? ? E. injection E as E _ _. contradiction.
Qed.
Lemma wanted_pos k : (0 < wanted k)%nat.
Proof. unfold ArgsSpec.wanted. pose proof (Nat.mod_upper_bound k n N0). lia. Qed.
Lemma more_vals vals : needs_more_vals c vals = true <-> (length vals mod n <> 0)%nat.
Proof. unfold needs_more_vals. fold n. rewrite negb_true_iff, Nat.eqb_neq. reflexivity. Qed.
(** One more value: either it completes the use of the option or one fewer is wanted. *)
Lemma wanted_S k : (wanted k = 1 /\ (S k mod n = 0) \/ (1 < wanted k /\ S k mod n <> 0 /\ wanted (S k) = wanted k - 1))%nat.
Proof.
  unfold ArgsSpec.wanted. pose proof (Nat.mod_upper_bound k n N0) as B. pose proof (Nat.div_mod k n N0) as D.
  destruct (Nat.eq_dec (k mod n) (n - 1)) as [E|E].
  - left. split; [lia|]. replace (S k) with ((k / n + 1) * n)%nat by nia. now apply Nat.mod_mul.
  - right. assert (M : (S k mod n = S (k mod n))%nat).
    { symmetry. apply Nat.mod_unique with (q := (k / n)%nat); lia. }
    rewrite M. lia.
Qed.

(** ** Values *)
Lemma loop_values st us rest : needs st = true -> trailing st = false -> Forall may_be_value us ->
  (length us <= wanted (length (values st)))%nat ->
  parse_loop c st (us ++ rest) = parse_loop c (mkSeen (length us <? wanted (length (values st)))%nat false (values st ++ us) (lenients st) (positionals st)) rest.
Proof.
  revert st. induction us as [|u us IH]; intros st Ns Tr F L.
  - cbn [app length]. rewrite app_nil_r. assert (E : (0 <? wanted (length (values st)))%nat = true) by (apply Nat.ltb_lt, wanted_pos).
    rewrite E. destruct st as [ne t v l ps]. cbn [needs trailing] in *. subst. reflexivity.
  - inversion F as [|? ? V F']; subst. cbn [app parse_loop length] in *. unfold parse_arg. rewrite Tr.
    destruct (is_new_arg c st u) eqn:I.
    { apply bare_new in I as [B H]. rewrite Ns in H. cbn in H. destruct V as [V|V]; [congruence|contradiction]. }
    rewrite Ns. unfold add_val.
    destruct (wanted_S (length (values st))) as [[W M]|(W & M & W')].
    + assert (us = []) by (destruct us; [reflexivity|cbn [length] in L; lia]). subst us. cbn [app length]. f_equal. rewrite Tr. f_equal.
      destruct (needs_more_vals c (values st ++ [u])) eqn:E.
      { apply more_vals in E. rewrite app_length, Nat.add_1_r in E. contradiction. }
      symmetry. apply Nat.ltb_ge. lia.
    + rewrite IH; cbn [needs trailing values lenients positionals].
      * rewrite app_length, Nat.add_1_r, W', <- app_assoc. cbn [app length]. f_equal. f_equal.
        apply Bool.eq_iff_eq_true. rewrite !Nat.ltb_lt. lia.
      * apply more_vals. now rewrite app_length, Nat.add_1_r.
      * exact Tr.
      * exact F'.
      * rewrite app_length, Nat.add_1_r, W'. lia.
Qed.

(** ** Words *)
Lemma short_flags st j r : c_lenient c = true \/ j = O ->
  parse_short c st (run 108 j ++ r) = parse_short c (mkSeen (needs st) (trailing st) (values st) (lenients st + j) (positionals st)) r.
Proof.
  intros H. revert st H. induction j as [|j IH]; intros st H.
  - cbn [run repeat app]. rewrite Nat.add_0_r. now destruct st.
  - destruct H as [H|H]; [|discriminate]. cbn [run repeat app parse_short].
    replace (match c_letter c with Some o => 108 =? o | None => false end) with false.
    + rewrite H, N.eqb_refl. cbn [andb]. change (repeat 108 j) with (run 108 j). rewrite IH by now left. cbn [needs trailing values lenients positionals].
      now rewrite Nat.add_succ_r.
    + destruct (c_letter c) as [o|] eqn:E; [|reflexivity]. symmetry. apply N.eqb_neq. intros <-. now apply (proj2 (Letter eq_refl)) in H.
Qed.
Lemma short_option st o r : c_letter c = Some o -> parse_short c st (o :: r) = Some (parse_opt c st r).
Proof. intros E. cbn [parse_short]. now rewrite E, N.eqb_refl. Qed.

Lemma new_word st x r : needs st && c_hyphens c = false -> is_new_arg c st (45 :: x :: r) = true.
Proof. intros H. apply bare_new. split; [|exact H]. intros B. exact (B _ _ eq_refl). Qed.
Lemma word_short st x r : x <> 45 -> trailing st = false -> needs st && c_hyphens c = false -> parse_arg c st (45 :: x :: r) = parse_short c st (x :: r).
Proof.
  intros Nx Tr H. unfold parse_arg. rewrite Tr, new_word by exact H.
  assert (E : starts_with (45 :: x :: r) (lit "--") = false).
  { change (lit "--") with [45; 45]. cbn [starts_with]. rewrite (proj2 (N.eqb_neq 45 x)) by congruence. reflexivity. }
  assert (E' : str_eqb (45 :: x :: r) (lit "--") = false).
  { destruct (str_eqb (45 :: x :: r) (lit "--")) eqn:Q; [|reflexivity]. apply str_eqb_eq in Q. change (lit "--") with [45; 45] in Q. congruence. }
  rewrite E', E. reflexivity.
Qed.
Lemma trim_run ch i u : (forall y r, u = y :: r -> y <> ch) -> trim_left ch (run ch i ++ u) = u.
Proof.
  intros H. induction i as [|i IH]; cbn [run repeat app trim_left].
  - destruct u as [|y r]; [reflexivity|]. cbn [trim_left]. rewrite (proj2 (N.eqb_neq y ch)); [reflexivity|]. exact (H _ _ eq_refl).
  - rewrite N.eqb_refl. exact IH.
Qed.
Lemma trim_split ch s : exists i u, s = run ch i ++ u /\ (forall y r, u = y :: r -> y <> ch).
Proof.
  induction s as [|x s (i & u & -> & H)].
  - exists O, []. split; [reflexivity|]. intros ? ? E; discriminate.
  - destruct (N.eq_dec x ch) as [->|Ne].
    + exists (S i), u. auto.
    + exists O, (x :: run ch i ++ u). split; [reflexivity|]. intros ? ? E. injection E as <- _. exact Ne.
Qed.
Lemma before_split ch s : exists x, s = before ch s ++ x /\ (forall y r, x = y :: r -> y = ch).
Proof.
  induction s as [|y s (x & E & H)].
  - exists []. split; [reflexivity|]. intros ? ? E; discriminate.
  - cbn [before]. destruct (N.eqb_spec y ch) as [->|Ne].
    + exists (ch :: s). split; [reflexivity|]. intros ? ? E'. now injection E' as <- _.
    + exists x. split; [cbn [app]; now rewrite <- E|exact H].
Qed.
Lemma before_app ch a x : ~ In ch a -> (forall y r, x = y :: r -> y = ch) -> before ch (a ++ x) = a.
Proof.
  intros Ni H. induction a as [|y a IH]; cbn [app before].
  - destruct x as [|y r]; [reflexivity|]. cbn [before]. rewrite (H _ _ eq_refl), N.eqb_refl. reflexivity.
  - rewrite (proj2 (N.eqb_neq y ch)) by (intros ->; apply Ni; now left). f_equal. apply IH. intros I. apply Ni. now right.
Qed.
Lemma lenient_chars : ~ In 61 (lit "lenient") /\ forall y r, lit "lenient" = y :: r -> y <> 45.
Proof. split; [vm_compute; intuition discriminate|]. intros y r E. apply (f_equal (hd 0)) in E. cbn [hd] in E. rewrite <- E. vm_compute. discriminate. Qed.

(** What a word after the first of its letters does. *)
Lemma short_cases st s st' : parse_short c st s = Some st' ->
  (exists j, (c_lenient c = true \/ j = O) /\ s = run 108 j /\ st' = mkSeen false (trailing st) (values st) (lenients st + j) (positionals st)) \/
  (exists j o r, (c_lenient c = true \/ j = O) /\ c_letter c = Some o /\ s = run 108 j ++ o :: r /\
     st' = parse_opt c (mkSeen (needs st) (trailing st) (values st) (lenients st + j) (positionals st)) r).
Proof.
  revert st. induction s as [|x s IH]; intros st E; cbn [parse_short] in E.
  - injection E as <-. left. exists O. rewrite Nat.add_0_r. auto.
  - destruct (match c_letter c with Some o => x =? o | None => false end) eqn:M.
    + injection E as <-. right. destruct (c_letter c) as [o|] eqn:Lo; [|discriminate]. apply N.eqb_eq in M. subst x.
      exists O, o, s. rewrite Nat.add_0_r. repeat split; auto.
    + destruct (c_lenient c && (x =? 108)) eqn:M'; [|discriminate]. apply andb_true_iff in M' as [Le X]. apply N.eqb_eq in X. subst x.
      apply IH in E as [(j & H & -> & ->)|(j & o & r & H & Lo & -> & ->)]; cbn [needs trailing values lenients positionals]; [left|right].
      * exists (S j). rewrite Nat.add_succ_r. repeat split; auto.
      * exists (S j), o, r. rewrite Nat.add_succ_r. repeat split; auto.
Qed.
Lemma opt_alone st : parse_opt c st [] = mkSeen true (trailing st) (values st) (lenients st) (positionals st).
Proof. reflexivity. Qed.
Lemma opt_attached st x u : x <> 61 ->
  parse_opt c st (x :: u) = mkSeen (needs_more_vals c (values st ++ [x :: u])) (trailing st) (values st ++ [x :: u]) (lenients st) (positionals st).
Proof.
  intros Nx. unfold parse_opt, add_val. cbn [trim_left]. rewrite (proj2 (N.eqb_neq x equals)) by exact Nx. reflexivity.
Qed.
Lemma opt_equals st i u : (forall y r, u = y :: r -> y <> 61) ->
  parse_opt c st (run 61 (S i) ++ u) = mkSeen false (trailing st) (values st ++ [u]) (lenients st) (positionals st).
Proof.
  intros H. pose proof (@trim_run 61 (S i) u H) as E. unfold parse_opt. destruct (run 61 (S i) ++ u) as [|x r] eqn:R; [discriminate|].
  assert (x = 61) by (cbn [run repeat app] in R; injection R as <- _; reflexivity). subst x. change equals with 61. rewrite E. reflexivity.
Qed.
Lemma more_attached k u (vals : list str) : length vals = k -> needs_more_vals c (vals ++ [u]) = (1 <? wanted k)%nat.
Proof.
  intros <-. apply Bool.eq_iff_eq_true. rewrite more_vals, Nat.ltb_lt, app_length, Nat.add_1_r.
  destruct (wanted_S (length vals)) as [[W M]|(W & M & W')]; split; intros; try lia; congruence.
Qed.
Lemma word_option st w j a : option_word w j a -> trailing st = false -> needs st && c_hyphens c = false ->
  parse_arg c st w = Some (mkSeen (length a <? wanted (length (values st)))%nat false (values st ++ a) (lenients st + j) (positionals st)).
Proof.
  intros O Tr H. destruct O as [o j Lo F|o j x u Lo F Nx].
  - assert (E : parse_arg c st (45 :: run 108 j ++ [o]) = parse_short c st (run 108 j ++ [o])).
    { destruct j as [|j]; cbn [run repeat app]; apply word_short; auto; [apply (Letter Lo)|discriminate]. }
    rewrite E, short_flags, (@short_option _ o) by assumption. rewrite opt_alone. cbn [needs trailing values lenients positionals length].
    rewrite app_nil_r, Tr. rewrite (proj2 (Nat.ltb_lt 0 _)) by apply wanted_pos. reflexivity.
  - assert (E : parse_arg c st (45 :: run 108 j ++ o :: x :: u) = parse_short c st (run 108 j ++ o :: x :: u)).
    { destruct j as [|j]; cbn [run repeat app]; apply word_short; auto; [apply (Letter Lo)|discriminate]. }
    rewrite E, short_flags, (@short_option _ o) by assumption. rewrite opt_attached by exact Nx. cbn [needs trailing values lenients positionals length].
    rewrite Tr, (@more_attached (length (values st))) by reflexivity. reflexivity.
Qed.
Lemma word_equals st o j i u : c_letter c = Some o -> c_lenient c = true \/ j = O -> (forall y r, u = y :: r -> y <> 61) ->
  trailing st = false -> needs st && c_hyphens c = false ->
  parse_arg c st (45 :: run 108 j ++ o :: run 61 (S i) ++ u) = Some (mkSeen false false (values st ++ [u]) (lenients st + j) (positionals st)).
Proof.
  intros Lo F Hu Tr H.
  assert (E : parse_arg c st (45 :: run 108 j ++ o :: run 61 (S i) ++ u) = parse_short c st (run 108 j ++ o :: run 61 (S i) ++ u)).
  { destruct j as [|j]; cbn [run repeat app]; apply word_short; auto; [apply (Letter Lo)|discriminate]. }
  rewrite E, short_flags, (@short_option _ o) by assumption. rewrite opt_equals by exact Hu. cbn [needs trailing values lenients positionals]. now rewrite Tr.
Qed.
Lemma word_flags st j : c_lenient c = true -> trailing st = false -> needs st && c_hyphens c = false ->
  parse_arg c st (45 :: run 108 (S j)) = Some (mkSeen false false (values st) (lenients st + S j) (positionals st)).
Proof.
  intros Le Tr H. assert (E : parse_arg c st (45 :: run 108 (S j)) = parse_short c st (run 108 (S j) ++ [])).
  { rewrite app_nil_r. cbn [run repeat]. apply word_short; auto. discriminate. }
  rewrite E, short_flags by now left. cbn [parse_short trailing values lenients positionals]. now rewrite Tr.
Qed.
Lemma word_long st h x : c_lenient c = true -> (forall y r, x = y :: r -> y = 61) -> trailing st = false -> needs st && c_hyphens c = false ->
  parse_arg c st (run 45 (2 + h) ++ lit "lenient" ++ x) = Some (mkSeen false false (values st) (S (lenients st)) (positionals st)).
Proof.
  intros Le Hx Tr H. destruct lenient_chars as [C1 C2].
  assert (T : trim_left hyphen (run 45 (2 + h) ++ lit "lenient" ++ x) = lit "lenient" ++ x).
  { apply trim_run. intros y r E. destruct (lit "lenient") as [|z l] eqn:L; [discriminate|]. injection E as <- _. exact (C2 _ _ eq_refl). }
  unfold parse_arg. rewrite Tr. cbn [run repeat app Nat.add] in *. rewrite new_word by exact H.
  assert (E : starts_with (45 :: 45 :: repeat 45 h ++ lit "lenient" ++ x) (lit "--") = true).
  { change (lit "--") with [45; 45]. cbn [starts_with]. rewrite N.eqb_refl. now destruct (repeat 45 h ++ lit "lenient" ++ x). }
  assert (E' : str_eqb (45 :: 45 :: repeat 45 h ++ lit "lenient" ++ x) (lit "--") = false).
  { destruct (str_eqb _ (lit "--")) eqn:Q; [|reflexivity]. apply str_eqb_eq in Q. change (lit "--") with [45; 45] in Q.
    injection Q as Q. apply app_eq_nil in Q as [_ Q]. discriminate. }
  rewrite E', E. unfold parse_long. rewrite T, Le, before_app by assumption. rewrite (proj2 (str_eqb_eq _ _) eq_refl). cbn [andb]. now rewrite Tr.
Qed.
Lemma trailing_loop st ws : trailing st = true -> (length (positionals st) + length ws <= c_positionals c)%nat ->
  parse_loop c st ws = Some (mkSeen (needs st) true (values st) (lenients st) (positionals st ++ ws)).
Proof.
  revert st. induction ws as [|w ws IH]; intros st Tr L; cbn [parse_loop length] in *.
  - rewrite app_nil_r. destruct st as [ne tr va le po]. cbn [trailing] in Tr. now subst.
  - unfold parse_arg. rewrite Tr. rewrite (proj2 (Nat.ltb_lt _ _)) by lia. rewrite IH; cbn [needs trailing values lenients positionals].
    + now rewrite <- app_assoc.
    + reflexivity.
    + rewrite app_length. cbn [length]. lia.
Qed.
Lemma trailing_inv st ws fin : trailing st = true -> parse_loop c st ws = Some fin ->
  fin = mkSeen (needs st) true (values st) (lenients st) (positionals st ++ ws).
Proof.
  revert st. induction ws as [|w ws IH]; intros st Tr E; cbn [parse_loop] in E.
  - injection E as <-. rewrite app_nil_r. destruct st as [ne tr va le po]. cbn [trailing] in Tr. now subst.
  - unfold parse_arg in E. rewrite Tr in E. destruct (_ <? _)%nat; [|discriminate]. apply IH in E; [|reflexivity]. rewrite E. cbn [needs trailing values lenients positionals].
    now rewrite <- app_assoc.
Qed.
Lemma word_rest st : trailing st = false -> needs st && c_hyphens c = false ->
  parse_arg c st (lit "--") = Some (mkSeen (needs st) true (values st) (lenients st) (positionals st)).
Proof. intros Tr H. unfold parse_arg. rewrite Tr. change (lit "--") with [45; 45]. rewrite new_word by exact H. reflexivity. Qed.
Lemma word_bare st w : bare w -> trailing st = false -> needs st = false ->
  parse_arg c st w = if (length (positionals st) <? c_positionals c)%nat then Some (mkSeen false false (values st) (lenients st) (positionals st ++ [w])) else None.
Proof.
  intros B Tr Ns. unfold parse_arg. rewrite Tr. destruct (is_new_arg c st w) eqn:I; [apply bare_new in I as [I _]; contradiction|]. rewrite Ns. reflexivity.
Qed.

(** An option with values. *)
Lemma wanted_less k (a : list str) : (length a < wanted k)%nat -> (length a <= 1)%nat -> (wanted (k + length a) + length a = wanted k)%nat.
Proof.
  intros L1 L2. destruct a as [|x [|]]; cbn [length] in *; [rewrite !Nat.add_0_r; reflexivity| |lia].
  destruct (wanted_S k) as [[W M]|(W & M & W')]; [lia|]. replace (k + 1)%nat with (S k) by lia. lia.
Qed.
Lemma attached_one w j a : option_word w j a -> (length a <= 1)%nat.
Proof. intros []; cbn; lia. Qed.
Lemma loop_option st w j a us rest : option_word w j a -> Forall may_be_value us -> trailing st = false -> needs st && c_hyphens c = false ->
  (length (a ++ us) <= wanted (length (values st)))%nat ->
  parse_loop c st (w :: us ++ rest) = parse_loop c (mkSeen (length (a ++ us) <? wanted (length (values st)))%nat false (values st ++ a ++ us) (lenients st + j) (positionals st)) rest.
Proof.
  intros O F Tr H L. cbn [parse_loop]. rewrite (@word_option st _ _ _ O Tr H). rewrite app_length in *. pose proof (attached_one O) as L1.
  destruct (length a <? wanted (length (values st)))%nat eqn:E.
  - apply Nat.ltb_lt in E. pose proof (wanted_less _ _ E L1) as S2. rewrite loop_values; cbn [needs trailing values lenients positionals]; auto.
    + rewrite !app_length, <- app_assoc. f_equal. f_equal. apply Bool.eq_iff_eq_true. rewrite !Nat.ltb_lt. lia.
    + rewrite app_length. lia.
  - apply Nat.ltb_ge in E. assert (us = []) by (destruct us; [reflexivity|cbn [length] in L; lia]). subst us. cbn [app length] in *. rewrite app_nil_r, Nat.add_0_r.
    rewrite (proj2 (Nat.ltb_ge _ _)) by lia. reflexivity.
Qed.

(** ** Lines are accepted *)
Definition ready (st : seen) (args : list str) : Prop :=
  needs st = false \/ c_hyphens c = false /\ match args with x :: _ => ~ bare x /\ (x = lit "--" -> values st <> []) | [] => False end.
Lemma ready_new st args : ready st args -> needs st && c_hyphens c = false.
Proof. intros [->|[-> _]]; [reflexivity|apply andb_false_r]. Qed.
Lemma line_parses k args vs f ps : line k args vs f ps -> forall st, ready st args -> trailing st = false -> length (values st) = k ->
  (length (positionals st) + length ps <= c_positionals c)%nat ->
  exists b t, parse_loop c st args = Some (mkSeen b t (values st ++ vs) (lenients st + f) (positionals st ++ ps)) /\ (b = true -> values st ++ vs <> []).
Proof.
  induction 1 as [k|k ws|k w args vs f ps B L IH|k j args vs f ps Le L IH|k h x args vs f ps Le Hx L IH|k w j a us args vs f ps O F Ln L IH|
    k o j i u args vs f ps Lo Hf Hu L IH|k w j a us x args vs f ps O F Hy Ln Nb Z L IH|k w j a us O F Ln Z]; intros st R Tr K P; pose proof (ready_new R) as Nw.
  - exists (needs st), false. cbn [parse_loop]. rewrite !app_nil_r, Nat.add_0_r. destruct R as [R|[_ []]]. split; [|rewrite R; discriminate]. destruct st as [ne tr va le po]; cbn [trailing] in Tr; now subst.
  - cbn [parse_loop]. rewrite (@word_rest st Tr Nw). rewrite trailing_loop; cbn [needs trailing values lenients positionals]; auto.
    exists (needs st), true. rewrite app_nil_r, Nat.add_0_r. split; [reflexivity|]. destruct R as [R|[_ [_ R]]]; [rewrite R; discriminate|auto].
  - destruct R as [R|[_ [R _]]]; [|contradiction]. cbn [parse_loop]. rewrite (@word_bare st _ B Tr R). cbn [length] in P. rewrite (proj2 (Nat.ltb_lt _ _)) by lia.
    match goal with |- context [parse_loop c ?s _] => destruct (IH s) as (b & t & E & V) end; [left; reflexivity|reflexivity|exact K| |].
    { cbn [positionals]. rewrite app_length. cbn [length]. lia. }
    exists b, t. rewrite E. cbn [needs trailing values lenients positionals] in *. rewrite <- app_assoc. auto.
  - cbn [parse_loop]. rewrite (@word_flags st j Le Tr Nw). match goal with |- context [parse_loop c ?s _] => destruct (IH s) as (b & t & E & V) end; [left; reflexivity|reflexivity|exact K|exact P|].
    exists b, t. rewrite E. cbn [needs trailing values lenients positionals] in *. rewrite Nat.add_assoc. auto.
  - cbn [parse_loop]. rewrite (@word_long st h _ Le Hx Tr Nw). match goal with |- context [parse_loop c ?s _] => destruct (IH s) as (b & t & E & V) end; [left; reflexivity|reflexivity|exact K|exact P|].
    exists b, t. rewrite E. cbn [needs trailing values lenients positionals] in *. rewrite Nat.add_succ_r. auto.
  - rewrite loop_option with (j := j) (a := a) by (auto; rewrite K; lia). rewrite K, (proj2 (Nat.ltb_ge _ _)) by lia.
    match goal with |- context [parse_loop c ?s _] => destruct (IH s) as (b & t & E & V) end; [left; reflexivity|reflexivity| |exact P|].
    { cbn [values]. rewrite app_length, K, Ln. reflexivity. }
    exists b, t. rewrite E. cbn [needs trailing values lenients positionals] in *. rewrite <- !app_assoc, Nat.add_assoc in *. auto.
  - cbn [parse_loop]. rewrite (@word_equals st o j i u Lo Hf Hu Tr Nw). match goal with |- context [parse_loop c ?s _] => destruct (IH s) as (b & t & E & V) end; [left; reflexivity|reflexivity| |exact P|].
    { cbn [values]. rewrite app_length, K. reflexivity. }
    exists b, t. rewrite E. cbn [needs trailing values lenients positionals] in *. rewrite <- app_assoc, Nat.add_assoc in *. auto.
  - rewrite loop_option with (j := j) (a := a) by (auto; rewrite K; lia). 
    match goal with |- context [parse_loop c ?s _] => destruct (IH s) as (b & t & E & V) end; [| | |exact P|].
    4: { exists b, t. rewrite E. cbn [needs trailing values lenients positionals] in *. rewrite <- !app_assoc, Nat.add_assoc in *. auto. }
    + right. split; [exact Hy|]. split; [exact Nb|]. cbn [values]. intros X. specialize (Z X). intros Y. apply (f_equal (@length _)) in Y.
      rewrite app_length, K in Y. cbn [length] in Y. lia.
    + reflexivity.
    + cbn [values]. rewrite app_length, K. reflexivity.
  - exists true, false. split; [|intros _ Y; apply (f_equal (@length _)) in Y; rewrite app_length, K in Y; cbn [length] in Y; lia].
    pose proof (@loop_option st w j a us [] O F Tr Nw ltac:(rewrite K; lia)) as E. rewrite app_nil_r in E. rewrite E. cbn [parse_loop].
    rewrite K, (proj2 (Nat.ltb_lt _ _)) by exact Ln. now rewrite app_nil_r.
Qed.

(** ** Only lines are accepted *)
(** As many values as an option gets. *)
Lemma split_values m (args : list str) : exists us rest, args = us ++ rest /\ Forall may_be_value us /\ (length us <= m)%nat /\
  (length us = m \/ rest = [] \/ exists x rest', rest = x :: rest' /\ c_hyphens c = false /\ ~ bare x).
Proof.
  revert args. induction m as [|m IH]; intros args.
  - exists [], args. repeat split; auto.
  - destruct args as [|x args]; [exists [], []; cbn [length]; repeat split; auto; lia|].
    assert (D : may_be_value x \/ (c_hyphens c = false /\ ~ bare x)).
    { unfold ArgsSpec.may_be_value. destruct (c_hyphens c); [now left; left|]. destruct (bare_dec x) as [B|(y & r & ->)]; [left; now right|right]. split; [reflexivity|].
      intros B. exact (B _ _ eq_refl). }
    destruct D as [V|[Hy Nb]].
    + destruct (IH args) as (us & rest & -> & F & L & D). exists (x :: us), rest. cbn [length app]. repeat split; [now constructor|lia|]. destruct D as [D|D]; [left; lia|right; exact D].
    + exists [], (x :: args). cbn [length]. repeat split; [constructor|lia|]. right. right. eauto.
Qed.
Definition given (st fin : seen) (vs : list str) (f : nat) (ps : list str) : Prop :=
  values fin = values st ++ vs /\ lenients fin = (lenients st + f)%nat /\ positionals fin = positionals st ++ ps.
Lemma parse_line m args : (length args <= m)%nat -> forall st fin,
  needs st = false \/ (c_hyphens c = false /\ exists x r, args = x :: r /\ ~ bare x) -> trailing st = false ->
  parse_loop c st args = Some fin -> (needs fin = true -> values fin <> []) ->
  exists vs f ps, line (length (values st)) args vs f ps /\ given st fin vs f ps.
Proof.
  revert args. induction m as [|m IH]; intros args Lm st fin R Tr E Z.
  - destruct args; [|cbn [length] in Lm; lia]. destruct R as [R|[_ (x & r & R & _)]]; [|discriminate]. injection E as <-. exists [], O, [].
    split; [constructor|]. unfold given. rewrite !app_nil_r, Nat.add_0_r. auto.
  - destruct args as [|w args].
    { injection E as <-. exists [], O, []. split; [constructor|]. unfold given. rewrite !app_nil_r, Nat.add_0_r. auto. }
    cbn [length] in Lm. assert (Nw : needs st && c_hyphens c = false) by (destruct R as [->|[-> _]]; [reflexivity|apply andb_false_r]).
    (* an option and its values *)
    assert (Opt : forall j a, option_word w j a -> exists vs f ps, line (length (values st)) (w :: args) vs f ps /\ given st fin vs f ps).
    { intros j a O. pose proof (attached_one O) as L1. pose proof (wanted_pos (length (values st))) as Wp.
      destruct (split_values (wanted (length (values st)) - length a) args) as (us & rest & -> & F & Lu & D).
      assert (La : (length (a ++ us) <= wanted (length (values st)))%nat) by (rewrite app_length; lia).
      rewrite (@loop_option st w j a us rest O F Tr Nw La) in E.
      destruct (Nat.eq_dec (length (a ++ us)) (wanted (length (values st)))) as [Full|Less].
      - rewrite (proj2 (Nat.ltb_ge _ _)) in E by lia. apply IH in E as (vs & f & ps & L & G1 & G2 & G3).
        + exists (a ++ us ++ vs), (j + f)%nat, ps. cbn [values lenients positionals] in *. split.
          * apply l_option; auto. rewrite app_length, Full in L. exact L.
          * unfold given. rewrite G1, G2, G3, <- !app_assoc. repeat split; lia.
        + rewrite app_length in Lm. lia.
        + now left.
        + reflexivity.
        + exact Z.
      - rewrite (proj2 (Nat.ltb_lt _ _)) in E by lia. rewrite app_length in Less. destruct D as [D|[->|(x & rest' & -> & Hy & Nb)]]; [lia| |].
        + injection E as <-. cbn [needs values] in Z. exists (a ++ us), j, []. rewrite app_nil_r. split.
          * apply l_last; auto; [rewrite app_length in *; lia|]. specialize (Z eq_refl). destruct (values st ++ a ++ us) eqn:V; [contradiction|].
            apply (f_equal (@length _)) in V. rewrite app_length in V. cbn [length] in V. lia.
          * unfold given. cbn [values lenients positionals]. now rewrite app_nil_r.
        + pose proof E as E0. apply IH in E as (vs & f & ps & L & G1 & G2 & G3).
          * exists (a ++ us ++ vs), (j + f)%nat, ps. cbn [values lenients positionals] in *. split.
            -- rewrite app_length in L. apply l_fewer; auto; [rewrite app_length in *; lia|]. intros ->. cbn [parse_loop] in E0. rewrite word_rest in E0.
               ++ apply trailing_inv in E0; [|reflexivity]. cbn [needs trailing values lenients positionals] in E0. subst fin. cbn [needs values] in Z. specialize (Z eq_refl).
                  destruct (values st ++ a ++ us) eqn:V; [contradiction|]. apply (f_equal (@length _)) in V. rewrite app_length in V. cbn [length] in V. lia.
               ++ reflexivity.
               ++ rewrite Hy. apply andb_false_r.
            -- unfold given. rewrite G1, G2, G3, <- !app_assoc. repeat split; lia.
          * rewrite app_length in Lm. cbn [length] in *. lia.
          * right. split; [exact Hy|]. eauto.
          * reflexivity.
          * exact Z. }
    destruct (bare_dec w) as [B|(x & r & ->)].
    + destruct R as [R|[_ (x & r & X & Nb)]]; [|injection X as -> ->; contradiction]. cbn [parse_loop] in E. rewrite (@word_bare st w B Tr R) in E.
      destruct (_ <? _)%nat; [|discriminate]. apply IH in E as (vs & f & ps & L & G1 & G2 & G3); [|lia|now left|reflexivity|exact Z].
      cbn [values lenients positionals] in *. exists vs, f, (w :: ps). split; [now constructor|]. unfold given. rewrite G1, G2, G3, <- app_assoc. auto.
    + destruct (N.eq_dec x 45) as [->|Nx].
      * cbn [parse_loop] in E. destruct (list_eq_dec N.eq_dec r []) as [->|Nr].
        { change [45; 45] with (lit "--") in *. rewrite (@word_rest st Tr Nw) in E. apply trailing_inv in E; [|reflexivity]. subst fin. exists [], O, args.
          split; [constructor|]. unfold given. cbn [values lenients positionals]. rewrite app_nil_r, Nat.add_0_r. auto. }
        assert (E1 : parse_arg c st (45 :: 45 :: r) = parse_long c st (45 :: 45 :: r)).
        { unfold parse_arg. rewrite Tr, new_word by exact Nw. change (lit "--") with [45; 45].
          destruct (str_eqb (45 :: 45 :: r) [45; 45]) eqn:Q; [apply str_eqb_eq in Q; injection Q as Q; contradiction|].
          cbn [starts_with]. rewrite N.eqb_refl. now destruct r. }
        rewrite E1 in E. clear E1. unfold parse_long in E. destruct (c_lenient c && _) eqn:Le; [|discriminate]. apply andb_true_iff in Le as [Le Q].
        apply str_eqb_eq in Q. destruct (trim_split 45 r) as (h & u & -> & Hu).
        assert (T : trim_left hyphen (45 :: 45 :: run 45 h ++ u) = u) by (change (45 :: 45 :: run 45 h ++ u) with (run 45 (2 + h) ++ u); now apply trim_run).
        rewrite T in Q. destruct (before_split 61 u) as (y & Eu & Hy). change equals with 61 in Q. rewrite Q in Eu. subst u.
        apply IH in E as (vs & f & ps & L & G1 & G2 & G3); [|lia|now left|exact Tr|exact Z]. cbn [values lenients positionals] in *.
        exists vs, (S f), ps. split; [|unfold given; rewrite G1, G2, G3; repeat split; lia].
        change (45 :: 45 :: run 45 h ++ lit "lenient" ++ y) with (run 45 (2 + h) ++ lit "lenient" ++ y). now apply l_long.
      * pose proof E as E0. cbn [parse_loop] in E0. rewrite (@word_short st x r Nx Tr Nw) in E0. destruct (parse_short c st (x :: r)) as [st'|] eqn:Sh; [|discriminate].
        apply short_cases in Sh as [(j & Hj & Es & ->)|(j & o & r' & Hj & Lo & Es & ->)].
        { destruct j as [|j]; [discriminate|]. destruct Hj as [Hj|Hj]; [|discriminate]. rewrite Es.
          apply IH in E0 as (vs & f & ps & L & G1 & G2 & G3); [|lia|now left|exact Tr|exact Z]. cbn [values lenients positionals] in *.
          exists vs, (S j + f)%nat, ps. split; [now apply l_flags|]. unfold given. rewrite G1, G2, G3. repeat split; lia. }
        rewrite Es in *. destruct r' as [|y r'].
        { apply (Opt j []). now apply ow_alone. }
        destruct (N.eq_dec y 61) as [->|Ny]; [|apply (Opt j [y :: r']); now apply ow_attached].
        destruct (trim_split 61 r') as (i & u & -> & Hu). change (61 :: run 61 i ++ u) with (run 61 (S i) ++ u) in *.
        rewrite opt_equals in E0 by exact Hu. cbn [needs trailing values lenients positionals] in E0.
        apply IH in E0 as (vs & f & ps & L & G1 & G2 & G3); [|lia|now left|exact Tr|exact Z]. cbn [values lenients positionals] in *.
        exists (u :: vs), (j + f)%nat, ps. split.
        -- apply l_equals; auto. now rewrite app_length in L.
        -- unfold given. rewrite G1, G2, G3, <- app_assoc. repeat split; lia.
Qed.

Lemma command_exact args vs b ps : parse_command c args = Some (vs, b, ps) <->
  exists f, line 0 args vs f ps /\ length ps = c_positionals c /\ (length vs mod n = 0)%nat /\ (f = 0 /\ b = false \/ f = 1 /\ b = true)%nat.
Proof.
  unfold parse_command. split.
  - destruct (parse_loop c _ args) as [fin|] eqn:E; [|discriminate]. destruct (validate c fin) eqn:V; [|discriminate]. intros X. injection X as <- <- <-.
    unfold validate in V. rewrite !andb_true_iff, !negb_true_iff, Nat.eqb_eq, Nat.leb_le in V. destruct V as [[[V1 V2] V3] V4].
    destruct (@parse_line (length args) args (le_n _) (mkSeen false false [] O []) fin) as (vs & f & ps & L & G1 & G2 & G3).
    + now left.
    + reflexivity.
    + exact E.
    + intros Nf Vf. rewrite Nf, Vf in V1. discriminate.
    + cbn [values lenients positionals app length Nat.add] in *. subst vs f ps. exists (lenients fin). split; [exact L|]. split; [exact V2|]. split.
      * destruct (Nat.eq_dec (length (values fin) mod n) 0) as [|Ne]; [assumption|]. apply more_vals in Ne. congruence.
      * destruct (lenients fin) as [|[|]]; [left|right|lia]; auto.
  - intros (f & L & Lp & M & B). destruct (@line_parses 0 args vs f ps L (mkSeen false false [] O [])) as (b' & t & E & Z); try reflexivity.
    + now left.
    + cbn [positionals length Nat.add]. lia.
    + rewrite E. cbn [values lenients positionals app Nat.add]. unfold validate. cbn [needs values lenients positionals].
      assert (M' : needs_more_vals c vs = false) by (destruct (needs_more_vals c vs) eqn:Q; [apply more_vals in Q; contradiction|reflexivity]).
      rewrite M', Lp, Nat.eqb_refl.
      assert (Zb : b' && match vs with [] => true | _ => false end = false).
      { destruct b'; [|reflexivity]. destruct vs; [|reflexivity]. exfalso. exact (Z eq_refl eq_refl). }
      rewrite Zb. destruct B as [[-> ->]|[-> ->]]; reflexivity.
Qed.
End Exact.

(** ** The commands *)
Lemma no_lenient letter n hyphens k args vs f ps : line letter n hyphens false k args vs f ps -> f = O.
Proof.
  assert (J : forall w j a, option_word letter false w j a -> j = O).
  { intros w j a [o j' _ D|o j' x u _ D _]; destruct D; congruence. }
  induction 1 as [| | |k0 j args vs f ps C|k0 h x args vs f ps C|k0 w j a us args vs f ps W _ _ _ IH|k0 o j i u args vs f ps _ D _ _ IH
    |k0 w j a us x args vs f ps W _ _ _ _ _ _ IH|k0 w j a us W]; try reflexivity; try assumption; try discriminate.
  - rewrite (J _ _ _ W), IH. reflexivity.
  - destruct D as [|D]; [discriminate|]. rewrite D, IH. reflexivity.
  - rewrite (J _ _ _ W), IH. reflexivity.
  - exact (J _ _ _ W).
Qed.
Lemma no_option n hyphens lenient k args vs f ps : line None n hyphens lenient k args vs f ps -> vs = [].
Proof.
  assert (J : forall w j a, option_word None lenient w j a -> False).
  { intros w j a [o j' D _|o j' x u D _ _]; discriminate. }
  induction 1 as [| | |k0 j args vs f ps C|k0 h x args vs f ps C|k0 w j a us args vs f ps W _ _ _ IH|k0 o j i u args vs f ps D _ _ _ IH
    |k0 w j a us x args vs f ps W _ _ _ _ _ _ IH|k0 w j a us W]; try reflexivity; try assumption; try discriminate; destruct (J _ _ _ W).
Qed.
Lemma encode_function_exact args vs b ps : parse_command encode_function_command args = Some (vs, b, ps) <->
  exists f, line (Some 112) 1 false true 0 args vs f ps /\ length ps = 2%nat /\ once f b.
Proof.
  rewrite command_exact; [|discriminate|intros o E; injection E as <-; split; [discriminate|intros _; discriminate]].
  cbn [c_letter c_values c_hyphens c_lenient c_positionals encode_function_command]. split.
  - intros (f & L & P & _ & B). exists f. auto.
  - intros (f & L & P & B). exists f. rewrite Nat.mod_1_r. auto.
Qed.
Lemma encode_params_exact args vs b ps : parse_command encode_params_command args = Some (vs, b, ps) <->
  exists f, line (Some 118) 2 true true 0 args vs f ps /\ length ps = 0%nat /\ once f b /\ Nat.even (length vs) = true.
Proof.
  rewrite command_exact; [|discriminate|intros o E; injection E as <-; split; [discriminate|intros _; discriminate]].
  cbn [c_letter c_values c_hyphens c_lenient c_positionals encode_params_command].
  assert (M : (length vs mod 2 = 0)%nat <-> Nat.even (length vs) = true).
  { rewrite Nat.even_spec. split; [|intros [m ->]; rewrite Nat.mul_comm; now apply Nat.mod_mul].
    intros H. exists (length vs / 2)%nat. pose proof (Nat.div_mod (length vs) 2 ltac:(discriminate)). lia. }
  split.
  - intros (f & L & P & Mo & B). exists f. rewrite M in Mo. auto.
  - intros (f & L & P & B & E). exists f. rewrite M. auto.
Qed.
Lemma decode_exact o np args vs b ps : o = None \/ o = Some 116 \/ o = Some 108 ->
  (parse_command (mkCommand o 1 false false np) args = Some (vs, b, ps) <->
   line o 1 false false 0 args vs 0 ps /\ length ps = np /\ b = false).
Proof.
  intros Ho. rewrite command_exact; [|discriminate|intros x E; cbn in E; destruct Ho as [ -> | [ -> | -> ] ]; [discriminate| |]; injection E as <-; split; discriminate].
  cbn [c_letter c_values c_hyphens c_lenient c_positionals]. split.
  - intros (f & L & P & _ & B). pose proof (no_lenient L). subst f. destruct B as [[_ ->]|[B _]]; [auto|discriminate].
  - intros (L & P & ->). exists O. rewrite Nat.mod_1_r. repeat split; try assumption. now left.
Qed.
Lemma from_iter_exact args opt : from_iter args = Some opt <-> command_line args opt.
Proof.
  split.
  - intros E. destruct args as [|prog [|outer [|name args]]]; try discriminate. cbn [from_iter] in E.
    destruct (str_eqb outer (lit "encode")) eqn:Q1; [apply str_eqb_eq in Q1; subst outer|
      destruct (str_eqb outer (lit "decode")) eqn:Q2; [apply str_eqb_eq in Q2; subst outer|discriminate]].
    + unfold parse_encode in E. destruct (str_eqb name (lit "function")) eqn:Q2; [apply str_eqb_eq in Q2; subst name|
        destruct (str_eqb name (lit "params")) eqn:Q3; [apply str_eqb_eq in Q3; subst name|discriminate]].
      * destruct (parse_command _ args) as [[[vs b] ps]|] eqn:P; [|discriminate]. apply encode_function_exact in P as (f & L & Lp & B).
        destruct ps as [|path [|n [|? ?]]]; try discriminate. injection E as <-. eapply cl_encode_function; eassumption.
      * destruct (parse_command _ args) as [[[vs b] ps]|] eqn:P; [|discriminate]. apply encode_params_exact in P as (f & L & Lp & B & Ev).
        destruct ps as [|? ?]; try discriminate. injection E as <-. eapply cl_encode_params; eassumption.
    + unfold parse_decode in E. destruct (str_eqb name (lit "function")) eqn:Q2'; [apply str_eqb_eq in Q2'; subst name|
        destruct (str_eqb name (lit "params")) eqn:Q3; [apply str_eqb_eq in Q3; subst name|
          destruct (str_eqb name (lit "log")) eqn:Q4; [apply str_eqb_eq in Q4; subst name|discriminate]]].
      * destruct (parse_command _ args) as [[[vs b] ps]|] eqn:P; [|discriminate]. apply decode_exact in P as (L & Lp & B); [|auto].
        destruct ps as [|path [|n [|d [|? ?]]]]; try discriminate. injection E as <-. pose proof (no_option L). subst vs. now apply cl_decode_function.
      * destruct (parse_command _ args) as [[[vs b] ps]|] eqn:P; [|discriminate]. apply decode_exact in P as (L & Lp & B); [|auto].
        destruct ps as [|d [|? ?]]; try discriminate. injection E as <-. now apply cl_decode_params.
      * destruct (parse_command _ args) as [[[vs b] ps]|] eqn:P; [|discriminate]. apply decode_exact in P as (L & Lp & B); [|auto].
        destruct ps as [|path [|n [|d [|? ?]]]]; try discriminate. injection E as <-. now apply cl_decode_log.
  - intros [prog args' path name ps f b L B|prog args' ps f b L B Ev|prog args' path name data L|prog args' ts data L|prog args' path name ts data L].
    + assert (P : parse_command encode_function_command args' = Some (ps, b, [path; name])) by (apply encode_function_exact; eauto).
      unfold from_iter, parse_encode. rewrite P. reflexivity.
    + assert (P : parse_command encode_params_command args' = Some (ps, b, [])) by (apply encode_params_exact; eauto).
      unfold from_iter, parse_encode. rewrite P. reflexivity.
    + assert (P : parse_command decode_function_command args' = Some ([], false, [path; name; data])) by (apply decode_exact; auto).
      unfold from_iter, parse_decode. rewrite P. reflexivity.
    + assert (P : parse_command decode_params_command args' = Some (ts, false, [data])) by (apply decode_exact; auto).
      unfold from_iter, parse_decode. rewrite P. reflexivity.
    + assert (P : parse_command decode_log_command args' = Some (ts, false, [path; name; data])) by (apply decode_exact; auto).
      unfold from_iter, parse_decode. rewrite P. reflexivity.
Qed.

(** ** What can be given *)
Lemma wanted_1 k : wanted 1 k = 1%nat.
Proof. unfold wanted. now rewrite Nat.mod_1_r. Qed.
Lemma value_given o hyphens lenient u : exists ws, forall k args vs f ps,
  line (Some o) 1 hyphens lenient (k + 1) args vs f ps -> line (Some o) 1 hyphens lenient k (ws ++ args) (u :: vs) f ps.
Proof.
  destruct (bare_dec u) as [B|(x & r & ->)].
  - exists [[45; o]; u]. intros k args vs f ps L. change (u :: vs) with ([] ++ [u] ++ vs). change f with (0 + f)%nat.
    apply (@l_option (Some o) 1 hyphens lenient k [45; o] 0 [] [u] args vs f ps).
    + apply (@ow_alone (Some o) lenient o 0); auto.
    + constructor; [now right|constructor].
    + now rewrite wanted_1.
    + now rewrite wanted_1.
  - exists [[45; o; 61; 45] ++ x :: r]. intros k args vs f ps L. change f with (0 + f)%nat.
    apply (@l_equals (Some o) 1 hyphens lenient k o 0 0 (45 :: x :: r) args vs f ps); auto. intros y r' E. injection E as <- _. discriminate.
Qed.
Lemma values_given o hyphens lenient us : exists ws, forall k args vs f ps,
  line (Some o) 1 hyphens lenient (k + length us) args vs f ps -> line (Some o) 1 hyphens lenient k (ws ++ args) (us ++ vs) f ps.
Proof.
  induction us as [|u us [ws IH]].
  - exists []. intros k args vs f ps L. cbn [length app] in *. now rewrite Nat.add_0_r in L.
  - destruct (value_given o hyphens lenient u) as [w H]. exists (w ++ ws). intros k args vs f ps L. rewrite <- app_assoc. cbn [app]. apply H, IH.
    cbn [length] in L. now rewrite <- Nat.add_assoc.
Qed.
Lemma pairs_given us : Nat.even (length us) = true -> exists ws, forall k args vs f ps, Nat.even k = true ->
  line (Some 118) 2 true true (k + length us) args vs f ps -> line (Some 118) 2 true true k (ws ++ args) (us ++ vs) f ps.
Proof.
  revert us. fix IH 1. intros [|a [|b us]] E; [|discriminate|].
  - exists []. intros k args vs f ps _ L. cbn [length app] in *. now rewrite Nat.add_0_r in L.
  - destruct (IH us E) as [ws H]. exists ([[45; 118]; a; b] ++ ws). intros k args vs f ps Ek L. rewrite <- app_assoc.
    assert (W : wanted 2 k = 2%nat).
    { unfold wanted. apply Nat.even_spec in Ek as [m ->]. rewrite Nat.mul_comm, Nat.mod_mul by discriminate. reflexivity. }
    change (line (Some 118) 2 true true k ([45; 118] :: [a; b] ++ (ws ++ args)) ([] ++ [a; b] ++ (us ++ vs)) (0 + f) ps).
    apply l_option.
    + apply (@ow_alone (Some 118) true 118 0); auto.
    + repeat constructor.
    + now rewrite W.
    + rewrite W. apply H.
      * rewrite Nat.even_add, Ek. reflexivity.
      * cbn [length] in L. now rewrite <- Nat.add_assoc.
Qed.
Lemma flag_given letter n hyphens (b : bool) : exists f ws, once f b /\ forall k args vs ps, line letter n hyphens true k args vs 0 ps ->
  line letter n hyphens true k (ws ++ args) vs f ps.
Proof.
  destruct b.
  - exists 1%nat, [lit "-l"]. split; [now right|]. intros k args vs ps L. exact (@l_flags letter n hyphens true k 0 args vs 0 ps eq_refl L).
  - exists O, []. split; [now left|]. auto.
Qed.
Lemma expressible opt prog : match opt with EncodeParams ps _ => Nat.even (length ps) = true | _ => True end ->
  exists args, from_iter (prog :: args) = Some opt.
Proof.
  destruct opt as [path name ps b|ps b|path name data|ts data|path name ts data]; intros Ev.
  - destruct (flag_given (Some 112) 1 false b) as (f & wf & B & Hf). destruct (values_given 112 false true ps) as [wv Hv].
    exists (lit "encode" :: lit "function" :: wv ++ wf ++ [lit "--"; path; name]). apply from_iter_exact. apply cl_encode_function with (f := f); [|exact B].
    rewrite <- (app_nil_r ps). apply Hv, Hf. constructor.
  - destruct (flag_given (Some 118) 2 true b) as (f & wf & B & Hf). destruct (@pairs_given ps Ev) as [wv Hv].
    exists (lit "encode" :: lit "params" :: wv ++ wf). apply from_iter_exact. apply cl_encode_params with (f := f); [|exact B|exact Ev].
    rewrite <- (app_nil_r ps) at 1. apply Hv; [reflexivity|]. rewrite <- (app_nil_r wf). apply Hf. constructor.
  - exists (lit "decode" :: lit "function" :: [lit "--"; path; name; data]). apply from_iter_exact. apply cl_decode_function. constructor.
  - destruct (values_given 116 false false ts) as [wv Hv]. exists (lit "decode" :: lit "params" :: wv ++ [lit "--"; data]). apply from_iter_exact. apply cl_decode_params.
    rewrite <- (app_nil_r ts). apply Hv. constructor.
  - destruct (values_given 108 false false ts) as [wv Hv]. exists (lit "decode" :: lit "log" :: wv ++ [lit "--"; path; name; data]). apply from_iter_exact. apply cl_decode_log.
    rewrite <- (app_nil_r ts). apply Hv. constructor.
Qed.
Lemma even_params args ps b : from_iter args = Some (EncodeParams ps b) -> Nat.even (length ps) = true.
Proof. intros E. apply from_iter_exact in E. now inversion E. Qed.

(** ** Pieces *)
Lemma pieces_line o n hyphens lenient xs k : n <> O -> (k mod n = 0)%nat -> Forall (piece_ok n hyphens lenient) xs ->
  line (Some o) n hyphens lenient k (List.concat (map (piece_text o) xs)) (List.concat (map piece_values xs)) (list_sum (map piece_flags xs)) (List.concat (map piece_positionals xs)).
Proof.
  intros N0 K F. revert k K. induction F as [|x xs P F IH]; intros k K; [constructor|].
  destruct x as [w|long|us]; cbn [piece_ok piece_text piece_values piece_flags piece_positionals map List.concat list_sum fold_right app] in *.
  - apply l_positional; auto.
  - destruct long; [apply (@l_long (Some o) n hyphens lenient k 0 [])|apply (@l_flags (Some o) n hyphens lenient k 0)]; auto. intros ? ? E; discriminate.
  - destruct P as [L V]. assert (W : wanted n k = n) by (unfold wanted; rewrite K; lia).
    change (line (Some o) n hyphens lenient k ([45; o] :: us ++ List.concat (map (piece_text o) xs)) ([] ++ us ++ List.concat (map piece_values xs))
      (0 + list_sum (map piece_flags xs)) (List.concat (map piece_positionals xs))).
    apply l_option; auto.
    + apply (@ow_alone (Some o) lenient o 0); auto.
    + rewrite W. exact L.
    + rewrite W. apply IH. rewrite <- Nat.add_mod_idemp_l, K by exact N0. now apply Nat.mod_same.
Qed.

(** ** Files *)
Lemma open_bytes p disk path : open_contract p (trees disk) path =
  match disk path with None => Err (OtherErr (lit "io error")) | Some l => load_bytes p l end.
Proof.
  unfold open_contract, trees. destruct (disk path) as [l|]; [|reflexivity]. unfold load_bytes, from_bytes.
  destruct (parse_bytes_cases l) as [[j E]|E]; rewrite E; cbn [bind]; [|reflexivity].
  unfold load, from_text. apply parse_bytes_exact in E as (s & W & -> & D & L). now rewrite (proj2 (N.leb_le _ _) L).
Qed.

(** ** Whole commands *)
Lemma pieces_once xs (b : bool) : list_sum (map piece_flags xs) = (if b then 1 else 0)%nat -> once (list_sum (map piece_flags xs)) b.
Proof. intros ->. destruct b; [now right|now left]. Qed.
Lemma pieces_encode_function prog xs path name (b : bool) : Forall (piece_ok 1 false true) xs ->
  List.concat (map piece_positionals xs) = [path; name] -> list_sum (map piece_flags xs) = (if b then 1 else 0)%nat ->
  from_iter (prog :: lit "encode" :: lit "function" :: List.concat (map (piece_text 112) xs)) =
    Some (EncodeFunction path name (List.concat (map piece_values xs)) b).
Proof.
  intros F P B. apply from_iter_exact. eapply cl_encode_function; [|apply pieces_once, B]. rewrite <- P. now apply pieces_line.
Qed.
Lemma pieces_even xs : Forall (piece_ok 2 true true) xs -> Nat.even (length (List.concat (map piece_values xs))) = true.
Proof.
  induction 1 as [|x xs P F IH]; [reflexivity|]. cbn [map List.concat]. rewrite app_length, Nat.even_add, IH.
  destruct x as [w|long|us]; try reflexivity. cbn in P. destruct P as [L _]. cbn [piece_values]. now rewrite L.
Qed.
Lemma pieces_encode_params prog xs (b : bool) : Forall (piece_ok 2 true true) xs ->
  List.concat (map piece_positionals xs) = [] -> list_sum (map piece_flags xs) = (if b then 1 else 0)%nat ->
  from_iter (prog :: lit "encode" :: lit "params" :: List.concat (map (piece_text 118) xs)) =
    Some (EncodeParams (List.concat (map piece_values xs)) b).
Proof.
  intros F P B. apply from_iter_exact. eapply cl_encode_params; [|apply pieces_once, B|now apply pieces_even]. rewrite <- P. now apply pieces_line.
Qed.
Lemma no_flags n hyphens xs : Forall (piece_ok n hyphens false) xs -> list_sum (map piece_flags xs) = O.
Proof. induction 1 as [|x xs P F IH]; [reflexivity|]. destruct x; cbn in *; try exact IH. discriminate. Qed.
Lemma pieces_decode_params prog xs data : Forall (piece_ok 1 false false) xs ->
  List.concat (map piece_positionals xs) = [data] ->
  from_iter (prog :: lit "decode" :: lit "params" :: List.concat (map (piece_text 116) xs)) =
    Some (DecodeParams (List.concat (map piece_values xs)) data).
Proof.
  intros F P. apply from_iter_exact. apply cl_decode_params. rewrite <- P. pose proof (@pieces_line 116 1 false false xs 0 ltac:(discriminate) eq_refl F) as X. now rewrite (no_flags F) in X.
Qed.
Lemma pieces_decode_log prog xs path name data : Forall (piece_ok 1 false false) xs ->
  List.concat (map piece_positionals xs) = [path; name; data] ->
  from_iter (prog :: lit "decode" :: lit "log" :: List.concat (map (piece_text 108) xs)) =
    Some (DecodeLog path name (List.concat (map piece_values xs)) data).
Proof.
  intros F P. apply from_iter_exact. apply cl_decode_log. rewrite <- P. pose proof (@pieces_line 108 1 false false xs 0 ltac:(discriminate) eq_refl F) as X. now rewrite (no_flags F) in X.
Qed.
Lemma words_decode_function prog path name data : bare path -> bare name -> bare data ->
  from_iter [prog; lit "decode"; lit "function"; path; name; data] = Some (DecodeFunction path name data).
Proof. intros A B C. apply from_iter_exact. apply cl_decode_function. repeat (apply l_positional; [assumption|]). constructor. Qed.

(** [-v name text] for every parameter, and [-t name] for every type. *)
Lemma hex_text_bare t l : hex_text t l -> bare t.
Proof.
  intros H x r ->. apply hex_decode_spec in H. destruct r as [|y r]; cbn in H; [discriminate|].
  repeat match type of H with context [if ?b then _ else _] => destruct b; try discriminate end; discriminate.
Qed.
Lemma params_round p disk prog prog' names ts texts (lenient : bool) vs canon :
  Forall2 (fun n t => read p n = Ok t) names ts -> Forall2 type_name ts canon -> Forall bare names ->
  length texts = length names -> texts_denote lenient ts texts vs ->
  forallb solidity_type ts = true -> have_types vs ts = true ->
  forallb short_arrays vs = true -> enc_size (PTuple ts) (TTuple vs) < two32 -> forallb zero_size ts = false \/ ts = [] ->
  exists out, hex_text out (abi_encode ts vs) /\
  main p disk (prog :: lit "encode" :: lit "params" :: flat_map (fun x => [lit "-v"; fst x; snd x]) (combine names texts) ++
    (if lenient then [lit "--lenient"] else [])) = Some (Ok out) /\
  main p disk (prog' :: lit "decode" :: lit "params" :: flat_map (fun n => [lit "-t"; n]) names ++ [out]) =
    Some (Ok (lines (combine canon (map display vs)))).
Proof.
  intros R C Bn L D S T A Sz Z.
  destruct (@encode_params_prints p (trees disk) names ts texts lenient vs) as (out & E & H); auto.
  destruct (@decode_params_round p (trees disk) names ts texts lenient vs canon) as (out' & E' & De); auto.
  assert (out' = out) by congruence. subst out'. exists out. split; [exact H|]. split.
  - set (xs := map (fun x => Option [fst x; snd x]) (combine names texts) ++ (if lenient then [Flag true] else [])).
    assert (X : flat_map (fun x => [lit "-v"; fst x; snd x]) (combine names texts) ++ (if lenient then [lit "--lenient"] else []) =
      List.concat (map (piece_text 118) xs)).
    { unfold xs. rewrite map_app, concat_app, map_map, <- flat_map_concat_map. f_equal. destruct lenient; reflexivity. }
    assert (V : List.concat (map piece_values xs) = flatten (combine names texts)).
    { unfold xs. rewrite map_app, concat_app, map_map. unfold flatten. rewrite flat_map_concat_map. cbn [piece_values].
      destruct lenient; cbn [map piece_values List.concat]; now rewrite ?app_nil_r. }
    unfold main. rewrite X, (@pieces_encode_params prog xs lenient), V, E; [reflexivity|..].
    + apply Forall_app. split; [|destruct lenient; repeat constructor]. apply Forall_forall. intros x I. apply in_map_iff in I as (y & <- & _).
      cbn. split; [reflexivity|repeat constructor].
    + unfold xs. rewrite map_app, concat_app, map_map. cbn [piece_positionals].
      assert (N : forall l : list (str * str), List.concat (map (fun _ => @nil str) l) = []) by (induction l; auto). rewrite N.
      destruct lenient; reflexivity.
    + unfold xs. rewrite map_app, map_map, list_sum_app. cbn [piece_flags].
      assert (N : forall l : list (str * str), list_sum (map (fun _ => O) l) = O) by (induction l; auto). rewrite N.
      destruct lenient; reflexivity.
  - set (xs := map (fun n => Option [n]) names ++ [Positional out]).
    assert (X : flat_map (fun n => [lit "-t"; n]) names ++ [out] = List.concat (map (piece_text 116) xs)).
    { unfold xs. rewrite map_app, concat_app, map_map, <- flat_map_concat_map. reflexivity. }
    assert (V : List.concat (map piece_values xs) = names).
    { unfold xs. rewrite map_app, concat_app, map_map. cbn [piece_values map List.concat]. rewrite app_nil_r.
      clear. induction names as [|n names IH]; [reflexivity|]. cbn. now rewrite IH. }
    unfold main. rewrite X, (@pieces_decode_params prog' xs out), V, De; [reflexivity|..].
    + apply Forall_app. split; [|constructor; [exact (hex_text_bare H)|constructor]]. apply Forall_forall. intros x I. apply in_map_iff in I as (y & <- & I).
      rewrite Forall_forall in Bn. cbn. split; [reflexivity|]. constructor; [right; auto|constructor].
    + unfold xs. rewrite map_app, concat_app, map_map. cbn [piece_positionals].
      assert (N : forall l : list str, List.concat (map (fun _ => @nil str) l) = []) by (induction l; auto). now rewrite N.
Qed.

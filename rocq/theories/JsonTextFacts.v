(** * The JSON reader accepts exactly the grammar, and the writer writes it. *)
From Verif Require Import Base BaseFacts Utf8 Types Json JsonSpec JsonText JsonTextSpec LoadFacts.
From Coq Require Import String Lia.
Set Implicit Arguments.
Local Open Scope N_scope.
Local Open Scope list_scope.
Notation length := List.length.

(** ** Characters *)
Lemma blank_iff c : is_blank c = true <-> In c [32; 9; 10; 13].
Proof.
  unfold is_blank. rewrite !orb_true_iff, !N.eqb_eq. cbn [In]. intuition.
Qed.
Lemma dec_iff c : is_dec c = true <-> 48 <= c <= 57.
Proof. unfold is_dec. rewrite andb_true_iff, !N.leb_le. reflexivity. Qed.
Lemma hex_digit_iff c v : hex_val c = Some v <-> hex_digit c v.
Proof.
  unfold hex_val, hex_digit. split.
  - intros H. destruct ((48 <=? c) && (c <=? 57)) eqn:A; [injection H as <-; apply andb_true_iff in A; rewrite !N.leb_le in A; auto|].
    destruct ((97 <=? c) && (c <=? 102)) eqn:B; [injection H as <-; apply andb_true_iff in B; rewrite !N.leb_le in B; auto|].
    destruct ((65 <=? c) && (c <=? 70)) eqn:C; [injection H as <-; apply andb_true_iff in C; rewrite !N.leb_le in C; auto|discriminate].
  - intros [[R ->]|[[R ->]|[R ->]]].
    + replace ((48 <=? c) && (c <=? 57)) with true by (symmetry; apply andb_true_iff; rewrite !N.leb_le; lia). reflexivity.
    + replace ((48 <=? c) && (c <=? 57)) with false by (symmetry; apply andb_false_iff; rewrite !N.leb_gt; lia).
      replace ((97 <=? c) && (c <=? 102)) with false by (symmetry; apply andb_false_iff; rewrite !N.leb_gt; lia).
      replace ((65 <=? c) && (c <=? 70)) with true by (symmetry; apply andb_true_iff; rewrite !N.leb_le; lia). reflexivity.
    + replace ((48 <=? c) && (c <=? 57)) with false by (symmetry; apply andb_false_iff; rewrite !N.leb_gt; lia).
      replace ((97 <=? c) && (c <=? 102)) with true by (symmetry; apply andb_true_iff; rewrite !N.leb_le; lia). reflexivity.
Qed.
Lemma hex4_sound a b c d v : hex4 a b c d = Some v -> hex_quad [a; b; c; d] v.
Proof.
  unfold hex4. destruct (hex_val a) as [w|] eqn:A; [|discriminate]. destruct (hex_val b) as [x|] eqn:B; [|discriminate].
  destruct (hex_val c) as [y|] eqn:C; [|discriminate]. destruct (hex_val d) as [z|] eqn:D; [|discriminate].
  intros H. injection H as <-. rewrite hex_digit_iff in *. exists a, b, c, d, w, x, y, z. repeat (split; [auto|]). lia.
Qed.
Lemma hex4_complete q v : hex_quad q v -> exists a b c d, q = [a; b; c; d] /\ hex4 a b c d = Some v.
Proof.
  intros (a & b & c & d & w & x & y & z & -> & A & B & C & D & ->). rewrite <- hex_digit_iff in *.
  exists a, b, c, d. split; [reflexivity|]. unfold hex4. rewrite A, B, C, D. f_equal. lia.
Qed.
Lemma escape_iff e c : escape_char e = Some c <-> In (e, c) escapes.
Proof.
  unfold escape_char, escapes. split.
  - intros H. cbn [In].
    repeat match type of H with (if ?x =? ?k then _ else _) = _ => destruct (N.eqb_spec x k); [subst; injection H as <-; tauto|] end.
    discriminate.
  - cbn [In]. intros H. repeat (destruct H as [H|H]; [injection H as <- <-; reflexivity|]). contradiction.
Qed.

(** ** Strings *)
Lemma string_sound n : forall s t r, (length s <= n)%nat -> parse_string s = Some (t, r) -> exists x, s = x ++ 34 :: r /\ string_text x t.
Proof.
  induction n as [|n IH]; intros s t r L H.
  - destruct s; [discriminate|cbn in L; lia].
  - destruct s as [|c s1]; [discriminate|]. cbn [parse_string] in H. cbn [List.length] in L.
    destruct (N.eqb_spec c 34) as [->|Q].
    { injection H as <- <-. exists []. split; [reflexivity|constructor]. }
    destruct (N.eqb_spec c 92) as [->|B].
    + destruct s1 as [|e s2]; [discriminate|]. cbn [List.length] in L.
      destruct (N.eqb_spec e 117) as [->|E].
      * destruct s2 as [|a [|b [|c [|d s3]]]]; try discriminate. cbn [List.length] in L.
        destruct (hex4 a b c d) as [v|] eqn:V; [|discriminate]. apply hex4_sound in V.
        destruct ((56320 <=? v) && (v <=? 57343)) eqn:W1; [discriminate|].
        destruct ((55296 <=? v) && (v <=? 56319)) eqn:W2.
        -- destruct s3 as [|x [|y [|a2 [|b2 [|c2 [|d2 s4]]]]]]; try discriminate. cbn [List.length] in L.
           destruct ((x =? 92) && (y =? 117)) eqn:XY; [|discriminate]. apply andb_true_iff in XY. rewrite !N.eqb_eq in XY. destruct XY as [-> ->].
           destruct (hex4 a2 b2 c2 d2) as [v2|] eqn:V2; [|discriminate]. apply hex4_sound in V2.
           destruct ((56320 <=? v2) && (v2 <=? 57343)) eqn:W3; [|discriminate].
           unfold cons_fst in H. destruct (parse_string s4) as [[t4 r4]|] eqn:P; [|discriminate]. injection H as <- <-.
           destruct (IH s4 _ _ ltac:(lia) P) as (x & -> & ST). apply andb_true_iff in W2, W3. rewrite !N.leb_le in W2, W3.
           exists (92 :: 117 :: [a; b; c; d] ++ 92 :: 117 :: [a2; b2; c2; d2] ++ x). split; [reflexivity|].
           apply st_surrogates; auto; lia.
        -- unfold cons_fst in H. destruct (parse_string s3) as [[t4 r4]|] eqn:P; [|discriminate]. injection H as <- <-.
           destruct (IH s3 _ _ ltac:(lia) P) as (x & -> & ST). apply andb_false_iff in W1, W2. rewrite !N.leb_gt in W1, W2.
           exists (92 :: 117 :: [a; b; c; d] ++ x). split; [reflexivity|]. apply st_unicode; auto; lia.
      * destruct (escape_char e) as [v|] eqn:V; [|discriminate]. apply escape_iff in V.
        unfold cons_fst in H. destruct (parse_string s2) as [[t4 r4]|] eqn:P; [|discriminate]. injection H as <- <-.
        destruct (IH s2 _ _ ltac:(lia) P) as (x & -> & ST). exists (92 :: e :: x). split; [reflexivity|]. constructor; auto.
    + destruct (N.ltb_spec c 32) as [|G]; [discriminate|].
      unfold cons_fst in H. destruct (parse_string s1) as [[t4 r4]|] eqn:P; [|discriminate]. injection H as <- <-.
      destruct (IH s1 _ _ ltac:(lia) P) as (x & -> & ST). exists (c :: x). split; [reflexivity|]. constructor; auto.
Qed.
Lemma string_complete x t : string_text x t -> forall r, parse_string (x ++ 34 :: r) = Some (t, r).
Proof.
  induction 1 as [|c s r G Q B ST IH|e c s r E ST IH|q c s r Q R ST IH|q1 hi q2 lo s r Q1 R1 Q2 R2 ST IH]; intros rest.
  - reflexivity.
  - cbn [app parse_string]. rewrite (proj2 (N.eqb_neq _ _) Q), (proj2 (N.eqb_neq _ _) B), (proj2 (N.ltb_ge _ _) G), IH. reflexivity.
  - cbn [app parse_string]. change (92 =? 34) with false. change (92 =? 92) with true. cbv iota.
    assert (NE : e =? 117 = false).
    { cbn [In escapes] in E. repeat (destruct E as [E|E]; [injection E as <- <-; reflexivity|]). contradiction. }
    rewrite NE. apply escape_iff in E. rewrite E, IH. reflexivity.
  - apply hex4_complete in Q. destruct Q as (a & b & c' & d & -> & V). cbn [app parse_string].
    change (92 =? 34) with false. change (92 =? 92) with true. change (117 =? 117) with true. cbv iota. rewrite V.
    replace ((56320 <=? c) && (c <=? 57343)) with false by (symmetry; apply andb_false_iff; rewrite !N.leb_gt; lia).
    replace ((55296 <=? c) && (c <=? 56319)) with false by (symmetry; apply andb_false_iff; rewrite !N.leb_gt; lia).
    rewrite IH. reflexivity.
  - apply hex4_complete in Q1, Q2. destruct Q1 as (a & b & c & d & -> & V1). destruct Q2 as (a2 & b2 & c2 & d2 & -> & V2). cbn [app parse_string].
    change (92 =? 34) with false. change (92 =? 92) with true. change (117 =? 117) with true. cbv iota. rewrite V1.
    replace ((56320 <=? hi) && (hi <=? 57343)) with false by (symmetry; apply andb_false_iff; rewrite !N.leb_gt; lia).
    replace ((55296 <=? hi) && (hi <=? 56319)) with true by (symmetry; apply andb_true_iff; rewrite !N.leb_le; lia).
    cbv iota. change (true && true) with true. cbv iota. rewrite V2.
    replace ((56320 <=? lo) && (lo <=? 57343)) with true by (symmetry; apply andb_true_iff; rewrite !N.leb_le; lia).
    rewrite IH. reflexivity.
Qed.

(** ** Blanks and digits *)
Lemma split_while {A} (f : A -> bool) l : l = take_while f l ++ drop_while f l /\ Forall (fun c => f c = true) (take_while f l) /\
  (drop_while f l = [] \/ exists c r, drop_while f l = c :: r /\ f c = false).
Proof.
  induction l as [|c l (E & F & D)]; cbn [take_while drop_while]; [auto|].
  destruct (f c) eqn:C.
  - split; [cbn [app]; f_equal; exact E|]. split; [constructor; auto|exact D].
  - split; [reflexivity|]. split; [constructor|]. right. eauto.
Qed.
Lemma take_while_app {A} (f : A -> bool) a b : Forall (fun c => f c = true) a -> (b = [] \/ exists c r, b = c :: r /\ f c = false) ->
  take_while f (a ++ b) = a /\ drop_while f (a ++ b) = b.
Proof.
  intros F D. induction F as [|c a C F IH]; cbn [app].
  - destruct D as [->|(c & r & -> & C)]; cbn [take_while drop_while]; [auto|]. rewrite C. auto.
  - cbn [take_while drop_while]. rewrite C. destruct IH as [-> ->]. auto.
Qed.
Lemma blanks_iff s : blanks s <-> Forall (fun c => is_blank c = true) s.
Proof. unfold blanks. split; intros H; (eapply Forall_impl; [|exact H]); intros c; apply blank_iff. Qed.
Lemma skip_split s : exists w, s = w ++ skip_blanks s /\ blanks w.
Proof.
  destruct (split_while is_blank s) as (E & F & _). exists (take_while is_blank s). split; [exact E|]. apply blanks_iff, F.
Qed.
Definition starts_solid (s : str) : Prop := exists c r, s = c :: r /\ is_blank c = false.
Lemma skip_app w s : blanks w -> starts_solid s -> skip_blanks (w ++ s) = s.
Proof.
  intros W (c & r & E & B). apply blanks_iff in W. unfold skip_blanks. apply take_while_app; [exact W|]. right. eauto.
Qed.
Lemma skip_all w : blanks w -> skip_blanks w = [].
Proof. intros W. apply blanks_iff in W. rewrite <- (app_nil_r w). unfold skip_blanks. apply take_while_app; auto. Qed.
Lemma skip_nil s : skip_blanks s = [] -> blanks s.
Proof. destruct (skip_split s) as (w & E & W). intros H. rewrite H, app_nil_r in E. subst s. exact W. Qed.

(** ** Numbers *)
(** What may follow a value. *)
Definition follows (r : str) : Prop := r = [] \/ exists c r', r = c :: r' /\ (is_blank c = true \/ In c [44; 93; 125]).
Lemma follows_at r : follows r -> r = [] \/ exists c r', r = c :: r' /\ is_dec c = false /\ c =? 46 = false /\ (c =? 101) || (c =? 69) = false.
Proof.
  intros [->|(c & r' & -> & H)]; [auto|]. right. exists c, r'. split; [reflexivity|]. rewrite blank_iff in H. cbn [In] in H.
  repeat match goal with H : _ \/ _ |- _ => destruct H as [H|H] end; try contradiction; subst c; repeat split.
Qed.
Lemma decs_iff s : Forall (fun c => is_dec c = true) s <-> Forall (fun c => 48 <= c <= 57) s.
Proof. split; intros H; (eapply Forall_impl; [|exact H]); intros c; apply dec_iff. Qed.
Definition no_dec (r : str) : Prop := r = [] \/ exists c r', r = c :: r' /\ is_dec c = false.

Lemma digits_sound s t r : parse_digits s = Some (t, r) -> s = t ++ r /\ digits t.
Proof.
  unfold parse_digits. destruct s as [|c s]; [discriminate|]. destruct (is_dec c) eqn:C; [|discriminate]. intros H. injection H as <- <-.
  destruct (split_while is_dec s) as (E & F & _). split; [cbn [app]; f_equal; exact E|]. split; [discriminate|].
  constructor; [apply dec_iff, C|apply decs_iff, F].
Qed.
Lemma digits_complete t r : digits t -> no_dec r -> parse_digits (t ++ r) = Some (t, r).
Proof.
  intros [N F] D. destruct t as [|c t]; [contradiction N; reflexivity|]. inversion F as [|? ? C F']; subst.
  unfold parse_digits. cbn [app]. apply dec_iff in C. rewrite C. apply decs_iff in F'.
  destruct (@take_while_app _ is_dec _ _ F' D) as [-> ->]. reflexivity.
Qed.
Lemma int_sound s t r : parse_int s = Some (t, r) -> s = t ++ r /\ integer_text t.
Proof.
  unfold parse_int. destruct s as [|c s]; [discriminate|]. destruct (N.eqb_spec c 48) as [->|Z].
  - intros H. assert (E : Some ([48], s) = Some (t, r)). { destruct s as [|d s]; [exact H|]. destruct (is_dec d); [discriminate|exact H]. }
    injection E as <- <-. split; [reflexivity|left; reflexivity].
  - destruct (is_dec c) eqn:C; [|discriminate]. intros H. injection H as <- <-.
    destruct (split_while is_dec s) as (E & F & _). split; [cbn [app]; f_equal; exact E|]. right. apply dec_iff in C.
    exists c, (take_while is_dec s). split; [reflexivity|]. split; [lia|apply decs_iff, F].
Qed.
Lemma int_complete t r : integer_text t -> no_dec r -> parse_int (t ++ r) = Some (t, r).
Proof.
  intros [->|(c & u & -> & C & F)] D.
  - unfold parse_int. cbn [app]. change (48 =? 48) with true. cbv iota. destruct D as [->|(d & r' & -> & E)]; [reflexivity|]. rewrite E. reflexivity.
  - unfold parse_int. cbn [app]. rewrite (proj2 (N.eqb_neq c 48)) by lia. rewrite (proj2 (dec_iff c)) by lia. apply decs_iff in F.
    destruct (@take_while_app _ is_dec _ _ F D) as [-> ->]. reflexivity.
Qed.
Lemma fraction_sound s t r : parse_fraction s = Some (t, r) -> s = t ++ r /\ fraction_text t.
Proof.
  unfold parse_fraction. destruct s as [|c s]; [intros H; injection H as <- <-; split; [reflexivity|left; reflexivity]|].
  destruct (N.eqb_spec c 46) as [->|N].
  - unfold cons_fst. destruct (parse_digits s) as [[u q]|] eqn:P; [|discriminate]. intros H. injection H as <- <-.
    apply digits_sound in P. destruct P as [-> D]. split; [reflexivity|]. right. eauto.
  - intros H. injection H as <- <-. split; [reflexivity|left; reflexivity].
Qed.
Lemma fraction_complete t r : fraction_text t -> no_dec r -> (t = [] -> r = [] \/ exists c r', r = c :: r' /\ c =? 46 = false) ->
  parse_fraction (t ++ r) = Some (t, r).
Proof.
  intros [->|(u & -> & D)] N Q.
  - destruct (Q eq_refl) as [->|(c & r' & -> & E)]; [reflexivity|]. unfold parse_fraction. cbn [app]. rewrite E. reflexivity.
  - unfold parse_fraction. cbn [app]. change (46 =? 46) with true. cbv iota. rewrite (digits_complete D N). reflexivity.
Qed.
Lemma exponent_sound s t r : parse_exponent s = Some (t, r) -> s = t ++ r /\ exponent_text t.
Proof.
  unfold parse_exponent. destruct s as [|c s]; [intros H; injection H as <- <-; split; [reflexivity|left; reflexivity]|].
  destruct ((c =? 101) || (c =? 69)) eqn:E.
  - apply orb_true_iff in E. rewrite !N.eqb_eq in E. destruct s as [|g s]; [discriminate|].
    destruct ((g =? 43) || (g =? 45)) eqn:G.
    + apply orb_true_iff in G. rewrite !N.eqb_eq in G. unfold cons_fst. destruct (parse_digits s) as [[u q]|] eqn:P; [|discriminate].
      intros H. injection H as <- <-. apply digits_sound in P. destruct P as [-> D]. split; [reflexivity|]. right.
      exists c, [g], u. split; [reflexivity|]. split; [exact E|]. split; [|exact D]. destruct G as [->| ->]; auto.
    + unfold cons_fst. destruct (parse_digits (g :: s)) as [[u q]|] eqn:P; [|discriminate].
      intros H. injection H as <- <-. apply digits_sound in P. destruct P as [-> D]. split; [reflexivity|]. right.
      exists c, [], u. split; [reflexivity|]. auto.
  - intros H. injection H as <- <-. split; [reflexivity|left; reflexivity].
Qed.
Lemma digits_solid u r : digits u -> exists c v, u ++ r = c :: v /\ (c =? 43) || (c =? 45) = false.
Proof.
  intros [N F]. destruct u as [|c u]; [contradiction N; reflexivity|]. inversion F as [|? ? C _]; subst. exists c, (u ++ r).
  split; [reflexivity|]. apply orb_false_iff. rewrite !N.eqb_neq. lia.
Qed.
Lemma exponent_complete t r : exponent_text t -> no_dec r -> (t = [] -> r = [] \/ exists c r', r = c :: r' /\ (c =? 101) || (c =? 69) = false) ->
  parse_exponent (t ++ r) = Some (t, r).
Proof.
  intros [->|(e & g & u & -> & E & G & D)] N Q.
  - destruct (Q eq_refl) as [->|(c & r' & -> & E)]; [reflexivity|]. unfold parse_exponent. cbn [app]. rewrite E. reflexivity.
  - unfold parse_exponent. cbn [app]. replace ((e =? 101) || (e =? 69)) with true by (symmetry; apply orb_true_iff; rewrite !N.eqb_eq; exact E).
    pose proof (digits_complete D N) as P.
    destruct G as [->|[->| ->]]; cbn [app].
    + destruct (digits_solid r D) as (c & v & X & Y). rewrite X, Y. rewrite X in P. rewrite P. reflexivity.
    + change ((43 =? 43) || (43 =? 45)) with true. cbv iota. rewrite P. reflexivity.
    + change ((45 =? 43) || (45 =? 45)) with true. cbv iota. rewrite P. reflexivity.
Qed.
Lemma unsigned_sound s t r : parse_unsigned s = Some (t, r) ->
  exists i f e, t = i ++ f ++ e /\ s = t ++ r /\ integer_text i /\ fraction_text f /\ exponent_text e.
Proof.
  unfold parse_unsigned. destruct (parse_int s) as [[i r1]|] eqn:I; [|discriminate]. apply int_sound in I. destruct I as [-> I].
  destruct (parse_fraction r1) as [[f r2]|] eqn:F; [|discriminate]. apply fraction_sound in F. destruct F as [-> F].
  destruct (parse_exponent r2) as [[e r3]|] eqn:E; [|discriminate]. apply exponent_sound in E. destruct E as [-> E].
  intros H. injection H as <- <-. exists i, f, e. rewrite !app_assoc. auto 10.
Qed.
Lemma number_sound s t r : parse_number s = Some (t, r) -> s = t ++ r /\ number_text t.
Proof.
  unfold parse_number. destruct s as [|c s]; [discriminate|]. destruct (N.eqb_spec c 45) as [->|N].
  - unfold cons_fst. destruct (parse_unsigned s) as [[u q]|] eqn:P; [|discriminate]. intros H. injection H as <- <-.
    apply unsigned_sound in P. destruct P as (i & f & e & -> & -> & I & F & E). split; [reflexivity|]. exists [45], i, f, e. auto 10.
  - intros P. apply unsigned_sound in P. destruct P as (i & f & e & -> & -> & I & F & E). split; [reflexivity|]. exists [], i, f, e. auto 10.
Qed.
Lemma fraction_no_dec f r : fraction_text f -> no_dec r -> no_dec (f ++ r).
Proof. intros [->|(u & -> & _)] N; [exact N|]. right. exists 46, (u ++ r). split; reflexivity. Qed.
Lemma exponent_no_dec e r : exponent_text e -> no_dec r -> no_dec (e ++ r).
Proof.
  intros [->|(c & g & u & -> & E & _)] N; [exact N|]. right. exists c, ((g ++ u) ++ r). split; [reflexivity|]. destruct E as [->| ->]; reflexivity.
Qed.
Lemma unsigned_complete i f e r : integer_text i -> fraction_text f -> exponent_text e -> follows r -> parse_unsigned ((i ++ f ++ e) ++ r) = Some (i ++ f ++ e, r).
Proof.
  intros I F E R. apply follows_at in R. assert (N : no_dec r). { destruct R as [->|(c & r' & -> & D & _)]; [left; reflexivity|right; eauto]. }
  unfold parse_unsigned. rewrite <- !app_assoc. rewrite (int_complete I); [|apply fraction_no_dec, exponent_no_dec; auto].
  rewrite (fraction_complete F); [|apply exponent_no_dec; auto|].
  2:{ intros _. destruct E as [->|(c & g & u & -> & E & _)].
      - cbn [app]. destruct R as [->|(c & r' & -> & _ & D & _)]; [left; reflexivity|right; eauto].
      - right. exists c, ((g ++ u) ++ r). split; [reflexivity|]. destruct E as [->| ->]; reflexivity. }
  rewrite (exponent_complete E N); [reflexivity|].
  intros _. destruct R as [->|(c & r' & -> & _ & _ & D)]; [left; reflexivity|right; eauto].
Qed.
Lemma number_head t : number_text t -> exists c u, t = c :: u /\ (48 <= c <= 57 \/ c = 45).
Proof.
  intros (m & i & f & e & -> & M & I & _). destruct M as [->| ->]; [|exists 45, (i ++ f ++ e); auto].
  destruct I as [->|(c & u & -> & C & _)]; [exists 48, (f ++ e); split; [reflexivity|lia]|exists c, (u ++ f ++ e); split; [reflexivity|lia]].
Qed.
Lemma number_complete t r : number_text t -> follows r -> parse_number (t ++ r) = Some (t, r).
Proof.
  intros (m & i & f & e & -> & M & I & F & E) R. pose proof (unsigned_complete I F E R) as P. destruct M as [->| ->].
  - cbn [app]. destruct (@number_head (i ++ f ++ e)) as (c & u & X & C). { exists [], i, f, e. auto 10. }
    assert (Y : c <> 45). { destruct I as [->|(d & w & -> & D & _)]; cbn [app] in X; injection X as <- _; [discriminate|lia]. }
    rewrite X in *. cbn [app] in *. unfold parse_number. rewrite (proj2 (N.eqb_neq _ _) Y). exact P.
  - cbn [app]. unfold parse_number. change (45 =? 45) with true. cbv iota. rewrite P. reflexivity.
Qed.

(** ** Values *)
Lemma depth_arr_le l d : json_depth (JArr l) <= 1 + d <-> Forall (fun j => json_depth j <= d) l.
Proof.
  cbn [json_depth]. split.
  - intros H. assert (M : fold_right (fun x m => N.max (json_depth x) m) 0 l <= d) by lia. clear H.
    induction l as [|j l IH]; [constructor|]. cbn [fold_right] in M. constructor; [lia|apply IH; lia].
  - intros H. assert (M : fold_right (fun x m => N.max (json_depth x) m) 0 l <= d); [|lia].
    induction H as [|j l J H IH]; cbn [fold_right]; lia.
Qed.
Lemma depth_obj_le l d : json_depth (JObj l) <= 1 + d <-> Forall (fun e => json_depth (snd e) <= d) l.
Proof.
  cbn [json_depth]. split.
  - intros H. assert (M : fold_right (fun (e : str * json) m => N.max (json_depth (snd e)) m) 0 l <= d) by lia. clear H.
    induction l as [|j l IH]; [constructor|]. cbn [fold_right] in M. constructor; [lia|apply IH; lia].
  - intros H. assert (M : fold_right (fun (e : str * json) m => N.max (json_depth (snd e)) m) 0 l <= d); [|lia].
    induction H as [|j l J H IH]; cbn [fold_right]; lia.
Qed.

Lemma starts_with_split w : forall s, starts_with s w = true -> s = w ++ skipn (length w) s.
Proof.
  induction w as [|c w IH]; intros s H; [reflexivity|]. destruct s as [|x s]; [discriminate|]. cbn [starts_with] in H.
  apply andb_true_iff in H. destruct H as [E H]. apply N.eqb_eq in E. subst x. cbn [List.length skipn app]. f_equal. apply IH, H.
Qed.
Lemma starts_with_app w r : starts_with (w ++ r) w = true.
Proof. induction w as [|c w IH]; [destruct r; reflexivity|cbn [app starts_with]]. rewrite N.eqb_refl. exact IH. Qed.
Lemma word_sound w j s v r : parse_word w j s = Some (v, r) -> s = w ++ r /\ v = j.
Proof.
  unfold parse_word. destruct (starts_with s w) eqn:E; [|discriminate]. intros H. injection H as <- <-. split; [apply starts_with_split, E|reflexivity].
Qed.
Lemma word_complete w j r : parse_word w j (w ++ r) = Some (j, r).
Proof. unfold parse_word. rewrite starts_with_app, skipn_app, skipn_all, Nat.sub_diag. reflexivity. Qed.

Ltac skip s := let w := fresh "w" in let E := fresh "E" in let W := fresh "W" in destruct (skip_split s) as (w & E & W).

Lemma parse_sound f : forall d s,
  (forall j r, parse_value f d s = Some (j, r) -> exists t, s = t ++ r /\ value_text t j /\ json_depth j <= N.of_nat d) /\
  (forall l r, parse_elements f d s = Some (l, r) -> exists t, s = t ++ 93 :: r /\ elements_text t l /\ Forall (fun j => json_depth j <= N.of_nat d) l) /\
  (forall l r, parse_members f d s = Some (l, r) -> exists t, s = t ++ 125 :: r /\ members_text t l /\ Forall (fun e => json_depth (snd e) <= N.of_nat d) l).
Proof.
  induction f as [|f IH]; intros d s; [repeat split; discriminate|]. repeat split.
  - intros j r H. cbn [parse_value] in H. destruct s as [|c s1]; [discriminate|].
    destruct (N.eqb_spec c 110) as [->|N1].
    { apply word_sound in H. destruct H as [-> ->]. exists (lit "null"). repeat split; [constructor|cbn [json_depth]; lia]. }
    destruct (N.eqb_spec c 116) as [->|N2].
    { apply word_sound in H. destruct H as [-> ->]. exists (lit "true"). repeat split; [constructor|cbn [json_depth]; lia]. }
    destruct (N.eqb_spec c 102) as [->|N3].
    { apply word_sound in H. destruct H as [-> ->]. exists (lit "false"). repeat split; [constructor|cbn [json_depth]; lia]. }
    destruct (N.eqb_spec c 34) as [->|N4].
    { destruct (parse_string s1) as [[t r']|] eqn:P; [|discriminate]. injection H as <- <-.
      destruct (@string_sound (length s1) s1 _ _ (le_n _) P) as (x & -> & ST). exists (34 :: x ++ [34]). cbn [app]. rewrite <- app_assoc.
      repeat split; [constructor; exact ST|cbn [json_depth]; lia]. }
    destruct (N.eqb_spec c 91) as [->|N5].
    { destruct d as [|d]; [discriminate|]. skip s1. destruct (skip_blanks s1) as [|x r1]; [discriminate|].
      destruct (N.eqb_spec x 93) as [->|N].
      - injection H as <- <-. exists (91 :: w ++ [93]). split; [cbn [app]; rewrite <- app_assoc; f_equal; exact E|]. split; [constructor; exact W|].
        cbn [json_depth fold_right]. lia.
      - destruct (parse_elements f d (x :: r1)) as [[l r2]|] eqn:P; [|discriminate]. injection H as <- <-.
        apply (IH d) in P. destruct P as (t & X & T & D). exists (91 :: (w ++ t) ++ [93]).
        split; [cbn [app]; rewrite <- !app_assoc; f_equal; rewrite E, X; reflexivity|]. split.
        + apply vt_elements. destruct T; rewrite app_assoc; constructor; auto; apply Forall_app; auto.
        + apply depth_arr_le in D. lia. }
    destruct (N.eqb_spec c 123) as [->|N6].
    { destruct d as [|d]; [discriminate|]. skip s1. destruct (skip_blanks s1) as [|x r1]; [discriminate|].
      destruct (N.eqb_spec x 125) as [->|N].
      - injection H as <- <-. exists (123 :: w ++ [125]). split; [cbn [app]; rewrite <- app_assoc; f_equal; exact E|]. split; [constructor; exact W|].
        cbn [json_depth fold_right]. lia.
      - destruct (parse_members f d (x :: r1)) as [[l r2]|] eqn:P; [|discriminate]. injection H as <- <-.
        apply (IH d) in P. destruct P as (t & X & T & D). exists (123 :: (w ++ t) ++ [125]).
        split; [cbn [app]; rewrite <- !app_assoc; f_equal; rewrite E, X; reflexivity|]. split.
        + apply vt_members. destruct T; rewrite app_assoc; constructor; auto; apply Forall_app; auto.
        + apply depth_obj_le in D. lia. }
    destruct (parse_number (c :: s1)) as [[t r']|] eqn:P; [|discriminate]. injection H as <- <-. apply number_sound in P. destruct P as [E T].
    exists t. repeat split; [exact E|constructor; exact T|cbn [json_depth]; lia].
  - intros l r H. cbn [parse_elements] in H. skip s.
    destruct (parse_value f d (skip_blanks s)) as [[v r1]|] eqn:P; [|discriminate]. apply (IH d) in P. destruct P as (t & X & T & D). rewrite X in E.
    skip r1. destruct (skip_blanks r1) as [|x r2]; [discriminate|].
    destruct (N.eqb_spec x 93) as [->|N].
    + injection H as <- <-. exists (w ++ t ++ w0). rewrite <- !app_assoc. split; [rewrite E, E0; reflexivity|]. split; [constructor; auto|auto].
    + destruct (N.eqb_spec x 44) as [->|N']; [|discriminate]. destruct (parse_elements f d r2) as [[l' r3]|] eqn:P; [|discriminate]. injection H as <- <-.
      apply (IH d) in P. destruct P as (t' & X' & T' & D'). exists (w ++ t ++ w0 ++ 44 :: t'). rewrite <- !app_assoc. cbn [app].
      split; [rewrite E, E0, X'; rewrite <- ?app_assoc; reflexivity|]. split; [constructor; auto|auto].
  - intros l r H. cbn [parse_members] in H. skip s. destruct (skip_blanks s) as [|q s1]; [discriminate|].
    destruct (N.eqb_spec q 34) as [->|N]; [|discriminate].
    destruct (parse_string s1) as [[k r1]|] eqn:P; [|discriminate]. destruct (@string_sound (length s1) s1 _ _ (le_n _) P) as (kt & -> & ST). clear P.
    skip r1. destruct (skip_blanks r1) as [|x r2]; [discriminate|]. destruct (N.eqb_spec x 58) as [->|N]; [|discriminate].
    skip r2. destruct (parse_value f d (skip_blanks r2)) as [[v r3]|] eqn:P; [|discriminate]. apply (IH d) in P. destruct P as (t & X & T & D). rewrite X in E1.
    skip r3. destruct (skip_blanks r3) as [|x r4]; [discriminate|].
    destruct (N.eqb_spec x 125) as [->|N].
    + injection H as <- <-. exists (w ++ 34 :: kt ++ 34 :: w0 ++ 58 :: w1 ++ t ++ w2).
      split; [|split; [constructor; auto|constructor; [exact D|constructor]]].
      rewrite E, E0, E1, E2. repeat (rewrite <- ?app_assoc; cbn [app]). reflexivity.
    + destruct (N.eqb_spec x 44) as [->|N']; [|discriminate]. destruct (parse_members f d r4) as [[l' r5]|] eqn:P; [|discriminate]. injection H as <- <-.
      apply (IH d) in P. destruct P as (t' & X' & T' & D').
      exists (w ++ 34 :: kt ++ 34 :: w0 ++ 58 :: w1 ++ t ++ w2 ++ 44 :: t').
      split; [|split; [constructor; auto|constructor; [exact D|exact D']]].
      rewrite E, E0, E1, E2, X'. repeat (rewrite <- ?app_assoc; cbn [app]). reflexivity.
Qed.

Scheme value_text_mind := Induction for value_text Sort Prop
  with elements_text_mind := Induction for elements_text Sort Prop
  with members_text_mind := Induction for members_text Sort Prop.
Combined Scheme json_texts_mutind from value_text_mind, elements_text_mind, members_text_mind.

Lemma value_head t j : value_text t j -> exists c u, t = c :: u /\ is_blank c = false /\ c <> 93 /\ c <> 125.
Proof.
  intros [| | |s NT|s r ST|w W|s l T|w W|s l T]; try (eexists _, _; split; [reflexivity|repeat split; discriminate]).
  - destruct (number_head NT) as (c & u & -> & C). exists c, u. split; [reflexivity|]. split; [|lia].
    destruct (is_blank c) eqn:B; [|reflexivity]. apply blank_iff in B. cbn [In] in B. lia.
Qed.
Lemma value_solid t j r : value_text t j -> starts_solid (t ++ r).
Proof. intros T. destruct (value_head T) as (c & u & -> & B & _). exists c, (u ++ r). auto. Qed.
Lemma solid_at c r : is_blank c = false -> starts_solid (c :: r).
Proof. intros B. exists c, r. auto. Qed.
Lemma follows_blanks w c r : blanks w -> In c [44; 93; 125] -> follows (w ++ c :: r).
Proof.
  intros W C. right. destruct w as [|x w]; [exists c, r; auto|]. exists x, (w ++ c :: r). split; [reflexivity|]. left. inversion W; subst. apply blank_iff. assumption.
Qed.

Lemma parse_complete :
  (forall t j, value_text t j -> forall f d r, (2 * length t <= f)%nat -> json_depth j <= N.of_nat d -> follows r ->
     parse_value (S f) d (t ++ r) = Some (j, r)) /\
  (forall t l, elements_text t l -> forall f d r, (2 * length t + 1 <= f)%nat -> Forall (fun j => json_depth j <= N.of_nat d) l ->
     parse_elements (S f) d (t ++ 93 :: r) = Some (l, r)) /\
  (forall t l, members_text t l -> forall f d r, (2 * length t + 1 <= f)%nat -> Forall (fun e => json_depth (snd e) <= N.of_nat d) l ->
     parse_members (S f) d (t ++ 125 :: r) = Some (l, r)).
Proof.
  apply json_texts_mutind.
  - intros f d r _ _ _. exact (word_complete (lit "null") JNull r).
  - intros f d r _ _ _. exact (word_complete (lit "true") (JBool true) r).
  - intros f d r _ _ _. exact (word_complete (lit "false") (JBool false) r).
  - intros s NT f d r _ _ R. pose proof (number_complete NT R) as P. destruct (number_head NT) as (c & u & -> & C). cbn [app] in *.
    cbn [parse_value]. rewrite !(proj2 (N.eqb_neq c _)) by lia. rewrite P. reflexivity.
  - intros s t ST f d r _ _ _. cbn [app]. rewrite <- app_assoc. cbn [app]. cbn [parse_value].
    change (34 =? 110) with false. change (34 =? 116) with false. change (34 =? 102) with false. change (34 =? 34) with true. cbv iota.
    rewrite (string_complete ST). reflexivity.
  - intros w W f d r _ D _. cbn [app]. rewrite <- app_assoc. cbn [app]. destruct d as [|d]; [cbn [json_depth fold_right] in D; lia|].
    cbn [parse_value]. change (91 =? 110) with false. change (91 =? 116) with false. change (91 =? 102) with false. change (91 =? 34) with false.
    change (91 =? 91) with true. cbv iota. rewrite (skip_app W) by (apply solid_at; reflexivity). reflexivity.
  - intros s l T IH f d r L D _. cbn [app]. rewrite <- app_assoc. cbn [app]. destruct d as [|d]; [cbn [json_depth] in D; lia|].
    assert (D' : Forall (fun j => json_depth j <= N.of_nat d) l) by (apply depth_arr_le; lia).
    cbn [List.length] in L. rewrite app_length in L. cbn [List.length] in L. destruct f as [|f]; [lia|].
    assert (X : exists x y, skip_blanks (s ++ 93 :: r) = x :: y /\ x <> 93 /\ forall g, parse_elements g d (x :: y) = parse_elements g d (s ++ 93 :: r)).
    { assert (G : forall a u v, blanks a -> value_text u v -> forall z, exists x y, skip_blanks (a ++ u ++ z) = x :: y /\ x <> 93 /\
          forall g, parse_elements g d (x :: y) = parse_elements g d (a ++ u ++ z)).
      { intros a u v A V z. destruct (value_head V) as (c & q & -> & B & N & _). exists c, (q ++ z). cbn [app].
        assert (K : skip_blanks (a ++ c :: q ++ z) = c :: q ++ z) by (apply skip_app; [exact A|apply solid_at, B]).
        split; [exact K|]. split; [exact N|]. intros [|g]; [reflexivity|]. cbn [parse_elements]. rewrite K.
        assert (K' : skip_blanks (c :: q ++ z) = c :: q ++ z) by (apply (@skip_app []); [constructor|apply solid_at, B]). rewrite K'. reflexivity. }
      destruct T; repeat (rewrite <- ?app_assoc; cbn [app]); eapply G; eassumption. }
    destruct X as (x & y & X & N & Y). cbn [parse_value]. change (91 =? 110) with false. change (91 =? 116) with false. change (91 =? 102) with false. change (91 =? 34) with false.
    change (91 =? 91) with true. cbv iota. rewrite X, (proj2 (N.eqb_neq _ _) N), Y. rewrite (IH f d r); [reflexivity|lia|exact D'].
  - intros w W f d r _ D _. cbn [app]. rewrite <- app_assoc. cbn [app]. destruct d as [|d]; [cbn [json_depth fold_right] in D; lia|].
    cbn [parse_value]. change (123 =? 110) with false. change (123 =? 116) with false. change (123 =? 102) with false. change (123 =? 34) with false.
    change (123 =? 91) with false. change (123 =? 123) with true. cbv iota. rewrite (skip_app W) by (apply solid_at; reflexivity). reflexivity.
  - intros s l T IH f d r L D _. cbn [app]. rewrite <- app_assoc. cbn [app]. destruct d as [|d]; [cbn [json_depth] in D; lia|].
    assert (D' : Forall (fun e => json_depth (snd e) <= N.of_nat d) l) by (apply depth_obj_le; lia).
    cbn [List.length] in L. rewrite app_length in L. cbn [List.length] in L. destruct f as [|f]; [lia|].
    assert (X : exists y, skip_blanks (s ++ 125 :: r) = 34 :: y /\ forall g, parse_members g d (34 :: y) = parse_members g d (s ++ 125 :: r)).
    { assert (G : forall a z, blanks a -> exists y, skip_blanks (a ++ 34 :: z) = 34 :: y /\
          forall g, parse_members g d (34 :: y) = parse_members g d (a ++ 34 :: z)).
      { intros a z A. exists z.
        assert (K : skip_blanks (a ++ 34 :: z) = 34 :: z) by (apply skip_app; [exact A|apply solid_at; reflexivity]).
        split; [exact K|]. intros [|g]; [reflexivity|]. cbn [parse_members]. rewrite K. reflexivity. }
      destruct T; repeat (rewrite <- ?app_assoc; cbn [app]); apply G; assumption. }
    destruct X as (y & X & Y). cbn [parse_value]. change (123 =? 110) with false. change (123 =? 116) with false. change (123 =? 102) with false. change (123 =? 34) with false.
    change (123 =? 91) with false. change (123 =? 123) with true. cbv iota. rewrite X. change (34 =? 125) with false. cbv iota. rewrite Y.
    rewrite (IH f d r); [reflexivity|lia|exact D'].
  - intros a s v b A T IH B f d r L D. rewrite !app_length in L. inversion D as [|? ? Dv _]; subst. destruct f as [|f]; [lia|].
    rewrite <- !app_assoc. cbn [parse_elements]. rewrite (skip_app A) by apply (value_solid _ T).
    rewrite (IH f d (b ++ 93 :: r)); [|lia|exact Dv|apply follows_blanks; cbn [In]; auto].
    rewrite (skip_app B) by (apply solid_at; reflexivity). reflexivity.
  - intros a s v b t l A T IH B T' IH' f d r L D. rewrite !app_length in L. cbn [List.length] in L. inversion D as [|? ? Dv Dl]; subst. destruct f as [|f]; [lia|].
    assert (P : (1 <= length s)%nat) by (destruct (value_head T) as (c & u & -> & _); cbn [List.length]; lia).
    repeat (rewrite <- ?app_assoc; cbn [app]). remember (S f) as g eqn:G. cbn [parse_elements]. subst g. rewrite (skip_app A) by apply (value_solid _ T).
    rewrite (IH f d (b ++ 44 :: t ++ 93 :: r)); [|lia|exact Dv|apply follows_blanks; cbn [In]; auto].
    rewrite (skip_app B) by (apply solid_at; reflexivity). change (44 =? 93) with false. change (44 =? 44) with true. cbv iota.
    rewrite (IH' f d r); [reflexivity|lia|exact Dl].
  - intros a k n b c s v e A K B C T IH E f d r L D. repeat (rewrite ?app_length in L; cbn [List.length] in L). inversion D as [|? ? Dv _]; subst. cbn [snd] in Dv.
    destruct f as [|f]; [lia|].
    repeat (rewrite <- ?app_assoc; cbn [app]). cbn [parse_members]. rewrite (skip_app A) by (apply solid_at; reflexivity).
    change (34 =? 34) with true. cbv iota. rewrite (string_complete K). rewrite (skip_app B) by (apply solid_at; reflexivity).
    change (58 =? 58) with true. cbv iota. rewrite (skip_app C) by apply (value_solid _ T).
    rewrite (IH f d (e ++ 125 :: r)); [|lia|exact Dv|apply follows_blanks; cbn [In]; auto].
    rewrite (skip_app E) by (apply solid_at; reflexivity). reflexivity.
  - intros a k n b c s v e t l A K B C T IH E T' IH' f d r L D. repeat (rewrite ?app_length in L; cbn [List.length] in L). inversion D as [|? ? Dv Dl]; subst. cbn [snd] in Dv.
    destruct f as [|f]; [lia|].
    repeat (rewrite <- ?app_assoc; cbn [app]). remember (S f) as g eqn:G. cbn [parse_members]. subst g. rewrite (skip_app A) by (apply solid_at; reflexivity).
    change (34 =? 34) with true. cbv iota. rewrite (string_complete K). rewrite (skip_app B) by (apply solid_at; reflexivity).
    change (58 =? 58) with true. cbv iota. rewrite (skip_app C) by apply (value_solid _ T).
    rewrite (IH f d (e ++ 44 :: t ++ 125 :: r)); [|lia|exact Dv|apply follows_blanks; cbn [In]; auto].
    rewrite (skip_app E) by (apply solid_at; reflexivity). change (44 =? 125) with false. change (44 =? 44) with true. cbv iota.
    rewrite (IH' f d r); [reflexivity|lia|exact Dl].
Qed.

(** ** Texts *)
Theorem parse_text_exact s j : parse_text s = Ok j <-> json_text s j /\ json_depth j <= 127.
Proof.
  unfold parse_text. split.
  - destruct (parse_value (2 * length s + 2) 127 (skip_blanks s)) as [[v r]|] eqn:P; [|discriminate].
    destruct (skip_blanks r) eqn:R; [|discriminate]. intros H. injection H as ->. apply (parse_sound _ 127) in P. destruct P as (t & X & T & D).
    skip s. split; [|exact D]. exists w, t, r. rewrite X in E. split; [exact E|]. split; [exact W|]. split; [exact T|apply skip_nil, R].
  - intros [(a & t & b & -> & A & T & B) D]. rewrite (skip_app A) by apply (value_solid _ T).
    replace (2 * length (a ++ t ++ b) + 2)%nat with (S (2 * length (a ++ t ++ b) + 1)) by lia.
    assert (F : follows b).
    { destruct b as [|x b]; [left; reflexivity|right]. exists x, b. split; [reflexivity|left]. inversion B; subst. apply blank_iff. assumption. }
    rewrite (proj1 parse_complete t j T); [|rewrite !app_length; lia|exact D|exact F].
    rewrite (skip_all B). reflexivity.
Qed.
Lemma parse_text_not_panic s : parse_text s <> Panic.
Proof.
  unfold parse_text. destruct (parse_value _ _ _) as [[v r]|]; [|discriminate]. destruct (skip_blanks r); discriminate.
Qed.
Theorem parse_text_fails s : (forall j, json_text s j -> 127 < json_depth j) <-> parse_text s = Err SerdeJson.
Proof.
  split.
  - intros H. destruct (parse_text s) as [j| |] eqn:E.
    + apply parse_text_exact in E. destruct E as [T D]. apply H in T. lia.
    + unfold parse_text in E. destruct (parse_value _ _ _) as [[v r]|]; [destruct (skip_blanks r)|]; congruence.
    + destruct (parse_text_not_panic s E).
  - intros H j T. destruct (N.le_gt_cases (json_depth j) 127) as [D|D]; [|exact D].
    rewrite (proj2 (parse_text_exact s j) (conj T D)) in H. discriminate.
Qed.
Theorem json_text_unique s j j' : json_text s j -> json_text s j' -> j = j'.
Proof.
  assert (K : forall d j, json_text s j -> json_depth j <= N.of_nat d ->
      match parse_value (2 * length s + 2) d (skip_blanks s) with Some (v, r) => Some v | None => None end = Some j).
  { clear. intros d j (a & t & b & -> & A & T & B) D. rewrite (skip_app A) by apply (value_solid _ T).
    replace (2 * length (a ++ t ++ b) + 2)%nat with (S (2 * length (a ++ t ++ b) + 1)) by lia.
    assert (F : follows b).
    { destruct b as [|x b]; [left; reflexivity|right]. exists x, b. split; [reflexivity|left]. inversion B; subst. apply blank_iff. assumption. }
    rewrite (proj1 parse_complete t j T); [reflexivity|rewrite !app_length; lia|exact D|exact F]. }
  intros T T'. pose (d := N.to_nat (N.max (json_depth j) (json_depth j'))).
  assert (E : Some j = Some j') by (rewrite <- (K d j T), <- (K d j' T'); [reflexivity|lia|lia]). injection E as ->. reflexivity.
Qed.

(** ** Writing *)
Lemma hex_lower_digit n : n < 16 -> hex_digit (hex_lower n) n.
Proof. intros L. unfold hex_lower, hex_digit. destruct (N.ltb_spec n 10); lia. Qed.
Lemma escape_text c s r : string_text s r -> string_text (escape c ++ s) (c :: r).
Proof.
  intros T. unfold escape.
  destruct (N.eqb_spec c 34) as [->|N1]; [apply (@st_escape 34); [cbn; auto 12|exact T]|].
  destruct (N.eqb_spec c 92) as [->|N2]; [apply (@st_escape 92); [cbn; auto 12|exact T]|].
  destruct (N.eqb_spec c 8) as [->|N3]; [apply (@st_escape 98); [cbn; auto 12|exact T]|].
  destruct (N.eqb_spec c 12) as [->|N4]; [apply (@st_escape 102); [cbn; auto 12|exact T]|].
  destruct (N.eqb_spec c 10) as [->|N5]; [apply (@st_escape 110); [cbn; auto 12|exact T]|].
  destruct (N.eqb_spec c 13) as [->|N6]; [apply (@st_escape 114); [cbn; auto 12|exact T]|].
  destruct (N.eqb_spec c 9) as [->|N7]; [apply (@st_escape 116); [cbn; auto 12|exact T]|].
  destruct (N.ltb_spec c 32) as [L|G]; [|apply st_plain; auto].
  apply (@st_unicode [48; 48; hex_lower (c / 16); hex_lower (c mod 16)]); [|lia|exact T].
  assert (A : c / 16 < 16) by (apply N.div_lt_upper_bound; lia). assert (B : c mod 16 < 16) by (apply N.mod_lt; lia).
  exists 48, 48, (hex_lower (c / 16)), (hex_lower (c mod 16)), 0, 0, (c / 16), (c mod 16).
  repeat split; try apply hex_lower_digit; auto; try (left; lia). pose proof (N.div_mod c 16). lia.
Qed.
Lemma show_string_text s : exists t, show_string s = 34 :: t ++ [34] /\ string_text t s.
Proof.
  exists (flat_map escape s). split; [reflexivity|]. induction s as [|c s IH]; [constructor|]. cbn [flat_map]. apply escape_text, IH.
Qed.
Theorem show_text j : writable j -> value_text (show_json j) j.
Proof.
  induction j as [| |s|s|l IH|l IH] using json_ind'; intros W.
  - exact vt_null.
  - destruct b; [exact vt_true|exact vt_false].
  - inversion W; subst. constructor. assumption.
  - cbn [show_json]. destruct (show_string_text s) as (t & -> & T). constructor. exact T.
  - inversion W as [| | | |l' F|]; subst. clear W. cbn [show_json]. destruct l as [|j l]; [apply (@vt_no_elements []); constructor|].
    apply vt_elements. revert j IH F. induction l as [|k l IHl]; intros j IH F; inversion IH as [|? ? J IH']; inversion F as [|? ? Wj F']; subst.
    + cbn [map join]. pose proof (@el_one [] (show_json j) j []) as E. rewrite app_nil_r in E. apply E; [constructor|auto|constructor].
    + pose proof (@el_more [] (show_json j) j [] (join [44] (map show_json (k :: l))) (k :: l)) as E.
      apply E; [constructor|auto|constructor|]. apply IHl; assumption.
  - inversion W as [| | | | |l' F]; subst. clear W. cbn [show_json]. destruct l as [|e l]; [apply (@vt_no_members []); constructor|].
    apply vt_members. revert e IH F. induction l as [|k l IHl]; intros [n j] IH F; inversion IH as [|? ? J IH']; inversion F as [|? ? Wj F']; subst; cbn [snd] in *.
    + cbn [map join fst snd]. destruct (show_string_text n) as (t & -> & T).
      pose proof (@mb_one [] t n [] [] (show_json j) j []) as E. rewrite app_nil_r in E. cbn [app]. rewrite <- app_assoc. cbn [app].
      apply E; auto; constructor.
    + change (map (fun e : str * json => show_string (fst e) ++ 58 :: show_json (snd e)) ((n, j) :: k :: l)) with
        ((show_string n ++ 58 :: show_json j) :: map (fun e : str * json => show_string (fst e) ++ 58 :: show_json (snd e)) (k :: l)).
      set (R := map _ (k :: l)). assert (X : join [44] ((show_string n ++ 58 :: show_json j) :: R) = show_string n ++ 58 :: show_json j ++ 44 :: join [44] R).
      { subst R. cbn [map join]. rewrite <- app_assoc. reflexivity. }
      rewrite X. destruct (show_string_text n) as (t & -> & T). cbn [app]. rewrite <- app_assoc. cbn [app].
      apply (@mb_more [] t n [] [] (show_json j) j [] (join [44] R) (k :: l)); auto; try constructor. apply IHl; assumption.
Qed.
Theorem show_json_text j : writable j -> json_text (show_json j) j.
Proof. intros W. exists [], (show_json j), []. rewrite app_nil_r. repeat split; [constructor|apply show_text, W|constructor]. Qed.

(** ** Scalar values *)
Lemma wf_app a b : wf_str (a ++ b) = wf_str a && wf_str b.
Proof. apply forallb_app. Qed.
Lemma wf_cons c s : wf_str (c :: s) = is_scalar c && wf_str s.
Proof. reflexivity. Qed.
Lemma low_scalar c : c < 0xD800 -> is_scalar c = true.
Proof. intros L. unfold is_scalar. apply orb_true_iff. left. apply N.ltb_lt. exact L. Qed.
Lemma hex_quad_bound q v : hex_quad q v -> v < 65536.
Proof.
  intros (a & b & c & d & w & x & y & z & _ & A & B & C & D & ->). unfold hex_digit in *. lia.
Qed.
Lemma string_scalar s r : string_text s r -> wf_str s = true -> wf_str r = true.
Proof.
  induction 1 as [|c s r G Q B ST IH|e c s r E ST IH|q c s r Q R ST IH|q1 hi q2 lo s r Q1 R1 Q2 R2 ST IH]; intros W.
  - reflexivity.
  - rewrite wf_cons in *. apply andb_true_iff in W as [C W]. rewrite C. auto.
  - rewrite !wf_cons in *. apply andb_true_iff in W as [_ W]. apply andb_true_iff in W as [_ W]. rewrite (IH W), andb_true_r.
    apply low_scalar. cbn [In escapes] in E. repeat (destruct E as [E|E]; [injection E as <- <-; reflexivity|]). contradiction.
  - rewrite !wf_cons, wf_app in *. apply andb_true_iff in W as [_ W]. apply andb_true_iff in W as [_ W]. apply andb_true_iff in W as [_ W].
    rewrite (IH W), andb_true_r. apply hex_quad_bound in Q. unfold is_scalar. apply orb_true_iff. rewrite andb_true_iff, !N.ltb_lt, N.leb_le. lia.
  - rewrite !wf_cons, !wf_app, !wf_cons, !wf_app in *. repeat (apply andb_true_iff in W as [_ W]).
    rewrite (IH W), andb_true_r. unfold is_scalar. apply orb_true_iff. rewrite andb_true_iff, !N.ltb_lt, N.leb_le. lia.
Qed.
Lemma texts_scalar :
  (forall t j, value_text t j -> wf_str t = true -> scalar_json j = true) /\
  (forall t l, elements_text t l -> wf_str t = true -> forallb scalar_json l = true) /\
  (forall t l, members_text t l -> wf_str t = true -> forallb (fun e => wf_str (fst e) && scalar_json (snd e)) l = true).
Proof.
  apply json_texts_mutind; intros; try reflexivity; cbn [scalar_json forallb fst snd] in *;
    repeat match goal with
    | H : wf_str (_ ++ _) = true |- _ => rewrite wf_app in H
    | H : wf_str (_ :: _) = true |- _ => rewrite wf_cons in H
    | H : _ && _ = true |- _ => apply andb_true_iff in H as [? ?]
    | H : string_text _ _ |- _ => apply string_scalar in H; [|assumption]
    | H : wf_str ?s = true -> _, H' : wf_str ?s = true |- _ => specialize (H H')
    end; rewrite ?andb_true_iff; auto 10.
Qed.
Theorem json_text_scalar s j : json_text s j -> wf_str s = true -> scalar_json j = true.
Proof.
  intros (a & t & b & -> & _ & T & _) W. rewrite !wf_app in W. apply andb_true_iff in W as [_ W]. apply andb_true_iff in W as [W _].
  exact (proj1 texts_scalar t j T W).
Qed.
Lemma escape_scalar c : is_scalar c = true -> wf_str (escape c) = true.
Proof.
  intros S. unfold escape. repeat match goal with |- wf_str (if ?x then _ else _) = _ => destruct x eqn:?; [reflexivity || idtac|] end.
  - apply N.ltb_lt in Heqb6. assert (A : c / 16 < 16) by (apply N.div_lt_upper_bound; lia). assert (B : c mod 16 < 16) by (apply N.mod_lt; lia).
    rewrite !wf_cons. assert (H : forall n, n < 16 -> is_scalar (hex_lower n) = true).
    { intros n L. apply low_scalar. unfold hex_lower. destruct (n <? 10); lia. }
    rewrite !H by assumption. reflexivity.
  - rewrite wf_cons, S. reflexivity.
Qed.
Lemma show_string_scalar s : wf_str s = true -> wf_str (show_string s) = true.
Proof.
  intros W. unfold show_string. rewrite wf_cons, wf_app. rewrite (low_scalar (c := 34)) by reflexivity. cbn [andb].
  change (wf_str [34]) with true. rewrite andb_true_r. induction s as [|c s IH]; [reflexivity|]. cbn [flat_map]. rewrite wf_cons in W. apply andb_true_iff in W as [C W].
  rewrite wf_app, (escape_scalar _ C), (IH W). reflexivity.
Qed.
Lemma join_scalar l : forallb wf_str l = true -> wf_str (join [44] l) = true.
Proof.
  induction l as [|s l IH]; [reflexivity|]. intros H. cbn [forallb] in H. apply andb_true_iff in H as [S H]. destruct l as [|t l]; [exact S|].
  change (join [44] (s :: t :: l)) with (s ++ [44] ++ join [44] (t :: l)). rewrite !wf_app, S, (IH H). reflexivity.
Qed.
Theorem show_scalar j : scalar_json j = true -> wf_str (show_json j) = true.
Proof.
  induction j as [| |s|s|l IH|l IH] using json_ind'; cbn [scalar_json show_json]; intros W.
  - reflexivity.
  - destruct b; reflexivity.
  - exact W.
  - apply show_string_scalar, W.
  - rewrite wf_cons, wf_app. rewrite join_scalar; [reflexivity|]. rewrite forallb_map. apply forallb_forall. intros x I.
    rewrite Forall_forall in IH. apply IH; [exact I|]. rewrite forallb_forall in W. apply W, I.
  - rewrite wf_cons, wf_app. rewrite join_scalar; [reflexivity|]. rewrite forallb_map. apply forallb_forall. intros x I.
    rewrite Forall_forall in IH. rewrite forallb_forall in W. specialize (W x I). apply andb_true_iff in W as [K V].
    rewrite wf_app, wf_cons, (show_string_scalar _ K), (IH x I V). reflexivity.
Qed.

(** * Proofs about the number that is wrong in a name *)
From Verif Require Import Base BaseFacts StrFacts Types TypeNames TypeNamesSpec ReaderSpec ReaderFacts ReaderTotal ReaderGrammar ErrorSpec Work WorkNames WorkLower ErrorFacts
  Message MessageSpec MessageFacts.
From Coq Require Import String.
From Coq Require Import Lia ZifyBool ZifyNat ZifyN.
Set Implicit Arguments.
Notation length := List.length.
Local Open Scope N_scope.
Local Open Scope list_scope.

(** ** Numbers *)
Lemma size_detail s n : parse_usize_detail s = inl n <-> size_text s n.
Proof. rewrite <- parse_usize_iff, usize_same. destruct (parse_usize_detail s); split; congruence. Qed.
Lemma size_invalid s : parse_usize_detail s = inr InvalidDigit <-> s <> [] /\ ~ overflows s /\ forall n, ~ size_text s n.
Proof.
  destruct (usize_kinds s) as [K1 K2]. split.
  - intros E. split; [intros X; apply K1 in X; congruence|]. split; [intros X; apply K2 in X; congruence|]. intros n X. apply size_detail in X. congruence.
  - intros (A & B & C). destruct (parse_usize_detail s) as [n|[]] eqn:E; [destruct (C n); now apply size_detail|destruct A; now apply K1|reflexivity|destruct B; now apply K2].
Qed.

(** ** Where the number is *)
Lemma take_while_parts A (g : A -> bool) l : exists r, l = take_while g l ++ r /\ (r = [] \/ exists c r', r = c :: r' /\ g c = false).
Proof.
  induction l as [|a l (r & E & R)]; [exists []; auto|]. cbn [take_while]. destruct (g a) eqn:G; [exists r; split; [now rewrite E at 1|exact R]|]. exists (a :: l). split; [reflexivity|]. right. eauto.
Qed.
(** What stands before the last bracket *)
Lemma bracket_place s num : last_char s = Some ch_rbracket -> rev (take_while (fun c => negb (c =? ch_lbracket)) (skipn 1 (rev s))) = num -> size_place s num.
Proof.
  intros L <-. apply last_char_some in L as [s' ->]. rewrite rev_app_distr. cbn [rev app skipn].
  set (g := fun c => negb (c =? ch_lbracket)). destruct (@take_while_parts _ g (rev s')) as (r & E & R). pose proof (@take_while_forallb _ g (rev s')) as F.
  set (t := take_while g (rev s')) in *. right; right; right. split.
  - rewrite <- in_rev. intros X. rewrite forallb_forall in F. apply F in X. discriminate X.
  - assert (E' : s' = rev r ++ rev t) by (rewrite <- rev_app_distr, <- E; now rewrite rev_involutive).
    destruct R as [->|(c & r' & -> & G)]; [left; now rewrite E'|]. right. exists (rev r'). rewrite E'. cbn [rev]. unfold g, ch_lbracket in G. assert (c = 91) as -> by lia. rewrite <- !app_assoc. reflexivity.
Qed.

(** ** The results are the same otherwise *)
Lemma recounted_bind A B (r r' : res A) (k k' : A -> res B) : recounted r r' -> (forall a, recounted (k a) (k' a)) -> recounted (bind r k) (bind r' k').
Proof.
  intros R K. destruct r as [a|e|]; cbn [recounted bind] in *; [subst r'; apply K| |now subst r'].
  destruct e; try (now subst r'). destruct R as [w ->]. cbn [bind]. now exists w.
Qed.
Lemma recounted_refl A (r : res A) : (forall e, r <> Err e) -> recounted r r.
Proof. intros H. destruct r as [a|e|]; [reflexivity|destruct (H e); reflexivity|reflexivity]. Qed.
Lemma recounted_size s : recounted (parse_usize s) (usize_told s).
Proof. rewrite usize_same. unfold usize_told. destruct (parse_usize_detail s) as [n|e]; cbn [recounted]; [reflexivity|]. now exists (int_text_of e). Qed.
Section Names.
Context (p : profile).
Lemma base_recounted s : recounted (read_base s) (told_base s).
Proof.
  unfold read_base, told_base. repeat match goal with |- context [if str_eqb s ?b then _ else _] => destruct (str_eqb s b); [reflexivity|] end.
  assert (G : forall n (k : N -> ParamType), recounted (do s0 <- str_from s n; do l <- parse_usize s0; Ok (k l)) (do s0 <- str_from s n; do l <- usize_told s0; Ok (k l))).
  { intros n k. apply recounted_bind; [apply recounted_refl; intros e; apply str_from_not_err|]. intros a. apply recounted_bind; [apply recounted_size|]. intros l. reflexivity. }
  destruct (starts_with s (lit "int")); [apply G|]. destruct (starts_with s (lit "uint")); [apply G|]. destruct (starts_with s (lit "bytes")); [apply G|]. reflexivity.
Qed.
Section Calls.
Context (rd rd' : str -> res ParamType) (H : forall s, recounted (rd s) (rd' s)).
Lemma array_recounted s : recounted (read_array p rd s) (told_array p rd' s).
Proof.
  unfold read_array, told_array. cbv zeta. destruct (rev _) as [|c num].
  - apply recounted_bind; [apply recounted_refl; intros e; apply usize_sub_err|]. intros e. apply recounted_bind; [apply recounted_refl; intros e'; apply str_slice_not_err|]. intros sub. apply recounted_bind; [apply H|]. intros t. reflexivity.
  - apply recounted_bind; [apply recounted_size|]. intros n. apply recounted_bind; [apply recounted_refl; intros e; apply usize_sub_err|]. intros e. apply recounted_bind; [apply recounted_refl; intros e'; apply usize_sub_err|].
    intros e'. apply recounted_bind; [apply recounted_refl; intros e''; apply str_slice_not_err|]. intros sub. apply recounted_bind; [apply H|]. intros t. reflexivity.
Qed.
Lemma char_recounted name st pos c rest : recounted (read_char rd name st pos c rest) (read_char rd' name st pos c rest).
Proof.
  unfold read_char. destruct (c =? ch_open); [now destruct (1 <? _)%Z|]. destruct (c =? ch_close).
  { destruct (_ <? 0)%Z; [reflexivity|]. apply recounted_bind; [apply recounted_refl; intros e; apply str_slice_not_err|]. intros x.
    destruct x as [|x0 x]; [reflexivity|]. destruct (_ =? 0)%Z; [apply recounted_bind; [apply H|]; intros t; reflexivity|].
    cbv zeta. apply recounted_bind; [apply recounted_refl; intros e; apply str_slice_not_err|]. intros y. apply recounted_bind; [apply H|]. intros t. destruct (1 <? _)%Z; [|reflexivity].
    apply recounted_bind; [apply recounted_refl; intros e; apply take_at_not_err|]. intros [a b]. reflexivity. }
  destruct (c =? ch_comma); [|reflexivity]. apply recounted_bind; [apply recounted_refl; intros e; apply str_slice_not_err|]. intros x. destruct x as [|x0 x]; [reflexivity|].
  destruct (_ =? 1)%Z; [apply recounted_bind; [apply H|]; intros t; reflexivity|]. destruct (1 <? _)%Z; [|reflexivity]. apply recounted_bind; [apply H|]. intros t.
  apply recounted_bind; [apply recounted_refl; intros e; apply push_at_not_err|]. intros a. reflexivity.
Qed.
Lemma loop_recounted name rest : forall pos skip st, recounted (read_tuple_loop rd name rest pos skip st) (read_tuple_loop rd' name rest pos skip st).
Proof.
  induction rest as [|c rest IH]; intros pos skip st; cbn [read_tuple_loop]; [reflexivity|]. destruct skip as [|k]; [|apply IH].
  apply recounted_bind; [apply char_recounted|]. intros [st' k]. apply IH.
Qed.
Lemma tuple_recounted name : recounted (read_tuple rd name) (read_tuple rd' name).
Proof. unfold read_tuple. destruct (starts_with_char name ch_open); [|reflexivity]. apply recounted_bind; [apply loop_recounted|]. intros st. reflexivity. Qed.
End Calls.
Lemma fuel_recounted f : forall s, recounted (read_fuel p f s) (told_fuel p f s).
Proof.
  induction f as [|f IH]; intros s; cbn [read_fuel told_fuel]; [reflexivity|]. destruct (last_char s) as [c|]; [|apply base_recounted].
  destruct (c =? ch_close); [now apply tuple_recounted|]. destruct (c =? ch_rbracket); [now apply array_recounted|apply base_recounted].
Qed.
Lemma read_recounted s : recounted (read p s) (read_told p s).
Proof. apply fuel_recounted. Qed.

(** ** The number that is wrong *)
Definition placed (f : nat) (s m : str) : Prop :=
  exists x k e g, part_of x s /\ size_place x k /\ k <> [] /\ parse_usize_detail k = inr e /\ m = int_message e /\ (g <= f)%nat /\ told_fuel p g x = Err (OtherErr m).
Lemma placed_part f s x m : part_of x s -> placed f x m -> placed (S f) s m.
Proof. intros P (y & k & e & g & Q & A & B & C & D & E & F). exists y, k, e, g. split; [now apply part_trans with x|]. repeat split; auto. Qed.
Lemma usize_told_err s m : usize_told s = Err (OtherErr m) -> exists e, parse_usize_detail s = inr e /\ m = int_message e.
Proof. unfold usize_told. destruct (parse_usize_detail s) as [n|e]; [discriminate|]. intros E. injection E as <-. eauto. Qed.
Lemma base_placed f s m : told_base s = Err (OtherErr m) -> (forall f', told_fuel p (S f') s = told_base s) -> placed (S f) s m.
Proof.
  intros E H. assert (X : exists k e, size_place s k /\ k <> [] /\ parse_usize_detail k = inr e /\ m = int_message e).
  { revert E. unfold told_base. destruct (str_eqb s (lit "address")); [discriminate|]. destruct (str_eqb s (lit "bytes")) eqn:Eb; [discriminate|]. destruct (str_eqb s (lit "bool")); [discriminate|].
    destruct (str_eqb s (lit "string")); [discriminate|]. destruct (str_eqb s (lit "int")) eqn:Ei; [discriminate|]. destruct (str_eqb s (lit "tuple")); [discriminate|]. destruct (str_eqb s (lit "uint")) eqn:Eu; [discriminate|].
    assert (G : forall pre n (k : N -> res ParamType), str_len pre = n -> str_eqb s pre = false -> starts_with s pre = true -> (do s0 <- str_from s n; do l <- usize_told s0; k l) = Err (OtherErr m) -> (forall l, exists t : ParamType, k l = Ok t) ->
      exists r e, s = pre ++ r /\ r <> [] /\ parse_usize_detail r = inr e /\ m = int_message e).
    { intros pre n k Ln Ne Sw G Kk. apply starts_with_inv in Sw as [r ->]. rewrite (@str_from_prefix _ _ _ Ln) in G. cbn [bind] in G. apply bind_err' in G as [G|(l & _ & G)]; [|destruct (Kk l) as [t Q]; rewrite Q in G; discriminate].
      apply usize_told_err in G as (e & G1 & G2). exists r, e. split; [reflexivity|]. split; [intros ->; rewrite app_nil_r in Ne; now rewrite (proj2 (str_eqb_eq pre pre) eq_refl) in Ne|]. auto. }
    destruct (starts_with s (lit "int")) eqn:S1; [intros E; apply (G (lit "int") _ _ eq_refl Ei S1) in E; [|eauto]; destruct E as (k & e & -> & E); exists k, e; split; [now left|exact E]|].
    destruct (starts_with s (lit "uint")) eqn:S2; [intros E; apply (G (lit "uint") _ _ eq_refl Eu S2) in E; [|eauto]; destruct E as (k & e & -> & E); exists k, e; split; [right; now left|exact E]|].
    destruct (starts_with s (lit "bytes")) eqn:S3; [intros E; apply (G (lit "bytes") _ _ eq_refl Eb S3) in E; [|eauto]; destruct E as (k & e & -> & E); exists k, e; split; [right; right; now left|exact E]|].
    discriminate. }
  destruct X as (k & e & A & B & C & D). exists s, k, e, (S f). split; [apply part_refl|]. split; [exact A|]. split; [exact B|]. split; [exact C|]. split; [exact D|]. split; [lia|]. now rewrite H.
Qed.
Ltac unb := match goal with
  | E : bind _ _ = Err _ |- _ => apply bind_err' in E as [E|(? & ? & E)]
  end.
Lemma char_placed f name st pos c rest m : (forall s, told_fuel p f s = Err (OtherErr m) -> placed f s m) ->
  read_char (told_fuel p f) name st pos c rest = Err (OtherErr m) -> placed (S f) name m.
Proof.
  intros H. unfold read_char. destruct (c =? ch_open); [destruct (1 <? _)%Z; discriminate|]. destruct (c =? ch_close).
  { destruct (_ <? 0)%Z; [discriminate|]. intros E. unb; [now apply str_slice_not_err in E|].
    destruct x as [|x0 x]; [discriminate|]. destruct (_ =? 0)%Z.
    - unb; [|discriminate]. eapply placed_part; [eapply slice_part; eassumption|now apply H].
    - cbv zeta in E. unb; [now apply str_slice_not_err in E|]. unb.
      + eapply placed_part; [|apply H; eassumption]. eapply slice_part; eassumption.
      + destruct (1 <? _)%Z; [|discriminate]. unb; [now apply take_at_not_err in E|]. match type of E with context [match ?y with (_, _) => _ end] => destruct y end. discriminate. }
  destruct (c =? ch_comma); [|discriminate]. intros E. unb; [now apply str_slice_not_err in E|]. destruct x as [|x0 x]; [discriminate|].
  destruct (_ =? 1)%Z; [unb; [|discriminate]; eapply placed_part; [eapply slice_part; eassumption|now apply H]|].
  destruct (1 <? _)%Z; [|discriminate]. unb; [eapply placed_part; [eapply slice_part; eassumption|now apply H]|].
  unb; [now apply push_at_not_err in E|discriminate].
Qed.
Lemma loop_placed f name rest m : (forall s, told_fuel p f s = Err (OtherErr m) -> placed f s m) -> forall pos skip st,
  read_tuple_loop (told_fuel p f) name rest pos skip st = Err (OtherErr m) -> placed (S f) name m.
Proof.
  intros H. induction rest as [|c rest IH]; intros pos skip st E; cbn [read_tuple_loop] in E; [discriminate|]. destruct skip as [|k]; [|now apply IH in E].
  unb; [now apply char_placed in E|]. destruct x as [st' k]. now apply IH in E.
Qed.
Lemma read_placed m f : forall s, told_fuel p f s = Err (OtherErr m) -> placed f s m.
Proof.
  induction f as [|f IH]; intros s E; [discriminate|].
  destruct (last_char s) as [c|] eqn:L; [|apply base_placed; [cbn [told_fuel] in E; now rewrite L in E|intros f'; cbn [told_fuel]; now rewrite L]].
  destruct (c =? ch_close) eqn:C1.
  - cbn [told_fuel] in E. rewrite L, C1 in E. unfold read_tuple in E.
    destruct (starts_with_char s ch_open); [|discriminate E]. unb; [|discriminate]. now apply loop_placed in E.
  - destruct (c =? ch_rbracket) eqn:C2; [|apply base_placed; [cbn [told_fuel] in E; now rewrite L, C1, C2 in E|intros f'; cbn [told_fuel]; now rewrite L, C1, C2]].
    assert (E0 := E). cbn [told_fuel] in E. rewrite L, C1, C2 in E. apply N.eqb_eq in C2. subst c. unfold told_array in E. cbv zeta in E. destruct (rev _) as [|c0 num] eqn:R.
    + unb; [now apply usize_sub_err in E|]. unb; [now apply str_slice_not_err in E|]. unb; [|discriminate]. eapply placed_part; [eapply slice_part; eassumption|now apply IH].
    + unb; [|unb; [now apply usize_sub_err in E|]; unb; [now apply usize_sub_err in E|]; unb; [now apply str_slice_not_err in E|];
        unb; [|discriminate]; eapply placed_part; [eapply slice_part; eassumption|now apply IH]].
      apply usize_told_err in E as (e & E1 & E2). exists s, (c0 :: num), e, (S f). split; [apply part_refl|]. split; [now apply bracket_place|]. split; [discriminate|]. split; [exact E1|]. split; [exact E2|]. split; [lia|exact E0].
Qed.
Lemma size_message k e : k <> [] -> parse_usize_detail k = inr e -> bad_size_message k (int_message e).
Proof.
  intros N E. destruct e; [destruct N; now apply usize_kinds| |].
  - right. apply size_invalid in E as (_ & A & B). auto.
  - left. split; [now apply usize_kinds|reflexivity].
Qed.
Lemma plain_of_told f x m : told_fuel p f x = Err (OtherErr m) -> read_fuel p f x = Err ParseIntErr.
Proof.
  intros E. pose proof (fuel_recounted f x) as R. rewrite E in R. destruct (read_fuel p f x) as [t|e|] eqn:X; cbn [recounted] in R; try discriminate R.
  destruct e; try discriminate R; [reflexivity|]. apply read_named in X as [X|[X|(y & g & _ & X & _)]]; discriminate X.
Qed.
Lemma name_messages s m : str_len s < 2 ^ 63 -> name_message p s = Some m ->
  (exists x, part_of x s /\ m = lit "Invalid name: " ++ x /\ read p s = Err (InvalidName x) /\ read p x = Err (InvalidName x)) \/
  (exists x k, part_of x s /\ read p s = Err ParseIntErr /\ read p x = Err ParseIntErr /\ size_place x k /\ k <> [] /\ bad_size_message k m).
Proof.
  intros B. unfold name_message. pose proof (read_recounted s) as R. destruct (read p s) as [t|e|] eqn:E.
  - cbn [recounted] in R. rewrite R. discriminate.
  - pose proof E as E'. apply read_errors in E' as [->|(x & P & -> & Rx)]; [| |exact B].
    + destruct R as [w R]. set (q := _ ++ w) in R. clearbody q. rewrite R. intros D. right. cbn [display_error] in D. injection D as ->. apply read_placed in R as (x & k & e & g & P & Sp & Nk & K & -> & _ & Rx).
      exists x, k. split; [exact P|]. split; [reflexivity|]. split; [apply fuel_same with g; [pose proof (part_len P); lia|now apply plain_of_told in Rx|discriminate]|]. split; [exact Sp|]. split; [exact Nk|]. now apply size_message.
    + cbn [recounted] in R. rewrite R. intros D. injection D as <-. left. exists x. auto.
  - cbn [recounted] in R. rewrite R. discriminate.
Qed.
Lemma names_cover s : str_len s < 2 ^ 63 -> ((exists e, read p s = Err e) <-> exists m, name_message p s = Some m).
Proof.
  intros B. unfold name_message. pose proof (read_recounted s) as R. destruct (read p s) as [t|e|] eqn:E.
  - cbn [recounted] in R. rewrite R. split; intros [? X]; discriminate X.
  - split; [intros _|eauto]. apply read_errors in E as [->|(x & P & -> & Rx)]; [destruct R as [w R]|cbn [recounted] in R|exact B]; rewrite R; eexists; reflexivity.
  - cbn [recounted] in R. rewrite R. split; intros [? X]; discriminate X.
Qed.
End Names.

(** ** Together *)
Lemma hex_kinds s : wf_str s = true ->
  (forall b, hex_decode_detail s = inl b <-> TokenSpec.hex_text s b) /\
  (hex_decode_detail s = inr OddLength <-> N.odd (len (utf8 s)) = true) /\
  (forall c i, hex_decode_detail s = inr (InvalidHexCharacter c i) <->
     N.odd (len (utf8 s)) = false /\ exists b, c = Byte.to_N b /\ first_bad (utf8 s) i b).
Proof. intros W. split; [intros b; now apply hex_ok|]. split; [apply hex_odd|]. intros c i. apply hex_char. Qed.
Lemma number_kinds s :
  (forall n, parse_usize_detail s = inl n <-> size_text s n) /\
  (parse_usize_detail s = inr Empty <-> s = []) /\
  (parse_usize_detail s = inr PosOverflow <-> overflows s) /\
  (parse_usize_detail s = inr InvalidDigit <-> s <> [] /\ ~ overflows s /\ forall n, ~ size_text s n).
Proof. destruct (usize_kinds s) as [K1 K2]. split; [intros n; apply size_detail|]. split; [exact K1|]. split; [exact K2|]. apply size_invalid. Qed.
Lemma quoted_iff c m : c < 256 -> (debug_char c = m <-> quoted c m).
Proof. intros L. split; [intros <-; now apply debug_quoted|]. intros Q. apply quoted_one with c; [now apply debug_quoted|exact Q]. Qed.
Lemma messages_distinct :
  (forall s s' e e', hex_decode_detail s = inr e -> hex_decode_detail s' = inr e' -> hex_message e = hex_message e' -> e = e') /\
  (forall k k', int_message k = int_message k' -> k = k').
Proof. split; [|exact int_message_inj]. intros s s' e e' E E'. apply hex_message_inj; eapply detail_byte; eassumption. Qed.

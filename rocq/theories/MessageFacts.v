(** * Proofs about the texts of errors *)
From Verif Require Import Base BaseFacts StrFacts Types Tokenizer TokenSpec TokenFacts ErrorSpec ErrorFacts Message MessageSpec.
From Coq Require Import String.
From Coq Require Import Lia ZifyBool ZifyNat ZifyN.
Set Implicit Arguments.
Notation length := List.length.
Local Open Scope N_scope.
Local Open Scope list_scope.

(** ** hex *)
Lemma odd_two A (a b : A) l : N.odd (len (a :: b :: l)) = N.odd (len l).
Proof. replace (len (a :: b :: l)) with (len l + 2 * 1) by (rewrite !len_cons; lia). apply N.odd_add_mul_2. Qed.
Lemma hex_val_in b : (exists x, hex_val (Byte.to_N b) = Some x) <-> hexadecimal b.
Proof.
  unfold hexadecimal, hex_val. cbv zeta. destruct ((48 <=? _) && _) eqn:E1; [split; [intros _; lia|eauto]|]. destruct ((97 <=? _) && _) eqn:E2; [split; [intros _; lia|eauto]|].
  destruct ((65 <=? _) && _) eqn:E3; [split; [intros _; lia|eauto]|]. split; [intros (x & [=])|lia].
Qed.
Lemma hex_val_out b : hex_val (Byte.to_N b) = None -> ~ hexadecimal b.
Proof. intros E H. apply hex_val_in in H as (x & H). congruence. Qed.
Lemma bad_unique l i b i' b' : first_bad l i b -> first_bad l i' b' -> i = i' /\ b = b'.
Proof.
  intros (p & q & E & <- & F & N) (p' & q' & E' & <- & F' & N'). subst l. revert p' E' F'. induction F as [|x p Hx F IH]; intros [|x' p'] E' F'; cbn [app] in E'.
  - injection E' as -> ->. auto.
  - injection E' as -> E'. apply Forall_inv in F'. contradiction.
  - injection E' as -> E'. contradiction.
  - injection E' as -> E'. destruct (IH p' E' (Forall_inv_tail F')) as [L ->]. rewrite !len_cons. split; [lia|reflexivity].
Qed.
Lemma pairs_bad l : forall i, N.odd (len l) = false ->
  match hex_pairs i l with
  | inl _ => Forall hexadecimal l
  | inr (InvalidHexCharacter c idx) => exists b, c = Byte.to_N b /\ 2 * i <= idx /\ first_bad l (idx - 2 * i) b
  | inr OddLength => False
  end.
Proof.
  induction l as [|a|a b l IH] using pair_ind; intros i Ev; cbn [hex_pairs]; [constructor|discriminate|].
  assert (Ev' : N.odd (len l) = false) by (now rewrite odd_two in Ev).
  destruct (hex_val (Byte.to_N a)) as [x|] eqn:Ea.
  2:{ exists a. split; [reflexivity|]. split; [apply N.le_refl|]. exists [], (b :: l). rewrite N.sub_diag. split; [reflexivity|]. split; [reflexivity|]. split; [constructor|now apply hex_val_out]. }
  assert (Ha : hexadecimal a) by (apply hex_val_in; eauto).
  destruct (hex_val (Byte.to_N b)) as [y|] eqn:Eb.
  2:{ exists b. split; [reflexivity|]. split; [apply N.le_add_r|]. exists [a], l. split; [reflexivity|]. split; [change (len [a]) with 1; symmetry; apply N.add_sub_eq_l; reflexivity|]. split; [auto|now apply hex_val_out]. }
  assert (Hb : hexadecimal b) by (apply hex_val_in; eauto).
  specialize (IH (i + 1) Ev'). destruct (hex_pairs (i + 1) l) as [r|[c idx|]]; [auto| |exact IH].
  destruct IH as (d & -> & L & p & q & -> & Lp & F & N). exists d. split; [reflexivity|]. split; [lia|]. exists (a :: b :: p), q. split; [reflexivity|]. split; [rewrite !len_cons; lia|]. auto.
Qed.
Lemma pairs_map s : forall i, Forall (fun c => c < 128) s -> N.odd (len s) = false ->
  match hex_pairs i (map byte_of_N s) with inl r => hex_text s r | inr _ => forall r, ~ hex_text s r end.
Proof.
  induction s as [|a|a b s IH] using pair_ind; intros i A Ev; cbn [hex_pairs map]; [constructor|discriminate|].
  assert (Ev' : N.odd (len s) = false) by (now rewrite odd_two in Ev).
  pose proof (Forall_inv A) as A1. apply Forall_inv_tail in A. pose proof (Forall_inv A) as A2. apply Forall_inv_tail in A. cbv beta in A1, A2.
  rewrite !to_N_small by lia. specialize (IH (i + 1) A Ev').
  destruct (hex_val a) as [x|] eqn:Ea; [|intros r H; inversion H as [|? ? ? ? ? ? ? Ha]; subst; apply hex_val_spec in Ha; congruence].
  destruct (hex_val b) as [y|] eqn:Eb; [|intros r H; inversion H as [|? ? ? ? ? ? ? ? Hb]; subst; apply hex_val_spec in Hb; congruence].
  apply hex_val_spec in Ea, Eb. destruct (hex_pairs (i + 1) (map byte_of_N s)) as [r|e].
  - econstructor; eauto. pose proof (hex_digit_bound Ea). pose proof (hex_digit_bound Eb). rewrite to_N_small; lia.
  - intros r H. inversion H; subst. eapply IH. eassumption.
Qed.
Lemma char_bytes c : is_scalar c = true -> Forall hexadecimal (utf8_char c) -> c < 128.
Proof.
  intros W H. unfold is_scalar in W. unfold utf8_char in H. destruct (N.ltb_spec c 128) as [?|L]; [assumption|exfalso].
  assert (Q : forall n r, 192 <= n < 256 -> ~ Forall hexadecimal (byte_of_N n :: r)) by (intros n r Ln F; apply Forall_inv in F; unfold hexadecimal in F; rewrite to_N_small in F; lia).
  repeat match type of H with context [if ?b then _ else _] => destruct b eqn:? end; revert H; apply Q; lia.
Qed.
Lemma hex_bytes_ascii s : wf_str s = true -> Forall hexadecimal (utf8 s) -> Forall (fun c => c < 128) s.
Proof.
  induction s as [|c s IH]; [constructor|]. unfold wf_str, utf8. cbn [forallb flat_map]. intros W H. apply andb_true_iff in W as [W1 W]. apply Forall_app in H as [H1 H].
  constructor; [now apply char_bytes|now apply IH].
Qed.
Lemma ascii_bytes s : Forall (fun c => c < 128) s -> utf8 s = map byte_of_N s.
Proof. induction 1 as [|c s L H IH]; [reflexivity|]. unfold utf8 in *. cbn [flat_map map]. rewrite IH. unfold utf8_char. replace (c <? 128) with true by lia. reflexivity. Qed.
Lemma hex_text_ascii s b : hex_text s b -> Forall (fun c => c < 128) s /\ N.odd (len s) = false.
Proof.
  induction 1 as [|a x b y s o l Ha Hb Ho Hs [IH1 IH2]]; [split; [constructor|reflexivity]|]. unfold hex_digit_value in *. split.
  - repeat constructor; auto; lia.
  - now rewrite odd_two.
Qed.
Lemma map_len A B (f : A -> B) l : len (map f l) = len l.
Proof. unfold len. now rewrite map_length. Qed.
Lemma odd_mod n : negb (n mod 2 =? 0) = N.odd n.
Proof. pose proof (N.bit0_mod n) as H. rewrite N.bit0_odd in H. rewrite <- H. now destruct (N.odd n). Qed.
Lemma hex_ok s b : wf_str s = true -> (hex_decode_detail s = inl b <-> hex_text s b).
Proof.
  intros W. unfold hex_decode_detail. cbv zeta. rewrite odd_mod. split.
  - destruct (N.odd _) eqn:O; [discriminate|]. intros E. pose proof (@pairs_bad (utf8 s) 0 O) as H. rewrite E in H. apply hex_bytes_ascii in H; [|exact W].
    rewrite (ascii_bytes H) in E, O. rewrite map_len in O. pose proof (@pairs_map s 0 H O) as Q. rewrite E in Q. exact Q.
  - intros H. destruct (hex_text_ascii H) as [A O]. rewrite (ascii_bytes A), map_len, O. pose proof (@pairs_map s 0 A O) as Q. destruct (hex_pairs 0 (map byte_of_N s)) as [r|e].
    + f_equal. assert (E1 := Q). apply hex_decode_spec in E1. apply hex_decode_spec in H. congruence.
    + now apply Q in H.
Qed.
Lemma hex_odd s : hex_decode_detail s = inr OddLength <-> N.odd (len (utf8 s)) = true.
Proof.
  unfold hex_decode_detail. cbv zeta. rewrite odd_mod. destruct (N.odd _) eqn:O; [tauto|]. split; [|discriminate]. intros E. pose proof (@pairs_bad (utf8 s) 0 O) as H. now rewrite E in H.
Qed.
Lemma hex_char s c i : hex_decode_detail s = inr (InvalidHexCharacter c i) <-> N.odd (len (utf8 s)) = false /\ exists b, c = Byte.to_N b /\ first_bad (utf8 s) i b.
Proof.
  unfold hex_decode_detail. cbv zeta. rewrite odd_mod. destruct (N.odd _) eqn:O; [split; [discriminate|intros [? _]; discriminate]|]. pose proof (@pairs_bad (utf8 s) 0 O) as H. split.
  - intros E. rewrite E in H. destruct H as (b & -> & _ & H). rewrite N.mul_0_r, N.sub_0_r in H. eauto.
  - intros (_ & b & -> & B). destruct (hex_pairs 0 (utf8 s)) as [r|[c' i'|]]; [| |contradiction].
    + destruct B as (p & q & E & _ & _ & N). rewrite E in H. apply Forall_app in H as [_ H]. apply Forall_inv in H. contradiction.
    + destruct H as (b' & -> & _ & H). rewrite N.mul_0_r, N.sub_0_r in H. destruct (bad_unique B H) as [-> ->]. reflexivity.
Qed.

(** ** Different problems have different texts *)
Definition low : list N := map N.of_nat (seq 0 256).
Lemma low_in c : c < 256 -> In c low.
Proof. intros L. unfold low. apply in_map_iff. exists (N.to_nat c). split; [lia|]. apply in_seq. lia. Qed.
Definition debug_prefix_free : bool := forallb (fun a => forallb (fun b => negb (starts_with (debug_char b) (debug_char a)) || (a =? b)) low) low.
Lemma debug_prefix a b : a < 256 -> b < 256 -> starts_with (debug_char b) (debug_char a) = true -> a = b.
Proof.
  intros La Lb H. assert (C : debug_prefix_free = true) by (vm_compute; reflexivity).
  unfold debug_prefix_free in C. rewrite forallb_forall in C. specialize (C a (low_in La)). rewrite forallb_forall in C. specialize (C b (low_in Lb)). rewrite H in C. cbn [negb orb] in C. lia.
Qed.
Lemma app_split {A} (a b c d : list A) : a ++ b = c ++ d -> (exists r, c = a ++ r) \/ (exists r, a = c ++ r).
Proof.
  revert c. induction a as [|x a IH]; intros c E; [left; now exists c|]. destruct c as [|y c]; [right; now exists (x :: a)|]. cbn [app] in E. injection E as -> E.
  destruct (IH _ E) as [[r ->]|[r ->]]; [left|right]; now exists r.
Qed.
Lemma debug_split a b r r' : a < 256 -> b < 256 -> debug_char a ++ r = debug_char b ++ r' -> a = b /\ r = r'.
Proof.
  intros La Lb E. assert (a = b) as ->.
  { destruct (app_split _ _ _ _ E) as [[x H]|[x H]].
    - apply debug_prefix; auto. rewrite H. apply starts_with_app.
    - symmetry. apply debug_prefix; auto. rewrite H. apply starts_with_app. }
  split; [reflexivity|]. now apply app_inv_head in E.
Qed.
Definition byte_error (e : FromHexError) : Prop := match e with InvalidHexCharacter c _ => c < 256 | OddLength => True end.
Lemma hex_message_inj e e' : byte_error e -> byte_error e' -> hex_message e = hex_message e' -> e = e'.
Proof.
  unfold hex_message. intros B B' E. apply app_inv_head in E. destruct e as [c i|], e' as [c' i'|]; cbn [hex_text_of byte_error] in *; [|discriminate E|discriminate E|reflexivity].
  apply app_inv_head in E. apply debug_split in E as [-> E]; auto. apply app_inv_head in E. apply show_dec_inj in E as ->. reflexivity.
Qed.
Lemma detail_byte s e : hex_decode_detail s = inr e -> byte_error e.
Proof. destruct e as [c i|]; [|reflexivity]. intros H. apply hex_char in H as (_ & b & -> & _). cbn. pose proof (Byte.to_N_bounded b). lia. Qed.
Lemma int_message_inj k k' : int_message k = int_message k' -> k = k'.
Proof. destruct k, k'; vm_compute; try reflexivity; discriminate. Qed.

(** ** Numbers *)
Lemma digits_same s : forall acc, parse_digits two64 s acc = match digits_detail s acc with inl n => Some n | inr _ => None end.
Proof. induction s as [|c s IH]; intros acc; cbn [parse_digits digits_detail]; [reflexivity|]. destruct (dec_digit c) as [d|]; [|reflexivity]. cbv zeta. destruct (_ <? _); [apply IH|reflexivity]. Qed.
Lemma usize_same s : parse_usize s = match parse_usize_detail s with inl n => Ok n | inr _ => Err ParseIntErr end.
Proof.
  destruct s as [|c s]; [reflexivity|]. unfold parse_usize, parse_usize_detail. destruct s as [|c' s].
  - destruct (N.eqb_spec c 43) as [->|N1]; [reflexivity|]. destruct (N.eqb_spec c 45) as [->|N2]; [reflexivity|]. cbn [orb digits_detail].
    destruct (dec_digit c) as [d|] eqn:D; [|reflexivity]. unfold dec_digit in D. destruct ((48 <=? c) && (c <=? 57)) eqn:R; [|discriminate D]. injection D as <-.
    replace (0 * 10 + (c - 48) <? two64) with true; [reflexivity|]. symmetry. apply N.ltb_lt. change two64 with 18446744073709551616. lia.
  - rewrite digits_same. destruct (c =? 43); cbn [orb]; [now destruct (digits_detail _ _)|]. destruct (c =? 45); now destruct (digits_detail _ _).
Qed.
Lemma digits_overflow s : forall acc, acc < two64 -> (digits_detail s acc = inr PosOverflow <->
  exists d rest, s = d ++ rest /\ Forall digit d /\ two64 <= fold_left (fun acc c => 10 * acc + (c - 48)) d acc) /\ digits_detail s acc <> inr Empty.
Proof.
  induction s as [|c s IH]; intros acc L; cbn [digits_detail].
  - split; [|discriminate]. split; [discriminate|]. intros (d & r & E & _ & H). symmetry in E. apply app_eq_nil in E as [-> _]. cbn [fold_left] in H; destruct (N.lt_irrefl _ (N.lt_le_trans _ _ _ L H)).
  - unfold dec_digit. destruct ((48 <=? c) && (c <=? 57)) eqn:D.
    + destruct (N.ltb_spec (acc * 10 + (c - 48)) two64) as [L'|L'].
      * destruct (IH _ L') as [IH1 IH2]. split; [|exact IH2]. rewrite IH1. split.
        -- intros (d & r & -> & F & H). exists (c :: d), r. split; [reflexivity|]. split; [constructor; [unfold digit; lia|exact F]|]. cbn [fold_left]. now rewrite (N.mul_comm 10 acc).
        -- intros (d & r & E & F & H). destruct d as [|c' d]; [cbn [fold_left] in H; destruct (N.lt_irrefl _ (N.lt_le_trans _ _ _ L H))|]. cbn [app] in E. injection E as <- ->. exists d, r. split; [reflexivity|]. split; [now apply Forall_inv_tail in F|]. cbn [fold_left] in H. now rewrite (N.mul_comm 10 acc) in H.
      * split; [|discriminate]. split; [|reflexivity]. intros _. exists [c], s. split; [reflexivity|]. split; [constructor; [unfold digit; lia|constructor]|]. cbn [fold_left]. lia.
    + split; [|discriminate]. split; [discriminate|]. intros (d & r & E & F & H). destruct d as [|c' d]; [cbn [fold_left] in H; destruct (N.lt_irrefl _ (N.lt_le_trans _ _ _ L H))|]. cbn [app] in E. injection E as <- _. apply Forall_inv in F. unfold digit in F. lia.
Qed.
Lemma usize_kinds s : (parse_usize_detail s = inr Empty <-> s = []) /\ (parse_usize_detail s = inr PosOverflow <-> overflows s).
Proof.
  assert (Z : 0 < two64) by reflexivity.
  destruct s as [|c s]; cbn [parse_usize_detail].
  - split; [tauto|]. split; [discriminate|]. intros (d & r & E & _ & H). cbn in E. symmetry in E. apply app_eq_nil in E as [-> _]. exfalso. revert H. vm_compute. auto.
  - assert (P : forall x, (digits_detail x 0 = inr Empty <-> c :: s = []) /\ (digits_detail x 0 = inr PosOverflow <-> exists d rest, x = d ++ rest /\ Forall digit d /\ 2 ^ 64 <= number d)).
    { intros x. destruct (@digits_overflow x 0 Z) as [H1 H2]. split; [split; [intros E; contradiction|discriminate]|exact H1]. }
    assert (B : (@inr N IntErrorKind InvalidDigit = inr Empty <-> c :: s = []) /\ (@inr N IntErrorKind InvalidDigit = inr PosOverflow <-> False)) by (repeat split; try discriminate; contradiction).
    unfold overflows, unsigned. destruct (N.eqb_spec c 43) as [->|N1]; cbn [orb].
    + destruct s as [|c' s]; [|apply P]. split; [apply B|]. split; [discriminate|]. intros (d & r & E & _ & H). symmetry in E. apply app_eq_nil in E as [-> _]. exfalso. revert H. vm_compute. auto.
    + destruct (N.eqb_spec c 45) as [->|N2]; [|apply P]. destruct s as [|c' s]; [|apply P]. split; [apply B|]. split; [discriminate|]. intros (d & r & E & F & H). destruct d as [|x d]; [exfalso; revert H; vm_compute; auto|].
      cbn [app] in E. injection E as <- _. apply Forall_inv in F. unfold digit in F. lia.
Qed.

(** ** How a byte is written *)
Lemma lower_digit v : v < 16 -> lower_hex (hex_digit v) v.
Proof. intros L. unfold lower_hex, hex_digit. destruct (N.ltb_spec v 10); [left|right]; lia. Qed.
Lemma lower_inj d d' v : lower_hex d v -> lower_hex d' v -> d = d'.
Proof. unfold lower_hex. lia. Qed.
Lemma debug_quoted c : c < 256 -> quoted c (debug_char c).
Proof.
  intros L. unfold quoted, debug_char.
  destruct (N.eqb_spec c 0) as [->|N0]; [left; vm_compute; auto|]. destruct (N.eqb_spec c 9) as [->|N9]; [left; vm_compute; auto|].
  destruct (N.eqb_spec c 10) as [->|N10]; [left; vm_compute; auto|]. destruct (N.eqb_spec c 13) as [->|N13]; [left; vm_compute; auto|].
  destruct (N.eqb_spec c 39) as [->|N39]; [left; vm_compute; auto 8|]. destruct (N.eqb_spec c 92) as [->|N92]; [left; vm_compute; auto 8|].
  right. unfold printed. destruct (((32 <=? c) && (c <=? 126)) || ((161 <=? c) && negb (c =? 173))) eqn:P; [left; split; [lia|]; split; [exact N39|]; split; [exact N92|reflexivity]|].
  right. split; [lia|]. split; [intros [X|[X|[X|[X|[]]]]]; lia|]. destruct (N.ltb_spec c 16) as [S|S].
  - left. exists (hex_digit c). split; [now apply lower_digit|reflexivity].
  - right. split; [exact S|]. exists (hex_digit (c / 16)), (hex_digit (c mod 16)). split; [apply lower_digit; apply N.div_lt_upper_bound; lia|]. split; [apply lower_digit; apply N.mod_lt; lia|reflexivity].
Qed.
Lemma quoted_one c m m' : quoted c m -> quoted c m' -> m = m'.
Proof.
  unfold quoted. intros [H|[H|H]] [K|[K|K]].
  - cbn [List.In] in *. repeat (destruct H as [H|H]; [injection H as <- <-; repeat (destruct K as [K|K]; [first [discriminate K|injection K as <-; reflexivity]|]); destruct K|]). destruct H.
  - exfalso. destruct K as (P & A & B & _). cbn [List.In] in H. unfold printed in P. repeat (destruct H as [H|H]; [injection H as <- _; lia|]). destruct H.
  - exfalso. destruct K as (P & A & _). cbn [List.In] in H, A. unfold printed in P. repeat (destruct H as [H|H]; [injection H as <- _; lia|]). destruct H.
  - exfalso. destruct H as (P & A & B & _). cbn [List.In] in K. unfold printed in P. repeat (destruct K as [K|K]; [injection K as <- _; lia|]). destruct K.
  - destruct H as (_ & _ & _ & ->), K as (_ & _ & _ & ->). reflexivity.
  - destruct H as (P & _), K as (Q & _). contradiction.
  - exfalso. destruct H as (P & A & _). cbn [List.In] in K, A. unfold printed in P. repeat (destruct K as [K|K]; [injection K as <- _; lia|]). destruct K.
  - destruct H as (P & _), K as (Q & _). contradiction.
  - destruct H as (_ & _ & H), K as (_ & _ & K). destruct H as [(d & H & ->)|(G & d & e & H & H' & ->)], K as [(d' & K & ->)|(G' & d' & e' & K & K' & ->)].
    + now rewrite (lower_inj H K).
    + unfold lower_hex in H. lia.
    + unfold lower_hex in K. lia.
    + now rewrite (lower_inj H K), (lower_inj H' K').
Qed.

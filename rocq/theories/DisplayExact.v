(** * Exactly which displayed values are read back *)
From Verif Require Import Base Types AbiSpec TypeNamesSpec Tokenizer TokenSpec LiteralSpec BaseFacts StrFacts CodecLemmas FunctionFacts TokenFacts TokenTotal LiteralExact.
From Coq Require Import String.
From Coq Require Import ZifyBool ZifyNat ZifyN Lia.
Set Implicit Arguments.
Local Open Scope N_scope.
Local Open Scope list_scope.
Notation length := List.length.

(** ** Lengths in bytes *)
Notation size s := (length (utf8 s)).
Lemma size_app a b : size (a ++ b) = (size a + size b)%nat.
Proof. unfold utf8. now rewrite flat_map_app, app_length. Qed.
Lemma char_size c : (1 <= length (utf8_char c))%nat /\ (length (utf8_char c) = 1%nat -> is_ascii c = true).
Proof. unfold utf8_char, is_ascii. destruct (c <? 128); cbn [length]; [ auto | ]. destruct (c <? 2048); [ cbn; split; [ lia | discriminate ] | ]. destruct (c <? 65536); cbn; (split; [ lia | discriminate ]). Qed.
Lemma size_cons c s : size (c :: s) = (length (utf8_char c) + size s)%nat.
Proof. unfold utf8. cbn [flat_map]. now rewrite app_length. Qed.
Lemma size_ge s : (length s <= size s)%nat.
Proof. induction s as [ | c s IH ]; [ reflexivity | ]. rewrite size_cons. cbn [length]. pose proof (char_size c). lia. Qed.
Lemma size_ascii s : (size s <= length s)%nat -> all_ascii s = true.
Proof.
  induction s as [ | c s IH ]; intros H; [ reflexivity | ]. rewrite size_cons in H. cbn [length] in H. destruct (char_size c) as [ C1 C2 ]. pose proof (size_ge s).
  cbn [all_ascii forallb]. rewrite C2 by lia. apply IH. lia.
Qed.
(** Strings with a common prefix in bytes. *)
Lemma prefix_split (a b x y : str) : a ++ x = b ++ y -> (size a <= size b)%nat -> exists m, b = a ++ m /\ x = m ++ y.
Proof.
  revert b. induction a as [ | c a IH ]; intros b E L; [ exists b; auto | ]. destruct b as [ | d b ]; [ rewrite size_cons in L; pose proof (char_size c); cbn in L; lia | ].
  cbn [app] in E. injection E as -> E. rewrite !size_cons in L. destruct (IH b E) as (m & -> & ->); [ lia | ]. exists m. auto.
Qed.
Lemma prefix_same (a b x y : str) : a ++ x = b ++ y -> size a = size b -> a = b.
Proof.
  intros E L. destruct (@prefix_split a b x y E) as (m & -> & _); [ lia | ]. rewrite size_app in L. destruct m as [ | c m ]; [ now rewrite app_nil_r | ]. rewrite size_cons in L. pose proof (char_size c). lia.
Qed.
(** A measure in which the short spellings of a bool weigh no less than the
    displayed ones: 4 more for each [0] and [1]. *)
Definition weigh (c : char) : nat := (length (utf8_char c) + (if (c =? 48)%N || (c =? 49)%N then 4 else 0))%nat.
Definition weight (s : str) : nat := list_sum (map weigh s).
Lemma weight_app a b : weight (a ++ b) = (weight a + weight b)%nat.
Proof. unfold weight. now rewrite map_app, list_sum_app. Qed.
Lemma weight_cons c s : weight (c :: s) = (weigh c + weight s)%nat.
Proof. reflexivity. Qed.
Lemma weigh_one c : (1 <= weigh c)%nat.
Proof. unfold weigh. pose proof (char_size c). lia. Qed.
Lemma weight_ge s : (length s <= weight s)%nat.
Proof. induction s as [ | c s IH ]; [ reflexivity | ]. rewrite weight_cons. cbn [length]. pose proof (weigh_one c). lia. Qed.
Lemma longer_prefix (a b x y : str) : a ++ x = b ++ y -> (size a < size b)%nat -> (weight a < weight b)%nat.
Proof.
  intros E L. destruct (@prefix_split a b x y E) as (m & -> & _); [ lia | ]. rewrite size_app in L. rewrite weight_app. destruct m as [ | c m ]; [ cbn in L; lia | ]. rewrite weight_cons. pose proof (weigh_one c). lia.
Qed.
Lemma prefix_weight (a b x y : str) : a ++ x = b ++ y -> weight a = weight b -> a = b.
Proof.
  intros E L. apply (@prefix_same a b x y E). destruct (Nat.lt_trichotomy (size a) (size b)) as [ G | [ G | G ] ]; [ | exact G | ].
  - apply (@longer_prefix a b x y E) in G. lia.
  - apply (@longer_prefix b a y x (eq_sym E)) in G. lia.
Qed.
Lemma between_at s r m pre rest : bytes_between s r m -> s = pre ++ rest -> fst r = size pre -> (snd r = size pre + size m)%nat /\ exists y, rest = m ++ y.
Proof.
  intros (x & y & E & A & B) F G. assert (x = pre) as ->.
  { apply (@prefix_same x pre (m ++ y) rest); [ now rewrite <- E, <- F | lia ]. }
  split; [ rewrite <- B; apply size_app | ]. exists y. rewrite F in E. apply app_inv_head in E. exact E.
Qed.

(** ** Scalars *)
Lemma hex_ascii s l : hex_text s l -> all_ascii s = true.
Proof. induction 1 as [ | a x b y s o l A B O _ IH ]; [ reflexivity | ]. change (all_ascii (a :: b :: s)) with (is_ascii a && (is_ascii b && all_ascii s)). rewrite IH. unfold is_ascii. unfold hex_digit_value in *. lia. Qed.
Lemma hex_size s l : hex_text s l -> size s = (2 * length l)%nat.
Proof. intros H. rewrite ascii_utf8 by (eapply hex_ascii; exact H). exact (hex_text_length H). Qed.
Lemma hex_weight s l : hex_text s l -> weight s = weight (hex_encode l).
Proof.
  induction 1 as [ | a x b y s o l A B O _ IH ]; [ reflexivity | ]. change (hex_encode (o :: l)) with (hex_digit (Byte.to_N o / 16) :: hex_digit (Byte.to_N o mod 16) :: hex_encode l).
  rewrite !weight_cons, IH. assert (D : forall c d, hex_digit_value c d -> weigh c = weigh (hex_digit d)).
  { intros c d H. assert (d < 16) by (unfold hex_digit_value in H; lia). unfold weigh. assert (C : c < 128) by (unfold hex_digit_value in H; lia). assert (C' : hex_digit d < 128) by (unfold hex_digit; destruct (d <? 10) eqn:?; lia).
    unfold utf8_char. rewrite (proj2 (N.ltb_lt _ _) C), (proj2 (N.ltb_lt _ _) C'). cbn [length]. f_equal.
    replace ((hex_digit d =? 48) || (hex_digit d =? 49)) with ((c =? 48) || (c =? 49)); [ reflexivity | ]. unfold hex_digit_value, hex_digit in *. destruct (d <? 10) eqn:?; lia. }
  assert (X : x < 16) by (unfold hex_digit_value in A; lia). assert (Y : y < 16) by (unfold hex_digit_value in B; lia).
  rewrite (D _ _ A), (D _ _ B), O. rewrite (N.mul_comm 16 x), N.div_add_l, (N.div_small y), N.add_0_r, N.add_comm, N.mod_add, N.mod_small by lia. lia.
Qed.
Lemma drop_weight f s : (weight (drop_while f s) <= weight s)%nat.
Proof. induction s as [ | a l IH ]; [ reflexivity | ]. cbn [drop_while]. destruct (f a); rewrite ?weight_cons; lia. Qed.
Lemma encode_text l : hex_text (hex_encode l) l.
Proof. apply hex_decode_spec. apply hex_round. Qed.
Lemma drop_length A (f : A -> bool) l : (length (drop_while f l) <= length l)%nat.
Proof. induction l as [ | a l IH ]; [ reflexivity | ]. cbn [drop_while]. destruct (f a); cbn [length]; lia. Qed.
Lemma drop_ascii f s : all_ascii s = true -> all_ascii (drop_while f s) = true.
Proof. induction s as [ | a l IH ]; intros H; [ reflexivity | ]. cbn [drop_while]. destruct (f a); [ | exact H ]. apply IH. apply andb_true_iff in H. tauto. Qed.
Lemma word_text n : length (hex_encode (be_bytes 32 n)) = 64%nat.
Proof. rewrite (hex_text_length (encode_text _)), be_bytes_length. reflexivity. Qed.
Lemma show_hex_size n : (size (show_hex n) <= 64)%nat /\ all_ascii (show_hex n) = true.
Proof.
  assert (A : all_ascii (show_hex n) = true).
  { unfold show_hex. destruct (drop_while _ _) as [ | c s ] eqn:E; [ reflexivity | ]. rewrite <- E. apply drop_ascii. exact (hex_ascii (encode_text _)). }
  split; [ | exact A ]. rewrite ascii_utf8 by exact A. unfold show_hex. pose proof (drop_length (fun c => c =? 48) (hex_encode (be_bytes 32 n))) as L. rewrite word_text in L. destruct (drop_while _ _); [ cbn; lia | exact L ].
Qed.
Lemma show_hex_short n : n < 2 ^ 252 -> (size (show_hex n) < 64)%nat.
Proof.
  intros H. rewrite ascii_utf8 by apply show_hex_size. unfold show_hex.
  destruct (be_bytes 32 n) as [ | x l ] eqn:E; [ apply (f_equal (@List.length _)) in E; now rewrite be_bytes_length in E | ].
  assert (L : List.length l = 31%nat) by (apply (f_equal (@List.length _)) in E; rewrite be_bytes_length in E; cbn [List.length] in E; lia).
  assert (V : n = Byte.to_N x * 256 ^ 31 + of_be l).
  { assert (W : n < two256) by (eapply N.lt_trans; [ exact H | reflexivity ]). rewrite <- (of_be_word W), E. change (x :: l) with ([x] ++ l). rewrite of_be_app, of_be_single. unfold len. now rewrite L. }
  assert (X : Byte.to_N x < 16).
  { change (2 ^ 252) with (16 * 256 ^ 31) in H. set (q := 256 ^ 31) in *. clearbody q. nia. }
  unfold hex_encode. cbn [flat_map app drop_while]. rewrite (N.div_small _ _ X). change (hex_digit 0 =? 48) with true. cbn match.
  pose proof (drop_length (fun c => c =? 48) (hex_digit (Byte.to_N x mod 16) :: flat_map (fun b => [hex_digit (Byte.to_N b / 16); hex_digit (Byte.to_N b mod 16)]) l)) as D.
  assert (M : length (flat_map (fun b : byte => [hex_digit (Byte.to_N b / 16); hex_digit (Byte.to_N b mod 16)]) l) = 62%nat).
  { change (length (hex_encode l) = 62%nat). rewrite (hex_text_length (encode_text l)), L. reflexivity. }
  cbn [length drop_while] in D. rewrite M in D. destruct (if hex_digit (Byte.to_N x mod 16) =? 48 then _ else _); cbn [length] in *; lia.
Qed.
(** What follows an item of a displayed value. *)
Definition separated (rest : str) : Prop := match rest with [] => True | c :: _ => c = 44 \/ c = 93 \/ c = 41 end.
Lemma strict_number k s v : tokenize StrictTokenizer (PUint k) s = Ok v -> exists b, hex_text s b /\ length b = 32%nat /\ v = TUint (of_be b).
Proof. intros H. apply strict_hex in H as (b & X & L & ->). exists b. repeat split; [ exact X | unfold len in L; lia ]. Qed.
Lemma strict_integer k s v : tokenize StrictTokenizer (PInt k) s = Ok v -> exists b, hex_text s b /\ length b = 32%nat /\ v = TInt (of_be b).
Proof. intros H. apply strict_hex in H as (b & X & L & ->). exists b. repeat split; [ exact X | unfold len in L; lia ]. Qed.
Lemma hex_digits m b s c x : hex_text m b -> m = s ++ c :: x -> exists d, hex_digit_value c d.
Proof.
  intros H. revert s. induction H as [ | a u b' w m o l A B O H IH ]; intros s E; [ destruct s; discriminate | ].
  destruct s as [ | p [ | q s ] ]; cbn [app] in E; inversion E; subst; [ eauto | eauto | apply (IH s); reflexivity ].
Qed.
Lemma separator_digit c d : hex_digit_value c d -> c = 44 \/ c = 93 \/ c = 41 -> False.
Proof. unfold hex_digit_value. lia. Qed.
Lemma word_size m b : hex_text m b -> length b = 32%nat -> size m = 64%nat.
Proof. intros H L. rewrite (hex_size H), L. reflexivity. Qed.
Unset Implicit Arguments.
Lemma number_aligned m b n y rest : hex_text m b -> length b = 32%nat -> separated rest -> m ++ y = show_hex n ++ rest -> m = show_hex n /\ 2 ^ 252 <= n.
Proof.
  intros H L R E. pose proof (word_size H L) as W. destruct (show_hex_size n) as [ N1 _ ]. pose proof (@show_hex_short n) as N2. revert N1 N2 E. generalize (show_hex n). generalize (2 ^ 252). intros w s N1 N2 E.
  destruct (@prefix_split s m rest y (eq_sym E)) as (x & -> & X); [ rewrite W; exact N1 | ].
  destruct x as [ | c x ].
  - rewrite app_nil_r in *. split; [ reflexivity | ]. destruct (N.le_gt_cases w n) as [ | G ]; [ assumption | ]. apply N2 in G. exfalso. rewrite W in G. exact (Nat.lt_irrefl _ G).
  - exfalso. subst rest. destruct (@hex_digits _ _ s c x H eq_refl) as [ d D ]. exact (separator_digit D R).
Qed.
Set Implicit Arguments.
Lemma hex_aligned m b y rest : hex_text m b -> m ++ y = hex_encode b ++ rest -> m = hex_encode b.
Proof. intros H E. apply (@prefix_same _ _ y rest E). rewrite (hex_size H), (hex_size (encode_text b)). reflexivity. Qed.
Lemma strict_hexes s v : (tokenize StrictTokenizer PAddress s = Ok v \/ tokenize StrictTokenizer PBytes s = Ok v \/ exists n, tokenize StrictTokenizer (PFixedBytes n) s = Ok v) ->
  exists b, hex_text s b /\ display v = hex_encode b /\ readable display v = true.
Proof.
  intros [ H | [ H | [ n H ] ] ]; apply strict_hex in H.
  - destruct H as (b & X & _ & ->). exists b. auto.
  - destruct H as (b & X & ->). exists b. auto.
  - destruct H as (b & X & _ & ->). exists b. auto.
Qed.
(** A scalar that is read from where it was written is read from the same text. *)
Lemma scalar_aligned t m v y rest : scalar t = true -> tokenize StrictTokenizer t m = Ok v -> separated rest -> m ++ y = display v ++ rest -> m = display v /\ readable display v = true.
Proof.
  intros Sc H R E. destruct t; try discriminate.
  - destruct (@strict_hexes m v) as (b & X & D & Q); [ auto | ]. rewrite D in *. split; [ exact (hex_aligned _ _ X E) | exact Q ].
  - destruct (@strict_hexes m v) as (b & X & D & Q); [ auto | ]. rewrite D in *. split; [ exact (hex_aligned _ _ X E) | exact Q ].
  - destruct (@strict_integer _ _ _ H) as (b & X & L & ->). cbn [display readable] in *. destruct (number_aligned _ _ _ _ _ X L R E) as [ -> Q ]. split; [ reflexivity | now apply N.leb_le ].
  - destruct (@strict_number _ _ _ H) as (b & X & L & ->). cbn [display readable] in *. destruct (number_aligned _ _ _ _ _ X L R E) as [ -> Q ]. split; [ reflexivity | now apply N.leb_le ].
  - apply strict_bool_string in H as [ [ [ -> | -> ] -> ] | [ [ -> | -> ] -> ] ]; (discriminate || (split; reflexivity)).
  - rewrite (proj2 (strict_bool_string m (TBool true))) in H. injection H as <-. auto.
  - destruct (@strict_hexes m v) as (b & X & D & Q); [ eauto | ]. rewrite D in *. split; [ exact (hex_aligned _ _ X E) | exact Q ].
Qed.

(** ** Items, from left to right *)
Definition joined (ds : list str) : str := join (lit ",") ds.
Lemma join_cons d ds : joined (d :: ds) = match ds with [] => d | _ => d ++ 44 :: joined ds end.
Proof. destruct ds; reflexivity. Qed.
Fixpoint total (ds : list str) : nat := match ds with [] => 0%nat | d :: ds' => (S (weight d) + total ds')%nat end.
Lemma joined_weight ds : ds <> [] -> S (weight (joined ds)) = total ds.
Proof.
  induction ds as [ | d ds IH ]; intros H; [ congruence | ]. rewrite join_cons. destruct ds as [ | d' ds ]; [ cbn [total]; lia | ].
  rewrite weight_app, weight_cons. change (weigh 44) with 1%nat. cbn [total]. cbn [total] in IH. specialize (IH ltac:(discriminate)). lia.
Qed.
(** Items that weigh no less than what they stand for weigh no more altogether
    than the text. *)
Lemma tiles s ends : forall pre post start ds, s = pre ++ post -> (size pre < start <= size s)%nat -> (forall e, In e ends -> (e < size s)%nat) ->
  Forall2 (fun r d => exists m, bytes_between s r m /\ (weight d <= weight m)%nat) (ranges start ends) ds -> (S (weight pre) + total ds <= weight s)%nat.
Proof.
  induction ends as [ | e ends IH ]; intros pre post start ds Es L B F; inversion F as [ | ? d ? ds' (m & M & Sm) F' ]; subst ds; cbn [total].
  - assert (weight pre < weight s)%nat; [ | lia ]. apply (@longer_prefix pre s post []); [ now rewrite app_nil_r | lia ].
  - destruct M as (u & y & Ex & Mx & My). cbn [fst snd] in *. assert (weight pre < weight u)%nat by (apply (@longer_prefix pre u post (m ++ y)); [ now rewrite <- Ex | lia ]).
    specialize (IH (u ++ m) y (S e) ds'). rewrite weight_app in IH. rewrite <- app_assoc in IH. assert (e < size s)%nat by (apply B; left; reflexivity).
    assert (S (weight u + weight m) + total ds' <= weight s)%nat; [ | lia ]. apply IH; [ exact Ex | lia | intros e' I; apply B; right; exact I | exact F' ].
Qed.
(** If every item that starts at the right place is the right one, all are. *)
Definition in_place (s : str) (rs : list (nat * nat)) (ds : list str) : Prop := Forall2 (fun r d => bytes_between s r d) rs ds.
Lemma size_separator c : is_ascii c = true -> length (utf8_char c) = 1%nat.
Proof. unfold is_ascii, utf8_char. intros ->. reflexivity. Qed.
Lemma joined_rest cl d ds : exists rest, joined (d :: ds) ++ [cl] = d ++ rest /\ ((ds = [] /\ rest = [cl]) \/ (ds <> [] /\ rest = 44 :: joined ds ++ [cl])).
Proof. rewrite join_cons. destruct ds as [ | d' ds ]; [ exists [cl]; auto | ]. exists (44 :: joined (d' :: ds) ++ [cl]). split; [ rewrite <- app_assoc; reflexivity | right; split; [ discriminate | reflexivity ] ]. Qed.
Lemma placed (R : str -> str -> Prop) cl s L ends : forall pre ds, s = pre ++ joined ds ++ [cl] -> (forall e, In e ends -> (e < L)%nat) -> ds <> [] ->
  (forall pre d m y ds' ends', s = pre ++ joined (d :: ds') ++ [cl] -> R m d -> joined (d :: ds') ++ [cl] = m ++ y -> (size pre + size m < L)%nat -> (forall e, In e ends' -> (e < L)%nat) ->
    Forall2 (fun r d => exists m, bytes_between s r m /\ R m d) (ranges (S (size pre + size m)) ends') ds' -> m = d) ->
  Forall2 (fun r d => exists m, bytes_between s r m /\ R m d) (ranges (size pre) ends) ds ->
  in_place s (ranges (size pre) ends) ds /\ (size (pre ++ joined ds) < L)%nat.
Proof.
  induction ends as [ | e ends IH ]; intros pre ds Es B N H F; inversion F as [ | ? d ? ds' (m & M & Rm) F' ]; subst ds; [ congruence | ].
  destruct (@between_at s (size pre, e) m pre _ M Es eq_refl) as [ Ee [ y Y ] ]. cbn [snd] in Ee. subst e.
  assert (m = d) as ->.
  { eapply H; [ exact Es | exact Rm | exact Y | apply B; left; reflexivity | intros e I; apply B; right; exact I | exact F' ]. }
  destruct (joined_rest cl d ds') as (rest & J & [ [ -> -> ] | [ N' -> ] ]).
  - destruct ends as [ | e ends ]; [ | inversion F' ]. cbn [ranges]. split; [ constructor; [ exact M | constructor ] | ]. cbn [joined join]. rewrite size_app. apply B. left. reflexivity.
  - specialize (IH (pre ++ d ++ [44]) ds'). assert (P : size (pre ++ d ++ [44]) = S (size pre + size d)) by (rewrite !size_app, size_cons; change (length (utf8_char 44)) with 1%nat; cbn; lia).
    rewrite P in IH. destruct IH as [ I1 I2 ].
    + rewrite J in Es. rewrite Es. rewrite <- !app_assoc. reflexivity.
    + intros e I. apply B. right. exact I.
    + exact N'.
    + exact H.
    + exact F'.
    + cbn [ranges]. split; [ constructor; assumption | ]. replace (pre ++ joined (d :: ds')) with ((pre ++ d ++ [44]) ++ joined ds'); [ exact I2 | ].
      rewrite join_cons. destruct ds'; [ congruence | ]. rewrite <- !app_assoc. reflexivity.
Qed.

(** ** Items in place can be separated *)
Lemma between_unique s r m m' : bytes_between s r m -> bytes_between s r m' -> m = m'.
Proof.
  intros (x & y & E & A & B) (x' & y' & E' & A' & B'). assert (x = x') as <- by (apply (@prefix_same x x' (m ++ y) (m' ++ y')); [ congruence | lia ]).
  rewrite E in E'. apply app_inv_head in E'. rewrite size_app in B, B'. apply (@prefix_same m m' y y' E'). lia.
Qed.
Lemma filter_next (f : nat -> bool) n : forall a e es, filter f (seq a n) = e :: es ->
  (a <= e)%nat /\ f e = true /\ (forall i, (a <= i < e)%nat -> f i = false) /\ exists n', es = filter f (seq (S e) n').
Proof.
  induction n as [ | n IH ]; intros a e es E; [ discriminate | ]. cbn [seq filter] in E. destruct (f a) eqn:Fa.
  - injection E as -> E. split; [ lia | ]. split; [ exact Fa | ]. split; [ intros; lia | ]. exists n. auto.
  - apply IH in E as (L & Fe & B & X). split; [ lia | ]. split; [ exact Fe | ]. split; [ | exact X ]. intros i I. destruct (Nat.eq_dec i a) as [ -> | ]; [ exact Fa | ]. apply B. lia.
Qed.
Lemma depth_next op cl value p : depth op cl value (S p) = (depth op cl value p + (if plain value op p then 1 else 0) - (if plain value cl p then 1 else 0))%Z.
Proof. unfold depth. rewrite !count_S. destruct (plain value op p), (plain value cl p); lia. Qed.
Section Group.
Context (op cl : char) (s : str).
Hypothesis plain_op : op <> 34 /\ op <> 44 /\ op <> cl /\ cl <> 34 /\ cl <> 44.
Lemma walk d : forall pre post q k, s = pre ++ d ++ post -> quoted s (length pre) = q -> depth op cl s (length pre) = (1 + Z.of_nat k)%Z ->
  (forall i, (length pre <= i < length pre + length d)%nat -> ends_item op cl s i = false) -> ends_item op cl s (length pre + length d) = true -> separable op cl q k d = true.
Proof using plain_op.
  induction d as [ | c d IH ]; intros pre post q k E Q D H F.
  - cbn [length] in F. rewrite Nat.add_0_r in F. unfold ends_item, plain in F. rewrite Q, D in F. apply andb_true_iff in F as [ F1 F2 ]. destruct k as [ | k ]; [ | lia ]. destruct q; [ rewrite !andb_false_r in F1; discriminate | reflexivity ].
  - assert (A : forall x, is_at s x (length pre) = (c =? x)).
    { intros x. unfold is_at. rewrite E, nth_error_app2, Nat.sub_diag by lia. reflexivity. }
    assert (P : forall x, plain s x (length pre) = (c =? x) && negb q) by (intros x; unfold plain; now rewrite A, Q).
    pose proof (H (length pre) ltac:(cbn [length]; lia)) as E0. unfold ends_item in E0. rewrite !P, D in E0.
    pose proof (depth_next op cl s (length pre)) as D'. rewrite !P, D in D'. pose proof (quoted_S s (length pre)) as Q'. rewrite A, Q in Q'.
    assert (I : forall q' k', quoted s (S (length pre)) = q' -> depth op cl s (S (length pre)) = (1 + Z.of_nat k')%Z -> separable op cl q' k' d = true).
    { intros q' k' Hq Hk. apply (IH (pre ++ [c]) post q' k'); rewrite ?app_length; cbn [length]; rewrite ?Nat.add_1_r; try assumption.
      - rewrite E, <- app_assoc. reflexivity.
      - intros i Hi. apply H. cbn [length]. lia.
      - cbn [length] in F. rewrite Nat.add_succ_r in F. exact F. }
    clear IH H F. destruct plain_op as (P1 & P2 & P3 & P4 & P5). cbn [separable]. destruct (N.eqb_spec c 34) as [ -> | C1 ].
    + apply I; [ now destruct q | ]. rewrite (proj2 (N.eqb_neq 34 op)), (proj2 (N.eqb_neq 34 cl)) in D' by congruence. cbn [andb] in D'. lia.
    + rewrite xorb_false_r in Q'. destruct q; [ apply I; [ exact Q' | rewrite !andb_false_r in D'; lia ] | ]. cbn [negb] in *. rewrite !andb_true_r in *.
      destruct (N.eqb_spec c op) as [ -> | C2 ].
      { apply I; [ exact Q' | ]. rewrite (proj2 (N.eqb_neq op cl)) in D' by congruence. lia. }
      destruct (N.eqb_spec c cl) as [ -> | C3 ].
      { destruct k as [ | k ]; [ exfalso; rewrite orb_true_r in E0; cbn in E0; discriminate | ]. apply I; [ exact Q' | lia ]. }
      destruct (N.eqb_spec c 44) as [ -> | C4 ]; [ | apply I; [ exact Q' | lia ] ].
      destruct k as [ | k ]; [ exfalso; cbn in E0; discriminate | ]. apply I; [ exact Q' | lia ].
Qed.
Lemma walks ds : forall pre ends a n, ends = filter (ends_item op cl s) (seq a n) -> (a <= length pre)%nat -> s = pre ++ joined ds ++ [cl] -> quoted s (length pre) = false ->
  depth op cl s (length pre) = 1%Z -> all_ascii s = true -> in_place s (ranges (length pre) ends) ds -> forallb (separable op cl false 0) ds = true.
Proof using plain_op.
  induction ds as [ | d ds IH ]; intros pre ends a n En La E Q D As F; [ reflexivity | ]. destruct ends as [ | e ends ]; [ inversion F | ]. cbn [ranges] in F. assert (MF : bytes_between s (length pre, e) d /\ in_place s (ranges (S e) ends) ds) by (inversion F; split; assumption). destruct MF as [ M F' ]. clear F.
  symmetry in En. apply filter_next in En as (_ & Fe & Be & n' & Es). pose proof As as A2. unfold all_ascii in A2. rewrite E, forallb_app in A2. apply andb_true_iff in A2 as [ A1 A2 ].
  destruct (@between_at _ _ _ pre _ M E) as [ Ee [ y Y ] ]; [ cbn [fst]; now rewrite (ascii_utf8 pre A1) | ]. cbn [snd] in Ee. rewrite (ascii_utf8 pre A1) in Ee.
  assert (A3 : all_ascii d = true). { unfold all_ascii. rewrite Y, forallb_app in A2. apply andb_true_iff in A2. tauto. } rewrite (ascii_utf8 d A3) in Ee. subst e. rewrite Y in E.
  cbn [forallb]. apply andb_true_iff. split.
  - apply (@walk d pre y false 0%nat); [ exact E | exact Q | exact D | intros i I; apply Be; lia | exact Fe ].
  - destruct ds as [ | d' ds ]; [ reflexivity | ]. destruct (joined_rest cl d (d' :: ds)) as (rest & J & [ [ X _ ] | [ _ -> ] ]); [ discriminate | ].
    assert (Es' : s = (pre ++ d ++ [44]) ++ joined (d' :: ds) ++ [cl]) by (rewrite E, <- Y, J, <- !app_assoc; reflexivity).
    assert (Lp : length (pre ++ d ++ [44]) = S (length pre + length d)) by (rewrite !app_length; cbn [length]; lia).
    assert (A : forall x, is_at s x (length pre + length d) = (44 =? x)).
    { intros x. unfold is_at. rewrite Es', <- app_assoc. rewrite nth_error_app2 by lia. replace (length pre + length d - length pre)%nat with (length d) by lia. rewrite <- app_assoc, nth_error_app2, Nat.sub_diag by lia. reflexivity. }
    destruct plain_op as (P1 & P2 & P3 & P4 & P5). unfold ends_item in Fe. apply andb_true_iff in Fe as [ Fe Fd ].
    assert (Qe : quoted s (length pre + length d) = false).
    { unfold plain in Fe. destruct (quoted s (length pre + length d)); [ rewrite !andb_false_r in Fe; discriminate | reflexivity ]. }
    apply (IH (pre ++ d ++ [44]) ends (S (length pre + length d)) n'); rewrite ?Lp.
    + exact Es.
    + lia.
    + exact Es'.
    + rewrite quoted_S, Qe, A. reflexivity.
    + rewrite depth_next. unfold plain. rewrite !A, (proj2 (N.eqb_neq 44 op)), (proj2 (N.eqb_neq 44 cl)) by congruence. cbn [andb]. lia.
    + exact As.
    + exact F'.
Qed.
Lemma group_exact (R : str -> Token -> Prop) vs : s = op :: joined (map display vs) ++ [cl] -> is_ascii op = true -> is_ascii cl = true -> sound_literal op cl s ->
  (forall m v, In v vs -> R m v -> (weight (display v) <= weight m)%nat) -> weigh op = 1%nat -> weigh cl = 1%nat ->
  Forall2 (fun r v => exists m, bytes_between s r m /\ R m v) (item_ranges op cl s) vs ->
  items_readable op cl (map display vs) = true /\ Forall (fun v => R (display v) v) vs.
Proof using plain_op.
  intros E Ao Ac (_ & N2 & _ & _) K Wo Wc F. assert (Nv : map display vs <> []) by (intros X; rewrite X in E; apply N2; exact E).
  assert (F1 : Forall2 (fun r d => exists m, bytes_between s r m /\ exists v, In v vs /\ d = display v /\ R m v) (item_ranges op cl s) (map display vs)).
  { assert (G : forall rs l, incl l vs -> Forall2 (fun r v => exists m, bytes_between s r m /\ R m v) rs l -> Forall2 (fun r d => exists m, bytes_between s r m /\ exists v, In v vs /\ d = display v /\ R m v) rs (map display l)).
    { intros rs l I X. induction X as [ | r v rs l (m & M & Rm) _ IH ]; cbn [map]; constructor; [ exists m; split; [ exact M | ]; exists v; split; [ apply I; left; reflexivity | auto ] | apply IH; intros x Ix; apply I; right; exact Ix ]. }
    apply G; [ apply incl_refl | exact F ]. }
  assert (B : forall e, In e (filter (ends_item op cl s) (seq 0 (length s))) -> (e < length s)%nat) by (intros e I; apply filter_In in I as [ I _ ]; apply in_seq in I; lia).
  unfold item_ranges in F1. assert (S1 : size [op] = 1%nat) by (rewrite size_cons, (size_separator _ Ao); reflexivity).
  pose proof (@placed (fun m d => exists v, In v vs /\ d = display v /\ R m v) cl s (length s) (filter (ends_item op cl s) (seq 0 (length s))) [op] (map display vs)) as PL. rewrite S1 in PL.
  destruct PL as [ P1 P2 ]; [ exact E | exact B | exact Nv | | exact F1 | ].
  { intros pre d m y ds ends' Es (v & Iv & -> & Rm) Y Lm B' F'.
    apply (@prefix_weight m (display v) y (match ds with [] => [cl] | _ => 44 :: joined ds ++ [cl] end)).
    - destruct (joined_rest cl (display v) ds) as (rest & J & [ [ -> -> ] | [ Nd -> ] ]); [ now rewrite <- Y, J | ]. destruct ds; [ congruence | ]. now rewrite <- Y, J.
    - pose proof (K m v Iv Rm) as G1. pose proof (size_ge s) as G2. assert (T : (S (weight (pre ++ m)) + total ds <= weight s)%nat).
      { apply (@tiles s ends' (pre ++ m) y (S (size pre + size m))); [ now rewrite <- app_assoc, <- Y | rewrite size_app; lia | intros e I; specialize (B' e I); lia | ].
        clear - F' K. remember (ranges (S (size pre + size m)) ends') as rs eqn:Er. clear Er. induction F' as [ | r d' rs ds (m' & M & v' & Iv' & -> & Rm') _ IH ]; constructor; [ | exact IH ]. exists m'. split; [ exact M | ]. apply K; assumption. }
      pose proof (joined_weight (ds := display v :: ds) ltac:(discriminate)) as G3. cbn [total] in G3.
      rewrite Es, !weight_app, (weight_cons cl []), Wc in T. cbn [weight map list_sum fold_right] in T. lia. }
  assert (As : all_ascii s = true).
  { apply size_ascii. rewrite E. change (op :: joined (map display vs) ++ [cl]) with (([op] ++ joined (map display vs)) ++ [cl]). rewrite size_app, (size_cons cl []), (size_separator _ Ac). cbn [utf8 flat_map length].
    replace (length s) with (length (op :: joined (map display vs) ++ [cl])) in P2 by (now rewrite E). change (op :: joined (map display vs) ++ [cl]) with (([op] ++ joined (map display vs)) ++ [cl]) in P2. lia. }
  split.
  - assert (W : forallb (separable op cl false 0) (map display vs) = true).
    { apply (@walks (map display vs) [op] (filter (ends_item op cl s) (seq 0 (length s))) 0 (length s)); try (exact E || exact As || reflexivity || exact P1); [ cbn [length]; lia | | ].
      - cbn [length]. rewrite quoted_S. unfold is_at. rewrite E. cbn [nth_error]. destruct plain_op as (Q1 & _). rewrite (proj2 (N.eqb_neq op 34)) by exact Q1. reflexivity.
      - cbn [length]. rewrite depth_next. unfold plain, is_at. rewrite E. cbn [nth_error]. destruct plain_op as (_ & _ & Q1 & _). rewrite N.eqb_refl, (proj2 (N.eqb_neq op cl)) by exact Q1. reflexivity. }
    unfold items_readable. apply andb_true_iff. split.
    + rewrite forallb_forall in *. intros d I. rewrite (W d I). cbn [andb]. unfold all_ascii in *. rewrite E in As. cbn [forallb] in As. rewrite forallb_app in As. apply andb_true_iff in As as [ _ As ]. apply andb_true_iff in As as [ As _ ].
      clear - I As. revert I As. generalize (map display vs). intros ds. induction ds as [ | d' ds IH ]; intros I As; [ destruct I | ]. rewrite join_cons in As. destruct ds as [ | d'' ds ]; [ destruct I as [ -> | [] ]; exact As | ].
      rewrite forallb_app in As. apply andb_true_iff in As as [ A1 A2 ]. destruct I as [ -> | I ]; [ exact A1 | ]. apply IH; [ exact I | ]. cbn [forallb] in A2. apply andb_true_iff in A2. tauto.
    + destruct (map display vs) as [ | d [ | d' ds ] ]; [ reflexivity | | reflexivity ]. destruct d as [ | c d ]; [ exfalso; apply N2; exact E | ]. unfold len. cbn [length]. lia.
  - clear - F P1. unfold item_ranges in F. remember (ranges 1 (filter (ends_item op cl s) (seq 0 (length s)))) as rs eqn:Er. clear Er. induction F as [ | r v rs vs (m & M & Rm) _ IH ]; [ constructor | ].
    inversion P1 as [ | ? ? ? ? M' P' ]; subst. constructor; [ | apply IH; exact P' ]. rewrite <- (between_unique M M'). exact Rm.
Qed.
End Group.

(** ** Values *)
Lemma group_weight op cl s vs : weigh op = 1%nat -> weigh cl = 1%nat -> bracketed op cl s ->
  Forall2 (fun r v => exists m, bytes_between s r m /\ (weight (display v) <= weight m)%nat) (item_ranges op cl s) vs -> (weight (op :: joined (map display vs) ++ [cl]) <= weight s)%nat.
Proof.
  intros Wo Wc [ w E ] F. pose proof (size_ge s) as G. assert (L : (2 <= length s)%nat) by (rewrite E; cbn [length]; rewrite app_length; cbn [length]; lia).
  assert (T : (1 + total (map display vs) <= weight s)%nat).
  { apply (@tiles s (filter (ends_item op cl s) (seq 0 (length s))) [] s 1); [ reflexivity | cbn [utf8 flat_map length]; lia | intros e I; apply filter_In in I as [ I _ ]; apply in_seq in I; lia | ]. clear - F. unfold item_ranges in F. induction F; cbn [map]; constructor; assumption. }
  rewrite weight_cons, weight_app, (weight_cons cl []), Wo, Wc. change (weight []) with 0%nat. destruct vs as [ | v vs ].
  - cbn [map joined join]. change (weight (join _ [])) with 0%nat. rewrite E, weight_cons, weight_app, (weight_cons cl []), Wo, Wc. lia.
  - pose proof (@joined_weight (map display (v :: vs)) ltac:(discriminate)). lia.
Qed.
Lemma Forall2_incl A B (P Q : A -> B -> Prop) l l' : (forall a b, In b l' -> P a b -> Q a b) -> Forall2 P l l' -> Forall2 Q l l'.
Proof. intros H F. induction F as [ | a b l l' X _ IH ]; constructor; [ apply H; [ left; reflexivity | exact X ] | apply IH; intros a' b' I; apply H; right; exact I ]. Qed.
(** The fields of a tuple that are there, with their types. *)
Lemma fields_split (P : ParamType -> str -> Token -> Prop) s (ts : list ParamType) rs vs : (length rs <= length ts)%nat ->
  Forall2 (fun x v => exists m, bytes_between s (snd x) m /\ P (fst x) m v) (combine ts rs) vs -> Forall2 (fun r v => exists m, bytes_between s r m /\ exists t, In t ts /\ P t m v) rs vs.
Proof.
  revert rs vs. induction ts as [ | t ts IH ]; intros rs vs L F; destruct rs as [ | r rs ]; cbn [combine length] in *; try lia; inversion F as [ | ? v ? vs' (m & M & Pm) F' ]; subst; constructor.
  - exists m. split; [ exact M | ]. exists t. split; [ left; reflexivity | exact Pm ].
  - assert (L' : (length rs <= length ts)%nat) by lia. specialize (IH rs vs' L' F'). eapply Forall2_incl; [ | exact IH ]. intros a b _ (m' & M' & t' & I & X). exists m'. split; [ exact M' | ]. exists t'. split; [ right; exact I | exact X ].
Qed.
Unset Implicit Arguments.
Lemma number_weight m b : hex_text m b -> length b = 32%nat -> (weight (show_hex (of_be b)) <= weight m)%nat.
Proof.
  intros X L. rewrite (hex_weight X). unfold show_hex. rewrite (be_bytes_of_be' _ L). pose proof (drop_weight (fun c => c =? 48) (hex_encode b)) as D.
  destruct (drop_while _ _); [ | exact D ]. pose proof (weight_ge (hex_encode b)) as G. rewrite (hex_text_length (encode_text b)), L in G. change (weight [48]) with 5%nat. lia.
Qed.
Set Implicit Arguments.
Lemma least t : forall m v, tokenize StrictTokenizer t m = Ok v -> (weight (display v) <= weight m)%nat.
Proof.
  induction t using ParamType_ind'; intros s v E.
  - destruct (@strict_hexes s v) as (b & X & D & _); [ auto | ]. now rewrite D, (hex_weight X).
  - destruct (@strict_hexes s v) as (b & X & D & _); [ auto | ]. now rewrite D, (hex_weight X).
  - apply strict_integer in E as (b & X & L & ->). exact (number_weight _ _ X L).
  - apply strict_number in E as (b & X & L & ->). exact (number_weight _ _ X L).
  - apply strict_bool_string in E as [ [ [ -> | -> ] -> ] | [ [ -> | -> ] -> ] ]; vm_compute; lia.
  - rewrite (proj2 (strict_bool_string s (TBool true))) in E. injection E as <-. cbn [display]. lia.
  - assert (V : exists vs, v = TArray vs) by (cbn [tokenize] in E; apply rmap_ok in E as (vs & _ & <-); eauto). destruct V as [ vs -> ]. cbn [display].
    apply array_exact in E as [ [ -> -> ] | [ (Br & _) F ] ]; [ cbn; lia | ]. apply (@group_weight 91 93 s vs eq_refl eq_refl Br). eapply Forall2_incl; [ | exact F ]. intros r v _ (m & M & E). exists m. split; [ exact M | ]. now apply IHt.
  - destruct (@strict_hexes s v) as (b & X & D & _); [ eauto | ]. now rewrite D, (hex_weight X).
  - assert (V : exists vs, v = TFixedArray vs) by (cbn [tokenize] in E; apply rmap_ok in E as (vs & _ & <-); eauto). destruct V as [ vs -> ]. cbn [display].
    apply fixed_array_exact in E as [ _ E ]. apply array_exact in E as [ [ -> -> ] | [ (Br & _) F ] ]; [ cbn; lia | ]. apply (@group_weight 91 93 s vs eq_refl eq_refl Br). eapply Forall2_incl; [ | exact F ]. intros r v _ (m & M & E). exists m. split; [ exact M | ]. now apply IHt.
  - assert (V : exists vs, v = TTuple vs) by (cbn [tokenize] in E; apply rmap_ok in E as (vs & _ & <-); eauto). destruct V as [ vs -> ]. cbn [display].
    apply tuple_exact in E as [ [ -> -> ] | [ (Br & _) [ L F ] ] ]; [ cbn; lia | ]. apply (@group_weight 40 41 s vs eq_refl eq_refl Br). apply (@fields_split (fun t m v => tokenize StrictTokenizer t m = Ok v)) in F; [ | exact L ].
    eapply Forall2_incl; [ | exact F ]. intros r v _ (m & M & t & I & E). exists m. split; [ exact M | ]. rewrite Forall_forall in H. exact (H t I m v E).
Qed.
Lemma group_readable_iff vs op cl : items_readable op cl (map display vs) = true -> Forall (fun v => readable display v = true) vs -> items_readable op cl (map display vs) && forallb (readable display) vs = true.
Proof. intros -> F. cbn [andb]. apply forallb_forall. rewrite Forall_forall in F. exact F. Qed.
Lemma reads_readable t : forall v, tokenize StrictTokenizer t (display v) = Ok v -> readable display v = true.
Proof.
  induction t using ParamType_ind'; intros v E.
  - destruct (@strict_hexes _ _ (or_introl E)) as (_ & _ & _ & R). exact R.
  - destruct (@strict_hexes _ _ (or_intror (or_introl E))) as (_ & _ & _ & R). exact R.
  - apply (@scalar_aligned (PInt n) (display v) v [] []); (reflexivity || exact E || exact I).
  - apply (@scalar_aligned (PUint n) (display v) v [] []); (reflexivity || exact E || exact I).
  - apply (@scalar_aligned PBool (display v) v [] []); (reflexivity || exact E || exact I).
  - apply (@scalar_aligned PString (display v) v [] []); (reflexivity || exact E || exact I).
  - assert (V : exists vs, v = TArray vs) by (cbn [tokenize] in E; apply rmap_ok in E as (vs & _ & <-); eauto). destruct V as [ vs -> ]. cbn [display readable] in *.
    apply array_exact in E as [ [ _ -> ] | [ So F ] ]; [ reflexivity | ].
    destruct (@group_exact 91 93 _ squares (fun m v => tokenize StrictTokenizer t m = Ok v) vs eq_refl eq_refl eq_refl So) as [ G1 G2 ]; [ intros m v _; now apply least | reflexivity | reflexivity | exact F | ].
    apply group_readable_iff; [ exact G1 | ]. eapply Forall_impl; [ | exact G2 ]. intros v. now apply IHt.
  - destruct (@strict_hexes _ _ (or_intror (or_intror (ex_intro _ _ E)))) as (_ & _ & _ & R). exact R.
  - assert (V : exists vs, v = TFixedArray vs) by (cbn [tokenize] in E; apply rmap_ok in E as (vs & _ & <-); eauto). destruct V as [ vs -> ]. cbn [display readable] in *.
    apply fixed_array_exact in E as [ _ E ]. apply array_exact in E as [ [ _ -> ] | [ So F ] ]; [ reflexivity | ].
    destruct (@group_exact 91 93 _ squares (fun m v => tokenize StrictTokenizer t m = Ok v) vs eq_refl eq_refl eq_refl So) as [ G1 G2 ]; [ intros m v _; now apply least | reflexivity | reflexivity | exact F | ].
    apply group_readable_iff; [ exact G1 | ]. eapply Forall_impl; [ | exact G2 ]. intros v. now apply IHt.
  - assert (V : exists vs, v = TTuple vs) by (cbn [tokenize] in E; apply rmap_ok in E as (vs & _ & <-); eauto). destruct V as [ vs -> ]. cbn [display readable] in *. rewrite Forall_forall in H.
    apply tuple_exact in E as [ [ _ -> ] | [ So [ L F ] ] ]; [ reflexivity | ]. apply (@fields_split (fun t m v => tokenize StrictTokenizer t m = Ok v)) in F; [ | exact L ].
    destruct (@group_exact 40 41 _ rounds (fun m v => exists t, In t ts /\ tokenize StrictTokenizer t m = Ok v) vs eq_refl eq_refl eq_refl So) as [ G1 G2 ]; [ intros m v _ (t & I & X); apply (@least t); auto | reflexivity | reflexivity | exact F | ].
    apply group_readable_iff; [ exact G1 | ]. eapply Forall_impl; [ | exact G2 ]. intros v (t & I & X). apply (H t I); auto.
Qed.
Lemma display_exact t v : has_type v t = true -> (tokenize StrictTokenizer t (display v) = Ok v <-> readable display v = true).
Proof. intros T. split; [ apply reads_readable | now apply read_display ]. Qed.

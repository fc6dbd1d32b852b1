(** * The reader accepts exactly the grammar of ReaderSpec.v *)
From Verif Require Import Base Types BaseFacts StrFacts TypeNames TypeNamesSpec TypeNamesFacts ReaderSpec ReaderFacts ReaderTotal Utf8Facts.
From Coq Require Import String Lia ZifyBool ZifyNat ZifyN.
Set Implicit Arguments.
Local Open Scope N_scope.
Local Open Scope list_scope.
Notation length := List.length.

(** ** Sizes *)
Lemma digits_forall' s : forallb is_digit s = true <-> Forall (fun c => 48 <= c /\ c <= 57) s.
Proof. rewrite forallb_forall, Forall_forall. unfold is_digit. split; intros H x I; specialize (H x I); lia. Qed.
Lemma fold_digits s acc : fold_left (fun acc c => 10 * acc + (c - 48)) s acc = fold_left (fun acc d => acc * 10 + d) (map (fun c => c - 48) s) acc.
Proof. revert acc. induction s as [|c s IH]; intros acc; [reflexivity|]. cbn [fold_left map]. rewrite IH. f_equal. lia. Qed.
Lemma parse_digits_digits m s acc v : parse_digits m s acc = Some v -> forallb is_digit s = true.
Proof.
  revert acc. induction s as [|c s IH]; intros acc; [reflexivity|]. cbn [parse_digits forallb].
  destruct (dec_digit c) eqn:D; [|discriminate]. destruct (_ <? m); [|discriminate]. intros E. rewrite (IH _ E), andb_true_r.
  unfold dec_digit in D. unfold is_digit. destruct ((48 <=? c) && (c <=? 57)); [reflexivity|discriminate].
Qed.
Lemma parse_digits_iff m s v : 0 < m -> (parse_digits m s 0 = Some v <-> forallb is_digit s = true /\ v = decimal_value s /\ v < m).
Proof.
  intros P. split.
  - intros E. pose proof (parse_digits_digits _ _ _ E) as D. destruct (N.lt_ge_cases (decimal_value s) m) as [L|L].
    + rewrite parse_digits_value in E by (auto; lia). injection E as <-. repeat split; auto; lia.
    + rewrite parse_digits_big in E by (auto; lia). discriminate.
  - intros (D & -> & L). rewrite parse_digits_value by (auto; lia). reflexivity.
Qed.
Lemma parse_usize_iff s n : parse_usize s = Ok n <-> size_text s n.
Proof.
  change (2 ^ 64) with two64. unfold size_text. change (2 ^ 64) with two64.
  assert (V : forall d, fold_left (fun acc c => 10 * acc + (c - 48)) d 0 = decimal_value d).
  { intros d. apply fold_digits. }
  assert (P64 : 0 < two64) by reflexivity. assert (B64 : 57 < two64) by reflexivity.
  unfold parse_usize. destruct s as [|c [|c' s]].
  - split; [discriminate|]. intros (d & [<-|X] & N & _); [congruence|discriminate].
  - split.
    + intros E. destruct (dec_digit c) as [v|] eqn:D; [|discriminate]. injection E as <-. unfold dec_digit in D.
      destruct ((48 <=? c) && (c <=? 57)) eqn:R; [|discriminate]. injection D as <-.
      exists [c]. split; [now left|]. split; [discriminate|]. split; [constructor; [lia|constructor]|]. cbn [fold_left]. lia.
    + intros (d & [<-|X] & N & F & Ev & L).
      * inversion F as [|? ? R _]; subst. unfold dec_digit. replace ((48 <=? c) && (c <=? 57)) with true by lia. cbn [fold_left]. f_equal; lia.
      * injection X as -> <-. congruence.
  - split.
    + intros E. destruct (parse_digits _ _ _) as [v|] eqn:D; [|discriminate]. injection E as <-. apply parse_digits_iff in D as (D & Ev & L); [|assumption].
      destruct (c =? 43) eqn:C.
      * exists (c' :: s). split; [right; f_equal; lia|]. split; [discriminate|]. split; [now apply digits_forall'|]. now rewrite V.
      * exists (c :: c' :: s). split; [now left|]. split; [discriminate|]. split; [now apply digits_forall'|]. now rewrite V.
    + intros (d & H & N & F & Ev & L). rewrite V in Ev. apply digits_forall' in F.
      assert (X : (if c =? 43 then c' :: s else c :: c' :: s) = d).
      { destruct H as [<-|H].
        - cbn [forallb] in F. unfold is_digit in F. replace (c =? 43) with false by lia. reflexivity.
        - injection H as -> <-. reflexivity. }
      rewrite X. destruct (parse_digits two64 d 0) as [v|] eqn:D.
      * apply parse_digits_iff in D as (_ & -> & _); [|assumption]. now subst.
      * exfalso. assert (Y : parse_digits two64 d 0 = Some n) by (now apply parse_digits_iff). congruence.
Qed.
Lemma parse_usize_cases s : (exists n, size_text s n /\ parse_usize s = Ok n) \/ ((forall n, ~ size_text s n) /\ exists e, parse_usize s = Err e).
Proof.
  destruct (parse_usize s) as [n|e|] eqn:E; [left; exists n; split; [now apply parse_usize_iff|reflexivity]| |now apply parse_usize_not_panic in E].
  right. split; [|eauto]. intros n H. apply parse_usize_iff in H. congruence.
Qed.
Lemma size_text_facts s n : size_text s n -> s <> [] /\ all_ascii s = true /\ Forall (fun c => c = 43 \/ (48 <= c /\ c <= 57)) s /\ (exists s' c, s = s' ++ [c] /\ 48 <= c /\ c <= 57).
Proof.
  intros (d & H & N & F & _). assert (G : Forall (fun c => c = 43 \/ (48 <= c /\ c <= 57)) s).
  { assert (F' : Forall (fun c => c = 43 \/ 48 <= c /\ c <= 57) d) by (eapply Forall_impl; [|exact F]; cbn; auto). destruct H as [->| ->]; [exact F'|]. constructor; [now left|exact F']. }
  split; [destruct H as [->| ->]; [exact N|discriminate]|]. split; [|split; [exact G|]].
  - unfold all_ascii. apply forallb_forall. rewrite Forall_forall in G. intros x I. specialize (G x I). unfold is_ascii. lia.
  - destruct (exists_last N) as (d' & c & ->). apply Forall_app in F as [_ F]. inversion F as [|? ? R _]; subst.
    destruct H as [->| ->]; [exists d', c; auto|exists (43 :: d'), c; auto].
Qed.

(** ** Names of one word *)
Inductive word_name : str -> ParamType -> Prop :=
| wn_address : word_name (lit "address") PAddress
| wn_bytes : word_name (lit "bytes") PBytes
| wn_bool : word_name (lit "bool") PBool
| wn_string : word_name (lit "string") PString
| wn_int256 : word_name (lit "int") (PInt 256)
| wn_uint256 : word_name (lit "uint") (PUint 256)
| wn_tuple : word_name (lit "tuple") (PTuple [])
| wn_int : forall s n, size_text s n -> word_name (lit "int" ++ s) (PInt n)
| wn_uint : forall s n, size_text s n -> word_name (lit "uint" ++ s) (PUint n)
| wn_fixed_bytes : forall s n, size_text s n -> word_name (lit "bytes" ++ s) (PFixedBytes n).
Lemma word_spelled s t : word_name s t -> spelled s t.
Proof. destruct 1; now constructor. Qed.
Lemma not_word a s n w c w' : size_text s n -> w = w' ++ [c] -> 57 < c -> str_eqb (a ++ s) w = false.
Proof.
  intros H -> C. apply str_eqb_neq. intros E. destruct (size_text_facts H) as (_ & _ & _ & s' & d & -> & D).
  rewrite app_assoc in E. apply app_inj_tail in E as [_ E]. lia.
Qed.
Lemma str_from_prefix a b n : str_len a = n -> str_from (a ++ b) n = Ok b.
Proof. intros <-. apply str_from_app. Qed.
Ltac no_words H := rewrite (@not_word _ _ _ (lit "address") 115 (lit "addres") H), (@not_word _ _ _ (lit "bytes") 115 (lit "byte") H),
  (@not_word _ _ _ (lit "bool") 108 (lit "boo") H), (@not_word _ _ _ (lit "string") 103 (lit "strin") H), (@not_word _ _ _ (lit "int") 116 (lit "in") H),
  (@not_word _ _ _ (lit "tuple") 101 (lit "tupl") H), (@not_word _ _ _ (lit "uint") 116 (lit "uin") H) by reflexivity.
Lemma read_base_iff s t : read_base s = Ok t <-> word_name s t.
Proof.
  split.
  - unfold read_base. repeat match goal with |- context [str_eqb ?a ?b] => destruct (str_eqb a b) eqn:Q;
      [apply str_eqb_eq in Q as ->; intros E; injection E as <-; constructor|clear Q] end.
    destruct (starts_with s (lit "int")) eqn:S1; [|destruct (starts_with s (lit "uint")) eqn:S2; [|destruct (starts_with s (lit "bytes")) eqn:S3; [|discriminate]]];
      (intros E; apply bind_ok in E as (r & Er & E); apply bind_ok in E as (n & En & E); injection E as <-; apply parse_usize_iff in En).
    + apply starts_with_inv in S1 as [r' ->]. rewrite (str_from_prefix (lit "int") r') in Er by reflexivity. injection Er as ->. now constructor.
    + apply starts_with_inv in S2 as [r' ->]. rewrite (str_from_prefix (lit "uint") r') in Er by reflexivity. injection Er as ->. now constructor.
    + apply starts_with_inv in S3 as [r' ->]. rewrite (str_from_prefix (lit "bytes") r') in Er by reflexivity. injection Er as ->. now constructor.
  - intros H; destruct H as [| | | | | | |r n H|r n H|r n H]; try reflexivity; unfold read_base; no_words H;
      pose proof H as H'; apply parse_usize_iff in H'.
    + rewrite starts_with_app, (str_from_prefix (lit "int") r) by reflexivity. cbn [bind]. rewrite H'. reflexivity.
    + change (starts_with (lit "uint" ++ r) (lit "int")) with false. cbv iota.
      rewrite starts_with_app, (str_from_prefix (lit "uint") r) by reflexivity. cbn [bind]. rewrite H'. reflexivity.
    + change (starts_with (lit "bytes" ++ r) (lit "int")) with false. change (starts_with (lit "bytes" ++ r) (lit "uint")) with false. cbv iota.
      rewrite starts_with_app, (str_from_prefix (lit "bytes") r) by reflexivity. cbn [bind]. rewrite H'. reflexivity.
Qed.
Lemma read_base_cases s : (exists t, read_base s = Ok t) \/ exists e, read_base s = Err e.
Proof. destruct (read_base s) eqn:E; eauto. now apply read_base_not_panic in E. Qed.
Definition plain_char (c : char) : bool := negb ((c =? 40) || (c =? 41) || (c =? 44) || (c =? 91) || (c =? 93)).
Lemma size_plain s n : size_text s n -> forallb plain_char s = true.
Proof.
  intros H. destruct (size_text_facts H) as (_ & _ & F & _). apply forallb_forall. rewrite Forall_forall in F. intros x I. specialize (F x I).
  unfold plain_char. lia.
Qed.
Lemma word_chars s t : word_name s t -> forallb plain_char s = true /\ all_ascii s = true /\ s <> [].
Proof.
  intros H; destruct H as [| | | | | | |r n H|r n H|r n H]; try (split; [reflexivity|split; [reflexivity|discriminate]]);
    destruct (size_text_facts H) as (_ & A & _); rewrite forallb_app, all_ascii_app, (size_plain H), A; repeat split; discriminate.
Qed.

(** ** Array suffixes *)
Lemma split_bracket (s : str) : (exists x num, s = x ++ 91 :: num /\ ~ In 91 num) \/ ~ In 91 s.
Proof.
  induction s as [|c s IH]; [right; auto|]. destruct IH as [(x & num & -> & N)|N].
  - left. exists (c :: x), num. auto.
  - destruct (N.eq_dec c 91) as [->|D]; [left; exists [], s; auto|]. right. intros [I|I]; auto.
Qed.
Lemma before_bracket num : ~ In 91 num -> forallb (fun c => negb (c =? ch_lbracket)) (rev num) = true.
Proof. intros N. apply forallb_forall. intros x I. apply in_rev in I. unfold ch_lbracket. destruct (N.eqb_spec x 91); [subst; contradiction|reflexivity]. Qed.
Section Arrays.
Context (p : profile) (rd : str -> res ParamType).
Definition array_of (num : str) (t : ParamType) : res ParamType :=
  match num with [] => Ok (PArray t) | _ => do l <- parse_usize num; Ok (PFixedArray t l) end.
Lemma read_array_split x num : ~ In 91 num ->
  read_array p rd (x ++ 91 :: num ++ [93]) =
  match num with
  | [] => do sub <- str_slice (x ++ 91 :: num ++ [93]) 0 (len x); do t <- rd sub; Ok (PArray t)
  | _ => do l <- parse_usize num; do sub <- str_slice (x ++ 91 :: num ++ [93]) 0 (len x); do t <- rd sub; Ok (PFixedArray t l)
  end.
Proof.
  intros N. unfold read_array.
  assert (R : rev (take_while (fun c => negb (c =? ch_lbracket)) (skipn 1 (rev (x ++ 91 :: num ++ [93])))) = num).
  { rewrite rev_app_distr. cbn [rev]. rewrite rev_app_distr. cbn [rev app skipn]. rewrite <- app_assoc. cbn [app].
    rewrite take_while_stop; [apply rev_involutive|now apply before_bracket|reflexivity]. }
  cbv zeta. rewrite R. assert (L : len (x ++ 91 :: num ++ [93]) = len x + len num + 2).
  { rewrite len_app, len_cons, len_app. change (len [93]) with 1. lia. }
  rewrite L. destruct num as [|c num].
  - change (len []) with 0. rewrite usize_sub_ok by lia. cbn [bind]. now replace (len x + 0 + 2 - 2) with (len x) by lia.
  - destruct (parse_usize (c :: num)) as [l|e|] eqn:E; [|reflexivity..]. cbn [bind]. apply parse_usize_ascii, str_len_ascii in E. rewrite E.
    rewrite usize_sub_ok by lia. cbn [bind]. rewrite usize_sub_ok by lia. cbn [bind].
    now replace (len x + len (c :: num) + 2 - len (c :: num) - 2) with (len x) by lia.
Qed.
Lemma read_array_lone s : ~ In 91 s -> str_len (s ++ [93]) < 2 ^ 63 ->
  read_array p rd (s ++ [93]) = match s with [] => Panic | _ => do _ <- parse_usize s; Panic end.
Proof.
  intros N B. unfold read_array.
  assert (R : rev (take_while (fun c => negb (c =? ch_lbracket)) (skipn 1 (rev (s ++ [93])))) = s).
  { rewrite rev_app_distr. cbn [rev app skipn]. rewrite take_while_all by (now apply before_bracket). apply rev_involutive. }
  cbv zeta. rewrite R. assert (L : len (s ++ [93]) = len s + 1) by (rewrite len_app; reflexivity). rewrite L.
  assert (SL : forall e, 2 ^ 63 <= e -> str_slice (s ++ [93]) 0 e = Panic).
  { intros e H. destruct (str_slice (s ++ [93]) 0 e) eqn:E; [|now apply str_slice_not_err in E|reflexivity]. apply slice_beyond in E. lia. }
  assert (SB : forall a b, a < b -> b < 2 ^ 63 -> (do e <- usize_sub p a b; do sub <- str_slice (s ++ [93]) 0 e; do t <- rd sub; Ok (PArray t)) = Panic /\
     forall l, (do e <- usize_sub p a b; do sub <- str_slice (s ++ [93]) 0 e; do t <- rd sub; Ok (PFixedArray t l)) = Panic).
  { intros a b H H'. unfold usize_sub. replace (b <=? a) with false by lia. destruct p; [split; reflexivity|]. cbn [bind]. change two64 with (2 ^ 64). rewrite SL by lia. split; reflexivity. }
  destruct s as [|c s]; [apply SB; reflexivity|].
  destruct (parse_usize (c :: s)) as [l|e|] eqn:E; [|reflexivity..]. cbn [bind]. apply parse_usize_ascii, str_len_ascii in E. rewrite E.
  rewrite usize_sub_ok by lia. cbn [bind]. replace (len (c :: s) + 1 - len (c :: s)) with 1 by lia. apply SB; reflexivity.
Qed.
End Arrays.
Lemma slice_split x y n : str_slice (x ++ y) 0 n = match str_split (x ++ y) n with Some (a, _) => Ok a | None => Panic end.
Proof. unfold str_slice. replace (n <? 0) with false by lia. destruct (x ++ y) as [|c s]; cbn [str_split]; change (0 =? 0) with true; cbv iota; rewrite N.sub_0_r; reflexivity. Qed.
(** As many bytes of [x ++ y] as [x] has characters are all within [x]. *)
Lemma prefix_within x y a b : x ++ y = a ++ b -> str_len a = len x -> exists b', x = a ++ b'.
Proof.
  revert x. induction a as [|c a IH]; intros x E L; [exists x; reflexivity|]. destruct x as [|d x].
  - rewrite str_len_cons in L. pose proof (char_len_pos c). change (len []) with 0 in L. lia.
  - cbn [app] in E. injection E as <- E. destruct (N.lt_ge_cases (len a) (len x + 1)) as [H|H].
    + assert (LA : exists b', x = a ++ b').
      { assert (firstn (length a) (x ++ y) = a) by (rewrite E, firstn_app, Nat.sub_diag, firstn_all, firstn_O; apply app_nil_r).
        rewrite firstn_app in H0. replace (length a - length x)%nat with 0%nat in H0 by (unfold len in H; lia). rewrite firstn_O, app_nil_r in H0.
        exists (skipn (length a) x). rewrite <- H0 at 1. symmetry. apply firstn_skipn. }
      destruct LA as [b' ->]. exists b'. reflexivity.
    + exfalso. rewrite str_len_cons, len_cons in L. pose proof (char_len_pos d). pose proof (str_len_ge a). lia.
Qed.

(** ** Names without ')' *)
Definition suffix_wrap (num : str) (w : ParamType -> ParamType) : Prop :=
  (num = [] /\ w = PArray) \/ exists n, size_text num n /\ w = fun t => PFixedArray t n.
Lemma suffix_wrap_no_bracket num w : suffix_wrap num w -> ~ In 91 num.
Proof.
  intros [[-> _]|(n & H & _)]; [auto|]. intros I. apply size_plain in H. rewrite forallb_forall in H. specialize (H _ I). discriminate.
Qed.
Lemma last_bracket_unique x num x' num' : ~ In 91 num -> ~ In 91 num' -> x ++ 91 :: num ++ [93] = x' ++ 91 :: num' ++ [93] -> x = x' /\ num = num'.
Proof.
  intros N N' E. change (x ++ 91 :: num ++ [93]) with (x ++ (91 :: num) ++ [93]) in E. change (x' ++ 91 :: num' ++ [93]) with (x' ++ (91 :: num') ++ [93]) in E.
  rewrite !app_assoc in E. apply app_inv_tail in E.
  assert (T : forall y m, ~ In 91 m -> take_while (fun c => negb (c =? ch_lbracket)) (rev (y ++ 91 :: m)) = rev m).
  { intros y m M. rewrite rev_app_distr. cbn [rev]. rewrite <- app_assoc. cbn [app]. rewrite take_while_stop; [reflexivity|now apply before_bracket|reflexivity]. }
  assert (M : num = num') by (rewrite <- (rev_involutive num), <- (rev_involutive num'), <- (T x num N), <- (T x' num' N'), E; reflexivity).
  subst num'. apply app_inv_tail in E. auto.
Qed.
Lemma suffix_chars num w : suffix_wrap num w -> forallb plain_char num = true /\ all_ascii num = true.
Proof. intros [[-> _]|(n & H & _)]; [split; reflexivity|]. split; [now apply size_plain in H|]. now apply size_text_facts in H. Qed.
Lemma spelled_chars s t : spelled s t -> all_ascii s = true /\ s <> [] /\ forallb (fun c => negb (punct c)) s = true.
Proof.
  assert (W : forall s t, word_name s t -> all_ascii s = true /\ s <> [] /\ forallb (fun c => negb (punct c)) s = true).
  { intros s0 t0 H. destruct (word_chars H) as (P & A & N). repeat split; auto. eapply forallb_weaken; [|exact P]. unfold plain_char, punct. lia. }
  assert (K : forall k n, size_text k n -> all_ascii k = true /\ forallb (fun c => negb (punct c)) k = true).
  { intros k n H. split; [now apply size_text_facts in H|]. eapply forallb_weaken; [|exact (size_plain H)]. unfold plain_char, punct. lia. }
  induction 1 as [| | | | | | |s n H|s n H|s n H|s t H IH|s t k n H IH Hk]; try (eapply W; constructor; eassumption).
  - destruct IH as (A & N & P). rewrite all_ascii_app, forallb_app, A, P. split; [reflexivity|]. split; [|reflexivity]. intros X. now apply app_eq_nil in X as [X _].
  - destruct IH as (A & N & P). destruct (K _ _ Hk) as [Ak Pk]. rewrite !all_ascii_app, !forallb_app, A, P, Ak, Pk. split; [reflexivity|]. split; [|reflexivity]. intros X. now apply app_eq_nil in X as [X _].
Qed.
Lemma spelled_inv s t : spelled s t <-> word_name s t \/ exists x num w t', s = x ++ 91 :: num ++ [93] /\ suffix_wrap num w /\ spelled x t' /\ t = w t'.
Proof.
  split.
  - intros H; destruct H as [| | | | | | |s n H|s n H|s n H|s t H|s t k n H Hk]; try (left; now constructor); right.
    + exists s, [], PArray, t. repeat split; auto. left; auto.
    + exists s, k, (fun t => PFixedArray t n), t. repeat split; auto. right. eauto.
  - intros [H|(x & num & w & t' & -> & [[-> ->]|(n & Hk & ->)] & H & ->)]; [now apply word_spelled|now apply sp_array|now apply sp_fixed_array].
Qed.
Lemma word_no_bracket s0 t : ~ word_name (s0 ++ [93]) t.
Proof. intros H. apply word_chars in H as (P & _). rewrite forallb_app in P. apply andb_true_iff in P as [_ P]. discriminate. Qed.
Lemma spelled_suffix x num t : ~ In 91 num -> (spelled (x ++ 91 :: num ++ [93]) t <-> exists w t', suffix_wrap num w /\ spelled x t' /\ t = w t').
Proof.
  intros N. rewrite spelled_inv. split.
  - intros [H|(x' & num' & w & t' & E & S & H & ->)].
    + exfalso. change (x ++ 91 :: num ++ [93]) with (x ++ (91 :: num) ++ [93]) in H. rewrite app_assoc in H. now apply word_no_bracket in H.
    + apply last_bracket_unique in E as [-> ->]; eauto using suffix_wrap_no_bracket.
  - intros (w & t' & S & H & ->). right. exists x, num, w, t'. auto.
Qed.
Lemma array_suffix_iff y : array_suffix y <-> exists num w, suffix_wrap num w /\ y = 91 :: num ++ [93].
Proof.
  split.
  - intros [->|(k & n & H & ->)]; [exists [], PArray; split; [left; auto|reflexivity]|exists k, (fun t => PFixedArray t n); split; [right; eauto|reflexivity]].
  - intros (num & w & [[-> _]|(n & H & _)] & ->); [now left|right; exists num, n; auto].
Qed.
Lemma utf8_len s : len (utf8 s) = str_len s.
Proof.
  unfold utf8. induction s as [|c s IH]; [reflexivity|]. cbn [flat_map]. rewrite len_app, IH, str_len_cons. f_equal.
  unfold utf8_char, char_len. repeat match goal with |- context [if ?b then _ else _] => destruct b end; reflexivity.
Qed.
Lemma lone_bracket_no_open s : lone_bracket s -> ~ In 91 s.
Proof.
  intros [->|(k & n & H & ->)]; [intros [X|[]]; discriminate|]. intros I. apply in_app_iff in I as [I|[X|[]]]; [|discriminate].
  apply size_plain in H. rewrite forallb_forall in H. specialize (H _ I). discriminate.
Qed.
Lemma panicking_suffix x num : ~ In 91 num -> (panicking (x ++ 91 :: num ++ [93]) <->
  (exists w, suffix_wrap num w) /\ ((forall a b, x = a ++ b -> str_len a <> len x) \/ exists a b, x = a ++ b /\ str_len a = len x /\ panicking a)).
Proof.
  intros N. split.
  - intros H. remember (x ++ 91 :: num ++ [93]) as y eqn:Ey. destruct H as [s H|s y' S C|a b y' S L H].
    + exfalso. apply lone_bracket_no_open in H. apply H. subst. apply in_app_iff. right. now left.
    + apply array_suffix_iff in S as (num' & w & S & ->). symmetry in Ey. apply last_bracket_unique in Ey as [-> ->]; eauto using suffix_wrap_no_bracket.
      split; [eauto|]. left. intros a b E. rewrite <- utf8_len. eauto.
    + apply array_suffix_iff in S as (num' & w & S & ->). rewrite app_assoc in Ey. symmetry in Ey. apply last_bracket_unique in Ey as [-> ->]; eauto using suffix_wrap_no_bracket.
      split; [eauto|]. right. exists a, b. rewrite <- utf8_len. auto.
  - intros ([w S] & [C|(a & b & -> & L & H)]).
    + apply pn_cut; [apply array_suffix_iff; eauto|]. intros a b E. rewrite utf8_len. eauto.
    + rewrite <- app_assoc. apply pn_prefix; [apply array_suffix_iff; eauto|now rewrite utf8_len|exact H].
Qed.
Lemma read_array_wrap p rd x num w : suffix_wrap num w ->
  read_array p rd (x ++ 91 :: num ++ [93]) = (do sub <- str_slice (x ++ 91 :: num ++ [93]) 0 (len x); do t <- rd sub; Ok (w t)).
Proof.
  intros S. rewrite read_array_split by (eauto using suffix_wrap_no_bracket). destruct S as [[-> ->]|(n & H & ->)]; [reflexivity|].
  pose proof (size_text_facts H) as (NE & _). destruct num as [|c num]; [congruence|]. apply parse_usize_iff in H. rewrite H. reflexivity.
Qed.
Lemma read_array_bad p rd x num : ~ In 91 num -> (forall w, ~ suffix_wrap num w) -> exists e, read_array p rd (x ++ 91 :: num ++ [93]) = Err e.
Proof.
  intros N B. rewrite read_array_split by assumption. destruct num as [|c num]; [exfalso; apply (B PArray); left; auto|].
  destruct (parse_usize_cases (c :: num)) as [(n & H & _)|(_ & e & E)]; [exfalso; apply (B (fun t => PFixedArray t n)); right; eauto|].
  exists e. now rewrite E.
Qed.
Lemma wrap_inj num w w' t t' : suffix_wrap num w -> suffix_wrap num w' -> w t = w' t' -> t = t'.
Proof.
  intros [[-> ->]|(n & H & ->)] [[X ->]|(n' & H' & ->)] E; try (injection E; auto); try discriminate.
Qed.
Lemma suffix_wrap_dec num : (exists w, suffix_wrap num w) \/ forall w, ~ suffix_wrap num w.
Proof.
  destruct num as [|c num]; [left; exists PArray; left; auto|].
  destruct (parse_usize_cases (c :: num)) as [(n & H & _)|(H & _)]; [left; exists (fun t => PFixedArray t n); right; eauto|].
  right. intros w [[X _]|(n & X & _)]; [discriminate|]. now apply H in X.
Qed.
Lemma split_exact a b n : str_len a = n -> str_split (a ++ b) n = Some (a, b).
Proof. intros <-. apply str_split_app. Qed.
(** The part of the name that the array branch reads. *)
Lemma array_prefix x y : (exists a b, x = a ++ b /\ str_len a = len x /\ str_slice (x ++ y) 0 (len x) = Ok a) \/
  ((forall a b, x = a ++ b -> str_len a <> len x) /\ str_slice (x ++ y) 0 (len x) = Panic).
Proof.
  rewrite slice_split. destruct (str_split (x ++ y) (len x)) as [[a b]|] eqn:E.
  - left. apply str_split_some in E as [E L]. destruct (@prefix_within x y a b E (eq_sym L)) as [b' ->]. exists a, b'. auto.
  - right. split; [|reflexivity]. intros a b -> L. rewrite <- app_assoc, (split_exact a (b ++ y) L) in E. discriminate.
Qed.
Lemma ascii_prefix a b : all_ascii a = true -> str_len a = len (a ++ b) -> b = [].
Proof. intros A L. rewrite (str_len_ascii _ A), len_app in L. destruct b; [reflexivity|]. rewrite len_cons in L. lia. Qed.
Lemma plain_read p f : forall s, (length s < f)%nat -> str_len s < 2 ^ 63 -> ~ In 41 s ->
  (forall t, read_fuel p f s = Ok t <-> spelled s t) /\ (read_fuel p f s = Panic <-> panicking s).
Proof.
  induction f as [|f IH]; intros s L B N; [lia|]. cbn [read_fuel].
  assert (BASE : (forall s0, s <> s0 ++ [93]) -> (forall t, read_base s = Ok t <-> spelled s t) /\ (read_base s = Panic <-> panicking s)).
  { intros NB. split.
    - intros t. rewrite read_base_iff, spelled_inv. split; [now left|]. intros [H|(x & num & w & t' & E & _)]; [exact H|].
      exfalso. apply (NB (x ++ 91 :: num)). rewrite E, <- app_assoc. reflexivity.
    - split; [intros E; now apply read_base_not_panic in E|]. intros H. exfalso.
      assert (EX : exists s0, s = s0 ++ [93]).
      { destruct H as [s [->|(k & n & _ & ->)]|s y S _|a b y S _ _]; [now exists []|now exists k| |];
          apply array_suffix_iff in S as (num & w & _ & ->); [exists (s ++ 91 :: num)|exists (a ++ b ++ 91 :: num)]; rewrite <- !app_assoc; reflexivity. }
      destruct EX as [s0 EX]. now apply (NB s0). }
  destruct (last_char s) as [c|] eqn:EL.
  2:{ apply BASE. intros s0 E. apply last_char_none in EL. subst. now destruct s0. }
  apply last_char_some in EL as [s0 ->].
  replace (c =? ch_close) with false.
  2:{ unfold ch_close. destruct (N.eqb_spec c 41) as [->|]; [|reflexivity]. exfalso. apply N, in_app_iff. right. now left. }
  destruct (c =? ch_rbracket) eqn:EC.
  2:{ apply BASE. intros s1 E. apply app_inj_tail in E as [_ ->]. discriminate. }
  apply N.eqb_eq in EC. change ch_rbracket with 93 in EC. subst c. clear BASE.
  destruct (split_bracket s0) as [(x & num & -> & NB)|NB].
  - rewrite <- app_assoc in *. cbn [app] in *.
    destruct (suffix_wrap_dec num) as [[w S]|S].
    + rewrite (read_array_wrap p (read_fuel p f) x S).
      destruct (array_prefix x (91 :: num ++ [93])) as [(a & b & -> & La & ->)|[C ->]]; cbn [bind].
      * assert (IHa : (forall t, read_fuel p f a = Ok t <-> spelled a t) /\ (read_fuel p f a = Panic <-> panicking a)).
        { apply IH.
          - rewrite app_length in L. rewrite app_length in L. cbn [length] in L. lia.
          - rewrite !str_len_app in B. lia.
          - intros I. apply N. rewrite <- app_assoc. apply in_app_iff. now left. }
        destruct IHa as [IH1 IH2]. split.
        -- intros t. rewrite (@spelled_suffix (a ++ b) num t NB). split.
           ++ intros E. apply bind_ok in E as (t' & E' & E). injection E as <-. apply IH1 in E'. destruct (spelled_chars E') as (A & _).
              rewrite (ascii_prefix _ _ A La), app_nil_r. eauto.
           ++ intros (w' & t' & S' & H & ->). destruct (spelled_chars H) as (A & _).
              rewrite all_ascii_app in A. apply andb_true_iff in A as [A _]. rewrite (ascii_prefix _ _ A La), app_nil_r in H. apply IH1 in H. rewrite H. cbn [bind]. f_equal.
              destruct S as [[-> ->]|(n & Hn & ->)], S' as [[X ->]|(n' & Hn' & ->)]; try reflexivity.
              ** now apply size_text_facts in Hn'.
              ** subst. now apply size_text_facts in Hn.
              ** apply parse_usize_iff in Hn, Hn'. congruence.
        -- rewrite (@panicking_suffix (a ++ b) num NB). split.
           ++ intros E. apply bind_panic in E as [E|(t' & _ & E)]; [|discriminate]. apply IH2 in E. split; [eauto|]. right. exists a, b. auto.
           ++ intros (_ & [C|(a' & b' & E & La' & H)]); [now apply (C a b) in La|].
              assert (a' = a).
              { pose proof (split_exact a b eq_refl) as X. pose proof (@split_exact a' b' (str_len a) ltac:(congruence)) as Y. rewrite E in X. congruence. }
              subst a'. apply IH2 in H. rewrite H. reflexivity.
      * split.
        -- intros t. split; [discriminate|]. rewrite (@spelled_suffix x num t NB). intros (w' & t' & S' & H & ->). exfalso.
           destruct (spelled_chars H) as (A & _). apply (C x []); [now rewrite app_nil_r|now apply str_len_ascii].
        -- rewrite (@panicking_suffix x num NB). split; [eauto|auto].
    + destruct (read_array_bad p (read_fuel p f) x NB S) as [e ->]. split.
      * intros t. split; [discriminate|]. rewrite (@spelled_suffix x num t NB). intros (w' & t' & S' & _). now apply S in S'.
      * rewrite (@panicking_suffix x num NB). split; [discriminate|]. intros ([w' S'] & _). now apply S in S'.
  - rewrite (@read_array_lone p (read_fuel p f) s0 NB B). split.
    + intros t. split.
      * destruct s0; [discriminate|]. intros E. apply bind_ok in E as (? & _ & E). discriminate.
      * intros H. apply spelled_inv in H as [H|(x & num & w & t' & E & _)]; [now apply word_no_bracket in H|]. exfalso. apply NB.
        change (x ++ 91 :: num ++ [93]) with (x ++ (91 :: num) ++ [93]) in E. rewrite app_assoc in E. apply app_inj_tail in E as [-> _]. apply in_app_iff. right. now left.
    + split.
      * intros E. apply pn_lone. destruct s0 as [|c s0]; [now left|]. right. apply bind_panic in E as [E|(n & E & _)]; [now apply parse_usize_not_panic in E|].
        apply parse_usize_iff in E. exists (c :: s0), n. auto.
      * assert (INV : forall y x, array_suffix y -> s0 ++ [93] = x ++ y -> False).
        { intros y x S E. apply array_suffix_iff in S as (num & w & _ & ->). apply NB.
          change (x ++ 91 :: num ++ [93]) with (x ++ (91 :: num) ++ [93]) in E. rewrite app_assoc in E. apply app_inj_tail in E as [-> _]. apply in_app_iff. right. now left. }
        intros H. remember (s0 ++ [93]) as s eqn:Es. destruct H as [s [->|(k & n & H & ->)]|s y S _|a b y S _ _].
        -- destruct s0 as [|c [|d s0]]; [reflexivity|discriminate..].
        -- apply app_inj_tail in Es as [-> _]. pose proof (size_text_facts H) as (NE & _). destruct s0; [congruence|]. apply parse_usize_iff in H. now rewrite H.
        -- exfalso. eapply INV; eauto.
        -- exfalso. apply (INV y (a ++ b) S). apply app_assoc.
Qed.

(** ** Tuples without inner tuples *)
Lemma fields_only_commas s : fields_text s [] -> Forall (fun c => c = 44) s.
Proof. intros H. remember [] as ts eqn:E. revert E. induction H; intros E; try discriminate; auto. Qed.
Lemma fields_chars s ts : fields_text s ts -> all_ascii s = true /\ ~ In 40 s /\ ~ In 41 s.
Proof.
  assert (P : forall s t, spelled s t -> all_ascii s = true /\ ~ In 40 s /\ ~ In 41 s).
  { intros s0 t H. destruct (spelled_chars H) as (A & _ & C). rewrite forallb_forall in C. repeat split; [exact A| |]; intros I; apply C in I; discriminate. }
  induction 1 as [|s t H|s ts H IH|s t r ts H Hr IH]; [repeat split; auto|now apply P in H| |].
  - destruct IH as (A & B & C). repeat split; [exact A| |]; intros [X|I]; auto; discriminate.
  - apply P in H as (A & B & C). destruct IH as (A' & B' & C'). split; [|split].
    + rewrite all_ascii_app, A. exact A'.
    + intros I. apply in_app_iff in I as [I|[X|I]]; auto; discriminate.
    + intros I. apply in_app_iff in I as [I|[X|I]]; auto; discriminate.
Qed.
Section Flat.
Context (name : str) (rd : str -> res ParamType).
Hypothesis HR : forall m t, ~ In 40 m -> ~ In 41 m -> (length m < length name)%nat -> str_len m <= str_len name -> (rd m = Ok t <-> spelled m t).

Lemma closed_loop rest : forall pos st s', nested st = 0%Z -> ~ In 40 rest -> In 41 rest -> read_tuple_loop rd name rest pos 0 st <> Ok s'.
Proof.
  induction rest as [|c rest IH]; intros pos st s' Z N I; [destruct I|]. cbn [read_tuple_loop]. unfold read_char. rewrite Z.
  change ch_open with 40. change ch_close with 41. change ch_comma with 44.
  assert (NR : ~ In 40 rest) by (intros X; apply N; now right).
  destruct (N.eqb_spec c 40) as [->|C1]; [exfalso; apply N; now left|]. destruct (N.eqb_spec c 41) as [->|C2]; [discriminate|].
  assert (IR : In 41 rest) by (destruct I as [I|I]; [congruence|exact I]).
  destruct (c =? 44).
  - destruct (str_slice _ _ _) as [[|x item]|e|]; cbn [bind]; try discriminate; apply IH; auto.
  - cbn [bind]. now apply IH.
Qed.
Lemma item_slice pre w rest m : name = pre ++ w ++ rest -> all_ascii pre = true -> str_slice name (len pre) (len pre + len w) = Ok m ->
  exists b, w = m ++ b /\ str_len m = len w.
Proof.
  intros EN A E. apply str_slice_ok in E as (a & b & E & La & Lm). rewrite <- (str_len_ascii _ A) in La, Lm.
  pose proof (@split_exact a (m ++ b) (str_len pre) (eq_sym La)) as S1. rewrite <- E, EN, (split_exact pre (w ++ rest) eq_refl) in S1. injection S1 as <- S1.
  assert (Lm' : str_len m = len w) by lia. destruct (@prefix_within w rest m b S1 Lm') as [b' ->]. eauto.
Qed.
Lemma rd_item pre w rest m t : name = pre ++ w ++ rest -> pre <> [] -> all_ascii pre = true -> forallb (fun c => negb (punct c)) w = true ->
  str_slice name (len pre) (len pre + len w) = Ok m -> rd m = Ok t -> m = w /\ spelled w t.
Proof.
  intros EN NE A P E R. destruct (@item_slice _ _ _ _ EN A E) as (b & -> & L). rewrite forallb_app in P. apply andb_true_iff in P as [P _]. rewrite forallb_forall in P.
  apply HR in R.
  - destruct (spelled_chars R) as (Am & _). rewrite (ascii_prefix _ _ Am L), app_nil_r. auto.
  - intros I. now apply P in I.
  - intros I. now apply P in I.
  - rewrite EN, !app_length. destruct pre; [congruence|]. cbn [length]. lia.
  - rewrite EN, !str_len_app. lia.
Qed.
Lemma flat_loop rest : forall pre w acc sts top s', name = pre ++ w ++ rest -> pre <> [] -> all_ascii pre = true -> forallb (fun c => negb (punct c)) w = true ->
  ~ In 40 rest -> (exists r, rest = r ++ [41]) ->
  (read_tuple_loop rd name rest (len pre + len w) 0 (mkR acc sts 1 top (len pre)) = Ok s' ->
   exists body ts, rest = body ++ [41] /\ fields_text (w ++ body) ts /\ subtypes s' = acc ++ ts).
Proof.
  induction rest as [|c rest IH]; intros pre w acc sts top s' EN NE A P N [r0 ER]; [destruct r0; discriminate|].
  cbn [read_tuple_loop]. unfold read_char. cbn [nested subtypes subtuples last_item top_level_paren_open].
  change ch_open with 40. change ch_close with 41. change ch_comma with 44.
  assert (NR : ~ In 40 rest) by (intros X; apply N; now right).
  destruct (N.eqb_spec c 40) as [->|C1]; [exfalso; apply N; now left|].
  assert (LAST : c <> 41 \/ rest <> [] -> exists r, rest = r ++ [41]).
  { intros H. destruct r0 as [|x r0]; [injection ER as -> ->; destruct H; congruence|]. injection ER as -> ->. eauto. }
  destruct (N.eqb_spec c 41) as [->|C2].
  - change (1 - 1 <? 0)%Z with false. change (1 - 1 =? 0)%Z with true. change (1 - 1)%Z with 0%Z. cbv iota.
    destruct (str_slice _ _ _) as [item|e|] eqn:E; cbn [bind]; try discriminate.
    assert (RE : forall st, nested st = 0%Z -> read_tuple_loop rd name rest (len pre + len w + 1) 0 st = Ok s' -> rest = [] /\ s' = st).
    { intros st Z EL. destruct rest as [|x rest]; [cbn in EL; injection EL as <-; auto|]. exfalso. destruct LAST as [r Er]; [right; discriminate|].
      revert EL. apply closed_loop; [exact Z|exact NR|]. rewrite Er. apply in_app_iff. right. now left. }
    destruct (@item_slice _ _ _ _ EN A E) as (b & Ew & L). destruct item as [|x item].
    + clear Ew b. assert (W0 : w = []) by (destruct w; [reflexivity|]; change (str_len []) with 0 in L; rewrite len_cons in L; lia). subst w.
      cbn [bind]. intros EL. apply RE in EL as [-> ->]; [|reflexivity]. exists [], []. split; [reflexivity|]. split; [constructor|]. cbn [subtypes]. now rewrite app_nil_r.
    + destruct (rd (x :: item)) as [t|e|] eqn:R; cbn [bind]; try discriminate. destruct (@rd_item _ _ _ _ _ EN NE A P E R) as [Em S].
      intros EL. apply RE in EL as [-> ->]; [|reflexivity]. exists [], [t]. split; [reflexivity|]. split; [rewrite app_nil_r; now constructor|reflexivity].
  - destruct LAST as [r Er]; [now left|].
    destruct (N.eqb_spec c 44) as [->|C3].
    + destruct (str_slice _ _ _) as [item|e|] eqn:E; cbn [bind]; try discriminate.
      destruct (@item_slice _ _ _ _ EN A E) as (b & Ew & L). destruct item as [|x item].
      * clear Ew b. assert (W0 : w = []) by (destruct w; [reflexivity|]; change (str_len []) with 0 in L; rewrite len_cons in L; lia). subst w.
        cbn [bind app] in *. intros EL. destruct (IH (pre ++ [44]) [] acc sts top s') as (body & ts & -> & F & Es); auto.
        -- rewrite <- app_assoc. exact EN.
        -- now destruct pre.
        -- rewrite all_ascii_app, A. reflexivity.
        -- eauto.
        -- rewrite len_app. change (len [44]) with 1. change (len (@nil char)) with 0 in *. replace (len pre + 1 + 0) with (len pre + 0 + 1) by lia.
           replace (len pre + 1) with (len pre + 0 + 1) by lia. exact EL.
        -- exists (44 :: body), ts. split; [reflexivity|]. split; [now constructor|exact Es].
      * change (1 =? 1)%Z with true. cbv iota.
        destruct (rd (x :: item)) as [t|e|] eqn:R; cbn [bind]; try discriminate. destruct (@rd_item _ _ _ _ _ EN NE A P E R) as [Em S]. destruct (spelled_chars S) as (Aw & _).
        intros EL. destruct (IH (pre ++ w ++ [44]) [] (acc ++ [t]) sts top s') as (body & ts & -> & F & Es); auto.
        -- rewrite <- !app_assoc. exact EN.
        -- now destruct pre.
        -- rewrite !all_ascii_app, A, Aw. reflexivity.
        -- eauto.
        -- rewrite !len_app. change (len [44]) with 1. change (len (@nil char)) with 0. replace (len pre + (len w + 1) + 0) with (len pre + len w + 1) by lia.
           replace (len pre + (len w + 1)) with (len pre + len w + 1) by lia. exact EL.
        -- exists (44 :: body), (t :: ts). split; [reflexivity|]. split; [now apply ft_field|]. rewrite Es, <- app_assoc. reflexivity.
    + cbn [bind]. intros EL. destruct (IH pre (w ++ [c]) acc sts top s') as (body & ts & -> & F & Es); auto.
      * rewrite <- app_assoc. exact EN.
      * rewrite forallb_app, P. cbn [forallb]. unfold punct. lia.
      * eauto.
      * rewrite len_app. change (len [c]) with 1. replace (len pre + (len w + 1)) with (len pre + len w + 1) by lia. exact EL.
      * exists (c :: body), ts. split; [reflexivity|]. split; [now rewrite <- app_assoc in F|exact Es].
Qed.
Lemma flat_loop_reads body ts : fields_text body ts -> forall pre acc sts top, name = pre ++ body ++ [41] -> pre <> [] -> all_ascii pre = true ->
  exists s', read_tuple_loop rd name (body ++ [41]) (len pre) 0 (mkR acc sts 1 top (len pre)) = Ok s' /\ subtypes s' = acc ++ ts.
Proof.
  assert (ITEM : forall s t pre rest, spelled s t -> name = pre ++ s ++ rest -> pre <> [] -> all_ascii pre = true ->
    str_slice name (len pre) (len pre + len s) = Ok s /\ rd s = Ok t).
  { intros s t pre rest H EN NE A. destruct (spelled_chars H) as (As & _ & C). rewrite forallb_forall in C. split; [rewrite EN; now apply ascii_slice|].
    apply HR; [intros I; now apply C in I|intros I; now apply C in I| | |exact H].
    - rewrite EN, !app_length. destruct pre; [congruence|]. cbn [length]. lia.
    - rewrite EN, !str_len_app. lia. }
  induction 1 as [|s t H|s ts H IH|s t r ts H Hr IH]; intros pre acc sts top EN NE A.
  - cbn [app read_tuple_loop]. unfold read_char. cbn [nested subtypes subtuples last_item top_level_paren_open].
    change (41 =? ch_open) with false. change (41 =? ch_close) with true. change (1 - 1 <? 0)%Z with false. cbv iota.
    assert (E : str_slice name (len pre) (len pre) = Ok []). { rewrite EN. replace (len pre) with (len pre + len (@nil char)) at 2 by (change (len (@nil char)) with 0; lia). now apply ascii_slice. }
    rewrite E. cbn [bind]. eexists. split; [reflexivity|]. cbn [subtypes]. now rewrite app_nil_r.
  - destruct (ITEM _ _ _ _ H EN NE A) as [E R]. destruct (spelled_chars H) as (As & Ns & C). rewrite loop_plain by exact C.
    cbn [read_tuple_loop]. unfold read_char. cbn [nested subtypes subtuples last_item top_level_paren_open].
    change (41 =? ch_open) with false. change (41 =? ch_close) with true. change (1 - 1 <? 0)%Z with false. cbv iota. rewrite E. cbn [bind].
    destruct s as [|x s]; [congruence|]. change (1 - 1 =? 0)%Z with true. cbv iota. rewrite R. cbn [bind]. eexists. split; reflexivity.
  - cbn [app read_tuple_loop]. unfold read_char. cbn [nested subtypes subtuples last_item top_level_paren_open].
    change (44 =? ch_open) with false. change (44 =? ch_close) with false. change (44 =? ch_comma) with true. cbv iota.
    assert (E : str_slice name (len pre) (len pre) = Ok []). { rewrite EN. replace (len pre) with (len pre + len (@nil char)) at 2 by (change (len (@nil char)) with 0; lia). now apply (@ascii_slice pre []). }
    rewrite E. cbn [bind]. destruct (IH (pre ++ [44]) acc sts top) as (s' & E' & Es).
    + rewrite <- app_assoc. exact EN.
    + now destruct pre.
    + rewrite all_ascii_app, A. reflexivity.
    + rewrite len_app in E'. change (len [44]) with 1 in E'. eauto.
  - rewrite <- app_assoc in EN |- *. destruct (ITEM _ _ _ _ H EN NE A) as [E R]. destruct (spelled_chars H) as (As & Ns & C). rewrite loop_plain by exact C.
    cbn [app read_tuple_loop]. unfold read_char. cbn [nested subtypes subtuples last_item top_level_paren_open].
    change (44 =? ch_open) with false. change (44 =? ch_close) with false. change (44 =? ch_comma) with true. cbv iota. rewrite E. cbn [bind].
    destruct s as [|x s]; [congruence|]. change (1 =? 1)%Z with true. cbv iota. rewrite R. cbn [bind].
    destruct (IH (pre ++ (x :: s) ++ [44]) (acc ++ [t]) sts top) as (s' & E' & Es).
    + rewrite <- !app_assoc. exact EN.
    + now destruct pre.
    + rewrite !all_ascii_app, A, As. reflexivity.
    + rewrite !len_app in E'. change (len [44]) with 1 in E'. replace (len pre + (len (x :: s) + 1)) with (len pre + len (x :: s) + 1) in E' by lia.
      exists s'. split; [exact E'|]. rewrite Es, <- app_assoc. reflexivity.
Qed.
Lemma read_flat_tuple r t : name = r ++ [41] -> ~ In 40 (tl name) -> (read_tuple rd name = Ok t <-> exists body ts, name = lit "(" ++ body ++ lit ")" /\ fields_text body ts /\ t = PTuple ts).
Proof.
  intros EN N. unfold read_tuple. split.
  - assert (ES : exists c s, name = c :: s) by (rewrite EN; destruct r; cbn [app]; eauto). destruct ES as (c & s & ES).
    assert (ST : starts_with_char name ch_open = (c =? 40)) by (rewrite ES; reflexivity). rewrite ST.
    destruct (N.eqb_spec c 40) as [->|C]; [|discriminate]. rewrite ES in N. cbn [tl] in N. intros E. apply bind_ok in E as (s' & E & Et). injection Et as <-.
    rewrite ES in E at 2. cbn [read_tuple_loop] in E. unfold read_char at 1 in E. change (40 =? ch_open) with true in E. cbv iota in E. cbn [nested] in E. change (1 <? 0 + 1)%Z with false in E.
    cbn [bind subtypes subtuples last_item] in E. change (0 + 1)%Z with 1%Z in E.
    destruct (@flat_loop s [40] [] [] [] 0 s') as (body & ts & -> & F & Es); auto; try discriminate.
    + destruct r as [|x r]; [rewrite ES in EN; discriminate|]. rewrite ES in EN. injection EN as _ ->. eauto.
    + exists body, ts. cbn [app] in F. rewrite Es. auto.
  - intros (body & ts & E & F & ->). rewrite E. change (starts_with_char (lit "(" ++ body ++ lit ")") ch_open) with true. cbv iota. rewrite <- E at 1.
    change (lit "(" ++ body ++ lit ")") with (40 :: body ++ [41]) in *. cbn [read_tuple_loop]. unfold read_char at 1. change (40 =? ch_open) with true. cbv iota. cbn [nested]. change (1 <? 0 + 1)%Z with false.
    cbn [bind subtypes subtuples last_item]. change (0 + 1)%Z with 1%Z.
    destruct (@flat_loop_reads body ts F [40] [] [] 0) as (s' & E' & Es); [exact E|discriminate|reflexivity|].
    change (len [40]) with 1 in E'. change (0 + 1)%N with 1. rewrite E'. cbn [bind]. now rewrite Es.
Qed.
End Flat.
Lemma flat_inv s t : spelled_flat s t <-> spelled s t \/ (exists body ts, s = lit "(" ++ body ++ lit ")" /\ fields_text body ts /\ t = PTuple ts) \/
  exists x num w t', s = x ++ 91 :: num ++ [93] /\ suffix_wrap num w /\ spelled_flat x t' /\ t = w t'.
Proof.
  split.
  - intros H; destruct H as [s t H|s ts H|s t H|s t k n H Hk]; [now left|right; left; eauto| |]; right; right.
    + exists s, [], PArray, t. repeat split; auto. left; auto.
    + exists s, k, (fun t => PFixedArray t n), t. repeat split; auto. right. eauto.
  - intros [H|[(body & ts & -> & F & ->)|(x & num & w & t' & -> & [[-> ->]|(n & Hk & ->)] & H & ->)]];
      [now apply sf_plain|now apply sf_tuple|now apply sf_array|now apply sf_fixed_array].
Qed.
Lemma spelled_no_paren s t : spelled s t -> ~ In 40 s /\ ~ In 41 s.
Proof. intros H. destruct (spelled_chars H) as (_ & _ & C). rewrite forallb_forall in C. split; intros I; apply C in I; discriminate. Qed.
Lemma flat_ascii s t : spelled_flat s t -> all_ascii s = true.
Proof.
  induction 1 as [s t H|s ts H|s t H IH|s t k n H IH Hk].
  - now apply spelled_chars in H.
  - apply fields_chars in H as (A & _). rewrite !all_ascii_app, A. reflexivity.
  - now rewrite all_ascii_app, IH.
  - apply size_text_facts in Hk as (_ & A & _). now rewrite !all_ascii_app, IH, A.
Qed.
Lemma flat_suffix x num t : ~ In 91 num -> (spelled_flat (x ++ 91 :: num ++ [93]) t <-> exists w t', suffix_wrap num w /\ spelled_flat x t' /\ t = w t').
Proof.
  intros N. rewrite flat_inv. split.
  - intros [H|[(body & ts & E & _)|(x' & num' & w & t' & E & S & H & ->)]].
    + rewrite (@spelled_suffix x num t N) in H. destruct H as (w & t' & S & H & ->). exists w, t'. repeat split; auto. now apply sf_plain.
    + exfalso. change (x ++ 91 :: num ++ [93]) with (x ++ (91 :: num) ++ [93]) in E. change (lit "(" ++ body ++ lit ")") with ((40 :: body) ++ [41]) in E.
      rewrite app_assoc in E. apply app_inj_tail in E as [_ E]. discriminate.
    + apply last_bracket_unique in E as [-> ->]; eauto using suffix_wrap_no_bracket.
  - intros (w & t' & S & H & ->). right. right. exists x, num, w, t'. auto.
Qed.
Lemma tl_app_in A (a b : list A) x : In x (tl a) -> In x (tl (a ++ b)).
Proof. destruct a; [intros []|]. cbn [tl app]. intros I. apply in_app_iff. now left. Qed.
Lemma flat_read p f : forall s, (length s < f)%nat -> str_len s < 2 ^ 63 -> ~ In 40 (tl s) -> forall t, read_fuel p f s = Ok t <-> spelled_flat s t.
Proof.
  induction f as [|f IH]; intros s L B N t; [lia|]. 
  destruct (in_dec N.eq_dec 41 s) as [I41|N41].
  2:{ destruct (@plain_read p (S f) s L B N41) as [H _]. rewrite H. split; [apply sf_plain|]. intros F.
      clear - F N41. induction F as [s t F|s ts F|s t F IHF|s t k n F IHF Hk]; [exact F| | |].
      - exfalso. apply N41. apply in_app_iff. right. apply in_app_iff. right. now left.
      - apply sp_array, IHF. intros I. apply N41, in_app_iff. now left.
      - apply sp_fixed_array; [|exact Hk]. apply IHF. intros I. apply N41, in_app_iff. now left. }
  cbn [read_fuel]. destruct (last_char s) as [c|] eqn:EL; [|apply last_char_none in EL; subst; destruct I41].
  apply last_char_some in EL as [s0 ->].
  destruct (c =? ch_close) eqn:EC.
  - apply N.eqb_eq in EC. change ch_close with 41 in EC. subst c.
    rewrite (@read_flat_tuple (s0 ++ [41]) (read_fuel p f)) with (r := s0); auto.
    + rewrite flat_inv. split; [auto|]. intros [H|[H|(x & num & w & t' & E & _)]]; auto.
      * apply spelled_no_paren in H as [_ H]. contradiction.
      * change (x ++ 91 :: num ++ [93]) with (x ++ (91 :: num) ++ [93]) in E. rewrite app_assoc in E. apply app_inj_tail in E as [_ E]. discriminate.
    + intros m t0 M40 M41 Lm Bm. apply plain_read; [lia|lia|exact M41].
  - destruct (c =? ch_rbracket) eqn:EB.
    + apply N.eqb_eq in EB. change ch_rbracket with 93 in EB. subst c. clear EC.
      destruct (split_bracket s0) as [(x & num & -> & NB)|NB].
      * rewrite <- app_assoc in *. cbn [app] in *. rewrite (@flat_suffix x num t NB).
        destruct (suffix_wrap_dec num) as [[w S]|S].
        -- rewrite (read_array_wrap p (read_fuel p f) x S).
           destruct (array_prefix x (91 :: num ++ [93])) as [(a & b & -> & La & ->)|[C ->]]; cbn [bind].
           ++ assert (IHa : forall t, read_fuel p f a = Ok t <-> spelled_flat a t).
              { apply IH.
                - rewrite !app_length in L. cbn [length] in L. lia.
                - rewrite !str_len_app in B. lia.
                - intros I. apply N. rewrite <- app_assoc. now apply tl_app_in. }
              split.
              ** intros E. apply bind_ok in E as (t' & E' & E). injection E as <-. apply IHa in E'. pose proof (flat_ascii E') as A.
                 rewrite (ascii_prefix _ _ A La), app_nil_r. eauto.
              ** intros (w' & t' & S' & H & ->). pose proof (flat_ascii H) as A. rewrite all_ascii_app in A. apply andb_true_iff in A as [A _].
                 rewrite (ascii_prefix _ _ A La), app_nil_r in H. apply IHa in H. rewrite H. cbn [bind]. f_equal.
                 destruct S as [[-> ->]|(n & Hn & ->)], S' as [[X ->]|(n' & Hn' & ->)]; try reflexivity.
                 --- now apply size_text_facts in Hn'.
                 --- subst. now apply size_text_facts in Hn.
                 --- apply parse_usize_iff in Hn, Hn'. congruence.
           ++ split; [discriminate|]. intros (w' & t' & S' & H & ->). exfalso. apply (C x []); [now rewrite app_nil_r|]. apply str_len_ascii, (flat_ascii H).
        -- destruct (read_array_bad p (read_fuel p f) x NB S) as [e ->]. split; [discriminate|]. intros (w' & t' & S' & _). now apply S in S'.
      * rewrite (@read_array_lone p (read_fuel p f) s0 NB B). split.
        -- destruct s0; [discriminate|]. intros E. apply bind_ok in E as (? & _ & E). discriminate.
        -- intros H. exfalso. apply flat_inv in H as [H|[(body & ts & E & _)|(x & num & w & t' & E & _)]].
           ++ apply spelled_no_paren in H as [_ H]. contradiction.
           ++ change (lit "(" ++ body ++ lit ")") with ((40 :: body) ++ [41]) in E. apply app_inj_tail in E as [_ E]. discriminate.
           ++ apply NB. change (x ++ 91 :: num ++ [93]) with (x ++ (91 :: num) ++ [93]) in E. rewrite app_assoc in E. apply app_inj_tail in E as [-> _]. apply in_app_iff. right. now left.
    + rewrite read_base_iff. split.
      * intros H. apply word_spelled in H. now apply sf_plain.
      * intros H. exfalso. apply flat_inv in H as [H|[(body & ts & E & _)|(x & num & w & t' & E & _)]].
        -- apply spelled_no_paren in H as [_ H]. contradiction.
        -- change (lit "(" ++ body ++ lit ")") with ((40 :: body) ++ [41]) in E. apply app_inj_tail in E as [_ ->]. discriminate.
        -- change (x ++ 91 :: num ++ [93]) with (x ++ (91 :: num) ++ [93]) in E. rewrite app_assoc in E. apply app_inj_tail in E as [_ ->]. discriminate.
Qed.

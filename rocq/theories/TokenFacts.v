(** * Facts about the tokenizers *)
From Verif Require Import Base Types AbiSpec TypeNamesSpec Tokenizer TokenSpec BaseFacts StrFacts ReaderFacts ReaderTotal CodecLemmas FunctionFacts.
From Coq Require Import String.
From Coq Require Import ZifyBool ZifyNat ZifyN.
Set Implicit Arguments.
Local Open Scope N_scope.
Local Open Scope list_scope.
Notation length := List.length.

(** ** Hex *)
Lemma hex_val_spec c d : hex_val c = Some d <-> hex_digit_value c d.
Proof.
  unfold hex_val, hex_digit_value.
  destruct ((48 <=? c) && (c <=? 57)) eqn:E1; [split; [intros H; injection H as <-; lia|intros H; f_equal; lia]|].
  destruct ((97 <=? c) && (c <=? 102)) eqn:E2; [split; [intros H; injection H as <-; lia|intros H; f_equal; lia]|].
  destruct ((65 <=? c) && (c <=? 70)) eqn:E3; [split; [intros H; injection H as <-; lia|intros H; f_equal; lia]|].
  split; [discriminate|lia].
Qed.
Lemma hex_digit_bound c d : hex_digit_value c d -> d < 16.
Proof. unfold hex_digit_value. lia. Qed.
Lemma pair_ind A (P : list A -> Prop) : P [] -> (forall a, P [a]) -> (forall a b l, P l -> P (a :: b :: l)) -> forall l, P l.
Proof.
  intros H0 H1 H2. assert (forall l, P l /\ forall a, P (a :: l)) as H; [|intros l; apply H].
  induction l as [|b l [IH1 IH2]]; auto.
Qed.
Lemma hex_decode_pairs_spec s l : hex_decode_pairs s = Some l <-> hex_text s l.
Proof.
  revert l. induction s as [|a|a b s IH] using pair_ind; intros l; cbn [hex_decode_pairs].
  - split; [intros H; injection H as <-; constructor|inversion 1; reflexivity].
  - split; [discriminate|inversion 1].
  - split.
    + destruct (hex_val a) as [x|] eqn:Ea; [|discriminate]. destruct (hex_val b) as [y|] eqn:Eb; [|discriminate].
      destruct (hex_decode_pairs s) as [r|]; [|discriminate]. intros H. injection H as <-.
      apply hex_val_spec in Ea, Eb. econstructor; eauto; [|now apply IH].
      pose proof (hex_digit_bound Ea). pose proof (hex_digit_bound Eb). rewrite to_N_small; lia.
    + inversion 1 as [|? x ? y ? o ? Ha Hb Ho Hs]; subst. pose proof (hex_digit_bound Ha). pose proof (hex_digit_bound Hb).
      apply hex_val_spec in Ha, Hb. apply IH in Hs. rewrite Ha, Hb, Hs. f_equal. f_equal.
      replace (x * 16 + y) with (Byte.to_N o) by lia. apply byte_of_to_N.
Qed.
Lemma hex_decode_spec s l : hex_decode s = Ok l <-> hex_text s l.
Proof.
  rewrite <- hex_decode_pairs_spec. unfold hex_decode. destruct (hex_decode_pairs s); split; congruence.
Qed.
Lemma hex_decode_cases s : (exists l, hex_decode s = Ok l) \/ hex_decode s = Err HexErr.
Proof. unfold hex_decode. destruct (hex_decode_pairs s); eauto. Qed.
Lemma hex_text_length s l : hex_text s l -> length s = (2 * length l)%nat.
Proof. induction 1; cbn [List.length]; lia. Qed.

Lemma strict_exact A (n : N) (f : list byte -> A) s v :
  (do hex <- hex_decode s; if len hex =? n then Ok (f hex) else Err InvalidData) = Ok v <->
  exists b, hex_text s b /\ len b = n /\ v = f b.
Proof.
  split.
  - intros E. apply bind_ok in E as (b & E1 & E). apply hex_decode_spec in E1. destruct (N.eqb_spec (len b) n); [|discriminate].
    injection E as <-. eauto.
  - intros (b & H & <- & ->). apply hex_decode_spec in H. rewrite H. cbn [bind]. now rewrite N.eqb_refl.
Qed.
Lemma copy_id A n (b : list A) : len b = n -> copy_from_slice n b = Ok b.
Proof. intros <-. unfold copy_from_slice. now rewrite N.eqb_refl. Qed.
Lemma strict_address_eq s : strict_address s = do hex <- hex_decode s; if len hex =? 20 then Ok hex else Err InvalidData.
Proof.
  unfold strict_address. destruct (hex_decode s) as [b| |]; cbn [bind]; try reflexivity.
  destruct (N.eqb_spec (len b) 20) as [E|]; [now apply copy_id|reflexivity].
Qed.
Lemma strict_uint_eq s : strict_uint s = do hex <- hex_decode s; if len hex =? 32 then Ok hex else Err InvalidData.
Proof.
  unfold strict_uint. destruct (hex_decode s) as [b| |]; cbn [bind]; try reflexivity.
  destruct (N.eqb_spec (len b) 32) as [E|]; [now apply copy_id|reflexivity].
Qed.
Lemma rmap_bind A B C (f : B -> C) (r : res A) (k : A -> res B) : rmap f (bind r k) = do a <- r; rmap f (k a).
Proof. unfold rmap. destruct r; reflexivity. Qed.
Lemma rmap_ok A B (f : A -> B) r v : rmap f r = Ok v <-> exists a, r = Ok a /\ v = f a.
Proof.
  unfold rmap. destruct r; cbn; split; try discriminate.
  - intros H. injection H as <-. eauto.
  - intros (x & H & ->). now injection H as <-.
  - intros (x & H & _). discriminate.
  - intros (x & H & _). discriminate.
Qed.
Lemma strict_hex : forall s v,
  (tokenize StrictTokenizer PAddress s = Ok v <-> exists b, hex_text s b /\ len b = 20 /\ v = TAddress b) /\
  (tokenize StrictTokenizer PBytes s = Ok v <-> exists b, hex_text s b /\ v = TBytes b) /\
  (forall n, tokenize StrictTokenizer (PFixedBytes n) s = Ok v <-> exists b, hex_text s b /\ len b = n /\ v = TFixedBytes b) /\
  (forall n, tokenize StrictTokenizer (PUint n) s = Ok v <-> exists b, hex_text s b /\ len b = 32 /\ v = TUint (of_be b)) /\
  (forall n, tokenize StrictTokenizer (PInt n) s = Ok v <-> exists b, hex_text s b /\ len b = 32 /\ v = TInt (of_be b)).
Proof.
  assert (K : forall A B n (f : list byte -> A) (g : A -> B) s v, 
    rmap g (do hex <- hex_decode s; if len hex =? n then Ok (f hex) else Err InvalidData) = Ok v <->
    exists b, hex_text s b /\ len b = n /\ v = g (f b)).
  { intros A B n f g s v. rewrite rmap_ok. split.
    - intros (a & E & ->). apply strict_exact in E as (b & ? & ? & ->). eauto.
    - intros (b & H & L & ->). exists (f b). split; [|reflexivity]. apply strict_exact. eauto. }
  intros s v. cbn [tokenize StrictTokenizer Tokenizer.tokenize_address Tokenizer.tokenize_bytes Tokenizer.tokenize_fixed_bytes Tokenizer.tokenize_uint Tokenizer.tokenize_int].
  unfold strict_int. rewrite strict_address_eq, strict_uint_eq. repeat split; try apply (K _ _ _ (fun b => b)).
  - unfold strict_bytes. intros H. apply rmap_ok in H as (b & E & ->). apply hex_decode_spec in E. eauto.
  - unfold strict_bytes. intros (b & E & ->). apply hex_decode_spec in E. apply rmap_ok. eauto.
Qed.
(** ** Decimal *)
Lemma decimal_text_spec s n : decimal_text s n <-> forallb is_digit s = true /\ n = decimal_value s.
Proof. unfold decimal_text. rewrite digits_forall, numeral_fold. reflexivity. Qed.
Lemma from_dec_str_ok s n : decimal_text s n ->
  from_dec_str s = if n <? two256 then Ok n else Err (OtherErr (lit "Uint parse error: InvalidLength")).
Proof.
  intros H. apply decimal_text_spec in H as [D ->]. unfold from_dec_str.
  change (fun c => (48 <=? c) && (c <=? 57)) with is_digit. rewrite D.
  destruct (N.ltb_spec (decimal_value s) two256) as [L|L].
  - rewrite parse_digits_value; [f_equal; lia|assumption|lia].
  - rewrite parse_digits_big; [reflexivity|assumption|reflexivity|lia].
Qed.
Lemma strict_uint_err s : length s <> 64%nat -> exists e, strict_uint s = Err e.
Proof.
  intros L. rewrite strict_uint_eq. destruct (hex_decode_cases s) as [[b E]|E]; rewrite E; cbn [bind]; eauto.
  apply hex_decode_spec, hex_text_length in E. destruct (N.eqb_spec (len b) 32) as [B|]; eauto. unfold len in B. lia.
Qed.
Lemma strict_uint_minus s : exists e, strict_uint (45 :: s) = Err e.
Proof.
  rewrite strict_uint_eq. destruct (hex_decode_cases (45 :: s)) as [[b E]|E]; rewrite E; cbn [bind]; eauto.
  apply hex_decode_spec in E. inversion E as [|? x ? ? ? ? ? H]; subst. unfold hex_digit_value in H. lia.
Qed.
Lemma of_be_word n : n < two256 -> of_be (be_bytes 32 n) = n.
Proof. intros H. apply of_be_be_bytes_small. exact H. Qed.

Lemma lenient_decimal k s n : decimal_text s n -> length s <> 64%nat ->
  tokenize LenientTokenizer (PUint k) s =
    if n <? two256 then Ok (TUint n) else Err (OtherErr (lit "Uint parse error: InvalidLength")).
Proof.
  intros D L. cbn [tokenize LenientTokenizer Tokenizer.tokenize_uint]. unfold lenient_uint.
  destruct (strict_uint_err s L) as [e ->]. rewrite (from_dec_str_ok D).
  destruct (N.ltb_spec n two256) as [B|B]; [|reflexivity]. unfold rmap. cbn [bind]. now rewrite of_be_word.
Qed.
Lemma lenient_not_decimal k s : length s <> 64%nat -> (forall n, ~ decimal_text s n) ->
  tokenize LenientTokenizer (PUint k) s = Err (OtherErr (lit "Uint parse error: InvalidCharacter")).
Proof.
  intros L D. cbn [tokenize LenientTokenizer Tokenizer.tokenize_uint]. unfold lenient_uint.
  destruct (strict_uint_err s L) as [e ->]. unfold from_dec_str. change (fun c => (48 <=? c) && (c <=? 57)) with is_digit.
  destruct (forallb is_digit s) eqn:E; [|reflexivity]. exfalso. apply (D (decimal_value s)). now apply decimal_text_spec.
Qed.
Lemma max_int : (two256 - 1) / 2 = 2 ^ 255 - 1.
Proof. reflexivity. Qed.
Lemma drop_digits s : forallb is_digit s = true -> drop_while (fun c => c =? 45) s = s.
Proof.
  destruct s as [|c s]; [reflexivity|]. cbn [forallb drop_while]. unfold is_digit at 1. intros H.
  replace (c =? 45) with false by lia. reflexivity.
Qed.
Lemma digits_not_minus s : forallb is_digit s = true -> starts_with_char s 45 = false.
Proof. destruct s as [|c s]; [reflexivity|]. cbn. unfold is_digit at 1. lia. Qed.

Lemma lenient_signed k s z : signed_text s z -> length s <> 64%nat \/ (z < 0)%Z ->
  (in_int256 z = true -> tokenize LenientTokenizer (PInt k) s = Ok (TInt (twos_complement z))) /\
  (in_int256 z = false -> exists m, tokenize LenientTokenizer (PInt k) s = Err (OtherErr m)).
Proof.
  intros (ds & n & NE & D & H) L. cbn [tokenize LenientTokenizer Tokenizer.tokenize_int].
  pose proof D as D'. apply decimal_text_spec in D' as [Dg Dv].
  assert (T1 : (2 ^ 256 = 2 * 2 ^ 255)%Z) by reflexivity.
  assert (T2 : Z.of_N two256 = (2 ^ 256)%Z) by reflexivity.
  assert (T3 : Z.of_N (2 ^ 255) = (2 ^ 255)%Z) by reflexivity.
  assert (T4 : (0 < 2 ^ 255)%Z) by reflexivity.
  assert (OB : forall n, n < two256 -> of_be (be_bytes 32 n) = n) by apply of_be_word.
  pose proof (from_dec_str_ok D) as FD.
  unfold lenient_int, strict_int, in_int256, twos_complement. rewrite max_int.
  set (q := (2 ^ 255)%Z) in *. set (q2 := (2 ^ 256)%Z) in *. set (m := 2 ^ 255) in *. set (m2 := two256) in *.
  clearbody q q2 m m2.
  destruct H as [[-> ->]|[-> ->]].
  - destruct (strict_uint_err ds) as [e E]; [lia|]. rewrite E. rewrite drop_digits by assumption.
    rewrite FD, digits_not_minus by assumption. unfold rmap.
    destruct (N.ltb_spec n m2) as [B|B]; cbn [bind].
    + destruct (N.ltb_spec (m - 1) n) as [B'|B']; cbn [bind].
      * split; intros I; [lia|eauto].
      * split; intros I; [|lia]. rewrite OB by assumption. rewrite Z.mod_small by lia. now rewrite N2Z.id.
    + split; intros I; [lia|eauto].
  - destruct (strict_uint_minus ds) as [e E]. rewrite E. cbn [drop_while]. change (45 =? 45) with true. cbv iota.
    rewrite drop_digits by assumption. change (starts_with_char (45 :: ds) 45) with true. cbv iota.
    rewrite FD. unfold rmap.
    destruct (N.ltb_spec n m2) as [B|B]; cbn [bind].
    + destruct (N.eqb_spec n 0) as [->|NZ]; cbn [bind].
      * split; intros I; [|lia]. rewrite OB by lia. reflexivity.
      * replace (m - 1 + 1) with m by lia. destruct (N.ltb_spec m n) as [B'|B']; cbn [bind].
        -- split; intros I; [lia|eauto].
        -- split; intros I; [|lia]. rewrite OB by lia. f_equal. f_equal.
           replace (- Z.of_N n)%Z with (q2 - Z.of_N n + (-1) * q2)%Z by lia. rewrite Z.mod_add by lia.
           rewrite Z.mod_small by lia. lia.
    + split; intros I; [lia|eauto].
Qed.

(** ** Lenient extends strict *)
Section Extend.
Context {St St' : Type} (next : St -> str -> res (Token * St)) (next' : St' -> str -> res (Token * St')).
Context (R : St -> St' -> Prop) (op cl : char) (value : str).
Context (Hnext : forall s s' sub tok q, R s s' -> next s sub = Ok (tok, q) -> exists q', next' s' sub = Ok (tok, q') /\ R q q').
Lemma take_item_extend s ps ps' n pos r q : R ps ps' -> take_item next value s ps n pos = Ok (r, q) ->
  exists q', take_item next' value s ps' n pos = Ok (r, q') /\ R q q'.
Proof.
  intros H E. unfold take_item in *. apply bind_ok in E as (sub & -> & E). apply bind_ok in E as ([tok q1] & E1 & E).
  injection E as <- <-. destruct (Hnext H E1) as (q' & E' & HR). cbn [bind]. rewrite E'. cbn [bind]. eauto.
Qed.
Lemma token_char_extend s ps ps' pos ch r q : R ps ps' -> token_char next op cl value s ps pos ch = Ok (r, q) ->
  exists q', token_char next' op cl value s ps' pos ch = Ok (r, q') /\ R q q'.
Proof.
  intros H E. unfold token_char in *.
  destruct (_ && _); [injection E as <- <-; eauto|].
  destruct ((ch =? cl) && _).
  { cbv zeta in *. destruct (_ <? 0)%Z; [discriminate|]. destruct (_ =? 0)%Z; [eapply take_item_extend; eauto|injection E as <- <-; eauto]. }
  destruct (ch =? ch_quote); [injection E as <- <-; eauto|].
  destruct (_ && _ && _); [eapply take_item_extend; eauto|injection E as <- <-; eauto].
Qed.
Lemma token_loop_extend rest : forall pos s ps ps' r, R ps ps' -> token_loop next op cl value rest pos s ps = Ok r ->
  token_loop next' op cl value rest pos s ps' = Ok r.
Proof.
  induction rest as [|ch rest IH]; intros pos s ps ps' r H E; cbn [token_loop] in *; [exact E|].
  apply bind_ok in E as ([s1 q] & E1 & E). destruct (@token_char_extend s ps ps' pos ch s1 q H E1) as (q' & E' & HR). rewrite E'. cbn [bind]. eauto.
Qed.
Lemma tokenize_items_extend ps ps' r : R ps ps' -> tokenize_items next op cl value ps = Ok r ->
  tokenize_items next' op cl value ps' = Ok r.
Proof.
  intros H E. unfold tokenize_items in *. destruct (_ || _); [discriminate|]. destruct (len value =? 2); [exact E|].
  apply bind_ok in E as (s & E1 & E). rewrite (@token_loop_extend value 0 (mkT [] 0 false 1) ps ps' s H E1). exact E.
Qed.
End Extend.

Lemma next_element_extend (f g : str -> res Token) : (forall s v, f s = Ok v -> g s = Ok v) ->
  forall (s s' : unit) sub tok q, True -> next_element f s sub = Ok (tok, q) -> exists q', next_element g s' sub = Ok (tok, q') /\ True.
Proof.
  intros H s s' sub tok q _ E. unfold next_element in *. apply bind_ok in E as (v & E1 & E). injection E as <- <-.
  rewrite (H _ _ E1). exists tt. auto.
Qed.
Definition extends (f g : str -> res Token) : Prop := forall s v, f s = Ok v -> g s = Ok v.
Lemma next_field_extend s s' sub tok q : Forall2 extends s s' ->
  next_field s sub = Ok (tok, q) -> exists q', next_field s' sub = Ok (tok, q') /\ Forall2 extends q q'.
Proof.
  intros H E. destruct H as [|f g s s' Hfg H]; [discriminate|]. cbn [next_field] in *.
  apply bind_ok in E as (v & E1 & E). injection E as <- <-. rewrite (Hfg _ _ E1). cbn [bind]. eauto.
Qed.
Lemma lenient_extends t : forall s v, tokenize StrictTokenizer t s = Ok v -> tokenize LenientTokenizer t s = Ok v.
Proof.
  induction t using ParamType_ind'; intros s v E; try exact E.
  - cbn [tokenize StrictTokenizer LenientTokenizer Tokenizer.tokenize_int] in *. unfold lenient_int.
    apply rmap_ok in E as (b & E & ->). unfold strict_int in *. rewrite E. reflexivity.
  - cbn [tokenize StrictTokenizer LenientTokenizer Tokenizer.tokenize_uint] in *. unfold lenient_uint.
    apply rmap_ok in E as (b & E & ->). rewrite E. reflexivity.
  - cbn [tokenize] in *. apply rmap_ok in E as (l & E & ->). apply rmap_ok. exists l. split; [|reflexivity].
    revert E. apply tokenize_items_extend with (R := fun _ _ => True); [|exact I].
    apply next_element_extend. exact IHt.
  - cbn [tokenize] in *. apply rmap_ok in E as (l & E & ->). apply rmap_ok. exists l. split; [|reflexivity].
    apply bind_ok in E as (r & E1 & E).
    rewrite (@tokenize_items_extend _ _ (next_element (tokenize StrictTokenizer t)) (next_element (tokenize LenientTokenizer t))
      (fun _ _ => True) 91 93 s (next_element_extend _ _ IHt) tt tt r I E1). exact E.
  - cbn [tokenize] in *. apply rmap_ok in E as (l & E & ->). apply rmap_ok. exists l. split; [|reflexivity].
    revert E. apply tokenize_items_extend with (R := Forall2 extends); [intros; eapply next_field_extend; eauto|].
    clear -H. induction H; cbn [map]; constructor; auto.
Qed.

(** ** Types of the results *)
Section Invariant.
Context {St : Type} (next : St -> str -> res (Token * St)) (op cl : char) (value : str).
Context (Inv : list Token -> St -> Prop).
Context (Hnext : forall acc ps sub tok q, (exists i j, str_slice value i j = Ok sub) ->
  Inv acc ps -> next ps sub = Ok (tok, q) -> Inv (tok :: acc) q).
Lemma take_item_inv s ps n pos r q : Inv (tk_result s) ps -> take_item next value s ps n pos = Ok (r, q) -> Inv (tk_result r) q.
Proof.
  intros H E. unfold take_item in E. apply bind_ok in E as (sub & E0 & E). apply bind_ok in E as ([tok q1] & E1 & E).
  injection E as <- <-. cbn [tk_result]. eapply Hnext; eauto.
Qed.
Lemma token_char_inv s ps pos ch r q : Inv (tk_result s) ps -> token_char next op cl value s ps pos ch = Ok (r, q) -> Inv (tk_result r) q.
Proof.
  intros H E. unfold token_char in *.
  destruct (_ && _); [injection E as <- <-; exact H|].
  destruct ((ch =? cl) && _).
  { cbv zeta in *. destruct (_ <? 0)%Z; [discriminate|]. destruct (_ =? 0)%Z; [eapply take_item_inv; eauto|injection E as <- <-; exact H]. }
  destruct (ch =? ch_quote); [injection E as <- <-; exact H|].
  destruct (_ && _ && _); [eapply take_item_inv; eauto|injection E as <- <-; exact H].
Qed.
Lemma token_loop_inv rest : forall pos s ps r, Inv (tk_result s) ps -> token_loop next op cl value rest pos s ps = Ok r ->
  exists q, Inv (tk_result r) q.
Proof.
  induction rest as [|ch rest IH]; intros pos s ps r H E; cbn [token_loop] in *; [injection E as <-; eauto|].
  apply bind_ok in E as ([s1 q] & E1 & E). eapply IH; [|exact E]. eapply token_char_inv; eauto.
Qed.
Lemma tokenize_items_inv ps r : Inv [] ps -> tokenize_items next op cl value ps = Ok r -> exists q, Inv (rev r) q.
Proof.
  intros H E. unfold tokenize_items in *. destruct (_ || _); [discriminate|]. destruct (len value =? 2); [injection E as <-; eauto|].
  apply bind_ok in E as (s & E1 & E). destruct (tk_ignore s); [discriminate|]. injection E as <-. rewrite rev_involutive.
  eapply token_loop_inv; [|exact E1]. exact H.
Qed.
End Invariant.

Lemma slice_wf s i j m : str_slice s i j = Ok m -> wf_str s = true -> wf_str m = true.
Proof.
  intros E W. apply str_slice_ok in E as (a & b & -> & _). unfold wf_str in *. rewrite !forallb_app in W.
  apply andb_true_iff in W as [_ W]. now apply andb_true_iff in W as [W _].
Qed.
Lemma elements_typed T t (Q : Token -> Prop) value r :
  (forall sub v, wf_str sub = true -> tokenize T t sub = Ok v -> Q v) -> wf_str value = true ->
  tokenize_items (next_element (tokenize T t)) 91 93 value tt = Ok r -> Forall Q r.
Proof.
  intros H W E. apply tokenize_items_inv with (Inv := fun l _ => Forall Q l) in E as [_ E].
  - apply Forall_rev in E. now rewrite rev_involutive in E.
  - intros acc ps sub tok q (i & j & S) F E'. unfold next_element in E'. apply bind_ok in E' as (v & E1 & E'). injection E' as <- <-.
    constructor; [|exact F]. eapply H; [|exact E1]. eapply slice_wf; eauto.
  - constructor.
Qed.
Lemma fields_typed T ts (Q : ParamType -> Token -> Prop) value r :
  Forall (fun t => forall sub v, wf_str sub = true -> tokenize T t sub = Ok v -> Q t v) ts -> wf_str value = true ->
  tokenize_items next_field 40 41 value (map (tokenize T) ts) = Ok r ->
  exists used rest, ts = used ++ rest /\ Forall2 Q used r.
Proof.
  intros H W E.
  apply tokenize_items_inv with (Inv := fun l ps => exists used rest, ts = used ++ rest /\ ps = map (tokenize T) rest /\ Forall2 Q used (rev l)) in E
    as (_ & used & rest & E1 & _ & E2).
  - rewrite rev_involutive in E2. eauto.
  - intros acc ps sub tok q (i & j & S) (used & rest & E1 & -> & F) E'. destruct rest as [|t rest]; [discriminate|]. cbn [map next_field] in E'.
    apply bind_ok in E' as (v & Ev & E'). injection E' as <- <-. exists (used ++ [t]), rest.
    split; [rewrite <- app_assoc; exact E1|]. split; [reflexivity|]. cbn [rev]. apply Forall2_app; [exact F|]. constructor; [|constructor].
    rewrite Forall_forall in H. apply (H t) with (sub := sub); [rewrite E1; apply in_or_app; right; now left| |exact Ev].
    eapply slice_wf; eauto.
  - exists [], ts. repeat split. constructor.
Qed.

Definition good_tokenizer (T : Tokenizer) : Prop := forall s,
  wf_str s = true ->
  (forall v, tokenize_address T s = Ok v -> len v = 20) /\
  (forall v, tokenize_string T s = Ok v -> wf_str v = true) /\
  (forall n v, tokenize_fixed_bytes T s n = Ok v -> len v = n) /\
  (forall v, tokenize_uint T s = Ok v -> len v = 32) /\
  (forall v, tokenize_int T s = Ok v -> len v = 32).
Lemma strict_good : good_tokenizer StrictTokenizer.
Proof.
  intros s W. cbn [StrictTokenizer Tokenizer.tokenize_address Tokenizer.tokenize_string Tokenizer.tokenize_fixed_bytes Tokenizer.tokenize_uint Tokenizer.tokenize_int].
  unfold strict_int, strict_string. rewrite strict_address_eq, strict_uint_eq. unfold strict_fixed_bytes.
  assert (K : forall n v, (do hex <- hex_decode s; if len hex =? n then Ok hex else Err InvalidData) = Ok v -> len v = n).
  { intros n v E. apply (strict_exact n (fun b => b)) in E as (b & _ & L & ->). exact L. }
  repeat split; eauto. congruence.
Qed.
Lemma ok_word n v : Ok (be_bytes 32 n) = Ok v -> len v = 32.
Proof.
  intros E. assert (v = be_bytes 32 n) as -> by congruence. unfold len. now rewrite be_bytes_length.
Qed.
Lemma lenient_good : good_tokenizer LenientTokenizer.
Proof.
  intros s W. destruct (strict_good s W) as (H1 & H2 & H3 & H4 & H5).
  cbn [LenientTokenizer StrictTokenizer Tokenizer.tokenize_address Tokenizer.tokenize_string Tokenizer.tokenize_fixed_bytes Tokenizer.tokenize_uint Tokenizer.tokenize_int] in *.
  repeat split; auto.
  - intros v. unfold lenient_uint. destruct (strict_uint s) eqn:E; [intros X; injection X as <-; now apply H4| |discriminate].
    intros X. apply bind_ok in X as (n & _ & X). exact (ok_word X).
  - intros v. unfold lenient_int. destruct (strict_int s) eqn:E; [intros X; injection X as <-; now apply H5| |discriminate].
    intros X. apply bind_ok in X as (n & _ & X).
    repeat match type of X with (if ?b then _ else _) = _ => destruct b end; try discriminate; exact (ok_word X).
Qed.
Lemma of_be_bound l : len l = 32 -> of_be l < two256.
Proof.
  intros L. pose proof (of_be_lt l) as H. now rewrite L in H.
Qed.
Section Typed.
Context (T : Tokenizer) (G : good_tokenizer T).
Lemma tokenize_loose t : forall s v, wf_str s = true -> tokenize T t s = Ok v -> typed_prefix v t = true.
Proof.
  induction t using ParamType_ind'; intros s v W E; cbn [tokenize] in E; apply rmap_ok in E as (x & E & ->);
    destruct (G s W) as (G1 & G2 & G3 & G4 & G5); cbn [typed_prefix]; auto.
  - apply G1 in E. lia.
  - apply G5, of_be_bound in E. apply N.ltb_lt. exact E.
  - apply G4, of_be_bound in E. apply N.ltb_lt. exact E.
  - apply elements_typed with (Q := fun v => typed_prefix v t = true) in E; auto.
    rewrite forallb_forall. now rewrite Forall_forall in E.
  - apply G3 in E. lia.
  - apply bind_ok in E as (r & E & E'). destruct (N.eqb_spec (len r) n) as [L|]; [|discriminate]. injection E' as <-.
    apply elements_typed with (Q := fun v => typed_prefix v t = true) in E; auto.
    rewrite andb_true_iff, N.eqb_eq, forallb_forall. rewrite Forall_forall in E. auto.
  - apply fields_typed with (Q := fun t v => typed_prefix v t = true) in E as (used & rest & E1 & F); auto.
    subst ts. clear H G1 G2 G3 G4 G5. induction F as [|t v used r F1 F IH]; [reflexivity|].
    cbn [app]. rewrite F1. exact IH.
Qed.
Lemma tokenize_typed t : tuple_free t = true -> forall s v, wf_str s = true -> tokenize T t s = Ok v -> has_type v t = true.
Proof.
  induction t using ParamType_ind'; intros TF s v W E; cbn [tokenize] in E; apply rmap_ok in E as (x & E & ->);
    destruct (G s W) as (G1 & G2 & G3 & G4 & G5); cbn [has_type]; auto; try discriminate.
  - apply G1 in E. lia.
  - apply G5, of_be_bound in E. apply N.ltb_lt. exact E.
  - apply G4, of_be_bound in E. apply N.ltb_lt. exact E.
  - apply elements_typed with (Q := fun v => has_type v t = true) in E; auto; [|intros; eapply IHt; eauto].
    rewrite forallb_forall. now rewrite Forall_forall in E.
  - apply G3 in E. lia.
  - apply bind_ok in E as (r & E & E'). destruct (N.eqb_spec (len r) n) as [L|]; [|discriminate]. injection E' as <-.
    apply elements_typed with (Q := fun v => has_type v t = true) in E; auto; [|intros; eapply IHt; eauto].
    rewrite andb_true_iff, N.eqb_eq, forallb_forall. rewrite Forall_forall in E. auto.
Qed.
End Typed.

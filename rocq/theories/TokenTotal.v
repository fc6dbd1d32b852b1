(** * The tokenizers do not panic on ASCII text, and read displayed values back *)
From Verif Require Import Base Types AbiSpec TypeNamesSpec Tokenizer TokenSpec BaseFacts StrFacts TypeNamesFacts ReaderFacts ReaderTotal CodecLemmas FunctionFacts TokenFacts.
From Coq Require Import String.
From Coq Require Import ZifyBool ZifyNat ZifyN.
Set Implicit Arguments.
Local Open Scope N_scope.
Local Open Scope list_scope.
Notation length := List.length.

(** ** No panic *)
Lemma tokenize_items_start St (next : St -> str -> res (Token * St)) op cl v0 rest ps : v0 = op ->
  token_loop next op cl (v0 :: rest) (v0 :: rest) 0 (mkT [] 0 false 1) ps =
  token_loop next op cl (v0 :: rest) rest 1 (mkT [] 1 false 1) ps.
Proof. intros ->. cbn [token_loop]. unfold token_char at 1. rewrite N.eqb_refl. reflexivity. Qed.
Section NoPanic.
Context {St : Type} (next : St -> str -> res (Token * St)) (op cl : char) (value : str).
Context (A : all_ascii value = true) (OK : St -> Prop).
Context (Hnext : forall ps sub, all_ascii sub = true -> OK ps -> next ps sub <> Panic).
Context (Hpres : forall ps sub tok q, OK ps -> next ps sub = Ok (tok, q) -> OK q).
Lemma take_item_panic s ps n pos : tk_last_item s <= pos -> pos <= len value -> OK ps -> take_item next value s ps n pos <> Panic.
Proof.
  intros L P O E. unfold take_item in E. rewrite slice_is in E by assumption. cbn [bind] in E.
  apply bind_panic in E as [E|([] & _ & E)]; [|discriminate]. revert E. apply Hnext; [now apply all_ascii_sub|exact O].
Qed.
Lemma take_item_last s ps n pos r q : OK ps -> take_item next value s ps n pos = Ok (r, q) -> tk_last_item r <= pos + 1 /\ OK q.
Proof.
  intros O E. unfold take_item in E. apply bind_ok in E as (sub & _ & E). apply bind_ok in E as ([tok q1] & E1 & E). injection E as <- <-.
  split; [cbn [tk_last_item]; lia|eauto].
Qed.
Lemma token_char_panic s ps pos ch : tk_last_item s <= pos -> pos < len value -> OK ps -> token_char next op cl value s ps pos ch <> Panic.
Proof.
  intros L P O. unfold token_char. destruct (_ && _); [discriminate|]. destruct ((ch =? cl) && _).
  { cbv zeta. destruct (_ <? 0)%Z; [discriminate|]. destruct (_ =? 0)%Z; [apply take_item_panic; auto; lia|discriminate]. }
  destruct (ch =? ch_quote); [discriminate|]. destruct (_ && _ && _); [apply take_item_panic; auto; lia|discriminate].
Qed.
Lemma token_char_last s ps pos ch r q : tk_last_item s <= pos -> OK ps -> token_char next op cl value s ps pos ch = Ok (r, q) ->
  tk_last_item r <= pos + 1 /\ OK q.
Proof.
  intros L O E. unfold token_char in E. destruct (_ && _); [injection E as <- <-; cbn [tk_last_item]; split; [lia|exact O]|].
  destruct ((ch =? cl) && _).
  { cbv zeta in E. destruct (_ <? 0)%Z; [discriminate|].
    destruct (_ =? 0)%Z; [eapply take_item_last; eauto|injection E as <- <-; cbn [tk_last_item]; split; [lia|exact O]]. }
  destruct (ch =? ch_quote); [injection E as <- <-; cbn [tk_last_item]; split; [lia|exact O]|].
  destruct (_ && _ && _); [eapply take_item_last; eauto|injection E as <- <-; split; [lia|exact O]].
Qed.
Lemma token_loop_panic rest : forall pos s ps, tk_last_item s <= pos -> pos + len rest <= len value -> OK ps ->
  token_loop next op cl value rest pos s ps <> Panic.
Proof.
  induction rest as [|ch rest IH]; intros pos s ps L P O; cbn [token_loop]; [discriminate|]. unfold len in P. cbn [List.length] in P.
  intros E. apply bind_panic in E as [E|([s1 q] & E1 & E)].
  - revert E. apply token_char_panic; auto; unfold len; lia.
  - apply token_char_last in E1 as [E1 O']; auto. revert E. apply IH; auto; unfold len; lia.
Qed.
Lemma tokenize_items_panic ps : OK ps -> tokenize_items next op cl value ps <> Panic.
Proof.
  intros O. unfold tokenize_items. destruct (_ || _) eqn:E0; [discriminate|]. destruct (len value =? 2); [discriminate|].
  intros E. apply bind_panic in E as [E|(s & _ & E)]; [|destruct (tk_ignore s); discriminate].
  pose proof token_loop_panic as K. destruct value as [|v0 rest] eqn:V; [discriminate|]. cbn [starts_with_char] in E0.
  rewrite tokenize_items_start in E by lia.
  revert E. apply K; [cbn; lia| |exact O]. unfold len. cbn [List.length]. lia.
Qed.
End NoPanic.

Definition calm (T : Tokenizer) : Prop := forall s,
  tokenize_address T s <> Panic /\ tokenize_string T s <> Panic /\ tokenize_bool T s <> Panic /\ tokenize_bytes T s <> Panic /\
  (forall n, tokenize_fixed_bytes T s n <> Panic) /\ tokenize_uint T s <> Panic /\ tokenize_int T s <> Panic.
Lemma exact_calm n s : (do hex <- hex_decode s; if len hex =? n then Ok hex else Err InvalidData) <> Panic.
Proof. destruct (hex_decode_cases s) as [[l ->]| ->]; cbn [bind]; [destruct (_ =? _)|]; discriminate. Qed.
Lemma strict_calm : calm StrictTokenizer.
Proof.
  intros s. cbn [StrictTokenizer Tokenizer.tokenize_address Tokenizer.tokenize_string Tokenizer.tokenize_bool Tokenizer.tokenize_bytes Tokenizer.tokenize_fixed_bytes Tokenizer.tokenize_uint Tokenizer.tokenize_int].
  unfold strict_int, strict_string, strict_bytes, strict_bool, strict_fixed_bytes. rewrite strict_address_eq, strict_uint_eq.
  repeat split; try apply exact_calm; try discriminate.
  - now repeat destruct (_ || _).
  - destruct (hex_decode_cases s) as [[l ->]| ->]; discriminate.
  - intros n. apply exact_calm.
Qed.
Lemma from_dec_str_calm s : from_dec_str s <> Panic.
Proof. unfold from_dec_str. destruct (forallb _ s); [|discriminate]. destruct (parse_digits _ _ _); discriminate. Qed.
Lemma lenient_calm : calm LenientTokenizer.
Proof.
  intros s. destruct (strict_calm s) as (H1 & H2 & H3 & H4 & H5 & H6 & H7).
  cbn [LenientTokenizer StrictTokenizer Tokenizer.tokenize_address Tokenizer.tokenize_string Tokenizer.tokenize_bool Tokenizer.tokenize_bytes Tokenizer.tokenize_fixed_bytes Tokenizer.tokenize_uint Tokenizer.tokenize_int] in *.
  repeat split; auto.
  - unfold lenient_uint. destruct (strict_uint s); try discriminate; [|auto].
    intros E. apply bind_panic in E as [E|(n & _ & E)]; [now apply from_dec_str_calm in E|discriminate].
  - unfold lenient_int. destruct (strict_int s); try discriminate; [|auto].
    intros E. apply bind_panic in E as [E|(n & _ & E)]; [now apply from_dec_str_calm in E|].
    repeat match type of E with (if ?b then _ else _) = _ => destruct b end; discriminate.
Qed.
Lemma rmap_panic A B (f : A -> B) r : r <> Panic -> rmap f r <> Panic.
Proof. unfold rmap. destruct r; cbn [bind]; congruence. Qed.
Lemma scalar_calm T t s : calm T -> scalar t = true -> tokenize T t s <> Panic.
Proof. intros C H. destruct (C s) as (H1 & H2 & H3 & H4 & H5 & H6 & H7). destruct t; try discriminate; cbn [tokenize]; apply rmap_panic; auto. Qed.
Lemma next_element_calm f (u : unit) sub : f sub <> Panic -> next_element f u sub <> Panic.
Proof. intros H E. unfold next_element in E. apply bind_panic in E as [E|(x & _ & E)]; [auto|discriminate]. Qed.
Lemma tokenize_calm T : calm T -> forall t s, all_ascii s = true -> tokenize T t s <> Panic.
Proof.
  intros C. induction t using ParamType_ind'; intros s A; try (apply scalar_calm; [exact C|reflexivity]); cbn [tokenize]; apply rmap_panic.
  - apply tokenize_items_panic with (OK := fun _ => True); auto. intros ps sub As _. apply next_element_calm. auto.
  - intros E. apply bind_panic in E as [E|(r & _ & E)]; [|destruct (_ =? _); discriminate]. revert E.
    apply tokenize_items_panic with (OK := fun _ => True); auto. intros ps sub As _. apply next_element_calm. auto.
  - apply tokenize_items_panic with (OK := Forall (fun f => forall sub, all_ascii sub = true -> f sub <> Panic)).
    + exact A.
    + intros ps sub As F E. destruct F as [|f ps Hf F]; [discriminate|]. cbn [next_field] in E.
      apply bind_panic in E as [E|(x & _ & E)]; [|discriminate]. now apply Hf in E.
    + intros ps sub tok q F E. destruct F as [|f ps Hf F]; [discriminate|]. cbn [next_field] in E.
      apply bind_ok in E as (x & _ & E). now injection E as _ <-.
    + apply Forall_map. exact H.
Qed.

(** ** Reading separated items *)
Section Items.
Context {St : Type} (next : St -> str -> res (Token * St)) (op cl : char) (value : str).
Context (N1 : op <> cl) (N2 : op <> 34) (N3 : op <> 44) (N4 : cl <> 34) (N5 : cl <> 44).
Lemma loop_item s : forall q d rest pos result last ps, separable op cl q d s = true ->
  token_loop next op cl value (s ++ rest) pos (mkT result (1 + Z.of_nat d) q last) ps =
  token_loop next op cl value rest (pos + len s) (mkT result 1 false last) ps.
Proof.
  induction s as [|c s IH]; intros q d rest pos result last ps Sp; cbn [separable] in Sp.
  - destruct q, d; try discriminate. cbn [app]. f_equal. unfold len. cbn [List.length]. lia.
  - replace (pos + len (c :: s)) with (pos + 1 + len s) by (unfold len; cbn [List.length]; lia).
    cbn [app token_loop]. unfold token_char. cbn [tk_result tk_nested tk_ignore tk_last_item]. unfold ch_quote.
    destruct (N.eqb_spec c 34) as [->|].
    { destruct (N.eqb_spec 34 op); [congruence|]. destruct (N.eqb_spec 34 cl); [congruence|]. cbn [andb bind]. now apply IH. }
    destruct q; cbn [negb] in *; [rewrite !andb_false_r; cbn [bind]; now apply IH|]. rewrite !andb_true_r.
    destruct (N.eqb_spec c op) as [->|].
    { cbn [bind]. rewrite <- (IH _ _ rest (pos + 1) result last ps Sp). do 2 f_equal. lia. }
    destruct (N.eqb_spec c cl) as [->|].
    { destruct d as [|d]; [discriminate|]. cbv zeta. replace (1 + Z.of_nat (S d) - 1)%Z with (1 + Z.of_nat d)%Z by lia.
      replace (1 + Z.of_nat d <? 0)%Z with false by lia. replace (1 + Z.of_nat d =? 0)%Z with false by lia. cbn [bind]. now apply IH. }
    destruct (N.eqb_spec c 44) as [->|].
    { destruct d as [|d]; [discriminate|]. replace (1 + Z.of_nat (S d) =? 1)%Z with false by lia. cbn [andb bind]. now apply IH. }
    cbn [andb bind]. now apply IH.
Qed.
(** Reading [items] one after the other. *)
Fixpoint next_all (ps : St) (items : list str) : res (list Token) :=
  match items with
  | [] => Ok []
  | s :: items' => do (tok, ps') <- next ps s; do toks <- next_all ps' items'; Ok (tok :: toks)
  end.
Lemma next_all_cons ps s items :
  next_all ps (s :: items) = do (tok, ps') <- next ps s; do toks <- next_all ps' items; Ok (tok :: toks).
Proof. reflexivity. Qed.
Lemma loop_items items : forall pre result ps, items <> [] ->
  value = pre ++ join (lit ",") items ++ [cl] -> all_ascii value = true ->
  forallb (separable op cl false 0) items = true ->
  token_loop next op cl value (join (lit ",") items ++ [cl]) (len pre) (mkT result 1 false (len pre)) ps =
  do toks <- next_all ps items; Ok (mkT (rev toks ++ result) 0 false (len value)).
Proof.
  induction items as [|s items IH]; intros pre result ps NE V A Sp; [congruence|]. cbn [forallb] in Sp. apply andb_true_iff in Sp as [Sp Sp'].
  assert (Sl : forall a b, value = pre ++ s ++ a :: b -> str_slice value (len pre) (len pre + len s) = Ok s).
  { intros a b ->. unfold all_ascii in A. rewrite !forallb_app in A. apply andb_true_iff in A as [A1 A]. apply andb_true_iff in A as [A2 A].
    rewrite <- (str_len_ascii pre A1), <- (str_len_ascii s A2). apply str_slice_app. }
  destruct items as [|s' items].
  - cbn [join] in *. change 1%Z with (1 + Z.of_nat 0)%Z. rewrite loop_item by exact Sp. cbn [token_loop]. unfold token_char.
    cbn [tk_result tk_nested tk_ignore tk_last_item negb]. rewrite !andb_true_r, N.eqb_refl. destruct (N.eqb_spec cl op); [congruence|].
    cbv zeta. change (1 - 1 <? 0)%Z with false. change (1 - 1 =? 0)%Z with true. unfold take_item. cbn [tk_last_item].
    rewrite Sl with (a := cl) (b := []) by exact V. cbn [bind next_all].
    destruct (next ps s) as [[tok ps']|e|]; cbn [bind]; [|reflexivity|reflexivity]. cbn [rev app tk_result tk_ignore].
    do 2 f_equal. rewrite V. unfold len. rewrite !app_length. cbn [List.length]. lia.
  - rewrite join_cons2 in *. rewrite <- !app_assoc in *. change 1%Z with (1 + Z.of_nat 0)%Z at 1. rewrite loop_item by exact Sp.
    change (lit "," ++ join (lit ",") (s' :: items) ++ [cl]) with (44 :: join (lit ",") (s' :: items) ++ [cl]) in *.
    cbn [token_loop]. unfold token_char.
    cbn [tk_result tk_nested tk_ignore tk_last_item negb]. rewrite !andb_true_r. destruct (N.eqb_spec 44 op); [congruence|].
    destruct (N.eqb_spec 44 cl); [congruence|]. unfold ch_quote. change (44 =? 34) with false. change (44 =? 44) with true.
    change (1 =? 1)%Z with true. cbv iota. cbn [andb]. unfold take_item. cbn [tk_last_item].
    rewrite (Sl _ _ V), next_all_cons. cbn [bind].
    destruct (next ps s) as [[tok ps']|e|]; cbn [bind]; [|reflexivity|reflexivity]. cbn [tk_result tk_ignore].
    assert (P : len pre + len s + 1 = len (pre ++ s ++ [44])) by (unfold len; rewrite !app_length; cbn [List.length]; lia).
    rewrite P. rewrite IH; auto; [|discriminate|rewrite V, <- !app_assoc; reflexivity].
    destruct (next_all ps' (s' :: items)); cbn [bind]; [|reflexivity|reflexivity]. cbn [rev]. now rewrite <- app_assoc.
Qed.
End Items.

Lemma join_nil_inv (l : list str) : join (lit ",") l = [] -> l = [] \/ l = [[]].
Proof.
  destruct l as [|x [|y l]]; auto; [cbn [join]; intros ->; auto|]. rewrite join_cons2. intros H.
  apply app_eq_nil in H as [_ H]. discriminate.
Qed.
Lemma items_read St (next : St -> str -> res (Token * St)) op cl items ps :
  op <> cl -> op <> 34 -> op <> 44 -> cl <> 34 -> cl <> 44 -> is_ascii op = true -> is_ascii cl = true ->
  items_readable op cl items = true ->
  tokenize_items next op cl (op :: join (lit ",") items ++ [cl]) ps = next_all next ps items.
Proof.
  intros N1 N2 N3 N4 N5 Ao Ac R. unfold items_readable in R. apply andb_true_iff in R as [R1 R2].
  assert (R3 : forallb (separable op cl false 0) items = true /\ Forall (fun s => all_ascii s = true) items).
  { rewrite forallb_forall, Forall_forall. rewrite forallb_forall in R1. split; intros x I; apply R1, andb_true_iff in I; tauto. }
  destruct R3 as [R3 R4].
  unfold tokenize_items. cbn [starts_with_char]. rewrite N.eqb_refl. cbn [negb orb].
  unfold ends_with_char. rewrite app_comm_cons, last_char_app, N.eqb_refl. cbn [negb].
  destruct (N.eqb_spec (len ((op :: join (lit ",") items) ++ [cl])) 2) as [L|L].
  { unfold len in L. rewrite app_length in L. cbn [List.length] in L.
    assert (J : join (lit ",") items = []) by (apply length_zero_iff_nil; lia).
    apply join_nil_inv in J as [->| ->]; [reflexivity|discriminate]. }
  assert (NE : items <> []) by (intros ->; now apply L).
  cbn [app]. rewrite tokenize_items_start by reflexivity.
  pose proof (loop_items next (value := op :: join (lit ",") items ++ [cl]) N1 N2 N3 N4 N5 [op] [] ps NE) as H.
  change (len [op]) with 1 in H. rewrite H; auto.
  - destruct (next_all next ps items); cbn [bind]; [|reflexivity|reflexivity]. cbn [tk_ignore tk_result]. now rewrite app_nil_r, rev_involutive.
  - cbn [all_ascii forallb]. rewrite Ao. cbn [andb]. unfold all_ascii. rewrite forallb_app. cbn [forallb]. rewrite Ac, andb_true_r.
    apply join_forallb; [reflexivity|exact R4].
Qed.

(** ** Displayed scalars *)
Lemma hex_digit_val n : n < 16 -> hex_val (hex_digit n) = Some n.
Proof.
  intros H. unfold hex_digit, hex_val. destruct (N.ltb_spec n 10).
  - replace ((48 <=? 48 + n) && (48 + n <=? 57)) with true by lia. f_equal. lia.
  - replace ((48 <=? 87 + n) && (87 + n <=? 57)) with false by lia. replace ((97 <=? 87 + n) && (87 + n <=? 102)) with true by lia. f_equal. lia.
Qed.
Lemma hex_round b : hex_decode (hex_encode b) = Ok b.
Proof.
  unfold hex_decode. assert (H : hex_decode_pairs (hex_encode b) = Some b); [|now rewrite H].
  induction b as [|x b IH]; [reflexivity|]. unfold hex_encode in *. cbn [flat_map app hex_decode_pairs].
  pose proof (to_N_lt x). rewrite !hex_digit_val, IH by (try apply N.mod_lt; try apply N.div_lt_upper_bound; lia).
  do 2 f_equal. rewrite N.mul_comm, <- N.div_mod by discriminate. apply byte_of_to_N.
Qed.
Lemma show_hex_full n : 2 ^ 252 <= n -> n < two256 -> show_hex n = hex_encode (be_bytes 32 n).
Proof.
  intros H1 H2. unfold show_hex.
  destruct (be_bytes 32 n) as [|x l] eqn:E; [apply (f_equal (@List.length _)) in E; now rewrite be_bytes_length in E|].
  assert (L : List.length l = 31%nat) by (apply (f_equal (@List.length _)) in E; rewrite be_bytes_length in E; cbn [List.length] in E; lia).
  assert (V : n = Byte.to_N x * 256 ^ 31 + of_be l).
  { rewrite <- (of_be_word H2), E. change (x :: l) with ([x] ++ l). rewrite of_be_app, of_be_single. unfold len. now rewrite L. }
  pose proof (of_be_lt l) as B. unfold len in B. rewrite L in B. change (N.of_nat 31) with 31 in B.
  unfold hex_encode. cbn [flat_map app drop_while].
  assert (X : 16 <= Byte.to_N x).
  { change (2 ^ 252) with (16 * 256 ^ 31) in H1. set (q := 256 ^ 31) in *. clearbody q. nia. }
  assert (D : 1 <= Byte.to_N x / 16) by (apply N.div_le_lower_bound; lia).
  replace (hex_digit (Byte.to_N x / 16) =? 48) with false; [reflexivity|].
  unfold hex_digit. destruct (_ <? 10); lia.
Qed.

(** ** Displayed values *)
Lemma next_all_elements T t vs : Forall (fun v => tokenize T t (display v) = Ok v) vs ->
  next_all (next_element (tokenize T t)) tt (map display vs) = Ok vs.
Proof.
  induction 1 as [|v vs H F IH]; [reflexivity|]. cbn [map next_all]. unfold next_element at 1. rewrite H. cbn [bind]. rewrite IH. reflexivity.
Qed.
Lemma next_all_fields T ts vs : Forall2 (fun t v => tokenize T t (display v) = Ok v) ts vs ->
  next_all next_field (map (tokenize T) ts) (map display vs) = Ok vs.
Proof.
  induction 1 as [|t v ts vs H F IH]; [reflexivity|]. cbn [map next_all next_field]. rewrite H. cbn [bind]. rewrite IH. reflexivity.
Qed.
Lemma read_display t : forall v, has_type v t = true -> readable display v = true -> tokenize StrictTokenizer t (display v) = Ok v.
Proof.
  induction t using ParamType_ind'; intros v HT R; destruct v; try discriminate; cbn [has_type] in HT; cbn [readable] in R; cbn [tokenize display StrictTokenizer
    Tokenizer.tokenize_address Tokenizer.tokenize_string Tokenizer.tokenize_bool Tokenizer.tokenize_bytes Tokenizer.tokenize_fixed_bytes Tokenizer.tokenize_uint Tokenizer.tokenize_int].
  - rewrite strict_address_eq, hex_round. cbn [bind]. now rewrite HT.
  - unfold strict_bytes. now rewrite hex_round.
  - unfold strict_int. rewrite show_hex_full, strict_uint_eq, hex_round by lia. cbn [bind]. unfold len at 1. rewrite be_bytes_length.
    change (N.of_nat 32 =? 32) with true. unfold rmap. cbn [bind]. now rewrite of_be_word by lia.
  - rewrite show_hex_full, strict_uint_eq, hex_round by lia. cbn [bind]. unfold len at 1. rewrite be_bytes_length.
    change (N.of_nat 32 =? 32) with true. unfold rmap. cbn [bind]. now rewrite of_be_word by lia.
  - destruct b; reflexivity.
  - reflexivity.
  - apply andb_true_iff in R as [R1 R2]. change (lit "[" ++ join (lit ",") (map display vs) ++ lit "]") with (91 :: join (lit ",") (map display vs) ++ [93]).
    rewrite items_read by (auto; discriminate). rewrite next_all_elements; [reflexivity|].
    rewrite forallb_forall in *. rewrite Forall_forall. auto.
  - unfold strict_fixed_bytes. rewrite hex_round. cbn [bind]. now rewrite HT.
  - apply andb_true_iff in R as [R1 R2]. apply andb_true_iff in HT as [HL HT].
    change (lit "[" ++ join (lit ",") (map display vs) ++ lit "]") with (91 :: join (lit ",") (map display vs) ++ [93]).
    rewrite items_read by (auto; discriminate). rewrite next_all_elements; [|rewrite forallb_forall in *; rewrite Forall_forall; auto].
    cbn [bind]. now rewrite HL.
  - apply andb_true_iff in R as [R1 R2].
    change (lit "(" ++ join (lit ",") (map display vs) ++ lit ")") with (40 :: join (lit ",") (map display vs) ++ [41]).
    rewrite items_read by (auto; discriminate). rewrite next_all_fields; [reflexivity|].
    clear R1. revert vs HT R2. induction H as [|t ts Ht F IH]; intros vs HT R2; destruct vs as [|v vs]; try discriminate; constructor.
    + cbn [forallb] in R2. apply andb_true_iff in HT as [HT _], R2 as [R2 _]. auto.
    + cbn [forallb] in R2. apply andb_true_iff in HT as [_ HT], R2 as [_ R2]. auto.
Qed.

(** ** Nested leaves are always readable *)
Lemma separable_app op cl s : forall q k d r, separable op cl q k s = true -> separable op cl q (k + d) (s ++ r) = separable op cl false d r.
Proof.
  induction s as [|c s IH]; intros q k d r H; cbn [separable app] in *.
  - destruct q, k; try discriminate. reflexivity.
  - destruct (c =? 34); [exact (IH _ k d r H)|]. destruct q; [exact (IH _ k d r H)|].
    destruct (c =? op); [exact (IH _ (S k) d r H)|]. destruct (c =? cl).
    { destruct k as [|k]; [discriminate|]. exact (IH _ k d r H). }
    destruct (c =? 44).
    { destruct k as [|k]; [discriminate|]. exact (IH _ (S k) d r H). }
    now apply IH.
Qed.
Lemma separable_join op cl l r d : op <> 44 -> cl <> 44 -> forallb (separable op cl false 0) l = true ->
  separable op cl false (S d) (join (lit ",") l ++ r) = separable op cl false (S d) r.
Proof.
  intros N1 N2. induction l as [|x l IH]; [reflexivity|]. cbn [forallb]. intros H. apply andb_true_iff in H as [H1 H2].
  destruct l as [|y l]; [cbn [join]; exact (@separable_app op cl x false 0 (S d) r H1)|].
  rewrite join_cons2, <- !app_assoc. etransitivity; [exact (@separable_app op cl x false 0 (S d) _ H1)|].
  change (lit "," ++ join (lit ",") (y :: l) ++ r) with (44 :: join (lit ",") (y :: l) ++ r). cbn [separable].
  destruct (N.eqb_spec 44 op); [congruence|]. destruct (N.eqb_spec 44 cl); [congruence|].
  change (44 =? 34) with false. change (44 =? 44) with true. cbv iota. now apply IH.
Qed.

Definition alnum (c : char) : bool := ((48 <=? c) && (c <=? 57)) || ((97 <=? c) && (c <=? 122)).
Lemma separable_alnum op cl s : alnum op = false -> alnum cl = false -> forallb alnum s = true -> separable op cl false 0 s = true.
Proof.
  intros H1 H2. induction s as [|c s IH]; [reflexivity|]. cbn [forallb separable]. intros H. apply andb_true_iff in H as [H H'].
  destruct (N.eqb_spec c op); [congruence|]. destruct (N.eqb_spec c cl); [congruence|].
  destruct (N.eqb_spec c 34) as [->|]; [discriminate|]. destruct (N.eqb_spec c 44) as [->|]; [discriminate|]. auto.
Qed.
Lemma alnum_ascii s : forallb alnum s = true -> all_ascii s = true.
Proof. unfold all_ascii. rewrite !forallb_forall. intros H x I. apply H in I. unfold alnum, is_ascii in *. lia. Qed.
Lemma hex_digit_alnum n : n < 16 -> alnum (hex_digit n) = true.
Proof. intros H. unfold hex_digit, alnum. destruct (N.ltb_spec n 10); lia. Qed.
Lemma hex_alnum b : forallb alnum (hex_encode b) = true.
Proof.
  induction b as [|x b IH]; [reflexivity|]. unfold hex_encode in *. cbn [flat_map app forallb]. pose proof (to_N_lt x).
  rewrite !hex_digit_alnum by (try apply N.mod_lt; try apply N.div_lt_upper_bound; lia). exact IH.
Qed.
Lemma hex_encode_len b : len (hex_encode b) = 2 * len b.
Proof. unfold len. induction b as [|x b IH]; [reflexivity|]. unfold hex_encode in *. cbn [flat_map app List.length]. lia. Qed.
Lemma leaf_display t v : plain_leaf t = true -> has_type v t = true ->
  forallb alnum (display v) = true /\ len (display v) <> 0 /\ readable display v = true.
Proof.
  intros P H. destruct t, v; try discriminate; cbn [plain_leaf has_type display] in *.
  - split; [apply hex_alnum|]. rewrite hex_encode_len. split; [lia|reflexivity].
  - destruct b; now split.
  - split; [apply hex_alnum|]. rewrite hex_encode_len. split; [lia|reflexivity].
Qed.
Lemma group_readable op cl vs : alnum op = false -> alnum cl = false -> op <> cl -> op <> 34 -> op <> 44 -> cl <> 34 -> cl <> 44 ->
  is_ascii op = true -> is_ascii cl = true ->
  Forall (fun v => separable op cl false 0 (display v) = true /\ all_ascii (display v) = true /\ len (display v) <> 0 /\ readable display v = true) vs ->
  separable op cl false 0 (op :: join (lit ",") (map display vs) ++ [cl]) = true /\
  all_ascii (op :: join (lit ",") (map display vs) ++ [cl]) = true /\
  items_readable op cl (map display vs) && forallb (readable display) vs = true.
Proof.
  intros A1 A2 N1 N2 N3 N4 N5 Ao Ac F.
  assert (S : forallb (separable op cl false 0) (map display vs) = true).
  { rewrite forallb_forall. intros x I. apply in_map_iff in I as (v & <- & I). rewrite Forall_forall in F. now apply F. }
  assert (A : Forall (fun s => all_ascii s = true) (map display vs)).
  { rewrite Forall_map. eapply Forall_impl; [|exact F]. cbn beta. tauto. }
  split; [|split].
  - cbn [separable]. rewrite !N.eqb_refl, separable_join by auto. cbn [separable]. rewrite !N.eqb_refl.
    destruct (N.eqb_spec op 34); [congruence|]. destruct (N.eqb_spec cl 34); [congruence|].
    destruct (N.eqb_spec cl op); [congruence|reflexivity].
  - cbn [all_ascii forallb]. rewrite Ao. unfold all_ascii. rewrite forallb_app. cbn [forallb]. rewrite Ac. rewrite join_forallb; auto.
  - rewrite andb_true_iff. split.
    + unfold items_readable. rewrite andb_true_iff. split.
      * rewrite forallb_forall. intros x I. apply in_map_iff in I as (v & <- & I). rewrite Forall_forall in F.
        destruct (F v I) as (F1 & F2 & _). now rewrite F1, F2.
      * destruct vs as [|v [|]]; [reflexivity| |reflexivity]. cbn [map]. inversion F as [|? ? (_ & _ & L & _) ?]; subst.
        now destruct (N.eqb_spec (len (display v)) 0).
    + rewrite forallb_forall. rewrite Forall_forall in F. intros x I. now apply F.
Qed.
Lemma leaf_arrays_display t : leaf_arrays t = true -> forall v, has_type v t = true ->
  separable 91 93 false 0 (display v) = true /\ all_ascii (display v) = true /\ len (display v) <> 0 /\ readable display v = true.
Proof.
  induction t using ParamType_ind'; intros P v H0;
    try (destruct (@leaf_display _ v P H0) as (L1 & L2 & L3); split; [now apply separable_alnum|split; [now apply alnum_ascii|auto]]; fail);
    try discriminate; destruct v as [| | | | | | |vs|vs|vs]; try discriminate; cbn [leaf_arrays has_type] in *.
  - edestruct (@group_readable 91 93 vs) as (G1 & G2 & G3); try reflexivity; try discriminate.
    { rewrite forallb_forall in H0. rewrite Forall_forall. auto. }
    cbn [display readable]. split; [exact G1|split; [exact G2|split; [|exact G3]]]. unfold len. rewrite !app_length. cbn [lit List.length]. cbn. lia.
  - apply andb_true_iff in H0 as [_ H0]. edestruct (@group_readable 91 93 vs) as (G1 & G2 & G3); try reflexivity; try discriminate.
    { rewrite forallb_forall in H0. rewrite Forall_forall. auto. }
    cbn [display readable]. split; [exact G1|split; [exact G2|split; [|exact G3]]]. unfold len. rewrite !app_length. cbn. lia.
Qed.
Lemma leaf_tuples_display t : leaf_tuples t = true -> forall v, has_type v t = true ->
  separable 40 41 false 0 (display v) = true /\ all_ascii (display v) = true /\ len (display v) <> 0 /\ readable display v = true.
Proof.
  induction t using ParamType_ind'; intros P v H0;
    try (destruct (@leaf_display _ v P H0) as (L1 & L2 & L3); split; [now apply separable_alnum|split; [now apply alnum_ascii|auto]]; fail);
    try discriminate; destruct v as [| | | | | | |vs|vs|vs]; try discriminate; cbn [leaf_tuples has_type] in *.
  edestruct (@group_readable 40 41 vs) as (G1 & G2 & G3); try reflexivity; try discriminate.
  { revert vs H0. induction H as [|t ts Ht F IH]; intros vs H0; destruct vs as [|v vs]; try discriminate; constructor.
    - cbn [forallb] in P. apply andb_true_iff in H0 as [H0 _], P as [P _]. auto.
    - cbn [forallb] in P. apply andb_true_iff in H0 as [_ H0], P as [_ P]. auto. }
  cbn [display readable]. split; [exact G1|split; [exact G2|split; [|exact G3]]]. unfold len. rewrite !app_length. cbn. lia.
Qed.
Lemma read_leaf_display t v : leaf_arrays t = true \/ leaf_tuples t = true -> has_type v t = true ->
  tokenize StrictTokenizer t (display v) = Ok v.
Proof.
  intros [P|P] H; apply read_display; auto; [eapply leaf_arrays_display|eapply leaf_tuples_display]; eauto.
Qed.

(** ** List literals *)
Lemma next_all_elements_iff T t items : forall vs,
  next_all (next_element (tokenize T t)) tt items = Ok vs <-> Forall2 (fun s v => tokenize T t s = Ok v) items vs.
Proof.
  induction items as [|s items IH]; intros vs; [split; [intros E; injection E as <-; constructor|inversion 1; reflexivity]|].
  rewrite next_all_cons. unfold next_element at 1. split.
  - intros E. apply bind_ok in E as ([tok []] & E1 & E). apply bind_ok in E1 as (v & E1 & E2). injection E2 as <-.
    apply bind_ok in E as (l & E2 & E). injection E as <-. constructor; [exact E1|now apply IH].
  - inversion 1 as [|? v ? l Hv Hl]; subst. rewrite Hv. cbn [bind]. apply IH in Hl. now rewrite Hl.
Qed.
Lemma next_all_fields_iff T items : forall ts vs,
  next_all next_field (map (tokenize T) ts) items = Ok vs <->
  (length items <= length ts)%nat /\ Forall2 (fun x v => tokenize T (fst x) (snd x) = Ok v) (combine ts items) vs.
Proof.
  induction items as [|s items IH]; intros ts vs.
  { rewrite combine_nil. split; [intros E; injection E as <-; split; [cbn; lia|constructor]|intros [_ F]; inversion F; reflexivity]. }
  destruct ts as [|t ts]; [split; [discriminate|cbn [List.length]; lia]|].
  rewrite next_all_cons. cbn [map next_field combine List.length]. split.
  - intros E. apply bind_ok in E as ([tok q] & E1 & E). apply bind_ok in E1 as (v & E1 & E2). injection E2 as <- <-.
    apply bind_ok in E as (l & E2 & E). injection E as <-. apply IH in E2 as [L F]. split; [lia|]. constructor; [exact E1|exact F].
  - intros [L F]. inversion F as [|? v ? l Hv Hl]; subst. cbn [fst snd] in Hv. rewrite Hv. cbn [bind].
    assert (E : next_all next_field (map (tokenize T) ts) items = Ok l) by (apply IH; split; [lia|exact Hl]). now rewrite E.
Qed.
Lemma array_literal T t items vs : items_readable 91 93 items = true ->
  (tokenize T (PArray t) (lit "[" ++ join (lit ",") items ++ lit "]") = Ok (TArray vs) <->
   Forall2 (fun s v => tokenize T t s = Ok v) items vs) /\
  (forall n, tokenize T (PFixedArray t n) (lit "[" ++ join (lit ",") items ++ lit "]") = Ok (TFixedArray vs) <->
   Forall2 (fun s v => tokenize T t s = Ok v) items vs /\ len vs = n).
Proof.
  intros R. change (lit "[" ++ join (lit ",") items ++ lit "]") with (91 :: join (lit ",") items ++ [93]).
  cbn [tokenize]. rewrite items_read by (auto; discriminate).
  split; [|intros n]; rewrite <- next_all_elements_iff; split.
  - intros E. apply rmap_ok in E as (l & E & E'). now injection E' as <-.
  - intros ->. reflexivity.
  - intros E. apply rmap_ok in E as (l & E & E'). injection E' as <-. apply bind_ok in E as (l' & E & E').
    destruct (N.eqb_spec (len l') n); [|discriminate]. injection E' as <-. auto.
  - intros [-> <-]. cbn [bind]. now rewrite N.eqb_refl.
Qed.
Lemma tuple_literal T ts items vs : items_readable 40 41 items = true ->
  (tokenize T (PTuple ts) (lit "(" ++ join (lit ",") items ++ lit ")") = Ok (TTuple vs) <->
   (length items <= length ts)%nat /\ Forall2 (fun x v => tokenize T (fst x) (snd x) = Ok v) (combine ts items) vs).
Proof.
  intros R. change (lit "(" ++ join (lit ",") items ++ lit ")") with (40 :: join (lit ",") items ++ [41]).
  cbn [tokenize]. rewrite items_read by (auto; discriminate). rewrite <- next_all_fields_iff. split.
  - intros E. apply rmap_ok in E as (l & E & E'). now injection E' as <-.
  - intros ->. reflexivity.
Qed.

(** ** What the lenient tokenizer accepts as a number *)
Lemma lenient_uint_exact k s v : tokenize LenientTokenizer (PUint k) s = Ok v <->
  (exists b, hex_text s b /\ len b = 32 /\ v = TUint (of_be b)) \/
  ((forall b, hex_text s b -> len b <> 32) /\ exists n, decimal_text s n /\ n < two256 /\ v = TUint n).
Proof.
  cbn [tokenize LenientTokenizer Tokenizer.tokenize_uint]. unfold lenient_uint. rewrite strict_uint_eq.
  destruct (do hex <- hex_decode s; if len hex =? 32 then Ok hex else Err InvalidData) as [b|e|] eqn:E.
  - apply (strict_exact 32 (fun b => b)) in E as (b' & H & L & <-). split.
    + intros X. left. apply rmap_ok in X as (b1 & X & ->). injection X as <-. eauto.
    + intros [(b1 & H1 & L1 & ->)|[N _]]; [|now apply N in H]. apply hex_decode_spec in H, H1. rewrite H in H1. injection H1 as <-. reflexivity.
  - assert (NH : forall b, hex_text s b -> len b <> 32).
    { intros b H L. assert (X : (do hex <- hex_decode s; if len hex =? 32 then Ok hex else Err InvalidData) = Ok b).
      { apply (strict_exact 32 (fun b => b)). eauto. } congruence. }
    split.
    + intros X. right. split; [exact NH|]. apply rmap_ok in X as (b & X & ->). apply bind_ok in X as (n & X & Y).
      assert (b = be_bytes 32 n) as -> by congruence. clear Y. unfold from_dec_str in X.
      change (fun c => (48 <=? c) && (c <=? 57)) with is_digit in X. destruct (forallb is_digit s) eqn:Dg; [|discriminate].
      assert (D : decimal_text s (decimal_value s)) by now apply decimal_text_spec.
      pose proof (from_dec_str_ok D) as Y. unfold from_dec_str in Y. change (fun c => (48 <=? c) && (c <=? 57)) with is_digit in Y.
      rewrite Dg in Y. rewrite X in Y. destruct (N.ltb_spec (decimal_value s) two256); [|discriminate]. injection Y as ->.
      exists (decimal_value s). split; [exact D|]. split; [assumption|]. now rewrite of_be_word.
    + intros [(b & H & L & _)|(_ & n & D & B & ->)]; [now apply NH in H|]. rewrite (from_dec_str_ok D).
      destruct (N.ltb_spec n two256); [|lia]. unfold rmap. cbn [bind]. now rewrite of_be_word.
  - destruct (exact_calm 32 s E).
Qed.

Lemma drop_minus k ds : forallb is_digit ds = true -> drop_while (fun c => c =? 45) (repeat 45 k ++ ds) = ds.
Proof. intros D. induction k as [|k IH]; cbn [repeat app drop_while]; [now apply drop_digits|exact IH]. Qed.
Lemma minus_split s : exists k, s = repeat 45 k ++ drop_while (fun c => c =? 45) s /\ starts_with_char s 45 = negb (k =? 0)%nat.
Proof.
  induction s as [|c s (k & IH & _)]; [now exists 0%nat|]. cbn [drop_while]. cbn [starts_with_char]. destruct (N.eqb_spec c 45) as [->|N].
  - exists (S k). cbn [repeat app]. rewrite <- IH. split; [reflexivity|]. reflexivity.
  - exists 0%nat. split; [reflexivity|]. destruct (N.eqb_spec c 45); [contradiction|]. reflexivity.
Qed.
(** The bits read for a sign and a magnitude. *)
Definition int_bits (neg : bool) (abs : N) : res (list byte) :=
  if neg then
    if abs =? 0 then Ok (be_bytes 32 abs)
    else if (two256 - 1) / 2 + 1 <? abs then Err (OtherErr (lit "int256 parse error: Underflow"))
    else Ok (be_bytes 32 ((two256 - 1 - abs) + 1))
  else if (two256 - 1) / 2 <? abs then Err (OtherErr (lit "int256 parse error: Overflow"))
  else Ok (be_bytes 32 abs).
Lemma int_bits_ok neg abs b : abs < two256 -> int_bits neg abs = Ok b <->
  let z := (if neg then - Z.of_N abs else Z.of_N abs)%Z in in_int256 z = true /\ b = be_bytes 32 (twos_complement z).
Proof.
  intros B. assert (T1 : (2 ^ 256 = 2 * 2 ^ 255)%Z) by reflexivity.
  assert (T2 : Z.of_N two256 = (2 ^ 256)%Z) by reflexivity.
  assert (T3 : Z.of_N (2 ^ 255) = (2 ^ 255)%Z) by reflexivity.
  assert (T4 : (0 < 2 ^ 255)%Z) by reflexivity.
  unfold int_bits, in_int256, twos_complement. rewrite max_int.
  set (q := (2 ^ 255)%Z) in *. set (q2 := (2 ^ 256)%Z) in *. set (m := 2 ^ 255) in *. set (m2 := two256) in *.
  clearbody q q2 m m2. destruct neg; cbn zeta.
  - destruct (N.eqb_spec abs 0) as [->|N].
    + cbn [Z.of_N Z.opp]. rewrite Z.mod_small by lia. cbn [Z.to_N]. split; [intros [= <-]; split; [lia|reflexivity]|now intros [_ ->]].
    + destruct (N.ltb_spec (m - 1 + 1) abs); [split; [discriminate|lia]|].
      assert (Z.to_N (- Z.of_N abs mod q2) = m2 - 1 - abs + 1) as ->.
      { rewrite <- (Z.mod_unique_pos (- Z.of_N abs) q2 (-1) (q2 - Z.of_N abs)); lia. }
      split; [intros [= <-]; split; [lia|reflexivity]|now intros [_ ->]].
  - destruct (N.ltb_spec (m - 1) abs); [split; [discriminate|lia]|].
    rewrite Z.mod_small by lia. rewrite N2Z.id. split; [intros [= <-]; split; [lia|reflexivity]|now intros [_ ->]].
Qed.
Lemma lenient_int_exact k s v : tokenize LenientTokenizer (PInt k) s = Ok v <->
  (exists b, hex_text s b /\ len b = 32 /\ v = TInt (of_be b)) \/
  ((forall b, hex_text s b -> len b <> 32) /\ exists z, minus_text s z /\ in_int256 z = true /\ v = TInt (twos_complement z)).
Proof.
  cbn [tokenize LenientTokenizer Tokenizer.tokenize_int]. unfold lenient_int, strict_int. rewrite strict_uint_eq.
  destruct (do hex <- hex_decode s; if len hex =? 32 then Ok hex else Err InvalidData) as [b|e|] eqn:E.
  - apply (strict_exact 32 (fun b => b)) in E as (b' & H & L & <-). split.
    + intros X. left. apply rmap_ok in X as (b1 & X & ->). injection X as <-. eauto.
    + intros [(b1 & H1 & L1 & ->)|[N _]]; [|now apply N in H]. apply hex_decode_spec in H, H1. rewrite H in H1. injection H1 as <-. reflexivity.
  - assert (NH : forall b, hex_text s b -> len b <> 32).
    { intros b H L. assert (X : (do hex <- hex_decode s; if len hex =? 32 then Ok hex else Err InvalidData) = Ok b).
      { apply (strict_exact 32 (fun b => b)). eauto. } congruence. }
    destruct (minus_split s) as (j & Sj & St). set (ds := drop_while (fun c => c =? 45) s) in *. rewrite St.
    change (rmap (fun b => TInt (of_be b)) (do abs <- from_dec_str ds; int_bits (negb (j =? 0)%nat) abs) = Ok v <->
      (exists b, hex_text s b /\ len b = 32 /\ v = TInt (of_be b)) \/
      ((forall b, hex_text s b -> len b <> 32) /\ exists z, minus_text s z /\ in_int256 z = true /\ v = TInt (twos_complement z))).
    assert (TB : forall z, twos_complement z < two256).
    { intros z. unfold twos_complement. pose proof (Z.mod_pos_bound z (2 ^ 256) ltac:(reflexivity)) as PB.
      assert (T2 : Z.of_N two256 = (2 ^ 256)%Z) by reflexivity. lia. }
    split.
    + intros X. right. split; [exact NH|]. apply rmap_ok in X as (b & X & ->). apply bind_ok in X as (n & X & Y).
      unfold from_dec_str in X. change (fun c => (48 <=? c) && (c <=? 57)) with is_digit in X. destruct (forallb is_digit ds) eqn:Dg; [|discriminate].
      assert (D : decimal_text ds (decimal_value ds)) by now apply decimal_text_spec.
      pose proof (from_dec_str_ok D) as Z0. unfold from_dec_str in Z0. change (fun c => (48 <=? c) && (c <=? 57)) with is_digit in Z0.
      rewrite Dg in Z0. rewrite X in Z0. destruct (N.ltb_spec (decimal_value ds) two256) as [B|]; [|discriminate]. injection Z0 as ->.
      apply int_bits_ok in Y; [|exact B]. cbn zeta in Y. destruct Y as [Y ->].
      exists (if (j =? 0)%nat then Z.of_N (decimal_value ds) else - Z.of_N (decimal_value ds))%Z.
      split; [exists j, ds, (decimal_value ds); auto|]. destruct (j =? 0)%nat; cbn [negb] in *; (split; [exact Y|]); now rewrite of_be_word.
    + intros [(b & H & L & _)|(_ & z & (j' & ds' & n & Es & D & Ez) & I & ->)]; [now apply NH in H|].
      assert (B : n < two256).
      { unfold in_int256 in I. assert (T1 : (2 ^ 256 = 2 * 2 ^ 255)%Z) by reflexivity. assert (T2 : Z.of_N two256 = (2 ^ 256)%Z) by reflexivity.
        assert (T4 : (0 < 2 ^ 255)%Z) by reflexivity. destruct (j' =? 0)%nat; lia. }
      assert (forallb is_digit ds' = true) as Dg by now apply decimal_text_spec in D.
      assert (ds = ds') as -> by (unfold ds; rewrite Es; now apply drop_minus).
      assert (j = j') as ->.
      { assert (length s = j + length ds')%nat as L1 by (rewrite Sj, app_length, repeat_length; reflexivity).
        rewrite Es, app_length, repeat_length in L1. lia. }
      rewrite (from_dec_str_ok D). destruct (N.ltb_spec n two256); [|lia]. cbn [bind].
      rewrite (proj2 (int_bits_ok (negb (j' =? 0)%nat) (be_bytes 32 (twos_complement z)) B)).
      * unfold rmap. cbn [bind]. now rewrite of_be_word.
      * cbn zeta. destruct (j' =? 0)%nat; cbn [negb]; subst z; auto.
  - destruct (exact_calm 32 s E).
Qed.

(** ** Statements for both tokenizers *)
Lemma typed_both : forall T, T = StrictTokenizer \/ T = LenientTokenizer ->
  forall t, tuple_free t = true -> forall s v, wf_str s = true -> tokenize T t s = Ok v -> has_type v t = true.
Proof. intros T H. assert (G : good_tokenizer T) by (destruct H as [->| ->]; [apply strict_good|apply lenient_good]). intros t F. now apply tokenize_typed. Qed.
Lemma loose_both : forall T, T = StrictTokenizer \/ T = LenientTokenizer ->
  forall t s v, wf_str s = true -> tokenize T t s = Ok v -> typed_prefix v t = true.
Proof. intros T H. assert (G : good_tokenizer T) by (destruct H as [->| ->]; [apply strict_good|apply lenient_good]). now apply tokenize_loose. Qed.
Lemma calm_both : forall T, T = StrictTokenizer \/ T = LenientTokenizer ->
  forall t s, scalar t = true \/ all_ascii s = true -> tokenize T t s <> Panic.
Proof. intros T H. assert (C : calm T) by (destruct H as [->| ->]; [apply strict_calm|apply lenient_calm]). intros t s [S|A]; [now apply scalar_calm|now apply tokenize_calm]. Qed.
Lemma strict_bool_string : forall s v,
  (tokenize StrictTokenizer PBool s = Ok v <->
   ((s = lit "true" \/ s = lit "1") /\ v = TBool true) \/ ((s = lit "false" \/ s = lit "0") /\ v = TBool false)) /\
  tokenize StrictTokenizer PString s = Ok (TString s).
Proof.
  intros s v. split; [|reflexivity]. cbn [tokenize StrictTokenizer Tokenizer.tokenize_bool]. unfold strict_bool. split.
  - intros E. apply rmap_ok in E as (b & E & ->). destruct (str_eqb s (lit "true") || str_eqb s (lit "1")) eqn:E1.
    + injection E as <-. left. split; [|reflexivity]. apply orb_true_iff in E1 as [E1|E1]; apply str_eqb_eq in E1; auto.
    + destruct (str_eqb s (lit "false") || str_eqb s (lit "0")) eqn:E2; [|discriminate]. injection E as <-. right.
      split; [|reflexivity]. apply orb_true_iff in E2 as [E2|E2]; apply str_eqb_eq in E2; auto.
  - intros [[[->| ->] ->]|[[->| ->] ->]]; reflexivity.
Qed.
Lemma lenient_decimal_refuted : exists s n k, decimal_text s n /\ n < two256 /\ tokenize LenientTokenizer (PUint k) s <> Ok (TUint n).
Proof.
  exists (repeat 48 62 ++ [49; 48]), 10, 256. split; [apply decimal_text_spec; vm_compute; auto|]. split; [reflexivity|].
  vm_compute. discriminate.
Qed.
Lemma lenient_signed_refuted : exists s z k, signed_text s z /\ in_int256 z = true /\
  tokenize LenientTokenizer (PInt k) s <> Ok (TInt (twos_complement z)).
Proof.
  exists (repeat 48 62 ++ [49; 48]), 10%Z, 256. split; [|split; [reflexivity|vm_compute; discriminate]].
  exists (repeat 48 62 ++ [49; 48]), 10. split; [discriminate|]. split; [apply decimal_text_spec; vm_compute; auto|]. left. split; reflexivity.
Qed.

(** * Proofs about the errors that are returned *)
From Verif Require Import Base BaseFacts StrFacts Types TypeNames Tokenizer TypeNamesSpec ReaderFacts ReaderTotal ErrorSpec Work WorkNames WorkLower TokenSpec TokenFacts TokenTotal.
From Coq Require Import String.
From Coq Require Import Lia ZifyBool ZifyNat ZifyN.
Set Implicit Arguments.
Notation length := List.length.
Local Open Scope N_scope.
Local Open Scope list_scope.

Lemma part_refl s : part_of s s.
Proof. exists [], []. now rewrite app_nil_r. Qed.
Lemma part_trans x y s : part_of x y -> part_of y s -> part_of x s.
Proof. intros (a & b & ->) (c & d & ->). exists (c ++ a), (b ++ d). now rewrite <- !app_assoc. Qed.
Lemma slice_part s i j m : str_slice s i j = Ok m -> part_of m s.
Proof. intros E. apply str_slice_ok in E as (a & b & -> & _). now exists a, b. Qed.
Lemma part_len x s : part_of x s -> str_len x <= str_len s.
Proof. intros (a & b & ->). rewrite !str_len_app. lia. Qed.

(** ** Type names *)
Section Names.
Context (p : profile).
(** More fuel changes nothing. *)
Lemma loop_agrees rd rd' name rest : (forall s, rd s <> Err OutOfFuel -> rd' s = rd s) -> forall pos skip st r,
  read_tuple_loop rd name rest pos skip st = r -> r <> Err OutOfFuel -> read_tuple_loop rd' name rest pos skip st = r.
Proof.
  intros H. induction rest as [|c rest IH]; intros pos skip st r E N; cbn [read_tuple_loop] in *; [exact E|]. destruct skip as [|k]; [|now apply IH].
  pose proof (char_calls_once name st pos c rest) as C. destruct (asked _) as [s|].
  - destruct C as [k C]. rewrite (C rd) in E. rewrite (C rd'). rewrite H; [|intros X; rewrite X in E; cbn in E; congruence].
    destruct (rd s) as [t|e|]; cbn [bind] in *; [|exact E..]. destruct (k t) as [[st' n]|e|]; cbn [bind] in *; [|exact E..]. now apply IH.
  - rewrite (C rd) in E. rewrite (C rd'). destruct (read_char ask name st pos c rest) as [[st' n]|e|]; cbn [bind] in *; [|exact E..]. now apply IH.
Qed.
Lemma fuel_more f : forall s r, read_fuel p f s = r -> r <> Err OutOfFuel -> read_fuel p (S f) s = r.
Proof.
  induction f as [|f IH]; intros s r E N; [cbn in E; congruence|]. cbn [read_fuel] in E. remember (S f) as g. cbn [read_fuel]. subst g.
  assert (H : forall x, read_fuel p f x <> Err OutOfFuel -> read_fuel p (S f) x = read_fuel p f x) by (intros x X; now apply IH).
  destruct (last_char s) as [c|]; [|exact E]. destruct (c =? ch_close).
  - unfold read_tuple in *. destruct (starts_with_char s ch_open); [|exact E].
    destruct (read_tuple_loop (read_fuel p f) s s 0 0 (mkR [] [] 0 0 1)) as [st|e|] eqn:L; cbn [bind] in E.
    + rewrite (@loop_agrees _ _ _ _ H _ _ _ _ L) by discriminate. exact E.
    + rewrite (@loop_agrees _ _ _ _ H _ _ _ _ L) by congruence. exact E.
    + rewrite (@loop_agrees _ _ _ _ H _ _ _ _ L) by discriminate. exact E.
  - destruct (c =? ch_rbracket); [|exact E]. pose proof (array_calls_once p s) as C. destruct (asked _) as [x|].
    + destruct C as [k C]. rewrite C in E. rewrite C, H; [exact E|]. intros X. rewrite X in E. cbn in E. congruence.
    + rewrite C in E. now rewrite C.
Qed.
Lemma fuel_plus n f s r : read_fuel p f s = r -> r <> Err OutOfFuel -> read_fuel p (n + f) s = r.
Proof. intros E N. induction n as [|n IH]; [exact E|]. now apply fuel_more. Qed.
Lemma fuel_same f s r : str_len s < 2 ^ 63 -> read_fuel p f s = r -> r <> Err OutOfFuel -> read p s = r.
Proof.
  intros B E N. pose proof (@read_fuel_enough p (S (length s)) s B (le_n _)) as G. unfold read.
  pose proof (@fuel_plus (S (length s)) _ _ _ E N) as E1. pose proof (@fuel_plus f _ _ _ eq_refl G) as E2.
  rewrite Nat.add_comm in E2. congruence.
Qed.

Definition named (f : nat) (s : str) (e : err) : Prop :=
  e = ParseIntErr \/ e = OutOfFuel \/ exists x g, part_of x s /\ e = InvalidName x /\ (g <= f)%nat /\ read_fuel p g x = Err (InvalidName x).
Lemma named_part f s x e : part_of x s -> named f x e -> named (S f) s e.
Proof. intros P [H|[H|(y & g & Q & E & L & R)]]; [now left|right; now left|]. right; right. exists y, g. split; [now apply part_trans with x|]. repeat split; auto. Qed.
Lemma base_named f s e : read_base s = Err e -> (forall f', read_fuel p (S f') s = read_base s) -> named (S f) s e.
Proof.
  intros E H. assert (X : e = ParseIntErr \/ e = InvalidName s).
  { revert E. unfold read_base. repeat match goal with |- context [if str_eqb s ?b then _ else _] => destruct (str_eqb s b); [discriminate|] end.
    assert (G : forall n k, (do s0 <- str_from s n; do l <- parse_usize s0; k l) = Err e -> (forall l, exists t : ParamType, k l = Ok t) -> e = ParseIntErr).
    { intros n k G Kk. apply bind_err' in G as [G|(s0 & _ & G)].
      - exfalso. revert G. unfold str_from. destruct (str_split _ _) as [[? ?]|]; discriminate.
      - apply bind_err' in G as [G|(l & _ & G)]; [now apply usize_err in G|]. destruct (Kk l) as [t Q]. rewrite Q in G. discriminate. }
    destruct (starts_with s (lit "int")); [intros E; left; eapply G; [exact E|eauto]|].
    destruct (starts_with s (lit "uint")); [intros E; left; eapply G; [exact E|eauto]|].
    destruct (starts_with s (lit "bytes")); [intros E; left; eapply G; [exact E|eauto]|].
    intros E. injection E as <-. now right. }
  destruct X as [->| ->]; [now left|]. right; right. exists s, (S f). split; [apply part_refl|]. split; [reflexivity|]. split; [lia|]. now rewrite H.
Qed.
Ltac unb := match goal with
  | E : bind _ _ = Err _ |- _ => apply bind_err' in E as [E|(? & ? & E)]
  end.
Lemma char_named f name st pos c rest e : (forall s e, read_fuel p f s = Err e -> named f s e) ->
  read_char (read_fuel p f) name st pos c rest = Err e -> e = InvalidName name \/ named (S f) name e.
Proof.
  intros H. unfold read_char. destruct (c =? ch_open); [destruct (1 <? _)%Z; discriminate|]. destruct (c =? ch_close).
  { destruct (_ <? 0)%Z; [intros E; injection E as <-; now left|]. intros E. unb; [now apply str_slice_not_err in E|].
    destruct x as [|x0 x]; [discriminate|]. destruct (_ =? 0)%Z.
    - unb; [|discriminate]. right. eapply named_part; [eapply slice_part; eassumption|now apply H].
    - cbv zeta in E. unb; [now apply str_slice_not_err in E|]. unb.
      + right. eapply named_part; [|apply H; eassumption]. eapply slice_part; eassumption.
      + destruct (1 <? _)%Z; [|discriminate]. unb; [now apply take_at_not_err in E|]. match type of E with context [match ?y with (_, _) => _ end] => destruct y end. discriminate. }
  destruct (c =? ch_comma); [|discriminate]. intros E. unb; [now apply str_slice_not_err in E|]. destruct x as [|x0 x]; [discriminate|].
  destruct (_ =? 1)%Z; [unb; [|discriminate]; right; eapply named_part; [eapply slice_part; eassumption|now apply H]|].
  destruct (1 <? _)%Z; [|discriminate]. unb; [right; eapply named_part; [eapply slice_part; eassumption|now apply H]|].
  unb; [now apply push_at_not_err in E|discriminate].
Qed.
Lemma loop_named f name rest : (forall s e, read_fuel p f s = Err e -> named f s e) -> forall pos skip st e,
  read_tuple_loop (read_fuel p f) name rest pos skip st = Err e -> e = InvalidName name \/ named (S f) name e.
Proof.
  intros H. induction rest as [|c rest IH]; intros pos skip st e E; cbn [read_tuple_loop] in E; [discriminate|]. destruct skip as [|k]; [|now apply IH in E].
  unb; [now apply char_named in E|]. destruct x as [st' k]. now apply IH in E.
Qed.
Lemma read_named f : forall s e, read_fuel p f s = Err e -> named f s e.
Proof.
  induction f as [|f IH]; intros s e E; [cbn in E; injection E as <-; right; now left|].
  destruct (last_char s) as [c|] eqn:L; [|apply base_named; [cbn [read_fuel] in E; now rewrite L in E|intros f'; cbn [read_fuel]; now rewrite L]].
  destruct (c =? ch_close) eqn:C1.
  - assert (E' := E). cbn [read_fuel] in E. rewrite L, C1 in E. unfold read_tuple in E.
    assert (G : e = InvalidName s -> named (S f) s e) by (intros ->; right; right; exists s, (S f); split; [apply part_refl|]; auto).
    destruct (starts_with_char s ch_open); [|injection E as <-; now apply G]. unb; [|discriminate]. apply loop_named in E as [E|E]; auto.
  - destruct (c =? ch_rbracket) eqn:C2; [|apply base_named; [cbn [read_fuel] in E; now rewrite L, C1, C2 in E|intros f'; cbn [read_fuel]; now rewrite L, C1, C2]].
    cbn [read_fuel] in E. rewrite L, C1, C2 in E. unfold read_array in E. cbv zeta in E. destruct (rev _) as [|c0 num].
    + unb; [now apply usize_sub_err in E|]. unb; [now apply str_slice_not_err in E|]. unb; [|discriminate]. eapply named_part; [eapply slice_part; eassumption|now apply IH].
    + unb; [apply usize_err in E; now left|]. unb; [now apply usize_sub_err in E|]. unb; [now apply usize_sub_err in E|]. unb; [now apply str_slice_not_err in E|].
      unb; [|discriminate]. eapply named_part; [eapply slice_part; eassumption|now apply IH].
Qed.
Lemma read_errors s e : str_len s < 2 ^ 63 -> read p s = Err e ->
  e = ParseIntErr \/ exists x, part_of x s /\ e = InvalidName x /\ read p x = Err (InvalidName x).
Proof.
  intros B E. pose proof (@read_fuel_enough p (S (length s)) s B (le_n _)) as G. pose proof E as E'. apply read_named in E as [E|[E|(x & g & P & Ex & _ & R)]]; [now left| |].
  - subst e. contradiction.
  - right. exists x. split; [exact P|]. split; [exact Ex|]. apply fuel_same with g; [pose proof (part_len P); lia|exact R|discriminate].
Qed.
End Names.

(** ** Values *)
Lemma rmap_err A B (f : A -> B) r e : rmap f r = Err e <-> r = Err e.
Proof. unfold rmap. destruct r; cbn [bind]; split; congruence. Qed.
Section Items.
Context (P : err -> str -> Prop) {St : Type} (next : St -> str -> res (Token * St)) (OK : St -> Prop) (op cl : char) (value : str).
Context (H : forall ps sub, OK ps -> match next ps sub with Ok (_, q) => OK q | Err e => e = InvalidData \/ P e sub | Panic => True end).
Definition blamed (e : err) : Prop := e = InvalidData \/ exists x, part_of x value /\ P e x.
Lemma take_blamed s ps n pos : OK ps -> match take_item next value s ps n pos with Ok (_, q) => OK q | Err e => blamed e | Panic => True end.
Proof.
  intros K. unfold take_item. destruct (str_slice value (tk_last_item s) pos) as [sub|e|] eqn:E; cbn [bind]; [|now apply str_slice_not_err in E|exact I].
  apply slice_part in E. pose proof (@H ps sub K) as G. destruct (next ps sub) as [[v q]|e|]; cbn [bind]; [exact G| |exact I].
  destruct G as [X|X]; [now left|]. right. eauto.
Qed.
Lemma char_blamed s ps pos ch : OK ps -> match token_char next op cl value s ps pos ch with Ok (_, q) => OK q | Err e => blamed e | Panic => True end.
Proof.
  intros K. unfold token_char. destruct (_ && _); [exact K|]. destruct (_ && _).
  - cbv zeta. destruct (_ <? 0)%Z; [now left|]. destruct (_ =? 0)%Z; [now apply take_blamed|exact K].
  - destruct (_ =? _); [exact K|]. destruct (_ && _); [now apply take_blamed|exact K].
Qed.
Lemma loop_blamed rest : forall pos s ps e, OK ps -> token_loop next op cl value rest pos s ps = Err e -> blamed e.
Proof.
  induction rest as [|c rest IH]; intros pos s ps e K E; cbn [token_loop] in E; [discriminate|].
  pose proof (@char_blamed s ps pos c K) as G. destruct (token_char _ _ _ _ _ _ _ _) as [[s' q]|e'|]; cbn [bind] in E; [now apply IH in E| |discriminate].
  injection E as <-. exact G.
Qed.
Lemma items_blamed ps e : OK ps -> tokenize_items next op cl value ps = Err e -> blamed e.
Proof.
  intros K. unfold tokenize_items. destruct (_ || _); [intros E; injection E as <-; now left|]. destruct (_ =? 2); [discriminate|].
  intros E. apply bind_err' in E as [E|(s & _ & E)]; [now apply loop_blamed in E|]. destruct (tk_ignore s); [|discriminate]. injection E as <-. now left.
Qed.
End Items.
Lemma value_errors T t : forall s e, tokenize T t s = Err e ->
  e = InvalidData \/ exists t' x, List.In t' (leaves t) /\ part_of x s /\ tokenize T t' x = Err e.
Proof.
  induction t as [| |n|n| | |t' IH|n|t' n IH|ts IH] using ParamType_ind'; intros s e E;
    try (right; eexists _, s; split; [now left|]; split; [apply part_refl|exact E]).
  - cbn [tokenize] in E. apply rmap_err in E. eapply items_blamed with (OK := fun _ => True) in E; [|intros [] sub _; unfold next_element|exact I].
    2: destruct (tokenize T t' sub) as [v|e'|] eqn:X; cbn [bind]; [exact I|exact (IH sub e' X)|exact I].
    destruct E as [E|(x & P & t1 & y & L & Q & E)]; [now left|]. right. exists t1, y. split; [exact L|]. split; [now apply part_trans with x|exact E].
  - cbn [tokenize] in E. apply rmap_err in E. apply bind_err' in E as [E|(r & _ & E)]; [|destruct (_ =? _); [discriminate|injection E as <-; now left]].
    eapply items_blamed with (OK := fun _ => True) in E; [|intros [] sub _; unfold next_element|exact I].
    2: destruct (tokenize T t' sub) as [v|e'|] eqn:X; cbn [bind]; [exact I|exact (IH sub e' X)|exact I].
    destruct E as [E|(x & P & t1 & y & L & Q & E)]; [now left|]. right. exists t1, y. split; [exact L|]. split; [now apply part_trans with x|exact E].
  - cbn [tokenize] in E. apply rmap_err in E. cbn [leaves].
    eapply items_blamed with (OK := fun ps => exists us, ps = map (tokenize T) us /\ incl us ts)
      (P := fun e sub => exists t' x, List.In t' (flat_map leaves ts) /\ part_of x sub /\ tokenize T t' x = Err e) in E; [| |exists ts; split; [reflexivity|apply incl_refl]].
    + destruct E as [E|(x & P & t1 & y & L & Q & E)]; [now left|]. right. exists t1, y. split; [exact L|]. split; [now apply part_trans with x|exact E].
    + intros ps sub (us & -> & In). unfold next_field. destruct us as [|u us]; cbn [map]; [now left|].
      destruct (tokenize T u sub) as [v|e'|] eqn:X; cbn [bind]; [|rewrite Forall_forall in IH|exact I].
      * exists us. split; [reflexivity|]. intros a Ha. apply In. now right.
      * assert (Iu : List.In u ts) by (apply In; now left). destruct (IH u Iu sub e' X) as [Y|(t1 & y & L & Q & Y)]; [now left|].
        right. exists t1, y. split; [apply in_flat_map; eauto|]. auto.
Qed.

(** Leaves. *)
Lemma not_hex s : hex_decode s = Err HexErr <-> forall b, ~ hex_text s b.
Proof.
  split.
  - intros E b H. apply hex_decode_spec in H. congruence.
  - intros H. destruct (hex_decode_cases s) as [[b E]|E]; [|exact E]. apply hex_decode_spec in E. destruct (H _ E).
Qed.
Lemma bad_hex_exact n s e : (do hex <- hex_decode s; if len hex =? n then Ok hex else Err InvalidData) = Err e <-> bad_hex n s e.
Proof.
  unfold bad_hex. destruct (hex_decode_cases s) as [[b E]|E]; rewrite E; cbn [bind].
  - apply hex_decode_spec in E. destruct (N.eqb_spec (len b) n) as [L|L].
    + split; [discriminate|]. intros [[X _]|(b' & X & Y & _)]; [destruct (X _ E)|]. apply hex_decode_spec in E, X. rewrite E in X. injection X as <-. contradiction.
    + split; [intros X; injection X as <-; right; eauto|]. intros [[X _]|(b' & X & Y & ->)]; [destruct (X _ E)|reflexivity].
  - pose proof (proj1 (not_hex s) E) as Q. split; [intros X; injection X as <-; now left|]. intros [[_ ->]|(b & X & _)]; [reflexivity|destruct (Q _ X)].
Qed.
Lemma strict_errors t s e : scalar t = true -> tokenize StrictTokenizer t s = Err e <-> strict_error t s e.
Proof.
  intros Sc. destruct t; try discriminate Sc; cbn [tokenize StrictTokenizer Tokenizer.tokenize_address Tokenizer.tokenize_bytes
    Tokenizer.tokenize_int Tokenizer.tokenize_uint Tokenizer.tokenize_bool Tokenizer.tokenize_string Tokenizer.tokenize_fixed_bytes strict_error]; rewrite rmap_err.
  - rewrite strict_address_eq. apply bad_hex_exact.
  - unfold strict_bytes. rewrite <- not_hex. destruct (hex_decode_cases s) as [[b E]|E]; rewrite E; split; [discriminate|intros [X _]; discriminate|intros X; injection X as <-; auto|intros [_ ->]; reflexivity].
  - unfold strict_int. rewrite strict_uint_eq. apply bad_hex_exact.
  - rewrite strict_uint_eq. apply bad_hex_exact.
  - unfold strict_bool, bad_bool. destruct (str_eqb s (lit "true")) eqn:E1; [apply str_eqb_eq in E1; cbn [orb]; split; [discriminate|intros [X _]; destruct X; left; congruence]|].
    destruct (str_eqb s (lit "1")) eqn:E2; [apply str_eqb_eq in E2; cbn [orb]; split; [discriminate|intros [X _]; destruct X; right; right; left; congruence]|].
    destruct (str_eqb s (lit "false")) eqn:E3; [apply str_eqb_eq in E3; cbn [orb]; split; [discriminate|intros [X _]; destruct X; right; left; congruence]|].
    destruct (str_eqb s (lit "0")) eqn:E4; [apply str_eqb_eq in E4; cbn [orb]; split; [discriminate|intros [X _]; destruct X; right; right; right; left; congruence]|].
    cbn [orb]. split; [|intros [_ ->]; reflexivity]. intros X. injection X as <-. split; [|reflexivity].
    intros [X|[X|[X|[X|[]]]]]; rewrite <- X, str_eqb_refl in *; discriminate.
  - split; [discriminate|contradiction].
  - apply bad_hex_exact.
Qed.
Lemma dec_errors s e : from_dec_str s = Err e <->
  ((forall n, ~ decimal_text s n) /\ e = bad_character) \/ (exists n, decimal_text s n /\ 2 ^ 256 <= n /\ e = too_long).
Proof.
  destruct (forallb is_digit s) eqn:D.
  - assert (Q : decimal_text s (decimal_value s)) by now apply decimal_text_spec. rewrite (from_dec_str_ok Q).
    change two256 with (2 ^ 256). destruct (N.ltb_spec (decimal_value s) (2 ^ 256)) as [L|L].
    + split; [discriminate|]. intros [[X _]|(n & X & Y & _)]; [destruct (X _ Q)|]. apply decimal_text_spec in X as [_ ->]. lia.
    + split; [intros X; injection X as <-; right; eauto|]. intros [[X _]|(n & _ & _ & ->)]; [destruct (X _ Q)|reflexivity].
  - assert (Q : forall n, ~ decimal_text s n) by (intros n X; apply decimal_text_spec in X as [X _]; congruence).
    unfold from_dec_str. change (fun c => (48 <=? c) && (c <=? 57)) with is_digit. rewrite D.
    split; [intros X; injection X as <-; now left|]. intros [[_ ->]|(n & X & _)]; [reflexivity|destruct (Q _ X)].
Qed.
Lemma word_or_not s : (exists b, strict_uint s = Ok b) \/ ((exists e, strict_uint s = Err e) /\ not_word s).
Proof.
  rewrite strict_uint_eq. destruct (do hex <- hex_decode s; if len hex =? 32 then Ok hex else Err InvalidData) as [b|e|] eqn:E; [eauto| |destruct (exact_calm 32 s E)].
  right. split; [eauto|]. intros b X L. apply bad_hex_exact in E as [[Y _]|(b' & Y & L' & _)]; [destruct (Y _ X)|]. apply hex_decode_spec in X, Y. congruence.
Qed.
Lemma is_word s b : strict_uint s = Ok b -> ~ not_word s.
Proof. rewrite strict_uint_eq. intros E. apply (strict_exact 32 (fun b => b)) in E as (b' & H & L & _). intros X. destruct (X _ H L). Qed.
Lemma minus_unique s z : minus_text s z -> exists j, starts_with_char s 45 = negb (j =? 0)%nat /\
  decimal_text (drop_while (fun c => c =? 45) s) (Z.abs_N z) /\ z = (if (j =? 0)%nat then Z.of_N (Z.abs_N z) else - Z.of_N (Z.abs_N z))%Z.
Proof.
  intros (j & ds & n & -> & D & ->). exists j. assert (Dg : forallb is_digit ds = true) by now apply decimal_text_spec in D.
  rewrite drop_minus by exact Dg. replace (Z.abs_N _) with n by (destruct (j =? 0)%nat; lia). split; [|auto].
  destruct j; [now apply digits_not_minus|reflexivity].
Qed.
Lemma lenient_int_errors s e : (do abs <- from_dec_str (drop_while (fun c => c =? 45) s); int_bits (starts_with_char s 45) abs) = Err e <->
  (((forall z, ~ minus_text s z) /\ e = bad_character) \/
     (exists z, minus_text s z /\
        ((2 ^ 256 <= Z.abs z /\ e = too_long) \/
         (2 ^ 255 <= z < 2 ^ 256 /\ e = overflow) \/ (- 2 ^ 256 < z < - 2 ^ 255 /\ e = underflow))%Z)).
Proof.
  destruct (minus_split s) as (j & Sj & St). set (ds := drop_while (fun c => c =? 45) s) in *.
  assert (T1 : (2 ^ 256 = 2 * 2 ^ 255)%Z) by reflexivity.
  assert (T2 : Z.of_N (2 ^ 256) = (2 ^ 256)%Z) by reflexivity.
  assert (T3 : Z.of_N (2 ^ 255) = (2 ^ 255)%Z) by reflexivity.
  assert (T4 : (0 < 2 ^ 255)%Z) by reflexivity.
  assert (T5 : 2 ^ 256 = two256) by reflexivity.
  destruct (forallb is_digit ds) eqn:D.
  - assert (Q : decimal_text ds (decimal_value ds)) by now apply decimal_text_spec. rewrite (from_dec_str_ok Q). set (n := decimal_value ds) in *. clearbody n.
    set (z := (if (j =? 0)%nat then Z.of_N n else - Z.of_N n)%Z). assert (M : minus_text s z) by (exists j, ds, n; auto).
    assert (U : forall z', minus_text s z' -> z' = z).
    { intros z' X. apply minus_unique in X as (j' & X1 & X2 & X3). fold ds in X2. apply decimal_text_spec in X2 as [_ X2]. apply decimal_text_spec in Q as [_ Q].
      rewrite St in X1. assert ((j' =? 0)%nat = (j =? 0)%nat) as Ej by (destruct (j' =? 0)%nat, (j =? 0)%nat; cbn in X1; congruence).
      rewrite X3, Ej, X2, <- Q. reflexivity. }
    transitivity ((2 ^ 256 <= Z.abs z /\ e = too_long) \/ (2 ^ 255 <= z < 2 ^ 256 /\ e = overflow) \/ (- 2 ^ 256 < z < - 2 ^ 255 /\ e = underflow))%Z.
    2: { split; [intros X; right; eauto|]. intros [[X _]|(z' & X & Y)]; [destruct (X _ M)|]. apply U in X. now subst z'. }
    rewrite St. unfold int_bits. rewrite max_int, <- T5. clear - T1 T2 T3 T4.
    unfold z. set (q := (2 ^ 255)%Z) in *. set (q2 := (2 ^ 256)%Z) in *. set (m := 2 ^ 255) in *. set (m2 := 2 ^ 256) in *. clearbody q q2 m m2.
    destruct (N.ltb_spec n m2) as [L|L]; cbn [bind].
    + destruct (j =? 0)%nat; cbn [negb].
      * destruct (N.ltb_spec (m - 1) n).
        -- split; [intros X; injection X as <-; right; left; split; [lia|reflexivity]|]. intros [[X ->]|[[X ->]|[X ->]]]; try reflexivity; lia.
        -- split; [discriminate|]. intros [[X ->]|[[X ->]|[X ->]]]; lia.
      * destruct (N.eqb_spec n 0) as [->|N]; [split; [discriminate|]; intros [[X ->]|[[X ->]|[X ->]]]; lia|].
        destruct (N.ltb_spec (m - 1 + 1) n).
        -- split; [intros X; injection X as <-; right; right; split; [lia|reflexivity]|]. intros [[X ->]|[[X ->]|[X ->]]]; try reflexivity; lia.
        -- split; [discriminate|]. intros [[X ->]|[[X ->]|[X ->]]]; lia.
    + split; [intros X; injection X as <-; left; split; [destruct (j =? 0)%nat; lia|reflexivity]|]. intros [[X ->]|[[X ->]|[X ->]]]; try reflexivity; destruct (j =? 0)%nat; lia.
  - assert (Q : forall n, ~ decimal_text ds n) by (intros n X; apply decimal_text_spec in X as [X _]; congruence).
    assert (Qz : forall z, ~ minus_text s z) by (intros z X; apply minus_unique in X as (j' & _ & X & _); now apply Q in X).
    assert (from_dec_str ds = Err bad_character) as -> by (apply dec_errors; now left). cbn [bind].
    split; [intros X; injection X as <-; now left|]. intros [[_ ->]|(z & X & _)]; [reflexivity|destruct (Qz _ X)].
Qed.
Lemma lenient_errors t s e : scalar t = true -> tokenize LenientTokenizer t s = Err e <-> lenient_error t s e.
Proof.
  intros Sc. destruct t; try discriminate Sc; 
    try match goal with |- tokenize _ ?t _ = _ <-> _ => exact (@strict_errors t s e eq_refl) end.
  - cbn [tokenize LenientTokenizer Tokenizer.tokenize_int lenient_error]. rewrite rmap_err. unfold lenient_int, strict_int.
    destruct (word_or_not s) as [[b E]|[[e' E] W]]; rewrite E; [split; [discriminate|intros [X _]; destruct (is_word E X)]|].
    change (do abs <- from_dec_str (drop_while (fun c => c =? 45) s);
      if starts_with_char s 45 then _ abs else _ abs) with (do abs <- from_dec_str (drop_while (fun c => c =? 45) s); int_bits (starts_with_char s 45) abs). rewrite lenient_int_errors. tauto.
  - cbn [tokenize LenientTokenizer Tokenizer.tokenize_uint lenient_error]. rewrite rmap_err. unfold lenient_uint.
    destruct (word_or_not s) as [[b E]|[[e' E] W]]; rewrite E; [split; [discriminate|intros [X _]; destruct (is_word E X)]|].
    rewrite <- dec_errors. split.
    + intros X. apply bind_err' in X as [X|(n & _ & X)]; [auto|discriminate].
    + intros [_ ->]. reflexivity.
Qed.

(** * Proofs about the texts of the errors of values *)
From Verif Require Import Base BaseFacts StrFacts Types Tokenizer TokenSpec TokenFacts ReaderTotal ErrorSpec ErrorFacts Message MessageSpec MessageFacts.
From Coq Require Import String.
From Coq Require Import Lia ZifyBool ZifyNat ZifyN.
Set Implicit Arguments.
Notation length := List.length.
Local Open Scope N_scope.
Local Open Scope list_scope.

Definition Told (lenient : bool) : Tokenizer := if lenient then LenientTold else StrictTold.
Definition Plain (lenient : bool) : Tokenizer := if lenient then LenientTokenizer else StrictTokenizer.

Lemma part_wf x s : part_of x s -> wf_str s = true -> wf_str x = true.
Proof. intros (a & b & ->) W. unfold wf_str in *. rewrite !forallb_app in W. apply andb_true_iff in W as [_ W]. now apply andb_true_iff in W as [W _]. Qed.

(** ** The results are the same otherwise *)
Lemma retold_bind A B (r r' : res A) (k k' : A -> res B) : retold r r' -> (forall a, retold (k a) (k' a)) -> retold (bind r k) (bind r' k').
Proof.
  intros R K. destruct r as [a|e|]; cbn [retold bind] in *; [subst r'; apply K| |now subst r'].
  destruct e; try (now subst r'). destruct R as [w ->]. cbn [bind]. now exists w.
Qed.
Lemma retold_rmap A B (f : A -> B) r r' : retold r r' -> retold (rmap f r) (rmap f r').
Proof. intros R. apply retold_bind; [exact R|]. intros a. reflexivity. Qed.
Lemma retold_refl A (r : res A) : r <> Err HexErr -> retold r r.
Proof. destruct r as [a|e|]; try reflexivity. destruct e; try reflexivity. contradiction. Qed.
Lemma retold_hex s : wf_str s = true -> retold (hex_decode s) (hex_told s).
Proof.
  intros W. unfold hex_told. destruct (hex_decode_detail s) as [b|e] eqn:E.
  - apply hex_ok in E; [|exact W]. apply hex_decode_spec in E. now rewrite E.
  - destruct (hex_decode_cases s) as [[b X]|X]; rewrite X; [|cbn [retold]; now eexists].
    apply hex_decode_spec in X. apply hex_ok in X; [congruence|exact W].
Qed.
(** Items, with the rest of the parameters related by [RS]. *)
Section Items.
Context {St St' : Type} (RS : St -> St' -> Prop) (next : St -> str -> res (Token * St)) (next' : St' -> str -> res (Token * St')) (op cl : char) (value : str).
Definition retold_st {A} (r : res (A * St)) (r' : res (A * St')) : Prop :=
  match r, r' with
  | Ok (v, q), Ok (v', q') => v' = v /\ RS q q'
  | Err HexErr, Err (OtherErr m) => exists why, m = lit "Hex parsing error: " ++ why
  | Err e, Err e' => e' = e /\ e <> HexErr
  | Panic, Panic => True
  | _, _ => False
  end.
Lemma st_err A e : e <> HexErr -> @retold_st A (Err e) (Err e).
Proof. intros N. cbn. destruct e; try (split; [reflexivity|discriminate]). contradiction. Qed.
Context (H : forall q q' sub, RS q q' -> part_of sub value -> retold_st (next q sub) (next' q' sub)).
Lemma take_retold s q q' n pos : RS q q' -> retold_st (take_item next value s q n pos) (take_item next' value s q' n pos).
Proof.
  intros R. unfold take_item. destruct (str_slice value (tk_last_item s) pos) as [sub|e|] eqn:E; cbn [bind]; [|now apply str_slice_not_err in E|exact I].
  apply slice_part in E. pose proof (H R E) as G. destruct (next q sub) as [[v r]|e|], (next' q' sub) as [[v' r']|e'|]; cbn [bind retold_st] in *; try exact G; try (destruct e; contradiction).
  destruct G as [-> G]. auto.
Qed.
Lemma char_retold s q q' pos ch : RS q q' -> retold_st (token_char next op cl value s q pos ch) (token_char next' op cl value s q' pos ch).
Proof.
  intros R. unfold token_char. destruct (_ && _); [now split|]. destruct (_ && _).
  - cbv zeta. destruct (_ <? 0)%Z; [now apply st_err|]. destruct (_ =? 0)%Z; [now apply take_retold|now split].
  - destruct (_ =? _); [now split|]. destruct (_ && _); [now apply take_retold|now split].
Qed.
Lemma loop_retold rest : forall pos s q q', RS q q' -> retold (token_loop next op cl value rest pos s q) (token_loop next' op cl value rest pos s q').
Proof.
  induction rest as [|c rest IH]; intros pos s q q' R; cbn [token_loop]; [reflexivity|].
  pose proof (@char_retold s q q' pos c R) as G. destruct (token_char next _ _ _ _ _ _ _) as [[s1 q1]|e|], (token_char next' _ _ _ _ _ _ _) as [[s2 q2]|e'|]; cbn [retold_st bind] in *; try contradiction; try (destruct e; contradiction).
  - destruct G as [-> G]. now apply IH.
  - cbn [retold]. destruct e; try (destruct G as [-> G]; reflexivity). destruct e'; try (destruct G as [_ G]; contradiction). destruct G as [w ->]. now exists w.
  - reflexivity.
Qed.
Lemma items_retold q q' : RS q q' -> retold (tokenize_items next op cl value q) (tokenize_items next' op cl value q').
Proof.
  intros R. unfold tokenize_items. destruct (_ || _); [reflexivity|]. destruct (_ =? 2); [reflexivity|].
  apply retold_bind; [now apply loop_retold|]. intros s. now destruct (tk_ignore s).
Qed.
End Items.
Lemma st_of A St St' (RS : St -> St' -> Prop) (r r' : res A) (q : St) (q' : St') : retold r r' -> RS q q' ->
  retold_st RS (do v <- r; Ok (v, q)) (do v <- r'; Ok (v, q')).
Proof.
  intros T R. destruct r as [v|e|]; cbn [retold bind] in *; [subst r'; now split| |now subst r'].
  destruct e; try (subst r'; cbn; split; [reflexivity|discriminate]). destruct T as [w ->]. cbn. now exists w.
Qed.
Lemma fixed_retold n s : wf_str s = true -> retold (do hex <- hex_decode s; if len hex =? n then Ok hex else Err InvalidData) (told_fixed_bytes s n).
Proof. intros W. apply retold_bind; [now apply retold_hex|]. intros a. now destruct (_ =? _). Qed.
Lemma told_address_eq s : told_address s = told_fixed_bytes s 20.
Proof. unfold told_address, told_fixed_bytes. destruct (hex_told s) as [b|e|]; [|reflexivity|reflexivity]. cbn [bind]. destruct (N.eqb_spec (len b) 20) as [L|L]; [|reflexivity]. unfold copy_from_slice. now rewrite L. Qed.
Lemma told_uint_eq s : told_uint s = told_fixed_bytes s 32.
Proof. unfold told_uint, told_fixed_bytes. destruct (hex_told s) as [b|e|]; [|reflexivity|reflexivity]. cbn [bind]. destruct (N.eqb_spec (len b) 32) as [L|L]; [|reflexivity]. unfold copy_from_slice. now rewrite L. Qed.
Lemma no_hex_error t s : lenient_error t s HexErr -> match t with PUint _ | PInt _ => False | _ => True end.
Proof. destruct t; cbn [lenient_error]; auto; unfold bad_character, too_long, overflow, underflow; intros [_ [[_ X]|(n & _ & X)]]; try discriminate X; repeat (destruct X as [X|X]); destruct X as [_ X]; discriminate X. Qed.
Lemma tokenize_retold lenient t : forall s, wf_str s = true -> retold (tokenize (Plain lenient) t s) (tokenize (Told lenient) t s).
Proof.
  induction t as [| |n|n| | |t' IH|n|t' n IH|ts IH] using ParamType_ind'; intros s W.
  - destruct lenient; apply retold_rmap; cbn; rewrite strict_address_eq, told_address_eq; now apply fixed_retold.
  - destruct lenient; apply retold_rmap; cbn; now apply retold_hex.
  - destruct lenient; apply retold_rmap; cbn.
    + apply retold_refl. intros E. assert (X : tokenize LenientTokenizer (PInt n) s = Err HexErr) by (cbn; now rewrite E). apply lenient_errors in X; [|reflexivity]. now apply no_hex_error in X.
    + unfold strict_int. rewrite strict_uint_eq, told_uint_eq. now apply fixed_retold.
  - destruct lenient; apply retold_rmap; cbn.
    + apply retold_refl. intros E. assert (X : tokenize LenientTokenizer (PUint n) s = Err HexErr) by (cbn; now rewrite E). apply lenient_errors in X; [|reflexivity]. now apply no_hex_error in X.
    + rewrite strict_uint_eq, told_uint_eq. now apply fixed_retold.
  - destruct lenient; apply retold_rmap; cbn; unfold strict_bool; destruct (_ || _); try reflexivity; now destruct (_ || _).
  - destruct lenient; reflexivity.
  - cbn [tokenize]. apply retold_rmap. apply items_retold with (RS := fun _ _ => True); [|exact I]. intros [] [] sub _ P. unfold next_element. apply st_of; [|exact I]. apply IH. now apply part_wf with s.
  - destruct lenient; apply retold_rmap; now apply fixed_retold.
  - cbn [tokenize]. apply retold_rmap. apply retold_bind; [|intros a; now destruct (_ =? _)].
    apply items_retold with (RS := fun _ _ => True); [|exact I]. intros [] [] sub _ P. unfold next_element. apply st_of; [|exact I]. apply IH. now apply part_wf with s.
  - cbn [tokenize]. apply retold_rmap.
    apply items_retold with (RS := fun fs gs => exists us, incl us ts /\ fs = map (tokenize (Plain lenient)) us /\ gs = map (tokenize (Told lenient)) us); [|exists ts; split; [apply incl_refl|now split]].
    intros q q' sub (us & U & -> & ->) P. unfold next_field. destruct us as [|u us]; cbn [map]; [split; [reflexivity|discriminate]|].
    apply st_of; [|exists us; split; [|now split]; intros a Ha; apply U; now right].
    rewrite Forall_forall in IH. apply IH; [apply U; now left|now apply part_wf with s].
Qed.

(** ** Leaves *)
Lemma told_bad s m : wf_str s = true -> (hex_told s = Err (OtherErr m) <-> bad_hex_message s m).
Proof.
  intros W. unfold hex_told, bad_hex_message. destruct (hex_decode_detail s) as [b|e] eqn:E.
  - split; [discriminate|]. intros [[O _]|(O & i & b' & q & F & _)].
    + apply hex_odd in O. congruence.
    + assert (X : hex_decode_detail s = inr (InvalidHexCharacter (Byte.to_N b') i)) by (apply hex_char; eauto). congruence.
  - destruct e as [c i|].
    + pose proof (proj1 (hex_char _ _ _) E) as (O & b & -> & F). split.
      * intros X. injection X as <-. right. split; [exact O|]. exists i, b, (debug_char (Byte.to_N b)). split; [exact F|]. split; [|reflexivity]. apply debug_quoted. pose proof (Byte.to_N_bounded b). lia.
      * intros [[O' _]|(_ & i' & b' & q & F' & Q & ->)]; [congruence|]. destruct (bad_unique F F') as [-> ->].
        rewrite (@quoted_one _ _ (debug_char (Byte.to_N b')) Q); [reflexivity|]. apply debug_quoted. pose proof (Byte.to_N_bounded b'). lia.
    + pose proof (proj1 (hex_odd _) E) as O. split; [intros X; injection X as <-; now left|]. intros [[_ ->]|(O' & _)]; [reflexivity|congruence].
Qed.
Lemma told_cases s : wf_str s = true -> (exists b, hex_told s = Ok b /\ hex_text s b) \/ (exists m, hex_told s = Err (OtherErr m) /\ bad_hex_message s m).
Proof.
  intros W. destruct (hex_told s) as [b|e|] eqn:E.
  - left. exists b. split; [reflexivity|]. unfold hex_told in E. destruct (hex_decode_detail s) eqn:D; [|discriminate E]. injection E as ->. now apply hex_ok in D.
  - right. pose proof E as E'. unfold hex_told in E'. destruct (hex_decode_detail s) eqn:D; [discriminate E'|]. injection E' as <-. eexists. split; [reflexivity|]. now apply told_bad.
  - unfold hex_told in E. destruct (hex_decode_detail s); discriminate E.
Qed.
Definition bad_size (n : N) (s : str) : Prop := bad_hex n s InvalidData.
Lemma told_fixed n s e : wf_str s = true -> (told_fixed_bytes s n = Err e <-> (e = InvalidData /\ bad_size n s) \/ exists m, e = OtherErr m /\ bad_hex_message s m).
Proof.
  intros W. unfold told_fixed_bytes, bad_size, bad_hex. destruct (told_cases s W) as [(b & E & X)|(m & E & X)]; rewrite E; cbn [bind].
  - assert (NB : forall m, ~ bad_hex_message s m) by (intros m Q; apply told_bad in Q; [congruence|exact W]).
    destruct (N.eqb_spec (len b) n) as [L|L].
    + split; [discriminate|]. intros [[_ [[Q _]|(b' & Q & L' & _)]]|(m & _ & Q)]; [destruct (Q _ X)| |destruct (NB _ Q)].
      apply hex_decode_spec in X, Q. rewrite X in Q. injection Q as <-. contradiction.
    + split; [intros Q; injection Q as <-; left; split; [reflexivity|]; right; eauto|]. intros [[-> _]|(m & _ & Q)]; [reflexivity|destruct (NB _ Q)].
  - split; [intros Q; injection Q as <-; right; eauto|]. intros [[_ [[_ Q]|(b & Q & _)]]|(m' & -> & Q)]; [discriminate Q| |].
    + apply hex_ok in Q; [|exact W]. unfold hex_told in E. rewrite Q in E. discriminate E.
    + apply told_bad in Q; [congruence|exact W].
Qed.
Lemma told_leaf lenient t s e : wf_str s = true -> scalar t = true -> (tokenize (Told lenient) t s = Err e <->
  (e = InvalidData /\ (if lenient then lenient_error t s InvalidData else strict_error t s InvalidData)) \/ exists m, e = OtherErr m /\ blames lenient t s m).
Proof.
  intros W Sc. destruct t as [| |n|n| | |t'|n|t' n|ts]; try discriminate Sc.
  - destruct lenient; cbn [tokenize Told LenientTold StrictTold Tokenizer.tokenize_address]; rewrite rmap_err, told_address_eq; now apply told_fixed.
  - assert (G : rmap TBytes (hex_told s) = Err e <-> (e = InvalidData /\ (forall b, ~ hex_text s b) /\ InvalidData = HexErr) \/ exists m, e = OtherErr m /\ bad_hex_message s m); [|now destruct lenient].
    rewrite rmap_err. destruct (told_cases s W) as [(b & E & X)|(m & E & X)]; rewrite E.
    + split; [discriminate|]. intros [(_ & _ & Q)|(m & _ & Q)]; [discriminate Q|]. apply told_bad in Q; [congruence|exact W].
    + split; [intros Q; injection Q as <-; right; eauto|]. intros [(_ & _ & Q)|(m' & -> & Q)]; [discriminate Q|]. apply told_bad in Q; [congruence|exact W].
  - destruct lenient.
    + change (tokenize (Told true) (PInt n) s) with (tokenize LenientTokenizer (PInt n) s). rewrite lenient_errors by exact Sc. split.
      * intros X. right. cbn [blames lenient_error] in *. destruct X as [Nw X]. unfold bad_character, too_long, overflow, underflow in *.
        destruct X as [[X ->]|(z & X & [[Y ->]|[[Y ->]|[Y ->]]])]; eexists; (split; [reflexivity|]); (split; [exact Nw|]); [left; auto|right; exists z; auto..].
      * intros [[-> X]|(m & -> & X)]; exact X.
    + cbn [tokenize Told StrictTold Tokenizer.tokenize_int]; rewrite rmap_err, told_uint_eq; now apply told_fixed.
  - destruct lenient.
    + change (tokenize (Told true) (PUint n) s) with (tokenize LenientTokenizer (PUint n) s). rewrite lenient_errors by exact Sc. split.
      * intros X. right. cbn [blames lenient_error] in *. destruct X as [Nw X]. unfold bad_character, too_long in *.
        destruct X as [[X ->]|(z & X & Y & ->)]; eexists; (split; [reflexivity|]); (split; [exact Nw|]); [left; auto|right; exists z; auto].
      * intros [[-> X]|(m & -> & X)]; exact X.
    + cbn [tokenize Told StrictTold Tokenizer.tokenize_uint]; rewrite rmap_err, told_uint_eq; now apply told_fixed.
  - assert (G : tokenize StrictTokenizer PBool s = Err e <-> (e = InvalidData /\ strict_error PBool s InvalidData) \/ exists m, e = OtherErr m /\ False); [|now destruct lenient].
    rewrite strict_errors by exact Sc. cbn [strict_error]. split; [intros [X ->]; now left; repeat split|]. intros [[-> X]|(m & _ & [])]. exact X.
  - destruct lenient; (split; [discriminate|]); intros [[_ X]|(m & _ & X)]; contradiction.
  - destruct lenient; cbn [tokenize Told LenientTold StrictTold Tokenizer.tokenize_fixed_bytes]; rewrite rmap_err; now apply told_fixed.
Qed.
Lemma message_unfold lenient t s : value_message lenient t s = match tokenize (Told lenient) t s with Err e => display_error e | _ => None end.
Proof. reflexivity. Qed.
(** ** Values that are not containers *)
Lemma scalar_messages lenient t s m : wf_str s = true -> scalar t = true -> (value_message lenient t s = Some m <-> told_error lenient t s m).
Proof.
  intros W Sc. rewrite message_unfold. unfold told_error. split.
  - destruct (tokenize (Told lenient) t s) as [v|e|] eqn:E; try discriminate. apply told_leaf in E as [[-> X]|(m' & -> & X)]; auto; intros Q; injection Q as <-; auto.
  - intros [X|[-> X]].
    + assert (E : tokenize (Told lenient) t s = Err (OtherErr m)) by (apply told_leaf; eauto). now rewrite E.
    + assert (E : tokenize (Told lenient) t s = Err InvalidData) by (apply told_leaf; eauto). now rewrite E.
Qed.
(** ** All values *)
Lemma leaf_scalar t : forall u, List.In u (leaves t) -> scalar u = true.
Proof.
  induction t as [| |n|n| | |t' IH|n|t' n IH|ts IH] using ParamType_ind'; intros u L; cbn [leaves] in L; try (destruct L as [<-|[]]; reflexivity); auto.
  apply in_flat_map in L as (t' & I' & L). rewrite Forall_forall in IH. eauto.
Qed.
Lemma value_messages lenient t s m : wf_str s = true -> value_message lenient t s = Some m ->
  m = lit "Invalid data" \/ exists u x, List.In u (leaves t) /\ part_of x s /\ blames lenient u x m.
Proof.
  intros W. rewrite message_unfold. destruct (tokenize (Told lenient) t s) as [v|e|] eqn:E; try discriminate. intros D.
  apply value_errors in E as [->|(u & x & L & P & E)]; [injection D as <-; now left|].
  apply told_leaf in E as [[-> X]|(m' & -> & X)]; [injection D as <-; now left|injection D as <-; right; eauto|now apply part_wf with s|now apply leaf_scalar with t].
Qed.
Lemma messages_cover lenient t s : wf_str s = true -> ((exists e, tokenize (Plain lenient) t s = Err e) <-> exists m, value_message lenient t s = Some m).
Proof.
  intros W. rewrite message_unfold. pose proof (@tokenize_retold lenient t s W) as R. split.
  - intros [e E]. rewrite E in R. destruct (tokenize (Told lenient) t s) as [v|e'|] eqn:X; [exfalso; cbn in R; destruct e; try discriminate R; destruct R as [w R]; discriminate R| |exfalso; cbn in R; destruct e; try discriminate R; destruct R as [w R]; discriminate R].
    apply value_errors in X as [->|(u & x & L & P & X)]; [eexists; reflexivity|].
    apply told_leaf in X as [[-> _]|(m' & -> & _)]; [eexists; reflexivity|eexists; reflexivity|now apply part_wf with s|now apply leaf_scalar with t].
  - intros [m D]. destruct (tokenize (Told lenient) t s) as [v|e'|] eqn:X; try discriminate D. destruct (tokenize (Plain lenient) t s) as [v|e|]; cbn in R; try discriminate R. eauto.
Qed.
Lemma both_retold t s : wf_str s = true ->
  retold (tokenize StrictTokenizer t s) (tokenize StrictTold t s) /\ retold (tokenize LenientTokenizer t s) (tokenize LenientTold t s).
Proof. intros W. split; [now apply (@tokenize_retold false)|now apply (@tokenize_retold true)]. Qed.

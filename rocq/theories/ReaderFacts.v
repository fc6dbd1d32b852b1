(** * Facts about the type name reader *)
From Verif Require Import Base Types TypeNames TypeNamesSpec BaseFacts StrFacts TypeNamesFacts.
From Coq Require Import String.
From Coq Require Import ZifyBool ZifyNat ZifyN.
Set Implicit Arguments.
Local Open Scope N_scope.
Local Open Scope list_scope.
Notation length := List.length.

Lemma ascii_slice pre m post : all_ascii pre = true -> all_ascii m = true ->
  str_slice (pre ++ m ++ post) (len pre) (len pre + len m) = Ok m.
Proof. intros A B. rewrite <- (str_len_ascii pre A), <- (str_len_ascii m B). apply str_slice_app. Qed.
Lemma all_ascii_app a b : all_ascii (a ++ b) = all_ascii a && all_ascii b.
Proof. apply forallb_app. Qed.

(** ** Written names are ASCII; tuple-free ones have no punctuation *)
Definition punct (c : char) : bool := (c =? 40) || (c =? 41) || (c =? 44).
Lemma forallb_weaken A (f g : A -> bool) l : (forall x, f x = true -> g x = true) -> forallb f l = true -> forallb g l = true.
Proof. rewrite !forallb_forall. auto. Qed.
Lemma digits_ascii s : forallb is_digit s = true -> all_ascii s = true.
Proof. apply forallb_weaken. unfold is_digit, is_ascii. lia. Qed.
Lemma digits_plain s : forallb is_digit s = true -> forallb (fun c => negb (punct c)) s = true.
Proof. apply forallb_weaken. unfold is_digit, punct. lia. Qed.
Lemma join_forallb (f : char -> bool) (l : list str) : forallb f (lit ",") = true -> Forall (fun s => forallb f s = true) l ->
  forallb f (join (lit ",") l) = true.
Proof.
  intros C H. induction H as [|x l Hx H IH]; [reflexivity|]. destruct l as [|y l]; [exact Hx|].
  rewrite join_cons2, !forallb_app, !andb_true_iff. auto.
Qed.
Lemma write_ascii t : all_ascii (write t) = true.
Proof.
  unfold write. induction t using ParamType_ind'; try reflexivity; cbn [write_for_abi];
    rewrite ?all_ascii_app, ?IHt, ?(digits_ascii (show_dec n)) by apply show_dec_digits; try reflexivity.
  unfold all_ascii at 2. rewrite join_forallb; [reflexivity|reflexivity|].
  clear -H. induction H; cbn [map]; constructor; auto.
Qed.
Lemma write_plain t : tuple_free t = true -> forallb (fun c => negb (punct c)) (write t) = true.
Proof.
  unfold write. induction t using ParamType_ind'; intros T; try reflexivity; try discriminate; cbn [write_for_abi];
    rewrite ?forallb_app, ?IHt, ?(digits_plain (show_dec n)) by (apply show_dec_digits || exact T); reflexivity.
Qed.

(** ** Base names and arrays *)
(** Rewriting with a [str_slice] equation up to conversion ([char] is [N]). *)
Ltac slice_rw H := match type of H with _ = ?v => match goal with |- context [str_slice ?a ?b ?c] =>
  replace (str_slice a b c) with v by (symmetry; exact H) end end.
Section Read.
Context (p : profile).

Lemma str_from_lit a b n : str_len a = n -> str_from (a ++ b) n = Ok b.
Proof. intros <-. apply str_from_app. Qed.
Lemma eqb_app_lit (a b c : str) : str_eqb (a ++ b) c = true -> a ++ b = c.
Proof. apply str_eqb_eq. Qed.

Ltac no_lit := rewrite str_eqb_neq; [|let H := fresh in intros H; first [discriminate H|
   (apply (f_equal (@length _)) in H; rewrite app_length in H; cbn [length] in H;
    match type of H with context [length (show_dec ?n)] => pose proof (@show_dec_nonempty n); destruct (show_dec n); [congruence|cbn in H; lia] end)]].

Lemma lit_app_ne (a : str) n (b : str) : len b <= len a -> str_eqb (a ++ show_dec n) b = false.
Proof.
  intros L. apply str_eqb_neq. intros E. apply (f_equal (@len _)) in E. rewrite len_app in E.
  pose proof (@show_dec_nonempty n). destruct (show_dec n); [congruence|]. rewrite len_cons in E. lia.
Qed.
Lemma lit_app_ne2 (a : str) n (b : str) k : firstn k (a ++ show_dec n) <> firstn k b -> str_eqb (a ++ show_dec n) b = false.
Proof. intros H. apply str_eqb_neq. congruence. Qed.

Lemma read_base_int n : n < two64 -> read_base (lit "int" ++ show_dec n) = Ok (PInt n).
Proof.
  intros H. unfold read_base.
  rewrite (lit_app_ne2 _ _ _ 1) by discriminate. rewrite (lit_app_ne2 _ _ _ 1) by discriminate.
  rewrite (lit_app_ne2 _ _ _ 1) by discriminate. rewrite (lit_app_ne2 _ _ _ 1) by discriminate.
  rewrite (lit_app_ne _ _ (lit "int")) by (vm_compute; discriminate).
  rewrite (lit_app_ne2 _ _ _ 1) by discriminate. rewrite (lit_app_ne2 _ _ _ 1) by discriminate.
  rewrite starts_with_app. rewrite str_from_lit by reflexivity. cbn [bind]. now rewrite parse_usize_show.
Qed.
Lemma read_base_uint n : n < two64 -> read_base (lit "uint" ++ show_dec n) = Ok (PUint n).
Proof.
  intros H. unfold read_base.
  rewrite (lit_app_ne2 _ _ _ 1) by discriminate. rewrite (lit_app_ne2 _ _ _ 1) by discriminate.
  rewrite (lit_app_ne2 _ _ _ 1) by discriminate. rewrite (lit_app_ne2 _ _ _ 1) by discriminate.
  rewrite (lit_app_ne2 _ _ _ 1) by discriminate. rewrite (lit_app_ne2 _ _ _ 1) by discriminate.
  rewrite (lit_app_ne _ _ (lit "uint")) by (vm_compute; discriminate).
  change (starts_with (lit "uint" ++ show_dec n) (lit "int")) with false.
  rewrite starts_with_app. rewrite str_from_lit by reflexivity. cbn [bind]. now rewrite parse_usize_show.
Qed.
Lemma read_base_bytes n : n < two64 -> read_base (lit "bytes" ++ show_dec n) = Ok (PFixedBytes n).
Proof.
  intros H. unfold read_base.
  rewrite (lit_app_ne2 _ _ _ 1) by discriminate. rewrite (lit_app_ne _ _ (lit "bytes")) by (vm_compute; discriminate).
  rewrite (lit_app_ne2 _ _ _ 2) by discriminate. rewrite (lit_app_ne2 _ _ _ 1) by discriminate.
  rewrite (lit_app_ne2 _ _ _ 1) by discriminate. rewrite (lit_app_ne2 _ _ _ 1) by discriminate.
  rewrite (lit_app_ne2 _ _ _ 1) by discriminate.
  change (starts_with (lit "bytes" ++ show_dec n) (lit "int")) with false.
  change (starts_with (lit "bytes" ++ show_dec n) (lit "uint")) with false.
  rewrite starts_with_app. rewrite str_from_lit by reflexivity. cbn [bind]. now rewrite parse_usize_show.
Qed.

Lemma last_digits a s : s <> [] -> forallb is_digit s = true ->
  exists c, last_char (a ++ s) = Some c /\ is_digit c = true.
Proof.
  intros NE D. destruct s as [|c s] using rev_ind; [congruence|]. exists c.
  rewrite app_assoc, last_char_app. split; [reflexivity|]. rewrite forallb_app in D. cbn in D.
  apply andb_true_iff in D as [_ D]. now rewrite andb_true_r in D.
Qed.
Lemma read_digits f a n : read_fuel p (S f) (a ++ show_dec n) = read_base (a ++ show_dec n).
Proof.
  destruct (@last_digits a (show_dec n)) as (c & E & D); [apply show_dec_nonempty|apply show_dec_digits|].
  cbn [read_fuel]. rewrite E. unfold is_digit in D. unfold ch_close, ch_rbracket.
  replace (c =? 41) with false by lia. now replace (c =? 93) with false by lia.
Qed.
Lemma usize_sub_ok a b : b <= a -> usize_sub p a b = Ok (a - b).
Proof. intros H. unfold usize_sub. now replace (b <=? a) with true by lia. Qed.

Lemma read_array_name f s t : all_ascii s = true -> read_fuel p f s = Ok t ->
  read_fuel p (S f) (s ++ lit "[]") = Ok (PArray t).
Proof.
  intros A E. cbn [read_fuel]. change (lit "[]") with ([91] ++ [93]). rewrite app_assoc, last_char_app.
  change (93 =? ch_close) with false. change (93 =? ch_rbracket) with true. cbv iota.
  unfold read_array. rewrite !rev_app_distr. cbn [rev app skipn take_while].
  change (91 =? ch_lbracket) with true. cbn [negb rev].
  rewrite !len_app. change (len [91]) with 1. change (len [93]) with 1.
  rewrite usize_sub_ok by lia. cbn [bind].
  replace (len s + 1 + 1 - 2) with (0 + len s) by lia.
  pose proof (@ascii_slice [] s ([91] ++ [93]) eq_refl A) as H. cbn [app] in H. change (len []) with 0 in H.
  rewrite <- app_assoc. cbn [app]. slice_rw H. cbn [bind]. now rewrite E.
Qed.
Lemma read_fixed_name f s t n : all_ascii s = true -> n < two64 -> read_fuel p f s = Ok t ->
  read_fuel p (S f) (s ++ lit "[" ++ show_dec n ++ lit "]") = Ok (PFixedArray t n).
Proof.
  intros A Hn E. cbn [read_fuel]. change (lit "[") with [91]. change (lit "]") with [93].
  pose proof (@last_char_app (s ++ [91] ++ show_dec n) 93) as L. rewrite <- !app_assoc in L. rewrite L.
  change (93 =? ch_close) with false. change (93 =? ch_rbracket) with true. cbv iota.
  unfold read_array. rewrite !rev_app_distr. cbn [rev app skipn]. rewrite <- app_assoc. cbn [app].
  rewrite take_while_stop; [|apply forallb_forall|reflexivity].
  2:{ intros c Hc. apply in_rev in Hc. pose proof (show_dec_digits n) as D. rewrite forallb_forall in D.
      specialize (D c Hc). unfold is_digit, ch_lbracket in *. lia. }
  rewrite rev_involutive. pose proof (@show_dec_nonempty n) as NE.
  destruct (show_dec n) as [|d ds] eqn:Ed; [congruence|]. rewrite <- Ed in *. clear NE.
  rewrite parse_usize_show by assumption. cbn [bind].
  rewrite str_len_ascii by (apply digits_ascii, show_dec_digits).
  rewrite len_app, len_cons, len_app. change (len [93]) with 1.
  rewrite usize_sub_ok by lia. cbn [bind]. rewrite usize_sub_ok by lia. cbn [bind].
  replace (_ - 2) with (0 + len s) by lia.
  pose proof (@ascii_slice [] s (91 :: show_dec n ++ [93]) eq_refl A) as H. cbn [app] in H. change (len []) with 0 in H.
  slice_rw H. cbn [bind]. now rewrite E.
Qed.

(** ** Tuples *)
Section Loop.
Context (rd : str -> res ParamType) (name : str).

Lemma loop_plain w rest pos st : forallb (fun c => negb (punct c)) w = true ->
  read_tuple_loop rd name (w ++ rest) pos 0 st = read_tuple_loop rd name rest (pos + len w) 0 st.
Proof.
  revert pos. induction w as [|c w IH]; intros pos H; cbn [app].
  - rewrite len_nil, N.add_0_r. reflexivity.
  - cbn [forallb] in H. apply andb_true_iff in H as [H1 H2]. cbn [read_tuple_loop]. unfold read_char.
    unfold punct in H1. unfold ch_open, ch_close, ch_comma.
    replace (c =? 40) with false by lia. replace (c =? 41) with false by lia. replace (c =? 44) with false by lia.
    cbn [bind]. rewrite IH by assumption. rewrite len_cons. f_equal. lia.
Qed.
Lemma loop_skip w rest pos st :
  read_tuple_loop rd name (w ++ rest) pos (length w) st = read_tuple_loop rd name rest (pos + len w) 0 st.
Proof.
  revert pos. induction w as [|c w IH]; intros pos; cbn [app length].
  - rewrite len_nil, N.add_0_r. reflexivity.
  - cbn [read_tuple_loop]. rewrite IH, len_cons. f_equal. lia.
Qed.

(** The comma-separated fields of an inner tuple, up to its ')'. *)
Lemma inner_fields us : us <> [] -> Forall (fun u => tuple_free u = true /\ rd (write u) = Ok u) us ->
  forall pre rest subs sts top,
  name = pre ++ join (lit ",") (map write us) ++ rest -> all_ascii pre = true -> sts <> [] ->
  exists sts' last w,
    read_tuple_loop rd name (join (lit ",") (map write us) ++ rest) (len pre) 0 (mkR subs sts 2 top (len pre)) =
    read_tuple_loop rd name rest (len pre + len (join (lit ",") (map write us))) 0 (mkR subs sts' 2 top last) /\
    sts' <> [] /\ w <> [] /\ str_slice name last (len pre + len (join (lit ",") (map write us))) = Ok w.
Proof.
  intros NE H. induction H as [|u us [Hf Hr] H IH]; [congruence|]. clear NE.
  intros pre rest subs sts top EN A NS.
  destruct us as [|u' us].
  - cbn [map join] in *. rewrite loop_plain by (now apply write_plain).
    exists sts, (len pre), (write u). split; [reflexivity|]. split; [assumption|]. split.
    + destruct (write_head u) as (c & s & -> & _). discriminate.
    + rewrite EN. apply ascii_slice; [assumption|apply write_ascii].
  - cbn [map] in *. rewrite join_cons2 in *. rewrite <- !app_assoc in *.
    rewrite loop_plain by (now apply write_plain).
    change (lit ",") with [44] in EN at 1. change (lit ",") with [44] at 1. cbn [app] in *.
    destruct (IH ltac:(discriminate) (pre ++ write u ++ [44]) rest subs) with (sts := match sts with [] => [] | a :: l => (a ++ [u]) :: l end) (top := top)
      as (sts' & last & w & E & E1 & E2 & E3).
    { rewrite EN. rewrite <- !app_assoc. reflexivity. }
    { rewrite !all_ascii_app, A, write_ascii. reflexivity. }
    { destruct sts; [congruence|discriminate]. }
    exists sts', last, w. split; [|split; [assumption|split; [assumption|]]].
    + cbn [read_tuple_loop]. unfold read_char at 1. change (44 =? ch_open) with false. change (44 =? ch_close) with false.
      change (44 =? ch_comma) with true. cbv iota. cbn [last_item nested subtuples subtypes top_level_paren_open].
      rewrite EN at 1. rewrite ascii_slice by (assumption || apply write_ascii). cbn [bind].
      destruct (write_head u) as (c & s & EW & _). rewrite EW at 1. change (2 =? 1)%Z with false. change (1 <? 2)%Z with true.
      cbv iota. rewrite Hr. cbn [bind].
      destruct sts as [|a sts]; [congruence|]. change (Z.to_nat (2 - 2)) with O. cbn [push_at bind].
      rewrite !len_app in E. change (len [44]) with 1 in E.
      rewrite !N.add_assoc in E. rewrite E.
      f_equal. rewrite !len_app. change (len (lit ",")) with 1. lia.
    + rewrite !len_app in E3. change (len [44]) with 1 in E3. rewrite !len_app. change (len (lit ",")) with 1.
      rewrite <- E3. f_equal. lia.
Qed.

Definition is_sep (c : char) : Prop := c = 44 \/ c = 41.
Lemma sep_step pre c post acc sts top : is_sep c ->
  name = pre ++ c :: post -> all_ascii pre = true ->
  read_tuple_loop rd name (c :: post) (len pre) 0 (mkR acc sts 1 top (len pre)) =
  read_tuple_loop rd name post (len pre + 1) 0 (mkR acc sts (if c =? 44 then 1 else 0) top (len pre + 1)).
Proof.
  intros S EN A. cbn [read_tuple_loop]. unfold read_char. cbn [last_item nested subtuples subtypes top_level_paren_open].
  assert (E : str_slice name (len pre) (len pre) = Ok []).
  { pose proof (@ascii_slice pre [] (c :: post) A eq_refl) as H. cbn [app] in H. change (len []) with 0 in H.
    rewrite N.add_0_r in H. now rewrite EN. }
  destruct S as [-> | ->].
  - change (44 =? ch_open) with false. change (44 =? ch_close) with false. change (44 =? ch_comma) with true. cbv iota.
    rewrite E. reflexivity.
  - change (41 =? ch_open) with false. change (41 =? ch_close) with true. change (1 - 1 <? 0)%Z with false. cbv iota.
    rewrite E. reflexivity.
Qed.
Lemma show_sfx_plain l : forallb (fun c => negb (punct c)) (show_sfx l) = true.
Proof.
  unfold show_sfx. induction l as [|o l IH]; [reflexivity|]. cbn [flat_map]. rewrite forallb_app, IH.
  unfold show1. rewrite !forallb_app. destruct o as [n|]; [rewrite (digits_plain (show_dec n)) by apply show_dec_digits|]; reflexivity.
Qed.
Lemma show_sfx_ascii l : all_ascii (show_sfx l) = true.
Proof.
  unfold show_sfx. induction l as [|o l IH]; [reflexivity|]. cbn [flat_map]. rewrite all_ascii_app, IH.
  unfold show1. rewrite !all_ascii_app. destruct o as [n|]; [rewrite (digits_ascii (show_dec n)) by apply show_dec_digits|]; reflexivity.
Qed.

(** One field of the outer tuple with the separator after it. *)
Lemma item_step t : rd (write t) = Ok t ->
  match core t with PTuple us => us <> [] /\ Forall (fun u => tuple_free u = true /\ rd (write u) = Ok u) us
                  | _ => tuple_free t = true end ->
  forall pre c post acc sts top, is_sep c ->
  name = pre ++ write t ++ c :: post -> all_ascii pre = true ->
  exists sts' top',
  read_tuple_loop rd name (write t ++ c :: post) (len pre) 0 (mkR acc sts 1 top (len pre)) =
  read_tuple_loop rd name post (len pre + len (write t) + 1) 0
    (mkR (acc ++ [t]) sts' (if c =? 44 then 1 else 0) top' (len pre + len (write t) + 1)).
Proof.
  intros Hr K pre c post acc sts top S EN A.
  assert (Flat : tuple_free t = true -> exists sts' top',
    read_tuple_loop rd name (write t ++ c :: post) (len pre) 0 (mkR acc sts 1 top (len pre)) =
    read_tuple_loop rd name post (len pre + len (write t) + 1) 0
    (mkR (acc ++ [t]) sts' (if c =? 44 then 1 else 0) top' (len pre + len (write t) + 1))).
  { intros F. exists sts, top. rewrite loop_plain by (now apply write_plain).
    cbn [read_tuple_loop]. unfold read_char. cbn [last_item nested subtuples subtypes top_level_paren_open].
    assert (E : str_slice name (len pre) (len pre + len (write t)) = Ok (write t)).
    { rewrite EN. apply ascii_slice; [assumption|apply write_ascii]. }
    destruct (write_head t) as (x & s & EW & _).
    destruct S as [-> | ->].
    - change (44 =? ch_open) with false. change (44 =? ch_close) with false. change (44 =? ch_comma) with true. cbv iota.
      rewrite E. cbn [bind]. rewrite EW at 1. change (1 =? 1)%Z with true. cbv iota. rewrite Hr. reflexivity.
    - change (41 =? ch_open) with false. change (41 =? ch_close) with true. change (1 - 1 <? 0)%Z with false. cbv iota.
      rewrite E. cbn [bind]. rewrite EW at 1. change (1 - 1 =? 0)%Z with true. cbv iota. rewrite Hr. reflexivity. }
  destruct (core t) as [| | | | | | | | |us] eqn:EC; auto. clear Flat.
  destruct K as [NE K].
  pose proof (write_core t) as EW. rewrite EC, write_tuple in EW. cbn [app] in EW. rewrite <- app_assoc in EW. cbn [app] in EW.
  set (Y := join (lit ",") (map write us)) in *. set (SX := show_sfx (sfx t)) in *.
  assert (EX : write t ++ c :: post = 40 :: Y ++ 41 :: SX ++ c :: post).
  { rewrite EW. cbn [app]. rewrite <- app_assoc. reflexivity. }
  rewrite EX in EN |- *.
  (* '(' *)
  cbn [read_tuple_loop]. unfold read_char at 1. change (40 =? ch_open) with true. cbv iota.
  cbn [nested subtypes subtuples last_item top_level_paren_open]. change (1 <? 1 + 1)%Z with true. cbv iota. cbn [bind].
  change (1 + 1)%Z with 2%Z.
  destruct (@inner_fields us NE K (pre ++ [40]) (41 :: SX ++ c :: post) acc (sts ++ [[]]) (len pre))
    as (sts' & last & w & E & NS & NW & EL).
  { rewrite EN, <- app_assoc. reflexivity. }
  { rewrite all_ascii_app, A. reflexivity. }
  { destruct sts; discriminate. }
  rewrite len_app in E, EL. change (len [40]) with 1 in E, EL. fold Y in E, EL. rewrite E. clear E.
  (* ')' *)
  assert (LW : len (write t) = 1 + len Y + 1 + len SX).
  { rewrite EW, len_cons, len_app, len_cons. lia. }
  cbn [read_tuple_loop]. unfold read_char at 1. change (41 =? ch_open) with false. change (41 =? ch_close) with true. cbv iota.
  cbn [nested subtypes subtuples last_item top_level_paren_open]. change (2 - 1 <? 0)%Z with false. cbv iota.
  rewrite EL. cbn [bind]. destruct w as [|w0 w]; [congruence|]. change (2 - 1 =? 0)%Z with false. cbv iota zeta.
  rewrite take_while_stop with (a := SX).
  2:{ eapply forallb_weaken; [|apply show_sfx_plain]. unfold punct, ch_comma, ch_close. intros x. lia. }
  2:{ destruct S as [-> | ->]; reflexivity. }
  assert (EI : str_slice name (len pre) (len pre + 1 + len Y + len SX + 1) = Ok (write t)).
  { replace (len pre + 1 + len Y + len SX + 1) with (len pre + len (write t)) by lia. rewrite EN.
    replace (pre ++ 40 :: Y ++ 41 :: SX ++ c :: post) with (pre ++ write t ++ c :: post).
    - apply ascii_slice; [assumption|apply write_ascii].
    - rewrite EW. cbn [app]. rewrite <- app_assoc. reflexivity. }
  rewrite EI. cbn [bind]. rewrite Hr. cbn [bind]. change (1 <? 2 - 1)%Z with false. cbv iota. cbn [bind].
  change (2 - 1)%Z with 1%Z.
  rewrite loop_skip.
  pose proof (@sep_step (pre ++ write t) c post (acc ++ [t]) sts' (len pre) S) as SS.
  exists sts', (len pre).
  rewrite len_app in SS. rewrite <- SS; clear SS.
  - replace (len pre + 1 + len Y + 1 + len SX) with (len pre + len (write t)) by lia.
    replace (len pre + 1 + len Y + len SX + 1) with (len pre + len (write t)) by lia. reflexivity.
  - rewrite EN, EW, <- app_assoc. cbn [app]. rewrite <- app_assoc. reflexivity.
  - rewrite all_ascii_app, A, write_ascii. reflexivity.
Qed.

Definition item_good (t : ParamType) : Prop := rd (write t) = Ok t /\
  match core t with PTuple us => us <> [] /\ Forall (fun u => tuple_free u = true /\ rd (write u) = Ok u) us
                  | _ => tuple_free t = true end.
Lemma items_loop ts : ts <> [] -> Forall item_good ts -> forall pre acc sts top,
  name = pre ++ join (lit ",") (map write ts) ++ [41] -> all_ascii pre = true ->
  exists st, read_tuple_loop rd name (join (lit ",") (map write ts) ++ [41]) (len pre) 0 (mkR acc sts 1 top (len pre)) = Ok st /\
    subtypes st = acc ++ ts.
Proof.
  intros NE H. induction H as [|t ts [Hr K] H IH]; [congruence|]. clear NE. intros pre acc sts top EN A.
  destruct ts as [|t' ts].
  - cbn [map join] in *. destruct (@item_step t Hr K pre 41 [] acc sts top) as (sts' & top' & E); [now right|assumption|assumption|].
    rewrite E. cbn [read_tuple_loop]. eexists. split; reflexivity.
  - cbn [map] in *. rewrite join_cons2 in *. rewrite <- !app_assoc in *.
    change (lit "," ++ join (lit ",") (write t' :: map write ts) ++ [41]) with
      (44 :: join (lit ",") (write t' :: map write ts) ++ [41]) in *.
    destruct (@item_step t Hr K pre 44 (join (lit ",") (write t' :: map write ts) ++ [41]) acc sts top)
      as (sts' & top' & E); [now left|assumption|assumption|].
    rewrite E. change (44 =? 44) with true. cbv iota.
    destruct (IH ltac:(discriminate) (pre ++ write t ++ [44]) (acc ++ [t]) sts' top') as (st & E' & ES).
    { rewrite EN, <- !app_assoc. reflexivity. }
    { rewrite !all_ascii_app, A, write_ascii. reflexivity. }
    rewrite !len_app in E'. change (len [44]) with 1 in E'. rewrite N.add_assoc in E'.
    exists st. split; [exact E'|]. rewrite ES, <- app_assoc. reflexivity.
Qed.
End Loop.

Lemma read_tuple_name f ts : Forall (item_good (read_fuel p f)) ts ->
  read_fuel p (S f) (write (PTuple ts)) = Ok (PTuple ts).
Proof.
  intros H. cbn [read_fuel]. rewrite write_tuple.
  change (40 :: join (lit ",") (map write ts) ++ [41]) with ((40 :: join (lit ",") (map write ts)) ++ [41]) at 1.
  rewrite last_char_app. change (41 =? ch_close) with true. cbv iota.
  unfold read_tuple. change (starts_with_char _ ch_open) with true. cbv iota.
  cbn [read_tuple_loop]. unfold read_char at 1. change (40 =? ch_open) with true. cbv iota.
  cbn [nested subtypes subtuples last_item top_level_paren_open]. change (1 <? 0 + 1)%Z with false. cbv iota. cbn [bind].
  change (0 + 1)%Z with 1%Z. change (0 + 1) with 1.
  destruct ts as [|t ts].
  - reflexivity.
  - destruct (@items_loop (read_fuel p f) (40 :: join (lit ",") (map write (t :: ts)) ++ [41]) (t :: ts)) with
      (pre := [40]) (acc := @nil ParamType) (sts := @nil (list ParamType)) (top := 0) as (st & E & ES); auto; [discriminate|].
    change (len [40]) with 1 in E. rewrite E. cbn [bind]. now rewrite ES.
Qed.
Lemma tuple_free_shallow t : tuple_free t = true -> shallow t = true.
Proof. induction t using ParamType_ind'; cbn; auto; discriminate. Qed.
Lemma shallow_two t : shallow t = true -> two_levels t = true.
Proof.
  induction t using ParamType_ind'; cbn; auto. destruct ts; [discriminate|]. rewrite !forallb_forall.
  intros T x Hx. apply tuple_free_shallow. auto.
Qed.
Lemma join_in s l : In s l -> len s <= len (join (lit ",") l).
Proof.
  induction l as [|x l IH]; [contradiction|]. intros [->|I].
  - destruct l; [reflexivity|]. rewrite join_cons2, len_app. lia.
  - destruct l as [|y l]; [contradiction|]. rewrite join_cons2, !len_app. specialize (IH I). lia.
Qed.
Lemma tuple_free_core t : tuple_free t = true -> match core t with PTuple _ => False | _ => True end.
Proof. induction t using ParamType_ind'; cbn; auto. discriminate. Qed.
Lemma shallow_core t : shallow t = true ->
  match core t with PTuple us => us <> [] /\ forallb tuple_free us = true | _ => tuple_free t = true end.
Proof.
  induction t using ParamType_ind'; intros S; try reflexivity; try exact (IHt S).
  cbn [shallow core] in *. destruct ts; [discriminate|]. split; [discriminate|assumption].
Qed.
Lemma core_len t : len (write (core t)) <= len (write t).
Proof. rewrite (write_core t), len_app. lia. Qed.
Lemma wf_core t us : wf_type t = true -> core t = PTuple us -> forallb wf_type us = true.
Proof.
  induction t using ParamType_ind'; intros W C; try discriminate; cbn [core wf_type] in *; auto.
  - apply andb_true_iff in W as []. auto.
  - now injection C as <-.
Qed.

Lemma read_written_size : forall n t f, (length (write t) <= n)%nat -> wf_type t = true -> two_levels t = true ->
  (length (write t) < f)%nat -> read_fuel p f (write t) = Ok t.
Proof.
  induction n as [|n IH]; intros t f Hn W T Hf.
  { destruct (write_head t) as (c & s & E & _). rewrite E in Hn. cbn in Hn. lia. }
  destruct f as [|f]; [lia|].
  destruct t; try reflexivity.
  - unfold write. cbn [write_for_abi]. rewrite read_digits. apply read_base_int. cbn [wf_type] in W. lia.
  - unfold write. cbn [write_for_abi]. rewrite read_digits. apply read_base_uint. cbn [wf_type] in W. lia.
  - change (write (PArray t)) with (write t ++ lit "[]") in *. rewrite app_length in *. cbn [length lit] in *.
    change (length (lit "[]")) with 2%nat in *.
    apply read_array_name; [apply write_ascii|]. apply IH; auto; lia.
  - unfold write. cbn [write_for_abi]. rewrite read_digits. apply read_base_bytes. cbn [wf_type] in W. lia.
  - change (write (PFixedArray t size)) with (write t ++ lit "[" ++ show_dec size ++ lit "]") in *.
    rewrite !app_length in *. change (length (lit "[")) with 1%nat in *.
    cbn [wf_type two_levels] in *. apply andb_true_iff in W as [W1 W2].
    apply read_fixed_name; [apply write_ascii|lia|]. apply IH; auto; lia.
  - apply read_tuple_name. cbn [wf_type two_levels] in *. rewrite forallb_forall in W, T.
    assert (L : forall t, In t ts -> (length (write t) + 2 <= length (write (PTuple ts)))%nat).
    { intros t Ht. pose proof (@join_in (write t) (map write ts) (in_map _ _ _ Ht)) as J. rewrite write_tuple.
      cbn [length]. rewrite app_length. cbn [length]. unfold len in J. lia. }
    apply Forall_forall. intros t Ht. specialize (L t Ht). split.
    + apply IH; [lia|auto|apply shallow_two; auto|lia].
    + pose proof (shallow_core _ (T t Ht)) as SC. destruct (core t) as [| | | | | | | | |us] eqn:EC; auto.
      destruct SC as [NE FU]. split; [assumption|]. rewrite forallb_forall in FU.
      assert (WU := wf_core t (W t Ht) EC). rewrite forallb_forall in WU.
      apply Forall_forall. intros u Hu. split; [auto|].
      pose proof (@join_in (write u) (map write us) (in_map _ _ _ Hu)) as J.
      pose proof (core_len t) as CL. rewrite EC, write_tuple in CL. rewrite len_cons, len_app in CL.
      unfold len in *. apply IH; [lia|auto|apply shallow_two, tuple_free_shallow; auto|lia].
Qed.
Lemma read_written t : wf_type t = true -> two_levels t = true -> read p (write t) = Ok t.
Proof. intros W T. unfold read. eapply read_written_size; eauto. Qed.
End Read.

(** * How deep the calls are nested that read a written name, exactly *)
From Verif Require Import Base BaseFacts StrFacts Types TypeNames TypeNamesSpec TypeNamesFacts ReaderSpec ReaderFacts ReaderGrammar DepthSpec DepthFacts Work Stack StackSpec StackFacts StackBound TextStack TextStackFacts.
From Coq Require Import String.
From Coq Require Import Lia ZifyBool ZifyNat ZifyN.
Set Implicit Arguments.
Notation length := List.length.
Local Open Scope N_scope.
Local Open Scope list_scope.

Lemma loop_over rd calls name w rest pos st : forallb (fun c => negb (punct c)) w = true ->
  tuple_calls rd calls name (w ++ rest) pos 0 st = tuple_calls rd calls name rest (pos + len w) 0 st.
Proof.
  revert pos. induction w as [|c w IH]; intros pos H; [now rewrite len_nil, N.add_0_r|]. cbn [forallb] in H. apply andb_true_iff in H as [C H].
  cbn [app tuple_calls]. assert (R : forall r, read_char r name st pos c (w ++ rest) = Ok (st, O)).
  { intros r. unfold punct in C. unfold read_char, ch_open, ch_close, ch_comma. replace (c =? 40) with false by lia. replace (c =? 41) with false by lia. now replace (c =? 44) with false by lia. }
  rewrite !R. unfold cost_asked. cbn [asked]. rewrite N.max_0_l, IH by exact H. f_equal. rewrite len_cons. lia.
Qed.
Lemma skip_over rd calls name w rest pos st :
  tuple_calls rd calls name (w ++ rest) pos (length w) st = tuple_calls rd calls name rest (pos + len w) 0 st.
Proof.
  revert pos. induction w as [|c w IH]; intros pos; cbn [app length].
  - rewrite len_nil, N.add_0_r. reflexivity.
  - cbn [tuple_calls]. rewrite IH, len_cons. f_equal. lia.
Qed.
Section Loop.
Context (rd : str -> res ParamType) (calls : str -> N) (name : str).
Let loop := tuple_calls rd calls name.
Lemma inner_calls B us : us <> [] -> Forall (fun u => tuple_free u = true /\ rd (write u) = Ok u /\ calls (write u) <= B) us ->
  forall pre rest subs sts top,
  name = pre ++ join (lit ",") (map write us) ++ rest -> all_ascii pre = true -> sts <> [] ->
  exists sts' last w b, b <= B /\
    loop (join (lit ",") (map write us) ++ rest) (len pre) 0%nat (mkR subs sts 2 top (len pre)) =
    N.max b (loop rest (len pre + len (join (lit ",") (map write us))) 0%nat (mkR subs sts' 2 top last)) /\
    sts' <> [] /\ w <> [] /\ str_slice name last (len pre + len (join (lit ",") (map write us))) = Ok w.
Proof.
  intros NE H. induction H as [|u us (Hf & Hr & Hc) H IH]; [congruence|]. clear NE.
  intros pre rest subs sts top EN A NS.
  destruct us as [|u' us].
  - cbn [map join] in *. unfold loop. rewrite loop_over by (now apply write_plain).
    exists sts, (len pre), (write u), 0. split; [lia|]. split; [now rewrite N.max_0_l|]. split; [assumption|]. split.
    + destruct (write_head u) as (c & s & -> & _). discriminate.
    + rewrite EN. apply ascii_slice; [assumption|apply write_ascii].
  - cbn [map] in *. rewrite join_cons2 in *. rewrite <- !app_assoc in *.
    unfold loop in *. rewrite loop_over by (now apply write_plain).
    change (lit ",") with [44] in EN at 1. change (lit ",") with [44] at 1. cbn [app] in *.
    destruct (IH ltac:(discriminate) (pre ++ write u ++ [44]) rest subs) with (sts := match sts with [] => [] | a :: l => (a ++ [u]) :: l end) (top := top)
      as (sts' & last & w & b & Lb & E & E1 & E2 & E3).
    { rewrite EN. rewrite <- !app_assoc. reflexivity. }
    { rewrite !all_ascii_app, A, write_ascii. reflexivity. }
    { destruct sts; [congruence|discriminate]. }
    exists sts', last, w, (N.max (calls (write u)) b). split; [lia|]. split; [|split; [assumption|split; [assumption|]]].
    + cbn [tuple_calls]. unfold read_char. change (44 =? ch_open) with false. change (44 =? ch_close) with false.
      change (44 =? ch_comma) with true. cbv iota. cbn [last_item nested subtuples subtypes top_level_paren_open].
      assert (SL : str_slice name (len pre) (len pre + len (write u)) = Ok (write u)) by (rewrite EN; apply ascii_slice; [assumption|apply write_ascii]).
      rewrite SL. cbn [bind].
      assert (NW : forall X (a b : X), match write u with [] => a | _ => b end = b) by (intros; now destruct (write_head u) as (? & ? & -> & _)). rewrite !NW. change (2 =? 1)%Z with false. change (1 <? 2)%Z with true.
      cbv iota. rewrite Hr. unfold ask. cbn [bind]. unfold cost_asked. cbn [asked].
      destruct sts as [|a sts]; [congruence|]. change (Z.to_nat (2 - 2)) with O. cbn [push_at bind].
      rewrite !len_app in E. change (len [44]) with 1 in E.
      rewrite !N.add_assoc in E. rewrite E, N.max_assoc.
      f_equal. f_equal. rewrite !len_app. change (len (lit ",")) with 1. lia.
    + rewrite !len_app in E3. change (len [44]) with 1 in E3. rewrite !len_app. change (len (lit ",")) with 1.
      rewrite <- E3. f_equal. lia.
Qed.
Lemma sep_calls pre c post acc sts top : is_sep c ->
  name = pre ++ c :: post -> all_ascii pre = true ->
  loop (c :: post) (len pre) 0%nat (mkR acc sts 1 top (len pre)) =
  loop post (len pre + 1) 0%nat (mkR acc sts (if c =? 44 then 1 else 0) top (len pre + 1)).
Proof.
  intros S EN A. unfold loop. cbn [tuple_calls]. unfold read_char. cbn [last_item nested subtuples subtypes top_level_paren_open].
  assert (E : str_slice name (len pre) (len pre) = Ok []).
  { pose proof (@ascii_slice pre [] (c :: post) A eq_refl) as H. cbn [app] in H. change (len []) with 0 in H.
    rewrite N.add_0_r in H. now rewrite EN. }
  destruct S as [-> | ->].
  - change (44 =? ch_open) with false. change (44 =? ch_close) with false. change (44 =? ch_comma) with true. cbv iota.
    rewrite E. cbn [bind]. unfold cost_asked. cbn [asked]. now rewrite N.max_0_l.
  - change (41 =? ch_open) with false. change (41 =? ch_close) with true. change (1 - 1 <? 0)%Z with false. cbv iota.
    rewrite E. cbn [bind]. unfold cost_asked. cbn [asked]. now rewrite N.max_0_l.
Qed.
Definition item_fine (t : ParamType) : Prop := rd (write t) = Ok t /\
  match core t with PTuple us => us <> [] /\ Forall (fun u => tuple_free u = true /\ rd (write u) = Ok u /\ calls (write u) <= calls (write t)) us
                  | _ => tuple_free t = true end.
Lemma item_calls t : item_fine t ->
  forall pre c post acc sts top, is_sep c ->
  name = pre ++ write t ++ c :: post -> all_ascii pre = true ->
  exists sts' top',
  loop (write t ++ c :: post) (len pre) 0%nat (mkR acc sts 1 top (len pre)) =
  N.max (calls (write t)) (loop post (len pre + len (write t) + 1) 0%nat
    (mkR (acc ++ [t]) sts' (if c =? 44 then 1 else 0) top' (len pre + len (write t) + 1))).
Proof.
  intros [Hr K] pre c post acc sts top S EN A. unfold loop in *.
  assert (Flat : tuple_free t = true -> exists sts' top',
    tuple_calls rd calls name (write t ++ c :: post) (len pre) 0 (mkR acc sts 1 top (len pre)) =
    N.max (calls (write t)) (tuple_calls rd calls name post (len pre + len (write t) + 1) 0
    (mkR (acc ++ [t]) sts' (if c =? 44 then 1 else 0) top' (len pre + len (write t) + 1)))).
  { intros F. exists sts, top. rewrite loop_over by (now apply write_plain).
    cbn [tuple_calls]. unfold read_char. cbn [last_item nested subtuples subtypes top_level_paren_open].
    assert (E : str_slice name (len pre) (len pre + len (write t)) = Ok (write t)).
    { rewrite EN. apply ascii_slice; [assumption|apply write_ascii]. }
    assert (NW : forall X (a b : X), match write t with [] => a | _ => b end = b) by (intros; now destruct (write_head t) as (? & ? & -> & _)).
    destruct S as [-> | ->].
    - change (44 =? ch_open) with false. change (44 =? ch_close) with false. change (44 =? ch_comma) with true. cbv iota.
      rewrite E. cbn [bind]. rewrite !NW. change (1 =? 1)%Z with true. cbv iota. rewrite Hr. reflexivity.
    - change (41 =? ch_open) with false. change (41 =? ch_close) with true. change (1 - 1 <? 0)%Z with false. cbv iota.
      rewrite E. cbn [bind]. rewrite !NW. change (1 - 1 =? 0)%Z with true. cbv iota. rewrite Hr. reflexivity. }
  destruct (core t) as [| | | | | | | | |us] eqn:EC; auto. clear Flat.
  destruct K as [NE K].
  pose proof (write_core t) as EW. rewrite EC, write_tuple in EW. cbn [app] in EW. rewrite <- app_assoc in EW. cbn [app] in EW.
  set (Y := join (lit ",") (map write us)) in *. set (SX := show_sfx (sfx t)) in *.
  assert (EX : write t ++ c :: post = 40 :: Y ++ 41 :: SX ++ c :: post).
  { rewrite EW. cbn [app]. rewrite <- app_assoc. reflexivity. }
  rewrite EX in EN |- *.
  (* '(' *)
  cbn [tuple_calls]. unfold read_char at 1 2. change (40 =? ch_open) with true. cbv iota.
  cbn [nested subtypes subtuples last_item top_level_paren_open]. change (1 <? 1 + 1)%Z with true. cbv iota. cbn [bind]. unfold cost_asked at 1. cbn [asked]. rewrite N.max_0_l.
  change (1 + 1)%Z with 2%Z.
  destruct (@inner_calls _ us NE K (pre ++ [40]) (41 :: SX ++ c :: post) acc (sts ++ [[]]) (len pre))
    as (sts' & last & w & b & Lb & E & NS & NW & EL).
  { rewrite EN, <- app_assoc. reflexivity. }
  { rewrite all_ascii_app, A. reflexivity. }
  { destruct sts; discriminate. }
  rewrite len_app in E, EL. change (len [40]) with 1 in E, EL. fold Y in E, EL. unfold loop in E. rewrite E. clear E.
  (* ')' *)
  assert (LW : len (write t) = 1 + len Y + 1 + len SX).
  { rewrite EW, len_cons, len_app, len_cons. lia. }
  assert (EI : str_slice name (len pre) (len pre + 1 + len Y + len SX + 1) = Ok (write t)).
  { replace (len pre + 1 + len Y + len SX + 1) with (len pre + len (write t)) by lia. rewrite EN.
    replace (pre ++ 40 :: Y ++ 41 :: SX ++ c :: post) with (pre ++ write t ++ c :: post).
    - apply ascii_slice; [assumption|apply write_ascii].
    - rewrite EW. cbn [app]. rewrite <- app_assoc. reflexivity. }
  assert (TW : take_while (fun c => negb ((c =? ch_comma) || (c =? ch_close))) (SX ++ c :: post) = SX).
  { apply take_while_stop.
    - eapply forallb_weaken; [|apply show_sfx_plain]. unfold punct, ch_comma, ch_close. intros x. lia.
    - destruct S as [-> | ->]; reflexivity. }
  cbn [tuple_calls]. unfold read_char at 1 2. change (41 =? ch_open) with false. change (41 =? ch_close) with true. cbv iota.
  cbn [nested subtypes subtuples last_item top_level_paren_open]. change (2 - 1 <? 0)%Z with false. cbv iota.
  rewrite EL. cbn [bind]. destruct w as [|w0 w]; [congruence|]. change (2 - 1 =? 0)%Z with false. cbv iota zeta.
  rewrite !TW, !EI. cbn [bind]. rewrite Hr. unfold ask. cbn [bind]. unfold cost_asked at 1. cbn [asked]. change (1 <? 2 - 1)%Z with false. cbv iota. cbn [bind].
  change (2 - 1)%Z with 1%Z.
  rewrite skip_over.
  pose proof (@sep_calls (pre ++ write t) c post (acc ++ [t]) sts' (len pre) S) as SS.
  exists sts', (len pre).
  rewrite len_app in SS. unfold loop in SS. rewrite <- SS; clear SS.
  - rewrite N.max_assoc. f_equal; [lia|].
    replace (len pre + 1 + len Y + 1 + len SX) with (len pre + len (write t)) by lia.
    replace (len pre + 1 + len Y + len SX + 1) with (len pre + len (write t)) by lia. reflexivity.
  - rewrite EN, EW, <- app_assoc. cbn [app]. rewrite <- app_assoc. reflexivity.
  - rewrite all_ascii_app, A, write_ascii. reflexivity.
Qed.
Lemma items_calls_written ts : ts <> [] -> Forall item_fine ts -> forall pre acc sts top,
  name = pre ++ join (lit ",") (map write ts) ++ [41] -> all_ascii pre = true ->
  loop (join (lit ",") (map write ts) ++ [41]) (len pre) 0%nat (mkR acc sts 1 top (len pre)) = most (fun t => calls (write t)) ts.
Proof.
  intros NE H. induction H as [|t ts Ht H IH]; [congruence|]. clear NE. intros pre acc sts top EN A.
  destruct ts as [|t' ts].
  - cbn [map join] in *. destruct (@item_calls t Ht pre 41 [] acc sts top) as (sts' & top' & E); [now right|assumption|assumption|].
    rewrite E. reflexivity.
  - cbn [map] in *. rewrite join_cons2 in *. rewrite <- !app_assoc in *.
    change (lit "," ++ join (lit ",") (write t' :: map write ts) ++ [41]) with
      (44 :: join (lit ",") (write t' :: map write ts) ++ [41]) in *.
    destruct (@item_calls t Ht pre 44 (join (lit ",") (write t' :: map write ts) ++ [41]) acc sts top)
      as (sts' & top' & E); [now left|assumption|assumption|].
    rewrite E. change (44 =? 44) with true. cbv iota.
    pose proof (IH ltac:(discriminate) (pre ++ write t ++ [44]) (acc ++ [t]) sts' top') as E'.
    rewrite !len_app in E'. change (len [44]) with 1 in E'. rewrite N.add_assoc in E'. cbn [most]. f_equal. apply E'.
    { rewrite EN, <- !app_assoc. reflexivity. }
    { rewrite !all_ascii_app, A, write_ascii. reflexivity. }
Qed.
End Loop.

Section Names.
Context (p : profile).
Lemma suffix_calls f x num w : all_ascii x = true -> suffix_wrap num w ->
  name_calls_fuel p (S f) (x ++ 91 :: num ++ [93]) = 1 + name_calls_fuel p f x.
Proof.
  intros A W. cbn [name_calls_fuel].
  assert (L : last_char (x ++ 91 :: num ++ [93]) = Some 93) by (rewrite app_comm_cons, app_assoc; apply last_char_app).
  rewrite L. change (93 =? ch_close) with false. change (93 =? ch_rbracket) with true. cbv iota.
  rewrite (read_array_wrap p ask x W). pose proof (@ascii_slice [] x (91 :: num ++ [93]) eq_refl A) as E. cbn [app] in E. rewrite len_nil, N.add_0_l in E. rewrite E.
  unfold cost_asked. reflexivity.
Qed.
Lemma digits_calls f a n : name_calls_fuel p (S f) (a ++ show_dec n) = 1.
Proof.
  cbn [name_calls_fuel]. destruct (@last_digits a (show_dec n) (@show_dec_nonempty n) (show_dec_digits n)) as (c & -> & D).
  unfold is_digit, ch_close, ch_rbracket in *. replace (c =? 41) with false by lia. now replace (c =? 93) with false by lia.
Qed.
Lemma tuple_name_calls f ts : Forall (item_fine (read_fuel p f) (name_calls_fuel p f)) ts ->
  name_calls_fuel p (S f) (write (PTuple ts)) = 1 + most (fun t => name_calls_fuel p f (write t)) ts.
Proof.
  intros H. cbn [name_calls_fuel]. rewrite write_tuple.
  change (40 :: join (lit ",") (map write ts) ++ [41]) with ((40 :: join (lit ",") (map write ts)) ++ [41]) at 1.
  rewrite last_char_app. change (41 =? ch_close) with true. cbv iota.
  change (starts_with_char _ ch_open) with true. cbv iota. rewrite open_calls. f_equal.
  destruct ts as [|t ts]; [reflexivity|].
  apply (@items_calls_written (read_fuel p f) (name_calls_fuel p f) _ (t :: ts)); auto. discriminate.
Qed.
Lemma nlevels_core t us : core t = PTuple us -> forall u, In u us -> nlevels u <= nlevels t.
Proof.
  induction t using ParamType_ind'; intros C; try discriminate; cbn [core] in C.
  - intros u I. specialize (IHt C u I). unfold nlevels in *. cbn [levels]. lia.
  - intros u I. specialize (IHt C u I). unfold nlevels in *. cbn [levels]. lia.
  - injection C as ->. intros u I. rewrite nlevels_tuple. pose proof (most_in nlevels _ _ I). lia.
Qed.
Lemma written_calls_size : forall n t f, (length (write t) <= n)%nat -> wf_type t = true -> two_levels t = true ->
  (length (write t) < f)%nat -> name_calls_fuel p f (write t) = nlevels t.
Proof.
  induction n as [|n IH]; intros t f Hn W T Hf.
  { destruct (write_head t) as (c & s & E & _). rewrite E in Hn. cbn in Hn. lia. }
  destruct f as [|f]; [lia|].
  destruct t; try reflexivity.
  - unfold write. cbn [write_for_abi]. apply digits_calls.
  - unfold write. cbn [write_for_abi]. apply digits_calls.
  - change (write (PArray t)) with (write t ++ lit "[]") in *. rewrite app_length in *. change (length (lit "[]")) with 2%nat in *.
    change (lit "[]") with (91 :: [] ++ [93]). rewrite (@suffix_calls f (write t) [] PArray); [|apply write_ascii|now left].
    rewrite IH by (auto; lia). unfold nlevels. cbn [levels]. lia.
  - unfold write. cbn [write_for_abi]. apply digits_calls.
  - change (write (PFixedArray t size)) with (write t ++ 91 :: show_dec size ++ [93]) in *.
    rewrite !app_length in *. cbn [length] in *.
    cbn [wf_type two_levels] in *. apply andb_true_iff in W as [W1 W2].
    rewrite (@suffix_calls f (write t) (show_dec size) (fun t => PFixedArray t size)); [|apply write_ascii|].
    2:{ right. exists size. split; [|reflexivity]. apply parse_usize_iff. apply parse_usize_show. lia. }
    rewrite IH by (auto; lia). unfold nlevels. cbn [levels]. lia.
  - cbn [wf_type two_levels] in *. rewrite forallb_forall in W, T.
    assert (L : forall t, In t ts -> (length (write t) + 2 <= length (write (PTuple ts)))%nat).
    { intros t Ht. pose proof (@join_in (write t) (map write ts) (in_map _ _ _ Ht)) as J. rewrite write_tuple.
      cbn [length]. rewrite app_length. cbn [length]. unfold len in J. lia. }
    assert (Q : forall t, In t ts -> name_calls_fuel p f (write t) = nlevels t).
    { intros t Ht. specialize (L t Ht). apply IH; [lia|auto|apply shallow_two; auto|lia]. }
    rewrite tuple_name_calls.
    + rewrite nlevels_tuple. f_equal. clear -Q. induction ts as [|t ts IHs]; [reflexivity|]. cbn [most]. rewrite (Q t) by (now left). f_equal. apply IHs. intros u I. apply Q. now right.
    + apply Forall_forall. intros t Ht. specialize (L t Ht). split.
      * apply read_written_size with (n := n); [lia|auto|apply shallow_two; auto|lia].
      * pose proof (shallow_core _ (T t Ht)) as SC. destruct (core t) as [| | | | | | | | |us] eqn:EC; auto.
        destruct SC as [NE FU]. split; [assumption|]. rewrite forallb_forall in FU.
        assert (WU := wf_core t (W t Ht) EC). rewrite forallb_forall in WU.
        apply Forall_forall. intros u Hu.
        pose proof (@join_in (write u) (map write us) (in_map _ _ _ Hu)) as J.
        pose proof (core_len t) as CL. rewrite EC, write_tuple in CL. rewrite len_cons, len_app in CL.
        assert (LU : (length (write u) < length (write t))%nat) by (unfold len in *; lia).
        split; [auto|]. split.
        -- apply read_written_size with (n := n); [lia|auto|apply shallow_two, tuple_free_shallow; auto|lia].
        -- rewrite (Q t Ht). rewrite IH; [|lia|auto|apply shallow_two, tuple_free_shallow; auto|lia]. now apply nlevels_core with (us := us).
Qed.
Lemma written_calls t : wf_type t = true -> two_levels t = true -> name_calls p (write t) = N.of_nat (levels t).
Proof. intros W T. unfold name_calls. apply written_calls_size with (n := length (write t)); auto. Qed.
End Names.

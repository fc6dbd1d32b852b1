(** * Texts that take the most work, and which calls are counted *)
From Verif Require Import Base BaseFacts StrFacts Types TypeNames TypeNamesSpec Tokenizer ReaderSpec ReaderFacts ReaderGrammar DepthSpec DepthFacts Work WorkNames.
From Coq Require Import String.
From Coq Require Import Lia ZifyBool ZifyNat ZifyN.
Set Implicit Arguments.
Notation length := List.length.
Local Open Scope N_scope.
Local Open Scope list_scope.

(** ** The calls counted are the ones made *)
Lemma slice_not_asked s a b e : str_slice s a b <> Err e.
Proof. unfold str_slice. destruct (_ <? _); [discriminate|]. destruct (str_split _ _) as [[? ?]|]; [|discriminate]. destruct (str_split _ _) as [[? ?]|]; discriminate. Qed.
Lemma char_calls_once name st pos c rest :
  match asked (read_char ask name st pos c rest) with
  | None => forall rd, read_char rd name st pos c rest = read_char ask name st pos c rest
  | Some s => exists k, forall rd, read_char rd name st pos c rest = (do t <- rd s; k t)
  end.
Proof.
  unfold read_char. destruct (c =? ch_open); [destruct (1 <? _)%Z; exact (fun _ => eq_refl)|].
  destruct (c =? ch_close).
  { destruct (_ <? 0)%Z; [exact (fun _ => eq_refl)|]. destruct (str_slice name (last_item st) pos) as [s|e|] eqn:E; cbn [bind];
      [|now apply slice_not_asked in E|exact (fun _ => eq_refl)].
    destruct s as [|x s]; [exact (fun _ => eq_refl)|]. destruct (_ =? 0)%Z; [cbn [ask bind asked]; eexists; exact (fun _ => eq_refl)|]. cbv zeta.
    destruct (str_slice name (top_level_paren_open st) _) as [s'|e|] eqn:E'; cbn [bind]; [|now apply slice_not_asked in E'|exact (fun _ => eq_refl)].
    cbn [ask bind asked]. eexists. exact (fun _ => eq_refl). }
  destruct (c =? ch_comma); [|exact (fun _ => eq_refl)]. destruct (str_slice name (last_item st) pos) as [s|e|] eqn:E; cbn [bind];
      [|now apply slice_not_asked in E|exact (fun _ => eq_refl)].
  destruct s as [|x s]; [exact (fun _ => eq_refl)|]. destruct (_ =? 1)%Z; [cbn [ask bind asked]; eexists; exact (fun _ => eq_refl)|]. destruct (1 <? _)%Z; [|exact (fun _ => eq_refl)]. cbn [ask bind asked]. eexists. exact (fun _ => eq_refl).
Qed.
Lemma usize_sub_err p a b e : usize_sub p a b <> Err e.
Proof. unfold usize_sub. destruct (_ <=? _); [discriminate|]. destruct p; discriminate. Qed.
Lemma array_calls_once p name :
  match asked (read_array p ask name) with
  | None => forall rd, read_array p rd name = read_array p ask name
  | Some s => exists k, forall rd, read_array p rd name = (do t <- rd s; k t)
  end.
Proof.
  unfold read_array. set (num := rev _). cbv zeta. destruct num as [|c num].
  - destruct (usize_sub p (len name) 2) as [e|x|] eqn:E1; cbn [bind]; [|now apply usize_sub_err in E1|exact (fun _ => eq_refl)].
    destruct (str_slice name 0 e) as [s|x|] eqn:E2; cbn [bind]; [|now apply slice_not_asked in E2|exact (fun _ => eq_refl)]. cbn [ask bind asked]. eexists. exact (fun _ => eq_refl).
  - destruct (parse_usize (c :: num)) as [l|x|] eqn:E0; cbn [bind]; [|apply usize_err in E0 as ->; exact (fun _ => eq_refl)|exact (fun _ => eq_refl)].
    destruct (usize_sub p (len name) _) as [e0|x|] eqn:E1; cbn [bind]; [|now apply usize_sub_err in E1|exact (fun _ => eq_refl)].
    destruct (usize_sub p e0 2) as [e|x|] eqn:E2; cbn [bind]; [|now apply usize_sub_err in E2|exact (fun _ => eq_refl)].
    destruct (str_slice name 0 e) as [s|x|] eqn:E3; cbn [bind]; [|now apply slice_not_asked in E3|exact (fun _ => eq_refl)]. cbn [ask bind asked]. eexists. exact (fun _ => eq_refl).
Qed.
Lemma token_calls_once {St} op cl value s (params : St) pos ch :
  match asked (token_char (fun _ => ask) op cl value s params pos ch) with
  | None => forall next, token_char next op cl value s params pos ch = token_char (fun _ => ask) op cl value s params pos ch
  | Some sub => exists k, forall next, token_char next op cl value s params pos ch = (do r <- next params sub; k r)
  end.
Proof.
  assert (I : forall n, match asked (take_item (fun _ : St => ask) value s params n pos) with
    | None => forall next, take_item next value s params n pos = take_item (fun _ : St => ask) value s params n pos
    | Some sub => exists k, forall next, take_item next value s params n pos = (do r <- next params sub; k r)
    end).
  { intros n. unfold take_item. destruct (str_slice value (tk_last_item s) pos) as [sub|e|] eqn:E; cbn [bind]; [|now apply slice_not_asked in E|exact (fun _ => eq_refl)].
    cbn [ask bind asked]. eexists. exact (fun _ => eq_refl). }
  unfold token_char. destruct (_ && _); [exact (fun _ => eq_refl)|]. destruct (_ && _).
  - cbv zeta. destruct (_ <? 0)%Z; [exact (fun _ => eq_refl)|]. destruct (_ =? 0)%Z; [apply I|exact (fun _ => eq_refl)].
  - destruct (_ =? ch_quote); [exact (fun _ => eq_refl)|]. destruct (_ && _ && _); [apply I|exact (fun _ => eq_refl)].
Qed.

(** ** Names *)
Lemma suffixes_len k : len (suffixes k) = 2 * N.of_nat k.
Proof. unfold len. rewrite suffixes_length. lia. Qed.
Lemma long_name_work p k : name_work p (lit "int" ++ suffixes k) = (N.of_nat k + 1) * (N.of_nat k + 4).
Proof.
  unfold name_work. assert (F : forall f, (k <= f)%nat -> name_work_fuel p (S f) (lit "int" ++ suffixes k) = (N.of_nat k + 1) * (N.of_nat k + 4)).
  { induction k as [|k IH]; intros f Lf; [reflexivity|]. destruct f as [|f]; [lia|]. cbn [suffixes]. rewrite app_assoc.
    change (lit "[]") with (91 :: [] ++ [93]). set (x := lit "int" ++ suffixes k) in *. remember (S f) as g. cbn [name_work_fuel]. subst g.
    assert (L : last_char (x ++ 91 :: [] ++ [93]) = Some 93) by (rewrite app_comm_cons, app_assoc; apply last_char_app).
    rewrite L. change (93 =? ch_close) with false. change (93 =? ch_rbracket) with true. cbv iota.
    rewrite (read_array_wrap p ask x (num := []) (w := PArray)) by now left.
    assert (A : all_ascii x = true) by (unfold x; rewrite all_ascii_app, suffixes_ascii; reflexivity).
    pose proof (@ascii_slice [] x (91 :: [] ++ [93]) eq_refl A) as E. cbn [app] in E. rewrite len_nil, N.add_0_l in E. cbn [app]. rewrite E.
    unfold cost_asked. cbn [bind ask asked]. rewrite (IH f) by lia. rewrite len_app.
    change (len (91 :: [93])) with 2. unfold x. rewrite len_app, suffixes_len. change (len (lit "int")) with 3. lia. }
  apply F. rewrite app_length, suffixes_length. lia.
Qed.

(** ** Values *)
Definition nested_value (k : nat) : str := repeat 91 k ++ lit "true" ++ repeat 93 k.
Fixpoint nested_token (k : nat) : Token := match k with O => TBool true | S k' => TArray [nested_token k'] end.
Lemma nested_S k : nested_value (S k) = 91 :: nested_value k ++ [93].
Proof. unfold nested_value. cbn [repeat app]. rewrite <- !app_assoc. now rewrite <- repeat_cons. Qed.
Lemma nested_ascii k : all_ascii (nested_value k) = true.
Proof. induction k as [|k IH]; [reflexivity|]. rewrite nested_S. change (all_ascii (91 :: nested_value k ++ [93])) with (all_ascii (nested_value k ++ [93])). now rewrite all_ascii_app, IH. Qed.
Lemma nested_len k : len (nested_value k) = 2 * N.of_nat k + 4.
Proof. induction k as [|k IH]; [reflexivity|]. rewrite nested_S, len_cons, len_app, IH. change (len [93]) with 1. lia. Qed.
Lemma nested_str_len k : str_len (nested_value k) = 2 * N.of_nat k + 4.
Proof. rewrite str_len_ascii by apply nested_ascii. apply nested_len. Qed.
Section Walk.
Context {St C : Type} (next : St -> str -> res (Token * St)) (cost : C -> str -> N) (left : C -> C) (value : str).
Lemma walk_work k : forall rest pos n r l params costs, (1 <= n)%Z ->
  items_work next cost left 91 93 value (nested_value k ++ rest) pos (mkT r n false l) params costs =
  items_work next cost left 91 93 value rest (pos + len (nested_value k)) (mkT r n false l) params costs.
Proof.
  induction k as [|k IH]; intros rest pos n r l params costs P.
  - change (nested_value 0 ++ rest) with (116 :: 114 :: 117 :: 101 :: rest). cbn [items_work]. unfold token_char.
    change (116 =? 91) with false. change (114 =? 91) with false. change (117 =? 91) with false. change (101 =? 91) with false.
    change (116 =? 93) with false. change (114 =? 93) with false. change (117 =? 93) with false. change (101 =? 93) with false.
    change (116 =? 44) with false. change (114 =? 44) with false. change (117 =? 44) with false. change (101 =? 44) with false.
    change (116 =? ch_quote) with false. change (114 =? ch_quote) with false. change (117 =? ch_quote) with false. change (101 =? ch_quote) with false.
    cbn [andb cost_asked asked]. unfold cost_asked. cbn [asked]. change (len (nested_value 0)) with 4. rewrite !N.add_0_l. f_equal. lia.
  - rewrite nested_S. cbn [app]. rewrite <- app_assoc. cbn [items_work]. cbv zeta. unfold token_char. change (91 =? 91) with true. cbn [negb andb tk_ignore tk_result tk_nested tk_last_item].
    unfold cost_asked at 1. cbn [asked]. rewrite N.add_0_l. rewrite IH by lia. cbn [app items_work]. cbv zeta. unfold token_char. change (93 =? 91) with false. change (93 =? 93) with true. cbn [negb andb tk_ignore tk_result tk_nested tk_last_item].
    cbv zeta. replace (n + 1 - 1 <? 0)%Z with false by lia. replace (n + 1 - 1 =? 0)%Z with false by lia. unfold cost_asked at 1. cbn [asked]. rewrite N.add_0_l.
    replace (n + 1 - 1)%Z with n by lia. rewrite len_cons, len_app. change (len [93]) with 1. f_equal. lia.
Qed.
End Walk.
Lemma walk_loop {St : Type} (next : St -> str -> res (Token * St)) value k : forall rest pos n r l params, (1 <= n)%Z ->
  token_loop next 91 93 value (nested_value k ++ rest) pos (mkT r n false l) params =
  token_loop next 91 93 value rest (pos + len (nested_value k)) (mkT r n false l) params.
Proof.
  induction k as [|k IH]; intros rest pos n r l params P.
  - change (nested_value 0 ++ rest) with (116 :: 114 :: 117 :: 101 :: rest). cbn [token_loop]. unfold token_char.
    change (116 =? 91) with false. change (114 =? 91) with false. change (117 =? 91) with false. change (101 =? 91) with false.
    change (116 =? 93) with false. change (114 =? 93) with false. change (117 =? 93) with false. change (101 =? 93) with false.
    change (116 =? 44) with false. change (114 =? 44) with false. change (117 =? 44) with false. change (101 =? 44) with false.
    change (116 =? ch_quote) with false. change (114 =? ch_quote) with false. change (117 =? ch_quote) with false. change (101 =? ch_quote) with false.
    cbn [andb bind]. change (len (nested_value 0)) with 4. f_equal. lia.
  - rewrite nested_S. cbn [app]. rewrite <- app_assoc. cbn [token_loop]. unfold token_char at 1. change (91 =? 91) with true. cbn [negb andb tk_ignore tk_result tk_nested tk_last_item bind].
    rewrite IH by lia. cbn [app token_loop]. unfold token_char at 1. change (93 =? 91) with false. change (93 =? 93) with true. cbn [negb andb tk_ignore tk_result tk_nested tk_last_item bind].
    cbv zeta. replace (n + 1 - 1 <? 0)%Z with false by lia. replace (n + 1 - 1 =? 0)%Z with false by lia. cbn [bind].
    replace (n + 1 - 1)%Z with n by lia. rewrite len_cons, len_app. change (len [93]) with 1. f_equal. lia.
Qed.
Lemma nested_shape k : negb (starts_with_char (nested_value (S k)) 91) || negb (ends_with_char (nested_value (S k)) 93) = false /\ (len (nested_value (S k)) =? 2) = false.
Proof.
  split; [|rewrite nested_len; lia]. rewrite nested_S. change (starts_with_char (91 :: nested_value k ++ [93]) 91) with true.
  unfold ends_with_char. change (91 :: nested_value k ++ [93]) with ((91 :: nested_value k) ++ [93]). rewrite last_char_app. reflexivity.
Qed.
Lemma nested_slice k : str_slice (nested_value (S k)) 1 (0 + 1 + len (nested_value k)) = Ok (nested_value k).
Proof. rewrite nested_S, N.add_0_l. exact (@ascii_slice [91] (nested_value k) [93] eq_refl (nested_ascii k)). Qed.
Lemma nested_work T k : value_work T (arrays k PBool) (nested_value k) = (N.of_nat k + 1) * (N.of_nat k + 5).
Proof.
  induction k as [|k IH]; [reflexivity|]. cbn [arrays value_work]. rewrite nested_str_len. unfold group_work.
  destruct (nested_shape k) as [-> ->]. pose proof (nested_slice k) as SL. rewrite nested_S at 2. cbn [items_work]. cbv zeta. unfold token_char. change (91 =? 91) with true. cbn [negb andb tk_ignore tk_result tk_nested tk_last_item].
  unfold cost_asked at 1. cbn [asked]. rewrite walk_work by lia. cbn [items_work]. cbv zeta. unfold token_char. change (93 =? 91) with false. change (93 =? 93) with true. cbn [negb andb tk_ignore tk_result tk_nested tk_last_item].
  cbv zeta. change (0 + 1 - 1 <? 0)%Z with false. change (0 + 1 - 1 =? 0)%Z with true. cbv iota. unfold take_item. cbn [tk_last_item]. rewrite SL. cbn [bind ask]. unfold cost_asked. cbn [asked]. rewrite IH.
  destruct (next_element _ _ _) as [[? ?]|?|]; cbn [bind]; lia.
Qed.
Lemma nested_reads T k : tokenize_bool T (lit "true") = Ok true -> tokenize T (arrays k PBool) (nested_value k) = Ok (nested_token k).
Proof.
  intros H. induction k as [|k IH]; [cbn [arrays tokenize]; change (nested_value 0) with (lit "true"); now rewrite H|]. cbn [arrays tokenize nested_token]. unfold tokenize_items.
  destruct (nested_shape k) as [-> ->]. pose proof (nested_slice k) as SL. rewrite nested_S at 2. cbn [token_loop]. unfold token_char at 1. change (91 =? 91) with true. cbn [negb andb tk_ignore tk_result tk_nested tk_last_item bind].
  rewrite walk_loop by lia. cbn [token_loop]. unfold token_char at 1. change (93 =? 91) with false. change (93 =? 93) with true. cbn [negb andb tk_ignore tk_result tk_nested tk_last_item bind].
  cbv zeta. change (0 + 1 - 1 <? 0)%Z with false. change (0 + 1 - 1 =? 0)%Z with true. cbv iota. unfold take_item. cbn [tk_last_item]. rewrite SL. cbn [bind]. unfold next_element. rewrite IH. reflexivity.
Qed.

Lemma long_names p k : let s := lit "int" ++ suffixes k in
  len s = 2 * N.of_nat k + 3 /\ name_work p s = (N.of_nat k + 1) * (N.of_nat k + 4) /\ len s * len s <= 4 * name_work p s.
Proof.
  intros s. assert (L : len s = 2 * N.of_nat k + 3) by (unfold s; rewrite len_app, suffixes_len; change (len (lit "int")) with 3; lia).
  pose proof (long_name_work p k) as W. fold s in W. rewrite L, W. repeat split. nia.
Qed.
Lemma long_values T k : let t := arrays k PBool in let s := nested_value k in
  levels t = S k /\ str_len s = 2 * N.of_nat k + 4 /\
  (tokenize_bool T (lit "true") = Ok true -> tokenize T t s = Ok (nested_token k)) /\
  value_work T t s = (N.of_nat k + 1) * (N.of_nat k + 5) /\
  N.of_nat (levels t) * (1 + str_len s) <= 2 * value_work T t s.
Proof.
  intros t s. assert (L : levels t = S k) by (unfold t; rewrite arrays_level; cbn; lia). unfold s. rewrite nested_str_len. unfold t in *. rewrite nested_work, L.
  repeat split; [apply nested_reads|]. rewrite Nnat.Nat2N.inj_succ. nia.
Qed.

(** * The errors of type names, exactly *)
From Verif Require Import Base Types BaseFacts StrFacts TypeNames TypeNamesSpec TypeNamesFacts ReaderSpec ReaderFacts ReaderTotal ReaderGrammar ReaderExact ReaderNested ReaderPanics
  NameErrorSpec.
From Coq Require Import String Lia ZifyBool ZifyNat ZifyN.
Set Implicit Arguments.
Local Open Scope N_scope.
Local Open Scope list_scope.
Notation length := List.length.

Lemma size_err k : not_size k -> parse_usize k = Err ParseIntErr.
Proof.
  intros H. destruct (parse_usize_cases k) as [(n & S & _)|(_ & e & E)]; [now apply H in S|]. rewrite E. f_equal.
  revert E. unfold parse_usize. repeat match goal with |- context [match ?x with _ => _ end] => destruct x end; intros E; congruence.
Qed.
Lemma err_size k e : parse_usize k = Err e -> not_size k /\ e = ParseIntErr.
Proof. intros E. assert (N : not_size k) by (intros n H; apply parse_usize_iff in H; congruence). split; [exact N|]. apply size_err in N. congruence. Qed.

(** ** The loop *)
Lemma no_sep_first s : no_separator s \/ exists x c r, s = x ++ c :: r /\ no_separator x /\ (c = 40 \/ c = 41 \/ c = 44).
Proof.
  destruct (first_char punct s) as [P|(x & c & r & -> & P & F)]; [left; now apply no_sep_plain|right].
  exists x, c, r. split; [reflexivity|]. split; [now apply no_sep_plain|]. unfold punct in F. lia.
Qed.
Lemma no_paren_first s : no_paren s \/ exists x c r, s = x ++ c :: r /\ no_paren x /\ (c = 40 \/ c = 41).
Proof.
  destruct (first_char (fun c => (c =? 40) || (c =? 41)) s) as [P|(x & c & r & -> & P & F)].
  - left. intros c I. rewrite forallb_forall in P. specialize (P c I). cbv beta in P. lia.
  - right. exists x, c, r. split; [reflexivity|]. split; [|lia]. intros d I. rewrite forallb_forall in P. specialize (P d I). cbv beta in P. lia.
Qed.
Lemma commas_first (j : str) : exists k w, j = repeat 44 k ++ w /\ forall r, w <> 44 :: r.
Proof.
  induction j as [|c j (k & w & -> & W)]; [now exists 0%nat, []|]. destruct (N.eq_dec c 44) as [->|C]; [now exists (S k), w|].
  exists 0%nat, (c :: repeat 44 k ++ w). split; [reflexivity|]. intros r [=]. congruence.
Qed.
Lemma tail_chars y : forallb is_tail y = true <-> forall c, In c y -> c <> 44 /\ c <> 41.
Proof. rewrite forallb_forall. unfold is_tail. split; intros H c I; specialize (H c I); lia. Qed.
Section Steps.
Context (rd : str -> res ParamType) (bad : err).
Notation texts := (texts rd bad).
Lemma texts_gap w : forall s v u acc sts, no_paren w -> (v <> [] \/ forall r, w <> 44 :: r) -> exists u', texts (w ++ s) 0 0 v u acc sts = texts s 0 0 (v ++ w) u' acc sts.
Proof.
  induction w as [|c w IH]; intros s v u acc sts N H; [exists u; now rewrite app_nil_r|]. cbn [app ReaderNested.texts].
  destruct (N c) as (C1 & C2); [now left|]. apply N.eqb_neq in C1, C2. rewrite C1, C2.
  assert (N' : no_paren w) by (intros d I; apply N; now right).
  destruct (IH s (v ++ [c]) (u ++ [c]) acc sts N') as [u' E]; [left; now destruct v|]. exists u'. rewrite <- app_assoc in E. cbn [app] in E.
  destruct (N.eqb_spec c 44) as [->|C]; [|exact E]. destruct v as [|d v]; [|exact E]. exfalso. destruct H as [H|H]; [now apply H|now apply (H w)].
Qed.
Lemma texts_commas k : forall s u acc sts, exists u', texts (repeat 44 k ++ s) 0 0 [] u acc sts = texts s 0 0 [] u' acc sts.
Proof. induction k as [|k IH]; intros s u acc sts; [now exists u|]. cbn [repeat app]. rewrite texts_nothing. apply IH. Qed.
(** What the first item of a tuple that is opened after the end of the first
    does. *)
Lemma texts_again k w x c s u acc sts : no_paren w -> (forall r, w <> 44 :: r) -> no_separator x -> c = 44 \/ c = 41 ->
  exists n u', texts (repeat 44 k ++ w ++ 40 :: x ++ c :: s) 0 0 [] u acc sts = do t <- rd (w ++ 40 :: x); texts s 0 n [] u' (acc ++ [t]) sts.
Proof.
  intros W K X C. destruct (texts_commas k (w ++ 40 :: x ++ c :: s) u acc sts) as [u1 ->].
  destruct (@texts_gap w (40 :: x ++ c :: s) [] u1 acc sts W) as [u2 ->]; [now right|]. rewrite texts_reopen, texts_plain by exact X. cbn [app]. rewrite <- app_assoc. cbn [app].
  destruct C as [-> | ->]; destruct (w ++ 40 :: x) as [|d v] eqn:E; try (now destruct w).
  - exists 1%nat, (x ++ [44]). now rewrite texts_comma.
  - exists 0%nat, (x ++ [41]). now rewrite texts_last.
Qed.
Lemma texts_window n x y s u acc sts : x <> [] -> no_separator x -> forallb is_tail y = true -> at_separator s -> (S (S n) <= S (length sts))%nat ->
  exists f sts', length sts' = length sts /\
  texts (x ++ 41 :: y ++ s) 0 (S (S n)) [] u acc sts = do t <- rd (40 :: (u ++ x) ++ 41 :: y); texts s 0 (S n) [] ((u ++ x) ++ 41 :: y) (acc ++ [f t]) sts'.
Proof.
  intros NX X Y S L. destruct (tail_split y Y S) as [E1 E2]. rewrite texts_plain by exact X. cbn [app]. destruct x as [|c x]; [congruence|]. destruct n as [|n].
  - rewrite texts_field, E1, E2. exists (fun t => t), sts. now split.
  - rewrite texts_inner, E1, E2. destruct (@take_nth sts n) as (l' & ET & EL & _); [lia|]. exists (fun t => PTuple (nth n sts [] ++ [t])), l'.
    split; [exact EL|]. rewrite ET. destruct (rd _); reflexivity.
Qed.

End Steps.

Section Loop.
Context (bad_number : str -> err -> Prop) (rd : str -> res ParamType) (B : N).
Notation rejected_name := (rejected_name bad_number).
Notation rejected_text := (rejected_text bad_number).
Hypothesis HI : forall m t, len m <= B -> all_ascii m = true -> ~ In 41 m -> (rd m = Ok t <-> spelled m t).
Hypothesis HA : forall m t, len m <= B -> all_ascii m = true -> (rd m = Ok t <-> accepted m t).
Hypothesis HE : forall m e, len m <= B -> all_ascii m = true -> (rd m = Err e <-> rejected_name m e).
Ltac lens := repeat rewrite ?len_app, ?len_cons in *; change (len (@nil char)) with 0 in *; lia.
Ltac asc := repeat match goal with H : all_ascii _ = true |- _ => revert H end; unfold all_ascii; repeat (rewrite forallb_app || (progress (cbn [forallb]))); change (is_ascii 40) with true; change (is_ascii 41) with true; change (is_ascii 44) with true; clear; lia.

Lemma item_41 x : no_separator x -> ~ In 41 x.
Proof. intros X I. now destruct (X 41 I). Qed.
Lemma loop_rejects name n u s e : rejected_text name n u s e -> forall acc sts, (n <= S (length sts))%nat -> len s <= B -> all_ascii s = true ->
  ((2 <= n)%nat -> len u + len s + 1 <= B /\ all_ascii u = true) -> ReaderNested.texts rd (InvalidName name) s 0 n [] u acc sts = Err e.
Proof using HI HA HE.
  induction 1 as [name n u x s e X NX R|name u x s e X NX R|name n u x y s e X NX Y S R|name u j s J|name u k w x c s e W K X C R|name n u s e _ IH|name n u x t s e SX _ IH|name n u s e _ IH
    |name u x t s e SX _ IH|name n u x y t s e X NX Y S R _ IH|name n u x s e X _ IH|name u j x s e J X _ IH]; intros acc sts NL L A U.
  - rewrite texts_plain by exact X. cbn [app]. apply HE in R; [|lens|asc]. destruct x as [|c x]; [congruence|]. destruct n as [|n]; [rewrite texts_comma, R|rewrite texts_waits, R]; reflexivity.
  - rewrite texts_plain by exact X. cbn [app]. apply HE in R; [|lens|asc]. destruct x as [|c x]; [congruence|]. rewrite texts_last, R. reflexivity.
  - destruct U as [U1 U2]; [lia|]. destruct (@texts_window rd (InvalidName name) n x y s u acc sts) as (f & sts' & _ & E); auto; [now apply tail_chars|]. 
rewrite E. apply HE in R; [rewrite R; reflexivity|lens|asc].
  - destruct (@texts_outside_any rd (InvalidName name) j (41 :: s) [] u acc sts J) as (w' & u' & ->). reflexivity.
  - destruct (@texts_again rd (InvalidName name) k w x c s u acc sts) as (n & u' & ->); auto. apply HE in R; [rewrite R; reflexivity|lens|asc].
  - rewrite texts_nothing. apply IH; [exact NL|lens|asc|]. intros H. destruct (U H) as [U1 U2]. split; [lens|asc].
  - destruct (spelled_no_sep SX) as [X NX]. rewrite texts_plain by exact X. cbn [app]. apply HI in SX; [|lens|asc|now apply item_41].
    assert (U' : (2 <= S n)%nat -> len ((u ++ x) ++ [44]) + len s + 1 <= B /\ all_ascii ((u ++ x) ++ [44]) = true) by (intros H; destruct (U H) as [U1 U2]; split; [lens|asc]).
    rewrite app_assoc in IH. destruct x as [|c x]; [congruence|]. destruct n as [|n].
    + rewrite texts_comma, SX. cbn [bind]. apply IH; [exact NL|lens|asc|exact U'].
    + rewrite texts_waits, SX. cbn [bind]. rewrite push_add by lia. cbn [bind]. apply IH; [rewrite add_length; exact NL|lens|asc|exact U'].
  - rewrite texts_close. apply IH; [lia|lens|asc|]. intros H. destruct U as [U1 U2]; [lia|]. split; [lens|asc].
  - destruct (spelled_no_sep SX) as [X NX]. rewrite texts_plain by exact X. cbn [app]. apply HI in SX; [|lens|asc|now apply item_41].
    rewrite app_assoc in IH. destruct x as [|c x]; [congruence|]. rewrite texts_last, SX. cbn [bind]. apply IH; [lia|lens|asc|lia].
  - destruct U as [U1 U2]; [lia|]. destruct (@texts_window rd (InvalidName name) n x y s u acc sts) as (f & sts' & LS & E); auto; [now apply tail_chars|]. rewrite E.
    apply HA in R; [|lens|asc]. rewrite R. cbn [bind]. rewrite app_assoc in IH. apply IH; [lia|lens|asc|]. intros _. split; [lens|asc].
  - rewrite texts_plain by exact X. rewrite texts_open. apply IH; [rewrite app_length; cbn [length]; lia|lens|asc|]. intros _. split; [lens|reflexivity].
  - destruct (@texts_outside_any rd (InvalidName name) j (40 :: x ++ 40 :: s) [] u acc sts J) as (w' & u' & ->). rewrite texts_reopen, texts_plain by exact X. rewrite texts_open.
    apply IH; [rewrite app_length; cbn [length]; lia|lens|asc|]. intros _. split; [lens|reflexivity].
Qed.
Lemma loop_rejected name M : forall n u s e acc sts, (length s <= M)%nat -> (n <= S (length sts))%nat -> len s <= B -> all_ascii s = true ->
  ((2 <= n)%nat -> len u + len s + 1 <= B /\ all_ascii u = true) -> ReaderNested.texts rd (InvalidName name) s 0 n [] u acc sts = Err e -> rejected_text name n u s e.
Proof using HI HA HE.
  induction M as [|M IH]; intros n u s e acc sts LM NL L A U E.
  { destruct s; [discriminate E|cbn [length] in LM; lia]. }
  assert (LM1 : forall (x : str) c r, s = x ++ c :: r -> (length r <= M)%nat) by (intros x c r ->; rewrite app_length in LM; cbn [length] in LM; lia).
  destruct n as [|n].
  - destruct (no_paren_first s) as [J|(j & c & r & -> & J & C)].
    { exfalso. destruct (@texts_outside_any rd (InvalidName name) s [] [] u acc sts J) as (w' & u' & E'). rewrite app_nil_r in E'. rewrite E' in E. discriminate. }
    specialize (LM1 _ _ _ eq_refl). destruct C as [-> | ->].
    2:{ destruct (@texts_outside_any rd (InvalidName name) j (41 :: r) [] u acc sts J) as (w' & u' & E'). rewrite E' in E. cbn in E. injection E as <-. now apply rt_stray. }
    destruct (no_sep_first r) as [X|(x & c & s1 & -> & X & C)].
    { exfalso. destruct (@texts_outside_any rd (InvalidName name) j (40 :: r) [] u acc sts J) as (w' & u' & E'). rewrite E', texts_reopen in E.
      rewrite <- (app_nil_r r), texts_plain in E by exact X. discriminate. }
    assert (L1 : (length s1 <= M)%nat) by (rewrite app_length in LM1; cbn [length] in LM1; lia).
    destruct (N.eq_dec c 40) as [->|C1].
    { apply rt_again; [exact J|exact X|]. destruct (@texts_outside_any rd (InvalidName name) j (40 :: x ++ 40 :: s1) [] u acc sts J) as (w' & u' & E'). rewrite E', texts_reopen, texts_plain, texts_open in E by exact X.
      refine (IH _ _ _ _ _ _ L1 _ _ _ _ E); [rewrite app_length; cbn [length]; lia|lens|asc|]. intros _. split; [lens|reflexivity]. }
    destruct (commas_first j) as (k & w & -> & W). assert (C' : c = 44 \/ c = 41) by tauto. rewrite <- app_assoc in *.
    assert (JW : no_paren w) by (intros d I; apply J, in_app_iff; now right).
    apply rt_again_item; auto. destruct (@texts_again rd (InvalidName name) k w x c s1 u acc sts) as (n & u' & E'); auto. rewrite E' in E.
    assert (LW : len (w ++ 40 :: x) <= B) by lens. assert (AW : all_ascii (w ++ 40 :: x) = true) by asc.
    destruct (rd (w ++ 40 :: x)) as [t|e'|] eqn:R; cbn [bind] in E; [exfalso|injection E as ->; now apply HE|discriminate].
    apply HI in R; [|exact LW|exact AW|intros I; apply in_app_iff in I as [I|[I|I]]; [now destruct (JW 41 I)|discriminate|now apply item_41 in I]].
    destruct (spelled_no_sep R) as [N _]. destruct (N 40) as [N' _]; [apply in_app_iff; right; now left|congruence].
  - destruct (no_sep_first s) as [X|(x & c & s1 & -> & X & C)].
    { exfalso. rewrite <- (app_nil_r s), texts_plain in E by exact X. discriminate. }
    specialize (LM1 _ _ _ eq_refl). destruct C as [-> |[-> | ->]].
    + apply rt_open; [exact X|]. rewrite texts_plain, texts_open in E by exact X. refine (IH _ _ _ _ _ _ LM1 _ _ _ _ E); [rewrite app_length; cbn [length]; lia|lens|asc|].
      intros _. split; [lens|reflexivity].
    + destruct x as [|c x].
      { cbn [app] in *. rewrite texts_close in E. apply rt_close. refine (IH _ _ _ _ _ _ LM1 _ _ _ _ E); [lia|lens|asc|]. intros H. destruct U as [U1 U2]; [lia|]. split; [lens|asc]. }
      assert (NX : c :: x <> []) by discriminate. set (x' := c :: x) in *. destruct n as [|n].
      * rewrite texts_plain in E by exact X. cbn [app] in E. unfold x' in E. rewrite texts_last in E. fold x' in E. assert (LX : len x' <= B) by lens. assert (AX : all_ascii x' = true) by (clearbody x'; asc).
        destruct (rd x') as [t|e'|] eqn:R; cbn [bind] in E; [|injection E as ->; apply HE in R; auto; now apply rt_last_item|discriminate].
        apply HI in R; [|exact LX|exact AX|now apply item_41]. apply rt_last with t; [exact R|]. rewrite <- app_assoc in E. refine (IH _ _ _ _ _ _ LM1 _ _ _ _ E); [lia|lens|clearbody x'; asc|lia].
      * destruct U as [U1 U2]; [lia|]. pose proof (take_drop_while is_tail s1) as TD. pose proof (tail_separator s1) as SP. pose proof (take_while_forallb is_tail s1) as Y.
        set (y := take_while is_tail s1) in *. set (s2 := drop_while is_tail s1) in *. clearbody y s2 x'. subst s1.
        destruct (@texts_window rd (InvalidName name) n x' y s2 u acc sts) as (f & sts' & LS & E'); auto. rewrite E' in E. rewrite tail_chars in Y.
        assert (LW : len (40 :: (u ++ x') ++ 41 :: y) <= B) by lens. assert (AW : all_ascii (40 :: (u ++ x') ++ 41 :: y) = true) by asc.
        destruct (rd (40 :: (u ++ x') ++ 41 :: y)) as [t|e'|] eqn:R; cbn [bind] in E; [|injection E as ->; apply HE in R; auto; now apply rt_window|discriminate].
        apply HA in R; auto. apply rt_tuple with t; auto. rewrite <- app_assoc in E. refine (IH _ _ _ _ _ _ _ _ _ _ _ E); [rewrite app_length in LM1; lia|lia|lens|asc|]. intros _. split; [lens|asc].
    + destruct x as [|c x].
      { cbn [app] in *. rewrite texts_nothing in E. apply rt_nothing. refine (IH _ _ _ _ _ _ LM1 _ _ _ _ E); [lia|lens|asc|]. intros H. destruct (U H) as [U1 U2]. split; [lens|asc]. }
      assert (NX : c :: x <> []) by discriminate. rewrite texts_plain in E by exact X. cbn [app] in E. assert (LX : len (c :: x) <= B) by lens. assert (AX : all_ascii (c :: x) = true) by asc.
      assert (U' : (2 <= S n)%nat -> len (u ++ (c :: x) ++ [44]) + len s1 + 1 <= B /\ all_ascii (u ++ (c :: x) ++ [44]) = true) by (intros H; destruct (U H) as [U1 U2]; split; [lens|asc]).
      assert (AS : all_ascii s1 = true) by asc.
      destruct (rd (c :: x)) as [t|e'|] eqn:R.
      * pose proof R as R'. apply HI in R'; [|exact LX|exact AX|now apply item_41]. apply rt_field with t; [exact R'|]. destruct n as [|n].
        -- rewrite texts_comma, R in E. cbn [bind] in E. rewrite <- app_assoc in E. refine (IH _ _ _ _ _ _ LM1 _ _ AS U' E); [lia|lens].
        -- rewrite texts_waits, R in E. cbn [bind] in E. rewrite push_add in E by lia. cbn [bind] in E. rewrite <- app_assoc in E. refine (IH _ _ _ _ _ _ LM1 _ _ AS U' E); [rewrite add_length; exact NL|lens].
      * assert (e' = e) as -> by (destruct n as [|n]; [rewrite texts_comma, R in E|rewrite texts_waits, R in E]; cbn [bind] in E; congruence). apply HE in R; auto. now apply rt_item.
      * exfalso. destruct n as [|n]; [rewrite texts_comma, R in E|rewrite texts_waits, R in E]; discriminate E.
Qed.
End Loop.

(** ** The reader, for any way to tell what is wrong with a number *)
Section Shape.
Context (pu : str -> res N).
(** [read_base], [read_array] and [read_fuel], with [pu] for [parse_usize] *)
Definition gen_base (name : str) : res ParamType :=
  if str_eqb name (lit "address") then Ok PAddress
  else if str_eqb name (lit "bytes") then Ok PBytes
  else if str_eqb name (lit "bool") then Ok PBool
  else if str_eqb name (lit "string") then Ok PString
  else if str_eqb name (lit "int") then Ok (PInt 256)
  else if str_eqb name (lit "tuple") then Ok (PTuple [])
  else if str_eqb name (lit "uint") then Ok (PUint 256)
  else if starts_with name (lit "int") then
    do s <- str_from name 3; do l <- pu s; Ok (PInt l)
  else if starts_with name (lit "uint") then
    do s <- str_from name 4; do l <- pu s; Ok (PUint l)
  else if starts_with name (lit "bytes") then
    do s <- str_from name 5; do l <- pu s; Ok (PFixedBytes l)
  else Err (InvalidName name).
Definition gen_array (p : profile) (read_rec : str -> res ParamType) (name : str) : res ParamType :=
  let num := rev (take_while (fun c => negb (c =? ch_lbracket)) (skipn 1 (rev name))) in
  let count := len name in
  match num with
  | [] =>
    do e <- usize_sub p count 2;
    do sub <- str_slice name 0 e;
    do subtype <- read_rec sub;
    Ok (PArray subtype)
  | _ =>
    do l <- pu num;
    do e0 <- usize_sub p count (str_len num);
    do e <- usize_sub p e0 2;
    do sub <- str_slice name 0 e;
    do subtype <- read_rec sub;
    Ok (PFixedArray subtype l)
  end.
Fixpoint gen_fuel (p : profile) (fuel : nat) (name : str) : res ParamType :=
  match fuel with
  | O => Err OutOfFuel
  | S f =>
    match last_char name with
    | Some c =>
      if c =? ch_close then read_tuple (gen_fuel p f) name
      else if c =? ch_rbracket then gen_array p (gen_fuel p f) name
      else gen_base name
    | None => gen_base name
    end
  end.
End Shape.
Section Reader.
Context (pu : str -> res N) (bad_number : str -> err -> Prop) (p : profile).
Hypothesis PO : forall s n, pu s = Ok n <-> size_text s n.
Hypothesis PE : forall s e, s <> [] -> (pu s = Err e <-> not_size s /\ bad_number s e).
Notation rejected_name := (rejected_name bad_number).
Notation rejected_text := (rejected_text bad_number).
Notation any_base := (gen_base pu).
Notation any_array := (gen_array pu p).
Notation any_fuel := (gen_fuel pu p).
Hypothesis BO : forall s t, any_base s = Ok t <-> read_base s = Ok t.
Hypothesis BP : forall s, any_base s <> Panic.
Hypothesis FO : forall f s t, any_fuel f s = Ok t <-> read_fuel p f s = Ok t.

(** Words *)
Definition base_error (s : str) (e : err) : Prop :=
  (unknown_word s /\ e = InvalidName s) \/ exists w k, In w sized_words /\ k <> [] /\ not_size k /\ bad_number k e /\ s = w ++ k.
Lemma base_err s e : any_base s = Err e -> base_error s e.
Proof using PE.
  unfold gen_base. repeat match goal with |- context [str_eqb ?a ?b] => destruct (str_eqb a b) eqn:?Q; [discriminate|] end.
  assert (K : forall w k l (b : N -> ParamType), In w sized_words -> str_eqb (w ++ k) w = false -> str_len w = l ->
    (do r <- str_from (w ++ k) l; do n <- pu r; Ok (b n)) = Err e -> base_error (w ++ k) e).
  { intros w k l b I Q' Lw E. rewrite (str_from_prefix w k Lw) in E. cbn [bind] in E. destruct (pu k) as [n|e'|] eqn:P; [discriminate| |discriminate].
    injection E as ->. assert (NK : k <> []) by (intros ->; rewrite app_nil_r, str_eqb_refl in Q'; discriminate). apply PE in P as [P BN]; [|exact NK].
    right. exists w, k. auto 6. }
  destruct (starts_with s (lit "int")) eqn:S1; [apply starts_with_inv in S1 as [k ->]; apply K; [now left|assumption|reflexivity]|].
  destruct (starts_with s (lit "uint")) eqn:S2; [apply starts_with_inv in S2 as [k ->]; apply K; [right; now left|assumption|reflexivity]|].
  destruct (starts_with s (lit "bytes")) eqn:S3; [apply starts_with_inv in S3 as [k ->]; apply K; [right; right; now left|assumption|reflexivity]|].
  intros E. injection E as <-. left. split; [|reflexivity]. split.
  - intros I. repeat (destruct I as [<-|I]; [rewrite str_eqb_refl in *; discriminate|]). destruct I.
  - intros w k I ->. repeat (destruct I as [<-|I]; [rewrite starts_with_app in *; discriminate|]). destruct I.
Qed.
Lemma sized_unique w k w' k' : In w sized_words -> In w' sized_words -> w ++ k = w' ++ k' -> k = k'.
Proof using. intros I I' E. destruct I as [<-|[<-|[<-|[]]]], I' as [<-|[<-|[<-|[]]]]; try discriminate E; now apply app_inv_head in E. Qed.
Lemma err_base s e : base_error s e -> any_base s = Err e.
Proof using PE BO BP.
  intros [[[U1 U2] ->]|(w & k & I & NK & NS & BN & ->)].
  - destruct (any_base s) as [t|e|] eqn:E; [|apply base_err in E as [[_ ->]|(w & k & I & _ & _ & _ & ->)]; [reflexivity|now destruct (U2 w k I)]|now apply BP in E].
    exfalso. apply BO, read_base_iff in E. destruct E;
      try (apply U1; cbn; tauto);
      match goal with |- False => first [now apply (U2 (lit "bytes") []); [cbn; tauto|]|now apply (U2 (lit "int") []); [cbn; tauto|]|now apply (U2 (lit "uint") []); [cbn; tauto|]
        |eapply (U2 (lit "int")); [cbn; tauto|reflexivity]|eapply (U2 (lit "uint")); [cbn; tauto|reflexivity]|eapply (U2 (lit "bytes")); [cbn; tauto|reflexivity]] end.
  - assert (PK : pu k = Err e) by (now apply PE).
    destruct (any_base (w ++ k)) as [t|e'|] eqn:E; [|apply base_err in E as [[[_ U] _]|(w' & k' & I' & NK' & NS' & BN' & E)]; [now destruct (U w k I)|]|now apply BP in E].
    + exfalso. apply BO, read_base_iff in E.
      remember (w ++ k) as s eqn:Es. destruct E as [| | | | | | |r n H|r n H|r n H];
        (destruct I as [<-|[<-|[<-|[]]]]; try discriminate Es); try (apply NK; now injection Es as <-);
        try (apply app_inv_head in Es as ->; now apply NS in H).
    + apply sized_unique in E as ->; auto. assert (PK' : pu k' = Err e') by (now apply PE). congruence.
Qed.
(** Arrays *)
Lemma array_split rd x num : ~ In 91 num ->
  any_array rd (x ++ 91 :: num ++ [93]) =
  match num with
  | [] => do sub <- str_slice (x ++ 91 :: num ++ [93]) 0 (len x); do t <- rd sub; Ok (PArray t)
  | _ => do l <- pu num; do sub <- str_slice (x ++ 91 :: num ++ [93]) 0 (len x); do t <- rd sub; Ok (PFixedArray t l)
  end.
Proof using PO PE BO BP FO.
  intros N. unfold gen_array.
  assert (R : rev (take_while (fun c => negb (c =? ch_lbracket)) (skipn 1 (rev (x ++ 91 :: num ++ [93])))) = num).
  { rewrite rev_app_distr. cbn [rev]. rewrite rev_app_distr. cbn [rev app skipn]. rewrite <- app_assoc. cbn [app].
    rewrite take_while_stop; [apply rev_involutive|now apply before_bracket|reflexivity]. }
  cbv zeta. rewrite R. assert (L : len (x ++ 91 :: num ++ [93]) = len x + len num + 2).
  { rewrite len_app, len_cons, len_app. change (len [93]) with 1. lia. }
  rewrite L. destruct num as [|c num].
  - change (len []) with 0. rewrite usize_sub_ok by lia. cbn [bind]. now replace (len x + 0 + 2 - 2) with (len x) by lia.
  - destruct (pu (c :: num)) as [l|e|] eqn:E; [|reflexivity..]. cbn [bind]. apply PO, parse_usize_iff, parse_usize_ascii, str_len_ascii in E. rewrite E.
    rewrite usize_sub_ok by lia. cbn [bind]. rewrite usize_sub_ok by lia. cbn [bind].
    now replace (len x + len (c :: num) + 2 - len (c :: num) - 2) with (len x) by lia.
Qed.
Lemma array_wrap rd x num w : suffix_wrap num w -> all_ascii x = true -> any_array rd (x ++ 91 :: num ++ [93]) = (do t <- rd x; Ok (w t)).
Proof using PO PE BO BP FO.
  intros S A. rewrite array_split by (eauto using suffix_wrap_no_bracket). rewrite slice_split, (split_exact x (91 :: num ++ [93]) (str_len_ascii _ A)).
  destruct S as [[-> ->]|(n & H & ->)]; [reflexivity|].
  pose proof (size_text_facts H) as (NE & _). destruct num as [|c num]; [congruence|]. apply PO in H. rewrite H. reflexivity.
Qed.
Lemma array_lone rd s e : ~ In 91 s -> str_len (s ++ [93]) < 2 ^ 63 -> (any_array rd (s ++ [93]) = Err e <-> s <> [] /\ not_size s /\ bad_number s e).
Proof using PO PE BO BP FO.
  intros N B. unfold gen_array.
  assert (R : rev (take_while (fun c => negb (c =? ch_lbracket)) (skipn 1 (rev (s ++ [93])))) = s).
  { rewrite rev_app_distr. cbn [rev app skipn]. rewrite take_while_all by (now apply before_bracket). apply rev_involutive. }
  cbv zeta. rewrite R. assert (L : len (s ++ [93]) = len s + 1) by (rewrite len_app; reflexivity). rewrite L.
  assert (SL : forall e, 2 ^ 63 <= e -> str_slice (s ++ [93]) 0 e = Panic).
  { intros e' H. destruct (str_slice (s ++ [93]) 0 e') eqn:E; [|now apply str_slice_not_err in E|reflexivity]. apply slice_beyond in E. lia. }
  assert (SB : forall a b, a < b -> b < 2 ^ 63 -> (do e <- usize_sub p a b; do sub <- str_slice (s ++ [93]) 0 e; do t <- rd sub; Ok (PArray t)) = Panic /\
     forall l, (do e <- usize_sub p a b; do sub <- str_slice (s ++ [93]) 0 e; do t <- rd sub; Ok (PFixedArray t l)) = Panic).
  { intros a b H H'. unfold usize_sub. replace (b <=? a) with false by lia. destruct p; [split; reflexivity|]. cbn [bind]. change two64 with (2 ^ 64). rewrite SL by lia. split; reflexivity. }
  destruct s as [|c s]; [|set (num := c :: s) in *; assert (NK : num <> []) by discriminate].
  { change (len [] + 1) with 1. destruct (SB 1 2) as [-> _]; [reflexivity..|]. split; [discriminate|]. intros [H _]. congruence. }
  rewrite <- (PE e NK). destruct (pu num) as [l|e'|] eqn:E; cbn [bind]; [|split; [intros X; split; [exact NK|congruence]|intros [_ X]; congruence]|split; [discriminate|intros [_ X]; discriminate X]]. apply PO, parse_usize_iff, parse_usize_ascii, str_len_ascii in E. rewrite E.
  rewrite usize_sub_ok by lia. cbn [bind]. replace (len num + 1 - len num) with 1 by lia. destruct (SB 1 2) as [_ SB2]; [reflexivity..|]. rewrite SB2. split; [discriminate|intros [_ X]; discriminate X].
Qed.
Lemma any_texts rd s : all_ascii (40 :: s ++ [41]) = true -> read_tuple rd (40 :: s ++ [41]) =
  (do ts <- texts rd (InvalidName (40 :: s ++ [41])) (s ++ [41]) 0 1 [] [] [] []; Ok (PTuple ts)).
Proof using.
  intros A. set (name := 40 :: s ++ [41]) in *. unfold read_tuple. change (starts_with_char name ch_open) with true. cbv iota.
  assert (E : fields_of (read_tuple_loop rd name name 0 0 (mkR [] [] 0 0 1)) = texts rd (InvalidName name) (s ++ [41]) 0 1 [] [] [] []).
  { unfold name at 2. cbn [read_tuple_loop]. unfold read_char at 1. change (40 =? ch_open) with true. cbv iota. cbn [nested subtypes subtuples last_item].
    change (1 <? 0 + 1)%Z with false. cbv iota. cbn [bind]. change (0 + 1)%Z with (Z.of_nat 1). change (0 + 1) with (len [40]). change 1 with (len [40]) at 1.
    eapply (@loop_texts rd name A (length (s ++ [41])) (s ++ [41]) [40] 1 [40] []); [apply le_n|reflexivity|reflexivity|]. intros _. exists []. auto. }
  rewrite <- E. unfold fields_of. now destruct (read_tuple_loop _ _ _ _ _ _).
Qed.

Lemma app_one_inv (a b : str) c d : a ++ [c] = b ++ [d] -> a = b /\ c = d.
Proof using. apply app_inj_tail. Qed.
(** A name by its last character. *)
Definition name_cases (s : str) (e : err) : Prop :=
  (ends_plain s /\ base_error s e) \/
  (exists x num, s = x ++ 91 :: num ++ [93] /\ ~ In 91 num /\ ((num <> [] /\ not_size num /\ bad_number num e) \/ (exists w, suffix_wrap num w) /\ rejected_name x e)) \/
  (exists x, s = x ++ [93] /\ ~ In 91 x /\ x <> [] /\ not_size x /\ bad_number x e) \/
  (exists x, s = x ++ [41] /\ (forall r, s <> 40 :: r) /\ e = InvalidName s) \/
  (exists b, s = 40 :: b ++ [41] /\ rejected_text s 1 [] (b ++ [41]) e).
Lemma rejected_cases s e : rejected_name s e <-> name_cases s e.
Proof using.
  split.
  - intros [s0 P W|w k e0 I NK NS BN P|y k e0 Y NK N91 NS BN|s0 x e0 SX R|s0 N|b e0 R].
    + left. split; [exact P|]. left. auto.
    + left. split; [exact P|]. right. exists w, k. auto.
    + destruct Y as [-> |[z ->]].
      * right. right. left. exists k. auto 6.
      * right. left. exists z, k. split; [now rewrite <- app_assoc|]. auto 6.
    + right. left. apply array_suffix_iff in SX as (num & w & SX & ->). exists s0, num. split; [reflexivity|]. split; [eauto using suffix_wrap_no_bracket|]. right. eauto.
    + right. right. right. left. exists s0. split; [reflexivity|]. split; [|reflexivity]. intros r E. destruct s0 as [|c s0]; [discriminate E|]. injection E as -> _. now apply (N s0).
    + right. right. right. right. exists b. auto.
  - intros [[P [[W ->]|(w & k & I & NK & NS & BN & ->)]]|[(x & num & -> & N91 & [(NK & NS & BN)|[[w SX] R]])|[(x & -> & N91 & NK & NS & BN)|[(x & -> & N & ->)|(b & -> & R)]]]].
    + now apply rn_word.
    + now apply rn_size.
    + replace (x ++ 91 :: num ++ [93]) with ((x ++ lit "[") ++ num ++ lit "]") by (now rewrite <- app_assoc). apply rn_count; eauto.
    + apply rn_array; [|exact R]. apply array_suffix_iff. eauto.
    + change (x ++ [93]) with ([] ++ x ++ lit "]"). apply rn_count; auto.
    + apply rn_unopened. intros r ->. now apply (N (r ++ [41])).
    + now apply rn_tuple.
Qed.
Lemma name_err f : forall s, (length s < f)%nat -> len s < 2 ^ 63 -> all_ascii s = true -> forall e, any_fuel f s = Err e <-> rejected_name s e.
Proof using PO PE BO BP FO.
  induction f as [|f IH]; intros s L B A e; [lia|]. pose proof B as B'. rewrite <- (str_len_ascii _ A) in B'. rewrite rejected_cases. unfold name_cases.
  destruct (last_char s) as [c|] eqn:EL.
  2:{ apply last_char_none in EL. subst s. cbn [gen_fuel last_char rev].  split.
      - intros E. left. split; [intros r; split; now destruct r|now apply base_err].
      - intros [[_ H]|[(x & num & E & _)|[(x & E & _)|[(x & E & _)|(b & E & _)]]]]; try (now destruct x); [now apply err_base|discriminate]. }
  pose proof EL as EL0. apply last_char_some in EL as [s0 ES]. cbn [gen_fuel]. rewrite EL0. change ch_close with 41. change ch_rbracket with 93.
  destruct (N.eqb_spec c 41) as [->|EC].
  - assert (NP : ~ ends_plain s) by (intros P; destruct (P s0) as [P1 _]; contradiction).
    assert (NB : forall x, s <> x ++ [93]) by (intros x E; rewrite ES in E; apply app_one_inv in E as [_ E]; discriminate).
    assert (NB' : forall x num, s <> x ++ 91 :: num ++ [93]) by (intros x num E; apply (NB (x ++ 91 :: num)); now rewrite <- app_assoc).
    destruct (starts_with_char s ch_open) eqn:SW.
    2:{ unfold read_tuple. rewrite SW. assert (NO : forall r, s <> 40 :: r) by (intros r ->; discriminate SW). split.
        - intros E. injection E as <-. right. right. right. left. eauto.
        - intros [[P _]|[(x & num & E & _)|[(x & E & _)|[(x & E & _ & ->)|(b & E & _)]]]]; [contradiction|now apply NB' in E|now apply NB in E|reflexivity|now apply NO in E]. }
    assert (EB : exists b, s = 40 :: b ++ [41]).
    { destruct s as [|c s]; [discriminate|]. cbn in SW. apply N.eqb_eq in SW. change ch_open with 40 in SW. subst c. destruct s0 as [|x s0]; [discriminate|]. injection ES as _ ->. eauto. }
    destruct EB as [b ->]. apply le_S_n in L.
    assert (L2 : len b + 1 < 2 ^ 63) by (rewrite <- name_lens; apply N.le_lt_trans with (len (40 :: b ++ [41])); [apply N.le_sub_l|exact B]).
    assert (LF : forall m : str, len m <= len b + 1 -> (length m < f)%nat) by (intros m; rewrite <- name_lens; intros H; apply (len_bound _ _ H); split; [rewrite name_len; apply le_n_S, Nat.le_0_l|exact L]).
    assert (HI : forall m t, len m <= len b + 1 -> all_ascii m = true -> ~ In 41 m -> (any_fuel f m = Ok t <-> spelled m t)) by (intros m t Lm Am Nm; rewrite FO; now apply (fuel_items p L2 LF)).
    assert (HA : forall m t, len m <= len b + 1 -> all_ascii m = true -> (any_fuel f m = Ok t <-> accepted m t)) by (intros m t Lm Am; rewrite FO; apply nested_read; auto; now apply N.le_lt_trans with (len b + 1)).
    assert (HE : forall m e, len m <= len b + 1 -> all_ascii m = true -> (any_fuel f m = Err e <-> rejected_name m e)) by (intros m e' Lm Am; apply IH; auto; now apply N.le_lt_trans with (len b + 1)).
    assert (LS : len (b ++ [41]) <= len b + 1) by (rewrite len_app; apply N.le_refl). pose proof (ascii_cons _ _ A) as A1.
    assert (U : (2 <= 1)%nat -> len (@nil char) + len (b ++ [41]) + 1 <= len b + 1 /\ all_ascii [] = true) by (intros H; exfalso; clear - H; lia).
    rewrite any_texts by exact A. split.
    + intros E. right. right. right. right. exists b. split; [reflexivity|].
      apply (@loop_rejected bad_number (any_fuel f) (len b + 1) HI HA HE (40 :: b ++ [41]) _ 1 [] (b ++ [41]) e [] [] (le_n _)); auto.
      destruct (texts _ _ _ _ _ _ _ _ _) as [ts|e'|] eqn:T; cbn [bind] in E; congruence.
    + intros [[P _]|[(x & num & E & _)|[(x & E & _)|[(x & E & N & _)|(b' & E & R)]]]]; [contradiction|now apply NB' in E|now apply NB in E|now destruct (N (b ++ [41]))|].
      injection E as E. apply app_one_inv in E as [<- _].
      rewrite (@loop_rejects bad_number (any_fuel f) (len b + 1) HI HA HE (40 :: b ++ [41]) 1 [] (b ++ [41]) e R [] []); auto.
  - assert (NT : forall x, s <> x ++ [41]) by (intros x E; rewrite ES in E; apply app_one_inv in E as [_ E]; congruence).
    assert (NT' : forall b, s <> 40 :: b ++ [41]) by (intros b; apply (NT (40 :: b))).
    destruct (N.eqb_spec c 93) as [->|EB].
    + assert (NP : ~ ends_plain s) by (intros P; destruct (P s0) as [_ P1]; contradiction). destruct (split_bracket s0) as [(x & num & -> & NB)|NB].
      * rewrite <- app_assoc in ES. cbn [app] in ES. 
        assert (NL : forall y, s = y ++ [93] -> In 91 y).
        { intros y E. rewrite ES in E. change (x ++ 91 :: num ++ [93]) with (x ++ (91 :: num) ++ [93]) in E. rewrite app_assoc in E. apply app_one_inv in E as [<- _]. apply in_app_iff. right. now left. }
        assert (Ax : all_ascii x = true) by (rewrite ES in A; now apply ascii_app_l in A).
        destruct (suffix_wrap_dec num) as [[w SX]|SX].
        -- assert (IHx : any_fuel f x = Err e <-> rejected_name x e).
           { apply IH; [clear - L ES; rewrite ES, app_length in L; cbn [length] in L; lia|clear - B ES; rewrite ES, len_app in B; lia|exact Ax]. }
           assert (RW : any_array (any_fuel f) s = (do t <- any_fuel f x; Ok (w t))) by (rewrite ES; now apply array_wrap).
           rewrite RW. split.
           ++ intros E. right. left. exists x, num. split; [exact ES|]. split; [exact NB|]. right. split; [eauto|]. apply IHx. destruct (any_fuel f x); cbn [bind] in E; congruence.
           ++ intros [[P _]|[(x' & num' & E & N' & H)|[(y & E & N' & _)|[(y & E & _)|(b & E & _)]]]]; [contradiction| |now apply NL in E|now apply NT in E|now apply NT' in E].
              rewrite ES in E. apply last_bracket_unique in E as [<- <-]; auto. destruct H as [(NK & NS & _)|[_ H]].
              ** exfalso. destruct SX as [[-> _]|(n & K & _)]; [congruence|now apply NS in K].
              ** apply IHx in H. rewrite H. reflexivity.
        -- assert (NN : num <> [] /\ not_size num). { split; [intros ->; apply (SX PArray); left; auto|intros n K; apply (SX (fun t => PFixedArray t n)); right; eauto]. }
           assert (RB : any_array (any_fuel f) s = Err e <-> not_size num /\ bad_number num e).
           { rewrite ES, array_split by exact NB. destruct NN as [NN NS]. rewrite <- (PE e NN). destruct num as [|d num]; [congruence|]. set (num' := d :: num) in *.
             destruct (pu num') as [n|e'|] eqn:P; [apply PO in P; now apply NS in P|cbn [bind]; split; congruence|cbn [bind]; split; congruence]. }
           rewrite RB. split.
           ++ intros E. right. left. exists x, num. tauto.
           ++ intros [[P _]|[(x' & num' & E & N' & H)|[(y & E & N' & _)|[(y & E & _)|(b & E & _)]]]]; [contradiction| |now apply NL in E|now apply NT in E|now apply NT' in E].
              rewrite ES in E. apply last_bracket_unique in E as [<- <-]; auto. destruct H as [(_ & H)|[[w H] _]]; [exact H|now apply SX in H].
      * assert (NA : forall x num, s <> x ++ 91 :: num ++ [93]).
        { intros x num E. rewrite ES in E. change (x ++ 91 :: num ++ [93]) with (x ++ (91 :: num) ++ [93]) in E. rewrite app_assoc in E. apply app_one_inv in E as [-> _]. apply NB, in_app_iff. right. now left. }
        rewrite ES at 1. rewrite array_lone; [|exact NB|now rewrite <- ES]. split.
        -- intros E. right. right. left. exists s0. auto.
        -- intros [[P _]|[(x & num & E & _)|[(y & E & N' & H)|[(y & E & _)|(b & E & _)]]]]; [contradiction|now apply NA in E| |now apply NT in E|now apply NT' in E].
           rewrite ES in E. apply app_one_inv in E as [<- _]. exact H.
    + assert (NB : forall x, s <> x ++ [93]) by (intros x E; rewrite ES in E; apply app_one_inv in E as [_ E]; congruence).
      assert (NB' : forall x num, s <> x ++ 91 :: num ++ [93]) by (intros x num E; apply (NB (x ++ 91 :: num)); now rewrite <- app_assoc).
      split.
      * intros E. left. split; [intros r; split; [apply NT|apply NB]|now apply base_err].
      * intros [[_ H]|[(x & num & E & _)|[(x & E & _)|[(x & E & _)|(b & E & _)]]]]; [now apply err_base|now apply NB' in E|now apply NB in E|now apply NT in E|now apply NT' in E].
Qed.
End Reader.
Theorem name_errors p s e : len s < 2 ^ 63 -> all_ascii s = true -> (read p s = Err e <-> rejected_name number_error s e).
Proof.
  intros B A. unfold read. change (read_fuel p) with (gen_fuel parse_usize p). apply name_err; auto; try reflexivity; [apply parse_usize_iff| |apply read_base_not_panic].
  intros k e' _. unfold number_error. split; [apply err_size|]. intros [N ->]. now apply size_err.
Qed.

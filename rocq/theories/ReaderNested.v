(** * The names with tuples inside tuples: the reader against its grammar *)
From Verif Require Import Base Types BaseFacts StrFacts TypeNames TypeNamesSpec TypeNamesFacts ReaderSpec ReaderFacts ReaderTotal ReaderGrammar ReaderExact.
From Coq Require Import String Lia ZifyBool ZifyNat ZifyN.
Set Implicit Arguments.
Local Open Scope N_scope.
Local Open Scope list_scope.
Notation length := List.length.

(** ** The loop without positions *)
Section Text.
Context (rd : str -> res ParamType) (bad : err).
Definition is_tail (c : char) : bool := negb ((c =? 44) || (c =? 41)).
(** [w]: the text since the last item; [u]: the text since the last '('. *)
Fixpoint texts (rest : str) (skip : nat) (n : nat) (w u : str) (acc : list ParamType) (sts : list (list ParamType)) : res (list ParamType) :=
  match rest with
  | [] => Ok acc
  | c :: rest' =>
    match skip with
    | S k => texts rest' k n w u acc sts
    | O =>
      if c =? 40 then
        match n with
        | O => texts rest' 0 1 (w ++ [c]) [] acc sts
        | S _ => texts rest' 0 (S n) [] [] acc (sts ++ [[]])
        end
      else if c =? 41 then
        match n with
        | O => Err bad
        | S m =>
          match w with
          | [] => texts rest' 0 m [] (u ++ [c]) acc sts
          | _ =>
            match m with
            | O => do t <- rd w; texts rest' 0 0 [] (u ++ [c]) (acc ++ [t]) sts
            | S m' =>
              let sk := take_while is_tail rest' in
              do t <- rd (40 :: u ++ 41 :: sk);
              match m' with
              | O => texts rest' (length sk) m [] (u ++ 41 :: sk) (acc ++ [t]) sts
              | S i => do (sub, sts') <- take_at sts i; texts rest' (length sk) m [] (u ++ 41 :: sk) (acc ++ [PTuple (sub ++ [t])]) sts'
              end
            end
          end
        end
      else if c =? 44 then
        match w with
        | [] => texts rest' 0 n [] (u ++ [c]) acc sts
        | _ =>
          match n with
          | O => texts rest' 0 n (w ++ [c]) (u ++ [c]) acc sts
          | S O => do t <- rd w; texts rest' 0 n [] (u ++ [c]) (acc ++ [t]) sts
          | S (S i) => do t <- rd w; do sts' <- push_at sts i t; texts rest' 0 n [] (u ++ [c]) acc sts'
          end
        end
      else texts rest' 0 n (w ++ [c]) (u ++ [c]) acc sts
    end
  end.
Lemma texts_skip sk rest n w u acc sts : texts (sk ++ rest) (length sk) n w u acc sts = texts rest 0 n w u acc sts.
Proof. induction sk as [|c sk IH]; [reflexivity|]. cbn [app length texts]. exact IH. Qed.
End Text.

Definition fields_of (r : res rstate) : res (list ParamType) := do st <- r; Ok (subtypes st).
Section Positions.
Context (rd : str -> res ParamType) (name : str).
Hypothesis NA : all_ascii name = true.

Lemma slice_is A w rest : name = A ++ w ++ rest -> str_slice name (len A) (len A + len w) = Ok w.
Proof.
  intros EN. rewrite EN in NA. rewrite !all_ascii_app in NA. apply andb_true_iff in NA as [A1 A2]. apply andb_true_iff in A2 as [A2 A3].
  rewrite EN. now apply ascii_slice.
Qed.
Lemma loop_texts M : forall rest pre n A w u acc sts top, (length rest <= M)%nat -> name = pre ++ rest -> pre = A ++ w ->
  ((1 <= n)%nat -> exists T, pre = T ++ 40 :: u /\ len T = top) ->
  fields_of (read_tuple_loop rd name rest (len pre) 0 (mkR acc sts (Z.of_nat n) top (len A))) = texts rd (InvalidName name) rest 0 n w u acc sts.
Proof.
  induction M as [|M IH]; intros [|c rest] pre n A w u acc sts top L EN EP TT; cbn [length] in L; try lia; try reflexivity.
  assert (SL : str_slice name (len A) (len pre) = Ok w).
  { rewrite EP, len_app. apply (@slice_is A w (c :: rest)). rewrite EN, EP, <- app_assoc. reflexivity. }
  assert (LP : forall x : char, len pre + 1 = len (pre ++ [x])) by (intros x; rewrite len_app; reflexivity).
  assert (EC : name = (pre ++ [c]) ++ rest) by (rewrite EN, <- app_assoc; reflexivity).
  assert (U1 : (1 <= n)%nat -> exists T, pre ++ [c] = T ++ 40 :: u ++ [c] /\ len T = top).
  { intros H. destruct (TT H) as (T & -> & <-). exists T. rewrite <- app_assoc. auto. }
  cbn [read_tuple_loop texts]. unfold read_char. cbn [nested subtypes subtuples last_item top_level_paren_open].
  change ch_open with 40. change ch_close with 41. change ch_comma with 44.
  destruct (N.eqb_spec c 40) as [->|C40].
  { destruct n as [|n].
    - change (1 <? Z.of_nat 0 + 1)%Z with false. cbv iota. cbn [bind]. rewrite (LP 40). change (Z.of_nat 0 + 1)%Z with (Z.of_nat 1).
      apply IH; [lia|exact EC|rewrite EP, <- app_assoc; reflexivity|]. intros _. exists pre. auto.
    - replace (1 <? Z.of_nat (S n) + 1)%Z with true by lia. cbn [bind]. rewrite !(LP 40). replace (Z.of_nat (S n) + 1)%Z with (Z.of_nat (S (S n))) by lia.
      apply IH; [lia|exact EC|now rewrite app_nil_r|]. intros _. exists pre. auto. }
  destruct (N.eqb_spec c 41) as [->|C41].
  { destruct n as [|m]; [reflexivity|]. replace (Z.of_nat (S m) - 1)%Z with (Z.of_nat m) by lia. replace (Z.of_nat m <? 0)%Z with false by lia.
    rewrite SL. cbn [bind]. assert (UM : (1 <= m)%nat -> exists T, pre ++ [41] = T ++ 40 :: u ++ [41] /\ len T = top) by (intros; apply U1; lia).
    destruct w as [|x w].
    - cbn [bind]. rewrite !(LP 41). apply IH; [lia|exact EC|now rewrite app_nil_r|exact UM].
    - destruct m as [|m].
      + change (Z.of_nat 0 =? 0)%Z with true. cbv iota. destruct (rd (x :: w)) as [t|e|]; cbn [bind]; try reflexivity.
        rewrite !(LP 41). change 0%Z with (Z.of_nat 0). apply IH; [lia|exact EC|now rewrite app_nil_r|lia].
      + replace (Z.of_nat (S m) =? 0)%Z with false by lia. cbv iota zeta.
        destruct TT as (T & ET & LT); [lia|]. change (fun c0 : char => negb ((c0 =? 44) || (c0 =? 41))) with is_tail. set (sk := take_while is_tail rest).
        assert (ER : exists rest', rest = sk ++ rest') by (exists (drop_while is_tail rest); symmetry; apply take_drop_while).
        destruct ER as [rest' ER].
        assert (EN' : name = T ++ (40 :: u ++ 41 :: sk) ++ rest').
        { rewrite EN, ET, ER, <- !app_assoc. cbn [app]. rewrite <- !app_assoc. cbn [app]. reflexivity. }
        assert (SL' : str_slice name top (len pre + len sk + 1) = Ok (40 :: u ++ 41 :: sk)).
        { rewrite <- LT. replace (len pre + len sk + 1) with (len T + len (40 :: u ++ 41 :: sk)); [exact (@slice_is T _ _ EN')|].
          rewrite ET. rewrite !len_app, !len_cons, !len_app, !len_cons. lia. }
        rewrite SL'. cbn [bind]. destruct (rd (40 :: u ++ 41 :: sk)) as [t|e|]; cbn [bind]; try reflexivity.
        assert (NEXT : forall acc' sts', fields_of (read_tuple_loop rd name rest (len pre + 1) (length sk) (mkR acc' sts' (Z.of_nat (S m)) top (len pre + len sk + 1))) =
          texts rd (InvalidName name) rest (length sk) (S m) [] (u ++ 41 :: sk) acc' sts').
        { intros acc' sts'. rewrite ER. rewrite loop_skip, texts_skip. replace (len pre + 1 + len sk) with (len (pre ++ 41 :: sk)) by (rewrite len_app, len_cons; lia).
          replace (len pre + len sk + 1) with (len (pre ++ 41 :: sk)) by (rewrite len_app, len_cons; lia). apply IH.
          - rewrite ER, app_length in L. lia.
          - rewrite EN, ER, <- app_assoc. reflexivity.
          - now rewrite app_nil_r.
          - intros _. exists T. split; [|exact LT]. rewrite ET, <- app_assoc. reflexivity. }
        destruct m as [|i].
        * change (1 <? Z.of_nat 1)%Z with false. cbv iota. cbn [bind]. apply NEXT.
        * replace (1 <? Z.of_nat (S (S i)))%Z with true by lia. replace (Z.to_nat (Z.of_nat (S (S i)) - 2)) with i by lia.
          destruct (take_at sts i) as [[sub sts']|e|]; cbn [bind]; try reflexivity. apply NEXT. }
  destruct (N.eqb_spec c 44) as [->|C44].
  { rewrite SL. cbn [bind]. destruct w as [|x w].
    - cbn [bind]. rewrite !(LP 44). apply IH; [lia|exact EC|now rewrite app_nil_r|exact U1].
    - destruct n as [|[|i]].
      + change (Z.of_nat 0 =? 1)%Z with false. change (1 <? Z.of_nat 0)%Z with false. cbv iota. cbn [bind]. rewrite (LP 44).
        apply IH; [lia|exact EC|rewrite EP, <- app_assoc; reflexivity|exact U1].
      + change (Z.of_nat 1 =? 1)%Z with true. cbv iota. destruct (rd (x :: w)) as [t|e|]; cbn [bind]; try reflexivity.
        rewrite !(LP 44). apply IH; [lia|exact EC|now rewrite app_nil_r|exact U1].
      + replace (Z.of_nat (S (S i)) =? 1)%Z with false by lia. replace (1 <? Z.of_nat (S (S i)))%Z with true by lia.
        replace (Z.to_nat (Z.of_nat (S (S i)) - 2)) with i by lia. destruct (rd (x :: w)) as [t|e|]; cbn [bind]; try reflexivity.
        destruct (push_at sts i t) as [sts'|e|]; cbn [bind]; try reflexivity.
        rewrite !(LP 44). apply IH; [lia|exact EC|now rewrite app_nil_r|exact U1]. }
  cbn [bind]. rewrite (LP c). apply IH; [lia|exact EC|rewrite EP, <- app_assoc; reflexivity|exact U1].
Qed.
End Positions.

(** ** Inner tuples *)
Lemma arrays_chars y t0 t : arrays_text y t0 t -> forallb (fun c => negb (punct c)) y = true /\ all_ascii y = true.
Proof.
  induction 1 as [t|y t0 t H [I1 I2]|y t0 t k n H [I1 I2] Hk]; [auto| |].
  - rewrite forallb_app, all_ascii_app, I1, I2. auto.
  - destruct (@suffix_chars k (fun t => PFixedArray t n)) as [P A]; [right; eauto|].
    rewrite !forallb_app, !all_ascii_app, I1, I2, A. split; [|reflexivity].
    rewrite (@forallb_weaken _ plain_char (fun c => negb (punct c)) k); [reflexivity| |exact P]. unfold plain_char, punct. intros c. lia.
Qed.
Lemma plain_not_in y : forallb (fun c => negb (punct c)) y = true -> ~ In 40 y /\ ~ In 41 y /\ ~ In 44 y.
Proof. intros H. rewrite forallb_forall in H. repeat split; intros I; apply H in I; discriminate. Qed.
Lemma flat_window s t : spelled_flat s t -> spelled s t \/ exists u v us, s = 40 :: u ++ 41 :: v /\ fields_text u us /\ arrays_text v (PTuple us) t.
Proof.
  induction 1 as [s t H|s ts H|s t H IH|s t k n H IH Hk].
  - now left.
  - right. exists s, [], ts. repeat split; [exact H|constructor].
  - destruct IH as [IH|(u & v & us & -> & F & A)]; [left; now constructor|]. right. exists u, (v ++ lit "[]"), us. split; [cbn [app]; now rewrite <- app_assoc|]. split; [exact F|now constructor].
  - destruct IH as [IH|(u & v & us & -> & F & A)]; [left; now constructor|]. right. exists u, (v ++ lit "[" ++ k ++ lit "]"), us. split; [cbn [app]; now rewrite <- app_assoc|]. split; [exact F|now constructor].
Qed.
Lemma window_flat u us v t : fields_text u us -> arrays_text v (PTuple us) t -> spelled_flat (40 :: u ++ 41 :: v) t.
Proof.
  intros F A. remember (PTuple us) as t0 eqn:E0. induction A as [t|y t0 t H IH|y t0 t k n H IH Hk]; subst.
  - change (40 :: u ++ [41]) with (lit "(" ++ u ++ lit ")"). now constructor.
  - replace (40 :: u ++ 41 :: y ++ lit "[]") with ((40 :: u ++ 41 :: y) ++ lit "[]") by (cbn [app]; now rewrite <- app_assoc). apply sf_array. now apply IH.
  - replace (40 :: u ++ 41 :: y ++ lit "[" ++ k ++ lit "]") with ((40 :: u ++ 41 :: y) ++ lit "[" ++ k ++ lit "]") by (cbn [app]; now rewrite <- app_assoc).
    apply sf_fixed_array; [now apply IH|exact Hk].
Qed.
Lemma last_close (u v u' v' : str) : ~ In 41 v -> ~ In 41 v' -> u ++ 41 :: v = u' ++ 41 :: v' -> u = u' /\ v = v'.
Proof.
  intros N N' E. apply app_eq_app in E as (l & [[E1 E2]|[E1 E2]]); destruct l as [|y l]; cbn [app] in E2.
  - injection E2 as <-. now rewrite app_nil_r in E1.
  - injection E2 as <- E2. exfalso. apply N'. rewrite E2. apply in_app_iff. right. now left.
  - injection E2 as <-. now rewrite app_nil_r in E1.
  - injection E2 as <- E2. exfalso. apply N. rewrite E2. apply in_app_iff. right. now left.
Qed.
Lemma window_read p f u v t : (length (40 :: u ++ 41 :: v)%N < f)%nat -> len (40 :: u ++ 41 :: v) < 2 ^ 63 -> all_ascii (40 :: u ++ 41 :: v) = true ->
  ~ In 40 u -> ~ In 41 v -> (read_fuel p f (40 :: u ++ 41 :: v) = Ok t <-> exists us, fields_text u us /\ arrays_text v (PTuple us) t).
Proof.
  intros L B A N40 N41. pose proof B as B'. rewrite <- (str_len_ascii _ A) in B'. split.
  - intros E. destruct (@tail_read p f u v t L B A N40 N41 E) as (V & _).
    apply flat_read in E; [|exact L|exact B'|].
    2:{ cbn [tl]. intros I. apply in_app_iff in I as [I|[I|I]]; [contradiction|discriminate|contradiction]. }
    apply flat_window in E as [E|(u' & v' & us & E & F & Av)].
    + exfalso. apply spelled_no_paren in E as [E _]. apply E. now left.
    + injection E as E. destruct (plain_not_in _ (proj1 (arrays_chars Av))) as (_ & V' & _). apply last_close in E as [-> ->]; eauto.
  - intros (us & F & Av). apply flat_read; [exact L|exact B'| |now apply window_flat with us].
    destruct (plain_not_in _ (proj1 (arrays_chars Av))) as (V & _). cbn [tl]. intros I. apply in_app_iff in I as [I|[I|I]]; [contradiction|discriminate|contradiction].
Qed.
Lemma closed_fields_text g ts : closed_fields g ts -> fields_text g ts.
Proof. induction 1; [constructor|now constructor|]. now apply ft_field. Qed.
Lemma closed_last g us x z : closed_fields g us -> spelled x z -> fields_text (g ++ x) (us ++ [z]).
Proof.
  intros C S. induction C as [|g ts C IH|y t g ts Sy C IH]; cbn [app]; [now constructor|now constructor|]. rewrite <- app_assoc. cbn [app]. now apply ft_field.
Qed.
(** The text of fields ends with a comma, or with a field. *)
Lemma fields_cases f ts : fields_text f ts -> closed_fields f ts \/ exists g us x z, f = g ++ x /\ closed_fields g us /\ spelled x z /\ ts = us ++ [z].
Proof.
  induction 1 as [|s t S|s ts H [IH|(g & us & x & z & -> & C & S & ->)]|s t r ts S H [IH|(g & us & x & z & -> & C & S' & ->)]].
  - left. constructor.
  - right. exists [], [], s, t. repeat split; auto. constructor.
  - left. now constructor.
  - right. exists (44 :: g), us, x, z. repeat split; auto. now constructor.
  - left. now constructor.
  - right. exists (s ++ 44 :: g), (t :: us), x, z. repeat split; auto; [now rewrite <- app_assoc|now constructor].
Qed.

(** ** The grammar *)
Lemma no_sep_plain x : no_separator x <-> forallb (fun c => negb (punct c)) x = true.
Proof.
  unfold no_separator. rewrite forallb_forall. split; intros H c I.
  - destruct (H c I) as (A & B & C). unfold punct. lia.
  - specialize (H c I). unfold punct in H. lia.
Qed.
Lemma spelled_no_sep x t : spelled x t -> no_separator x /\ x <> [].
Proof. intros S. destruct (spelled_chars S) as (_ & N & C). split; [now apply no_sep_plain|exact N]. Qed.
Lemma closed_chars g ts : closed_fields g ts -> no_paren g /\ (g = [] \/ exists g', g = g' ++ [44]).
Proof.
  induction 1 as [|g ts C [I1 I2]|x t g ts S C [I1 I2]].
  - split; [intros c []|now left].
  - split; [intros c [<-|I]; [split; discriminate|now apply I1]|]. right. destruct I2 as [-> |[g' ->]]; [now exists []|now exists (44 :: g')].
  - destruct (spelled_no_sep S) as [N _]. split.
    + intros c I. apply in_app_iff in I as [I|[<-|I]]; [now destruct (N c I) as (A & B & _)|split; discriminate|now apply I1].
    + right. destruct I2 as [-> |[g' ->]]; [now exists x|exists (x ++ 44 :: g'); now rewrite <- app_assoc].
Qed.
(** Every text splits at its first separator, or parenthesis. *)
Lemma first_char (f : char -> bool) s : forallb (fun c => negb (f c)) s = true \/ exists x c r, s = x ++ c :: r /\ forallb (fun c => negb (f c)) x = true /\ f c = true.
Proof.
  induction s as [|c s IH]; [now left|]. destruct (f c) eqn:E.
  - right. exists [], c, s. auto.
  - destruct IH as [IH|(x & c' & r & -> & P & F)]; [left; cbn [forallb]; now rewrite E, IH|]. right. exists (c :: x), c', r. cbn [forallb]. now rewrite E, P.
Qed.
Lemma last_comma (s : str) : no_paren s -> exists g x, s = g ++ x /\ (g = [] \/ exists g', g = g' ++ [44]) /\ no_separator x.
Proof.
  induction s as [|c s IH] using rev_ind; intros N.
  - exists [], []. split; [reflexivity|]. split; [now left|intros c []].
  - destruct IH as (g & x & -> & G & X). { intros d I. apply N, in_app_iff. now left. }
    destruct (N.eq_dec c 44) as [->|C].
    + exists ((g ++ x) ++ [44]), []. split; [now rewrite app_nil_r|]. split; [right; eauto|intros c []].
    + exists g, (x ++ [c]). split; [now rewrite app_assoc|]. split; [exact G|]. intros d I. apply in_app_iff in I as [I|[<-|[]]]; [now apply X|].
      destruct (N c) as [A B]; [apply in_app_iff; right; now left|]. auto.
Qed.
Lemma last_comma_unique (g x g' x' : str) : (g = [] \/ exists h, g = h ++ [44]) -> (g' = [] \/ exists h, g' = h ++ [44]) -> no_separator x -> no_separator x' ->
  g ++ x = g' ++ x' -> g = g' /\ x = x'.
Proof.
  intros G G' X X' E. apply app_eq_app in E as (l & [[E1 E2]|[E1 E2]]).
  - destruct l as [|y l _] using rev_ind; [now rewrite app_nil_r in E1|exfalso]. destruct G as [-> |[h ->]].
    + symmetry in E1. apply app_eq_nil in E1 as [_ E1]. now destruct l.
    + rewrite app_assoc in E1. apply app_inj_tail in E1 as [_ <-]. destruct (X' 44) as (_ & _ & N); [|congruence]. rewrite E2. apply in_app_iff. left. apply in_app_iff. right. now left.
  - destruct l as [|y l _] using rev_ind; [now rewrite app_nil_r in E1|exfalso]. destruct G' as [-> |[h ->]].
    + symmetry in E1. apply app_eq_nil in E1 as [_ E1]. now destruct l.
    + rewrite app_assoc in E1. apply app_inj_tail in E1 as [_ <-]. destruct (X 44) as (_ & _ & N); [|congruence]. rewrite E2. apply in_app_iff. left. apply in_app_iff. right. now left.
Qed.

Lemma len_le_app (a b : str) : len a <= len (a ++ b).
Proof. rewrite len_app. lia. Qed.
Section Grammar.
Context (rd : str -> res ParamType) (bad : err) (B : N).
Hypothesis HI : forall m t, len m <= B -> all_ascii m = true -> ~ In 41 m -> (rd m = Ok t <-> spelled m t).
Hypothesis HW : forall u v t, len (40 :: u ++ 41 :: v) <= B -> all_ascii (40 :: u ++ 41 :: v) = true -> ~ In 40 u -> ~ In 41 v ->
  (rd (40 :: u ++ 41 :: v) = Ok t <-> exists us, fields_text u us /\ arrays_text v (PTuple us) t).
Notation texts := (texts rd bad).

Lemma texts_plain x s n w u acc sts : no_separator x -> texts (x ++ s) 0 n w u acc sts = texts s 0 n (w ++ x) (u ++ x) acc sts.
Proof.
  revert w u. induction x as [|c x IH]; intros w u H; [now rewrite !app_nil_r|]. cbn [app ReaderNested.texts].
  destruct (H c) as (C1 & C2 & C3); [now left|]. apply N.eqb_neq in C1, C2, C3. rewrite C1, C2, C3, IH by (intros d I; apply H; now right). now rewrite <- !app_assoc.
Qed.
(** Outside all parentheses. *)
Lemma texts_outside j s w u acc sts : no_paren j -> all_ascii j = true -> ~ In 41 w -> all_ascii w = true ->
  exists w' u', texts (j ++ s) 0 0 w u acc sts = texts s 0 0 w' u' acc sts /\ ~ In 41 w' /\ all_ascii w' = true /\ len w' <= len w + len j.
Proof using rd bad. clear HI HW.
  revert w u. induction j as [|c j IH]; intros w u H A W AW; [exists w, u; repeat split; auto; lia|]. cbn [app ReaderNested.texts].
  destruct (H c) as (C1 & C2); [now left|]. pose proof C2 as C3. apply N.eqb_neq in C1, C2. rewrite C1, C2.
  assert (N : no_paren j) by (intros d I; apply H; now right). change (c :: j) with ([c] ++ j) in A. rewrite all_ascii_app in A. apply andb_true_iff in A as [Ac Aj].
  assert (G : exists w' u', texts (j ++ s) 0 0 (w ++ [c]) (u ++ [c]) acc sts = texts s 0 0 w' u' acc sts /\ ~ In 41 w' /\ all_ascii w' = true /\ len w' <= len w + len (c :: j)).
  { destruct (IH (w ++ [c]) (u ++ [c]) N Aj) as (w' & u' & E & K1 & K2 & K3).
    - intros I. apply in_app_iff in I as [I|[I|[]]]; auto.
    - now rewrite all_ascii_app, AW.
    - exists w', u'. repeat split; auto. rewrite len_app in K3. rewrite len_cons. change (len [c]) with 1 in K3. lia. }
  destruct (c =? 44); [destruct w|]; try exact G. destruct (IH [] (u ++ [c]) N Aj) as (w' & u' & E & K1 & K2 & K3); auto. exists w', u'. repeat split; auto. rewrite len_cons. lia.
Qed.
Lemma texts_outside_any j s w u acc sts : no_paren j -> exists w' u', texts (j ++ s) 0 0 w u acc sts = texts s 0 0 w' u' acc sts.
Proof.
  revert w u. induction j as [|c j IH]; intros w u H; [now exists w, u|]. cbn [app ReaderNested.texts].
  destruct (H c) as (C1 & C2); [now left|]. apply N.eqb_neq in C1, C2. rewrite C1, C2.
  assert (N : no_paren j) by (intros d I; apply H; now right). destruct (c =? 44); [destruct w|]; now apply IH.
Qed.
Lemma texts_closed g us n s u acc sts : closed_fields g us -> len (g ++ s) <= B -> (n < length sts)%nat ->
  texts (g ++ s) 0 (S (S n)) [] u acc sts = texts s 0 (S (S n)) [] (u ++ g) acc (add_at sts n us).
Proof using HI. clear HW.
  intros C. revert u sts. induction C as [|g ts C IH|x t g ts S C IH]; intros u sts L K.
  - now rewrite app_nil_r, add_nothing.
  - cbn [app ReaderNested.texts]. change (44 =? 40) with false. change (44 =? 41) with false. change (44 =? 44) with true. cbv iota.
    cbn [app] in L. rewrite len_cons in L. rewrite IH by (lia || exact K). now rewrite <- app_assoc.
  - rewrite <- app_assoc in L |- *. destruct (spelled_no_sep S) as [N X]. rewrite texts_plain by exact N. cbn [app]. cbn [ReaderNested.texts].
    change (44 =? 40) with false. change (44 =? 41) with false. change (44 =? 44) with true. cbv iota. destruct x as [|c x]; [congruence|].
    pose proof (len_le_app (c :: x) (44 :: g ++ s)) as LX. cbn [app] in L, LX.
    assert (E : rd (c :: x) = Ok t). { apply HI; [lia|now apply spelled_chars in S| |exact S]. intros I. now destruct (N 41 I). }
    rewrite E. cbn [bind]. rewrite push_add by exact K. cbn [bind]. rewrite IH.
    + rewrite add_add. cbn [app]. rewrite <- !app_assoc. reflexivity.
    + change (c :: x ++ 44 :: g ++ s) with ((c :: x) ++ 44 :: g ++ s) in L. rewrite len_app, !len_cons in L. lia.
    + now rewrite add_length.
Qed.
Lemma texts_closed_only M : forall g n s u acc sts r, (length g <= M)%nat -> no_paren g -> all_ascii g = true -> (g = [] \/ exists g', g = g' ++ [44]) -> len (g ++ s) <= B ->
  (n < length sts)%nat -> texts (g ++ s) 0 (S (S n)) [] u acc sts = Ok r -> exists us, closed_fields g us.
Proof.
  induction M as [|M IH]; intros g n s u acc sts r LM N A G L K E.
  { destruct g; [|cbn [length] in LM; lia]. exists []. constructor. }
  destruct G as [-> |[g' Eg]]; [exists []; constructor|].
  destruct (first_char (fun c => c =? 44) g) as [P|(x & c & g2 & -> & P & F)].
  { exfalso. rewrite forallb_forall in P. specialize (P 44). rewrite Eg in P. discriminate P. apply in_app_iff. right. now left. }
  apply N.eqb_eq in F. subst c.
  assert (X : no_separator x).
  { intros c I. destruct (N c) as [A1 A2]; [apply in_app_iff; now left|]. rewrite forallb_forall in P. specialize (P c I). cbv beta in P. repeat split; auto. intros ->. discriminate P. }
  change (x ++ 44 :: g2) with (x ++ [44] ++ g2) in A. rewrite !all_ascii_app in A. apply andb_true_iff in A as [Ax A]. apply andb_true_iff in A as [_ A2].
  assert (N2 : no_paren g2) by (intros c I; apply N, in_app_iff; right; now right).
  assert (G2 : g2 = [] \/ exists g', g2 = g' ++ [44]).
  { destruct g2 as [|y g2 _] using rev_ind; [now left|]. right. exists g2. change (x ++ 44 :: g2 ++ [y]) with (x ++ (44 :: g2) ++ [y]) in Eg. rewrite app_assoc in Eg.
    apply app_inj_tail in Eg as [_ ->]. reflexivity. }
  rewrite app_length in LM. cbn [length] in LM. rewrite <- app_assoc in E, L. cbn [app] in E, L. rewrite texts_plain in E by exact X. cbn [app ReaderNested.texts] in E.
  change (44 =? 40) with false in E. change (44 =? 41) with false in E. change (44 =? 44) with true in E. cbv iota in E.
  assert (L2 : len (g2 ++ s) <= B) by (rewrite len_app, len_cons in L; lia).
  destruct x as [|c x].
  - apply IH in E as [us C]; auto; [|lia]. exists us. now constructor.
  - destruct (rd (c :: x)) as [t|e|] eqn:R; cbn [bind] in E; try discriminate. rewrite push_add in E by exact K. cbn [bind] in E.
    apply IH in E as [us C]; auto; [|cbn [length] in LM; lia|now rewrite add_length]. exists (t :: us). constructor; [|exact C]. apply HI; [|exact Ax|intros I; now destruct (X 41 I)|exact R].
    pose proof (len_le_app (c :: x) (44 :: g2 ++ s)). lia.
Qed.
Lemma take_nth l i : (i < length l)%nat -> exists l', take_at l i = Ok (nth i l [], l') /\ length l' = length l /\ forall j, nth j l' [] = if Nat.eqb j i then [] else nth j l [].
Proof.
  revert i. induction l as [|a l IH]; intros [|i] L; cbn [length take_at nth] in *; try lia.
  - exists ([] :: l). split; [reflexivity|]. split; [reflexivity|]. now intros [|j].
  - destruct (IH i) as (l' & -> & E1 & E2); [lia|]. cbn [bind]. exists (a :: l'). split; [reflexivity|]. split; [cbn [length]; lia|]. intros [|j]; [reflexivity|]. apply E2.
Qed.
Lemma add_nth l i us j : (i < length l)%nat -> nth j (add_at l i us) [] = if Nat.eqb j i then nth i l [] ++ us else nth j l [].
Proof.
  revert i j. induction l as [|a l IH]; intros [|i] [|j] L; cbn [length add_at nth Nat.eqb] in *; try lia; try reflexivity. apply IH. lia.
Qed.
Lemma nth_new (l : list (list ParamType)) j : nth j (l ++ [[]]) [] = nth j l [].
Proof. revert j. induction l as [|a l IH]; intros [|j]; cbn [app nth]; auto. now destruct j. Qed.
Definition holds (k : waiting) (sts : list (list ParamType)) : Prop := forall n, k (S (S n)) = nth n sts [].
Lemma holds_new k sts : holds k sts -> holds k (sts ++ [[]]).
Proof. intros H n. now rewrite nth_new. Qed.
Lemma holds_add k sts n us : holds k sts -> (n < length sts)%nat -> holds (add_waiting k (S (S n)) us) (add_at sts n us).
Proof. intros H L i. rewrite add_nth by exact L. unfold add_waiting, set_waiting. cbn [Nat.eqb]. rewrite !H. reflexivity. Qed.
Lemma holds_take k sts n l' : holds k sts -> (forall j, nth j l' [] = if Nat.eqb j n then [] else nth j sts []) -> holds (set_waiting k (S (S n)) []) l'.
Proof. intros H E i. rewrite E. unfold set_waiting. cbn [Nat.eqb]. now rewrite H. Qed.

Lemma texts_open s n w u acc sts : texts (40 :: s) 0 (S n) w u acc sts = texts s 0 (S (S n)) [] [] acc (sts ++ [[]]).
Proof. reflexivity. Qed.
Lemma texts_reopen s w u acc sts : texts (40 :: s) 0 0 w u acc sts = texts s 0 1 (w ++ [40]) [] acc sts.
Proof. reflexivity. Qed.
Lemma texts_close s n u acc sts : texts (41 :: s) 0 (S n) [] u acc sts = texts s 0 n [] (u ++ [41]) acc sts.
Proof. reflexivity. Qed.
Lemma texts_last s c w u acc sts : texts (41 :: s) 0 1 (c :: w) u acc sts = do t <- rd (c :: w); texts s 0 0 [] (u ++ [41]) (acc ++ [t]) sts.
Proof. reflexivity. Qed.
Lemma texts_field s c w u acc sts : texts (41 :: s) 0 2 (c :: w) u acc sts =
  do t <- rd (40 :: u ++ 41 :: take_while is_tail s); texts (drop_while is_tail s) 0 1 [] (u ++ 41 :: take_while is_tail s) (acc ++ [t]) sts.
Proof.
  cbn [ReaderNested.texts]. change (41 =? 40) with false. change (41 =? 41) with true. cbv iota zeta. destruct (rd _) as [t|e|]; cbn [bind]; try reflexivity.
  rewrite <- (take_drop_while is_tail s) at 1. apply texts_skip.
Qed.
Lemma texts_inner s n c w u acc sts : texts (41 :: s) 0 (S (S (S n))) (c :: w) u acc sts =
  do t <- rd (40 :: u ++ 41 :: take_while is_tail s); do (sub, sts') <- take_at sts n;
  texts (drop_while is_tail s) 0 (S (S n)) [] (u ++ 41 :: take_while is_tail s) (acc ++ [PTuple (sub ++ [t])]) sts'.
Proof.
  cbn [ReaderNested.texts]. change (41 =? 40) with false. change (41 =? 41) with true. cbv iota zeta. destruct (rd _) as [t|e|]; cbn [bind]; try reflexivity.
  destruct (take_at sts n) as [[sub sts']|e|]; cbn [bind]; try reflexivity. rewrite <- (take_drop_while is_tail s) at 1. apply texts_skip.
Qed.
Lemma texts_nothing s n u acc sts : texts (44 :: s) 0 n [] u acc sts = texts s 0 n [] (u ++ [44]) acc sts.
Proof. reflexivity. Qed.
Lemma texts_comma s c w u acc sts : texts (44 :: s) 0 1 (c :: w) u acc sts = do t <- rd (c :: w); texts s 0 1 [] (u ++ [44]) (acc ++ [t]) sts.
Proof. reflexivity. Qed.
Lemma texts_waits s n c w u acc sts : texts (44 :: s) 0 (S (S n)) (c :: w) u acc sts =
  do t <- rd (c :: w); do sts' <- push_at sts n t; texts s 0 (S (S n)) [] (u ++ [44]) acc sts'.
Proof. reflexivity. Qed.
Lemma tail_split y s : forallb is_tail y = true -> at_separator s -> take_while is_tail (y ++ s) = y /\ drop_while is_tail (y ++ s) = s.
Proof.
  intros P S. assert (E : take_while is_tail (y ++ s) = y).
  { destruct S as [-> |[s' [-> | ->]]]; [rewrite app_nil_r; now apply take_while_all| |]; now apply take_while_stop. }
  split; [exact E|]. pose proof (take_drop_while is_tail (y ++ s)) as T. rewrite E in T. now apply app_inv_head in T.
Qed.
Lemma arrays_tail y t0 t : arrays_text y t0 t -> forallb is_tail y = true.
Proof using. clear HI HW B bad rd. intros H. destruct (arrays_chars H) as [P _]. eapply forallb_weaken; [|exact P]. unfold punct, is_tail. intros c. lia. Qed.
Lemma closed_ascii g us : closed_fields g us -> all_ascii g = true.
Proof. intros C. now apply closed_fields_text, fields_chars in C. Qed.

Lemma rd_window g us x z y t : closed_fields g us -> spelled x z -> arrays_text y (PTuple (us ++ [z])) t -> len (40 :: g ++ x ++ 41 :: y) <= B ->
  rd (40 :: (g ++ x) ++ 41 :: y) = Ok t.
Proof.
  intros C S A L. pose proof (closed_last C S) as F. apply HW.
  - rewrite <- app_assoc. exact L.
  - apply fields_chars in F as (Fa & _). apply arrays_chars in A as [_ A]. change (40 :: (g ++ x) ++ 41 :: y) with ([40] ++ (g ++ x) ++ [41] ++ y). now rewrite !all_ascii_app, <- all_ascii_app, Fa, A.
  - now apply fields_chars in F.
  - now destruct (plain_not_in _ (proj1 (arrays_chars A))) as (_ & X & _).
  - eauto.
Qed.
Scheme body_mut := Induction for body Sort Prop with opened_mut := Induction for opened Sort Prop.
Combined Scheme body_opened_ind from body_mut, opened_mut.
Definition body_fits (n : nat) (k : waiting) (s : str) (ts : list ParamType) : Prop :=
  forall u acc sts, holds k sts -> (n <= S (length sts))%nat -> len s <= B -> texts s 0 n [] u acc sts = Ok (acc ++ ts).
Definition opened_fits (n : nat) (k : waiting) (s : str) (ts : list ParamType) : Prop :=
  forall acc sts, holds k sts -> (n <= S (S (length sts)))%nat -> len s + 1 <= B -> texts s 0 n [] [] acc (sts ++ [[]]) = Ok (acc ++ ts).
Lemma rd_spelled x t s : spelled x t -> len (x ++ s) <= B -> rd x = Ok t.
Proof using HI. clear HW. intros S L. apply HI; [rewrite len_app in L; lia|now apply spelled_chars in S| |exact S]. intros I. destruct (spelled_no_sep S) as [N _]. now destruct (N 41 I) as (_ & X & _). Qed.
Ltac lens := repeat rewrite ?len_app, ?len_cons in *; change (len (@nil char)) with 0 in *; lia.

Lemma grammar_read : (forall n k s ts, body n k s ts -> body_fits n k s ts) /\ (forall n k s ts, opened n k s ts -> opened_fits n k s ts).
Proof.
  apply body_opened_ind; unfold body_fits, opened_fits.
  - intros n k u acc sts H N L. now rewrite app_nil_r.
  - intros n k s ts _ IH u acc sts H N L. rewrite texts_nothing. apply IH; auto. lens.
  - intros k x t s ts S _ IH u acc sts H N L. destruct (spelled_no_sep S) as [X NX]. rewrite texts_plain by exact X. pose proof (@rd_spelled _ _ _ S L) as R.
    cbn [app]. destruct x as [|c x]; [congruence|]. rewrite texts_comma, R. cbn [bind]. rewrite IH by (auto; lens). now rewrite <- app_assoc.
  - intros n k x t s ts S _ IH u acc sts H N L. destruct (spelled_no_sep S) as [X NX]. rewrite texts_plain by exact X. pose proof (@rd_spelled _ _ _ S L) as R.
    cbn [app]. destruct x as [|c x]; [congruence|]. rewrite texts_waits, R. cbn [bind]. rewrite push_add by lia. cbn [bind]. apply IH; [now apply holds_add; [|lia]|rewrite add_length; lia|lens].
  - intros n k s ts _ IH u acc sts H N L. rewrite texts_close. apply IH; [exact H|lia|lens].
  - intros k x t s ts S _ IH u acc sts H N L. destruct (spelled_no_sep S) as [X NX]. rewrite texts_plain by exact X. pose proof (@rd_spelled _ _ _ S L) as R.
    cbn [app]. destruct x as [|c x]; [congruence|]. rewrite texts_last, R. cbn [bind]. rewrite IH; [now rewrite <- app_assoc|exact H|lia|lens].
  - intros n k x s ts X _ IH u acc sts H N L. rewrite texts_plain by exact X. rewrite texts_open. apply IH; [exact H|lia|lens].
  - intros k j x s ts J X _ IH u acc sts H N L. destruct (@texts_outside_any j (40 :: x ++ 40 :: s) [] u acc sts J) as (w' & u' & ->). rewrite texts_reopen.
    rewrite texts_plain by exact X. rewrite texts_open. apply IH; [exact H|lia|lens].
  - intros n k g us s ts C _ IH acc sts H N L. rewrite (texts_closed (us := us)); [|exact C|lens|rewrite app_length; cbn [length]; lia]. rewrite texts_close.
    apply IH; [apply holds_add; [now apply holds_new|rewrite app_length; cbn [length]; lia]|rewrite add_length, app_length; cbn [length]; lia|lens].
  - intros n k g us x s ts C X _ IH acc sts H N L. rewrite (texts_closed (us := us)); [|exact C|lens|rewrite app_length; cbn [length]; lia]. rewrite texts_plain by exact X. rewrite texts_open.
    apply IH; [apply holds_add; [now apply holds_new|rewrite app_length; cbn [length]; lia]|rewrite add_length, app_length; cbn [length]; lia|lens].
  - intros k g us x z y t s ts C S A SP _ IH acc sts H N L. rewrite (texts_closed (us := us)); [|exact C|lens|rewrite app_length; cbn [length]; lia].
    destruct (spelled_no_sep S) as [X NX]. rewrite texts_plain by exact X. cbn [app]. destruct (@tail_split y s (arrays_tail A) SP) as [E1 E2].
    assert (R : rd (40 :: (g ++ x) ++ 41 :: y) = Ok t) by (apply (rd_window C S A); lens).
    destruct x as [|c x]; [congruence|]. rewrite texts_field, E1, E2, R. cbn [bind]. rewrite IH; [now rewrite <- app_assoc| | |lens].
    + apply holds_add; [now apply holds_new|rewrite app_length; cbn [length]; lia].
    + rewrite add_length, app_length. cbn [length]. lia.
  - intros n k g us x z y t s ts C SX A SP _ IH acc sts H N L. rewrite (texts_closed (us := us)); [|exact C|lens|rewrite app_length; cbn [length]; lia].
    destruct (spelled_no_sep SX) as [X NX]. rewrite texts_plain by exact X. cbn [app]. destruct (@tail_split y s (arrays_tail A) SP) as [E1 E2].
    assert (R : rd (40 :: (g ++ x) ++ 41 :: y) = Ok t) by (apply (rd_window C SX A); lens).
    assert (H' : holds (add_waiting k (S (S (S n))) us) (add_at (sts ++ [[]]) (S n) us)) by (apply holds_add; [now apply holds_new|rewrite app_length; cbn [length]; lia]).
    assert (LS : (length (add_at (sts ++ [[]]) (S n) us) = S (length sts))%nat) by (rewrite add_length, app_length; cbn [length]; lia).
    destruct (@take_nth (add_at (sts ++ [[]]) (S n) us) n) as (l' & ET & EL & EN); [lia|].
    destruct x as [|c x]; [congruence|]. rewrite texts_inner, E1, E2, R. cbn [bind]. rewrite ET. cbn [bind].
    rewrite IH; [| |lia|lens].
    + rewrite <- app_assoc. cbn [app]. rewrite <- (H' n). unfold add_waiting, set_waiting. replace (Nat.eqb (S (S n)) (S (S (S n)))) with false by lia. reflexivity.
    + now apply holds_take with (add_at (sts ++ [[]]) (S n) us).
Qed.

Definition ends (s : str) : Prop := s = [] \/ exists r, s = r ++ [41].
Lemma ends_app x s : s <> [] -> ends (x ++ s) -> ends s.
Proof.
  intros N [E|[r E]]; [apply app_eq_nil in E; tauto|]. destruct s as [|c s _] using rev_ind; [congruence|]. rewrite app_assoc in E. apply app_inj_tail in E as [_ ->]. right. eauto.
Qed.
Lemma ends_tail x c s : ends (x ++ c :: s) -> c <> 41 -> s <> [] /\ ends s.
Proof.
  intros E C. assert (N : s <> []). { intros ->. destruct E as [E|[r E]]; [now destruct x|]. apply app_inj_tail in E as [_ E]. congruence. }
  split; [exact N|]. apply (@ends_app (x ++ [c])); [exact N|]. now rewrite <- app_assoc.
Qed.
Lemma ends_rest x c s : ends (x ++ c :: s) -> ends s.
Proof. intros E. destruct s as [|d s]; [now left|]. apply (@ends_app (x ++ [c])); [discriminate|]. now rewrite <- app_assoc. Qed.
Lemma ends_last s : s <> [] -> ends s -> In 41 s.
Proof. intros N [E|[r ->]]; [congruence|]. apply in_app_iff. right. now left. Qed.
Lemma first_separator s : s <> [] -> ends s -> exists x c r, s = x ++ c :: r /\ no_separator x /\ (c = 40 \/ c = 41 \/ c = 44).
Proof using. clear HI HW B bad rd.
  intros N E. destruct (first_char punct s) as [P|(x & c & r & -> & P & F)].
  - exfalso. apply ends_last in E; [|exact N]. rewrite forallb_forall in P. apply P in E. discriminate.
  - exists x, c, r. split; [reflexivity|]. split; [now apply no_sep_plain|]. unfold punct in F. lia.
Qed.
Lemma first_paren s : s <> [] -> ends s -> exists x c r, s = x ++ c :: r /\ no_paren x /\ (c = 40 \/ c = 41).
Proof using. clear HI HW B bad rd.
  intros N E. destruct (first_char (fun c => (c =? 40) || (c =? 41)) s) as [P|(x & c & r & -> & P & F)].
  - exfalso. apply ends_last in E; [|exact N]. rewrite forallb_forall in P. apply P in E. discriminate.
  - exists x, c, r. split; [reflexivity|]. split; [|lia]. intros d I. rewrite forallb_forall in P. apply P in I. lia.
Qed.
Lemma tail_separator s : at_separator (drop_while is_tail s).
Proof.
  induction s as [|c s IH]; [now left|]. cbn [drop_while]. destruct (is_tail c) eqn:E; [exact IH|]. right. exists s. unfold is_tail in E.
  destruct (N.eqb_spec c 44) as [->|]; [now left|]. destruct (N.eqb_spec c 41) as [->|]; [now right|]. discriminate.
Qed.
(** What a text is, if the reader accepts it. *)
Definition body_only (n : nat) (s : str) : Prop :=
  forall k u acc sts r, holds k sts -> (n <= S (length sts))%nat -> len s <= B -> ((2 <= n)%nat -> In 41 u /\ ~ In 40 u /\ len u + len s + 1 <= B /\ all_ascii u = true) ->
  texts s 0 n [] u acc sts = Ok r -> exists ts, r = acc ++ ts /\ body n k s ts.
Definition opened_only (n : nat) (s : str) : Prop :=
  forall k acc sts r, holds k sts -> (n <= S (S (length sts)))%nat -> len s + 1 <= B ->
  texts s 0 n [] [] acc (sts ++ [[]]) = Ok r -> exists ts, r = acc ++ ts /\ opened n k s ts.
Lemma window_only g x y t : (g = [] \/ exists g', g = g' ++ [44]) -> no_paren g -> no_separator x -> x <> [] -> ~ In 41 y -> all_ascii (40 :: g ++ x ++ 41 :: y) = true ->
  len (40 :: g ++ x ++ 41 :: y) <= B -> rd (40 :: (g ++ x) ++ 41 :: y) = Ok t ->
  exists us z, closed_fields g us /\ spelled x z /\ arrays_text y (PTuple (us ++ [z])) t.
Proof.
  intros G N X NX Y A L R. rewrite app_assoc in A, L. apply HW in R as (us' & F & Av); [|exact L|exact A| |exact Y].
  2:{ intros I. apply in_app_iff in I as [I|I]; [now destruct (N 40 I)|now destruct (X 40 I)]. }
  apply fields_cases in F as [F|(g' & us & x' & z & E & C & S & ->)].
  - exfalso. destruct (closed_chars F) as [_ G']. destruct (@last_comma_unique g x (g ++ x) []) as [_ E]; auto; [intros c []|now rewrite app_nil_r].
  - destruct (closed_chars C) as [_ G']. destruct (spelled_no_sep S) as [X' _]. destruct (@last_comma_unique g x g' x') as [-> ->]; auto. exists us, z. auto.
Qed.
Lemma grammar_only M : (forall n s, (length s <= M)%nat -> ends s -> all_ascii s = true -> body_only n s) /\
  (forall n s, (length s <= M)%nat -> s <> [] -> ends s -> all_ascii s = true -> opened_only (S (S n)) s).
Proof.
  induction M as [|M [IHb IHo]].
  { split; intros n s L; [|intros N; destruct s; [congruence|cbn [length] in L; lia]]. destruct s; [|cbn [length] in L; lia]. intros _ _ k u acc sts r H N1 L1 U E.
    injection E as <-. exists []. split; [now rewrite app_nil_r|constructor]. }
  split.
  - intros n s LM EN AS k u acc sts r H NL L U E.
    destruct s as [|c0 s0] eqn:ES0. { injection E as <-. exists []. split; [now rewrite app_nil_r|constructor]. }
    rewrite <- ES0 in *. assert (NE : s <> []) by (rewrite ES0; discriminate). clear c0 s0 ES0.
    destruct n as [|n].
    + destruct (first_paren NE EN) as (j & c & s1 & -> & J & C). pose proof AS as AS0. rewrite all_ascii_app in AS0. apply andb_true_iff in AS0 as [AJ AS0].
      destruct (@texts_outside j (c :: s1) [] u acc sts J AJ) as (w & u' & E' & W & WA & WL); [intros []|reflexivity|]. rewrite E' in E. clear E'.
      destruct C as [-> | ->]; [|discriminate]. rewrite texts_reopen in E. destruct (@ends_tail _ _ _ EN) as [N1 EN1]; [discriminate|].
      destruct (first_separator N1 EN1) as (x & c & s2 & -> & X & C). rewrite texts_plain in E by exact X. cbn [app] in E.
      assert (BAD : forall t, rd ((w ++ [40]) ++ x) <> Ok t).
      { intros t R. apply HI in R; [apply spelled_no_paren in R as [R _]; apply R; apply in_app_iff; left; apply in_app_iff; right; now left|lens| |].
        - change (40 :: x ++ c :: s2) with ([40] ++ x ++ c :: s2) in AS0. rewrite !all_ascii_app in *. apply andb_true_iff in AS0 as [_ AS0]. apply andb_true_iff in AS0 as [AS0 _]. now rewrite WA, AS0.
        - intros I. apply in_app_iff in I as [I|I]; [|now destruct (X 41 I)]. apply in_app_iff in I as [I|[I|[]]]; [|discriminate]. contradiction. }
      destruct ((w ++ [40]) ++ x) as [|c1 w1] eqn:EW; [now destruct w|].
      destruct C as [-> |[-> | ->]].
      * rewrite texts_open in E. destruct (@ends_tail _ _ _ EN1) as [N2 EN2]; [discriminate|].
        destruct (IHo O s2) with (k := k) (acc := acc) (sts := sts) (r := r) as (ts & -> & OP); auto.
        -- rewrite app_length in LM. cbn [length] in LM. rewrite app_length in LM. cbn [length] in LM. lia.
        -- rewrite all_ascii_app in AS. apply andb_true_iff in AS as [_ AS]. change (40 :: x ++ 40 :: s2) with ((40 :: x) ++ [40] ++ s2) in AS. rewrite !all_ascii_app in AS.
           now apply andb_true_iff in AS as [_ AS].
        -- lia.
        -- lens.
        -- exists ts. split; [reflexivity|now constructor].
      * rewrite texts_last in E. destruct (rd (c1 :: w1)) as [t|e|] eqn:R; try discriminate E. now elim (BAD t).
      * rewrite texts_comma in E. destruct (rd (c1 :: w1)) as [t|e|] eqn:R; try discriminate E. now elim (BAD t).
    + destruct (first_separator NE EN) as (x & c & s1 & -> & X & C). rewrite texts_plain in E by exact X. cbn [app] in E.
      assert (LM1 : (length s1 <= M)%nat) by (rewrite app_length in LM; cbn [length] in LM; lia).
      assert (AS1 : all_ascii s1 = true).
      { change (x ++ c :: s1) with (x ++ [c] ++ s1) in AS. rewrite !all_ascii_app in AS. apply andb_true_iff in AS as [_ AS]. now apply andb_true_iff in AS as [_ AS]. }
      assert (AX : all_ascii x = true) by (rewrite all_ascii_app in AS; now apply andb_true_iff in AS as [AS _]).
      assert (IT : x <> [] -> forall t, rd x = Ok t -> spelled x t). { intros NX t R. apply HI in R; [exact R|lens|exact AX|]. intros I. now destruct (X 41 I). }
      assert (X40 : ~ In 40 x) by (intros I; now destruct (X 40 I)).
      assert (UP : (2 <= S n)%nat -> forall d, d <> 40 -> is_ascii d = true -> In 41 (u ++ x ++ [d]) /\ ~ In 40 (u ++ x ++ [d]) /\ len (u ++ x ++ [d]) + len s1 + 1 <= B /\ all_ascii (u ++ x ++ [d]) = true).
      { intros H2 d D AD. destruct (U H2) as (U1 & U2 & U3 & U4). split; [apply in_app_iff; now left|]. split; [|split].
        - intros I. apply in_app_iff in I as [I|I]; [contradiction|]. apply in_app_iff in I as [I|[I|[]]]; [contradiction|congruence].
        - change (x ++ c :: s1) with (x ++ [c] ++ s1) in U3. rewrite !len_app in *. change (len [d]) with 1. change (len [c]) with 1 in U3. lia.
        - rewrite !all_ascii_app, U4, AX. cbn. now rewrite AD. }
      destruct C as [-> |[-> | ->]].
      * rewrite texts_open in E. destruct (@ends_tail _ _ _ EN) as [N2 EN2]; [discriminate|].
        destruct (IHo n s1) with (k := k) (acc := acc) (sts := sts) (r := r) as (ts & -> & OP); auto; [lia|lens|]. exists ts. split; [reflexivity|now constructor].
      * destruct x as [|d x].
        { rewrite texts_close in E. destruct (IHb n s1) with (k := k) (u := u ++ [] ++ [41]) (acc := acc) (sts := sts) (r := r) as (ts & -> & BD); auto.
          - now apply (@ends_rest [] 41).
          - lia.
          - lens.
          - intros H2. apply UP; [lia|discriminate|reflexivity].
          - cbn [app]. now rewrite app_nil_r in E.
          - exists ts. split; [reflexivity|now apply bd_close]. }
        destruct n as [|n].
        { rewrite texts_last in E. destruct (rd (d :: x)) as [t|e|] eqn:R; cbn [bind] in E; try discriminate E.
          destruct (IHb 0%nat s1) with (k := k) (u := (u ++ d :: x) ++ [41]) (acc := acc ++ [t]) (sts := sts) (r := r) as (ts & -> & BD); auto.
          - now apply (@ends_rest (d :: x) 41).
          - lia.
          - lens.
          - lia.
          - exists (t :: ts). split; [now rewrite <- app_assoc|]. apply bd_last; [|exact BD]. apply IT; [discriminate|reflexivity]. }
        exfalso. destruct U as (U1 & U2 & U3 & U4); [lia|].
        assert (BAD : forall t, rd (40 :: (u ++ d :: x) ++ 41 :: take_while is_tail s1) <> Ok t).
        { intros t R. pose proof (take_drop_while is_tail s1) as TD. apply HW in R as (us & F & _).
          - apply fields_chars in F as (_ & _ & F). apply F. apply in_app_iff. now left.
          - rewrite <- TD in U3. lens.
          - rewrite <- TD, all_ascii_app in AS1. apply andb_true_iff in AS1 as [AS1 _].
            change (40 :: (u ++ d :: x) ++ 41 :: take_while is_tail s1) with ([40] ++ (u ++ d :: x) ++ [41] ++ take_while is_tail s1). now rewrite !all_ascii_app, U4, AX, AS1.
          - intros I. apply in_app_iff in I as [I|I]; contradiction.
          - intros I. pose proof (take_while_forallb is_tail s1) as P. rewrite forallb_forall in P. apply P in I. discriminate. }
        destruct n as [|n]; [rewrite texts_field in E|rewrite texts_inner in E]; destruct (rd _) as [t|e|] eqn:R in E; try discriminate E; now elim (BAD t).
      * destruct x as [|d x].
        { rewrite texts_nothing in E. destruct (IHb (S n) s1) with (k := k) (u := u ++ [] ++ [44]) (acc := acc) (sts := sts) (r := r) as (ts & -> & BD); auto.
          - now apply (@ends_rest [] 44).
          - lens.
          - intros H2. apply UP; [exact H2|discriminate|reflexivity].
          - cbn [app]. now rewrite app_nil_r in E.
          - exists ts. split; [reflexivity|now apply bd_nothing]. }
        destruct n as [|n].
        { rewrite texts_comma in E. destruct (rd (d :: x)) as [t|e|] eqn:R; cbn [bind] in E; try discriminate E.
          destruct (IHb 1%nat s1) with (k := k) (u := (u ++ d :: x) ++ [44]) (acc := acc ++ [t]) (sts := sts) (r := r) as (ts & -> & BD); auto.
          - now apply (@ends_rest (d :: x) 44).
          - lens.
          - lia.
          - exists (t :: ts). split; [now rewrite <- app_assoc|]. apply bd_field; [|exact BD]. apply IT; [discriminate|reflexivity]. }
        rewrite texts_waits in E. destruct (rd (d :: x)) as [t|e|] eqn:R; cbn [bind] in E; try discriminate E. rewrite push_add in E by lia. cbn [bind] in E.
        destruct (IHb (S (S n)) s1) with (k := add_waiting k (S (S n)) [t]) (u := u ++ (d :: x) ++ [44]) (acc := acc) (sts := add_at sts n [t]) (r := r) as (ts & -> & BD); auto.
        -- now apply (@ends_rest (d :: x) 44).
        -- apply holds_add; [exact H|lia].
        -- rewrite add_length. exact NL.
        -- lens.
        -- intros H2. apply UP; [exact H2|discriminate|reflexivity].
        -- now rewrite app_assoc.
        -- exists ts. split; [reflexivity|]. apply bd_waits with t; [|exact BD]. apply IT; [discriminate|reflexivity].
  - intros n s LM NE EN AS k acc sts r H NL L E. destruct (first_paren NE EN) as (f & c & s1 & -> & FP & C).
    destruct (last_comma FP) as (g & x & -> & G & X). rewrite <- app_assoc in *.
    assert (GP : no_paren g) by (intros d I; apply FP, in_app_iff; now left).
    assert (LS : (n < length (sts ++ [[]]))%nat) by (rewrite app_length; cbn [length]; lia).
    pose proof E as E0. destruct (@texts_closed_only (length g) g n (x ++ c :: s1) [] acc (sts ++ [[]]) r (le_n _) GP) as [us CF]; [rewrite all_ascii_app in AS; now apply andb_true_iff in AS as [AS _]|exact G|lens|exact LS|exact E|].
    assert (LM1 : (length s1 <= M)%nat) by (rewrite !app_length in LM; cbn [length] in LM; lia).
    assert (AS1 : all_ascii s1 = true).
    { change (g ++ x ++ c :: s1) with (g ++ x ++ [c] ++ s1) in AS. rewrite !all_ascii_app in AS. now repeat apply andb_true_iff in AS as [_ AS]. }
    assert (HA : forall us, holds (add_waiting k (S (S n)) us) (add_at (sts ++ [[]]) n us)) by (intros; apply holds_add; [now apply holds_new|exact LS]).
    assert (LA : forall us, length (add_at (sts ++ [[]]) n us) = S (length sts)) by (intros; rewrite add_length, app_length; cbn [length]; lia).
    rewrite (texts_closed (us := us)) in E; [|exact CF|lens|exact LS]. rewrite texts_plain in E by exact X. cbn [app] in E.
    destruct C as [-> | ->].
    + rewrite texts_open in E. rewrite app_assoc in EN. destruct (@ends_tail _ _ _ EN) as [N2 EN2]; [discriminate|].
      destruct (IHo (S n) s1) with (k := add_waiting k (S (S n)) us) (acc := acc) (sts := add_at (sts ++ [[]]) n us) (r := r) as (ts & -> & OP); auto.
      * rewrite LA. lia.
      * lens.
      * exists ts. split; [reflexivity|]. now apply op_deeper with us.
    + assert (EN1 : ends s1) by (rewrite app_assoc in EN; now apply ends_rest in EN).
      destruct x as [|d x].
      { rewrite texts_close in E. destruct (IHb (S n) s1) with (k := add_waiting k (S (S n)) us) (u := (g ++ []) ++ [41]) (acc := acc) (sts := add_at (sts ++ [[]]) n us) (r := r) as (ts & -> & BD); auto.
        - rewrite LA. lia.
        - lens.
        - intros _. rewrite app_nil_r. split; [apply in_app_iff; right; now left|]. split; [|split].
          + intros I. apply in_app_iff in I as [I|[I|[]]]; [now destruct (GP 40 I)|discriminate].
          + cbn [app] in L. lens.
          + rewrite all_ascii_app, (closed_ascii CF). reflexivity.
        - exists ts. split; [reflexivity|]. cbn [app]. now apply op_lost with us. }
      pose proof (take_drop_while is_tail s1) as TD. pose proof (tail_separator s1) as SP. set (y := take_while is_tail s1) in *. set (s2 := drop_while is_tail s1) in *.
      assert (Y : ~ In 41 y). { intros I. pose proof (take_while_forallb is_tail s1) as P. fold y in P. rewrite forallb_forall in P. apply P in I. discriminate. }
      assert (AW : all_ascii (40 :: g ++ (d :: x) ++ 41 :: y) = true).
      { rewrite <- TD in AS. change (g ++ (d :: x) ++ 41 :: y ++ s2) with (g ++ (d :: x) ++ [41] ++ y ++ s2) in AS. change (40 :: g ++ (d :: x) ++ 41 :: y) with ([40] ++ g ++ (d :: x) ++ [41] ++ y).
        rewrite !all_ascii_app in *. destruct (all_ascii g), (all_ascii (d :: x)), (all_ascii y); try discriminate AS; reflexivity. }
      assert (LW : len (40 :: g ++ (d :: x) ++ 41 :: y) <= B) by (rewrite <- TD in L; lens).
      assert (RW : exists t, rd (40 :: (g ++ d :: x) ++ 41 :: y) = Ok t).
      { destruct n as [|n]; [rewrite texts_field in E|rewrite texts_inner in E]; fold y in E; destruct (rd (40 :: (g ++ d :: x) ++ 41 :: y)) as [t|e|]; try discriminate E; eauto. }
      destruct RW as [t R]. destruct (@window_only g (d :: x) y t G GP X) as (us2 & z & C2 & S2 & A2); auto; [discriminate|].
      clear E CF us. rename E0 into E. rewrite (texts_closed (us := us2)) in E; [|exact C2|lens|exact LS]. rewrite texts_plain in E by exact X. cbn [app] in E.
      assert (AN : ends s2). { destruct s2 as [|d2 s2'] eqn:E2; [now left|]. apply (@ends_app y); [discriminate|]. now rewrite TD. }
      assert (L2 : (length s2 <= M)%nat) by (rewrite <- TD, app_length in LM1; lia).
      assert (A3 : all_ascii s2 = true) by (rewrite <- TD, all_ascii_app in AS1; now apply andb_true_iff in AS1 as [_ AS1]).
      assert (UU : In 41 ((g ++ d :: x) ++ 41 :: y) /\ ~ In 40 ((g ++ d :: x) ++ 41 :: y) /\ len ((g ++ d :: x) ++ 41 :: y) + len s2 + 1 <= B /\ all_ascii ((g ++ d :: x) ++ 41 :: y) = true).
      { split; [apply in_app_iff; right; now left|]. split; [|split].
        - intros I. apply in_app_iff in I as [I|[I|I]]; [|discriminate|].
          + apply in_app_iff in I as [I|I]; [now destruct (GP 40 I)|now destruct (X 40 I)].
          + now destruct (plain_not_in _ (proj1 (arrays_chars A2))) as (V & _).
        - rewrite <- TD in L. lens.
        - rewrite <- app_assoc. change (40 :: g ++ (d :: x) ++ 41 :: y) with ([40] ++ g ++ (d :: x) ++ 41 :: y) in AW. rewrite all_ascii_app in AW. now apply andb_true_iff in AW as [_ AW]. }
      assert (LB : len s2 <= B) by (destruct UU as (_ & _ & UU & _); lia).
      destruct n as [|n].
      * rewrite texts_field in E. fold y in E. fold s2 in E. rewrite R in E. cbn [bind] in E.
        destruct (IHb 1%nat s2) with (k := add_waiting k 2 us2) (u := (g ++ d :: x) ++ 41 :: y) (acc := acc ++ [t]) (sts := add_at (sts ++ [[]]) 0 us2) (r := r) as (ts & -> & BD); auto; [lia|].
        exists (t :: ts). split; [now rewrite <- app_assoc|]. rewrite <- TD. now apply op_field with us2 z.
      * rewrite texts_inner in E. fold y in E. fold s2 in E. rewrite R in E. cbn [bind] in E.
        destruct (@take_nth (add_at (sts ++ [[]]) (S n) us2) n) as (l' & ET & EL & ENt); [rewrite LA; lia|]. rewrite ET in E. cbn [bind] in E. rewrite LA in EL.
        destruct (IHb (S (S n)) s2) with (k := set_waiting (add_waiting k (S (S (S n))) us2) (S (S n)) []) (u := (g ++ d :: x) ++ 41 :: y)
          (acc := acc ++ [PTuple (nth n (add_at (sts ++ [[]]) (S n) us2) [] ++ [t])]) (sts := l') (r := r) as (ts & -> & BD); auto.
        -- now apply holds_take with (add_at (sts ++ [[]]) (S n) us2).
        -- lia.
        -- exists (PTuple (nth n (add_at (sts ++ [[]]) (S n) us2) [] ++ [t]) :: ts). split; [now rewrite <- app_assoc|]. rewrite <- (HA us2 n). unfold add_waiting at 1. unfold set_waiting at 1.
           replace (Nat.eqb (S (S n)) (S (S (S n)))) with false by lia. rewrite <- TD. now apply op_inner with us2 z.
Qed.
End Grammar.

(** ** The reader *)
Lemma nested_tuple p f name r t : all_ascii name = true -> len name < 2 ^ 63 -> (length name <= f)%nat -> name = r ++ [41] ->
  (read_tuple (read_fuel p f) name = Ok t <-> exists s ts, name = lit "(" ++ s ++ lit ")" /\ body 1 (fun _ => []) (s ++ lit ")") ts /\ t = PTuple ts).
Proof.
  intros A BB L EN. set (B := len name - 1). assert (NE : (1 <= length name)%nat) by (rewrite EN, app_length; cbn [length]; lia).
  assert (HI : forall m t, len m <= B -> all_ascii m = true -> ~ In 41 m -> (read_fuel p f m = Ok t <-> spelled m t)).
  { intros m t' Lm Am Nm. apply plain_read; [unfold B, len in *; lia|rewrite (str_len_ascii _ Am); unfold B in *; lia|exact Nm]. }
  assert (HW : forall u v t, len (40 :: u ++ 41 :: v) <= B -> all_ascii (40 :: u ++ 41 :: v) = true -> ~ In 40 u -> ~ In 41 v ->
    (read_fuel p f (40 :: u ++ 41 :: v) = Ok t <-> exists us, fields_text u us /\ arrays_text v (PTuple us) t)).
  { intros u v t' Lm Am N40 N41. apply window_read; auto; unfold B, len in *; lia. }
  assert (H0 : holds (fun _ => []) []) by (intros n; now destruct n).
  assert (FIRST : forall s, name = 40 :: s -> fields_of (read_tuple_loop (read_fuel p f) name name 0 0 (mkR [] [] 0 0 1)) = texts (read_fuel p f) (InvalidName name) s 0 1 [] [] [] []).
  { intros s ES. rewrite ES at 2. cbn [read_tuple_loop]. unfold read_char at 1. change (40 =? ch_open) with true. cbv iota. cbn [nested subtypes subtuples last_item].
    change (1 <? 0 + 1)%Z with false. cbv iota. cbn [bind]. change (0 + 1)%Z with (Z.of_nat 1). change (0 + 1) with (len [40]). change 1 with (len [40]) at 1.
    eapply (@loop_texts (read_fuel p f) name A (length s) s [40] 1 [40] []); [apply le_n|exact ES|reflexivity|]. intros _. exists []. auto. }
  unfold read_tuple. split.
  - destruct (starts_with_char name ch_open) eqn:SW; [|discriminate].
    assert (ES : exists s, name = 40 :: s).
    { destruct name as [|c s]; [discriminate|]. cbn in SW. apply N.eqb_eq in SW. change ch_open with 40 in SW. subst. eauto. }
    destruct ES as [s ES]. intros E. specialize (FIRST s ES). apply bind_ok in E as (st & E & Et). injection Et as <-. rewrite E in FIRST. cbn [fields_of bind] in FIRST. symmetry in FIRST.
    destruct (@grammar_only (read_fuel p f) (InvalidName name) B HI HW (length s)) as [GB _].
    assert (ER : exists r', s = r' ++ [41]). { destruct r as [|x r]; rewrite ES in EN; [discriminate|]. injection EN as _ ->. eauto. }
    destruct ER as [r' ER].
    destruct (GB 1%nat s (le_n _)) with (k := fun _ : nat => @nil ParamType) (u := @nil char) (acc := @nil ParamType) (sts := @nil (list ParamType)) (r := subtypes st) as (ts & Ets & BD); auto.
    + right. eauto.
    + rewrite ES in A. change (40 :: s) with ([40] ++ s) in A. rewrite all_ascii_app in A. now apply andb_true_iff in A as [_ A].
    + unfold B. rewrite ES, len_cons. lia.
    + lia.
    + exists r', ts. cbn [app] in Ets. rewrite Ets. split; [rewrite ES, ER; reflexivity|]. split; [|reflexivity]. change (r' ++ lit ")") with (r' ++ [41]). now rewrite <- ER.
  - intros (s & ts & ES & BD & ->). change (lit "(" ++ s ++ lit ")") with (40 :: s ++ [41]) in ES. change (s ++ lit ")") with (s ++ [41]) in BD. specialize (FIRST _ ES).
    assert (SW : starts_with_char name ch_open = true) by (rewrite ES; reflexivity). rewrite SW.
    destruct (@grammar_read (read_fuel p f) (InvalidName name) B HI HW) as [GB _]. rewrite (GB _ _ _ _ BD [] [] []) in FIRST; [|exact H0|auto|unfold B; rewrite ES, len_cons; lia].
    unfold fields_of in FIRST. destruct (read_tuple_loop _ _ _ _ _ _) as [st|e|]; try discriminate FIRST. injection FIRST as FIRST. cbn [bind]. now rewrite FIRST.
Qed.
Lemma accepted_inv s t : accepted s t <-> spelled s t \/ (exists b ts, s = lit "(" ++ b ++ lit ")" /\ body 1 (fun _ => []) (b ++ lit ")") ts /\ t = PTuple ts) \/
  exists x num w t', s = x ++ 91 :: num ++ [93] /\ suffix_wrap num w /\ accepted x t' /\ t = w t'.
Proof.
  split.
  - intros H; destruct H as [s t H|s ts H|s t H|s t k n H Hk]; [now left|right; left; eauto| |]; right; right.
    + exists s, [], PArray, t. repeat split; auto. left; auto.
    + exists s, k, (fun t => PFixedArray t n), t. repeat split; auto. right. eauto.
  - intros [H|[(body & ts & -> & F & ->)|(x & num & w & t' & -> & [[-> ->]|(n & Hk & ->)] & H & ->)]];
      [now apply ac_plain|now apply ac_tuple|now apply ac_array|now apply ac_fixed_array].
Qed.
Lemma accepted_suffix x num t : ~ In 91 num -> (accepted (x ++ 91 :: num ++ [93]) t <-> exists w t', suffix_wrap num w /\ accepted x t' /\ t = w t').
Proof.
  intros N. rewrite accepted_inv. split.
  - intros [H|[(body & ts & E & _)|(x' & num' & w & t' & E & S & H & ->)]].
    + rewrite (@spelled_suffix x num t N) in H. destruct H as (w & t' & S & H & ->). exists w, t'. repeat split; auto. now apply ac_plain.
    + exfalso. change (x ++ 91 :: num ++ [93]) with (x ++ (91 :: num) ++ [93]) in E. change (lit "(" ++ body ++ lit ")") with ((40 :: body) ++ [41]) in E.
      rewrite app_assoc in E. apply app_inj_tail in E as [_ E]. discriminate.
    + apply last_bracket_unique in E as [-> ->]; eauto using suffix_wrap_no_bracket.
  - intros (w & t' & S & H & ->). right. right. exists x, num, w, t'. auto.
Qed.
Lemma nested_read p f : forall s, (length s < f)%nat -> len s < 2 ^ 63 -> all_ascii s = true -> forall t, read_fuel p f s = Ok t <-> accepted s t.
Proof.
  induction f as [|f IH]; intros s L B A t; [lia|]. pose proof B as B'. rewrite <- (str_len_ascii _ A) in B'.
  destruct (in_dec N.eq_dec 41 s) as [I41|N41].
  2:{ destruct (@plain_read p (S f) s L B' N41) as [H _]. rewrite H. split; [apply ac_plain|]. intros F.
      clear - F N41. induction F as [s t F|s ts F|s t F IHF|s t k n F IHF Hk]; [exact F| | |].
      - exfalso. apply N41. apply in_app_iff. right. apply in_app_iff. right. now left.
      - apply sp_array, IHF. intros I. apply N41, in_app_iff. now left.
      - apply sp_fixed_array; [|exact Hk]. apply IHF. intros I. apply N41, in_app_iff. now left. }
  destruct (last_char s) as [c|] eqn:EL; [|apply last_char_none in EL; subst; destruct I41].
  pose proof EL as EL0. apply last_char_some in EL as [s0 ES].
  destruct (N.eqb_spec c 41) as [->|EC].
  - cbn [read_fuel]. rewrite EL0. change (41 =? ch_close) with true. cbv iota. rewrite (@nested_tuple p f s s0); auto; [|lia].
    rewrite accepted_inv. split; [auto|]. intros [H|[H|(x & num & w & t' & E & _)]]; auto.
    + apply spelled_no_paren in H as [_ H]. contradiction.
    + rewrite ES in E. change (x ++ 91 :: num ++ [93]) with (x ++ (91 :: num) ++ [93]) in E. rewrite app_assoc in E. apply app_inj_tail in E as [_ E]. discriminate.
  - destruct (N.eqb_spec c 93) as [->|EB].
    + destruct (split_bracket s0) as [(x & num & -> & NB)|NB].
      * rewrite <- app_assoc in ES. cbn [app] in ES. subst s. rewrite (@accepted_suffix x num t NB).
        destruct (suffix_wrap_dec num) as [[w S]|S].
        -- assert (Ax : all_ascii x = true) by (rewrite all_ascii_app in A; now apply andb_true_iff in A as [A _]).
           rewrite (@read_wrap p f x num w S Ax).
           assert (IHx : forall t, read_fuel p f x = Ok t <-> accepted x t).
           { apply IH; [rewrite app_length in L; cbn [length] in L; lia|rewrite len_app in B; lia|exact Ax]. }
           split.
           ++ intros E. apply bind_ok in E as (t' & E' & E). injection E as <-. apply IHx in E'. eauto.
           ++ intros (w' & t' & S' & H & ->). apply IHx in H. rewrite H. cbn [bind]. f_equal.
              destruct S as [[-> ->]|(n & Hn & ->)], S' as [[X ->]|(n' & Hn' & ->)]; try reflexivity.
              ** now apply size_text_facts in Hn'.
              ** subst. now apply size_text_facts in Hn.
              ** apply parse_usize_iff in Hn, Hn'. congruence.
        -- cbn [read_fuel]. rewrite EL0. change (93 =? ch_close) with false. change (93 =? ch_rbracket) with true. cbv iota.
           destruct (read_array_bad p (read_fuel p f) x NB S) as [e ->]. split; [discriminate|]. intros (w' & t' & S' & _). now apply S in S'.
      * cbn [read_fuel]. rewrite EL0. change (93 =? ch_close) with false. change (93 =? ch_rbracket) with true. cbv iota. subst s.
        rewrite (@read_array_lone p (read_fuel p f) s0 NB B'). split.
        -- destruct s0; [discriminate|]. intros E. apply bind_ok in E as (? & _ & E). discriminate.
        -- intros H. exfalso. apply accepted_inv in H as [H|[(body & ts & E & _)|(x & num & w & t' & E & _)]].
           ++ apply spelled_no_paren in H as [_ H]. contradiction.
           ++ change (lit "(" ++ body ++ lit ")") with ((40 :: body) ++ [41]) in E. apply app_inj_tail in E as [_ E]. discriminate.
           ++ apply NB. change (x ++ 91 :: num ++ [93]) with (x ++ (91 :: num) ++ [93]) in E. rewrite app_assoc in E. apply app_inj_tail in E as [-> _]. apply in_app_iff. right. now left.
    + cbn [read_fuel]. rewrite EL0. change ch_close with 41. change ch_rbracket with 93. apply N.eqb_neq in EC, EB. rewrite EC, EB. rewrite read_base_iff. split.
      * intros H. apply word_spelled in H. now apply ac_plain.
      * intros H. exfalso. apply accepted_inv in H as [H|[(body & ts & E & _)|(x & num & w & t' & E & _)]].
        -- apply spelled_no_paren in H as [_ H]. contradiction.
        -- rewrite ES in E. change (lit "(" ++ body ++ lit ")") with ((40 :: body) ++ [41]) in E. apply app_inj_tail in E as [_ ->]. discriminate.
        -- rewrite ES in E. change (x ++ 91 :: num ++ [93]) with (x ++ (91 :: num) ++ [93]) in E. rewrite app_assoc in E. apply app_inj_tail in E as [_ ->]. discriminate.
Qed.

(** ** A name with non-ASCII characters that is read although no field is a type *)
Lemma accented_body k ts : ~ body 1 k (repeat 233 7 ++ lit "address(abcde))") ts.
Proof.
  set (s0 := repeat 233 7 ++ lit "address(abcde))"). intros H.
  assert (N44 : ~ In 44 s0) by (vm_compute; intuition discriminate).
  remember 1%nat as n eqn:En. remember s0 as s eqn:Es. unfold s0 in Es. destruct H as [n k|n k s ts H|k x t s ts S H|n k x t s ts S H|n k s ts H|k x t s ts S H|n k x s ts X H|k j x s ts J X H]; try discriminate.
  - apply N44. apply in_app_iff. right. now left.
  - destruct (spelled_no_sep S) as [X _]. do 14 (destruct x as [|? x]; [discriminate Es|injection Es as -> Es]).
    destruct x as [|c x]; [discriminate Es|]. injection Es as -> Es. destruct (X 40) as [A _]; [do 14 right; now left|congruence].
  - injection En as ->. do 14 (destruct x as [|? x]; [discriminate Es|injection Es as -> Es]). destruct x as [|c x].
    2:{ injection Es as -> Es. destruct (X 40) as [A _]; [do 14 right; now left|congruence]. }
    cbn [app] in Es. injection Es as Es. clear X N44.
    assert (N44 : ~ In 44 s) by (change (s = lit "abcde))") in Es; rewrite Es; vm_compute; intuition discriminate). remember 2%nat as m eqn:Em.
    assert (G : forall g us r, closed_fields g us -> s = g ++ r -> g = []).
    { intros g us r C E. apply closed_chars in C as [_ [C|[g' ->]]]; [exact C|]. elim N44. rewrite E. apply in_app_iff. left. apply in_app_iff. right. now left. }
    destruct H as [n k g us s ts C H|n k g us x s ts C X H|k g us x z y t s ts C S _ _ H|n k g us x z y t s ts C S _ _ H]; try discriminate.
    + rewrite (G _ _ _ C eq_refl) in Es. discriminate Es.
    + assert (I : In 40 [97; 98; 99; 100; 101; 41; 41]) by (rewrite <- Es; apply in_app_iff; right; apply in_app_iff; right; now left). vm_compute in I. intuition discriminate.
    + rewrite (G _ _ _ C eq_refl) in Es. cbn [app] in Es. destruct (spelled_no_sep S) as [X _].
      do 5 (destruct x as [|? x]; [discriminate Es|injection Es as -> Es]). destruct x as [|c x].
      2:{ injection Es as -> Es. destruct (X 41) as (_ & A & _); [do 5 right; now left|congruence]. }
      assert (R : read_fuel Debug 6 (lit "abcde") = Ok z) by (apply (@plain_read Debug 6 (lit "abcde")); [cbn; lia|reflexivity|vm_compute; intuition discriminate|exact S]).
      discriminate R.
Qed.
Lemma accented_read : exists s t, str_len s < 2 ^ 63 /\ (forall p, read p s = Ok t) /\ ~ accepted s t.
Proof.
  exists (lit "(" ++ repeat 233 7 ++ lit "address(abcde))"), (PTuple [PAddress]). split; [reflexivity|]. split; [now intros []|].
  intros H. apply accepted_inv in H as [H|[(b & ts & E & H & _)|(x & num & w & t' & _ & S & _ & ET)]].
  - destruct (spelled_no_sep H) as [X _]. destruct (X 40) as [A _]; [now left|congruence].
  - assert (Eb : b ++ lit ")" = repeat 233 7 ++ lit "address(abcde))") by (injection E as E; symmetry; exact E). rewrite Eb in H. now apply accented_body in H.
  - destruct S as [[_ ->]|(n & _ & ->)]; discriminate ET.
Qed.

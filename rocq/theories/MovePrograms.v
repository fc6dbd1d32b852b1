(** * Moves in programs that pass the check *)
From Verif Require Import Base BaseFacts StrFacts Types Function Event Contract Derive RustSyntax DeriveTree RustCheck CheckFacts CheckProgram SoundSpec SoundFacts SoundEval SoundCalls SoundProgram MoveSpec MoveFacts.
From Verif Require CheckCalls.
From Coq Require Import String Lia.
Set Implicit Arguments.
Notation length := List.length.
Notation obind := RustCheck.obind.
Local Open Scope list_scope.

Lemma not_copied t : ~ copies t -> negb (copied t) = true.
Proof. intros N. destruct (copied t) eqn:C; [destruct (N (proj1 (copied_iff t) C))|reflexivity]. Qed.
Lemma visible s i d : NoDup (map name_of s) -> nth_error s i = Some d -> hidden s i (name_of d) = false.
Proof.
  revert i. induction s as [|a s IH]; intros [|i] N E; try discriminate; [reflexivity|]. cbn [nth_error map] in *. inversion N; subst. unfold hidden. cbn [firstn map existsb]. apply orb_false_iff. split; [|exact (IH _ H2 E)].
  destruct (str_eqb (name_of d) (name_of a)) eqn:X; [|reflexivity]. apply str_eqb_eq in X. destruct H1. rewrite <- X. apply in_map. exact (nth_error_In _ _ E).
Qed.
(** ** Parameters *)
Lemma params_once items c f x y t : program_ok items = true -> inside items c -> In (IFn f) (cx_items c) -> In (x, y) (fn_params f) -> rt_of c (map generic_var (generics_of f)) None y = Some t -> ~ copies t ->
  forall l l', uses (EBlock (fn_body f) (fn_result f)) true = l ++ (x, true) :: l' -> forall o, ~ In (x, o) l'.
Proof.
  intros P In0 I Ip R N l l' U. destruct (proj2 (inside_ok P In0) _ I) as (o & H). cbn [item_ok] in H. unfold fn_ok in H. apply andb_true_iff in H as [H Hb]. apply andb_true_iff in H as [H _]. apply andb_true_iff in H as [_ H]. unfold names_ok in H. apply andb_true_iff in H as [H _]. apply (proj1 (CheckCalls.distinct_iff _)) in H. cbn [option_map] in Hb.
  destruct (mapO _ (fn_params f)) as [s|] eqn:E in Hb; [|discriminate]. destruct (rt_of _ _ _ (fn_ret f)) as [r|]; [|discriminate]. destruct (fn_self f); [discriminate|]. cbn [app] in Hb. destruct (infer _ _ _ _ _ _) as [[t1 s1]|] eqn:Ei; [|discriminate].
  apply (proj1 (mapO_inv _ _ _)) in E. assert (Em : map name_of s = map fst (fn_params f)).
  { clear -E. induction E as [|[x y] b l l' Hb _ IH]; [reflexivity|]. apply obind_some in Hb as (u & _ & Hb). injection Hb as <-. cbn [map]. now rewrite IH. }
  assert (Es : exists i, nth_error s i = Some (x, false, t, true)).
  { clear -E Ip R. induction E as [|[x' y'] b l l' Hb _ IH]; [destruct Ip|]. cbn [fst snd] in Hb. destruct Ip as [Ip|Ip]; [|destruct (IH Ip) as (i & Hi); now exists (S i)]. exists 0%nat. injection Ip as -> ->. rewrite R in Hb. injection Hb as <-. reflexivity. }
  destruct Es as (i & Es). destruct (@infer_moves _ _ _ _ _ _ _ _ Ei) as [_ F]. destruct (F _ _ _ _ _ Es) as (h' & _ & A). assert (Hd : hidden s i x = false) by (apply (@visible s i (x, false, t, true)); [now rewrite Em|exact Es]). rewrite Hd, U, (not_copied N) in A. exact (after_once _ _ _ _ A).
Qed.
(** ** Names bound by [let] *)
Lemma block_let c gs ret e l b x e1 l' : (b = Let x \/ b = LetMut x) -> forall s t s1, block c gs ret e (l ++ (b, e1) :: l') s = Some (t, s1) ->
  exists s2 t2 s3, infer c gs ret e1 true s2 = Some (t2, s3) /\ (~ copies t2 -> forall k k', uses (EBlock l' e) true = k ++ (x, true) :: k' -> forall o, ~ In (x, o) k').
Proof.
  intros B. induction l as [|a l IH]; intros s t s1 E; cbn [app block] in E; apply obind_some in E as ([t1 s2] & E1 & E); [|exact (IH _ _ _ E)]. cbn [fst snd] in *. exists s, t1, s2. split; [exact E1|]. intros N k k' U.
  assert (Eb : infer c gs ret (EBlock l' e) true (tbind b t1 s2) = Some (t, tleave (tbind b t1 s2) s1)) by (cbn [infer]; fold (block c gs ret e); now rewrite E).
  destruct (@infer_moves _ _ _ _ _ _ _ _ Eb) as [_ F].
  assert (G : exists m, nth_error (tbind b t1 s2) 0 = Some (x, m, t1, true)) by (destruct B as [-> | ->]; eexists; reflexivity).
  destruct G as (m & G). destruct (F _ _ _ _ _ G) as (h' & _ & A). change (hidden (tbind b t1 s2) 0 x) with false in A. rewrite U, (not_copied N) in A. exact (after_once _ _ _ _ A).
Qed.
Lemma fn_let c self f l b x e l' : fn_ok c self f = true -> fn_body f = l ++ (b, e) :: l' -> b = Let x \/ b = LetMut x ->
  exists ret s t s', infer c (generics_of f) ret e true s = Some (t, s') /\ (~ copies t -> forall k k', uses (EBlock l' (fn_result f)) true = k ++ (x, true) :: k' -> forall o, ~ In (x, o) k').
Proof.
  unfold fn_ok. intros H Hl B. apply andb_true_iff in H as [_ Hb]. destruct (mapO _ (fn_params f)) as [s|] in Hb; [|discriminate]. destruct (rt_of _ _ _ (fn_ret f)) as [r|]; [|discriminate]. match type of Hb with match ?z with Some _ => _ | None => _ end = true => destruct z as [s0|]; [|discriminate] end. destruct (infer _ _ _ _ _ _) as [[t1 s1]|] eqn:Ei; [|discriminate].
  cbn [infer] in Ei. apply obind_some in Ei as ([t2 s2] & Ei & _). rewrite Hl in Ei. destruct (@block_let _ _ _ _ _ _ _ _ _ B _ _ _ Ei) as (s3 & t3 & s4 & K). exists r, s3, t3, s4. exact K.
Qed.
Lemma lets_once items c f l b x e l' : program_ok items = true -> inside items c -> (In (IFn f) (cx_items c) \/ exists trait y assoc t, In (IImpl trait y assoc t f) (cx_items c)) -> fn_body f = l ++ (b, e) :: l' -> b = Let x \/ b = LetMut x ->
  exists ret s t s', infer c (generics_of f) ret e true s = Some (t, s') /\ (~ copies t -> forall k k', uses (EBlock l' (fn_result f)) true = k ++ (x, true) :: k' -> forall o, ~ In (x, o) k').
Proof.
  intros P In0 [I|(tr & y & assoc & ty & I)]; destruct (proj2 (inside_ok P In0) _ I) as (o & H); cbn [item_ok] in H; [exact (@fn_let _ _ _ _ _ _ _ _ H)|]. apply andb_true_iff in H as [H Hf]. destruct (newtype_of y (cx_items c)); [|discriminate Hf]. destruct (rt_of c [] None ty) as [u|]; [|discriminate Hf]. exact (@fn_let _ _ _ _ _ _ _ _ Hf).
Qed.
(** ** Closures *)
Lemma closed c gs ret e x body own s t s1 : infer c gs ret (EMap e x body) own s = Some (t, s1) -> forall y d, tlookup s y = Some d -> y <> x -> forall o, ~ In (y, o) (uses body true).
Proof.
  cbn [infer]. intros E y d L N. apply obind_some in E as ([t1 s2] & E1 & E).
  assert (E2 : exists a r, infer c gs ret body true ((x, false, a, true) :: lost s2) = Some r) by (destruct t1; try discriminate E; apply obind_some in E as (r & E & _); eauto). destruct E2 as (a & [t2 s3] & E2). clear E.
  pose proof (@infer_keeps _ _ _ _ _ _ _ _ E1) as K.
  assert (Q : exists i m u h, nth_error s i = Some (y, m, u, h) /\ hidden s i y = false).
  { clear -L. induction s as [|[[[z m] u] h] s IH]; [discriminate|]. cbn [tlookup] in L. destruct (str_eqb y z) eqn:X; [apply str_eqb_eq in X; subst z; exists 0%nat, m, u, h; split; reflexivity|]. destruct (IH L) as (i & m' & u' & h' & A & B). exists (S i), m', u', h'. split; [exact A|]. unfold hidden. cbn [firstn map existsb name_of fst]. rewrite X. exact B. }
  destruct Q as (i & m & u & h & En & Hd). destruct (@infer_moves _ _ _ _ _ _ _ _ E1) as [_ F1]. destruct (F1 _ _ _ _ _ En) as (h1 & En1 & _). destruct (@infer_moves _ _ _ _ _ _ _ _ E2) as [_ F2]. destruct (F2 (S i) y m u false (nth_lost _ _ En1)) as (h2 & _ & A).
  unfold hidden in A. cbn [firstn map existsb name_of fst] in A. destruct (str_eqb y x) eqn:X; [apply str_eqb_eq in X; contradiction|]. fold (hidden (lost s2) i y) in A. rewrite (hidden_shape (lost s2) s2 i y (shape_lost s2)), (hidden_shape s2 s i y K), Hd in A. cbn [orb] in A.
  intros o I. clear -A I. induction (uses body true) as [|[z b] l IH]; [destruct I|]. cbn [after] in A. destruct (str_eqb y z) eqn:Z; [discriminate|]. destruct I as [I|I]; [injection I as <- _; now rewrite str_eqb_refl in Z|exact (IH A I)].
Qed.
(** ** What the macro writes *)
Lemma generated_once p c fs es d items : derive_contract p c fs es = Ok d -> contract_tree c fs es = Ok items -> forall m f x y t, inside items m -> In (IFn f) (cx_items m) -> In (x, y) (fn_params f) -> rt_of m (map generic_var (generics_of f)) None y = Some t -> ~ copies t ->
  forall l l', uses (EBlock (fn_body f) (fn_result f)) true = l ++ (x, true) :: l' -> forall o, ~ In (x, o) l'.
Proof. intros D T m f x y t I. assert (P : program_ok items = true) by (apply (@program_exact p c fs es items T); eauto). exact (@params_once items m f x y t P I). Qed.

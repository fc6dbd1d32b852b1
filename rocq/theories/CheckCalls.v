(** * Checking generated functions and constructors *)
From Verif Require Import Base BaseFacts StrFacts Types TypeNames Tokenizer AbiSpec Function Event EventSpec Contract Heck Derive DeriveSpec DeriveFacts DeriveCalls DeriveEvents DeriveAccepts
  FilterFacts RustSyntax DeriveTree RustEval GeneratedSpec DeriveRun DeriveModules DeriveLogs DeriveGenerated RustCheck CheckFacts.
From Coq Require Import String Lia.
Set Implicit Arguments.
Notation length := List.length.
Notation obind := RustCheck.obind.
Notation tmethod := DeriveTree.method.
Local Open Scope N_scope.
Local Open Scope list_scope.

Lemma tlookup_moved s x y : str_eqb y x = false -> tlookup (moved s x) y = tlookup s y.
Proof.
  intros N. induction s as [|[[[z m] t] h] s IH]; [reflexivity|]. cbn [moved]. destruct (str_eqb x z) eqn:E; cbn [tlookup].
  - apply str_eqb_eq in E. subst z. rewrite N. reflexivity.
  - destruct (str_eqb y z); auto.
Qed.
Lemma str_neqb (x y : str) : x <> y -> str_eqb x y = false.
Proof. intros N. destruct (str_eqb x y) eqn:E; [|reflexivity]. apply str_eqb_eq in E. contradiction. Qed.

(** ** Arguments *)
Definition T (i : nat) : str := numbered (lit "T") i.
Definition U (i : nat) : str := numbered (lit "U") i.
Section Infer.
Context (c : ctx) (gs : list generic) (ret : rt).
Notation inf := (infer c gs ret).
Context (G : NoDup (map generic_name gs)) (V : seen c (vars gs)).
Lemma bound_found g l : incl l gs -> In g l -> bound_of gs (generic_name g) = Some g.
Proof. intros J I. exact (generic_found _ _ G (J g I)). Qed.
Definition template_rt (k : ParamType) : rt := match k with PFixedArray k' _ => SVec (srt k') | _ => srt k end.
Lemma inf_map_into e own s a b s1 : inf e true s = Some (SIter a, s1) -> into c gs a = Some b -> inf (map_into e) own s = Some (SIter b, s1).
Proof. intros E I. unfold map_into. cbn [infer]. change (negb (borrowing (lit "map"))) with true. rewrite E. cbn [obind]. change (str_eqb (lit "map") (lit "map")) with true. cbv iota. change (is_path (segments ["Into"; "into"]%string) ["Into"; "into"]%string) with true. cbv iota. rewrite I. reflexivity. Qed.
Lemma inf_collect_vec e own s a s1 : is_byte a = false -> inf e true s = Some (SIter a, s1) -> inf (collect_vec e) own s = Some (SVec a, s1).
Proof.
  intros B E. apply inf_method0 with (t := SIter a); try reflexivity; [exact E|].
  assert (Q : vec_of_any c gs [TyName [lit "Vec"] [TyInfer]] = true).
  { destruct (@V "Vec"%string ltac:(cbn; auto 10)) as [L W]. cbn [vec_of_any]. rewrite L, W. reflexivity. }
  cbn [method_type]. change (str_eqb (lit "collect") (lit "collect")) with true. cbv iota. rewrite Q, B. reflexivity.
Qed.
Lemma inf_cast e own s a n s1 : is_byte a = false -> inf e true s = Some (SBox (SArr a n), s1) -> inf (ECast e (TyName [lit "Box"] [TySlice TyInfer])) own s = Some (SBox (SSlice a), s1).
Proof.
  intros B E. cbn [infer]. rewrite E. cbn [obind].
  assert (Q : box_of_any c gs (TyName [lit "Box"] [TySlice TyInfer]) = true).
  { destruct (@V "Box"%string ltac:(cbn; auto 10)) as [L W]. cbn [box_of_any]. rewrite L, W. reflexivity. }
  rewrite Q, B. reflexivity.
Qed.
Lemma in_vars g l : incl l gs -> In g l -> existsb (str_eqb (generic_name g)) (vars gs) = true.
Proof. intros J I. apply existsb_exists. exists (generic_name g). split; [exact (in_map generic_name _ _ (J _ I))|apply str_eqb_refl]. Qed.
Lemma inf_template k i x s m l : argument_type k = true -> bound_tree k i = Ok l -> incl l gs -> tlookup s x = Some (m, SVar (T i), true) ->
  yields c gs ret (template_tree k x) s (template_rt k) (fun _ => moved s x).
Proof.
  intros A B J L.
  assert (plain : argument_type k = plain_type k -> (do t <- type_tree k; Ok [GInto (T i) t]) = Ok l -> template_tree k x = tmethod (EPath [x]) "into" -> template_rt k = srt k ->
    yields c gs ret (template_tree k x) s (template_rt k) (fun _ => moved s x)).
  { intros A' B' -> ->. rewrite A' in A. apply bind_ok in B' as (y & Y & Q). injection Q as <-. apply yields_into with (m := m) (v := T i) (g := T i) (t := y); [exact L|refine (@bound_found (GInto (T i) y) _ J _); cbn; auto|].
    rewrite (rt_type None _ V Y), A. reflexivity. }
  destruct k; try (apply plain; (exact B || reflexivity)); clear plain; cbn [argument_type plain_type template_rt srt bound_tree] in *; try discriminate.
  - apply bind_ok in B as (y & Y & Q). injection Q as <-. pose proof (rt_type None _ V Y) as R. rewrite A in R.
    intros own. apply inf_collect_vec; [destruct (srt k) eqn:Z; try reflexivity; destruct (srt_not_byte _ Z)|]. apply inf_map_into with (a := SVar (U i)).
    + apply inf_method0 with (t := SVar (T i)); try reflexivity.
      * cbn [infer]. rewrite L. reflexivity.
      * cbn [method_type]. change (str_eqb (lit "into_iter") (lit "collect")) with false. cbv iota. change (str_eqb (lit "into_iter") (lit "into")) with false. change (str_eqb (lit "into_iter") (lit "to_owned")) with false.
        change (str_eqb (lit "into_iter") (lit "into_iter")) with true. cbv iota. cbn [items_of]. rewrite (@bound_found (GIter (T i) (U i)) _ J (or_introl eq_refl) : bound_of gs (T i) = _). reflexivity.
    + cbn [into]. rewrite (@bound_found (GInto (U i) y) _ J (or_intror (or_introl eq_refl)) : bound_of gs (U i) = _). exact R.
  - apply bind_ok in B as (y & Y & Q). injection Q as <-. pose proof (rt_type None _ V Y) as R. rewrite A in R.
    intros own. apply inf_collect_vec; [destruct (srt k) eqn:Z; try reflexivity; destruct (srt_not_byte _ Z)|]. apply inf_map_into with (a := SVar (U i)).
    + apply inf_method0 with (t := SVec (SVar (U i))); try reflexivity. apply inf_method0 with (t := SBox (SSlice (SVar (U i)))); try reflexivity. apply inf_cast with (n := size); [reflexivity|].
      apply inf_box; [reflexivity|]. apply (yields_into c gs ret (m := m) (v := T i) (g := T i) (t := TyArray (TyName [U i] []) size) _ _ L).
      * refine (@bound_found (GInto (T i) (TyArray (TyName [U i] []) size)) _ J _); cbn; auto.
      * cbn [rt_of plain_name]. rewrite (@in_vars (GInto (U i) y) _ J (or_intror (or_introl eq_refl)) : existsb (str_eqb (U i)) (vars gs) = true). reflexivity.
    + cbn [into]. rewrite (@bound_found (GInto (U i) y) _ J (or_intror (or_introl eq_refl)) : bound_of gs (U i) = _). exact R.
Qed.
Lemma inf_argument k i x s m l e own : argument_type k = true -> bound_tree k i = Ok l -> incl l gs -> tlookup s x = Some (m, SVar (T i), true) ->
  to_token_tree (template_tree k x) k = Ok e -> inf e own s = Some (SToken, moved s x).
Proof.
  intros A B J L E. pose proof (@inf_template k i x s m l A B J L) as Y.
  assert (plain : plain_type k = true -> template_rt k = srt k -> inf e own s = Some (SToken, moved s x)).
  { intros P R. rewrite R in Y. destruct (@inf_to_token c gs ret k P _ e own s (fun _ => moved s x) E) as [b H]; [intros; apply moved_length|exact Y|exact H]. }
  destruct k; try (apply plain; (exact A || reflexivity)); clear plain.
  cbn [argument_type template_rt to_token_tree] in *. apply bind_ok in E as (inner & Ei & E). injection E as <-.
  apply inf_token_block with (t := srt k) (t' := SToken); cbn [In]; auto using srt_not_byte, moved_length.
  destruct (@inf_to_token c gs ret k A (name "inner") inner true _ _ Ei (closure_length _ _ _ _) (@closure_yields c gs ret (lit "inner") (srt k) (lost (moved s x)))) as [b H]. eauto.
Qed.
(** What has neither is refused. *)
Lemma none_to_token k : forall e e' own s, (forall own, inf e own s = None) -> to_token_tree e k = Ok e' -> inf e' own s = None.
Proof.
  destruct k; intros e e' own s N E; cbn [to_token_tree] in E; try discriminate; try (apply bind_ok in E as (inner & _ & E)); injection E as <-;
    unfold token, ethabi, token_block, DeriveTree.method; cbn [segments map infer seqO snd]; rewrite N; reflexivity.
Qed.
Lemma none_template k x s m t : tlookup s x = Some (m, t, true) -> into c gs t = None -> items_of gs t = None -> forall own, inf (template_tree k x) own s = None.
Proof.
  intros L I J. assert (P : forall own, inf (tmethod (EPath [x]) "into") own s = None).
  { intros own. unfold tmethod. cbn [infer seqO]. rewrite L. cbn [obind]. change (str_eqb (lit "into") (lit "map")) with false. cbn [method_type]. change (str_eqb (lit "into") (lit "collect")) with false. change (str_eqb (lit "into") (lit "into")) with true. cbv iota. rewrite I. reflexivity. }
  assert (Q : forall own, inf (tmethod (EPath [x]) "into_iter") own s = None).
  { intros own. unfold tmethod. cbn [infer seqO]. rewrite L. cbn [obind]. change (str_eqb (lit "into_iter") (lit "map")) with false. cbn [method_type]. change (str_eqb (lit "into_iter") (lit "collect")) with false. change (str_eqb (lit "into_iter") (lit "into")) with false. change (str_eqb (lit "into_iter") (lit "to_owned")) with false. change (str_eqb (lit "into_iter") (lit "into_iter")) with true. cbv iota. rewrite J. reflexivity. }
  assert (M : forall e m ts args own, (forall own, inf e own s = None) -> inf (EMethod e m ts args) own s = None) by (intros e m' ts args own N; cbn [infer]; rewrite N; reflexivity).
  intros own. destruct k; try apply P; unfold template_tree, collect_vec, map_into.
  - do 2 (apply M; clear own; intros own). apply Q.
  - do 4 (apply M; clear own; intros own). cbn [infer]. unfold box_new. cbn [infer segments map seqO]. rewrite P. reflexivity.
Qed.
(** *** All of them *)
Definition provided (k : nat) (inputs : list Param) : Prop := forall i q, nth_error inputs i = Some q -> exists g, bound_tree (p_kind q) (k + i) = Ok g /\ incl g gs.
Lemma provided_tail k q inputs : provided k (q :: inputs) -> provided (S k) inputs.
Proof. intros P i x H. rewrite Nat.add_succ_comm. exact (P (S i) x H). Qed.
Lemma seq_arguments inputs : forallb argument_type (map p_kind inputs) = true -> forall k names es s, length names = length inputs -> provided k inputs -> tokenize_tree names inputs = Ok es -> NoDup names ->
  (forall i n, nth_error names i = Some n -> exists m, tlookup s n = Some (m, SVar (T (k + i)), true)) ->
  exists s', seqO (fun e s => inf e true s) es s = Some (repeat SToken (length es), s') /\ length s' = length s /\ forall y, ~ In y names -> tlookup s' y = tlookup s y.
Proof.
  induction inputs as [|q inputs IH]; intros A k [|n names] es s L P E ND H; try discriminate.
  - injection E as <-. exists s. auto.
  - unfold tokenize_tree in E. cbn [combine mapM] in E. apply bind_ok in E as (e & Ee & E). apply bind_ok in E as (es' & Es & E). injection E as <-. cbn [fst snd] in Ee.
    cbn [map forallb] in A. apply andb_true_iff in A as [A1 A2]. destruct (P 0%nat q eq_refl) as (g & B & J). destruct (H 0%nat n eq_refl) as [m Lk]. rewrite Nat.add_0_r in B, Lk. inversion ND as [|? ? N1 N2]; subst.
    cbn [seqO]. rewrite (@inf_argument _ _ _ _ _ _ _ true A1 B J Lk Ee). cbn [obind]. fold (seqO (fun e s => inf e true s)).
    destruct (IH A2 (S k) names es' (moved s n)) as (s' & -> & Ls & K); auto.
    + now apply provided_tail with (q := q).
    + intros i y Y. rewrite tlookup_moved, Nat.add_succ_comm; [exact (H (S i) y Y)|]. apply str_neqb. intros ->. apply N1. eapply nth_error_In, Y.
    + exists s'. split; [reflexivity|]. split; [rewrite Ls; apply moved_length|]. intros y Y. rewrite K by (intros X; apply Y; now right). apply tlookup_moved, str_neqb. intros ->. apply Y. now left.
Qed.
(** One is hidden by a variable of another type. *)
Lemma seq_hidden inputs : forallb argument_type (map p_kind inputs) = true -> forall k names es s x m t, length names = length inputs -> provided k inputs -> tokenize_tree names inputs = Ok es -> NoDup names ->
  In x names -> tlookup s x = Some (m, t, true) -> into c gs t = None -> items_of gs t = None ->
  (forall i n, nth_error names i = Some n -> n <> x -> exists m, tlookup s n = Some (m, SVar (T (k + i)), true)) ->
  seqO (fun e s => inf e true s) es s = None.
Proof.
  induction inputs as [|q inputs IH]; intros A k [|n names] es s x m t L P E ND I Lx In Jn H; try discriminate; [destruct I|].
  unfold tokenize_tree in E. cbn [combine mapM] in E. apply bind_ok in E as (e & Ee & E). apply bind_ok in E as (es' & Es & E). injection E as <-. cbn [fst snd] in Ee.
  cbn [map forallb] in A. apply andb_true_iff in A as [A1 A2]. inversion ND as [|? ? N1 N2]; subst. cbn [seqO]. destruct (str_eqb n x) eqn:Q.
  - apply str_eqb_eq in Q. subst n. erewrite none_to_token with (2 := Ee); [reflexivity|]. now apply none_template with (1 := Lx).
  - assert (Nx : n <> x) by (intros ->; rewrite str_eqb_refl in Q; discriminate). destruct (P 0%nat q eq_refl) as (g & B & J). destruct (H 0%nat n eq_refl Nx) as [m' Lk]. rewrite Nat.add_0_r in B, Lk.
    rewrite (@inf_argument _ _ _ _ _ _ _ true A1 B J Lk Ee). cbn [obind]. fold (seqO (fun e s => inf e true s)).
    rewrite (IH A2 (S k) names es' (moved s n) x m t); auto.
    + now apply provided_tail with (q := q).
    + destruct I as [->|I]; [destruct (Nx eq_refl)|exact I].
    + rewrite tlookup_moved; [exact Lx|]. apply str_neqb. auto.
    + intros i y Y Ny. rewrite tlookup_moved, Nat.add_succ_comm; [exact (H (S i) y Y Ny)|]. apply str_neqb. intros ->. apply N1. eapply nth_error_In, Y.
Qed.
Lemma inf_tokens inputs k names es own s : forallb argument_type (map p_kind inputs) = true -> length names = length inputs -> provided k inputs -> tokenize_tree names inputs = Ok es -> NoDup names ->
  (forall i n, nth_error names i = Some n -> exists m, tlookup s n = Some (m, SVar (T (k + i)), true)) ->
  exists s' r, inf (EVec es) own s = Some (SVec r, s') /\ (r = SToken \/ r = SAny) /\ length s' = length s /\ forall y, ~ In y names -> tlookup s' y = tlookup s y.
Proof.
  intros A L P E ND H. destruct (@seq_arguments inputs A k names es s L P E ND H) as (s' & Q & Ls & K). cbn [infer]. rewrite Q. cbn [obind]. rewrite common_repeat by (discriminate || reflexivity). cbn [obind].
  eexists s', _. split; [reflexivity|]. split; [destruct (length es); auto|]. auto.
Qed.
End Infer.

(** ** Parameters *)
Definition env (k : nat) (names : list str) : tenv := mapi_from (fun i n => (n, false, SVar (T i), true)) k names.
Lemma env_found names : NoDup names -> forall k i n, nth_error names i = Some n -> tlookup (env k names) n = Some (false, SVar (T (k + i)), true).
Proof.
  induction 1 as [|y names N ND IH]; intros k [|i] n E; try discriminate; cbn [nth_error env mapi_from tlookup] in *.
  - injection E as ->. rewrite str_eqb_refl, Nat.add_0_r. reflexivity.
  - rewrite str_neqb by (intros ->; apply N; eapply nth_error_In, E). rewrite <- Nat.add_succ_comm. exact (IH (S k) i n E).
Qed.
Lemma env_absent names k x : tlookup (env k names) x = None <-> ~ In x names.
Proof.
  revert k. induction names as [|y names IH]; intros k; cbn [env mapi_from tlookup In]; [tauto|]. destruct (str_eqb x y) eqn:E.
  - apply str_eqb_eq in E. subst y. split; [discriminate|tauto].
  - rewrite (IH (S k)). assert (y <> x) by (intros ->; rewrite str_eqb_refl in E; discriminate). tauto.
Qed.
Lemma distinct_iff l : distinct l = true <-> NoDup l.
Proof.
  induction l as [|x l IH]; cbn [distinct]; [split; [constructor|reflexivity]|]. rewrite andb_true_iff, negb_true_iff, IH. split.
  - intros [E N]. constructor; [|exact N]. intros I. assert (X : existsb (str_eqb x) l = true) by (apply existsb_exists; exists x; split; [exact I|apply str_eqb_refl]). congruence.
  - intros N. inversion N as [|? ? N1 N2]; subst. split; [|exact N2]. destruct (existsb (str_eqb x) l) eqn:E; [|reflexivity]. apply existsb_exists in E as (y & I & Q). apply str_eqb_eq in Q. subst y. contradiction.
Qed.
Lemma names_ok_iff l : names_ok l = true <-> NoDup l /\ Forall (fun x => keyword x = false) l.
Proof.
  unfold names_ok. rewrite andb_true_iff, negb_true_iff, distinct_iff. split; intros [A B]; (split; [exact A|]).
  - apply Forall_forall. intros x I. destruct (keyword x) eqn:K; [|reflexivity]. rewrite <- B. symmetry. apply existsb_exists. eauto.
  - destruct (existsb keyword l) eqn:E; [|reflexivity]. apply existsb_exists in E as (x & I & K). rewrite Forall_forall in B. rewrite (B x I) in K. discriminate.
Qed.
Lemma own_vars gs : NoDup (map generic_name gs) -> Forall (own 0) gs -> names_ok (map generic_var gs) = true.
Proof.
  intros N O. apply names_ok_iff. split; [exact N|]. apply Forall_forall. intros x I. apply in_map_iff in I as (g & <- & I). rewrite Forall_forall in O. destruct (O g I) as (i & _ & [E|E]); unfold generic_name in E; unfold generic_var; rewrite E; reflexivity.
Qed.
Lemma own_seen c gs : Forall (own 0) gs -> (forall x, In x ["bool"; "u8"; "String"; "Vec"; "Box"; "str"]%string -> local_type (lit x) (cx_items c) = false) -> seen c (vars gs).
Proof.
  intros O H x I. split; [exact (H x I)|]. destruct (existsb (str_eqb (lit x)) (vars gs)) eqn:E; [|reflexivity]. apply existsb_exists in E as (y & J & Q). apply str_eqb_eq in Q. subst y.
  unfold vars in J. apply in_map_iff in J as (g & Q & J). rewrite Forall_forall in O. destruct (O g J) as (i & _ & X). unfold generic_name in X. unfold generic_var in Q. rewrite Q in X. clear -I X. exfalso.
  cbn [In] in I. repeat (destruct I as [<-|I]; [destruct X; discriminate|]). exact I.
Qed.
Lemma bound_generics c gs k i l : seen c (vars gs) -> bound_tree k i = Ok l -> incl l gs -> forallb (generic_ok c gs) l = argument_type k.
Proof.
  intros V B J.
  assert (R : forall t y, type_tree t = Ok y -> match rt_of c (map generic_var gs) None y with Some _ => true | None => false end = plain_type t).
  { intros t y Y. rewrite (rt_type None t V Y : rt_of c (map generic_var gs) None y = _). destruct (plain_type t); reflexivity. }
  assert (P : (do t <- type_tree k; Ok [GInto (T i) t]) = Ok l -> forallb (generic_ok c gs) l = plain_type k).
  { intros E. apply bind_ok in E as (y & Y & E). injection E as <-. cbn [forallb generic_ok]. rewrite (R _ _ Y). apply andb_true_r. }
  destruct k; try (exact (P B)); clear P; cbn [bound_tree] in B; apply bind_ok in B as (y & Y & B); injection B as <-; cbn [forallb generic_ok argument_type]; rewrite (R _ _ Y), andb_true_r.
  - assert (X : existsb (str_eqb (U i)) (map generic_var gs) = true) by exact (@in_vars gs (GInto (U i) y) _ J (or_intror (or_introl eq_refl))). unfold U in X. rewrite X. reflexivity.
  - cbn [rt_of plain_name]. assert (X : existsb (str_eqb (U i)) (map generic_var gs) = true) by exact (@in_vars gs (GInto (U i) y) _ J (or_intror (or_introl eq_refl))). unfold U in X. rewrite X. reflexivity.
Qed.
Lemma bounds_generics c gs inputs : seen c (vars gs) -> forall k r, mapM (fun r => r) (mapi_from (fun index param => bound_tree (p_kind param) index) k inputs) = Ok r -> incl (List.concat r) gs ->
  forallb (generic_ok c gs) (List.concat r) = forallb argument_type (map p_kind inputs).
Proof.
  intros V. induction inputs as [|q inputs IH]; intros k r E J; cbn [mapi_from mapM] in E.
  - injection E as <-. reflexivity.
  - apply bind_ok in E as (l & El & E). apply bind_ok in E as (r' & Er & E). injection E as <-. cbn [List.concat map forallb] in *. rewrite forallb_app.
    rewrite (@bound_generics c gs _ _ l V El), (IH _ _ Er); [reflexivity| |]; intros g I; apply J, in_app_iff; auto.
Qed.
Lemma bound_head k i l : bound_tree k i = Ok l -> exists g, In g l /\ generic_name g = T i.
Proof. intros B. destruct (bound_names _ _ B) as [E|E]; destruct l as [|g l]; try discriminate; injection E as E; exists g; (split; [now left|exact E]). Qed.
Lemma mapO_cons A B (f : A -> option B) x l : mapO f (x :: l) = obind (f x) (fun y => obind (mapO f l) (fun r => Some (y :: r))).
Proof. reflexivity. Qed.
Lemma params_env c gs out inputs : forall k names, length names = length inputs -> provided gs k inputs ->
  mapO (fun x : str * RustSyntax.ty => obind (rt_of c (map generic_var gs) out (snd x)) (fun t => Some (fst x, false, t, true))) (mapi_from (fun index n => (n, TyName [numbered (lit "T") index] [])) k names) = Some (env k names).
Proof.
  induction inputs as [|q inputs IH]; intros k [|n names] L P; try discriminate; [reflexivity|]. cbn [mapi_from]. rewrite mapO_cons. cbn [fst snd rt_of plain_name].
  destruct (P 0%nat q eq_refl) as (l & B & J). rewrite Nat.add_0_r in B. destruct (bound_head _ _ B) as (g & I & Q). pose proof (@in_vars gs g _ J I) as X. rewrite Q in X. unfold T, vars in X. rewrite X. cbn [obind].
  rewrite (IH (S k) names); [reflexivity|now injection L|]. now apply provided_tail with (q := q).
Qed.

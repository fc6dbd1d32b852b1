(** * Running the generated event modules *)
From Verif Require Import Base BaseFacts StrFacts Types TypeNames Tokenizer AbiSpec Function Event EventSpec Contract Heck Derive DeriveSpec DeriveFacts DeriveCalls DeriveEvents DeriveAccepts
  FilterFacts RustSyntax DeriveTree RustEval DeriveRun DeriveModules.
From Verif Require DeriveTextFacts.
From Coq Require Import String Lia.
Set Implicit Arguments.
Notation length := List.length.
Local Open Scope N_scope.
Local Open Scope list_scope.

Definition topic_val (t : Topic Token) : val :=
  VTopic (match t with Any => Any | OneOf l => OneOf (map VTok l) | This v => This (VTok v) end).
Lemma as_topic_val t : as_topic (topic_val t) = Some t.
Proof. destruct t as [ | l | x ]; [ reflexivity | | reflexivity ]. cbn [topic_val as_topic]. rewrite (reads_map as_token VTok) by reflexivity. reflexivity. Qed.

Section Run.
Context (p : profile) (call : path -> list val -> out val).
Notation ev := (eval p call).
(** ** Topics *)
Lemma ev_topic t n e s v x : to_token_tree (name "i") t = Ok e -> topic_denotes t v x -> lookup s n = Some (false, inj_topic v) ->
  ev (EMap (DeriveTree.method (EPath [n]) "into") (lit "i") e) s = Done (topic_val x, s).
Proof.
  intros T D L.
  assert (B : forall w y, denotes t w y -> obind (ev e ((lit "i", false, inj w) :: s)) (fun r => Done (fst r, leave s (snd r))) = Done (VTok y, s)).
  { intros w y Dw. rewrite (@ev_to_token p call t _ _ _ _ _ T Dw); [ | reflexivity ]. cbn [obind fst snd]. rewrite leave_one. reflexivity. }
  cbn [eval]. fold (ev (DeriveTree.method (EPath [n]) "into") s).
  assert (E : ev (DeriveTree.method (EPath [n]) "into") s = Done (inj_topic v, s)).
  { unfold DeriveTree.method. apply (@ev_method0 p call _ _ _ _ (inj_topic v)); [ reflexivity | apply (@ev_name p call _ _ _ _ L) | reflexivity ]. }
  rewrite E. cbn [obind fst snd]. destruct v as [ | l | v ], x as [ | l' | x ]; cbn [topic_denotes] in D; try (destruct D; fail); cbn [inj_topic map_val topic_val].
  - reflexivity.
  - match goal with |- obind (seqM ?f _ _) _ = _ => set (g := f) end.
    assert (S : seqM g (map inj l) s = Done (map VTok l', s)).
    { clear E L. revert l' D. induction l as [ | w l IH ]; intros l' D; inversion D as [ | ? y ? l'' Dw D' ]; subst; [ reflexivity | ].
      cbn [map seqM]. unfold g at 1. rewrite (B _ _ Dw). cbn [obind fst snd]. rewrite (IH _ D'). reflexivity. }
    rewrite S. reflexivity.
  - rewrite (B _ _ D). reflexivity.
Qed.
Definition raw_fields (ts : list (Topic Token)) : list (str * val) := mapi (fun i t => (numbered (lit "topic") i, topic_val t)) ts.
Lemma with_default_raw ts : (length ts <= 3)%nat -> with_default (ethabi ["RawTopicFilter"%string]) (segments ["Default"; "default"]%string) (raw_fields ts) = Done (VRaw (raw_filter ts)).
Proof.
  intros L. destruct ts as [ | a [ | b [ | c [ | d ts ] ] ] ]; [ | | | | cbn in L; lia ].
  - reflexivity.
  - change (match as_topic (topic_val a) with Some a => Done (VRaw (mkRawFilter a Any Any)) | None => Stuck end = Done (VRaw (raw_filter [a]))). rewrite as_topic_val. reflexivity.
  - change (match as_topic (topic_val a), as_topic (topic_val b) with Some a, Some b => Done (VRaw (mkRawFilter a b Any)) | _, _ => Stuck end = Done (VRaw (raw_filter [a; b]))). rewrite !as_topic_val. reflexivity.
  - change (match as_topic (topic_val a), as_topic (topic_val b), as_topic (topic_val c) with Some a, Some b, Some c => Done (VRaw (mkRawFilter a b c)) | _, _, _ => Stuck end = Done (VRaw (raw_filter [a; b; c]))).
    rewrite !as_topic_val. reflexivity.
Qed.
Lemma ev_raw names topics init args ts s : filter_init_tree (firstn 3 (combine names topics)) = Ok init -> length names = length topics ->
  Forall3 topic_denotes (map ep_kind topics) args ts ->
  (forall n v, In (n, v) (combine names (map inj_topic args)) -> lookup s n = Some (false, v)) ->
  ev (EStructDefault (ethabi ["RawTopicFilter"%string]) init (segments ["Default"; "default"]%string)) s = Done (VRaw (raw_filter ts), s).
Proof.
  intros I Ln F L. rewrite (@ev_struct_default p call _ _ _ s (raw_fields (firstn 3 ts))).
  - rewrite with_default_raw by (rewrite firstn_length; lia). rewrite raw_filter_first. reflexivity.
  - unfold filter_init_tree, mapi in I. unfold raw_fields, mapi. apply mapM_ok in I. revert I F L. generalize 0%nat, 3%nat. intros i k. revert i k names args ts init Ln.
    induction topics as [ | q topics IH ]; intros i k [ | n names ] args ts init Ln I F L; try discriminate; inversion F as [ | ? v x ? args' ts' D F' ]; subst.
    + rewrite firstn_nil in *. inversion I. constructor.
    + destruct k as [ | k ]; [ inversion I; constructor | ]. cbn [combine firstn mapi_from] in I. inversion I as [ | ? y ? init' E I' ]; subst. cbn [firstn mapi_from].
      apply bind_ok in E as (e & T & E). injection E as <-. cbn [fst snd] in T |- *. constructor.
      * split; [ reflexivity | ]. cbn [snd]. eapply ev_topic; [ exact T | exact D | ]. apply L. left. reflexivity.
      * eapply IH; [ | exact I' | exact F' | ]; [ injection Ln; auto | ]. intros; apply L; right; assumption.
Qed.

(** ** Logs *)
Definition log_env (l : list LogParam) (s0 : env) : env := (lit "log", true, VIter (map VLogParam l)) :: s0.
Lemma below_log l s0 pre : Forall (fun b : str * bool * val => fst (fst b) = lit "result") pre -> lookup (pre ++ log_env l s0) (lit "log") = Some (true, VIter (map VLogParam l)).
Proof. intros F. rewrite lookup_below by (exact F || reflexivity). reflexivity. Qed.
Lemma update_log l l' s0 pre : Forall (fun b : str * bool * val => fst (fst b) = lit "result") pre -> update (pre ++ log_env l s0) (lit "log") (VIter (map VLogParam l')) = pre ++ log_env l' s0.
Proof. intros F. induction F as [ | [ [ y m ] v ] pre H _ IH ]; [ reflexivity | ]. cbn [fst] in H. subst y. cbn [app update]. change (str_eqb (lit "log") (lit "result")) with false. cbn iota. rewrite IH. reflexivity. Qed.
Lemma next_log l s0 pre : Forall (fun b : str * bool * val => fst (fst b) = lit "result") pre ->
  ev (DeriveTree.method (name "log") "next") (pre ++ log_env l s0) = Done (optional VLogParam (hd_error l), pre ++ log_env (tl l) s0).
Proof.
  intros F. unfold DeriveTree.method, name. cbn [eval]. rewrite below_log by exact F. cbn [obind fst snd seqM]. unfold invoke. change (mutating (lit "next")) with true. cbn iota.
  destruct l as [ | x l ]; cbn [map mutate]; change (str_eqb (lit "next") (lit "next")) with true; cbn [obind fst snd hd_error optional tl].
  - rewrite (below_log []) by exact F. rewrite (update_log [] []) by exact F. reflexivity.
  - rewrite (below_log (x :: l)) by exact F. rewrite (update_log (x :: l) l) by exact F. reflexivity.
Qed.
Lemma gives_log x l s0 : clean s0 -> gives p call log_next (log_env (x :: l) s0) (lp_value x) (log_env l s0).
Proof.
  intros Cl pre F. unfold log_next. cbn [eval]. fold (ev (expecting (DeriveTree.method (name "log") "next")) (pre ++ log_env (x :: l) s0)).
  rewrite (@ev_expecting_option p call _ VLogParam _ _ _ _ (next_log (x :: l) s0 F)); [ reflexivity | ].
  unfold clean. rewrite lookup_below by (exact F || reflexivity). exact Cl.
Qed.
Lemma log_fails s0 : clean s0 -> fails p call log_next (log_env [] s0).
Proof.
  intros Cl pre F. unfold log_next. cbn [eval]. fold (ev (expecting (DeriveTree.method (name "log") "next")) (pre ++ log_env [] s0)).
  rewrite (@ev_expecting_option p call _ VLogParam _ _ _ _ (next_log [] s0 F)); [ reflexivity | ].
  unfold clean. rewrite lookup_below by (exact F || reflexivity). exact Cl.
Qed.
Lemma seq_log A (k : A -> ParamType) outs es fs s0 names : clean s0 -> forallb plain_type (map k outs) = true -> length names = length outs ->
  mapM (fun q => from_token_tree (k q) log_next) outs = Ok es -> mapM (fun q => from_token (k q)) outs = Ok fs -> forall l,
  let run := seqM (fun (x : str * expr) s => obind (ev (snd x) s) (fun r => Done ((fst x, fst r), snd r))) (combine names es) (log_env l s0) in
  match convert_all fs (map lp_value l) with
  | Ok vs => exists rest, run = Done (combine names (map inj vs), log_env rest s0)
  | Panic => run = Panics
  | Err _ => True
  end.
Proof.
  intros C P Ln T F. apply mapM_ok in T. apply mapM_ok in F. revert fs F names Ln. induction T as [ | q e outs es E _ IH ]; intros fs F [ | n names ] Ln l; try discriminate; inversion F as [ | ? g ? fs' G F' ]; subst.
  - cbn [convert_all combine seqM]. eexists. reflexivity.
  - cbn [map forallb] in P. apply andb_true_iff in P as [ P1 P2 ]. cbn [convert_all combine seqM fst snd]. destruct l as [ | x l ].
    + cbn [map]. rewrite (@ev_from_token_fails p call _ P1 _ _ _ E (log_fails C)). reflexivity.
    + cbn [map]. rewrite (@ev_from_token p call _ P1 _ _ _ _ (log_env l s0) (lp_value x) E G); [ | exact C | reflexivity | apply gives_log, C ].
      destruct (g (lp_value x)) as [ v | | ]; cbn [converted obind bind]; [ | exact I | reflexivity ]. cbn [fst snd]. specialize (IH P2 _ F' names ltac:(injection Ln; auto) l). cbn zeta in IH.
      destruct (convert_all fs' (map lp_value l)) as [ vs | | ]; cbn [bind]; [ | exact I | rewrite IH; reflexivity ]. destruct IH as [ rest -> ]. exists rest. reflexivity.
Qed.
End Run.

(** ** Modules of events *)
Lemma topic_types_correct kinds : forallb is_type kinds = true -> forallb generic_types (topic_bounds kinds) = true.
Proof.
  unfold topic_bounds, mapi. generalize 0%nat. induction kinds as [ | k kinds IH ]; intros i H; [ reflexivity | ]. cbn [forallb mapi_from generic_types is_type] in *.
  apply andb_true_iff in H as [ -> H ]. rewrite (IH _ H). reflexivity.
Qed.
Lemma filter_names_sub inputs names n : In n (topic_names inputs names) -> In n names.
Proof. unfold topic_names. intros I. apply in_map_iff in I as ([ x m ] & <- & I). apply filter_In in I as [ I _ ]. eapply in_combine_r. exact I. Qed.
Lemma filter_names_NoDup inputs names : NoDup names -> NoDup (topic_names inputs names).
Proof.
  revert names. induction inputs as [ | x inputs IH ]; intros [ | n names ] N; try constructor. unfold topic_names. cbn [combine filter fst]. inversion N as [ | ? ? N1 N2 ]; subst.
  destruct (ep_indexed x); cbn [map snd]; [ | exact (IH names N2) ]. constructor; [ | exact (IH names N2) ]. intros I. apply N1. exact (filter_names_sub _ _ _ I).
Qed.
Section Profile.
Context (p : profile).
Definition event_items (e : Event) (inputs : list expr) (kinds : list RustSyntax.ty) (topics : list str) (init : list (str * expr)) (camel : str) (names : list str) (to_log : list expr) : list item :=
  uses ++ [
    IFn (fn_event e inputs);
    IFn (fn_filter (topic_bounds kinds) topics init);
    IFn (fn_wildcard_filter topics);
    IFn (fn_parse_log camel (combine names to_log))].
Lemma event_runs e d : derive_event p e = Ok d -> exists inputs kinds topics init names to_log,
  let items := event_items e inputs kinds topics init (to_camel_case (e_name e)) names to_log in
  event_tree e = Ok (IMod None (de_module d) items) /\ field_names (e_inputs e) = Ok names /\
  mapM (fun q => type_tree (ep_kind q)) (filter ep_indexed (e_inputs e)) = Ok kinds /\ topics = topic_names (e_inputs e) names /\ length topics = length kinds /\ forall n,
  call p (S n) items [lit "event"] [] = Done (VEvent (de_event d)) /\
  (forall args, Forall2 topic_of_type (de_topic_types d) args ->
     call p (S (S n)) items [lit "filter"] (map inj_topic args) = plainly VFilter (de_filter d args)) /\
  call p (S (S (S n))) items [lit "wildcard_filter"] [] = plainly VFilter (de_wildcard_filter d) /\
  (forall log, call p (S (S n)) items [lit "parse_log"] [VRawLog log] =
     returned (fun vs => VRecord (log_path (to_camel_case (e_name e))) (combine names (map inj vs))) (de_parse_log d log)).
Proof.
  intros D. pose proof (@derive_event_inv p e d D) as (P & Ed & Mo & Tt & Tf & (fs & Fs & Pl) & (gs & Gs & Fi & Wi)).
  pose proof (plain_no_tuples _ P) as NP. rewrite isel_indexed in Tt, Gs, Wi.
  assert (Na : exists names module camel, field_names (e_inputs e) = Ok names /\ ident (to_snake_case (e_name e)) = Ok module /\ ident (to_camel_case (e_name e)) = Ok camel /\
    event_inputs (e_inputs e) = Ok (e_inputs e) /\ declarable names = true /\ existsb (str_eqb (lit "event")) (topic_names (e_inputs e) names) = false).
  { unfold derive_event in D. apply bind_ok in D as (names & En & D). do 4 apply bind_ok in D as (? & _ & D). apply bind_ok in D as (ins & Ei & D).
    apply bind_ok in D as (ca & Ec & D). apply bind_ok in D as (m & Em & D). apply bind_ok in D as (u & Ch & _).
    apply check_ok in Ch as [ Ch _ ]. apply andb_true_iff in Ch as [ Ch _ ]. apply andb_true_iff in Ch as [ Ch _ ]. apply andb_true_iff in Ch as [ Ch X ]. apply andb_true_iff in Ch as [ _ Dc ].
    apply negb_true_iff in X. pose proof (event_inputs_ok _ Ei) as ->. exists names, m, ca. auto 12. }
  destruct Na as (names & module & camel & En & Em & Ec & Ei & Dc & Ne).
  set (topics := filter ep_indexed (e_inputs e)) in *.
  assert (PT : forallb plain_type (map ep_kind topics) = true).
  { rewrite forallb_forall in *. intros t I. apply P. apply in_map_iff in I as (q & <- & I). apply in_map. apply filter_In in I as [ I _ ]. exact I. }
  pose proof (plain_no_tuples _ PT) as NT.
  destruct (@all_exist _ _ ep_kind (fun q => from_token_tree (ep_kind q) log_next) (e_inputs e)) as [ to_log El ]; [ intros; apply from_token_tree_exists; assumption | exact NP | ].
  destruct (@all_exist _ _ ep_kind (fun q => type_tree (ep_kind q)) topics) as [ kinds Ek ]; [ intros; apply type_tree_exists; assumption | exact NT | ].
  destruct (@all_exist _ _ ep_kind event_param_tree (e_inputs e)) as [ inputs Ep ]; [ intros x _ N; unfold event_param_tree; destruct (syntax_tree_exists _ N) as [ z -> ]; eexists; reflexivity | exact NP | ].
  set (tn := topic_names (e_inputs e) names).
  assert (Ln : length names = length (e_inputs e)) by (eapply DeriveTextFacts.field_names_length; exact En).
  assert (Lt : length tn = length topics) by (apply DeriveTextFacts.topic_names_length; exact Ln).
  assert (Ft : exists init, filter_init_tree (firstn 3 (combine tn topics)) = Ok init).
  { unfold filter_init_tree, mapi. generalize 0%nat, 3%nat. intros i m. clear -NT. clearbody topics. revert i m topics NT. generalize tn. intros l. induction l as [ | n l IH ]; intros i m topics NT.
    - cbn [combine]. rewrite firstn_nil. eexists. reflexivity.
    - destruct topics as [ | q topics ]; [ cbn [combine]; rewrite firstn_nil; eexists; reflexivity | ]. destruct m as [ | m ]; [ eexists; reflexivity | ].
      cbn [combine firstn mapi_from mapM fst snd]. cbn [map forallb] in NT. apply andb_true_iff in NT as [ N1 N2 ].
      destruct (to_token_tree_exists _ N1 (name "i")) as [ z -> ]. cbn [bind]. destruct (IH (S i) m topics N2) as [ r -> ]. eexists. reflexivity. }
  destruct Ft as [ init Ef ].
  exists inputs, kinds, tn, init, names, to_log. cbn zeta. apply ident_ok in Ec as [ -> Ci ]. split.
  { unfold event_tree. fold topics. rewrite En. cbn [bind]. rewrite El. cbn [bind]. rewrite Ek. cbn [bind]. fold tn. rewrite Ef. cbn [bind]. rewrite Ep. cbn [bind]. rewrite Em. cbn [bind]. rewrite (proj2 (ident_ok _ _) (conj eq_refl Ci)). cbn [bind].
    rewrite Mo. apply ident_ok in Em as [ -> _ ]. reflexivity. }
  set (items := event_items _ _ _ _ _ _ _ _). split; [ exact En | ]. split; [ exact Ek | ]. split; [ reflexivity | ]. split; [ rewrite (DeriveTextFacts.mapM_length _ _ Ek); exact Lt | ].
  apply declarable_iff in Dc as [ ND KW ]. pose proof (@field_names_lower _ _ En) as UP.
  assert (R1 : forall n, call p (S n) items [lit "event"] [] = Done (VEvent (de_event d))).
  { intros n. change (call p (S n) items [lit "event"] []) with (run_fn p (call p n items) (fn_event e inputs) []). unfold run_fn. change (fn_correct (fn_event e inputs) && _) with true. cbn iota.
    cbn [fn_event fn_self fn_params fn_body fn_result app map combine]. set (c := call p n items).
    change (eval p c (EBlock [] ?x) []) with (obind (eval p c x []) (fun r => Done (fst r, leave [] (snd r)))).
    rewrite (@ev_struct_trailing p c _ _ [] [(lit "name", VStr (to_camel_case (e_name e))); (lit "inputs", VVec (map VEParam (e_inputs e))); (lit "anonymous", VBool (e_anonymous e))]).
    - change (struct (ethabi ["Event"%string]) _) with
        (match reads as_event_param (map VEParam (e_inputs e)) with Some i' => Done (VEvent (mkEvent (to_camel_case (e_name e)) i' (e_anonymous e))) | None => Stuck end).
      rewrite (reads_map as_event_param VEParam) by reflexivity. rewrite Ed. reflexivity.
    - repeat (constructor; [ split; [ reflexivity | ] | ]); cbn [snd]; try constructor; try reflexivity. apply (@ev_event_params p c _ _ Ep Ei). }
  assert (R2 : forall n args ts, Forall3 topic_denotes (map ep_kind topics) args ts ->
    call p (S (S n)) items [lit "filter"] (map inj_topic args) = plainly VFilter (expect_ok (event_filter p (de_event d) (raw_filter ts)))).
  { intros n args ts F. change (call p (S (S n)) items [lit "filter"] (map inj_topic args)) with (run_fn p (call p (S n) items) (fn_filter (topic_bounds kinds) tn init) (map inj_topic args)).
    set (c := call p (S n) items).
    assert (NDt : NoDup tn) by (apply filter_names_NoDup; exact ND).
    assert (Co : fn_correct (fn_filter (topic_bounds kinds) tn init) = true).
    { apply (@correct_params _ _ (topic_bounds kinds) tn [] (ethabi_ty "TopicFilter") false); [ exact NDt | | | reflexivity | reflexivity ].
      - cbn [map app]. rewrite Forall_forall in *. intros x I. apply KW. exact (filter_names_sub _ _ _ I).
      - apply topic_types_correct. rewrite <- PT. clear -Ek. apply mapM_ok in Ek. induction Ek as [ | q k l ks E _ IH ]; [ reflexivity | ]. cbn [map forallb]. rewrite (type_tree_ok _ E), IH. reflexivity. }
    assert (La : length tn = length (map inj_topic args)).
    { rewrite map_length, Lt, <- (map_length ep_kind). clear -F. induction F; cbn [List.length]; congruence. }
    unfold run_fn. rewrite Co. cbn [fn_filter fn_self fn_params fn_body fn_result app]. rewrite typed_names, La, Nat.eqb_refl. cbn [andb].
    change (map (fun x : str * val => (fst x, false, snd x)) (combine tn (map inj_topic args))) with (params_env tn (map inj_topic args)). set (s := params_env tn (map inj_topic args)).
    rewrite (@block2 p c _ _ _ _ _ s (VRaw (raw_filter ts)) s (VEvent (de_event d)) ((lit "raw", false, VRaw (raw_filter ts)) :: s)).
    - cbn [bind_name]. set (s' := _ :: _ :: s).
      erewrite ev_expecting_result with (f := VFilter) (r := event_filter p (de_event d) (raw_filter ts)) (s' := s').
      + destruct (event_filter p (de_event d) (raw_filter ts)); reflexivity.
      + erewrite ev_method with (v := VEvent (de_event d)) (vs := [VRaw (raw_filter ts)]) (s1 := s') (s2 := s'); reflexivity.
      + change (lookup s (lit "INTERNAL_ERR") = None). apply lookup_absent. intros I.
        apply (@upper_absent _ (lit "INTERNAL_ERR") UP); [ exists 73; split; [ left; reflexivity | reflexivity ] | exact (filter_names_sub _ _ _ I) ].
    - eapply ev_raw; [ exact Ef | exact Lt | exact F | ]. intros m v I. apply lookup_params; [ exact NDt | exact I ].
    - cbn [bind_name]. set (s' := _ :: s).
      change (eval p c (ECall [lit "event"] []) s') with (if match lookup s (lit "event") with Some _ => true | None => false end then Stuck else obind (c [lit "event"] []) (fun v => Done (v, s'))).
      replace (lookup s (lit "event")) with (@None (bool * val)); [ unfold c; rewrite R1; reflexivity | ]. symmetry. apply lookup_absent. intros I.
      assert (X : existsb (str_eqb (lit "event")) tn = true) by (apply existsb_exists; exists (lit "event"); split; [ exact I | reflexivity ]). unfold tn in X. congruence. }
  assert (R3 : forall args ts, Forall3 topic_denotes (map ep_kind topics) args ts -> de_filter d args = expect_ok (event_filter p (de_event d) (raw_filter ts))).
  { intros args ts F. apply (@derived_raw p e d args ts D). rewrite isel_indexed. exact F. }
  intros n. split; [ apply R1 | split; [ | split ] ].
  - intros args M. destruct (@topics_exist _ _ args Tt PT M) as [ ts F ]. rewrite (R3 _ _ F). apply R2, F.
  - assert (F : Forall3 topic_denotes (map ep_kind topics) (map (fun _ => Any) topics) (map (fun _ => Any) topics)).
    { generalize topics. intros l. induction l; cbn [map]; constructor; [ exact I | assumption ]. }
    replace (de_wildcard_filter d) with (de_filter d (map (fun _ => Any) topics)) by (rewrite Fi, Wi; reflexivity).
    rewrite (R3 _ _ F), <- (R2 n _ _ F).
    change (call p (S (S (S n))) items [lit "wildcard_filter"] []) with (run_fn p (call p (S (S n)) items) (fn_wildcard_filter tn) []).
    set (c := call p (S (S n)) items). unfold run_fn. change (fn_correct (fn_wildcard_filter tn) && _) with true. cbn iota. cbn [fn_wildcard_filter fn_self fn_params fn_body fn_result app map combine].
    set (es := map (fun _ : str => EPath (ethabi ["Topic"; "Any"]%string)) tn).
    assert (S : seqM (eval p c) es [] = Done (map inj_topic (map (fun _ => Any) topics), [])).
    { unfold es. clear -Lt. revert Lt. generalize tn, topics. intros l. induction l as [ | x l IH ]; intros [ | q t ] L; try discriminate; [ reflexivity | ]. cbn [map seqM].
      change (eval p c (EPath (ethabi ["Topic"; "Any"]%string)) []) with (@Done (val * env) (inj_topic Any, [])). cbn [obind fst snd]. rewrite (IH t) by (injection L; auto). reflexivity. }
    change (eval p c (EBlock [] (ECall [lit "filter"] es)) []) with
      (obind (obind (seqM (eval p c) es []) (fun r => obind (c [lit "filter"] (fst r)) (fun v => Done (v, snd r)))) (fun r => Done (fst r, leave [] (snd r)))).
    rewrite S. cbn [obind fst snd]. unfold c. rewrite (R2 n _ _ F). destruct (event_filter p (de_event d) _); reflexivity.
  - intros log. rewrite Pl. change (call p (S (S n)) items [lit "parse_log"] [VRawLog log]) with (run_fn p (call p (S n) items) (fn_parse_log (to_camel_case (e_name e)) (combine names to_log)) [VRawLog log]).
    set (c := call p (S n) items). unfold run_fn.
    change (fn_correct (fn_parse_log (to_camel_case (e_name e)) (combine names to_log)) && _) with true. cbn iota. cbn [fn_parse_log fn_self fn_params fn_body fn_result app map fst snd combine].
    set (s := [(lit "log", false, VRawLog log)]). set (s1 := (lit "e", false, VEvent (de_event d)) :: s).
    assert (E1 : eval p c (ECall [lit "event"] []) s = Done (VEvent (de_event d), s)).
    { change (eval p c (ECall [lit "event"] []) s) with (obind (c [lit "event"] []) (fun v => Done (v, s))). unfold c. rewrite R1. reflexivity. }
    set (ps := DeriveTree.method (EField (ETry (EMethod (name "e") (lit "parse_log") [] [name "log"])) (lit "params")) "into_iter").
    assert (E2 : eval p c ps s1 = match parse_log p (de_event d) log with Ok l => Done (VIter (map VLogParam (l_params l)), s1) | Err x => Return (VErr x) | Panic => Panics end).
    { assert (E0 : eval p c (EMethod (name "e") (lit "parse_log") [] [name "log"]) s1 = obind (returned VLog (parse_log p (de_event d) log)) (fun v => Done (v, s1))) by reflexivity.
      assert (E00 : forall x, eval p c (DeriveTree.method (EField (ETry x) (lit "params")) "into_iter") s1 =
        obind (obind (obind (eval p c x s1) (fun r => match fst r with VOk v => Done (v, snd r) | VErr x => Return (VErr x) | _ => Stuck end))
          (fun r => obind (RustEval.get (fst r) (lit "params")) (fun v => Done (v, snd r)))) (fun r => obind (RustEval.method p (fst r) (lit "into_iter") []) (fun w => Done (w, snd r)))) by reflexivity.
      unfold ps. rewrite E00, E0. destruct (parse_log p (de_event d) log); reflexivity. }
    match goal with |- match eval p c (EBlock _ (ECall ?q ?a)) s with _ => _ end = _ => set (k := ECall q a) end.
    assert (E3 : forall x, eval p c (EBlock [(Let (lit "e"), ECall [lit "event"] []); (LetMut (lit "log"), ps); (Let (lit "result"), x)] k) s =
      obind (obind (eval p c ps s1) (fun r => obind (eval p c x ((lit "log", true, fst r) :: snd r)) (fun r => eval p c k ((lit "result", false, fst r) :: snd r)))) (fun r => Done (fst r, leave s (snd r)))).
    { intros x. transitivity (obind (obind (eval p c (ECall [lit "event"] []) s) (fun r => obind (eval p c ps ((lit "e", false, fst r) :: snd r)) (fun r =>
        obind (eval p c x ((lit "log", true, fst r) :: snd r)) (fun r => eval p c k ((lit "result", false, fst r) :: snd r))))) (fun r => Done (fst r, leave s (snd r)))); [ reflexivity | ].
      rewrite E1. reflexivity. }
    rewrite E3, E2. destruct (parse_log p (de_event d) log) as [ l | x | ]; cbn [bind obind fst snd returned]; [ | reflexivity | reflexivity ].
    change ((lit "log", true, VIter (map VLogParam (l_params l))) :: s1) with (log_env (l_params l) s1).
    pose proof (@seq_log p c _ ep_kind (e_inputs e) to_log fs s1 names eq_refl P Ln El Fs (l_params l)) as Q. cbn zeta in Q.
    assert (NE : forall er, convert_all fs (map lp_value (l_params l)) <> Err er).
    { apply (@convert_all_no_err (map ep_kind (e_inputs e))); [ | exact P ]. apply mapM_ok. apply mapM_ok in Fs. clear -Fs. induction Fs; constructor; assumption. }
    cbn [eval].
    destruct (convert_all fs (map lp_value (l_params l))) as [ vs | er | ]; [ destruct Q as [ rest Q ] | exfalso; exact (NE er eq_refl) | ]; rewrite Q; reflexivity.
Qed.
End Profile.

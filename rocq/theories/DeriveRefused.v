(** * Code that the compiler would refuse *)
From Verif Require Import Base BaseFacts StrFacts Types TypeNames Tokenizer AbiSpec Function Event EventSpec Contract Heck Derive DeriveSpec DeriveFacts DeriveCalls DeriveEvents DeriveAccepts
  FilterFacts RustSyntax DeriveTree RustEval GeneratedSpec DeriveRun DeriveModules DeriveLogs DeriveGenerated.
From Verif Require DeriveText DeriveTextFacts.
From Coq Require Import String Lia.
Set Implicit Arguments.
Notation length := List.length.
Local Open Scope N_scope.
Local Open Scope list_scope.

Section Run.
Context (p : profile) (call : path -> list val -> out val).
Notation ev := (eval p call).
(** Values or nothing: neither a panic nor a return *)
Definition quiet (e : expr) (s : env) : Prop := ev e s = Stuck \/ exists v, ev e s = Done (v, s).
Lemma method_quiet v m : In m (map lit ["into"; "into_iter"; "collect"; "into_vec"; "as_ref"; "to_vec"]%string) ->
  RustEval.method p v m [] = Stuck \/ exists w, RustEval.method p v m [] = Done w.
Proof.
  intros I. cbn [map In] in I. repeat (destruct I as [ <- | I ]; [ destruct v; (left; reflexivity) || (right; eexists; reflexivity) | ]). destruct I.
Qed.
Lemma quiet_method e m ts s : In m (map lit ["into"; "into_iter"; "collect"; "into_vec"; "as_ref"; "to_vec"]%string) -> quiet e s -> quiet (EMethod e m ts []) s.
Proof.
  intros I [ E | [ v E ] ]; [ left; cbn [eval]; rewrite E; reflexivity | ]. unfold quiet. rewrite (@ev_method p call _ _ _ _ _ _ _ [] s E) by reflexivity.
  assert (M : mutating m = false) by (cbn [map In] in I; repeat (destruct I as [ <- | I ]; [ reflexivity | ]); destruct I).
  unfold invoke. rewrite M. destruct (method_quiet v I) as [ -> | [ w -> ] ]; [ left; reflexivity | right; eexists; reflexivity ].
Qed.
Lemma quiet_map e s : quiet e s -> quiet (map_into e) s.
Proof.
  intros [ E | [ v E ] ]; unfold quiet, map_into; [ left; cbn [eval]; rewrite E; reflexivity | ]. rewrite (@ev_method p call _ _ _ _ _ _ _ [VInto] s E) by reflexivity.
  unfold invoke. change (mutating (lit "map")) with false. cbn iota. destruct v; (left; reflexivity) || (right; eexists; reflexivity).
Qed.
Lemma quiet_call x y q e s : (forall v, builtin (x :: y :: q) [v] = Some Stuck \/ exists w, builtin (x :: y :: q) [v] = Some (Done w)) -> quiet e s -> quiet (ECall (x :: y :: q) [e]) s.
Proof.
  intros B [ E | [ v E ] ]; [ left; cbn [eval seqM]; rewrite E; reflexivity | ]. unfold quiet.
  destruct (B v) as [ H | [ w H ] ]; rewrite (@ev_call2 p call _ _ _ _ _ _ _ _ (@seq1 p call _ _ _ _ E) H); [ left; reflexivity | right; eexists; reflexivity ].
Qed.
Lemma quiet_template t n s : quiet (EPath [n]) s -> quiet (template_tree t n) s.
Proof.
  intros Q. destruct t; cbn [template_tree]; unfold collect_vec, DeriveTree.method; try (apply quiet_method; [ cbn; tauto | assumption ]).
  - apply quiet_method; [ cbn; tauto | ]. apply quiet_map. apply quiet_method; [ cbn; tauto | assumption ].
  - apply quiet_method; [ cbn; tauto | ]. apply quiet_map. apply quiet_method; [ cbn; tauto | ]. apply quiet_method; [ cbn; tauto | ].
    assert (X : quiet (box_new (EMethod (EPath [n]) (lit "into") [] [])) s) by (apply quiet_call; [ intros v; right; eexists; reflexivity | apply quiet_method; [ cbn; tauto | assumption ] ]).
    exact X.
Qed.
Lemma block1 x a k s : ev (EBlock [(Let x, a)] k) s = obind (obind (ev a s) (fun r => ev k ((x, false, fst r) :: snd r))) (fun r => Done (fst r, leave s (snd r))).
Proof. reflexivity. Qed.
Lemma quiet_block c e inner s : In c ["Array"; "FixedArray"]%string -> quiet e s -> (forall v, quiet inner ((lit "inner", false, v) :: s)) -> quiet (token_block c e inner) s.
Proof.
  intros C Q I. unfold token_block.
  assert (X : quiet (DeriveTree.method (EMap (DeriveTree.method e "into_iter") (lit "inner") inner) "collect") s).
  { apply quiet_method; [ cbn; tauto | ]. assert (Y : quiet (DeriveTree.method e "into_iter") s) by (apply quiet_method; [ cbn; tauto | assumption ]).
    unfold quiet. cbn [eval]. fold (ev (DeriveTree.method e "into_iter") s). destruct Y as [ -> | [ v -> ] ]; [ left; reflexivity | ]. cbn [obind fst snd].
    set (g := fun (v : val) (s : env) => obind (ev inner ((lit "inner", false, v) :: s)) (fun r => Done (fst r, leave s (snd r)))).
    assert (G : forall v, g v s = Stuck \/ exists w, g v s = Done (w, s)).
    { intros w. unfold g. destruct (I w) as [ -> | [ z -> ] ]; [ left; reflexivity | right; eexists; cbn [obind fst snd]; rewrite leave_one; reflexivity ]. }
    assert (S : forall l, seqM g l s = Stuck \/ exists ws, seqM g l s = Done (ws, s)).
    { induction l as [ | w l IH ]; [ right; eexists; reflexivity | ]. cbn [seqM]. destruct (G w) as [ -> | [ z -> ] ]; [ left; reflexivity | ]. cbn [obind fst snd].
      destruct IH as [ -> | [ zs -> ] ]; [ left; reflexivity | right; eexists; reflexivity ]. }
    change (map_val _ v s) with (map_val g v s). destruct v; try (left; reflexivity); cbn [map_val].
    - destruct (S l) as [ -> | [ zs -> ] ]; [ left; reflexivity | right; eexists; reflexivity ].
    - destruct t as [ | l | w ]; [ right; eexists; reflexivity | | ].
      + destruct (S l) as [ -> | [ zs -> ] ]; [ left; reflexivity | right; eexists; reflexivity ].
      + destruct (G w) as [ -> | [ z -> ] ]; [ left; reflexivity | right; eexists; reflexivity ]. }
  unfold quiet. rewrite block1. destruct X as [ -> | [ v -> ] ]; [ left; reflexivity | ]. cbn [obind fst snd].
  assert (Y : quiet (ECall (token c) [name "v"]) ((lit "v", false, v) :: s)).
  { apply quiet_call; [ | right; eexists; reflexivity ]. intros w. cbn [In] in C. destruct C as [ <- | [ <- | [] ] ]; destruct w; try (left; reflexivity).
    - assert (Bl : builtin (token "Array") [VVec l] = Some (match reads as_token l with Some ts => Done (VTok (TArray ts)) | None => Stuck end)) by reflexivity.
      destruct (reads as_token l); [ right; eexists; exact Bl | left; exact Bl ].
    - assert (Bl : builtin (token "FixedArray") [VVec l] = Some (match reads as_token l with Some ts => Done (VTok (TFixedArray ts)) | None => Stuck end)) by reflexivity.
      destruct (reads as_token l); [ right; eexists; exact Bl | left; exact Bl ]. }
  destruct Y as [ Y | [ w Y ] ]; rewrite Y; [ left; reflexivity | right; eexists; cbn [obind fst snd]; rewrite leave_one; reflexivity ].
Qed.
Lemma quiet_to_token t : forall e e' s, to_token_tree e t = Ok e' -> quiet e s -> quiet e' s.
Proof.
  induction t; intros e e' s T Q; cbn [to_token_tree] in T; try discriminate;
    try (injection T as <-; apply quiet_call; [ intros []; (left; reflexivity) || (right; eexists; reflexivity) | ]; unfold DeriveTree.method; repeat (apply quiet_method; [ cbn; tauto | ]); assumption).
  - destruct (to_token_tree (name "inner") t) as [ i | | ] eqn:E; try discriminate. injection T as <-. apply quiet_block; [ cbn; tauto | exact Q | ]. intros v. apply (IHt (name "inner")); [ exact E | right; exists v; reflexivity ].
  - destruct (to_token_tree (name "inner") t) as [ i | | ] eqn:E; try discriminate. injection T as <-. apply quiet_block; [ cbn; tauto | exact Q | ]. intros v. apply (IHt (name "inner")); [ exact E | right; exists v; reflexivity ].
Qed.
(** A definition of ethabi is not an argument. *)
Definition foreign (v : val) : Prop := match v with VFun _ | VCtor _ => True | _ => False end.
Lemma stuck_method e m ts args s : ev e s = Stuck -> ev (EMethod e m ts args) s = Stuck.
Proof. intros E. cbn [eval]. rewrite E. reflexivity. Qed.
Lemma stuck_argument t n e s b v : to_token_tree (template_tree t n) t = Ok e -> lookup s n = Some (b, v) -> foreign v -> ev e s = Stuck.
Proof.
  intros T L F. pose proof (@ev_name p call _ _ _ _ L) as N.
  assert (I : ev (DeriveTree.method (EPath [n]) "into") s = Done (v, s)) by (apply (@ev_method0 p call _ _ _ _ v); [ reflexivity | exact N | reflexivity ]).
  assert (C : forall q e, (forall w, foreign w -> builtin (token q) [w] = Some Stuck) -> ev e s = Done (v, s) -> ev (ECall (token q) [e]) s = Stuck).
  { intros q e0 B E. unfold token, ethabi, segments. cbn [map]. rewrite (@ev_call2 p call _ _ _ _ _ _ _ _ (@seq1 p call _ _ _ _ E) (B v F)). reflexivity. }
  assert (B : forall q e, ev (DeriveTree.method e "into_iter") s = Stuck -> forall inner, ev (token_block q e inner) s = Stuck).
  { intros q e0 E inner. unfold token_block. rewrite block1. unfold DeriveTree.method at 1. rewrite stuck_method; [ reflexivity | ]. cbn [eval]. 
    change (obind (ev (DeriveTree.method e0 "into_iter") s) (fun r => map_val (fun v s => obind (ev inner ((lit "inner", false, v) :: s)) (fun r => Done (fst r, leave s (snd r)))) (fst r) (snd r)) = Stuck). rewrite E. reflexivity. }
  destruct t; cbn [to_token_tree template_tree] in T; try discriminate; try (injection T as <-; apply C; [ intros [] []; reflexivity | exact I ]).
  - destruct (to_token_tree (name "inner") t) as [ i | | ]; try discriminate. injection T as <-. apply B. unfold DeriveTree.method, collect_vec, map_into. do 3 apply stuck_method.
    unfold DeriveTree.method. rewrite (@ev_method p call _ _ _ _ _ _ _ [] s N) by reflexivity. destruct v; destruct F; reflexivity.
  - injection T as <-. unfold token, ethabi, segments. cbn [map].
    assert (A : ev (DeriveTree.method (DeriveTree.method (EPath [n]) "into") "as_ref") s = Stuck).
    { unfold DeriveTree.method at 1. rewrite (@ev_method p call _ _ _ _ _ _ _ [] s I) by reflexivity. destruct v; destruct F; reflexivity. }
    cbn [eval seqM]. fold (ev (DeriveTree.method (DeriveTree.method (DeriveTree.method (EPath [n]) "into") "as_ref") "to_vec") s).
    unfold DeriveTree.method at 1. rewrite (@stuck_method _ _ _ _ _ A). reflexivity.
  - destruct (to_token_tree (name "inner") t) as [ i | | ]; try discriminate. injection T as <-. apply B. unfold DeriveTree.method, collect_vec, map_into. do 4 apply stuck_method.
    assert (X : ev (box_new (EMethod (EPath [n]) (lit "into") [] [])) s = Done (v, s)).
    { unfold box_new, segments. cbn [map]. rewrite (@ev_call2 p call _ _ _ _ _ _ _ (Done v) (@seq1 p call _ _ _ _ I)) by reflexivity. reflexivity. }
    rewrite (@ev_method p call _ _ _ _ _ v s [] s) by (exact X || reflexivity). destruct v; destruct F; reflexivity.
Qed.
(** One of the arguments is hidden by a definition. *)
Lemma stuck_tokenize names inputs es s b v n : tokenize_tree names inputs = Ok es -> length names = length inputs -> In n names ->
  (forall m, In m names -> exists c w, lookup s m = Some (c, w)) -> lookup s n = Some (b, v) -> foreign v -> seqM ev es s = Stuck.
Proof.
  unfold tokenize_tree. intros T Ln I A L F. apply mapM_ok in T. revert names es T Ln I A. induction inputs as [ | q inputs IH ]; intros [ | m names ] es T Ln I A; try discriminate; [ destruct I | ].
  cbn [combine] in T. inversion T as [ | ? e ? es' E T' ]; subst. cbn [fst snd] in E. cbn [seqM].
  assert (Q : quiet e s).
  { eapply quiet_to_token; [ exact E | ]. apply quiet_template. destruct (A m (or_introl eq_refl)) as (c & w & M). right. exists w. exact (@ev_name p call _ _ _ _ M). }
  destruct Q as [ Q | [ w Q ] ]; [ rewrite Q; reflexivity | ]. destruct I as [ -> | I ].
  - rewrite (@stuck_argument _ _ _ _ _ _ E L F) in Q. discriminate.
  - rewrite Q. cbn [obind fst snd]. rewrite (IH names es' T'); [ reflexivity | injection Ln; auto | exact I | intros; apply A; right; assumption ].
Qed.
End Run.

(** ** Results or panics, no errors *)
Definition firm {A} (r : res A) : Prop := r = Panic \/ exists a, r = Ok a.
Lemma firm_bind A B (r : res A) (f : A -> res B) : firm r -> (forall a, firm (f a)) -> firm (bind r f).
Proof. intros [ -> | [ a -> ] ] F; [ left; reflexivity | exact (F a) ]. Qed.
Lemma firm_ok A (a : A) : firm (Ok a). Proof. right. eauto. Qed.
Lemma firm_mapM A B (f : A -> res B) l : (forall x, firm (f x)) -> firm (mapM f l).
Proof. intros F. induction l as [ | x l IH ]; [ apply firm_ok | ]. cbn [mapM]. apply firm_bind; [ apply F | intros a; apply firm_bind; [ exact IH | intros; apply firm_ok ] ]. Qed.
Lemma firm_mapM_in A B (f : A -> res B) l : (forall x, In x l -> firm (f x)) -> firm (mapM f l).
Proof.
  induction l as [ | x l IH ]; intros F; [ apply firm_ok | ]. cbn [mapM]. apply firm_bind; [ apply F; left; reflexivity | ]. intros a. apply firm_bind; [ | intros; apply firm_ok ].
  apply IH. intros; apply F; right; assumption.
Qed.
Lemma firm_ident s : firm (ident s).
Proof. unfold ident. destruct s; [ left; reflexivity | ]. destruct (_ && _); [ apply firm_ok | left; reflexivity ]. Qed.
Lemma firm_mapi A B (f : nat -> A -> res B) l : (forall i x, firm (f i x)) -> firm (mapM (fun r => r) (mapi f l)).
Proof.
  intros F. unfold mapi. generalize 0%nat. induction l as [ | x l IH ]; intros i; [ apply firm_ok | ]. cbn [mapi_from mapM]. apply firm_bind; [ apply F | intros a; apply firm_bind; [ apply IH | intros; apply firm_ok ] ].
Qed.
Lemma firm_names l : firm (input_names l).
Proof. apply firm_mapi. intros i x. destruct (p_name x); apply firm_ident. Qed.
Lemma firm_fields l : firm (field_names l).
Proof. apply firm_mapi. intros i x. destruct (ep_name x); apply firm_ident. Qed.
Ltac firm_types := let t := fresh in intros t; induction t using ParamType_ind'; cbn; try apply firm_ok; try (left; reflexivity); try (apply firm_bind; [ assumption | intros; apply firm_ok ]).
Lemma firm_rust : forall t, firm (rust_type t). Proof. firm_types. Qed.
Lemma firm_type : forall t, firm (type_tree t). Proof. firm_types. Qed.
Lemma firm_template t : firm (template_param_type t).
Proof. destruct t; cbn [template_param_type]; apply firm_bind; try apply firm_rust; intros; apply firm_ok. Qed.
Lemma firm_bound t i : firm (bound_tree t i).
Proof. destruct t; cbn [bound_tree]; apply firm_bind; try apply firm_type; intros; apply firm_ok. Qed.
Lemma type_tree_tuple t y : type_tree t = Ok y -> no_tuple t = true.
Proof.
  revert y. induction t using ParamType_ind'; intros y E; cbn [type_tree no_tuple] in *; try reflexivity; try discriminate; apply bind_ok in E as (z & E & _); eapply IHt; exact E.
Qed.
Lemma bound_tree_tuple t i y : bound_tree t i = Ok y -> no_tuple t = true.
Proof. destruct t; cbn [bound_tree]; intros E; apply bind_ok in E as (z & E & _); apply type_tree_tuple in E; exact E. Qed.
Lemma template_tuple t y : template_param_type t = Ok y -> no_tuple t = true.
Proof. destruct t; cbn [template_param_type]; intros E; apply bind_ok in E as (z & E & _); pose proof (proj1 (rust_type_ok _) (ex_intro _ z E)) as N; exact N. Qed.
Lemma all_tuple A B (k : A -> ParamType) (g : A -> res B) l r : (forall x y, g x = Ok y -> no_tuple (k x) = true) -> mapM g l = Ok r -> forallb no_tuple (map k l) = true.
Proof. intros H E. apply mapM_ok in E. induction E as [ | x y l r E _ IH ]; [ reflexivity | ]. cbn [map forallb]. rewrite (H _ _ E). exact IH. Qed.
Lemma bounds_panic inputs : forallb no_tuple (map p_kind inputs) = false -> bounds_tree inputs = Panic.
Proof.
  intros N. destruct (@firm_mapi _ _ (fun index param => bound_tree (p_kind param) index) inputs) as [ E | [ r E ] ]; [ intros; apply firm_bound | unfold bounds_tree; rewrite E; reflexivity | exfalso ].
  assert (X : forallb no_tuple (map p_kind inputs) = true); [ | congruence ]. clear N. unfold mapi in E. revert r E. generalize 0%nat. induction inputs as [ | q inputs IH ]; intros i r E; [ reflexivity | ].
  cbn [mapi_from mapM] in E. apply bind_ok in E as (b & Eb & E). apply bind_ok in E as (r' & Er & _). cbn [map forallb]. rewrite (bound_tree_tuple _ _ Eb). exact (IH _ _ Er).
Qed.
Lemma templates_panic inputs : forallb no_tuple (map p_kind inputs) = false -> mapM (fun q => template_param_type (p_kind q)) inputs = Panic.
Proof.
  intros N. destruct (@firm_mapM _ _ (fun q => template_param_type (p_kind q)) inputs) as [ E | [ r E ] ]; [ intros; apply firm_template | exact E | ].
  rewrite (@all_tuple _ _ p_kind (fun q => template_param_type (p_kind q)) _ _ (fun x y H => template_tuple _ H) E) in N. discriminate.
Qed.
Lemma rusts_panic A (k : A -> ParamType) l : forallb no_tuple (map k l) = false -> mapM (fun q => rust_type (k q)) l = Panic.
Proof.
  intros N. destruct (@firm_mapM _ _ (fun q => rust_type (k q)) l) as [ E | [ r E ] ]; [ intros; apply firm_rust | exact E | ].
  rewrite (@all_tuple _ _ k (fun q => rust_type (k q)) _ _ (fun x y H => proj1 (rust_type_ok _) (ex_intro _ y H)) E) in N. discriminate.
Qed.
Lemma types_panic A (k : A -> ParamType) l : forallb no_tuple (map k l) = false -> mapM (fun q => type_tree (k q)) l = Panic.
Proof.
  intros N. destruct (@firm_mapM _ _ (fun q => type_tree (k q)) l) as [ E | [ r E ] ]; [ intros; apply firm_type | exact E | ].
  rewrite (@all_tuple _ _ k (fun q => type_tree (k q)) _ _ (fun x y H => type_tree_tuple _ H) E) in N. discriminate.
Qed.
Lemma output_panic outputs : forallb no_tuple (map p_kind outputs) = false -> output_tree outputs = Panic.
Proof.
  intros N. pose proof (@types_panic _ p_kind _ N) as E. unfold output_tree. destruct outputs as [ | x [ | y l ] ]; [ discriminate | | rewrite E; reflexivity ].
  cbn [mapM] in E. destruct (type_tree (p_kind x)); [ discriminate | discriminate | reflexivity ].
Qed.
Lemma tokenize_tree_firm names inputs : forallb no_tuple (map p_kind inputs) = true -> exists es, tokenize_tree names inputs = Ok es.
Proof. apply tokenize_tree_exists. Qed.

(** ** Functions and constructors *)
Lemma run_incorrect p c f args : fn_correct f = false -> run_fn p c f args = Stuck.
Proof. intros H. unfold run_fn. rewrite H. reflexivity. Qed.
Lemma incorrect_names f : declarable (map fst (fn_params f)) = false -> fn_correct f = false.
Proof. unfold declarable, fn_correct. intros ->. reflexivity. Qed.
Lemma incorrect_generics f l : fn_generics f = Some l -> forallb generic_types l = false -> fn_correct f = false.
Proof. unfold fn_correct. intros -> ->. rewrite andb_false_r. reflexivity. Qed.
Lemma incorrect_result f : is_type (fn_ret f) = false -> fn_correct f = false.
Proof. unfold fn_correct. intros ->. apply andb_false_r. Qed.
Lemma lookup_exists names vals n : length names = length vals -> In n names -> exists v, lookup (params_env names vals) n = Some (false, v).
Proof.
  unfold params_env. revert vals. induction names as [ | m names IH ]; intros [ | v vals ] L I; try discriminate; [ destruct I | ]. cbn [combine map lookup fst snd].
  destruct (str_eqb n m) eqn:E; [ eauto | ]. destruct I as [ <- | I ]; [ rewrite str_eqb_refl in E; discriminate | ]. apply IH; [ injection L; auto | exact I ].
Qed.
Lemma output_not_type outputs y : output_tree outputs = Ok y -> forallb plain_type (map p_kind outputs) = false -> is_type y = false.
Proof.
  unfold output_tree. intros E P. destruct outputs as [ | x [ | x' l ] ]; [ discriminate | | ].
  - cbn [map forallb] in P. rewrite andb_true_r in P. rewrite <- P. apply type_tree_ok. exact E.
  - apply bind_ok in E as (ys & M & E). injection E as <-. cbn [is_type]. rewrite <- P. apply mapM_ok in M. clear P. induction M as [ | a b r r' H _ IH ]; [ reflexivity | ].
    cbn [map forallb]. rewrite (type_tree_ok _ H), IH. reflexivity.
Qed.
Lemma NoDup_cons_false (x : str) l : ~ In x l -> NoDup l -> NoDup (x :: l). Proof. now constructor. Qed.
Lemma in_decidable (x : str) l : In x l \/ ~ In x l.
Proof. destruct (in_dec (list_eq_dec N.eq_dec) x l); auto. Qed.

Section Refused.
Context (p : profile).
Lemma function_inv f i : function_tree f = Ok i -> exists inputs outputs result body bounds names tokenize,
  i = IMod None (to_snake_case (f_name f)) (function_items f inputs outputs result body bounds names tokenize) /\ identifier (to_snake_case (f_name f)) /\
  input_names (f_inputs f) = Ok names /\ bounds_tree (f_inputs f) = Ok bounds /\ tokenize_tree names (f_inputs f) = Ok tokenize /\ output_tree (f_outputs f) = Ok result /\
  params_tree (f_inputs f) = Ok inputs /\ params_tree (f_outputs f) = Ok outputs /\
  forallb no_tuple (map p_kind (f_inputs f)) = true /\ forallb no_tuple (map p_kind (f_outputs f)) = true.
Proof.
  unfold function_tree. intros E. apply bind_ok in E as (names & En & E). apply bind_ok in E as (bounds & Eb & E). apply bind_ok in E as (kinds & Ek & E). apply bind_ok in E as (tokenize & Et & E).
  apply bind_ok in E as (result & Er & E). apply bind_ok in E as (body & Eo & E). apply bind_ok in E as (inputs & Ei & E). apply bind_ok in E as (outputs & Eu & E). apply bind_ok in E as (m & Em & E).
  injection E as <-. apply ident_ok in Em as [ -> Im ]. exists inputs, outputs, result, body, bounds, names, tokenize. repeat split; try assumption.
  - exact (@all_tuple _ _ p_kind (fun q => type_tree (p_kind q)) _ _ (fun x y H => type_tree_tuple _ H) Ek).
  - destruct (forallb no_tuple (map p_kind (f_outputs f))) eqn:N; [ reflexivity | ]. rewrite (output_panic _ N) in Er. discriminate.
Qed.
(** The body of [encode_input] with a parameter called [function] or [f] *)
Lemma stuck_encoding c tokenize inputs names k vals F : tokenize_tree names inputs = Ok tokenize -> length names = length inputs -> length names = length vals ->
  (forall args, c [lit "function"] args = Stuck \/ c [lit "function"] args = Done (VFun F)) -> In (lit "function") names \/ In (lit "f") names ->
  eval p c (EBlock (encoding tokenize) k) (params_env names vals) = Stuck.
Proof.
  intros T Ln Lv C I. set (s := params_env names vals).
  assert (X : eval p c (ECall [lit "function"] []) s = match lookup s (lit "function") with Some _ => Stuck | None => obind (c [lit "function"] []) (fun v => Done (v, s)) end) by (cbn [eval seqM obind fst snd]; destruct (lookup s (lit "function")); reflexivity).
  change (eval p c (EBlock (encoding tokenize) k) s) with
    (obind (obind (eval p c (ECall [lit "function"] []) s) (fun r =>
       obind (eval p c (EVec tokenize) ((lit "f", false, fst r) :: snd r)) (fun r' => eval p c k ((lit "tokens", false, fst r') :: snd r')))) (fun r => Done (fst r, leave s (snd r)))).
  rewrite X. destruct I as [ I | I ].
  - destruct (@lookup_exists names vals _ Lv I) as [ v L ]. fold s in L. rewrite L. reflexivity.
  - destruct (lookup s (lit "function")); [ reflexivity | ]. destruct (C []) as [ -> | -> ]; [ reflexivity | ]. cbn [obind fst snd].
    change (eval p c (EVec tokenize) ?z) with (obind (seqM (eval p c) tokenize z) (fun r => Done (VVec (fst r), snd r))).
    erewrite (@stuck_tokenize p c names inputs tokenize ((lit "f", false, VFun F) :: s) false (VFun F) (lit "f")); [ reflexivity | exact T | exact Ln | exact I | | reflexivity | exact Logic.I ].
    intros m J. cbn [lookup]. destruct (str_eqb m (lit "f")); [ eauto | ]. destruct (@lookup_exists names vals _ Lv J) as [ v L ]. eauto.
Qed.
Lemma function_refused f i : function_tree f = Ok i -> (exists d, derive_function p f = Ok d) \/ refused_function p i.
Proof.
  intros E. destruct (function_inv _ E) as (inputs & outputs & result & body & bounds & names & tokenize & -> & Im & En & Eb & Et & Er & Ei & Eo & Ni & No).
  set (items := function_items f inputs outputs result body bounds names tokenize).
  destruct (forallb argument_type (map p_kind (f_inputs f))) eqn:A.
  2:{ right. exists (to_snake_case (f_name f)), items. split; [ reflexivity | right; left ]. intros [ | n ] args; [ reflexivity | ].
      change (call p (S n) items [lit "encode_input"] args) with (run_fn p (call p n items) (fn_encode_input bounds names tokenize) args). apply run_incorrect.
      eapply incorrect_generics; [ reflexivity | ]. rewrite (bounds_tree_ok _ Eb). exact A. }
  destruct (forallb plain_type (map p_kind (f_outputs f))) eqn:P.
  2:{ right. exists (to_snake_case (f_name f)), items. split; [ reflexivity | right; right ]. intros [ | n ] args; [ reflexivity | ].
      change (call p (S n) items [lit "decode_output"] args) with (run_fn p (call p n items) (fn_decode_output result) args). apply run_incorrect.
      apply incorrect_result. cbn [fn_decode_output fn_ret is_type forallb]. rewrite (output_not_type _ Er P). reflexivity. }
  destruct (keyword (to_snake_case (f_name f))) eqn:K; [ right; exists (to_snake_case (f_name f)), items; split; [ reflexivity | left; apply keyword_iff; exact K ] | ].
  destruct (declarable names) eqn:D.
  2:{ right. exists (to_snake_case (f_name f)), items. split; [ reflexivity | right; left ]. intros [ | n ] args; [ reflexivity | ].
      change (call p (S n) items [lit "encode_input"] args) with (run_fn p (call p n items) (fn_encode_input bounds names tokenize) args). apply run_incorrect.
      apply incorrect_names. cbn [fn_encode_input fn_params]. rewrite typed_names. exact D. }
  pose proof (DeriveTextFacts.input_names_length _ En) as Ln. apply input_names_iff in En as [ N I ]. apply declarable_iff in D as [ ND KW ].
  destruct (in_decidable (lit "function") names) as [ J | J ]; [ | destruct (in_decidable (lit "f") names) as [ J' | J' ] ].
  3:{ left. apply function_exact. split; [ exact A | split; [ exact P | split ] ].
      - exists names. split; [ exact N | split; [ now apply usable_all | ] ]. constructor; [ | constructor; assumption ]. intros [ X | X ]; [ discriminate | contradiction ].
      - split; [ exact Im | ]. intros X. apply keyword_iff in X. congruence. }
  all: right; exists (to_snake_case (f_name f)), items; split; [ reflexivity | right; left ]; intros [ | n ] args; [ reflexivity | ];
    change (call p (S n) items [lit "encode_input"] args) with (run_fn p (call p n items) (fn_encode_input bounds names tokenize) args); unfold run_fn;
    cbn [fn_encode_input fn_self fn_params fn_body fn_result app]; rewrite typed_names;
    match goal with |- (if ?a && ?b then _ else _) = _ => destruct a; [ | reflexivity ]; destruct b eqn:Lb; [ | reflexivity ] end; cbn [andb]; apply Nat.eqb_eq in Lb;
    fold (params_env names args); erewrite stuck_encoding; [ reflexivity | exact Et | exact Ln | exact Lb | | auto ];
    (intros args'; destruct n as [ | n ]; [ left; reflexivity | ]; change (call p (S n) items [lit "function"] args') with (run_fn p (call p n items) (fn_function f inputs outputs) args');
     destruct args' as [ | ? ? ]; [ right; apply (@run_function p (call p n items) f inputs outputs Ei Eo Ni No) | left; reflexivity ]).
Qed.
Lemma constructor_inv k i : constructor_tree k = Ok i -> exists bounds names inputs tokenize,
  i = IFn (fn_constructor bounds names inputs tokenize) /\ input_names (k_inputs k) = Ok names /\ bounds_tree (k_inputs k) = Ok bounds /\ tokenize_tree names (k_inputs k) = Ok tokenize /\
  params_tree (k_inputs k) = Ok inputs /\ forallb no_tuple (map p_kind (k_inputs k)) = true.
Proof.
  unfold constructor_tree. intros E. apply bind_ok in E as (names & En & E). apply bind_ok in E as (bounds & Eb & E). apply bind_ok in E as (kinds & Ek & E). apply bind_ok in E as (tokenize & Et & E).
  apply bind_ok in E as (inputs & Ei & E). injection E as <-. exists bounds, names, inputs, tokenize. repeat split; try assumption.
  exact (@all_tuple _ _ p_kind (fun q => type_tree (p_kind q)) _ _ (fun x y H => type_tree_tuple _ H) Ek).
Qed.
Lemma constructor_refused k i : constructor_tree k = Ok i -> (exists d, derive_constructor p k = Ok d) \/ refused_constructor p i.
Proof.
  intros E. destruct (constructor_inv _ E) as (bounds & names & inputs & tokenize & -> & En & Eb & Et & Ei & Ni). set (item := IFn (fn_constructor bounds names inputs tokenize)).
  destruct (forallb argument_type (map p_kind (k_inputs k))) eqn:A.
  2:{ right. intros [ | n ] args; [ reflexivity | ]. change (call p (S n) [item] [lit "constructor"] args) with (run_fn p (call p n [item]) (fn_constructor bounds names inputs tokenize) args).
      apply run_incorrect. eapply incorrect_generics; [ reflexivity | ]. rewrite (bounds_tree_ok _ Eb). exact A. }
  destruct (declarable (lit "code" :: names)) eqn:D.
  2:{ right. intros [ | n ] args; [ reflexivity | ]. change (call p (S n) [item] [lit "constructor"] args) with (run_fn p (call p n [item]) (fn_constructor bounds names inputs tokenize) args).
      apply run_incorrect. apply incorrect_names. cbn [fn_constructor fn_params map fst]. rewrite typed_names. exact D. }
  pose proof (DeriveTextFacts.input_names_length _ En) as Ln. pose proof (@input_names_lower _ _ En) as UP. apply input_names_iff in En as [ N I ]. apply declarable_iff in D as [ ND KW ].
  destruct (in_decidable (lit "c") names) as [ J | J ].
  2:{ left. apply constructor_exact. split; [ exact A | ]. exists names. split; [ exact N | ]. inversion KW; subst. split; [ now apply usable_all | ]. constructor; [ | exact ND ].
      intros [ X | X ]; [ discriminate | contradiction ]. }
  right. intros [ | n ] args; [ reflexivity | ]. change (call p (S n) [item] [lit "constructor"] args) with (run_fn p (call p n [item]) (fn_constructor bounds names inputs tokenize) args).
  set (c := call p n [item]). unfold run_fn. cbn [fn_constructor fn_self fn_params fn_body fn_result app map fst]. rewrite typed_names.
  match goal with |- (if ?a && ?b then _ else _) = _ => destruct a; [ | reflexivity ]; destruct b eqn:Lb; [ | reflexivity ] end. cbn [andb]. apply Nat.eqb_eq in Lb.
  destruct args as [ | code args ]; [ discriminate | ]. cbn [List.length] in Lb. injection Lb as Lb.
  change (map (fun x : str * val => (fst x, false, snd x)) (combine (lit "code" :: names) (code :: args))) with ((lit "code", false, code) :: params_env names args).
  set (s := (lit "code", false, code) :: params_env names args).
  match goal with |- context [eval p c (EBlock [(Let ?x, ?a); (Let ?y, ?b)] ?k) s] => change (eval p c (EBlock [(Let x, a); (Let y, b)] k) s) with
    (obind (obind (eval p c a s) (fun r => obind (eval p c b ((x, false, fst r) :: snd r)) (fun r' => eval p c k ((y, false, fst r') :: snd r')))) (fun r => Done (fst r, leave s (snd r)))) end.
  pose proof (proj2 (DeriveCalls.param_vec_ok _ _) (conj eq_refl Ni)) as Vi.
  assert (Ct : eval p c (EStructTrailing (ethabi ["Constructor"%string]) [(lit "inputs", inputs)]) s = Done (VCtor (mkConstructor (map strip (k_inputs k))), s)).
  { rewrite (@ev_struct_trailing p c _ _ s [(lit "inputs", VVec (map VParam (map strip (k_inputs k))))]).
    - change (struct (ethabi ["Constructor"%string]) _) with
        (match reads as_param (map VParam (map strip (k_inputs k))) with Some i' => Done (VCtor (mkConstructor i')) | None => Stuck end).
      rewrite (reads_map as_param VParam) by reflexivity. reflexivity.
    - constructor; [ split; [ reflexivity | ] | constructor ]. cbn [snd]. apply (@ev_params p c _ _ _ Ei Vi).
      unfold s. cbn [lookup]. change (str_eqb _ (lit "code")) with false. cbn iota. apply lookup_absent. apply (@upper_absent _ _ UP). exists 78. split; [ left; reflexivity | reflexivity ]. }
  rewrite Ct. cbn [obind fst snd]. set (C := mkConstructor _).
  change (eval p c (EVec tokenize) ?z) with (obind (seqM (eval p c) tokenize z) (fun r => Done (VVec (fst r), snd r))).
  erewrite (@stuck_tokenize p c names (k_inputs k) tokenize ((lit "c", false, VCtor C) :: s) false (VCtor C) (lit "c")); [ reflexivity | exact Et | exact Ln | exact J | | reflexivity | exact Logic.I ].
  intros m Im. unfold s. cbn [lookup]. destruct (str_eqb m (lit "c")); [ eauto | ]. destruct (str_eqb m (lit "code")); [ eauto | ]. destruct (@lookup_exists names args _ Lb Im) as [ v L ]. eauto.
Qed.

(** ** Events *)
Lemma quiet_emap c e x body s : quiet p c e s -> (forall v, quiet p c body ((x, false, v) :: s)) -> quiet p c (EMap e x body) s.
Proof.
  intros Q I. unfold quiet. set (g := fun (v : val) (s : env) => obind (eval p c body ((x, false, v) :: s)) (fun r => Done (fst r, leave s (snd r)))).
  change (eval p c (EMap e x body) s) with (obind (eval p c e s) (fun r => map_val g (fst r) (snd r))).
  assert (G : forall v, g v s = Stuck \/ exists w, g v s = Done (w, s)).
  { intros w. unfold g. destruct (I w) as [ -> | [ z -> ] ]; [ left; reflexivity | right; eexists; cbn [obind fst snd]; rewrite leave_one; reflexivity ]. }
  assert (S : forall l, seqM g l s = Stuck \/ exists ws, seqM g l s = Done (ws, s)).
  { induction l as [ | w l IH ]; [ right; eexists; reflexivity | ]. cbn [seqM]. destruct (G w) as [ -> | [ z -> ] ]; [ left; reflexivity | ]. cbn [obind fst snd].
    destruct IH as [ -> | [ zs -> ] ]; [ left; reflexivity | right; eexists; reflexivity ]. }
  destruct Q as [ -> | [ v -> ] ]; [ left; reflexivity | ]. cbn [obind fst snd]. destruct v; try (left; reflexivity); cbn [map_val].
  - destruct (S l) as [ -> | [ zs -> ] ]; [ left; reflexivity | right; eexists; reflexivity ].
  - destruct t as [ | l | w ]; [ right; eexists; reflexivity | | ].
    + destruct (S l) as [ -> | [ zs -> ] ]; [ left; reflexivity | right; eexists; reflexivity ].
    + destruct (G w) as [ -> | [ z -> ] ]; [ left; reflexivity | right; eexists; reflexivity ].
Qed.
Lemma quiet_default c q base l s : (forall x e, In (x, e) l -> quiet p c e s) -> quiet p c (EStructDefault q l base) s.
Proof.
  intros H. unfold quiet. set (g := fun (x : str * expr) s => obind (eval p c (snd x) s) (fun r => Done ((fst x, fst r), snd r))).
  change (eval p c (EStructDefault q l base) s) with (obind (seqM g l s) (fun r => obind (with_default q base (fst r)) (fun v => Done (v, snd r)))).
  assert (S : seqM g l s = Stuck \/ exists ws, seqM g l s = Done (ws, s)).
  { induction l as [ | [ x e ] l IH ]; [ right; eexists; reflexivity | ]. cbn [seqM]. unfold g at 1 3. cbn [fst snd]. destruct (H x e (or_introl eq_refl)) as [ -> | [ z -> ] ]; [ left; reflexivity | ]. cbn [obind fst snd].
    destruct IH as [ -> | [ zs -> ] ]; [ intros; apply (H x0); right; assumption | left; reflexivity | right; eexists; reflexivity ]. }
  destruct S as [ -> | [ ws -> ] ]; [ left; reflexivity | ]. cbn [obind fst snd]. unfold with_default. destruct (_ && _); [ | left; reflexivity ].
  repeat match goal with |- context [match ?o with Some _ => _ | None => _ end] => destruct o end; (left; reflexivity) || (right; eexists; reflexivity).
Qed.
Lemma filter_init_in topics init x e : filter_init_tree topics = Ok init -> In (x, e) init ->
  exists n q t, In (n, q) topics /\ to_token_tree (name "i") (ep_kind q) = Ok t /\ e = EMap (DeriveTree.method (EPath [n]) "into") (lit "i") t.
Proof.
  unfold filter_init_tree, mapi. generalize 0%nat. revert init. induction topics as [ | [ n q ] topics IH ]; intros init i E I; cbn [mapi_from mapM] in E; [ injection E as <-; destruct I | ].
  apply bind_ok in E as (y & Ey & E). apply bind_ok in E as (ys & Eys & E). injection E as <-. cbn [fst snd] in Ey. apply bind_ok in Ey as (t & Et & Ey). injection Ey as <-.
  destruct I as [ I | I ]; [ injection I as _ <-; exists n, q, t; auto using in_eq | ]. destruct (IH _ _ Eys I) as (n' & q' & t' & J & T). exists n', q', t'. split; [ right; exact J | exact T ].
Qed.
Lemma event_inv e i j : event_tree e = Ok i -> log_tree e = Ok j -> exists inputs kinds init names to_log types,
  let topics := topic_names (e_inputs e) names in
  i = IMod None (to_snake_case (e_name e)) (event_items e inputs kinds topics init (to_camel_case (e_name e)) names to_log) /\ identifier (to_snake_case (e_name e)) /\
  j = IStruct (segments ["Debug"; "Clone"; "PartialEq"]%string) (to_camel_case (e_name e)) (combine names types) /\ identifier (to_camel_case (e_name e)) /\
  field_names (e_inputs e) = Ok names /\ mapM (fun q => type_tree (ep_kind q)) (e_inputs e) = Ok types /\ mapM event_param_tree (e_inputs e) = Ok inputs /\
  filter_init_tree (firstn 3 (combine topics (filter ep_indexed (e_inputs e)))) = Ok init /\ length names = length (e_inputs e) /\ length types = length (e_inputs e).
Proof.
  unfold event_tree, log_tree. intros E L. apply bind_ok in E as (names & En & E). rewrite En in L. cbn [bind] in L. apply bind_ok in L as (types & Et & L). apply bind_ok in L as (camel & Ec & L). injection L as <-.
  apply bind_ok in E as (to_log & El & E). apply bind_ok in E as (kinds & Ek & E). apply bind_ok in E as (init & Ef & E). apply bind_ok in E as (inputs & Ei & E).
  apply bind_ok in E as (m & Em & E). rewrite Ec in E. cbn [bind] in E. injection E as <-. apply ident_ok in Em as [ -> Im ], Ec as [ -> Ic ].
  exists inputs, kinds, init, names, to_log, types. cbn zeta. repeat split; try assumption; [ exact (DeriveTextFacts.field_names_length _ En) | exact (DeriveTextFacts.mapM_length _ _ Et) ].
Qed.
Lemma event_refused e i j : event_tree e = Ok i -> log_tree e = Ok j -> (exists d, derive_event p e = Ok d) \/ refused_event p i \/ refused_struct j.
Proof.
  intros E L. destruct (event_inv _ E L) as (inputs & kinds & init & names & to_log & types & X). cbn zeta in X. set (topics := topic_names (e_inputs e) names) in *.
  destruct X as (-> & Im & -> & Ic & En & Et & Ei & Ef & Ln & Lt). set (items := event_items _ _ _ _ _ _ _ _).
  assert (Fn : map fst (combine names types) = names) by (clear -Ln Lt; rewrite <- Lt in Ln; clear Lt; revert types Ln; induction names as [ | n l IH ]; intros [ | t ts ] L; try discriminate; [ reflexivity | cbn; rewrite IH; [ reflexivity | injection L; auto ] ]).
  assert (Ft : map snd (combine names types) = types) by (clear -Ln Lt; rewrite <- Lt in Ln; clear Lt; revert types Ln; induction names as [ | n l IH ]; intros [ | t ts ] L; try discriminate; [ reflexivity | cbn; rewrite IH; [ reflexivity | injection L; auto ] ]).
  assert (R : forall P : Prop, (In (to_camel_case (e_name e)) reserved_words \/ ~ NoDup names \/ Exists (fun y => In y reserved_words) names \/ Exists (fun t => is_type t = false) types) ->
    P \/ refused_event p (IMod None (to_snake_case (e_name e)) items) \/ refused_struct (IStruct (segments ["Debug"; "Clone"; "PartialEq"]%string) (to_camel_case (e_name e)) (combine names types))).
  { intros P H. right. right. exists (segments ["Debug"; "Clone"; "PartialEq"]%string), (to_camel_case (e_name e)), (combine names types). rewrite Fn, Ft. split; [ reflexivity | exact H ]. }
  destruct (forallb plain_type (map ep_kind (e_inputs e))) eqn:P.
  2:{ apply R. right. right. right. apply mapM_ok in Et. clear -P Et. induction Et as [ | q t l ts H _ IH ]; [ discriminate | ]. cbn [map forallb] in P. apply type_tree_ok in H.
      destruct (plain_type (ep_kind q)); [ right; apply IH; exact P | left; exact H ]. }
  destruct (keyword (to_camel_case (e_name e))) eqn:K; [ apply R; left; apply keyword_iff; exact K | ].
  destruct (distinct names) eqn:Di; [ apply distinct_NoDup in Di | apply R; right; left; intros ND; apply distinct_NoDup in ND; congruence ].
  destruct (existsb keyword names) eqn:Kn; [ apply R; right; right; left; apply existsb_exists in Kn as (x & J & H); apply Exists_exists; exists x; split; [ exact J | apply keyword_iff; exact H ] | ].
  destruct (keyword (to_snake_case (e_name e))) eqn:Km; [ right; left; exists (to_snake_case (e_name e)), items; split; [ reflexivity | left; apply keyword_iff; exact Km ] | ].
  destruct (in_decidable (lit "event") topics) as [ J | J ].
  2:{ left. apply event_exact. apply field_names_iff in En as [ N I ]. split; [ exact P | ]. split; [ | split; (split; [ assumption | intros X; apply keyword_iff in X; congruence ]) ].
      exists names. split; [ exact N | ]. split; [ apply usable_all; [ exact I | ] | ].
      - apply Forall_forall. intros x H X. apply keyword_iff in X. assert (existsb keyword names = true); [ apply existsb_exists; eauto | congruence ].
      - split; [ exact Di | ]. intros k x Hx Ix Hn. apply J. apply topic_names_iff; [ exact Ln | eauto ]. }
  right. left. exists (to_snake_case (e_name e)), items. split; [ reflexivity | right ]. intros [ | n ] args; [ reflexivity | ].
  change (call p (S n) items [lit "filter"] args) with (run_fn p (call p n items) (fn_filter (topic_bounds kinds) topics init) args). set (c := call p n items).
  unfold run_fn. cbn [fn_filter fn_self fn_params fn_body fn_result app]. rewrite typed_names.
  match goal with |- (if ?a && ?b then _ else _) = _ => destruct a; [ | reflexivity ]; destruct b eqn:Lb; [ | reflexivity ] end. cbn [andb]. apply Nat.eqb_eq in Lb.
  fold (params_env topics args). set (s := params_env topics args).
  match goal with |- context [eval p c (EBlock [(Let ?x, ?a); (Let ?y, ?b)] ?k) s] => change (eval p c (EBlock [(Let x, a); (Let y, b)] k) s) with
    (obind (obind (eval p c a s) (fun r => obind (eval p c b ((x, false, fst r) :: snd r)) (fun r' => eval p c k ((y, false, fst r') :: snd r')))) (fun r => Done (fst r, leave s (snd r)))) end.
  assert (Q : quiet p c (EStructDefault (ethabi ["RawTopicFilter"%string]) init (segments ["Default"; "default"]%string)) s).
  { apply quiet_default. intros x y Iy. destruct (@filter_init_in _ _ _ _ Ef Iy) as (m & q & t & Im' & Tt & ->). apply quiet_emap.
    - apply quiet_method; [ cbn; tauto | ]. assert (In m topics) as Hm by (apply (in_combine_l _ (filter ep_indexed (e_inputs e)) m q); rewrite <- (firstn_skipn 3 (combine topics _)); apply in_app_iff; left; exact Im').
      destruct (@lookup_exists topics args _ Lb Hm) as [ v Lv ]. right. exists v. exact (@ev_name p c _ _ _ _ Lv).
    - intros v. eapply quiet_to_token; [ exact Tt | ]. right. exists v. reflexivity. }
  destruct Q as [ -> | [ v -> ] ]; [ reflexivity | ]. cbn [obind fst snd].
  assert (H : eval p c (ECall [lit "event"] []) ((lit "raw", false, v) :: s) = Stuck).
  { destruct (@lookup_exists topics args _ Lb J) as [ w Lw ]. fold s in Lw. cbn [eval seqM obind fst snd lookup]. change (str_eqb (lit "event") (lit "raw")) with false. cbn iota. rewrite Lw. reflexivity. }
  rewrite H. reflexivity.
Qed.
End Refused.

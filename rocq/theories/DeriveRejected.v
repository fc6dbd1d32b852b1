(** * Which of the generated texts the parser of RustParse.v reads *)
From Verif Require Import Base BaseFacts StrFacts Types AbiSpec Function Event EventSpec Contract Heck HeckFacts Derive DeriveSpec DeriveAccepts RustSyntax DeriveText DeriveTextFacts DeriveTree
  DeriveCalls DeriveGenerated RustEval GeneratedSpec DeriveModules DeriveLogs DeriveRefused DeriveDecides RustParse RustParseFacts DeriveParsed RustParseRejects ReadSpec.
From Coq Require Import String Lia.
Notation length := List.length.
Set Implicit Arguments.
Local Open Scope N_scope.
Local Open Scope list_scope.

(** ** Names *)
Lemma name_usable s : identifier s -> is_name s = true -> usable s.
Proof. intros I H. split; [exact I|]. unfold is_name in H. apply andb_true_iff in H as [H _]. apply negb_true_iff in H. intros K. apply keyword_iff in K. change (existsb (str_eqb s) reserved = true) in K. congruence. Qed.
Lemma name_good s : identifier s -> is_name s = true -> good s.
Proof. intros I H. split; [exact H|]. unfold seg_ok, is_segment. rewrite H. now rewrite (usable_filled (name_usable I H)). Qed.
Lemma names_good names : Forall identifier names -> forallb is_name names = true -> Forall good names /\ Forall usable names.
Proof. intros F H. rewrite forallb_forall in H. rewrite Forall_forall in F. split; apply Forall_forall; intros n I; [apply name_good|apply name_usable]; auto. Qed.
Lemma names_usable A (nm : nat -> A -> str -> Prop) l names : (forall i x n, nm i x n -> n <> [95]) -> DeriveSpec.named nm l names -> Forall usable names -> forallb is_name names = true.
Proof. intros H N U. pose proof (good_names H N U) as G. apply forallb_forall. intros n I. rewrite Forall_forall in G. exact (proj1 (G n I)). Qed.
Lemma not_all A (f : A -> bool) l : forallb f l = false -> exists a, In a l /\ f a = false.
Proof. induction l as [|a l IH]; [discriminate|]. cbn [forallb]. destruct (f a) eqn:E; intros H; [destruct (IH H) as (b & I & B); exists b; split; [right|]; assumption|exists a; split; [left; reflexivity|exact E]]. Qed.
Lemma first_of A (ok : A -> bool) (bad : A -> Prop) l : (forall a, In a l -> ok a = true \/ bad a) -> forallb ok l = false -> first_bad ok bad l.
Proof. intros H N. destruct (@ok_or_bad _ ok bad l H) as [F|F]; [congruence|exact F]. Qed.

(** ** Types *)
Lemma type_read t y : type_tree t = Ok y -> if plain_type t then ty_ok y = true else bad_ty y.
Proof.
  intros E. destruct (plain_type t) eqn:P; [exact (type_parses _ E P)|]. revert y E P.
  induction t using ParamType_ind'; intros y E P; cbn [type_tree plain_type] in *; try discriminate.
  - apply bind_ok in E as (z & Ez & E). injection E as <-. apply (@bt_name [lit "Vec"] [] z []); [reflexivity|reflexivity|]. now apply IHt.
  - apply bind_ok in E as (z & Ez & E). injection E as <-. destruct (plain_type t) eqn:Q; [apply bt_comma; exact (type_parses _ Ez Q)|apply bt_in; now apply IHt].
Qed.
Lemma types_read A (k : A -> ParamType) l r : mapM (fun x => type_tree (k x)) l = Ok r -> if forallb plain_type (map k l) then forallb ty_ok r = true else first_bad ty_ok bad_ty r.
Proof.
  intros E. destruct (forallb plain_type (map k l)) eqn:P; [exact (types_parse _ _ E P)|]. apply mapM_ok in E. induction E as [|a y l r E _ IH]; [discriminate|]. cbn [map forallb] in P. pose proof (type_read _ E) as T. destruct (plain_type (k a)).
  - destruct (IH P) as (l1 & b & l2 & -> & F & B). exists (y :: l1), b, l2. cbn [forallb app]. now rewrite T, F.
  - exists [], y, r. auto.
Qed.
Lemma output_read l y : output_tree l = Ok y -> if forallb plain_type (map Function.p_kind l) then ty_ok y = true else bad_ty y.
Proof.
  intros E. destruct (forallb plain_type (map Function.p_kind l)) eqn:P; [exact (output_parses _ E P)|]. destruct l as [|a [|b l]]; [discriminate| |].
  - cbn [output_tree map forallb] in *. rewrite andb_true_r in P. pose proof (type_read _ E) as T. now rewrite P in T.
  - unfold output_tree in E. apply bind_ok in E as (ys & Ey & E). injection E as <-. pose proof (types_read _ _ Ey) as T. rewrite P in T. destruct T as (l1 & t & l2 & -> & F & B). now apply bt_tuple.
Qed.
Lemma bound_read t i gs : bound_tree t i = Ok gs -> if argument_type t then forallb generic_ok gs = true else first_bad generic_ok generic_bad gs.
Proof.
  intros E. destruct (argument_type t) eqn:A; [exact (bound_parses _ _ E A)|].
  destruct (@numbered_name "T" i ltac:(cbn; tauto)) as [T T']. destruct (@numbered_name "U" i ltac:(cbn; tauto)) as [U U'].
  destruct t; cbn [bound_tree argument_type plain_type] in *; try discriminate; apply bind_ok in E as (y & Ey & E); try discriminate; injection E as <-; pose proof (type_read _ Ey) as R; rewrite A in R.
  - exists [GIter (numbered (lit "T") i) (numbered (lit "U") i)], (GInto (numbered (lit "U") i) y), []. cbn [forallb generic_ok]. rewrite T, U. repeat split; assumption.
  - eexists [_], _, []. split; [reflexivity|]. cbn [forallb generic_ok ty_ok path_ok generic_bad]. rewrite T, U. repeat split; exact R.
Qed.
Lemma bounds_read l gs : bounds_tree l = Ok gs -> if forallb argument_type (map Function.p_kind l) then forallb generic_ok gs = true else first_bad generic_ok generic_bad gs.
Proof.
  intros E. destruct (forallb argument_type (map Function.p_kind l)) eqn:A; [exact (bounds_parse _ E A)|].
  unfold bounds_tree, mapi in E. apply bind_ok in E as (r & Er & E). injection E as <-. revert r Er A. generalize 0%nat. induction l as [|x l IH]; intros i r Er A; [discriminate|]. cbn [mapi_from mapM] in Er.
  apply bind_ok in Er as (y & Ey & Er). apply bind_ok in Er as (ys & Eys & Er). injection Er as <-. cbn [map forallb List.concat] in *. pose proof (bound_read _ _ Ey) as B. destruct (argument_type (Function.p_kind x)).
  - destruct (IH _ _ Eys A) as (l1 & g & l2 & -> & F & G). exists (y ++ l1), g, l2. rewrite app_assoc, forallb_app, B, F. auto.
  - destruct B as (l1 & g & l2 & -> & F & G). exists l1, g, (l2 ++ List.concat ys). rewrite <- app_assoc. auto.
Qed.
Lemma topics_read A (k : A -> ParamType) l r : mapM (fun x => type_tree (k x)) l = Ok r -> if forallb plain_type (map k l) then forallb generic_ok (topic_bounds r) = true else first_bad generic_ok generic_bad (topic_bounds r).
Proof.
  intros E. pose proof (types_read _ _ E) as T. destruct (forallb plain_type (map k l)); [apply topics_parse; exact T|]. destruct T as (l1 & t & l2 & -> & F & B). clear E. unfold topic_bounds, mapi. generalize 0%nat. induction l1 as [|u l1 IH]; intros i; cbn [app mapi_from].
  - exists [], (GInto (numbered (lit "T") i) (TyName (ethabi ["Topic"%string]) [t])). eexists. split; [reflexivity|]. split; [reflexivity|]. split; [reflexivity|]. now apply (@bt_name _ [] t []).
  - cbn [forallb] in F. apply andb_true_iff in F as [Fu F]. destruct (IH F (S i)) as (m1 & g & m2 & -> & Fm & G). exists (GInto (numbered (lit "T") i) (TyName (ethabi ["Topic"%string]) [u]) :: m1), g, m2. split; [reflexivity|]. split; [|exact G]. cbn [forallb generic_ok ty_ok]. rewrite Fu, Fm. reflexivity.
Qed.
Lemma typed_read names : if forallb is_name names then forallb typed_ok (typed names) = true else first_bad typed_ok typed_bad (typed names).
Proof.
  unfold typed, mapi. generalize 0%nat. induction names as [|n names IH]; intros i; [reflexivity|]. cbn [forallb mapi_from]. destruct (is_name n) eqn:N; cbn [andb].
  - specialize (IH (S i)). assert (T : typed_ok (n, TyName [numbered (lit "T") i] []) = true) by (unfold typed_ok; cbn [fst snd]; rewrite N; reflexivity). destruct (forallb is_name names); [cbn [forallb]; now rewrite T, IH|]. destruct IH as (l1 & a & l2 & -> & F & B). exists ((n, TyName [numbered (lit "T") i] []) :: l1), a, l2. cbn [forallb app]. now rewrite T, F.
  - eexists [], _, _. split; [reflexivity|]. split; [reflexivity|]. left. exact N.
Qed.

(** ** Items *)
Definition read (i : item) (P : Prop) : Prop := P /\ item_ok i = true \/ ~ P /\ item_bad i.
Lemma fn_read doc pub x gs ps t body r : is_name x = true -> match gs with None => True | Some l => forallb generic_ok l = true \/ first_bad generic_ok generic_bad l end ->
  (forallb typed_ok ps = true \/ first_bad typed_ok typed_bad ps) -> (ty_ok t = true \/ bad_ty t) ->
  (forallb typed_ok ps = true -> ty_ok t = true -> forallb stmt_ok body = true /\ expr_ok r = true /\ opens r = false \/ first_bad stmt_ok stmt_bad body) -> item_ok (IFn (mkFn doc pub x gs false ps t body r)) = true \/ item_bad (IFn (mkFn doc pub x gs false ps t body r)).
Proof.
  intros X G P T B. set (f := mkFn doc pub x gs false ps t body r). destruct gs as [l|].
  - destruct G as [G|G]; [|right; apply ib_fn; [exact X|]; now apply (@fb_generics f l)].
    destruct P as [P|P]; [|right; apply ib_fn; [exact X|]; now apply fb_params]. destruct T as [T|T]; [|right; apply ib_fn; [exact X|]; now apply fb_ret].
    destruct (B P T) as [(B1 & B2 & B3)|B1]; [left; cbn [item_ok]; apply fn_parses; assumption|right; apply ib_fn; [exact X|]; now apply fb_body].
  - destruct P as [P|P]; [|right; apply ib_fn; [exact X|]; now apply fb_params]. destruct T as [T|T]; [|right; apply ib_fn; [exact X|]; now apply fb_ret].
    destruct (B P T) as [(B1 & B2 & B3)|B1]; [left; cbn [item_ok]; apply fn_parses; (assumption || reflexivity)|right; apply ib_fn; [exact X|]; now apply fb_body].
Qed.
Lemma if_cases A (b : bool) (P Q : A) (F : A -> Prop) : F (if b then P else Q) -> F P \/ F Q. Proof. destruct b; auto. Qed.
Lemma decided (b : bool) (P Q : Prop) : (if b then P else Q) -> P \/ Q. Proof. destruct b; auto. Qed.
Lemma mod_read d x l : Forall (fun i => item_ok i = true \/ item_bad i) l -> item_ok (IMod d x l) = true \/ item_bad (IMod d x l).
Proof.
  intros H. destruct (is_name x) eqn:X; [|right; now apply ib_mod_name]. rewrite Forall_forall in H. destruct (@ok_or_bad _ item_ok item_bad l H) as [F|(l1 & i & l2 & -> & F & B)]; [left; cbn [item_ok]; now rewrite X, F|right; now apply ib_mod].
Qed.
Lemma ok_not_bad_types t : bad_ty t -> ty_ok t = false.
Proof.
  induction 1 as [p l (s & q & x & -> & H & N)|p l1 t l2 P F B IH|t n H|t n B IH|l1 t l2 F B IH]; cbn [ty_ok]; try reflexivity.
  - assert (E : forallb seg_ok (s :: q ++ [x]) = false) by (change (s :: q ++ [x]) with ((s :: q) ++ [x]); rewrite forallb_app, H; cbn [forallb]; unfold seg_ok; rewrite N; reflexivity).
    destruct s as [|a s]; [discriminate H|]. cbn [path_ok]. rewrite E. reflexivity.
  - rewrite forallb_app. cbn [forallb]. rewrite IH. cbn [andb]. rewrite !andb_false_r. reflexivity.
  - rewrite forallb_app. cbn [forallb]. rewrite IH. cbn [andb]. rewrite !andb_false_r. reflexivity.
Qed.
Lemma first_bad_not A (ok : A -> bool) (bad : A -> Prop) l : (forall a, bad a -> ok a = false) -> first_bad ok bad l -> forallb ok l = false.
Proof. intros H (l1 & a & l2 & -> & _ & B). rewrite forallb_app. cbn [forallb]. rewrite (H a B). cbn [andb]. apply andb_false_r. Qed.
Lemma generic_not g : generic_bad g -> generic_ok g = false.
Proof. destruct g as [x t|]; [|intros []]. intros [_ B]. cbn [generic_ok]. rewrite (ok_not_bad_types B). apply andb_false_r. Qed.
Lemma typed_not x : typed_bad x -> typed_ok x = false.
Proof. unfold typed_ok. intros [N|[_ B]]; [now rewrite N|]. rewrite (ok_not_bad_types B). apply andb_false_r. Qed.
(** ** What the items require *)
Lemma iff_if (b : bool) (A B : Prop) : (if b then A else B) -> (B -> ~ A) -> (A <-> b = true).
Proof. destruct b; intros H N; [tauto|]. split; [intros X; destruct (N H X)|discriminate]. Qed.
Lemma generics_ok_iff l gs : bounds_tree l = Ok gs -> forallb generic_ok gs = forallb argument_type (map Function.p_kind l).
Proof. intros E. pose proof (bounds_read _ E) as B. destruct (forallb argument_type (map Function.p_kind l)); [exact B|]. exact (first_bad_not generic_not B). Qed.
Lemma output_ok_iff l y : output_tree l = Ok y -> ty_ok y = forallb plain_type (map Function.p_kind l).
Proof. intros E. pose proof (output_read _ E) as B. destruct (forallb plain_type (map Function.p_kind l)); [exact B|]. exact (ok_not_bad_types B). Qed.
Lemma typed_ok_iff names : forallb typed_ok (typed names) = forallb is_name names.
Proof. pose proof (typed_read names) as B. destruct (forallb is_name names); [exact B|]. exact (first_bad_not typed_not B). Qed.
Lemma params_usable l names : input_names l = Ok names -> ((exists names, DeriveSpec.named parameter_name l names /\ Forall usable names) <-> forallb is_name names = true).
Proof.
  intros E. apply input_names_iff in E as E'. destruct E' as [N I]. split.
  - intros (names' & N' & U). pose proof (proj2 (input_names_iff _ _) (conj N' (proj1 (usable_split U)))) as E'. rewrite E in E'. injection E' as <-. exact (names_usable parameter_start N U).
  - intros H. exists names. split; [exact N|]. exact (proj2 (names_good I H)).
Qed.
Lemma fields_usable l names : field_names l = Ok names -> ((exists names, DeriveSpec.named field_name l names /\ Forall usable names) <-> forallb is_name names = true).
Proof.
  intros E. apply field_names_iff in E as E'. destruct E' as [N I]. split.
  - intros (names' & N' & U). pose proof (proj2 (field_names_iff _ _) (conj N' (proj1 (usable_split U)))) as E'. rewrite E in E'. injection E' as <-. exact (names_usable field_start N U).
  - intros H. exists names. split; [exact N|]. exact (proj2 (names_good I H)).
Qed.
Lemma snake_usable s m : ident (to_snake_case s) = Ok m -> (usable (to_snake_case s) <-> is_name m = true).
Proof. intros E. apply ident_ok in E as [-> I]. split; [intros U; exact (usable_name U (@snake_start _ []))|now apply name_usable]. Qed.
Lemma camel_usable s m : ident (to_camel_case s) = Ok m -> (usable (to_camel_case s) <-> is_name m = true).
Proof. intros E. apply ident_ok in E as [-> I]. split; [intros U; exact (usable_name U (@camel_start _ []))|now apply name_usable]. Qed.

Lemma function_read f i : function_tree f = Ok i -> (item_ok i = true \/ item_bad i) /\ (item_ok i = true <-> readable_function f).
Proof.
  intros E. unfold function_tree in E. apply bind_ok in E as (names & En & E). apply bind_ok in E as (bounds & Eb & E). apply bind_ok in E as (kinds & Ek & E). apply bind_ok in E as (tokenize & Et & E).
  apply bind_ok in E as (result & Er & E). apply bind_ok in E as (body & Eo & E). apply bind_ok in E as (inputs & Ei & E). apply bind_ok in E as (outputs & Eu & E). apply bind_ok in E as (m & Em & E). injection E as <-.
  destruct (@decode_parses _ _ Eo) as (B1 & B2 & B3). pose proof (proj2 (proj1 (input_names_iff _ _) En)) as In.
  assert (F1 : fn_ok (fn_function f inputs outputs) = true).
  { apply fn_parses; try reflexivity. cbn [expr_ok forallb fst snd]. rewrite (@params_parse _ _ Ei), (@params_parse _ _ Eu). destruct (f_state_mutability f); reflexivity. }
  assert (F2 : fn_ok (fn_decode body) = true) by (apply fn_parses; (assumption || reflexivity)).
  assert (Gt : forallb typed_ok (typed names) = true -> forallb expr_ok tokenize = true) by (intros T; rewrite typed_ok_iff in T; exact (@tokenize_parses _ _ _ Et (proj1 (names_good In T)))).
  assert (Bs : forallb generic_ok bounds = true \/ first_bad generic_ok generic_bad bounds) by (exact (decided _ _ _ (bounds_read _ Eb))).
  assert (Ts : forallb typed_ok (typed names) = true \/ first_bad typed_ok typed_bad (typed names)) by (exact (decided _ _ _ (typed_read names))).
  assert (Rs : ty_ok result = true \/ bad_ty result) by (exact (decided _ _ _ (output_read _ Er))).
  split.
  - apply mod_read. cbn [uses app]. repeat apply Forall_cons; try apply Forall_nil; try (left; reflexivity).
    + left. exact F1.
    + destruct Rs as [R|R]; [left; cbn [item_ok]; rewrite R, F2; reflexivity|right; apply ib_impl; (reflexivity || exact R)].
    + apply fn_read; [reflexivity|exact Bs|exact Ts|left; reflexivity|]. intros T _. left. split; [apply vec_stmt; (reflexivity || auto)|split; reflexivity].
    + apply fn_read; [reflexivity|exact I|left; reflexivity| |intros _ _; left; repeat split]. destruct Rs as [R|R]; [left; cbn [ty_ok forallb]; rewrite R; reflexivity|right; now apply (@bt_name _ [] result [])].
    + apply fn_read; [reflexivity|exact Bs|exact Ts|left; reflexivity|]. intros T _. left. split; [apply vec_stmt; (reflexivity || auto)|split; reflexivity].
  - assert (F3 : fn_ok (fn_encode_input bounds names tokenize) = forallb generic_ok bounds && forallb typed_ok (typed names)).
    { unfold fn_ok. cbn [fn_encode_input fn_name fn_generics fn_params fn_ret fn_body fn_result]. destruct (forallb typed_ok (typed names)); [|now rewrite !andb_false_r]. unfold encoding. rewrite vec_stmt by (reflexivity || auto). now destruct (forallb generic_ok bounds). }
    assert (F5 : fn_ok (fn_call bounds names tokenize) = forallb generic_ok bounds && forallb typed_ok (typed names)).
    { unfold fn_ok. cbn [fn_call fn_name fn_generics fn_params fn_ret fn_body fn_result]. destruct (forallb typed_ok (typed names)); [|now rewrite !andb_false_r]. unfold encoding. rewrite vec_stmt by (reflexivity || auto). now destruct (forallb generic_ok bounds). }
    assert (F4 : fn_ok (fn_decode_output result) = ty_ok result) by (unfold fn_ok; cbn [fn_decode_output fn_name fn_generics fn_params fn_ret fn_body fn_result ty_ok forallb]; now destruct (ty_ok result)).
    cbn [item_ok uses app forallb]. rewrite F1, F2, F3, F4, F5. unfold readable_function, readable_params. rewrite (params_usable _ En), (snake_usable _ Em), <- (generics_ok_iff _ Eb), <- (output_ok_iff _ Er), <- typed_ok_iff.
    destruct (is_name m), (ty_ok result), (forallb generic_ok bounds), (forallb typed_ok (typed names)); cbn; intuition discriminate.
Qed.
Lemma constructor_read k i : constructor_tree k = Ok i -> (item_ok i = true \/ item_bad i) /\ (item_ok i = true <-> readable_constructor k).
Proof.
  intros E. destruct (constructor_inv _ E) as (bounds & names & inputs & tokenize & -> & En & Eb & Et & Ei & _). pose proof (proj2 (proj1 (input_names_iff _ _) En)) as In.
  assert (Gt : forallb typed_ok (typed names) = true -> forallb expr_ok tokenize = true) by (intros T; rewrite typed_ok_iff in T; exact (@tokenize_parses _ _ _ Et (proj1 (names_good In T)))).
  assert (St : stmt_ok (Let (lit "c"), EStructTrailing (ethabi ["Constructor"%string]) [(lit "inputs", inputs)]) = true) by (unfold stmt_ok; cbn [fst snd binder_ok expr_ok forallb]; rewrite (@params_parse _ _ Ei); reflexivity).
  split.
  - apply fn_read; [reflexivity|exact (decided _ _ _ (bounds_read _ Eb))| |left; reflexivity|].
    + destruct (decided _ _ _ (typed_read names)) as [T|(l1 & a & l2 & -> & F & B)]; [left; cbn [forallb]; now rewrite T|]. right. exists ((lit "code", ethabi_ty "Bytes") :: l1), a, l2. cbn [forallb app]. now rewrite F.
    + intros T _. left. split; [|split; reflexivity]. apply vec_stmt; [reflexivity|exact St|]. apply Gt. cbn [forallb] in T. now apply andb_true_iff in T as [_ T].
  - assert (F : fn_ok (fn_constructor bounds names inputs tokenize) = forallb generic_ok bounds && forallb typed_ok (typed names)).
    { unfold fn_ok. cbn [fn_constructor fn_name fn_generics fn_params fn_ret fn_body fn_result]. change (forallb typed_ok ((lit "code", ethabi_ty "Bytes") :: typed names)) with (forallb typed_ok (typed names)). destruct (forallb typed_ok (typed names)); [|now rewrite !andb_false_r]. rewrite vec_stmt by (reflexivity || auto). now destruct (forallb generic_ok bounds). }
    cbn [item_ok]. rewrite F. unfold readable_constructor, readable_params. rewrite (params_usable _ En), <- (generics_ok_iff _ Eb), <- typed_ok_iff, andb_true_iff. tauto.
Qed.
Lemma event_read e i : event_tree e = Ok i -> (item_ok i = true \/ item_bad i) /\ (readable_event e -> item_ok i = true) /\ (item_ok i = true -> usable (to_snake_case (e_name e))).
Proof.
  intros E. unfold event_tree in E. apply bind_ok in E as (names & En & E). apply bind_ok in E as (to_log & El & E). apply bind_ok in E as (kinds & Ek & E). apply bind_ok in E as (init & Ef & E). apply bind_ok in E as (inputs & Ei & E).
  apply bind_ok in E as (m & Em & E). apply bind_ok in E as (camel & Ec & E). injection E as <-. pose proof (proj2 (proj1 (field_names_iff _ _) En)) as In. apply ident_ok in Ec as E'. destruct E' as [-> Ic].
  set (tn := topic_names (e_inputs e) names) in *.
  assert (Nt : forallb is_name names = true -> forallb is_name tn = true).
  { rewrite !forallb_forall. intros H n J. unfold tn, topic_names in J. apply in_map_iff in J as ([q n'] & <- & J). apply filter_In in J as [J _]. apply H. exact (in_combine_r _ _ _ _ J). }
  assert (It : Forall identifier tn).
  { apply Forall_forall. intros n J. unfold tn, topic_names in J. apply in_map_iff in J as ([q n'] & <- & J). apply filter_In in J as [J _]. rewrite Forall_forall in In. apply In. exact (in_combine_r _ _ _ _ J). }
  assert (F1 : fn_ok (fn_event e inputs) = true).
  { apply fn_parses; try reflexivity. cbn [expr_ok forallb fst snd]. replace (forallb expr_ok inputs) with true; [reflexivity|]. symmetry. revert Ei. apply all_parse. intros q x X. unfold event_param_tree in X. apply bind_ok in X as (k & Xk & X).
    injection X as <-. cbn [expr_ok forallb fst snd]. rewrite (@syntax_parses _ _ Xk). reflexivity. }
  assert (F3 : fn_ok (fn_wildcard_filter tn) = true).
  { apply fn_parses; try reflexivity. cbn [expr_ok]. clear. induction tn as [|n l IH]; [reflexivity|exact IH]. }
  assert (Si : forallb typed_ok (typed tn) = true -> forallb stmt_ok [(Let (lit "raw"), EStructDefault (ethabi ["RawTopicFilter"%string]) init (segments ["Default"%string; "default"%string])); (Let (lit "e"), ECall [lit "event"] [])] = true).
  { intros T. rewrite typed_ok_iff in T. pose proof (proj1 (names_good It T)) as Gt. cbn [forallb]. unfold stmt_ok. cbn [fst snd binder_ok expr_ok].
    rewrite (@init_parses _ _ Ef); [reflexivity|]. apply Forall_firstn. apply Forall_forall. intros [n q] J. rewrite Forall_forall in Gt. apply Gt. exact (in_combine_l _ _ _ _ J). }
  assert (Bs : forallb generic_ok (topic_bounds kinds) = true \/ first_bad generic_ok generic_bad (topic_bounds kinds)) by (exact (decided _ _ _ (topics_read _ _ Ek))).
  assert (Ts : forallb typed_ok (typed tn) = true \/ first_bad typed_ok typed_bad (typed tn)) by (exact (decided _ _ _ (typed_read tn))).
  assert (Ol : forallb expr_ok to_log = true) by (revert El; apply all_parse; intros q x X; apply (@from_token_parses _ _ _ X); split; reflexivity).
  set (camel := to_camel_case (e_name e)) in *.
  assert (Fc : filled camel = true) by (destruct Ic as (c & w & -> & _); reflexivity).
  assert (Ps : path_ok (log_path camel) = true \/ bad_path (log_path camel)).
  { destruct (is_segment camel) eqn:S; [left; assert (Sg : seg_ok camel = true) by (unfold seg_ok; now rewrite S, Fc); cbn [log_path segments map app path_ok forallb]; rewrite Sg; reflexivity|right]. exists (lit "super"), (segments ["super"%string; "logs"%string]), camel. split; [reflexivity|]. split; [reflexivity|exact S]. }
  assert (F4 : item_ok (IFn (fn_parse_log camel (combine names to_log))) = true \/ item_bad (IFn (fn_parse_log camel (combine names to_log)))).
  { apply fn_read; [reflexivity|exact I|left; reflexivity| |].
    - destruct Ps as [P|P]; [left; cbn [ty_ok forallb]; rewrite P; reflexivity|right; apply (@bt_name _ [] (TyName (log_path camel) []) []); [reflexivity|reflexivity|now apply bt_path]].
    - intros _ T. assert (P : path_ok (log_path camel) = true) by (cbn [ty_ok forallb] in T; rewrite !andb_true_r in T; now apply andb_true_iff in T as [_ T]).
      assert (C : forallb field_ok (combine names to_log) = true \/ first_bad field_ok field_bad (combine names to_log)).
      { apply ok_or_bad. intros [n x] J. unfold field_ok, field_bad. cbn [fst snd]. destruct (is_name n); [left|right; reflexivity]. rewrite forallb_forall in Ol. rewrite Ol; [reflexivity|exact (in_combine_r _ _ _ _ J)]. }
      destruct C as [C|C]; [left; split; [|split; reflexivity]; cbn [forallb]; unfold stmt_ok at 3; cbn [fst snd binder_ok]; change (expr_ok (EStruct (log_path camel) (combine names to_log))) with (path_ok (log_path camel) && forallb field_ok (combine names to_log)); rewrite P, C; reflexivity|right].
      eexists [_; _], _, []. split; [reflexivity|]. split; [reflexivity|]. exists (lit "result"), (log_path camel), (combine names to_log). auto. }
  split; [|split].
  - apply mod_read. cbn [uses app]. repeat apply Forall_cons; try apply Forall_nil; try (left; reflexivity); [left; exact F1| |left; exact F3|exact F4].
    apply fn_read; [reflexivity|exact Bs|exact Ts|left; reflexivity|]. intros T _. left. split; [exact (Si T)|split; reflexivity].
  - intros (P & N & U1 & U2). apply (fields_usable _ En) in N. apply (snake_usable _ Em) in U1. pose proof (usable_name U2 (@camel_start _ [])) as Cn. pose proof (usable_segment U2 (@camel_start _ [])) as Cs.
    assert (Pk : forallb plain_type (map ep_kind (filter ep_indexed (e_inputs e))) = true).
    { rewrite forallb_forall in *. intros t J. apply P. apply in_map_iff in J as (q & <- & J). apply in_map. now apply filter_In in J. }
    pose proof (topics_read _ _ Ek) as K. rewrite Pk in K. pose proof (typed_read tn) as T. rewrite (Nt N) in T.
    assert (Lp : path_ok (log_path camel) = true) by (cbn [log_path segments map app path_ok forallb]; unfold camel; rewrite Cs; reflexivity).
    cbn [item_ok uses app forallb]. rewrite U1, F1, F3.
    assert (F2 : fn_ok (fn_filter (topic_bounds kinds) tn init) = true) by (apply fn_parses; try reflexivity; [exact K|exact T|exact (Si T)]).
    assert (F5 : fn_ok (fn_parse_log camel (combine names to_log)) = true).
    { apply fn_parses; try reflexivity; [cbn [ty_ok forallb]; rewrite Lp; reflexivity|]. cbn [forallb]. unfold stmt_ok. cbn [fst snd binder_ok]. change (expr_ok (EStruct (log_path camel) (combine names to_log))) with (path_ok (log_path camel) && forallb (fun x : str * expr => is_name (fst x) && expr_ok (snd x)) (combine names to_log)).
      rewrite Lp, fields_parse; [reflexivity|exact (proj1 (names_good In N))|exact Ol]. }
    rewrite F2, F5. reflexivity.
  - cbn [item_ok]. intros H. apply andb_true_iff in H as [H _]. now apply (snake_usable _ Em).
Qed.
Lemma log_read e i : log_tree e = Ok i -> (item_ok i = true \/ item_bad i) /\
  (item_ok i = true <-> forallb plain_type (map ep_kind (e_inputs e)) = true /\ (exists names, DeriveSpec.named field_name (e_inputs e) names /\ Forall usable names) /\ usable (to_camel_case (e_name e))).
Proof.
  intros E. unfold log_tree in E. apply bind_ok in E as (names & En & E). apply bind_ok in E as (kinds & Ek & E). apply bind_ok in E as (camel & Ec & E). injection E as <-.
  assert (C : forallb typed_ok (combine names kinds) = true \/ first_bad typed_ok typed_bad (combine names kinds)).
  { apply ok_or_bad. intros [n t] J. unfold typed_ok, typed_bad. cbn [fst snd]. destruct (is_name n) eqn:N; [|auto]. apply in_combine_r in J. apply mapM_ok in Ek. assert (T : ty_ok t = true \/ bad_ty t).
    { clear -Ek J. induction Ek as [|a y l r E _ IH]; [destruct J|]. destruct J as [<-|J]; [exact (decided _ _ _ (type_read _ E))|auto]. } destruct T; auto. }
  assert (Ln : length names = length kinds) by (rewrite (mapM_length _ _ Ek), (proj1 (proj1 (proj1 (field_names_iff _ _) En))); reflexivity).
  split.
  - destruct (is_name camel) eqn:N; [|right; now apply ib_struct_name]. destruct C as [C|C]; [left; cbn [item_ok]; rewrite N, C; reflexivity|right; now apply ib_struct].
  - rewrite (fields_usable _ En), (camel_usable _ Ec). cbn [item_ok]. change (forallb is_name (segments ["Debug"%string; "Clone"%string; "PartialEq"%string])) with true. cbn [andb].
    assert (K : forallb ty_ok kinds = forallb plain_type (map ep_kind (e_inputs e))).
    { pose proof (types_read _ _ Ek) as T. destruct (forallb plain_type (map ep_kind (e_inputs e))); [exact T|exact (first_bad_not ok_not_bad_types T)]. }
    assert (Co : forallb typed_ok (combine names kinds) = forallb is_name names && forallb ty_ok kinds).
    { clear -Ln. revert kinds Ln. induction names as [|n names IH]; intros [|t kinds] L; try discriminate; [reflexivity|]. cbn [combine forallb]. rewrite IH by (now injection L). unfold typed_ok. cbn [fst snd]. destruct (is_name n), (ty_ok t), (forallb is_name names); reflexivity. }
    rewrite Co, K, !andb_true_iff. tauto.
Qed.
Lemma each_read A (t : A -> res item) l is : (forall a i, t a = Ok i -> item_ok i = true \/ item_bad i) -> mapM t l = Ok is -> Forall (fun i => item_ok i = true \/ item_bad i) is.
Proof. intros H E. apply mapM_ok in E. induction E; constructor; eauto. Qed.
Lemma each_iff A (t : A -> res item) (P : A -> Prop) l is : (forall a i, t a = Ok i -> (item_ok i = true <-> P a)) -> mapM t l = Ok is -> (forallb item_ok is = true <-> Forall P l).
Proof.
  intros H E. apply mapM_ok in E. induction E as [|a i l is E _ IH]; [split; [constructor|reflexivity]|]. cbn [forallb]. rewrite andb_true_iff, (H _ _ E), IH. split; [intros [? ?]; now constructor|intros F; now inversion F].
Qed.
Lemma events_iff l es ls : mapM event_tree l = Ok es -> mapM log_tree l = Ok ls -> (forallb item_ok es = true /\ forallb item_ok ls = true <-> Forall readable_event l).
Proof.
  intros E L. apply mapM_ok in E, L. revert ls L. induction E as [|e i l es E _ IH]; intros ls L; inversion L as [|? j ? ls' Ej L']; subst; [split; [constructor|auto]|]. cbn [forallb]. specialize (IH _ L'). destruct (event_read _ E) as (_ & E1 & E2). destruct (log_read _ Ej) as (_ & E3).
  rewrite !andb_true_iff. split.
  - intros [[A B] [C D]]. constructor; [|apply IH; auto]. apply E3 in C as (C1 & C2 & C3). repeat split; auto; apply E2 in A; apply A || apply C3.
  - intros F. inversion F as [|? ? R F']; subst. apply IH in F' as [F1 F2]. repeat split; auto. apply E3. destruct R as (R1 & R2 & _ & R3). auto.
Qed.
Lemma contract_read c fs es items : contract_tree c fs es = Ok items -> (forallb item_ok items = true \/ first_bad item_ok item_bad items) /\ (forallb item_ok items = true <-> readable c fs es).
Proof.
  intros E. unfold contract_tree in E. apply bind_ok in E as (k & Ek & E). apply bind_ok in E as (fi & Ef & E). apply bind_ok in E as (ei & Ee & E). apply bind_ok in E as (li & El & E). injection E as <-.
  assert (K : Forall (fun i => item_ok i = true \/ item_bad i) k /\ (forallb item_ok k = true <-> forall x, c_constructor c = Some x -> readable_constructor x)).
  { destruct (c_constructor c) as [x|]; [|injection Ek as <-; split; [constructor|split; [discriminate|reflexivity]]]. apply bind_ok in Ek as (i & Ei & Ek). injection Ek as <-. destruct (constructor_read _ Ei) as [A B]. split; [constructor; [exact A|constructor]|]. cbn [forallb]. rewrite andb_true_r, B. split; [intros R y Y; injection Y as <-; exact R|auto]. }
  destruct K as [K1 K2]. split.
  - apply ok_or_bad. apply Forall_forall. cbn [app]. apply Forall_cons; [left; reflexivity|]. apply Forall_cons; [left; reflexivity|]. apply Forall_app. split; [exact K1|].
    repeat apply Forall_cons; try apply Forall_nil; apply mod_read; (apply Forall_cons; [left; reflexivity|]).
    + exact (@each_read _ _ _ _ (fun a i H => proj1 (@function_read a i H)) Ef).
    + exact (@each_read _ _ _ _ (fun a i H => proj1 (@event_read a i H)) Ee).
    + apply Forall_cons; [left; reflexivity|]. exact (@each_read _ _ _ _ (fun a i H => proj1 (@log_read a i H)) El).
  - unfold readable. rewrite <- K2, <- (@each_iff _ _ _ _ _ (fun a i H => proj2 (@function_read a i H)) Ef), <- (@events_iff _ _ _ Ee El). cbn [app forallb]. rewrite forallb_app. cbn [forallb item_ok].
    destruct (forallb item_ok k), (forallb item_ok fi), (forallb item_ok ei), (forallb item_ok li); cbn; intuition discriminate.
Qed.
Lemma parse_exact c fs es text items : contract_text c fs es = Ok text -> (parse text = Some items <-> contract_tree c fs es = Ok items /\ readable c fs es).
Proof.
  intros T. rewrite contract_ok in T. destruct (contract_tree c fs es) as [l| |] eqn:E; try discriminate. injection T as <-. destruct (contract_read _ _ _ E) as [[F|B] R].
  - rewrite (parse_reads _ F), <- R. split; [intros X; injection X as <-; auto|intros [X _]; now injection X as <-].
  - rewrite (parse_rejects B). split; [discriminate|]. intros [_ X]. apply R in X. destruct B as (l1 & i & l2 & -> & _ & B). rewrite forallb_app in X. cbn [forallb] in X. apply andb_true_iff in X as [_ X]. apply andb_true_iff in X as [X _].
    pose proof (@item_rejects _ i [] B (Nat.lt_succ_diag_r _)) as J. rewrite (@item_reads _ i [] X (Nat.lt_succ_diag_r _)) in J. discriminate.
Qed.

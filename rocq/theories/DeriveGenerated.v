(** * What the derive macro generates, as a whole *)
From Verif Require Import Base BaseFacts StrFacts Types TypeNames Tokenizer AbiSpec Function Event EventSpec Contract Heck Derive DeriveSpec DeriveFacts DeriveCalls DeriveEvents DeriveAccepts
  FilterFacts RustSyntax DeriveTree RustEval GeneratedSpec DeriveRun DeriveModules DeriveLogs.
From Verif Require DeriveText DeriveTextFacts.
From Coq Require Import String Lia.
Set Implicit Arguments.
Notation length := List.length.
Local Open Scope N_scope.
Local Open Scope list_scope.

(** ** Types *)
Lemma read_type t y : plain_type t = true -> type_tree t = Ok y -> exists r, rust_type t = Ok r /\ read_ty y = Some r.
Proof.
  revert y. induction t; intros y P E; cbn [plain_type type_tree rust_type] in *; try discriminate; try (injection E as <-; eexists; split; reflexivity).
  - destruct (type_tree t) as [ z | | ]; try discriminate. injection E as <-. destruct (IHt z P eq_refl) as (r & -> & R). exists (YVec r). split; [ reflexivity | ].
    change (read_ty (TyName [lit "Vec"] [z])) with (option_map YVec (read_ty z)). rewrite R. reflexivity.
  - injection E as <-. eexists. split; [ reflexivity | ]. destruct (size =? 32); reflexivity.
Qed.
Lemma read_types A (k : A -> ParamType) l ys rs : forallb plain_type (map k l) = true -> mapM (fun q => type_tree (k q)) l = Ok ys -> mapM (fun q => rust_type (k q)) l = Ok rs ->
  read_all read_ty ys = Some rs.
Proof.
  intros P E R. apply mapM_ok in E. apply mapM_ok in R. revert rs R. induction E as [ | q y l ys E _ IH ]; intros rs R; inversion R as [ | ? r ? rs' Q R' ]; subst; [ reflexivity | ].
  cbn [map forallb] in P. apply andb_true_iff in P as [ P1 P2 ]. destruct (@read_type _ _ P1 E) as (r' & Q' & H). rewrite Q in Q'. injection Q' as <-.
  cbn [read_all fold_right]. fold (read_all read_ty ys). rewrite H, (IH P2 _ R'). reflexivity.
Qed.
Lemma type_no_tuple t y : type_tree t = Ok y -> forall l, y <> TyTuple l.
Proof.
  intros E l ->. destruct t; cbn [type_tree] in E; try discriminate; try (destruct (type_tree t); discriminate). destruct (size =? 32); discriminate.
Qed.
Lemma read_output outputs t rs : forallb plain_type (map p_kind outputs) = true -> output_tree outputs = Ok t -> mapM (fun q => rust_type (p_kind q)) outputs = Ok rs -> read_results t = Some rs.
Proof.
  intros P E R. unfold output_tree in E.
  assert (G : forall ys, mapM (fun q => type_tree (p_kind q)) outputs = Ok ys -> read_results (TyTuple ys) = Some rs) by (intros ys Y; exact (@read_types _ p_kind _ _ _ P Y R)).
  destruct outputs as [ | x [ | x' l ] ].
  - cbn [mapM bind] in E. injection E as <-. apply G. reflexivity.
  - cbn [mapM] in R. destruct (rust_type (p_kind x)) as [ r | | ] eqn:Q; try discriminate. injection R as <-. cbn [map forallb] in P. rewrite andb_true_r in P.
    destruct (@read_type _ _ P E) as (r' & Q' & H). rewrite Q in Q'. injection Q' as <-. pose proof (type_no_tuple _ E) as N. unfold read_results. destruct t; try (rewrite H; reflexivity). exfalso. exact (N l eq_refl).
  - destruct (mapM (fun param => type_tree (p_kind param)) (x :: x' :: l)) as [ ys | | ] eqn:Y; try discriminate. injection E as <-. apply G. reflexivity.
Qed.

(** ** Type parameters *)
Lemma show_dec_injective i j : show_dec (N.of_nat i) = show_dec (N.of_nat j) -> i = j.
Proof. intros E. apply show_dec_inj in E. lia. Qed.
Definition own (k : nat) (g : generic) : Prop := exists i, (k <= i)%nat /\ (generic_name g = numbered (lit "T") i \/ generic_name g = numbered (lit "U") i).
Lemma bound_names t i gs : bound_tree t i = Ok gs -> map generic_name gs = [numbered (lit "T") i] \/ map generic_name gs = [numbered (lit "T") i; numbered (lit "U") i].
Proof. destruct t; cbn [bound_tree]; intros E; destruct (type_tree _); try discriminate; injection E as <-; auto. Qed.
Lemma T_U i j : numbered (lit "T") i <> numbered (lit "U") j.
Proof. unfold numbered. discriminate. Qed.
Lemma numbered_injective c i j : numbered [c] i = numbered [c] j -> i = j.
Proof. unfold numbered. intros E. injection E as E. apply show_dec_injective, E. Qed.
Lemma bounds_names (l : list Param) : forall k r, mapM (fun r => r) (mapi_from (fun index param => bound_tree (p_kind param) index) k l) = Ok r ->
  NoDup (map generic_name (List.concat r)) /\ Forall (own k) (List.concat r) /\ (forall i q, nth_error l i = Some q -> exists gs, bound_tree (p_kind q) (k + i) = Ok gs /\ incl gs (List.concat r)).
Proof.
  induction l as [ | q l IH ]; intros k r E; cbn [mapi_from mapM] in E.
  - injection E as <-. split; [ constructor | split; [ constructor | intros [ | i ] ?; discriminate ] ].
  - apply bind_ok in E as (gs & Eg & E). apply bind_ok in E as (r' & Er & E). injection E as <-. destruct (IH _ _ Er) as (N & O & I). cbn [List.concat].
    assert (D : forall x g, In g (List.concat r') -> generic_name g = x -> x <> numbered (lit "T") k /\ x <> numbered (lit "U") k).
    { intros x g G <-. rewrite Forall_forall in O. destruct (O g G) as (i & L & [ -> | -> ]); split; intros X; try (apply T_U in X; exact X); try (symmetry in X; apply T_U in X; exact X); apply numbered_injective in X; lia. }
    split; [ | split ].
    + rewrite map_app. destruct (bound_names _ _ Eg) as [ -> | -> ]; cbn [app]; repeat constructor; try exact N.
      * intros X. apply in_map_iff in X as (g & X & G). destruct (D _ _ G X) as [ Z _ ]. apply Z. reflexivity.
      * intros [ X | X ]; [ symmetry in X; apply T_U in X; exact X | ]. apply in_map_iff in X as (g & X & G). destruct (D _ _ G X) as [ Z _ ]. apply Z. reflexivity.
      * intros X. apply in_map_iff in X as (g & X & G). destruct (D _ _ G X) as [ _ Z ]. apply Z. reflexivity.
    + apply Forall_app. split.
      * apply Forall_forall. intros g G. exists k. split; [ lia | ]. pose proof (in_map generic_name _ _ G) as M. destruct (bound_names _ _ Eg) as [ Q | Q ]; rewrite Q in M; cbn [In] in M; intuition auto.
      * eapply Forall_impl; [ | exact O ]. intros g (i & L & H). exists i. split; [ lia | exact H ].
    + intros [ | i ] x H; cbn [nth_error] in H.
      * injection H as <-. exists gs. rewrite Nat.add_0_r. split; [ exact Eg | ]. intros g G. apply in_app_iff. left. exact G.
      * destruct (I i x H) as (gs' & E' & J). exists gs'. rewrite <- Nat.add_succ_comm. split; [ exact E' | ]. intros g G. apply in_app_iff. right. exact (J g G).
Qed.
Lemma generic_found gs g : NoDup (map generic_name gs) -> In g gs -> generic_of gs (generic_name g) = Some g.
Proof.
  unfold generic_of. induction gs as [ | h gs IH ]; intros N I; [ destruct I | ]. cbn [map find] in *. inversion N as [ | ? ? N1 N2 ]; subst. destruct I as [ -> | I ].
  - rewrite str_eqb_refl. reflexivity.
  - destruct (str_eqb (generic_name g) (generic_name h)) eqn:E; [ | exact (IH N2 I) ]. apply str_eqb_eq in E. exfalso. apply N1. rewrite <- E. apply in_map, I.
Qed.
Lemma generic_absent gs x : Forall (own 0) gs -> (forall i, x <> numbered (lit "T") i /\ x <> numbered (lit "U") i) -> generic_of gs x = None.
Proof.
  intros O H. unfold generic_of. destruct (find _ gs) as [ g | ] eqn:E; [ | reflexivity ]. apply find_some in E as [ I E ]. apply str_eqb_eq in E. subst x.
  rewrite Forall_forall in O. destruct (O g I) as (i & _ & [ X | X ]); destruct (H i) as [ A B ]; [ destruct (A X) | destruct (B X) ].
Qed.
Lemma read_one gs t i b own_gs : NoDup (map generic_name gs) -> Forall (own 0) gs -> bound_tree t i = Ok own_gs -> incl own_gs gs -> argument_type t = true -> template_param_type t = Ok b ->
  read_bound gs (TyName [numbered (lit "T") i] []) = Some b.
Proof.
  intros N O E I A B.
  assert (G : forall y, In (GInto (numbered (lit "T") i) y) own_gs -> read_bound gs (TyName [numbered (lit "T") i] []) =
     match y with
      | TyArray (TyName [u] []) n => match generic_of gs u with Some _ => option_map (fun y => BArray y n) (read_generic gs u) | None => option_map BInto (read_ty y) end
      | _ => option_map BInto (read_ty y)
      end).
  { intros y H. unfold read_bound. pose proof (@generic_found gs _ N (I _ H)) as Q. cbn [generic_name] in Q. rewrite Q. reflexivity. }
  assert (U : forall y r, In (GInto (numbered (lit "U") i) y) own_gs -> read_ty y = Some r -> generic_of gs (numbered (lit "U") i) = Some (GInto (numbered (lit "U") i) y) /\ read_generic gs (numbered (lit "U") i) = Some r).
  { intros y r H R. pose proof (@generic_found gs _ N (I _ H)) as Q. cbn [generic_name] in Q. split; [ exact Q | ]. unfold read_generic. rewrite Q. exact R. }
  assert (F : generic_of gs (lit "u8") = None) by (apply generic_absent; [ exact O | intros j; split; discriminate ]).
  unfold argument_type in A.
  destruct t; cbn [bound_tree template_param_type] in *; destruct (type_tree _) as [ y | | ] eqn:T; try discriminate; injection E as <-;
    match type of T with type_tree ?u = _ => assert (PT : plain_type u = true) by exact A; destruct (@read_type u y PT T) as (r & R & Q) end; rewrite R in B; injection B as <-.
  all: try (rewrite (G y) by (left; reflexivity); cbn [type_tree] in T; try (injection T as <-; cbn [option_map]; rewrite Q; reflexivity)).
  - destruct (U y r (or_intror (or_introl eq_refl)) Q) as [ _ X ]. pose proof (@generic_found gs _ N (I _ (or_introl eq_refl))) as Z. cbn [generic_name] in Z. unfold read_bound. rewrite Z, X. reflexivity.
  - injection T as <-. destruct (size =? 32); [ rewrite Q; reflexivity | ]. unfold DeriveTree.ty. cbn iota. rewrite F. unfold DeriveTree.ty in Q. rewrite Q. reflexivity.
  - rewrite (G _ (or_introl eq_refl)). destruct (U y r (or_intror (or_introl eq_refl)) Q) as [ X Y ]. rewrite X, Y. reflexivity.
Qed.
Lemma read_params names inputs gs bs : length names = length inputs -> bounds_tree inputs = Ok gs -> forallb argument_type (map p_kind inputs) = true ->
  mapM (fun q => template_param_type (p_kind q)) inputs = Ok bs -> read_all (read_bound gs) (map snd (typed names)) = Some bs.
Proof.
  unfold bounds_tree, typed, mapi. intros L E A B. apply bind_ok in E as (r & E & Q). injection Q as <-. destruct (bounds_names _ _ E) as (N & O & I). clear E.
  apply mapM_ok in B.
  assert (G : forall k names, length names = length inputs -> (forall i q, nth_error inputs i = Some q -> exists gs, bound_tree (p_kind q) (k + i) = Ok gs /\ incl gs (List.concat r)) ->
    read_all (read_bound (List.concat r)) (map snd (mapi_from (fun (index : nat) (n : str) => (n, TyName [numbered (lit "T") index] [])) k names)) = Some bs).
  { clear L I names. induction B as [ | q b inputs bs B _ IH ]; intros k [ | n names ] L I; try discriminate; [ reflexivity | ]. cbn [mapi_from map snd read_all fold_right].
    cbn [map forallb] in A. apply andb_true_iff in A as [ A1 A2 ]. destruct (I 0%nat q eq_refl) as (g & E & J). rewrite Nat.add_0_r in E.
    rewrite (@read_one _ _ _ _ _ N O E J A1 B). fold (read_all (read_bound (List.concat r)) (map snd (mapi_from (fun (index : nat) (n : str) => (n, TyName [numbered (lit "T") index] [])) (S k) names))).
    rewrite (IH A2); [ reflexivity | injection L; auto | ]. intros i x H. rewrite Nat.add_succ_comm. exact (I (S i) x H). }
  exact (G 0%nat names L I).
Qed.
Lemma topic_names_own kinds k : NoDup (map generic_name (mapi_from (fun index kind => GInto (numbered (lit "T") index) (TyName (ethabi ["Topic"%string]) [kind])) k kinds)) /\
  forall x, In x (map generic_name (mapi_from (fun index kind => GInto (numbered (lit "T") index) (TyName (ethabi ["Topic"%string]) [kind])) k kinds)) -> exists i, (k <= i)%nat /\ x = numbered (lit "T") i.
Proof.
  revert k. induction kinds as [ | y kinds IH ]; intros k; cbn [mapi_from map generic_name]; [ split; [ constructor | intros x [] ] | ]. destruct (IH (S k)) as [ N O ]. split.
  - constructor; [ | exact N ]. intros X. apply O in X as (i & L & X). apply numbered_injective in X. lia.
  - intros x [ <- | X ]; [ exists k; auto | ]. apply O in X as (i & L & X). exists i. split; [ lia | exact X ].
Qed.
Lemma read_topics names kinds rs : length names = length kinds -> read_all read_ty kinds = Some rs -> read_all (read_topic (topic_bounds kinds)) (map snd (typed names)) = Some rs.
Proof.
  intros L R. unfold topic_bounds, typed, mapi. destruct (topic_names_own kinds 0) as [ N _ ]. set (gs := mapi_from _ 0 kinds) in *.
  assert (G : forall k names ks rs, length names = length ks -> read_all read_ty ks = Some rs -> incl (mapi_from (fun index kind => GInto (numbered (lit "T") index) (TyName (ethabi ["Topic"%string]) [kind])) k ks) gs ->
    read_all (read_topic gs) (map snd (mapi_from (fun (index : nat) (n : str) => (n, TyName [numbered (lit "T") index] [])) k names)) = Some rs).
  { clear -N. intros k names ks. revert k names. induction ks as [ | y ks IH ]; intros k [ | n names ] rs L R I; try discriminate; [ injection R as <-; reflexivity | ].
    cbn [mapi_from map snd read_all fold_right] in *. fold (read_all read_ty ks) in R. destruct (read_ty y) as [ r | ] eqn:Y; [ | discriminate ]. destruct (read_all read_ty ks) as [ rs' | ] eqn:K; [ | discriminate ]. injection R as <-.
    pose proof (@generic_found gs _ N (I _ (or_introl eq_refl))) as Z. cbn [generic_name] in Z.
    assert (H : read_topic gs (TyName [numbered (lit "T") k] []) = Some r) by (unfold read_topic; rewrite Z; exact Y). rewrite H.
    fold (read_all (read_topic gs) (map snd (mapi_from (fun (index : nat) (n : str) => (n, TyName [numbered (lit "T") index] [])) (S k) names))).
    rewrite (IH (S k) names rs'); [ reflexivity | injection L; auto | reflexivity | ]. intros g X. apply I. right. exact X. }
  eapply G; [ exact L | exact R | ]. intros g X. exact X.
Qed.

(** ** Modules *)
Section Profile.
Context (p : profile).
Lemma derive_function_results f d : derive_function p f = Ok d -> mapM (fun q => rust_type (p_kind q)) (f_outputs f) = Ok (df_results d).
Proof.
  unfold derive_function. intros D. do 4 apply bind_ok in D as (? & _ & D). apply bind_ok in D as (rs & R & D). do 5 apply bind_ok in D as (? & _ & D). injection D as <-. exact R.
Qed.
Lemma stripped_names l names : input_names l = Ok names -> named parameter_name (map strip l) names.
Proof.
  intros E. apply input_names_iff in E as [ [ L H ] _ ]. split; [ rewrite map_length; exact L | ]. intros i x N. rewrite nth_error_map in N.
  destruct (nth_error l i) as [ q | ] eqn:Q; [ | discriminate ]. injection N as <-. exact (H i q Q).
Qed.
Lemma function_generated f d : derive_function p f = Ok d -> exists i, function_tree f = Ok i /\ function_module p d i.
Proof.
  intros D. pose proof (@derive_function_inv p f d D) as (A & P & Fd & B & _). pose proof (derive_function_results _ D) as R.
  destruct (@function_runs p f d D) as (inputs & outputs & result & body & bounds & names & tokenize & T & Eb & Er & En & H). cbn zeta in T, H. pose proof (DeriveTextFacts.input_names_length _ En) as Ln.
  assert (Nm : named parameter_name (f_inputs (df_function d)) (map fst (typed names))) by (rewrite Fd, typed_names; exact (stripped_names _ En)).
  set (items := function_items f inputs outputs result body bounds names tokenize) in *. eexists. split; [ exact T | ]. exists items. split; [ reflexivity | ].
  pose proof (read_params _ _ Ln Eb A B) as Q. pose proof (read_output _ P Er R) as O.
  split; [ intros n; apply (H n) | ]. split; [ | split; [ | split; [ | split; [ | split; [ | split ] ] ] ] ].
  - exists (fn_encode_input bounds names tokenize). split; [ split; [ reflexivity | split; reflexivity ] | split; [ exact Nm | split; [ exact Q | reflexivity ] ] ].
  - exists (fn_call bounds names tokenize). split; [ split; [ reflexivity | split; reflexivity ] | split; [ exact Nm | split; [ exact Q | reflexivity ] ] ].
  - exists (fn_decode_output result), result. split; [ split; [ reflexivity | split; reflexivity ] | split; [ reflexivity | split; [ reflexivity | exact O ] ] ].
  - exists (fn_decode body), result. split; [ | exact O ]. unfold items, function_items, uses. cbn [app In]. auto 6.
  - eexists. unfold items, function_items, uses. cbn [app In]. auto 8.
  - intros n args M. apply (H n), M.
  - intros n data. apply (H n).
Qed.
Lemma constructor_generated k d : derive_constructor p k = Ok d -> exists i, constructor_tree k = Ok i /\ constructor_function p d i.
Proof.
  intros D. pose proof (@derive_constructor_inv p k d D) as (A & Kd & B & _). destruct (@constructor_runs p k d D) as (bounds & names & inputs & tokenize & T & Eb & En & H). cbn zeta in T, H. pose proof (DeriveTextFacts.input_names_length _ En) as Ln.
  eexists. split; [ exact T | ]. pose proof (read_params _ _ Ln Eb A B) as Q.
  exists (fn_constructor bounds names inputs tokenize), (ethabi_ty "Bytes"), (map snd (typed names)), names.
  split; [ cbn [fn_constructor fn_params map fst]; rewrite typed_names; reflexivity | ]. split; [ rewrite Kd; exact (stripped_names _ En) | ]. repeat (split; [ reflexivity || exact Q | ]). exact H.
Qed.
Lemma event_generated e d : derive_event p e = Ok d -> exists i j names, event_tree e = Ok i /\ log_tree e = Ok j /\ named field_name (e_inputs e) names /\ event_module p d names i /\ log_struct d names j.
Proof.
  intros D. pose proof (@derive_event_inv p e d D) as (P & Ed & _ & Tt & Tf & _). rewrite isel_indexed in Tt.
  destruct (@event_runs p e d D) as (inputs & kinds & topics & init & names & to_log & T & En & Ek & Et & Lk & H). cbn zeta in T, H.
  assert (Cn : ident (to_camel_case (e_name e)) = Ok (to_camel_case (e_name e))).
  { unfold derive_event in D. do 6 apply bind_ok in D as (? & _ & D). apply bind_ok in D as (c & Ec & _). apply ident_ok in Ec as [ -> I ]. apply ident_ok. auto. }
  set (items := event_items _ _ _ _ _ _ _ _) in *.
  destruct (@all_exist _ _ ep_kind (fun q => type_tree (ep_kind q)) (e_inputs e)) as [ tys Ey ]; [ intros; apply type_tree_exists; assumption | exact (plain_no_tuples _ P) | ].
  assert (PT : forallb plain_type (map ep_kind (filter ep_indexed (e_inputs e))) = true).
  { rewrite forallb_forall in *. intros t I. apply P. apply in_map_iff in I as (q & <- & I). apply in_map. apply filter_In in I as [ I _ ]. exact I. }
  pose proof (@read_types _ ep_kind _ _ _ PT Ek Tt) as Q. pose proof (@read_types _ ep_kind _ _ _ P Ey Tf) as Q'.
  assert (Nm : e_name (de_event d) = to_camel_case (e_name e)) by (rewrite Ed; reflexivity).
  eexists _, (IStruct _ _ (combine names tys)), names. split; [ exact T | ]. split; [ unfold log_tree; rewrite En; cbn [bind]; rewrite Ey; cbn [bind]; rewrite Cn; reflexivity | ].
  split; [ apply field_names_iff in En as [ En _ ]; exact En | ]. split.
  - exists items. cbn zeta. split; [ reflexivity | ]. rewrite Nm. split; [ | split; [ | split; [ | split; [ | split; [ | split; [ | split ] ] ] ] ] ].
    + exists (fn_event e inputs). repeat split.
    + exists (fn_filter (topic_bounds kinds) topics init). split; [ repeat split | split; [ | split; [ apply read_topics; assumption | reflexivity ] ] ].
      cbn [fn_filter fn_params]. rewrite typed_names, Et, Ed. reflexivity.
    + exists (fn_wildcard_filter topics). repeat split.
    + exists (fn_parse_log (to_camel_case (e_name e)) (combine names to_log)). repeat split.
    + intros n. apply (H n).
    + intros n args M. apply (H n), M.
    + intros n. apply (H n).
    + intros n l. apply (H n).
  - exists (combine names tys). rewrite Nm. split; [ reflexivity | ].
    assert (L : length names = length tys) by (rewrite (DeriveTextFacts.mapM_length _ _ Ey); eapply DeriveTextFacts.field_names_length; exact En). split.
    + clear -L. revert tys L. induction names as [ | n names IH ]; intros [ | t tys ] L; try discriminate; [ reflexivity | ]. cbn [combine map fst]. f_equal. apply IH. injection L. auto.
    + replace (map snd (combine names tys)) with tys; [ exact Q' | ]. clear -L. revert tys L. induction names as [ | n names IH ]; intros [ | t tys ] L; try discriminate; [ reflexivity | ]. cbn [combine map snd]. f_equal. apply IH. injection L. auto.
Qed.
Lemma functions_generated l ds : mapM (derive_function p) l = Ok ds -> exists is, mapM function_tree l = Ok is /\ Forall2 (function_module p) ds is.
Proof.
  intros E. apply mapM_ok in E. induction E as [ | f d l ds D _ IH ]; [ exists []; split; [ reflexivity | constructor ] | ].
  destruct IH as (is & T & F). destruct (function_generated _ D) as (i & Ti & M). exists (i :: is). cbn [mapM]. rewrite Ti. cbn [bind]. rewrite T. split; [ reflexivity | constructor; assumption ].
Qed.
Lemma events_generated l ds : mapM (derive_event p) l = Ok ds -> exists is js, mapM event_tree l = Ok is /\ mapM log_tree l = Ok js /\ Forall3 (event_code p) ds is js.
Proof.
  intros E. apply mapM_ok in E. induction E as [ | e d l ds D _ IH ]; [ exists [], []; repeat split; constructor | ].
  destruct IH as (is & js & T & U & F). destruct (event_generated _ D) as (i & j & names & Ti & Tj & N & M & S). exists (i :: is), (j :: js). cbn [mapM]. rewrite Ti, Tj. cbn [bind]. rewrite T, U.
  split; [ reflexivity | split; [ reflexivity | constructor; [ | assumption ] ] ]. exists names. split; [ | split; assumption ].
  apply derive_event_inv in D as (_ & -> & _). exact N.
Qed.
Lemma contract_generated c fs es d : derive_contract p c fs es = Ok d ->
  exists items, contract_tree c fs es = Ok items /\ DeriveText.contract_text c fs es = Ok (wr_items items) /\ contract_code p d items.
Proof.
  unfold derive_contract. intros E. apply bind_ok in E as (k & Ek & E). apply bind_ok in E as (dfs & Ef & E). apply bind_ok in E as (des & Ee & E).
  apply check_ok in E as [ C -> ]. apply andb_true_iff in C as [ C _ ]. apply andb_true_iff in C as [ C C3 ]. apply andb_true_iff in C as [ C1 C2 ].
  destruct (functions_generated _ Ef) as (fi & Tf & Mf). destruct (events_generated _ Ee) as (ei & li & Te & Tl & Me).
  assert (K : exists ki, (match c_constructor c with None => Ok [] | Some k => do i <- constructor_tree k; Ok [i] end) = Ok ki /\ constructor_code p k ki).
  { destruct (c_constructor c) as [ x | ]; [ | injection Ek as <-; exists []; split; reflexivity ]. apply bind_ok in Ek as (dk & Ek & Q). injection Q as <-.
    destruct (constructor_generated _ Ek) as (i & Ti & M). exists [i]. rewrite Ti. split; [ reflexivity | ]. exists i. auto. }
  destruct K as (ki & Tk & Mk). eexists. assert (T : contract_tree c fs es = Ok _) by (unfold contract_tree; rewrite Tk; cbn [bind]; rewrite Tf; cbn [bind]; rewrite Te; cbn [bind]; rewrite Tl; cbn [bind]; reflexivity).
  split; [ exact T | ]. split; [ rewrite DeriveTextFacts.contract_ok, T; reflexivity | ].
  exists ki, fi, ei, li, [segments ["super"; "INTERNAL_ERR"]%string], [segments ["super"; "INTERNAL_ERR"]%string], [segments ["super"; "INTERNAL_ERR"]%string; segments ["ethabi"%string]].
  eexists _, _, _. split; [ reflexivity | ]. cbn [dc_constructor dc_functions dc_events]. rewrite !distinct_NoDup in *. auto 10.
Qed.
End Profile.

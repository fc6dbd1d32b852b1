(** * When the macro writes code at all *)
From Verif Require Import Base BaseFacts StrFacts Types TypeNames Tokenizer AbiSpec Function Event EventSpec Contract Keccak TypeNamesSpec Encoder Decoder Heck Derive DeriveSpec DeriveFacts DeriveCalls DeriveEvents DeriveAccepts
  FilterFacts RustSyntax DeriveTree RustEval GeneratedSpec DeriveRun DeriveModules DeriveLogs DeriveGenerated DeriveRefused DeriveDecides.
From Verif Require DeriveText DeriveTextFacts.
From Coq Require Import String Lia.
Set Implicit Arguments.
Notation length := List.length.
Local Open Scope N_scope.
Local Open Scope list_scope.

Lemma writable_iff l : writable_types l <-> forallb no_tuple l = true.
Proof.
  unfold writable_types. rewrite forallb_forall, Forall_forall. split; intros H t I; apply H, I.
Qed.
Lemma function_written f : (exists i, function_tree f = Ok i) <-> writable_function f.
Proof.
  unfold writable_function. rewrite !writable_iff. split.
  - intros [ i E ]. destruct (function_inv _ E) as (inputs & outputs & result & body & bounds & names & tokenize & -> & Im & En & Eb & Et & Er & Ei & Eo & Ni & No).
    apply input_names_iff in En. eauto.
  - intros ((names & N) & Im & Ni & No). apply input_names_iff in N. unfold function_tree. rewrite N. cbn [bind]. destruct (bounds_tree_exists _ Ni) as [ bounds -> ]. cbn [bind].
    destruct (@all_exist _ _ p_kind (fun q => type_tree (p_kind q)) (f_inputs f)) as [ kinds -> ]; [ intros; apply type_tree_exists; assumption | exact Ni | ]. cbn [bind].
    destruct (tokenize_tree_exists names _ Ni) as [ tokenize -> ]. cbn [bind]. destruct (output_tree_exists _ No) as [ result -> ]. cbn [bind]. destruct (decode_tree_exists _ No) as [ body -> ]. cbn [bind].
    destruct (params_tree_exists _ Ni) as [ inputs -> ]. cbn [bind]. destruct (params_tree_exists _ No) as [ outputs -> ]. cbn [bind]. rewrite (proj2 (ident_ok _ _) (conj eq_refl Im)). cbn [bind]. eauto.
Qed.
Lemma constructor_written k : (exists i, constructor_tree k = Ok i) <-> writable_constructor k.
Proof.
  unfold writable_constructor. rewrite !writable_iff. split.
  - intros [ i E ]. destruct (constructor_inv _ E) as (bounds & names & inputs & tokenize & -> & En & Eb & Et & Ei & Ni). apply input_names_iff in En. eauto.
  - intros ((names & N) & Ni). apply input_names_iff in N. unfold constructor_tree. rewrite N. cbn [bind]. destruct (bounds_tree_exists _ Ni) as [ bounds -> ]. cbn [bind].
    destruct (@all_exist _ _ p_kind (fun q => type_tree (p_kind q)) (k_inputs k)) as [ kinds -> ]; [ intros; apply type_tree_exists; assumption | exact Ni | ]. cbn [bind].
    destruct (tokenize_tree_exists names _ Ni) as [ tokenize -> ]. cbn [bind]. destruct (params_tree_exists _ Ni) as [ inputs -> ]. cbn [bind]. eauto.
Qed.
Lemma log_written e : (exists i, log_tree e = Ok i) <->
  (exists names, named field_name (e_inputs e) names /\ Forall identifier names) /\ identifier (to_camel_case (e_name e)) /\ writable_types (map ep_kind (e_inputs e)).
Proof.
  rewrite !writable_iff. split.
  - intros [ i E ]. unfold log_tree in E. apply bind_ok in E as (names & En & E). apply bind_ok in E as (types & Et & E). apply bind_ok in E as (m & Em & E). apply ident_ok in Em as [ -> Im ].
    apply field_names_iff in En. split; [ eauto | split; [ exact Im | ] ]. exact (@all_tuple _ _ ep_kind (fun q => type_tree (ep_kind q)) _ _ (fun x y H => type_tree_tuple _ H) Et).
  - intros ((names & N) & Im & Ni). apply field_names_iff in N. unfold log_tree. rewrite N. cbn [bind].
    destruct (@all_exist _ _ ep_kind (fun q => type_tree (ep_kind q)) (e_inputs e)) as [ kinds -> ]; [ intros; apply type_tree_exists; assumption | exact Ni | ]. cbn [bind].
    rewrite (proj2 (ident_ok _ _) (conj eq_refl Im)). cbn [bind]. eauto.
Qed.
Lemma event_written e : ((exists i, event_tree e = Ok i) /\ (exists j, log_tree e = Ok j)) <-> writable_event e.
Proof.
  unfold writable_event. rewrite log_written. split.
  - intros [ [ i E ] (N & Ic & W) ]. split; [ exact N | split; [ | split; assumption ] ].
    unfold event_tree in E. do 5 apply bind_ok in E as (? & _ & E). apply bind_ok in E as (m & Em & E). apply ident_ok in Em as [ -> Im ]. exact Im.
  - intros ((names & N) & Im & Ic & W). split; [ | eauto ]. pose proof (proj1 (writable_iff _) W) as NP. pose proof (proj2 (field_names_iff _ _) N) as En. unfold event_tree. rewrite En. cbn [bind].
    destruct (@all_exist _ _ ep_kind (fun q => from_token_tree (ep_kind q) log_next) (e_inputs e)) as [ to_log -> ]; [ intros; apply from_token_tree_exists; assumption | exact NP | ]. cbn [bind].
    set (topics := filter ep_indexed (e_inputs e)).
    assert (NT : forallb no_tuple (map ep_kind topics) = true).
    { rewrite forallb_forall in *. intros t I. apply NP. apply in_map_iff in I as (q & <- & I). apply in_map. apply filter_In in I as [ I _ ]. exact I. }
    destruct (@all_exist _ _ ep_kind (fun q => type_tree (ep_kind q)) topics) as [ kinds -> ]; [ intros; apply type_tree_exists; assumption | exact NT | ]. cbn [bind].
    set (tn := topic_names (e_inputs e) names).
    assert (Ft : exists init, filter_init_tree (firstn 3 (combine tn topics)) = Ok init).
    { unfold filter_init_tree, mapi. generalize 0%nat, 3%nat. intros i m. clear -NT. clearbody topics. revert i m topics NT. generalize tn. intros l. induction l as [ | n l IH ]; intros i m topics NT.
      - cbn [combine]. rewrite firstn_nil. eexists. reflexivity.
      - destruct topics as [ | q topics ]; [ cbn [combine]; rewrite firstn_nil; eexists; reflexivity | ]. destruct m as [ | m ]; [ eexists; reflexivity | ].
        cbn [combine firstn mapi_from mapM fst snd]. cbn [map forallb] in NT. apply andb_true_iff in NT as [ N1 N2 ].
        destruct (to_token_tree_exists _ N1 (name "i")) as [ z -> ]. cbn [bind]. destruct (IH (S i) m topics N2) as [ r -> ]. eexists. reflexivity. }
    destruct Ft as [ init -> ]. cbn [bind].
    destruct (@all_exist _ _ ep_kind event_param_tree (e_inputs e)) as [ inputs -> ]; [ intros x _ Nx; unfold event_param_tree; destruct (syntax_tree_exists _ Nx) as [ z -> ]; eexists; reflexivity | exact NP | ]. cbn [bind].
    rewrite (proj2 (ident_ok _ _) (conj eq_refl Im)), (proj2 (ident_ok _ _) (conj eq_refl Ic)). cbn [bind]. eauto.
Qed.
Lemma mapM_all A B (f : A -> res B) l r : mapM f l = Ok r -> Forall (fun x => exists y, f x = Ok y) l.
Proof. intros E. apply mapM_ok in E. induction E; constructor; eauto. Qed.
Lemma contract_written c fs es : (exists items, contract_tree c fs es = Ok items) <->
  (forall k, c_constructor c = Some k -> writable_constructor k) /\ Forall writable_function (iterate fs) /\ Forall writable_event (iterate es).
Proof.
  split.
  - intros [ items E ]. destruct (contract_tree_inv _ _ _ E) as (k & functions & events & logs & uses & doc1 & doc2 & doc3 & use1 & use2 & use3 & -> & K & Ef & Ee & El).
    apply mapM_all in Ef, Ee, El. split; [ intros x X; rewrite X in K; destruct K as (i & Ei & _); apply constructor_written; eauto | ]. split.
    + eapply Forall_impl; [ | exact Ef ]. intros f H. apply function_written, H.
    + rewrite Forall_forall in *. intros e I. apply event_written. auto.
  - intros (K & F & V). unfold contract_tree.
    assert (Q : exists k, match c_constructor c with None => Ok [] | Some k => do i <- constructor_tree k; Ok [i] end = Ok k).
    { destruct (c_constructor c) as [ x | ]; [ destruct (proj2 (constructor_written x) (K x eq_refl)) as [ i -> ]; cbn [bind]; eauto | eauto ]. }
    destruct Q as [ k -> ]. cbn [bind].
    destruct (@mapM_exists _ _ function_tree (iterate fs)) as [ fi -> ]; [ eapply Forall_impl; [ | exact F ]; intros f H; apply function_written, H | ]. cbn [bind].
    destruct (@mapM_exists _ _ event_tree (iterate es)) as [ ei -> ]; [ eapply Forall_impl; [ | exact V ]; intros e H; apply event_written, H | ]. cbn [bind].
    destruct (@mapM_exists _ _ log_tree (iterate es)) as [ li -> ]; [ eapply Forall_impl; [ | exact V ]; intros e H; apply event_written, H | ]. cbn [bind]. eauto.
Qed.

(** ** Otherwise it panics *)
Lemma firm_syntax : forall t, firm (syntax_tree t). Proof. firm_types. Qed.
Lemma firm_to_token t : forall e, firm (to_token_tree e t).
Proof. induction t using ParamType_ind'; intros e; cbn [to_token_tree]; try apply firm_ok; try (left; reflexivity); (apply firm_bind; [ apply IHt | intros; apply firm_ok ]). Qed.
Lemma firm_from_token t : forall e, firm (from_token_tree t e).
Proof. induction t using ParamType_ind'; intros e; cbn [from_token_tree]; try apply firm_ok; try (left; reflexivity); (apply firm_bind; [ apply IHt | intros; apply firm_ok ]). Qed.
Lemma firm_bounds inputs : firm (bounds_tree inputs).
Proof. unfold bounds_tree. apply firm_bind; [ apply firm_mapi; intros; apply firm_bound | intros; apply firm_ok ]. Qed.
Lemma firm_params l : firm (params_tree l).
Proof. unfold params_tree. apply firm_bind; [ | intros; apply firm_ok ]. apply firm_mapM. intros x. unfold param_tree. apply firm_bind; [ apply firm_syntax | intros; apply firm_ok ]. Qed.
Lemma firm_output l : firm (output_tree l).
Proof. unfold output_tree. destruct l as [ | x [ | y l ] ]; [ apply firm_ok | apply firm_type | apply firm_bind; [ apply firm_mapM; intros; apply firm_type | intros; apply firm_ok ] ]. Qed.
Lemma firm_decode l : firm (decode_tree l).
Proof.
  unfold decode_tree. destruct l as [ | x [ | y l ] ]; [ apply firm_ok | apply firm_bind; [ apply firm_from_token | intros; apply firm_ok ] | ].
  apply firm_bind; [ apply firm_mapM; intros; apply firm_from_token | intros; apply firm_ok ].
Qed.
Ltac firm_steps := repeat (apply firm_bind; [ first [ apply firm_names | apply firm_fields | apply firm_bounds | apply firm_params | apply firm_output | apply firm_decode | apply firm_ident |
  apply firm_mapM; intros; first [ apply firm_type | apply firm_from_token | apply firm_to_token ] ] | intros ]).
Lemma firm_function f : firm (function_tree f).
Proof. unfold function_tree. firm_steps. apply firm_ok. Qed.
Lemma firm_constructor k : firm (constructor_tree k).
Proof. unfold constructor_tree. firm_steps. apply firm_ok. Qed.
Lemma firm_log e : firm (log_tree e).
Proof. unfold log_tree. firm_steps. apply firm_ok. Qed.
Lemma firm_event e : firm (event_tree e).
Proof.
  unfold event_tree. firm_steps. apply firm_bind; [ unfold filter_init_tree; apply firm_mapi; intros; apply firm_bind; [ apply firm_to_token | intros; apply firm_ok ] | intros ].
  apply firm_bind; [ apply firm_mapM; intros; unfold event_param_tree; apply firm_bind; [ apply firm_syntax | intros; apply firm_ok ] | intros ]. firm_steps. apply firm_ok.
Qed.
Lemma firm_contract c fs es : firm (contract_tree c fs es).
Proof.
  unfold contract_tree. apply firm_bind; [ destruct (c_constructor c); [ apply firm_bind; [ apply firm_constructor | intros; apply firm_ok ] | apply firm_ok ] | intros ].
  apply firm_bind; [ apply firm_mapM; intros; apply firm_function | intros ]. apply firm_bind; [ apply firm_mapM; intros; apply firm_event | intros ].
  apply firm_bind; [ apply firm_mapM; intros; apply firm_log | intros ]. apply firm_ok.
Qed.

(** ** Text *)
Lemma text_written c fs es :
  ((exists text, DeriveText.contract_text c fs es = Ok text) <->
   (forall k, c_constructor c = Some k -> writable_constructor k) /\ Forall writable_function (iterate fs) /\ Forall writable_event (iterate es)) /\
  ((forall text, DeriveText.contract_text c fs es <> Ok text) -> DeriveText.contract_text c fs es = Panic).
Proof.
  rewrite DeriveTextFacts.contract_ok, <- contract_written. destruct (firm_contract c fs es) as [ -> | [ items -> ] ]; cbn [rmap bind].
  - split; [ split; intros [ x X ]; discriminate | auto ].
  - split; [ split; eauto | ]. intros H. destruct (H _ eq_refl).
Qed.
Lemma text_decided p c fs es text : DeriveText.contract_text c fs es = Ok text ->
  exists items, text = wr_items items /\ ((exists d, derive_contract p c fs es = Ok d) <-> ~ refused_code p items).
Proof.
  rewrite DeriveTextFacts.contract_ok. intros E. destruct (contract_tree c fs es) as [ items | | ] eqn:T; try discriminate. injection E as <-. exists items. split; [ reflexivity | ].
  apply contract_decided. exact T.
Qed.

(** ** Together with what the derived interfaces do *)
Lemma generated_encode p f d args xs s : derive_function p f = Ok d -> Forall3 argument (map p_kind (f_inputs f)) args xs ->
  canonical_signature (f_name f) (map p_kind (f_inputs f)) s -> forallb solidity_type (map p_kind (f_inputs f)) = true -> forallb short_arrays xs = true ->
  enc_size (PTuple (map p_kind (f_inputs f))) (TTuple xs) < two32 ->
  exists m items, DeriveText.function_text f = Ok (wr_item (IMod None m items)) /\
    forall n, call p (S (S n)) items [lit "encode_input"] (map inj args) = Done (VBytes (firstn 4 (keccak256 (utf8 s)) ++ abi_encode (map p_kind (f_inputs f)) xs)).
Proof.
  intros D A C S H Z. destruct (function_generated p _ D) as (i & T & items & -> & _ & _ & _ & _ & _ & _ & E & _). exists (df_module d), items.
  split; [ rewrite DeriveTextFacts.function_ok, T; reflexivity | ]. intros n. destruct (E n args) as [ -> _ ]; [ apply (@derived_arguments p f d args D); eauto | ].
  rewrite (@derived_encode p f d args xs s D A C S H Z). reflexivity.
Qed.
Lemma generated_decode p f d vs xs data : derive_function p f = Ok d -> f_outputs f <> [] ->
  Forall3 denotes (map p_kind (f_outputs f)) vs xs -> decode p (map p_kind (f_outputs f)) data = Ok xs ->
  exists m items, DeriveText.function_text f = Ok (wr_item (IMod None m items)) /\
    forall n, call p (S (S n)) items [lit "decode_output"] [VBytes data] = Done (VOk (results vs)).
Proof.
  intros D O A E. destruct (function_generated p _ D) as (i & T & items & -> & _ & _ & _ & _ & _ & _ & _ & R). exists (df_module d), items.
  split; [ rewrite DeriveTextFacts.function_ok, T; reflexivity | ]. intros n. destruct (R n data) as [ -> _ ]. rewrite (@derived_decode p f d vs xs D O A data E). reflexivity.
Qed.
Lemma generated_parse p e d xs log vs : derive_event p e = Ok d -> camel (e_name e) \/ e_anonymous e = true -> emits e xs log ->
  have_types xs (map ep_kind (e_inputs e)) = true -> NoDup (map ep_name (e_inputs e)) ->
  forallb wf_type (map ep_kind (e_inputs e)) = true -> forallb solidity_type (map ep_kind (e_inputs e)) = true ->
  forallb short_arrays xs = true -> len (e_inputs e) < 2 ^ 56 ->
  enc_size (PTuple (map ep_kind (isel false (e_inputs e)))) (TTuple (values_of (select false (e_inputs e) xs))) < two32 ->
  forallb value_type (map ep_kind (isel true (e_inputs e))) = true -> Forall3 denotes (map ep_kind (e_inputs e)) vs xs ->
  exists m items names, DeriveText.event_text e = Ok (wr_item (IMod None m items)) /\ DeriveSpec.named field_name (e_inputs e) names /\
    forall n, call p (S (S n)) items [lit "parse_log"] [VRawLog log] =
      Done (VOk (VRecord (segments ["super"; "super"; "logs"]%string ++ [to_camel_case (e_name e)]) (combine names (map inj vs)))).
Proof.
  intros D H1 H2 H3 H4 H5 H6 H7 H8 H9 H10 H11. destruct (event_generated p _ D) as (i & j & names & T & _ & N & (items & -> & _ & _ & _ & _ & _ & _ & _ & R) & _).
  exists (de_module d), items, names. split; [ rewrite DeriveTextFacts.event_ok, T; reflexivity | ]. split; [ exact N | ]. intros n. rewrite R.
  rewrite (@derived_values p e d xs log D H1 H2 H3 H4 H5 H6 H7 H8 H9 vs H10 H11). apply derive_event_inv in D as (_ & -> & _). reflexivity.
Qed.

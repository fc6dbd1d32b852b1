(** * The statements about JSON and contracts, put together *)
From Verif Require Import Base Types TypeNames TypeNamesSpec Function Event Json JsonSpec Contract ContractSpec BaseFacts StrFacts EncoderFacts
  DecoderFacts TypeNamesFacts ReaderFacts ReaderTotal TokenTotal FunctionFacts CodecLemmas EncoderTotal JsonFacts ItemFacts LoadFacts ContractFacts LoadTotal.
From Coq Require Import String Permutation.
From Coq Require Import ZifyBool ZifyNat ZifyN.
Set Implicit Arguments.
Local Open Scope N_scope.
Local Open Scope list_scope.
Notation length := List.length.

(** ** Text level of parameters *)
Lemma from_text_ok A (f : json -> res A) j a : f j = Ok a -> (from_text f j = Ok a <-> json_depth j <= 127).
Proof. intros E. unfold from_text. destruct (N.leb_spec (json_depth j) 127); rewrite ?E; split; auto; (lia || discriminate). Qed.
Lemma param_text p a : wf_type (p_kind a) = true -> (from_text (de_param p Text) (se_param a) = Ok a <-> component_depth (p_kind a) <= 126).
Proof. intros W. rewrite from_text_ok by now apply param_round. rewrite se_param_depth. lia. Qed.
Lemma event_param_text p a : wf_type (ep_kind a) = true -> (from_text (de_event_param p Text) (se_event_param a) = Ok a <-> component_depth (ep_kind a) <= 126).
Proof. intros W. rewrite from_text_ok by now apply event_param_round. rewrite se_event_param_depth. lia. Qed.
Lemma tuple_param_text p a : wf_type (tp_kind a) = true -> (from_text (de_tuple_param p Text) (se_tuple_param a) = Ok a <-> component_depth (tp_kind a) <= 126).
Proof. intros W. rewrite from_text_ok by now apply tuple_param_round. rewrite se_tuple_param_depth. lia. Qed.

(** ** Contracts *)
Definition lookup {A} (name : A -> str) (l : list A) (n : str) : res (list A) :=
  match filter (fun x => str_eqb (name x) n) l with [] => Err (InvalidName n) | r => Ok r end.
Lemma lookup_named A (name : A -> str) l n : ok_or_name (named name l n) n =
  match filter (fun x => str_eqb (name x) n) l with [] => Err (InvalidName n) | r => Ok r end.
Proof. unfold named. destruct (filter _ l); reflexivity. Qed.
Lemma first_named A (name : A -> str) l n : ok_or_name (first_of (named name l n)) n =
  match find (fun x => str_eqb (name x) n) l with Some x => Ok x | None => Err (InvalidName n) end.
Proof.
  unfold named. induction l as [|x l IH]; [reflexivity|]. cbn [filter find]. destruct (str_eqb (name x) n); [reflexivity|exact IH].
Qed.
Lemma represents_lookup c ops : represents c ops ->
  (forall n, functions_by_name c n = match filter (fun f => str_eqb (f_name f) n) (functions_of ops) with [] => Err (InvalidName n) | r => Ok r end) /\
  (forall n, events_by_name c n = match filter (fun e => str_eqb (e_name e) n) (events_of ops) with [] => Err (InvalidName n) | r => Ok r end) /\
  (forall n, function c n = match find (fun f => str_eqb (f_name f) n) (functions_of ops) with Some f => Ok f | None => Err (InvalidName n) end) /\
  (forall n, event c n = match find (fun e => str_eqb (e_name e) n) (events_of ops) with Some e => Ok e | None => Err (InvalidName n) end) /\
  (forall order, Permutation (c_functions c) order -> Permutation (iterate order) (functions_of ops)) /\
  (forall order, Permutation (c_events c) order -> Permutation (iterate order) (events_of ops)) /\
  contract_constructor c = last_of (constructors_of ops) /\
  (c_receive c = true <-> In OpReceive ops) /\ (c_fallback c = true <-> In OpFallback ops).
Proof.
  intros (R1 & (W2 & R2 & P2) & (W3 & R3 & P3) & R4 & R5).
  repeat match goal with |- _ /\ _ => split end.
  - intros n. unfold functions_by_name. rewrite R2. apply lookup_named.
  - intros n. unfold events_by_name. rewrite R3. apply lookup_named.
  - intros n. unfold function. rewrite R2. apply first_named.
  - intros n. unfold event. rewrite R3. apply first_named.
  - intros order P. rewrite <- P2. now apply iterate_perm, Permutation_sym.
  - intros order P. rewrite <- P3. now apply iterate_perm, Permutation_sym.
  - exact R1.
  - rewrite R4, existsb_exists. split; [intros (o & I & H); destruct o; try discriminate; exact I|intros I; exists OpReceive; auto].
  - rewrite R5, existsb_exists. split; [intros (o & I & H); destruct o; try discriminate; exact I|intros I; exists OpFallback; auto].
Qed.
Lemma load_ok p j c : load p j = Ok c -> de_contract p j = Ok c /\ json_depth j <= 127.
Proof. unfold load, from_text. destruct (N.leb_spec (json_depth j) 127); [auto|discriminate]. Qed.
Lemma loaded_lookup p j c : load p j = Ok c ->
  exists items ops, j = JArr items /\ Forall2 (fun item o => de_operation p item = Ok o) items ops /\
  (forall n, functions_by_name c n = match filter (fun f => str_eqb (f_name f) n) (functions_of ops) with [] => Err (InvalidName n) | r => Ok r end) /\
  (forall n, events_by_name c n = match filter (fun e => str_eqb (e_name e) n) (events_of ops) with [] => Err (InvalidName n) | r => Ok r end) /\
  (forall n, function c n = match find (fun f => str_eqb (f_name f) n) (functions_of ops) with Some f => Ok f | None => Err (InvalidName n) end) /\
  (forall n, event c n = match find (fun e => str_eqb (e_name e) n) (events_of ops) with Some e => Ok e | None => Err (InvalidName n) end) /\
  (forall order, Permutation (c_functions c) order -> Permutation (iterate order) (functions_of ops)) /\
  (forall order, Permutation (c_events c) order -> Permutation (iterate order) (events_of ops)) /\
  contract_constructor c = last_of (constructors_of ops) /\
  (c_receive c = true <-> In OpReceive ops) /\ (c_fallback c = true <-> In OpFallback ops).
Proof.
  intros L. apply load_ok in L as [E _]. apply loaded_represents in E as (items & ops & -> & Eo & R). exists items, ops.
  split; [reflexivity|]. split; [now apply mapM_ok|]. now apply represents_lookup.
Qed.
Lemma standard_loads p j ops : contract_json j ops -> forallb wf_operation ops = true -> json_depth j <= 127 ->
  exists c, load p j = Ok c /\
  (forall n, functions_by_name c n = match filter (fun f => str_eqb (f_name f) n) (functions_of ops) with [] => Err (InvalidName n) | r => Ok r end) /\
  (forall n, events_by_name c n = match filter (fun e => str_eqb (e_name e) n) (events_of ops) with [] => Err (InvalidName n) | r => Ok r end) /\
  (forall n, function c n = match find (fun f => str_eqb (f_name f) n) (functions_of ops) with Some f => Ok f | None => Err (InvalidName n) end) /\
  (forall n, event c n = match find (fun e => str_eqb (e_name e) n) (events_of ops) with Some e => Ok e | None => Err (InvalidName n) end) /\
  (forall order, Permutation (c_functions c) order -> Permutation (iterate order) (functions_of ops)) /\
  (forall order, Permutation (c_events c) order -> Permutation (iterate order) (events_of ops)) /\
  contract_constructor c = last_of (constructors_of ops) /\
  (c_receive c = true <-> In OpReceive ops) /\ (c_fallback c = true <-> In OpFallback ops).
Proof.
  intros J W D. destruct (contract_text p p J W D) as (c & E & R & _). exists c. split; [exact E|]. now apply represents_lookup.
Qed.
Lemma standard_round p p' j ops : contract_json j ops -> forallb wf_operation ops = true -> json_depth j <= 127 ->
  exists c, load p j = Ok c /\
    forall fs es, Permutation (c_functions c) fs -> Permutation (c_events c) es ->
      exists c', load p' (se_contract c fs es) = Ok c' /\ same_contract c c'.
Proof. intros J W D. destruct (contract_text p p' J W D) as (c & E & R & H). eauto. Qed.
Lemma written_standard p j c fs es : load p j = Ok c -> Permutation (c_functions c) fs -> Permutation (c_events c) es ->
  exists ops, contract_json (se_contract c fs es) ops /\
    Permutation (functions_of ops) (iterate (c_functions c)) /\ Permutation (events_of ops) (iterate (c_events c)) /\
    last_of (constructors_of ops) = c_constructor c /\
    (In OpReceive ops <-> c_receive c = true) /\ (In OpFallback ops <-> c_fallback c = true).
Proof.
  intros L PF PE. apply load_ok in L as [E _]. apply loaded_represents in E as (items & ops0 & -> & Eo & R).
  exists (contract_operations c fs es). repeat match goal with |- _ /\ _ => split end.
  - unfold se_contract. eexists. split; [reflexivity|]. apply mapM_items in Eo. rewrite Forall_forall in Eo.
    assert (H : forall o, In o (contract_operations c fs es) -> plain_operation o = true) by (intros o I; apply Eo; eapply written_from; eauto).
    revert H. generalize (contract_operations c fs es) as l. induction l as [|o l IH]; intros H; cbn [map]; constructor.
    + apply written_item. apply H. now left.
    + apply IH. intros x I. apply H. now right.
  - rewrite ops_functions. now apply iterate_perm, Permutation_sym.
  - rewrite ops_events. now apply iterate_perm, Permutation_sym.
  - apply ops_constructors.
  - rewrite ops_in. split; [|auto 10]. intros [(k & _ & H)|[(f & _ & H)|[(e & _ & H)|[[H _]|[_ H]]]]]; try discriminate. exact H.
  - rewrite ops_in. split; [|auto 10]. intros [(k & _ & H)|[(f & _ & H)|[(e & _ & H)|[[_ H]|[H _]]]]]; try discriminate. exact H.
Qed.
Lemma loaded_types p j c : load p j = Ok c ->
  Forall (fun f => wf_params (f_inputs f) = true /\ wf_params (f_outputs f) = true /\ plain_name (f_name f) = true) (iterate (c_functions c)) /\
  Forall (fun e => wf_event_params (e_inputs e) = true /\ plain_name (e_name e) = true) (iterate (c_events c)) /\
  (forall k, c_constructor c = Some k -> wf_params (k_inputs k) = true).
Proof.
  intros L. apply load_ok in L as [E _]. apply loaded_represents in E as (items & ops & -> & Eo & R).
  destruct R as (R1 & (_ & _ & P2) & (_ & _ & P3) & _). apply mapM_items in Eo. rewrite Forall_forall in Eo.
  repeat match goal with |- _ /\ _ => split end.
  - apply Forall_forall. intros f I. apply (Permutation_in _ P2) in I. apply functions_in in I. apply Eo in I as [W P]. cbn in *. apply andb_true_iff in W as [W1 W2]. auto.
  - apply Forall_forall. intros e I. apply (Permutation_in _ P3) in I. apply events_in in I. apply Eo in I as [W P]. auto.
  - intros k H. rewrite R1 in H. apply last_in, constructors_in in H. now apply Eo in H.
Qed.

(** ** Order, duplicates, unknown keys *)
Lemma perm_iff A (f : json -> res A) : (forall l l' a, Permutation l l' -> f (JObj l) = Ok a -> f (JObj l') = Ok a) ->
  forall l l' a, Permutation l l' -> (f (JObj l) = Ok a <-> f (JObj l') = Ok a).
Proof. intros H l l' a P. split; apply H; auto using Permutation_sym. Qed.
Lemma any_order p src l l' : Permutation l l' ->
  (forall a, de_param p src (JObj l) = Ok a <-> de_param p src (JObj l') = Ok a) /\
  (forall a, de_event_param p src (JObj l) = Ok a <-> de_event_param p src (JObj l') = Ok a) /\
  (forall a, de_tuple_param p src (JObj l) = Ok a <-> de_tuple_param p src (JObj l') = Ok a) /\
  (forall o, de_operation p (JObj l) = Ok o <-> de_operation p (JObj l') = Ok o).
Proof.
  intros P. repeat match goal with |- _ /\ _ => split end; intros x; split; intros E.
  all: first [eapply de_param_perm|eapply de_event_param_perm|eapply de_tuple_param_perm|eapply de_operation_perm];
    [|exact E]; auto using Permutation_sym.
Qed.
Lemma text_keys vis p l st : visit_map p Text vis l no_fields = Ok st -> Forall (fun e => In (fst e) (vis_keys vis)) l.
Proof. intros V. apply visit_map_visited in V as (_ & _ & _ & _ & _ & V). now apply V. Qed.
Lemma unknown_keys_text p l :
  (forall a, de_param p Text (JObj l) = Ok a -> Forall (fun e => In (fst e) component_keys) l) /\
  (forall a, de_tuple_param p Text (JObj l) = Ok a -> Forall (fun e => In (fst e) component_keys) l) /\
  (forall a, de_event_param p Text (JObj l) = Ok a -> Forall (fun e => In (fst e) [lit "type"; lit "components"; lit "name"; lit "indexed"]) l).
Proof.
  repeat match goal with |- _ /\ _ => split end; intros a E.
  - cbn [de_param] in E. apply bind_ok in E as (st & V & _). exact (text_keys _ _ _ V).
  - rewrite de_tuple_param_obj in E. apply bind_ok in E as (st & V & _). exact (text_keys _ _ _ V).
  - cbn [de_event_param] in E. apply bind_ok in E as (st & V & _). exact (text_keys _ _ _ V).
Qed.
Lemma keyed_filter keys l k : In k keys -> keyed (filter (fun e => existsb (str_eqb (fst e)) keys) l) k = keyed l k.
Proof.
  intros I. unfold keyed. f_equal. induction l as [|[k' v] l IH]; [reflexivity|]. cbn [filter fst].
  destruct (existsb (str_eqb k') keys) eqn:E; cbn [filter fst].
  - destruct (str_eqb k' k); [f_equal|]; exact IH.
  - destruct (str_eqb k' k) eqn:E'; [|exact IH]. apply str_eqb_eq in E'. subst k'.
    assert (existsb (str_eqb k) keys = true) by (apply existsb_exists; exists k; split; [exact I|apply str_eqb_refl]). congruence.
Qed.
Lemma visit_filter p vis l st : visit_map p Buffered vis (filter (fun e => existsb (str_eqb (fst e)) (vis_keys vis)) l) no_fields = Ok st <->
  visit_map p Buffered vis l no_fields = Ok st.
Proof.
  assert (H : forall A k (f : json -> res A) o, In k (vis_keys vis) ->
    (opt_field (filter (fun e => existsb (str_eqb (fst e)) (vis_keys vis)) l) k f o <-> opt_field l k f o)).
  { intros A k f o I. unfold opt_field. now rewrite keyed_filter. }
  rewrite !visit_map_visited. unfold visited. cbn [no_fields fd_name fd_kind fd_indexed fd_internal fd_components]. unfold more_field.
  rewrite (H _ (lit "name")), (H _ (lit "type")), (H _ (lit "components")) by (unfold vis_keys; cbn; tauto).
  assert (HI : (if knows_internal vis then opt_field (filter (fun e => existsb (str_eqb (fst e)) (vis_keys vis)) l) (lit "internalType") de_string (fd_internal st) else fd_internal st = None) <->
    (if knows_internal vis then opt_field l (lit "internalType") de_string (fd_internal st) else fd_internal st = None)).
  { destruct (knows_internal vis) eqn:K; [|reflexivity]. apply H. unfold vis_keys. rewrite K. cbn. tauto. }
  assert (HX : (if knows_indexed vis then opt_field (filter (fun e => existsb (str_eqb (fst e)) (vis_keys vis)) l) (lit "indexed") de_bool (fd_indexed st) else fd_indexed st = None) <->
    (if knows_indexed vis then opt_field l (lit "indexed") de_bool (fd_indexed st) else fd_indexed st = None)).
  { destruct (knows_indexed vis) eqn:K; [|reflexivity]. apply H. unfold vis_keys. rewrite K. destruct (knows_internal vis); cbn; tauto. }
  assert (HT : forall P : Prop, Buffered = Text -> P) by discriminate.
  destruct (knows_internal vis), (knows_indexed vis); rewrite ?HI, ?HX; intuition (auto; discriminate).
Qed.
Lemma unknown_keys_buffered p l a : 
  (de_param p Buffered (JObj (filter (fun e => existsb (str_eqb (fst e)) component_keys) l)) = Ok a <-> de_param p Buffered (JObj l) = Ok a).
Proof.
  cbn [de_param]. rewrite !bind_ok. change component_keys with (vis_keys VParam).
  split; intros (st & V & E); exists st; (split; [|exact E]); now apply visit_filter.
Qed.
Lemma unknown_keys_buffered_event p l a : 
  (de_event_param p Buffered (JObj (filter (fun e => existsb (str_eqb (fst e)) [lit "type"; lit "components"; lit "name"; lit "indexed"]) l)) = Ok a <->
   de_event_param p Buffered (JObj l) = Ok a).
Proof.
  cbn [de_event_param]. rewrite !bind_ok. change [lit "type"; lit "components"; lit "name"; lit "indexed"] with (vis_keys VEventParam).
  split; intros (st & V & E); exists st; (split; [|exact E]); now apply visit_filter.
Qed.
Lemma opt_field_once A l k (f : json -> res A) o : opt_field l k f o -> (length (keyed l k) <= 1)%nat.
Proof. unfold opt_field. destruct (keyed l k) as [|v [|v' r]]; cbn; intros H; (lia || contradiction). Qed.
Lemma no_duplicates p src l a : de_param p src (JObj l) = Ok a -> forall k, In k component_keys -> (length (keyed l k) <= 1)%nat.
Proof.
  intros E k I. cbn [de_param] in E. apply bind_ok in E as (st & V & _). apply visit_map_visited in V as (V1 & V2 & V3 & V4 & _).
  cbn [no_fields fd_name fd_kind fd_indexed fd_internal fd_components knows_internal] in *. rewrite more_none in *.
  repeat (destruct I as [<-|I]; [eapply opt_field_once; eassumption|]). destruct I.
Qed.

(** ** Filters *)
Lemma hex_inj a b : hex_encode a = hex_encode b -> a = b.
Proof. intros E. assert (H : hex_decode (hex_encode a) = hex_decode (hex_encode b)) by now rewrite E. rewrite !hex_round in H. congruence. Qed.
Lemma se_topic_inj a b : se_topic a = se_topic b -> a = b.
Proof.
  assert (H : forall x y, JStr (lit "0x" ++ hex_encode x) = JStr (lit "0x" ++ hex_encode y) -> x = y).
  { intros x y E. apply hex_inj. apply (app_inv_head (lit "0x")). congruence. }
  destruct a as [|va|x], b as [|vb|y]; cbn [se_topic]; try discriminate; intros E; auto.
  - f_equal. assert (E' : map (fun h => JStr (lit "0x" ++ hex_encode h)) va = map (fun h => JStr (lit "0x" ++ hex_encode h)) vb) by congruence.
    clear E. revert vb E'. induction va as [|x va IH]; intros [|y vb] E; try discriminate; auto. cbn [map] in E.
    assert (E1 : JStr (lit "0x" ++ hex_encode x) = JStr (lit "0x" ++ hex_encode y)) by congruence.
    rewrite (H _ _ E1). f_equal. apply IH. congruence.
  - f_equal. now apply H.
Qed.
Lemma se_filter_inj a b : se_filter a = se_filter b -> a = b.
Proof.
  intros E. unfold se_filter in E. destruct a as [a0 a1 a2 a3], b as [b0 b1 b2 b3]. cbn [topic0 topic1 topic2 topic3] in E.
  f_equal; apply se_topic_inj; congruence.
Qed.
Lemma sanitize_idempotent text name : sanitize_name text = Ok name -> sanitize_name name = Ok name.
Proof. intros E. apply sanitize_iff in E as [P _]. apply sanitize_iff. split; auto. Qed.

(** ** Which contracts can be written and loaded again *)
Lemma max_of_bound A (f : A -> N) l b : max_of f l <= b <-> (forall a, In a l -> f a <= b).
Proof.
  unfold max_of. induction l as [|a l IH]; cbn [fold_right].
  - split; [intros _ a []|lia].
  - rewrite N.max_lub_iff, IH. split; [intros [H1 H2] x [<-|I]; auto|]. intros H. split; [apply H; now left|]. intros x I. apply H. now right.
Qed.
Lemma params_depth_bound l b : 2 <= b -> (params_depth l <= b <-> (forall k, In k (map p_kind l) -> component_depth k <= b - 2)).
Proof.
  intros B. unfold params_depth. assert (E : forall m, 1 + m <= b <-> m <= b - 1) by lia. rewrite E, max_of_bound. split.
  - intros H k I. apply in_map_iff in I as (a & <- & I). specialize (H a I). cbn beta in H. lia.
  - intros H a I. specialize (H (p_kind a) (in_map _ _ _ I)). lia.
Qed.
Lemma event_params_depth_bound l b : 2 <= b -> (event_params_depth l <= b <-> (forall k, In k (map ep_kind l) -> component_depth k <= b - 2)).
Proof.
  intros B. unfold event_params_depth. assert (E : forall m, 1 + m <= b <-> m <= b - 1) by lia. rewrite E, max_of_bound. split.
  - intros H k I. apply in_map_iff in I as (a & <- & I). specialize (H a I). cbn beta in H. lia.
  - intros H a I. specialize (H (ep_kind a) (in_map _ _ _ I)). lia.
Qed.
Lemma iterate_perm A (l l' : groups A) : Permutation l l' -> forall x, In x (iterate l) <-> In x (iterate l').
Proof.
  intros P x. unfold iterate. rewrite !in_concat. split; intros (y & I & J); exists y; (split; [|exact J]);
    apply in_map_iff in I as (z & E & I); apply in_map_iff; exists z; (split; [exact E|]); [eapply Permutation_in; eauto|].
  eapply Permutation_in; [apply Permutation_sym; exact P|exact I].
Qed.
Lemma contract_types_depth c fs es : Permutation (c_functions c) fs -> Permutation (c_events c) es ->
  (json_depth (se_contract c fs es) <= 127 <-> forall k, In k (types_of c) -> component_depth k <= 123).
Proof.
  intros PF PE. rewrite se_contract_depth. unfold contract_depth. assert (E : forall m, 1 + m <= 127 <-> m <= 126) by lia. rewrite E, max_of_bound. clear E.
  assert (OC : forall k, operation_depth (OpConstructor k) <= 126 <-> (forall t, In t (map p_kind (k_inputs k)) -> component_depth t <= 123)).
  { intros k. pose proof (params_depth_bound (k_inputs k) (b := 125) ltac:(lia)) as H1. change (125 - 2) with 123 in H1. rewrite <- H1. unfold operation_depth. lia. }
  assert (OF : forall f, operation_depth (OpFunction f) <= 126 <-> (forall t, In t (map p_kind (f_inputs f) ++ map p_kind (f_outputs f)) -> component_depth t <= 123)).
  { intros f. pose proof (params_depth_bound (f_inputs f) (b := 125) ltac:(lia)) as H1. pose proof (params_depth_bound (f_outputs f) (b := 125) ltac:(lia)) as H2.
    change (125 - 2) with 123 in *. unfold operation_depth. split.
    - intros H t I. apply in_app_iff in I as [I|I]; [apply H1 in I|apply H2 in I]; auto; lia.
    - intros H. assert (params_depth (f_inputs f) <= 125) by (apply H1; intros; apply H, in_app_iff; auto).
      assert (params_depth (f_outputs f) <= 125) by (apply H2; intros; apply H, in_app_iff; auto). lia. }
  assert (OE : forall e, operation_depth (OpEvent e) <= 126 <-> (forall t, In t (map ep_kind (e_inputs e)) -> component_depth t <= 123)).
  { intros e. pose proof (event_params_depth_bound (e_inputs e) (b := 125) ltac:(lia)) as H1. change (125 - 2) with 123 in H1. rewrite <- H1. unfold operation_depth. lia. }
  unfold types_of. split.
  - intros H k I. rewrite !in_app_iff in I. destruct I as [I|[I|I]].
    + destruct (c_constructor c) as [q|] eqn:Q; [|destruct I]. revert k I. apply OC, H. apply ops_in. left. eauto.
    + apply in_flat_map in I as (f & F & I). revert k I. apply OF, H. apply ops_in. right. left. exists f. split; [|reflexivity]. now apply (iterate_perm PF).
    + apply in_flat_map in I as (e & F & I). revert k I. apply OE, H. apply ops_in. do 2 right. left. exists e. split; [|reflexivity]. now apply (iterate_perm PE).
  - intros H o I. apply ops_in in I as [(q & Q & ->)|[(f & F & ->)|[(e & F & ->)|[[_ ->]|[_ ->]]]]].
    + apply OC. intros t I. apply H. rewrite Q. apply in_app_iff. now left.
    + apply OF. intros t I. apply H. rewrite !in_app_iff. right. left. apply in_flat_map. exists f. split; [|exact I]. now apply (iterate_perm PF).
    + apply OE. intros t I. apply H. rewrite !in_app_iff. right. right. apply in_flat_map. exists e. split; [|exact I]. now apply (iterate_perm PE).
    + vm_compute. discriminate.
    + vm_compute. discriminate.
Qed.
Lemma rewritten_exact p p' j c fs es : load p j = Ok c -> Permutation (c_functions c) fs -> Permutation (c_events c) es ->
  if forallb (fun k => component_depth k <=? 123) (types_of c)
  then exists c', load p' (se_contract c fs es) = Ok c' /\ same_contract c c'
  else load p' (se_contract c fs es) = Err SerdeJson.
Proof.
  intros L PF PE. apply load_ok in L as [E _]. pose proof (contract_types_depth c PF PE) as D. unfold load, from_text.
  destruct (forallb _ (types_of c)) eqn:F.
  - rewrite forallb_forall in F. assert (json_depth (se_contract c fs es) <= 127) as B by (apply D; intros k I; specialize (F k I); cbn beta in F; lia).
    apply N.leb_le in B. rewrite B. eapply contract_round; eauto.
  - destruct (N.leb_spec (json_depth (se_contract c fs es)) 127) as [B|B]; [|reflexivity]. exfalso.
    enough (forallb (fun k => component_depth k <=? 123) (types_of c) = true) by congruence. apply forallb_forall. intros k I.
    apply N.leb_le. apply D; auto.
Qed.

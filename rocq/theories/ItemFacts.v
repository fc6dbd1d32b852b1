(** * Facts about JSON items: functions, constructors, events, operations *)
From Verif Require Import Base Types TypeNames TypeNamesSpec Function Event Json JsonSpec BaseFacts StrFacts EncoderFacts
  DecoderFacts TypeNamesFacts ReaderFacts ReaderTotal FunctionFacts CodecLemmas JsonFacts.
From Coq Require Import String.
From Coq Require Import ZifyBool ZifyNat ZifyN.
Set Implicit Arguments.
Local Open Scope N_scope.
Local Open Scope list_scope.
Notation length := List.length.

(** ** Written parameters are standard JSON *)
Lemma written_described t l : keyed l (lit "type") = [se_type t] ->
  keyed l (lit "components") = match se_components t with Some c => [c] | None => [] end ->
  describes false l t.
Proof. intros K C. apply described_by; auto. apply fields_components. Qed.
Ltac written_keys := right; unfold components_entry, component_keys;
  repeat match goal with |- context [match ?o with Some _ => _ | None => _ end] => destruct o end;
  repeat (apply Forall_cons || apply Forall_nil || apply Forall_app || split); cbn; auto 10.
Lemma se_param_json a : exists l, se_param a = JObj l /\ param_json false l (p_name a) (p_kind a) (p_internal_type a).
Proof.
  eexists. split; [reflexivity|]. unfold param_json, optional_text. destruct a as [n t [i|]]; cbn [p_name p_kind p_internal_type app];
    (split; [apply written_described; rewrite !keyed_cons, keyed_components; reflexivity|]);
    rewrite !keyed_cons, !keyed_components; (split; [reflexivity|]); (split; [reflexivity|]); written_keys.
Qed.
Lemma se_event_param_json a : exists l, se_event_param a = JObj l /\ event_param_json false l (ep_name a) (ep_kind a) (ep_indexed a).
Proof.
  eexists. split; [reflexivity|]. unfold event_param_json. destruct a as [n t i]; cbn [ep_name ep_kind ep_indexed app];
    (split; [apply written_described; rewrite !keyed_cons, keyed_components; reflexivity|]);
    rewrite !keyed_cons, !keyed_components; (split; [reflexivity|]); (split; [left; reflexivity|]); written_keys.
Qed.
Lemma se_tuple_param_json a : exists l, se_tuple_param a = JObj l /\ tuple_param_json false l (tp_name a) (tp_kind a) (tp_internal_type a).
Proof.
  eexists. split; [reflexivity|]. unfold tuple_param_json, optional_text. destruct a as [[n|] t [i|]]; cbn [tp_name tp_kind tp_internal_type app];
    (split; [apply written_described; rewrite !keyed_cons, keyed_components; reflexivity|]);
    rewrite !keyed_cons, !keyed_components; (split; [reflexivity|]); (split; [reflexivity|]); written_keys.
Qed.
Lemma keys_weaken keys l : keys_ok false keys l -> keys_ok true keys l.
Proof. now left. Qed.
Lemma describes_weaken l t : describes false l t -> describes true l t.
Proof.
  intros D. pattern l, t, D. apply describes_ind2 with (P0 := fun items ts _ => components true items ts); clear l t D; intros.
  - eapply ds_leaf; eauto.
  - eapply ds_tuple; eauto.
  - constructor.
  - eapply cs_cons; eauto. now left.
Qed.
Lemma param_weaken l n t i : param_json false l n t i -> param_json true l n t i.
Proof. intros (A & B & C & D). repeat split; auto using describes_weaken. now left. Qed.
Lemma event_param_weaken l n t i : event_param_json false l n t i -> event_param_json true l n t i.
Proof. intros (A & B & C & D). split; [auto using describes_weaken|]. split; auto. split; auto. now left. Qed.

Lemma param_round p src a : wf_type (p_kind a) = true -> de_param p src (se_param a) = Ok a.
Proof.
  intros W. destruct (se_param_json a) as (l & -> & J). destruct a as [n t i].
  apply (param_standard p (src := src) (others := false)); auto. discriminate.
Qed.
Lemma event_param_round p src a : wf_type (ep_kind a) = true -> de_event_param p src (se_event_param a) = Ok a.
Proof.
  intros W. destruct (se_event_param_json a) as (l & -> & J). destruct a as [n t i].
  apply (event_param_standard p (src := src) (others := false)); auto. discriminate.
Qed.
Lemma tuple_param_round p src a : wf_type (tp_kind a) = true -> de_tuple_param p src (se_tuple_param a) = Ok a.
Proof.
  intros W. destruct (se_tuple_param_json a) as (l & -> & J). destruct a as [n t i].
  apply (tuple_param_standard p (src := src) (others := false)); auto. discriminate.
Qed.

(** ** Depth *)
Lemma se_components_depth t : match se_components t with Some c => json_depth c | None => 0 end = component_depth t.
Proof.
  induction t as [| | | | | |t IH| |t n IH|ts IH] using ParamType_ind'; cbn [se_components component_depth]; auto.
  cbn [json_depth]. f_equal. induction IH as [|t ts Ht HF IHts]; [reflexivity|].
  cbn [map fold_right]. rewrite IHts. f_equal.
  cbn [json_depth]. rewrite <- Ht. destruct (se_components t); cbn [fold_right snd json_depth se_type]; lia.
Qed.
Lemma components_entry_depth t m : fold_right (fun e m => N.max (json_depth (snd e)) m) m (components_entry t) = N.max (component_depth t) m.
Proof. unfold components_entry. rewrite <- se_components_depth. destruct (se_components t); cbn [fold_right snd]; lia. Qed.
Lemma se_param_depth a : json_depth (se_param a) = 1 + component_depth (p_kind a).
Proof.
  unfold se_param. cbn [json_depth]. rewrite !fold_right_app, components_entry_depth.
  destruct (p_internal_type a); cbn [fold_right snd json_depth se_type]; lia.
Qed.
Lemma se_event_param_depth a : json_depth (se_event_param a) = 1 + component_depth (ep_kind a).
Proof.
  unfold se_event_param. cbn [json_depth]. rewrite !fold_right_app, components_entry_depth.
  cbn [fold_right snd json_depth se_type]; lia.
Qed.
Lemma se_tuple_param_depth a : json_depth (se_tuple_param a) = 1 + component_depth (tp_kind a).
Proof.
  unfold se_tuple_param. cbn [json_depth]. rewrite !fold_right_app, components_entry_depth.
  destruct (tp_internal_type a), (tp_name a); cbn [fold_right snd json_depth se_type]; lia.
Qed.
Lemma params_json_depth l : json_depth (JArr (map se_param l)) = params_depth l.
Proof. cbn [json_depth]. unfold params_depth, max_of. f_equal. induction l as [|a l IH]; [reflexivity|]. cbn [map fold_right]. now rewrite IH, se_param_depth. Qed.
Lemma event_params_json_depth l : json_depth (JArr (map se_event_param l)) = event_params_depth l.
Proof. cbn [json_depth]. unfold event_params_depth, max_of. f_equal. induction l as [|a l IH]; [reflexivity|]. cbn [map fold_right]. now rewrite IH, se_event_param_depth. Qed.
Lemma depth_obj l : json_depth (JObj l) = 1 + max_of (fun e => json_depth (snd e)) l.
Proof. reflexivity. Qed.
Lemma depth_str s : json_depth (JStr s) = 0. Proof. reflexivity. Qed.
Lemma depth_bool b : json_depth (JBool b) = 0. Proof. reflexivity. Qed.
Lemma depth_mutability m : json_depth (se_state_mutability m) = 0. Proof. reflexivity. Qed.
Lemma se_operation_depth o : json_depth (se_operation o) = operation_depth o.
Proof.
  destruct o as [c|f|e| |]; try reflexivity; unfold se_operation, se_constructor, se_function, se_event;
    rewrite depth_obj; unfold max_of; cbn [fold_right snd operation_depth];
    rewrite ?params_json_depth, ?event_params_json_depth, ?depth_str, ?depth_bool, ?depth_mutability; unfold operation_depth; lia.
Qed.

(** ** Names *)
Lemma find_none s c : str_find s c = None <-> ~ In c s.
Proof.
  induction s as [|d s IH]; cbn [str_find In]; [tauto|]. destruct (N.eqb_spec d c) as [->|N].
  - split; [discriminate|tauto].
  - destruct (str_find s c) as [i|]; cbn [option_map]; [|tauto]. split; [discriminate|]. intros H.
    assert (Some i = None) by (apply IH; tauto). discriminate.
Qed.
Lemma find_first a c b : ~ In c a -> str_find (a ++ c :: b) c = Some (str_len a).
Proof.
  induction a as [|d a IH]; cbn [app str_find In]; intros H; [now rewrite N.eqb_refl|].
  destruct (N.eqb_spec d c) as [->|]; [tauto|]. rewrite IH by tauto. reflexivity.
Qed.
Lemma plain_not_in s : plain_name s = true <-> ~ In 40 s.
Proof.
  unfold plain_name. rewrite forallb_forall. split.
  - intros H I. specialize (H _ I). discriminate.
  - intros H x I. destruct (N.eqb_spec x 40) as [->|]; [contradiction|reflexivity].
Qed.
Lemma first_paren s : (exists a b, s = a ++ 40 :: b /\ ~ In 40 a) \/ ~ In 40 s.
Proof.
  induction s as [|d s [(a & b & -> & H)|IH]]; [right; auto| |].
  - destruct (N.eq_dec d 40) as [->|N]; left; [exists [], (a ++ 40 :: b)|exists (d :: a), b]; cbn [app In]; intuition.
  - destruct (N.eq_dec d 40) as [->|N]; [left; exists [], s; auto|right; cbn [In]; tauto].
Qed.
Lemma before_paren_exists text : exists s, before_paren text s.
Proof.
  destruct (first_paren text) as [(a & b & -> & H)|H].
  - exists a. split; [now apply plain_not_in|eauto].
  - exists text. split; [now apply plain_not_in|auto].
Qed.
Lemma sanitize_ok text s : before_paren text s -> sanitize_name text = Ok s.
Proof.
  intros [P [->|[rest ->]]]; apply plain_not_in in P; unfold sanitize_name.
  - now rewrite (proj2 (find_none s 40) P).
  - rewrite find_first by exact P. unfold str_truncate. rewrite str_len_app.
    destruct (N.ltb_spec (str_len s + str_len (40 :: rest)) (str_len s)); [lia|].
    exact (str_slice_app [] s (40 :: rest)).
Qed.
Lemma sanitize_iff text s : sanitize_name text = Ok s <-> before_paren text s.
Proof.
  split; [|apply sanitize_ok]. intros E. destruct (before_paren_exists text) as [s' B].
  rewrite (sanitize_ok B) in E. injection E as <-. exact B.
Qed.
Lemma sanitize_total text : exists s, sanitize_name text = Ok s.
Proof. destruct (before_paren_exists text) as [s B]. exists s. now apply sanitize_ok. Qed.

(** ** The derived visitors *)
Lemma more_nil A (old : option A) k f o : more_field old [] k f o <-> o = old.
Proof. unfold more_field, opt_field. cbn. destruct old; [intuition|reflexivity]. Qed.
Section Items.
Context (p : profile) (src : source).
Definition fvisited (old : ffields) (l : list (str * json)) (st : ffields) : Prop :=
  more_field (ff_name old) l (lit "name") de_name (ff_name st) /\
  more_field (ff_inputs old) l (lit "inputs") (de_vec (de_param p src)) (ff_inputs st) /\
  more_field (ff_outputs old) l (lit "outputs") (de_vec (de_param p src)) (ff_outputs st) /\
  more_field (ff_constant old) l (lit "constant") de_bool (ff_constant st) /\
  more_field (ff_mutability old) l (lit "stateMutability") de_state_mutability (ff_mutability st).
Ltac key_case E K E' := pose proof E as E'; apply str_eqb_eq in E'; subst K.
Lemma visit_function_visited l : forall old st, foldM (visit_function p src) l old = Ok st <-> fvisited old l st.
Proof.
  induction l as [|[k v] l IH]; intros old st.
  - cbn [foldM]. unfold fvisited. rewrite !more_nil. destruct old, st; cbn. split; [intros E; injection E as <- <- <- <- <-; auto|intuition congruence].
  - cbn [foldM]. rewrite bind_ok. unfold visit_function at 1. unfold fvisited.
    destruct (str_eqb k (lit "name")) eqn:K1.
    { key_case K1 k K1'. rewrite more_here by exact K1. rewrite !(@more_skip _ _ (lit "name")) by reflexivity. split.
      - intros (st' & E & V). apply bind_ok in E as (x & Ex & E). injection E as <-. apply IH in V as (V1 & V2 & V3 & V4 & V5).
        cbn [ff_name ff_inputs ff_outputs ff_constant ff_mutability] in *. repeat split; eauto.
      - intros ((x & Ex & V1) & V2 & V3 & V4 & V5). eexists. split; [rewrite Ex; reflexivity|]. apply IH.
        unfold fvisited. cbn [ff_name ff_inputs ff_outputs ff_constant ff_mutability]. auto 10. }
    destruct (str_eqb k (lit "inputs")) eqn:K2.
    { key_case K2 k K2'. rewrite (@more_here _ (ff_inputs old)) by exact K2. rewrite !(@more_skip _ _ (lit "inputs")) by reflexivity. split.
      - intros (st' & E & V). apply bind_ok in E as (x & Ex & E). injection E as <-. apply IH in V as (V1 & V2 & V3 & V4 & V5).
        cbn [ff_name ff_inputs ff_outputs ff_constant ff_mutability] in *. repeat split; eauto.
      - intros (V1 & (x & Ex & V2) & V3 & V4 & V5). eexists. split; [rewrite Ex; reflexivity|]. apply IH.
        unfold fvisited. cbn [ff_name ff_inputs ff_outputs ff_constant ff_mutability]. auto 10. }
    destruct (str_eqb k (lit "outputs")) eqn:K3.
    { key_case K3 k K3'. rewrite (@more_here _ (ff_outputs old)) by exact K3. rewrite !(@more_skip _ _ (lit "outputs")) by reflexivity. split.
      - intros (st' & E & V). apply bind_ok in E as (x & Ex & E). injection E as <-. apply IH in V as (V1 & V2 & V3 & V4 & V5).
        cbn [ff_name ff_inputs ff_outputs ff_constant ff_mutability] in *. repeat split; eauto.
      - intros (V1 & V2 & (x & Ex & V3) & V4 & V5). eexists. split; [rewrite Ex; reflexivity|]. apply IH.
        unfold fvisited. cbn [ff_name ff_inputs ff_outputs ff_constant ff_mutability]. auto 10. }
    destruct (str_eqb k (lit "constant")) eqn:K4.
    { key_case K4 k K4'. rewrite (@more_here _ (ff_constant old)) by exact K4. rewrite !(@more_skip _ _ (lit "constant")) by reflexivity. split.
      - intros (st' & E & V). apply bind_ok in E as (x & Ex & E). injection E as <-. apply IH in V as (V1 & V2 & V3 & V4 & V5).
        cbn [ff_name ff_inputs ff_outputs ff_constant ff_mutability] in *. repeat split; eauto.
      - intros (V1 & V2 & V3 & (x & Ex & V4) & V5). eexists. split; [rewrite Ex; reflexivity|]. apply IH.
        unfold fvisited. cbn [ff_name ff_inputs ff_outputs ff_constant ff_mutability]. auto 10. }
    destruct (str_eqb k (lit "stateMutability")) eqn:K5.
    { key_case K5 k K5'. rewrite (@more_here _ (ff_mutability old)) by exact K5. rewrite !(@more_skip _ _ (lit "stateMutability")) by reflexivity. split.
      - intros (st' & E & V). apply bind_ok in E as (x & Ex & E). injection E as <-. apply IH in V as (V1 & V2 & V3 & V4 & V5).
        cbn [ff_name ff_inputs ff_outputs ff_constant ff_mutability] in *. repeat split; eauto.
      - intros (V1 & V2 & V3 & V4 & (x & Ex & V5)). eexists. split; [rewrite Ex; reflexivity|]. apply IH.
        unfold fvisited. cbn [ff_name ff_inputs ff_outputs ff_constant ff_mutability]. auto 10. }
    rewrite !(@more_skip _ _ k) by assumption. split.
    + intros (st' & E & V). injection E as <-. now apply IH in V.
    + intros V. exists old. split; [reflexivity|]. now apply IH.
Qed.
Definition evisited (old : efields) (l : list (str * json)) (st : efields) : Prop :=
  more_field (ef_name old) l (lit "name") de_name (ef_name st) /\
  more_field (ef_inputs old) l (lit "inputs") (de_vec (de_event_param p src)) (ef_inputs st) /\
  more_field (ef_anonymous old) l (lit "anonymous") de_bool (ef_anonymous st).
Lemma visit_event_visited l : forall old st, foldM (visit_event p src) l old = Ok st <-> evisited old l st.
Proof.
  induction l as [|[k v] l IH]; intros old st.
  - cbn [foldM]. unfold evisited. rewrite !more_nil. destruct old, st; cbn. split; [intros E; injection E as <- <- <-; auto|intuition congruence].
  - cbn [foldM]. rewrite bind_ok. unfold visit_event at 1. unfold evisited.
    destruct (str_eqb k (lit "name")) eqn:K1.
    { key_case K1 k K1'. rewrite more_here by exact K1. rewrite !(@more_skip _ _ (lit "name")) by reflexivity. split.
      - intros (st' & E & V). apply bind_ok in E as (x & Ex & E). injection E as <-. apply IH in V as (V1 & V2 & V3).
        cbn [ef_name ef_inputs ef_anonymous] in *. repeat split; eauto.
      - intros ((x & Ex & V1) & V2 & V3). eexists. split; [rewrite Ex; reflexivity|]. apply IH.
        unfold evisited. cbn [ef_name ef_inputs ef_anonymous]. auto 10. }
    destruct (str_eqb k (lit "inputs")) eqn:K2.
    { key_case K2 k K2'. rewrite (@more_here _ (ef_inputs old)) by exact K2. rewrite !(@more_skip _ _ (lit "inputs")) by reflexivity. split.
      - intros (st' & E & V). apply bind_ok in E as (x & Ex & E). injection E as <-. apply IH in V as (V1 & V2 & V3).
        cbn [ef_name ef_inputs ef_anonymous] in *. repeat split; eauto.
      - intros (V1 & (x & Ex & V2) & V3). eexists. split; [rewrite Ex; reflexivity|]. apply IH.
        unfold evisited. cbn [ef_name ef_inputs ef_anonymous]. auto 10. }
    destruct (str_eqb k (lit "anonymous")) eqn:K3.
    { key_case K3 k K3'. rewrite (@more_here _ (ef_anonymous old)) by exact K3. rewrite !(@more_skip _ _ (lit "anonymous")) by reflexivity. split.
      - intros (st' & E & V). apply bind_ok in E as (x & Ex & E). injection E as <-. apply IH in V as (V1 & V2 & V3).
        cbn [ef_name ef_inputs ef_anonymous] in *. repeat split; eauto.
      - intros (V1 & V2 & (x & Ex & V3)). eexists. split; [rewrite Ex; reflexivity|]. apply IH.
        unfold evisited. cbn [ef_name ef_inputs ef_anonymous]. auto 10. }
    rewrite !(@more_skip _ _ k) by assumption. split.
    + intros (st' & E & V). injection E as <-. now apply IH in V.
    + intros V. exists old. split; [reflexivity|]. now apply IH.
Qed.
Lemma visit_constructor_visited l : forall old st, foldM (visit_constructor p src) l old = Ok st <->
  more_field old l (lit "inputs") (de_vec (de_param p src)) st.
Proof.
  induction l as [|[k v] l IH]; intros old st.
  - cbn [foldM]. rewrite more_nil. split; congruence.
  - cbn [foldM]. rewrite bind_ok. unfold visit_constructor at 1. destruct (str_eqb k (lit "inputs")) eqn:K1.
    + rewrite more_here by exact K1. split; intros (x & Ex & V); exists x; split; auto; now apply IH.
    + rewrite more_skip by exact K1. split.
      * intros (x & Ex & V). injection Ex as <-. now apply IH.
      * intros V. exists old. split; [reflexivity|]. now apply IH.
Qed.

(** Accepted objects. *)
Definition one_field {A} (l : list (str * json)) (k : str) (f : json -> res A) (a : A) : Prop := opt_field l k f (Some a).
Definition default_field {A} (l : list (str * json)) (k : str) (f : json -> res A) (d a : A) : Prop :=
  exists o, opt_field l k f o /\ a = or_default o d.
Lemma required_ok A (o : option A) a : required o = Ok a <-> o = Some a.
Proof. destruct o; cbn; split; congruence. Qed.
Lemma de_function_iff l f : de_function p src (JObj l) = Ok f <->
  one_field l (lit "name") de_name (f_name f) /\
  one_field l (lit "inputs") (de_vec (de_param p src)) (f_inputs f) /\
  one_field l (lit "outputs") (de_vec (de_param p src)) (f_outputs f) /\
  default_field l (lit "constant") de_bool false (f_constant f) /\
  default_field l (lit "stateMutability") de_state_mutability NonPayable (f_state_mutability f).
Proof.
  cbn [de_function]. rewrite bind_ok. unfold one_field, default_field. split.
  - intros (st & V & E). apply visit_function_visited in V as (V1 & V2 & V3 & V4 & V5).
    rewrite bind_ok in E. destruct E as (n & En & E). rewrite bind_ok in E. destruct E as (i & Ei & E).
    rewrite bind_ok in E. destruct E as (o & Eo & E). injection E as <-. apply required_ok in En, Ei, Eo.
    destruct st as [sn si so sc sm]. cbn [ff_name ff_inputs ff_outputs ff_constant ff_mutability f_name f_inputs f_outputs f_constant f_state_mutability no_fields] in *. subst sn si so. repeat split; eauto.
  - intros (V1 & V2 & V3 & (c & V4 & E4) & (m & V5 & E5)).
    exists (mkFF (Some (f_name f)) (Some (f_inputs f)) (Some (f_outputs f)) c m). split.
    + apply visit_function_visited. repeat split; auto.
    + cbn [bind required ff_name ff_inputs ff_outputs ff_constant ff_mutability]. unfold default_mutability. rewrite <- E4, <- E5. now destruct f.
Qed.
Lemma de_event_iff l e : de_event p src (JObj l) = Ok e <->
  one_field l (lit "name") de_name (e_name e) /\
  one_field l (lit "inputs") (de_vec (de_event_param p src)) (e_inputs e) /\
  one_field l (lit "anonymous") de_bool (e_anonymous e).
Proof.
  cbn [de_event]. rewrite bind_ok. unfold one_field. split.
  - intros (st & V & E). apply visit_event_visited in V as (V1 & V2 & V3).
    rewrite bind_ok in E. destruct E as (n & En & E). rewrite bind_ok in E. destruct E as (i & Ei & E).
    rewrite bind_ok in E. destruct E as (o & Eo & E). injection E as <-. apply required_ok in En, Ei, Eo.
    destruct st as [sn si so]. cbn [ef_name ef_inputs ef_anonymous e_name e_inputs e_anonymous] in *. subst sn si so. repeat split; eauto.
  - intros (V1 & V2 & V3).
    exists (mkEF (Some (e_name e)) (Some (e_inputs e)) (Some (e_anonymous e))). split.
    + apply visit_event_visited. repeat split; auto.
    + cbn. destruct e; cbn in *; congruence.
Qed.
Lemma de_constructor_iff l c : de_constructor p src (JObj l) = Ok c <->
  one_field l (lit "inputs") (de_vec (de_param p src)) (k_inputs c).
Proof.
  cbn [de_constructor]. rewrite bind_ok. unfold one_field. split.
  - intros (st & V & E). apply visit_constructor_visited in V.
    rewrite bind_ok in E. destruct E as (n & En & E). injection E as <-. apply required_ok in En. now subst.
  - intros V. exists (Some (k_inputs c)). split; [now apply visit_constructor_visited|]. now destruct c.
Qed.
End Items.

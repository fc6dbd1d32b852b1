(** * Loading accepts exactly the JSON that says what a contract is (proofs) *)
From Verif Require Import Base BaseFacts StrFacts Types TypeNames Function Event Json JsonSpec JsonFacts ItemFacts LoadFacts LoadTotal Contract ContractSpec ContractFacts JsonLemmas LoadSpec.
From Coq Require Import String Permutation Lia ZifyBool ZifyNat ZifyN.
Set Implicit Arguments.
Local Open Scope N_scope.
Local Open Scope list_scope.

(** ** Values *)
Lemma de_string_iff j s : de_string j = Ok s <-> text_json j s.
Proof. unfold text_json. destruct j; cbn; split; congruence. Qed.
Lemma de_bool_iff j b : de_bool j = Ok b <-> bool_json j b.
Proof. unfold bool_json. destruct j; cbn; split; congruence. Qed.
Lemma de_name_iff j s : de_name j = Ok s <-> name_json j s.
Proof.
  unfold name_json. split.
  - destruct j as [| | |t| |]; try discriminate. cbn [de_name de_string bind]. intros E. exists t. split; [reflexivity|now apply sanitize_iff].
  - intros (t & -> & B). now apply sanitize_iff.
Qed.
Lemma mutability_of_iff s m : state_mutability_of s = Ok m <-> s = mutability_name m.
Proof.
  unfold state_mutability_of. split.
  - destruct (str_eqb s (lit "pure")) eqn:K1; [apply str_eqb_eq in K1; intros E; injection E as <-; exact K1|].
    destruct (str_eqb s (lit "view")) eqn:K2; [apply str_eqb_eq in K2; intros E; injection E as <-; exact K2|].
    destruct (str_eqb s (lit "nonpayable")) eqn:K3; [apply str_eqb_eq in K3; intros E; injection E as <-; exact K3|].
    destruct (str_eqb s (lit "payable")) eqn:K4; [apply str_eqb_eq in K4; intros E; injection E as <-; exact K4|]. discriminate.
  - intros ->. destruct m; reflexivity.
Qed.
Lemma de_mutability_iff j m : de_state_mutability j = Ok m <-> mutability_json j m.
Proof.
  unfold mutability_json. split.
  - destruct j as [| | |s| |[|[s []] [|]]]; try discriminate; cbn [de_state_mutability]; intros E; apply mutability_of_iff in E; subst s; auto.
  - intros [->| ->]; cbn [de_state_mutability]; now apply mutability_of_iff.
Qed.
Lemma de_vec_iff A (f : json -> res A) R j : (forall x, match j with JArr l => In x l | _ => False end -> forall a, f x = Ok a <-> R x a) ->
  forall l, de_vec f j = Ok l <-> list_json R j l.
Proof.
  intros H l. unfold list_json. split.
  - destruct j as [| | | |js|]; try discriminate. cbn [de_vec]. intros E. exists js. split; [reflexivity|]. apply mapM_ok in E.
    clear - E H. induction E as [|x a js l X _ IH]; constructor; [apply H; [now left|exact X]|]. apply IH. intros y Y. apply H. now right.
  - intros (js & -> & F). cbn [de_vec]. apply mapM_ok. clear - F H. induction F as [|x a js l X _ IH]; constructor; [apply H; [now left|exact X]|].
    apply IH. intros y Y. apply H. now right.
Qed.
(** ** Fields *)
Lemma one_iff A l k (f : json -> res A) R : (forall v, In (k, v) l -> forall a, f v = Ok a <-> R v a) ->
  forall a, one_field l k f a <-> one l k R a.
Proof.
  intros H a. unfold one_field, opt_field, one. destruct (keyed l k) as [|v [|w r]] eqn:K.
  - split; [discriminate|]. intros (v & E & _). discriminate.
  - assert (HI : In (k, v) l) by (apply keyed_in; rewrite K; now left). split.
    + intros (b & E & Eb). injection Eb as <-. exists v. split; [reflexivity|]. now apply H.
    + intros (v' & E & X). injection E as <-. exists a. split; [now apply H|reflexivity].
  - split; [contradiction|]. intros (v' & E & _). discriminate.
Qed.
Lemma opt_some_iff A l k (f : json -> res A) R : (forall v, In (k, v) l -> forall a, f v = Ok a <-> R v a) ->
  forall a, opt_field l k f (Some a) <-> one l k R a.
Proof. exact (@one_iff A l k f R). Qed.
Lemma opt_none_iff A l k (f : json -> res A) : opt_field l k f None <-> keyed l k = [].
Proof.
  unfold opt_field. destruct (keyed l k) as [|v [|w r]]; [tauto| |split; [contradiction|discriminate]].
  split; [intros (a & _ & E); discriminate|discriminate].
Qed.
Lemma default_iff A l k (f : json -> res A) R : (forall v, In (k, v) l -> forall a, f v = Ok a <-> R v a) ->
  forall d a, default_field l k f d a <-> default_to (one l k R) (keyed l k = []) d a.
Proof.
  intros H d a. unfold default_field, default_to. split.
  - intros ([b|] & O & ->); cbn [or_default].
    + left. now apply (@opt_some_iff _ _ _ _ _ H).
    + right. apply opt_none_iff in O. auto.
  - intros [O|[K ->]].
    + exists (Some a). split; [now apply (@opt_some_iff _ _ _ _ _ H)|reflexivity].
    + exists None. split; [now apply opt_none_iff|reflexivity].
Qed.
Lemma exists_iff A l k (f : json -> res A) R : (forall v, In (k, v) l -> forall a, f v = Ok a <-> R v a) ->
  (exists o, opt_field l k f o) <-> at_most_one l k R.
Proof.
  intros H. unfold at_most_one. split.
  - intros ([a|] & O); [right; exists a; now apply (@opt_some_iff _ _ _ _ _ H)|left; now apply opt_none_iff in O].
  - intros [K|[a O]]; [exists None; now apply opt_none_iff|exists (Some a); now apply (@opt_some_iff _ _ _ _ _ H)].
Qed.
Lemma optional_iff l k o : opt_field l k de_string o <-> optional_text l k o.
Proof.
  unfold optional_text. destruct o as [s|]; [|apply opt_none_iff].
  rewrite (@opt_some_iff _ l k de_string text_json) by (intros; apply de_string_iff). unfold one, text_json. split.
  - intros (v & K & ->). exact K.
  - intros K. eauto.
Qed.

(** ** The core of a type *)
Lemma tuple_fields_inner t : tuple_fields t = inner_tuple t.
Proof. induction t; cbn; auto. Qed.
Lemma with_components_inner t cs t' : with_components t cs t' ->
  match inner_tuple t, cs with
  | Some _, Some cs => map_inner_tuple (fun inner => inner ++ cs) t = Some t'
  | Some _, None => False
  | None, _ => t' = t
  end.
Proof.
  intros W. induction W as [t cs E|ts cs|t cs t' W IH|t n cs t' W IH].
  - rewrite tuple_fields_inner in E. now rewrite E.
  - reflexivity.
  - cbn [inner_tuple]. destruct (inner_tuple t); [destruct cs; [|exact IH]; cbn [map_inner_tuple]; now rewrite IH|congruence].
  - cbn [inner_tuple]. destruct (inner_tuple t); [destruct cs; [|exact IH]; cbn [map_inner_tuple]; now rewrite IH|congruence].
Qed.
Lemma map_inner_with f t t' cs : (forall ts, f ts = ts ++ cs) -> map_inner_tuple f t = Some t' -> with_components t (Some cs) t'.
Proof.
  intros F. revert t'. induction t; cbn [map_inner_tuple]; intros t' E; try discriminate.
  all: match type of E with
       | option_map _ (map_inner_tuple ?g ?t) = _ => destruct (map_inner_tuple g t) as [u|]; cbn [option_map] in E; [|discriminate]; injection E as <-; constructor; now auto
       | _ => injection E as <-; rewrite F; constructor
       end.
Qed.
Lemma set_components_iff t o t' : set_tuple_components t o = Ok t' <-> with_components t (option_map (map tp_kind) o) t'.
Proof.
  unfold set_tuple_components. split.
  - destruct (inner_tuple t) eqn:Hi.
    + destruct o as [tps|]; cbn [required bind]; [|discriminate]. destruct (map_inner_tuple _ t) as [u|] eqn:M.
      * intros E. injection E as <-. cbn [option_map]. eapply map_inner_with; [|exact M]. reflexivity.
      * exfalso. clear - Hi M. revert l Hi. induction t; cbn in *; intros l' Hi; try discriminate; destruct (map_inner_tuple _ t); try discriminate; eauto.
    + intros E. injection E as <-. constructor. now rewrite tuple_fields_inner.
  - intros W. apply with_components_inner in W. destruct (inner_tuple t); [|now subst].
    destruct o as [tps|]; cbn [option_map] in W; [|contradiction]. cbn [required bind]. now rewrite W.
Qed.

Section Exact.
Context (p : profile) (src : source) (names : str -> ParamType -> Prop).
Definition oth : bool := match src with Text => false | Buffered => true end.
(** The reader reads as [names] says, on all type names inside. *)
Definition agree (j : json) : Prop := forall s, type_text s j -> forall t, read p s = Ok t <-> names s t.
Lemma agree_item l j : agree (JArr l) -> In j l -> agree j.
Proof. intros H HI s T. apply H. exact (@tt_item s l j HI T). Qed.
Lemma agree_entry l k v : agree (JObj l) -> In (k, v) l -> agree v.
Proof. intros H HI s T. apply H. exact (@tt_value s l k v HI T). Qed.
Lemma agree_type l s : agree (JObj l) -> In (lit "type", JStr s) l -> forall t, read p s = Ok t <-> names s t.
Proof. intros H HI. apply H. now constructor. Qed.
Lemma keys_iff keys l : (src = Text -> Forall (fun e => In (fst e) keys) l) <-> keys_ok oth keys l.
Proof.
  unfold keys_ok, oth. destruct src; split; intros H; auto.
  - destruct H as [H|H]; [discriminate|auto].
  - intros; discriminate.
Qed.
Lemma keys_perm_incl (P Q : list str) l : (forall k, In k P <-> In k Q) -> (Forall (fun e : str * json => In (fst e) P) l <-> Forall (fun e => In (fst e) Q) l).
Proof. intros H. split; intros F; eapply Forall_impl; try exact F; cbn; intros e; apply H. Qed.

Lemma type_json_iff l v : agree (JObj l) -> In (lit "type", v) l -> forall t, de_param_type p v = Ok t <-> type_json names v t.
Proof.
  intros G HI t. unfold type_json. split.
  - destruct v as [| | |s| |]; try discriminate. cbn [de_param_type]. intros E. exists s. split; [reflexivity|]. apply (@agree_type _ _ G HI).
    destruct (read p s); congruence.
  - intros (s & -> & E). apply (@agree_type _ _ G HI) in E. cbn [de_param_type]. now rewrite E.
Qed.
Lemma tuple_params_forall js cs : tuple_params_are names oth js cs <-> Forall2 (tuple_param_is names oth) js cs.
Proof.
  split.
  - revert cs. induction js; intros cs H; inversion H; subst; constructor; auto.
  - intros F. induction F; constructor; auto.
Qed.
Definition comps (l : list (str * json)) (o : option (list TupleParam)) : Prop :=
  match o with None => keyed l (lit "components") = [] | Some cs => exists js, keyed l (lit "components") = [JArr js] /\ tuple_params_are names oth js cs end.
Lemma comps_are l o : comps l o -> components_are names oth (keyed l (lit "components")) (option_map (map tp_kind) o).
Proof. destruct o as [cs|]; cbn [comps option_map]; [intros (js & -> & T); now constructor|intros ->; constructor]. Qed.
Lemma are_comps l cs : components_are names oth (keyed l (lit "components")) cs -> exists o, comps l o /\ cs = option_map (map tp_kind) o.
Proof.
  intros H. inversion H as [K|js cs' T K]; subst.
  - exists None. split; [now symmetry|reflexivity].
  - exists (Some cs'). split; [exists js; auto|reflexivity].
Qed.

(** What a visitor has seen, in the words of the specification. *)
Definition reads_components (l : list (str * json)) : Prop := forall v, In (lit "components", v) l ->
  forall cs, de_vec (de_tuple_param p src) v = Ok cs <-> list_json (tuple_param_is names oth) v cs.
Lemma comps_iff l o : reads_components l -> (opt_field l (lit "components") (de_vec (de_tuple_param p src)) o <-> comps l o).
Proof.
  intros H. destruct o as [cs|]; [|apply opt_none_iff]. rewrite (@opt_some_iff _ _ _ _ _ H). unfold one, list_json. cbn [comps]. split.
  - intros (v & K & js & -> & F). exists js. split; [exact K|]. now apply tuple_params_forall.
  - intros (js & K & F). exists (JArr js). split; [exact K|]. exists js. split; [reflexivity|]. now apply tuple_params_forall.
Qed.
Lemma tuple_param_step l : agree (JObj l) -> reads_components l ->
  forall a, de_tuple_param p src (JObj l) = Ok a <-> tuple_param_is names oth (JObj l) a.
Proof.
  intros G H a. rewrite de_tuple_param_obj, bind_ok. split.
  - intros (st & V & E). apply visit_map_visited in V as (V1 & V2 & V3 & V4 & _ & V6).
    rewrite bind_ok in E. destruct E as (t & Et & E). rewrite bind_ok in E. destruct E as (t' & Et' & E). injection E as <-.
    apply required_ok in Et. rewrite Et in V2. cbn [no_fields fd_name fd_kind fd_internal fd_components knows_internal] in *.
    rewrite more_none in V1, V2, V3, V4.
    apply (@opt_some_iff _ l (lit "type") _ (type_json names)) in V2; [|intros v HI; now apply (@type_json_iff _ _ G)].
    destruct V2 as (v & K & s & -> & N). apply comps_iff in V4; [|exact H]. apply comps_are in V4. apply set_components_iff in Et'.
    econstructor; eauto; [now apply optional_iff|now apply optional_iff|]. now apply keys_iff.
  - intros W. inversion W as [l' name s t cs t' internal W1 W2 W3 W4 W5 W6 W7]; subst. apply are_comps in W6 as (o & C & ->).
    exists (mkFields name (Some t) None internal o). split.
    + apply visit_map_visited. unfold visited. cbn [no_fields fd_name fd_kind fd_indexed fd_internal fd_components knows_internal knows_indexed].
      rewrite !more_none. repeat match goal with |- _ /\ _ => split end.
      * now apply optional_iff.
      * apply (@opt_some_iff _ l (lit "type") _ (type_json names)); [intros v HI; now apply (@type_json_iff _ _ G)|]. exists (JStr s). split; [exact W4|]. exists s. auto.
      * now apply optional_iff.
      * now apply comps_iff.
      * reflexivity.
      * apply keys_iff. exact W3.
    + cbn [fd_kind required bind fd_components fd_name fd_internal]. apply set_components_iff in W7. now rewrite W7.
Qed.
Lemma tuple_param_both j : agree j -> (forall a, de_tuple_param p src j = Ok a <-> tuple_param_is names oth j a) /\
  (forall cs, de_vec (de_tuple_param p src) j = Ok cs <-> list_json (tuple_param_is names oth) j cs).
Proof.
  induction j as [| | | |l IH|l IH] using json_ind'; intros G.
  1-4: split; [intros a; split; [discriminate|intros W; inversion W]|intros cs; split; [discriminate|intros (js & E & _); discriminate]].
  - split; [intros a; split; [discriminate|intros W; inversion W]|]. apply de_vec_iff. intros x HI. rewrite Forall_forall in IH. now apply (IH _ HI), (@agree_item _ _ G HI).
  - split; [|intros cs; split; [discriminate|intros (js & E & _); discriminate]]. apply tuple_param_step; [exact G|].
    intros v HI. rewrite Forall_forall in IH. now apply (IH _ HI), (@agree_entry _ _ _ G HI).
Qed.
Lemma tuple_param_iff j : agree j -> forall a, de_tuple_param p src j = Ok a <-> tuple_param_is names oth j a.
Proof. intros G. apply (@tuple_param_both _ G). Qed.
Lemma entries_read l : agree (JObj l) -> reads_components l.
Proof. intros G v HI. now apply tuple_param_both, (@agree_entry _ _ _ G HI). Qed.

Lemma param_iff j : agree j -> forall a, de_param p src j = Ok a <-> param_is names oth j a.
Proof.
  intros G a. unfold param_is, type_is. destruct j as [| | | | |l].
  1-5: split; [discriminate|intros (l' & E & _); discriminate].
  cbn [de_param]. rewrite bind_ok. split.
  - intros (st & V & E). apply visit_map_visited in V as (V1 & V2 & V3 & V4 & _ & V6).
    rewrite bind_ok in E. destruct E as (n & En & E). rewrite bind_ok in E. destruct E as (t & Et & E). rewrite bind_ok in E. destruct E as (t' & Et' & E). injection E as <-.
    apply required_ok in Et, En. rewrite Et in V2. rewrite En in V1. cbn [no_fields fd_name fd_kind fd_internal fd_components knows_internal] in *.
    rewrite more_none in V1, V2, V3, V4.
    apply (@opt_some_iff _ l (lit "type") _ (type_json names)) in V2; [|intros v HI; now apply (@type_json_iff _ _ G)].
    destruct V2 as (v & K & s & -> & N). apply comps_iff in V4; [|now apply entries_read]. apply comps_are in V4. apply set_components_iff in Et'.
    exists l. cbn [p_name p_kind p_internal_type]. repeat match goal with |- _ /\ _ => split end; [reflexivity|now apply optional_iff in V1| |now apply optional_iff|now apply keys_iff].
    exists s, t, (option_map (map tp_kind) (fd_components st)). auto.
  - intros (l' & E & W1 & (s & t & cs & W4 & W5 & W6 & W7) & W2 & W3). injection E as <-. apply are_comps in W6 as (o & C & ->).
    exists (mkFields (Some (p_name a)) (Some t) None (p_internal_type a) o). split.
    + apply visit_map_visited. unfold visited. cbn [no_fields fd_name fd_kind fd_indexed fd_internal fd_components knows_internal knows_indexed].
      rewrite !more_none. repeat match goal with |- _ /\ _ => split end.
      * now apply optional_iff.
      * apply (@opt_some_iff _ l (lit "type") _ (type_json names)); [intros v HI; now apply (@type_json_iff _ _ G)|]. exists (JStr s). split; [exact W4|]. exists s. auto.
      * now apply optional_iff.
      * apply comps_iff; [now apply entries_read|exact C].
      * reflexivity.
      * apply keys_iff. exact W3.
    + cbn [fd_kind required bind fd_components fd_name fd_internal]. apply set_components_iff in W7. rewrite W7. now destruct a.
Qed.
Lemma event_param_iff j : agree j -> forall a, de_event_param p src j = Ok a <-> event_param_is names oth j a.
Proof.
  intros G a. unfold event_param_is, type_is. destruct j as [| | | | |l].
  1-5: split; [discriminate|intros (l' & E & _); discriminate].
  assert (DB : forall b, (exists o, opt_field l (lit "indexed") de_bool o /\ b = match o with Some b => b | None => false end) <->
    default_to (fun b => keyed l (lit "indexed") = [JBool b]) (keyed l (lit "indexed") = []) false b).
  { intros b. unfold default_to. split.
    - intros ([c|] & O & ->).
      + apply (@opt_some_iff _ l _ de_bool bool_json) in O; [|intros; apply de_bool_iff]. destruct O as (v & K & ->). now left.
      + apply opt_none_iff in O. auto.
    - intros [K|[K ->]]; [exists (Some b)|exists None]; (split; [|reflexivity]).
      + apply (@opt_some_iff _ l _ de_bool bool_json); [intros; apply de_bool_iff|]. exists (JBool b). split; [exact K|reflexivity].
      + now apply opt_none_iff. }
  cbn [de_event_param]. rewrite bind_ok. split.
  - intros (st & V & E). apply visit_map_visited in V as (V1 & V2 & _ & V4 & V5 & V6).
    rewrite bind_ok in E. destruct E as (n & En & E). rewrite bind_ok in E. destruct E as (t & Et & E). rewrite bind_ok in E. destruct E as (t' & Et' & E). injection E as <-.
    apply required_ok in Et, En. rewrite Et in V2. rewrite En in V1. cbn [no_fields fd_name fd_kind fd_indexed fd_components knows_indexed] in *.
    rewrite more_none in V1, V2, V4, V5.
    apply (@opt_some_iff _ l (lit "type") _ (type_json names)) in V2; [|intros v HI; now apply (@type_json_iff _ _ G)].
    destruct V2 as (v & K & s & -> & N). apply comps_iff in V4; [|now apply entries_read]. apply comps_are in V4. apply set_components_iff in Et'.
    exists l. cbn [ep_name ep_kind ep_indexed]. repeat match goal with |- _ /\ _ => split end; [reflexivity|now apply optional_iff in V1| | |now apply keys_iff].
    + exists s, t, (option_map (map tp_kind) (fd_components st)). auto.
    + apply DB. eauto.
  - intros (l' & E & W1 & (s & t & cs & W4 & W5 & W6 & W7) & W2 & W3). injection E as <-. apply are_comps in W6 as (o & C & ->).
    apply DB in W2 as (ob & OB & EB).
    exists (mkFields (Some (ep_name a)) (Some t) ob None o). split.
    + apply visit_map_visited. unfold visited. cbn [no_fields fd_name fd_kind fd_indexed fd_internal fd_components knows_internal knows_indexed].
      rewrite !more_none. repeat match goal with |- _ /\ _ => split end.
      * now apply optional_iff.
      * apply (@opt_some_iff _ l (lit "type") _ (type_json names)); [intros v HI; now apply (@type_json_iff _ _ G)|]. exists (JStr s). split; [exact W4|]. exists s. auto.
      * reflexivity.
      * apply comps_iff; [now apply entries_read|exact C].
      * exact OB.
      * apply keys_iff. exact W3.
    + cbn [fd_kind required bind fd_components fd_name fd_indexed]. apply set_components_iff in W7. rewrite W7. cbn [bind]. rewrite <- EB. now destruct a.
Qed.

(** ** Items *)
Lemma params_at l k v : agree (JObj l) -> In (k, v) l -> forall ps, de_vec (de_param p src) v = Ok ps <-> list_json (param_is names oth) v ps.
Proof.
  intros G HI. pose proof (@agree_entry _ _ _ G HI) as Gv. apply de_vec_iff. destruct v; try contradiction. intros x X. now apply param_iff, (@agree_item _ _ Gv X).
Qed.
Lemma event_params_at l k v : agree (JObj l) -> In (k, v) l -> forall ps, de_vec (de_event_param p src) v = Ok ps <-> list_json (event_param_is names oth) v ps.
Proof.
  intros G HI. pose proof (@agree_entry _ _ _ G HI) as Gv. apply de_vec_iff. destruct v; try contradiction. intros x X. now apply event_param_iff, (@agree_item _ _ Gv X).
Qed.
Lemma function_obj l f : agree (JObj l) -> (de_function p src (JObj l) = Ok f <-> function_entries names oth l f).
Proof.
  intros G. rewrite de_function_iff. unfold function_entries.
  rewrite (@one_iff _ l (lit "name") de_name name_json) by (intros; apply de_name_iff).
  rewrite (@one_iff _ l (lit "inputs") _ (list_json (param_is names oth))) by (intros v HI; exact (@params_at _ _ _ G HI)).
  rewrite (@one_iff _ l (lit "outputs") _ (list_json (param_is names oth))) by (intros v HI; exact (@params_at _ _ _ G HI)).
  rewrite (@default_iff _ l (lit "constant") de_bool bool_json) by (intros; apply de_bool_iff).
  rewrite (@default_iff _ l (lit "stateMutability") de_state_mutability mutability_json) by (intros; apply de_mutability_iff).
  reflexivity.
Qed.
Lemma event_obj l e : agree (JObj l) -> (de_event p src (JObj l) = Ok e <-> event_entries names oth l e).
Proof.
  intros G. rewrite de_event_iff. unfold event_entries.
  rewrite (@one_iff _ l (lit "name") de_name name_json) by (intros; apply de_name_iff).
  rewrite (@one_iff _ l (lit "inputs") _ (list_json (event_param_is names oth))) by (intros v HI; exact (@event_params_at _ _ _ G HI)).
  rewrite (@one_iff _ l (lit "anonymous") de_bool bool_json) by (intros; apply de_bool_iff).
  reflexivity.
Qed.
Lemma constructor_obj l c : agree (JObj l) -> (de_constructor p src (JObj l) = Ok c <-> constructor_entries names oth l c).
Proof.
  intros G. rewrite de_constructor_iff. unfold constructor_entries.
  rewrite (@one_iff _ l (lit "inputs") _ (list_json (param_is names oth))) by (intros v HI; exact (@params_at _ _ _ G HI)).
  reflexivity.
Qed.
(** The array of the values is read as the object would be. *)
Lemma bind_swap A (r : res A) B (k : A -> res B) : bind r k = match r with Ok a => k a | Err e => Err e | Panic => Panic end.
Proof. destruct r; reflexivity. Qed.
Ltac steps := repeat match goal with |- context [bind ?r _] => first [is_var r; fail 1|destruct r eqn:?; cbn; try reflexivity] end; try reflexivity.
Lemma function_arr l : de_function p src (JArr l) =
  if len l <=? 5 then de_function p src (JObj (combine function_keys l))
  else do _ <- de_function p src (JObj (combine function_keys l)); Err SerdeJson.
Proof.
  destruct l as [|v0 [|v1 [|v2 [|v3 [|v4 l]]]]].
  1-5: cbn; steps.
  assert (E : combine function_keys (v0 :: v1 :: v2 :: v3 :: v4 :: l) = combine function_keys [v0; v1; v2; v3; v4]) by (destruct l; reflexivity).
  rewrite E. clear E. destruct l as [|v5 l].
  - cbn; steps.
  - cbn [de_function]. replace (len _ <=? 5) with false by (symmetry; apply N.leb_gt; unfold len; cbn [List.length]; lia).
    cbn. steps.
Qed.
Lemma event_arr l : de_event p src (JArr l) =
  if len l <=? 3 then de_event p src (JObj (combine event_keys l))
  else do _ <- de_event p src (JObj (combine event_keys l)); Err SerdeJson.
Proof.
  destruct l as [|v0 [|v1 [|v2 l]]].
  1-3: cbn; steps.
  assert (E : combine event_keys (v0 :: v1 :: v2 :: l) = combine event_keys [v0; v1; v2]) by (destruct l; reflexivity).
  rewrite E. clear E. destruct l as [|v5 l].
  - cbn; steps.
  - cbn [de_event]. replace (len _ <=? 3) with false by (symmetry; apply N.leb_gt; unfold len; cbn [List.length]; lia).
    cbn. steps.
Qed.
Lemma constructor_arr l : de_constructor p src (JArr l) =
  if len l <=? 1 then de_constructor p src (JObj (combine [lit "inputs"] l))
  else do _ <- de_constructor p src (JObj (combine [lit "inputs"] l)); Err SerdeJson.
Proof.
  destruct l as [|v0 l].
  1: cbn; steps.
  assert (E : combine [lit "inputs"] (v0 :: l) = combine [lit "inputs"] [v0]) by (destruct l; reflexivity).
  rewrite E. clear E. destruct l as [|v5 l].
  - cbn; steps.
  - cbn [de_constructor]. replace (len _ <=? 1) with false by (symmetry; apply N.leb_gt; unfold len; cbn [List.length]; lia).
    cbn. steps.
Qed.
Lemma agree_values ks l : agree (JArr l) -> (forall v, ~ In (lit "type", v) (combine ks l)) -> agree (JObj (combine ks l)).
Proof.
  intros G N s T. inversion T as [l' HI|l' k v HI Tv|]; subst.
  - now elim (N _ HI).
  - apply G. apply (@tt_item s l v); [|exact Tv]. apply in_combine_r in HI. exact HI.
Qed.
Lemma no_type ks (l : list json) v : ~ In (lit "type") ks -> ~ In (lit "type", v) (combine ks l).
Proof. intros N HI. apply in_combine_l in HI. contradiction. Qed.
Ltac notin := cbn [In function_keys event_keys]; intros HI; repeat (destruct HI as [HI|HI]; [discriminate HI|]); exact HI.
Lemma struct_iff A (de : json -> res A) ks (entries : list (str * json) -> A -> Prop) (n : nat) :
  (forall j, match j with JArr _ | JObj _ => True | _ => forall a, de j <> Ok a end) ->
  (forall l a, agree (JObj l) -> (de (JObj l) = Ok a <-> entries l a)) ->
  (forall l, de (JArr l) = if len l <=? N.of_nat n then de (JObj (combine ks l)) else do _ <- de (JObj (combine ks l)); Err SerdeJson) ->
  List.length ks = n -> ~ In (lit "type") ks ->
  forall j a, agree j -> (de j = Ok a <-> exists l, struct_entries ks j l /\ entries l a).
Proof.
  intros H0 H1 H2 En Nt j a G. specialize (H0 j). destruct j as [| | | |l|l].
  1-4: split; [intros E; now elim (H0 a)|intros (l' & S & _); inversion S].
  - pose proof (@agree_values ks l G (fun v => @no_type ks l v Nt)) as Gc. rewrite H2. split.
    + destruct (len l <=? N.of_nat n) eqn:L.
      * intros E. exists (combine ks l). split; [constructor|now apply H1]. apply N.leb_le in L. unfold len in L. lia.
      * rewrite bind_ok. intros (? & _ & E). discriminate.
    + intros (l' & S & E). inversion S as [|l0 L]; subst. replace (len l <=? _) with true by (symmetry; apply N.leb_le; unfold len; lia). now apply H1.
  - rewrite (H1 _ _ G). split; [intros E; exists l; split; [constructor|exact E]|]. intros (l' & S & E). inversion S; subst. exact E.
Qed.
Lemma function_iff j f : agree j -> (de_function p src j = Ok f <-> exists l, struct_entries function_keys j l /\ function_entries names oth l f).
Proof.
  apply (@struct_iff _ (de_function p src) function_keys (function_entries names oth) 5).
  - intros []; try exact Logic.I; discriminate.
  - intros l a. apply function_obj.
  - exact function_arr.
  - reflexivity.
  - notin.
Qed.
Lemma event_iff j f : agree j -> (de_event p src j = Ok f <-> exists l, struct_entries event_keys j l /\ event_entries names oth l f).
Proof.
  apply (@struct_iff _ (de_event p src) event_keys (event_entries names oth) 3).
  - intros []; try exact Logic.I; discriminate.
  - intros l a. apply event_obj.
  - exact event_arr.
  - reflexivity.
  - notin.
Qed.
Lemma constructor_iff j f : agree j -> (de_constructor p src j = Ok f <-> exists l, struct_entries [lit "inputs"] j l /\ constructor_entries names oth l f).
Proof.
  apply (@struct_iff _ (de_constructor p src) [lit "inputs"] (constructor_entries names oth) 1).
  - intros []; try exact Logic.I; discriminate.
  - intros l a. apply constructor_obj.
  - exact constructor_arr.
  - reflexivity.
  - notin.
Qed.
End Exact.

(** ** Operations and contracts *)
Section Contracts.
Context (p : profile) (names : str -> ParamType -> Prop).
Lemma operation_tagged j tag rest : tagged j tag rest -> de_operation p j = variant_of p tag rest.
Proof. intros T. inversion T as [l tag' K|tag' l]; subst; [now apply de_operation_obj|reflexivity]. Qed.
Lemma operation_untagged j : (exists tag rest, tagged j tag rest) \/ de_operation p j = Err SerdeJson.
Proof.
  destruct j as [| | | |[|[| | |tag| |] l]|l]; try (right; reflexivity).
  - left. exists tag, (JArr l). constructor.
  - unfold de_operation. destruct (filter (fun e => str_eqb (fst e) (lit "type")) l) as [|[k t] [|]] eqn:F; try (right; reflexivity).
    destruct t as [| | |tag| |]; try (right; reflexivity). left. exists tag. eexists. constructor. unfold keyed. now rewrite F.
Qed.
Lemma tagged_unique j t1 r1 t2 r2 : tagged j t1 r1 -> tagged j t2 r2 -> t1 = t2 /\ r1 = r2.
Proof.
  intros T1 T2. inversion T1 as [l tag K|tag l]; subst; inversion T2 as [l' tag' K'|tag' l']; subst.
  - rewrite K in K'. injection K' as ->. auto.
  - auto.
Qed.
Lemma agree_rest j tag rest : agree p names j -> tagged j tag rest -> agree p names rest.
Proof.
  intros G T s X. apply G. inversion T as [l tag' K|tag' l]; subst.
  - inversion X as [l' HI|l' k v HI Xv|]; subst.
    + apply filter_In in HI as [HI _]. now constructor.
    + apply filter_In in HI as [HI _]. exact (@tt_value s l k v HI Xv).
  - inversion X as [| |l' v HI Xv]; subst. apply (@tt_item s _ v); [now right|exact Xv].
Qed.
Lemma variant_iff tag rest o j : tagged j tag rest -> agree p names rest -> (variant_of p tag rest = Ok o <-> item_is names true j o).
Proof.
  intros T G. unfold variant_of.
  assert (U : forall t r, tagged j t r -> t = tag /\ r = rest) by (intros t r T'; apply (tagged_unique T' T)).
  assert (EM : match rest with JArr (_ :: _) => False | JArr [] | JObj _ => True | _ => False end <-> exists l, struct_entries [] rest l).
  { split.
    - destruct rest as [| | | |[|]|l]; try contradiction; intros _; eexists; [apply se_values; cbn; lia|apply se_object].
    - intros (l & S). inversion S as [|l0 L]; subst; [exact Logic.I|]. destruct l0; [exact Logic.I|cbn in L; lia]. }
  assert (RS : match rest with JArr _ | JObj _ => True | _ => False end) by (inversion T; exact Logic.I).
  split.
  - destruct (str_eqb tag (lit "constructor")) eqn:K1; [apply str_eqb_eq in K1; subst tag; rewrite bind_ok; intros (c & E & Eo); injection Eo as <-;
      apply (@constructor_iff p Buffered names _ _ G) in E as (l & S & E); exact (@it_constructor _ _ _ _ _ _ T S E)|].
    destruct (str_eqb tag (lit "function")) eqn:K2; [apply str_eqb_eq in K2; subst tag; rewrite bind_ok; intros (c & E & Eo); injection Eo as <-;
      apply (@function_iff p Buffered names _ _ G) in E as (l & S & E); exact (@it_function _ _ _ _ _ _ T S E)|].
    destruct (str_eqb tag (lit "event")) eqn:K3; [apply str_eqb_eq in K3; subst tag; rewrite bind_ok; intros (c & E & Eo); injection Eo as <-;
      apply (@event_iff p Buffered names _ _ G) in E as (l & S & E); exact (@it_event _ _ _ _ _ _ T S E)|].
    destruct (str_eqb tag (lit "fallback")) eqn:K4.
    { apply str_eqb_eq in K4. subst tag. intros E.
      assert (X : exists l, struct_entries [] rest l) by (apply EM; destruct rest as [| | | |[|]|]; try contradiction; try exact Logic.I; discriminate).
      destruct X as [l S]. assert (o = OpFallback) as -> by (destruct rest as [| | | |[|]|]; try contradiction; congruence). exact (@it_fallback _ _ _ _ _ T S). }
    destruct (str_eqb tag (lit "receive")) eqn:K5; [|discriminate].
    apply str_eqb_eq in K5. subst tag. intros E.
    assert (X : exists l, struct_entries [] rest l) by (apply EM; destruct rest as [| | | |[|]|]; try contradiction; try exact Logic.I; discriminate).
    destruct X as [l S]. assert (o = OpReceive) as -> by (destruct rest as [| | | |[|]|]; try contradiction; congruence). exact (@it_receive _ _ _ _ _ T S).
  - intros HI. inversion HI as [r l c T' S E|r l c T' S E|r l c T' S E|r l T' S|r l T' S]; subst; destruct (U _ _ T') as [<- ->].
    + change (bind (de_constructor p Buffered rest) (fun c => Ok (OpConstructor c)) = Ok (OpConstructor c)).
      assert (Ec : de_constructor p Buffered rest = Ok c) by (apply (@constructor_iff p Buffered names _ _ G); eauto). now rewrite Ec.
    + change (bind (de_function p Buffered rest) (fun c => Ok (OpFunction c)) = Ok (OpFunction c)).
      assert (Ec : de_function p Buffered rest = Ok c) by (apply (@function_iff p Buffered names _ _ G); eauto). now rewrite Ec.
    + change (bind (de_event p Buffered rest) (fun c => Ok (OpEvent c)) = Ok (OpEvent c)).
      assert (Ec : de_event p Buffered rest = Ok c) by (apply (@event_iff p Buffered names _ _ G); eauto). now rewrite Ec.
    + change (match rest with JArr (_ :: _) => Err SerdeJson | _ => Ok OpFallback end = Ok OpFallback).
      assert (X : exists l, struct_entries [] rest l) by eauto. apply EM in X. destruct rest as [| | | |[|]|]; try contradiction; reflexivity.
    + change (match rest with JArr (_ :: _) => Err SerdeJson | _ => Ok OpReceive end = Ok OpReceive).
      assert (X : exists l, struct_entries [] rest l) by eauto. apply EM in X. destruct rest as [| | | |[|]|]; try contradiction; reflexivity.
Qed.
Lemma operation_iff j : agree p names j -> forall o, de_operation p j = Ok o <-> item_is names true j o.
Proof.
  intros G o. destruct (operation_untagged j) as [(tag & rest & T)|E].
  - rewrite (operation_tagged T). apply (@variant_iff _ _ _ _ T). exact (agree_rest G T).
  - rewrite E. split; [discriminate|]. intros HI.
    assert (X : exists tag rest, tagged j tag rest) by (inversion HI; eauto). destruct X as (tag & rest & T).
    exfalso. assert (G' := agree_rest G T). apply (@variant_iff _ _ _ _ T G') in HI. rewrite <- (operation_tagged T), E in HI. discriminate.
Qed.
Lemma operations_iff items ops : agree p names (JArr items) -> (mapM (de_operation p) items = Ok ops <-> contract_is names true (JArr items) ops).
Proof.
  intros G. apply (@de_vec_iff _ (de_operation p) (item_is names true) (JArr items)). intros x HI a. apply operation_iff. exact (@agree_item _ _ _ _ G HI).
Qed.
End Contracts.

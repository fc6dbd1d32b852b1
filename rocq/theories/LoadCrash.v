(** * Exactly when loading a contract panics (proofs) *)
From Verif Require Import Base BaseFacts StrFacts Types TypeNames Function Event Json JsonSpec JsonFacts ItemFacts LoadFacts LoadTotal Contract ContractSpec ContractFacts JsonLemmas LoadSpec LoadExact.
From Coq Require Import String Permutation Lia ZifyBool ZifyNat ZifyN.
Set Implicit Arguments.
Local Open Scope N_scope.
Local Open Scope list_scope.

(** ** Loops *)
Lemma bind_panic A B (r : res A) (k : A -> res B) : bind r k = Panic <-> r = Panic \/ exists a, r = Ok a /\ k a = Panic.
Proof.
  destruct r as [a|e|]; cbn; split.
  - eauto.
  - intros [H|(b & E & H)]; [discriminate|congruence].
  - discriminate.
  - intros [H|(b & E & H)]; discriminate.
  - auto.
  - auto.
Qed.
Lemma mapM_panics A B (f : A -> res B) l : mapM f l = Panic <-> exists l1 ys x l2, l = l1 ++ x :: l2 /\ mapM f l1 = Ok ys /\ f x = Panic.
Proof.
  split.
  - induction l as [|x l IH]; [discriminate|]. cbn [mapM]. rewrite bind_panic. intros [P|(y & Y & P)].
    + exists [], [], x, l. auto.
    + rewrite bind_panic in P. destruct P as [P|(ys & Ys & P)]; [|discriminate]. destruct (IH P) as (l1 & ys & x' & l2 & -> & M & X).
      exists (x :: l1), (y :: ys), x', l2. repeat split; auto. cbn [mapM]. rewrite Y. cbn [bind]. now rewrite M.
  - intros (l1 & ys & x & l2 & -> & M & X). exact (@mapM_panic_at _ _ f l1 x l2 ys M X).
Qed.
Lemma foldM_panics A S (f : S -> A -> res S) l : forall st, foldM f l st = Panic <->
  exists l1 st' x l2, l = l1 ++ x :: l2 /\ foldM f l1 st = Ok st' /\ f st' x = Panic.
Proof.
  intros st. split.
  - revert st. induction l as [|x l IH]; intros st; [discriminate|]. cbn [foldM]. rewrite bind_panic. intros [P|(y & Y & P)].
    + exists [], st, x, l. auto.
    + destruct (IH _ P) as (l1 & st' & x' & l2 & -> & M & X). exists (x :: l1), st', x', l2. repeat split; auto. cbn [foldM]. now rewrite Y.
  - intros (l1 & st' & x & l2 & -> & M & X). exact (@foldM_panic_at _ _ f l1 x l2 st st' M X).
Qed.
Lemma visit_map_fold p src vis l : forall st, visit_map p src vis l st =
  foldM (fun st e => visit_entry p src vis (fst e) (snd e) (fun _ => de_vec (de_tuple_param p src) (snd e)) st) l st.
Proof.
  induction l as [|[k v] l IH]; intros st; [reflexivity|]. cbn [visit_map foldM fst snd]. destruct (visit_entry _ _ _ _ _ _ _); cbn [bind]; auto.
Qed.
Lemma set_once_panic A (o : option A) r : set_once o r = Panic <-> o = None /\ r = Panic.
Proof. destruct o, r; cbn; split; try discriminate; try tauto; intros []; discriminate. Qed.
Lemma visit_entry_panic p src vis k v st : visit_entry p src vis k v (fun _ => de_vec (de_tuple_param p src) v) st = Panic <->
  (k = lit "type" /\ fd_kind st = None /\ de_param_type p v = Panic) \/
  (k = lit "components" /\ fd_components st = None /\ de_vec (de_tuple_param p src) v = Panic).
Proof.
  assert (B : forall A (o : option A) r (f : option A -> fields), bind (set_once o r) (fun x => Ok (f x)) = Panic <-> o = None /\ r = Panic).
  { intros A o r f. rewrite bind_panic, set_once_panic. split; [intros [H|(a & _ & H)]; [exact H|discriminate]|auto]. }
  unfold visit_entry.
  destruct (str_eqb k (lit "name")) eqn:K1.
  { apply str_eqb_eq in K1. subst k. rewrite B. split; [intros [_ H]; now elim (de_string_not_panic v)|intros [[H _]|[H _]]; discriminate]. }
  destruct (str_eqb k (lit "type")) eqn:K2.
  { apply str_eqb_eq in K2. subst k. rewrite B. split; [auto|intros [[_ H]|[H _]]; [exact H|discriminate]]. }
  assert (N2 : k <> lit "type") by (intros ->; now rewrite str_eqb_refl in K2).
  destruct (knows_internal vis && str_eqb k (lit "internalType")) eqn:K3.
  { apply andb_true_iff in K3 as [_ K3]. apply str_eqb_eq in K3. subst k. rewrite B. split; [intros [_ H]; now elim (de_string_not_panic v)|intros [[H _]|[H _]]; discriminate]. }
  destruct (str_eqb k (lit "components")) eqn:K4.
  { apply str_eqb_eq in K4. subst k. rewrite B. split; [auto|intros [[H _]|[_ H]]; [discriminate|exact H]]. }
  assert (N4 : k <> lit "components") by (intros ->; now rewrite str_eqb_refl in K4).
  destruct (knows_indexed vis && str_eqb k (lit "indexed")) eqn:K5.
  { apply andb_true_iff in K5 as [_ K5]. apply str_eqb_eq in K5. subst k. rewrite B. split; [intros [_ H]; now elim (de_bool_not_panic v)|intros [[H _]|[H _]]; discriminate]. }
  split; [destruct src; discriminate|intros [[H _]|[H _]]; contradiction].
Qed.

Section Crash.
Context (p : profile) (src : source) (names : str -> ParamType -> Prop) (crashes : str -> Prop).
Notation oth := (oth src).
(** The reader does on all type names inside what [names] and [crashes] say. *)
Definition behaves (j : json) : Prop := forall s, type_text s j -> (forall t, read p s = Ok t <-> names s t) /\ (read p s = Panic <-> crashes s).
Lemma behaves_agree j : behaves j -> agree p names j.
Proof. intros H s T. apply (H s T). Qed.
Lemma behaves_item l j : behaves (JArr l) -> In j l -> behaves j.
Proof. intros H HI s T. apply H. exact (@tt_item s l j HI T). Qed.
Lemma behaves_entry l k v : behaves (JObj l) -> In (k, v) l -> behaves v.
Proof. intros H HI s T. apply H. exact (@tt_value s l k v HI T). Qed.
Lemma behaves_prefix l1 l2 : behaves (JObj (l1 ++ l2)) -> behaves (JObj l1).
Proof.
  intros H s T. apply H. inversion T as [l HI|l k v HI Tv|]; subst.
  - apply tt_here. apply in_or_app. auto.
  - apply (@tt_value s _ k v); [|exact Tv]. apply in_or_app. auto.
Qed.
Lemma type_panic l v : behaves (JObj l) -> In (lit "type", v) l -> (de_param_type p v = Panic <-> exists s, v = JStr s /\ crashes s).
Proof.
  intros G HI. split.
  - destruct v as [| | |s| |]; try discriminate. cbn [de_param_type]. intros E. exists s. split; [reflexivity|]. apply (G s); [now constructor|].
    destruct (read p s); congruence.
  - intros (s & -> & C). apply (G s) in C; [|now constructor]. cbn [de_param_type]. now rewrite C.
Qed.
(** What was read before. *)
Definition start (vis : visitor) (l : list (str * json)) : Prop :=
  match vis with VEventParam => start_event_param names oth l | _ => start_param names oth l end.
Lemma comps_read l : agree p names (JObj l) -> ((exists o, opt_field l (lit "components") (de_vec (de_tuple_param p src)) o) <-> components_read names oth l).
Proof.
  intros G. unfold components_read. split.
  - intros (o & O). apply (@comps_iff p src names l o) in O; [|exact (@entries_read p src names l G)]. apply comps_are in O. eauto.
  - intros (cs & C). apply are_comps in C as (o & O & _). exists o. now apply (@comps_iff p src names l o), O; apply entries_read.
Qed.
Lemma started vis l : agree p names (JObj l) -> ((exists st, visit_map p src vis l no_fields = Ok st) <-> start vis l).
Proof.
  intros G.
  assert (N := @exists_iff _ l (lit "name") de_string text_json (fun v _ a => de_string_iff v a)).
  assert (I2 := @exists_iff _ l (lit "internalType") de_string text_json (fun v _ a => de_string_iff v a)).
  assert (X := @exists_iff _ l (lit "indexed") de_bool bool_json (fun v _ a => de_bool_iff v a)).
  assert (T := @exists_iff _ l (lit "type") (de_param_type p) (type_json names) (fun v HI => @type_json_iff p names l v G HI)).
  assert (C := comps_read G).
  assert (K : forall keys, (src = Text -> Forall (fun e => In (fst e) keys) l) <-> keys_ok oth keys l) by (intros; apply keys_iff).
  split.
  - intros (st & V). apply visit_map_visited in V as (V1 & V2 & V3 & V4 & V5 & V6).
    destruct vis; cbn [start knows_internal knows_indexed no_fields fd_name fd_kind fd_internal fd_components fd_indexed vis_keys app] in *;
      rewrite ?more_none in *; unfold start_param, start_event_param; rewrite <- N, <- T, <- ?I2, <- ?X, <- C, <- K; eauto 10.
  - intros H. destruct vis; cbn [start] in H; unfold start_param, start_event_param in H; rewrite <- N, <- T, <- ?I2, <- ?X, <- C, <- K in H;
      destruct H as ((n & Hn) & (t & Ht) & (i & Hx) & (c & Hc) & Hk).
    + exists (mkFields n t None i c). apply visit_map_visited. unfold visited. cbn [knows_internal knows_indexed no_fields fd_name fd_kind fd_internal fd_components fd_indexed].
      rewrite !more_none. auto 10.
    + exists (mkFields n t i None c). apply visit_map_visited. unfold visited. cbn [knows_internal knows_indexed no_fields fd_name fd_kind fd_internal fd_components fd_indexed].
      rewrite !more_none. auto 10.
    + exists (mkFields n t None i c). apply visit_map_visited. unfold visited. cbn [knows_internal knows_indexed no_fields fd_name fd_kind fd_internal fd_components fd_indexed].
      rewrite !more_none. auto 10.
Qed.
Lemma field_none A l k (f : json -> res A) o : opt_field l k f o -> (o = None <-> keyed l k = []).
Proof.
  intros O. split; [intros ->; now apply opt_none_iff in O|]. intros K. unfold opt_field in O. now rewrite K in O.
Qed.
Lemma started_none vis l st : visit_map p src vis l no_fields = Ok st ->
  (fd_kind st = None <-> keyed l (lit "type") = []) /\ (fd_components st = None <-> keyed l (lit "components") = []).
Proof.
  intros V. apply visit_map_visited in V as (_ & V2 & _ & V4 & _). cbn [no_fields fd_kind fd_components] in *. rewrite more_none in *.
  split; eapply field_none; eauto.
Qed.
Definition crash_components (l : list (str * json)) : Prop := forall k v, In (k, v) l ->
  (de_vec (de_tuple_param p src) v = Panic <-> list_crashes (tuple_param_is names oth) (tuple_param_crashes names oth crashes) v).
Lemma visit_panics vis l : behaves (JObj l) -> crash_components l ->
  (visit_map p src vis l no_fields = Panic <->
   exists l1 k v l2, l = l1 ++ (k, v) :: l2 /\ start vis l1 /\ value_crashes names oth crashes l1 k v).
Proof.
  intros G CC. rewrite visit_map_fold, foldM_panics. split.
  - intros (l1 & st & [k v] & l2 & -> & M & X). exists l1, k, v, l2. split; [reflexivity|]. rewrite <- visit_map_fold in M.
    cbn [fst snd] in X. apply visit_entry_panic in X. destruct (@started_none vis l1 st M) as [N1 N2].
    assert (HI : In (k, v) (l1 ++ (k, v) :: l2)) by (apply in_elt).
    split; [apply started; [apply behaves_agree; exact (@behaves_prefix _ _ G)|eauto]|].
    destruct X as [(-> & X1 & X2)|(-> & X1 & X2)].
    + apply (@type_panic _ _ G HI) in X2 as (s & -> & C). constructor; [now apply N1|exact C].
    + apply (CC _ _ HI) in X2 as (js1 & cs1 & j & js2 & -> & F & C). apply tuple_params_forall in F. econstructor; [now apply N2|exact F|exact C].
  - intros (l1 & k & v & l2 & -> & S & X). apply started in S as [st M]; [|apply behaves_agree; exact (@behaves_prefix _ _ G)].
    exists l1, st, (k, v), l2. split; [reflexivity|]. split; [now rewrite <- visit_map_fold|]. cbn [fst snd]. apply visit_entry_panic.
    destruct (@started_none vis l1 st M) as [N1 N2]. assert (HI : In (k, v) (l1 ++ (k, v) :: l2)) by (apply in_elt).
    inversion X as [s K C|js1 cs1 j js2 K F C]; subst.
    + left. split; [reflexivity|]. split; [now apply N1|]. apply (@type_panic _ _ G HI). eauto.
    + right. split; [reflexivity|]. split; [now apply N2|]. apply (CC _ _ HI). exists js1, cs1, j, js2. split; [reflexivity|]. split; [now apply tuple_params_forall|exact C].
Qed.
Lemma tuple_param_unfold j : tuple_param_crashes names oth crashes j <-> param_crashes names oth crashes j.
Proof.
  split.
  - intros H. inversion H as [l1 s l2 S K C|l1 js1 cs1 j' js2 l2 S K F C]; subst.
    + exists l1, (lit "type"), (JStr s), l2. split; [reflexivity|]. split; [exact S|]. now constructor.
    + exists l1, (lit "components"), (JArr (js1 ++ j' :: js2)), l2. split; [reflexivity|]. split; [exact S|]. econstructor; eauto.
  - intros (l1 & k & v & l2 & -> & S & X). inversion X; subst; econstructor; eauto.
Qed.
Lemma vec_panics A (f : json -> res A) R C j : (forall x, match j with JArr l => In x l | _ => False end -> (forall a, f x = Ok a <-> R x a) /\ (f x = Panic <-> C x)) ->
  (de_vec f j = Panic <-> list_crashes R C j).
Proof.
  intros H. unfold list_crashes. destruct j as [| | | |l|].
  1-4,6: split; [discriminate|intros (? & ? & ? & ? & E & _); discriminate].
  cbn [de_vec]. rewrite mapM_panics. split.
  - intros (l1 & ys & x & l2 & -> & M & X). exists l1, ys, x, l2. split; [reflexivity|]. split; [|apply H; [apply in_elt|exact X]].
    assert (D : de_vec f (JArr l1) = Ok ys) by exact M. apply (@de_vec_iff _ f R) in D; [destruct D as (js & E & F); now injection E as ->|].
    intros y Y. apply H. apply in_or_app. auto.
  - intros (l1 & ys & x & l2 & E & M & X). injection E as ->. exists l1, ys, x, l2. split; [reflexivity|]. split; [|apply H; [apply in_elt|exact X]].
    change (de_vec f (JArr l1) = Ok ys). apply (@de_vec_iff _ f R); [|exists l1; auto]. intros y Y. apply H. apply in_or_app. auto.
Qed.
Lemma tuple_param_panics_both j : behaves j ->
  (de_tuple_param p src j = Panic <-> tuple_param_crashes names oth crashes j) /\
  (de_vec (de_tuple_param p src) j = Panic <-> list_crashes (tuple_param_is names oth) (tuple_param_crashes names oth crashes) j).
Proof.
  induction j as [| | | |l IH|l IH] using json_ind'; intros G.
  1-4: split; [split; [discriminate|intros W; inversion W]|split; [discriminate|intros (? & ? & ? & ? & E & _); discriminate]].
  - split; [split; [discriminate|intros W; inversion W]|]. apply vec_panics. intros x HI. rewrite Forall_forall in IH.
    pose proof (@behaves_item _ _ G HI) as Gx. split; [intros a; apply tuple_param_iff; now apply behaves_agree|now apply IH].
  - split; [|split; [discriminate|intros (? & ? & ? & ? & E & _); discriminate]].
    rewrite tuple_param_unfold. unfold param_crashes. rewrite de_tuple_param_obj.
    assert (CC : crash_components l). { intros k v HI. rewrite Forall_forall in IH. apply (IH _ HI). exact (@behaves_entry _ _ _ G HI). }
    pose proof (@visit_panics VTupleParam l G CC) as VP. rewrite bind_panic. split.
    + intros [P|(st & _ & P)]; [apply VP in P as (l1 & k & v & l2 & -> & H); exists l1, k, v, l2; auto|].
      exfalso. rewrite bind_panic in P. destruct P as [P|(t & _ & P)]; [now apply required_not_panic in P|].
      rewrite bind_panic in P. destruct P as [P|(t' & _ & P)]; [now apply set_components_not_panic in P|discriminate].
    + intros (l1 & k & v & l2 & E & H). injection E as ->. left. apply VP. exists l1, k, v, l2. auto.
Qed.
Lemma entries_crash l : behaves (JObj l) -> crash_components l.
Proof. intros G k v HI. apply tuple_param_panics_both. exact (@behaves_entry _ _ _ G HI). Qed.
Lemma tuple_param_panics j : behaves j -> (de_tuple_param p src j = Panic <-> param_crashes names oth crashes j).
Proof. intros G. rewrite <- tuple_param_unfold. now apply tuple_param_panics_both. Qed.
Lemma param_panics j : behaves j -> (de_param p src j = Panic <-> param_crashes names oth crashes j).
Proof.
  intros G. unfold param_crashes. destruct j as [| | | | |l].
  1-5: split; [discriminate|intros (? & ? & ? & ? & E & _); discriminate].
  pose proof (@visit_panics VParam l G (@entries_crash l G)) as VP. cbn [de_param]. rewrite bind_panic. split.
  - intros [P|(st & _ & P)]; [apply VP in P as (l1 & k & v & l2 & -> & H); exists l1, k, v, l2; auto|].
    exfalso. rewrite bind_panic in P. destruct P as [P|(n & _ & P)]; [now apply required_not_panic in P|].
    rewrite bind_panic in P. destruct P as [P|(t & _ & P)]; [now apply required_not_panic in P|].
    rewrite bind_panic in P. destruct P as [P|(t' & _ & P)]; [now apply set_components_not_panic in P|discriminate].
  - intros (l1 & k & v & l2 & E & H). injection E as ->. left. apply VP. exists l1, k, v, l2. auto.
Qed.
Lemma event_param_panics j : behaves j -> (de_event_param p src j = Panic <-> event_param_crashes names oth crashes j).
Proof.
  intros G. unfold event_param_crashes. destruct j as [| | | | |l].
  1-5: split; [discriminate|intros (? & ? & ? & ? & E & _); discriminate].
  pose proof (@visit_panics VEventParam l G (@entries_crash l G)) as VP. cbn [de_event_param]. rewrite bind_panic. split.
  - intros [P|(st & _ & P)]; [apply VP in P as (l1 & k & v & l2 & -> & H); exists l1, k, v, l2; auto|].
    exfalso. rewrite bind_panic in P. destruct P as [P|(n & _ & P)]; [now apply required_not_panic in P|].
    rewrite bind_panic in P. destruct P as [P|(t & _ & P)]; [now apply required_not_panic in P|].
    rewrite bind_panic in P. destruct P as [P|(t' & _ & P)]; [now apply set_components_not_panic in P|discriminate].
  - intros (l1 & k & v & l2 & E & H). injection E as ->. left. apply VP. exists l1, k, v, l2. auto.
Qed.
Lemma params_panic j : behaves j -> (de_vec (de_param p src) j = Panic <-> list_crashes (param_is names oth) (param_crashes names oth crashes) j).
Proof.
  intros G. apply vec_panics. destruct j; try contradiction. intros x HI. pose proof (@behaves_item _ _ G HI) as Gx.
  split; [intros a; apply param_iff; now apply behaves_agree|now apply param_panics].
Qed.
Lemma event_params_panic j : behaves j -> (de_vec (de_event_param p src) j = Panic <-> list_crashes (event_param_is names oth) (event_param_crashes names oth crashes) j).
Proof.
  intros G. apply vec_panics. destruct j; try contradiction. intros x HI. pose proof (@behaves_item _ _ G HI) as Gx.
  split; [intros a; apply event_param_iff; now apply behaves_agree|now apply event_param_panics].
Qed.

(** ** Items *)
Lemma once_panic A S (o : option A) r (f : option A -> S) : bind (set_once o r) (fun x => Ok (f x)) = Panic <-> o = None /\ r = Panic.
Proof. rewrite bind_panic, set_once_panic. split; [intros [H|(a & _ & H)]; [exact H|discriminate]|auto]. Qed.
Lemma visit_function_panic k v st : visit_function p src st (k, v) = Panic <->
  (k = lit "inputs" /\ ff_inputs st = None \/ k = lit "outputs" /\ ff_outputs st = None) /\ de_vec (de_param p src) v = Panic.
Proof.
  unfold visit_function.
  destruct (str_eqb k (lit "name")) eqn:K1.
  { apply str_eqb_eq in K1. subst k. rewrite once_panic. split; [intros [_ H]; now elim (de_name_not_panic v)|intros [[[H _]|[H _]] _]; discriminate]. }
  destruct (str_eqb k (lit "inputs")) eqn:K2.
  { apply str_eqb_eq in K2. subst k. rewrite once_panic. split; [intros []; auto|intros [[[_ H]|[H _]] P]; [auto|discriminate]]. }
  assert (N2 : k <> lit "inputs") by (intros ->; now rewrite str_eqb_refl in K2).
  destruct (str_eqb k (lit "outputs")) eqn:K3.
  { apply str_eqb_eq in K3. subst k. rewrite once_panic. split; [intros []; auto|intros [[[H _]|[_ H]] P]; [discriminate|auto]]. }
  assert (N3 : k <> lit "outputs") by (intros ->; now rewrite str_eqb_refl in K3).
  assert (Z : forall P : Prop, P -> (k = lit "inputs" /\ ff_inputs st = None \/ k = lit "outputs" /\ ff_outputs st = None) /\ de_vec (de_param p src) v = Panic -> False)
    by (intros _ _ [[[H _]|[H _]] _]; contradiction).
  destruct (str_eqb k (lit "constant")) eqn:K4.
  { rewrite once_panic. split; [intros [_ H]; now elim (de_bool_not_panic v)|intros H; elim (Z True Logic.I H)]. }
  destruct (str_eqb k (lit "stateMutability")) eqn:K5.
  { rewrite once_panic. split; [intros [_ H]; now elim (de_state_mutability_not_panic v)|intros H; elim (Z True Logic.I H)]. }
  split; [discriminate|intros H; elim (Z True Logic.I H)].
Qed.
Lemma function_started l : agree p names (JObj l) ->
  ((exists st, foldM (visit_function p src) l (mkFF None None None None None) = Ok st) <-> start_function names oth l).
Proof.
  intros G. unfold start_function.
  rewrite <- (@exists_iff _ l (lit "name") de_name name_json) by (intros; apply de_name_iff).
  rewrite <- (@exists_iff _ l (lit "inputs") _ (list_json (param_is names oth))) by (intros v HI; exact (@params_at p src names _ _ _ G HI)).
  rewrite <- (@exists_iff _ l (lit "outputs") _ (list_json (param_is names oth))) by (intros v HI; exact (@params_at p src names _ _ _ G HI)).
  rewrite <- (@exists_iff _ l (lit "constant") de_bool bool_json) by (intros; apply de_bool_iff).
  rewrite <- (@exists_iff _ l (lit "stateMutability") de_state_mutability mutability_json) by (intros; apply de_mutability_iff).
  split.
  - intros (st & V). apply visit_function_visited in V as (V1 & V2 & V3 & V4 & V5). cbn [ff_name ff_inputs ff_outputs ff_constant ff_mutability] in *.
    rewrite more_none in *. eauto 10.
  - intros ((a & V1) & (b & V2) & (c & V3) & (d & V4) & (e & V5)). exists (mkFF a b c d e). apply visit_function_visited. unfold fvisited. cbn [ff_name ff_inputs ff_outputs ff_constant ff_mutability]. rewrite !more_none. auto 10.
Qed.
Lemma function_none l st : foldM (visit_function p src) l (mkFF None None None None None) = Ok st ->
  (ff_inputs st = None <-> keyed l (lit "inputs") = []) /\ (ff_outputs st = None <-> keyed l (lit "outputs") = []).
Proof.
  intros V. apply visit_function_visited in V as (_ & V2 & V3 & _). cbn [ff_inputs ff_outputs] in *. rewrite more_none in *.
  split; eapply field_none; eauto.
Qed.
Lemma function_obj_panics l : behaves (JObj l) -> (de_function p src (JObj l) = Panic <-> function_crashes names oth crashes l).
Proof.
  intros G. unfold function_crashes. cbn [de_function].
  assert (F : forall r : res ffields, bind r (fun st => do name <- required (ff_name st); do inputs <- required (ff_inputs st); do outputs <- required (ff_outputs st);
      Ok (mkFunction name inputs outputs (or_default (ff_constant st) false) (or_default (ff_mutability st) default_mutability))) = Panic <-> r = Panic).
  { intros r. rewrite bind_panic. split; [|auto]. intros [H|(st & _ & P)]; [exact H|]. exfalso.
    do 3 (rewrite bind_panic in P; destruct P as [P|(? & _ & P)]; [now apply required_not_panic in P|]). discriminate. }
  rewrite F, foldM_panics. split.
  - intros (l1 & st & [k v] & l2 & -> & M & X). apply visit_function_panic in X as [X Y]. exists l1, k, v, l2.
    assert (HI : In (k, v) (l1 ++ (k, v) :: l2)) by (apply in_elt). destruct (@function_none l1 st M) as [N1 N2].
    split; [reflexivity|]. split; [apply function_started; [apply behaves_agree; exact (@behaves_prefix _ _ G)|eauto]|].
    apply params_panic in Y; [|exact (@behaves_entry _ _ _ G HI)].
    destruct X as [[-> X]|[-> X]]; (split; [auto|]); (split; [|exact Y]); [now apply N1|now apply N2].
  - intros (l1 & k & v & l2 & -> & S & K & E & Y). apply function_started in S as [st M]; [|apply behaves_agree; exact (@behaves_prefix _ _ G)].
    assert (HI : In (k, v) (l1 ++ (k, v) :: l2)) by (apply in_elt). destruct (@function_none l1 st M) as [N1 N2].
    exists l1, st, (k, v), l2. split; [reflexivity|]. split; [exact M|]. apply visit_function_panic.
    split; [destruct K as [->| ->]; [left|right]; split; auto; [now apply N1|now apply N2]|].
    apply params_panic; [exact (@behaves_entry _ _ _ G HI)|exact Y].
Qed.
Lemma visit_event_panic k v st : visit_event p src st (k, v) = Panic <->
  k = lit "inputs" /\ ef_inputs st = None /\ de_vec (de_event_param p src) v = Panic.
Proof.
  unfold visit_event.
  destruct (str_eqb k (lit "name")) eqn:K1.
  { apply str_eqb_eq in K1. subst k. rewrite once_panic. split; [intros [_ H]; now elim (de_name_not_panic v)|intros [H _]; discriminate]. }
  destruct (str_eqb k (lit "inputs")) eqn:K2.
  { apply str_eqb_eq in K2. subst k. rewrite once_panic. tauto. }
  assert (N2 : k <> lit "inputs") by (intros ->; now rewrite str_eqb_refl in K2).
  destruct (str_eqb k (lit "anonymous")) eqn:K4.
  { rewrite once_panic. split; [intros [_ H]; now elim (de_bool_not_panic v)|intros [H _]; contradiction]. }
  split; [discriminate|intros [H _]; contradiction].
Qed.
Lemma event_started l : agree p names (JObj l) ->
  ((exists st, foldM (visit_event p src) l (mkEF None None None) = Ok st) <-> start_event names oth l).
Proof.
  intros G. unfold start_event.
  rewrite <- (@exists_iff _ l (lit "name") de_name name_json) by (intros; apply de_name_iff).
  rewrite <- (@exists_iff _ l (lit "inputs") _ (list_json (event_param_is names oth))) by (intros v HI; exact (@event_params_at p src names _ _ _ G HI)).
  rewrite <- (@exists_iff _ l (lit "anonymous") de_bool bool_json) by (intros; apply de_bool_iff).
  split.
  - intros (st & V). apply visit_event_visited in V as (V1 & V2 & V3). cbn [ef_name ef_inputs ef_anonymous] in *. rewrite more_none in *. eauto 10.
  - intros ((a & V1) & (b & V2) & (c & V3)). exists (mkEF a b c). apply visit_event_visited. unfold evisited. cbn [ef_name ef_inputs ef_anonymous]. rewrite !more_none. auto 10.
Qed.
Lemma event_obj_panics l : behaves (JObj l) -> (de_event p src (JObj l) = Panic <-> event_crashes names oth crashes l).
Proof.
  intros G. unfold event_crashes. cbn [de_event].
  assert (F : forall r : res efields, bind r (fun st => do name <- required (ef_name st); do inputs <- required (ef_inputs st); do anonymous <- required (ef_anonymous st);
      Ok (mkEvent name inputs anonymous)) = Panic <-> r = Panic).
  { intros r. rewrite bind_panic. split; [|auto]. intros [H|(st & _ & P)]; [exact H|]. exfalso.
    do 3 (rewrite bind_panic in P; destruct P as [P|(? & _ & P)]; [now apply required_not_panic in P|]). discriminate. }
  rewrite F, foldM_panics.
  assert (N1 : forall l1 st, foldM (visit_event p src) l1 (mkEF None None None) = Ok st -> (ef_inputs st = None <-> keyed l1 (lit "inputs") = [])).
  { intros l1 st V. apply visit_event_visited in V as (_ & V2 & _). cbn [ef_inputs] in *. rewrite more_none in *. eapply field_none; eauto. }
  split.
  - intros (l1 & st & [k v] & l2 & -> & M & X). apply visit_event_panic in X as (-> & X & Y). exists l1, v, l2.
    assert (HI : In (lit "inputs", v) (l1 ++ (lit "inputs", v) :: l2)) by (apply in_elt).
    split; [reflexivity|]. split; [apply event_started; [apply behaves_agree; exact (@behaves_prefix _ _ G)|eauto]|].
    split; [now apply (N1 _ _ M)|]. apply event_params_panic; [exact (@behaves_entry _ _ _ G HI)|exact Y].
  - intros (l1 & v & l2 & -> & S & E & Y). apply event_started in S as [st M]; [|apply behaves_agree; exact (@behaves_prefix _ _ G)].
    assert (HI : In (lit "inputs", v) (l1 ++ (lit "inputs", v) :: l2)) by (apply in_elt).
    exists l1, st, (lit "inputs", v), l2. split; [reflexivity|]. split; [exact M|]. apply visit_event_panic.
    split; [reflexivity|]. split; [now apply (N1 _ _ M)|]. apply event_params_panic; [exact (@behaves_entry _ _ _ G HI)|exact Y].
Qed.
Lemma constructor_obj_panics l : behaves (JObj l) -> (de_constructor p src (JObj l) = Panic <-> constructor_crashes names oth crashes l).
Proof.
  intros G. unfold constructor_crashes. cbn [de_constructor].
  assert (F : forall r : res (option (list Param)), bind r (fun st => do inputs <- required st; Ok (mkConstructor inputs)) = Panic <-> r = Panic).
  { intros r. rewrite bind_panic. split; [|auto]. intros [H|(st & _ & P)]; [exact H|]. exfalso.
    rewrite bind_panic in P; destruct P as [P|(? & _ & P)]; [now apply required_not_panic in P|]. discriminate. }
  rewrite F, foldM_panics.
  assert (VP : forall st k v, visit_constructor p src st (k, v) = Panic <-> k = lit "inputs" /\ st = None /\ de_vec (de_param p src) v = Panic).
  { intros st k v. unfold visit_constructor. destruct (str_eqb k (lit "inputs")) eqn:K2.
    - apply str_eqb_eq in K2. subst k. rewrite set_once_panic. tauto.
    - split; [discriminate|]. intros [-> _]. now rewrite str_eqb_refl in K2. }
  split.
  - intros (l1 & st & [k v] & l2 & -> & M & X). apply VP in X as (-> & -> & Y). exists l1, v, l2.
    assert (HI : In (lit "inputs", v) (l1 ++ (lit "inputs", v) :: l2)) by (apply in_elt). apply visit_constructor_visited in M. rewrite more_none in M.
    split; [reflexivity|]. split; [now apply opt_none_iff in M|]. apply params_panic; [exact (@behaves_entry _ _ _ G HI)|exact Y].
  - intros (l1 & v & l2 & -> & E & Y). assert (HI : In (lit "inputs", v) (l1 ++ (lit "inputs", v) :: l2)) by (apply in_elt).
    exists l1, None, (lit "inputs", v), l2. split; [reflexivity|]. split; [apply visit_constructor_visited; rewrite more_none; now apply opt_none_iff|].
    apply VP. split; [reflexivity|]. split; [reflexivity|]. apply params_panic; [exact (@behaves_entry _ _ _ G HI)|exact Y].
Qed.
Lemma behaves_values ks l : behaves (JArr l) -> ~ In (lit "type") ks -> behaves (JObj (combine ks l)).
Proof.
  intros G Nt s T. inversion T as [l' HI|l' k v HI Tv|]; subst.
  - exfalso. exact (@no_type ks l _ Nt HI).
  - apply G. apply (@tt_item s l v); [|exact Tv]. apply in_combine_r in HI. exact HI.
Qed.
Lemma struct_panics A (de : json -> res A) ks (crash : list (str * json) -> Prop) n :
  (forall j, match j with JArr _ | JObj _ => True | _ => de j <> Panic end) ->
  (forall l, behaves (JObj l) -> (de (JObj l) = Panic <-> crash l)) ->
  (forall l, de (JArr l) = if len l <=? n then de (JObj (combine ks l)) else do _ <- de (JObj (combine ks l)); Err SerdeJson) ->
  ~ In (lit "type") ks ->
  forall j, behaves j -> (de j = Panic <-> exists l, struct_start ks j l /\ crash l).
Proof.
  intros H0 H1 H2 Nt j G. specialize (H0 j). destruct j as [| | | |l|l].
  1-4: split; [intros E; now elim H0|intros (l' & S & _); inversion S].
  - pose proof (@behaves_values ks l G Nt) as Gc. rewrite H2. split.
    + intros E. exists (combine ks l). split; [constructor|]. apply H1; [exact Gc|]. destruct (len l <=? n); [exact E|].
      apply bind_panic in E as [E|(? & _ & E)]; [exact E|discriminate].
    + intros (l' & S & E). inversion S as [|l0]; subst. apply H1 in E; [|exact Gc]. rewrite E. now destruct (len l <=? n).
  - rewrite (H1 _ G). split; [intros E; exists l; split; [constructor|exact E]|]. intros (l' & S & E). inversion S; subst. exact E.
Qed.
Ltac notin := cbn [In function_keys event_keys]; intros HI; repeat (destruct HI as [HI|HI]; [discriminate HI|]); exact HI.
Lemma function_panics j : behaves j -> (de_function p src j = Panic <-> exists l, struct_start function_keys j l /\ function_crashes names oth crashes l).
Proof.
  apply (@struct_panics _ (de_function p src) function_keys (function_crashes names oth crashes) 5).
  - intros []; try exact Logic.I; discriminate.
  - exact function_obj_panics.
  - intros l. apply function_arr.
  - notin.
Qed.
Lemma event_panics j : behaves j -> (de_event p src j = Panic <-> exists l, struct_start event_keys j l /\ event_crashes names oth crashes l).
Proof.
  apply (@struct_panics _ (de_event p src) event_keys (event_crashes names oth crashes) 3).
  - intros []; try exact Logic.I; discriminate.
  - exact event_obj_panics.
  - intros l. apply event_arr.
  - notin.
Qed.
Lemma constructor_panics j : behaves j -> (de_constructor p src j = Panic <-> exists l, struct_start [lit "inputs"] j l /\ constructor_crashes names oth crashes l).
Proof.
  apply (@struct_panics _ (de_constructor p src) [lit "inputs"] (constructor_crashes names oth crashes) 1).
  - intros []; try exact Logic.I; discriminate.
  - exact constructor_obj_panics.
  - intros l. apply constructor_arr.
  - notin.
Qed.
End Crash.

(** ** Operations and contracts *)
Section Contracts.
Context (p : profile) (names : str -> ParamType -> Prop) (crashes : str -> Prop).
Notation behaves := (behaves p names crashes).
Lemma behaves_rest j tag rest : behaves j -> tagged j tag rest -> behaves rest.
Proof.
  intros G T s X. apply G. inversion T as [l tag' K|tag' l]; subst.
  - inversion X as [l' HI|l' k v HI Xv|]; subst.
    + apply filter_In in HI as [HI _]. now constructor.
    + apply filter_In in HI as [HI _]. exact (@tt_value s l k v HI Xv).
  - inversion X as [| |l' v HI Xv]; subst. apply (@tt_item s _ v); [now right|exact Xv].
Qed.
Lemma operation_panics j : behaves j -> (de_operation p j = Panic <-> item_crashes names true crashes j).
Proof.
  intros G. destruct (operation_untagged p j) as [(tag & rest & T)|E].
  - rewrite (@operation_tagged p _ _ _ T). pose proof (@behaves_rest _ _ _ G T) as Gr.
    assert (U : forall t r, tagged j t r -> t = tag /\ r = rest) by (intros t r T'; apply (tagged_unique T' T)).
    assert (W : forall A (r : res A) (f : A -> Operation), bind r (fun x => Ok (f x)) = Panic <-> r = Panic).
    { intros A r f. rewrite bind_panic. split; [intros [H|(a & _ & H)]; [exact H|discriminate]|auto]. }
    pose proof (@constructor_panics p Buffered names crashes rest Gr) as HC.
    pose proof (@function_panics p Buffered names crashes rest Gr) as HF.
    pose proof (@event_panics p Buffered names crashes rest Gr) as HE.
    split.
    + unfold variant_of.
      destruct (str_eqb tag (lit "constructor")) eqn:K1; [apply str_eqb_eq in K1; subst tag; rewrite W; intros E; apply HC in E as (l & S & E);
        exact (@ic_constructor _ _ _ _ _ _ T S E)|].
      destruct (str_eqb tag (lit "function")) eqn:K2; [apply str_eqb_eq in K2; subst tag; rewrite W; intros E; apply HF in E as (l & S & E);
        exact (@ic_function _ _ _ _ _ _ T S E)|].
      destruct (str_eqb tag (lit "event")) eqn:K3; [apply str_eqb_eq in K3; subst tag; rewrite W; intros E; apply HE in E as (l & S & E);
        exact (@ic_event _ _ _ _ _ _ T S E)|].
      destruct (str_eqb tag (lit "fallback")); [destruct rest as [| | | |[|]|]; discriminate|].
      destruct (str_eqb tag (lit "receive")); [destruct rest as [| | | |[|]|]; discriminate|discriminate].
    + intros HI. inversion HI as [r l T' S E|r l T' S E|r l T' S E]; subst; destruct (U _ _ T') as [<- ->].
      * change (bind (de_constructor p Buffered rest) (fun c => Ok (OpConstructor c)) = Panic). rewrite W. apply HC. eauto.
      * change (bind (de_function p Buffered rest) (fun c => Ok (OpFunction c)) = Panic). rewrite W. apply HF. eauto.
      * change (bind (de_event p Buffered rest) (fun c => Ok (OpEvent c)) = Panic). rewrite W. apply HE. eauto.
  - rewrite E. split; [discriminate|]. intros HI. exfalso.
    assert (X : exists tag rest, tagged j tag rest) by (inversion HI; eauto). destruct X as (tag & rest & T).
    inversion T as [l tag' K|tag' l]; subst.
    + rewrite (@de_operation_obj p _ _ K) in E. inversion HI as [r l' T' S C|r l' T' S C|r l' T' S C]; subst;
        destruct (tagged_unique T' T) as [<- ->]; pose proof (@behaves_rest _ _ _ G T) as Gr.
      * change (bind (de_constructor p Buffered (JObj (untagged l))) (fun c => Ok (OpConstructor c)) = Err SerdeJson) in E.
        assert (P : de_constructor p Buffered (JObj (untagged l)) = Panic) by (apply (@constructor_panics p Buffered names crashes _ Gr); eauto). rewrite P in E. discriminate.
      * change (bind (de_function p Buffered (JObj (untagged l))) (fun c => Ok (OpFunction c)) = Err SerdeJson) in E.
        assert (P : de_function p Buffered (JObj (untagged l)) = Panic) by (apply (@function_panics p Buffered names crashes _ Gr); eauto). rewrite P in E. discriminate.
      * change (bind (de_event p Buffered (JObj (untagged l))) (fun c => Ok (OpEvent c)) = Err SerdeJson) in E.
        assert (P : de_event p Buffered (JObj (untagged l)) = Panic) by (apply (@event_panics p Buffered names crashes _ Gr); eauto). rewrite P in E. discriminate.
    + inversion HI as [r l' T' S C|r l' T' S C|r l' T' S C]; subst; destruct (tagged_unique T' T) as [<- ->]; pose proof (@behaves_rest _ _ _ G T) as Gr.
      * change (bind (de_constructor p Buffered (JArr l)) (fun c => Ok (OpConstructor c)) = Err SerdeJson) in E.
        assert (P : de_constructor p Buffered (JArr l) = Panic) by (apply (@constructor_panics p Buffered names crashes _ Gr); eauto). rewrite P in E. discriminate.
      * change (bind (de_function p Buffered (JArr l)) (fun c => Ok (OpFunction c)) = Err SerdeJson) in E.
        assert (P : de_function p Buffered (JArr l) = Panic) by (apply (@function_panics p Buffered names crashes _ Gr); eauto). rewrite P in E. discriminate.
      * change (bind (de_event p Buffered (JArr l)) (fun c => Ok (OpEvent c)) = Err SerdeJson) in E.
        assert (P : de_event p Buffered (JArr l) = Panic) by (apply (@event_panics p Buffered names crashes _ Gr); eauto). rewrite P in E. discriminate.
Qed.
Lemma contract_panics j : behaves j -> (de_contract p j = Panic <-> contract_crashes names true crashes j).
Proof.
  intros G. unfold contract_crashes. rewrite <- (@vec_panics _ (de_operation p) (item_is names true) (item_crashes names true crashes)).
  - destruct j as [| | | |items|]; try (split; discriminate). cbn [de_vec]. rewrite de_contract_ops.
    rewrite bind_panic. split; [intros [H|(a & _ & H)]; [exact H|discriminate]|auto].
  - destruct j; try contradiction. intros x HI. pose proof (@behaves_item _ _ _ _ _ G HI) as Gx. split.
    + apply operation_iff. now apply (@behaves_agree _ _ crashes).
    + now apply operation_panics.
Qed.
Lemma contract_loads j ops : agree p names j -> (contract_is names true j ops <-> exists items, j = JArr items /\ mapM (de_operation p) items = Ok ops).
Proof.
  intros G. split.
  - intros H. pose proof H as (items & -> & _). exists items. split; [reflexivity|]. now apply (operations_iff (names := names)).
  - intros (items & -> & M). now apply (@operations_iff p names).
Qed.
End Contracts.

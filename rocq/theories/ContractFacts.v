(** * Facts about contracts *)
From Verif Require Import Base Types TypeNames TypeNamesSpec Function Event Json JsonSpec Contract ContractSpec BaseFacts StrFacts EncoderFacts
  DecoderFacts TypeNamesFacts ReaderFacts ReaderTotal FunctionFacts CodecLemmas EncoderTotal JsonFacts ItemFacts LoadFacts.
From Coq Require Import String Permutation.
From Coq Require Import ZifyBool ZifyNat ZifyN.
Set Implicit Arguments.
Local Open Scope N_scope.
Local Open Scope list_scope.
Notation length := List.length.
Notation concat := List.concat.

(** ** Groups *)
Section Groups.
Context (A : Type) (name : A -> str).
Notation grps := (list (str * list A)).
Definition well_grouped (m : grps) : Prop :=
  NoDup (map fst m) /\ Forall (fun e => snd e <> [] /\ Forall (fun x => name x = fst e) (snd e)) m.
Lemma group_cons k l (m : grps) k' : group ((k, l) :: m) k' = if str_eqb k k' then Some l else group m k'.
Proof. unfold group. cbn [find fst]. destruct (str_eqb k k'); reflexivity. Qed.
Lemma group_none (m : grps) k : group m k = None <-> ~ In k (map fst m).
Proof.
  induction m as [|[k' l] m IH]; [cbn; tauto|]. rewrite group_cons. cbn [map fst In].
  destruct (str_eqb k' k) eqn:E; [apply str_eqb_eq in E; subst; split; [discriminate|tauto]|].
  rewrite IH. split; [intros H [H'|H']; [subst; rewrite str_eqb_refl in E; discriminate|auto]|tauto].
Qed.
Lemma group_push (m : grps) k x k' : group (push_group m k x) k' =
  if str_eqb k k' then Some (match group m k with Some l => l ++ [x] | None => [x] end) else group m k'.
Proof.
  induction m as [|[k1 l] m IH]; cbn [push_group].
  - rewrite group_cons. destruct (str_eqb k k'); reflexivity.
  - destruct (str_eqb k1 k) eqn:E; rewrite !group_cons, ?E.
    + apply str_eqb_eq in E. subst k1. destruct (str_eqb k k'); reflexivity.
    + rewrite IH. destruct (str_eqb k1 k') eqn:E1; [|reflexivity]. apply str_eqb_eq in E1. subst k'.
      destruct (str_eqb k k1) eqn:E2; [|reflexivity]. apply str_eqb_eq in E2. subst k1. rewrite str_eqb_refl in E. discriminate.
Qed.
Lemma push_keys (m : grps) k x : forall k', In k' (map fst (push_group m k x)) <-> k' = k \/ In k' (map fst m).
Proof.
  intros k'. induction m as [|[k1 l] m IH]; cbn [push_group map fst In]; [intuition|].
  destruct (str_eqb k1 k) eqn:E; cbn [map fst In]; [apply str_eqb_eq in E; subst; intuition|rewrite IH; intuition].
Qed.
Lemma push_well (m : grps) x : well_grouped m -> well_grouped (push_group m (name x) x).
Proof.
  intros [N F]. induction m as [|[k1 l] m IH]; cbn [push_group].
  - split; [constructor; [auto|constructor]|]. constructor; [|constructor]. cbn. split; [discriminate|]. auto.
  - inversion N as [|? ? N1 N2]; subst. inversion F as [|? ? [F1 F2] F3]; subst. cbn [fst snd] in *.
    destruct (str_eqb k1 (name x)) eqn:E.
    + apply str_eqb_eq in E. split; [exact N|]. constructor; [|exact F3]. cbn [fst snd]. split; [destruct l; discriminate|].
      apply Forall_app. split; auto.
    + destruct (IH N2 F3) as [N' F']. split; [|constructor; auto]. cbn [map fst]. constructor; [|exact N'].
      rewrite push_keys. intros [H|H]; [subst; rewrite str_eqb_refl in E; discriminate|auto].
Qed.
Lemma push_iterate (m : grps) k x : Permutation (iterate (push_group m k x)) (iterate m ++ [x]).
Proof.
  unfold iterate. induction m as [|[k1 l] m IH]; cbn [push_group]; [reflexivity|].
  destruct (str_eqb k1 k); cbn [map snd concat].
  - rewrite <- !app_assoc. apply Permutation_app_head. apply Permutation_app_comm.
  - rewrite <- app_assoc. now apply Permutation_app_head.
Qed.
Lemma iterate_perm (m m' : grps) : Permutation m m' -> Permutation (iterate m) (iterate m').
Proof.
  unfold iterate. induction 1 as [|x l l' H IH|x y l|l l' l'' H1 IH1 H2 IH2]; cbn [map concat]; auto.
  - now apply Permutation_app_head.
  - rewrite !app_assoc. apply Permutation_app_tail, Permutation_app_comm.
  - eapply Permutation_trans; eauto.
Qed.
Lemma group_in (m : grps) k l : NoDup (map fst m) -> (group m k = Some l <-> In (k, l) m).
Proof.
  induction m as [|[k1 l1] m IH]; [cbn; split; [discriminate|tauto]|]. intros N. inversion N as [|? ? N1 N2]; subst.
  rewrite group_cons. cbn [In]. destruct (str_eqb k1 k) eqn:E.
  - apply str_eqb_eq in E. subst k1. split; [intros H; left; congruence|].
    intros [H|H]; [congruence|]. elim N1. cbn. apply in_map_iff. exists (k, l). auto.
  - rewrite IH by auto. split; [auto|]. intros [H|H]; [|auto]. injection H as -> ->. rewrite str_eqb_refl in E. discriminate.
Qed.
Lemma group_perm (m m' : grps) k : NoDup (map fst m) -> Permutation m m' -> group m k = group m' k.
Proof.
  intros N P. assert (N' : NoDup (map fst m')) by (eapply Permutation_NoDup; [apply Permutation_map; exact P|exact N]).
  destruct (group m k) as [l|] eqn:E.
  - symmetry. apply group_in in E; auto. apply group_in; auto. eapply Permutation_in; eauto.
  - destruct (group m' k) as [l|] eqn:E'; [|reflexivity]. apply group_in in E'; auto.
    assert (I : In (k, l) m) by (eapply Permutation_in; [apply Permutation_sym; exact P|exact E']).
    apply group_in in I; auto. congruence.
Qed.
Lemma well_perm (m m' : grps) : Permutation m m' -> well_grouped m -> well_grouped m'.
Proof.
  intros P [N F]. split; [eapply Permutation_NoDup; [apply Permutation_map; exact P|exact N]|].
  rewrite Forall_forall in *. intros e I. apply F. eapply Permutation_in; [apply Permutation_sym; exact P|exact I].
Qed.
Lemma filter_none (l : list A) k k' : Forall (fun x => name x = k') l -> str_eqb k' k = false -> filter (fun x => str_eqb (name x) k) l = [].
Proof. induction 1 as [|x l H F IH]; intros E; [reflexivity|]. cbn. rewrite H, E. auto. Qed.
Lemma filter_all (l : list A) k : Forall (fun x => name x = k) l -> filter (fun x => str_eqb (name x) k) l = l.
Proof. induction 1 as [|x l H F IH]; [reflexivity|]. cbn. rewrite H, str_eqb_refl. now f_equal. Qed.
Lemma named_absent (m : grps) k : Forall (fun e => snd e <> [] /\ Forall (fun x => name x = fst e) (snd e)) m -> ~ In k (map fst m) ->
  filter (fun x => str_eqb (name x) k) (iterate m) = [].
Proof.
  unfold iterate. induction 1 as [|[k1 l] m [H1 H2] F IH]; [reflexivity|]. cbn [map fst snd concat In]. intros N.
  rewrite filter_app, IH by tauto. rewrite (@filter_none _ k k1); auto. apply str_eqb_neq. tauto.
Qed.
Lemma named_iterate (m : grps) k : well_grouped m -> named name (iterate m) k = group m k.
Proof.
  intros [N F]. unfold named. induction F as [|[k1 l] m [H1 H2] F IH]; [reflexivity|]. inversion N as [|? ? N1 N2]; subst.
  cbn [fst snd] in *. rewrite group_cons. unfold iterate. cbn [map snd concat]. rewrite filter_app. destruct (str_eqb k1 k) eqn:E.
  - apply str_eqb_eq in E. subst k1. rewrite filter_all by auto. fold (iterate m). rewrite named_absent; auto. rewrite app_nil_r.
    destruct l; [contradiction|reflexivity].
  - rewrite (@filter_none _ k k1) by auto. apply IH. exact N2.
Qed.
Definition grouped_from (l : list A) : grps := fold_left (fun m x => push_group m (name x) x) l [].
Lemma grouped_spec l : forall m done, well_grouped m -> (forall k, group m k = named name done k) -> Permutation (iterate m) done ->
  let m' := fold_left (fun m x => push_group m (name x) x) l m in
  well_grouped m' /\ (forall k, group m' k = named name (done ++ l) k) /\ Permutation (iterate m') (done ++ l).
Proof.
  induction l as [|x l IH]; intros m done W G P; cbn [fold_left].
  - rewrite app_nil_r. auto.
  - replace (done ++ x :: l) with ((done ++ [x]) ++ l) by now rewrite <- app_assoc. apply IH.
    + now apply push_well.
    + intros k. rewrite group_push. unfold named. rewrite filter_app. cbn [filter]. destruct (str_eqb (name x) k) eqn:E.
      * apply str_eqb_eq in E. subst k. rewrite G. unfold named. destruct (filter _ done) as [|y r]; reflexivity.
      * rewrite app_nil_r. apply G.
    + rewrite push_iterate. now apply Permutation_app_tail.
Qed.
End Groups.

(** ** Loading *)
Lemma last_snoc A (l : list A) x : last_of (l ++ [x]) = Some x.
Proof. induction l as [|y l IH]; [reflexivity|]. cbn [app last_of]. rewrite IH. destruct (l ++ [x]) eqn:E; [|reflexivity]. destruct l; discriminate. Qed.
Lemma de_contract_ops p items : de_contract p (JArr items) =
  (do ops <- mapM (de_operation p) items; Ok (fold_left add_operation ops default_contract)).
Proof.
  cbn [de_contract]. generalize default_contract as c. induction items as [|j items IH]; intros c; [reflexivity|].
  cbn [foldM mapM]. destruct (de_operation p j) as [o|e|]; cbn [bind]; [|reflexivity|reflexivity]. rewrite IH.
  destruct (mapM (de_operation p) items); reflexivity.
Qed.
Definition represents (c : Contract) (ops : list Operation) : Prop :=
  c_constructor c = last_of (constructors_of ops) /\
  (well_grouped f_name (c_functions c) /\ (forall k, group (c_functions c) k = named f_name (functions_of ops) k) /\
   Permutation (iterate (c_functions c)) (functions_of ops)) /\
  (well_grouped e_name (c_events c) /\ (forall k, group (c_events c) k = named e_name (events_of ops) k) /\
   Permutation (iterate (c_events c)) (events_of ops)) /\
  c_receive c = existsb (fun o => match o with OpReceive => true | _ => false end) ops /\
  c_fallback c = existsb (fun o => match o with OpFallback => true | _ => false end) ops.
Lemma represents_fields ops : let c := fold_left add_operation ops default_contract in
  c_constructor c = last_of (constructors_of ops) /\
  c_functions c = grouped_from f_name (functions_of ops) /\ c_events c = grouped_from e_name (events_of ops) /\
  c_receive c = existsb (fun o => match o with OpReceive => true | _ => false end) ops /\
  c_fallback c = existsb (fun o => match o with OpFallback => true | _ => false end) ops.
Proof.
  unfold grouped_from. induction ops as [|o ops IH] using rev_ind; [cbn; auto|].
  cbn zeta in *. unfold constructors_of, functions_of, events_of in *. rewrite fold_left_app, !flat_map_app, !existsb_app, !fold_left_app.
  destruct IH as (I1 & I2 & I3 & I4 & I5). cbn [fold_left flat_map existsb].
  destruct o as [k|f|e| |]; cbn [add_operation c_constructor c_functions c_events c_receive c_fallback app fold_left];
    rewrite ?app_nil_r, ?last_snoc, ?I1, ?I2, ?I3, ?I4, ?I5, ?orb_false_r, ?orb_true_r; auto.
Qed.
Lemma well_nil A (name : A -> str) : well_grouped name [].
Proof. split; constructor. Qed.
Lemma represents_fold ops : represents (fold_left add_operation ops default_contract) ops.
Proof.
  destruct (represents_fields ops) as (H1 & H2 & H3 & H4 & H5). unfold represents. rewrite H2, H3. unfold grouped_from.
  repeat match goal with |- _ /\ _ => split end; auto;
    match goal with |- context [fold_left _ ?l []] =>
      first [apply (@grouped_spec _ f_name l [] [] (well_nil _) (fun _ => eq_refl) (Permutation_refl _))
            |apply (@grouped_spec _ e_name l [] [] (well_nil _) (fun _ => eq_refl) (Permutation_refl _))] end.
Qed.
Lemma loaded_represents p j c : de_contract p j = Ok c ->
  exists items ops, j = JArr items /\ mapM (de_operation p) items = Ok ops /\ represents c ops.
Proof.
  intros E. destruct j as [| | | |items|]; try discriminate. rewrite de_contract_ops in E. apply bind_ok in E as (ops & Eo & E).
  exists items, ops. split; [reflexivity|]. split; [exact Eo|]. assert (c = fold_left add_operation ops default_contract) by congruence. subst c. apply represents_fold.
Qed.
Lemma ops_load p items ops : mapM (de_operation p) items = Ok ops -> exists c, de_contract p (JArr items) = Ok c /\ represents c ops.
Proof. intros E. rewrite de_contract_ops, E. cbn [bind]. eexists. split; [reflexivity|]. apply represents_fold. Qed.
Lemma represents_same c1 c2 ops1 ops2 : represents c1 ops1 -> represents c2 ops2 ->
  last_of (constructors_of ops1) = last_of (constructors_of ops2) ->
  (forall k, named f_name (functions_of ops1) k = named f_name (functions_of ops2) k) ->
  (forall k, named e_name (events_of ops1) k = named e_name (events_of ops2) k) ->
  (In OpReceive ops1 <-> In OpReceive ops2) -> (In OpFallback ops1 <-> In OpFallback ops2) -> same_contract c1 c2.
Proof.
  intros (A1 & (_ & A2 & _) & (_ & A3 & _) & A4 & A5) (B1 & (_ & B2 & _) & (_ & B3 & _) & B4 & B5) E1 E2 E3 E4 E5.
  repeat split; intros; try congruence.
  - rewrite A4, B4. apply eq_true_iff_eq. rewrite !existsb_exists.
    split; intros (o & I & H); destruct o; try discriminate; exists OpReceive; split; auto; now apply E4.
  - rewrite A5, B5. apply eq_true_iff_eq. rewrite !existsb_exists.
    split; intros (o & I & H); destruct o; try discriminate; exists OpFallback; split; auto; now apply E5.
Qed.

(** ** Operations of a contract *)
Lemma flat_map_map_nil A B C (f : B -> list C) (g : A -> B) l : (forall a, f (g a) = []) -> flat_map f (map g l) = [].
Proof. intros H. induction l as [|a l IH]; [reflexivity|]. cbn. now rewrite H, IH. Qed.
Lemma flat_map_map_one A B (f : B -> list A) (g : A -> B) l : (forall a, f (g a) = [a]) -> flat_map f (map g l) = l.
Proof. intros H. induction l as [|a l IH]; [reflexivity|]. cbn. now rewrite H, IH. Qed.
Section Ops.
Context (c : Contract) (fs : list (str * list Function)) (es : list (str * list Event)).
Lemma ops_functions : functions_of (contract_operations c fs es) = iterate fs.
Proof.
  unfold functions_of, contract_operations. rewrite !flat_map_app. rewrite flat_map_map_one by reflexivity. rewrite flat_map_map_nil by reflexivity.
  destruct (c_constructor c), (c_receive c), (c_fallback c); cbn; rewrite ?app_nil_r; reflexivity.
Qed.
Lemma ops_events : events_of (contract_operations c fs es) = iterate es.
Proof.
  unfold events_of, contract_operations. rewrite !flat_map_app. rewrite flat_map_map_nil by reflexivity. rewrite flat_map_map_one by reflexivity.
  destruct (c_constructor c), (c_receive c), (c_fallback c); cbn; rewrite ?app_nil_r; reflexivity.
Qed.
Lemma ops_constructors : last_of (constructors_of (contract_operations c fs es)) = c_constructor c.
Proof.
  unfold constructors_of, contract_operations. rewrite !flat_map_app. rewrite !flat_map_map_nil by reflexivity.
  destruct (c_constructor c), (c_receive c), (c_fallback c); reflexivity.
Qed.
Lemma ops_in o : In o (contract_operations c fs es) <->
  (exists k, c_constructor c = Some k /\ o = OpConstructor k) \/ (exists f, In f (iterate fs) /\ o = OpFunction f) \/
  (exists e, In e (iterate es) /\ o = OpEvent e) \/ (c_receive c = true /\ o = OpReceive) \/ (c_fallback c = true /\ o = OpFallback).
Proof.
  unfold contract_operations. rewrite !in_app_iff, !in_map_iff. fold (iterate fs). fold (iterate es).
  assert (H1 : In o (match c_constructor c with Some k => [OpConstructor k] | None => [] end) <-> exists k, c_constructor c = Some k /\ o = OpConstructor k).
  { destruct (c_constructor c) as [k|]; cbn; split; [intros [H|[]]; eauto|intros (k' & H & ->); injection H as <-; auto|tauto|intros (k & H & _); discriminate]. }
  assert (H2 : In o (if c_receive c then [OpReceive] else []) <-> c_receive c = true /\ o = OpReceive).
  { destruct (c_receive c); cbn; intuition; discriminate. }
  assert (H3 : In o (if c_fallback c then [OpFallback] else []) <-> c_fallback c = true /\ o = OpFallback).
  { destruct (c_fallback c); cbn; intuition; discriminate. }
  rewrite H1, H2, H3.
  assert (H4 : (exists x, OpFunction x = o /\ In x (iterate fs)) <-> exists f, In f (iterate fs) /\ o = OpFunction f).
  { split; intros (x & ? & ?); exists x; auto. }
  assert (H5 : (exists x, OpEvent x = o /\ In x (iterate es)) <-> exists e, In e (iterate es) /\ o = OpEvent e).
  { split; intros (x & ? & ?); exists x; auto. }
  rewrite H4, H5. tauto.
Qed.
End Ops.
Lemma functions_in ops f : In f (functions_of ops) <-> In (OpFunction f) ops.
Proof.
  unfold functions_of. rewrite in_flat_map. split; [intros (o & I & H); destruct o; try contradiction; destruct H as [->|[]]; auto|].
  intros I. exists (OpFunction f). cbn. auto.
Qed.
Lemma events_in ops e : In e (events_of ops) <-> In (OpEvent e) ops.
Proof.
  unfold events_of. rewrite in_flat_map. split; [intros (o & I & H); destruct o; try contradiction; destruct H as [->|[]]; auto|].
  intros I. exists (OpEvent e). cbn. auto.
Qed.
Lemma last_in A (l : list A) x : last_of l = Some x -> In x l.
Proof.
  induction l as [|y l IH]; [discriminate|]. cbn [last_of]. destruct l as [|z l]; [intros H; injection H as ->; now left|]. intros H. right. auto.
Qed.
Lemma constructors_in ops k : In k (constructors_of ops) <-> In (OpConstructor k) ops.
Proof.
  unfold constructors_of. rewrite in_flat_map. split; [intros (o & I & H); destruct o; try contradiction; destruct H as [->|[]]; auto|].
  intros I. exists (OpConstructor k). cbn. auto.
Qed.
Lemma written_from c ops fs es o : represents c ops -> Permutation (c_functions c) fs -> Permutation (c_events c) es ->
  In o (contract_operations c fs es) -> In o ops.
Proof.
  intros (R1 & (_ & _ & R2) & (_ & _ & R3) & R4 & R5) PF PE I. apply ops_in in I as [(k & H & ->)|[(f & H & ->)|[(e & H & ->)|[[H ->]|[H ->]]]]].
  - apply constructors_in. apply last_in. congruence.
  - apply functions_in. eapply Permutation_in; [exact R2|]. eapply Permutation_in; [|exact H]. now apply iterate_perm, Permutation_sym.
  - apply events_in. eapply Permutation_in; [exact R3|]. eapply Permutation_in; [|exact H]. now apply iterate_perm, Permutation_sym.
  - rewrite R4 in H. apply existsb_exists in H as (x & I & H). destruct x; try discriminate. exact I.
  - rewrite R5 in H. apply existsb_exists in H as (x & I & H). destruct x; try discriminate. exact I.
Qed.

(** ** Round trip *)
Lemma max_of_le A (f : A -> N) l b : max_of f l <= b <-> Forall (fun a => f a <= b) l.
Proof.
  unfold max_of. induction l as [|a l IH]; cbn [fold_right]; [split; [constructor|lia]|]. rewrite Forall_cons_iff, <- IH. lia.
Qed.
Lemma max_of_incl A (f : A -> N) l l' : (forall x, In x l -> In x l') -> max_of f l <= max_of f l'.
Proof.
  intros H. apply max_of_le, Forall_forall. intros x I. apply H in I.
  assert (F : Forall (fun a => f a <= max_of f l') l') by (apply max_of_le; lia). rewrite Forall_forall in F. auto.
Qed.
Lemma mapM_round p ops : Forall (fun o => wf_operation o = true /\ plain_operation o = true) ops ->
  mapM (de_operation p) (map se_operation ops) = Ok ops.
Proof.
  induction 1 as [|o ops [W P] F IH]; [reflexivity|]. cbn [map mapM]. rewrite operation_round by auto. cbn [bind]. now rewrite IH.
Qed.
Lemma mapM_items p items ops : mapM (de_operation p) items = Ok ops -> Forall (fun o => wf_operation o = true /\ plain_operation o = true) ops.
Proof.
  revert ops. induction items as [|j items IH]; intros ops E; cbn [mapM] in E; [injection E as <-; constructor|].
  apply bind_ok in E as (o & Eo & E). apply bind_ok in E as (r & Er & E). injection E as <-. constructor; eauto using de_operation_wf.
Qed.
Lemma rewritten_same p c ops fs es : represents c ops -> Forall (fun o => wf_operation o = true /\ plain_operation o = true) ops ->
  Permutation (c_functions c) fs -> Permutation (c_events c) es ->
  exists c', de_contract p (se_contract c fs es) = Ok c' /\ same_contract c c'.
Proof.
  intros R F PF PE. unfold se_contract.
  destruct (@ops_load p (map se_operation (contract_operations c fs es)) (contract_operations c fs es)) as (c' & E & R').
  { apply mapM_round. rewrite Forall_forall in *. intros o I. apply F. eapply written_from; eauto. }
  exists c'. split; [exact E|]. pose proof R as (R1 & (W2 & R2 & _) & (W3 & R3 & _) & R4 & R5).
  apply (represents_same R R').
  - rewrite ops_constructors. congruence.
  - intros k. rewrite ops_functions, <- R2. rewrite (named_iterate k (well_perm PF W2)). apply group_perm; [apply W2|exact PF].
  - intros k. rewrite ops_events, <- R3. rewrite (named_iterate k (well_perm PE W3)). apply group_perm; [apply W3|exact PE].
  - split; intros I.
    + apply ops_in. do 3 right. left. split; [|reflexivity]. rewrite R4. apply existsb_exists. eauto.
    + eapply written_from; eauto.
  - split; intros I.
    + apply ops_in. do 4 right. split; [|reflexivity]. rewrite R5. apply existsb_exists. eauto.
    + eapply written_from; eauto.
Qed.
Lemma contract_round p p' j c fs es : de_contract p j = Ok c -> Permutation (c_functions c) fs -> Permutation (c_events c) es ->
  exists c', de_contract p' (se_contract c fs es) = Ok c' /\ same_contract c c'.
Proof.
  intros E PF PE. apply loaded_represents in E as (items & ops & -> & Eo & R). eapply rewritten_same; eauto. eapply mapM_items; eauto.
Qed.
Lemma se_contract_depth c fs es : json_depth (se_contract c fs es) = contract_depth (contract_operations c fs es).
Proof.
  unfold se_contract, contract_depth, max_of. cbn [json_depth]. f_equal. generalize (contract_operations c fs es) as l.
  induction l as [|o l IH]; [reflexivity|]. cbn [map fold_right]. now rewrite IH, se_operation_depth.
Qed.
Lemma written_depth c ops fs es : represents c ops -> Permutation (c_functions c) fs -> Permutation (c_events c) es ->
  json_depth (se_contract c fs es) <= contract_depth ops.
Proof.
  intros R PF PE. rewrite se_contract_depth. unfold contract_depth.
  assert (max_of operation_depth (contract_operations c fs es) <= max_of operation_depth ops); [|lia].
  apply max_of_incl. intros o I. eapply written_from; eauto.
Qed.

(** ** Standard JSON is as deep as the written one *)
Lemma keyed_depth l k v : In v (keyed l k) -> 1 + json_depth v <= json_depth (JObj l).
Proof.
  intros I. apply keyed_in in I. rewrite depth_obj. 
  assert (F : Forall (fun e => json_depth (snd e) <= max_of (fun e => json_depth (snd e)) l) l) by (apply max_of_le; lia).
  rewrite Forall_forall in F. specialize (F _ I). cbn [snd] in F. lia.
Qed.
Lemma fields_depth t : component_depth t = match tuple_fields t with Some ts => component_depth (PTuple ts) | None => 0 end.
Proof. induction t using ParamType_ind'; cbn [tuple_fields]; auto; destruct (tuple_fields t); auto. Qed.
Lemma depth_arr l : json_depth (JArr l) = 1 + max_of json_depth l.
Proof. reflexivity. Qed.
Lemma described_depth o l t : describes o l t -> 1 + component_depth t <= json_depth (JObj l).
Proof.
  intros D. pattern l, t, D. apply describes_ind2 with (P0 := fun items ts _ => component_depth (PTuple ts) <= json_depth (JArr items)); clear l t D.
  - intros l t s K A F C. rewrite fields_depth, F. rewrite depth_obj. lia.
  - intros l t s ts items K A F C CS IH. rewrite fields_depth, F. pose proof (@keyed_depth l (lit "components") (JArr items)) as H.
    rewrite C in H. specialize (H (or_introl eq_refl)). lia.
  - reflexivity.
  - intros l t name internal items ts D IHD N I K CS IHC. rewrite depth_arr in *. unfold max_of in *. cbn [component_depth fold_right] in *. lia.
Qed.
Lemma params_standard_depth items params : Forall2 param_item items params -> params_depth params <= json_depth (JArr items).
Proof.
  rewrite depth_arr. unfold params_depth, max_of. induction 1 as [|j a items params (l & -> & (D & _)) F IH]; cbn [fold_right]; [lia|].
  apply described_depth in D. lia.
Qed.
Lemma event_params_standard_depth items params : Forall2 event_param_item items params -> event_params_depth params <= json_depth (JArr items).
Proof.
  rewrite depth_arr. unfold event_params_depth, max_of. induction 1 as [|j a items params (l & -> & (D & _)) F IH]; cbn [fold_right]; [lia|].
  apply described_depth in D. lia.
Qed.
Lemma item_depth l o : item_json l o -> operation_depth o <= json_depth (JObj l).
Proof.
  intros J. destruct J as [l inputs params K I F|l text name inputs params outputs results constant mutability K N B I F O G C M
    |l text name inputs params anonymous K N B I F A|l K|l K]; unfold operation_depth; cbn [k_inputs f_inputs f_outputs e_inputs].
  - apply params_standard_depth in F. pose proof (@keyed_depth l (lit "inputs") (JArr inputs)) as H. rewrite I in H. specialize (H (or_introl eq_refl)). lia.
  - apply params_standard_depth in F, G. pose proof (@keyed_depth l (lit "inputs") (JArr inputs)) as H. rewrite I in H. specialize (H (or_introl eq_refl)).
    pose proof (@keyed_depth l (lit "outputs") (JArr outputs)) as H'. rewrite O in H'. specialize (H' (or_introl eq_refl)). lia.
  - apply event_params_standard_depth in F. pose proof (@keyed_depth l (lit "inputs") (JArr inputs)) as H. rewrite I in H. specialize (H (or_introl eq_refl)). lia.
  - rewrite depth_obj. lia.
  - rewrite depth_obj. lia.
Qed.
Lemma contract_json_depth j ops : contract_json j ops -> contract_depth ops <= json_depth j.
Proof.
  intros (items & -> & F). rewrite depth_arr. unfold contract_depth, max_of. induction F as [|j o items ops (l & -> & J) F IH]; cbn [fold_right]; [lia|].
  apply item_depth in J. lia.
Qed.
Lemma contract_standard p j ops : contract_json j ops -> forallb wf_operation ops = true ->
  exists c, de_contract p j = Ok c /\ represents c ops.
Proof.
  intros (items & -> & F) W. apply ops_load. induction F as [|j o items ops (l & -> & J) F IH]; [reflexivity|].
  cbn [forallb] in W. apply andb_true_iff in W as [W1 W2]. cbn [mapM]. rewrite (item_loads p W1 J). cbn [bind]. now rewrite IH.
Qed.
Lemma item_plain l o : item_json l o -> plain_operation o = true.
Proof. destruct 1; try reflexivity; cbn; match goal with H : before_paren _ _ |- _ => apply H end. Qed.
Lemma contract_text p p' j ops : contract_json j ops -> forallb wf_operation ops = true -> json_depth j <= 127 ->
  exists c, load p j = Ok c /\ represents c ops /\
    forall fs es, Permutation (c_functions c) fs -> Permutation (c_events c) es ->
      exists c', load p' (se_contract c fs es) = Ok c' /\ same_contract c c'.
Proof.
  intros J W D. destruct (contract_standard p J W) as (c & E & R). exists c. split; [|split; [exact R|]].
  - unfold load, from_text. rewrite E. now rewrite (proj2 (N.leb_le _ _) D).
  - intros fs es PF PE. pose proof (written_depth R PF PE) as WD. pose proof (contract_json_depth J) as JD.
    destruct (@rewritten_same p' c ops fs es R) as (c' & E' & S); auto.
    + destruct J as (items & -> & F). rewrite forallb_forall in W. apply Forall_forall. intros o I. split; [auto|].
      clear -F I. induction F as [|j o' items ops (l & -> & J) F IH]; [contradiction|]. destruct I as [->|I]; eauto using item_plain.
    + exists c'. split; [|exact S]. unfold load, from_text. rewrite E'. now rewrite (proj2 (N.leb_le _ _)) by lia.
Qed.

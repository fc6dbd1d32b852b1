(** * The nesting of types loaded from JSON *)
From Verif Require Import Base BaseFacts StrFacts Types TypeNames Function Event Json JsonSpec JsonFacts Contract ContractSpec ContractFacts LoadFacts LoadTotal JsonLemmas DeriveDecides DepthSpec DepthFacts.
From Coq Require Import String Lia Permutation.
Set Implicit Arguments.
Notation length := List.length.
Local Open Scope nat_scope.
Local Open Scope list_scope.

Definition sized (s : str) : bool := (str_len s <? 2 ^ 63)%N.
Inductive inside (x : json) : json -> Prop :=
| in_self : inside x x
| in_item v l : In v l -> inside x v -> inside x (JArr l)
| in_value e l : In e l -> inside x (snd e) -> inside x (JObj l).
Lemma sum_in A (f : A -> nat) l a : In a l -> f a <= list_sum (map f l).
Proof. induction l as [|b l IH]; [easy|]. intros [->|I]; cbn [map list_sum fold_right]; [lia|]. specialize (IH I). unfold list_sum in IH. lia. Qed.
Lemma inside_letters x j : inside x j -> letters x <= letters j.
Proof.
  induction 1 as [|v l I H IH|e l I H IH]; [lia| |]; cbn [letters].
  - pose proof (sum_in letters _ _ I). lia.
  - pose proof (sum_in (fun e => letters (snd e)) _ _ I). cbn beta in *. lia.
Qed.
Lemma inside_sized ok x j : inside x j -> type_texts ok j = true -> type_texts ok x = true.
Proof.
  induction 1 as [|v l I H IH|e l I H IH]; cbn [type_texts]; rewrite ?forallb_forall; auto.
  intros F. specialize (F _ I). apply andb_true_iff in F as [_ F]. auto.
Qed.
Lemma keyed_sum l k1 k2 : k1 <> k2 -> list_sum (map letters (keyed l k1)) + list_sum (map letters (keyed l k2)) <= letters (JObj l).
Proof.
  intros N. cbn [letters]. induction l as [|[k v] l IH]; [cbn; lia|]. rewrite !keyed_cons. cbn [map snd list_sum fold_right] in *. unfold list_sum in *.
  destruct (str_eqb k k1) eqn:E1; destruct (str_eqb k k2) eqn:E2; cbn [map fold_right]; try lia.
  apply str_eqb_eq in E1, E2. congruence.
Qed.
Lemma keyed_in l k v r : keyed l k = v :: r -> exists k', In (k', v) l /\ str_eqb k' k = true.
Proof.
  intros E. assert (I : In v (keyed l k)) by (rewrite E; now left). unfold keyed in I. apply in_map_iff in I as ([k' v'] & <- & I).
  apply filter_In in I as [I Q]. now exists k'.
Qed.
Lemma inner_levels ts n : (forall t, In t ts -> levels t <= n) -> forall t t', map_inner_tuple (fun inner => inner ++ ts) t = Some t' -> levels t' <= levels t + n.
Proof.
  intros H. induction t; intros t' E; try discriminate; cbn [map_inner_tuple] in E.
  - destruct (map_inner_tuple _ t) as [u|]; [|discriminate]. injection E as <-. cbn [levels]. specialize (IHt u eq_refl). lia.
  - destruct (map_inner_tuple _ t) as [u|]; [|discriminate]. injection E as <-. cbn [levels]. specialize (IHt u eq_refl). lia.
  - injection E as <-. assert (Q : levels (PTuple (ts0 ++ ts)) <= S ((levels (PTuple ts0) - 1) + n)); [|cbn [levels] in *; lia].
    apply levels_tuple. intros t I. apply in_app_iff in I as [I|I]; [apply levels_field in I|apply H in I]; lia.
Qed.
Section Json.
Context (p : profile) (src : source).
Section Fields.
Context (vis : visitor) (l : list (str * json)).
Hypothesis texts : type_texts sized (JObj l) = true.
Hypothesis items : forall e tp, In e l -> type_texts sized (snd e) = true -> forall tps, de_vec (de_tuple_param p src) (snd e) = Ok tps -> In tp tps -> levels (tp_kind tp) <= letters (snd e).
Lemma fields_levels st kind kind' : visit_map p src vis l no_fields = Ok st -> required (fd_kind st) = Ok kind ->
  set_tuple_components kind (fd_components st) = Ok kind' -> levels kind' <= letters (JObj l).
Proof.
  intros V R S. apply visit_map_visited in V as (_ & V2 & _ & V4 & _). cbn [no_fields fd_kind fd_components] in V2, V4. rewrite more_none in V2, V4.
  assert (Q := @keyed_sum l (lit "type") (lit "components") ltac:(discriminate)).
  assert (K : levels kind <= list_sum (map letters (keyed l (lit "type")))).
  { unfold opt_field in V2. destruct (keyed l (lit "type")) as [|v [|v' r]] eqn:E; [rewrite V2 in R; discriminate| |contradiction].
    destruct V2 as (t & Et & V2). rewrite V2 in R. injection R as <-. destruct v as [| | |s| |]; try discriminate. cbn [de_param_type] in Et.
    destruct (read p s) as [t'| |] eqn:ER; try discriminate. injection Et as ->. apply keyed_in in E as (k' & I & Ek).
    cbn [type_texts] in texts. rewrite forallb_forall in texts. specialize (texts _ I). cbn [fst snd] in texts. rewrite Ek in texts.
    apply andb_true_iff in texts as [T _]. unfold sized in T. apply N.ltb_lt in T. apply read_any_levels in ER; [|exact T]. cbn. lia. }
  unfold set_tuple_components in S. destruct (inner_tuple kind); [|injection S as <-; lia].
  destruct (fd_components st) as [tps|]; [|discriminate]. cbn [required bind] in S.
  assert (C : forall t, In t (map tp_kind tps) -> levels t <= list_sum (map letters (keyed l (lit "components")))).
  { unfold opt_field in V4. destruct (keyed l (lit "components")) as [|v [|v' r]] eqn:E; [discriminate| |contradiction].
    destruct V4 as (t & Et & V4). injection V4 as <-. apply keyed_in in E as (k' & I & Ek).
    intros u Iu. apply in_map_iff in Iu as (tp & <- & Iu). cbn [map list_sum fold_right].
    cbn [type_texts] in texts. rewrite forallb_forall in texts. specialize (texts _ I). cbn [fst snd] in texts.
    apply andb_true_iff in texts as [_ T]. pose proof (items _ tp I T Et Iu) as Q'. cbn [snd] in Q'. lia. }
  destruct (map_inner_tuple _ kind) as [t|] eqn:EM; injection S as <-; [|lia]. pose proof (inner_levels _ C _ EM). lia.
Qed.
End Fields.
Lemma tuple_levels_json j : type_texts sized j = true ->
  (forall tp, de_tuple_param p src j = Ok tp -> levels (tp_kind tp) <= letters j) /\
  (forall tps tp, de_vec (de_tuple_param p src) j = Ok tps -> In tp tps -> levels (tp_kind tp) <= letters j).
Proof.
  induction j as [| | | |l IH|l IH] using json_ind'; intros T; (split; try discriminate).
  - intros tps tp E I. cbn [de_vec] in E. apply (@mapM_in_r _ _ _ _ _ _ E) in I as (x & Ix & Ex).
    cbn [type_texts] in T. rewrite forallb_forall in T. rewrite Forall_forall in IH. apply (IH _ Ix (T _ Ix)) in Ex.
    pose proof (sum_in letters _ _ Ix). cbn [letters]. lia.
  - intros tp E. rewrite de_tuple_param_obj in E. apply bind_ok in E as (st & E1 & E). apply bind_ok in E as (k & E2 & E). apply bind_ok in E as (k' & E3 & E).
    injection E as <-. cbn [tp_kind]. eapply fields_levels; [exact T| |exact E1|exact E2|exact E3].
    intros e tp I Te tps. rewrite Forall_forall in IH. now apply (IH _ I Te).
Qed.
Lemma obj_items (l : list (str * json)) : forall e tp, In e l -> type_texts sized (snd e) = true -> forall tps, de_vec (de_tuple_param p src) (snd e) = Ok tps -> In tp tps -> levels (tp_kind tp) <= letters (snd e).
Proof. intros e tp I T tps. apply tuple_levels_json, T. Qed.
Lemma param_levels_json j a : type_texts sized j = true -> de_param p src j = Ok a -> levels (p_kind a) <= letters j.
Proof.
  intros T E. destruct j as [| | | | |l]; try discriminate. cbn [de_param] in E.
  apply bind_ok in E as (st & E1 & E). apply bind_ok in E as (n & _ & E). apply bind_ok in E as (k & E2 & E). apply bind_ok in E as (k' & E3 & E).
  injection E as <-. cbn [p_kind]. eapply fields_levels; eauto using obj_items.
Qed.
Lemma event_param_levels_json j a : type_texts sized j = true -> de_event_param p src j = Ok a -> levels (ep_kind a) <= letters j.
Proof.
  intros T E. destruct j as [| | | | |l]; try discriminate. cbn [de_event_param] in E.
  apply bind_ok in E as (st & E1 & E). apply bind_ok in E as (n & _ & E). apply bind_ok in E as (k & E2 & E). apply bind_ok in E as (k' & E3 & E).
  injection E as <-. cbn [ep_kind]. eapply fields_levels; eauto using obj_items.
Qed.
Definition from_inside {A} (f : json -> res A) (j : json) (l : list A) : Prop := forall a, In a l -> exists x, inside x j /\ f x = Ok a.
Lemma vec_inside A (f : json -> res A) j v l : inside v j -> de_vec f v = Ok l -> from_inside f j l.
Proof.
  intros I E a Ia. destruct v as [| | | |vs|]; try discriminate. cbn [de_vec] in E. apply (@mapM_in_r _ _ _ _ _ _ E) in Ia as (x & Ix & Ex).
  exists x. split; [|exact Ex]. clear - I Ix. remember (JArr vs) as w eqn:Ew. revert Ew. induction I as [|v l I H IH|e l I H IH]; intros ->.
  - apply in_item with x; [exact Ix|constructor].
  - apply in_item with v; auto.
  - apply in_value with e; auto.
Qed.
Lemma nth_inside A (f : json -> res A) l i r : field (de_vec f) (nth_error l i) = Ok r -> from_inside f (JArr l) r.
Proof.
  destruct (nth_error l i) as [v|] eqn:E; [|discriminate]. cbn [field]. apply vec_inside. apply in_item with v; [now apply nth_error_In in E|constructor].
Qed.
Lemma once_inside A (f : json -> res A) l k v old r : In (k, v) l -> set_once old (de_vec f v) = Ok (Some r) -> from_inside f (JObj l) r.
Proof.
  intros I E. destruct old; [discriminate|]. cbn [set_once] in E. apply bind_ok in E as (x & Ex & E). injection E as ->.
  apply (@vec_inside _ _ _ v); [|exact Ex]. apply in_value with (k, v); [exact I|constructor].
Qed.
Lemma foldM_inv A B (f : A -> B -> res A) (I : A -> Prop) l : forall a r, (forall a b a', In b l -> I a -> f a b = Ok a' -> I a') -> I a -> foldM f l a = Ok r -> I r.
Proof.
  induction l as [|b l IH]; intros a r H Ia E; cbn [foldM] in E; [injection E as <-; exact Ia|]. apply bind_ok in E as (a' & E1 & E).
  apply (IH a'); [|now apply (H a b); auto; left|exact E]. intros x y z Iy. apply H. now right.
Qed.
Lemma function_inside j f : de_function p src j = Ok f -> from_inside (de_param p src) j (f_inputs f) /\ from_inside (de_param p src) j (f_outputs f).
Proof.
  intros E. destruct j as [| | | |l|l]; try discriminate; cbn [de_function] in E.
  - apply bind_ok in E as (n & _ & E). apply bind_ok in E as (i & E1 & E). apply bind_ok in E as (o & E2 & E).
    apply bind_ok in E as (c & _ & E). apply bind_ok in E as (m & _ & E). destruct (len l <=? 5)%N; [|discriminate]. injection E as <-.
    split; eauto using nth_inside.
  - apply bind_ok in E as (st & E0 & E). apply bind_ok in E as (n & _ & E). apply bind_ok in E as (i & E1 & E). apply bind_ok in E as (o & E2 & E).
    injection E as <-. cbn [f_inputs f_outputs].
    assert (H : (forall i, ff_inputs st = Some i -> from_inside (de_param p src) (JObj l) i) /\ (forall o, ff_outputs st = Some o -> from_inside (de_param p src) (JObj l) o)).
    { revert E0. apply foldM_inv with (I := fun st => (forall i, ff_inputs st = Some i -> from_inside (de_param p src) (JObj l) i) /\ (forall o, ff_outputs st = Some o -> from_inside (de_param p src) (JObj l) o));
        [|split; discriminate]. clear. intros st [k v] st' I [H1 H2] E. unfold visit_function in E.
      repeat match type of E with (if ?b then _ else _) = _ => destruct b; [apply bind_ok in E as (x & Ex & E)|] end; injection E as <-; cbn [ff_inputs ff_outputs]; split; auto;
        intros r ->; eapply once_inside; eauto. }
    destruct H as [H1 H2]. destruct (ff_inputs st); [|discriminate]. destruct (ff_outputs st); [|discriminate].
    injection E1 as <-. injection E2 as <-. auto.
Qed.
Lemma constructor_inside j k : de_constructor p src j = Ok k -> from_inside (de_param p src) j (k_inputs k).
Proof.
  intros E. destruct j as [| | | |l|l]; try discriminate; cbn [de_constructor] in E.
  - apply bind_ok in E as (i & E1 & E). destruct (len l <=? 1)%N; [|discriminate]. injection E as <-. eauto using nth_inside.
  - apply bind_ok in E as (st & E0 & E). apply bind_ok in E as (i & E1 & E). injection E as <-. cbn [k_inputs].
    assert (H : forall i, st = Some i -> from_inside (de_param p src) (JObj l) i).
    { refine (@foldM_inv _ _ _ (fun st => forall i, st = Some i -> from_inside (de_param p src) (JObj l) i) _ _ _ _ _ E0); [|discriminate].
      clear. intros st [k v] st' I H E. unfold visit_constructor in E. destruct (str_eqb k _); [|injection E as <-; exact H].
      intros r ->. eapply once_inside; eauto. }
    destruct st; [|discriminate]. injection E1 as <-. auto.
Qed.
Lemma event_inside j e : de_event p src j = Ok e -> from_inside (de_event_param p src) j (e_inputs e).
Proof.
  intros E. destruct j as [| | | |l|l]; try discriminate; cbn [de_event] in E.
  - apply bind_ok in E as (n & _ & E). apply bind_ok in E as (i & E1 & E). apply bind_ok in E as (b & _ & E). destruct (len l <=? 3)%N; [|discriminate]. injection E as <-.
    eauto using nth_inside.
  - apply bind_ok in E as (st & E0 & E). apply bind_ok in E as (n & _ & E). apply bind_ok in E as (i & E1 & E). apply bind_ok in E as (b & _ & E). injection E as <-. cbn [e_inputs].
    assert (H : forall i, ef_inputs st = Some i -> from_inside (de_event_param p src) (JObj l) i).
    { refine (@foldM_inv _ _ _ (fun st => forall i, ef_inputs st = Some i -> from_inside (de_event_param p src) (JObj l) i) _ _ _ _ _ E0); [|discriminate].
      clear. intros st [k v] st' I H E. unfold visit_event in E.
      repeat match type of E with (if ?b then _ else _) = _ => destruct b; [apply bind_ok in E as (x & Ex & E)|] end; injection E as <-; cbn [ef_inputs]; auto;
        intros r ->; eapply once_inside; eauto. }
    destruct (ef_inputs st); [|discriminate]. injection E1 as <-. auto.
Qed.
End Json.
Definition op_types (o : Operation) : list ParamType :=
  match o with
  | OpConstructor k => map p_kind (k_inputs k)
  | OpFunction f => map p_kind (f_inputs f) ++ map p_kind (f_outputs f)
  | OpEvent e => map ep_kind (e_inputs e)
  | _ => []
  end.
Lemma params_inside p src j l t : type_texts sized j = true -> from_inside (de_param p src) j l -> In t (map p_kind l) -> levels t <= letters j.
Proof.
  intros T H I. apply in_map_iff in I as (a & <- & I). apply H in I as (x & Ix & Ex). pose proof (inside_letters Ix).
  apply param_levels_json in Ex; [lia|]. now apply (inside_sized _ Ix).
Qed.
Lemma variant_levels p tag rest o t : type_texts sized rest = true -> variant_of p tag rest = Ok o -> In t (op_types o) -> levels t <= letters rest.
Proof.
  intros T E I. unfold variant_of in E.
  destruct (str_eqb tag _); [apply bind_ok in E as (k & E1 & E); injection E as <-; apply constructor_inside in E1; eauto using params_inside|].
  destruct (str_eqb tag _).
  { apply bind_ok in E as (k & E1 & E); injection E as <-; apply function_inside in E1 as [H1 H2]. cbn [op_types] in I. apply in_app_iff in I as [I|I]; eauto using params_inside. }
  destruct (str_eqb tag _).
  { apply bind_ok in E as (k & E1 & E); injection E as <-; apply event_inside in E1. cbn [op_types] in I.
    apply in_map_iff in I as (a & <- & I). apply E1 in I as (x & Ix & Ex). pose proof (inside_letters Ix).
    apply event_param_levels_json in Ex; [lia|]. now apply (inside_sized _ Ix). }
  destruct (str_eqb tag _); [destruct rest as [| | | |[|]|]; try discriminate; injection E as <-; destruct I|].
  destruct (str_eqb tag _); [destruct rest as [| | | |[|]|]; try discriminate; injection E as <-; destruct I|]. discriminate.
Qed.
Lemma untagged_letters l : letters (JObj (untagged l)) <= letters (JObj l).
Proof.
  unfold untagged. cbn [letters]. induction l as [|e l IH]; [cbn; lia|]. cbn [filter]. unfold list_sum in *. destruct (negb _); cbn [map fold_right]; lia.
Qed.
Lemma operation_levels p j o t : type_texts sized j = true -> de_operation p j = Ok o -> In t (op_types o) -> levels t <= letters j.
Proof.
  intros T E I. destruct j as [| | | |[|a l]|l]; try discriminate.
  - change (de_operation p (JArr (a :: l))) with (do tag <- de_string a; variant_of p tag (JArr l)) in E. apply bind_ok in E as (tag & _ & E).
    apply (@variant_levels _ _ _ _ t) in E; [|cbn [type_texts forallb] in *; now apply andb_true_iff in T|exact I]. cbn [letters map list_sum fold_right] in *. unfold list_sum in *. lia.
  - change (de_operation p (JObj l)) with (match filter (fun e => str_eqb (fst e) (lit "type")) l with
      | [(_, t)] => do tag <- de_string t; variant_of p tag (JObj (untagged l)) | _ => Err SerdeJson end) in E.
    destruct (filter _ l) as [|[k v] [|]]; try discriminate. apply bind_ok in E as (tag & _ & E).
    apply (@variant_levels _ _ _ _ t) in E; [|cbn [type_texts] in *; unfold untagged; rewrite forallb_forall in *; intros e Ie; apply filter_In in Ie as [Ie _]; auto|exact I].
    pose proof (untagged_letters l). lia.
Qed.
Lemma last_in A (l : list A) x : last_of l = Some x -> In x l.
Proof. destruct l as [|y l _] using rev_ind; [discriminate|]. rewrite last_snoc. intros E. injection E as ->. apply in_app_iff. right. now left. Qed.
Lemma types_ops c ops t : represents c ops -> In t (types_in c) -> exists o, In o ops /\ In t (op_types o).
Proof.
  intros (R1 & (_ & _ & R2) & (_ & _ & R3) & _) I. unfold types_in in I. rewrite !in_app_iff in I. destruct I as [I|[I|I]].
  - rewrite R1 in I. destruct (last_of _) as [k|] eqn:E; [|destruct I]. apply last_in in E. unfold constructors_of in E. apply in_flat_map in E as (o & Io & E).
    exists o. split; [exact Io|]. destruct o; cbn in E; try easy. now destruct E as [->|[]].
  - apply in_flat_map in I as (g & Ig & I). apply in_flat_map in I as (f & If & I).
    assert (In f (iterate (c_functions c))) as H by (unfold iterate; apply in_concat; exists (snd g); split; [now apply in_map|exact If]).
    apply (Permutation_in _ R2) in H. unfold functions_of in H. apply in_flat_map in H as (o & Io & H). exists o. split; [exact Io|].
    destruct o; cbn in H; try easy. now destruct H as [->|[]].
  - apply in_flat_map in I as (g & Ig & I). apply in_flat_map in I as (e & Ie & I).
    assert (In e (iterate (c_events c))) as H by (unfold iterate; apply in_concat; exists (snd g); split; [now apply in_map|exact Ie]).
    apply (Permutation_in _ R3) in H. unfold events_of in H. apply in_flat_map in H as (o & Io & H). exists o. split; [exact Io|].
    destruct o; cbn in H; try easy. now destruct H as [->|[]].
Qed.
Lemma contract_levels p j c t : type_texts sized j = true -> de_contract p j = Ok c -> In t (types_in c) -> levels t <= letters j.
Proof.
  intros T E I. apply loaded_represents in E as (items & ops & -> & E & R). destruct (types_ops _ R I) as (o & Io & It).
  apply (@mapM_in_r _ _ _ _ _ _ E) in Io as (x & Ix & Ex). cbn [type_texts] in T. rewrite forallb_forall in T.
  apply (@operation_levels _ _ _ t) in Ex; auto. pose proof (sum_in letters _ _ Ix). cbn [letters]. lia.
Qed.
(** A file whose JSON is five deep, with a type as deep as the name is long. *)
Definition deep_file (k : nat) : json :=
  JArr [JObj [(lit "type", JStr (lit "constructor")); (lit "inputs", JArr [JObj [(lit "name", JStr []); (lit "type", JStr (deep_name k)); (lit "components", JArr [])]])]].
Lemma deep_file_loads p k : (N.of_nat k < 2 ^ 60)%N -> exists c, load p (deep_file k) = Ok c /\ In (deep_type k) (types_in c).
Proof.
  intros B. destruct (@deep_reads p k B) as [E _]. unfold load, from_text.
  assert (D : json_depth (deep_file k) = 5%N) by reflexivity. rewrite D. change (5 <=? 127)%N with true. cbv iota.
  exists (mkContract (Some (mkConstructor [mkParam [] (deep_type k) None])) [] [] false false). split; [|now left].
  unfold deep_file. unfold deep_type in *. revert E. generalize (deep_name k) as s. generalize (arrays k (PInt 256)) as t. intros t s E.
  lazy -[read]. rewrite E. reflexivity.
Qed.

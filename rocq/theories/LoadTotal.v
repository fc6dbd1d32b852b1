(** * Loading JSON does not panic unless a type name makes the reader panic; the order of keys *)
From Verif Require Import Base Types TypeNames TypeNamesSpec Function Event Json JsonSpec Contract ContractSpec BaseFacts StrFacts EncoderFacts
  DecoderFacts TypeNamesFacts ReaderFacts ReaderTotal FunctionFacts CodecLemmas EncoderTotal JsonFacts ItemFacts LoadFacts.
From Coq Require Import String Permutation.
From Coq Require Import ZifyBool ZifyNat ZifyN.
Set Implicit Arguments.
Local Open Scope N_scope.
Local Open Scope list_scope.
Notation length := List.length.

Lemma set_once_not_panic A (o : option A) r : r <> Panic -> set_once o r <> Panic.
Proof. destruct o; cbn; [discriminate|]. intros N E. apply bind_panic in E as [E|(a & _ & E)]; [auto|discriminate]. Qed.
Lemma required_not_panic A (o : option A) : required o <> Panic.
Proof. destruct o; discriminate. Qed.
Lemma set_components_not_panic t o : set_tuple_components t o <> Panic.
Proof.
  unfold set_tuple_components. destruct (inner_tuple t); [|discriminate]. intros E.
  apply bind_panic in E as [E|(a & _ & E)]; [now apply required_not_panic in E|]. destruct (map_inner_tuple _ t); discriminate.
Qed.
Lemma de_string_not_panic j : de_string j <> Panic. Proof. destruct j; discriminate. Qed.
Lemma de_bool_not_panic j : de_bool j <> Panic. Proof. destruct j; discriminate. Qed.
Lemma de_name_not_panic j : de_name j <> Panic.
Proof.
  unfold de_name. intros E. apply bind_panic in E as [E|(s & _ & E)]; [now apply de_string_not_panic in E|].
  destruct (sanitize_total s) as [t H]. congruence.
Qed.
Lemma de_state_mutability_not_panic j : de_state_mutability j <> Panic.
Proof.
  assert (H : forall s, state_mutability_of s <> Panic).
  { intros s. unfold state_mutability_of. repeat match goal with |- context [if ?b then _ else _] => destruct b end; discriminate. }
  destruct j as [| | |s| |[|[k []] []]]; try discriminate; apply H.
Qed.
Ltac np := repeat match goal with
  | |- bind _ _ <> Panic => let E := fresh in intros E; apply bind_panic in E as [E|(? & _ & E)]; revert E;
      match goal with |- ?x = Panic -> False => change (x <> Panic) end
  | |- (let '(_, _) := ?e in _) <> Panic => destruct e
  end.
Section Good.
Context (p : profile) (good_text : str -> bool).
Hypothesis good : forall s, good_text s = true -> read p s <> Panic.
Section NoPanic.
Context (src : source).
Lemma de_param_type_not_panic j : match j with JStr s => good_text s | _ => true end = true -> de_param_type p j <> Panic.
Proof.
  destruct j; try discriminate. intros G. cbn [de_param_type]. apply good in G. destruct (read p s) eqn:E; congruence.
Qed.
Definition entry_ok (e : str * json) : Prop :=
  (str_eqb (fst e) (lit "type") = true -> de_param_type p (snd e) <> Panic) /\ de_vec (de_tuple_param p src) (snd e) <> Panic.
Lemma visit_map_not_panic vis l : forall st, Forall entry_ok l -> visit_map p src vis l st <> Panic.
Proof.
  induction l as [|[k v] l IH]; intros st F; [discriminate|]. inversion F as [|? ? [F1 F2] F3]; subst. cbn [fst snd] in *. cbn [visit_map]. np; [|now apply IH].
  unfold visit_entry.
  destruct (str_eqb k (lit "name")); [np; [apply set_once_not_panic, de_string_not_panic|discriminate]|].
  destruct (str_eqb k (lit "type")); [np; [apply set_once_not_panic; auto|discriminate]|].
  destruct (knows_internal vis && str_eqb k (lit "internalType")); [np; [apply set_once_not_panic, de_string_not_panic|discriminate]|].
  destruct (str_eqb k (lit "components")); [np; [apply set_once_not_panic; auto|discriminate]|].
  destruct (knows_indexed vis && str_eqb k (lit "indexed")); [np; [apply set_once_not_panic, de_bool_not_panic|discriminate]|].
  destruct src; discriminate.
Qed.
Lemma entries_ok l : type_texts good_text (JObj l) = true -> (forall e, In e l -> type_texts good_text (snd e) = true -> de_vec (de_tuple_param p src) (snd e) <> Panic) ->
  Forall entry_ok l.
Proof.
  intros T H. cbn [type_texts] in T. rewrite forallb_forall in T. apply Forall_forall. intros [k v] I. specialize (T _ I). cbn [fst snd] in *.
  apply andb_true_iff in T as [T1 T2]. split; cbn [fst snd].
  - intros E. rewrite E in T1. now apply de_param_type_not_panic.
  - now apply (H _ I).
Qed.
Lemma de_tuple_param_not_panic j : type_texts good_text j = true ->
  de_tuple_param p src j <> Panic /\ de_vec (de_tuple_param p src) j <> Panic.
Proof.
  induction j as [| | | |l IH|l IH] using json_ind'; intros T; (split; try discriminate).
  - cbn [de_vec]. apply mapM_not_panic. cbn [type_texts] in T. rewrite forallb_forall in T. rewrite Forall_forall in IH |- *. intros x I. now apply IH; auto.
  - rewrite de_tuple_param_obj. np; try discriminate.
    + apply visit_map_not_panic. apply entries_ok; auto. intros e I Te. rewrite Forall_forall in IH. now apply IH.
    + apply required_not_panic.
    + apply set_components_not_panic.
Qed.
Lemma obj_entries l : type_texts good_text (JObj l) = true -> Forall entry_ok l.
Proof. intros T. apply entries_ok; auto. intros e I Te. now apply de_tuple_param_not_panic. Qed.
Lemma de_param_not_panic j : type_texts good_text j = true -> de_param p src j <> Panic.
Proof.
  intros T. destruct j as [| | | | |l]; try discriminate. cbn [de_param]. np; try discriminate; auto using required_not_panic, set_components_not_panic.
  apply visit_map_not_panic, obj_entries, T.
Qed.
Lemma de_event_param_not_panic j : type_texts good_text j = true -> de_event_param p src j <> Panic.
Proof.
  intros T. destruct j as [| | | | |l]; try discriminate. cbn [de_event_param]. np; try discriminate; auto using required_not_panic, set_components_not_panic.
  apply visit_map_not_panic, obj_entries, T.
Qed.
Lemma de_vec_not_panic A (f : json -> res A) j : (forall x, type_texts good_text x = true -> f x <> Panic) ->
  type_texts good_text j = true -> de_vec f j <> Panic.
Proof.
  intros H T. destruct j as [| | | |l|]; try discriminate. cbn [de_vec]. apply mapM_not_panic. cbn [type_texts] in T. rewrite forallb_forall in T.
  apply Forall_forall. auto.
Qed.
Lemma entry_text k v l : type_texts good_text (JObj l) = true -> In (k, v) l -> type_texts good_text v = true.
Proof. intros T I. cbn [type_texts] in T. rewrite forallb_forall in T. specialize (T _ I). cbn in T. now apply andb_true_iff in T. Qed.
Lemma nth_text l i v : type_texts good_text (JArr l) = true -> nth_error l i = Some v -> type_texts good_text v = true.
Proof. intros T I. cbn [type_texts] in T. rewrite forallb_forall in T. apply T. eapply nth_error_In; eauto. Qed.
Lemma field_not_panic A (f : json -> res A) l i : (forall v, type_texts good_text v = true -> f v <> Panic) ->
  type_texts good_text (JArr l) = true -> field f (nth_error l i) <> Panic.
Proof. intros H T. destruct (nth_error l i) eqn:E; [|discriminate]. cbn. eauto using nth_text. Qed.
Lemma field_or_not_panic A (f : json -> res A) l i d : (forall v, f v <> Panic) -> field_or f (nth_error l i) d <> Panic.
Proof. intros H. destruct (nth_error l i) eqn:E; [|discriminate]. cbn. auto. Qed.
Lemma de_function_not_panic j : type_texts good_text j = true -> de_function p src j <> Panic.
Proof.
  intros T. destruct j as [| | | |l|l]; try discriminate; cbn [de_function].
  - np; try (apply field_not_panic; auto using de_name_not_panic; intros; apply de_vec_not_panic; auto using de_param_not_panic);
      try (apply field_or_not_panic; auto using de_bool_not_panic, de_state_mutability_not_panic).
    destruct (len l <=? 5); discriminate.
  - np; auto using required_not_panic; try discriminate. apply foldM_not_panic. apply Forall_forall. intros [k v] I st. unfold visit_function.
    pose proof (entry_text _ _ _ T I) as TV. repeat match goal with |- context [if ?b then _ else _] => destruct b end; np; try discriminate;
    apply set_once_not_panic; auto using de_name_not_panic, de_bool_not_panic, de_state_mutability_not_panic, de_vec_not_panic, de_param_not_panic.
Qed.
Lemma de_event_not_panic j : type_texts good_text j = true -> de_event p src j <> Panic.
Proof.
  intros T. destruct j as [| | | |l|l]; try discriminate; cbn [de_event].
  - np; try (apply field_not_panic; auto using de_name_not_panic, de_bool_not_panic; intros; apply de_vec_not_panic; auto using de_event_param_not_panic).
    destruct (len l <=? 3); discriminate.
  - np; auto using required_not_panic; try discriminate. apply foldM_not_panic. apply Forall_forall. intros [k v] I st. unfold visit_event.
    pose proof (entry_text _ _ _ T I) as TV. repeat match goal with |- context [if ?b then _ else _] => destruct b end; np; try discriminate;
    apply set_once_not_panic; auto using de_name_not_panic, de_bool_not_panic, de_vec_not_panic, de_event_param_not_panic.
Qed.
Lemma de_constructor_not_panic j : type_texts good_text j = true -> de_constructor p src j <> Panic.
Proof.
  intros T. destruct j as [| | | |l|l]; try discriminate; cbn [de_constructor].
  - np; try (apply field_not_panic; auto; intros; apply de_vec_not_panic; auto using de_param_not_panic). destruct (len l <=? 1); discriminate.
  - np; auto using required_not_panic; try discriminate. apply foldM_not_panic. apply Forall_forall. intros [k v] I st. unfold visit_constructor.
    pose proof (entry_text _ _ _ T I) as TV. destruct (str_eqb k (lit "inputs")); [|discriminate].
    apply set_once_not_panic; auto using de_vec_not_panic, de_param_not_panic.
Qed.
End NoPanic.
Lemma variant_not_panic tag rest : type_texts good_text rest = true -> variant_of p tag rest <> Panic.
Proof.
  intros T. unfold variant_of. repeat match goal with |- context [if ?b then _ else _] => destruct b end; np; try discriminate;
    auto using de_constructor_not_panic, de_function_not_panic, de_event_not_panic; destruct rest as [| | | |[|]|]; discriminate.
Qed.
Lemma de_operation_not_panic j : type_texts good_text j = true -> de_operation p j <> Panic.
Proof.
  intros T. destruct j as [| | | |[|t l]|l]; try discriminate.
  - change (de_operation p (JArr (t :: l))) with (do tag <- de_string t; variant_of p tag (JArr l)). np; [apply de_string_not_panic|].
    apply variant_not_panic. cbn [type_texts forallb] in *. now apply andb_true_iff in T.
  - change (de_operation p (JObj l)) with (match filter (fun e => str_eqb (fst e) (lit "type")) l with
      | [(_, t)] => do tag <- de_string t; variant_of p tag (JObj (untagged l)) | _ => Err SerdeJson end).
    destruct (filter _ l) as [|[k t] [|]]; try discriminate. np; [apply de_string_not_panic|]. apply variant_not_panic.
    cbn [type_texts] in *. unfold untagged. rewrite forallb_forall in *. intros e I. apply filter_In in I as [I _]. auto.
Qed.
Lemma de_contract_not_panic j : type_texts good_text j = true -> de_contract p j <> Panic.
Proof.
  intros T. destruct j as [| | | |l|]; try discriminate. cbn [de_contract]. apply foldM_not_panic. apply Forall_forall. intros x I c. np; [|discriminate].
  apply de_operation_not_panic. cbn [type_texts] in T. rewrite forallb_forall in T. auto.
Qed.
Lemma load_not_panic j : type_texts good_text j = true -> load p j <> Panic.
Proof. intros T. unfold load, from_text. destruct (json_depth j <=? 127); [|discriminate]. now apply de_contract_not_panic. Qed.
End Good.
Lemma type_texts_or ok j : type_texts ok j = true \/ exists s, type_text s j /\ ok s = false.
Proof.
  induction j as [| | | |l IH|l IH] using json_ind'; try (left; reflexivity); cbn [type_texts].
  - destruct (forallb (type_texts ok) l) eqn:E; auto. right. assert (exists x, In x l /\ type_texts ok x = false) as (x & I & X).
    { clear IH. induction l as [|x l IH]; [discriminate|]. cbn in E. apply andb_false_iff in E as [E|E]; [exists x; cbn; auto|].
      destruct (IH E) as (y & I & Y). exists y. cbn; auto. }
    rewrite Forall_forall in IH. destruct (IH _ I) as [C|(s & S1 & S2)]; [congruence|]. exists s. split; auto. eapply tt_item; eauto.
  - match goal with |- forallb ?f l = true \/ _ => set (g := f); destruct (forallb g l) eqn:E; auto; right; assert (exists x, In x l /\ g x = false) as ([k v] & I & X) end.
    { clear IH. induction l as [|x l IH]; [discriminate|]. cbn in E. apply andb_false_iff in E as [E|E]; [exists x; cbn; auto|].
      destruct (IH E) as (y & I & Y). exists y. cbn; auto. }
    unfold g in X. cbn [fst snd] in X. apply andb_false_iff in X as [X|X].
    + destruct (str_eqb k (lit "type")) eqn:K; [|discriminate]. apply str_eqb_eq in K as ->. destruct v; try discriminate.
      exists s. split; auto. now apply tt_here.
    + rewrite Forall_forall in IH. destruct (IH _ I) as [C|(s & S1 & S2)]; [cbn in C; congruence|]. exists s. split; auto. eapply tt_value; eauto.
Qed.
Lemma load_panics_reader p j : load p j = Panic -> exists s, type_text s j /\ read p s = Panic.
Proof.
  intros E. set (ok := fun s => match read p s with Panic => false | _ => true end).
  destruct (type_texts_or ok j) as [T|(s & S & O)].
  - exfalso. revert E. apply (@load_not_panic p ok); auto. intros s. unfold ok. destruct (read p s); congruence.
  - exists s. split; auto. unfold ok in O. destruct (read p s); congruence.
Qed.
Lemma mapM_panic_at A B (f : A -> res B) l x l' ys : mapM f l = Ok ys -> f x = Panic -> mapM f (l ++ x :: l') = Panic.
Proof.
  revert ys. induction l as [|a l IH]; intros ys E X; cbn [mapM app] in *; [now rewrite X|].
  apply bind_ok in E as (b & Eb & E). rewrite Eb. cbn [bind]. apply bind_ok in E as (bs & Ebs & _). now rewrite (IH _ Ebs X).
Qed.
Lemma foldM_panic_at A S (f : S -> A -> res S) l x l' : forall st st', foldM f l st = Ok st' -> f st' x = Panic -> foldM f (l ++ x :: l') st = Panic.
Proof.
  induction l as [|a l IH]; intros st st' E X; cbn [foldM app] in *; [injection E as ->; now rewrite X|].
  apply bind_ok in E as (b & Eb & E). rewrite Eb. cbn [bind]. eauto.
Qed.
Lemma param_panics p src name s : de_param p src (JObj [(lit "name", JStr name); (lit "type", JStr s)]) = Panic <-> read p s = Panic.
Proof.
  cbn [de_param]. cbn -[read set_tuple_components]. destruct (read p s) as [t|e|] eqn:E; cbn -[set_tuple_components]; split; try discriminate; auto.
  intros F. exfalso. apply bind_panic in F as [F|(a & _ & F)]; [now apply set_components_not_panic in F|discriminate].
Qed.
Lemma load_panics p l1 ps name s ps' l2 c qs j :
  j = JArr (l1 ++ JObj [(lit "type", JStr (lit "constructor")); (lit "inputs", JArr (ps ++ JObj [(lit "name", JStr name); (lit "type", JStr s)] :: ps'))] :: l2) ->
  json_depth j <= 127 -> load p (JArr l1) = Ok c -> mapM (de_param p Buffered) ps = Ok qs -> read p s = Panic -> load p j = Panic.
Proof.
  intros -> D L Q R. unfold load, from_text in *. destruct (json_depth (JArr (l1 ++ _)) <=? 127) eqn:DD; [|lia]. 
  destruct (json_depth (JArr l1) <=? 127); [|discriminate]. cbn [de_contract] in *. eapply foldM_panic_at; [exact L|].
  rewrite (@de_operation_obj p _ (lit "constructor")) by reflexivity. unfold variant_of. cbn -[mapM de_param].
  erewrite mapM_panic_at; [reflexivity|exact Q|]. now apply param_panics.
Qed.
Lemma load_not_panic_ascii p j : type_texts (fun s => all_ascii s && brackets_ok false s) j = true -> load p j <> Panic.
Proof. apply load_not_panic. intros s G. apply andb_true_iff in G. unfold read. now apply read_not_panic. Qed.

(** ** The order of the keys does not matter *)
Lemma keyed_perm l l' k : Permutation l l' -> Permutation (keyed l k) (keyed l' k).
Proof.
  intros P. unfold keyed. apply Permutation_map. induction P as [|x l l' P IH|x y l|l l' l'' P1 IH1 P2 IH2]; cbn [filter].
  - constructor.
  - destruct (str_eqb (fst x) k); auto.
  - destruct (str_eqb (fst x) k), (str_eqb (fst y) k); auto. constructor.
  - eapply Permutation_trans; eauto.
Qed.
Lemma opt_field_perm A l l' k (f : json -> res A) o : Permutation l l' -> opt_field l k f o -> opt_field l' k f o.
Proof.
  intros P. apply keyed_perm with (k := k) in P. unfold opt_field. destruct (keyed l k) as [|v [|v' r]].
  - apply Permutation_nil in P. now rewrite P.
  - apply Permutation_length_1_inv in P. now rewrite P.
  - intros [].
Qed.
Lemma forall_perm A (P : A -> Prop) l l' : Permutation l l' -> Forall P l -> Forall P l'.
Proof. intros Q. rewrite !Forall_forall. intros H x I. apply H. eapply Permutation_in; [apply Permutation_sym; exact Q|exact I]. Qed.
Lemma visit_map_perm p src vis l l' st : Permutation l l' -> visit_map p src vis l no_fields = Ok st -> visit_map p src vis l' no_fields = Ok st.
Proof.
  intros P V. apply visit_map_visited in V as (V1 & V2 & V3 & V4 & V5 & V6). apply visit_map_visited.
  unfold visited. cbn [no_fields fd_name fd_kind fd_indexed fd_internal fd_components] in *. rewrite ?more_none in *.
  repeat match goal with |- _ /\ _ => split end; try (eapply opt_field_perm; eauto; fail).
  - destruct (knows_internal vis); [eapply opt_field_perm; eauto|auto].
  - destruct (knows_indexed vis); [eapply opt_field_perm; eauto|auto].
  - intros T. eapply forall_perm; eauto.
Qed.
Lemma de_param_perm p src l l' a : Permutation l l' -> de_param p src (JObj l) = Ok a -> de_param p src (JObj l') = Ok a.
Proof.
  intros P E. cbn [de_param] in *. apply bind_ok in E as (st & V & E). rewrite (@visit_map_perm _ _ _ _ _ _ P V). exact E.
Qed.
Lemma de_event_param_perm p src l l' a : Permutation l l' -> de_event_param p src (JObj l) = Ok a -> de_event_param p src (JObj l') = Ok a.
Proof.
  intros P E. cbn [de_event_param] in *. apply bind_ok in E as (st & V & E). rewrite (@visit_map_perm _ _ _ _ _ _ P V). exact E.
Qed.
Lemma de_tuple_param_perm p src l l' a : Permutation l l' -> de_tuple_param p src (JObj l) = Ok a -> de_tuple_param p src (JObj l') = Ok a.
Proof.
  intros P E. rewrite de_tuple_param_obj in *. apply bind_ok in E as (st & V & E). rewrite (@visit_map_perm _ _ _ _ _ _ P V). exact E.
Qed.
Lemma default_field_perm A l l' k (f : json -> res A) d a : Permutation l l' -> default_field l k f d a -> default_field l' k f d a.
Proof. intros P (o & H & E). exists o. split; [eapply opt_field_perm; eauto|exact E]. Qed.
Lemma untagged_perm l l' : Permutation l l' -> Permutation (untagged l) (untagged l').
Proof.
  unfold untagged. induction 1 as [|x l l' P IH|x y l|l l' l'' P1 IH1 P2 IH2]; cbn [filter].
  - constructor.
  - destruct (str_eqb (fst x) (lit "type")); cbn; auto.
  - destruct (str_eqb (fst x) (lit "type")), (str_eqb (fst y) (lit "type")); cbn; auto. constructor.
  - eapply Permutation_trans; eauto.
Qed.
Lemma de_operation_perm p l l' o : Permutation l l' -> de_operation p (JObj l) = Ok o -> de_operation p (JObj l') = Ok o.
Proof.
  intros P E. assert (K : exists tag, keyed l (lit "type") = [JStr tag]).
  { unfold de_operation, keyed in *. destruct (filter _ l) as [|[k t] [|]]; try discriminate. apply bind_ok in E as (tag & Et & _).
    destruct t; try discriminate. cbn. eauto. }
  destruct K as [tag K]. rewrite (de_operation_obj p l K) in E. pose proof (keyed_perm (lit "type") P) as K'. rewrite K in K'.
  apply Permutation_length_1_inv in K'. rewrite (de_operation_obj p l' K'). apply untagged_perm in P. unfold variant_of in *.
  destruct (str_eqb tag (lit "constructor")).
  { apply bind_ok in E as (c & Ec & E). apply de_constructor_iff in Ec.
    rewrite (proj2 (de_constructor_iff p Buffered (untagged l') c)); [exact E|]. eapply opt_field_perm; eauto. }
  destruct (str_eqb tag (lit "function")).
  { apply bind_ok in E as (c & Ec & E). apply de_function_iff in Ec as (E1 & E2 & E3 & E4 & E5).
    rewrite (proj2 (de_function_iff p Buffered (untagged l') c)); [exact E|].
    repeat match goal with |- _ /\ _ => split end; try (eapply opt_field_perm; eauto; fail); eapply default_field_perm; eauto. }
  destruct (str_eqb tag (lit "event")).
  { apply bind_ok in E as (c & Ec & E). apply de_event_iff in Ec as (E1 & E2 & E3).
    rewrite (proj2 (de_event_iff p Buffered (untagged l') c)); [exact E|].
    repeat match goal with |- _ /\ _ => split end; eapply opt_field_perm; eauto. }
  destruct (str_eqb tag (lit "fallback")); [exact E|]. destruct (str_eqb tag (lit "receive")); exact E.
Qed.

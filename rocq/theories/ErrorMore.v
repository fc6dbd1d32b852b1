(** * Proofs about the errors of contracts, logs and the command line program *)
From Verif Require Import Base BaseFacts StrFacts Types AbiSpec DecoderSpec Encoder CodecLemmas Decoder DecoderPanics TypeNames Tokenizer TypeNamesSpec ReaderFacts ReaderTotal ErrorSpec ErrorFacts
  TokenSpec Keccak Function FunctionFacts Event EventSpec EventFacts EventExact Json Contract Cli CliFacts JsonFacts LoadFacts.
From Coq Require Import String.
From Coq Require Import Lia ZifyBool ZifyNat ZifyN.
Set Implicit Arguments.
Notation length := List.length.
Local Open Scope N_scope.
Local Open Scope list_scope.

(** Every error of a result satisfies [P]. *)
Definition errs (P : err -> Prop) {A} (r : res A) : Prop := forall e, r = Err e -> P e.
Section Errs.
Context (P : err -> Prop).
Lemma errs_ok A (a : A) : errs P (Ok a). Proof. discriminate. Qed.
Lemma errs_panic A : errs P (@Panic A). Proof. discriminate. Qed.
Lemma errs_err A e : P e -> errs P (@Err A e). Proof. intros H e' X. now injection X as <-. Qed.
Lemma errs_bind A B (r : res A) (k : A -> res B) : errs P r -> (forall a, r = Ok a -> errs P (k a)) -> errs P (bind r k).
Proof. intros H K e E. apply bind_err' in E as [E|(a & E1 & E)]; [now apply H|now apply (K a)]. Qed.
Lemma errs_mapM A B (f : A -> res B) l : (forall a, List.In a l -> errs P (f a)) -> errs P (mapM f l).
Proof.
  induction l as [|a l IH]; intros H; [apply errs_ok|]. cbn [mapM]. apply errs_bind; [apply H; now left|]. intros b _.
  apply errs_bind; [apply IH; intros x I; apply H; now right|]. intros c _. apply errs_ok.
Qed.
Lemma errs_foldM A S (f : S -> A -> res S) l : forall s, (forall s a, List.In a l -> errs P (f s a)) -> errs P (foldM f l s).
Proof.
  induction l as [|a l IH]; intros s H; [apply errs_ok|]. cbn [foldM]. apply errs_bind; [apply H; now left|]. intros b _.
  apply IH. intros s' x I. apply H. now right.
Qed.
End Errs.

(** ** Contracts *)
Definition serde (e : err) : Prop := e = SerdeJson.
Ltac se := repeat first [apply errs_ok | apply errs_panic | (apply errs_err; reflexivity) | apply errs_bind; [|intros ? _]].
Lemma serde_once A (o : option A) r : errs serde r -> errs serde (set_once o r).
Proof. intros H. destruct o; cbn [set_once]; se. exact H. Qed.
Lemma serde_string j : errs serde (de_string j). Proof. destruct j; cbn; se. Qed.
Lemma serde_bool j : errs serde (de_bool j). Proof. destruct j; cbn; se. Qed.
Lemma serde_required A (o : option A) : errs serde (required o). Proof. destruct o; cbn; se. Qed.
Lemma serde_type p j : errs serde (de_param_type p j).
Proof. destruct j; cbn [de_param_type]; se. destruct (read p s); se. Qed.
Lemma serde_components k c : errs serde (set_tuple_components k c).
Proof. unfold set_tuple_components. destruct (inner_tuple k); se; [apply serde_required|]. destruct (map_inner_tuple _ _); se. Qed.
Lemma serde_entry p src vis key value cs st : errs serde (cs tt) -> errs serde (visit_entry p src vis key value cs st).
Proof.
  intros H. unfold visit_entry. destruct (str_eqb key _); [se; apply serde_once, serde_string|]. destruct (str_eqb key _); [se; apply serde_once, serde_type|].
  destruct (_ && _); [se; apply serde_once, serde_string|]. destruct (str_eqb key _); [se; now apply serde_once|].
  destruct (_ && _); [se; apply serde_once, serde_bool|]. destruct src; se.
Qed.
Lemma serde_tuple p src j : errs serde (de_tuple_param p src j) /\ errs serde (de_vec (de_tuple_param p src) j).
Proof.
  induction j as [| | | |l IH|l IH] using json_ind'; (split; [|cbn [de_vec]]); try solve [cbn; se].
  - apply errs_mapM. intros a I. rewrite Forall_forall in IH. now apply IH.
  - rewrite de_tuple_param_obj. se; [|apply serde_required|apply serde_components].
    assert (G : forall l' st, incl l' l -> errs serde (visit_map p src VTupleParam l' st)).
    { induction l' as [|[k v] l' IHl]; intros st I; cbn [visit_map]; se.
      - apply serde_entry. rewrite Forall_forall in IH. now apply (IH (k, v) (I _ (or_introl eq_refl))).
      - apply IHl. intros x Hx. apply I. now right. }
    apply G. apply incl_refl.
Qed.
Lemma serde_visit p src vis l : forall st, errs serde (visit_map p src vis l st).
Proof. induction l as [|[k v] l IH]; intros st; cbn [visit_map]; se; [apply serde_entry, serde_tuple|apply IH]. Qed.
Lemma serde_param p src j : errs serde (de_param p src j).
Proof. destruct j; cbn [de_param]; se; [apply serde_visit|apply serde_required|apply serde_required|apply serde_components]. Qed.
Lemma serde_event_param p src j : errs serde (de_event_param p src j).
Proof. destruct j; cbn [de_event_param]; se; [apply serde_visit|apply serde_required|apply serde_required|apply serde_components]. Qed.
Lemma serde_vec A (f : json -> res A) j : (forall j, errs serde (f j)) -> errs serde (de_vec f j).
Proof. intros H. destruct j; cbn [de_vec]; se. apply errs_mapM. auto. Qed.
Lemma serde_name j : errs serde (de_name j).
Proof.
  unfold de_name. se; [apply serde_string|]. unfold sanitize_name, str_truncate. destruct (str_find _ _); se. destruct (_ <? _); se.
  intros e E. now apply str_slice_not_err in E.
Qed.
Lemma serde_field A (f : json -> res A) o : (forall j, errs serde (f j)) -> errs serde (field f o).
Proof. intros H. destruct o; cbn [field]; se. apply H. Qed.
Lemma serde_field_or A (f : json -> res A) o d : (forall j, errs serde (f j)) -> errs serde (field_or f o d).
Proof. intros H. destruct o; cbn [field_or]; se. apply H. Qed.
Lemma serde_mutability j : errs serde (de_state_mutability j).
Proof.
  assert (H : forall s, errs serde (state_mutability_of s)) by (intros s; unfold state_mutability_of; repeat (destruct (str_eqb _ _); se)).
  destruct j as [| | |s|l|[|[k []] [|]]]; cbn; se; apply H.
Qed.
Lemma serde_function p src j : errs serde (de_function p src j).
Proof.
  destruct j as [| | |s|l|l]; cbn [de_function]; se; try apply serde_required; try (apply serde_field, serde_name); try (apply serde_field; intros; apply serde_vec, serde_param);
    try (apply serde_field_or, serde_bool); try (apply serde_field_or, serde_mutability).
  - destruct (_ <=? _); se.
  - apply errs_foldM. intros st [k v] _. unfold visit_function.
    repeat (destruct (str_eqb _ _); [se; apply serde_once; first [apply serde_name|apply serde_vec, serde_param|apply serde_bool|apply serde_mutability]|]). se.
Qed.
Lemma serde_constructor p src j : errs serde (de_constructor p src j).
Proof.
  destruct j as [| | |s|l|l]; cbn [de_constructor]; se; try apply serde_required; try (apply serde_field; intros; apply serde_vec, serde_param).
  - destruct (_ <=? _); se.
  - apply errs_foldM. intros st [k v] _. unfold visit_constructor. destruct (str_eqb _ _); se. apply serde_once, serde_vec, serde_param.
Qed.
Lemma serde_event p src j : errs serde (de_event p src j).
Proof.
  destruct j as [| | |s|l|l]; cbn [de_event]; se; try apply serde_required; try (apply serde_field, serde_name); try (apply serde_field; intros; apply serde_vec, serde_event_param);
    try (apply serde_field, serde_bool).
  - destruct (_ <=? _); se.
  - apply errs_foldM. intros st [k v] _. unfold visit_event.
    repeat (destruct (str_eqb _ _); [se; apply serde_once; first [apply serde_name|apply serde_vec, serde_event_param|apply serde_bool]|]). se.
Qed.
Lemma serde_operation p j : errs serde (de_operation p j).
Proof.
  unfold de_operation. destruct j as [| | |s|[|t l]|l]; se; try apply serde_string.
  2: destruct (filter _ l) as [|[k t] [|]]; se; try apply serde_string.
  all: repeat (destruct (str_eqb _ _); [first [apply errs_bind; [first [apply serde_constructor|apply serde_function|apply serde_event]|intros; apply errs_ok] | destruct l; se; fail | se]|]); se.
Qed.
Lemma load_errors p j e : load p j = Err e -> e = SerdeJson.
Proof.
  unfold load, from_text. destruct (_ <=? _); [|intros E; now injection E as <-]. revert e. change (errs serde (de_contract p j)).
  destruct j as [| | |s|l|l]; cbn [de_contract]; se. apply errs_foldM. intros c a _. se. apply serde_operation.
Qed.

(** ** Logs *)
Section Logs.
Context (p : profile) (e : Event) (log : RawLog) (s : str).
Hypothesis C : canonical_signature (e_name e) (map ep_kind (e_inputs e)) s.
Hypothesis WF : forallb wf_type (map ep_kind (e_inputs e)) = true.
Hypothesis S : forallb topic_sized (map ep_kind (isel true (e_inputs e))) = true.
Hypothesis W : Forall (fun w => len w = 32) (rl_topics log).
Hypothesis Lw : len (rl_topics log) < 2 ^ 57.
Hypothesis Fd : fits (rl_data log).
Lemma concat_words_nil (l : list (list byte)) : Forall (fun w => len w = 32) l -> List.concat l = [] -> l = [].
Proof. intros F E. destruct l as [|w l]; [reflexivity|]. inversion F as [|? ? L]; subst. cbn [List.concat] in E. apply app_eq_nil in E as [-> _]. discriminate. Qed.
Lemma converted_wf : forallb wf_type (map convert_topic_param_type (map ep_kind (isel true (e_inputs e)))) = true.
Proof.
  rewrite forallb_forall. intros x I. apply in_map_iff in I as (t & <- & I). pose proof (@sel_wf e WF true) as G. rewrite forallb_forall in G. apply G in I.
  destruct t; try reflexivity; exact I.
Qed.
Lemma converted_empty : Forall may_be_empty (map convert_topic_param_type (map ep_kind (isel true (e_inputs e)))) <->
  Forall (fun q => ep_kind q = PFixedBytes 0) (isel true (e_inputs e)).
Proof.
  rewrite map_map, Forall_map. split; intros F; (eapply Forall_impl; [|exact F]); cbn beta; intros q.
  - unfold may_be_empty. destruct (ep_kind q); cbn; intros [X|[u X]]; try discriminate; auto.
  - intros ->. left. reflexivity.
Qed.
Lemma parse_log_errors x : parse_log p e log = Err x ->
  x = InvalidData \/
  (x = InvalidName empty_data_msg /\ exists topics, rl_topics log = topics_prefix e s ++ topics /\
    ((topics = [] /\ ~ Forall (fun q => ep_kind q = PFixedBytes 0) (isel true (e_inputs e))) \/
     (exists ts, topics_read (map ep_kind (isel true (e_inputs e))) topics ts /\
       rl_data log = [] /\ ~ Forall may_be_empty (map ep_kind (isel false (e_inputs e)))))).
Proof.
  intros E. destruct (@parse_log_split p e log s C) as [(topics & Et & X)|[_ X]]; [|rewrite E in X; injection X as ->; now left].
  rewrite X in E. clear X. destruct (@topics_sub e log s WF S W Lw _ Et) as [Wt Lt]. unfold after_signature in E.
  assert (Ft : fits (List.concat topics)) by (unfold fits; rewrite (concat_words_len Wt); change (2 ^ 63) with (64 * 2 ^ 57); lia).
  apply bind_err' in E as [E|(tv & E1 & E)].
  - apply decode_errors in E as [E|(E & F & ->)]; [now left| |exact converted_wf|exact Ft]. right. split; [reflexivity|]. exists topics. split; [exact Et|].
    left. split; [now apply concat_words_nil|]. now rewrite <- converted_empty.
  - destruct (N.eqb_spec (len tv) (len topics)) as [Le|]; cbn [negb] in E; [|injection E as <-; now left].
    apply bind_err' in E as [E|(dt & _ & E)].
    + apply decode_errors in E as [E|(E & F & ->)]; [now left| |exact (@sel_wf e WF false)|exact Fd]. right. split; [reflexivity|]. exists topics. split; [exact Et|].
      right. exists tv. split; [|auto]. apply (@decode_topics p _ topics tv (@sel_wf e WF true) S Wt Lt). auto.
    + exfalso. apply bind_err' in E as [E|(out & _ & E)]; [|discriminate]. revert E. apply (errs_mapM (P := fun _ => False)).
      intros a _ x' X. apply bind_err' in X as [X|(v & _ & X)]; [|discriminate]. unfold hm_index in X. destruct (hm_get _ _); discriminate.
Qed.
Lemma parse_log_empty : parse_log p e log = Err (InvalidName empty_data_msg) <->
  exists topics, rl_topics log = topics_prefix e s ++ topics /\
    ((topics = [] /\ ~ Forall (fun q => ep_kind q = PFixedBytes 0) (isel true (e_inputs e))) \/
     (exists ts, topics_read (map ep_kind (isel true (e_inputs e))) topics ts /\
       rl_data log = [] /\ ~ Forall may_be_empty (map ep_kind (isel false (e_inputs e))))).
Proof.
  split.
  - intros E. apply parse_log_errors in E as [E|[_ E]]; [discriminate|exact E].
  - intros (topics & Et & H). destruct (@parse_log_split p e log s C) as [(topics' & Et' & ->)|[N _]]; [|now apply N in Et].
    rewrite Et in Et'. apply app_inv_head in Et' as <-. destruct (@topics_sub e log s WF S W Lw _ Et) as [Wt Lt]. unfold after_signature. destruct H as [[-> F]|(ts & R & D & F)].
    + cbn [List.concat]. rewrite decode_empty by (now rewrite converted_empty). reflexivity.
    + apply (@decode_topics p _ topics ts (@sel_wf e WF true) S Wt Lt) in R as [E1 Le]. rewrite E1. cbn [bind]. rewrite Le, N.eqb_refl. cbn [negb].
      rewrite D, decode_empty by exact F. reflexivity.
Qed.
End Logs.

(** ** The command line program *)
(** Errors of anything but opening and loading a contract file. *)
Definition inner (e : err) : Prop := e <> SerdeJson /\ e <> io_error.
Ltac inn := repeat first [apply errs_ok | apply errs_panic | (apply errs_err; split; [discriminate|intros X; vm_compute in X; discriminate X]) | apply errs_bind; [|intros ? _]].
Lemma inner_usize p a b : errs inner (usize_add p a b).
Proof. unfold usize_add, checked. destruct (_ <? _); inn. destruct p; inn. Qed.
Lemma inner_slice A (l : list A) a b : errs inner (slice l a b).
Proof. unfold slice. destruct (_ && _); inn. Qed.
Lemma inner_peek p d o l : errs inner (peek p d o l).
Proof. unfold peek. inn; [apply inner_usize|]. destruct (_ <? _); inn. apply inner_slice. Qed.
Lemma inner_as_usize w : errs inner (as_usize w).
Proof. unfold as_usize. destruct (forallb _ _); inn. Qed.
Lemma inner_as_bool w : errs inner (as_bool w).
Proof. unfold as_bool. destruct (forallb _ _); inn. Qed.
Lemma errs_iter_N P S (f : S -> res S) n s : (forall s, errs P (f s)) -> errs P (iter_N f n s).
Proof.
  intros H. destruct n as [|q]; [apply errs_ok|]. cbn [iter_N]. revert s. induction q as [q IH|q IH|]; intros s; cbn [iter_pos].
  - apply errs_bind; [apply H|]. intros. apply errs_bind; [apply IH|]. intros. apply IH.
  - apply errs_bind; [apply IH|]. intros. apply IH.
  - apply H.
Qed.
Lemma inner_step dec s : (forall o, errs inner (dec o)) -> errs inner (decode_step dec s).
Proof. intros H. destruct s as [ts o]. unfold decode_step. apply errs_bind; [apply H|]. intros [v o'] _. inn. Qed.
Lemma inner_decode_param p t : forall d o, errs inner (decode_param p t d o).
Proof.
  assert (SF : forall A (tl : list A) a, errs inner (slice_from tl a)) by (intros; apply inner_slice).
  induction t as [| | | | | |t' IH|n|t' n IH|ts IH] using ParamType_ind'; intros d o; cbn [decode_param]; unfold peek_32_bytes, take_bytes;
    try change (do e <- usize_add p ?a ?b; if len d <? e then Err InvalidData else slice d ?a e) with (peek p d a b).
  all: try (repeat first [apply errs_ok | apply inner_peek | apply inner_usize | apply inner_as_usize | apply inner_as_bool | apply inner_slice | apply errs_bind; [|intros ? _]
    | destruct (_ <? _); inn]; fail).
  - repeat (apply errs_bind; [first [apply inner_peek|apply inner_as_usize|apply inner_usize|apply SF|idtac]|intros ? _]).
    + apply errs_iter_N. intros s. apply inner_step. intros. apply IH.
    + destruct a5 as [ts o']. inn. apply inner_usize.
  - apply errs_bind.
    { destruct (ptype_is_dynamic _); [|inn]. repeat (apply errs_bind; [first [apply inner_peek|apply inner_as_usize|apply SF]|intros ? _]). inn. }
    intros [tl st] _. apply errs_bind; [apply errs_iter_N; intros; apply inner_step; intros; apply IH|]. intros [ts o'] _. apply errs_bind; [|intros; inn].
    destruct (ptype_is_dynamic _); [apply inner_usize|inn].
  - apply errs_bind.
    { destruct (ptype_is_dynamic _); [|inn]. repeat (apply errs_bind; [first [apply inner_peek|apply inner_as_usize]|intros ? _]). destruct (_ <? _); [inn|].
      apply errs_bind; [apply SF|intros; inn]. }
    intros [tl st] _. rewrite Forall_forall in IH. apply errs_bind; [apply errs_foldM; intros; apply inner_step; intros; now apply IH|]. intros [vs o'] _. apply errs_bind; [|intros; inn].
    destruct (ptype_is_dynamic _); [apply inner_usize|inn].
Qed.
Lemma inner_decode p ts d : errs inner (decode p ts d).
Proof.
  unfold decode. destruct (_ && _); [inn|]. apply errs_bind; [apply errs_foldM; intros; apply inner_step; intros; apply inner_decode_param|]. intros [vs o] _. inn.
Qed.
Lemma inner_read p s : errs inner (read p s).
Proof. intros e E. apply read_named in E as [->|[->|(x & g & _ & -> & _)]]; split; discriminate. Qed.
Lemma inner_hex s : errs inner (hex_decode s).
Proof. unfold hex_decode. destruct (hex_decode_pairs s); inn. Qed.
Lemma inner_leaf t s e : strict_error t s e \/ lenient_error t s e -> inner e.
Proof.
  assert (B : forall n, bad_hex n s e -> inner e) by (intros n [[_ ->]|(b & _ & _ & ->)]; split; discriminate).
  assert (D : forall m, m = e -> (forall x, List.In x [lit "Uint parse error: InvalidCharacter"; lit "Uint parse error: InvalidLength";
    lit "int256 parse error: Overflow"; lit "int256 parse error: Underflow"] -> OtherErr x = m -> inner e)).
  { intros m <- x I <-. split; [discriminate|]. intros X. injection X as X. rewrite X in I. vm_compute in I. repeat destruct I as [I|I]; try discriminate I. exact I. }
  intros [H|H]; destruct t; cbn in H; try contradiction; eauto; try (destruct H as [_ ->]; split; discriminate).
  - destruct H as [_ [[_ ->]|(z & _ & [[_ ->]|[[_ ->]|[_ ->]]])]]; (eapply D; [reflexivity| |reflexivity]); cbn; auto.
  - destruct H as [_ [[_ ->]|(n & _ & _ & ->)]]; (eapply D; [reflexivity| |reflexivity]); cbn; auto.
Qed.
Lemma leaves_scalar t : Forall (fun u => scalar u = true) (leaves t).
Proof.
  induction t as [| | | | | |t' IH|n|t' n IH|ts IH] using ParamType_ind'; cbn [leaves]; try (repeat constructor; fail); auto.
  rewrite Forall_forall in *. intros u I. apply in_flat_map in I as (x & I & J). specialize (IH x I). rewrite Forall_forall in IH. auto.
Qed.
Lemma inner_tokenize T t s : T = StrictTokenizer \/ T = LenientTokenizer -> errs inner (tokenize T t s).
Proof.
  intros H e E. apply value_errors in E as [->|(t' & x & I & _ & E)]; [split; discriminate|].
  pose proof (leaves_scalar t) as F. rewrite Forall_forall in F. apply F in I.
  destruct H as [->| ->]; [apply strict_errors in E|apply lenient_errors in E]; eauto using inner_leaf.
Qed.
Lemma inner_types_check vs ts : errs inner (types_check vs ts).
Proof.
  intros e E. now apply types_check_not_err in E.
Qed.
Lemma inner_encode p vs : errs inner (encode p vs).
Proof. intros e E. now apply encode_not_err in E. Qed.
Lemma inner_signature e : errs inner (event_signature e).
Proof. rewrite hash_of_ok. inn. Qed.
Lemma inner_name A (o : option A) name : errs inner (ok_or_name o name).
Proof. unfold ok_or_name. destruct o; inn. Qed.
Lemma inner_slice_str s a b : errs inner (str_slice s a b).
Proof. intros e E. now apply str_slice_not_err in E. Qed.
Lemma inner_message a b c : a <> [] -> hd 0 a <> 105 -> inner (OtherErr (a ++ b ++ c)).
Proof. intros Ha H. split; [discriminate|]. intros X. injection X as X. apply (f_equal (hd 0)) in X. destruct a; [contradiction|]. exact (H X). Qed.
Section Cli.
Context (p : profile) (files : str -> option json).
Lemma load_function_inner path name c : files path = Some c -> (exists x, load p c = Ok x) -> errs inner (load_function p files path name).
Proof.
  intros F [x L]. unfold load_function, open_contract. rewrite F, L. cbn [bind]. destruct (str_find name 40).
  - apply errs_bind; [apply inner_slice_str|]. intros nm _. apply errs_bind; [apply inner_name|]. intros fs _. destruct (find _ _); [inn|].
    apply errs_err. split; [discriminate|]. intros X. injection X as X. discriminate X.
  - apply errs_bind; [apply inner_name|]. intros [|f [|g fs]] _; [inn|inn|]. apply errs_err. apply inner_message; discriminate.
Qed.
Lemma load_event_inner path name c : files path = Some c -> (exists x, load p c = Ok x) -> errs inner (load_event p files path name).
Proof.
  intros F [x L]. unfold load_event, open_contract. rewrite F, L. cbn [bind]. destruct (str_find name 40).
  - apply errs_bind; [apply inner_slice_str|]. intros nm _. apply errs_bind; [unfold hash_signature, copy_from_slice; destruct (_ =? _); inn|]. intros h _.
    apply errs_bind; [apply inner_name|]. intros fs _. apply errs_bind.
    + induction fs as [|g fs IH]; cbn [findM]; [inn|]. apply errs_bind; [inn; apply inner_signature|]. intros [] _; [inn|exact IH].
    + intros [f|] _; [inn|]. apply errs_err. apply inner_message; discriminate.
  - apply errs_bind; [apply inner_name|]. intros [|f [|g fs]] _; [inn|inn|]. apply errs_err. apply inner_message; discriminate.
Qed.
Lemma inner_parse_hash t : errs inner (parse_hash t).
Proof. unfold parse_hash. apply errs_bind; [apply inner_hex|]. intros b _. destruct (_ =? _); inn. Qed.
Lemma inner_parse_log e log : errs inner (parse_log p e log).
Proof.
  unfold parse_log. cbv zeta. apply errs_bind.
  { destruct (e_anonymous e); [inn|]. destruct (rl_topics log); [inn|]. apply errs_bind; [apply inner_signature|]. intros s _. destruct (negb _); inn. }
  intros k _. apply errs_bind; [apply inner_decode|]. intros tv _. destruct (negb _); [inn|]. apply errs_bind; [apply inner_decode|]. intros dv _.
  apply errs_bind; [|intros; inn]. apply errs_mapM. intros a _. apply errs_bind; [|intros; inn]. unfold hm_index. destruct (hm_get _ _); inn.
Qed.
Lemma inner_tokens l (lenient : bool) : errs inner (parse_tokens l lenient).
Proof. unfold parse_tokens. apply errs_mapM. intros a _. apply inner_tokenize. destruct lenient; auto. Qed.
Lemma inner_encode_input f vs : errs inner (encode_input p f vs).
Proof. intros e E. apply encode_input_err in E as ->. split; discriminate. Qed.
Lemma execute_inner opt : (forall path, contract_path opt = Some path -> exists j c, files path = Some j /\ load p j = Ok c) -> errs inner (execute p files opt).
Proof.
  intros H. destruct opt as [path name vs lenient|vs lenient|path name d|types d|path name topics d]; cbn [execute contract_path] in *.
  - destruct (H _ eq_refl) as (j & c & F & L). unfold cli_encode_input. apply errs_bind; [eapply load_function_inner; eauto|]. intros f _.
    apply errs_bind; [apply inner_tokens|]. intros ts _. apply errs_bind; [apply inner_encode_input|]. intros; inn.
  - unfold encode_params. destruct (negb _); [inn|]. apply errs_bind; [apply errs_mapM; intros a _; apply errs_bind; [apply inner_read|intros; inn]|]. intros ts _.
    apply errs_bind; [apply inner_tokens|]. intros vs' _. apply errs_bind; [apply inner_encode|]. intros; inn.
  - destruct (H _ eq_refl) as (j & c & F & L). unfold decode_call_output. apply errs_bind; [eapply load_function_inner; eauto|]. intros f _.
    apply errs_bind; [apply inner_hex|]. intros b _. apply errs_bind; [apply inner_decode|]. intros vs _. destruct (negb _); inn.
  - unfold decode_params. apply errs_bind; [apply errs_mapM; intros; apply inner_read|]. intros ts _.
    apply errs_bind; [apply inner_hex|]. intros b _. apply errs_bind; [apply inner_decode|]. intros vs _. destruct (negb _); inn.
  - destruct (H _ eq_refl) as (j & c & F & L). unfold decode_log. apply errs_bind; [eapply load_event_inner; eauto|]. intros f _.
    apply errs_bind; [apply errs_mapM; intros; apply inner_parse_hash|]. intros hs _. apply errs_bind; [apply inner_hex|]. intros b _.
    apply errs_bind; [apply inner_parse_log|]. intros; inn.
Qed.
Lemma execute_fails opt path : contract_path opt = Some path ->
  (files path = None -> execute p files opt = Err io_error) /\
  (forall j e, files path = Some j -> load p j = Err e -> execute p files opt = Err e) /\
  (forall j, files path = Some j -> load p j = Panic -> execute p files opt = Panic).
Proof.
  intros A. destruct opt; cbn [contract_path execute] in *; try discriminate; injection A as ->;
    unfold cli_encode_input, decode_call_output, decode_log, load_function, load_event, open_contract;
    (split; [intros ->; reflexivity|]); (split; [intros j e -> ->; reflexivity|]); intros j -> ->; reflexivity.
Qed.
Lemma cases opt : (exists path, contract_path opt = Some path /\ files path = None) \/
  (exists path j, contract_path opt = Some path /\ files path = Some j /\ load p j = Err SerdeJson) \/
  (exists path j, contract_path opt = Some path /\ files path = Some j /\ load p j = Panic) \/
  (forall path, contract_path opt = Some path -> exists j c, files path = Some j /\ load p j = Ok c).
Proof.
  destruct (contract_path opt) as [path|]; [|right; right; right; discriminate]. destruct (files path) as [j|] eqn:F; [|left; eauto].
  right. destruct (load p j) as [c|e|] eqn:L; [|apply load_errors in L as E; subst e; left; eauto|right; left; eauto].
  right; right. intros path' X. injection X as <-. eauto.
Qed.
Lemma missing_file opt : execute p files opt = Err io_error <-> exists path, contract_path opt = Some path /\ files path = None.
Proof.
  split; [|intros (path & A & F); now apply (execute_fails _ A)]. intros E.
  destruct (cases opt) as [C|[(path & j & A & F & L)|[(path & j & A & F & L)|C]]]; [exact C| | |].
  - destruct (execute_fails _ A) as (_ & X & _). rewrite (X _ _ F L) in E. discriminate.
  - destruct (execute_fails _ A) as (_ & _ & X). rewrite (X _ F L) in E. discriminate.
  - apply (execute_inner _ C) in E as [_ []]. reflexivity.
Qed.
Lemma bad_file opt : execute p files opt = Err SerdeJson <->
  exists path j, contract_path opt = Some path /\ files path = Some j /\ load p j = Err SerdeJson.
Proof.
  split; [|intros (path & j & A & F & L); destruct (execute_fails _ A) as (_ & X & _); now apply (X j)]. intros E.
  destruct (cases opt) as [(path & A & F)|[C|[(path & j & A & F & L)|C]]]; [|exact C| |].
  - destruct (execute_fails _ A) as (X & _). rewrite (X F) in E. discriminate.
  - destruct (execute_fails _ A) as (_ & _ & X). rewrite (X _ F L) in E. discriminate.
  - apply (execute_inner _ C) in E as [[] _]. reflexivity.
Qed.
End Cli.
Lemma log_errors p e log s : canonical_signature (e_name e) (map ep_kind (e_inputs e)) s ->
  forallb wf_type (map ep_kind (e_inputs e)) = true -> forallb topic_sized (map ep_kind (isel true (e_inputs e))) = true ->
  Forall (fun w => len w = 32) (rl_topics log) -> len (rl_topics log) < 2 ^ 57 -> fits (rl_data log) ->
  (forall x, parse_log p e log = Err x -> x = InvalidData \/ x = InvalidName empty_data_msg) /\
  (parse_log p e log = Err (InvalidName empty_data_msg) <->
   exists topics, rl_topics log = topics_prefix e s ++ topics /\
    ((topics = [] /\ ~ Forall (fun q => ep_kind q = PFixedBytes 0) (isel true (e_inputs e))) \/
     (exists ts, topics_read (map ep_kind (isel true (e_inputs e))) topics ts /\
       rl_data log = [] /\ ~ Forall may_be_empty (map ep_kind (isel false (e_inputs e)))))).
Proof.
  intros C WF S W Lw Fd. split; [|now apply parse_log_empty]. intros x E.
  apply (@parse_log_errors p e log s C WF S W Lw Fd) in E as [E|[E _]]; auto.
Qed.

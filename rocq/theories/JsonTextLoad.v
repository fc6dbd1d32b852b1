(** * Contracts and parameters as bytes of JSON text *)
From Verif Require Import Base BaseFacts StrFacts Utf8 Utf8Facts DecoderProps Types TypeNames Function Event Json JsonSpec Contract ContractSpec
  JsonFacts ItemFacts LoadFacts ContractFacts LoadTotal JsonLemmas JsonText JsonTextSpec JsonTextFacts.
From Coq Require Import String Permutation.
From Coq Require Import ZifyBool ZifyNat ZifyN.
Set Implicit Arguments.
Local Open Scope N_scope.
Local Open Scope list_scope.
Notation length := List.length.

(** ** Bytes *)
Lemma to_N_inj a : forall b, map Byte.to_N a = map Byte.to_N b -> a = b.
Proof.
  induction a as [|x a IH]; intros [|y b] H; try discriminate; [reflexivity|]. cbn [map] in H. injection H as E H.
  assert (E' : Some x = Some y) by (rewrite <- !Byte.of_to_N; congruence). injection E' as ->. f_equal. apply IH, H.
Qed.
Lemma utf8_strict_iff b s : utf8_strict b = Some s <-> wf_str s = true /\ b = utf8 s.
Proof.
  unfold utf8_strict. split.
  - destruct (str_eqb _ _) eqn:E; [|discriminate]. apply str_eqb_eq, to_N_inj in E. intros H. injection H as <-. split; [apply utf8_lossy_wf|]. congruence.
  - intros [W ->]. rewrite (utf8_lossy_utf8 _ W). assert (E : str_eqb (map Byte.to_N (utf8 s)) (map Byte.to_N (utf8 s)) = true) by (apply str_eqb_eq; reflexivity).
    rewrite E. reflexivity.
Qed.
Theorem parse_bytes_exact b j : parse_bytes b = Ok j <->
  exists s, wf_str s = true /\ b = utf8 s /\ json_text s j /\ json_depth j <= 127.
Proof.
  unfold parse_bytes. split.
  - destruct (utf8_strict b) as [s|] eqn:U; [|discriminate]. intros H. apply utf8_strict_iff in U as [W E]. apply parse_text_exact in H as [T D]. eauto 10.
  - intros (s & W & E & T & D). rewrite (proj2 (utf8_strict_iff b s) (conj W E)). apply parse_text_exact. auto.
Qed.
Lemma parse_bytes_cases b : (exists j, parse_bytes b = Ok j) \/ parse_bytes b = Err SerdeJson.
Proof.
  unfold parse_bytes, parse_text. destruct (utf8_strict b) as [s|]; [|auto]. destruct (parse_value _ _ _) as [[v r]|]; [|auto]. destruct (skip_blanks r); eauto.
Qed.
Theorem parse_bytes_fails b : parse_bytes b = Err SerdeJson <->
  forall s j, wf_str s = true -> b = utf8 s -> json_text s j -> 127 < json_depth j.
Proof.
  split.
  - intros H s j W E T. destruct (N.le_gt_cases (json_depth j) 127) as [D|D]; [|exact D].
    assert (X : parse_bytes b = Ok j) by (apply parse_bytes_exact; eauto 10). congruence.
  - intros H. destruct (parse_bytes_cases b) as [[j E]|E]; [|exact E]. apply parse_bytes_exact in E as (s & W & E & T & D).
    specialize (H s j W E T). lia.
Qed.
Theorem written_bytes j : writable j -> scalar_json j = true -> parse_bytes (to_bytes j) = if json_depth j <=? 127 then Ok j else Err SerdeJson.
Proof.
  intros W S. pose proof (show_json_text W) as T. pose proof (show_scalar _ S) as F. unfold to_bytes. destruct (N.leb_spec (json_depth j) 127) as [D|D].
  - apply parse_bytes_exact. eauto 10.
  - apply parse_bytes_fails. intros s j' W' E T'. assert (s = show_json j) by (rewrite <- (utf8_lossy_utf8 _ W'), <- E; apply utf8_lossy_utf8, F). subst s.
    rewrite <- (json_text_unique T T'). exact D.
Qed.
Theorem from_written A (f : json -> res A) j : writable j -> scalar_json j = true -> from_bytes f (to_bytes j) = from_text f j.
Proof. intros W S. unfold from_bytes, from_text. rewrite (written_bytes W S). destruct (json_depth j <=? 127); reflexivity. Qed.
Theorem from_bytes_text A (f : json -> res A) b : from_bytes f b =
  match parse_bytes b with Ok j => from_text f j | _ => Err SerdeJson end.
Proof.
  unfold from_bytes. destruct (parse_bytes b) as [j| |] eqn:P; cbn [bind].
  - apply parse_bytes_exact in P as (s & _ & _ & _ & D). unfold from_text. apply N.leb_le in D. rewrite D. reflexivity.
  - destruct (parse_bytes_cases b) as [[j E]|E]; congruence.
  - destruct (parse_bytes_cases b) as [[j E]|E]; congruence.
Qed.
Theorem from_bytes_exact A (f : json -> res A) b a : from_bytes f b = Ok a <->
  exists s j, wf_str s = true /\ b = utf8 s /\ json_text s j /\ json_depth j <= 127 /\ f j = Ok a.
Proof.
  unfold from_bytes. rewrite bind_ok. split.
  - intros (j & E & H). apply parse_bytes_exact in E as (s & W & E & T & D). eauto 10.
  - intros (s & j & W & E & T & D & H). exists j. split; [apply parse_bytes_exact; eauto 10|exact H].
Qed.

(** ** What is written *)
Lemma ascii_scalar s : all_ascii s = true -> wf_str s = true.
Proof.
  unfold all_ascii, wf_str. rewrite !forallb_forall. intros H c I. specialize (H c I). unfold is_ascii in H. apply low_scalar. lia.
Qed.
Lemma se_components_written t : match se_components t with Some c => writable c /\ scalar_json c = true | None => True end.
Proof.
  induction t as [| | | | | | |t|t n|ts IH] using ParamType_ind'; cbn [se_components]; auto.
  - split.
    + constructor. apply Forall_map. induction IH as [|t ts H IH IHts]; constructor; auto. constructor. constructor; [constructor|].
      destruct (se_components t); constructor; [apply H|constructor].
    + cbn [scalar_json]. rewrite forallb_map. induction IH as [|t ts H IH IHts]; [reflexivity|]. cbn [forallb]. rewrite IHts, andb_true_r.
      cbn [scalar_json forallb fst snd se_type]. rewrite (ascii_scalar _ (abi_ascii t)). destruct (se_components t) as [c|]; [|reflexivity].
      destruct H as [_ H]. cbn [forallb fst snd]. rewrite H. reflexivity.
Qed.
Definition fine (l : list (str * json)) : Prop := Forall (fun e => writable (snd e)) l /\ forallb (fun e => wf_str (fst e) && scalar_json (snd e)) l = true.
Lemma fine_obj l : fine l -> writable (JObj l) /\ scalar_json (JObj l) = true.
Proof. intros [W S]. split; [constructor; exact W|exact S]. Qed.
Lemma fine_nil : fine []. Proof. split; [constructor|reflexivity]. Qed.
Lemma fine_cons k j l : wf_str k = true -> writable j /\ scalar_json j = true -> fine l -> fine ((k, j) :: l).
Proof. intros K [W S] [FW FS]. split; [constructor; auto|]. cbn [forallb fst snd]. rewrite K, S, FS. reflexivity. Qed.
Lemma fine_app l l' : fine l -> fine l' -> fine (l ++ l').
Proof. intros [W S] [W' S']. split; [apply Forall_app; auto|]. rewrite forallb_app, S, S'. reflexivity. Qed.
Lemma fine_str s : wf_str s = true -> writable (JStr s) /\ scalar_json (JStr s) = true.
Proof. intros W. split; [constructor|exact W]. Qed.
Lemma fine_type t : writable (se_type t) /\ scalar_json (se_type t) = true.
Proof. apply fine_str, ascii_scalar, abi_ascii. Qed.
Lemma fine_components t : fine (components_entry t).
Proof.
  unfold components_entry. pose proof (se_components_written t) as H. destruct (se_components t); [|apply fine_nil].
  apply fine_cons; [reflexivity|exact H|apply fine_nil].
Qed.
Lemma fine_bool b : writable (JBool b) /\ scalar_json (JBool b) = true.
Proof. split; [constructor|reflexivity]. Qed.
Lemma fine_opt k o : wf_str k = true -> scalar_opt o = true -> fine (match o with Some s => [(k, JStr s)] | None => [] end).
Proof. intros K S. destruct o; [apply fine_cons; [exact K|apply fine_str, S|apply fine_nil]|apply fine_nil]. Qed.
Ltac fine := repeat first [apply fine_obj | apply fine_app | apply fine_components | apply fine_nil
  | apply fine_cons; [reflexivity|first [apply fine_type | apply fine_bool | apply fine_str; first [assumption | reflexivity] | idtac]|] | apply fine_opt; [reflexivity|assumption]].
Lemma param_written a : scalar_param a = true -> writable (se_param a) /\ scalar_json (se_param a) = true.
Proof. intros H. apply andb_true_iff in H as [N I]. unfold se_param. fine. Qed.
Lemma event_param_written a : scalar_event_param a = true -> writable (se_event_param a) /\ scalar_json (se_event_param a) = true.
Proof. intros H. unfold scalar_event_param in H. unfold se_event_param. fine. Qed.
Lemma tuple_param_written a : scalar_tuple_param a = true -> writable (se_tuple_param a) /\ scalar_json (se_tuple_param a) = true.
Proof. intros H. apply andb_true_iff in H as [N I]. unfold se_tuple_param. fine. Qed.
Lemma array_written A (f : A -> json) (P : A -> bool) l : (forall a, P a = true -> writable (f a) /\ scalar_json (f a) = true) ->
  forallb P l = true -> writable (JArr (map f l)) /\ scalar_json (JArr (map f l)) = true.
Proof.
  intros H F. rewrite forallb_forall in F. split.
  - constructor. apply Forall_map, Forall_forall. intros a I. apply H, F, I.
  - cbn [scalar_json]. rewrite forallb_map. apply forallb_forall. intros a I. apply H, F, I.
Qed.
Lemma operation_written o : scalar_operation o = true -> writable (se_operation o) /\ scalar_json (se_operation o) = true.
Proof.
  destruct o as [c|f|e| |]; unfold scalar_operation; intros H; unfold se_operation.
  - unfold se_constructor. fine. exact (array_written _ _ _ param_written H).
  - apply andb_true_iff in H as [H H3]. apply andb_true_iff in H as [H1 H2]. unfold se_function. fine.
    + exact (array_written _ _ _ param_written H2).
    + exact (array_written _ _ _ param_written H3).
    + unfold se_state_mutability. destruct (f_state_mutability f); apply fine_str; reflexivity.
  - apply andb_true_iff in H as [H1 H2]. unfold se_event. fine. exact (array_written _ _ _ event_param_written H2).
  - fine.
  - fine.
Qed.

(** ** What is loaded *)
Section Loaded.
Context (p : profile) (src : source).
Lemma scalar_entry l k v : scalar_json (JObj l) = true -> In (k, v) l -> scalar_json v = true.
Proof. cbn [scalar_json]. rewrite forallb_forall. intros H I. specialize (H _ I). cbn [fst snd] in H. apply andb_true_iff in H. apply H. Qed.
Lemma scalar_item l v : scalar_json (JArr l) = true -> In v l -> scalar_json v = true.
Proof. cbn [scalar_json]. rewrite forallb_forall. auto. Qed.
Lemma string_field l k o : scalar_json (JObj l) = true -> opt_field l k de_string o -> scalar_opt o = true.
Proof.
  intros S H. destruct o as [s|]; [|reflexivity]. apply opt_field_in in H as (v & I & E). apply (@scalar_entry l k v S) in I.
  destruct v; try discriminate. injection E as ->. exact I.
Qed.
Lemma visit_scalar vis l st : scalar_json (JObj l) = true -> visit_map p src vis l no_fields = Ok st ->
  scalar_opt (fd_name st) = true /\ scalar_opt (fd_internal st) = true.
Proof.
  intros S V. apply visit_map_visited in V as (V1 & _ & V3 & _). cbn [no_fields fd_name fd_internal] in *. rewrite more_none in V1. split.
  - eapply string_field; eauto.
  - destruct (knows_internal vis); [rewrite more_none in V3; eapply string_field; eauto|rewrite V3; reflexivity].
Qed.
Lemma de_param_scalar j a : scalar_json j = true -> de_param p src j = Ok a -> scalar_param a = true.
Proof.
  intros S E. destruct j as [| | | | |l]; try discriminate. cbn [de_param] in E.
  apply bind_ok in E as (st & V & E). apply bind_ok in E as (n & En & E). apply bind_ok in E as (t & Et & E). apply bind_ok in E as (u & Eu & E).
  injection E as <-. apply required_ok in En. destruct (@visit_scalar _ _ _ S V) as [H1 H2]. rewrite En in H1. unfold scalar_param. cbn [p_name p_internal_type scalar_opt] in *.
  rewrite H1, H2. reflexivity.
Qed.
Lemma de_event_param_scalar j a : scalar_json j = true -> de_event_param p src j = Ok a -> scalar_event_param a = true.
Proof.
  intros S E. destruct j as [| | | | |l]; try discriminate. cbn [de_event_param] in E.
  apply bind_ok in E as (st & V & E). apply bind_ok in E as (n & En & E). apply bind_ok in E as (t & Et & E). apply bind_ok in E as (u & Eu & E).
  injection E as <-. apply required_ok in En. destruct (@visit_scalar _ _ _ S V) as [H1 H2]. rewrite En in H1. exact H1.
Qed.
Lemma de_params_scalar j l : scalar_json j = true -> de_vec (de_param p src) j = Ok l -> forallb scalar_param l = true.
Proof. destruct j; try discriminate. cbn [de_vec]. intros S E. apply (@mapM_forall _ _ _ _ _ _ E). intros a b I. apply de_param_scalar, (@scalar_item _ _ S I). Qed.
Lemma de_event_params_scalar j l : scalar_json j = true -> de_vec (de_event_param p src) j = Ok l -> forallb scalar_event_param l = true.
Proof. destruct j; try discriminate. cbn [de_vec]. intros S E. apply (@mapM_forall _ _ _ _ _ _ E). intros a b I. apply de_event_param_scalar, (@scalar_item _ _ S I). Qed.
Lemma de_name_scalar j s : scalar_json j = true -> de_name j = Ok s -> wf_str s = true.
Proof.
  destruct j; try discriminate. cbn [scalar_json]. cbn [de_name de_string bind]. intros S E. apply sanitize_iff in E as [_ [->|[rest ->]]]; [exact S|].
  rewrite wf_app in S. apply andb_true_iff in S. apply S.
Qed.
Lemma field_item A l n (f : json -> res A) a : scalar_json (JArr l) = true -> field f (nth_error l n) = Ok a -> exists j, scalar_json j = true /\ f j = Ok a.
Proof. intros S H. destruct (nth_error l n) as [j|] eqn:E; [|discriminate]. exists j. split; [|exact H]. apply (@scalar_item l j S). eapply nth_error_In; eauto. Qed.
Lemma field_entry A l k (f : json -> res A) a : scalar_json (JObj l) = true -> one_field l k f a -> exists j, scalar_json j = true /\ f j = Ok a.
Proof. intros S H. apply opt_field_in in H as (v & I & E). exists v. split; [|exact E]. eapply scalar_entry; eauto. Qed.
Lemma de_function_scalar j f : scalar_json j = true -> de_function p src j = Ok f -> scalar_operation (OpFunction f) = true.
Proof.
  intros S E. cbn [scalar_operation]. destruct j as [| | | |l|l]; try discriminate.
  - cbn [de_function] in E. apply bind_ok in E as (n & En & E). apply bind_ok in E as (i & Ei & E). apply bind_ok in E as (o & Eo & E).
    apply bind_ok in E as (c & Ec & E). apply bind_ok in E as (m & Em & E). destruct (len l <=? 5); [|discriminate]. injection E as <-.
    apply (@field_item _ _ _ _ _ S) in En as (j1 & S1 & En), Ei as (j2 & S2 & Ei), Eo as (j3 & S3 & Eo). cbn [f_name f_inputs f_outputs].
    rewrite (@de_name_scalar _ _ S1 En), (@de_params_scalar _ _ S2 Ei), (@de_params_scalar _ _ S3 Eo). reflexivity.
  - apply de_function_iff in E as (E1 & E2 & E3 & _). apply (@field_entry _ _ _ _ _ S) in E1 as (j1 & S1 & En), E2 as (j2 & S2 & Ei), E3 as (j3 & S3 & Eo).
    rewrite (@de_name_scalar _ _ S1 En), (@de_params_scalar _ _ S2 Ei), (@de_params_scalar _ _ S3 Eo). reflexivity.
Qed.
Lemma de_event_scalar j e : scalar_json j = true -> de_event p src j = Ok e -> scalar_operation (OpEvent e) = true.
Proof.
  intros S E. cbn [scalar_operation]. destruct j as [| | | |l|l]; try discriminate.
  - cbn [de_event] in E. apply bind_ok in E as (n & En & E). apply bind_ok in E as (i & Ei & E). apply bind_ok in E as (o & Eo & E).
    destruct (len l <=? 3); [|discriminate]. injection E as <-.
    apply (@field_item _ _ _ _ _ S) in En as (j1 & S1 & En), Ei as (j2 & S2 & Ei). cbn [e_name e_inputs].
    rewrite (@de_name_scalar _ _ S1 En), (@de_event_params_scalar _ _ S2 Ei). reflexivity.
  - apply de_event_iff in E as (E1 & E2 & _). apply (@field_entry _ _ _ _ _ S) in E1 as (j1 & S1 & En), E2 as (j2 & S2 & Ei).
    rewrite (@de_name_scalar _ _ S1 En), (@de_event_params_scalar _ _ S2 Ei). reflexivity.
Qed.
Lemma de_constructor_scalar j c : scalar_json j = true -> de_constructor p src j = Ok c -> scalar_operation (OpConstructor c) = true.
Proof.
  intros S E. cbn [scalar_operation]. destruct j as [| | | |l|l]; try discriminate.
  - cbn [de_constructor] in E. apply bind_ok in E as (n & En & E). destruct (len l <=? 1); [|discriminate]. injection E as <-.
    apply (@field_item _ _ _ _ _ S) in En as (j1 & S1 & En). exact (@de_params_scalar _ _ S1 En).
  - apply de_constructor_iff in E. apply (@field_entry _ _ _ _ _ S) in E as (j1 & S1 & En). exact (@de_params_scalar _ _ S1 En).
Qed.
End Loaded.
Lemma variant_scalar p tag rest o : scalar_json rest = true -> variant_of p tag rest = Ok o -> scalar_operation o = true.
Proof.
  intros S E. unfold variant_of in E.
  destruct (str_eqb tag (lit "constructor")). { apply bind_ok in E as (c & Ec & E). injection E as <-. exact (@de_constructor_scalar _ _ _ _ S Ec). }
  destruct (str_eqb tag (lit "function")). { apply bind_ok in E as (c & Ec & E). injection E as <-. exact (@de_function_scalar _ _ _ _ S Ec). }
  destruct (str_eqb tag (lit "event")). { apply bind_ok in E as (c & Ec & E). injection E as <-. exact (@de_event_scalar _ _ _ _ S Ec). }
  destruct (str_eqb tag (lit "fallback")). { destruct rest as [| | | |[|]|]; try discriminate; injection E as <-; reflexivity. }
  destruct (str_eqb tag (lit "receive")); [|discriminate]. destruct rest as [| | | |[|]|]; try discriminate; injection E as <-; reflexivity.
Qed.
Lemma de_operation_scalar p j o : scalar_json j = true -> de_operation p j = Ok o -> scalar_operation o = true.
Proof.
  intros S E. destruct j as [| | | |[|t l]|l]; try discriminate; cbn [de_operation] in E.
  - apply bind_ok in E as (tag & Et & E). apply (@variant_scalar p tag (JArr l)); [|exact E]. cbn [scalar_json forallb] in S. apply andb_true_iff in S. apply S.
  - destruct (filter _ l) as [|[k t] [|]]; try discriminate. apply bind_ok in E as (tag & Et & E). apply (@variant_scalar p tag (JObj (untagged l))); [|exact E].
    cbn [scalar_json] in *. rewrite forallb_forall in *. intros e I. apply filter_In in I as [I _]. apply S, I.
Qed.
Lemma loaded_scalar p j c fs es : scalar_json j = true -> de_contract p j = Ok c -> Permutation (c_functions c) fs -> Permutation (c_events c) es ->
  forallb scalar_operation (contract_operations c fs es) = true.
Proof.
  intros S E PF PE. apply loaded_represents in E as (items & ops & -> & Eo & R).
  assert (F : forallb scalar_operation ops = true). { apply (@mapM_forall _ _ _ _ _ _ Eo). intros a b I. apply de_operation_scalar, (@scalar_item _ _ S I). }
  rewrite forallb_forall in *. intros o I. apply F. eapply written_from; eauto.
Qed.

(** ** Round trips *)
Theorem load_bytes_exact p b c : load_bytes p b = Ok c <->
  exists s j, wf_str s = true /\ b = utf8 s /\ json_text s j /\ load p j = Ok c.
Proof.
  unfold load_bytes. rewrite from_bytes_exact. split; intros (s & j & W & E & T & H); exists s, j; (split; [exact W|split; [exact E|split; [exact T|]]]).
  - destruct H as [D H]. unfold load, from_text. apply N.leb_le in D. rewrite D. exact H.
  - apply load_ok in H as [H D]. auto.
Qed.
Theorem load_bytes_panic p b : load_bytes p b = Panic <-> exists s j, wf_str s = true /\ b = utf8 s /\ json_text s j /\ load p j = Panic.
Proof.
  unfold load_bytes, from_bytes. rewrite bind_panic. split.
  - intros [H|(j & E & H)]; [destruct (parse_bytes_cases b) as [[j E]|E]; congruence|]. apply parse_bytes_exact in E as (s & W & E & T & D).
    exists s, j. repeat split; auto. unfold load, from_text. apply N.leb_le in D. rewrite D. exact H.
  - intros (s & j & W & E & T & H). right. exists j. unfold load, from_text in H. destruct (N.leb_spec (json_depth j) 127) as [D|]; [|discriminate].
    split; [apply parse_bytes_exact; eauto 10|exact H].
Qed.
Theorem rewritten_bytes p p' b c fs es : load_bytes p b = Ok c -> Permutation (c_functions c) fs -> Permutation (c_events c) es ->
  if forallb (fun k => component_depth k <=? 123) (types_of c)
  then exists c', load_bytes p' (to_bytes (se_contract c fs es)) = Ok c' /\ same_contract c c'
  else load_bytes p' (to_bytes (se_contract c fs es)) = Err SerdeJson.
Proof.
  intros L PF PE. apply load_bytes_exact in L as (s & j & W & _ & T & L). pose proof (json_text_scalar T W) as S.
  pose proof (load_ok _ _ L) as [E _]. pose proof (loaded_scalar _ _ S E PF PE) as F.
  destruct (array_written _ _ _ operation_written F) as [WR SC]. fold (se_contract c fs es) in WR, SC.
  unfold load_bytes. rewrite (from_written _ WR SC). exact (@rewritten_exact p p' j c fs es L PF PE).
Qed.
Theorem param_bytes p a : wf_type (p_kind a) = true -> scalar_param a = true ->
  (from_bytes (de_param p Text) (to_bytes (se_param a)) = Ok a <-> component_depth (p_kind a) <= 126).
Proof. intros W S. destruct (param_written _ S) as [H1 H2]. rewrite (from_written _ H1 H2). apply param_text, W. Qed.
Theorem event_param_bytes p a : wf_type (ep_kind a) = true -> scalar_event_param a = true ->
  (from_bytes (de_event_param p Text) (to_bytes (se_event_param a)) = Ok a <-> component_depth (ep_kind a) <= 126).
Proof. intros W S. destruct (event_param_written _ S) as [H1 H2]. rewrite (from_written _ H1 H2). apply event_param_text, W. Qed.
Theorem tuple_param_bytes p a : wf_type (tp_kind a) = true -> scalar_tuple_param a = true ->
  (from_bytes (de_tuple_param p Text) (to_bytes (se_tuple_param a)) = Ok a <-> component_depth (tp_kind a) <= 126).
Proof. intros W S. destruct (tuple_param_written _ S) as [H1 H2]. rewrite (from_written _ H1 H2). apply tuple_param_text, W. Qed.

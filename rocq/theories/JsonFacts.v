(** * Facts about ABI JSON *)
From Verif Require Import Base Types TypeNames TypeNamesSpec Function Event Json JsonSpec BaseFacts StrFacts EncoderFacts
  DecoderFacts TypeNamesFacts ReaderFacts ReaderTotal FunctionFacts CodecLemmas.
From Coq Require Import String.
From Coq Require Import ZifyBool ZifyNat ZifyN.
Set Implicit Arguments.
Local Open Scope N_scope.
Local Open Scope list_scope.
Notation length := List.length.

(** ** Type names in JSON *)
(** The type a JSON type name is read as: the inner tuple is empty. *)
Fixpoint hollow (t : ParamType) : ParamType :=
  match t with
  | PArray t' => PArray (hollow t')
  | PFixedArray t' n => PFixedArray (hollow t') n
  | PTuple _ => PTuple []
  | _ => t
  end.
Section Names.
Context (p : profile).
Lemma abi_ascii t : all_ascii (write_for_abi t false) = true.
Proof.
  induction t using ParamType_ind'; cbn [write_for_abi]; rewrite ?all_ascii_app, ?IHt; try reflexivity;
    rewrite ?(digits_ascii _ (show_dec_digits _)); reflexivity.
Qed.
Lemma read_abi_size : forall t f, wf_type t = true -> (length (write_for_abi t false) < f)%nat ->
  read_fuel p f (write_for_abi t false) = Ok (hollow t).
Proof.
  induction t using ParamType_ind'; intros f W Hf; (destruct f as [|f]; [lia|]); try reflexivity; cbn [write_for_abi hollow wf_type] in *.
  - rewrite read_digits. apply read_base_int. lia.
  - rewrite read_digits. apply read_base_uint. lia.
  - rewrite app_length in Hf. change (length (lit "[]")) with 2%nat in *.
    apply read_array_name; [apply abi_ascii|]. apply IHt; auto; lia.
  - rewrite read_digits. apply read_base_bytes. lia.
  - rewrite !app_length in Hf. apply andb_true_iff in W as [W1 W2].
    apply read_fixed_name; [apply abi_ascii|lia|]. apply IHt; auto; change (length (lit "[")) with 1%nat in Hf; lia.
Qed.
Lemma read_abi t : wf_type t = true -> read p (write_for_abi t false) = Ok (hollow t).
Proof. intros W. unfold read. apply read_abi_size; auto. Qed.
Lemma abi_name_write t s : abi_name t s <-> s = write_for_abi t false.
Proof.
  split.
  - induction 1 as [ts|t s A IH|t s n k A IH K|t s L T]; cbn [write_for_abi].
    + reflexivity.
    + now rewrite IH.
    + now rewrite IH, (numeral_unique K).
    + apply type_name_iff in T. subst s. destruct t; try reflexivity; contradiction.
  - intros ->. induction t using ParamType_ind'; cbn [write_for_abi]; try (constructor; auto; apply show_dec_numeral);
      (apply an_leaf; [exact I|]; constructor; apply show_dec_numeral).
Qed.
End Names.

(** ** Components *)
Lemma inner_fields_eq t : inner_tuple t = tuple_fields t.
Proof. induction t using ParamType_ind'; cbn; auto. Qed.
Lemma hollow_fields t : inner_tuple (hollow t) = match tuple_fields t with Some _ => Some [] | None => None end.
Proof. induction t using ParamType_ind'; cbn; auto. Qed.
Lemma hollow_leaf t : tuple_fields t = None -> hollow t = t.
Proof. induction t using ParamType_ind'; cbn; intros E; auto; try discriminate; now rewrite IHt. Qed.
Lemma map_inner_some g t : inner_tuple t <> None -> exists t', map_inner_tuple g t = Some t'.
Proof. induction t using ParamType_ind'; cbn; intros N; try congruence; eauto; destruct (IHt N) as [t' ->]; cbn; eauto. Qed.
Lemma fill_hollow ts t : tuple_fields t = Some ts -> forall g, g [] = ts -> map_inner_tuple g (hollow t) = Some t.
Proof.
  induction t using ParamType_ind'; cbn; intros E g G; try discriminate.
  - now rewrite (IHt E g G).
  - now rewrite (IHt E g G).
  - injection E as ->. now rewrite G.
Qed.
Lemma set_hollow t tps : tuple_fields t = Some (map tp_kind tps) -> set_tuple_components (hollow t) (Some tps) = Ok t.
Proof.
  intros E. unfold set_tuple_components. rewrite hollow_fields, E. cbn [required bind].
  now rewrite (fill_hollow t E) by reflexivity.
Qed.
Lemma set_hollow_leaf t o : tuple_fields t = None -> set_tuple_components (hollow t) o = Ok t.
Proof. intros E. unfold set_tuple_components. rewrite hollow_fields, E. now rewrite hollow_leaf. Qed.

(** ** The visitor loop *)
(** The value of a field that may occur once. *)
Definition opt_field {A} (l : list (str * json)) (k : str) (f : json -> res A) (o : option A) : Prop :=
  match keyed l k with
  | [] => o = None
  | [v] => exists a, f v = Ok a /\ o = Some a
  | _ => False
  end.
(** ... when it may have been read before. *)
Definition more_field {A} (old : option A) (l : list (str * json)) (k : str) (f : json -> res A) (o : option A) : Prop :=
  match old with
  | Some a => keyed l k = [] /\ o = Some a
  | None => opt_field l k f o
  end.
Lemma keyed_cons k' v l k : keyed ((k', v) :: l) k = if str_eqb k' k then v :: keyed l k else keyed l k.
Proof. unfold keyed. cbn [filter fst]. destruct (str_eqb k' k); reflexivity. Qed.
Lemma more_skip A (old : option A) k' v l k f o : str_eqb k' k = false ->
  (more_field old ((k', v) :: l) k f o <-> more_field old l k f o).
Proof. intros E. unfold more_field, opt_field. now rewrite keyed_cons, E. Qed.
Lemma more_here A (old : option A) k' v l k f o : str_eqb k' k = true ->
  (more_field old ((k', v) :: l) k f o <-> exists x, set_once old (f v) = Ok x /\ more_field x l k f o).
Proof.
  intros E. unfold more_field, opt_field. rewrite keyed_cons, E. destruct old as [a|]; cbn [set_once].
  - split; [intros [H _]; discriminate|intros (x & H & _); discriminate].
  - destruct (keyed l k) as [|v' r] eqn:K.
    + split.
      * intros (a & Ea & ->). exists (Some a). now rewrite Ea.
      * intros (x & Ex & H). apply bind_ok in Ex as (a & Ea & Ex). injection Ex as <-. exists a. now destruct H as [_ ->].
    + split; [contradiction|]. intros (x & Ex & H). apply bind_ok in Ex as (a & Ea & Ex). injection Ex as <-. now destruct H.
Qed.
Lemma str_eqb_neq a b : a <> b -> str_eqb a b = false.
Proof. intros N. destruct (str_eqb a b) eqn:E; [|reflexivity]. apply str_eqb_eq in E. contradiction. Qed.

Definition vis_keys (vis : visitor) : list str :=
  [lit "type"; lit "components"; lit "name"] ++ (if knows_internal vis then [lit "internalType"] else []) ++
  (if knows_indexed vis then [lit "indexed"] else []).

Section Visit.
Context (p : profile) (src : source) (vis : visitor).
Definition visited (old : fields) (l : list (str * json)) (st : fields) : Prop :=
  more_field (fd_name old) l (lit "name") de_string (fd_name st) /\
  more_field (fd_kind old) l (lit "type") (de_param_type p) (fd_kind st) /\
  (if knows_internal vis then more_field (fd_internal old) l (lit "internalType") de_string (fd_internal st)
   else fd_internal st = fd_internal old) /\
  more_field (fd_components old) l (lit "components") (de_vec (de_tuple_param p src)) (fd_components st) /\
  (if knows_indexed vis then more_field (fd_indexed old) l (lit "indexed") de_bool (fd_indexed st)
   else fd_indexed st = fd_indexed old) /\
  (src = Text -> Forall (fun e => In (fst e) (vis_keys vis)) l).
Lemma visit_map_visited l : forall old st, visit_map p src vis l old = Ok st <-> visited old l st.
Proof.
  induction l as [|[k v] l IH]; intros old st.
  - cbn [visit_map]. unfold visited, more_field, opt_field. cbn [keyed filter map]. split.
    + intros E. injection E as <-. destruct old as [[] [] [] [] []]; cbn; destruct (knows_internal vis), (knows_indexed vis); repeat split; constructor.
    + intros (H1 & H2 & H3 & H4 & H5 & _). f_equal. destruct old as [n k i t c], st as [n' k' i' t' c']. cbn in *.
      f_equal.
      * destruct n; [destruct H1|]; congruence.
      * destruct k; [destruct H2|]; congruence.
      * destruct (knows_indexed vis); [destruct i; [destruct H5|]|]; congruence.
      * destruct (knows_internal vis); [destruct t; [destruct H3|]|]; congruence.
      * destruct c; [destruct H4|]; congruence.
  - cbn [visit_map]. rewrite bind_ok. unfold visit_entry. unfold visited.
    assert (FK : forall (b : bool), (src = Text -> Forall (fun e => In (fst e) (vis_keys vis)) ((k, v) :: l)) <->
              (src = Text -> In k (vis_keys vis)) /\ (src = Text -> Forall (fun e => In (fst e) (vis_keys vis)) l)).
    { intros _. rewrite Forall_cons_iff. cbn [fst]. tauto. }
    specialize (FK true). rewrite FK. clear FK.
    destruct (str_eqb k (lit "name")) eqn:K1.
    { pose proof K1 as K1'. apply str_eqb_eq in K1'. subst k.
      rewrite more_here by exact K1. rewrite !(@more_skip _ _ (lit "name")) by reflexivity. split.
      - intros (st' & E & V). apply bind_ok in E as (x & Ex & E). injection E as <-. apply IH in V as (V1 & V2 & V3 & V4 & V5 & V6).
        cbn [fd_name fd_kind fd_indexed fd_internal fd_components] in *. repeat split; auto; [eauto|intros _; cbn; auto].
      - intros ((x & Ex & V1) & V2 & V3 & V4 & V5 & _ & V6). eexists. split; [rewrite Ex; reflexivity|]. apply IH.
        unfold visited. cbn [fd_name fd_kind fd_indexed fd_internal fd_components]. auto 10. }
    destruct (str_eqb k (lit "type")) eqn:K2.
    { pose proof K2 as K2'. apply str_eqb_eq in K2'. subst k.
      rewrite (@more_here _ (fd_kind old)) by exact K2. rewrite !(@more_skip _ _ (lit "type")) by reflexivity. split.
      - intros (st' & E & V). apply bind_ok in E as (x & Ex & E). injection E as <-. apply IH in V as (V1 & V2 & V3 & V4 & V5 & V6).
        cbn [fd_name fd_kind fd_indexed fd_internal fd_components] in *. repeat split; auto; [eauto|intros _; cbn; auto].
      - intros (V1 & (x & Ex & V2) & V3 & V4 & V5 & _ & V6). eexists. split; [rewrite Ex; reflexivity|]. apply IH.
        unfold visited. cbn [fd_name fd_kind fd_indexed fd_internal fd_components]. auto 10. }
    destruct (knows_internal vis) eqn:KI; [destruct (str_eqb k (lit "internalType")) eqn:K3|]; cbn [andb].
    { pose proof K3 as K3'. apply str_eqb_eq in K3'. subst k.
      rewrite (@more_here _ (fd_internal old)) by exact K3. rewrite !(@more_skip _ _ (lit "internalType")) by reflexivity. split.
      - intros (st' & E & V). apply bind_ok in E as (x & Ex & E). injection E as <-. apply IH in V as (V1 & V2 & V3 & V4 & V5 & V6).
        cbn [fd_name fd_kind fd_indexed fd_internal fd_components] in *. rewrite KI in V3.
        repeat split; auto; [eauto|intros _; unfold vis_keys; rewrite KI; cbn; auto].
      - intros (V1 & V2 & (x & Ex & V3) & V4 & V5 & _ & V6). eexists. split; [rewrite Ex; reflexivity|]. apply IH.
        unfold visited. cbn [fd_name fd_kind fd_indexed fd_internal fd_components]. rewrite KI. auto 10. }
    all: destruct (str_eqb k (lit "components")) eqn:K4.
    1,3: pose proof K4 as K4'; apply str_eqb_eq in K4'; subst k;
      rewrite (@more_here _ (fd_components old)) by exact K4; rewrite ?(@more_skip _ _ (lit "components")) by reflexivity; split;
      [intros (st' & E & V); apply bind_ok in E as (x & Ex & E); injection E as <-; apply IH in V as (V1 & V2 & V3 & V4 & V5 & V6);
       cbn [fd_name fd_kind fd_indexed fd_internal fd_components] in *; rewrite KI in V3;
       repeat split; auto; [eauto|intros _; cbn; auto]
      |intros (V1 & V2 & V3 & (x & Ex & V4) & V5 & _ & V6); eexists; split; [rewrite Ex; reflexivity|]; apply IH;
       unfold visited; cbn [fd_name fd_kind fd_indexed fd_internal fd_components]; rewrite KI; auto 10].
    all: destruct (knows_indexed vis) eqn:KX; [destruct (str_eqb k (lit "indexed")) eqn:K5|]; cbn [andb].
    1,4: pose proof K5 as K5'; apply str_eqb_eq in K5'; subst k;
      rewrite (@more_here _ (fd_indexed old)) by exact K5; rewrite ?(@more_skip _ _ (lit "indexed")) by reflexivity; split;
      [intros (st' & E & V); apply bind_ok in E as (x & Ex & E); injection E as <-; apply IH in V as (V1 & V2 & V3 & V4 & V5 & V6);
       cbn [fd_name fd_kind fd_indexed fd_internal fd_components] in *; rewrite KI in V3; rewrite KX in V5;
       repeat split; auto; [eauto|intros _; unfold vis_keys; rewrite KI, KX; cbn; auto 10]
      |intros (V1 & V2 & V3 & V4 & (x & Ex & V5) & _ & V6); eexists; split; [rewrite Ex; reflexivity|]; apply IH;
       unfold visited; cbn [fd_name fd_kind fd_indexed fd_internal fd_components]; rewrite KI, KX; auto 10].
    all: rewrite ?(@more_skip _ _ k) by assumption.
    all: assert (NK : ~ In k (vis_keys vis)) by
      (unfold vis_keys; rewrite KI, KX; cbn [app]; intros HI; cbn [In] in HI;
       repeat (destruct HI as [HI|HI]; [subst k; rewrite ?str_eqb_refl in *; discriminate|]); destruct HI).
    all: assert (HS : src = Text \/ src = Buffered) by (destruct src; auto).
    all: split; [intros (st' & E & V); destruct HS as [HS|HS]; rewrite HS in E; [discriminate|]; injection E as <-;
        apply IH in V as (V1 & V2 & V3 & V4 & V5 & V6); rewrite KI in V3; rewrite KX in V5;
        repeat match goal with |- _ /\ _ => split end; auto; intros; congruence
      |intros (V1 & V2 & V3 & V4 & V5 & V7 & V6); destruct HS as [HS|HS]; [now elim NK; apply V7|];
       exists old; split; [now rewrite HS|]; apply IH; unfold visited; rewrite KI, KX; auto 10].
Qed.
End Visit.

Lemma de_tuple_param_obj p src l : de_tuple_param p src (JObj l) =
  (do st <- visit_map p src VTupleParam l no_fields;
   do kind <- required (fd_kind st);
   do kind <- set_tuple_components kind (fd_components st);
   Ok (mkTupleParam (fd_name st) kind (fd_internal st))).
Proof.
  cbn [de_tuple_param]. f_equal. generalize no_fields as st.
  induction l as [|[k v] l IH]; intros st; [reflexivity|]. cbn [visit_map].
  assert (E : (fun _ : unit => match v with JArr items => mapM (de_tuple_param p src) items | _ => Err SerdeJson end) =
              (fun _ : unit => de_vec (de_tuple_param p src) v)) by (destruct v; reflexivity).
  rewrite E. destruct (visit_entry _ _ _ _ _ _ _) as [st'|e|]; cbn [bind]; auto.
Qed.
Lemma more_none A l k (f : json -> res A) o : more_field None l k f o <-> opt_field l k f o.
Proof. reflexivity. Qed.
Lemma optional_field l k o : optional_text l k o -> opt_field l k de_string o.
Proof. unfold optional_text, opt_field. intros ->. destruct o as [s|]; [exists s|]; auto. Qed.
Lemma opt_field_unique A l k (f : json -> res A) o1 o2 : opt_field l k f o1 -> opt_field l k f o2 -> o1 = o2.
Proof.
  unfold opt_field. destruct (keyed l k) as [|v [|v' r]]; [congruence| |contradiction].
  intros (a & Ea & ->) (b & Eb & ->). congruence.
Qed.
Lemma wf_fields t ts : wf_type t = true -> tuple_fields t = Some ts -> forallb wf_type ts = true.
Proof.
  induction t using ParamType_ind'; cbn [wf_type tuple_fields]; intros W E; try discriminate; auto.
  - apply andb_true_iff in W as [W1 W2]. auto.
  - injection E as <-. exact W.
Qed.

Section Standard.
Context (p : profile) (src : source) (others : bool).
Hypothesis HS : others = true -> src = Buffered.
Definition described (l : list (str * json)) (t : ParamType) : Prop :=
  opt_field l (lit "type") (de_param_type p) (Some (hollow t)) /\
  exists c, opt_field l (lit "components") (de_vec (de_tuple_param p src)) c /\
    set_tuple_components (hollow t) c = Ok t.
Lemma keys_text vis keys l : keys_ok others keys l -> incl keys (vis_keys vis) ->
  src = Text -> Forall (fun e => In (fst e) (vis_keys vis)) l.
Proof.
  intros [K|K] I T; [specialize (HS K); congruence|]. eapply Forall_impl; [|exact K]. intros e; apply I.
Qed.
Lemma name_read t s l : wf_type t = true -> abi_name t s -> keyed l (lit "type") = [JStr s] ->
  opt_field l (lit "type") (de_param_type p) (Some (hollow t)).
Proof.
  intros W A K. apply abi_name_write in A. subst s. unfold opt_field. rewrite K. exists (hollow t). split; [|reflexivity].
  cbn [de_param_type]. now rewrite read_abi.
Qed.
Lemma tuple_described l t name internal : described l t ->
  optional_text l (lit "name") name -> optional_text l (lit "internalType") internal -> keys_ok others component_keys l ->
  de_tuple_param p src (JObj l) = Ok (mkTupleParam name t internal).
Proof.
  intros (D1 & c & D2 & D3) N I K. rewrite de_tuple_param_obj.
  rewrite (proj2 (visit_map_visited p src VTupleParam l no_fields (mkFields name (Some (hollow t)) None internal c))).
  - cbn [bind required fd_kind fd_components fd_name fd_internal]. now rewrite D3.
  - unfold visited. cbn [knows_internal knows_indexed no_fields fd_kind fd_components fd_name fd_internal fd_indexed].
    rewrite ?more_none. repeat match goal with |- _ /\ _ => split end; auto using optional_field.
    apply (@keys_text VTupleParam _ _ K). unfold component_keys, vis_keys. cbn. intros x; cbn; tauto.
Qed.
Lemma describes_described l t : describes others l t -> wf_type t = true -> described l t.
Proof.
  intros D. pattern l, t, D.
  apply describes_ind2 with (P0 := fun items ts _ => forallb wf_type ts = true ->
    exists tps, mapM (de_tuple_param p src) items = Ok tps /\ map tp_kind tps = ts); clear l t D.
  - intros l t s K A F C W. split; [now apply name_read with s|]. exists None. split; [unfold opt_field; now rewrite C|].
    now apply set_hollow_leaf.
  - intros l t s ts items K A F C CS IH W. split; [now apply name_read with s|].
    destruct (IH (wf_fields t W F)) as (tps & E & M). exists (Some tps). split.
    + unfold opt_field. rewrite C. exists tps. auto.
    + apply set_hollow. now rewrite M.
  - intros _. exists []. auto.
  - intros l t name internal items ts D IHD N I K CS IHC W. cbn [forallb] in W. apply andb_true_iff in W as [W1 W2].
    destruct (IHC W2) as (tps & E & M). eexists (_ :: tps). cbn [mapM].
    rewrite (tuple_described (IHD W1) N I K). cbn [bind]. rewrite E. cbn [bind map tp_kind]. rewrite M. auto.
Qed.
Lemma param_standard l name t internal : wf_type t = true -> param_json others l name t internal ->
  de_param p src (JObj l) = Ok (mkParam name t internal).
Proof.
  intros W (D & N & I & K). apply describes_described in D as (D1 & c & D2 & D3); auto. cbn [de_param].
  rewrite (proj2 (visit_map_visited p src VParam l no_fields (mkFields (Some name) (Some (hollow t)) None internal c))).
  - cbn [bind required fd_kind fd_components fd_name fd_internal]. now rewrite D3.
  - unfold visited. cbn [knows_internal knows_indexed no_fields fd_kind fd_components fd_name fd_internal fd_indexed].
    rewrite ?more_none. repeat match goal with |- _ /\ _ => split end; auto using optional_field.
    + apply (@keys_text VParam _ _ K). unfold component_keys, vis_keys. cbn. intros x; cbn; tauto.
Qed.
Lemma event_param_standard l name t indexed : wf_type t = true -> event_param_json others l name t indexed ->
  de_event_param p src (JObj l) = Ok (mkEventParam name t indexed).
Proof.
  intros W (D & N & I & K). apply describes_described in D as (D1 & c & D2 & D3); auto. cbn [de_event_param].
  rewrite (proj2 (visit_map_visited p src VEventParam l no_fields (mkFields (Some name) (Some (hollow t))
    (match keyed l (lit "indexed") with [] => None | _ => Some indexed end) None c))).
  - cbn [bind required fd_kind fd_components fd_name fd_internal fd_indexed]. rewrite D3. cbn [bind].
    destruct I as [I|[-> I]]; rewrite I; reflexivity.
  - unfold visited. cbn [knows_internal knows_indexed no_fields fd_kind fd_components fd_name fd_internal fd_indexed].
    rewrite ?more_none. repeat match goal with |- _ /\ _ => split end; auto using optional_field.
    + unfold opt_field. destruct I as [I|[-> I]]; rewrite I; [exists indexed|]; auto.
    + apply (@keys_text VEventParam _ _ K). unfold component_keys, vis_keys. cbn. intros x; cbn; tauto.
Qed.
Lemma tuple_param_standard l name t internal : wf_type t = true -> tuple_param_json others l name t internal ->
  de_tuple_param p src (JObj l) = Ok (mkTupleParam name t internal).
Proof. intros W (D & N & I & K). apply tuple_described; auto using describes_described. Qed.
End Standard.

(** ** The writer produces standard JSON *)
Definition component_object (t : ParamType) : list (str * json) := (lit "type", se_type t) :: components_entry t.
Lemma se_components_eq t : se_components t =
  match tuple_fields t with Some ts => Some (JArr (map (fun t' => JObj (component_object t')) ts)) | None => None end.
Proof. induction t using ParamType_ind'; cbn [se_components tuple_fields]; auto. Qed.
Lemma keyed_app l l' k : keyed (l ++ l') k = keyed l k ++ keyed l' k.
Proof. unfold keyed. now rewrite filter_app, map_app. Qed.
Lemma keyed_components t k : keyed (components_entry t) k =
  if str_eqb (lit "components") k then match se_components t with Some c => [c] | None => [] end else [].
Proof. unfold components_entry. destruct (se_components t) as [c|]; [rewrite keyed_cons|]; destruct (str_eqb _ k); reflexivity. Qed.
Lemma described_by t l : keyed l (lit "type") = [se_type t] ->
  keyed l (lit "components") = match se_components t with Some c => [c] | None => [] end ->
  (forall ts, tuple_fields t = Some ts -> components false (map (fun t' => JObj (component_object t')) ts) ts) ->
  describes false l t.
Proof.
  intros K C H. rewrite se_components_eq in C. destruct (tuple_fields t) as [ts|] eqn:F.
  - eapply ds_tuple; [exact K|now apply abi_name_write|exact F|exact C|now apply H].
  - eapply ds_leaf; [exact K|now apply abi_name_write|exact F|exact C].
Qed.
Lemma object_keys t : keys_ok false component_keys (component_object t).
Proof.
  right. unfold component_object, components_entry, component_keys. constructor; [cbn; auto|].
  destruct (se_components t); [constructor; [cbn; auto|]|]; constructor.
Qed.
Lemma fields_components t : forall ts, tuple_fields t = Some ts ->
  components false (map (fun t' => JObj (component_object t')) ts) ts.
Proof.
  induction t as [| | | | | |t IH| |t n IH|ts IH] using ParamType_ind'; cbn [tuple_fields]; intros us E; try discriminate; auto.
  injection E as <-. induction ts as [|t ts IHts]; cbn [map]; [constructor|].
  inversion IH as [|? ? H1 H2]; subst. apply cs_cons with (name := None) (internal := None).
  - apply described_by; auto; unfold component_object; rewrite keyed_cons, keyed_components; reflexivity.
  - unfold optional_text, component_object. now rewrite keyed_cons, keyed_components.
  - unfold optional_text, component_object. now rewrite keyed_cons, keyed_components.
  - apply object_keys.
  - auto.
Qed.

(** * Facts about loading items: standard items load, loaded items are well formed *)
From Verif Require Import Base Types TypeNames TypeNamesSpec Function Event Json JsonSpec BaseFacts StrFacts EncoderFacts
  DecoderFacts TypeNamesFacts ReaderFacts ReaderTotal FunctionFacts CodecLemmas JsonFacts ItemFacts.
From Coq Require Import String.
From Coq Require Import ZifyBool ZifyNat ZifyN.
Set Implicit Arguments.
Local Open Scope N_scope.
Local Open Scope list_scope.
Notation length := List.length.

(** ** Types that were read have 64 bit sizes *)
Lemma dec_digit_bound c d : dec_digit c = Some d -> d < 10.
Proof. unfold dec_digit. destruct ((48 <=? c) && (c <=? 57)) eqn:E; [|discriminate]. intros H. injection H as <-. lia. Qed.
Lemma parse_digits_bound m s : forall acc n, acc < m -> parse_digits m s acc = Some n -> n < m.
Proof.
  induction s as [|c s IH]; intros acc n L E; cbn [parse_digits] in E; [now injection E as <-|].
  destruct (dec_digit c); [|discriminate]. destruct (N.ltb_spec (acc * 10 + n0) m); [|discriminate]. eauto.
Qed.
Lemma parse_usize_bound s n : parse_usize s = Ok n -> n < two64.
Proof.
  assert (T : 10 < two64) by reflexivity.
  destruct s as [|c [|d s]]; cbn [parse_usize]; [discriminate| |].
  - destruct (dec_digit c) eqn:E; [|discriminate]. intros H. apply dec_digit_bound in E. assert (n = n0) by congruence. lia.
  - destruct (parse_digits two64 _ 0) eqn:E; [|discriminate]. intros H. apply parse_digits_bound in E; [congruence|lia].
Qed.
Section ReadWf.
Context (rd : str -> res ParamType) (Hrd : forall s t, rd s = Ok t -> wf_type t = true).
Definition rwf (st : rstate) : Prop := forallb wf_type (subtypes st) = true /\ forallb (forallb wf_type) (subtuples st) = true.
Lemma push_at_wf l : forall i x r, forallb (forallb wf_type) l = true -> wf_type x = true -> push_at l i x = Ok r ->
  forallb (forallb wf_type) r = true.
Proof.
  induction l as [|a l IH]; intros [|i] x r W X E; cbn in E; try discriminate; cbn [forallb] in W; apply andb_true_iff in W as [W1 W2].
  - injection E as <-. cbn [forallb]. rewrite forallb_app, W1, W2. cbn. now rewrite X.
  - apply bind_ok in E as (r' & E & E'). injection E' as <-. cbn [forallb]. rewrite W1. cbn. eapply IH; eauto.
Qed.
Lemma take_at_wf l : forall i x r, forallb (forallb wf_type) l = true -> take_at l i = Ok (x, r) ->
  forallb wf_type x = true /\ forallb (forallb wf_type) r = true.
Proof.
  induction l as [|a l IH]; intros [|i] x r W E; cbn in E; try discriminate; cbn [forallb] in W; apply andb_true_iff in W as [W1 W2].
  - injection E as <- <-. cbn [forallb]. now rewrite W1, W2.
  - apply bind_ok in E as ([x' r'] & E & E'). injection E' as <- <-. apply IH in E as [E1 E2]; auto. cbn [forallb]. now rewrite W1, E1, E2.
Qed.
Lemma read_char_wf name st pos c rest st' k : rwf st -> read_char rd name st pos c rest = Ok (st', k) -> rwf st'.
Proof.
  intros [W1 W2] E. unfold read_char in E.
  destruct (c =? ch_open).
  { destruct (1 <? nested st + 1)%Z; injection E as <- <-; split; cbn; auto. rewrite forallb_app, W2. reflexivity. }
  destruct (c =? ch_close).
  { destruct (nested st - 1 <? 0)%Z; [discriminate|]. apply bind_ok in E as (item & Ei & E).
    destruct item as [|d item]; [injection E as <- <-; split; auto|].
    destruct (nested st - 1 =? 0)%Z.
    - apply bind_ok in E as (t & Et & E). injection E as <- <-. split; cbn; auto. rewrite forallb_app, W1. cbn. now rewrite (Hrd Et).
    - apply bind_ok in E as (inner & En & E). apply bind_ok in E as (t & Et & E). apply Hrd in Et.
      destruct (1 <? nested st - 1)%Z.
      + apply bind_ok in E as ([x r] & Ex & E). injection E as <- <-. apply take_at_wf in Ex as [X1 X2]; auto.
        split; cbn; auto. rewrite forallb_app, W1. cbn. rewrite forallb_app, X1. cbn. now rewrite Et.
      + injection E as <- <-. split; cbn; auto. rewrite forallb_app, W1. cbn. now rewrite Et. }
  destruct (c =? ch_comma); [|injection E as <- <-; split; auto].
  apply bind_ok in E as (item & Ei & E). destruct item as [|d item]; [injection E as <- <-; split; auto|].
  destruct (nested st =? 1)%Z.
  - apply bind_ok in E as (t & Et & E). injection E as <- <-. split; cbn; auto. rewrite forallb_app, W1. cbn. now rewrite (Hrd Et).
  - destruct (1 <? nested st)%Z; [|injection E as <- <-; split; auto].
    apply bind_ok in E as (t & Et & E). apply bind_ok in E as (r & Er & E). injection E as <- <-. split; cbn; auto.
    eapply push_at_wf; eauto.
Qed.
Lemma read_tuple_loop_wf name rest : forall pos skip st st', rwf st -> read_tuple_loop rd name rest pos skip st = Ok st' -> rwf st'.
Proof.
  induction rest as [|c rest IH]; intros pos skip st st' W E; cbn [read_tuple_loop] in E; [now injection E as <-|].
  destruct skip as [|k]; [|eapply IH; eauto]. apply bind_ok in E as ([st1 k] & E1 & E). eapply IH; [|exact E]. eapply read_char_wf; eauto.
Qed.
End ReadWf.
Lemma read_fuel_wf p f : forall s t, read_fuel p f s = Ok t -> wf_type t = true.
Proof.
  induction f as [|f IH]; intros s t E; [discriminate|]. cbn [read_fuel] in E.
  assert (B : read_base s = Ok t -> wf_type t = true).
  { clear E. intros E. unfold read_base in E.
    repeat match type of E with (if ?x then _ else _) = _ => destruct x end; try discriminate; try (injection E as <-; reflexivity);
    apply bind_ok in E as (d & _ & E); apply bind_ok in E as (n & En & E); apply parse_usize_bound in En; injection E as <-; cbn [wf_type]; lia. }
  destruct (last_char s) as [c|]; [|auto]. destruct (c =? ch_close).
  - unfold read_tuple in E. destruct (starts_with_char s ch_open); [|discriminate]. apply bind_ok in E as (st & El & E). injection E as <-.
    eapply read_tuple_loop_wf in El as [W _]; [exact W|exact IH|split; reflexivity].
  - destruct (c =? ch_rbracket); [|auto]. unfold read_array in E. destruct (rev (take_while _ _)) as [|d num].
    + apply bind_ok in E as (e & _ & E). apply bind_ok in E as (sub & _ & E). apply bind_ok in E as (u & Eu & E). injection E as <-.
      cbn [wf_type]. eauto.
    + apply bind_ok in E as (l & El & E). apply bind_ok in E as (e0 & _ & E). apply bind_ok in E as (e & _ & E).
      apply bind_ok in E as (sub & _ & E). apply bind_ok in E as (u & Eu & E). injection E as <-. apply parse_usize_bound in El.
      cbn [wf_type]. rewrite (IH _ _ Eu), andb_true_l. now apply N.ltb_lt.
Qed.
Lemma read_wf p s t : read p s = Ok t -> wf_type t = true.
Proof. apply read_fuel_wf. Qed.
Lemma de_param_type_wf p j t : de_param_type p j = Ok t -> wf_type t = true.
Proof.
  destruct j as [| | |s| |]; try discriminate. cbn [de_param_type]. destruct (read p s) as [u|e|] eqn:E; try discriminate.
  intros H. assert (u = t) by congruence. subst u. eapply read_wf; eauto.
Qed.
Lemma map_inner_wf g t t' : (forall ts, forallb wf_type ts = true -> forallb wf_type (g ts) = true) ->
  wf_type t = true -> map_inner_tuple g t = Some t' -> wf_type t' = true.
Proof.
  intros G. revert t'. induction t as [| | | | | |t IH| |t n IH|ts IH] using ParamType_ind'; intros t' W E; cbn [map_inner_tuple] in E; try discriminate.
  - destruct (map_inner_tuple g t); [|discriminate]. injection E as <-. cbn [wf_type] in *. auto.
  - destruct (map_inner_tuple g t); [|discriminate]. injection E as <-. cbn [wf_type] in *. apply andb_true_iff in W as [W1 W2]. rewrite W2, IH; auto.
  - injection E as <-. cbn [wf_type] in *. auto.
Qed.
Lemma forallb_map A B (f : B -> bool) (g : A -> B) l : forallb f (map g l) = forallb (fun x => f (g x)) l.
Proof. induction l as [|a l IH]; [reflexivity|]. cbn. now rewrite IH. Qed.
Lemma set_components_wf t o t' : wf_type t = true -> (forall tps, o = Some tps -> forallb (fun a => wf_type (tp_kind a)) tps = true) ->
  set_tuple_components t o = Ok t' -> wf_type t' = true.
Proof.
  intros W H E. unfold set_tuple_components in E. destruct (inner_tuple t); [|now injection E as <-].
  apply bind_ok in E as (tps & Eo & E). apply required_ok in Eo. specialize (H _ Eo).
  destruct (map_inner_tuple _ t) as [u|] eqn:M; injection E as <-; [|exact W].
  eapply map_inner_wf; [|exact W|exact M]. intros ts Ht. cbv beta. rewrite forallb_app, Ht. cbn [andb]. now rewrite forallb_map.
Qed.

(** ** Items that were read are well formed *)
Fixpoint json_ind' (P : json -> Prop) (Hn : P JNull) (Hb : forall b, P (JBool b)) (Hm : forall s, P (JNum s)) (Hs : forall s, P (JStr s))
  (Ha : forall l, Forall P l -> P (JArr l)) (Ho : forall l, Forall (fun e => P (snd e)) l -> P (JObj l)) (j : json) : P j :=
  match j with
  | JNull => Hn | JBool b => Hb b | JNum s => Hm s | JStr s => Hs s
  | JArr l => Ha l ((fix go l := match l return Forall P l with
      | [] => Forall_nil _ | x :: l' => Forall_cons _ (json_ind' Hn Hb Hm Hs Ha Ho x) (go l') end) l)
  | JObj l => Ho l ((fix go l := match l return Forall (fun e => P (snd e)) l with
      | [] => Forall_nil _ | e :: l' => Forall_cons _ (json_ind' Hn Hb Hm Hs Ha Ho (snd e)) (go l') end) l)
  end.
Lemma keyed_in l k v : In v (keyed l k) -> In (k, v) l.
Proof.
  unfold keyed. intros I. apply in_map_iff in I as ([k' v'] & <- & I). apply filter_In in I as [I E]. apply str_eqb_eq in E. cbn in *. now subst.
Qed.
Lemma opt_field_in A l k (f : json -> res A) a : opt_field l k f (Some a) -> exists v, In (k, v) l /\ f v = Ok a.
Proof.
  unfold opt_field. destruct (keyed l k) as [|v [|v' r]] eqn:K; [discriminate| |contradiction].
  intros (b & E & H). injection H as <-. exists v. split; [|exact E]. apply keyed_in. rewrite K. now left.
Qed.
Lemma mapM_forall A B (f : A -> res B) (P : B -> bool) l r : mapM f l = Ok r -> (forall a b, In a l -> f a = Ok b -> P b = true) -> forallb P r = true.
Proof.
  revert r. induction l as [|a l IH]; intros r E H; cbn [mapM] in E; [now injection E as <-|].
  apply bind_ok in E as (b & Eb & E). apply bind_ok in E as (r' & Er & E). injection E as <-. cbn [forallb].
  rewrite (H a b), (IH r'); cbn; auto. intros x y I; apply H; cbn; auto.
Qed.
Section Wf.
Context (p : profile) (src : source).
Definition tps_wf (tps : list TupleParam) : bool := forallb (fun a => wf_type (tp_kind a)) tps.
Lemma kind_wf (vis : visitor) l st t u : visit_map p src vis l no_fields = Ok st ->
  (forall v tps, In v (map snd l) -> de_vec (de_tuple_param p src) v = Ok tps -> tps_wf tps = true) ->
  required (fd_kind st) = Ok t -> set_tuple_components t (fd_components st) = Ok u -> wf_type u = true.
Proof.
  intros V H Et Eu. apply visit_map_visited in V as (_ & V2 & _ & V4 & _). apply required_ok in Et.
  cbn [no_fields fd_kind fd_components] in *. rewrite more_none in V2, V4.
  eapply set_components_wf; [| |exact Eu].
  - rewrite Et in V2. apply opt_field_in in V2 as (v & _ & V). eapply de_param_type_wf; eauto.
  - intros tps ET. rewrite ET in V4. apply opt_field_in in V4 as (v & I & V). apply (H v); auto.
    apply in_map_iff. exists (lit "components", v). auto.
Qed.
Lemma de_tuple_param_wf j : (forall a, de_tuple_param p src j = Ok a -> wf_type (tp_kind a) = true) /\
  (forall tps, de_vec (de_tuple_param p src) j = Ok tps -> tps_wf tps = true).
Proof.
  induction j as [| | | |l IH|l IH] using json_ind'; (split; [intros a E|intros tps E]); try discriminate.
  - cbn [de_vec] in E. rewrite Forall_forall in IH. apply (@mapM_forall _ _ _ _ _ _ E). intros x y I. now apply IH.
  - rewrite de_tuple_param_obj in E.
    apply bind_ok in E as (st & V & E). apply bind_ok in E as (t & Et & E). apply bind_ok in E as (u & Eu & E).
    injection E as <-. cbn [tp_kind]. apply (@kind_wf _ _ _ t _ V); auto.
    intros v tps I. apply in_map_iff in I as (e & <- & I). rewrite Forall_forall in IH. now apply IH.
Qed.
Lemma de_param_wf j a : de_param p src j = Ok a -> wf_type (p_kind a) = true.
Proof.
  intros E. destruct j as [| | | | |l]; try discriminate. cbn [de_param] in E.
  apply bind_ok in E as (st & V & E). apply bind_ok in E as (n & En & E). apply bind_ok in E as (t & Et & E). apply bind_ok in E as (u & Eu & E).
  injection E as <-. cbn [p_kind]. apply (@kind_wf _ _ _ t _ V); auto. intros v tps _. apply de_tuple_param_wf.
Qed.
Lemma de_event_param_wf j a : de_event_param p src j = Ok a -> wf_type (ep_kind a) = true.
Proof.
  intros E. destruct j as [| | | | |l]; try discriminate. cbn [de_event_param] in E.
  apply bind_ok in E as (st & V & E). apply bind_ok in E as (n & En & E). apply bind_ok in E as (t & Et & E). apply bind_ok in E as (u & Eu & E).
  injection E as <-. cbn [ep_kind]. apply (@kind_wf _ _ _ t _ V); auto. intros v tps _. apply de_tuple_param_wf.
Qed.
Lemma de_params_wf j l : de_vec (de_param p src) j = Ok l -> wf_params l = true.
Proof. destruct j; try discriminate. cbn [de_vec]. intros E. apply (@mapM_forall _ _ _ _ _ _ E). intros a b _. apply de_param_wf. Qed.
Lemma de_event_params_wf j l : de_vec (de_event_param p src) j = Ok l -> wf_event_params l = true.
Proof. destruct j; try discriminate. cbn [de_vec]. intros E. apply (@mapM_forall _ _ _ _ _ _ E). intros a b _. apply de_event_param_wf. Qed.
Lemma de_name_plain j s : de_name j = Ok s -> plain_name s = true.
Proof. destruct j; try discriminate. cbn. intros E. apply sanitize_iff in E. apply E. Qed.
Lemma field_ok A (f : json -> res A) o a : field f o = Ok a -> exists j, f j = Ok a.
Proof. destruct o; [eauto|discriminate]. Qed.
Lemma one_field_ok A l k (f : json -> res A) a : one_field l k f a -> exists j, f j = Ok a.
Proof. intros H. apply opt_field_in in H as (v & _ & E). eauto. Qed.
Lemma de_function_wf j f : de_function p src j = Ok f ->
  wf_params (f_inputs f) = true /\ wf_params (f_outputs f) = true /\ plain_name (f_name f) = true.
Proof.
  destruct j as [| | | |l|l]; try discriminate; intros E.
  - cbn [de_function] in E. apply bind_ok in E as (n & En & E). apply bind_ok in E as (i & Ei & E). apply bind_ok in E as (o & Eo & E).
    apply bind_ok in E as (c & Ec & E). apply bind_ok in E as (m & Em & E). destruct (len l <=? 5); [|discriminate]. injection E as <-.
    apply field_ok in En as [j1 En], Ei as [j2 Ei], Eo as [j3 Eo]. cbn [f_name f_inputs f_outputs]. repeat split; [eapply de_params_wf|eapply de_params_wf|eapply de_name_plain]; eauto.
  - apply de_function_iff in E as (E1 & E2 & E3 & _). apply one_field_ok in E1 as [j1 E1], E2 as [j2 E2], E3 as [j3 E3].
    repeat split; [eapply de_params_wf|eapply de_params_wf|eapply de_name_plain]; eauto.
Qed.
Lemma de_event_wf j e : de_event p src j = Ok e -> wf_event_params (e_inputs e) = true /\ plain_name (e_name e) = true.
Proof.
  destruct j as [| | | |l|l]; try discriminate; intros E.
  - cbn [de_event] in E. apply bind_ok in E as (n & En & E). apply bind_ok in E as (i & Ei & E). apply bind_ok in E as (o & Eo & E).
    destruct (len l <=? 3); [|discriminate]. injection E as <-.
    apply field_ok in En as [j1 En], Ei as [j2 Ei]. cbn [e_name e_inputs]. repeat split; [eapply de_event_params_wf|eapply de_name_plain]; eauto.
  - apply de_event_iff in E as (E1 & E2 & _). apply one_field_ok in E1 as [j1 E1], E2 as [j2 E2].
    repeat split; [eapply de_event_params_wf|eapply de_name_plain]; eauto.
Qed.
Lemma de_constructor_wf j c : de_constructor p src j = Ok c -> wf_params (k_inputs c) = true.
Proof.
  destruct j as [| | | |l|l]; try discriminate; intros E.
  - cbn [de_constructor] in E. apply bind_ok in E as (n & En & E). destruct (len l <=? 1); [|discriminate]. injection E as <-.
    apply field_ok in En as [j1 En]. eapply de_params_wf; eauto.
  - apply de_constructor_iff in E. apply one_field_ok in E as [j1 E]. eapply de_params_wf; eauto.
Qed.
End Wf.

(** ** Operations *)
Definition variant_of (p : profile) (tag : str) (rest : json) : res Operation :=
  if str_eqb tag (lit "constructor") then do c <- de_constructor p Buffered rest; Ok (OpConstructor c)
  else if str_eqb tag (lit "function") then do f <- de_function p Buffered rest; Ok (OpFunction f)
  else if str_eqb tag (lit "event") then do e <- de_event p Buffered rest; Ok (OpEvent e)
  else if str_eqb tag (lit "fallback") then match rest with JArr (_ :: _) => Err SerdeJson | _ => Ok OpFallback end
  else if str_eqb tag (lit "receive") then match rest with JArr (_ :: _) => Err SerdeJson | _ => Ok OpReceive end
  else Err SerdeJson.
Definition untagged (l : list (str * json)) : list (str * json) := filter (fun e => negb (str_eqb (fst e) (lit "type"))) l.
Lemma de_operation_obj p l tag : keyed l (lit "type") = [JStr tag] -> de_operation p (JObj l) = variant_of p tag (JObj (untagged l)).
Proof.
  intros K. unfold de_operation, keyed in *. destruct (filter (fun e => str_eqb (fst e) (lit "type")) l) as [|[k t] [|]]; try discriminate.
  cbn in K. injection K as ->. reflexivity.
Qed.
Lemma de_operation_ok p j o : de_operation p j = Ok o -> exists tag rest, variant_of p tag rest = Ok o.
Proof.
  intros E. destruct j as [| | | |[|t l]|l]; try discriminate; cbn [de_operation] in E.
  - apply bind_ok in E as (tag & Et & E). exists tag, (JArr l). exact E.
  - destruct (filter _ l) as [|[k t] [|]]; try discriminate. apply bind_ok in E as (tag & Et & E). exists tag, (JObj (untagged l)). exact E.
Qed.
Lemma de_operation_wf p j o : de_operation p j = Ok o -> wf_operation o = true /\ plain_operation o = true.
Proof.
  intros E. apply de_operation_ok in E as (tag & rest & E). unfold variant_of in E.
  destruct (str_eqb tag (lit "constructor")).
  { apply bind_ok in E as (c & Ec & E). injection E as <-. cbn. split; [|reflexivity]. eapply de_constructor_wf; eauto. }
  destruct (str_eqb tag (lit "function")).
  { apply bind_ok in E as (c & Ec & E). injection E as <-. cbn. apply de_function_wf in Ec as (-> & -> & ->). auto. }
  destruct (str_eqb tag (lit "event")).
  { apply bind_ok in E as (c & Ec & E). injection E as <-. cbn. apply de_event_wf in Ec as (-> & ->). auto. }
  destruct (str_eqb tag (lit "fallback")).
  { destruct rest as [| | | |[|]|]; try discriminate; injection E as <-; auto. }
  destruct (str_eqb tag (lit "receive")); [|discriminate].
  destruct rest as [| | | |[|]|]; try discriminate; injection E as <-; auto.
Qed.

(** ** Standard items load *)
Lemma keyed_untagged l k : str_eqb (lit "type") k = false -> keyed (untagged l) k = keyed l k.
Proof.
  intros E. unfold keyed, untagged. f_equal. induction l as [|[k' v] l IH]; [reflexivity|]. cbn [filter fst].
  destruct (str_eqb k' (lit "type")) eqn:E'; cbn [negb filter fst].
  - apply str_eqb_eq in E'. subst k'. rewrite E. exact IH.
  - destruct (str_eqb k' k); [f_equal|]; auto.
Qed.
Lemma params_items p items params : wf_params params = true -> Forall2 param_item items params ->
  mapM (de_param p Buffered) items = Ok params.
Proof.
  intros W F. induction F as [|j a items params (l & -> & J) F IH]; [reflexivity|]. cbn [wf_params forallb] in W. apply andb_true_iff in W as [W1 W2].
  cbn [mapM]. rewrite (@param_standard p Buffered true (fun _ => eq_refl) _ _ _ _ W1 J). cbn [bind]. rewrite IH by exact W2.
  now destruct a.
Qed.
Lemma event_params_items p items params : wf_event_params params = true -> Forall2 event_param_item items params ->
  mapM (de_event_param p Buffered) items = Ok params.
Proof.
  intros W F. induction F as [|j a items params (l & -> & J) F IH]; [reflexivity|]. cbn [wf_event_params forallb] in W. apply andb_true_iff in W as [W1 W2].
  cbn [mapM]. rewrite (@event_param_standard p Buffered true (fun _ => eq_refl) _ _ _ _ W1 J). cbn [bind]. rewrite IH by exact W2.
  now destruct a.
Qed.
Lemma one_keyed A l k (f : json -> res A) v a : keyed l k = [v] -> f v = Ok a -> one_field l k f a.
Proof. intros K E. unfold one_field, opt_field. rewrite K. eauto. Qed.
Lemma default_keyed A l k (f : json -> res A) v d a : keyed l k = [v] /\ f v = Ok a \/ a = d /\ keyed l k = [] -> default_field l k f d a.
Proof.
  unfold default_field, opt_field. intros [[K E]|[-> K]]; rewrite K; [exists (Some a)|exists None]; split; auto; eauto.
Qed.
Lemma item_loads p l o : wf_operation o = true -> item_json l o -> de_operation p (JObj l) = Ok o.
Proof.
  intros W J. destruct J as [l inputs params K I F|l text name inputs params outputs results constant mutability K N B I F O G C M
    |l text name inputs params anonymous K N B I F A|l K|l K]; rewrite (de_operation_obj p l K); unfold variant_of; cbn [str_eqb].
  - change (str_eqb (lit "constructor") (lit "constructor")) with true. cbv iota.
    rewrite (proj2 (de_constructor_iff p Buffered (untagged l) (mkConstructor params))); [reflexivity|].
    apply one_keyed with (JArr inputs); [now rewrite keyed_untagged|]. cbn [de_vec k_inputs wf_operation] in *. now apply params_items.
  - change (str_eqb (lit "function") (lit "constructor")) with false. change (str_eqb (lit "function") (lit "function")) with true. cbv iota.
    cbn [wf_operation f_inputs f_outputs] in W. apply andb_true_iff in W as [W1 W2].
    rewrite (proj2 (de_function_iff p Buffered (untagged l) (mkFunction name params results constant mutability))); [reflexivity|].
    cbn [f_name f_inputs f_outputs f_constant f_state_mutability]. repeat match goal with |- _ /\ _ => split end.
    + apply one_keyed with (JStr text); [now rewrite keyed_untagged|]. cbn. now apply sanitize_ok.
    + apply one_keyed with (JArr inputs); [now rewrite keyed_untagged|]. now apply params_items.
    + apply one_keyed with (JArr outputs); [now rewrite keyed_untagged|]. now apply params_items.
    + apply default_keyed with (JBool constant). rewrite keyed_untagged by reflexivity. intuition.
    + apply default_keyed with (JStr (mutability_name mutability)). rewrite keyed_untagged by reflexivity.
      destruct M as [M|M]; [left|right; exact M]. split; [exact M|]. now destruct mutability.
  - change (str_eqb (lit "event") (lit "constructor")) with false. change (str_eqb (lit "event") (lit "function")) with false.
    change (str_eqb (lit "event") (lit "event")) with true. cbv iota.
    rewrite (proj2 (de_event_iff p Buffered (untagged l) (mkEvent name params anonymous))); [reflexivity|].
    cbn [e_name e_inputs e_anonymous wf_operation] in *. repeat match goal with |- _ /\ _ => split end.
    + apply one_keyed with (JStr text); [now rewrite keyed_untagged|]. cbn. now apply sanitize_ok.
    + apply one_keyed with (JArr inputs); [now rewrite keyed_untagged|]. now apply event_params_items.
    + apply one_keyed with (JBool anonymous); [now rewrite keyed_untagged|]. reflexivity.
  - reflexivity.
  - reflexivity.
Qed.

(** ** Written items are standard *)
Lemma written_params l : Forall2 param_item (map se_param l) l.
Proof.
  induction l as [|a l IH]; cbn [map]; constructor; auto. destruct (se_param_json a) as (o & E & J). exists o. auto using param_weaken.
Qed.
Lemma written_event_params l : Forall2 event_param_item (map se_event_param l) l.
Proof.
  induction l as [|a l IH]; cbn [map]; constructor; auto. destruct (se_event_param_json a) as (o & E & J). exists o. auto using event_param_weaken.
Qed.
Lemma plain_before s : plain_name s = true -> before_paren s s.
Proof. split; auto. Qed.
Lemma written_item o : plain_operation o = true -> exists l, se_operation o = JObj l /\ item_json l o.
Proof.
  intros P. destruct o as [[i]|[n i out c m]|[n i a]| |]; (eexists; split; [reflexivity|]); cbn [plain_operation f_name e_name] in P.
  - eapply ij_constructor; try reflexivity. apply written_params.
  - eapply ij_function; try reflexivity; auto using written_params, plain_before. 
  - eapply ij_event; try reflexivity; auto using written_event_params, plain_before.
  - now apply ij_fallback.
  - now apply ij_receive.
Qed.
Lemma operation_round p o : wf_operation o = true -> plain_operation o = true -> de_operation p (se_operation o) = Ok o.
Proof. intros W P. destruct (written_item o P) as (l & -> & J). now apply item_loads. Qed.

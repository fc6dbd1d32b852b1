(** * Checking generated programs *)
From Verif Require Import Base BaseFacts StrFacts Types TypeNames Tokenizer AbiSpec Function Event EventSpec Contract Heck Derive DeriveSpec DeriveFacts DeriveCalls DeriveEvents DeriveAccepts
  FilterFacts RustSyntax DeriveTextFacts DeriveTree RustEval GeneratedSpec DeriveRun DeriveModules DeriveLogs DeriveGenerated DeriveParsed RustCheck CheckFacts CheckCalls CheckModules CheckEvents.
From Coq Require Import String Lia.
Set Implicit Arguments.
Notation length := List.length.
Notation obind := RustCheck.obind.
Notation tmethod := DeriveTree.method.
Local Open Scope N_scope.
Local Open Scope list_scope.

(** ** Types where names of types may be hidden *)
Lemma rt_some c vs self t : forall y u, type_tree t = Ok y -> rt_of c vs self y = Some u -> plain_type t = true.
Proof.
  induction t; intros y u Y R; cbn [type_tree plain_type] in *; try reflexivity; try discriminate.
  - apply bind_ok in Y as (z & Z & Y). injection Y as <-. cbn [rt_of] in R. apply obind_inv in R as (m & _ & R). apply obind_inv in R as (v & R & _). exact (IHt _ _ Z R).
  - apply bind_ok in Y as (z & Z & Y). injection Y as <-. discriminate.
Qed.
Section Hidden.
Context (c : ctx) (Hb : local_type (lit "bool") (cx_items c) = false) (Hu : local_type (lit "u8") (cx_items c) = false).
Lemma one x : local_type (lit x) (cx_items c) = false -> rt_of c [] None (ty x) = at_name [lit x] plain_types.
Proof. intros L. unfold ty. cbn [rt_of]. apply plain_one. split; [exact L|reflexivity]. Qed.
Lemma rt_plain t : forall y, type_tree t = Ok y -> plain_type t = true -> (local_type (lit "String") (cx_items c) = true -> ~ string_inside t) -> (local_type (lit "Vec") (cx_items c) = true -> forall t', t <> PArray t') ->
  rt_of c [] None y = Some (srt t).
Proof.
  induction t; intros y Y P HS HV; cbn [type_tree plain_type] in *; try discriminate; try (injection Y as <-; reflexivity).
  - injection Y as <-. rewrite one by exact Hb. reflexivity.
  - injection Y as <-. destruct (local_type (lit "String") (cx_items c)) eqn:L; [destruct (HS eq_refl I)|]. rewrite one by exact L. reflexivity.
  - destruct (local_type (lit "Vec") (cx_items c)) eqn:L; [destruct (HV eq_refl _ eq_refl)|]. apply bind_ok in Y as (z & Z & Y). injection Y as <-. cbn [rt_of].
    rewrite maker_one by (split; [exact L|reflexivity]). change (at_name [lit "Vec"] type_makers) with (Some SVec). cbn [obind]. rewrite (IHt _ Z P HS); [reflexivity|discriminate].
  - injection Y as <-. cbn [srt]. destruct (size =? 32); [reflexivity|]. cbn [rt_of]. rewrite one by exact Hu. reflexivity.
Qed.
Lemma rt_vec_hidden t y : local_type (lit "Vec") (cx_items c) = true -> type_tree (PArray t) = Ok y -> rt_of c [] None y = None.
Proof. intros L Y. cbn [type_tree] in Y. apply bind_ok in Y as (z & _ & Y). injection Y as <-. cbn [rt_of maker_name existsb orb]. rewrite L. reflexivity. Qed.
Lemma rt_string_hidden t : local_type (lit "String") (cx_items c) = true -> string_inside t -> forall y u, type_tree t = Ok y -> rt_of c [] None y = Some u -> fits (frt t) u = false.
Proof.
  intros L. induction t; intros S y u Y R; cbn [string_inside type_tree frt srt] in *; try (destruct S; fail).
  - injection Y as <-. unfold ty in R. cbn [rt_of plain_name existsb] in R. rewrite L in R. injection R as <-. reflexivity.
  - apply bind_ok in Y as (z & Z & Y). injection Y as <-. cbn [rt_of] in R. apply obind_inv in R as (m & M & R). apply obind_inv in R as (v & R & E). injection E as <-.
    unfold maker_name in M. destruct (existsb _ _ || _); [discriminate|]. injection M as <-. cbn [fits]. exact (IHt S _ _ Z R).
Qed.
End Hidden.
(** ** Fields *)
Lemma find_field names : NoDup names -> forall i n (vals : list rt) v, nth_error names i = Some n -> nth_error vals i = Some v -> find (fun y => str_eqb n (fst y)) (combine names vals) = Some (n, v).
Proof.
  induction 1 as [|z names N ND IH]; intros [|i] n [|w vals] v E F; try discriminate; cbn [nth_error combine find fst] in *.
  - injection E as ->. injection F as ->. rewrite str_eqb_refl. reflexivity.
  - rewrite str_neqb; [exact (IH i n vals v E F)|]. intros ->. apply N. eapply nth_error_In, E.
Qed.
Lemma combine_fst A B (l : list A) (m : list B) : length l = length m -> map fst (combine l m) = l.
Proof. revert m. induction l as [|x l IH]; intros [|y m] L; try discriminate; [reflexivity|]. cbn [combine map fst]. rewrite IH; [reflexivity|now injection L]. Qed.
Lemma in_combine_nth A B (l : list A) (m : list B) x y : In (x, y) (combine l m) -> exists i, nth_error l i = Some x /\ nth_error m i = Some y.
Proof.
  revert m. induction l as [|a l IH]; intros [|b m] I; try (destruct I; fail). destruct I as [E|I]; [injection E as -> ->; exists 0%nat; auto|]. destruct (IH m I) as (i & A1 & B1). exists (S i). auto.
Qed.
Lemma nth_combine A B (l : list A) (m : list B) i x y : nth_error l i = Some x -> nth_error m i = Some y -> In (x, y) (combine l m).
Proof. revert m i. induction l as [|a l IH]; intros [|b m] [|i] E F; try discriminate; cbn [nth_error combine] in *; [injection E as ->; injection F as ->; now left|]. right. eapply IH; eassumption. Qed.
Lemma fields_exact names us vs : length names = length us -> length names = length vs -> NoDup names ->
  (fields_fit (combine names us) (combine names vs) = true <-> forall i u v, nth_error us i = Some u -> nth_error vs i = Some v -> fits v u = true).
Proof.
  intros L1 L2 ND. unfold fields_fit. rewrite !combine_length, <- L1, <- L2, Nat.eqb_refl. rewrite combine_fst by exact L2. rewrite (proj2 (distinct_iff _) ND). cbn [andb]. rewrite forallb_forall. split.
  - intros H i u v U V. destruct (nth_error names i) as [n|] eqn:E.
    + specialize (H (n, v) (nth_combine _ _ _ E V)). cbn [fst snd] in H. rewrite (find_field ND _ _ E U) in H. exact H.
    + apply nth_error_None in E. assert (X : nth_error us i <> None) by congruence. apply nth_error_Some in X. lia.
  - intros H [n v] I. cbn [fst snd]. apply in_combine_nth in I as (i & E & V). destruct (nth_error us i) as [u|] eqn:U.
    + rewrite (find_field ND _ _ E U). exact (H i u v U V).
    + apply nth_error_None in U. assert (X : nth_error names i <> None) by congruence. apply nth_error_Some in X. lia.
Qed.
Lemma typed_combine c names kinds ds : length names = length kinds ->
  (typed_fields c (combine names kinds) = Some ds <-> exists us, Forall2 (fun k u => rt_of c [] None k = Some u) kinds us /\ ds = combine names us).
Proof.
  unfold typed_fields. revert kinds ds. induction names as [|n names IH]; intros [|k kinds] ds L; try discriminate.
  - cbn [combine mapO]. split; [intros E; injection E as <-; exists []; split; constructor|intros (us & F & ->); inversion F; reflexivity].
  - cbn [combine]. rewrite mapO_cons. cbn [fst snd]. split.
    + intros E. apply obind_inv in E as (x & Ex & E). apply obind_inv in E as (r & Er & E). injection E as <-. apply obind_inv in Ex as (u & Eu & Ex). injection Ex as <-.
      apply IH in Er as (us & F & ->); [|now injection L]. exists (u :: us). split; [constructor; assumption|reflexivity].
    + intros (us & F & ->). inversion F as [|? u ? us' Eu F']; subst. rewrite Eu. cbn [obind]. rewrite (proj2 (IH kinds (combine names us') ltac:(now injection L))) by eauto. reflexivity.
Qed.
(** ** Events *)
Lemma event_tree_parts e i : event_tree e = Ok i -> exists names to_log kinds init inputs, i = IMod None (to_snake_case (e_name e)) (event_items e inputs kinds (topic_names (e_inputs e) names) init (to_camel_case (e_name e)) names to_log) /\
  identifier (to_snake_case (e_name e)) /\ identifier (to_camel_case (e_name e)) /\ field_names (e_inputs e) = Ok names /\ mapM (fun param => from_token_tree (ep_kind param) log_next) (e_inputs e) = Ok to_log /\
  mapM (fun param => type_tree (ep_kind param)) (filter ep_indexed (e_inputs e)) = Ok kinds /\ filter_init_tree (firstn 3 (combine (topic_names (e_inputs e) names) (filter ep_indexed (e_inputs e)))) = Ok init /\
  mapM event_param_tree (e_inputs e) = Ok inputs.
Proof.
  intros E. unfold event_tree in E. apply bind_ok in E as (names & E1 & E). apply bind_ok in E as (to_log & E2 & E). apply bind_ok in E as (kinds & E3 & E). apply bind_ok in E as (init & E4 & E). apply bind_ok in E as (inputs & E5 & E).
  apply bind_ok in E as (m & E6 & E). apply bind_ok in E as (cm & E7 & E). apply ident_ok in E6 as [-> I1]. apply ident_ok in E7 as [-> I2]. injection E as <-. exists names, to_log, kinds, init, inputs. auto 12.
Qed.
Lemma log_tree_parts e i : log_tree e = Ok i -> exists names kinds, i = IStruct (segments ["Debug"; "Clone"; "PartialEq"]%string) (to_camel_case (e_name e)) (combine names kinds) /\
  field_names (e_inputs e) = Ok names /\ mapM (fun param => type_tree (ep_kind param)) (e_inputs e) = Ok kinds /\ length names = length kinds.
Proof.
  intros E. unfold log_tree in E. apply bind_ok in E as (names & E1 & E). apply bind_ok in E as (kinds & E2 & E). apply bind_ok in E as (cm & E3 & E). apply ident_ok in E3 as [-> _]. injection E as <-.
  exists names, kinds. split; [reflexivity|]. split; [exact E1|]. split; [exact E2|]. apply field_names_iff in E1 as [[L _] _]. rewrite L. apply mapM_ok in E2. clear -E2. induction E2; cbn [length]; congruence.
Qed.
Lemma topics_plain e : forallb plain_type (map ep_kind (e_inputs e)) = true -> forallb plain_type (map ep_kind (filter ep_indexed (e_inputs e))) = true.
Proof. rewrite !forallb_forall. intros H t I. apply H. apply in_map_iff in I as (q & <- & I). apply in_map. now apply filter_In in I. Qed.
Lemma event_item e i c h outer names fields declared : event_tree e = Ok i -> cx_err c = true -> cx_here c = [h] -> field_names (e_inputs e) = Ok names ->
  forallb plain_type (map ep_kind (e_inputs e)) = true -> NoDup names -> Forall (fun x => keyword x = false) names ->
  local_type (to_camel_case (e_name e)) (logs_items (cx_root c)) = true -> struct_of (to_camel_case (e_name e)) (logs_items (cx_root c)) = Some fields -> typed_fields (logs_ctx c) fields = Some declared ->
  (item_ok c outer i = true <-> keyword (to_snake_case (e_name e)) = false /\ ~ In (lit "event") (topic_names (e_inputs e) names) /\ fields_fit declared (combine names (map frt (map ep_kind (e_inputs e)))) = true).
Proof.
  intros E C H En P ND K Lc Sc Tf. apply event_tree_parts in E as (names' & to_log & kinds & init & inputs & -> & I1 & I2 & E1 & E2 & E3 & E4 & E5). rewrite En in E1. injection E1 as <-.
  rewrite module_ok by reflexivity. rewrite C, H. cbn [app]. set (c' := mkCtx _ _ _ true).
  assert (Tf' : typed_fields (logs_ctx c') fields = Some declared) by exact Tf.
  assert (X1 : fn_ok c' None (fn_event e inputs) = true) by (apply event_checked; assumption).
  assert (X2 : fn_ok c' None (fn_filter (topic_bounds kinds) (topic_names (e_inputs e) names) init) = true <-> ~ In (lit "event") (topic_names (e_inputs e) names)).
  { apply filter_checked; auto using topics_plain, filter_names_NoDup. rewrite Forall_forall in *. intros x J. apply K. exact (filter_names_sub _ _ _ J). }
  assert (X3 : fn_ok c' None (fn_wildcard_filter (topic_names (e_inputs e) names)) = true) by (apply wildcard_checked; auto using topics_plain).
  assert (X4 : fn_ok c' None (fn_parse_log (to_camel_case (e_name e)) (combine names to_log)) = fields_fit declared (combine names (map frt (map ep_kind (e_inputs e))))) by (apply parse_checked with (fields := fields); auto).
  change (distinct (List.concat (map type_names (event_items e inputs kinds (topic_names (e_inputs e) names) init (to_camel_case (e_name e)) names to_log)))) with true.
  change (distinct (List.concat (map value_names (event_items e inputs kinds (topic_names (e_inputs e) names) init (to_camel_case (e_name e)) names to_log)))) with true.
  unfold event_items at 1, uses. cbn [app forallb item_ok].
  change (is_path (segments ["ethabi"%string]) ["ethabi"%string]) with true. change (is_path (segments ["super"; "INTERNAL_ERR"]%string) ["super"; "INTERNAL_ERR"]%string) with true.
  rewrite X1, X3, X4. cbn [andb orb]. rewrite !andb_true_r. rewrite !andb_true_iff, negb_true_iff, X2. tauto.
Qed.
(** ** Logs *)
Definition use_err : item := IUse (segments ["super"; "INTERNAL_ERR"]%string).
Definition log_items (logs : list item) : list item := [use_err; IUse (segments ["ethabi"%string])] ++ logs.
Definition camels (l : list Event) : list str := map (fun e => to_camel_case (e_name e)) l.
Lemma local_logs x events logs : Forall2 (fun e i => log_tree e = Ok i) events logs -> (local_type x (log_items logs) = true <-> In x (camels events)).
Proof.
  intros F. unfold local_type, log_items. cbn [app existsb use_err orb]. induction F as [|e i l r E _ IH]; cbn [existsb camels map In]; [split; [discriminate|tauto]|].
  apply log_tree_parts in E as (names & kinds & -> & _). rewrite orb_true_iff, IH, str_eqb_eq. unfold camels. split; intros [A|A]; auto.
Qed.
Lemma struct_logs events logs : Forall2 (fun e i => log_tree e = Ok i) events logs -> NoDup (camels events) -> forall e ds fields, In e events -> log_tree e = Ok (IStruct ds (to_camel_case (e_name e)) fields) ->
  struct_of (to_camel_case (e_name e)) (log_items logs) = Some fields.
Proof.
  intros F ND e ds fields I E. unfold struct_of, log_items. cbn [app map use_err List.concat].
  set (g := fun i : item => match i with IStruct _ y fields => if str_eqb (to_camel_case (e_name e)) y then [fields] else [] | _ => [] end).
  assert (Z : forall l r, Forall2 (fun e i => log_tree e = Ok i) l r -> ~ In (to_camel_case (e_name e)) (camels l) -> List.concat (map g r) = []).
  { clear. induction 1 as [|e' i l r E _ IH]; intros N; [reflexivity|]. apply log_tree_parts in E as (names & kinds & -> & _). cbn [map List.concat g camels In] in *. rewrite str_neqb by (intros X; apply N; auto). cbn [app]. apply IH. intros X. apply N. right. exact X. }
  assert (H : List.concat (map g logs) = [fields]); [|rewrite H; reflexivity].
  induction F as [|e' i l r E' F' IH]; [destruct I|]. cbn [camels map] in ND. inversion ND as [|? ? N1 N2]; subst. cbn [map List.concat]. destruct I as [->|I].
  - rewrite E in E'. injection E' as <-. rewrite (Z _ _ F' N1). cbn [g]. rewrite str_eqb_refl. reflexivity.
  - pose proof E' as E2. apply log_tree_parts in E2 as (names & kinds & -> & _). cbn [g]. rewrite str_neqb; [exact (IH N2 I)|]. intros X. apply N1. rewrite <- X. exact (in_map (fun e => to_camel_case (e_name e)) _ _ I).
Qed.
Lemma camel_lower events x : (exists c w, x = c :: w /\ is_lower c = true) -> ~ In x (camels events).
Proof. intros H I. unfold camels in I. apply in_map_iff in I as (e & E & _). exact (camel_not _ H E). Qed.
(** The fields as the checker reads them in the module logs *)
Section Logs.
Context (events : list Event) (logs : list item) (F : Forall2 (fun e i => log_tree e = Ok i) events logs) (here : path) (root : list item).
Notation c := (mkCtx here (log_items logs) root true).
Lemma logs_bool : local_type (lit "bool") (log_items logs) = false /\ local_type (lit "u8") (log_items logs) = false.
Proof.
  split; (destruct (local_type _ _) eqn:E; [|reflexivity]); apply (local_logs _ F) in E; exfalso; revert E; apply camel_lower; eexists _, _; (split; [reflexivity|reflexivity]).
Qed.
Definition unhidden (l : list Event) : Prop := forall e e' q, In e l -> In e' l -> In q (e_inputs e') ->
  ~ (to_camel_case (e_name e) = lit "String" /\ string_inside (ep_kind q)) /\ ~ (to_camel_case (e_name e) = lit "Vec" /\ exists t, ep_kind q = PArray t).
Lemma typed_good e names kinds : In e events -> unhidden events -> forallb plain_type (map ep_kind (e_inputs e)) = true -> mapM (fun param => type_tree (ep_kind param)) (e_inputs e) = Ok kinds -> length names = length kinds ->
  typed_fields c (combine names kinds) = Some (combine names (map srt (map ep_kind (e_inputs e)))).
Proof.
  intros I U P K L. apply typed_combine; [exact L|]. eexists. split; [|reflexivity]. destruct logs_bool as [Hb Hu]. apply mapM_ok in K.
  assert (Q : forall q, In q (e_inputs e) -> (local_type (lit "String") (log_items logs) = true -> ~ string_inside (ep_kind q)) /\ (local_type (lit "Vec") (log_items logs) = true -> forall t', ep_kind q <> PArray t')).
  { intros q J. split; intros X; apply (local_logs _ F) in X; unfold camels in X; apply in_map_iff in X as (e' & X & I'); destruct (U e' e q I' I J) as [U1 U2]; [intros S; apply U1; auto|intros t' T'; apply U2; eauto]. }
  rewrite forallb_forall in P. clear -K P Q Hb Hu. induction K as [|q y l ys Y _ IH]; cbn [map]; constructor.
  - destruct (Q q (or_introl eq_refl)) as [Q1 Q2]. apply rt_plain; auto. apply P, in_map. now left.
  - apply IH; intros; [apply P|apply Q]; cbn [map In]; auto.
Qed.
Lemma typed_back e names kinds ds : In e events -> mapM (fun param => type_tree (ep_kind param)) (e_inputs e) = Ok kinds -> length names = length kinds -> NoDup names -> typed_fields c (combine names kinds) = Some ds ->
  forallb plain_type (map ep_kind (e_inputs e)) = true /\ (In (lit "Vec") (camels events) -> forall q t, In q (e_inputs e) -> ep_kind q <> PArray t) /\
  (fields_fit ds (combine names (map frt (map ep_kind (e_inputs e)))) = true -> In (lit "String") (camels events) -> forall q, In q (e_inputs e) -> ~ string_inside (ep_kind q)).
Proof.
  intros I K L ND Tf. apply typed_combine in Tf as (us & R & ->); [|exact L]. apply mapM_ok in K.
  assert (Lu : length names = length us) by (rewrite L; clear -R; induction R; cbn [length]; congruence).
  assert (Lk : length kinds = length (e_inputs e)) by (clear -K; induction K; cbn [length]; congruence).
  assert (Z : forall i q, nth_error (e_inputs e) i = Some q -> exists y u, type_tree (ep_kind q) = Ok y /\ rt_of c [] None y = Some u /\ nth_error us i = Some u).
  { clear -R K. revert us R. induction K as [|q y l ys Y _ IH]; intros us R i x X; [destruct i; discriminate|]. inversion R as [|? u ? us' Ru R']; subst. destruct i as [|i]; cbn [nth_error] in *; [injection X as <-; eauto|]. exact (IH us' R' i x X). }
  split; [|split].
  - apply forallb_forall. intros t J. apply in_map_iff in J as (q & <- & J). apply In_nth_error in J as [i J]. destruct (Z i q J) as (y & u & Y & Ru & _). exact (rt_some _ _ _ _ Y Ru).
  - intros V q t J E. apply In_nth_error in J as [i J]. destruct (Z i q J) as (y & u & Y & Ru & _). rewrite E in Y. rewrite (@rt_vec_hidden c t y) in Ru; [discriminate| |exact Y]. now apply (local_logs _ F).
  - intros Ff V q J S. apply In_nth_error in J as [i J]. destruct (Z i q J) as (y & u & Y & Ru & Nu). rewrite fields_exact in Ff; [|exact Lu|rewrite !map_length; congruence|exact ND].
    assert (X : fits (frt (ep_kind q)) u = true) by (apply (Ff i u); [exact Nu|apply map_nth_error, map_nth_error, J]).
    rewrite (@rt_string_hidden c (ep_kind q)) with (y := y) in X; [discriminate| |exact S|exact Y|exact Ru]. now apply (local_logs _ F).
Qed.
End Logs.
(** ** Programs *)
Lemma log_item c outer e i : log_tree e = Ok i -> exists names kinds, i = IStruct (segments ["Debug"; "Clone"; "PartialEq"]%string) (to_camel_case (e_name e)) (combine names kinds) /\
  field_names (e_inputs e) = Ok names /\ mapM (fun param => type_tree (ep_kind param)) (e_inputs e) = Ok kinds /\ length names = length kinds /\
  (item_ok c outer i = true <-> keyword (to_camel_case (e_name e)) = false /\ NoDup names /\ Forall (fun x => keyword x = false) names /\ exists ds, typed_fields c (combine names kinds) = Some ds).
Proof.
  intros E. apply log_tree_parts in E as (names & kinds & -> & En & Ek & L). exists names, kinds. split; [reflexivity|]. split; [exact En|]. split; [exact Ek|]. split; [exact L|].
  cbn [item_ok]. change (forallb (fun d : str => existsb (str_eqb d) (map lit ["Debug"; "Clone"; "PartialEq"]%string)) (segments ["Debug"; "Clone"; "PartialEq"]%string)) with true. cbn [andb].
  rewrite combine_fst by exact L. rewrite !andb_true_iff, negb_true_iff, names_ok_iff. split.
  - intros [[K [ND KN]] H]. split; [exact K|]. split; [exact ND|]. split; [exact KN|]. destruct (typed_fields c (combine names kinds)) as [ds|]; [eauto|discriminate].
  - intros (K & ND & KN & ds & ->). repeat split; assumption.
Qed.
Lemma forallb_all A (f : A -> bool) l : forallb f l = true <-> Forall (fun x => f x = true) l.
Proof. rewrite forallb_forall, Forall_forall. reflexivity. Qed.
Lemma Forall_pair A B (R : A -> B -> Prop) (P : A -> Prop) (Q : B -> Prop) l r : Forall2 R l r -> (forall a b, In a l -> R a b -> (Q b <-> P a)) -> (Forall Q r <-> Forall P l).
Proof.
  intros F. induction F as [|a b l r H _ IH]; intros E; [split; constructor|]. split; intros X; inversion X as [|? ? X1 X2]; subst; constructor.
  1,3: apply (E a b); [now left|exact H|exact X1].
  all: apply IH; [|exact X2]; intros a' b' I; apply E; now right.
Qed.
Lemma modules_names A (name : A -> str) l (r : list item) : Forall2 (fun a i => exists doc its, i = IMod doc (name a) its) l r -> List.concat (map type_names r) = map name l /\ List.concat (map value_names r) = [].
Proof. intros F. induction F as [|a i l r (doc & its & ->) _ [IH1 IH2]]; [split; reflexivity|]. cbn [map List.concat type_names value_names app]. rewrite IH1, IH2. split; reflexivity. Qed.
Lemma Forall2_weaken A B (R S : A -> B -> Prop) l r : (forall a b, R a b -> S a b) -> Forall2 R l r -> Forall2 S l r.
Proof. intros H F. induction F; constructor; auto. Qed.
Lemma structs_names l logs : Forall2 (fun e i => log_tree e = Ok i) l logs -> List.concat (map type_names logs) = camels l /\ List.concat (map value_names logs) = [].
Proof. intros F. induction F as [|e i l r E _ [IH1 IH2]]; [split; reflexivity|]. apply log_tree_parts in E as (? & ? & -> & _). cbn [map List.concat type_names value_names app camels]. rewrite IH1, IH2. split; reflexivity. Qed.
Section Program.
Context (p : profile) (ct : Contract) (functions : groups Function) (events : groups Event).
Notation fl := (iterate functions).
Notation el := (iterate events).
Context (ctor fs es logs : list item).
Context (Ec : match c_constructor ct with None => Ok [] | Some k => do i <- constructor_tree k; Ok [i] end = Ok ctor) (Ef : Forall2 (fun f i => function_tree f = Ok i) fl fs)
  (Ee : Forall2 (fun e i => event_tree e = Ok i) el es) (El : Forall2 (fun e i => log_tree e = Ok i) el logs).
Definition program : list item := [IUse (segments ["ethabi"%string]); IConst (lit "INTERNAL_ERR") (TyStatic (ty "str")) (lit "`ethabi_derive` internal error")] ++ ctor ++ [
    IMod (Some (lit " Contract's functions.")) (lit "functions") (use_err :: fs);
    IMod (Some (lit " Contract's events.")) (lit "events") (use_err :: es);
    IMod (Some (lit " Contract's logs.")) (lit "logs") (log_items logs)].
Notation root := (mkCtx [] program program true).
Lemma ctor_cases : ctor = [] \/ exists k f, c_constructor ct = Some k /\ constructor_tree k = Ok (IFn f) /\ ctor = [IFn f] /\ fn_name f = lit "constructor".
Proof.
  destruct (c_constructor ct) as [k|].
  - apply bind_ok in Ec as (i & Ei & E). injection E as <-. right. exists k. pose proof Ei as E. unfold constructor_tree in E. do 5 apply bind_ok in E as (? & _ & E). injection E as <-. eauto.
  - injection Ec as <-. auto.
Qed.
Lemma root_logs : logs_items program = log_items logs.
Proof. unfold program. destruct ctor_cases as [-> | (k & f & _ & _ & -> & _)]; reflexivity. Qed.
Lemma root_ok : program_ok program = forallb (item_ok root false) ctor && item_ok root false (IMod (Some (lit " Contract's functions.")) (lit "functions") (use_err :: fs)) &&
  item_ok root false (IMod (Some (lit " Contract's events.")) (lit "events") (use_err :: es)) && item_ok root false (IMod (Some (lit " Contract's logs.")) (lit "logs") (log_items logs)).
Proof.
  assert (X : existsb sees_err program = true) by reflexivity. unfold program_ok. rewrite X.
  assert (D : distinct (List.concat (map type_names program)) && distinct (List.concat (map value_names program)) = true).
  { destruct ctor_cases as [Q | (k & f & _ & _ & Q & N)]; unfold program; rewrite Q; cbn [app map List.concat type_names value_names]; [reflexivity|]. rewrite N. reflexivity. }
  rewrite D. cbn [andb]. set (c := root). unfold program. cbn [app forallb]. change (item_ok c false (IUse (segments ["ethabi"%string]))) with true. change (item_ok c false (IConst (lit "INTERNAL_ERR") (TyStatic (ty "str")) (lit "`ethabi_derive` internal error"))) with true.
  cbn [andb]. rewrite forallb_app. cbn [forallb]. rewrite andb_true_r, !andb_assoc. reflexivity.
Qed.
Lemma ctor_ok : forallb (item_ok root false) ctor = true <-> forall k, c_constructor ct = Some k -> exists d, derive_constructor p k = Ok d.
Proof.
  assert (Lc : forall x, In x ["bool"; "u8"; "String"; "Vec"; "Box"; "str"]%string -> local_type (lit x) (cx_items root) = false).
  { intros x I. cbn [cx_items]. unfold local_type, program. rewrite !existsb_app. destruct ctor_cases as [-> | (k & f & _ & _ & -> & _)]; reflexivity. }
  destruct (c_constructor ct) as [k|] eqn:K.
  - apply bind_ok in Ec as (i & Ei & E). injection E as E. transitivity (forallb (item_ok root false) [i] = true); [rewrite E; reflexivity|]. cbn [forallb]. rewrite andb_true_r.
    rewrite (@constructor_item p k i root false Ei Lc eq_refl). split; [intros H k' Q; injection Q as <-; exact H|intros H; exact (H k eq_refl)].
  - injection Ec as E. split; [discriminate|]. intros _. transitivity (forallb (item_ok root false) []); [rewrite E; reflexivity|reflexivity].
Qed.
Lemma functions_ok : item_ok root false (IMod (Some (lit " Contract's functions.")) (lit "functions") (use_err :: fs)) = true <->
  NoDup (map (fun f => to_snake_case (f_name f)) fl) /\ Forall (fun f => exists d, derive_function p f = Ok d) fl.
Proof.
  rewrite module_ok by reflexivity. set (c' := mkCtx _ _ _ true). cbn [map List.concat forallb]. 
  destruct (@modules_names Function (fun f => to_snake_case (f_name f)) fl fs) as [-> ->].
  { revert Ef. apply Forall2_weaken. intros f i E. apply function_tree_parts in E as (? & ? & ? & ? & ? & ? & ? & -> & _). eauto. }
  change (negb (keyword (lit "functions"))) with true. change (item_ok c' (cx_err root) use_err) with true. change (type_names use_err) with (@nil str). change (distinct (value_names use_err ++ [])) with true.
  cbn [andb app]. rewrite andb_true_r, andb_true_iff, distinct_iff, forallb_all.
  rewrite (@Forall_pair Function item _ (fun f => exists d, derive_function p f = Ok d) (fun i => item_ok c' (cx_err root) i = true) _ _ Ef); [reflexivity|].
  intros f i _ E. exact (@function_item p f i c' (cx_err root) E eq_refl).
Qed.
Lemma events_ok : item_ok root false (IMod (Some (lit " Contract's events.")) (lit "events") (use_err :: es)) = true <->
  NoDup (map (fun e => to_snake_case (e_name e)) el) /\ Forall (fun i => item_ok (mkCtx [lit "events"] (use_err :: es) program true) true i = true) es.
Proof.
  rewrite module_ok by reflexivity. cbn [cx_here cx_root app]. set (c' := mkCtx _ _ _ true). cbn [map List.concat forallb].
  destruct (@modules_names Event (fun e => to_snake_case (e_name e)) el es) as [-> ->].
  { revert Ee. apply Forall2_weaken. intros e i E. apply event_tree_parts in E as (? & ? & ? & ? & ? & -> & _). eauto. }
  change (negb (keyword (lit "events"))) with true. change (item_ok c' (cx_err root) use_err) with true. change (type_names use_err) with (@nil str). change (distinct (value_names use_err ++ [])) with true.
  cbn [andb app]. rewrite andb_true_r, andb_true_iff, distinct_iff, forallb_all. reflexivity.
Qed.
Notation in_logs := (mkCtx [lit "logs"] (log_items logs) program true).
Lemma logs_ok : item_ok root false (IMod (Some (lit " Contract's logs.")) (lit "logs") (log_items logs)) = true <->
  NoDup (camels el) /\ Forall (fun i => item_ok in_logs true i = true) logs.
Proof.
  rewrite module_ok by reflexivity. cbn [cx_here cx_root app]. set (c' := mkCtx _ _ _ true). unfold log_items. cbn [app map List.concat forallb].
  destruct (structs_names El) as [-> ->].
  change (negb (keyword (lit "logs"))) with true. change (item_ok c' (cx_err root) use_err) with true. change (item_ok c' (cx_err root) (IUse (segments ["ethabi"%string]))) with true.
  change (type_names use_err) with (@nil str). change (type_names (IUse (segments ["ethabi"%string]))) with [lit "ethabi"]. change (distinct (value_names use_err ++ value_names (IUse (segments ["ethabi"%string])) ++ [])) with true.
  cbn [andb app]. rewrite andb_true_r, andb_true_iff, distinct_iff, forallb_all. split; intros [N H]; (split; [|exact H]).
  - now inversion N.
  - constructor; [|exact N]. apply camel_lower. eexists _, _. split; reflexivity.
Qed.
Lemma Forall2_left A B (R : A -> B -> Prop) l r a : Forall2 R l r -> In a l -> exists b, In b r /\ R a b.
Proof. intros F. induction F as [|x y l' r' H _ IH]; [intros []|]; intros [<-|I]; [exists y; split; [now left|exact H]|destruct (IH I) as (b & J & X); exists b; split; [now right|exact X]]. Qed.
Lemma Forall2_right A B (R : A -> B -> Prop) l r b : Forall2 R l r -> In b r -> exists a, In a l /\ R a b.
Proof. intros F. induction F as [|x y l' r' H _ IH]; [intros []|]; intros [<-|I]; [exists x; split; [now left|exact H]|destruct (IH I) as (a & J & X); exists a; split; [now right|exact X]]. Qed.
Lemma all_events_ok : item_ok root false (IMod (Some (lit " Contract's events.")) (lit "events") (use_err :: es)) = true /\ item_ok root false (IMod (Some (lit " Contract's logs.")) (lit "logs") (log_items logs)) = true <->
  Forall (fun e => exists d, derive_event p e = Ok d) el /\ NoDup (map (fun e => to_snake_case (e_name e)) el) /\ NoDup (map (fun e => to_camel_case (e_name e)) el) /\ unhidden el.
Proof.
  rewrite events_ok, logs_ok. set (ce := mkCtx _ (use_err :: es) _ true). split.
  - intros [[N1 H1] [N2 H2]].
    assert (Z : forall e, In e el -> (exists d, derive_event p e = Ok d) /\ (In (lit "Vec") (camels el) -> forall q t, In q (e_inputs e) -> ep_kind q <> PArray t) /\ (In (lit "String") (camels el) -> forall q, In q (e_inputs e) -> ~ string_inside (ep_kind q))).
    { intros e I. destruct (@Forall2_left _ _ _ _ _ _ Ee I) as (i & Ii & Ei). destruct (@Forall2_left _ _ _ _ _ _ El I) as (j & Ij & Ej). rewrite Forall_forall in H1, H2. specialize (H1 i Ii). specialize (H2 j Ij).
      destruct (@log_item in_logs true e j Ej) as (names & kinds & Q & En & Ek & L & X). destruct (proj1 X H2) as (KC & ND & KN & ds & Tf). clear X.
      destruct (@typed_back el logs El [lit "logs"] program e names kinds ds I Ek L ND Tf) as (P & B1 & B2).
      assert (Lc : local_type (to_camel_case (e_name e)) (logs_items (cx_root ce)) = true) by (cbn [cx_root ce]; rewrite root_logs; apply (local_logs _ El); apply (in_map (fun e => to_camel_case (e_name e)) _ _ I)).
      assert (Sc : struct_of (to_camel_case (e_name e)) (logs_items (cx_root ce)) = Some (combine names kinds)) by (cbn [cx_root ce]; rewrite root_logs; rewrite Q in Ej; exact (@struct_logs el logs El N2 e _ _ I Ej)).
      assert (Tf' : typed_fields (logs_ctx ce) (combine names kinds) = Some ds) by (unfold logs_ctx; cbn [cx_root ce]; rewrite root_logs; exact Tf).
      destruct (proj1 (@event_item e i ce (lit "events") true names _ ds Ei eq_refl eq_refl En P ND KN Lc Sc Tf') H1) as (KS & NE & Ff). split; [|split; [exact B1|exact (B2 Ff)]].
      apply event_tree_parts in Ei as (? & ? & ? & ? & ? & _ & I1 & I2 & _). apply field_names_iff in En as [Nn In_].
      apply event_exact. split; [exact P|]. split.
      - exists names. split; [exact Nn|]. split; [apply usable_all; [exact In_|now apply not_keywords]|]. split; [exact ND|]. intros k xx X1 X2 X3. apply NE. apply topic_names_iff; [apply Nn|eauto].
      - split; (split; [assumption|]); apply not_keyword, negb_true_iff; assumption. }
    split; [apply Forall_forall; intros e I; now apply Z|]. split; [exact N1|]. split; [exact N2|].
    intros e e' q I I' J. destruct (Z e' I') as (_ & Z1 & Z2). split.
    + intros [C S]. revert S. apply Z2; [|exact J]. rewrite <- C. apply (in_map (fun e => to_camel_case (e_name e)) _ _ I).
    + intros [C [t T']]. revert T'. apply Z1; [|exact J]. rewrite <- C. apply (in_map (fun e => to_camel_case (e_name e)) _ _ I).
  - intros (D & N1 & N2 & U). rewrite Forall_forall in D.
    assert (Z : forall e j, In e el -> log_tree e = Ok j -> exists names kinds, j = IStruct (segments ["Debug"; "Clone"; "PartialEq"]%string) (to_camel_case (e_name e)) (combine names kinds) /\ field_names (e_inputs e) = Ok names /\ forallb plain_type (map ep_kind (e_inputs e)) = true /\ NoDup names /\
       Forall (fun x => keyword x = false) names /\ keyword (to_snake_case (e_name e)) = false /\ ~ In (lit "event") (topic_names (e_inputs e) names) /\ length names = length (e_inputs e) /\
       typed_fields in_logs (combine names kinds) = Some (combine names (map srt (map ep_kind (e_inputs e)))) /\ item_ok in_logs true j = true).
    { intros e j I Ej. destruct (@log_item in_logs true e j Ej) as (names & kinds & Q & En & Ek & L & X). exists names, kinds.
      pose proof (D e I) as De. apply event_exact in De as (P & (names' & Nn & Us & ND & NE) & [S1 S2] & [C1 C2]).
      assert (names' = names) by (apply usable_split in Us as [UI _]; pose proof (proj2 (field_names_iff _ _) (conj Nn UI)); congruence). subst names'.
      assert (KN : Forall (fun x => keyword x = false) names) by (apply not_keywords; now apply usable_split in Us).
      pose proof (@typed_good el logs El [lit "logs"] program e names kinds I U P Ek L) as Tf.
      split; [exact Q|]. split; [exact En|]. split; [exact P|]. split; [exact ND|]. split; [exact KN|]. split; [now apply negb_true_iff, not_keyword|]. split; [|split; [apply Nn|split; [exact Tf|]]].
      - intros E. apply topic_names_iff in E as (k & x & X1 & X2 & X3); [|apply Nn]. exact (NE k x X1 X2 X3).
      - apply X. split; [now apply negb_true_iff, not_keyword|]. split; [exact ND|]. split; [exact KN|]. eauto. }
    split; (split; [assumption|]); apply Forall_forall; intros i Ii.
    + destruct (@Forall2_right _ _ _ _ _ _ Ee Ii) as (e & I & Ei). destruct (@Forall2_left _ _ _ _ _ _ El I) as (j & Ij & Ej). destruct (Z e j I Ej) as (names & kinds & Q & En & P & ND & KN & KS & NE & L & Tf & _).
      assert (Lc : local_type (to_camel_case (e_name e)) (logs_items (cx_root ce)) = true) by (cbn [cx_root ce]; rewrite root_logs; apply (local_logs _ El); apply (in_map (fun e => to_camel_case (e_name e)) _ _ I)).
      assert (Sc : struct_of (to_camel_case (e_name e)) (logs_items (cx_root ce)) = Some (combine names kinds)) by (cbn [cx_root ce]; rewrite root_logs; rewrite Q in Ej; exact (@struct_logs el logs El N2 e _ _ I Ej)).
      assert (Tf' : typed_fields (logs_ctx ce) (combine names kinds) = Some (combine names (map srt (map ep_kind (e_inputs e))))) by (unfold logs_ctx; cbn [cx_root ce]; rewrite root_logs; exact Tf).
      apply (@event_item e i ce (lit "events") true names _ _ Ei eq_refl eq_refl En P ND KN Lc Sc Tf'). split; [exact KS|]. split; [exact NE|].
      apply fields_exact; [rewrite !map_length; exact L|rewrite !map_length; exact L|exact ND|]. intros k u v Hu Hv. rewrite !nth_error_map in Hu, Hv. destruct (nth_error (e_inputs e) k) as [q|] eqn:Eq; [|discriminate]. cbn [option_map] in Hu, Hv. injection Hu as <-. injection Hv as <-.
      apply frt_fits. rewrite forallb_forall in P. apply P, in_map. exact (nth_error_In _ _ Eq).
    + destruct (@Forall2_right _ _ _ _ _ _ El Ii) as (e & I & Ei). destruct (Z e i I Ei) as (? & ? & _ & _ & _ & _ & _ & _ & _ & _ & _ & X). exact X.
Qed.
End Program.
Lemma program_exact p ct functions events items : contract_tree ct functions events = Ok items -> (program_ok items = true <-> exists d, derive_contract p ct functions events = Ok d).
Proof.
  intros E. unfold contract_tree in E. apply bind_ok in E as (ctor & Ec & E). apply bind_ok in E as (fs & Ef & E). apply bind_ok in E as (es & Ee & E). apply bind_ok in E as (logs & El & E).
  apply mapM_ok in Ef, Ee, El. change (Ok (program ctor fs es logs) = Ok items) in E. injection E as <-.
  rewrite (@root_ok ct ctor fs es logs Ec), !andb_true_iff, contract_exact. pose proof (@ctor_ok p ct ctor fs es logs Ec) as A. pose proof (@functions_ok p functions ctor fs es logs Ef) as B. pose proof (@all_events_ok p ct events ctor fs es logs Ec Ee El) as D.
  unfold unhidden in D. rewrite A, B. clear -D. tauto.
Qed.
Lemma contract_checks p c fs es : (exists d, derive_contract p c fs es = Ok d) <-> exists items, contract_tree c fs es = Ok items /\ program_ok items = true.
Proof.
  split.
  - intros [d D]. destruct (@contract_generated p c fs es d D) as (items & T & _). exists items. split; [exact T|]. apply (@program_exact p _ _ _ _ T). eauto.
  - intros (items & T & C). exact (proj1 (@program_exact p _ _ _ _ T) C).
Qed.
Lemma text_checks p c fs es d : derive_contract p c fs es = Ok d ->
  exists text items, DeriveText.contract_text c fs es = Ok text /\ RustParse.parse text = Some items /\ program_ok items = true /\ contract_code p d items.
Proof.
  intros D. destruct (@contract_generated p c fs es d D) as (items & T & X & C). exists (wr_items items), items. split; [exact X|]. split; [apply RustParseFacts.parse_reads; exact (@contract_parses _ _ _ _ _ _ D T)|].
  split; [|exact C]. apply (@program_exact p _ _ _ _ T). eauto.
Qed.

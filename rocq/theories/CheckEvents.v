(** * Checking generated events and logs *)
From Verif Require Import Base BaseFacts StrFacts Types TypeNames Tokenizer AbiSpec Function Event EventSpec Contract Heck Derive DeriveSpec DeriveFacts DeriveCalls DeriveEvents DeriveAccepts
  FilterFacts RustSyntax DeriveTextFacts DeriveTree RustEval GeneratedSpec DeriveRun DeriveModules DeriveLogs DeriveGenerated DeriveParsed RustCheck CheckFacts CheckCalls CheckModules.
From Coq Require Import String Lia.
Set Implicit Arguments.
Notation length := List.length.
Notation obind := RustCheck.obind.
Notation tmethod := DeriveTree.method.
Local Open Scope N_scope.
Local Open Scope list_scope.

Lemma camel_upper s c w : to_camel_case s = c :: w -> is_lower c = false.
Proof.
  unfold to_camel_case. pose proof (@words_start s [] Boundary (fun _ => eq_refl) ltac:(discriminate)) as H. destruct (words s [] Boundary) as [|a l]; [discriminate|].
  inversion H as [|? ? (d & w' & -> & _) _]; subst. cbn [map capitalize List.concat app]. intros E. injection E as <- _.
  unfold to_upper. destruct (is_lower d) eqn:L; [|exact L]. unfold is_lower in *. lia.
Qed.
Lemma camel_not s x : (exists c w, x = c :: w /\ is_lower c = true) -> to_camel_case s <> x.
Proof. intros (c & w & -> & L) E. apply camel_upper in E. congruence. Qed.

Lemma firstn_NoDup A n (l : list A) : NoDup l -> NoDup (firstn n l).
Proof.
  intros N. revert n. induction N as [|x l I N IH]; intros [|n]; cbn [firstn]; constructor; auto. intros J. apply I. rewrite <- (firstn_skipn n l). apply in_app_iff. auto.
Qed.

(** ** Topics *)
Section Topics.
Context (c : ctx) (gs : list generic) (ret : rt).
Notation inf := (infer c gs ret).
Context (G : NoDup (map generic_name gs)) (V : seen c (vars gs)).
Notation topic_ty y := (TyName (ethabi ["Topic"%string]) [y]).
Definition offered (k : nat) (topics : list EventParam) : Prop :=
  forall i q, nth_error topics i = Some q -> plain_type (ep_kind q) = true /\ exists y, type_tree (ep_kind q) = Ok y /\ In (GInto (T (k + i)) (topic_ty y)) gs.
Lemma rt_topic self y t : type_tree t = Ok y -> rt_of c (vars gs) self (topic_ty y) = if plain_type t then Some (STopic (srt t)) else None.
Proof.
  intros Y. change (rt_of c (vars gs) self (topic_ty y)) with (obind (rt_of c (vars gs) self y) (fun s => Some (STopic s))). rewrite (rt_type self t V Y). destruct (plain_type t); reflexivity.
Qed.
Lemma inf_topic x s m t i y e own : plain_type t = true -> type_tree t = Ok y -> In (GInto (T i) (topic_ty y)) gs -> tlookup s x = Some (m, SVar (T i), true) -> to_token_tree (name "i") t = Ok e ->
  inf (EMap (tmethod (EPath [x]) "into") (lit "i") e) own s = Some (STopic SToken, moved s x).
Proof.
  intros P Y I L E. assert (B : bound_of gs (T i) = Some (GInto (T i) (topic_ty y))) by exact (@generic_found gs _ G I).
  pose proof (@yields_into c gs ret x s m (T i) _ _ L B (STopic (srt t))) as H. rewrite (rt_topic None t Y), P in H. specialize (H eq_refl true).
  destruct (@inf_to_token c gs ret t P (name "i") e true _ _ E (closure_length _ _ _ _) (@closure_yields c gs ret (lit "i") (srt t) (lost (moved s x)))) as [b Hb].
  change (inf (EMap (tmethod (EPath [x]) "into") (lit "i") e) own s) with
      (obind (inf (tmethod (EPath [x]) "into") true s) (fun '(t, s1) => match t with SIter a => obind (inf e true ((lit "i", false, a, true) :: lost s1)) (fun '(b, _) => Some (SIter b, s1)) | STopic a => obind (inf e true ((lit "i", false, a, true) :: lost s1)) (fun '(b, _) => Some (STopic b, s1)) | _ => None end)).
    rewrite H. cbn [obind]. rewrite Hb. reflexivity.
Qed.
Definition record : list (str * expr) -> tenv -> option (list (str * rt) * tenv) := seqO (fun (x : str * expr) s => obind (inf (snd x) true s) (fun '(t, s1) => Some ((fst x, t), s1))).
Lemma moved_none s x y : tlookup (moved s x) y = None <-> tlookup s y = None.
Proof. induction s as [|[[[z m] t] h] s IH]; cbn [moved tlookup]; [tauto|]. destruct (str_eqb x z); cbn [tlookup]; destruct (str_eqb y z); try tauto; split; discriminate. Qed.
Lemma topics_record topics : forall k names init s, length names = length topics -> NoDup names -> offered k topics ->
  mapM (fun r => r) (mapi_from (fun index x => do to_token <- to_token_tree (name "i") (ep_kind (snd x)); Ok (numbered (lit "topic") index, EMap (tmethod (EPath [fst x]) "into") (lit "i") to_token)) k (combine names topics)) = Ok init ->
  (forall i n, nth_error names i = Some n -> exists m, tlookup s n = Some (m, SVar (T (k + i)), true)) ->
  exists s', record init s = Some (map (fun x => (fst x, STopic SToken)) init, s') /\ forall y, tlookup s' y = None <-> tlookup s y = None.
Proof.
  induction topics as [|q topics IH]; intros k [|n names] init s L ND O E H; try discriminate; cbn [combine mapi_from mapM] in E.
  - injection E as <-. exists s. split; [reflexivity|tauto].
  - apply bind_ok in E as (x & Ex & E). apply bind_ok in E as (init' & Ei & E). injection E as <-. cbn [fst snd] in Ex. apply bind_ok in Ex as (e & Ee & Ex). injection Ex as <-.
    destruct (O 0%nat q eq_refl) as (P & y & Y & I). destruct (H 0%nat n eq_refl) as [m Lk]. rewrite Nat.add_0_r in I, Lk. inversion ND as [|? ? N1 N2]; subst.
    unfold record. cbn [seqO snd fst]. rewrite (@inf_topic n s m _ k y e true P Y I Lk Ee). cbn [obind].
    destruct (IH (S k) names init' (moved s n)) as (s' & R & K); auto.
    + intros i z Z. rewrite Nat.add_succ_comm. exact (O (S i) z Z).
    + intros i z Z. rewrite tlookup_moved, Nat.add_succ_comm; [exact (H (S i) z Z)|]. apply str_neqb. intros ->. apply N1. eapply nth_error_In, Z.
    + exists s'. unfold record in R. rewrite R. split; [reflexivity|]. intros z. rewrite K. apply moved_none.
Qed.
Lemma topics_ok topics kinds : mapM (fun param : EventParam => type_tree (ep_kind param)) topics = Ok kinds -> forall k,
  forallb (generic_ok c gs) (mapi_from (fun index kind => GInto (numbered (lit "T") index) (topic_ty kind)) k kinds) = forallb plain_type (map ep_kind topics).
Proof.
  intros F. apply mapM_ok in F. induction F as [|q y l ys Y _ IH]; intros k; [reflexivity|]. cbn [mapi_from forallb map generic_ok]. rewrite (rt_topic None (ep_kind q) Y : rt_of c (map generic_var gs) None (topic_ty y) = _), IH.
  destruct (plain_type (ep_kind q)); reflexivity.
Qed.
End Topics.
Lemma record_fields c r s inputs es : cx_err c = true -> provides c [] r log_next s (fun _ => s) -> unnamed s -> forallb plain_type (map ep_kind inputs) = true ->
  mapM (fun param => from_token_tree (ep_kind param) log_next) inputs = Ok es -> forall l, length l = length inputs ->
  record c [] r (combine l es) s = Some (combine l (map frt (map ep_kind inputs)), s).
Proof.
  intros C O U P F. apply mapM_ok in F. revert P. induction F as [|q x lq lx Q _ IH]; intros P [|n l] L; try discriminate; [reflexivity|].
  cbn [map forallb] in P. apply andb_true_iff in P as [P1 P2]. unfold record. cbn [combine seqO snd fst map]. rewrite (@inf_from_token c [] r (ep_kind q) C P1 _ x true s (fun _ => s) Q O U eq_refl). cbn [obind].
  specialize (IH P2 l ltac:(now injection L)). unfold record in IH. rewrite IH. reflexivity.
Qed.
(** ** Modules of events *)
Section Module.
Context (e : Event) (inputs : list expr) (kinds : list RustSyntax.ty) (init : list (str * expr)) (camel : str) (names : list str) (to_log : list expr).
Notation tnames := (topic_names (e_inputs e) names).
Notation topics := (filter ep_indexed (e_inputs e)).
Notation items := (event_items e inputs kinds tnames init camel names to_log).
Context (h1 h2 : str) (root : list item).
Notation c := (mkCtx [h1; h2] items root true).
Notation gs := (topic_bounds kinds).
Context (En : field_names (e_inputs e) = Ok names) (El : mapM (fun param => from_token_tree (ep_kind param) log_next) (e_inputs e) = Ok to_log)
  (Ek : mapM (fun param => type_tree (ep_kind param)) topics = Ok kinds) (Ei : filter_init_tree (firstn 3 (combine tnames topics)) = Ok init) (Ein : mapM event_param_tree (e_inputs e) = Ok inputs).
Lemma elocals x : In x ["bool"; "u8"; "String"; "Vec"; "Box"; "str"]%string -> local_type (lit x) items = false.
Proof. intros I. cbn [In] in I. repeat (destruct I as [<-|I]; [reflexivity|]). destruct I. Qed.
Lemma enames_length : length names = length (e_inputs e).
Proof. apply field_names_iff in En as [[N _] _]. exact N. Qed.
Lemma tnames_length : length tnames = length topics.
Proof. apply topic_names_length, enames_length. Qed.
Lemma tnames_absent x : (exists u, In u x /\ is_upper u = true) -> ~ In x tnames.
Proof. apply upper_absent. intros n u I. apply (field_names_lower _ En). exact (filter_names_sub _ _ _ I). Qed.
Lemma event_checked : fn_ok c None (fn_event e inputs) = true.
Proof.
  unfold fn_ok, fn_event. cbn [generics_of fn_generics map names_ok distinct existsb negb andb forallb fn_params fn_name fn_ret fn_self fn_body fn_result mapO app option_map].
  change (rt_of c [] None (ethabi_ty "Event")) with (Some SEvent). cbv iota.
  destruct (@inf_event_params c [] SEvent _ _ true [] Ein) as (r & E1 & R1). change (keyword (lit "event")) with false. cbn [negb andb].
  set (v := EVec inputs) in *. cbn [infer snd fst seqO]. change (infer c [] SEvent (tmethod (EStr (to_camel_case (e_name e))) "into") true []) with (Some (SInto (SRef SStr), [] : tenv)). cbn [obind]. rewrite E1. cbn [obind].
  destruct R1 as [-> | ->]; reflexivity.
Qed.
Lemma topic_generics : NoDup (map generic_name gs) /\ Forall (own 0) gs /\ seen c (vars gs).
Proof.
  destruct (topic_names_own kinds 0) as [N O]. fold (topic_bounds kinds) in N, O. unfold topic_bounds, mapi in *. split; [exact N|].
  assert (W : Forall (own 0) (topic_bounds kinds)).
  { apply Forall_forall. intros g I. destruct (O (generic_name g) (in_map generic_name _ _ I)) as (i & Li & X). exists i. auto. }
  split; [exact W|]. apply own_seen; [exact W|exact elocals].
Qed.
Lemma topic_found : forall i y, nth_error kinds i = Some y -> In (GInto (T i) (TyName (ethabi ["Topic"%string]) [y])) gs.
Proof.
  unfold topic_bounds, mapi. assert (H : forall k l i y, nth_error l i = Some y -> In (GInto (T (k + i)) (TyName (ethabi ["Topic"%string]) [y])) (mapi_from (fun index kind => GInto (numbered (lit "T") index) (TyName (ethabi ["Topic"%string]) [kind])) k l)).
  { intros k l. revert k. induction l as [|z l IH]; intros k [|i] y E; try discriminate; cbn [nth_error mapi_from] in *.
    - injection E as ->. left. rewrite Nat.add_0_r. reflexivity.
    - right. rewrite <- Nat.add_succ_comm. exact (IH (S k) i y E). }
  exact (H 0%nat kinds).
Qed.
Lemma topic_kind i q : nth_error topics i = Some q -> exists y, nth_error kinds i = Some y /\ type_tree (ep_kind q) = Ok y.
Proof.
  pose proof Ek as F. apply mapM_ok in F. clear -F. revert i. induction F as [|z y l ys Y _ IH]; intros [|i] E; try discriminate; cbn [nth_error] in *; [injection E as <-; eauto|]. exact (IH i E).
Qed.
Lemma kinds_length : length kinds = length topics.
Proof. pose proof Ek as F. apply mapM_ok in F. clear -F. induction F; cbn [length]; congruence. Qed.
Lemma topic_oks : forallb (generic_ok c gs) gs = forallb plain_type (map ep_kind topics).
Proof. destruct topic_generics as (_ & _ & V). exact (@topics_ok c gs V topics kinds Ek 0). Qed.
Lemma topics_env out : mapO (fun x : str * RustSyntax.ty => obind (rt_of c (map generic_var gs) out (snd x)) (fun t => Some (fst x, false, t, true))) (typed tnames) = Some (env 0 tnames).
Proof.
  unfold typed, mapi. assert (H : forall i n, nth_error tnames i = Some n -> existsb (str_eqb (T i)) (vars gs) = true).
  { intros i n E. destruct (nth_error kinds i) as [y|] eqn:K.
    - apply existsb_exists. exists (T i). split; [|apply str_eqb_refl]. exact (in_map generic_name _ _ (topic_found i K)).
    - apply nth_error_None in K. assert (X : nth_error tnames i <> None) by congruence. apply nth_error_Some in X. rewrite tnames_length, <- kinds_length in X. lia. }
  enough (Z : forall l k, (forall i n, nth_error l i = Some n -> existsb (str_eqb (T (k + i))) (vars gs) = true) ->
    mapO (fun x : str * RustSyntax.ty => obind (rt_of c (map generic_var gs) out (snd x)) (fun t => Some (fst x, false, t, true))) (mapi_from (fun index (n : str) => (n, TyName [numbered (lit "T") index] [])) k l) = Some (env k l)) by exact (Z tnames 0%nat H).
  clear H. induction l as [|n l IH]; intros k H; [reflexivity|]. cbn [mapi_from]. rewrite mapO_cons. cbn [fst snd rt_of plain_name]. pose proof (H 0%nat n eq_refl) as X. rewrite Nat.add_0_r in X. unfold T, vars in X. rewrite X. cbn [obind].
  rewrite (IH (S k)); [reflexivity|]. intros i z Z. rewrite Nat.add_succ_comm. exact (H (S i) z Z).
Qed.
Lemma two_lets g r b1 e1 b2 e2 x own s : infer c g r (EBlock [(b1, e1); (b2, e2)] x) own s =
  obind (infer c g r e1 true s) (fun '(t1, s1) => obind (infer c g r e2 true (tbind b1 t1 s1)) (fun '(t2, s2) => obind (infer c g r x true (tbind b2 t2 s2)) (fun '(t, s3) => Some (t, tleave s s3)))).
Proof. cbn [infer fst snd]. destruct (infer c g r e1 true s) as [[t1 s1]|]; [|reflexivity]. cbn [obind]. destruct (infer c g r e2 true (tbind b1 t1 s1)) as [[t2 s2]|]; reflexivity. Qed.
Lemma three_lets g r b1 e1 b2 e2 b3 e3 x own s : infer c g r (EBlock [(b1, e1); (b2, e2); (b3, e3)] x) own s =
  obind (infer c g r e1 true s) (fun '(t1, s1) => obind (infer c g r e2 true (tbind b1 t1 s1)) (fun '(t2, s2) => obind (infer c g r e3 true (tbind b2 t2 s2)) (fun '(t3, s3) => obind (infer c g r x true (tbind b3 t3 s3)) (fun '(t, s4) => Some (t, tleave s s4))))).
Proof.
  cbn [infer fst snd]. destruct (infer c g r e1 true s) as [[t1 s1]|]; [|reflexivity]. cbn [obind]. destruct (infer c g r e2 true (tbind b1 t1 s1)) as [[t2 s2]|]; [|reflexivity]. cbn [obind].
  destruct (infer c g r e3 true (tbind b2 t2 s2)) as [[t3 s3]|]; reflexivity.
Qed.
Lemma init_names : exists n, (n <= 3)%nat /\ map fst init = firstn n (map lit ["topic0"; "topic1"; "topic2"]%string).
Proof.
  unfold filter_init_tree, mapi in Ei. destruct (combine tnames topics) as [|x1 [|x2 [|x3 l]]]; cbn [firstn mapi_from mapM] in Ei.
  - injection Ei as <-. exists 0%nat. split; [lia|reflexivity].
  - apply bind_ok in Ei as (a & Ea & E). injection E as <-. apply bind_ok in Ea as (y & _ & Ea). injection Ea as <-. exists 1%nat. split; [lia|reflexivity].
  - apply bind_ok in Ei as (a & Ea & E). apply bind_ok in E as (l & Eb & E). injection E as <-. apply bind_ok in Eb as (b & Eb & E). injection E as <-.
    apply bind_ok in Ea as (y & _ & Ea). injection Ea as <-. apply bind_ok in Eb as (y' & _ & Eb). injection Eb as <-. exists 2%nat. split; [lia|reflexivity].
  - apply bind_ok in Ei as (a & Ea & E). apply bind_ok in E as (l' & Eb & E). injection E as <-. apply bind_ok in Eb as (b & Eb & E). apply bind_ok in E as (l3 & Ec & E). injection E as <-. apply bind_ok in Ec as (d & Ec & E). injection E as <-.
    apply bind_ok in Ea as (y & _ & Ea). injection Ea as <-. apply bind_ok in Eb as (y' & _ & Eb). injection Eb as <-. apply bind_ok in Ec as (y'' & _ & Ec). injection Ec as <-. exists 3%nat. split; [lia|reflexivity].
Qed.
Lemma default_init : default_type (ethabi ["RawTopicFilter"%string]) (segments ["Default"; "default"]%string) (map (fun x => (fst x, STopic SToken)) init) = Some SRawFilter.
Proof.
  destruct init_names as (n & Ln & E). rewrite <- (map_map fst (fun y => (y, STopic SToken))), E. destruct n as [|[|[|[|n]]]]; reflexivity.
Qed.
Lemma inf_event gs' r own s : tlookup s (lit "event") = None -> infer c gs' r (ECall [lit "event"] []) own s = Some (SEvent, s).
Proof. intros N. cbn [infer seqO]. rewrite N. reflexivity. Qed.
Lemma filter_checked : forallb plain_type (map ep_kind topics) = true -> NoDup tnames -> Forall (fun x => keyword x = false) tnames ->
  (fn_ok c None (fn_filter gs tnames init) = true <-> ~ In (lit "event") tnames).
Proof.
  intros P ND K. destruct topic_generics as (N & O & V). unfold fn_ok. cbn [generics_of fn_filter fn_generics fn_params fn_name fn_ret fn_self fn_body fn_result option_map]. rewrite topics_env.
  rewrite (own_vars N O), topic_oks, P. unfold typed, mapi. rewrite typed_names. rewrite (proj2 (names_ok_iff _) (conj ND K)). change (keyword (lit "filter")) with false. cbn [andb negb app].
  change (rt_of c (map generic_var gs) None (ethabi_ty "TopicFilter")) with (Some SFilter). cbv iota.
  destruct (@topics_record c gs SFilter N V (firstn 3 topics) 0 (firstn 3 tnames) init (env 0 tnames)) as (s' & R & H).
  - rewrite !firstn_length, tnames_length. reflexivity.
  - apply firstn_NoDup, ND.
  - intros i q E. assert (E' : nth_error topics i = Some q).
    { rewrite <- (firstn_skipn 3 topics). rewrite nth_error_app1; [exact E|]. apply nth_error_Some. congruence. }
    split.
    + rewrite forallb_forall in P. apply P, in_map. eapply nth_error_In, E'.
    + destruct (topic_kind _ E') as (y & K1 & Y). exists y. split; [exact Y|]. exact (topic_found _ K1).
  - rewrite <- combine_firstn. exact Ei.
  - intros i n E. exists false. apply env_found; [exact ND|]. rewrite <- (firstn_skipn 3 tnames). rewrite nth_error_app1; [exact E|]. apply nth_error_Some. congruence.
  - rewrite two_lets. change (infer c gs SFilter (EStructDefault (ethabi ["RawTopicFilter"%string]) init (segments ["Default"; "default"]%string)) true (env 0 tnames)) with
      (obind (record c gs SFilter init (env 0 tnames)) (fun '(ts, s1) => obind (default_type (ethabi ["RawTopicFilter"%string]) (segments ["Default"; "default"]%string) ts) (fun t => Some (t, s1)))).
    rewrite R. cbn [obind]. rewrite default_init. cbn [obind tbind].
    set (s1 := (lit "raw", false, SRawFilter, true) :: s').
    assert (TE : tlookup s1 (lit "event") = None <-> ~ In (lit "event") tnames) by (rewrite <- (env_absent tnames 0); exact (H (lit "event"))).
    split.
    + intros F I. destruct (tlookup s1 (lit "event")) eqn:X; [|now apply TE]. cbn [infer] in F. rewrite X in F. discriminate.
    + intros I. rewrite inf_event by now apply TE. cbn [obind]. set (s2 := (lit "e", false, SEvent, true) :: s1).
      assert (U : unnamed s2). { assert (X : tlookup s' (lit "INTERNAL_ERR") = None); [apply H, env_absent, tnames_absent; exists 73; split; [cbn; auto|reflexivity]|exact X]. }
      rewrite inf_expecting with (t := SResult SFilter) (r := SFilter) (s1 := moved s2 (lit "raw")); auto.
Qed.
Lemma any_fits t : fits SAny (srt t) = true.
Proof. destruct t; try reflexivity. cbn [srt]. destruct (size =? 32); reflexivity. Qed.
Lemma wildcard_checked : forallb plain_type (map ep_kind topics) = true -> fn_ok c None (fn_wildcard_filter tnames) = true.
Proof.
  intros P. destruct topic_generics as (N & O & V).
  unfold fn_ok, fn_wildcard_filter. cbn [generics_of fn_generics map names_ok distinct existsb negb andb forallb fn_params fn_name fn_ret fn_self fn_body fn_result mapO app option_map].
  change (keyword (lit "wildcard_filter")) with false. cbn [negb andb]. change (rt_of c [] None (ethabi_ty "TopicFilter")) with (Some SFilter). cbv iota.
  set (args := map (fun _ => EPath (ethabi ["Topic"; "Any"]%string)) tnames).
  assert (S : seqO (fun e s => infer c [] SFilter e true s) args [] = Some (repeat (STopic SAny) (length args), [])).
  { apply seq_same. apply Forall_forall. intros x I. unfold args in I. apply in_map_iff in I as (n & <- & _). reflexivity. }
  change (infer c [] SFilter (EBlock [] (ECall [lit "filter"] args)) true []) with
    (obind (obind (seqO (fun e s => infer c [] SFilter e true s) args []) (fun '(ts, s1) => obind (call_type c [lit "filter"] ts) (fun t => Some (t, s1)))) (fun '(t, s1) => Some (t, tleave [] s1))).
  rewrite S. cbn [obind]. unfold args. rewrite map_length. change (call_type c [lit "filter"] (repeat (STopic SAny) (length tnames))) with (fn_type c (fn_filter gs tnames init) (repeat (STopic SAny) (length tnames))).
  assert (F : fn_type c (fn_filter gs tnames init) (repeat (STopic SAny) (length tnames)) = Some SFilter).
  { unfold fn_type. cbn [fn_self fn_filter negb andb fn_params generics_of fn_generics fn_ret].
    assert (L : length (typed tnames) = length tnames) by (rewrite <- (map_length fst); unfold typed, mapi; now rewrite typed_names).
    rewrite L, repeat_length, Nat.eqb_refl. cbn [andb]. assert (A : forallb (fun x => argument_fits c gs (fst x) (snd (snd x))) (combine (repeat (STopic SAny) (length tnames)) (typed tnames)) = true).
    { apply forallb_forall. intros [t [n y]] I. pose proof (in_combine_l _ _ _ _ I) as I1. apply repeat_spec in I1. subst t. pose proof (in_combine_r _ _ _ _ I) as I2. clear I. cbn [fst snd].
      assert (Z : exists i, (i < length tnames)%nat /\ y = TyName [T i] []).
      { clear -I2. unfold typed, mapi in I2. assert (H : forall l k, In (n, y) (mapi_from (fun index (n : str) => (n, TyName [numbered (lit "T") index] [])) k l) -> exists i, (k <= i < k + length l)%nat /\ y = TyName [T i] []).
        { induction l as [|z l IH]; intros k I; [destruct I|]. cbn [mapi_from length] in *. destruct I as [E|I]; [injection E as _ <-; exists k; split; [lia|reflexivity]|]. destruct (IH _ I) as (i & B & E). exists i. split; [lia|exact E]. }
        destruct (H _ _ I2) as (i & B & E). exists i. split; [lia|exact E]. }
      destruct Z as (i & B & ->). rewrite tnames_length in B. destruct (nth_error topics i) as [q|] eqn:Q; [|apply nth_error_None in Q; lia]. destruct (topic_kind _ Q) as (z & K1 & Y). pose proof (topic_found _ K1) as I.
      pose proof (generic_found gs _ N I : bound_of gs (T i) = _) as BF. unfold argument_fits. cbn [rt_of plain_name].
      assert (X : existsb (str_eqb (T i)) (map generic_var gs) = true) by (apply existsb_exists; exists (T i); split; [exact (in_map generic_name _ _ I)|apply str_eqb_refl]). rewrite X, BF.
      rewrite (@rt_topic c gs V None z (ep_kind q) Y : rt_of c (map generic_var gs) None _ = _). assert (PQ : plain_type (ep_kind q) = true) by (rewrite forallb_forall in P; apply P, in_map; eapply nth_error_In, Q).
      rewrite PQ. cbn [known fits]. rewrite (srt_known true _ PQ). apply any_fits. }
    unfold DeriveTree.ty in *. rewrite A. reflexivity. }
  rewrite F. reflexivity.
Qed.
Lemma next_value r s : tlookup s (lit "log") = Some (true, SIter SLogParam, true) -> unnamed s -> provides c [] r log_next s (fun _ => s).
Proof.
  intros O N pre own R. assert (N' : unnamed (pre ++ s)) by (unfold unnamed; rewrite results_lookup by (exact R || reflexivity); exact N).
  assert (X : forall own, infer c [] r (expecting (tmethod (name "log") "next")) own (pre ++ s) = Some (SLogParam, pre ++ s)).
  { intros o. apply inf_expecting with (t := SOption SLogParam); auto. unfold tmethod, name. cbn [infer seqO]. change (negb (borrowing (lit "next"))) with false. rewrite results_lookup by (exact R || reflexivity). rewrite O. reflexivity. }
  unfold log_next. set (n := expecting (tmethod (name "log") "next")) in *. cbn [infer]. rewrite X. reflexivity.
Qed.
Lemma parse_checked fields declared : forallb plain_type (map ep_kind (e_inputs e)) = true -> local_type camel (logs_items root) = true -> struct_of camel (logs_items root) = Some fields ->
  typed_fields (logs_ctx c) fields = Some declared ->
  fn_ok c None (fn_parse_log camel (combine names to_log)) = fields_fit declared (combine names (map frt (map ep_kind (e_inputs e)))).
Proof.
  intros P Lc Sc Tf. unfold fn_ok, fn_parse_log. cbn [generics_of fn_generics map names_ok distinct existsb negb andb forallb fn_params fn_name fn_ret fn_self fn_body fn_result option_map fst].
  change (keyword (lit "parse_log")) with false. change (keyword (lit "log")) with false. cbn [negb andb orb].
  rewrite mapO_cons. cbn [snd fst]. change (rt_of c [] None (ethabi_ty "RawLog")) with (Some SRawLog). cbn [obind mapO app].
  change (rt_of c [] None (TyName (ethabi ["Result"%string]) [TyName (log_path camel) []])) with (obind (if local_type camel (logs_items root) then Some (SLocal [lit "logs"; camel]) else None) (fun s => Some (SResult s))). rewrite Lc. cbn [obind].
  set (ret := SResult (SLocal [lit "logs"; camel])). rewrite three_lets. rewrite inf_event by reflexivity. cbn [obind tbind].
  match goal with |- context [infer c [] ret (tmethod ?a "into_iter") true ?s] => assert (X : infer c [] ret (tmethod a "into_iter") true s = Some (SIter SLogParam, [(lit "e", false, SEvent, true); (lit "log", false, SRawLog, false)])) by reflexivity end.
  rewrite X. cbn [obind tbind]. set (s := (lit "log", true, SIter SLogParam, true) :: _).
  assert (R : record c [] ret (combine names to_log) s = Some (combine names (map frt (map ep_kind (e_inputs e))), s)).
  { apply record_fields; auto; [exact (@next_value ret s eq_refl eq_refl)|reflexivity|exact enames_length]. }
  change (infer c [] ret (EStruct (log_path camel) (combine names to_log)) true s) with (obind (record c [] ret (combine names to_log) s) (fun '(ts, s1) => obind (struct_type c (log_path camel) ts) (fun t => Some (t, s1)))). rewrite R. cbn [obind].
  change (struct_type c (log_path camel) (combine names (map frt (map ep_kind (e_inputs e))))) with
    (match (if local_type camel (logs_items root) then Some (SLocal [lit "logs"; camel]) else None) with
     | Some (SLocal [m; x]) => if str_eqb m (lit "logs") then obind (struct_of x (logs_items root)) (fun fields => obind (typed_fields (logs_ctx c) fields) (fun declared => if fields_fit declared (combine names (map frt (map ep_kind (e_inputs e)))) then Some (SLocal [m; x]) else None)) else None
     | _ => None end).
  rewrite Lc, str_eqb_refl, Sc. cbn [obind]. rewrite Tf. cbn [obind]. destruct (fields_fit declared _); [|reflexivity]. cbn [obind tbind].
  set (s3 := (lit "result", false, SLocal [lit "logs"; camel], true) :: s). change (infer c [] ret (ECall [lit "Ok"] [name "result"]) true s3) with (Some (ret, moved s3 (lit "result"))). cbn [obind]. unfold ret. cbn [fits]. apply path_eqb_refl.
Qed.
End Module.

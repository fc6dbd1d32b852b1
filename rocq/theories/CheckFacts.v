(** * Checking generated conversions *)
From Verif Require Import Base BaseFacts StrFacts Types Function Event Heck Derive DeriveSpec DeriveFacts DeriveCalls RustSyntax DeriveTree RustCheck.
From Coq Require Import String Lia.
Set Implicit Arguments.
Notation length := List.length.
Local Open Scope N_scope.
Local Open Scope list_scope.

Lemma path_eqb_eq p : forall q, path_eqb p q = true <-> p = q.
Proof.
  induction p as [|x p IH]; intros [|y q]; cbn [path_eqb]; try (split; discriminate || reflexivity). rewrite andb_true_iff, str_eqb_eq, IH. split; [intros [-> ->]; reflexivity|intros E; injection E; auto].
Qed.
Lemma path_eqb_refl p : path_eqb p p = true.
Proof. now apply path_eqb_eq. Qed.
Lemma obind_some A B (a : A) (f : A -> option B) : RustCheck.obind (Some a) f = f a. Proof. reflexivity. Qed.
Lemma obind_inv A B (o : option A) (f : A -> option B) b : RustCheck.obind o f = Some b -> exists a, o = Some a /\ f a = Some b.
Proof. destruct o as [a|]; [exists a; auto|discriminate]. Qed.
Lemma mapO_inv A B (f : A -> option B) l r : mapO f l = Some r <-> Forall2 (fun a b => f a = Some b) l r.
Proof.
  revert r. induction l as [|a l IH]; intros r; cbn [mapO].
  - split; [intros E; injection E as <-; constructor|intros F; inversion F; reflexivity].
  - split.
    + intros E. apply obind_inv in E as (b & Eb & E). apply obind_inv in E as (r' & Er & E). injection E as <-. constructor; [exact Eb|]. now apply IH.
    + intros F. inversion F as [|? b ? r' Eb Er]; subst. rewrite Eb. cbn [RustCheck.obind]. apply IH in Er. fold (mapO f l). rewrite Er. reflexivity.
Qed.

(** ** Types *)
(** The type of the values of a plain type *)
Fixpoint srt (t : ParamType) : rt :=
  match t with
  | PAddress => SAddress | PBytes => SVec SU8 | PInt _ => SInt | PUint _ => SUint | PBool => SBool | PString => SString
  | PFixedBytes n => if n =? 32 then SHash else SArr SU8 n
  | PArray k => SVec (srt k) | PFixedArray k n => SArr (srt k) n | PTuple _ => SUnit
  end.
Lemma srt_not_byte t : srt t <> SU8.
Proof. destruct t; cbn [srt]; try discriminate. destruct (size =? 32); discriminate. Qed.
Lemma srt_known b t : plain_type t = true -> known b (srt t) = true.
Proof. induction t; cbn [plain_type srt known]; intros P; try reflexivity; try discriminate; auto. destruct (size =? 32); reflexivity. Qed.
(** The types found for what is read from tokens: vectors are still open. *)
Fixpoint frt (t : ParamType) : rt := match t with PArray k => SCollect (frt k) | _ => srt t end.
Lemma frt_fits t : plain_type t = true -> fits (frt t) (srt t) = true.
Proof.
  induction t; cbn [plain_type frt srt fits]; intros P; try reflexivity; try discriminate; auto. destruct (size =? 32); [reflexivity|]. cbn [fits]. apply N.eqb_refl.
Qed.
Lemma fits_refl_srt t : plain_type t = true -> fits (srt t) (srt t) = true.
Proof.
  induction t; cbn [plain_type srt fits]; intros P; try reflexivity; try discriminate; auto. destruct (size =? 32); [reflexivity|]. cbn [fits]. apply N.eqb_refl.
Qed.

(** Names of types are not hidden. *)
Definition visible (c : ctx) (vs : list str) (x : string) : Prop := local_type (lit x) (cx_items c) = false /\ existsb (str_eqb (lit x)) vs = false.
Definition seen (c : ctx) (vs : list str) : Prop := forall x, In x ["bool"; "u8"; "String"; "Vec"; "Box"; "str"]%string -> visible c vs x.
Section Types.
Context (c : ctx) (vs : list str) (self : option rt).
Lemma plain_one x : visible c vs x -> plain_name c vs self [lit x] = at_name [lit x] plain_types.
Proof. intros [L V]. unfold plain_name. rewrite V, L. reflexivity. Qed.
Lemma maker_one x : visible c vs x -> maker_name c vs [lit x] = at_name [lit x] type_makers.
Proof. intros [L V]. unfold maker_name. rewrite V, L. reflexivity. Qed.
Lemma rt_bool : seen c vs -> rt_of c vs self (ty "bool") = Some SBool.
Proof. intros S. cbn [ty rt_of]. rewrite plain_one by (apply S; cbn; auto). reflexivity. Qed.
Lemma rt_u8 : seen c vs -> rt_of c vs self (ty "u8") = Some SU8.
Proof. intros S. cbn [ty rt_of]. rewrite plain_one by (apply S; cbn; auto). reflexivity. Qed.
Lemma rt_string : seen c vs -> rt_of c vs self (ty "String") = Some SString.
Proof. intros S. cbn [ty rt_of]. rewrite plain_one by (apply S; cbn; auto). reflexivity. Qed.
Lemma rt_ethabi x : rt_of c vs self (ethabi_ty x) = at_name (ethabi [x]) plain_types.
Proof. reflexivity. Qed.
Lemma rt_type t y : seen c vs -> type_tree t = Ok y -> rt_of c vs self y = if plain_type t then Some (srt t) else None.
Proof.
  intros S. revert y. induction t; intros y E; cbn [type_tree] in E; try discriminate; try (injection E as <-; try rewrite rt_ethabi; cbn [plain_type srt]; first [reflexivity|now apply rt_bool|now apply rt_string]).
  - apply bind_ok in E as (z & Ez & E). injection E as <-. cbn [rt_of]. rewrite maker_one by (apply S; cbn; auto). change (at_name [lit "Vec"] type_makers) with (Some SVec). cbn [RustCheck.obind].
    rewrite (IHt _ Ez). cbn [plain_type srt]. destruct (plain_type t); reflexivity.
  - injection E as <-. destruct (size =? 32) eqn:Q; [rewrite rt_ethabi; cbn [plain_type srt]; rewrite Q; reflexivity|]. cbn [rt_of].
    rewrite rt_u8 by assumption. cbn [RustCheck.obind plain_type srt]. rewrite Q. reflexivity.
  - apply bind_ok in E as (z & Ez & E). injection E as <-. reflexivity.
Qed.
End Types.

(** ** Conversions *)
Section Infer.
Context (c : ctx) (gs : list generic) (ret : rt).
Notation inf := (infer c gs ret).
Lemma inf_method0 e m ts own s t s1 r : str_eqb m (lit "map") = false -> changing m = false -> inf e (negb (borrowing m)) s = Some (t, s1) -> method_type c gs t m ts [] = Some r ->
  inf (EMethod e m ts []) own s = Some (r, s1).
Proof. intros M C E R. cbn [infer]. rewrite E. cbn [RustCheck.obind]. rewrite M. cbn [seqO RustCheck.obind]. rewrite R. cbn [RustCheck.obind]. rewrite C. reflexivity. Qed.
Lemma inf_method0_none e m ts own s : inf e (negb (borrowing m)) s = None -> inf (EMethod e m ts []) own s = None.
Proof. intros E. cbn [infer]. rewrite E. reflexivity. Qed.
Lemma inf_call1 x y q e own s t s1 r : inf e true s = Some (t, s1) -> call_type c (x :: y :: q) [t] = Some r -> inf (ECall (x :: y :: q) [e]) own s = Some (r, s1).
Proof. intros E R. cbn [infer seqO]. rewrite E. cbn [RustCheck.obind]. rewrite R. reflexivity. Qed.
(** What takes no account of who owns it *)
Definition yields (e : expr) (s : tenv) (t : rt) (f : bool -> tenv) : Prop := forall own, inf e own s = Some (t, f own).
Lemma yields_name x s m t : tlookup s x = Some (m, t, true) -> yields (EPath [x]) s t (fun own => if own && negb (RustCheck.copied t) then moved s x else s).
Proof. intros E own. cbn [infer]. rewrite E. reflexivity. Qed.
Lemma yields_into x s m v g t : tlookup s x = Some (m, SVar v, true) -> bound_of gs v = Some (GInto g t) ->
  forall r, rt_of c (vars gs) None t = Some r -> yields (DeriveTree.method (EPath [x]) "into") s r (fun _ => moved s x).
Proof.
  intros E B r R own. apply inf_method0 with (t := SVar v); try reflexivity.
  - cbn [infer]. rewrite E. reflexivity.
  - cbn [method_type]. change (str_eqb (lit "into") (lit "collect")) with false. change (str_eqb (lit "into") (lit "into")) with true. cbn [into]. rewrite B. exact R.
Qed.
Lemma call_token s t : In (s, t) [("Address", SAddress); ("Bytes", SVec SU8); ("FixedBytes", SVec SU8); ("Int", SInt); ("Uint", SUint); ("Bool", SBool); ("String", SString)]%string ->
  call_type c (token s) [t] = Some SToken.
Proof. intros I. cbn [In] in I. repeat (destruct I as [I|I]; [injection I as <- <-; reflexivity|]). destruct I. Qed.
Lemma call_tokens s t : In s ["Array"; "FixedArray"]%string -> fits t (SVec SToken) = true -> call_type c (token s) [t] = Some SToken.
Proof.
  intros I F. cbn [In] in I. repeat (destruct I as [I|I]; [subst s|]); try destruct I;
    match goal with |- call_type c ?q _ = _ => change (call_type c q [t]) with (if fits t (SVec SToken) && true then Some SToken else None) end; rewrite F; reflexivity.
Qed.
Lemma tleave_same s : tleave s s = s.
Proof. unfold tleave. rewrite Nat.sub_diag. reflexivity. Qed.
Lemma moved_length s x : length (moved s x) = length s.
Proof. induction s as [|[[[y m] t] h] s IH]; [reflexivity|]. cbn [moved]. destruct (str_eqb x y); cbn [length]; congruence. Qed.
Lemma inf_token_block k e inner own s t t' s1 : In k ["Array"; "FixedArray"]%string -> length s1 = length s ->
  inf e true s = Some (SVec t, s1) -> t <> SU8 -> (exists s', inf inner true ((lit "inner", false, t, true) :: lost s1) = Some (t', s')) -> fits t' SToken = true ->
  inf (token_block k e inner) own s = Some (SToken, s1).
Proof.
  intros K L E B (s' & I) F. unfold token_block. cbn [infer].
  assert (M : inf (DeriveTree.method e "into_iter") true s = Some (SIter t, s1)).
  { apply inf_method0 with (t := SVec t); try reflexivity; [exact E|]. change (method_type c gs (SVec t) (lit "into_iter") [] []) with (RustCheck.obind (items_of gs (SVec t)) (fun a => Some (SIter a))).
    destruct t; try reflexivity. destruct (B eq_refl). }
  assert (M2 : inf (DeriveTree.method (EMap (DeriveTree.method e "into_iter") (lit "inner") inner) "collect") true s = Some (SCollect t', s1)).
  { apply inf_method0 with (t := SIter t'); try reflexivity; [|destruct t'; try reflexivity; discriminate]. cbn [infer] in M |- *. rewrite M. cbn [RustCheck.obind]. rewrite I. reflexivity. }
  change (snd (Let (lit "v"), DeriveTree.method (EMap (DeriveTree.method e "into_iter") (lit "inner") inner) "collect")) with (DeriveTree.method (EMap (DeriveTree.method e "into_iter") (lit "inner") inner) "collect").
  rewrite M2. cbn [RustCheck.obind fst tbind]. unfold token, ethabi, name. cbn [segments map].
  cbn [infer seqO tlookup]. rewrite str_eqb_refl. cbn [RustCheck.copied negb andb RustCheck.obind].
  change [lit "ethabi"; lit "Token"; lit k] with (token k). rewrite call_tokens by (assumption || (cbn [fits]; exact F)). cbn [RustCheck.obind moved]. rewrite str_eqb_refl.
  unfold tleave. cbn [length]. rewrite L. replace (S (length s) - length s)%nat with 1%nat by lia. reflexivity.
Qed.
Lemma lost_none s x : tlookup s x = None -> tlookup (lost s) x = None.
Proof. induction s as [|[[[y m] t] h] s IH]; [reflexivity|]. cbn [lost map tlookup]. destruct (str_eqb x y); [discriminate|exact IH]. Qed.
Lemma lost_length s : length (lost s) = length s.
Proof. apply map_length. Qed.
(** The variable of a closure *)
Lemma closure_yields x t s : yields (EPath [x]) ((x, false, t, true) :: s) t (fun own => (x, false, t, negb (own && negb (RustCheck.copied t))) :: s).
Proof. intros own. cbn [infer tlookup moved]. rewrite str_eqb_refl. destruct (own && negb (RustCheck.copied t)); reflexivity. Qed.
Lemma closure_length x (t : rt) (h : bool -> bool) (s : tenv) (b : bool) : length ((x, false, t, h b) :: s) = length ((x, false, t, true) :: s).
Proof. reflexivity. Qed.
Lemma inf_to_token t : plain_type t = true -> forall e e' own s f, to_token_tree e t = Ok e' -> (forall b, length (f b) = length s) -> yields e s (srt t) f ->
  exists b, inf e' own s = Some (SToken, f b).
Proof.
  induction t; intros P e e' own s f E L Y; cbn [plain_type] in P; try discriminate; cbn [to_token_tree] in E;
    try (injection E as <-; exists true; apply inf_call1 with (t := srt _) (1 := Y true); apply call_token; cbn [In srt]; auto 10; fail).
  - apply bind_ok in E as (inner & Ei & E). injection E as <-. exists true. apply inf_token_block with (t := srt t) (t' := SToken); cbn [In]; auto using srt_not_byte.
    destruct (IHt P (name "inner") inner true _ _ Ei (closure_length _ _ _ _) (@closure_yields (lit "inner") (srt t) (lost (f true)))) as [b H]. eauto.
  - injection E as <-. exists false. apply inf_call1 with (t := SVec SU8); [|apply call_token; cbn [In]; auto 10].
    apply inf_method0 with (t := SRef (SSlice SU8)); try reflexivity. apply inf_method0 with (t := srt (PFixedBytes size)); try reflexivity; [exact (Y false)|].
    cbn [srt]. destruct (size =? 32); reflexivity.
Qed.
(** *** From tokens *)
Definition unnamed (s : tenv) : Prop := tlookup s (lit "INTERNAL_ERR") = None.
Lemma inf_internal own s : cx_err c = true -> unnamed s -> inf internal_err own s = Some (SRef SStr, s).
Proof. intros C U. unfold internal_err, name. cbn [infer]. unfold unnamed in U. rewrite U, C. reflexivity. Qed.
Lemma inf_expecting e own s t r s1 : cx_err c = true -> t = SOption r \/ t = SResult r -> inf e true s = Some (t, s1) -> unnamed s1 -> inf (expecting e) own s = Some (r, s1).
Proof.
  intros C T E U. unfold expecting. cbn [infer]. change (negb (borrowing (lit "expect"))) with true. rewrite E. cbn [RustCheck.obind]. change (str_eqb (lit "expect") (lit "map")) with false.
  cbn [seqO]. cbv iota. rewrite inf_internal by assumption. cbn [RustCheck.obind]. destruct T as [-> | ->]; reflexivity.
Qed.
Definition results (pre : tenv) : Prop := Forall (fun b => fst (fst (fst b)) = lit "result") pre.
Definition provides (e : expr) (s : tenv) (f : bool -> tenv) : Prop := forall pre own, results pre -> inf e own (pre ++ s) = Some (SToken, pre ++ f own).
Lemma provides_here e s f own : provides e s f -> inf e own s = Some (SToken, f own).
Proof. intros H. exact (H [] own (Forall_nil _)). Qed.
Lemma inf_into e s f m t own : cx_err c = true -> In (m, t) token_methods -> provides e s f -> unnamed (f true) ->
  inf (expecting (DeriveTree.method e m)) own s = Some (t, f true).
Proof.
  intros C I Y U. apply inf_expecting with (t := SOption t); auto.
  pose proof (provides_here true Y) as H. cbn [In token_methods] in I.
  repeat (destruct I as [I|I]; [injection I as <- <-; apply inf_method0 with (t := SToken); auto|]). destruct I.
Qed.
Lemma results_lookup pre s x : results pre -> str_eqb x (lit "result") = false -> tlookup (pre ++ s) x = tlookup s x.
Proof. intros R N. induction R as [|[[[y m] t] h] pre E R IH]; [reflexivity|]. cbn [fst app tlookup] in *. subst y. rewrite N. exact IH. Qed.
Lemma results_moved pre s x : results pre -> str_eqb x (lit "result") = false -> moved (pre ++ s) x = pre ++ moved s x.
Proof. intros R N. induction R as [|[[[y m] t] h] pre E R IH]; [reflexivity|]. cbn [fst app moved] in *. subst y. rewrite N, IH. reflexivity. Qed.
Lemma inf_copied size e s f result t own : cx_err c = true -> provides e s f -> unnamed (f true) -> length (f true) = length s ->
  (forall s', let s2 := (lit "v", false, SVec SU8, true) :: (lit "result", true, SArr SU8 size, true) :: s' in inf result true s2 = Some (t, s2)) ->
  inf (DeriveTree.copied size e result) own s = Some (t, f true).
Proof.
  intros C Y U L R. unfold DeriveTree.copied. cbn [infer].
  change (snd (LetMut (lit "result"), ERepeat (ENum 0 (lit "u8")) size)) with (ERepeat (ENum 0 (lit "u8")) size).
  cbn [infer]. change (str_eqb (lit "u8") (lit "usize")) with false. change (str_eqb (lit "u8") (lit "u8")) with true. cbn [RustCheck.obind tbind fst snd].
  assert (Y' : provides e ((lit "result", true, SArr SU8 size, true) :: s) (fun own => (lit "result", true, SArr SU8 size, true) :: f own)).
  { intros pre own' H. rewrite (app_assoc pre [_] s : pre ++ _ :: s = _), (app_assoc pre [_] (f own') : pre ++ _ :: f own' = _). apply Y. apply Forall_app. split; [exact H|]. constructor; [reflexivity|constructor]. }
  rewrite (inf_into (m := "into_fixed_bytes") (t := SVec SU8) true C) with (2 := Y'); [|cbn; auto|exact U]. cbn [RustCheck.obind tbind fst snd].
  set (s2 := (lit "v", false, SVec SU8, true) :: (lit "result", true, SArr SU8 size, true) :: f true).
  assert (K : inf (EMethod (name "result") (lit "copy_from_slice") [] [ERef (name "v")]) true s2 = Some (SUnit, s2)) by reflexivity.
  rewrite K. cbn [RustCheck.obind]. pose proof (R (f true)) as H. cbv zeta in H. fold s2 in H. rewrite H. cbn [RustCheck.obind]. unfold s2, tleave. cbn [length]. rewrite L.
  replace (S (S (length s)) - length s)%nat with 2%nat by lia. reflexivity.
Qed.
Lemma inf_from_token t : cx_err c = true -> plain_type t = true -> forall e e' own s f, from_token_tree t e = Ok e' -> provides e s f -> unnamed (f true) -> length (f true) = length s ->
  inf e' own s = Some (frt t, f true).
Proof.
  intros C. induction t; intros P e e' own s f E Y U L; cbn [plain_type] in P; try discriminate; cbn [from_token_tree] in E;
    try (injection E as <-; cbn [frt srt]; apply inf_into; auto; cbn; auto 12; fail).
  - apply bind_ok in E as (inner & Ei & E). injection E as <-. cbn [frt].
    apply inf_method0 with (t := SIter (frt t)); try reflexivity; [|destruct t; try reflexivity; try discriminate P; cbn [frt srt]; destruct (size =? 32); reflexivity]. cbn [infer].
    assert (M : inf (DeriveTree.method (expecting (DeriveTree.method e "into_array")) "into_iter") true s = Some (SIter SToken, f true)).
    { apply inf_method0 with (t := SVec SToken); try reflexivity. apply inf_into; auto. cbn; auto 12. }
    cbn [infer] in M |- *. rewrite M. cbn [RustCheck.obind].
    rewrite (IHt P (name "inner") inner true ((lit "inner", false, SToken, true) :: lost (f true)) (fun own => (lit "inner", false, SToken, negb own) :: lost (f true)) Ei); try reflexivity; [|unfold unnamed; cbn [tlookup]; exact (lost_none _ _ U)].
    intros pre own' H. unfold name. cbn [infer]. rewrite results_lookup by (exact H || reflexivity). cbn [tlookup]. rewrite str_eqb_refl. cbn [RustCheck.copied negb]. rewrite andb_true_r.
    destruct own'; [|reflexivity]. rewrite results_moved by (exact H || reflexivity). reflexivity.
  - injection E as <-. cbn [frt srt]. destruct (size =? 32) eqn:Q.
    + apply inf_copied; auto.
    + apply inf_copied; auto.
Qed.
(** *** Types and parameters as expressions *)
Lemma inf_box e own s t s1 : sized t = true -> inf e true s = Some (t, s1) -> inf (box_new e) own s = Some (SBox t, s1).
Proof.
  intros S E. unfold box_new. cbn [infer segments map seqO]. rewrite E. cbn [RustCheck.obind]. change (call_type c [lit "Box"; lit "new"] [t]) with (if sized t then Some (SBox t) else None). rewrite S. reflexivity.
Qed.
Lemma inf_usize n own s : inf (usize n) own s = Some (SUsize, s).
Proof. reflexivity. Qed.
Lemma inf_syntax t e : syntax_tree t = Ok e -> forall own s, inf e own s = Some (SKind, s).
Proof.
  revert e. induction t; intros e E own s; cbn [syntax_tree] in E; try discriminate; try (injection E as <-; reflexivity).
  - apply bind_ok in E as (k & Ek & E). injection E as <-. unfold param_type, ethabi. cbn [segments map infer seqO]. rewrite (@inf_box k true s SKind s eq_refl (IHt _ Ek true s)). reflexivity.
  - apply bind_ok in E as (k & Ek & E). injection E as <-. unfold param_type, ethabi. cbn [segments map infer seqO]. rewrite (@inf_box k true s SKind s eq_refl (IHt _ Ek true s)). cbn [RustCheck.obind].
    rewrite inf_usize. reflexivity.
Qed.
Lemma inf_owned x own s : inf (DeriveTree.method (EStr x) "to_owned") own s = Some (SString, s).
Proof. reflexivity. Qed.
Definition none_free (s : tenv) : Prop := tlookup s (lit "None") = None.
Lemma inf_param q e : param_tree q = Ok e -> forall own s, none_free s -> inf e own s = Some (SParam, s).
Proof.
  intros E own s U. unfold param_tree in E. apply bind_ok in E as (k & Ek & E). injection E as <-. cbn [infer seqO snd fst]. rewrite inf_owned. cbn [RustCheck.obind].
  rewrite (inf_syntax _ Ek). cbn [RustCheck.obind]. unfold name. cbn [infer]. unfold none_free in U. rewrite U. reflexivity.
Qed.
Lemma inf_event_param q e : event_param_tree q = Ok e -> forall own s, inf e own s = Some (SEventParam, s).
Proof.
  intros E own s. unfold event_param_tree in E. apply bind_ok in E as (k & Ek & E). injection E as <-. cbn [infer seqO snd fst]. rewrite inf_owned. cbn [RustCheck.obind].
  rewrite (inf_syntax _ Ek). reflexivity.
Qed.
Lemma seq_same l s t : Forall (fun e => inf e true s = Some (t, s)) l -> seqO (fun e s => inf e true s) l s = Some (repeat t (length l), s).
Proof.
  induction 1 as [|e l E F IH]; [reflexivity|]. cbn [seqO]. rewrite E. cbn [RustCheck.obind]. fold (seqO (fun e s => inf e true s)). rewrite IH. reflexivity.
Qed.
Lemma common_repeat t n : t <> SU8 -> fits t t = true -> common (repeat t n) = Some (match n with O => SAny | _ => t end).
Proof.
  intros B F. destruct n as [|n]; [reflexivity|]. cbn [repeat]. assert (G : forallb (fun t' => fits t' t) (repeat t n) = true).
  { apply forallb_forall. intros x I. apply repeat_spec in I. subst x. exact F. }
  unfold common. rewrite G. destruct t; try reflexivity. destruct (B eq_refl).
Qed.
Lemma inf_vec l s t own : t <> SU8 -> fits t t = true -> Forall (fun e => inf e true s = Some (t, s)) l ->
  exists r, inf (EVec l) own s = Some (SVec r, s) /\ (r = t \/ r = SAny).
Proof.
  intros B R F. cbn [infer]. rewrite (seq_same F). cbn [RustCheck.obind]. rewrite common_repeat by assumption. cbn [RustCheck.obind]. eexists. split; [reflexivity|]. destruct (length l); auto.
Qed.
Lemma inf_params l e own s : params_tree l = Ok e -> none_free s -> exists r, inf e own s = Some (SVec r, s) /\ (r = SParam \/ r = SAny).
Proof.
  intros E U. unfold params_tree in E. apply bind_ok in E as (es & Es & E). injection E as <-. apply inf_vec; [discriminate|reflexivity|].
  apply mapM_ok in Es. induction Es as [|q x l es Q _ IH]; constructor; auto. now apply inf_param with (1 := Q).
Qed.
Lemma inf_event_params l es own s : mapM event_param_tree l = Ok es -> exists r, inf (EVec es) own s = Some (SVec r, s) /\ (r = SEventParam \/ r = SAny).
Proof.
  intros Es. apply inf_vec; [discriminate|reflexivity|].
  apply mapM_ok in Es. induction Es as [|q x l es Q _ IH]; constructor; auto. now apply inf_event_param with (1 := Q).
Qed.
End Infer.

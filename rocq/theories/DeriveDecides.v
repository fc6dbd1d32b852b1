(** * The compiler's view of whole contracts, decided by running *)
From Verif Require Import Base BaseFacts StrFacts Types TypeNames Tokenizer AbiSpec Function Event EventSpec Contract Heck Derive DeriveSpec DeriveFacts DeriveCalls DeriveEvents DeriveAccepts
  FilterFacts RustSyntax DeriveTree RustEval GeneratedSpec DeriveRun DeriveModules DeriveLogs DeriveGenerated DeriveRefused.
From Verif Require DeriveText DeriveTextFacts.
From Coq Require Import String Lia.
Set Implicit Arguments.
Notation length := List.length.
Local Open Scope N_scope.
Local Open Scope list_scope.

(** ** Parts of a list *)
Lemma all_or_one A B (t : A -> res B) (P : A -> Prop) (R : B -> Prop) l is : (forall a b, t a = Ok b -> P a \/ R b) -> mapM t l = Ok is -> Forall P l \/ Exists R is.
Proof.
  intros H E. apply mapM_ok in E. induction E as [ | a b l is E _ IH ]; [ left; constructor | ]. destruct (H _ _ E) as [ X | X ]; [ | right; left; exact X ].
  destruct IH as [ Y | Y ]; [ left; constructor; assumption | right; right; exact Y ].
Qed.
Definition item_names (l : list item) : list str := flat_map (fun j => match item_name j with Some n => [n] | None => [] end) l.
Lemma tree_names A (t : A -> res item) (g : A -> str) l is : (forall a i, t a = Ok i -> item_name i = Some (g a)) -> mapM t l = Ok is -> item_names is = map g l.
Proof. intros H E. apply mapM_ok in E. induction E as [ | a i l is E _ IH ]; [ reflexivity | ]. unfold item_names in *. cbn [flat_map map]. rewrite (H _ _ E), IH. reflexivity. Qed.
Lemma function_name f i : function_tree f = Ok i -> item_name i = Some (to_snake_case (f_name f)).
Proof. intros E. destruct (function_inv _ E) as (? & ? & ? & ? & ? & ? & ? & -> & _). reflexivity. Qed.
Lemma event_name e i : event_tree e = Ok i -> item_name i = Some (to_snake_case (e_name e)).
Proof.
  unfold event_tree. intros E. do 5 apply bind_ok in E as (? & _ & E). apply bind_ok in E as (m & Em & E). apply bind_ok in E as (? & _ & E). injection E as <-. apply ident_ok in Em as [ -> _ ]. reflexivity.
Qed.
Lemma log_name e i : log_tree e = Ok i -> item_name i = Some (to_camel_case (e_name e)).
Proof. unfold log_tree. intros E. do 2 apply bind_ok in E as (? & _ & E). apply bind_ok in E as (m & Em & E). injection E as <-. apply ident_ok in Em as [ -> _ ]. reflexivity. Qed.
Lemma NoDup_decided (l : list str) : NoDup l \/ ~ NoDup l.
Proof. destruct (distinct l) eqn:E; [ left; apply distinct_NoDup; exact E | right; intros N; apply distinct_NoDup in N; congruence ]. Qed.

(** ** Types of the standard library *)
Lemma mentions_string t y : type_tree t = Ok y -> (mentions_name (lit "String") y <-> string_inside t).
Proof.
  revert y. induction t using ParamType_ind'; intros y E; cbn [type_tree string_inside] in *; try discriminate;
    try (injection E as <-; cbn; intuition discriminate).
  - apply bind_ok in E as (z & Ez & E). injection E as <-. change (mentions_name (lit "String") (TyName (segments ["Vec"%string]) [z])) with (segments ["Vec"%string] = [lit "String"] \/ (mentions_name (lit "String") z \/ False)).
    destruct (IHt _ Ez) as [ A B ]. split; [ intros [ X | [ X | [] ] ]; [ discriminate | exact (A X) ] | intros X; right; left; exact (B X) ].
  - injection E as <-. match goal with |- context [if ?b then _ else _] => destruct b end; cbn; intuition discriminate.
  - apply bind_ok in E as (z & Ez & E). injection E as <-. cbn. tauto.
Qed.
Lemma mentions_vec t y : type_tree t = Ok y -> (mentions_name (lit "Vec") y <-> exists t', t = PArray t').
Proof.
  destruct t; intros E; cbn [type_tree] in *; try discriminate; try (injection E as <-; cbn; split; [ intuition discriminate | intros [ ? X ]; discriminate ]).
  - apply bind_ok in E as (z & Ez & E). injection E as <-. split; [ eauto | left; reflexivity ].
  - injection E as <-. match goal with |- context [if ?b then _ else _] => destruct b end; cbn; (split; [ intuition discriminate | intros [ ? X ]; discriminate ]).
  - apply bind_ok in E as (z & Ez & E). injection E as <-. cbn. split; [ tauto | intros [ ? X ]; discriminate ].
Qed.
Lemma fields_types (names : list str) (types : list RustSyntax.ty) : length names = length types -> map fst (combine names types) = names /\ map snd (combine names types) = types.
Proof. revert types. induction names as [ | n names IH ]; intros [ | t types ] L; try discriminate; [ auto | ]. cbn [combine map fst snd]. destruct (IH types) as [ -> -> ]; [ injection L; auto | auto ]. Qed.
Lemma log_inv e i : log_tree e = Ok i -> exists derives names types,
  i = IStruct derives (to_camel_case (e_name e)) (combine names types) /\ map fst (combine names types) = names /\ map snd (combine names types) = types /\
  field_names (e_inputs e) = Ok names /\ mapM (fun q => type_tree (ep_kind q)) (e_inputs e) = Ok types.
Proof.
  unfold log_tree. intros E. apply bind_ok in E as (names & En & E). apply bind_ok in E as (types & Et & E). apply bind_ok in E as (m & Em & E). injection E as <-. apply ident_ok in Em as [ -> _ ].
  assert (L : length names = length types) by (rewrite (DeriveTextFacts.field_names_length _ En), (DeriveTextFacts.mapM_length _ _ Et); reflexivity).
  destruct (fields_types names types L) as [ F1 F2 ]. eexists _, names, types. eauto 10.
Qed.
Lemma mapM_in_r A B (f : A -> res B) l r y : mapM f l = Ok r -> In y r -> exists x, In x l /\ f x = Ok y.
Proof. intros E I. apply mapM_ok in E. induction E as [ | a b l r E _ IH ]; [ destruct I | ]. destruct I as [ -> | I ]; [ exists a; split; [ left; reflexivity | exact E ] | destruct (IH I) as (x & J & X); exists x; split; [ right; exact J | exact X ] ]. Qed.
Lemma mapM_in_l A B (f : A -> res B) l r x : mapM f l = Ok r -> In x l -> exists y, In y r /\ f x = Ok y.
Proof. intros E I. apply mapM_ok in E. induction E as [ | a b l r E _ IH ]; [ destruct I | ]. destruct I as [ -> | I ]; [ exists b; split; [ left; reflexivity | exact E ] | destruct (IH I) as (y & J & X); exists y; split; [ right; exact J | exact X ] ]. Qed.
Lemma hidden_iff es logs : mapM log_tree es = Ok logs ->
  (hidden_type logs <-> exists e e' q, In e es /\ In e' es /\ In q (e_inputs e') /\
     (to_camel_case (e_name e) = lit "String" /\ string_inside (ep_kind q) \/ to_camel_case (e_name e) = lit "Vec" /\ exists t, ep_kind q = PArray t)).
Proof.
  intros E. split.
  - intros (x & derives & fields & i & X & I & J & M). apply (@mapM_in_r _ _ _ _ _ _ E) in I as (e & Ie & Te). apply (@mapM_in_r _ _ _ _ _ _ E) in J as (e' & Ie' & Te').
    apply log_inv in Te as (? & names & types & Q & _). injection Q as -> -> _. apply log_inv in Te' as (? & names' & types' & -> & _ & Ft & _ & Et). rewrite Ft in M.
    apply Exists_exists in M as (t & It & M). apply (@mapM_in_r _ _ _ _ _ _ Et) in It as (q & Iq & Tq). exists e, e', q. split; [ exact Ie | split; [ exact Ie' | split; [ exact Iq | ] ] ].
    destruct X as [ X | [ X | [] ] ]; rewrite <- X in *; [ left; split; [ reflexivity | apply (mentions_string _ Tq); exact M ] | right; split; [ reflexivity | apply (mentions_vec _ Tq); exact M ] ].
  - intros (e & e' & q & I & J & Iq & X). apply (@mapM_in_l _ _ _ _ _ _ E) in I as (i & Ii & Te). apply (@mapM_in_l _ _ _ _ _ _ E) in J as (j & Ij & Te').
    apply log_inv in Te as (derives & names & types & -> & _). apply log_inv in Te' as (? & names' & types' & -> & _ & Ft & _ & Et). apply (@mapM_in_l _ _ _ _ _ _ Et) in Iq as (t & It & Tt).
    exists (to_camel_case (e_name e)), derives, (combine names types), (IStruct x (to_camel_case (e_name e')) (combine names' types')).
    split; [ destruct X as [ [ -> _ ] | [ -> _ ] ]; cbn; auto | ]. split; [ exact Ii | split; [ exact Ij | ] ]. rewrite Ft. apply Exists_exists. exists t. split; [ exact It | ].
    destruct X as [ [ -> X ] | [ -> X ] ]; [ apply (mentions_string _ Tt); exact X | apply (mentions_vec _ Tt); exact X ].
Qed.

Section Profile.
Context (p : profile).
Lemma events_refused l is js : mapM event_tree l = Ok is -> mapM log_tree l = Ok js -> Forall (fun e => exists d, derive_event p e = Ok d) l \/ Exists (refused_event p) is \/ Exists refused_struct js.
Proof.
  intros E L. apply mapM_ok in E, L. revert js L. induction E as [ | e i l is E _ IH ]; intros js L; inversion L as [ | ? j ? js' Ej L' ]; subst; [ left; constructor | ].
  destruct (event_refused p _ E Ej) as [ X | [ X | X ] ]; [ | right; left; left; exact X | right; right; left; exact X ].
  destruct (IH _ L') as [ Y | [ Y | Y ] ]; [ left; constructor; assumption | right; left; right; exact Y | right; right; right; exact Y ].
Qed.
Lemma contract_tree_inv c fs es items : contract_tree c fs es = Ok items -> exists k functions events logs uses doc1 doc2 doc3 use1 use2 use3,
  items = map IUse uses ++ [IConst (lit "INTERNAL_ERR") (TyStatic (ty "str")) (lit "`ethabi_derive` internal error")] ++ k ++
    [IMod doc1 (lit "functions") (map IUse use1 ++ functions); IMod doc2 (lit "events") (map IUse use2 ++ events); IMod doc3 (lit "logs") (map IUse use3 ++ logs)] /\
  match c_constructor c with None => k = [] | Some x => exists i, constructor_tree x = Ok i /\ k = [i] end /\
  mapM function_tree (iterate fs) = Ok functions /\ mapM event_tree (iterate es) = Ok events /\ mapM log_tree (iterate es) = Ok logs.
Proof.
  unfold contract_tree. intros E. apply bind_ok in E as (k & Ek & E). apply bind_ok in E as (fi & Ef & E). apply bind_ok in E as (ei & Ee & E). apply bind_ok in E as (li & El & E). injection E as <-.
  exists k, fi, ei, li, [segments ["ethabi"%string]]. do 3 eexists. exists [segments ["super"; "INTERNAL_ERR"]%string], [segments ["super"; "INTERNAL_ERR"]%string], [segments ["super"; "INTERNAL_ERR"]%string; segments ["ethabi"%string]].
  split; [ reflexivity | ]. split; [ | auto ]. destruct (c_constructor c); [ apply bind_ok in Ek as (i & Ei & Ek); injection Ek as <-; eauto | injection Ek as <-; reflexivity ].
Qed.
Lemma item_names_use uses l : item_names (map IUse uses ++ l) = item_names l.
Proof. induction uses as [ | u uses IH ]; [ reflexivity | exact IH ]. Qed.
Lemma Exists_use (P : item -> Prop) uses l : Exists P l -> Exists P (map IUse uses ++ l).
Proof. intros H. apply Exists_app. right. exact H. Qed.
Lemma contract_refused c fs es items : contract_tree c fs es = Ok items -> (exists d, derive_contract p c fs es = Ok d) \/ refused_code p items.
Proof.
  intros E. destruct (contract_tree_inv _ _ _ E) as (k & functions & events & logs & uses & doc1 & doc2 & doc3 & use1 & use2 & use3 & -> & K & Ef & Ee & El).
  unfold refused_code.
  match goal with |- _ \/ Exists ?P (_ ++ _ ++ k ++ [?a; ?b; ?c]) => set (R := P); set (i1 := a); set (i2 := b); set (i3 := c) end.
  assert (W : forall i, (In i k \/ i = i1 \/ i = i2 \/ i = i3) -> R i -> Exists R (map IUse uses ++ [IConst (lit "INTERNAL_ERR") (TyStatic (ty "str")) (lit "`ethabi_derive` internal error")] ++ k ++ [i1; i2; i3])).
  { intros i H Ri. apply Exists_exists. exists i. split; [ | exact Ri ]. apply in_app_iff. right. apply in_app_iff. right. apply in_app_iff. destruct H as [ H | [ -> | [ -> | -> ] ] ]; [ left; exact H | right; left; reflexivity | right; right; left; reflexivity | right; right; right; left; reflexivity ]. }
  destruct (@all_or_one _ _ function_tree _ _ _ _ (function_refused p) Ef) as [ F | F ]; [ | right; apply (W i1); [ auto | right; left; split; [ reflexivity | apply Exists_use; exact F ] ] ].
  destruct (events_refused _ Ee El) as [ V | [ V | V ] ];
    [ | right; apply (W i2); [ auto | right; right; left; split; [ reflexivity | apply Exists_use; exact V ] ] | right; apply (W i3); [ auto | right; right; right; split; [ reflexivity | left; apply Exists_use; exact V ] ] ].
  assert (Kc : (forall x, c_constructor c = Some x -> exists d, derive_constructor p x = Ok d) \/ exists f, k = [IFn f] /\ refused_constructor p (IFn f)).
  { destruct (c_constructor c) as [ x | ]; [ | left; discriminate ]. destruct K as (i & Ei & ->). destruct (constructor_refused p _ Ei) as [ X | X ]; [ left; intros y Y; injection Y as <-; exact X | right ].
    destruct (constructor_inv _ Ei) as (? & ? & ? & ? & -> & _). eauto. }
  destruct Kc as [ Kc | (f & -> & X) ]; [ | right; apply (W (IFn f)); [ left; left; reflexivity | exact X ] ].
  pose proof (@tree_names _ _ _ _ _ function_name Ef) as N1. pose proof (@tree_names _ _ _ _ _ event_name Ee) as N2. pose proof (@tree_names _ _ _ _ _ log_name El) as N3.
  destruct (NoDup_decided (map (fun f => to_snake_case (f_name f)) (iterate fs))) as [ D1 | D1 ]; [ | right; apply (W i1); [ auto | left; fold (item_names (map IUse use1 ++ functions)); rewrite item_names_use, N1; exact D1 ] ].
  destruct (NoDup_decided (map (fun e => to_snake_case (e_name e)) (iterate es))) as [ D2 | D2 ]; [ | right; apply (W i2); [ auto | left; fold (item_names (map IUse use2 ++ events)); rewrite item_names_use, N2; exact D2 ] ].
  destruct (NoDup_decided (map (fun e => to_camel_case (e_name e)) (iterate es))) as [ D3 | D3 ]; [ | right; apply (W i3); [ auto | left; fold (item_names (map IUse use3 ++ logs)); rewrite item_names_use, N3; exact D3 ] ].
  pose proof V as V0. apply mapM_exists in V as [ ds V ]. pose proof (proj1 (mapM_ok _ _ _) V) as V'.
  destruct (existsb (hides (map de_fields ds)) (map (fun e => to_camel_case (e_name e)) (iterate es))) eqn:H.
  - right. apply (W i3); [ auto | right; right; right; split; [ reflexivity | right ] ]. apply existsb_exists in H as (n & In_ & H). apply in_map_iff in In_ as (e & <- & Ie). apply (@hides_iff p _ _ _ V') in H as (e' & q & I' & Iq & X).
    assert (Y : hidden_type logs) by (apply (hidden_iff _ El); exists e, e', q; auto). destruct Y as (x & derives & fields & i & Z1 & Z2 & Z3 & Z4). exists x, derives, fields, i.
    split; [ exact Z1 | split; [ apply in_app_iff; right; exact Z2 | split; [ apply in_app_iff; right; exact Z3 | exact Z4 ] ] ].
  - left. apply contract_exact. split; [ exact Kc | split; [ exact F | split; [ exact V0 | ] ] ]. repeat (split; [ assumption | ]). intros e e' q I I' J.
    split; intros X; (assert (Y : existsb (hides (map de_fields ds)) (map (fun e => to_camel_case (e_name e)) (iterate es)) = true); [ | congruence ]);
      apply existsb_exists; exists (to_camel_case (e_name e)); (split; [ apply in_map_iff; eauto | ]); apply (@hides_iff p _ _ _ V'); exists e', q; auto.
Qed.

(** ** What is derived is not refused *)
Lemma type_inhabited t y : plain_type t = true -> rust_type t = Ok y -> exists v, of_type y v.
Proof.
  destruct t; intros P E; cbn [plain_type rust_type] in *; try discriminate; try (injection E as <-).
  - exists (RAddress (repeat x00 20)). eexists. split; [ | reflexivity ]. reflexivity.
  - exists (RBytes []). eexists. reflexivity.
  - exists (RInt 0). exists 0. split; reflexivity.
  - exists (RUint 0). exists 0. split; reflexivity.
  - exists (RBool true). eexists. reflexivity.
  - exists (RString []), []. split; reflexivity.
  - apply bind_ok in E as (z & _ & E). injection E as <-. exists (RVec []). exists []. split; [ constructor | reflexivity ].
  - match goal with |- context [?n =? 32] => destruct (n =? 32) end; [ exists (RHash (repeat x00 32)); eexists; split; [ | reflexivity ]; reflexivity | ].
    eexists (RByteArray (repeat x00 (N.to_nat _))). eexists. split; [ | reflexivity ]. unfold len. rewrite repeat_length, N2Nat.id. reflexivity.
Qed.
Lemma of_type_many y v n : of_type y v -> exists vs, len vs = n /\ Forall (of_type y) vs.
Proof.
  intros V. exists (repeat v (N.to_nat n)). split; [ unfold len; rewrite repeat_length, N2Nat.id; reflexivity | ]. apply Forall_forall. intros w I. apply repeat_spec in I as ->. exact V.
Qed.
Lemma bound_inhabited t b : argument_type t = true -> template_param_type t = Ok b -> exists v, meets b v.
Proof.
  destruct t as [ | | | | | | t | | t n | ]; intros A E; cbn [argument_type template_param_type] in *; try discriminate; apply bind_ok in E as (y & Ey & E); injection E as <-; cbn [meets];
    try (eapply type_inhabited; [ | exact Ey ]; reflexivity).
  - exists (RVec []). exists []. split; [ constructor | reflexivity ].
  - destruct (@type_inhabited _ _ A Ey) as [ v V ]. destruct (@of_type_many _ _ n V) as (vs & L & F). exists (RArr vs), vs. auto.
Qed.
Lemma bounds_inhabited inputs bounds : forallb argument_type (map p_kind inputs) = true -> mapM (fun q => template_param_type (p_kind q)) inputs = Ok bounds -> exists args, Forall2 meets bounds args.
Proof.
  intros A E. apply mapM_ok in E. induction E as [ | q b inputs bounds E _ IH ]; [ exists []; constructor | ]. cbn [map forallb] in A. apply andb_true_iff in A as [ A1 A2 ].
  destruct (@bound_inhabited _ _ A1 E) as [ v V ]. destruct (IH A2) as [ vs Vs ]. exists (v :: vs). constructor; assumption.
Qed.
Lemma plainly_moves A (f : A -> val) (r : res A) : plainly f (expect_ok r) <> Stuck.
Proof. destruct r; discriminate. Qed.
Lemma returned_moves A (f : A -> val) (r : res A) : returned f r <> Stuck.
Proof. destruct r; discriminate. Qed.
Lemma function_taken f d i : derive_function p f = Ok d -> function_tree f = Ok i -> ~ refused_function p i.
Proof.
  intros D T (m & items & -> & H). destruct (@function_runs p _ _ D) as (inputs & outputs & result & body & bounds & names & tokenize & X). cbn zeta in X. destruct X as (T' & _ & _ & _ & R).
  rewrite T in T'. injection T' as -> ->. destruct (proj1 (@function_exact p f) (ex_intro _ d D)) as (A & _ & _ & _ & U).
  pose proof (@derive_function_inv p f d D) as (_ & _ & _ & B & Mo & (tok & Tok & Enc) & _). rewrite Mo in H. destruct H as [ H | [ H | H ] ]; [ exact (U H) | | ].
  - destruct (@bounds_inhabited _ _ A B) as [ args M ]. destruct (R 0%nat) as (_ & R2 & _). destruct (R2 args M) as [ R2' _ ]. rewrite H in R2'. symmetry in R2'. revert R2'.
    apply (@derived_arguments p f d args D) in M as [ xs M ]. rewrite Enc, (DeriveCalls.tokenize_ok _ Tok A M). cbn [bind]. apply plainly_moves.
  - destruct (R 0%nat) as (_ & _ & R3). destruct (R3 []) as [ R3' _ ]. rewrite H in R3'. symmetry in R3'. revert R3'. apply returned_moves.
Qed.
Lemma constructor_taken k d i : derive_constructor p k = Ok d -> constructor_tree k = Ok i -> ~ refused_constructor p i.
Proof.
  intros D T H. destruct (@constructor_runs p _ _ D) as (bounds & names & inputs & tokenize & X). cbn zeta in X. destruct X as (T' & _ & _ & R). rewrite T in T'. injection T' as ->.
  pose proof (@derive_constructor_inv p k d D) as (A & _ & B & (tok & Tok & Enc)). destruct (@bounds_inhabited _ _ A B) as [ args M ]. specialize (R 0%nat [] args M). rewrite H in R. symmetry in R. revert R.
  apply (@arguments_exist _ _ _ B A) in M as [ xs M ]. rewrite Enc, (DeriveCalls.tokenize_ok _ Tok A M). cbn [bind]. apply plainly_moves.
Qed.
Lemma event_taken e d i : derive_event p e = Ok d -> event_tree e = Ok i -> ~ refused_event p i.
Proof.
  intros D T (m & items & -> & H). destruct (@event_runs p _ _ D) as (inputs & kinds & topics & init & names & to_log & X). cbn zeta in X. destruct X as (T' & _ & _ & _ & _ & R).
  rewrite T in T'. injection T' as -> ->. destruct (proj1 (@event_exact p e) (ex_intro _ d D)) as (_ & _ & [ _ U ] & _). pose proof (@derive_event_inv p e d D) as (P & Ed & Mo & Tt & _). rewrite Mo in H.
  destruct H as [ H | H ]; [ exact (U H) | ]. destruct (R 0%nat) as (_ & R2 & _). set (l := isel true (e_inputs e)) in *.
  assert (F : Forall2 topic_of_type (de_topic_types d) (map (fun _ => Any) l)).
  { apply mapM_ok in Tt. clear -Tt. induction Tt; cbn [map]; constructor; [ constructor | assumption ]. }
  assert (F' : Forall3 topic_denotes (map ep_kind l) (map (fun _ => Any) l) (map (fun _ => Any) l)).
  { clear. induction l; cbn [map]; constructor; [ exact I | assumption ]. }
  specialize (R2 _ F). rewrite H in R2. symmetry in R2. revert R2. destruct (@derived_raw p e d _ _ D F') as [ -> _ ]. apply plainly_moves.
Qed.
Lemma struct_taken e d i : derive_event p e = Ok d -> log_tree e = Ok i -> ~ refused_struct i.
Proof.
  intros D T (derives & x & fields & -> & H). destruct (log_inv _ T) as (derives' & names & types & Q & Fn & Ft & En & Et). injection Q as -> -> ->. rewrite Fn, Ft in H.
  destruct (proj1 (@event_exact p e) (ex_intro _ d D)) as (P & (names' & N & U & ND & _) & _ & [ _ UC ]). apply usable_split in U as [ UI UR ].
  pose proof (proj2 (field_names_iff _ _) (conj N UI)) as En'. rewrite En in En'. injection En' as <-.
  destruct H as [ H | [ H | [ H | H ] ] ]; [ exact (UC H) | exact (H ND) | | ].
  - apply Exists_exists in H as (y & I & K). rewrite Forall_forall in UR. exact (UR y I K).
  - apply mapM_ok in Et. clear -Et P H. induction Et as [ | q t l ts E _ IH ]; [ inversion H | ]. cbn [map forallb] in P. apply andb_true_iff in P as [ P1 P2 ]. inversion H as [ ? ? X | ? ? X ]; subst.
    + rewrite (type_tree_ok _ E), P1 in X. discriminate.
    + exact (IH X P2).
Qed.
Lemma not_use (P : item -> Prop) uses l : (forall u, ~ P (IUse u)) -> Exists P (map IUse uses ++ l) -> Exists P l.
Proof. intros N H. apply Exists_app in H as [ H | H ]; [ | exact H ]. apply Exists_exists in H as (i & I & H). apply in_map_iff in I as (u & <- & _). destruct (N u H). Qed.
Lemma none_of A (t : A -> res item) (P : A -> Prop) (R : item -> Prop) l is : (forall a i, t a = Ok i -> P a -> ~ R i) -> mapM t l = Ok is -> Forall P l -> ~ Exists R is.
Proof.
  intros H E F X. apply mapM_ok in E. induction E as [ | a i l is E _ IH ]; [ inversion X | ]. inversion F; subst. inversion X; subst; [ eapply H; eauto | auto ].
Qed.
Lemma contract_taken c fs es items d : contract_tree c fs es = Ok items -> derive_contract p c fs es = Ok d -> ~ refused_code p items.
Proof.
  intros E D H. destruct (contract_tree_inv _ _ _ E) as (k & functions & events & logs & uses & doc1 & doc2 & doc3 & use1 & use2 & use3 & -> & K & Ef & Ee & El).
  pose proof (proj1 (@contract_exact p c fs es) (ex_intro _ d D)) as (Kc & F & V & D1 & D2 & D3 & Hi).
  pose proof (@tree_names _ _ _ _ _ function_name Ef) as N1. pose proof (@tree_names _ _ _ _ _ event_name Ee) as N2. pose proof (@tree_names _ _ _ _ _ log_name El) as N3.
  unfold refused_code in H. apply not_use in H; [ | intros u [] ]. apply Exists_app in H as [ H | H ]; [ inversion H as [ ? ? X | ? ? X ]; [ destruct X | inversion X ] | ].
  apply Exists_app in H as [ H | H ].
  { destruct (c_constructor c) as [ x | ]; [ | subst k; inversion H ]. destruct K as (i & Ti & ->). inversion H as [ ? ? X | ? ? X ]; subst; [ | inversion X ]. destruct (Kc x eq_refl) as [ dx Dx ].
    pose proof (@constructor_taken _ _ _ Dx Ti) as Y. destruct (constructor_inv _ Ti) as (? & ? & ? & ? & -> & _). exact (Y X). }
  inversion H as [ ? ? X | ? ? X ]; subst; clear H; [ | inversion X as [ ? ? Y | ? ? Y ]; subst; clear X; [ rename Y into X | inversion Y as [ ? ? X | ? ? X ]; subst; clear Y; [ | inversion X ] ] ].
  - destruct X as [ X | [ [ _ X ] | [ [ X _ ] | [ X _ ] ] ] ]; try discriminate.
    + apply X. fold (item_names (map IUse use1 ++ functions)). rewrite item_names_use, N1. exact D1.
    + apply not_use in X; [ | intros u (? & ? & Z & _); discriminate ]. revert X. eapply none_of; [ | exact Ef | exact F ]. cbn beta. intros f i T [ df Df ]. exact (@function_taken _ _ _ Df T).
  - destruct X as [ X | [ [ X _ ] | [ [ _ X ] | [ X _ ] ] ] ]; try discriminate.
    + apply X. fold (item_names (map IUse use2 ++ events)). rewrite item_names_use, N2. exact D2.
    + apply not_use in X; [ | intros u (? & ? & Z & _); discriminate ]. revert X. eapply none_of; [ | exact Ee | exact V ]. cbn beta. intros f i T [ df Df ]. exact (@event_taken _ _ _ Df T).
  - destruct X as [ X | [ [ X _ ] | [ [ X _ ] | [ _ [ X | X ] ] ] ] ]; try discriminate.
    + apply X. fold (item_names (map IUse use3 ++ logs)). rewrite item_names_use, N3. exact D3.
    + apply not_use in X; [ | intros u (? & ? & ? & Z & _); discriminate ]. revert X. eapply none_of; [ | exact El | exact V ]. cbn beta. intros f i T [ df Df ]. exact (@struct_taken _ _ _ Df T).
    + assert (Y : hidden_type logs).
      { destruct X as (x & derives & fields & i & Z1 & Z2 & Z3 & Z4). exists x, derives, fields, i. split; [ exact Z1 | ].
        apply in_app_iff in Z2 as [ Z2 | Z2 ]; [ apply in_map_iff in Z2 as (u & Z & _); discriminate | ]. apply in_app_iff in Z3 as [ Z3 | Z3 ]; [ apply in_map_iff in Z3 as (u & <- & _); destruct Z4 | ]. auto. }
      apply (hidden_iff _ El) in Y as (e & e' & q & I1 & I2 & I3 & Y). destruct (Hi e e' q I1 I2 I3) as [ Y1 Y2 ]. destruct Y as [ Y | Y ]; auto.
Qed.
Lemma contract_decided c fs es items : contract_tree c fs es = Ok items -> ((exists d, derive_contract p c fs es = Ok d) <-> ~ refused_code p items).
Proof.
  intros E. split; [ intros [ d D ]; exact (contract_taken _ _ _ E D) | ]. intros N. destruct (contract_refused _ _ _ E) as [ X | X ]; [ exact X | contradiction ].
Qed.
End Profile.

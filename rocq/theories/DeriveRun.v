(** * Running the generated trees *)
From Verif Require Import Base BaseFacts StrFacts Types TypeNames Tokenizer AbiSpec Function Event EventSpec Heck Derive DeriveSpec DeriveFacts DeriveCalls DeriveEvents DeriveAccepts
  RustSyntax DeriveTree RustEval.
From Coq Require Import String Lia.
Set Implicit Arguments.
Notation length := List.length.
Local Open Scope N_scope.
Local Open Scope list_scope.

Lemma obind_done A B (a : A) (f : A -> out B) : obind (Done a) f = f a.
Proof. reflexivity. Qed.
Section Run.
Context (p : profile) (call : path -> list val -> out val).
Notation ev := (eval p call).

Lemma ev_method e m ts args s v s1 vs s2 : ev e s = Done (v, s1) -> seqM ev args s1 = Done (vs, s2) -> ev (EMethod e m ts args) s = invoke p e v m vs s2.
Proof. intros E A. cbn [eval]. rewrite E. cbn [obind fst snd]. rewrite A. reflexivity. Qed.
Lemma ev_method0 e m ts s v s' w : mutating m = false -> ev e s = Done (v, s') -> RustEval.method p v m [] = Done w -> ev (EMethod e m ts []) s = Done (w, s').
Proof. intros M E W. rewrite (@ev_method _ _ _ _ _ _ _ [] s' E) by reflexivity. unfold invoke. rewrite M, W. reflexivity. Qed.
Lemma ev_name x s b v : lookup s x = Some (b, v) -> ev (EPath [x]) s = Done (v, s).
Proof. intros L. cbn [eval]. rewrite L. reflexivity. Qed.
Lemma ev_call2 x y q args s vs s' o : seqM ev args s = Done (vs, s') -> builtin (x :: y :: q) vs = Some o ->
  ev (ECall (x :: y :: q) args) s = obind o (fun v => Done (v, s')).
Proof. intros A B. cbn [eval]. rewrite A. cbn [obind fst snd]. rewrite B. reflexivity. Qed.
Lemma seq1 e s v s' : ev e s = Done (v, s') -> seqM ev [e] s = Done ([v], s').
Proof. intros E. cbn [seqM]. rewrite E. reflexivity. Qed.

Definition clean (s : env) : Prop := lookup s (lit "INTERNAL_ERR") = None.
Definition message : val := VStr (lit "`ethabi_derive` internal error").
Lemma ev_internal s : clean s -> ev internal_err s = Done (message, s).
Proof. intros C. unfold internal_err, name. cbn [eval]. rewrite C. reflexivity. Qed.
Lemma ev_expecting e s v s' : ev e s = Done (v, s') -> clean s' ->
  ev (expecting e) s = obind (RustEval.method p v (lit "expect") [message]) (fun w => Done (w, s')).
Proof.
  intros E C. unfold expecting. rewrite (@ev_method _ _ _ _ _ _ _ [message] s' E) by (apply seq1, ev_internal, C). reflexivity.
Qed.
Lemma ev_expecting_option A (f : A -> val) e s o s' : ev e s = Done (optional f o, s') -> clean s' ->
  ev (expecting e) s = match o with Some a => Done (f a, s') | None => Panics end.
Proof. intros E C. rewrite (@ev_expecting _ _ _ _ E C). destruct o; reflexivity. Qed.
Lemma ev_expecting_result A (f : A -> val) e s r s' : ev e s = obind (returned f r) (fun v => Done (v, s')) -> clean s' ->
  ev (expecting e) s = obind (plainly f (expect_ok r)) (fun v => Done (v, s')).
Proof.
  intros E C. destruct r as [ a | x | ]; cbn [returned obind] in E.
  - rewrite (@ev_expecting _ _ _ _ E C). reflexivity.
  - rewrite (@ev_expecting _ _ _ _ E C). reflexivity.
  - unfold expecting. cbn [eval]. rewrite E. reflexivity.
Qed.

(** ** Types *)
Lemma ev_syntax t : match syntax_tree t, to_syntax t with
  | Ok e, Ok k => forall s, ev e s = Done (VKind k, s)
  | Panic, Panic => True
  | _, _ => False
  end.
Proof.
  induction t; cbn [syntax_tree to_syntax]; try exact I; try (intros s; reflexivity);
    (destruct (syntax_tree t) as [ e | | ], (to_syntax t) as [ k | | ]; try (destruct IHt; fail); cbn [bind]; [ | exact I ]).
  - intros s. unfold param_type, ethabi, segments, box_new. cbn [map].
    erewrite ev_call2; [ | apply seq1; unfold segments; cbn [map]; erewrite ev_call2; [ | apply seq1, IHt | reflexivity ]; reflexivity | reflexivity ]. reflexivity.
  - intros s. unfold param_type, ethabi, segments, box_new. cbn [map].
    erewrite ev_call2; [ | | reflexivity ].
    2:{ cbn [seqM]. unfold segments. cbn [map]. erewrite ev_call2; [ | apply seq1, IHt | reflexivity ]. reflexivity. }
    reflexivity.
Qed.
Lemma seq_forall2 A B C (f : A -> env -> out (B * env)) (g : C -> B) (s : env) : forall (l : list A) (r : list C),
  Forall2 (fun x y => f x s = Done (g y, s)) l r -> seqM f l s = Done (map g r, s).
Proof. induction 1 as [ | x y l r H _ IH ]; [ reflexivity | ]. cbn [seqM map]. rewrite H. cbn [obind snd]. rewrite IH. reflexivity. Qed.
Lemma reads_map A (f : val -> option A) (g : A -> val) l : (forall a, f (g a) = Some a) -> reads f (map g l) = Some l.
Proof. intros H. induction l as [ | a l IH ]; [ reflexivity | ]. cbn [reads map]. rewrite H. cbn [reads] in IH. rewrite IH. reflexivity. Qed.

Lemma seq_record l s vs : Forall2 (fun (x : str * expr) (y : str * val) => fst x = fst y /\ ev (snd x) s = Done (snd y, s)) l vs ->
  seqM (fun (x : str * expr) s => obind (ev (snd x) s) (fun r => Done ((fst x, fst r), snd r))) l s = Done (vs, s).
Proof.
  intros F. rewrite (@seq_forall2 _ _ _ _ (fun y : str * val => y) s l vs), map_id; [ reflexivity | ].
  induction F as [ | x [ n v ] l vs [ H1 H2 ] _ IH ]; constructor; [ | exact IH ]. rewrite H2. cbn [obind fst snd] in *. rewrite H1. reflexivity.
Qed.
Lemma ev_struct q l s vs : Forall2 (fun (x : str * expr) (y : str * val) => fst x = fst y /\ ev (snd x) s = Done (snd y, s)) l vs ->
  ev (EStruct q l) s = obind (struct q vs) (fun v => Done (v, s)).
Proof. intros F. cbn [eval]. rewrite (seq_record F). reflexivity. Qed.
Lemma ev_struct_trailing q l s vs : Forall2 (fun (x : str * expr) (y : str * val) => fst x = fst y /\ ev (snd x) s = Done (snd y, s)) l vs ->
  ev (EStructTrailing q l) s = obind (struct q vs) (fun v => Done (v, s)).
Proof. intros F. cbn [eval]. rewrite (seq_record F). reflexivity. Qed.
Lemma ev_struct_default q l b s vs : Forall2 (fun (x : str * expr) (y : str * val) => fst x = fst y /\ ev (snd x) s = Done (snd y, s)) l vs ->
  ev (EStructDefault q l b) s = obind (with_default q b vs) (fun v => Done (v, s)).
Proof. intros F. cbn [eval]. rewrite (seq_record F). reflexivity. Qed.
Lemma ev_params l e r : params_tree l = Ok e -> to_ethabi_param_vec l = Ok r -> forall s, lookup s (lit "None") = None -> ev e s = Done (VVec (map VParam r), s).
Proof.
  unfold params_tree, to_ethabi_param_vec. intros T R s N. destruct (mapM param_tree l) as [ es | | ] eqn:E; try discriminate. injection T as <-.
  cbn [eval]. rewrite (@seq_forall2 _ _ _ ev VParam s es r); [ reflexivity | ].
  apply mapM_ok in E. apply mapM_ok in R. revert r R. induction E as [ | x e l es H _ IH ]; intros r R; inversion R as [ | ? k ? r' K R' ]; subst; constructor; [ | auto ].
  unfold param_tree in H. pose proof (ev_syntax (p_kind x)) as S.
  destruct (syntax_tree (p_kind x)) as [ t | | ], (to_syntax (p_kind x)) as [ k' | | ]; try discriminate; try (destruct S; fail).
  cbn [bind] in H, K. injection H as <-. injection K as <-.
  erewrite (@ev_struct _ _ s [(lit "name", VStr (p_name x)); (lit "kind", VKind k'); (lit "internal_type", VNone)]); [ reflexivity | ].
  repeat constructor; cbn [snd]; [ apply S | unfold name; cbn [eval]; rewrite N; reflexivity ].
Qed.
Lemma ev_event_params l es : mapM event_param_tree l = Ok es -> event_inputs l = Ok l -> forall s, ev (EVec es) s = Done (VVec (map VEParam l), s).
Proof.
  unfold event_inputs. intros E R s.
  cbn [eval]. rewrite (@seq_forall2 _ _ _ ev VEParam s es l); [ reflexivity | ].
  apply mapM_ok in E. apply mapM_ok in R. 
  assert (G : forall r, Forall2 (fun x y => (do k <- to_syntax (ep_kind x); Ok (mkEventParam (ep_name x) k (ep_indexed x))) = Ok y) l r -> Forall2 (fun x y => ev x s = Done (VEParam y, s)) es r).
  { clear R. induction E as [ | x e l es H _ IH ]; intros r R; inversion R as [ | ? k ? r' K R' ]; subst; constructor; [ | auto ].
    unfold event_param_tree in H. pose proof (ev_syntax (ep_kind x)) as S.
    destruct (syntax_tree (ep_kind x)) as [ t | | ], (to_syntax (ep_kind x)) as [ k' | | ]; try discriminate; try (destruct S; fail).
    cbn [bind] in H, K. injection H as <-. injection K as <-.
    erewrite (@ev_struct _ _ s [(lit "name", VStr (ep_name x)); (lit "kind", VKind k'); (lit "indexed", VBool (ep_indexed x))]); [ reflexivity | ].
    repeat constructor; cbn [snd]; apply S. }
  apply G, R.
Qed.

(** ** Tokens from values *)
Lemma leave_same s : leave s s = s.
Proof. unfold leave. rewrite Nat.sub_diag. reflexivity. Qed.
Lemma leave_one s b : leave s (b :: s) = s.
Proof. unfold leave. cbn [List.length]. rewrite Nat.sub_succ_l, Nat.sub_diag by lia. reflexivity. Qed.
Lemma ev_token_block c e inner s (vs : list rval) xs t :
  ev e s = Done (VVec (map inj vs), s) ->
  (forall v x, denotes t v x -> forall s', ev inner ((lit "inner", false, inj v) :: s') = Done (VTok x, (lit "inner", false, inj v) :: s')) ->
  Forall2 (denotes t) vs xs ->
  ev (token_block c e inner) s = obind (match builtin (token c) [VVec (map VTok xs)] with Some o => o | None => call (token c) [VVec (map VTok xs)] end) (fun v => Done (v, s)).
Proof.
  intros E I F. unfold token_block. cbn [eval fst snd].
  assert (M : ev (DeriveTree.method (EMap (DeriveTree.method e "into_iter") (lit "inner") inner) "collect") s = Done (VVec (map VTok xs), s)).
  { unfold DeriveTree.method. apply ev_method0 with (v := VIter (map VTok xs)); [ reflexivity | | reflexivity ]. cbn [eval]. rewrite E. cbn [obind fst snd seqM].
    unfold invoke. cbn [mutating]. change (RustEval.method p (VVec (map inj vs)) (lit "into_iter") []) with (Done (VIter (map inj vs))). cbn [obind fst snd map_val].
    replace (mutating (lit "into_iter")) with false by reflexivity. cbn [obind fst snd map_val].
    rewrite (@seq_forall2 _ _ _ _ VTok s (map inj vs) xs); [ reflexivity | ].
    clear -I F. induction F as [ | v x vs xs D _ IH ]; constructor; [ | exact IH ]. rewrite (I _ _ D). cbn [obind fst snd]. rewrite leave_one. reflexivity. }
  rewrite M. cbn [obind fst snd bind_name seqM name].
  unfold name. cbn [eval lookup]. replace (str_eqb (lit "v") (lit "v")) with true by reflexivity. cbn [obind fst snd].
  unfold token, ethabi, segments. cbn [map].
  destruct (match builtin _ _ with Some o => o | None => _ end); cbn [obind fst snd]; [ | reflexivity | reflexivity | reflexivity ]. rewrite leave_one. reflexivity.
Qed.
Lemma ev_to_token t : forall e e' s v x, to_token_tree e t = Ok e' -> denotes t v x -> ev e s = Done (inj v, s) -> ev e' s = Done (VTok x, s).
Proof.
  assert (C1 : forall c e s v w, ev e s = Done (v, s) -> builtin (token c) [v] = Some (Done w) -> ev (ECall (token c) [e]) s = Done (w, s)).
  { intros c e s v w E B. unfold token, ethabi, segments in *. cbn [map] in *. erewrite ev_call2; [ | apply seq1, E | exact B ]. reflexivity. }
  induction t; intros e e' s v x T D E; cbn [to_token_tree denotes] in *; try discriminate; try (destruct D; fail).
  - injection T as <-. destruct D as (a & L & -> & ->). eapply C1; [ exact E | reflexivity ].
  - injection T as <-. destruct D as (a & -> & ->). eapply C1; [ exact E | reflexivity ].
  - injection T as <-. destruct D as (a & L & -> & ->). eapply C1; [ exact E | reflexivity ].
  - injection T as <-. destruct D as (a & L & -> & ->). eapply C1; [ exact E | reflexivity ].
  - injection T as <-. destruct D as (a & -> & ->). eapply C1; [ exact E | reflexivity ].
  - injection T as <-. destruct D as (a & L & -> & ->). eapply C1; [ exact E | reflexivity ].
  - destruct D as (vs & xs & F & -> & ->). destruct (to_token_tree (name "inner") t) as [ inner | | ] eqn:Ei; try discriminate. injection T as <-.
    erewrite ev_token_block; [ | exact E | | exact F ].
    + change (builtin (token "Array") [VVec (map VTok xs)]) with (Some (match reads as_token (map VTok xs) with Some ts => Done (VTok (TArray ts)) | None => Stuck end)).
      rewrite (reads_map as_token VTok) by reflexivity. reflexivity.
    + intros v x D s'. eapply IHt; [ exact Ei | exact D | ]. unfold name. apply ev_name with (b := false). reflexivity.
  - injection T as <-. destruct D as (b & L & -> & ->). eapply C1 with (v := VBytes b); [ | reflexivity ].
    destruct (size =? 32); (eapply ev_method0; [ reflexivity | eapply ev_method0; [ reflexivity | exact E | reflexivity ] | reflexivity ]).
Qed.
Lemma ev_template t n s v x : argument t v x -> lookup s n = Some (false, inj v) -> ev (template_tree t n) s = Done (inj (from_template_param t v), s).
Proof.
  intros A L. pose proof (@ev_name _ _ _ _ L) as E.
  assert (M : forall e vs, ev e s = Done (VIter vs, s) -> ev (map_into e) s = Done (VIter vs, s)).
  { intros e vs H. unfold map_into. rewrite (@ev_method _ _ _ _ _ _ _ [VInto] s H) by reflexivity. reflexivity. }
  destruct t; cbn [template_tree argument] in *; try (destruct A; fail); try (eapply ev_method0; [ reflexivity | exact E | destruct v; reflexivity ]).
  - destruct A as (vs & xs & F & -> & ->). unfold collect_vec. eapply ev_method0; [ reflexivity | apply M; eapply ev_method0; [ reflexivity | exact E | reflexivity ] | reflexivity ].
  - destruct A as (vs & xs & Ln & F & -> & ->). unfold collect_vec.
    apply ev_method0 with (v := VIter (map inj vs)); [ reflexivity | apply M | reflexivity ].
    apply ev_method0 with (v := VVec (map inj vs)); [ reflexivity | | reflexivity ]. apply ev_method0 with (v := VArr (map inj vs)); [ reflexivity | | reflexivity ]. cbn [eval]. unfold box_new, segments. cbn [map].
    erewrite ev_call2; [ | apply seq1; eapply ev_method0; [ reflexivity | exact E | reflexivity ] | reflexivity ]. reflexivity.
Qed.
Lemma ev_argument t n e s v x : to_token_tree (template_tree t n) t = Ok e -> argument t v x -> lookup s n = Some (false, inj v) -> ev e s = Done (VTok x, s).
Proof.
  intros T A L. pose proof (@ev_template _ _ _ _ _ A L) as E.
  destruct t; try (eapply ev_to_token; [ exact T | exact A | rewrite E; destruct v; reflexivity ]).
  cbn [argument] in A. destruct A as (vs & xs & Ln & F & -> & ->). cbn [to_token_tree] in T.
  destruct (to_token_tree (name "inner") t) as [ inner | | ] eqn:Ei; try discriminate. injection T as <-.
  erewrite ev_token_block; [ | exact E | | exact F ].
  - change (builtin (token "FixedArray") [VVec (map VTok xs)]) with (Some (match reads as_token (map VTok xs) with Some ts => Done (VTok (TFixedArray ts)) | None => Stuck end)).
    rewrite (reads_map as_token VTok) by reflexivity. reflexivity.
  - intros v x D s'. eapply ev_to_token; [ exact Ei | exact D | ]. unfold name. apply ev_name with (b := false). reflexivity.
Qed.

(** ** Values from tokens *)
(** [e] gives the token [x] and takes the variables from [s] to [s'], also
    below variables called result. *)
Definition gives (e : expr) (s : env) (x : Token) (s' : env) : Prop :=
  forall pre : env, Forall (fun b => fst (fst b) = lit "result") pre -> ev e (pre ++ s) = Done (VTok x, pre ++ s').
Lemma gives_here e s x s' : gives e s x s' -> ev e s = Done (VTok x, s').
Proof. intros G. apply (G []). constructor. Qed.
Lemma lookup_below pre s x : Forall (fun b : str * bool * val => fst (fst b) = lit "result") pre -> str_eqb x (lit "result") = false -> lookup (pre ++ s) x = lookup s x.
Proof. intros F N. induction F as [ | [ [ y m ] v ] pre H _ IH ]; [ reflexivity | ]. cbn [fst] in H. subst y. cbn [app lookup]. rewrite N. exact IH. Qed.
Lemma gives_inner x s : gives (name "inner") ((lit "inner", false, VTok x) :: s) x ((lit "inner", false, VTok x) :: s).
Proof. intros pre F. unfold name. apply ev_name with (b := false). rewrite lookup_below; [ reflexivity | exact F | reflexivity ]. Qed.
Lemma ev_into A (f : A -> val) (g : Token -> option A) m e s x s' : mutating m = false -> RustEval.method p (VTok x) m [] = Done (optional f (g x)) ->
  ev e s = Done (VTok x, s') -> clean s' -> ev (expecting (EMethod e m [] [])) s = match g x with Some a => Done (f a, s') | None => Panics end.
Proof. intros M D E C. apply ev_expecting_option; [ | exact C ]. eapply ev_method0; [ exact M | exact E | exact D ]. Qed.
Definition converted (r : res rval) (s : env) : out (val * env) := match r with Ok v => Done (inj v, s) | Err _ => Stuck | Panic => Panics end.
Lemma ev_copied n e s x s' result f : clean s' -> length s' = length s -> gives e s x s' ->
  (forall b s', ev result ((lit "v", false, VBytes b) :: (lit "result", true, VByteArr b) :: s') =
     obind (f b) (fun v => Done (v, (lit "v", false, VBytes b) :: (lit "result", true, VByteArr b) :: s'))) ->
  ev (copied n e result) s = match into_fixed_bytes x with None => Panics | Some b => if len b =? n then obind (f b) (fun v => Done (v, s')) else Panics end.
Proof.
  intros C L G R. unfold copied. cbn [eval fst snd obind bind_name]. 
  set (zeros := repeat (byte_of_N 0) (N.to_nat n)).
  assert (E : ev (expecting (DeriveTree.method e "into_fixed_bytes")) ((lit "result", true, VByteArr zeros) :: s) =
    match into_fixed_bytes x with Some b => Done (VBytes b, (lit "result", true, VByteArr zeros) :: s') | None => Panics end).
  { apply ev_into; [ reflexivity | reflexivity | | exact C ]. apply (G [(lit "result", true, VByteArr zeros)]). repeat constructor. }
  rewrite E. destruct (into_fixed_bytes x) as [ b | ]; [ | reflexivity ]. cbn [obind fst snd bind_name].
  unfold name. cbn [eval]. change (lookup ((lit "v", false, VBytes b) :: (lit "result", true, VByteArr zeros) :: s') (lit "result")) with (Some (true, VByteArr zeros)).
  cbn [obind fst snd seqM eval]. change (lookup ((lit "v", false, VBytes b) :: (lit "result", true, VByteArr zeros) :: s') (lit "v")) with (Some (false, VBytes b)).
  cbn [obind fst snd]. unfold invoke. change (mutating (lit "copy_from_slice")) with true. cbn [mutate].
  change (str_eqb (lit "copy_from_slice") (lit "copy_from_slice")) with true. cbn iota.
  unfold zeros. rewrite repeat_length. replace (N.to_nat n =? length b)%nat with (len b =? n).
  2:{ unfold len. destruct (N.eqb_spec (N.of_nat (length b)) n), (Nat.eqb_spec (N.to_nat n) (length b)); try reflexivity; exfalso; lia. }
  destruct (len b =? n); [ | reflexivity ]. cbn [obind fst snd]. fold zeros.
  change (lookup ((lit "v", false, VBytes b) :: (lit "result", true, VByteArr zeros) :: s') (lit "result")) with (Some (true, VByteArr zeros)). cbn [obind fst snd].
  change (update ((lit "v", false, VBytes b) :: (lit "result", true, VByteArr zeros) :: s') (lit "result") (VByteArr b)) with
    ((lit "v", false, VBytes b) :: (lit "result", true, VByteArr b) :: s'). rewrite R.
  destruct (f b); cbn [obind fst snd]; [ | reflexivity | reflexivity | reflexivity ]. unfold leave. cbn [List.length]. rewrite L.
  replace (S (S (length s)) - length s)%nat with 2%nat by lia. reflexivity.
Qed.
Lemma seq_closure (f : Token -> res rval) body l s : clean s ->
  (forall x s', clean s' -> ev body ((lit "inner", false, VTok x) :: s') = converted (f x) ((lit "inner", false, VTok x) :: s')) ->
  seqM (fun v s => obind (ev body ((lit "inner", false, v) :: s)) (fun r => Done (fst r, leave s (snd r)))) (map VTok l) s =
  match mapM f l with Ok vs => Done (map inj vs, s) | Err _ => Stuck | Panic => Panics end.
Proof.
  intros C H. induction l as [ | x l IH ]; [ reflexivity | ]. cbn [map seqM mapM]. rewrite (H x s C). destruct (f x) as [ v | | ]; cbn [converted obind bind fst snd]; [ | reflexivity | reflexivity ].
  rewrite leave_one, IH. destruct (mapM f l); reflexivity.
Qed.
Lemma ev_from_token t : plain_type t = true -> forall e e' g s s' x, from_token_tree t e = Ok e' -> from_token t = Ok g -> clean s' -> length s' = length s -> gives e s x s' ->
  ev e' s = converted (g x) s'.
Proof.
  induction t; intros P e e' g s s' x T F C L G; cbn [plain_type from_token_tree from_token] in *; try discriminate;
    try (injection T as <-; injection F as <-; cbn beta;
         match goal with |- ev (expecting (DeriveTree.method e ?m)) s = converted (rmap ?r (expect (?o x))) _ => unfold DeriveTree.method; rewrite (@ev_into _ (fun a => inj (r a)) o (lit m) e s x s' eq_refl eq_refl (gives_here G) C); destruct (o x); reflexivity end).
  - destruct (from_token_tree t (name "inner")) as [ inner | | ] eqn:Ei; try discriminate. destruct (from_token t) as [ g' | | ]; try discriminate.
    cbn [bind] in *. injection T as <-. injection F as <-.
    pose proof (@ev_into _ (fun l => VVec (map VTok l)) into_array (lit "into_array") e s x s' eq_refl eq_refl (gives_here G) C) as E.
    unfold DeriveTree.method. cbn [eval]. change (ev (expecting (EMethod e (lit "into_array") [] [])) s) with (ev (expecting (EMethod e (lit "into_array") [] [])) s) in E.
    rewrite E. destruct (into_array x) as [ l | ]; [ | reflexivity ]. cbn [obind fst snd seqM expect bind].
    unfold invoke at 1. change (mutating (lit "into_iter")) with false. change (RustEval.method p (VVec (map VTok l)) (lit "into_iter") []) with (Done (VIter (map VTok l))).
    cbn [obind fst snd map_val]. rewrite (@seq_closure g' inner l s' C).
    + destruct (mapM g' l) as [ vs | | ]; cbn [obind bind converted]; reflexivity.
    + intros y s1 C1. eapply IHt; [ exact P | exact Ei | reflexivity | exact C1 | reflexivity | apply gives_inner ].
  - injection T as <-. destruct (size =? 32) eqn:E32; injection F as <-.
    + rewrite (@ev_copied 32 e s x s' _ (fun b => if len b =? 32 then Done (VHash b) else Stuck) C L G).
      * destruct (into_fixed_bytes x) as [ b | ]; [ | reflexivity ]. cbn [expect bind]. unfold copy_from_slice. destruct (len b =? 32); reflexivity.
      * intros b s1. unfold name, ethabi, segments. cbn [map]. erewrite ev_call2; [ | apply seq1; apply ev_name with (b := true); reflexivity | reflexivity ]. reflexivity.
    + rewrite (@ev_copied size e s x s' _ (fun b => Done (VByteArr b)) C L G).
      * destruct (into_fixed_bytes x) as [ b | ]; [ | reflexivity ]. cbn [expect bind]. unfold copy_from_slice. destruct (len b =? size); reflexivity.
      * intros b s1. unfold name. erewrite ev_name; reflexivity.
Qed.

(** ** Encoding *)
Lemma ev_tokenize names inputs es : tokenize_tree names inputs = Ok es -> length names = length inputs ->
  forall args xs s, Forall3 argument (map p_kind inputs) args xs ->
  (forall n v, In (n, v) (combine names (map inj args)) -> lookup s n = Some (false, v)) -> seqM ev es s = Done (map VTok xs, s).
Proof.
  unfold tokenize_tree. intros T Ln args xs s F L. apply seq_forall2. apply mapM_ok in T. revert names es args xs T Ln F L.
  induction inputs as [ | q inputs IH ]; intros [ | n names ] es args xs T Ln F L; try discriminate; inversion F; subst.
  - inversion T; subst. constructor.
  - cbn [combine] in T. inversion T as [ | ? e ? es' E T' ]; subst. cbn [fst snd] in E. constructor.
    + eapply ev_argument; [ exact E | eassumption | apply L; left; reflexivity ].
    + eapply IH; [ exact T' | injection Ln; auto | eassumption | intros; apply L; right; assumption ].
Qed.
Lemma ev_encoding F es xs s :
  call [lit "function"] [] = Done (VFun F) -> lookup s (lit "function") = None -> clean s ->
  (forall b, seqM ev es ((lit "f", false, b) :: s) = Done (map VTok xs, (lit "f", false, b) :: s)) ->
  forall k, (fix go (l : list (binder * expr)) (s : env) {struct l} : out (val * env) :=
     match l with [] => ev k s | x :: l' => obind (ev (snd x) s) (fun r => go l' (bind_name (fst x) (fst r) (snd r))) end) (encoding es) s =
  ev k ((lit "tokens", false, VVec (map VTok xs)) :: (lit "f", false, VFun F) :: s).
Proof.
  intros C L _ S k. cbn [encoding fst snd eval seqM obind]. rewrite L. change (builtin [lit "function"] []) with (@None (out val)). cbn iota. rewrite C.
  cbn [obind fst snd bind_name]. rewrite S. reflexivity.
Qed.
Lemma ev_encoded F xs s : clean s ->
  let s' := (lit "tokens", false, VVec (map VTok xs)) :: (lit "f", false, VFun F) :: s in
  ev encoded s' = obind (plainly VBytes (expect_ok (encode_input p F xs))) (fun v => Done (v, s')).
Proof.
  intros C s'. unfold encoded. apply ev_expecting_result; [ | exact C ].
  erewrite ev_method with (v := VFun F) (vs := [VVec (map VTok xs)]) (s1 := s') (s2 := s'); [ | reflexivity | reflexivity ].
  unfold invoke. change (mutating (lit "encode_input")) with false. cbn iota.
  change (RustEval.method p (VFun F) (lit "encode_input") [VVec (map VTok xs)]) with
    (match reads as_token (map VTok xs) with Some ts => returned VBytes (encode_input p F ts) | None => Stuck end).
  rewrite (reads_map as_token VTok) by reflexivity. reflexivity.
Qed.
End Run.

(** ** Names *)
Lemma snake_no_upper s c : In c (to_snake_case s) -> is_upper c = false.
Proof.
  unfold to_snake_case. generalize (words s [] Boundary). intros l. 
  assert (W : forall w, In c (map to_lower w) -> is_upper c = false).
  { intros w I. apply in_map_iff in I as (d & <- & _). unfold to_lower, is_upper. destruct ((65 <=? d) && (d <=? 90)) eqn:E; lia. }
  induction l as [ | w l IH ]; [ intros [] | ]. cbn [map]. destruct l as [ | w' l ]; [ exact (W w) | ].
  change (join (lit "_") (map to_lower w :: map (map to_lower) (w' :: l))) with (map to_lower w ++ lit "_" ++ join (lit "_") (map (map to_lower) (w' :: l))).
  intros I. apply in_app_iff in I as [ I | I ]; [ exact (W w I) | ]. apply in_app_iff in I as [ I | I ]; [ | exact (IH I) ]. destruct I as [ <- | [] ]. reflexivity.
Qed.
Lemma numbered_no_upper pre i c : (forall d, In d pre -> is_upper d = false) -> In c (numbered pre i) -> is_upper c = false.
Proof.
  intros H I. unfold numbered in I. apply in_app_iff in I as [ I | I ]; [ exact (H c I) | ].
  pose proof (show_dec_digits (N.of_nat i)) as D. rewrite forallb_forall in D. specialize (D c I). unfold is_digit in D. unfold is_upper. lia.
Qed.
Lemma input_names_lower inputs names : input_names inputs = Ok names -> forall n c, In n names -> In c n -> is_upper c = false.
Proof.
  intros E n c I J. apply input_names_iff in E as [ E _ ]. rewrite (@named_iff _ _ parameter_text) in E by apply parameter_name_iff. subst names.
  unfold mapi in I. revert I. generalize 0%nat. induction inputs as [ | x inputs IH ]; intros k; [ intros [] | ]. cbn [mapi_from]. intros [ <- | I ]; [ | eapply IH; exact I ].
  unfold parameter_text in J. destruct (p_name x) as [ | d s ].
  - revert J. apply numbered_no_upper. intros e I. cbn in I. repeat (destruct I as [ <- | I ]; [ reflexivity | ]). destruct I.
  - unfold rust_variable in J. destruct (str_eqb _ _); [ | eapply snake_no_upper; exact J ]. cbn in J. repeat (destruct J as [ <- | J ]; [ reflexivity | ]). destruct J.
Qed.
Lemma field_names_lower inputs names : field_names inputs = Ok names -> forall n c, In n names -> In c n -> is_upper c = false.
Proof.
  intros E n c I J. apply field_names_iff in E as [ E _ ]. rewrite (@named_iff _ _ field_text) in E by apply field_name_iff. subst names.
  unfold mapi in I. revert I. generalize 0%nat. induction inputs as [ | x inputs IH ]; intros k; [ intros [] | ]. cbn [mapi_from]. intros [ <- | I ]; [ | eapply IH; exact I ].
  unfold field_text in J. destruct (ep_name x) as [ | d s ].
  - revert J. apply numbered_no_upper. intros e I. destruct (ep_indexed x); cbn in I; repeat (destruct I as [ <- | I ]; [ reflexivity | ]); destruct I.
  - eapply snake_no_upper; exact J.
Qed.

(** ** Variables of a call *)
Definition params_env (names : list str) (vals : list val) : env := map (fun x => (fst x, false, snd x)) (combine names vals).
Lemma lookup_params names vals n v : NoDup names -> In (n, v) (combine names vals) -> lookup (params_env names vals) n = Some (false, v).
Proof.
  unfold params_env. revert vals. induction names as [ | m names IH ]; intros [ | w vals ] N I; try (destruct I; fail). cbn [combine map lookup fst snd] in *.
  inversion N as [ | ? ? N1 N2 ]; subst. destruct I as [ I | I ].
  - injection I as -> ->. rewrite str_eqb_refl. reflexivity.
  - destruct (str_eqb n m) eqn:E; [ | exact (IH _ N2 I) ]. apply str_eqb_eq in E. subst m. exfalso. apply N1. eapply in_combine_l. exact I.
Qed.
Lemma lookup_absent names vals n : ~ In n names -> lookup (params_env names vals) n = None.
Proof.
  unfold params_env. revert vals. induction names as [ | m names IH ]; intros [ | w vals ] N; try reflexivity. cbn [combine map lookup fst snd] in *.
  destruct (str_eqb n m) eqn:E; [ apply str_eqb_eq in E; subst m; exfalso; apply N; left; reflexivity | ]. apply IH. intros I. apply N. right. exact I.
Qed.

(** ** Types in signatures *)
Lemma type_tree_ok t y : type_tree t = Ok y -> is_type y = plain_type t.
Proof.
  revert y. induction t; intros y E; cbn [type_tree plain_type] in *; try (injection E as <-; reflexivity); try discriminate.
  - destruct (type_tree t) as [ z | | ]; try discriminate. injection E as <-. cbn [is_type forallb]. rewrite (IHt z eq_refl). apply andb_true_r.
  - injection E as <-. destruct (size =? 32); reflexivity.
  - destruct (type_tree t) as [ z | | ]; try discriminate. injection E as <-. reflexivity.
Qed.
Lemma bound_tree_ok t i gs : bound_tree t i = Ok gs -> forallb generic_types gs = argument_type t.
Proof.
  unfold argument_type. destruct t; cbn [bound_tree]; intros E;
    try (destruct (type_tree _) as [ z | | ] eqn:Z; try discriminate; injection E as <-; apply type_tree_ok in Z; cbn [forallb generic_types]; rewrite Z, andb_true_r; reflexivity).
Qed.
Lemma bounds_tree_ok inputs gs : bounds_tree inputs = Ok gs -> forallb generic_types gs = forallb argument_type (map p_kind inputs).
Proof.
  unfold bounds_tree, mapi. generalize 0%nat. revert gs. induction inputs as [ | x inputs IH ]; intros gs i E; cbn [mapi_from mapM] in E.
  - injection E as <-. reflexivity.
  - destruct (bound_tree (p_kind x) i) as [ g | | ] eqn:B; try discriminate. cbn [bind] in E. specialize (IH (match mapM (fun r => r) (mapi_from (fun index param => bound_tree (p_kind param) index) (S i) inputs) with Ok l => List.concat l | _ => [] end) (S i)).
    destruct (mapM _ _) as [ l | | ]; try discriminate. cbn [bind] in *. injection E as <-. cbn [List.concat map forallb]. rewrite forallb_app, IH by reflexivity. rewrite (bound_tree_ok _ _ B). reflexivity.
Qed.
Lemma output_tree_ok outputs y : output_tree outputs = Ok y -> forallb plain_type (map p_kind outputs) = true -> is_type y = true.
Proof.
  unfold output_tree. intros E P. destruct outputs as [ | x [ | x' l ] ].
  - injection E as <-. reflexivity.
  - cbn [map forallb] in P. rewrite andb_true_r in P. rewrite <- P. apply type_tree_ok. exact E.
  - destruct (mapM _ (x :: x' :: l)) as [ ys | | ] eqn:M; try discriminate. injection E as <-. cbn [is_type]. apply mapM_ok in M.
    revert M P. generalize (x :: x' :: l). clear. intros l M P. induction M as [ | q y l ys E _ IH ]; [ reflexivity | ]. cbn [map forallb] in *. apply andb_true_iff in P as [ P1 P2 ]. rewrite (type_tree_ok _ E), P1, (IH P2). reflexivity.
Qed.

(** ** Trees exist for types without tuples *)
Lemma syntax_tree_exists t : no_tuple t = true -> exists e, syntax_tree t = Ok e.
Proof. induction t; cbn [no_tuple syntax_tree]; intros N; try discriminate; eauto; destruct (IHt N) as [ e -> ]; cbn [bind]; eauto. Qed.
Lemma type_tree_exists t : no_tuple t = true -> exists e, type_tree t = Ok e.
Proof. induction t; cbn [no_tuple type_tree]; intros N; try discriminate; eauto; destruct (IHt N) as [ e -> ]; cbn [bind]; eauto. Qed.
Lemma bound_tree_exists t i : no_tuple t = true -> exists e, bound_tree t i = Ok e.
Proof.
  intros N. destruct t; cbn [bound_tree no_tuple] in *; try discriminate; try (match goal with |- context [type_tree ?t] => destruct (type_tree_exists t N) as [ e -> ] end; cbn [bind]; eauto);
    match goal with |- context [type_tree ?t] => destruct (type_tree_exists t N) as [ e -> ] end; cbn [bind]; eauto.
Qed.
Lemma to_token_tree_exists t : no_tuple t = true -> forall n, exists e, to_token_tree n t = Ok e.
Proof. induction t; cbn [no_tuple to_token_tree]; intros N n; try discriminate; eauto; destruct (IHt N (name "inner")) as [ e -> ]; cbn [bind]; eauto. Qed.
Lemma from_token_tree_exists t : no_tuple t = true -> forall n, exists e, from_token_tree t n = Ok e.
Proof. induction t; cbn [no_tuple from_token_tree]; intros N n; try discriminate; eauto; destruct (IHt N (name "inner")) as [ e -> ]; cbn [bind]; eauto. Qed.
Lemma all_exist A B (k : A -> ParamType) (g : A -> res B) l : (forall x, In x l -> no_tuple (k x) = true -> exists y, g x = Ok y) ->
  forallb no_tuple (map k l) = true -> exists r, mapM g l = Ok r.
Proof.
  intros H F. apply mapM_exists, Forall_forall. intros x I. apply H; [ exact I | ]. rewrite forallb_forall in F. apply F, in_map, I.
Qed.
Lemma bounds_tree_exists inputs : forallb no_tuple (map p_kind inputs) = true -> exists gs, bounds_tree inputs = Ok gs.
Proof.
  unfold bounds_tree, mapi. generalize 0%nat. induction inputs as [ | x inputs IH ]; intros i F; [ exists []; reflexivity | ].
  cbn [map forallb mapi_from mapM] in *. apply andb_true_iff in F as [ F1 F2 ]. destruct (bound_tree_exists (p_kind x) i F1) as [ g -> ].
  destruct (IH (S i) F2) as [ gs E ]. destruct (mapM _ _); try discriminate. cbn [bind]. eauto.
Qed.
Lemma params_tree_exists l : forallb no_tuple (map p_kind l) = true -> exists e, params_tree l = Ok e.
Proof.
  intros F. unfold params_tree. destruct (@all_exist _ _ p_kind param_tree l) as [ r -> ]; [ | exact F | cbn [bind]; eauto ].
  intros x _ N. unfold param_tree. destruct (syntax_tree_exists _ N) as [ e -> ]. cbn [bind]. eauto.
Qed.
Lemma tokenize_tree_exists names inputs : forallb no_tuple (map p_kind inputs) = true -> exists es, tokenize_tree names inputs = Ok es.
Proof.
  intros F. unfold tokenize_tree. apply mapM_exists, Forall_forall. intros [ n x ] I. cbn [fst snd]. apply to_token_tree_exists.
  rewrite forallb_forall in F. apply F, in_map. eapply in_combine_r. exact I.
Qed.
Lemma output_tree_exists outputs : forallb no_tuple (map p_kind outputs) = true -> exists y, output_tree outputs = Ok y.
Proof.
  intros F. unfold output_tree. destruct outputs as [ | x [ | y l ] ]; [ eexists; reflexivity | | ].
  - cbn [map forallb] in F. apply andb_true_iff in F as [ F _ ]. apply type_tree_exists, F.
  - destruct (@all_exist _ _ p_kind (fun param => type_tree (p_kind param)) (x :: y :: l)) as [ r -> ]; [ intros; apply type_tree_exists; assumption | exact F | cbn [bind]; eauto ].
Qed.
Lemma decode_tree_exists outputs : forallb no_tuple (map p_kind outputs) = true -> exists y, decode_tree outputs = Ok y.
Proof.
  intros F. unfold decode_tree. destruct outputs as [ | x [ | y l ] ]; [ eexists; reflexivity | | ].
  - cbn [map forallb] in F. apply andb_true_iff in F as [ F _ ]. destruct (from_token_tree_exists _ F (name "out")) as [ e -> ]. cbn [bind]. eauto.
  - destruct (@all_exist _ _ p_kind (fun param => from_token_tree (p_kind param) (expecting (DeriveTree.method (name "out") "next"))) (x :: y :: l)) as [ r -> ];
      [ intros; apply from_token_tree_exists; assumption | exact F | cbn [bind]; eauto ].
Qed.
Lemma from_token_no_err t : plain_type t = true -> forall g, from_token t = Ok g -> forall x e, g x <> Err e.
Proof.
  induction t; intros P g F x e; cbn [plain_type from_token] in *; try discriminate;
    try (injection F as <-; match goal with |- rmap _ (expect ?o) <> _ => destruct o; discriminate end).
  - destruct (from_token t) as [ h | | ]; try discriminate. injection F as <-. destruct (into_array x) as [ l | ]; [ | discriminate ]. cbn [expect bind].
    assert (M : forall l e, mapM h l <> Err e).
    { clear -IHt P. induction l as [ | y l IH ]; intros e; cbn [mapM]; [ discriminate | ]. pose proof (IHt P h eq_refl y e). destruct (h y); cbn [bind]; [ | congruence | discriminate ].
      pose proof (IH e). destruct (mapM h l); cbn [bind]; congruence. }
    specialize (M l e). destruct (mapM h l); cbn [bind]; congruence.
  - destruct (size =? 32); injection F as <-; (destruct (into_fixed_bytes x) as [ b | ]; [ | discriminate ]); cbn [expect bind]; unfold copy_from_slice; destruct (len b =? _); discriminate.
Qed.
Lemma convert_all_no_err outs fs : mapM (fun k => from_token k) outs = Ok fs -> forallb plain_type outs = true -> forall l e, convert_all fs l <> Err e.
Proof.
  intros M P. apply mapM_ok in M. induction M as [ | k g outs fs E _ IH ]; intros l e; [ discriminate | ]. cbn [forallb convert_all] in *. apply andb_true_iff in P as [ P1 P2 ].
  destruct l as [ | t l ]; [ discriminate | ]. pose proof (@from_token_no_err _ P1 _ E t e). destruct (g t); cbn [bind]; [ | congruence | discriminate ].
  specialize (IH P2 l e). destruct (convert_all fs l); cbn [bind]; congruence.
Qed.

(** ** Decoding *)
Section Run.
Context (p : profile) (call : path -> list val -> out val).
Notation ev := (eval p call).
Lemma gives_next x l s0 : clean s0 ->
  gives p call (expecting (DeriveTree.method (name "out") "next")) ((lit "out", true, VIter (VTok x :: l)) :: s0) x ((lit "out", true, VIter l) :: s0).
Proof.
  intros Cl pre F.
  assert (E : ev (DeriveTree.method (name "out") "next") (pre ++ (lit "out", true, VIter (VTok x :: l)) :: s0) = Done (optional VTok (Some x), pre ++ (lit "out", true, VIter l) :: s0)).
  { unfold DeriveTree.method, name. cbn [eval]. rewrite lookup_below by (exact F || reflexivity). change (lookup ((lit "out", true, VIter (VTok x :: l)) :: s0) (lit "out")) with (Some (true, VIter (VTok x :: l))).
    cbn [obind fst snd seqM]. unfold invoke. change (mutating (lit "next")) with true. cbn iota. cbn [mutate]. change (str_eqb (lit "next") (lit "next")) with true. cbn [obind fst snd].
    rewrite lookup_below by (exact F || reflexivity). change (lookup ((lit "out", true, VIter (VTok x :: l)) :: s0) (lit "out")) with (Some (true, VIter (VTok x :: l))). cbn [optional].
    f_equal. f_equal. clear -F. induction F as [ | [ [ y m ] v ] pre H _ IH ]; [ reflexivity | ]. cbn [fst] in H. subst y. cbn [app update]. change (str_eqb (lit "out") (lit "result")) with false. cbn iota. rewrite IH. reflexivity. }
  rewrite (@ev_expecting_option p call _ VTok _ _ _ _ E); [ reflexivity | ]. unfold clean. rewrite lookup_below by (exact F || reflexivity). exact Cl.
Qed.

Definition fails (e : expr) (s : env) : Prop := forall pre : env, Forall (fun b => fst (fst b) = lit "result") pre -> ev e (pre ++ s) = Panics.
Lemma method_fails e m ts args s : ev e s = Panics -> ev (EMethod e m ts args) s = Panics.
Proof. intros E. cbn [eval]. rewrite E. reflexivity. Qed.
Lemma ev_from_token_fails t : plain_type t = true -> forall e e' s, from_token_tree t e = Ok e' -> fails e s -> ev e' s = Panics.
Proof.
  intros P e e' s T G. assert (H : ev e s = Panics) by (apply (G []); constructor).
  destruct t; cbn [plain_type from_token_tree] in *; try discriminate; try (injection T as <-; unfold expecting, DeriveTree.method; now repeat apply method_fails).
  - destruct (from_token_tree t (name "inner")) as [ inner | | ]; try discriminate. injection T as <-. unfold DeriveTree.method. apply method_fails. cbn [eval].
    unfold expecting, DeriveTree.method. cbn [eval]. rewrite H. reflexivity.
  - injection T as <-. specialize (G [(lit "result", true, VByteArr (repeat (byte_of_N 0) (N.to_nat size)))] ltac:(repeat constructor)).
    assert (C : forall r, ev (copied size e r) s = Panics).
    { intros r. unfold copied. cbn [eval fst snd obind bind_name]. unfold expecting, DeriveTree.method. cbn [eval]. cbn [app] in G. rewrite G. reflexivity. }
    destruct (size =? 32) eqn:E; [ apply N.eqb_eq in E as -> | ]; apply C.
Qed.
Lemma next_fails s0 : clean s0 -> fails (expecting (DeriveTree.method (name "out") "next")) ((lit "out", true, VIter []) :: s0).
Proof.
  intros Cl pre F.
  assert (E : ev (DeriveTree.method (name "out") "next") (pre ++ (lit "out", true, VIter []) :: s0) = Done (optional VTok None, pre ++ (lit "out", true, VIter []) :: s0)).
  { unfold DeriveTree.method, name. cbn [eval]. rewrite lookup_below by (exact F || reflexivity). change (lookup ((lit "out", true, VIter []) :: s0) (lit "out")) with (Some (true, VIter [])).
    cbn [obind fst snd seqM]. unfold invoke. change (mutating (lit "next")) with true. cbn iota. cbn [mutate]. change (str_eqb (lit "next") (lit "next")) with true. cbn [obind fst snd].
    rewrite lookup_below by (exact F || reflexivity). change (lookup ((lit "out", true, VIter []) :: s0) (lit "out")) with (Some (true, VIter [])). cbn [optional].
    f_equal. f_equal. clear -F. induction F as [ | [ [ y m ] v ] pre H _ IH ]; [ reflexivity | ]. cbn [fst] in H. subst y. cbn [app update]. change (str_eqb (lit "out") (lit "result")) with false. cbn iota. rewrite IH. reflexivity. }
  rewrite (@ev_expecting_option p call _ VTok _ _ _ _ E); [ reflexivity | ]. unfold clean. rewrite lookup_below by (exact F || reflexivity). exact Cl.
Qed.
Lemma seq_next A (k : A -> ParamType) outs es fs s0 : clean s0 -> forallb plain_type (map k outs) = true ->
  mapM (fun q => from_token_tree (k q) (expecting (DeriveTree.method (name "out") "next"))) outs = Ok es ->
  mapM (fun q => from_token (k q)) outs = Ok fs -> forall l,
  match convert_all fs l with
  | Ok vs => exists rest, seqM ev es ((lit "out", true, VIter (map VTok l)) :: s0) = Done (map inj vs, (lit "out", true, VIter rest) :: s0)
  | Panic => seqM ev es ((lit "out", true, VIter (map VTok l)) :: s0) = Panics
  | Err _ => True
  end.
Proof.
  intros C P T F. apply mapM_ok in T. apply mapM_ok in F. revert fs F. induction T as [ | q e outs es E _ IH ]; intros fs F l; inversion F as [ | ? g ? fs' G F' ]; subst.
  - cbn [convert_all seqM]. eexists. reflexivity.
  - cbn [map forallb] in P. apply andb_true_iff in P as [ P1 P2 ]. cbn [convert_all seqM]. destruct l as [ | x l ].
    + cbn [map]. rewrite (@ev_from_token_fails _ P1 _ _ _ E (next_fails C)). reflexivity.
    + cbn [map]. rewrite (@ev_from_token p call _ P1 _ _ _ _ ((lit "out", true, VIter (map VTok l)) :: s0) x E G); [ | exact C | reflexivity | apply gives_next, C ].
      destruct (g x) as [ v | | ]; cbn [converted obind bind]; [ | exact I | reflexivity ]. cbn [snd]. specialize (IH P2 _ F' l).
      destruct (convert_all fs' l) as [ vs | | ]; cbn [bind]; [ | exact I | rewrite IH; reflexivity ]. destruct IH as [ rest -> ]. exists rest. reflexivity.
Qed.
Definition decode_env (F : Function) (data : list byte) : env := [(lit "self", false, VNewtype (lit "Decoder") (VFun F)); (lit "output", false, VBytes data)].
Lemma ev_decoded F data : ev decoded (decode_env F data) =
  match decode_output p F data with Ok l => Done (VIter (map VTok l), decode_env F data) | Err e => Return (VErr e) | Panic => Panics end.
Proof.
  unfold decoded, DeriveTree.method, name. cbn [eval]. change (lookup (decode_env F data) (lit "self")) with (Some (false, VNewtype (lit "Decoder") (VFun F))).
  cbn [obind fst snd seqM eval]. change (lookup (decode_env F data) (lit "output")) with (Some (false, VBytes data)). cbn [obind fst snd].
  unfold invoke. change (mutating (lit "decode_output")) with false. cbn iota.
  change (RustEval.method p (VFun F) (lit "decode_output") [VBytes data]) with (returned (fun l => VVec (map VTok l)) (decode_output p F data)).
  destruct (decode_output p F data); cbn [returned obind fst snd]; reflexivity.
Qed.
Lemma run_decode F data outputs body fs : decode_tree outputs = Ok body -> forallb plain_type (map p_kind outputs) = true ->
  mapM (fun q => from_token (p_kind q)) outputs = Ok fs ->
  run_fn p call (fn_decode body) [VNewtype (lit "Decoder") (VFun F); VBytes data] =
  returned results (match fs with [] => Ok [] | _ => do out <- decode_output p F data; convert_all fs out end).
Proof.
  intros T P M. unfold run_fn. 
  assert (Co : fn_correct (fn_decode body) = true) by (destruct body; reflexivity). rewrite Co. cbn [fn_decode fn_self fn_params fn_body fn_result app map fst List.length combine snd].
  change (List.length [_; _] =? List.length [_; _])%nat with true. cbn [andb]. change [(lit "self", false, VNewtype (lit "Decoder") (VFun F)); (lit "output", false, VBytes data)] with (decode_env F data).
  unfold decode_tree in T. destruct outputs as [ | x [ | x' l ] ].
  - injection T as <-. injection M as <-. reflexivity.
  - cbn [mapM map forallb] in M, P. rewrite andb_true_r in P. destruct (from_token (p_kind x)) as [ g | | ] eqn:G; try discriminate. cbn [bind] in M. injection M as <-.
    destruct (from_token_tree (p_kind x) (name "out")) as [ e | | ] eqn:E; try discriminate. injection T as <-. cbn [fst snd eval]. cbn [convert_all].
    pose proof (ev_decoded F data) as D. destruct (decode_output p F data) as [ outs | er | ] eqn:DE.
    + assert (N : ev (expecting (DeriveTree.method decoded "next")) (decode_env F data) = match outs with [] => Panics | t :: _ => Done (VTok t, decode_env F data) end).
      { rewrite (@ev_expecting_option p call _ VTok _ _ (hd_error outs) (decode_env F data)); [ destruct outs; reflexivity | | reflexivity ].
        unfold DeriveTree.method. rewrite (@ev_method p call _ _ _ _ _ _ _ [] (decode_env F data) D) by reflexivity. unfold invoke. change (mutating (lit "next")) with true. cbn iota. destruct outs; reflexivity. }
      rewrite N. destruct outs as [ | t outs ]; [ reflexivity | ]. cbn [obind fst snd bind_name bind seqM].
      rewrite (@ev_from_token p call _ P _ _ _ _ ((lit "out", false, VTok t) :: decode_env F data) t E G); [ | reflexivity | reflexivity | ].
      * pose proof (@from_token_no_err _ P _ G t) as NE. destruct (g t) as [ v | er | ]; [ reflexivity | exfalso; exact (NE er eq_refl) | reflexivity ].
      * intros pre Fp. unfold name. apply ev_name with (b := false). rewrite lookup_below by (exact Fp || reflexivity). reflexivity.
    + unfold expecting, DeriveTree.method. cbn [eval]. rewrite D. reflexivity.
    + unfold expecting, DeriveTree.method. cbn [eval]. rewrite D. reflexivity.
  - destruct (mapM (fun param => from_token_tree (p_kind param) (expecting (DeriveTree.method (name "out") "next"))) (x :: x' :: l)) as [ es | | ] eqn:E; try discriminate.
    injection T as <-. cbn [fst snd eval]. rewrite (ev_decoded F data). destruct fs as [ | g fs ]; [ apply mapM_ok in M; inversion M | ].
    destruct fs as [ | g' fs ]; [ apply mapM_ok in M; inversion M as [ | ? ? ? ? _ M' ]; inversion M' | ].
    destruct es as [ | e es ]; [ apply mapM_ok in E; inversion E | ].
    destruct (decode_output p F data) as [ outs | er | ]; [ | reflexivity | reflexivity ]. cbn [obind fst snd bind_name bind].
    pose proof (@seq_next _ p_kind _ _ _ (decode_env F data) eq_refl P E M outs) as S.
    assert (NE : forall er, convert_all (g :: g' :: fs) outs <> Err er).
    { apply (@convert_all_no_err (map p_kind (x :: x' :: l))); [ | exact P ]. apply mapM_ok. apply mapM_ok in M. clear -M. induction M; constructor; assumption. }
    destruct (convert_all (g :: g' :: fs) outs) as [ vs | er | ] eqn:V; [ | exfalso; exact (NE er eq_refl) | ].
    + destruct S as [ rest S ]. cbn [seqM eval]. cbn [seqM eval] in S. rewrite S. cbn [obind fst snd]. 
      assert (L : exists v v' vs', vs = v :: v' :: vs').
      { cbn [convert_all] in V. destruct outs as [ | o outs ]; [ discriminate | ]. destruct (g o) as [ v | | ]; try discriminate. cbn [bind] in V.
        destruct outs as [ | o' outs ]; [ discriminate | ]. destruct (g' o') as [ v' | | ]; try discriminate. cbn [bind] in V. destruct (convert_all fs outs); try discriminate. injection V as <-. eauto. }
      destruct L as (v & v' & vs' & ->). reflexivity.
    + cbn [seqM eval]. cbn [seqM eval] in S. rewrite S. reflexivity.
Qed.
End Run.

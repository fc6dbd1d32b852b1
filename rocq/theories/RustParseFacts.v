(** * The parser of RustParse.v reads what the writer of RustSyntax.v writes *)
From Verif Require Import Base BaseFacts StrFacts RustSyntax RustParse.
From Coq Require Import String Lia.
Notation length := List.length.
Set Implicit Arguments.
Local Open Scope N_scope.
Local Open Scope list_scope.

(** ** Readable trees *)
Definition filled (s : str) : bool := match s with [] => false | _ => true end.
Definition seg_ok (s : str) : bool := is_segment s && filled s.
Definition path_ok (p : path) : bool :=
  match p with [] => false | [] :: p' => match p' with [] => false | _ => forallb seg_ok p' end | _ => forallb seg_ok p end.
Definition single {A} (l : list A) : bool := match l with [_] => true | _ => false end.
Fixpoint ty_ok (t : ty) : bool :=
  match t with
  | TyName p l => path_ok p && forallb ty_ok l
  | TyArray t _ | TySlice t | TyRef t | TyStatic t => ty_ok t
  | TyComma _ _ => false
  | TyTuple l => negb (single l) && forallb ty_ok l
  | TyInfer => true
  end.
(** Starts with a block *)
Fixpoint opens (e : expr) : bool :=
  match e with EBlock _ _ => true | EMethod e _ _ _ | EMap e _ _ | EField e _ | EFirst e | ETry e => opens e | _ => false end.
Definition is_ref (e : expr) : bool := match e with ERef _ => true | _ => false end.
Definition binder_ok (b : binder) : bool := match b with Let x | LetMut x => is_name x | Do => true end.
Fixpoint expr_ok (e : expr) : bool :=
  let field (x : str * expr) := is_name (fst x) && expr_ok (snd x) in
  match e with
  | EPath p => path_ok p
  | EStr _ | ENum _ _ | EBool _ => true
  | ECall p l => path_ok p && forallb expr_ok l
  | EMethod e m ts l => negb (is_ref e) && expr_ok e && is_name m && forallb ty_ok ts && forallb expr_ok l
  | EMap e x b => negb (is_ref e) && expr_ok e && is_name x && expr_ok b
  | EField e f => negb (is_ref e) && expr_ok e && is_name f
  | EFirst e | ETry e => negb (is_ref e) && expr_ok e
  | ERef e => expr_ok e
  | ECast e t => expr_ok e && ty_ok t
  | ETuple l => negb (single l) && forallb expr_ok l
  | EArray l | EVec l => forallb expr_ok l
  | ERepeat e _ => expr_ok e
  | EBlock l e => forallb (fun x => binder_ok (fst x) && expr_ok (snd x) && match fst x with Do => negb (opens (snd x)) | _ => true end) l && expr_ok e && negb (opens e)
  | EStruct p l => path_ok p && forallb field l
  | EStructTrailing p l => path_ok p && forallb field l && match l with [] => false | _ => true end
  | EStructDefault p l b => path_ok p && forallb field l && path_ok b
  end.

(** ** What may follow *)
Definition starts (s : string) (l : toks) : bool := match l with KPu c :: _ => existsb (N.eqb c) (lit s) | _ => false end.
Definition ty_stops (l : toks) : bool := match l with [] => true | _ => starts ",;)]}>={(" l end.
Definition stops (l : toks) : bool := match l with [] => true | KId s :: _ => str_eqb s (lit "as") | _ => starts ",;)]}" l end.
Definition after (l : toks) : bool := stops l || starts ".?" l.

(** ** Tactics *)
Ltac lits := repeat match goal with
  | |- context [pu ?s] => let v := eval vm_compute in (pu s) in change (pu s) with v
  | |- context [kw ?s] => change (kw s) with (KId (lit s))
  end.
Ltac nums := repeat match goal with
  | |- context [str_eqb (lit ?a) (lit ?b)] => let v := eval vm_compute in (str_eqb (lit a) (lit b)) in change (str_eqb (lit a) (lit b)) with v
  | |- context [N.eqb ?a ?b] => let v := eval vm_compute in (N.eqb a b) in match v with true => idtac | false => idtac end; change (N.eqb a b) with v end.
Lemma eat_cons a t b l : eat (a :: t) (b :: l) = if tok_eqb a b then eat t l else None. Proof. reflexivity. Qed.
Lemma eat_nil l : eat [] l = Some l. Proof. reflexivity. Qed.
Ltac eats := lits; cbv delta [next]; cbn [andthen app]; nums; repeat (first [ rewrite eat_cons | rewrite eat_nil ]; cbn [tok_eqb andthen app andb]; nums; cbn [andthen app andb]).

Lemma eat_app t l : eat t (t ++ l) = Some l.
Proof. induction t as [ | a t IH ]; [ reflexivity | ]. cbn [eat app]. assert (E : tok_eqb a a = true) by (destruct a; cbn [tok_eqb]; rewrite ?str_eqb_refl, ?N.eqb_refl; reflexivity). rewrite E. exact IH. Qed.
Lemma is_name_not s x : is_name s = true -> is_name x = false -> str_eqb s x = false.
Proof. intros H N. destruct (str_eqb s x) eqn:E; [ | reflexivity ]. apply str_eqb_eq in E. congruence. Qed.
Lemma is_name_not' s x : is_name s = true -> is_name x = false -> str_eqb x s = false.
Proof. intros H N. destruct (str_eqb x s) eqn:E; [ | reflexivity ]. apply str_eqb_eq in E. congruence. Qed.
Lemma seg_not s x : seg_ok s = true -> is_segment x = false -> str_eqb x s = false.
Proof. intros H N. destruct (str_eqb x s) eqn:E; [ | reflexivity ]. apply str_eqb_eq in E. apply andb_true_iff in H as [ H _ ]. congruence. Qed.

(** ** Paths *)
Lemma segments_ok s p rest : forallb seg_ok (s :: p) = true -> starts ":" rest = false -> p_segments (wr_path (s :: p) ++ rest) = Some (s :: p, rest).
Proof.
  revert s. induction p as [ | s' p IH ]; intros s H R.
  - cbn [wr_path app p_segments]. cbn [forallb] in H. apply andb_true_iff in H as [ H _ ]. apply andb_true_iff in H as [ -> _ ].
    destruct rest as [ | [ ] [ | [ ] ? ] ]; try reflexivity. cbn [starts existsb lit] in R. destruct (c =? 58) eqn:E; [ apply N.eqb_eq in E; subst; discriminate R | ]. reflexivity.
  - cbn [forallb] in H. apply andb_true_iff in H as [ H H' ]. apply andb_true_iff in H as [ S F ]. destruct s as [ | a s ]; [ discriminate | ].
    change (wr_path ((a :: s) :: s' :: p)) with (KId (a :: s) :: KPu 58 :: KPu 58 :: wr_path (s' :: p)). cbn [app p_segments]. rewrite S. nums. cbn [andb].
    rewrite (IH s' H' R). reflexivity.
Qed.
Lemma path_reads p rest : path_ok p = true -> starts ":" rest = false -> p_path (wr_path p ++ rest) = Some (p, rest).
Proof.
  intros H R. destruct p as [ | s p ]; [ discriminate | ]. unfold p_path. destruct s as [ | a s ].
  - destruct p as [ | s p ]; [ discriminate | ]. change (wr_path ([] :: s :: p)) with (pu "::" ++ wr_path (s :: p)). rewrite <- app_assoc, eat_app.
    rewrite (segments_ok _ _ _ H R). reflexivity.
  - rewrite (segments_ok _ _ _ H R). destruct p; reflexivity.
Qed.
(** A path starts with a name or '::'. *)
Lemma path_head p : path_ok p = true -> exists t l, wr_path p = t :: l /\ ((t = KPu 58 /\ exists l', l = KPu 58 :: l') \/ exists s, t = KId s /\ seg_ok s = true).
Proof.
  destruct p as [ | [ | a s ] [ | s' p ] ]; intros H; try discriminate.
  - exists (KPu 58), (KPu 58 :: wr_path (s' :: p)). split; [ reflexivity | ]. left. eauto.
  - exists (KId (a :: s)), []. split; [ reflexivity | ]. right. exists (a :: s). split; [ reflexivity | ]. cbn [path_ok forallb] in H. apply andb_true_iff in H. tauto.
  - exists (KId (a :: s)), (pu "::" ++ wr_path (s' :: p)). split; [ reflexivity | ]. right. exists (a :: s). split; [ reflexivity | ]. cbn [path_ok forallb] in H. apply andb_true_iff in H. tauto.
Qed.
Lemma path_length p : path_ok p = true -> (1 <= length (wr_path p))%nat.
Proof. intros H. destruct (path_head _ H) as (t & l & -> & _). cbn [length]. lia. Qed.

(** ** Lists *)
Section Written.
Context {A : Type} (write : A -> toks).
Lemma commas_cons a b l : commas (map write (a :: b :: l)) = write a ++ pu "," ++ commas (map write (b :: l)).
Proof. reflexivity. Qed.
Lemma commas_in a l : In a l -> (length (write a) <= length (commas (map write l)))%nat.
Proof.
  induction l as [ | b [ | c l ] IH ]; intros I; [ destruct I | destruct I as [ -> | [ ] ]; reflexivity | ]. rewrite commas_cons, !app_length.
  destruct I as [ -> | I ]; [ lia | ]. specialize (IH I). cbn [length]. lia.
Qed.
Lemma commas_length l : (length l <= S (length (commas (map write l))))%nat.
Proof. induction l as [ | a [ | b l ] IH ]; [ cbn; lia | cbn; lia | ]. rewrite commas_cons, !app_length. cbn [length] in *. change (length (pu ",")) with 1%nat. lia. Qed.
Lemma concat_in a l : In a l -> (length (write a) <= length (List.concat (map write l)))%nat.
Proof. induction l as [ | b l IH ]; intros I; [ destruct I | ]. cbn [map List.concat]. rewrite app_length. destruct I as [ -> | I ]; [ lia | ]. specialize (IH I). lia. Qed.
Lemma concat_length l : (forall a, In a l -> (1 <= length (write a))%nat) -> (length l <= length (List.concat (map write l)))%nat.
Proof. induction l as [ | b l IH ]; intros H; [ cbn; lia | ]. cbn [map List.concat length]. rewrite app_length. specialize (H b (in_eq _ _)) as H1. specialize (IH (fun a I => H a (in_cons _ _ _ I))). lia. Qed.
End Written.
Section Lists.
Context {A : Type} (write : A -> toks) (one : parser A) (close : toks) (F : toks -> Prop).
Lemma commas1_reads l : forall n rest, l <> [] -> (length l <= n)%nat -> (forall a r, In a l -> F r -> one (write a ++ r) = Some (a, r)) ->
  (forall r, F (pu "," ++ r)) -> F (close ++ rest) -> (forall r, eat close (pu "," ++ r) = None) ->
  p_commas1 one close n (commas (map write l) ++ close ++ rest) = Some (l, rest).
Proof.
  induction l as [ | a [ | b l ] IH ]; intros n rest NE L H C1 C2 X; [ congruence | | ]; (destruct n as [ | n ]; [ cbn [length] in L; lia | ]).
  - cbn [p_commas1 commas sep map]. rewrite (H a _ (in_eq _ _) C2). cbn [andthen]. rewrite eat_app. reflexivity.
  - rewrite commas_cons, <- !app_assoc. cbn [p_commas1]. rewrite (H a _ (in_eq _ _) (C1 _)). cbn [andthen]. rewrite X, eat_app. cbn [andthen].
    rewrite IH; [ reflexivity | congruence | cbn [length] in *; lia | intros; apply H; [ right | ]; assumption | assumption .. ].
Qed.
Lemma commas_reads l n rest : (length l <= n)%nat -> (forall a r, In a l -> F r -> one (write a ++ r) = Some (a, r)) ->
  (forall r, F (pu "," ++ r)) -> F (close ++ rest) -> (forall r, eat close (pu "," ++ r) = None) -> (forall a r, In a l -> eat close (write a ++ r) = None) ->
  p_commas one close n (commas (map write l) ++ close ++ rest) = Some (l, rest).
Proof.
  intros L H C1 C2 X Y. unfold p_commas. destruct l as [ | a l ]; [ cbn [map commas sep app]; rewrite eat_app; reflexivity | ].
  assert (E : eat close (commas (map write (a :: l)) ++ close ++ rest) = None).
  { destruct l as [ | b l ]; [ apply Y; left; reflexivity | ]. rewrite commas_cons, <- !app_assoc. apply Y. left. reflexivity. }
  rewrite E. apply commas1_reads; auto. congruence.
Qed.
Lemma many_reads l : forall n rest, (length l <= n)%nat -> (forall a r, In a l -> one (write a ++ r) = Some (a, r)) -> (forall a r, In a l -> eat close (write a ++ r) = None) ->
  p_many one close n (List.concat (map write l) ++ close ++ rest) = Some (l, rest).
Proof.
  induction l as [ | a l IH ]; intros n rest L H Y.
  - cbn [map List.concat app]. destruct n; cbn [p_many]; rewrite eat_app; reflexivity.
  - cbn [map List.concat]. rewrite <- app_assoc. destruct n as [ | n ]; [ cbn [length] in L; lia | ]. cbn [p_many]. rewrite (Y a _ (in_eq _ _)), (H a _ (in_eq _ _)). cbn [andthen].
    rewrite IH; [ reflexivity | cbn [length] in L; lia | intros; apply H; right; assumption | intros; apply Y; right; assumption ].
Qed.
End Lists.

(** ** Types *)
Definition begins (s : string) (t : tok) : bool := match t with KPu c => existsb (N.eqb c) (lit s) | KId _ => true | _ => false end.
Lemma ty_head t : ty_ok t = true -> exists x l, wr_ty t = x :: l /\ begins "[&(:" x = true.
Proof.
  destruct t as [ p l | t n | t n | t | t | t | l | ]; intros H; try discriminate; try (eexists; eexists; split; [ reflexivity | reflexivity ]).
  cbn [ty_ok] in H. apply andb_true_iff in H as [ H _ ]. destruct (path_head _ H) as (x & k & E & X). exists x. exists (match l with [] => k | _ => k ++ pu "<" ++ commas (map wr_ty l) ++ pu ">" end).
  split; [ destruct l; cbn [wr_ty]; rewrite E; reflexivity | ]. destruct X as [ [ -> _ ] | (s & -> & _) ]; reflexivity.
Qed.
Lemma begins_eat s t c k r l : begins s t = true -> existsb (N.eqb c) (lit s) = false -> eat (KPu c :: k) ((t :: l) ++ r) = None.
Proof.
  intros B N. cbn [app eat]. destruct t; try discriminate; try reflexivity. cbn [tok_eqb begins] in *. destruct (c =? c0) eqn:E; [ | reflexivity ]. apply N.eqb_eq in E. subst. congruence.
Qed.
Lemma ty_eat t c k r : ty_ok t = true -> existsb (N.eqb c) (lit "[&(:") = false -> eat (KPu c :: k) (wr_ty t ++ r) = None.
Proof. intros H N. destruct (ty_head _ H) as (x & l & -> & B). eapply begins_eat; eassumption. Qed.
Lemma starts_eat s l c k : starts s l = false \/ (exists s', starts s' l = true /\ existsb (N.eqb c) (lit s') = false) -> existsb (N.eqb c) (lit s) = true -> eat (KPu c :: k) l = None.
Proof.
  intros H I. destruct l as [ | t l ]; [ reflexivity | ]. cbn [eat]. destruct t; try reflexivity. cbn [tok_eqb]. destruct (c =? c0) eqn:E; [ | reflexivity ]. apply N.eqb_eq in E. subst c0.
  destruct H as [ H | (s' & H & J) ]; cbn [starts] in H; congruence.
Qed.
Lemma ty_stops_eat l c k : ty_stops l = true -> existsb (N.eqb c) (lit ",;)]}>={(") = false -> eat (KPu c :: k) l = None.
Proof.
  intros H I. destruct l as [ | t l ]; [ reflexivity | ]. cbn [ty_stops] in H. cbn [eat]. destruct t; try reflexivity. cbn [tok_eqb starts] in *. destruct (c =? c0) eqn:E; [ | reflexivity ].
  apply N.eqb_eq in E. subst c0. congruence.
Qed.
Lemma ty_stops_starts l : ty_stops l = true -> starts ":" l = false.
Proof. destruct l as [ | [ ] l ]; try reflexivity. cbn [ty_stops starts]. intros H. destruct (existsb (N.eqb c) (lit ":")) eqn:E; [ | reflexivity ]. cbn [existsb lit] in E. apply orb_true_iff in E as [ E | E ]; [ | discriminate ]. apply N.eqb_eq in E. subst. discriminate H. Qed.
Lemma ty_reads n : forall t rest, ty_ok t = true -> (length (wr_ty t) < n)%nat -> ty_stops rest = true -> p_ty n (wr_ty t ++ rest) = Some (t, rest).
Proof.
  induction n as [ | n IH ]; intros t rest H L R; [ lia | ]. destruct t as [ p l | t k | t k | t | t | t | l | ]; try discriminate.
  - cbn [ty_ok] in H. apply andb_true_iff in H as [ P H ]. pose proof (path_length _ P) as PL.
    assert (W : forall r, p_ty (S n) (wr_path p ++ r) = try (p, r) <- p_path (wr_path p ++ r); match eat (pu "<") r with Some r' => try (ts, r'') <- p_commas1 (p_ty n) (pu ">") n r'; Some (TyName p ts, r'') | None => Some (TyName p [], r) end).
    { intros r. destruct (path_head _ P) as (x & k & E & X). rewrite E. destruct X as [ [ -> (k' & ->) ] | (s & -> & S) ].
      - reflexivity.
      - cbn [app p_ty]. eats. rewrite (seg_not _ (lit "_") S eq_refl). reflexivity. }
    destruct l as [ | t l ].
    + cbn [wr_ty]. rewrite (W rest), (path_reads _ _ P (ty_stops_starts _ R)). cbn [andthen]. lits. rewrite ty_stops_eat by (exact R || reflexivity). reflexivity.
    + cbn [wr_ty] in L. rewrite !app_length in L. change (length (pu "<")) with 1%nat in L. change (length (pu ">")) with 1%nat in L.
      cbn [wr_ty]. rewrite <- !app_assoc. rewrite (W _), path_reads by (exact P || reflexivity). cbn [andthen]. rewrite eat_app.
      erewrite (@commas1_reads _ wr_ty (p_ty n) (pu ">") (fun r => ty_stops r = true)); [ reflexivity | congruence | | | reflexivity | reflexivity | reflexivity ].
      * pose proof (commas_length wr_ty (t :: l)). lia.
      * intros a r I Fr. rewrite forallb_forall in H. pose proof (commas_in wr_ty _ _ I). apply IH; [ auto | lia | exact Fr ].
  - cbn [ty_ok wr_ty] in *. rewrite !app_length in L. change (length (pu "[")) with 1%nat in L. cbn [p_ty]. rewrite <- !app_assoc. unfold next. rewrite eat_app. cbn [andthen].
    rewrite (IH t); [ | exact H | lia | reflexivity ]. cbn [andthen]. eats. reflexivity.
  - cbn [ty_ok wr_ty] in *. rewrite !app_length in L. change (length (pu "[")) with 1%nat in L. cbn [p_ty]. rewrite <- !app_assoc. unfold next. rewrite eat_app. cbn [andthen].
    rewrite (IH t); [ | exact H | lia | reflexivity ]. cbn [andthen]. eats. reflexivity.
  - cbn [ty_ok wr_ty] in *. rewrite !app_length in L. change (length (pu "&")) with 1%nat in L. cbn [p_ty]. rewrite <- !app_assoc.
    destruct (ty_head _ H) as (x & k & E & B). assert (N : forall r, eat [KLife (lit "static")] (wr_ty t ++ r) = None) by (intros r; rewrite E; destruct x; try discriminate; reflexivity).
    change (next (pu "[") (pu "&" ++ ?z)) with false. unfold next. rewrite eat_app. cbn [andthen]. rewrite N. rewrite (IH t); [ | exact H | lia | exact R ]. reflexivity.
  - cbn [ty_ok wr_ty] in *. rewrite !app_length in L. change (length (pu "&")) with 1%nat in L. cbn [p_ty]. rewrite <- !app_assoc.
    eats. rewrite (IH t); [ | exact H | lia | exact R ]. reflexivity.
  - cbn [ty_ok wr_ty] in *. rewrite !app_length in L. change (length (pu "(")) with 1%nat in L. change (length (pu ")")) with 1%nat in L. cbn [p_ty]. rewrite <- !app_assoc. apply andb_true_iff in H as [ Si H ].
    change (next (pu "[") (pu "(" ++ ?z)) with false. change (next (pu "&") (pu "(" ++ ?z)) with false. unfold next. rewrite eat_app. cbn [andthen].
    erewrite (@commas_reads _ wr_ty (p_ty n) (pu ")") (fun r => ty_stops r = true)); [ | | | reflexivity | reflexivity | reflexivity | ].
    + cbn [andthen]. destruct l as [ | a [ | b l ] ]; [ reflexivity | discriminate | reflexivity ].
    + pose proof (commas_length wr_ty l). lia.
    + intros a r I Fr. rewrite forallb_forall in H. pose proof (commas_in wr_ty _ _ I). apply IH; [ auto | lia | exact Fr ].
    + intros a r I. rewrite forallb_forall in H. lits. apply ty_eat; [ auto | reflexivity ].
  - reflexivity.
Qed.

(** ** Expressions *)
Definition ebegins (t : tok) : bool :=
  match t with
  | KPu c => existsb (N.eqb c) (lit "&([{:")
  | KId s => is_segment s || str_eqb s (lit "true") || str_eqb s (lit "false")
  | KStr _ | KNum _ _ => true
  | KLife _ => false
  end.
Lemma path_begins p r : path_ok p = true -> exists x l, wr_path p ++ r = x :: l /\ ebegins x = true.
Proof.
  intros P. destruct (path_head _ P) as (x & k & -> & X). exists x, (k ++ r). split; [ reflexivity | ].
  destruct X as [ [ -> _ ] | (s & -> & Q) ]; [ reflexivity | ]. cbn [ebegins]. apply andb_true_iff in Q as [ -> _ ]. reflexivity.
Qed.
Ltac oks H := cbn [expr_ok] in H; repeat match type of H with (_ && _) = true => let H' := fresh "K" in apply andb_true_iff in H as [ H H' ] end.
Lemma expr_head e : expr_ok e = true -> exists x l, wr e = x :: l /\ ebegins x = true.
Proof.
  induction e; intros H; try (eexists; eexists; split; [ reflexivity | reflexivity ]); oks H.
  all: try (cbn [wr]; rewrite <- (app_nil_r (wr_path p)); apply path_begins; assumption).
  all: try (cbn [wr]; apply path_begins; assumption).
  - eexists; eexists; split; [ reflexivity | ]. destruct b; reflexivity.
  - destruct IHe as (x & l & E & B); [ assumption | ]. destruct turbofish; cbn [wr]; rewrite E; eexists; eexists; (split; [ reflexivity | exact B ]).
  - destruct IHe1 as (y & l & E & B); [ assumption | ]. cbn [wr]; rewrite E; eexists; eexists; (split; [ reflexivity | exact B ]).
  - destruct IHe as (y & l & E & B); [ assumption | ]. cbn [wr]; rewrite E; eexists; eexists; (split; [ reflexivity | exact B ]).
  - destruct IHe as (y & l & E & B); [ assumption | ]. cbn [wr]; rewrite E; eexists; eexists; (split; [ reflexivity | exact B ]).
  - destruct IHe as (y & l & E & B); [ assumption | ]. cbn [wr]; rewrite E; eexists; eexists; (split; [ reflexivity | exact B ]).
Qed.
Lemma expr_eat e c k r : expr_ok e = true -> existsb (N.eqb c) (lit "&([{:") = false -> eat (KPu c :: k) (wr e ++ r) = None.
Proof.
  intros H N. destruct (expr_head _ H) as (x & l & -> & B). cbn [app eat]. destruct x; try discriminate; try reflexivity. cbn [tok_eqb ebegins] in *.
  destruct (c =? c0) eqn:E; [ | reflexivity ]. apply N.eqb_eq in E. subst. congruence.
Qed.
Lemma expr_let e k r : expr_ok e = true -> eat (kw "let" :: k) (wr e ++ r) = None.
Proof.
  intros H. destruct (expr_head _ H) as (x & l & -> & B). cbn [app eat]. destruct x; try discriminate; try reflexivity. change (kw "let") with (KId (lit "let")). cbn [tok_eqb].
  destruct (str_eqb (lit "let") s) eqn:E; [ | reflexivity ]. apply str_eqb_eq in E. subst s. discriminate B.
Qed.
Lemma expr_brace e k r : expr_ok e = true -> opens e = false -> eat (KPu 123 :: k) (wr e ++ r) = None.
Proof.
  intros H O. revert r. induction e; intros r; try discriminate O; try reflexivity; oks H; cbn [wr].
  all: try (rewrite <- ?app_assoc; match goal with P : path_ok ?p = true |- _ => destruct (path_head _ P) as (x & l & -> & [ [ -> _ ] | (s & -> & _) ]); reflexivity end).
  - cbn [opens] in O. destruct turbofish; rewrite <- app_assoc; apply IHe; assumption.
  - cbn [opens] in O. rewrite <- app_assoc; apply IHe1; assumption.
  - cbn [opens] in O. rewrite <- app_assoc; apply IHe; assumption.
  - cbn [opens] in O. rewrite <- app_assoc; apply IHe; assumption.
  - cbn [opens] in O. rewrite <- app_assoc; apply IHe; assumption.
Qed.
Fixpoint ops (e : expr) : nat := match e with EMethod e _ _ _ | EMap e _ _ | EField e _ | EFirst e | ETry e => S (ops e) | _ => O end.
Lemma ops_length e : expr_ok e = true -> (ops e < length (wr e))%nat.
Proof.
  induction e; intros H; oks H; cbn [ops];
  try (match goal with |- (0 < _)%nat => idtac end; match goal with |- (0 < length (wr ?e))%nat => assert (H' : expr_ok e = true) by (cbn [expr_ok]; repeat (apply andb_true_iff; split); assumption) end; destruct (expr_head _ H') as (y & k & -> & _); cbn [length]; lia).
  - destruct turbofish; cbn [wr]; rewrite !app_length; specialize (IHe ltac:(assumption)); change (length (pu ".")) with 1%nat; lia.
  - cbn [wr]; rewrite !app_length; specialize (IHe1 ltac:(assumption)); change (length (pu ".")) with 1%nat; lia.
  - cbn [wr]; rewrite !app_length; specialize (IHe ltac:(assumption)); change (length (pu ".")) with 1%nat; lia.
  - cbn [wr]; rewrite !app_length; specialize (IHe ltac:(assumption)); change (length (pu ".")) with 1%nat; lia.
  - cbn [wr]; rewrite !app_length; specialize (IHe ltac:(assumption)); change (length (pu "?")) with 1%nat; lia.
Qed.
(** What follows *)
Lemma stops_eat l c k : stops l = true -> existsb (N.eqb c) (lit ",;)]}") = false -> eat (KPu c :: k) l = None.
Proof.
  intros H I. destruct l as [ | t l ]; [ reflexivity | ]. cbn [eat]. destruct t; try reflexivity. cbn [stops tok_eqb starts] in *. destruct (c =? c0) eqn:E; [ | reflexivity ].
  apply N.eqb_eq in E. subst c0. congruence.
Qed.
Lemma after_eat l c k : after l = true -> existsb (N.eqb c) (lit ",;)]}.?") = false -> eat (KPu c :: k) l = None.
Proof.
  intros H I. destruct l as [ | t l ]; [ reflexivity | ]. cbn [eat]. destruct t; try reflexivity. unfold after in H. cbn [stops tok_eqb starts] in *. destruct (c =? c0) eqn:E; [ | reflexivity ].
  apply N.eqb_eq in E. subst c0. change (lit ",;)]}.?") with (lit ",;)]}" ++ lit ".?") in I. rewrite existsb_app in I. congruence.
Qed.
Lemma after_starts l c s : after l = true -> lit s = [c] -> existsb (N.eqb c) (lit ",;)]}.?") = false -> starts s l = false.
Proof.
  intros H S I. pose proof (after_eat _ c [] H I) as E. destruct l as [ | t l ]; [ reflexivity | ]. destruct t; try reflexivity. cbn [starts]. rewrite S. cbn [existsb]. rewrite orb_false_r.
  cbn [eat tok_eqb] in E. rewrite N.eqb_sym. destruct (c =? c0); [ discriminate | reflexivity ].
Qed.
Section Step.
Context (n : nat) (one : parser expr)
  (IH : forall e rest, expr_ok e = true -> (length (wr e) < n)%nat -> stops rest = true -> one (wr e ++ rest) = Some (e, rest)).
Definition afield (x : str * expr) : toks := [KId (fst x)] ++ pu ":" ++ wr (snd x).
Definition field_ok (x : str * expr) : bool := is_name (fst x) && expr_ok (snd x).
Lemma name_reads s r : is_name s = true -> p_word (KId s :: r) = Some (s, r).
Proof using Type. intros H. cbn [p_word]. rewrite H. reflexivity. Qed.
Lemma args_reads l rest c : forallb expr_ok l = true -> (length (commas (map wr l)) < n)%nat -> existsb (N.eqb c) (lit ",&([{:") = false -> stops (KPu c :: rest) = true ->
  p_commas one [KPu c] n (commas (map wr l) ++ [KPu c] ++ rest) = Some (l, rest).
Proof.
  intros H L N R. change (lit ",&([{:") with (44 :: lit "&([{:") in N. cbn [existsb] in N. apply orb_false_iff in N as [ N1 N2 ]. rewrite forallb_forall in H. apply (@commas_reads _ wr one [KPu c] (fun r => stops r = true)).
  - pose proof (commas_length wr l). lia.
  - intros a r I F. apply IH; [ auto | | exact F ]. pose proof (commas_in wr _ _ I). lia.
  - reflexivity.
  - exact R.
  - intros r. lits. cbn [app]. rewrite eat_cons. cbn [tok_eqb]. rewrite N1. reflexivity.
  - intros a r I. apply expr_eat; auto.
Qed.
Lemma args1_reads l rest c : l <> [] -> forallb expr_ok l = true -> (length (commas (map wr l)) < n)%nat -> c =? 44 = false -> stops (KPu c :: rest) = true ->
  p_commas1 one [KPu c] n (commas (map wr l) ++ [KPu c] ++ rest) = Some (l, rest).
Proof.
  intros NE H L N R. rewrite forallb_forall in H. apply (@commas1_reads _ wr one [KPu c] (fun r => stops r = true)).
  - exact NE.
  - pose proof (commas_length wr l). lia.
  - intros a r I F. apply IH; [ auto | | exact F ]. pose proof (commas_in wr _ _ I). lia.
  - reflexivity.
  - exact R.
  - intros r. lits. cbn [app]. rewrite eat_cons. cbn [tok_eqb]. rewrite N. reflexivity.
Qed.
Lemma field_reads f r : field_ok f = true -> (length (afield f) < n)%nat -> stops r = true -> p_field one (afield f ++ r) = Some (f, r).
Proof.
  destruct f as [ x e ]. unfold field_ok, afield, p_field. cbn [fst snd]. intros H L R. apply andb_true_iff in H as [ X H ]. cbn [app]. rewrite (name_reads _ _ X). cbn [andthen]. rewrite <- app_assoc, eat_app.
  cbn [andthen]. rewrite !app_length in L. rewrite IH; [ reflexivity | exact H | lia | exact R ].
Qed.
Lemma field_eat f c k r : eat (KPu c :: k) (afield f ++ r) = None. Proof using Type. reflexivity. Qed.
(** The fields of a struct, without and with a final comma, and with a base *)
Lemma fields_plain l : forall k rest, l <> [] -> forallb field_ok l = true -> (length (commas (map afield l)) < n)%nat -> (length l <= k)%nat ->
  p_fields one k (commas (map afield l) ++ pu "}" ++ rest) = Some (l, Plain, rest).
Proof.
  induction l as [ | f [ | g l ] IHl ]; intros k rest NE H L K; [ congruence | | ]; (destruct k as [ | k ]; [ cbn [length] in K; lia | ]).
  - cbn [forallb] in H. rewrite andb_true_r in H. cbn [map commas sep] in *. cbn [p_fields]. change (next (pu "..") (afield f ++ ?z)) with false. cbv iota.
    rewrite (@field_reads f _ H L) by reflexivity. cbn [andthen]. rewrite eat_app. reflexivity.
  - cbn [forallb] in H. apply andb_true_iff in H as [ F H ]. rewrite commas_cons in *. rewrite !app_length in L. rewrite <- !app_assoc. cbn [p_fields]. change (next (pu "..") (afield f ++ ?z)) with false. cbv iota.
    rewrite field_reads by (exact F || reflexivity || lia). cbn [andthen]. change (eat (pu "}") (pu "," ++ ?z)) with (@None toks). cbv iota. rewrite eat_app. cbn [andthen].
    assert (E : forall r, eat (pu "}") (commas (map afield (g :: l)) ++ r) = None) by (intros r; destruct l; reflexivity). rewrite E.
    rewrite IHl; [ reflexivity | congruence | exact H | lia | cbn [length] in *; lia ].
Qed.
Lemma fields_trailing l : forall k rest, l <> [] -> forallb field_ok l = true -> (length (List.concat (map (fun x => afield x ++ pu ",") l)) < n)%nat -> (length l <= k)%nat ->
  p_fields one k (List.concat (map (fun x => afield x ++ pu ",") l) ++ pu "}" ++ rest) = Some (l, Trailing, rest).
Proof.
  induction l as [ | f l IHl ]; intros k rest NE H L K; [ congruence | ]; (destruct k as [ | k ]; [ cbn [length] in K; lia | ]).
  cbn [forallb] in H. apply andb_true_iff in H as [ F H ]. cbn [map List.concat] in *. rewrite !app_length in L. rewrite <- !app_assoc. cbn [p_fields]. change (next (pu "..") (afield f ++ ?z)) with false. cbv iota.
  rewrite field_reads by (exact F || reflexivity || lia). cbn [andthen]. change (eat (pu "}") (pu "," ++ ?z)) with (@None toks). cbv iota. rewrite eat_app. cbn [andthen].
  destruct l as [ | g l ]; [ cbn [map List.concat app]; rewrite eat_app; reflexivity | ].
  change (eat (pu "}") (List.concat (map (fun x => afield x ++ pu ",") (g :: l)) ++ ?z)) with (@None toks). cbv iota. rewrite IHl; [ reflexivity | congruence | exact H | lia | cbn [length] in *; lia ].
Qed.
Lemma fields_base l b : forall k rest, path_ok b = true -> forallb field_ok l = true -> (length (List.concat (map (fun x => afield x ++ pu ",") l)) < n)%nat -> (length l < k)%nat ->
  p_fields one k (List.concat (map (fun x => afield x ++ pu ",") l) ++ pu ".." ++ wr_path b ++ pu "()" ++ pu "}" ++ rest) = Some (l, Base b, rest).
Proof.
  induction l as [ | f l IHl ]; intros k rest B H L K; (destruct k as [ | k ]; [ cbn [length] in K; lia | ]).
  - cbn [map List.concat app p_fields]. unfold next, p_base. rewrite eat_app. cbn [andthen]. rewrite path_reads by (exact B || reflexivity). cbn [andthen]. eats. reflexivity.
  - cbn [forallb] in H. apply andb_true_iff in H as [ F H ]. cbn [map List.concat] in *. rewrite !app_length in L. rewrite <- !app_assoc. cbn [p_fields]. change (next (pu "..") (afield f ++ ?z)) with false. cbv iota.
    rewrite field_reads by (exact F || reflexivity || lia). cbn [andthen]. change (eat (pu "}") (pu "," ++ ?z)) with (@None toks). cbv iota. rewrite eat_app. cbn [andthen].
    assert (E : forall r, eat (pu "}") (List.concat (map (fun x => afield x ++ pu ",") l) ++ pu ".." ++ r) = None) by (intros r; destruct l; reflexivity). rewrite E.
    rewrite IHl; [ reflexivity | exact B | exact H | lia | cbn [length] in *; lia ].
Qed.
Definition stmt (x : binder * expr) : toks := wr_binder (fst x) ++ wr (snd x) ++ pu ";".
Definition stmt_ok (x : binder * expr) : bool := binder_ok (fst x) && expr_ok (snd x) && match fst x with Do => negb (opens (snd x)) | _ => true end.
Lemma binder_reads b e r : binder_ok b = true -> expr_ok e = true -> p_binder (wr_binder b ++ wr e ++ r) = Some (b, wr e ++ r).
Proof using Type.
  intros B H. unfold p_binder. destruct b as [ x | x | ]; cbn [wr_binder binder_ok app] in *.
  - eats. rewrite (is_name_not' _ (lit "mut") B eq_refl). rewrite (name_reads _ _ B). eats. reflexivity.
  - eats. rewrite (name_reads _ _ B). eats. reflexivity.
  - rewrite (expr_let _ _ _ H). reflexivity.
Qed.
Lemma block_reads l e : forall k rest, forallb stmt_ok l = true -> expr_ok e = true -> opens e = false ->
  (length (List.concat (map stmt l)) + length (wr e) < n)%nat -> (length l < k)%nat ->
  p_block one k (List.concat (map stmt l) ++ wr e ++ pu "}" ++ rest) = Some (l, e, rest).
Proof.
  induction l as [ | [ b a ] l IHl ]; intros k rest H He O L K; (destruct k as [ | k ]; [ cbn [length] in K; lia | ]).
  - cbn [map List.concat app p_block]. change (wr e ++ pu "}" ++ rest) with (wr_binder Do ++ wr e ++ pu "}" ++ rest). rewrite binder_reads by (exact He || reflexivity). cbn [andthen].
    unfold next. change (pu "{") with [KPu 123]. rewrite (expr_brace _ _ _ He O). cbn [map List.concat length] in L. rewrite IH; [ | exact He | lia | reflexivity ]. eats. reflexivity.
  - cbn [forallb] in H. apply andb_true_iff in H as [ S H ]. unfold stmt_ok in S. cbn [fst snd] in S. apply andb_true_iff in S as [ S S3 ]. apply andb_true_iff in S as [ S1 S2 ].
    cbn [map List.concat] in *. rewrite app_length in L. unfold stmt at 1 in L. unfold stmt at 1. cbn [fst snd] in *. rewrite !app_length in L. rewrite <- !app_assoc. cbn [p_block].
    rewrite binder_reads by assumption. cbn [andthen].
    assert (E : forall r, stops r = true -> match b with Do => if next (pu "{") (wr a ++ r) then None else one (wr a ++ r) | _ => one (wr a ++ r) end = Some (a, r)).
    { intros r R. assert (X : one (wr a ++ r) = Some (a, r)) by (apply IH; [ exact S2 | lia | exact R ]). destruct b; try exact X.
      unfold next. change (pu "{") with [KPu 123]. apply negb_true_iff in S3. rewrite (expr_brace _ _ _ S2 S3). exact X. }
    rewrite E by reflexivity. cbn [andthen]. rewrite eat_app. rewrite IHl; [ reflexivity | exact H | exact He | exact O | lia | cbn [length] in K; lia ].
Qed.
Lemma primary_path p r : path_ok p = true -> starts "!" r = false ->
  p_primary one n (wr_path p ++ r) =
    try (p, r) <- p_path (wr_path p ++ r);
    match eat (pu "(") r with
    | Some r => try (es, r) <- p_args one n r; Some (ECall p es, r)
    | None => match eat (pu "{") r with Some r => p_struct one n p r | None => Some (EPath p, r) end
    end.
Proof using Type.
  intros P R. destruct (path_head _ P) as (x & k & E & X).
  assert (V : next ([kw "vec"] ++ pu "![") (wr_path p ++ r) = false).
  { destruct p as [ | [ | a s ] [ | s' p ] ]; try discriminate P; try reflexivity.
    - cbn [wr_path app]. unfold next. lits. cbn [app]. rewrite eat_cons. destruct (tok_eqb _ _); [ | reflexivity ]. destruct r as [ | [ ] r ]; try reflexivity. cbn [starts] in R. change (lit "!") with [33] in R. cbn [existsb] in R. rewrite orb_false_r in R.
      rewrite eat_cons. cbn [tok_eqb]. rewrite N.eqb_sym, R. reflexivity.
    - change (wr_path ((a :: s) :: s' :: p)) with (KId (a :: s) :: KPu 58 :: KPu 58 :: wr_path (s' :: p)). cbn [app]. unfold next. lits. cbn [app]. rewrite eat_cons. destruct (tok_eqb _ _); reflexivity. }
  unfold p_primary at 1. rewrite V. clear V. rewrite E. destruct X as [ [ -> (k' & ->) ] | (s & -> & Q) ]; [ reflexivity | ].
  cbn [app]. unfold next. rewrite !eat_cons. lits. rewrite !eat_cons. cbn [tok_eqb]. rewrite (seg_not _ (lit "true") Q eq_refl), (seg_not _ (lit "false") Q eq_refl). reflexivity.
Qed.
Definition primary (e : expr) : bool := match e with EMethod _ _ _ _ | EMap _ _ _ | EField _ _ | EFirst _ | ETry _ | ERef _ => false | _ => true end.
Lemma primary_reads e rest : primary e = true -> expr_ok e = true -> (length (wr e) <= n)%nat -> after rest = true -> p_primary one n (wr e ++ rest) = Some (e, rest).
Proof.
  intros Pr H L R. pose proof (@after_starts rest 33 "!" R eq_refl eq_refl) as R1. pose proof (@after_starts rest 58 ":" R eq_refl eq_refl) as R2.
  destruct e; try discriminate Pr; oks H; try reflexivity; cbn [wr] in *; rewrite ?app_length in L; rewrite <- ?app_assoc.
  - rewrite primary_path, path_reads by assumption. cbn [andthen]. lits. rewrite !after_eat by (exact R || reflexivity). reflexivity.
  - destruct b; reflexivity.
  - rewrite primary_path, path_reads by (assumption || reflexivity). cbn [andthen]. rewrite eat_app. cbn [andthen]. unfold p_args. change (length (pu "(")) with 1%nat in L. lits.
    rewrite args_reads; [ reflexivity | assumption | lia | reflexivity | reflexivity ].
  - unfold p_primary. lits. cbn [app]. change (length (pu "(")) with 1%nat in L. eats. rewrite expr_eat by (assumption || reflexivity).
    rewrite IH; [ | assumption | lia | reflexivity ]. eats. rewrite ty_reads; [ | assumption | | reflexivity ]. { eats. reflexivity. } cbn [length] in L. lia.
  - unfold p_primary. lits. cbn [app]. change (length (pu "(")) with 1%nat in L. change (length (pu ")")) with 1%nat in L. eats. destruct l as [ | a [ | b l ] ]; [ reflexivity | discriminate | ].
    rewrite commas_cons in L. rewrite !app_length in L. change (length (pu ",")) with 1%nat in L. cbn [forallb] in K. apply andb_true_iff in K as [ Ka K ].
    rewrite (commas_cons wr), <- !app_assoc. rewrite expr_eat by (assumption || reflexivity). rewrite IH; [ | assumption | lia | reflexivity ]. eats.
    change (KPu 41 :: rest) with ([KPu 41] ++ rest). rewrite args1_reads; [ reflexivity | congruence | exact K | lia | reflexivity | reflexivity ].
  - unfold p_primary. lits. cbn [app]. change (length (pu "[")) with 1%nat in L. change (length (pu "]")) with 1%nat in L. eats. destruct l as [ | a [ | b l ] ]; [ reflexivity | | ].
    + cbn [forallb] in H. rewrite andb_true_r in H. cbn [map commas sep] in *. rewrite expr_eat by (assumption || reflexivity). rewrite IH; [ | assumption | lia | reflexivity ]. eats. reflexivity.
    + rewrite commas_cons in L. rewrite !app_length in L. change (length (pu ",")) with 1%nat in L. cbn [forallb] in H. apply andb_true_iff in H as [ Ka K ].
      rewrite (commas_cons wr), <- !app_assoc. rewrite expr_eat by (assumption || reflexivity). rewrite IH; [ | assumption | lia | reflexivity ]. eats.
      change (KPu 93 :: rest) with ([KPu 93] ++ rest). rewrite args1_reads; [ reflexivity | congruence | exact K | lia | reflexivity | reflexivity ].
  - unfold p_primary. lits. cbn [app]. change (length (pu "[")) with 1%nat in L. eats. rewrite expr_eat by (assumption || reflexivity). rewrite IH; [ | assumption | lia | reflexivity ]. eats. reflexivity.
  - unfold p_primary. lits. cbn [app]. eats. cbn [length] in L. change (KPu 93 :: rest) with ([KPu 93] ++ rest). rewrite args_reads; [ reflexivity | assumption | lia | reflexivity | reflexivity ].
  - unfold p_primary. change (length (pu "{")) with 1%nat in L. change (length (pu "}")) with 1%nat in L. change (fun x => wr_binder (fst x) ++ wr (snd x) ++ pu ";") with stmt in *. lits. cbn [app]. eats.
    change (KPu 125 :: rest) with (pu "}" ++ rest). rewrite block_reads; [ reflexivity | exact H | assumption | now apply negb_true_iff | lia | ].
    pose proof (@concat_length _ stmt l). assert (length l <= length (List.concat (map stmt l)))%nat by (apply concat_length; intros; unfold stmt; rewrite !app_length; cbn [length]; change (length (pu ";")) with 1%nat; lia). 
    destruct (wr e) as [ | ] eqn:W; [ exfalso; destruct (expr_head e ltac:(assumption)) as (? & ? & Z & _); congruence | ]. cbn [length] in L. lia.
  - change (fun x : str * expr => [KId (fst x)] ++ pu ":" ++ wr (snd x)) with afield in *. rewrite primary_path, path_reads by (assumption || reflexivity). cbn [andthen]. change (length (pu "{")) with 1%nat in L.
    change (eat (pu "(") (pu "{" ++ ?z)) with (@None toks). cbv iota. rewrite eat_app. unfold p_struct. destruct fields as [ | f fields ]; [ reflexivity | ].
    assert (E : forall r, eat (pu "}") (commas (map afield (f :: fields)) ++ r) = None) by (intros r; destruct fields; reflexivity). rewrite E.
    rewrite fields_plain; [ reflexivity | congruence | exact K | lia | pose proof (commas_length afield (f :: fields)); lia ].
  - change (fun x : str * expr => ([KId (fst x)] ++ pu ":" ++ wr (snd x)) ++ pu ",") with (fun x => afield x ++ pu ",") in *. rewrite primary_path, path_reads by (assumption || reflexivity). cbn [andthen]. change (length (pu "{")) with 1%nat in L.
    change (eat (pu "(") (pu "{" ++ ?z)) with (@None toks). cbv iota. rewrite eat_app. unfold p_struct. destruct fields as [ | f fields ]; [ discriminate | ].
    change (eat (pu "}") (List.concat (map (fun x => afield x ++ pu ",") (f :: fields)) ++ ?z)) with (@None toks). cbv iota.
    rewrite fields_trailing; [ reflexivity | congruence | assumption | lia | ].
    assert (length (f :: fields) <= length (List.concat (map (fun x => afield x ++ pu ",") (f :: fields))))%nat by (apply concat_length; intros; rewrite !app_length; change (length (pu ",")) with 1%nat; lia). lia.
  - change (fun x : str * expr => ([KId (fst x)] ++ pu ":" ++ wr (snd x)) ++ pu ",") with (fun x => afield x ++ pu ",") in *. rewrite primary_path, path_reads by (assumption || reflexivity). cbn [andthen]. change (length (pu "{")) with 1%nat in L.
    change (eat (pu "(") (pu "{" ++ ?z)) with (@None toks). cbv iota. rewrite eat_app. unfold p_struct.
    assert (E : forall r, eat (pu "}") (List.concat (map (fun x => afield x ++ pu ",") fields) ++ pu ".." ++ r) = None) by (intros r; destruct fields; reflexivity). rewrite E.
    rewrite fields_base; [ reflexivity | assumption | assumption | lia | ].
    assert (length fields <= length (List.concat (map (fun x => afield x ++ pu ",") fields)))%nat by (apply concat_length; intros; rewrite !app_length; change (length (pu ",")) with 1%nat; lia).
    change (length (pu "..")) with 2%nat in L. lia.
Qed.
(** What follows the dot in [e.m()] and the like *)
Definition dotted (e : expr) : toks :=
  match e with
  | EMethod _ m [] l => [KId m] ++ pu "(" ++ commas (map wr l) ++ pu ")"
  | EMethod _ m ts l => [KId m] ++ pu "::<" ++ commas (map wr_ty ts) ++ pu ">(" ++ commas (map wr l) ++ pu ")"
  | EMap _ x b => [kw "map"] ++ pu "(|" ++ [KId x] ++ pu "|" ++ wr b ++ pu ")"
  | EField _ f => [KId f]
  | EFirst _ => [KNum 0 []]
  | _ => []
  end.
Definition receiver (e : expr) : option expr := match e with EMethod e _ _ _ | EMap e _ _ | EField e _ | EFirst e => Some e | _ => None end.
Lemma dot_reads e e' rest : receiver e = Some e' -> expr_ok e = true -> (length (dotted e) < n)%nat -> after rest = true -> p_dot one n e' (dotted e ++ rest) = Some (e, rest).
Proof.
  intros E H L R. destruct e; try discriminate E; injection E as ->; oks H; unfold p_dot.
  - destruct turbofish as [ | t ts ]; cbn [dotted] in *; rewrite ?app_length in L; rewrite <- ?app_assoc; cbn [app]; rewrite name_reads by assumption; cbn [andthen].
    + rewrite eat_app. assert (E : eat (pu "|") (commas (map wr args) ++ pu ")" ++ rest) = None).
      { destruct args as [ | a [ | b l ] ]; [ reflexivity | | ]; cbn [forallb] in K; apply andb_true_iff in K as [ Ka K ]; [ | rewrite commas_cons, <- !app_assoc ]; apply expr_eat; (assumption || reflexivity). }
      rewrite E. unfold p_args. lits. rewrite args_reads; [ reflexivity | assumption | lia | reflexivity | reflexivity ].
    + change (eat (pu "(") (pu "::<" ++ ?z)) with (@None toks). cbv iota. rewrite eat_app. change (pu ">(" ++ ?z) with (pu ">" ++ pu "(" ++ z).
      rewrite (@commas1_reads _ wr_ty (p_ty n) (pu ">") (fun r => ty_stops r = true)); [ | congruence | | | reflexivity | reflexivity | reflexivity ].
      * cbn [andthen]. rewrite eat_app. cbn [andthen]. unfold p_args. lits. rewrite args_reads; [ reflexivity | assumption | lia | reflexivity | reflexivity ].
      * pose proof (commas_length wr_ty (t :: ts)). change (length (pu "::<")) with 3%nat in L. lia.
      * intros a r I Fr. rewrite forallb_forall in K0. pose proof (commas_in wr_ty _ _ I). apply ty_reads; [ auto | lia | exact Fr ].
  - cbn [dotted] in *. rewrite !app_length in L. rewrite <- !app_assoc. lits. cbn [app]. rewrite name_reads by reflexivity. eats. rewrite name_reads by assumption. eats.
    rewrite IH; [ | assumption | lia | reflexivity ]. eats. reflexivity.
  - cbn [dotted app]. rewrite name_reads by assumption. cbn [andthen]. lits. rewrite !after_eat by (exact R || reflexivity). reflexivity.
  - reflexivity.
Qed.
Definition postfix (e : expr) : bool := match e with EMethod _ _ _ _ | EMap _ _ _ | EField _ _ | EFirst _ | ETry _ => true | _ => false end.
Lemma wr_dotted e e' : receiver e = Some e' -> wr e = wr e' ++ pu "." ++ dotted e.
Proof using Type. destruct e; intros E; try discriminate; injection E as ->; try reflexivity. destruct turbofish; reflexivity. Qed.
Lemma ops_receiver e e' : receiver e = Some e' -> ops e = S (ops e').
Proof using Type. destruct e; intros E; try discriminate; injection E as ->; reflexivity. Qed.
Lemma chain_reads e : forall k rest, is_ref e = false -> expr_ok e = true -> (length (wr e) <= n)%nat -> (ops e <= k)%nat -> after rest = true ->
  (try (a, r) <- p_primary one n (wr e ++ rest); p_postfix one n k a r) = p_postfix one n (k - ops e) e rest.
Proof.
  assert (D : forall e e', receiver e = Some e' -> (forall k rest, is_ref e' = false -> expr_ok e' = true -> (length (wr e') <= n)%nat -> (ops e' <= k)%nat -> after rest = true ->
      (try (a, r) <- p_primary one n (wr e' ++ rest); p_postfix one n k a r) = p_postfix one n (k - ops e') e' rest) -> negb (is_ref e') = true -> expr_ok e' = true ->
    forall k rest, expr_ok e = true -> (length (wr e) <= n)%nat -> (ops e <= k)%nat -> after rest = true -> (try (a, r) <- p_primary one n (wr e ++ rest); p_postfix one n k a r) = p_postfix one n (k - ops e) e rest).
  { intros x e' E IHe N H k rest Hx L K R. rewrite (wr_dotted _ E) in *. rewrite (ops_receiver _ E) in *. rewrite !app_length in L. change (length (pu ".")) with 1%nat in L. rewrite <- !app_assoc.
    rewrite IHe; [ | now apply negb_true_iff | exact H | lia | lia | reflexivity ]. replace (k - ops e')%nat with (S (k - S (ops e'))) by lia. cbn [p_postfix].
    change (eat (pu "?") (pu "." ++ ?z)) with (@None toks). cbv iota. rewrite eat_app. rewrite (dot_reads _ _ E Hx); [ reflexivity | lia | exact R ]. }
  induction e; intros k rest N H L K R; try discriminate N.
  all: try (rewrite primary_reads by (assumption || reflexivity); cbn [andthen]; change (ops _) with O; rewrite Nat.sub_0_r; reflexivity).
  - pose proof H as H'. oks H'. eapply (D _ e); eauto; reflexivity.
  - pose proof H as H'. oks H'. eapply (D _ e1); eauto; reflexivity.
  - pose proof H as H'. oks H'. eapply (D _ e); eauto; reflexivity.
  - pose proof H as H'. oks H'. eapply (D _ e); eauto; reflexivity.
  - oks H. cbn [wr ops] in *. rewrite app_length in L. change (length (pu "?")) with 1%nat in L. rewrite <- app_assoc. rewrite IHe; [ | now apply negb_true_iff | assumption | lia | lia | reflexivity ].
    replace (k - ops e)%nat with (S (k - S (ops e))) by lia. cbn [p_postfix]. rewrite eat_app. reflexivity.
Qed.
End Step.
Lemma expr_amp e k r : expr_ok e = true -> is_ref e = false -> eat (KPu 38 :: k) (wr e ++ r) = None.
Proof.
  revert r. induction e; intros r H O; try discriminate O; try reflexivity; oks H; cbn [wr].
  all: try (rewrite <- ?app_assoc; match goal with P : path_ok ?p = true |- _ => destruct (path_head _ P) as (x & l & -> & [ [ -> _ ] | (s & -> & _) ]); reflexivity end).
  - destruct turbofish; rewrite <- app_assoc; apply IHe; try assumption; now apply negb_true_iff.
  - rewrite <- app_assoc; apply IHe1; [ assumption | now apply negb_true_iff ].
  - rewrite <- app_assoc; apply IHe; [ assumption | now apply negb_true_iff ].
  - rewrite <- app_assoc; apply IHe; [ assumption | now apply negb_true_iff ].
  - rewrite <- app_assoc; apply IHe; [ assumption | now apply negb_true_iff ].
Qed.
Lemma expr_reads n : forall e rest, expr_ok e = true -> (length (wr e) < n)%nat -> stops rest = true -> p_expr n (wr e ++ rest) = Some (e, rest).
Proof.
  induction n as [ | n IH ]; intros e rest H L R; [ lia | ]. cbn [p_expr].
  destruct (is_ref e) eqn:Re.
  - destruct e; try discriminate Re. cbn [wr expr_ok] in *. rewrite app_length in L. change (length (pu "&")) with 1%nat in L. rewrite <- app_assoc, eat_app. rewrite IH; [ reflexivity | exact H | lia | exact R ].
  - lits. rewrite expr_amp by assumption. pose proof (ops_length _ H). assert (A : after rest = true) by (unfold after; rewrite R; reflexivity).
    rewrite (@chain_reads n (p_expr n) IH e n rest Re H); [ | lia | lia | exact A ]. replace (n - ops e)%nat with (S (n - S (ops e))) by lia. cbn [p_postfix]. lits. rewrite !stops_eat by (exact R || reflexivity). reflexivity.
Qed.

(** ** Items *)
Definition generic_ok (g : generic) : bool := match g with GInto x t => is_name x && ty_ok t | GIter x u => is_name x && is_name u end.
Definition typed_ok (x : str * ty) : bool := is_name (fst x) && ty_ok (snd x).
Definition fn_ok (f : fn) : bool :=
  is_name (fn_name f) && match fn_generics f with None => true | Some l => forallb generic_ok l end && forallb typed_ok (fn_params f) && ty_ok (fn_ret f) &&
  forallb stmt_ok (fn_body f) && expr_ok (fn_result f) && negb (opens (fn_result f)).
Fixpoint item_ok (i : item) : bool :=
  match i with
  | IUse p => path_ok p
  | IConst x t _ | INewtype _ x t => is_name x && ty_ok t
  | IFn f => fn_ok f
  | IImpl p x a t f => path_ok p && is_name x && is_name a && ty_ok t && fn_ok f
  | IStruct ds x fs => forallb is_name ds && is_name x && forallb typed_ok fs
  | IMod _ x is => is_name x && forallb item_ok is
  end.
Lemma typed_reads n x r : typed_ok x = true -> (length (wr_field x) <= n)%nat -> ty_stops r = true -> p_typed n (wr_field x ++ r) = Some (x, r).
Proof.
  destruct x as [ x t ]. unfold typed_ok, wr_field, p_typed. cbn [fst snd]. intros H L R. apply andb_true_iff in H as [ X T ]. rewrite !app_length in L. cbn [length] in L. cbn [app]. rewrite (name_reads _ _ X). cbn [andthen].
  rewrite <- app_assoc, eat_app. cbn [andthen]. rewrite ty_reads; [ reflexivity | exact T | lia | exact R ].
Qed.
Lemma generic_reads n g r : generic_ok g = true -> (length (wr_generic g) <= n)%nat -> ty_stops r = true -> p_generic n (wr_generic g ++ r) = Some (g, r).
Proof.
  intros H L R. destruct g as [ x t | x u ]; cbn [generic_ok wr_generic] in *; apply andb_true_iff in H as [ X T ]; unfold p_generic; rewrite !app_length in L; cbn [length] in L; cbn [app]; rewrite (name_reads _ _ X); cbn [andthen];
  rewrite <- ?app_assoc.
  - eats. rewrite <- ?app_assoc. rewrite ty_reads; [ | exact T | lia | reflexivity ]. eats. reflexivity.
  - eats. rewrite (name_reads _ _ T). eats. reflexivity.
Qed.
Lemma generics_reads n o r : match o with None => true | Some l => forallb generic_ok l end = true ->
  (length (match o with None => [] | Some l => pu "<" ++ commas (map wr_generic l) ++ pu ">" end) <= n)%nat ->
  p_generics n (match o with None => [] | Some l => pu "<" ++ commas (map wr_generic l) ++ pu ">" end ++ pu "(" ++ r) = Some (o, pu "(" ++ r).
Proof.
  intros H L. unfold p_generics. destruct o as [ l | ]; [ | reflexivity ]. rewrite !app_length in L. change (length (pu "<")) with 1%nat in L. rewrite <- !app_assoc, eat_app.
  rewrite forallb_forall in H. rewrite (@commas_reads _ wr_generic (p_generic n) (pu ">") (fun r => ty_stops r = true)); [ reflexivity | | | reflexivity | reflexivity | reflexivity | ].
  - pose proof (commas_length wr_generic l). lia.
  - intros a r0 I F. pose proof (commas_in wr_generic _ _ I). apply generic_reads; [ auto | lia | exact F ].
  - intros a r0 I. destruct a; reflexivity.
Qed.
Lemma params_reads n (b : bool) l r : forallb typed_ok l = true -> (length (commas ((if b then [pu "&" ++ [kw "self"]] else []) ++ map wr_field l)) < n)%nat ->
  p_params n (commas ((if b then [pu "&" ++ [kw "self"]] else []) ++ map wr_field l) ++ pu ")" ++ r) = Some ((b, l), r).
Proof.
  intros H L. unfold p_params. rewrite forallb_forall in H. destruct b.
  - destruct l as [ | f l ]; [ reflexivity | ]. change (commas ([pu "&" ++ [kw "self"]] ++ map wr_field (f :: l))) with ((pu "&" ++ [kw "self"]) ++ pu "," ++ commas (map wr_field (f :: l))) in *.
    rewrite !app_length in L. change (length (pu "&")) with 1%nat in L. rewrite <- (app_assoc (pu "&" ++ [kw "self"])), eat_app.
    rewrite <- (app_assoc (pu ",")). change (eat (pu ")") (pu "," ++ ?z)) with (@None toks). cbv iota. rewrite eat_app. cbn [andthen].
    rewrite (@commas1_reads _ wr_field (p_typed n) (pu ")") (fun r => ty_stops r = true)); [ reflexivity | congruence | | | reflexivity | reflexivity | reflexivity ].
    + pose proof (commas_length wr_field (f :: l)). lia.
    + intros a r0 I F. pose proof (commas_in wr_field _ _ I). apply typed_reads; [ auto | lia | exact F ].
  - cbn [app] in *. assert (E : eat (pu "&" ++ [kw "self"]) (commas (map wr_field l) ++ pu ")" ++ r) = None) by (destruct l as [ | f [ | ? ? ] ]; reflexivity). rewrite E.
    rewrite (@commas_reads _ wr_field (p_typed n) (pu ")") (fun r => ty_stops r = true)); [ reflexivity | | | reflexivity | reflexivity | reflexivity | reflexivity ].
    + pose proof (commas_length wr_field l). lia.
    + intros a r0 I F. pose proof (commas_in wr_field _ _ I). apply typed_reads; [ auto | lia | exact F ].
Qed.
(** What [wr_fn] writes after [fn] *)
Definition fn_rest (f : fn) : toks :=
  [KId (fn_name f)] ++ match fn_generics f with None => [] | Some l => pu "<" ++ commas (map wr_generic l) ++ pu ">" end ++
  pu "(" ++ commas ((if fn_self f then [pu "&" ++ [kw "self"]] else []) ++ map wr_field (fn_params f)) ++ pu ")" ++
  pu "->" ++ wr_ty (fn_ret f) ++ wr (EBlock (fn_body f) (fn_result f)).
Lemma wr_fn_rest f : wr_fn f = wr_doc (fn_doc f) ++ (if fn_pub f then [kw "pub"] else []) ++ [kw "fn"] ++ fn_rest f.
Proof. reflexivity. Qed.
Lemma fn_rest_reads n f r : fn_ok f = true -> (length (fn_rest f) <= n)%nat -> p_fn_rest n (fn_doc f) (fn_pub f) (fn_rest f ++ r) = Some (f, r).
Proof.
  intros H L. unfold fn_ok in H. repeat match type of H with (_ && _) = true => let K := fresh "K" in apply andb_true_iff in H as [ H K ] end.
  unfold fn_rest in *. cbn [wr] in *. change (fun x => wr_binder (fst x) ++ wr (snd x) ++ pu ";") with stmt in *. rewrite !app_length in L. cbn [length] in L. change (length (pu "(")) with 1%nat in L. change (length (pu "{")) with 1%nat in L. change (length (pu "}")) with 1%nat in L.
  unfold p_fn_rest. rewrite <- !app_assoc. cbn [app]. rewrite (name_reads _ _ H). cbn [andthen]. rewrite generics_reads; [ | assumption | lia ]. cbn [andthen]. rewrite eat_app. cbn [andthen].
  rewrite params_reads; [ | assumption | lia ]. cbn [andthen]. rewrite eat_app. cbn [andthen]. rewrite ty_reads; [ | assumption | lia | reflexivity ]. cbn [andthen]. rewrite eat_app. cbn [andthen].
  rewrite (@block_reads n (p_expr n) (@expr_reads n)); [ destruct f; reflexivity | assumption | assumption | now apply negb_true_iff | lia | ].
  assert (length (fn_body f) <= length (List.concat (map stmt (fn_body f))))%nat by (apply concat_length; intros; unfold stmt; rewrite !app_length; cbn [length]; change (length (pu ";")) with 1%nat; lia). lia.
Qed.
Lemma doc_reads d s r : p_doc (wr_doc d ++ KId s :: r) = Some (d, KId s :: r).
Proof. unfold p_doc. destruct d as [ d | ]; reflexivity. Qed.
Lemma fn_reads n f r : fn_ok f = true -> (length (wr_fn f) <= n)%nat -> p_fn n (wr_fn f ++ r) = Some (f, r).
Proof.
  intros H L. rewrite wr_fn_rest in *. rewrite !app_length in L. unfold p_fn. rewrite <- !app_assoc. pose proof (@fn_rest_reads n f r H ltac:(lia)) as E. destruct (fn_pub f); cbn [app]; lits; rewrite doc_reads; eats; exact E.
Qed.
(** None of the items starts like this. *)
Lemma doc_next d s r t : In t [[kw "use"]; [kw "const"]; [kw "impl"]; pu "#[" ++ [kw "derive"]] -> In s (map lit ["pub"; "fn"]%string) -> next t (wr_doc d ++ KId s :: r) = false.
Proof. intros I J. destruct d as [ d | ]; destruct I as [ <- | [ <- | [ <- | [ <- | [ ] ] ] ] ]; destruct J as [ <- | [ <- | [ ] ] ]; reflexivity. Qed.
Lemma item_eat i r : eat (pu "}") (wr_item i ++ r) = None.
Proof. destruct i; try reflexivity; cbn [wr_item]; rewrite ?wr_fn_rest; rewrite <- ?app_assoc; [ destruct (fn_doc f), (fn_pub f) | destruct doc ]; reflexivity. Qed.
Lemma item_filled i : (1 <= length (wr_item i))%nat.
Proof. destruct i; cbn [wr_item]; rewrite ?wr_fn_rest, ?app_length; cbn [length]; try lia; change (length (pu "#[")) with 2%nat; lia. Qed.
Lemma item_reads n : forall i r, item_ok i = true -> (length (wr_item i) < n)%nat -> p_item n (wr_item i ++ r) = Some (i, r).
Proof.
  induction n as [ | n IH ]; intros i r H L; [ lia | ]. destruct i as [ p | x t s | f | d x t | p x a t f | ds x fs | d x is ].
  - cbn [wr_item item_ok p_item] in *. rewrite <- !app_assoc. unfold next. rewrite eat_app. cbn [andthen]. rewrite path_reads by (exact H || reflexivity). eats. reflexivity.
  - cbn [wr_item item_ok p_item] in *. rewrite !app_length in L. cbn [length] in L. rewrite <- !app_assoc. cbn [app]. change (next [kw "use"] (kw "const" :: ?z)) with false. cbv iota. change (next [kw "const"] (kw "const" :: ?z)) with true. cbv iota.
    change (eat [kw "const"] (kw "const" :: ?z)) with (Some z). cbn [andthen]. change (KId x :: pu ":" ++ wr_ty t ++ ?z) with ([KId x] ++ pu ":" ++ wr_ty t ++ z).
    assert (E : forall z, [KId x] ++ pu ":" ++ wr_ty t ++ z = wr_field (x, t) ++ z) by (intros z; unfold wr_field; cbn [fst snd]; rewrite <- !app_assoc; reflexivity).
    rewrite E, typed_reads; [ | exact H | unfold wr_field; cbn [fst snd]; rewrite !app_length; cbn [length]; lia | reflexivity ]. eats. reflexivity.
  - cbn [wr_item item_ok p_item] in *. rewrite wr_fn_rest in *. rewrite !app_length in L. cbn [length] in L. rewrite <- !app_assoc. pose proof (@fn_rest_reads n f r H ltac:(lia)) as E.
    assert (W : forall t, In t [[kw "use"]; [kw "const"]; [kw "impl"]; pu "#[" ++ [kw "derive"]] -> next t (wr_doc (fn_doc f) ++ (if fn_pub f then [kw "pub"] else []) ++ [kw "fn"] ++ fn_rest f ++ r) = false).
    { intros t I. destruct (fn_pub f); cbn [app]; lits; apply doc_next; (exact I || (cbn; tauto)). }
    rewrite !W by (cbn [In]; tauto). clear W. destruct (fn_pub f); cbn [app]; lits; rewrite doc_reads; eats; rewrite E; reflexivity.
  - cbn [wr_item item_ok] in *. rewrite !app_length in L. cbn [length] in L. apply andb_true_iff in H as [ X T ]. rewrite <- !app_assoc. cbn [app]. cbn [p_item]. rewrite !(@doc_next (Some d) (lit "pub")) by (cbn; tauto).
    change (kw "pub") with (KId (lit "pub")). rewrite doc_reads. eats. rewrite (name_reads _ _ X). eats. rewrite ty_reads; [ | exact T | lia | reflexivity ]. eats. reflexivity.
  - cbn [wr_item item_ok] in *. rewrite !app_length in L. cbn [length] in L. repeat match type of H with (_ && _) = true => let K := fresh "K" in apply andb_true_iff in H as [ H K ] end.
    rewrite <- !app_assoc. cbn [p_item]. change (next [kw "use"] ([kw "impl"] ++ ?z)) with false. change (next [kw "const"] ([kw "impl"] ++ ?z)) with false. unfold next. rewrite eat_app. cbn [andthen].
    rewrite path_reads by (exact H || reflexivity). cbn [app]. eats. rewrite name_reads by assumption. eats. rewrite name_reads by assumption. eats. rewrite ty_reads; [ | assumption | lia | reflexivity ]. eats.
    rewrite fn_reads; [ | assumption | lia ]. eats. reflexivity.
  - cbn [wr_item item_ok] in *. rewrite !app_length in L. cbn [length] in L. repeat match type of H with (_ && _) = true => let K := fresh "K" in apply andb_true_iff in H as [ H K ] end.
    rewrite <- !app_assoc. cbn [p_item]. change (next [kw "use"] (pu "#[" ++ ?z)) with false. change (next [kw "const"] (pu "#[" ++ ?z)) with false. change (next [kw "impl"] (pu "#[" ++ ?z)) with false.
    change (next (pu "#[" ++ [kw "derive"]) (pu "#[" ++ [kw "derive"] ++ ?z)) with true. cbv iota. change (pu "#[" ++ [kw "derive"] ++ pu "(" ++ ?z) with ((pu "#[" ++ [kw "derive"] ++ pu "(") ++ z). rewrite eat_app. cbn [andthen].
    change (pu ")]" ++ ?z) with (pu ")" ++ pu "]" ++ z). change (length (pu "{")) with 1%nat in L. change (length (pu "#[")) with 2%nat in L.
    rewrite (@commas_reads _ (fun d => [KId d]) p_word (pu ")") (fun _ => True)); [ | | | exact (fun _ => I) | exact I | reflexivity | reflexivity ].
    + cbn [andthen]. cbn [app]. eats. rewrite name_reads by assumption. eats. rewrite forallb_forall in K.
      change (KPu 125 :: r) with (pu "}" ++ r). rewrite (@commas_reads _ (fun f => [KId (lit "pub")] ++ wr_field f) (p_struct_field n) (pu "}") (fun r => ty_stops r = true)); [ reflexivity | | | reflexivity | reflexivity | reflexivity | reflexivity ].
      * pose proof (commas_length (fun f => [kw "pub"] ++ wr_field f) fs). lia.
      * intros b q J F. pose proof (commas_in (fun f => [kw "pub"] ++ wr_field f) _ _ J) as G. change (S (length (wr_field b)) <= length (commas (map (fun f => [kw "pub"] ++ wr_field f) fs)))%nat in G. unfold p_struct_field. cbn [app]. eats. apply typed_reads; [ auto | lia | exact F ].
    + pose proof (commas_length (fun d => [KId d]) ds). lia.
    + intros b q J _. rewrite forallb_forall in H. apply name_reads. auto.
  - cbn [wr_item item_ok] in *. rewrite !app_length in L. cbn [length] in L. apply andb_true_iff in H as [ X H ]. rewrite <- !app_assoc. cbn [app p_item]. rewrite !(@doc_next d (lit "pub")) by (cbn; tauto).
    change (kw "pub") with (KId (lit "pub")). rewrite doc_reads. eats. rewrite (name_reads _ _ X). eats. rewrite forallb_forall in H.
    change (KPu 125 :: r) with (pu "}" ++ r). change [KPu 125] with (pu "}"). rewrite (@many_reads _ wr_item (p_item n) (pu "}") (fun _ => True)); [ reflexivity | | | ].
    + pose proof (@concat_length _ wr_item is (fun i _ => item_filled i)). lia.
    + intros i q J. pose proof (concat_in wr_item _ _ J). apply IH; [ auto | lia ].
    + intros i q J. apply item_eat.
Qed.
Lemma items_reads l : forall k n, forallb item_ok l = true -> (length l <= k)%nat -> (length (wr_items l) < n)%nat -> p_items k n (wr_items l) = Some l.
Proof.
  induction l as [ | i l IH ]; intros k n H K L; [ destruct k; reflexivity | ]. cbn [forallb] in H. apply andb_true_iff in H as [ Hi H ]. cbn [length] in K. destruct k as [ | k ]; [ lia | ].
  unfold wr_items in *. cbn [map List.concat] in *. rewrite app_length in L. pose proof (item_filled i). 
  assert (E : p_items (S k) n (wr_item i ++ List.concat (map wr_item l)) = try (j, r) <- p_item n (wr_item i ++ List.concat (map wr_item l)); try is <- p_items k n r; Some (j :: is)).
  { destruct (wr_item i); [ cbn [length] in *; lia | reflexivity ]. }
  rewrite E, item_reads; [ | exact Hi | lia ]. cbn [andthen]. rewrite IH; [ reflexivity | exact H | lia | lia ].
Qed.
Lemma parse_reads l : forallb item_ok l = true -> parse (wr_items l) = Some l.
Proof.
  intros H. unfold parse. apply items_reads; [ exact H | | lia ]. apply (concat_length wr_item). intros i _. apply item_filled.
Qed.

(** * What the parser of RustParse.v refuses of what the writer writes *)
From Verif Require Import Base BaseFacts StrFacts RustSyntax RustParse RustParseFacts.
From Coq Require Import String Lia.
Notation length := List.length.
Set Implicit Arguments.
Local Open Scope N_scope.
Local Open Scope list_scope.

(** ** The first bad one of a list *)
Definition first_bad {A} (ok : A -> bool) (bad : A -> Prop) (l : list A) : Prop := exists l1 a l2, l = l1 ++ a :: l2 /\ forallb ok l1 = true /\ bad a.
Lemma ok_or_bad A (ok : A -> bool) (bad : A -> Prop) l : (forall a, In a l -> ok a = true \/ bad a) -> forallb ok l = true \/ first_bad ok bad l.
Proof.
  induction l as [|a l IH]; intros H; [now left|]. destruct (H a (in_eq _ _)) as [O|B]; [|right; exists [], a, l; auto].
  destruct (IH (fun b I => H b (in_cons _ _ _ I))) as [F|(l1 & b & l2 & -> & F & B)]; [left; cbn [forallb]; now rewrite O, F|]. right. exists (a :: l1), b, l2. cbn [forallb app]. now rewrite O, F.
Qed.
Section Lists.
Context {A : Type} (write : A -> toks) (one : parser A) (close : toks) (F : toks -> Prop).
Lemma commas_head a l : exists z, commas (map write (a :: l)) = write a ++ z.
Proof. destruct l as [|b l]; [exists []; cbn [map commas sep]; now rewrite app_nil_r|]. exists (pu "," ++ commas (map write (b :: l))). apply commas_cons. Qed.
Lemma commas1_rejects l1 a l2 : forall n rest, (forall b r, In b l1 -> F r -> one (write b ++ r) = Some (b, r)) -> (forall r, one (write a ++ r) = None) ->
  (forall r, F (pu "," ++ r)) -> (forall r, eat close (pu "," ++ r) = None) -> p_commas1 one close n (commas (map write (l1 ++ a :: l2)) ++ rest) = None.
Proof.
  induction l1 as [|b l1 IH]; intros [|n] rest H N C X; try reflexivity.
  - cbn [app p_commas1]. destruct (commas_head a l2) as (z & ->). rewrite <- app_assoc, N. reflexivity.
  - assert (E : exists c l, l1 ++ a :: l2 = c :: l) by (destruct l1; cbn [app]; eauto). destruct E as (c & l & E). cbn [app]. rewrite E, commas_cons, <- E, <- !app_assoc. cbn [p_commas1]. rewrite (H b _ (in_eq _ _) (C _)). cbn [andthen]. rewrite X, eat_app. cbn [andthen].
    rewrite IH; [reflexivity|intros; apply H; [right|]; assumption|assumption..].
Qed.
Lemma commas_rejects l1 a l2 n rest : (forall b r, In b l1 -> F r -> one (write b ++ r) = Some (b, r)) -> (forall r, one (write a ++ r) = None) ->
  (forall r, F (pu "," ++ r)) -> (forall r, eat close (pu "," ++ r) = None) -> (forall b r, In b l1 \/ b = a -> eat close (write b ++ r) = None) -> p_commas one close n (commas (map write (l1 ++ a :: l2)) ++ rest) = None.
Proof.
  intros H N C X Y. unfold p_commas. assert (E : eat close (commas (map write (l1 ++ a :: l2)) ++ rest) = None).
  { destruct l1 as [|b l1]; cbn [app]; [destruct (commas_head a l2) as (z & ->)|destruct (commas_head b (l1 ++ a :: l2)) as (z & ->)]; rewrite <- app_assoc; apply Y; cbn [In]; auto. }
  rewrite E. now apply commas1_rejects.
Qed.
Lemma many_rejects l1 a l2 : forall n rest, (forall b r, In b l1 -> one (write b ++ r) = Some (b, r)) -> (forall r, one (write a ++ r) = None) -> (forall b r, In b l1 \/ b = a -> eat close (write b ++ r) = None) ->
  p_many one close n (List.concat (map write (l1 ++ a :: l2)) ++ rest) = None.
Proof.
  induction l1 as [|b l1 IH]; intros n rest H N Y; cbn [app map List.concat]; rewrite <- app_assoc.
  - destruct n; cbn [p_many]; rewrite Y by auto; [reflexivity|]. rewrite N. reflexivity.
  - destruct n; cbn [p_many]; rewrite Y by (left; left; reflexivity); [reflexivity|]. rewrite (H b _ (in_eq _ _)). cbn [andthen]. rewrite IH; [reflexivity|intros; apply H; right; assumption|assumption|intros c r [I|E]; apply Y; [left; right|right]; assumption].
Qed.
End Lists.

(** ** Types *)
Definition bad_path (p : path) : Prop := exists s q x, p = s :: q ++ [x] /\ forallb seg_ok (s :: q) = true /\ is_segment x = false.
Inductive bad_ty : ty -> Prop :=
| bt_path p l : bad_path p -> bad_ty (TyName p l)
| bt_name p l1 t l2 : path_ok p = true -> forallb ty_ok l1 = true -> bad_ty t -> bad_ty (TyName p (l1 ++ t :: l2))
| bt_comma t n : ty_ok t = true -> bad_ty (TyComma t n)
| bt_in t n : bad_ty t -> bad_ty (TyComma t n)
| bt_tuple l1 t l2 : forallb ty_ok l1 = true -> bad_ty t -> bad_ty (TyTuple (l1 ++ t :: l2)).
Lemma bad_path_rejects p rest : bad_path p -> p_path (wr_path p ++ rest) = None.
Proof.
  intros (s & q & x & -> & H & N). unfold p_path.
  assert (G : forall q s, forallb seg_ok (s :: q) = true -> p_segments (wr_path (s :: q ++ [x]) ++ rest) = None).
  { clear -N. induction q as [|s' q IH]; intros s H; cbn [forallb] in H; apply andb_true_iff in H as [S H]; apply andb_true_iff in S as [S Fl]; (destruct s as [|a s]; [discriminate|]).
    - change (wr_path ((a :: s) :: [] ++ [x])) with (KId (a :: s) :: KPu 58 :: KPu 58 :: [KId x]). cbn [app p_segments]. rewrite S. nums. cbn [andb]. rewrite N. reflexivity.
    - change (wr_path ((a :: s) :: (s' :: q) ++ [x])) with (KId (a :: s) :: KPu 58 :: KPu 58 :: wr_path (s' :: q ++ [x])). cbn [app p_segments]. rewrite S. nums. cbn [andb]. change (s' :: q ++ [x]) with (s' :: q ++ [x]). rewrite (IH s' H). reflexivity. }
  rewrite (G q s H). assert (E : eat (pu "::") (wr_path (s :: q ++ [x]) ++ rest) = None).
  { cbn [forallb] in H. apply andb_true_iff in H as [S _]. apply andb_true_iff in S as [_ Fl]. destruct s as [|a s]; [discriminate|]. destruct q; reflexivity. }
  rewrite E. reflexivity.
Qed.
Lemma bad_path_head p : bad_path p -> exists s l, wr_path p = KId s :: l /\ seg_ok s = true.
Proof. intros (s & q & x & -> & H & _). cbn [forallb] in H. apply andb_true_iff in H as [S _]. exists s. destruct s as [|a s]; [discriminate (proj2 (proj1 (andb_true_iff _ _) S))|]. destruct q; eexists; (split; [reflexivity|exact S]). Qed.
Lemma bad_head t : bad_ty t -> exists x l, wr_ty t = x :: l /\ begins "[&(:" x = true.
Proof.
  intros [p l B|p l1 u l2 P _ _|u n _|u n _|l1 u l2 _ _]; try (eexists; eexists; split; reflexivity).
  - destruct (bad_path_head B) as (s & k & E & _). destruct l; cbn [wr_ty]; rewrite E; eexists; eexists; split; reflexivity.
  - destruct (path_head _ P) as (x & k & E & X). assert (G : exists c m, l1 ++ u :: l2 = c :: m) by (destruct l1; cbn [app]; eauto). destruct G as (c & m & ->). cbn [wr_ty]. rewrite E. eexists. eexists. split; [reflexivity|]. destruct X as [[-> _]|(s & -> & _)]; reflexivity.
Qed.
Lemma ty_rejects n : forall t rest, bad_ty t -> (length (wr_ty t) < n)%nat -> p_ty n (wr_ty t ++ rest) = None.
Proof.
  induction n as [|n IH]; intros t rest B L; [reflexivity|].
  assert (W : forall p r x k, wr_path p = x :: k -> ((x = KPu 58 /\ exists k', k = KPu 58 :: k') \/ exists s, x = KId s /\ seg_ok s = true) -> p_ty (S n) (wr_path p ++ r) = try (p, r) <- p_path (wr_path p ++ r); match eat (pu "<") r with Some r' => try (ts, r'') <- p_commas1 (p_ty n) (pu ">") n r'; Some (TyName p ts, r'') | None => Some (TyName p [], r) end).
  { intros p r x k E X. rewrite E. destruct X as [[-> (k' & ->)]|(s & -> & S)]; [reflexivity|]. cbn [app p_ty]. eats. rewrite (seg_not _ (lit "_") S eq_refl). reflexivity. }
  destruct B as [p l B|p l1 u l2 P F B|u k H|u k B|l1 u l2 F B].
  - destruct (bad_path_head B) as (s & k & E & S). assert (Z : exists z, wr_ty (TyName p l) = wr_path p ++ z) by (destruct l; [exists []; cbn [wr_ty]; now rewrite app_nil_r|eexists; reflexivity]). destruct Z as (z & ->). rewrite <- app_assoc, (W _ _ _ _ E) by (right; exists s; auto). rewrite bad_path_rejects by exact B. reflexivity.
  - assert (G : wr_ty (TyName p (l1 ++ u :: l2)) = wr_path p ++ pu "<" ++ commas (map wr_ty (l1 ++ u :: l2)) ++ pu ">") by (destruct l1; reflexivity). rewrite G in *. rewrite !app_length in L. change (length (pu "<")) with 1%nat in L. rewrite <- !app_assoc. destruct (path_head _ P) as (x & k & E & X). rewrite (W _ _ _ _ E X), path_reads by (exact P || reflexivity). cbn [andthen]. rewrite eat_app.
    rewrite (@commas1_rejects _ wr_ty (p_ty n) (pu ">") (fun r => ty_stops r = true)); [reflexivity| | |reflexivity|reflexivity].
    + intros b r I Fr. rewrite forallb_forall in F. assert (J : In b (l1 ++ u :: l2)) by (apply in_or_app; now left). pose proof (commas_in wr_ty _ _ J). apply ty_reads; [auto|lia|exact Fr].
    + intros r. assert (J : In u (l1 ++ u :: l2)) by (apply in_or_app; right; now left). pose proof (commas_in wr_ty _ _ J). apply IH; [exact B|lia].
  - cbn [wr_ty] in *. rewrite !app_length in L. change (length (pu "[")) with 1%nat in L. cbn [p_ty]. rewrite <- !app_assoc. unfold next. rewrite eat_app. cbn [andthen]. rewrite ty_reads; [|exact H|lia|reflexivity]. cbn [andthen]. eats. reflexivity.
  - cbn [wr_ty] in *. rewrite !app_length in L. change (length (pu "[")) with 1%nat in L. cbn [p_ty]. rewrite <- !app_assoc. unfold next. rewrite eat_app. cbn [andthen]. rewrite IH; [reflexivity|exact B|lia].
  - cbn [wr_ty] in *. rewrite !app_length in L. change (length (pu "(")) with 1%nat in L. cbn [p_ty]. rewrite <- !app_assoc. change (next (pu "[") (pu "(" ++ ?z)) with false. change (next (pu "&") (pu "(" ++ ?z)) with false. unfold next. rewrite eat_app. cbn [andthen].
    rewrite (@commas_rejects _ wr_ty (p_ty n) (pu ")") (fun r => ty_stops r = true)); [reflexivity| | |reflexivity|reflexivity|].
    + intros b r I Fr. rewrite forallb_forall in F. assert (J : In b (l1 ++ u :: l2)) by (apply in_or_app; now left). pose proof (commas_in wr_ty _ _ J). apply ty_reads; [auto|lia|exact Fr].
    + intros r. assert (J : In u (l1 ++ u :: l2)) by (apply in_or_app; right; now left). pose proof (commas_in wr_ty _ _ J). apply IH; [exact B|lia].
    + intros b r [I| ->]; [rewrite forallb_forall in F; lits; apply ty_eat; [auto|reflexivity]|]. destruct (bad_head B) as (x & k & -> & X). lits. eapply begins_eat; [exact X|reflexivity].
Qed.

(** ** Parameters *)
Definition typed_bad (x : str * ty) : Prop := is_name (fst x) = false \/ is_name (fst x) = true /\ bad_ty (snd x).
Definition generic_bad (g : generic) : Prop := match g with GInto x t => is_name x = true /\ bad_ty t | GIter _ _ => False end.
Lemma typed_rejects n x r : typed_bad x -> (length (wr_field x) <= n)%nat -> p_typed n (wr_field x ++ r) = None.
Proof.
  destruct x as [x t]. unfold wr_field, p_typed. cbn [fst snd]. intros [X|[X B]] L; cbn [fst snd] in *; cbn [app]; [cbn [p_word]; now rewrite X|]. rewrite !app_length in L. cbn [length] in L. rewrite (name_reads _ _ X). cbn [andthen]. rewrite <- app_assoc, eat_app. cbn [andthen]. rewrite ty_rejects; [reflexivity|exact B|lia].
Qed.
Lemma generic_rejects n g r : generic_bad g -> (length (wr_generic g) <= n)%nat -> p_generic n (wr_generic g ++ r) = None.
Proof.
  intros B L. destruct g as [x t|x u]; [|destruct B]. destruct B as [X B]. cbn [wr_generic] in *. unfold p_generic. rewrite !app_length in L. cbn [length] in L. cbn [app]. rewrite (name_reads _ _ X). cbn [andthen]. rewrite <- ?app_assoc. eats. rewrite <- ?app_assoc. rewrite ty_rejects; [reflexivity|exact B|lia].
Qed.
Lemma generics_reject n l r : first_bad generic_ok generic_bad l -> (length (pu "<" ++ commas (map wr_generic l) ++ pu ">") <= n)%nat -> p_generics n ((pu "<" ++ commas (map wr_generic l) ++ pu ">") ++ r) = None.
Proof.
  intros (l1 & g & l2 & -> & F & B) L. unfold p_generics. rewrite !app_length in L. change (length (pu "<")) with 1%nat in L. rewrite <- !app_assoc, eat_app. rewrite forallb_forall in F.
  rewrite (@commas_rejects _ wr_generic (p_generic n) (pu ">") (fun r => ty_stops r = true)); [reflexivity| | |reflexivity|reflexivity|].
  - intros b r0 I Fr. assert (J : In b (l1 ++ g :: l2)) by (apply in_or_app; now left). pose proof (commas_in wr_generic _ _ J). apply generic_reads; [auto|lia|exact Fr].
  - intros r0. assert (J : In g (l1 ++ g :: l2)) by (apply in_or_app; right; now left). pose proof (commas_in wr_generic _ _ J). apply generic_rejects; [exact B|lia].
  - intros b r0 _. destruct b; reflexivity.
Qed.
Lemma params_reject n l r : first_bad typed_ok typed_bad l -> (length (commas (map wr_field l)) < n)%nat -> p_params n (commas (map wr_field l) ++ r) = None.
Proof.
  intros (l1 & g & l2 & -> & F & B) L. unfold p_params. assert (E : eat (pu "&" ++ [kw "self"]) (commas (map wr_field (l1 ++ g :: l2)) ++ r) = None) by (destruct l1 as [|f l1]; cbn [app]; [destruct (commas_head wr_field g l2) as (z & ->)|destruct (commas_head wr_field f (l1 ++ g :: l2)) as (z & ->)]; reflexivity). rewrite E. rewrite forallb_forall in F.
  rewrite (@commas_rejects _ wr_field (p_typed n) (pu ")") (fun r => ty_stops r = true)); [reflexivity| | |reflexivity|reflexivity|reflexivity].
  - intros b r0 I Fr. assert (J : In b (l1 ++ g :: l2)) by (apply in_or_app; now left). pose proof (commas_in wr_field _ _ J). apply typed_reads; [auto|lia|exact Fr].
  - intros r0. assert (J : In g (l1 ++ g :: l2)) by (apply in_or_app; right; now left). pose proof (commas_in wr_field _ _ J). apply typed_rejects; [exact B|lia].
Qed.

(** ** A struct with a keyword for a field, bound by a [let] *)
Definition field_bad (x : str * expr) : Prop := is_name (fst x) = false.
Definition stmt_bad (x : binder * expr) : Prop := exists y p l, x = (Let y, EStruct p l) /\ is_name y = true /\ path_ok p = true /\ first_bad field_ok field_bad l.
Lemma fields_reject n l1 a l2 : forall k rest, forallb field_ok l1 = true -> field_bad a -> (length (commas (map afield (l1 ++ a :: l2))) < n)%nat -> p_fields (p_expr n) k (commas (map afield (l1 ++ a :: l2)) ++ rest) = None.
Proof.
  induction l1 as [|f l1 IH]; intros [|k] rest F B L; try reflexivity.
  - cbn [app p_fields]. destruct (commas_head afield a l2) as (z & E). rewrite E, <- app_assoc. change (next (pu "..") (afield a ++ ?z)) with false. cbv iota. unfold p_field at 1. unfold afield at 1. cbn [app p_word]. rewrite B. reflexivity.
  - cbn [forallb] in F. apply andb_true_iff in F as [Ff F]. assert (E : exists c l, l1 ++ a :: l2 = c :: l) by (destruct l1; cbn [app]; eauto). destruct E as (c & l & E). cbn [app] in *. rewrite E, commas_cons in *. rewrite <- E in *. rewrite !app_length in L. rewrite <- !app_assoc. cbn [p_fields]. change (next (pu "..") (afield f ++ ?z)) with false. cbv iota.
    rewrite (@field_reads n (p_expr n) (@expr_reads n)) by (exact Ff || reflexivity || lia). cbn [andthen]. change (eat (pu "}") (pu "," ++ ?z)) with (@None toks). cbv iota. rewrite eat_app. cbn [andthen].
    assert (X : forall r, eat (pu "}") (commas (map afield (l1 ++ a :: l2)) ++ r) = None) by (intros r; rewrite E; destruct (commas_head afield c l) as (z & ->); reflexivity). rewrite X. rewrite IH; [reflexivity|exact F|exact B|lia].
Qed.
Lemma struct_rejects n p l r : path_ok p = true -> first_bad field_ok field_bad l -> (length (wr (EStruct p l)) < n)%nat -> p_expr n (wr (EStruct p l) ++ r) = None.
Proof.
  intros P (l1 & a & l2 & -> & F & B) L. destruct n as [|n]; [reflexivity|]. cbn [p_expr]. cbn [wr] in *. change (fun x : str * expr => [KId (fst x)] ++ pu ":" ++ wr (snd x)) with afield in *. rewrite !app_length in L. change (length (pu "{")) with 1%nat in L. rewrite <- !app_assoc.
  assert (E : eat (pu "&") (wr_path p ++ pu "{" ++ commas (map afield (l1 ++ a :: l2)) ++ pu "}" ++ r) = None) by (destruct (path_head _ P) as (x & l & -> & [[-> _]|(s & -> & _)]); reflexivity). rewrite E.
  rewrite (@primary_path n (p_expr n)) by (exact P || reflexivity). rewrite path_reads by (exact P || reflexivity). cbn [andthen]. change (eat (pu "(") (pu "{" ++ ?z)) with (@None toks). cbv iota. rewrite eat_app. unfold p_struct.
  assert (X : forall r, eat (pu "}") (commas (map afield (l1 ++ a :: l2)) ++ r) = None) by (intros q; destruct l1 as [|f l1]; cbn [app]; [destruct (commas_head afield a l2) as (z & ->)|destruct (commas_head afield f (l1 ++ a :: l2)) as (z & ->)]; reflexivity). rewrite X. rewrite fields_reject; [reflexivity|exact F|exact B|lia].
Qed.
Lemma block_rejects n l1 a l2 e : forall k rest, forallb stmt_ok l1 = true -> stmt_bad a -> (length (List.concat (map stmt (l1 ++ a :: l2))) < n)%nat -> p_block (p_expr n) k (List.concat (map stmt (l1 ++ a :: l2)) ++ wr e ++ rest) = None.
Proof.
  induction l1 as [|[b c] l1 IH]; intros [|k] rest F B L; try reflexivity.
  - destruct B as (y & p & l & -> & Y & P & B). cbn [app map List.concat] in *. rewrite app_length in L. unfold stmt at 1 in L. unfold stmt at 1. cbn [fst snd wr_binder] in *. rewrite !app_length in L. cbn [length] in L. rewrite <- !app_assoc. cbn [p_block]. unfold p_binder. cbn [app]. eats. rewrite (is_name_not' _ (lit "mut") Y eq_refl). rewrite (name_reads _ _ Y). eats. rewrite struct_rejects; [reflexivity|exact P|exact B|lia].
  - cbn [forallb] in F. apply andb_true_iff in F as [S F]. unfold stmt_ok in S. cbn [fst snd] in S. apply andb_true_iff in S as [S S3]. apply andb_true_iff in S as [S1 S2]. cbn [app map List.concat] in *. rewrite app_length in L. unfold stmt at 1 in L. unfold stmt at 1. cbn [fst snd] in *. rewrite !app_length in L. rewrite <- !app_assoc. cbn [p_block].
    rewrite binder_reads by assumption. cbn [andthen].
    assert (E : forall r, stops r = true -> match b with Do => if next (pu "{") (wr c ++ r) then None else p_expr n (wr c ++ r) | _ => p_expr n (wr c ++ r) end = Some (c, r)).
    { intros r R. assert (X : p_expr n (wr c ++ r) = Some (c, r)) by (apply expr_reads; [exact S2|lia|exact R]). destruct b; try exact X. unfold next. change (pu "{") with [KPu 123]. apply negb_true_iff in S3. rewrite (expr_brace _ _ _ S2 S3). exact X. }
    rewrite E by reflexivity. cbn [andthen]. rewrite eat_app. rewrite IH; [reflexivity|exact F|exact B|lia].
Qed.

(** ** Functions *)
Definition generics_ok (o : option (list generic)) : bool := match o with None => true | Some l => forallb generic_ok l end.
Inductive fn_bad (f : fn) : Prop :=
| fb_generics l : fn_generics f = Some l -> first_bad generic_ok generic_bad l -> fn_bad f
| fb_params : generics_ok (fn_generics f) = true -> fn_self f = false -> first_bad typed_ok typed_bad (fn_params f) -> fn_bad f
| fb_ret : generics_ok (fn_generics f) = true -> forallb typed_ok (fn_params f) = true -> bad_ty (fn_ret f) -> fn_bad f
| fb_body : generics_ok (fn_generics f) = true -> forallb typed_ok (fn_params f) = true -> ty_ok (fn_ret f) = true -> first_bad stmt_ok stmt_bad (fn_body f) -> fn_bad f.
Lemma fn_rest_rejects n f r : is_name (fn_name f) = true -> fn_bad f -> (length (fn_rest f) <= n)%nat -> p_fn_rest n (fn_doc f) (fn_pub f) (fn_rest f ++ r) = None.
Proof.
  intros X B L. unfold fn_rest in *. cbn [wr] in *. change (fun x => wr_binder (fst x) ++ wr (snd x) ++ pu ";") with stmt in *. rewrite !app_length in L. cbn [length] in L. change (length (pu "(")) with 1%nat in L. change (length (pu "{")) with 1%nat in L. change (length (pu "}")) with 1%nat in L.
  unfold p_fn_rest. rewrite <- !app_assoc. cbn [app]. rewrite (name_reads _ _ X). cbn [andthen]. destruct B as [l E B|G S B|G P B|G P T B].
  - rewrite E in *. rewrite generics_reject; [reflexivity|exact B|lia].
  - rewrite generics_reads; [|exact G|lia]. cbn [andthen]. rewrite eat_app. cbn [andthen]. rewrite S in *. cbn [app] in *. rewrite params_reject; [reflexivity|exact B|lia].
  - rewrite generics_reads; [|exact G|lia]. cbn [andthen]. rewrite eat_app. cbn [andthen]. rewrite params_reads; [|exact P|lia]. cbn [andthen]. rewrite eat_app. cbn [andthen]. rewrite ty_rejects; [reflexivity|exact B|lia].
  - rewrite generics_reads; [|exact G|lia]. cbn [andthen]. rewrite eat_app. cbn [andthen]. rewrite params_reads; [|exact P|lia]. cbn [andthen]. rewrite eat_app. cbn [andthen]. rewrite ty_reads; [|exact T|lia|reflexivity]. cbn [andthen]. rewrite eat_app. cbn [andthen].
    destruct B as (l1 & a & l2 & E & F & B). rewrite E in *. rewrite block_rejects; [reflexivity|exact F|exact B|lia].
Qed.

(** ** Items *)
Inductive item_bad : item -> Prop :=
| ib_fn f : is_name (fn_name f) = true -> fn_bad f -> item_bad (IFn f)
| ib_impl p x a t f : path_ok p = true -> is_name x = true -> is_name a = true -> bad_ty t -> item_bad (IImpl p x a t f)
| ib_struct_name ds x fs : forallb is_name ds = true -> is_name x = false -> item_bad (IStruct ds x fs)
| ib_struct ds x fs : forallb is_name ds = true -> is_name x = true -> first_bad typed_ok typed_bad fs -> item_bad (IStruct ds x fs)
| ib_mod_name d x l : is_name x = false -> item_bad (IMod d x l)
| ib_mod d x l1 i l2 : is_name x = true -> forallb item_ok l1 = true -> item_bad i -> item_bad (IMod d x (l1 ++ i :: l2)).
Lemma item_rejects n : forall i r, item_bad i -> (length (wr_item i) < n)%nat -> p_item n (wr_item i ++ r) = None.
Proof.
  induction n as [|n IH]; intros i r B L; [reflexivity|]. destruct B as [f X B|p x a t f P X A B|ds x fs D X|ds x fs D X B|d x l X|d x l1 i l2 X F B].
  - cbn [wr_item p_item] in *. rewrite wr_fn_rest in *. rewrite !app_length in L. cbn [length] in L. rewrite <- !app_assoc. pose proof (@fn_rest_rejects n f r X B ltac:(lia)) as E.
    assert (W : forall t, In t [[kw "use"]; [kw "const"]; [kw "impl"]; pu "#[" ++ [kw "derive"]] -> next t (wr_doc (fn_doc f) ++ (if fn_pub f then [kw "pub"] else []) ++ [kw "fn"] ++ fn_rest f ++ r) = false).
    { intros t I. destruct (fn_pub f); cbn [app]; lits; apply doc_next; (exact I || (cbn; tauto)). }
    rewrite !W by (cbn [In]; tauto). clear W. destruct (fn_pub f); cbn [app]; lits; rewrite doc_reads; eats; rewrite E; reflexivity.
  - cbn [wr_item] in *. rewrite !app_length in L. cbn [length] in L. rewrite <- !app_assoc. cbn [p_item]. change (next [kw "use"] ([kw "impl"] ++ ?z)) with false. change (next [kw "const"] ([kw "impl"] ++ ?z)) with false. unfold next. rewrite eat_app. cbn [andthen].
    rewrite path_reads by (exact P || reflexivity). cbn [app]. eats. rewrite name_reads by assumption. eats. rewrite name_reads by assumption. eats. rewrite ty_rejects; [reflexivity|exact B|lia].
  - cbn [wr_item] in *. rewrite !app_length in L. cbn [length] in L. rewrite <- !app_assoc. cbn [p_item]. change (next [kw "use"] (pu "#[" ++ ?z)) with false. change (next [kw "const"] (pu "#[" ++ ?z)) with false. change (next [kw "impl"] (pu "#[" ++ ?z)) with false.
    change (next (pu "#[" ++ [kw "derive"]) (pu "#[" ++ [kw "derive"] ++ ?z)) with true. cbv iota. change (pu "#[" ++ [kw "derive"] ++ pu "(" ++ ?z) with ((pu "#[" ++ [kw "derive"] ++ pu "(") ++ z). rewrite eat_app. cbn [andthen].
    change (pu ")]" ++ ?z) with (pu ")" ++ pu "]" ++ z). change (length (pu "{")) with 1%nat in L. change (length (pu "#[")) with 2%nat in L.
    rewrite (@commas_reads _ (fun d => [KId d]) p_word (pu ")") (fun _ => True)); [| | |exact (fun _ => I)|exact I|reflexivity|reflexivity].
    + cbn [andthen]. cbn [app]. eats. cbn [p_word]. rewrite X. reflexivity.
    + pose proof (commas_length (fun d => [KId d]) ds). lia.
    + intros b q J _. rewrite forallb_forall in D. apply name_reads. auto.
  - cbn [wr_item] in *. rewrite !app_length in L. cbn [length] in L. rewrite <- !app_assoc. cbn [p_item]. change (next [kw "use"] (pu "#[" ++ ?z)) with false. change (next [kw "const"] (pu "#[" ++ ?z)) with false. change (next [kw "impl"] (pu "#[" ++ ?z)) with false.
    change (next (pu "#[" ++ [kw "derive"]) (pu "#[" ++ [kw "derive"] ++ ?z)) with true. cbv iota. change (pu "#[" ++ [kw "derive"] ++ pu "(" ++ ?z) with ((pu "#[" ++ [kw "derive"] ++ pu "(") ++ z). rewrite eat_app. cbn [andthen].
    change (pu ")]" ++ ?z) with (pu ")" ++ pu "]" ++ z). change (length (pu "{")) with 1%nat in L. change (length (pu "#[")) with 2%nat in L.
    rewrite (@commas_reads _ (fun d => [KId d]) p_word (pu ")") (fun _ => True)); [| | |exact (fun _ => I)|exact I|reflexivity|reflexivity].
    + cbn [andthen]. cbn [app]. eats. rewrite name_reads by assumption. eats. destruct B as (l1 & g & l2 & -> & F & B). rewrite forallb_forall in F.
      rewrite (@commas_rejects _ (fun f => [KId (lit "pub")] ++ wr_field f) (p_struct_field n) (pu "}") (fun r => ty_stops r = true)); [reflexivity| | |reflexivity|reflexivity|reflexivity].
      * intros b q J Fr. assert (J' : In b (l1 ++ g :: l2)) by (apply in_or_app; now left). pose proof (commas_in (fun f => [kw "pub"] ++ wr_field f) _ _ J') as G. change (S (length (wr_field b)) <= length (commas (map (fun f => [kw "pub"] ++ wr_field f) (l1 ++ g :: l2))))%nat in G. unfold p_struct_field. cbn [app]. eats. apply typed_reads; [auto|lia|exact Fr].
      * intros q. assert (J' : In g (l1 ++ g :: l2)) by (apply in_or_app; right; now left). pose proof (commas_in (fun f => [kw "pub"] ++ wr_field f) _ _ J') as G. change (S (length (wr_field g)) <= length (commas (map (fun f => [kw "pub"] ++ wr_field f) (l1 ++ g :: l2))))%nat in G. unfold p_struct_field. cbn [app]. eats. apply typed_rejects; [exact B|lia].
    + pose proof (commas_length (fun d => [KId d]) ds). lia.
    + intros b q J _. rewrite forallb_forall in D. apply name_reads. auto.
  - cbn [wr_item] in *. rewrite <- !app_assoc. cbn [app p_item]. rewrite !(@doc_next d (lit "pub")) by (cbn; tauto). change (kw "pub") with (KId (lit "pub")). rewrite doc_reads. eats. cbn [p_word]. rewrite X. reflexivity.
  - cbn [wr_item] in *. rewrite !app_length in L. cbn [length] in L. rewrite <- !app_assoc. cbn [app p_item]. rewrite !(@doc_next d (lit "pub")) by (cbn; tauto). change (kw "pub") with (KId (lit "pub")). rewrite doc_reads. eats. rewrite (name_reads _ _ X). eats. rewrite forallb_forall in F.
    change [KPu 125] with (pu "}"). rewrite (@many_rejects _ wr_item (p_item n) (pu "}")); [reflexivity| | |intros; apply item_eat].
    + intros b q J. assert (J' : In b (l1 ++ i :: l2)) by (apply in_or_app; now left). pose proof (concat_in wr_item _ _ J'). apply item_reads; [auto|lia].
    + intros q. assert (J' : In i (l1 ++ i :: l2)) by (apply in_or_app; right; now left). pose proof (concat_in wr_item _ _ J'). apply IH; [exact B|lia].
Qed.
Lemma parse_rejects l : first_bad item_ok item_bad l -> parse (wr_items l) = None.
Proof.
  intros (l1 & i & l2 & -> & F & B). unfold parse. generalize (length (wr_items (l1 ++ i :: l2))) at 1. intros k. assert (L : (length (wr_items (l1 ++ i :: l2)) < S (length (wr_items (l1 ++ i :: l2))))%nat) by lia. revert L. generalize (S (length (wr_items (l1 ++ i :: l2)))). intros n. revert k.
  induction l1 as [|j l1 IH]; intros k L; unfold wr_items in *; cbn [app map List.concat] in *; rewrite app_length in L.
  - pose proof (item_filled i) as Fi. pose proof (@item_rejects n i (List.concat (map wr_item l2)) B ltac:(lia)) as E. destruct (wr_item i ++ List.concat (map wr_item l2)) eqn:W; [apply (f_equal (@List.length tok)) in W; rewrite app_length in W; cbn in W; lia|]. destruct k; [reflexivity|]. cbn [p_items]. rewrite E. reflexivity.
  - cbn [forallb] in F. apply andb_true_iff in F as [Fj F]. pose proof (item_filled j) as Fi. pose proof (@item_reads n j (List.concat (map wr_item (l1 ++ i :: l2))) Fj ltac:(lia)) as E. destruct (wr_item j ++ List.concat (map wr_item (l1 ++ i :: l2))) eqn:W; [apply (f_equal (@List.length tok)) in W; rewrite app_length in W; cbn in W; lia|]. destruct k; [reflexivity|]. cbn [p_items]. rewrite E. cbn [andthen]. rewrite IH; [reflexivity|exact F|lia].
Qed.

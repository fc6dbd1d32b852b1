(** * The parser of attributes follows the grammar *)
From Verif Require Import Base BaseFacts StrFacts Utf8 Contract Json JsonText JsonTextSpec JsonTextLoad Quote RustSyntax Derive DeriveText DeriveTree RustEval GeneratedSpec DeriveGenerated
  DeriveWritten Attr AttrSpec.
From Coq Require Import String Lia.
Set Implicit Arguments.
Local Open Scope N_scope.
Local Open Scope list_scope.
Notation length := List.length.

Lemma is_punct_iff s t : is_punct s t = true <-> t = punct s.
Proof.
  destruct t; cbn [is_punct]; split; try discriminate.
  - intros H. apply str_eqb_eq in H. subst. reflexivity.
  - intros H. injection H as ->. apply str_eqb_refl.
Qed.
Lemma is_bool_iff s : str_eqb s (lit "true") || str_eqb s (lit "false") = true <-> is_bool s.
Proof. unfold is_bool. rewrite orb_true_iff, !str_eqb_eq. reflexivity. Qed.
Lemma lit_parsed ts v r : parse_lit ts = Some (v, r) <-> exists a, ts = a ++ r /\ lit_text a v.
Proof.
  split.
  - destruct ts as [|[s|s|l|c|c] ts]; try discriminate; cbn [parse_lit].
    + destruct (str_eqb s (lit "true") || str_eqb s (lit "false")) eqn:E; [|discriminate]. intros H. injection H as <- <-. apply is_bool_iff in E.
      exists [TIdent s]. split; [reflexivity|now constructor].
    + destruct ts as [|[| |[]| |] ts]; try discriminate. destruct (str_eqb s (lit "-")) eqn:E; [|discriminate]. intros H. injection H as <- <-. apply str_eqb_eq in E. subst.
      exists [punct "-"; TLiteral LitNumber]. split; [reflexivity|constructor].
    + destruct l; intros H; injection H as <- <-; eexists [_]; (split; [reflexivity|constructor]); discriminate.
  - intros (a & -> & H). destruct H as [v|l N|s H|]; cbn [app parse_lit].
    + reflexivity.
    + destruct l; [now elim (N value)|reflexivity..].
    + apply is_bool_iff in H. now rewrite H.
    + reflexivity.
Qed.
(** What may follow a path *)
Definition no_colons (r : list tree) : Prop := next_is "::" r = false.
Lemma idents_parsed ts : forall l r, parse_idents ts = Some (l, r) -> no_colons r /\ exists a, ts = a ++ r /\ idents_text a l.
Proof.
  assert (G : forall n ts, (length ts <= n)%nat -> forall l r, parse_idents ts = Some (l, r) -> no_colons r /\ exists a, ts = a ++ r /\ idents_text a l).
  { induction n as [|n IH]; intros [|t ts'] L l r E; try discriminate; [cbn [length] in L; lia|]. destruct t as [s| | | |]; try discriminate. destruct ts' as [|t ts'].
    - injection E as <- <-. split; [reflexivity|]. exists [TIdent s]. split; [reflexivity|constructor].
    - cbn [parse_idents] in E. destruct (is_punct "::" t) eqn:C.
      + destruct (parse_idents ts') as [[l' r']|] eqn:E'; [|discriminate]. injection E as <- <-. cbn [length] in L. apply IH in E' as (N & a & -> & H); [|lia].
        split; [exact N|]. apply is_punct_iff in C. subst. exists (TIdent s :: punct "::" :: a). split; [reflexivity|now constructor].
      + injection E as <- <-. split; [exact C|]. exists [TIdent s]. split; [reflexivity|constructor]. }
  intros l r. now apply (G (length ts)).
Qed.
Lemma idents_read a l : idents_text a l -> forall r, no_colons r -> parse_idents (a ++ r) = Some (l, r).
Proof.
  induction 1 as [s|s ts l H IH]; intros r N.
  - destruct r as [|t r]; [reflexivity|]. cbn [app parse_idents]. unfold no_colons in N. cbn [next_is] in N. now rewrite N.
  - cbn [app parse_idents]. change (is_punct "::" (punct "::")) with true. cbv iota. rewrite IH by exact N. reflexivity.
Qed.
Lemma path_parsed ts q r : parse_path ts = Some (q, r) -> no_colons r /\ exists a, ts = a ++ r /\ path_text a q.
Proof.
  unfold parse_path. destruct (next_is "::" ts) eqn:E.
  - destruct ts as [|t ts]; [discriminate|]. cbn [next_is] in E. apply is_punct_iff in E. subst t. cbn [tl].
    destruct (parse_idents ts) as [[l r']|] eqn:P; [|discriminate]. intros H. injection H as <- <-. apply idents_parsed in P as (N & a & -> & H).
    split; [exact N|]. exists (punct "::" :: a). split; [reflexivity|now constructor].
  - destruct (parse_idents ts) as [[l r']|] eqn:P; [|discriminate]. intros H. injection H as <- <-. apply idents_parsed in P as (N & a & -> & H).
    split; [exact N|]. exists a. split; [reflexivity|now constructor].
Qed.
Lemma path_read a q r : path_text a q -> no_colons r -> parse_path (a ++ r) = Some (q, r).
Proof.
  intros [ts l H|ts l H] N; unfold parse_path.
  - assert (E : next_is "::" (ts ++ r) = false) by (destruct H; reflexivity). rewrite E, (idents_read H N). reflexivity.
  - cbn [app next_is]. change (is_punct "::" (punct "::")) with true. cbv iota. cbn [tl]. rewrite (idents_read H N). reflexivity.
Qed.

Definition parse_after (f : nat) (q : path) (ts : list tree) : option (meta * list tree) :=
  match ts with
  | TParen c :: r => match parse_items f c with Some l => Some (MList q l, r) | None => None end
  | t :: r => if is_punct "=" t then match parse_lit r with Some (v, r') => Some (MNameValue q v, r') | None => None end else Some (MPath q, ts)
  | [] => Some (MPath q, [])
  end.
Definition parse_nested (f : nat) (ts : list tree) : option (nested * list tree) :=
  let named := match parse_path ts with Some (q, r) => match parse_after f q r with Some (m, r') => Some (NMeta m, r') | None => None end | None => None end in
  match parse_lit ts with
  | Some (v, r) => if match ts with TIdent _ :: _ => next_is "=" r | _ => false end then named else Some (NLit v, r)
  | None => named
  end.
Lemma parse_items_eq f ts : parse_items (S f) ts =
  match ts with
  | [] => Some []
  | _ => match parse_nested f ts with
         | Some (n, []) => Some [n]
         | Some (n, t :: r) => if is_punct "," t then match parse_items f r with Some l => Some (n :: l) | None => None end else None
         | None => None
         end
  end.
Proof. reflexivity. Qed.

(** What follows an item: the end or a comma *)
Definition item_end (r : list tree) : Prop := r = [] \/ exists r', r = punct "," :: r'.
Lemma trees_app a b : trees_size (a ++ b) = (trees_size a + trees_size b)%nat.
Proof. unfold trees_size. induction a as [|t a IH]; cbn [app fold_right]; [reflexivity|]. rewrite IH. lia. Qed.
Lemma tree_pos t : (1 <= tree_size t)%nat.
Proof. destruct t; cbn [tree_size]; lia. Qed.
Lemma trees_cons t ts : trees_size (t :: ts) = (tree_size t + trees_size ts)%nat.
Proof. reflexivity. Qed.

(** The parser finds only what the grammar derives. *)
Lemma items_parsed f : forall ts l, parse_items f ts = Some l -> items_text ts l.
Proof.
  induction f as [|f IH]; intros ts l E; [discriminate|]. rewrite parse_items_eq in E.
  assert (AF : forall q ts m r, parse_after f q ts = Some (m, r) -> item_end r -> exists a, ts = a ++ r /\ after_text q a m).
  { intros q ts' m r P [-> |[r' ->]]; (destruct ts' as [|t ts']).
    - injection P as <-. exists []. split; [reflexivity|constructor].
    - unfold parse_after in P. destruct t as [s|s|l0|c|c]; cbn [is_punct] in P; try discriminate.
      + destruct (str_eqb s (lit "=")) eqn:EQ; [|discriminate]. apply str_eqb_eq in EQ. subst s. destruct (parse_lit ts') as [[v r']|] eqn:PL; [|discriminate]. injection P as <- ->.
        apply lit_parsed in PL as (a & -> & H). exists (punct "=" :: a). split; [reflexivity|now constructor].
      + destruct (parse_items f c) as [l'|] eqn:PI; [|discriminate]. injection P as <- ->. exists [TParen c]. split; [reflexivity|]. constructor. now apply IH.
    - discriminate.
    - unfold parse_after in P. destruct t as [s|s|l0|c|c]; cbn [is_punct] in P; try discriminate.
      + destruct (str_eqb s (lit "=")) eqn:EQ.
        * apply str_eqb_eq in EQ. subst s. destruct (parse_lit ts') as [[v r2]|] eqn:PL; [|discriminate]. injection P as <- ->.
          apply lit_parsed in PL as (a & -> & H). exists (punct "=" :: a). split; [reflexivity|now constructor].
        * injection P as <- -> ->. exists []. split; [reflexivity|constructor].
      + destruct (parse_items f c) as [l'|] eqn:PI; [|discriminate]. injection P as <- ->. exists [TParen c]. split; [reflexivity|]. constructor. now apply IH. }
  assert (NE : forall n r, parse_nested f ts = Some (n, r) -> item_end r -> exists a, ts = a ++ r /\ nested_text a n).
  { intros n r P IE. unfold parse_nested in P.
    assert (NAMED : (forall s r0, ts = TIdent s :: r0 -> is_bool s -> next_is "=" r0 = true) ->
      match parse_path ts with Some (q, r) => match parse_after f q r with Some (m, r') => Some (NMeta m, r') | None => None end | None => None end = Some (n, r) ->
      exists a, ts = a ++ r /\ nested_text a n).
    { intros BO P'. destruct (parse_path ts) as [[q r1]|] eqn:PP; [|discriminate]. destruct (parse_after f q r1) as [[m r2]|] eqn:PA; [|discriminate]. injection P' as <- ->.
      apply path_parsed in PP as (NC & a & -> & PT). pose proof PA as PA'. apply AF in PA as (b & -> & AT); [|exact IE]. exists (a ++ b). split; [now rewrite <- app_assoc|].
      apply ns_meta with q; [exact PT|exact AT|]. intros s a' -> BS. specialize (BO s (a' ++ b ++ r) eq_refl BS).
      assert (a' = []).
      { inversion PT as [? ? IT|]. inversion IT; [reflexivity|]. subst. cbn in BO. discriminate. }
      subst a'. split; [reflexivity|]. inversion AT as [|? c l' I|? c v' LT]; subst.
      - exfalso. destruct IE as [-> |[r' ->]]; discriminate BO.
      - discriminate BO.
      - eauto. }
    destruct (parse_lit ts) as [[v r1]|] eqn:PL.
    - apply lit_parsed in PL as (a & -> & LT). destruct LT as [v|l0 N0|s BS|]; cbn [app] in P; try (injection P as <- ->; eexists; split; [|constructor; constructor; eassumption]; reflexivity).
      destruct (next_is "=" r1) eqn:NX.
      + apply NAMED; [|exact P]. intros s' r0 E0 _. injection E0 as _ <-. exact NX.
      + injection P as <- ->. exists [TIdent s]. split; [reflexivity|]. now constructor; constructor.
    - apply NAMED; [|exact P]. intros s r0 -> BS. exfalso. apply is_bool_iff in BS. cbn [parse_lit] in PL. rewrite BS in PL. discriminate. }
  destruct ts as [|t0 ts0]; [injection E as <-; constructor|]. set (ts := t0 :: ts0) in *. clearbody ts. clear t0 ts0. cbv iota in E.
  destruct (parse_nested f ts) as [[n [|t r]]|] eqn:PN; [| |discriminate].
  - injection E as <-. destruct (NE n [] eq_refl (or_introl eq_refl)) as (a & -> & H). rewrite app_nil_r. now constructor.
  - destruct (is_punct "," t) eqn:C; [|discriminate]. apply is_punct_iff in C. subst t. destruct (parse_items f r) as [l'|] eqn:PI; [|discriminate]. injection E as <-.
    destruct (NE n (punct "," :: r) eq_refl) as (a & -> & H); [right; eauto|]. apply is_more; [exact H|now apply IH].
Qed.

(** The parser finds all that the grammar derives. *)
Scheme after_mut := Minimality for after_text Sort Prop with items_mut := Minimality for items_text Sort Prop with nested_mut := Minimality for nested_text Sort Prop.
Combined Scheme attr_mut from after_mut, items_mut, nested_mut.
Lemma lit_nonempty a v : lit_text a v -> a <> [].
Proof. intros []; discriminate. Qed.
Lemma nested_nonempty a n : nested_text a n -> a <> [].
Proof. intros [ts v H|ts q rest m H _ _]; [now apply lit_nonempty in H|]. destruct H as [? ? []|]; discriminate. Qed.
Lemma size_pos a : a <> [] -> (1 <= trees_size a)%nat.
Proof. destruct a as [|t a]; [congruence|]. intros _. rewrite trees_cons. pose proof (tree_pos t). lia. Qed.
Lemma grammar_parsed :
  (forall q a m, after_text q a m -> forall f r, (trees_size a <= f)%nat -> item_end r -> parse_after f q (a ++ r) = Some (m, r)) /\
  (forall a l, items_text a l -> forall f, (trees_size a < f)%nat -> parse_items f a = Some l) /\
  (forall a n, nested_text a n -> forall f r, (trees_size a <= f)%nat -> item_end r -> parse_nested f (a ++ r) = Some (n, r)).
Proof.
  apply attr_mut.
  - intros q f r L [-> |[r' ->]]; reflexivity.
  - intros q ts l _ IH f r L IE. cbn [app parse_after]. rewrite IH; [reflexivity|]. rewrite trees_cons in L. cbn [tree_size] in L. unfold trees_size in *. cbn [fold_right] in L. lia.
  - intros q ts v LT f r L IE. cbn [app parse_after]. change (is_punct "=" (punct "=")) with true. unfold punct. cbv iota.
    assert (P : parse_lit (ts ++ r) = Some (v, r)) by (apply lit_parsed; eauto). rewrite P. reflexivity.
  - intros [|f] L; [lia|reflexivity].
  - intros ts n NT IH [|f] L; [lia|]. rewrite parse_items_eq. pose proof (nested_nonempty NT) as NE. specialize (IH f [] ltac:(lia) (or_introl eq_refl)). rewrite app_nil_r in IH. rewrite IH.
    destruct ts; [congruence|reflexivity].
  - intros ts n rest l NT IHn _ IHl [|f] L; [lia|]. rewrite parse_items_eq. pose proof (nested_nonempty NT) as NE. pose proof (size_pos NE). rewrite trees_app, trees_cons in L. cbn [punct tree_size] in L.
    rewrite (IHn f (punct "," :: rest)); [|lia|right; eauto]. change (is_punct "," (punct ",")) with true. cbv iota. rewrite IHl by lia. destruct ts; [congruence|reflexivity].
  - intros ts v LT f r L IE. unfold parse_nested. assert (P : parse_lit (ts ++ r) = Some (v, r)) by (apply lit_parsed; eauto). rewrite P.
    assert (NX : next_is "=" r = false) by (destruct IE as [-> |[r' ->]]; reflexivity). rewrite NX. destruct (ts ++ r) as [|[]]; reflexivity.
  - intros ts q rest m PT AT IH BO f r L IE. unfold parse_nested. rewrite <- app_assoc.
    assert (NC : no_colons (rest ++ r)). { destruct AT; cbn [app]; try reflexivity. destruct IE as [-> |[r' ->]]; reflexivity. }
    rewrite (path_read PT NC). rewrite trees_app in L. rewrite IH by (lia || exact IE).
    destruct (parse_lit (ts ++ rest ++ r)) as [[v r1]|] eqn:PL; [|reflexivity]. apply lit_parsed in PL as (b & E & LT).
    assert (TI : exists s ts', (ts = TIdent s :: ts' /\ exists l, idents_text ts l) \/ ts = punct "::" :: ts').
    { destruct PT as [ts l IT|ts l IT]; [|exists [], ts; now right]. destruct IT as [s|s ts l IT]; eexists s, _; left; (split; [reflexivity|]); eexists; econstructor; eassumption. }
    destruct TI as (s & ts' & [[-> IT] | ->]).
    + destruct LT as [v|l0 N0|s' BS|]; try discriminate E. cbn [app] in E. injection E as -> E. subst r1. destruct (BO s' ts' eq_refl BS) as [-> [v' ->]]. inversion AT; subst. reflexivity.
    + exfalso. destruct LT as [v|l0 N0|s' BS|]; discriminate E.
Qed.
Lemma items_exact ts l : parse_items (S (trees_size ts)) ts = Some l <-> items_text ts l.
Proof. split; [apply items_parsed|]. intros H. apply grammar_parsed; [exact H|lia]. Qed.
Lemma meta_exact a m : parse_meta a = Some m <-> after_text (at_path a) (at_tokens a) m.
Proof.
  unfold parse_meta. destruct a as [q ts]. cbn [at_path at_tokens]. split.
  - destruct ts as [|t ts]; [intros H; injection H as <-; constructor|]. destruct t as [s|s|l|c|c]; try discriminate.
    + cbn [is_punct]. destruct (str_eqb s (lit "=")) eqn:E; [|discriminate]. apply str_eqb_eq in E. subst s. destruct (parse_lit ts) as [[v [|]]|] eqn:P; try discriminate. intros H. injection H as <-.
      apply lit_parsed in P as (a & -> & LT). rewrite app_nil_r. now apply (af_value q).
    + destruct ts as [|t ts]; [|discriminate]. destruct (parse_items (S (trees_size c)) c) as [l|] eqn:P; [|discriminate]. intros H. injection H as <-. apply items_exact in P. now constructor.
  - intros H. inversion H as [|? c l I|? c v L]; subst.
    + reflexivity.
    + apply items_exact in I. now rewrite I.
    + unfold punct. change (is_punct "=" (TPunct (lit "="))) with true. cbv iota. assert (P : parse_lit c = Some (v, [])) by (apply lit_parsed; exists c; now rewrite app_nil_r). rewrite P. reflexivity.
Qed.

(** ** Which file is named *)
Lemma after_meta_path q ts m : after_text q ts m -> meta_path m = q.
Proof. intros []; reflexivity. Qed.
Lemma is_ident_iff q n : is_ident q n = true <-> q = mkPath false [n].
Proof.
  unfold is_ident. destruct q as [[] [|x [|y l]]]; split; try discriminate.
  - intros H. apply str_eqb_eq in H. now subst.
  - intros H. injection H as ->. apply str_eqb_refl.
Qed.
Lemma find_split A (f : A -> bool) l x : find f l = Some x <-> exists l1 l2, l = l1 ++ x :: l2 /\ f x = true /\ forall y, In y l1 -> f y = false.
Proof.
  induction l as [|y l IH]; cbn [find].
  - split; [discriminate|]. intros ([|] & l2 & H & _); discriminate.
  - destruct (f y) eqn:E; split.
    + intros H. injection H as <-. exists [], l. split; [reflexivity|]. split; [exact E|]. intros ? [].
    + intros ([|z l1] & l2 & H & F & B); injection H as -> ->; [reflexivity|]. rewrite (B z) in E by now left. discriminate.
    + intros H. apply IH in H as (l1 & l2 & -> & F & B). exists (y :: l1), l2. split; [reflexivity|]. split; [exact F|]. intros z [<-|I]; auto.
    + intros ([|z l1] & l2 & H & F & B); injection H as -> ->; [congruence|]. apply IH. exists l1, l2. split; [reflexivity|]. split; [exact F|]. intros w I. apply B. now right.
Qed.
Definition metas (attrs : list attribute) : list meta := flat_map (fun a => match parse_meta a with Some m => [m] | None => [] end) attrs.
Lemma metas_app a b : metas (a ++ b) = metas a ++ metas b.
Proof. apply flat_map_app. Qed.
Lemma metas_in attrs m : In m (metas attrs) <-> exists a, In a attrs /\ parse_meta a = Some m.
Proof.
  unfold metas. rewrite in_flat_map. split; intros (a & I & H); exists a; (split; [exact I|]).
  - destruct (parse_meta a); [|contradiction]. destruct H as [->|[]]. reflexivity.
  - rewrite H. now left.
Qed.
Lemma metas_split attrs l1 m l2 : metas attrs = l1 ++ m :: l2 -> exists b a c, attrs = b ++ a :: c /\ metas b = l1 /\ parse_meta a = Some m.
Proof.
  revert l1. induction attrs as [|a attrs IH]; intros l1 E; [destruct l1; discriminate|]. unfold metas in E. cbn [flat_map] in E. destruct (parse_meta a) as [m'|] eqn:P.
  - destruct l1 as [|m1 l1]; cbn [app] in E; injection E as -> E.
    + exists [], a, attrs. auto.
    + destruct (IH l1 E) as (b & a' & c & -> & <- & Q). exists (a :: b), a', c. split; [reflexivity|]. split; [|exact Q]. unfold metas. cbn [flat_map]. now rewrite P.
  - destruct (IH l1 E) as (b & a' & c & -> & <- & Q). exists (a :: b), a', c. split; [reflexivity|]. split; [|exact Q]. unfold metas. cbn [flat_map]. now rewrite P.
Qed.
Notation options_path := (mkPath false [lit "ethabi_contract_options"]).
Lemma options_exact attrs l : get_options attrs (lit "ethabi_contract_options") = Ok l <-> exists before ts after,
  attrs = before ++ mkAttr options_path [TParen ts] :: after /\
  (forall a m, In a before -> at_path a = options_path -> ~ after_text (at_path a) (at_tokens a) m) /\ items_text ts l.
Proof.
  unfold get_options. fold (metas attrs). split.
  - destruct (find _ (metas attrs)) as [[q|q l'|q v]|] eqn:E; try discriminate. intros H. injection H as ->. apply find_split in E as (l1 & l2 & E & F & B).
    apply metas_split in E as (b & [q' ts] & c & -> & <- & P). apply meta_exact in P. cbn [at_path at_tokens] in P. cbn [meta_path] in F. apply is_ident_iff in F. subst q. inversion P as [|? ts' ? I|]; subst.
    exists b, ts', c. split; [reflexivity|]. split; [|exact I]. intros a m Ia Pa A. pose proof (after_meta_path A) as M. apply meta_exact in A. specialize (B m). rewrite M, Pa in B.
    assert (In m (metas b)) by (apply metas_in; eauto). specialize (B H). discriminate B.
  - intros (b & ts & c & -> & B & I). assert (P : parse_meta (mkAttr options_path [TParen ts]) = Some (MList options_path l)) by (apply meta_exact; now constructor).
    assert (E : find (fun m => is_ident (meta_path m) (lit "ethabi_contract_options")) (metas (b ++ mkAttr options_path [TParen ts] :: c)) = Some (MList options_path l)).
    { apply find_split. exists (metas b), (metas c). split; [|split; [reflexivity|]].
      - rewrite metas_app. f_equal. unfold metas at 1. cbn [flat_map]. rewrite P. reflexivity.
      - intros m Im. apply metas_in in Im as (a & Ia & Pm). apply meta_exact in Pm. pose proof (after_meta_path Pm) as M.
        destruct (is_ident (meta_path m) (lit "ethabi_contract_options")) eqn:E; [|reflexivity]. apply is_ident_iff in E. rewrite E in M. elim (B a m Ia (eq_sym M) Pm). }
    rewrite E. reflexivity.
Qed.
Definition named_items (l : list nested) : list meta := flat_map (fun n => match n with NMeta m => [m] | NLit _ => [] end) l.
Lemma named_in l m : In m (named_items l) <-> In (NMeta m) l.
Proof.
  unfold named_items. rewrite in_flat_map. split.
  - intros ([m'|v] & I & H); [|contradiction]. destruct H as [->|[]]. exact I.
  - intros I. exists (NMeta m). split; [exact I|now left].
Qed.
Lemma named_split l l1 m l2 : named_items l = l1 ++ m :: l2 -> exists a b, l = a ++ NMeta m :: b /\ named_items a = l1.
Proof.
  revert l1. induction l as [|n l IH]; intros l1 E; [destruct l1; discriminate|]. destruct n as [m'|v]; cbn in E.
  - destruct l1 as [|m1 l1]; cbn [app] in E; injection E as -> E.
    + exists [], l. auto.
    + destruct (IH l1 E) as (a & b & -> & <-). exists (NMeta m1 :: a), b. auto.
  - destruct (IH l1 E) as (a & b & -> & <-). exists (NLit v :: a), b. auto.
Qed.
Lemma option_exact l s : get_option l (lit "path") = Ok s <-> exists l1 l2, l = l1 ++ NMeta (MNameValue (mkPath false [lit "path"]) (VStr s)) :: l2 /\
  (forall m, In (NMeta m) l1 -> meta_path m <> mkPath false [lit "path"]).
Proof.
  unfold get_option. fold (named_items l). split.
  - destruct (find _ (named_items l)) as [m|] eqn:E; [|discriminate]. destruct m as [|q l'|q [v|]]; try discriminate. intros H. injection H as ->. apply find_split in E as (l1 & l2 & E & F & B).
    apply named_split in E as (a & b & -> & <-). cbn [meta_path] in F. apply is_ident_iff in F. subst q. exists a, b. split; [reflexivity|]. intros m I M. apply named_in in I. apply B in I. rewrite M in I. discriminate.
  - intros (a & b & -> & B).
    assert (E : find (fun m => is_ident (meta_path m) (lit "path")) (named_items (a ++ NMeta (MNameValue (mkPath false [lit "path"]) (VStr s)) :: b)) = Some (MNameValue (mkPath false [lit "path"]) (VStr s))).
    { apply find_split. exists (named_items a), (named_items b). split; [unfold named_items; now rewrite flat_map_app|]. split; [reflexivity|]. intros m I. apply named_in in I. apply B in I.
      destruct (is_ident (meta_path m) (lit "path")) eqn:E; [|reflexivity]. apply is_ident_iff in E. contradiction. }
    rewrite E. reflexivity.
Qed.
Lemma named_exact attrs file : (do options <- get_options attrs (lit "ethabi_contract_options"); get_option options (lit "path")) = Ok file <-> names_file attrs file.
Proof.
  unfold names_file. split.
  - intros E. apply bind_ok in E as (l & O & E). apply options_exact in O as (b & ts & c & -> & B & I). apply option_exact in E as (l1 & l2 & -> & N). exists b, ts, c, l1, l2. auto.
  - intros (b & ts & c & l1 & l2 & -> & B & I & N). apply bind_ok. eexists. split; [apply options_exact; exists b, ts, c; eauto|]. apply option_exact. eauto.
Qed.
Lemma named_unique attrs f f' : names_file attrs f -> names_file attrs f' -> f = f'.
Proof. intros A B. apply named_exact in A, B. congruence. Qed.

(** ** Where the file is *)
Lemma found_exact dir rel full : push_path dir rel = full <-> found_at dir rel full.
Proof.
  assert (R : (exists r, rel = lit "/" ++ r) \/ forall r, rel <> lit "/" ++ r).
  { destruct rel as [|c r]; [right; intros r; discriminate|]. destruct (N.eq_dec c 47) as [->|N]; [left; exists r; reflexivity|right]. intros r' E. injection E as -> _. now elim N. }
  destruct R as [[r ->]|R].
  - change (push_path dir (lit "/" ++ r)) with (lit "/" ++ r). split; [intros <-; left; eauto|]. intros [(r' & _ & ->)|[N _]]; [reflexivity|]. now elim (N r).
  - assert (E : push_path dir rel = match last_char dir with None => rel | Some c => if c =? 47 then dir ++ rel else dir ++ 47 :: rel end).
    { unfold push_path. destruct rel as [|c r]; [reflexivity|]. destruct (N.eq_dec c 47) as [->|N]; [now elim (R r)|]. destruct c as [|q]; [reflexivity|].
      do 6 (destruct q as [q|q|]; try reflexivity). now elim N. }
    rewrite E. unfold found_at. destruct (last_char dir) as [c|] eqn:L.
    + apply last_char_some in L as [d ->]. destruct (N.eqb_spec c 47) as [->|N].
      * split; [intros <-; right; split; [exact R|right; left; exists d; auto]|]. intros [(r & -> & _)|[_ [[E0 _]|[(d' & _ & ->)|(_ & N & _)]]]]; [now elim (R r)|now destruct d|reflexivity|now elim (N d)].
      * split.
        -- intros <-. right. split; [exact R|]. right. right. split; [now destruct d|]. split; [|reflexivity]. intros d' E'. apply app_inj_tail in E' as [_ E']. contradiction.
        -- intros [(r & -> & _)|[_ [[E0 _]|[(d' & E' & ->)|(_ & _ & ->)]]]]; [now elim (R r)|now destruct d| |reflexivity]. apply app_inj_tail in E' as [_ E']. contradiction.
    + apply last_char_none in L. subst dir. split; [intros <-; right; auto|]. intros [(r & -> & _)|[_ [[_ ->]|[(d' & E' & ->)|(N & _ & _)]]]]; [now elim (R r)|reflexivity|now destruct d'|congruence].
Qed.
Lemma derive_exact p manifest_dir fs order attrs text : ethabi_derive p manifest_dir fs order attrs = Ok text <->
  exists rel dir full s j c, names_file attrs rel /\ manifest_dir = Some dir /\ found_at dir rel full /\
    fs full = Some (Some (utf8 s)) /\ wf_str s = true /\ json_text s j /\ load p j = Ok c /\ contract_text c (fst (order c)) (snd (order c)) = Ok text.
Proof.
  unfold ethabi_derive. split.
  - destruct (impl_ethabi_derive p manifest_dir fs order attrs) as [t| |] eqn:E; try discriminate. intros H. injection H as ->. unfold impl_ethabi_derive in E.
    apply bind_ok in E as (l & O & E). apply bind_ok in E as (rel & P & E). apply bind_ok in E as (full & F & E).
    assert (NF : names_file attrs rel) by (apply named_exact, bind_ok; eauto). unfold normalize_path in F. destruct manifest_dir as [dir|]; [|discriminate]. injection F as F. apply found_exact in F.
    destruct (fs full) as [[bytes|]|] eqn:FS; try discriminate. apply bind_ok in E as (c & L & E). apply load_bytes_exact in L as (s & j & W & -> & T & L).
    exists rel, dir, full, s, j, c. auto 10.
  - intros (rel & dir & full & s & j & c & NF & -> & F & FS & W & T & L & E). apply named_exact in NF. apply bind_ok in NF as (l & O & P). unfold impl_ethabi_derive. rewrite O. cbn [bind]. rewrite P. cbn [bind normalize_path].
    apply found_exact in F. rewrite F, FS. assert (LB : load_bytes p (utf8 s) = Ok c) by (apply load_bytes_exact; eauto 6). rewrite LB. cbn [bind]. rewrite E. reflexivity.
Qed.
Lemma derive_total p manifest_dir fs order attrs : (forall text, ethabi_derive p manifest_dir fs order attrs <> Ok text) -> ethabi_derive p manifest_dir fs order attrs = Panic.
Proof. unfold ethabi_derive. destruct (impl_ethabi_derive p manifest_dir fs order attrs); [|reflexivity..]. intros H. now elim (H a). Qed.
(** No other file matters. *)
Lemma derive_local p manifest_dir fs fs' order attrs :
  (forall rel dir full, names_file attrs rel -> manifest_dir = Some dir -> found_at dir rel full -> fs full = fs' full) ->
  ethabi_derive p manifest_dir fs order attrs = ethabi_derive p manifest_dir fs' order attrs.
Proof.
  intros H. unfold ethabi_derive, impl_ethabi_derive. destruct (get_options attrs _) as [l| |] eqn:O; try reflexivity. cbn [bind]. destruct (get_option l _) as [rel| |] eqn:P; try reflexivity. cbn [bind].
  destruct manifest_dir as [dir|]; [|reflexivity]. cbn [normalize_path bind]. rewrite (H rel dir (push_path dir rel)); [reflexivity| |reflexivity|now apply found_exact]. apply named_exact, bind_ok. eauto.
Qed.

(** ** [use_contract!] *)
Lemma items_inv ts l : items_text ts l -> ts = [] /\ l = [] \/ exists a n r, nested_text a n /\ ((ts = a /\ r = [] /\ l = [n]) \/ exists rest, ts = a ++ punct "," :: rest /\ items_text rest r /\ l = n :: r).
Proof. intros []; [auto|right; exists ts0, n, []; auto|right; exists ts0, n, l0; eauto 10]. Qed.
Lemma used_exact argument file : names_file (use_contract argument) file <->
  exists rest, argument = TLiteral (LitStr file) :: rest /\ (rest = [] \/ exists ts l, rest = punct "," :: ts /\ items_text ts l).
Proof.
  split.
  - intros (b & ts & a & l1 & l2 & E & _ & I & N). destruct b as [|x b]; [|destruct b; discriminate]. injection E as <- <-.
    apply items_exact in I. set (ts := TIdent (lit "path") :: TPunct (lit "=") :: argument) in *. rewrite parse_items_eq in I. cbv iota in I. subst ts. cbv iota in I.
    unfold parse_nested in I. change (parse_lit (TIdent (lit "path") :: TPunct (lit "=") :: argument)) with (@None (lit_value * list tree)) in I.
    change (parse_path (TIdent (lit "path") :: TPunct (lit "=") :: argument)) with (Some (mkPath false [lit "path"], TPunct (lit "=") :: argument)) in I. cbv iota zeta in I.
    unfold parse_after in I. change (is_punct "=" (TPunct (lit "="))) with true in I. cbv iota in I. destruct (parse_lit argument) as [[v r]|] eqn:P; [|discriminate].
    assert (H : v = VStr file /\ (r = [] \/ exists ts l, r = punct "," :: ts /\ items_text ts l)).
    { destruct r as [|t r].
      - destruct l1 as [|x l1]; injection I; [|intros E _; destruct l1; discriminate E]. intros _ ->. auto.
      - destruct (is_punct "," t) eqn:C; [|discriminate]. apply is_punct_iff in C. subst t. destruct (parse_items _ r) as [l|] eqn:PI; [|discriminate]. apply items_parsed in PI.
        destruct l1 as [|x l1]; injection I; [intros _ ->; eauto 6|]. intros _ <-. elim (N _ (or_introl eq_refl)). reflexivity. }
    destruct H as [-> R]. apply lit_parsed in P as (x & -> & LT). inversion LT; subst. exists r. auto.
  - intros (rest & -> & R). exists [], (TIdent (lit "path") :: TPunct (lit "=") :: TLiteral (LitStr file) :: rest), [].
    assert (NT : nested_text [TIdent (lit "path"); TPunct (lit "="); TLiteral (LitStr file)] (NMeta (MNameValue (mkPath false [lit "path"]) (VStr file)))).
    { apply (@ns_meta [TIdent (lit "path")] (mkPath false [lit "path"]) [TPunct (lit "="); TLiteral (LitStr file)]).
      - constructor. constructor.
      - apply (@af_value _ [TLiteral (LitStr file)]). constructor.
      - intros s ts' E [->| ->]; discriminate E. }
    destruct R as [->|(ts & l & -> & I)].
    + exists [], []. split; [reflexivity|]. split; [intros ? ? []|]. split; [|intros ? []]. now apply is_last.
    + exists [], l. split; [reflexivity|]. split; [intros ? ? []|]. split; [|intros ? []]. now apply (@is_more [TIdent (lit "path"); TPunct (lit "="); TLiteral (LitStr file)]).
Qed.
(** From the file to the running code *)
Lemma used_runs p dir fs order rel full s j c d : found_at dir rel full -> fs full = Some (Some (utf8 s)) -> wf_str s = true -> json_text s j -> load p j = Ok c ->
  derive_contract p c (fst (order c)) (snd (order c)) = Ok d ->
  exists items, ethabi_derive p (Some dir) fs order (use_contract [TLiteral (LitStr rel)]) = Ok (wr_items items) /\ contract_code p d items.
Proof.
  intros F FS W T L D. destruct (contract_generated p c _ _ D) as (items & _ & E & C). exists items. split; [|exact C]. apply derive_exact. exists rel, dir, full, s, j, c.
  split; [apply used_exact; eauto|]. auto 10.
Qed.
Lemma derive_eval p dir fs order attrs rel full s j c : names_file attrs rel -> found_at dir rel full -> fs full = Some (Some (utf8 s)) -> wf_str s = true -> json_text s j -> load p j = Ok c ->
  ethabi_derive p (Some dir) fs order attrs = match contract_text c (fst (order c)) (snd (order c)) with Ok text => Ok text | _ => Panic end.
Proof.
  intros NF F FS W T L. apply named_exact in NF. apply bind_ok in NF as (l & O & P). unfold ethabi_derive, impl_ethabi_derive. rewrite O. cbn [bind]. rewrite P. cbn [bind normalize_path].
  apply found_exact in F. rewrite F, FS. assert (LB : load_bytes p (utf8 s) = Ok c) by (apply load_bytes_exact; eauto 6). rewrite LB. cbn [bind]. destruct (contract_text c (fst (order c)) (snd (order c))); reflexivity.
Qed.
Lemma derive_decided p dir fs order attrs rel full s j c text : names_file attrs rel -> found_at dir rel full -> fs full = Some (Some (utf8 s)) -> wf_str s = true -> json_text s j -> load p j = Ok c ->
  ethabi_derive p (Some dir) fs order attrs = Ok text ->
  exists items, text = wr_items items /\ ((exists d, derive_contract p c (fst (order c)) (snd (order c)) = Ok d) <-> ~ refused_code p items).
Proof.
  intros NF F FS W T L E. rewrite (@derive_eval p dir fs order attrs rel full s j c NF F FS W T L) in E. destruct (contract_text c (fst (order c)) (snd (order c))) as [t| |] eqn:C; try discriminate. injection E as ->.
  exact (@text_decided p c _ _ _ C).
Qed.

(** * Every name is bound *)
From Verif Require Import Base BaseFacts StrFacts Function Event Contract Derive RustSyntax DeriveTree RustCheck CheckProgram SoundFacts SoundEval MoveSpec MoveFacts ScopeSpec.
From Coq Require Import String Lia.
Set Implicit Arguments.
Notation length := List.length.
Notation obind := RustCheck.obind.
Notation tenv := (list (str * bool * rt * bool)).
Local Open Scope list_scope.

Section Bound.
Context (c : ctx) (gs : list generic) (ret : rt).
Notation inf := (infer c gs ret).
Definition known_name (s : tenv) (x : str) : Prop := In x (map name_of s) \/ x = lit "None" \/ (x = lit "INTERNAL_ERR" /\ cx_err c = true).
Definition all_known (s : tenv) (l : list (str * bool)) : Prop := forall x b, In (x, b) l -> known_name s x.
Lemma shape_names s s' : shape s = shape s' -> map name_of s = map name_of s'.
Proof. intros E. unfold shape in E. apply (f_equal (map (fun y : str * bool * rt => fst (fst y)))) in E. rewrite !map_map in E. exact E. Qed.
Lemma known_shape s s' l : shape s = shape s' -> all_known s' l -> all_known s l.
Proof. intros E H x b I. destruct (H x b I) as [K|K]; [left|right; exact K]. now rewrite (shape_names _ _ E). Qed.
Lemma known_app s l l' : all_known s l -> all_known s l' -> all_known s (l ++ l').
Proof. intros H H' x b I. apply in_app_iff in I as [I|I]; [exact (H _ _ I)|exact (H' _ _ I)]. Qed.
Definition knows (e : expr) : Prop := forall own s t s1, inf e own s = Some (t, s1) -> all_known s (uses e own).
Lemma known_seq A B (f : A -> tenv -> option (B * tenv)) (g : A -> list (str * bool)) l :
  Forall (fun a => forall s b s1, f a s = Some (b, s1) -> shape s1 = shape s /\ all_known s (g a)) l -> forall s r s1, seqO f l s = Some (r, s1) -> all_known s (List.concat (map g l)).
Proof.
  induction 1 as [|a l H _ IH]; intros s r s1 E; cbn [seqO] in E; [intros x b []|]. fold (seqO f) in E. apply obind_some in E as ([b s2] & E1 & E). apply obind_some in E as ([bs s3] & E2 & E). cbn [map List.concat].
  destruct (H _ _ _ E1) as [Sh K]. apply known_app; [exact K|]. apply known_shape with s2; [now symmetry|]. exact (IH _ _ _ E2).
Qed.
Lemma without_in x l y b : In (y, b) (without x l) -> In (y, b) l /\ y <> x.
Proof. unfold without. rewrite filter_In. cbn [fst]. intros [I N]. split; [exact I|]. intros ->. now rewrite str_eqb_refl in N. Qed.
Lemma known_without x m t h s l : all_known ((x, m, t, h) :: s) l -> all_known s (without x l).
Proof.
  intros H y b I. apply without_in in I as [I N]. destruct (H y b I) as [K|K]; [|right; exact K]. cbn [map In] in K. unfold name_of at 1 in K. cbn [fst] in K. destruct K as [K|K]; [now destruct N|left; exact K].
Qed.
Lemma block_knows l e : Forall (fun x => knows (snd x)) l -> knows e -> forall s t s1, block c gs ret e l s = Some (t, s1) -> all_known s (uses_block e l).
Proof.
  intros F K. induction F as [|[b x] l H _ IH]; intros s t s1 E; cbn [block uses_block] in *; [exact (K _ _ _ _ E)|].
  apply obind_some in E as ([t1 s2] & E1 & E). cbn [fst snd] in *. apply known_app; [exact (H _ _ _ _ E1)|]. apply known_shape with s2; [symmetry; exact (@infer_keeps c gs ret _ _ _ _ _ E1)|].
  specialize (IH _ _ _ E). destruct b as [z|z|]; cbn [tbind unbound] in *; [eapply known_without; exact IH..|exact IH].
Qed.
Lemma lookup_in s x d : tlookup s x = Some d -> In x (map name_of s).
Proof.
  induction s as [|[[[y m] t] h] s IH]; [discriminate|]. cbn [tlookup map In]. unfold name_of at 1. cbn [fst]. destruct (str_eqb x y) eqn:X; [apply str_eqb_eq in X; subst y; now left|]. intros E. right. exact (IH E).
Qed.
Lemma constant_one x t : at_name [x] constants = Some t -> x = lit "None".
Proof.
  unfold at_name. destruct (find _ _) as [[q u]|] eqn:E; [|discriminate]. intros _. apply find_some in E as [I P]. cbn [fst] in P. apply is_path_eq in P.
  cbn [In constants] in I. repeat (destruct I as [I|I]; [injection I as <- _; cbn [map] in P; first [discriminate P|injection P as ->; reflexivity]|]). destruct I.
Qed.
Lemma infer_knows e : knows e.
Proof.
  induction e as [e H] using expr_all. intros own s t s1 E.
  assert (SL : forall l, Forall knows l -> forall s r s1, seqO (fun e s => inf e true s) l s = Some (r, s1) -> all_known s (List.concat (map (fun a => uses a true) l))).
  { intros l F. apply known_seq. eapply Forall_impl; [|exact F]. intros a K s2 b s3 Q. split; [exact (@infer_keeps c gs ret _ _ _ _ _ Q)|exact (K _ _ _ _ Q)]. }
  assert (SR : forall l, Forall (fun x : str * expr => knows (snd x)) l -> forall s r s1, seqO (fun (x : str * expr) s => let? (t, s1) := inf (snd x) true s in Some ((fst x, t), s1)) l s = Some (r, s1) -> all_known s (List.concat (map (fun x => uses (snd x) true) l))).
  { intros l F. apply known_seq. eapply Forall_impl; [|exact F]. intros a K s2 b s3 Q. apply obind_some in Q as ([t' s'] & Q & Q'). injection Q' as _ <-. split; [exact (@infer_keeps c gs ret _ _ _ _ _ Q)|exact (K _ _ _ _ Q)]. }
  destruct e; cbn [parts] in H; cbn [infer uses] in *; try (intros ? ? []; fail).
  - destruct p as [|x [|y p]]; try (intros ? ? []; fail). intros z b [I|[]]. injection I as <- <-.
    destruct (tlookup s x) as [d|] eqn:Lk; [left; now apply lookup_in with d|]. right.
    destruct (is_path [x] _) eqn:P; [right; apply is_path_eq in P; injection P as ->; split; [reflexivity|]; now destruct (cx_err c)|]. left. apply obind_some in E as (u & E & _). now apply constant_one in E.
  - assert (E' : exists a, seqO (fun e s => inf e true s) args s = Some a).
    { destruct p as [|x [|y p]]; [|destruct (tlookup s x); [discriminate|]|]; apply obind_some in E as (a & E & _); now exists a. }
    destruct E' as ([ts s2] & E1). exact (SL _ H _ _ _ E1).
  - destruct H as [H1 H2]. apply obind_some in E as ([t1 s2] & E1 & E). pose proof (H1 _ _ _ _ E1) as S1. apply known_app; [exact S1|]. destruct (str_eqb m (lit "map")).
    + destruct t1; try discriminate E. destruct turbofish; [|discriminate E]. destruct args as [|a [|]]; try discriminate E; try (destruct a; discriminate E). destruct a; try discriminate E. destruct (is_path p _) eqn:P; [|discriminate E]. apply is_path_eq in P. subst p. intros ? ? [].
    + apply obind_some in E as ([ts s3] & E2 & E). apply known_shape with s2; [symmetry; exact (@infer_keeps c gs ret _ _ _ _ _ E1)|exact (SL _ H2 _ _ _ E2)].
  - destruct H as [H1 H2]. apply obind_some in E as ([t1 s2] & E1 & E). pose proof (H1 _ _ _ _ E1) as S1. apply known_app; [exact S1|]. apply known_shape with s2; [symmetry; exact (@infer_keeps c gs ret _ _ _ _ _ E1)|].
    destruct t1; try discriminate E; apply obind_some in E as ([? ?] & E2 & E); (apply known_shape with (lost s2); [symmetry; apply shape_lost|]); eapply known_without; exact (H2 _ _ _ _ E2).
  - apply obind_some in E as ([t1 s2] & E1 & E). exact (H _ _ _ _ E1).
  - apply obind_some in E as ([t1 s2] & E1 & E). exact (H _ _ _ _ E1).
  - apply obind_some in E as ([t1 s2] & E1 & E). exact (H _ _ _ _ E1).
  - apply obind_some in E as ([t1 s2] & E1 & E). exact (H _ _ _ _ E1).
  - apply obind_some in E as ([t1 s2] & E1 & E). exact (H _ _ _ _ E1).
  - destruct l as [|x [|y l]]; [intros ? ? []|discriminate|]. apply obind_some in E as ([ts s2] & E1 & E). exact (SL _ H _ _ _ E1).
  - apply obind_some in E as ([ts s2] & E1 & E). exact (SL _ H _ _ _ E1).
  - apply obind_some in E as ([t1 s2] & E1 & E). exact (H _ _ _ _ E1).
  - apply obind_some in E as ([ts s2] & E1 & E). exact (SL _ H _ _ _ E1).
  - destruct H as [H1 H2]. apply obind_some in E as ([t1 s2] & E1 & E). exact (@block_knows _ _ H1 H2 _ _ _ E1).
  - apply obind_some in E as ([ts s2] & E1 & E). exact (SR _ H _ _ _ E1).
  - apply obind_some in E as ([ts s2] & E1 & E). exact (SR _ H _ _ _ E1).
  - apply obind_some in E as ([ts s2] & E1 & E). exact (SR _ H _ _ _ E1).
Qed.
End Bound.

(** ** Functions *)
Lemma param_names c vs out l s : mapO (fun x : str * RustSyntax.ty => let? t := rt_of c vs out (snd x) in Some (fst x, false, t, true)) l = Some s -> map name_of s = map fst l.
Proof.
  revert s. induction l as [|x l IH]; intros s E; cbn [mapO] in E; [injection E as <-; reflexivity|]. apply obind_some in E as (d & E1 & E). apply obind_some in E as (ds & E2 & E). injection E as <-.
  apply obind_some in E1 as (t & _ & E1). injection E1 as <-. cbn [map]. rewrite (IH _ E2). reflexivity.
Qed.
Lemma fn_knows c self f : fn_ok c self f = true -> forall x b, In (x, b) (uses (EBlock (fn_body f) (fn_result f)) true) ->
  In x (map fst (fn_params f)) \/ (x = lit "self" /\ fn_self f = true) \/ x = lit "None" \/ (x = lit "INTERNAL_ERR" /\ cx_err c = true).
Proof.
  unfold fn_ok. intros H x b I. apply andb_true_iff in H as [_ H]. destruct (mapO _ (fn_params f)) as [s|] eqn:Em in H; [|discriminate]. destruct (rt_of _ _ _ (fn_ret f)) as [r|]; [|discriminate].
  apply param_names in Em. destruct (match fn_self f with true => _ | false => _ end) as [s0|] eqn:Es; [|discriminate]. destruct (infer _ _ _ _ _ _) as [[t s1]|] eqn:E; [|discriminate].
  pose proof (@infer_knows _ _ _ _ _ _ _ _ E x b I) as [K|K]; [|auto]. rewrite map_app, Em in K. apply in_app_iff in K as [K|K]; [|now left].
  right; left. destruct (fn_self f), self as [[u o]|]; try discriminate Es; injection Es as <-; cbn [map In name_of fst] in K; [|destruct K]. destruct K as [<-|[]]. auto.
Qed.

(** ** Modules *)
Lemma known_up its up : error_known up -> imports_error its -> error_known (its :: up).
Proof. intros (i & m & u & -> & F & D) I. exists (its :: i), m, u. split; [reflexivity|]. split; [now constructor|exact D]. Qed.
(** The check, module by module: [outer] is whether the one around sees it *)
Definition checked_in (mods : list (list item)) : Prop :=
  match mods with
  | [] => False
  | its :: up => exists c, cx_items c = its /\ cx_err c = existsb sees_err its /\
    forall i, In i its -> item_ok c (match up with [] => false | its' :: _ => existsb sees_err its' end) i = true
  end.
Lemma nested_checked items mods : program_ok items = true -> nested items mods -> checked_in mods.
Proof.
  intros P. induction 1 as [|its up doc x its' _ IH I].
  - unfold program_ok in P. apply andb_true_iff in P as [_ F]. rewrite forallb_forall in F. eexists. split; [|split; [|exact F]]; reflexivity.
  - destruct IH as (c & Ci & Ce & H). specialize (H _ I). cbn [item_ok] in H. apply andb_true_iff in H as [_ F].
    exists (mkCtx (cx_here c ++ [x]) its' (cx_root c) (existsb sees_err its')). split; [reflexivity|]. split; [reflexivity|]. rewrite Ce in F.
    set (inner := mkCtx _ _ _ _) in F |- *. clearbody inner. clear -F. induction its' as [|j l IHl]; [intros i []|]. apply andb_true_iff in F as [F1 F2]. intros i [->|Ii]; [exact F1|exact (IHl F2 i Ii)].
Qed.
Lemma sees_known items its up : program_ok items = true -> nested items (its :: up) -> existsb sees_err its = true -> error_known (its :: up).
Proof.
  intros P N. remember (its :: up) as mods eqn:Em. revert its up Em. induction N as [|its1 up1 doc x its' N IH I]; intros its up Em X; injection Em as <- <-; apply existsb_exists in X as (i & Ii & S).
  - assert (G := nested_checked P (nested_root items)). destruct G as (c & _ & _ & G). specialize (G _ Ii). destruct i as [q|y t v|f|d y t|tr y a t f|ds y fs|d y l]; try discriminate S; cbn [sees_err item_ok] in S, G.
    + rewrite S, andb_false_r, orb_false_r in G. apply is_path_eq in S, G. subst q. discriminate G.
    + apply andb_true_iff in S as [S1 S2]. apply str_eqb_eq in S1. subst y. destruct t as [| | | | |t| |]; try discriminate S2. destruct t as [q [|]| | | | | | |]; try discriminate S2. apply is_path_eq in S2. subst q.
      exists [], items, []. split; [reflexivity|]. split; [constructor|]. now exists v.
  - assert (G := nested_checked P (@nested_in items its1 up1 doc x its' N I)). destruct G as (c & _ & _ & G). specialize (G _ Ii). destruct i as [q|y t v|f|d y t|tr y a t f|ds y fs|d y l]; try discriminate S; cbn [sees_err item_ok] in S, G.
    + rewrite S in G. cbn [andb] in G. apply is_path_eq in S. subst q. cbn [is_path] in G. apply known_up; [|exact Ii]. apply (IH _ _ eq_refl). destruct (existsb sees_err its1); [reflexivity|]. discriminate G.
    + apply andb_true_iff in S as [S1 S2]. apply str_eqb_eq in S1. subst y. destruct t as [| | | | |t| |]; try discriminate S2. destruct t as [q [|]| | | | | | |]; try discriminate S2. apply is_path_eq in S2. subst q.
      exists [], its', (its1 :: up1). split; [reflexivity|]. split; [constructor|]. now exists v.
Qed.
Lemma names_known items its up f : program_ok items = true -> nested items (its :: up) -> function_of f its -> forall x b, In (x, b) (uses (EBlock (fn_body f) (fn_result f)) true) ->
  In x (map fst (fn_params f)) \/ (x = lit "self" /\ fn_self f = true) \/ x = lit "None" \/ (x = lit "INTERNAL_ERR" /\ error_known (its :: up)).
Proof.
  intros P N Fo x b I. pose proof (nested_checked P N) as (c & Ci & Ce & G).
  assert (Fk : exists self, fn_ok c self f = true).
  { destruct Fo as [Fo|(tr & y & a & t & Fo)]; specialize (G _ Fo); cbn [item_ok] in G; [now exists None|]. apply andb_true_iff in G as [_ G].
    destruct (newtype_of y _); [|discriminate G]. destruct (rt_of c [] None t); [|discriminate G]. eexists. exact G. }
  destruct Fk as [self Fk]. destruct (@fn_knows _ _ _ Fk x b I) as [K|[K|[K|[K1 K2]]]]; auto. right; right; right. split; [exact K1|]. rewrite Ce in K2. exact (sees_known P N K2).
Qed.
Lemma imports_known items its up : program_ok items = true -> nested items (its :: up) -> imports_error its -> error_known up.
Proof.
  intros P N I. pose proof (nested_checked P N) as (c & Ci & Ce & G). specialize (G _ I). cbn [item_ok] in G.
  destruct up as [|its' up]; [vm_compute in G; discriminate G|]. inversion N as [|? ? ? ? ? N' ?]; subst. apply (sees_known P N'). destruct (existsb sees_err its'); [reflexivity|vm_compute in G; discriminate G].
Qed.
Lemma generated_known p c fs es d items : derive_contract p c fs es = Ok d -> contract_tree c fs es = Ok items ->
  forall its up f, nested items (its :: up) -> function_of f its -> forall x b, In (x, b) (uses (EBlock (fn_body f) (fn_result f)) true) ->
  In x (map fst (fn_params f)) \/ (x = lit "self" /\ fn_self f = true) \/ x = lit "None" \/ (x = lit "INTERNAL_ERR" /\ error_known (its :: up)).
Proof. intros D T its up f. apply names_known. apply (@program_exact p c fs es items T); eauto. Qed.

(** * Checked functions do not get stuck *)
From Verif Require Import Base BaseFacts StrFacts Types Function Event Derive RustSyntax RustEval RustCheck SoundSpec SoundFacts SoundEval.
From Verif Require CheckCalls.
From Coq Require Import String Lia.
Set Implicit Arguments.
Notation length := List.length.
Notation obind := RustCheck.obind.
Local Open Scope N_scope.
Local Open Scope list_scope.

Section Written.
Context (c : ctx) (vs : list str) (self : option rt).
Fixpoint written_type (t : ty) : forall u, rt_of c vs self t = Some u -> is_type t = true.
Proof.
  destruct t; cbn [rt_of is_type]; intros u E.
  - destruct args as [|a [|]]; [reflexivity| |discriminate]. apply obind_some in E as (f & _ & E). apply obind_some in E as (s & E & _). cbn [forallb]. rewrite (written_type _ _ E). reflexivity.
  - apply obind_some in E as (s & E & _). exact (written_type _ _ E).
  - discriminate E.
  - apply obind_some in E as (s & E & _). exact (written_type _ _ E).
  - apply obind_some in E as (s & E & _). exact (written_type _ _ E).
  - apply obind_some in E as (s & E & _). exact (written_type _ _ E).
  - assert (Z : forall ss, mapO (rt_of c vs self) l = Some ss -> forallb is_type l = true).
    { clear E. induction l as [|a l IH]; intros ss E; [reflexivity|]. cbn [mapO] in E. apply obind_some in E as (y & E1 & E). apply obind_some in E as (r & E2 & E). cbn [forallb]. rewrite (written_type _ _ E1). exact (IH _ E2). }
    destruct l as [|a [|b l]]; [reflexivity|discriminate|]. apply obind_some in E as (ss & E & _). exact (Z _ E).
  - discriminate E.
Qed.
End Written.

(** ** One function *)
Lemma typed_params c vs out l s : mapO (fun x : str * ty => let? t := rt_of c vs out (snd x) in Some (fst x, false, t, true)) l = Some s ->
  map fst (map fst (map fst s)) = map fst l /\ mapO (fun x : str * ty => rt_of c vs out (snd x)) l = Some (map snd (map fst s)) /\ Forall (fun d => snd (fst (fst d)) = false) s.
Proof.
  revert s. induction l as [|x l IH]; intros s E; cbn [mapO] in E; [injection E as <-; repeat split; constructor|]. apply obind_some in E as (d & E1 & E). apply obind_some in E as (r & E2 & E). injection E as <-. apply obind_some in E1 as (t & E1 & E). injection E as <-. specialize (IH _ E2) as (N & T & M). cbn [map fst snd mapO]. fold (mapO (fun x : str * ty => rt_of c vs out (snd x))). rewrite E1, T, N. repeat split. now constructor.
Qed.
Lemma params_env c D (s : list (str * bool * rt * bool)) args : Forall (fun d => snd (fst (fst d)) = false) s -> Forall2 (of_rt c D) (map snd (map fst s)) args ->
  env_ok c D (shape s) (map (fun x => (fst x, false, snd x)) (combine (map fst (map fst (map fst s))) args)).
Proof.
  intros M. revert args. induction M as [|[[[x m] t] h] s Hm _ IH]; intros args F; inversion F; subst; [constructor|]. cbn [fst snd] in *. subst m. cbn [map combine fst snd]. constructor; [split; [reflexivity|assumption]|]. now apply IH.
Qed.
Lemma mapO_types c vs out l ts : mapO (fun x : str * ty => rt_of c vs out (snd x)) l = Some ts -> forallb (fun x : str * ty => is_type (snd x)) l = true.
Proof. revert ts. induction l as [|x l IH]; intros ts E; [reflexivity|]. cbn [mapO] in E. apply obind_some in E as (d & E1 & E). apply obind_some in E as (r & E2 & _). cbn [forallb]. now rewrite (written_type _ _ _ _ E1), (IH _ E2). Qed.
Lemma run_sound p c self f D call ts r args :
  fn_ok c self f = true -> meets_bounds c (generics_of f) D ->
  (forall x y u, newtype_of x (cx_items c) = Some y -> rt_of c [] None y = Some u -> known false u = true) ->
  (forall q ts t vs, call_type c q ts = Some t -> Forall2 (of_rt c D) ts vs -> builtin q vs = None -> gives c D t (call q vs)) ->
  mapO (fun x : str * ty => rt_of c (map generic_var (generics_of f)) (option_map snd self) (snd x)) (fn_params f) = Some ts ->
  rt_of c (map generic_var (generics_of f)) (option_map snd self) (fn_ret f) = Some r ->
  Forall2 (of_rt c D) (match self with Some (t, _) => [SRef t] | None => [] end ++ ts) args ->
  gives c D r (run_fn p call f args).
Proof.
  unfold fn_ok. intros OK Me Nw Cl Et Er A. repeat (apply andb_true_iff in OK as [OK ?H]).
  rewrite Er in H. destruct (mapO _ (fn_params f)) as [s|] eqn:Es in H; [|discriminate].
  destruct (typed_params _ _ _ _ Es) as (Nm & Ts & Mu). rewrite Ts in Et. injection Et as <-.
  assert (S0 : exists s0, match fn_self f, self with true, Some (t, _) => Some [(lit "self", false, SRef t, true)] | false, None => Some [] | _, _ => None end = Some s0 /\ map fst (map fst (map fst s0)) = (if fn_self f then [lit "self"] else []) /\ map snd (map fst s0) = match self with Some (t, _) => [SRef t] | None => [] end /\ Forall (fun d => snd (fst (fst d)) = false) s0).
  { destruct (fn_self f), self as [[t u]|]; try discriminate H; eexists; (split; [reflexivity|]); repeat split; repeat constructor. }
  destruct S0 as (s0 & E0 & N0 & T0 & M0). rewrite E0 in H. destruct (infer _ _ _ _ _ _) as [[t s1]|] eqn:I in H; [|discriminate].
  unfold run_fn. set (names := (if fn_self f then [lit "self"] else []) ++ map fst (fn_params f)).
  assert (Nn : names = map fst (map fst (map fst (s0 ++ s)))) by (unfold names; rewrite !map_app; congruence).
  assert (Aa : Forall2 (of_rt c D) (map snd (map fst (s0 ++ s))) args) by (rewrite !map_app, T0; exact A).
  assert (Fc : fn_correct f = true).
  { unfold fn_correct. unfold names_ok in *. apply andb_true_iff in H1 as [H1 H1']. rewrite H1, H1'. cbn [andb]. rewrite (mapO_types _ _ _ _ Ts), (written_type _ _ _ _ Er). rewrite andb_true_r, andb_true_r. apply forallb_forall. intros g Ig. fold (generics_of f) in Ig. rewrite forallb_forall in H2. specialize (H2 _ Ig). destruct g as [x y|]; [|reflexivity]. cbn [generic_ok generic_types] in *. destruct (rt_of _ _ _ y) eqn:Ey; [|discriminate]. exact (written_type _ _ _ _ Ey). }
  assert (Ln : (length names =? length args)%nat = true).
  { apply Nat.eqb_eq. rewrite Nn, <- (Forall2_length Aa), !map_length. reflexivity. }
  rewrite Fc, Ln. cbn [andb].
  pose proof (@infer_sound p c (generics_of f) r D call Me Nw Cl (EBlock (fn_body f) (fn_result f)) true (s0 ++ s) t s1 (map (fun x => (fst x, false, snd x)) (combine names args)) I) as G.
  rewrite Nn in G |- *. specialize (G (params_env (proj2 (@Forall_app _ _ _ _) (conj M0 Mu)) Aa)). destruct (eval _ _ _ _) as [[v s2]|v| |]; cbn [gives good goes fst] in *.
  - exact (@fits_sound _ _ _ _ _ H (proj1 G)).
  - destruct G as (e & a & -> & ->). left. eauto.
  - exact Logic.I.
  - exact G.
Qed.

(** ** Names of a module *)
Lemma pick A B C (g : A -> list B) (h : A -> list C) l b : List.concat (map g l) = [b] -> (forall j, In j l -> g j = [] -> h j = []) ->
  exists i, In i l /\ g i = [b] /\ List.concat (map h l) = h i.
Proof.
  induction l as [|a l IH]; cbn [map List.concat]; intros E H; [discriminate|]. destruct (g a) as [|x r] eqn:G.
  - rewrite (H a (or_introl eq_refl) G). cbn [app] in *. destruct IH as (i & I & Gi & Hi); [exact E|intros j Ij; apply H; now right|]. exists i. split; [now right|auto].
  - cbn [app] in E. injection E as -> E. apply app_eq_nil in E as [-> E]. exists a. split; [now left|]. split; [exact G|].
    assert (Z : List.concat (map h l) = []); [|now rewrite Z, app_nil_r]. assert (H' : forall j, In j l -> g j = [] -> h j = []) by (intros j Ij; apply H; now right). clear -E H'. induction l as [|a l IH]; [reflexivity|]. cbn [map List.concat] in *. apply app_eq_nil in E as [E1 E2]. rewrite (H' a (or_introl eq_refl) E1). apply IH; [exact E2|intros j Ij; apply H'; now right].
Qed.
Definition called_here (x : str) (i : item) : list (fn + str) :=
  match i with
  | IFn f => if str_eqb x (fn_name f) then [inl f] else []
  | INewtype _ y _ => if str_eqb x y then [inr y] else []
  | _ => []
  end.
Lemma str_dec (x y : str) : {x = y} + {x <> y}.
Proof. destruct (str_eqb x y) eqn:E; [left; now apply str_eqb_eq|right; intros ->; now rewrite str_eqb_refl in E]. Qed.
Lemma here_count x l : (length (List.concat (map (called_here x) l)) <= count_occ str_dec (List.concat (map value_names l)) x)%nat.
Proof.
  induction l as [|i l IH]; [reflexivity|]. cbn [map List.concat]. rewrite app_length, count_occ_app. enough (length (called_here x i) <= count_occ str_dec (value_names i) x)%nat by lia.
  destruct i; cbn [called_here value_names length]; try lia.
  - destruct (str_eqb x (fn_name f)) eqn:E; cbn [length]; [|lia]. apply str_eqb_eq in E. subst x. cbn. destruct (str_dec _ _); [lia|congruence].
  - destruct (str_eqb x x0) eqn:E; cbn [length]; [|lia]. apply str_eqb_eq in E. subst x. cbn. destruct (str_dec _ _); [lia|congruence].
Qed.
Lemma here_only x l r : distinct (List.concat (map value_names l)) = true -> In r (List.concat (map (called_here x) l)) -> List.concat (map (called_here x) l) = [r].
Proof.
  intros N I. apply CheckCalls.distinct_iff in N. apply (NoDup_count_occ str_dec) with (x := x) in N. pose proof (here_count x l) as Le. destruct (List.concat (map (called_here x) l)) as [|a [|b m]]; cbn [length] in Le; [destruct I| |lia]. destruct I as [->|[]]. reflexivity.
Qed.
Lemma single_in A B (g : A -> list B) l b : List.concat (map g l) = [b] -> exists i, In i l /\ g i = [b].
Proof. intros E. destruct (@pick _ _ _ g g l b E (fun _ _ H => H)) as (i & I & G & _). eauto. Qed.
Lemma fn_of_in x l f : fn_of x l = Some f -> In (IFn f) l /\ x = fn_name f.
Proof.
  unfold fn_of. intros E. assert (E' : List.concat (map (fun i => match i with IFn f => if str_eqb x (fn_name f) then [f] else [] | _ => [] end) l) = [f]) by (destruct (List.concat _) as [|a [|]]; try discriminate; congruence). apply single_in in E' as (i & I & G). destruct i; try discriminate. destruct (str_eqb x (fn_name f0)) eqn:X; [|discriminate]. apply str_eqb_eq in X. injection G as ->. auto.
Qed.
Lemma newtype_of_in x l t : newtype_of x l = Some t -> exists doc, In (INewtype doc x t) l.
Proof.
  unfold newtype_of. intros E. assert (E' : List.concat (map (fun i => match i with INewtype _ y t => if str_eqb x y then [t] else [] | _ => [] end) l) = [t]) by (destruct (List.concat _) as [|a [|]]; try discriminate; congruence). apply single_in in E' as (i & I & G). destruct i; try discriminate. destruct (str_eqb x x0) eqn:X; [|discriminate]. apply str_eqb_eq in X. injection G as ->. subst. eauto.
Qed.
Lemma functions_builtin q a vs : at_name q functions = Some a -> builtin q vs <> None.
Proof.
  intros E. apply at_name_in in E as (n & I & ->). cbn [In functions] in I. repeat (destruct I as [I|I]; [injection I as <- <-; discriminate|]). destruct I.
Qed.

(** ** Calls *)
Definition module_ok (c : ctx) : Prop := distinct (List.concat (map value_names (cx_items c))) = true /\ forall i, In i (cx_items c) -> exists outer, item_ok c outer i = true.
Lemma newtypes_ok c : module_ok c -> forall x y u, newtype_of x (cx_items c) = Some y -> rt_of c [] None y = Some u -> known false u = true.
Proof.
  intros [_ OK] x y u N R. apply newtype_of_in in N as (doc & I). destruct (OK _ I) as (o & H). cbn [item_ok] in H. apply andb_true_iff in H as [_ H]. rewrite R in H. exact H.
Qed.
Lemma to_known c D D' b u v : known b u = true -> of_rt c D u v -> of_rt c D' u v.
Proof. intros K. apply (@known_same b (locals c) (locals c) D D'); [reflexivity|exact K]. Qed.
Section Module.
Context (p : profile) (c : ctx) (OK : module_ok c).
Notation run n := (called p n (cx_items c)).
(** What the type parameters of a callee stand for *)
Definition instance (D : str -> val -> Prop) (callee : list generic) (z : str) (v : val) : Prop :=
  exists z' y u, bound_of callee z = Some (GInto z' y) /\ rt_of c (map generic_var callee) None y = Some u /\ known true u = true /\ of_rt c D u v.
Lemma instance_meets D callee : meets_bounds c callee (instance D callee).
Proof.
  intros x g B v (z' & y & u & B' & R & K & V). rewrite B in B'. injection B' as ->. intros u' R'. rewrite R in R'. injection R' as <-. exact (@to_known _ _ _ _ _ _ K V).
Qed.
Lemma arguments D callee ts params vs : length params = length ts ->
  forallb (fun x : rt * (str * ty) => argument_fits c callee (fst x) (snd (snd x))) (combine ts params) = true -> Forall2 (of_rt c D) ts vs ->
  exists us, mapO (fun x : str * ty => rt_of c (map generic_var callee) None (snd x)) params = Some us /\ Forall2 (of_rt c (instance D callee)) us vs.
Proof.
  revert ts vs. induction params as [|[x y] params IH]; intros [|t ts] vs L F V; try discriminate; inversion V as [|? v ? vs' Vv V']; subst; [exists []; split; [reflexivity|constructor]|]. cbn [combine forallb fst snd] in F. apply andb_true_iff in F as [F1 F2]. injection L as L. destruct (IH _ _ L F2 V') as (us & E & W). cbn [mapO snd]. fold (mapO (fun x : str * ty => rt_of c (map generic_var callee) None (snd x))). rewrite E. unfold argument_fits in F1. destruct (rt_of c (map generic_var callee) None y) as [u|] eqn:R; [|discriminate]. exists (u :: us). split; [reflexivity|]. constructor; [|exact W].
  assert (Z : known true u && fits t u = true -> of_rt c (instance D callee) u v).
  { intros Q. apply andb_true_iff in Q as [K Q]. apply (@to_known _ D _ true); [exact K|]. exact (@fits_sound _ _ _ _ _ Q Vv). }
  destruct u; try exact (Z F1). clear Z. destruct (bound_of callee x0) as [[z y'|]|] eqn:B; try discriminate. destruct (rt_of c (map generic_var callee) None y') as [u|] eqn:R'; [|discriminate]. apply andb_true_iff in F1 as [K Q]. exists z, y', u. split; [exact B|]. split; [exact R'|]. split; [exact K|]. exact (@fits_sound _ _ _ _ _ Q Vv).
Qed.
Lemma calls_sound n : forall D q ts t vs, call_type c q ts = Some t -> Forall2 (of_rt c D) ts vs -> builtin q vs = None -> gives c D t (run n q vs).
Proof.
  induction n as [|n IH]; intros D q ts t vs C V B; [exact I|]. unfold call_type in C.
  destruct (is_path q ["Ok"]%string) eqn:P1; [apply is_path_eq in P1; subst q; discriminate B|].
  destruct (is_path q ["Box"; "new"]%string) eqn:P2; [apply is_path_eq in P2; subst q; discriminate B|].
  destruct (is_path q ["ethabi"; "FunctionOutputDecoder"; "decode"]%string) eqn:P3.
  { apply is_path_eq in P3. subst q. assert (X : exists h qq t', ts = [SRef (SLocal (h :: qq)); t'] /\ path_eqb (removelast (h :: qq)) (cx_here c) && fits t' (SRef (SSlice SU8)) = true /\ exists u, output_of c (last (h :: qq) []) = Some u /\ t = SResult u).
    { destruct ts as [|t1 [|t2 [|]]]; try discriminate C; destruct t1; try discriminate C; destruct t1; try discriminate C; destruct p0 as [|h qq]; try discriminate C. destruct (_ && _) eqn:Q; [|discriminate]. apply obind_some in C as (u & Eu & C). injection C as <-. exists h, qq, t2. eauto 6. }
    destruct X as (h & qq & t' & -> & Q & u & Eu & ->). apply andb_true_iff in Q as [Q1 Q2]. apply path_eq in Q1. apply args2 in V as (v & w & -> & Lv & Lw). cbn in Lv.
    destruct Lv as [(x & w0 & y & uy & Eq & -> & Nx & Ry & W0)|(x & p0 & l & Eq & Nh & _)]; [|rewrite Eq in Q1; cbn [removelast] in Q1; congruence].
    rewrite Eq, last_last in Eu. unfold output_of in Eu.
    assert (Eu' : exists t0, List.concat (map (fun i => match i with IImpl trait y0 _ t0 _ => if str_eqb x y0 && is_decoder trait then [t0] else [] | _ => [] end) (cx_items c)) = [t0] /\ rt_of c [] None t0 = Some u).
    { destruct (List.concat _) as [|t0 [|]]; try discriminate. eauto. }
    clear Eu. destruct Eu' as (t0 & Et & Ru). cbn [called].
    pose (method_of := fun i => match i with IImpl trait y _ _ f => if str_eqb x y && forallb (fun z => str_eqb (fst z) (snd z)) (combine (map lit ["ethabi"; "FunctionOutputDecoder"; "decode"]%string) (trait ++ [fn_name f])) &&
        (length (map lit ["ethabi"; "FunctionOutputDecoder"; "decode"]%string) =? length (trait ++ [fn_name f]))%nat then [inl f : fn + str] else [] | _ => [] end).
    change (resolve (cx_items c) (map lit ["ethabi"; "FunctionOutputDecoder"; "decode"]%string) [VNewtype x w0; w]) with (match List.concat (map method_of (cx_items c)) with [r] => Some r | _ => None end).
    assert (Dc : forall trait y assoc t1 f, In (IImpl trait y assoc t1 f) (cx_items c) -> trait = map lit ["ethabi"; "FunctionOutputDecoder"]%string /\ fn_name f = lit "decode").
    { intros trait y0 assoc t1 f Ii. destruct (proj2 OK _ Ii) as (o & H). cbn [item_ok] in H. repeat (apply andb_true_iff in H as [H ?H]). apply is_path_eq in H. unfold decode_signature in *. repeat (apply andb_true_iff in H2 as [H2 ?H]). apply str_eqb_eq in H2. auto. }
    destruct (pick _ method_of _ Et) as (i & Ii & Gi & Hi).
    { intros j Ij G. destruct j; try reflexivity. cbn [method_of]. destruct (Dc _ _ _ _ _ Ij) as [-> Ef]. destruct (str_eqb x x0) eqn:Ex; [|reflexivity]. exfalso. discriminate G. }
    rewrite Hi. destruct i; try discriminate Gi. destruct (Dc _ _ _ _ _ Ii) as [-> Ef]. destruct (str_eqb x x0) eqn:Ex; [|discriminate Gi]. apply str_eqb_eq in Ex. subst x0. injection Gi as ->.
    assert (Mf : method_of (IImpl (map lit ["ethabi"; "FunctionOutputDecoder"]%string) x assoc t0 f) = [inl f]).
    { cbn [method_of]. rewrite str_eqb_refl, Ef. vm_compute. reflexivity. }
    rewrite Mf. destruct (proj2 OK _ Ii) as (o & H). cbn [item_ok] in H. rewrite Nx, Ru in H. apply andb_true_iff in H as [H Hf]. apply andb_true_iff in H as [H Hu]. apply andb_true_iff in H as [_ Hs]. unfold decode_signature in Hs. repeat (apply andb_true_iff in Hs as [Hs ?H]).
    destruct (fn_generics f) eqn:Gf; [discriminate|]. assert (Gs : generics_of f = []) by (unfold generics_of; now rewrite Gf).
    destruct (fn_params f) as [|[z ty1] [|]] eqn:Pf; try discriminate; try (destruct ty1; try discriminate; destruct ty1; try discriminate; destruct ty1; try discriminate; destruct args; discriminate).
    assert (X : exists pu pr po, ty1 = TyRef (TySlice (TyName pu [])) /\ fn_ret f = TyName pr [TyName po []] /\ is_path pu ["u8"]%string && is_path pr ["ethabi"; "Result"]%string && is_path po ["Self"; "Output"]%string = true).
    { clear -H. destruct ty1; try discriminate. destruct ty1; try discriminate. destruct ty1; try discriminate. destruct args; try discriminate. destruct (fn_ret f); try discriminate. destruct args as [|a [|]]; try discriminate; destruct a; try discriminate; destruct args; try discriminate. eauto 6. }
    destruct X as (pu & pr & po & -> & Rf & X). apply andb_true_iff in X as [X X3]. apply andb_true_iff in X as [X1 X2]. apply is_path_eq in X1, X2, X3. subst pu pr po.
    apply (@run_sound p c (Some (SLocal (cx_here c ++ [x]), u)) f D (run n) [SRef (SSlice SU8)] (SResult u)).
    - exact Hf.
    - rewrite Gs. intros xx g Bx. discriminate Bx.
    - apply newtypes_ok. exact OK.
    - apply IH.
    - rewrite Gs, Pf. cbn [map option_map snd mapO rt_of plain_name existsb]. cbn [map lit]. apply negb_true_iff in Hu. change (lit "u8") with (lit "u8") in Hu. cbn in Hu |- *. rewrite Hu. reflexivity.
    - rewrite Gs, Rf. reflexivity.
    - cbn [app]. constructor; [|constructor; [exact (@fits_sound _ _ _ _ _ Q2 Lw)|constructor]]. left. exists x, w0, y, uy. auto. }
  destruct (at_name q functions) as [a|] eqn:A; [exact (False_ind _ (@functions_builtin _ _ vs A B))|].
  destruct q as [|x [|]]; try discriminate C. cbn [called].
  change (resolve (cx_items c) [x] vs) with (match List.concat (map (called_here x) (cx_items c)) with [r] => Some r | _ => None end).
  destruct (fn_of x (cx_items c)) as [f|] eqn:F.
  - destruct (newtype_of x (cx_items c)); [discriminate|]. apply fn_of_in in F as [Fi Fx]. rewrite (@here_only x (cx_items c) (inl f) (proj1 OK)).
    2: { apply in_concat. exists [inl f]. split; [|now left]. apply in_map_iff. exists (IFn f). split; [|exact Fi]. cbn [called_here]. now rewrite Fx, str_eqb_refl. }
    unfold fn_type in C. destruct (_ && _) eqn:Q in C; [|discriminate]. apply andb_true_iff in Q as [Q Q3]. apply andb_true_iff in Q as [Q1 Q2]. apply Nat.eqb_eq in Q2. apply obind_some in C as (r & Er & C). destruct (known true r) eqn:K; [|discriminate]. injection C as <-.
    destruct (@arguments D _ _ _ _ Q2 Q3 V) as (us & Eus & W). destruct (proj2 OK _ Fi) as (o & H). cbn [item_ok] in H.
    assert (G : gives c (instance D (generics_of f)) r (run_fn p (run n) f vs)).
    { apply (@run_sound p c None f _ (run n) us r vs H); [apply instance_meets|apply newtypes_ok; exact OK|apply IH|exact Eus|exact Er|exact W]. }
    destruct (run_fn p (run n) f vs); cbn [gives] in *; try exact G. exact (@to_known _ _ _ _ _ _ K G).
  - destruct (newtype_of x (cx_items c)) as [y|] eqn:N; [|discriminate]. pose proof N as N'. apply newtype_of_in in N as (doc & Ni). rewrite (@here_only x (cx_items c) (inr x) (proj1 OK)).
    2: { apply in_concat. exists [inr x]. split; [|now left]. apply in_map_iff. exists (INewtype doc x y). split; [|exact Ni]. cbn [called_here]. now rewrite str_eqb_refl. }
    destruct ts as [|t1 [|]]; try discriminate C. destruct (rt_of c [] None y) as [u|] eqn:R; [|discriminate]. destruct (fits t1 u) eqn:Fu; [|discriminate]. injection C as <-. apply args1 in V as (v & -> & V). left. exists x, v, y, u. repeat split; try assumption. apply (@known_same false (locals c) _ D); [discriminate|exact (@newtypes_ok _ OK _ _ _ N' R)|]. exact (@fits_sound _ _ _ _ _ Fu V).
Qed.
End Module.

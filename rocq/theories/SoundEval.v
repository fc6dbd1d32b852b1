(** * Checked expressions do not get stuck *)
From Verif Require Import Base BaseFacts StrFacts Types Function Event Derive RustSyntax RustEval RustCheck SoundSpec SoundFacts.
From Verif Require CheckCalls.
From Coq Require Import String Lia.
Set Implicit Arguments.
Notation length := List.length.
Notation obind := RustCheck.obind.
Notation obindE := RustEval.obind.
Notation tenv := (list (str * bool * rt * bool)).
Local Open Scope N_scope.
Local Open Scope list_scope.

Lemma obind_some A B (o : option A) (f : A -> option B) r : obind o f = Some r -> exists a, o = Some a /\ f a = Some r.
Proof. destruct o as [a|]; cbn; [eauto|discriminate]. Qed.

(** ** Checking changes nothing but what still has its value *)
Definition shape (s : tenv) : list (str * bool * rt) := map fst s.
Lemma shape_length s s' : shape s = shape s' -> length s = length s'.
Proof. intros E. apply (f_equal (@List.length _)) in E. unfold shape in E. now rewrite !map_length in E. Qed.
Lemma shape_moved s x : shape (moved s x) = shape s.
Proof. induction s as [|[[[y m] t] h] s IH]; [reflexivity|]. unfold shape in *. cbn [moved]. destruct (str_eqb x y); cbn [map fst]; [reflexivity|]. now rewrite IH. Qed.
Lemma shape_skipn n s : shape (skipn n s) = skipn n (shape s).
Proof. unfold shape. revert s. induction n as [|n IH]; intros [|x s]; cbn [skipn map]; auto. Qed.
Lemma skipn_tail A n (l : list A) a r : skipn n l = a :: r -> skipn (S n) l = r.
Proof. revert l. induction n as [|n IH]; intros [|x l] E; try discriminate; cbn [skipn] in *; [congruence|]. now apply IH. Qed.
Ltac cases E := repeat (match type of E with match ?x with _ => _ end = _ => destruct x; try discriminate E end).
Section Shape.
Context (c : ctx) (gs : list generic) (ret : rt).
Notation inf := (infer c gs ret).
Definition keeps (e : expr) : Prop := forall own s t s1, inf e own s = Some (t, s1) -> shape s1 = shape s.
Lemma seq_keeps A B (f : A -> tenv -> option (B * tenv)) l : Forall (fun a => forall s b s1, f a s = Some (b, s1) -> shape s1 = shape s) l -> forall s r s1, seqO f l s = Some (r, s1) -> shape s1 = shape s.
Proof.
  induction 1 as [|a l H _ IH]; intros s r s1 E; cbn [seqO] in E; [injection E as _ <-; reflexivity|]. fold (seqO f) in E.
  apply obind_some in E as ([b s2] & E1 & E). apply obind_some in E as ([bs s3] & E2 & E). injection E as _ <-. rewrite (IH _ _ _ E2). exact (H _ _ _ E1).
Qed.
Definition block (e : expr) : list (binder * expr) -> tenv -> option (rt * tenv) :=
  fix go l s := match l with [] => inf e true s | x :: l' => let? (t, s1) := inf (snd x) true s in go l' (tbind (fst x) t s1) end.
Lemma tleave_shape s s1 : (length s <= length s1)%nat -> shape (tleave s s1) = skipn (length s1 - length s) (shape s1).
Proof. intros _. unfold tleave. apply shape_skipn. Qed.
Lemma block_keeps l e : Forall (fun x => keeps (snd x)) l -> keeps e -> forall s t s1, block e l s = Some (t, s1) -> (length s <= length s1)%nat /\ shape (tleave s s1) = shape s.
Proof.
  intros F K. induction F as [|[b x] l H _ IH]; intros s t s1 E; cbn [block] in E.
  - pose proof (K _ _ _ _ E) as SS. pose proof (shape_length _ _ SS) as Ls. split; [lia|]. unfold tleave. rewrite Ls, Nat.sub_diag. exact SS.
  - apply obind_some in E as ([t1 s2] & E1 & E). cbn [fst snd] in *. specialize (IH _ _ _ E) as [Lb Sb]. pose proof (H _ _ _ _ E1) as SS. pose proof (shape_length _ _ SS) as Ls. rewrite tleave_shape in Sb |- * by (destruct b; cbn [tbind length] in *; lia).
    assert (Z : forall m y, shape (skipn (length s1 - S (length s2)) s1) = shape ((y, m, t1, true) :: s2) -> (S (length s2) <= length s1)%nat -> skipn (length s1 - length s) (shape s1) = shape s).
    { intros m y Q Lq. rewrite shape_skipn in Q. cbn [shape map fst] in Q. apply skipn_tail in Q. rewrite <- Ls. replace (S (length s1 - S (length s2))) with (length s1 - length s2)%nat in Q by lia. rewrite <- SS. exact Q. }
    destruct b; cbn [tbind length] in *; (split; [lia|]).
    + eapply (Z false); [rewrite shape_skipn; exact Sb|lia].
    + eapply (Z true); [rewrite shape_skipn; exact Sb|lia].
    + rewrite <- Ls, Sb. exact SS.
Qed.
Lemma infer_keeps e : keeps e.
Proof.
  induction e as [e H] using expr_all. intros own s t s1 E.
  assert (SL : forall l, Forall keeps l -> forall s r s1, seqO (fun e s => inf e true s) l s = Some (r, s1) -> shape s1 = shape s) by (intros l F; apply seq_keeps; eapply Forall_impl; [|exact F]; intros a K s2 b s3; apply K).
  assert (SR : forall l, Forall (fun x : str * expr => keeps (snd x)) l -> forall s r s1, seqO (fun (x : str * expr) s => let? (t, s1) := inf (snd x) true s in Some ((fst x, t), s1)) l s = Some (r, s1) -> shape s1 = shape s).
  { intros l F. apply seq_keeps. eapply Forall_impl; [|exact F]. intros a K s2 b s3 Q. apply obind_some in Q as ([t' s'] & Q & Q'). injection Q' as _ <-. exact (K _ _ _ _ Q). }
  destruct e; cbn [parts] in H; cbn [infer] in E.
  - destruct p as [|x [|y p]].
    + destruct (is_path [] _); [destruct (cx_err c); [injection E as _ <-; reflexivity|discriminate]|]. apply obind_some in E as (? & _ & E). now injection E as _ <-.
    + destruct (tlookup s x) as [[[m t'] [|]]|]; try discriminate.
      * injection E as _ <-. destruct (own && _); [apply shape_moved|reflexivity].
      * destruct (is_path [x] _); [destruct (cx_err c); [injection E as _ <-; reflexivity|discriminate]|]. apply obind_some in E as (? & _ & E). now injection E as _ <-.
    + destruct (is_path (x :: y :: p) _); [destruct (cx_err c); [injection E as _ <-; reflexivity|discriminate]|]. apply obind_some in E as (? & _ & E). now injection E as _ <-.
  - now injection E as _ <-.
  - destruct (str_eqb suffix (lit "usize")); [now injection E as _ <-|]. destruct (str_eqb suffix (lit "u8")); [now injection E as _ <-|discriminate].
  - now injection E as _ <-.
  - assert (E' : exists a, seqO (fun e s => inf e true s) args s = Some a /\ (let (ts, s2) := a in obind (call_type c p ts) (fun t => Some (t, s2))) = Some (t, s1)).
    { destruct p as [|x [|y p]]; [|destruct (tlookup s x); [discriminate|]|]; apply obind_some in E; exact E. }
    destruct E' as ([ts s2] & E1 & E2). apply obind_some in E2 as (? & _ & E2). injection E2 as _ <-. exact (SL _ H _ _ _ E1).
  - destruct H as [H1 H2]. apply obind_some in E as ([t1 s2] & E1 & E). pose proof (H1 _ _ _ _ E1) as S1. destruct (str_eqb m (lit "map")).
    + destruct t1; try discriminate E. destruct turbofish; [|discriminate E]. destruct args as [|[] [|]]; try discriminate E. destruct (is_path p _); [|discriminate E]. apply obind_some in E as (? & _ & E). injection E as _ <-. exact S1.
    + apply obind_some in E as ([ts s3] & E2 & E). pose proof (SL _ H2 _ _ _ E2) as S2. apply obind_some in E as (r & _ & E). assert (s1 = s3); [|subst; congruence].
      destruct (changing m); [|now injection E as _ <-]. destruct e; try discriminate E; try (now injection E as _ <-). destruct p as [|x [|]]; try discriminate E. destruct (tlookup s x) as [[[[|] ?] ?]|]; try discriminate E. now injection E as _ <-.
  - destruct H as [H1 _]. apply obind_some in E as ([t1 s2] & E1 & E). pose proof (H1 _ _ _ _ E1) as S1. destruct t1; try discriminate E; apply obind_some in E as ([? ?] & _ & E); injection E as _ <-; exact S1.
  - apply obind_some in E as ([t1 s2] & E1 & E). apply obind_some in E as (? & _ & E). injection E as _ <-. exact (H _ _ _ _ E1).
  - apply obind_some in E as ([t1 s2] & E1 & E). apply obind_some in E as (? & _ & E). destruct own; [discriminate|]. injection E as _ <-. exact (H _ _ _ _ E1).
  - apply obind_some in E as ([t1 s2] & E1 & E). assert (s1 = s2) by (clear -E; cases E; now injection E). subst s2. exact (H _ _ _ _ E1).
  - apply obind_some in E as ([t1 s2] & E1 & E). injection E as _ <-. exact (H _ _ _ _ E1).
  - apply obind_some in E as ([t1 s2] & E1 & E). assert (s1 = s2) by (clear -E; cases E; now injection E). subst s2. exact (H _ _ _ _ E1).
  - destruct l as [|x [|y l]]; [now injection E as _ <-|discriminate|]. apply obind_some in E as ([ts s2] & E1 & E). injection E as _ <-. exact (SL _ H _ _ _ E1).
  - apply obind_some in E as ([ts s2] & E1 & E). apply obind_some in E as (? & _ & E). injection E as _ <-. exact (SL _ H _ _ _ E1).
  - apply obind_some in E as ([t1 s2] & E1 & E). destruct t1; try discriminate E. injection E as _ <-. exact (H _ _ _ _ E1).
  - apply obind_some in E as ([ts s2] & E1 & E). apply obind_some in E as (? & _ & E). injection E as _ <-. exact (SL _ H _ _ _ E1).
  - destruct H as [H1 H2]. apply obind_some in E as ([t1 s2] & E1 & E). injection E as _ <-. exact (proj2 (@block_keeps _ _ H1 H2 _ _ _ E1)).
  - apply obind_some in E as ([ts s2] & E1 & E). apply obind_some in E as (? & _ & E). injection E as _ <-. exact (SR _ H _ _ _ E1).
  - apply obind_some in E as ([ts s2] & E1 & E). apply obind_some in E as (? & _ & E). injection E as _ <-. exact (SR _ H _ _ _ E1).
  - apply obind_some in E as ([ts s2] & E1 & E). apply obind_some in E as (? & _ & E). injection E as _ <-. exact (SR _ H _ _ _ E1).
Qed.
End Shape.

(** ** Names *)
Lemma is_path_eq q l : is_path q l = true -> q = map lit l.
Proof. apply path_eq. Qed.
Lemma at_path_is q : forall l, at_path q l = is_path q l.
Proof.
  unfold at_path, is_path. induction q as [|x q IH]; intros [|y l]; try reflexivity. cbn [length map combine forallb path_eqb fst snd Nat.eqb]. rewrite <- IH. destruct (str_eqb x (lit y)), (length q =? length l)%nat; reflexivity.
Qed.
Lemma at_name_in A q (l : list (list string * A)) a : at_name q l = Some a -> exists n, In (n, a) l /\ q = map lit n.
Proof.
  unfold at_name. destruct (find _ _) as [[n b]|] eqn:E; [|discriminate]. cbn [option_map snd]. intros X. injection X as <-. apply find_some in E as [I E]. cbn [fst] in E. apply is_path_eq in E. eauto.
Qed.
Ltac names := repeat match goal with |- context [str_eqb (lit ?a) (lit ?b)] => let r := eval vm_compute in (str_eqb (lit a) (lit b)) in change (str_eqb (lit a) (lit b)) with r end; cbv iota.
Lemma reads_all A (f : val -> option A) l : Forall (fun v => exists a, f v = Some a) l -> exists r, reads f l = Some r.
Proof. induction 1 as [|v l (a & E) _ (r & IH)]; [exists []; reflexivity|]. exists (a :: r). cbn [reads]. fold (reads f). now rewrite E, IH. Qed.

Section Sound.
Context (p : profile) (c : ctx) (gs : list generic) (ret : rt) (D : str -> val -> Prop) (call : path -> list val -> out val).
Notation inf := (infer c gs ret).
Notation is_a := (of_rt c D).
Notation run := (eval p call).
Definition env_ok (sh : list (str * bool * rt)) (s : env) : Prop := Forall2 (fun d x => fst d = fst x /\ is_a (snd d) (snd x)) sh s.
Definition goes {A} (P : A -> Prop) (o : out A) : Prop :=
  match o with Done a => P a | Return v => exists e a, v = VErr e /\ ret = SResult a | Panics => True | Stuck => False end.
Definition gives (t : rt) (o : out val) : Prop := match o with Done v => is_a t v | Panics => True | _ => False end.
Definition good {A} (P : A -> Prop) (sh : list (str * bool * rt)) : out (A * env) -> Prop := goes (fun r => P (fst r) /\ env_ok sh (snd r)).
Context (meets : meets_bounds c gs D)
        (newtypes : forall x y u, newtype_of x (cx_items c) = Some y -> rt_of c [] None y = Some u -> known false u = true)
        (calls : forall q ts t vs, call_type c q ts = Some t -> Forall2 is_a ts vs -> builtin q vs = None -> gives t (call q vs)).

Lemma goes_bind A B (P : A -> Prop) (Q : B -> Prop) r f : goes P r -> (forall a, P a -> goes Q (f a)) -> goes Q (obindE r f).
Proof. destruct r; cbn [goes obindE]; intros H1 H2; auto. Qed.
Lemma goes_impl A (P Q : A -> Prop) r : goes P r -> (forall a, P a -> Q a) -> goes Q r.
Proof. destruct r; cbn [goes]; auto. Qed.
Lemma gives_goes t o : gives t o -> goes (is_a t) o.
Proof. destruct o; cbn [gives goes]; intuition. Qed.
Lemma fitting a b v : fits a b = true -> is_a a v -> is_a b v.
Proof. apply fits_sound. Qed.
Lemma fitting_all l l' vs : fit_all l l' = true -> Forall2 is_a l vs -> Forall2 is_a l' vs.
Proof. apply fit_all_sound. apply Forall_forall. intros a _ b v. apply fits_sound. Qed.

(** ** Variables *)
Lemma env_lookup s s' x : env_ok (shape s) s' -> match tlookup s x with Some (m, t, _) => exists v, lookup s' x = Some (m, v) /\ is_a t v | None => lookup s' x = None end.
Proof.
  revert s'. induction s as [|[[[y m] t] h] s IH]; intros s' H; inversion H as [|? [[y' m'] v] ? ? [E V] H']; subst; [reflexivity|]. cbn [fst snd] in *. injection E as <- <-. cbn [tlookup lookup]. destruct (str_eqb x y); [eauto|]. now apply IH.
Qed.
Lemma env_update s s' x m t h w : env_ok (shape s) s' -> tlookup s x = Some (m, t, h) -> is_a t w -> env_ok (shape s) (update s' x w).
Proof.
  revert s'. induction s as [|[[[y m1] t1] h1] s IH]; intros s' H E W; inversion H as [|? [[y' m'] v] ? ? [E1 V] H']; subst; [discriminate|]. cbn [fst snd] in *. injection E1 as <- <-. cbn [tlookup update] in *. destruct (str_eqb x y).
  - injection E as -> -> ->. constructor; [split; [reflexivity|exact W]|exact H'].
  - constructor; [split; [reflexivity|exact V]|]. now apply IH.
Qed.
Lemma env_length sh s : env_ok sh s -> length s = length sh.
Proof. intros H. symmetry. exact (Forall2_length H). Qed.

(** ** One after the other *)
Lemma seq_sound A B B' (f : A -> tenv -> option (B * tenv)) (g : A -> env -> out (B' * env)) (R : B -> B' -> Prop) l :
  Forall (fun a => forall s b s1 s', f a s = Some (b, s1) -> env_ok (shape s) s' -> shape s1 = shape s /\ good (R b) (shape s) (g a s')) l ->
  forall s r s1 s', seqO f l s = Some (r, s1) -> env_ok (shape s) s' -> shape s1 = shape s /\ good (Forall2 R r) (shape s) (seqM g l s').
Proof.
  induction 1 as [|a l H _ IH]; intros s r s1 s' E V; cbn [seqO seqM] in *.
  - injection E as <- <-. split; [reflexivity|]. split; [constructor|exact V].
  - fold (seqO f) in E. fold (seqM g). apply obind_some in E as ([b s2] & E1 & E). apply obind_some in E as ([bs s3] & E2 & E). injection E as <- <-. destruct (H _ _ _ _ E1 V) as [S1 G].
    assert (S2 : shape s3 = shape s2).
    { rewrite <- S1 in V. exact (proj1 (IH _ _ _ _ E2 V)). }
    split; [congruence|]. eapply goes_bind; [exact G|]. intros [w s4] [W V4]. cbn [fst snd] in *. rewrite <- S1 in V4. pose proof (proj2 (IH _ _ _ _ E2 V4)) as G2. eapply goes_bind; [exact G2|]. intros [ws s5] [WS V5]. cbn [fst snd] in *. rewrite S1 in V5. split; [constructor; assumption|exact V5].
Qed.
Lemma seq_map (f : val -> env -> out (val * env)) (P Q : val -> Prop) sh l : (forall v s', P v -> env_ok sh s' -> good Q sh (f v s')) -> Forall P l -> forall s', env_ok sh s' -> good (Forall Q) sh (seqM f l s').
Proof.
  intros H. induction 1 as [|v l Pv _ IH]; intros s' V; cbn [seqM]; [split; [constructor|exact V]|]. fold (seqM f). eapply goes_bind; [exact (H _ _ Pv V)|]. intros [w s1] [W V1]. eapply goes_bind; [exact (IH _ V1)|]. intros [ws s2] [WS V2]. split; [constructor; assumption|exact V2].
Qed.

(** ** What the crate ethabi and the standard library give *)
Lemma into_sound t u v : into c gs t = Some u -> is_a t v -> is_a u v.
Proof.
  destruct t; cbn [into]; try discriminate.
  - destruct t; try discriminate. intros X. injection X as <-. auto.
  - destruct (bound_of gs x) as [[]|] eqn:E; try discriminate. intros X V. exact (@meets _ _ E v V _ X).
Qed.
Lemma items_sound t u v : items_of gs t = Some u -> is_a t v -> exists l, v = VVec l /\ Forall (is_a u) l.
Proof.
  destruct t; cbn [items_of]; try discriminate.
  - intros E V. destruct (is_byte t) eqn:B; [destruct t; discriminate|]. assert (u = t) by (destruct t; congruence). subst u. now apply vt_vec in V.
  - destruct (bound_of gs x) as [[]|] eqn:E; try discriminate. intros X V. injection X as <-. exact (@meets _ _ E v V).
Qed.
Lemma common_sound ts t vs : common ts = Some t -> Forall2 is_a ts vs -> is_byte t = false /\ Forall (is_a t) vs.
Proof.
  intros C V. destruct ts as [|t0 ts]; [injection C as <-; inversion V; split; [reflexivity|constructor]|].
  assert (C' : is_byte t0 = false /\ forallb (fun t' => fits t' t0) ts = true /\ t = t0).
  { cbn [common] in C. destruct t0; try discriminate; destruct (forallb _ _); try discriminate; injection C as <-; auto. }
  clear C. destruct C' as (B & F & ->). split; [exact B|]. inversion V as [|? w ? ws W WS]; subst. constructor; [exact W|]. clear -F WS. revert ws WS. induction ts as [|a ts IH]; intros ws WS; inversion WS; subst; constructor; cbn [forallb] in F; apply andb_true_iff in F as [F1 F2].
  - eapply fitting; eassumption.
  - now apply IH.
Qed.
Lemma list_of a l t (v := VVec l) : Forall (is_a a) l -> is_byte a = false -> t = SVec a \/ t = SSlice a -> is_a t v.
Proof. intros F B [->| ->]; [apply vt_vec|apply vt_slice]; try exact B; unfold v; eauto. Qed.
Lemma tokens_of l : Forall (is_a SToken) l -> exists ts, reads as_token l = Some ts.
Proof. intros F. apply reads_all. eapply Forall_impl; [|exact F]. intros v (t & ->). exists t. reflexivity. Qed.
Lemma params_of l : Forall (is_a SParam) l -> exists ts, reads as_param l = Some ts.
Proof. intros F. apply reads_all. eapply Forall_impl; [|exact F]. intros v (t & ->). exists t. reflexivity. Qed.
Lemma event_params_of l : Forall (is_a SEventParam) l -> exists ts, reads as_event_param l = Some ts.
Proof. intros F. apply reads_all. eapply Forall_impl; [|exact F]. intros v (t & ->). exists t. reflexivity. Qed.
Lemma all_tokens l : Forall (is_a SToken) (map VTok l).
Proof. apply Forall_forall. intros v I. apply in_map_iff in I as (t & <- & _). exists t. reflexivity. Qed.
Lemma two A B (P : A -> B -> Prop) l' : Forall2 P [] l' -> l' = [].
Proof. intros H. now inversion H. Qed.
Lemma args1 a vs : Forall2 is_a [a] vs -> exists v, vs = [v] /\ is_a a v.
Proof. intros H. inversion H as [|? v ? l' V H']; subst. inversion H'. eauto. Qed.
Lemma args2 a b vs : Forall2 is_a [a; b] vs -> exists v w, vs = [v; w] /\ is_a a v /\ is_a b w.
Proof. intros H. inversion H as [|? v ? l' V H']; subst. apply args1 in H' as (w & -> & W). eauto 6. Qed.
Lemma constants_sound q t : at_name q constants = Some t -> exists v, global q = Done v /\ is_a t v.
Proof.
  intros E. apply at_name_in in E as (n & I & ->). cbn [In constants] in I.
  repeat (destruct I as [I|I]; [injection I as <- <-; eexists; split; [vm_compute; reflexivity|first [left; reflexivity|eexists; reflexivity|eexists; split; [reflexivity|exact I]]]|]). destruct I.
Qed.
Lemma builtin_sound q ts t vs o : call_type c q ts = Some t -> Forall2 is_a ts vs -> builtin q vs = Some o -> gives t o.
Proof.
  unfold call_type. intros C V B.
  destruct (is_path q ["Ok"]%string) eqn:P1.
  { apply is_path_eq in P1. subst q. destruct ts as [|a [|]]; try discriminate C. injection C as <-. apply args1 in V as (v & -> & V). injection B as <-. right. eauto. }
  destruct (is_path q ["Box"; "new"]%string) eqn:P2.
  { apply is_path_eq in P2. subst q. destruct ts as [|a [|]]; try discriminate C. destruct (sized a) eqn:S; [|discriminate]. injection C as <-. apply args1 in V as (v & -> & V). injection B as <-. apply vt_box; assumption. }
  destruct (is_path q ["ethabi"; "FunctionOutputDecoder"; "decode"]%string) eqn:P3.
  { apply is_path_eq in P3. subst q. discriminate B. }
  destruct (at_name q functions) as [[params r]|] eqn:A.
  - destruct (fit_all ts params) eqn:F; [|discriminate]. injection C as <-. pose proof (@fitting_all _ _ _ F V) as W. clear V F ts. apply at_name_in in A as (n & I & ->). cbn [In functions] in I.
    repeat (destruct I as [I|I]; [injection I as <- <- <-; first [apply args1 in W as (v & -> & W)|apply args2 in W as (v & w & -> & W & W')]|]); try (destruct I; fail).
    1: destruct W as (b & -> & Lb); injection B as <-; rewrite Lb; cbn; eauto.
    all: try (cbn in W; destruct W as (? & ->); try (cbn in W'; destruct W' as (? & ->)); injection B as <-; cbn; eauto; fail).
    all: apply vt_vec in W; [|reflexivity]; destruct W as (l & -> & W); destruct (tokens_of W) as (ts' & E); assert (B' : Some (Done (VTok (TArray ts'))) = Some o \/ Some (Done (VTok (TFixedArray ts'))) = Some o) by (first [left; rewrite <- B; cbn -[reads]; rewrite E; reflexivity|right; rewrite <- B; cbn -[reads]; rewrite E; reflexivity]); destruct B' as [B'|B']; injection B' as <-; cbn; eauto.
  - destruct q as [|x [|y q]]; try discriminate C. unfold builtin in B. rewrite at_path_is, P1 in B. cbn [at_path length combine forallb Nat.eqb andb] in B. discriminate B.
Qed.

(** ** Fields *)
Definition same_field (g : str * rt) (x : str * val) : Prop := fst g = fst x /\ is_a (snd g) (snd x).
Lemma same_names given l : Forall2 same_field given l -> map fst l = map fst given.
Proof. induction 1 as [|g x given l [E _] _ IH]; [reflexivity|]. cbn [map]. congruence. Qed.
Lemma field_in given l x t : Forall2 same_field given l -> In x (map fst given) -> (forall t', In (x, t') given -> fits t' t = true) -> forall n, lit n = x -> exists v, field l n = Some v /\ is_a t v.
Proof.
  intros F I A n <-. revert I A. induction F as [|[y u] [z w] given l [E W] _ IH]; [intros []|]. cbn [fst snd map In field] in *. subst z. intros I A. destruct (str_eqb (lit n) y) eqn:E.
  - apply str_eqb_eq in E. subst y. exists w. split; [reflexivity|]. eapply fitting; [|exact W]. apply A. now left.
  - apply IH; [|intros t' It; apply A; now right]. destruct I as [I|I]; [rewrite I, str_eqb_refl in E; discriminate E|exact I].
Qed.
Lemma fields_length declared given l : fields_fit declared given = true -> Forall2 same_field given l -> length l = length declared.
Proof. unfold fields_fit. intros F S. apply andb_true_iff in F as [F _]. apply andb_true_iff in F as [F _]. apply Nat.eqb_eq in F. rewrite F. symmetry. exact (Forall2_length S). Qed.
Lemma fields_sound declared given l n y t : fields_fit declared given = true -> Forall2 same_field given l -> find (fun y => str_eqb (lit n) (fst y)) declared = Some (y, t) -> exists v, field l n = Some v /\ is_a t v.
Proof.
  unfold fields_fit. intros F S E. apply andb_true_iff in F as [F F3]. apply andb_true_iff in F as [F1 F2]. apply Nat.eqb_eq in F1. rewrite forallb_forall in F3.
  assert (ND : NoDup (map fst given)) by (now apply CheckCalls.distinct_iff).
  assert (IN : incl (map fst given) (map fst declared)).
  { intros z I. apply in_map_iff in I as ([z' u] & <- & I). specialize (F3 _ I). cbn [fst] in *. destruct (find _ declared) as [[d du]|] eqn:Fd; [|discriminate]. apply find_some in Fd as [Id Ed]. cbn [fst] in Ed. apply str_eqb_eq in Ed. subst d. apply in_map_iff. exists (z', du). auto. }
  assert (IN' : incl (map fst declared) (map fst given)) by (apply NoDup_length_incl; [exact ND|rewrite !map_length; lia|exact IN]).
  eapply field_in; [exact S|apply IN'| |reflexivity].
  - apply find_some in E as [I Ey]. cbn [fst] in Ey. apply str_eqb_eq in Ey. subst y. apply in_map_iff. exists (lit n, t). auto.
  - intros t' I. specialize (F3 _ I). cbn [fst snd] in F3. rewrite E in F3. exact F3.
Qed.
Lemma struct_sound q given t l : struct_type c q given = Some t -> Forall2 same_field given l -> gives t (struct q l).
Proof.
  unfold struct_type. intros E S. destruct (at_name q structs) as [[declared r]|] eqn:A.
  - destruct (fields_fit _ _) eqn:F; [|discriminate]. injection E as <-. apply at_name_in in A as (n & I & ->). cbn [In structs] in I.
    assert (Q : forall n y u, find (fun y => str_eqb (lit n) (fst y)) (map (fun x : string * rt => (lit (fst x), snd x)) declared) = Some (y, u) -> exists v, field l n = Some v /\ is_a u v) by (intros n0 y u; intros Ef; exact (@fields_sound _ _ _ n0 _ _ F S Ef)).
    pose proof (@fields_length _ _ _ F S) as Ll. rewrite map_length in Ll.
    destruct I as [I|[I|[I|[I|[I|[]]]]]]; injection I as <- <- <-; cbn [length] in Ll; unfold struct; rewrite !at_path_is.
    + repeat match goal with |- context [is_path ?a ?b] => let v := eval vm_compute in (is_path a b) in change (is_path a b) with v end; cbv iota. rewrite Ll.
      destruct (Q "name"%string _ _ eq_refl) as (v1 & -> & (n1 & ->)). destruct (Q "kind"%string _ _ eq_refl) as (v2 & -> & (n2 & ->)). destruct (Q "internal_type"%string _ _ eq_refl) as (v3 & -> & [->|(w & _ & [])]). cbn. eauto.
    + repeat match goal with |- context [is_path ?a ?b] => let v := eval vm_compute in (is_path a b) in change (is_path a b) with v end; cbv iota. rewrite Ll.
      destruct (Q "name"%string _ _ eq_refl) as (v1 & -> & (n1 & ->)). destruct (Q "kind"%string _ _ eq_refl) as (v2 & -> & (n2 & ->)). destruct (Q "indexed"%string _ _ eq_refl) as (v3 & -> & (n3 & ->)). cbn. eauto.
    + repeat match goal with |- context [is_path ?a ?b] => let v := eval vm_compute in (is_path a b) in change (is_path a b) with v end; cbv iota. rewrite Ll.
      destruct (Q "name"%string _ _ eq_refl) as (v1 & -> & (n1 & ->)). destruct (Q "inputs"%string _ _ eq_refl) as (v2 & -> & (n2 & -> & F2)). destruct (Q "outputs"%string _ _ eq_refl) as (v3 & -> & (n3 & -> & F3)). destruct (Q "constant"%string _ _ eq_refl) as (v4 & -> & (n4 & ->)). destruct (Q "state_mutability"%string _ _ eq_refl) as (v5 & -> & (n5 & ->)).
      destruct (params_of F2) as (r2 & ->). destruct (params_of F3) as (r3 & ->). cbn. eauto.
    + repeat match goal with |- context [is_path ?a ?b] => let v := eval vm_compute in (is_path a b) in change (is_path a b) with v end; cbv iota. rewrite Ll.
      destruct (Q "inputs"%string _ _ eq_refl) as (v2 & -> & (n2 & -> & F2)). destruct (params_of F2) as (r2 & ->). cbn. eauto.
    + repeat match goal with |- context [is_path ?a ?b] => let v := eval vm_compute in (is_path a b) in change (is_path a b) with v end; cbv iota. rewrite Ll.
      destruct (Q "name"%string _ _ eq_refl) as (v1 & -> & (n1 & ->)). destruct (Q "inputs"%string _ _ eq_refl) as (v2 & -> & (n2 & -> & F2)). destruct (Q "anonymous"%string _ _ eq_refl) as (v4 & -> & (n4 & ->)). destruct (event_params_of F2) as (r2 & ->). cbn. eauto.
  - destruct q as [|x0 [|x1 q]]; [cbn in E; discriminate E|discriminate E|]. unfold plain_name in E. destruct (is_path (x0 :: x1 :: q) ["Self"; "Output"]%string) eqn:P1; [discriminate|]. destruct (is_path (firstn 3 (x0 :: x1 :: q)) ["super"; "super"; "logs"]%string) eqn:P2.
    + destruct q as [|x2 q]; [apply is_path_eq in P2; discriminate P2|]. cbn [firstn skipn] in *. destruct q as [|x q]; [discriminate|]. destruct q as [|]; [|discriminate]. destruct (cx_here c) as [|h1 [|h2 [|]]] eqn:Hc; try discriminate. destruct (local_type x _); [|discriminate]. destruct (str_eqb (lit "logs") (lit "logs")); [|discriminate]. apply obind_some in E as (fields & _ & E). apply obind_some in E as (declared & _ & E). destruct (fields_fit declared given); [|discriminate]. injection E as <-.
      assert (x0 = lit "super" /\ x1 = lit "super" /\ x2 = lit "logs") as (-> & -> & ->) by (apply is_path_eq in P2; injection P2; auto).
      change (gives (SLocal [lit "logs"; x]) (Done (VRecord [lit "super"; lit "super"; lit "logs"; x] l))). right. exists x, [lit "super"; lit "super"; lit "logs"; x], l. rewrite Hc. split; [reflexivity|split; [discriminate|reflexivity]].
    + destruct (at_name (x0 :: x1 :: q) plain_types) as [u|] eqn:A'; [|discriminate]. apply at_name_in in A' as (n & I & _). cbn [In plain_types] in I. repeat (destruct I as [I|I]; [injection I as <- <-; discriminate|]). destruct I.
Qed.
Lemma topic_of v : is_a (STopic SToken) v -> exists t, as_topic v = Some t.
Proof.
  intros (t & -> & V). destruct t as [|l|w]; cbn [as_topic].
  - eauto.
  - destruct (tokens_of V) as (r & ->). eauto.
  - destruct V as (k & ->). cbn. eauto.
Qed.
Lemma default_sound q base given t l : default_type q base given = Some t -> Forall2 same_field given l -> gives t (with_default q base l).
Proof.
  unfold default_type, with_default. intros E S. rewrite !at_path_is, (same_names S). destruct (_ && _) eqn:G in E; [|discriminate]. injection E as <-. apply andb_true_iff in G as [G1 G2]. rewrite G1. rewrite forallb_forall in G2.
  assert (N : forallb (fun x : str * val => existsb (str_eqb (fst x)) (map lit ["topic0"; "topic1"; "topic2"]%string)) l = true).
  { clear G1. induction S as [|g x given l [E V] S IH]; [reflexivity|]. cbn [forallb]. rewrite IH by (intros z I; apply G2; now right). specialize (G2 g (or_introl eq_refl)). apply andb_true_iff in G2 as [G2 _]. now rewrite <- E, G2. }
  assert (T : forall n, exists t, match field l n with Some v => as_topic v | None => Some Any end = Some t).
  { intros n. destruct (field l n) as [v|] eqn:Fv; [|eauto]. apply topic_of. clear -Fv G2 S. induction S as [|g [y w] given l [E V] S IH]; [discriminate|]. cbn [field] in Fv. destruct (str_eqb (lit n) y); [|apply IH; [intros z I; apply G2; now right|exact Fv]]. injection Fv as ->. eapply fitting; [|exact V]. specialize (G2 g (or_introl eq_refl)). now apply andb_true_iff in G2 as [_ G2]. }
  rewrite N. cbn [andb]. destruct (T "topic0"%string) as (t0 & ->), (T "topic1"%string) as (t1 & ->), (T "topic2"%string) as (t2 & ->). cbn. eauto.
Qed.

(** ** Methods *)
Ltac called_m s E := destruct (str_eqb _ (lit s)) eqn:E; [apply str_eqb_eq in E; subst|].
Lemma method_sound t m turbofish ts r v vs : method_type c gs t m turbofish ts = Some r -> changing m = false -> str_eqb m (lit "map") = false -> is_a t v -> Forall2 is_a ts vs -> gives r (method p v m vs).
Proof.
  unfold method_type. intros E Ch Mp V A. destruct ts as [|a ts].
  - inversion A; subst vs. cbn [method].
    destruct (str_eqb m (lit "collect")) eqn:N1.
    { apply str_eqb_eq in N1. subst m. names. destruct t; try discriminate E. destruct (is_byte t) eqn:B; [discriminate|]. destruct V as (l & -> & F). destruct turbofish as [|x l']; [|destruct (vec_of_any c gs (x :: l')); [|discriminate]]; injection E as <-.
      - split; [exact B|eauto].
      - apply vt_vec; [exact B|eauto]. }
    destruct turbofish; [|discriminate E].
    destruct (str_eqb m (lit "into")) eqn:N2; [exact (@into_sound _ _ _ E V)|].
    destruct (str_eqb m (lit "to_owned")) eqn:N3; [destruct t; try discriminate E; destruct t; try discriminate E; injection E as <-; destruct V as (s & ->); cbn; eauto|].
    destruct (str_eqb m (lit "into_iter")) eqn:N4; [apply obind_some in E as (a & E1 & E); injection E as <-; destruct (@items_sound _ _ _ E1 V) as (l & -> & F); cbn; eauto|].
    destruct (str_eqb m (lit "into_vec")) eqn:N5.
    { destruct t; try discriminate E. destruct t; try discriminate E. destruct (is_byte t) eqn:B; [discriminate|]. injection E as <-. destruct V as (l & -> & F). apply vt_vec; [exact B|eauto]. }
    destruct (str_eqb m (lit "as_ref")) eqn:N6.
    { destruct t; try discriminate E; [injection E as <-; destruct V as (h & ->); cbn; eauto|]. destruct t; try discriminate E. injection E as <-. destruct V as (b & -> & _). cbn. eauto. }
    destruct (str_eqb m (lit "to_vec")) eqn:N7.
    { destruct t; try discriminate E. destruct t; try discriminate E. destruct t; try discriminate E. injection E as <-. destruct V as (b & ->). cbn. eauto. }
    destruct (str_eqb m (lit "next")) eqn:N8; [apply str_eqb_eq in N8; subst m; discriminate Ch|].
    destruct t; try discriminate E. apply obind_some in E as (a & E1 & E). injection E as <-. destruct V as (k & ->). unfold token_methods in E1. cbn [find fst] in E1.
    assert (O : forall A (f : A -> val) (P : rt) o, (forall x, is_a P (f x)) -> gives (SOption P) (Done (optional f o))) by (intros A' f P [x|] Hx; cbn; [right; eauto|left; reflexivity]).
    repeat match type of E1 with context [str_eqb m (lit ?s)] => destruct (str_eqb m (lit s)); [injection E1 as <-; apply O; intros x; first [cbn; eauto; fail|apply vt_vec; [reflexivity|]; eexists; split; [reflexivity|apply all_tokens]]|] end. discriminate E1.
  - destruct turbofish; [|discriminate E].
    assert (EX : fit_all (a :: ts) [SRef SStr] = true -> exists s, vs = [VStr s]).
    { intros F. destruct (args1 (@fitting_all _ _ _ F A)) as (w & -> & (s & ->)). eauto. }
    destruct t; try discriminate E.
    + destruct t; try discriminate E. destruct (str_eqb m (lit "copy_from_slice")) eqn:N; [apply str_eqb_eq in N; subst m; discriminate Ch|discriminate].
    + destruct (str_eqb m (lit "expect")) eqn:N; [|discriminate]. destruct (fit_all (a :: ts) [SRef SStr]) eqn:F; [|discriminate]. injection E as <-. destruct (EX eq_refl) as (s & ->). cbn [method]. rewrite N. destruct V as [->|(w & -> & W)]; [exact I|exact W].
    + destruct (str_eqb m (lit "expect")) eqn:N; [|discriminate]. destruct (fit_all (a :: ts) [SRef SStr]) eqn:F; [|discriminate]. injection E as <-. destruct (EX eq_refl) as (s & ->). cbn [method]. rewrite N. destruct V as [(e & ->)|(w & -> & W)]; [exact I|exact W].
    + destruct V as (f & ->). destruct (str_eqb m (lit "encode_input") && _) eqn:N.
      * apply andb_true_iff in N as [N F]. apply str_eqb_eq in N. subst m. injection E as <-. destruct (args1 (@fitting_all _ _ _ F A)) as (w & -> & (l & -> & Fl)). cbn [method]. names. destruct (tokens_of Fl) as (k & ->). destruct (encode_input p f k); cbn; eauto 6.
      * destruct (str_eqb m (lit "decode_output") && _) eqn:N'; [|discriminate]. apply andb_true_iff in N' as [N' F]. apply str_eqb_eq in N'. subst m. injection E as <-. destruct (args1 (@fitting_all _ _ _ F A)) as (w & -> & (l & ->)). cbn [method]. names. destruct (decode_output p f l); cbn; [|eauto|exact I]. right. eexists. split; [reflexivity|]. eexists. split; [reflexivity|apply all_tokens].
    + destruct V as (f & ->). destruct (str_eqb m (lit "encode_input") && _) eqn:N; [|discriminate]. apply andb_true_iff in N as [N F]. apply str_eqb_eq in N. subst m. injection E as <-. destruct (args2 (@fitting_all _ _ _ F A)) as (w1 & w2 & -> & (b & ->) & (l & -> & Fl)). cbn [method]. names. destruct (tokens_of Fl) as (k & ->). destruct (constructor_encode_input p f b k); cbn; eauto 6.
    + destruct V as (f & ->). destruct (str_eqb m (lit "filter") && _) eqn:N.
      * apply andb_true_iff in N as [N F]. apply str_eqb_eq in N. subst m. injection E as <-. destruct (args1 (@fitting_all _ _ _ F A)) as (w & -> & (l & ->)). cbn [method]. names. destruct (event_filter p f l); cbn; eauto 6.
      * destruct (str_eqb m (lit "parse_log") && _) eqn:N'; [|discriminate]. apply andb_true_iff in N' as [N' F]. apply str_eqb_eq in N'. subst m. injection E as <-. destruct (args1 (@fitting_all _ _ _ F A)) as (w & -> & (l & ->)). cbn [method]. names. destruct (parse_log p f l); cbn; eauto 6.
Qed.
Lemma mutate_sound t m turbofish ts r v vs : method_type c gs t m turbofish ts = Some r -> changing m = true -> is_a t v -> Forall2 is_a ts vs -> goes (fun x => is_a r (fst x) /\ is_a t (snd x)) (mutate v m vs).
Proof.
  unfold method_type. intros E Ch V A.
  assert (M : m = lit "next" \/ m = lit "copy_from_slice").
  { unfold changing in Ch. cbn [map existsb] in Ch. apply orb_true_iff in Ch as [Ch|Ch]; [left; now apply str_eqb_eq|]. apply orb_true_iff in Ch as [Ch|Ch]; [right; now apply str_eqb_eq|discriminate]. }
  destruct M as [-> | ->].
  - destruct ts as [|a ts].
    + inversion A; subst vs. destruct turbofish; [|change (@None rt = Some r) in E; discriminate]. change (match t with SIter a => Some (SOption a) | _ => None end = Some r) in E. destruct t; try discriminate E. injection E as <-. destruct V as (l & -> & F). cbn [mutate]. names. destruct F as [|w l W F]; cbn; split; try (left; reflexivity); try (right; eauto); eauto.
    + destruct turbofish; [|discriminate E]. destruct t; try discriminate E. destruct t; discriminate E.
  - destruct ts as [|a ts].
    + destruct turbofish; [|change (@None rt = Some r) in E; discriminate]. destruct t; discriminate E.
    + destruct turbofish; [|discriminate E]. destruct t; try discriminate E. destruct t; try discriminate E.
      destruct (fit_all (a :: ts) [SRef (SSlice SU8)]) eqn:F; [|discriminate E]. change (Some SUnit = Some r) in E. injection E as <-. destruct (args1 (@fitting_all _ _ _ F A)) as (w & -> & (l & ->)). destruct V as (b & -> & Lb). cbn [mutate]. names. destruct (length b =? length l)%nat eqn:Q; [|exact I]. apply Nat.eqb_eq in Q. split; [reflexivity|]. exists l. split; [reflexivity|]. rewrite <- Lb. unfold len. now rewrite Q.
Qed.
Lemma first_sound t r v : first_type c t = Some r -> is_a t v -> exists x w, v = VNewtype x w /\ is_a r w.
Proof.
  intros E V.
  assert (Z : exists q, match q with [] => None | _ => if path_eqb (removelast q) (cx_here c) then let? y := newtype_of (last q []) (cx_items c) in rt_of c [] None y else None end = Some r /\ locals c q v).
  { destruct t; try discriminate E; [destruct t; try discriminate E|]; exists p0; split; assumption. }
  clear E V t. destruct Z as (q & E & V). destruct q as [|q0 q]; [discriminate|]. destruct (path_eqb _ _) eqn:Q; [|discriminate]. apply path_eq in Q. apply obind_some in E as (y & E1 & E2).
  destruct V as [(x & w & y' & u & Eq & -> & N & R & W)|(x & p0 & l & Eq & Nh & ->)].
  - rewrite Eq in E1. rewrite last_last in E1. assert (y' = y) by congruence. subst y'. assert (u = r) by congruence. subst u. exists x, w. split; [reflexivity|]. eapply known_same; [|exact (@newtypes _ _ _ E1 E2)|exact W]. discriminate.
  - rewrite Eq in Q. cbn [removelast] in Q. now rewrite Q in Nh.
Qed.
Lemma get_sound t f r v : field_type t f = Some r -> is_a t v -> gives r (RustEval.get v f).
Proof.
  destruct t; try discriminate; cbn [field_type].
  - destruct (str_eqb f (lit "params")) eqn:N; [|discriminate]. intros E (l & ->). injection E as <-. cbn [RustEval.get]. rewrite N. exists (map VLogParam (l_params l)). split; [reflexivity|]. apply Forall_forall. intros w I. apply in_map_iff in I as (x & <- & _). cbn. eauto.
  - destruct (str_eqb f (lit "value")) eqn:N; [|discriminate]. intros E (l & ->). injection E as <-. cbn [RustEval.get]. rewrite N. cbn. eauto.
Qed.

(** ** Expressions *)
Definition sound (e : expr) : Prop := forall own s t s1 s', inf e own s = Some (t, s1) -> env_ok (shape s) s' -> good (is_a t) (shape s) (run e s').
Definition run_block (e : expr) : list (binder * expr) -> env -> out (val * env) :=
  fix go l s := match l with [] => run e s | x :: l' => obindE (run (snd x) s) (fun r => go l' (bind_name (fst x) (fst r) (snd r))) end.
Lemma leave_one s s' sh d : env_ok sh s -> env_ok (d :: sh) s' -> env_ok sh (leave s s').
Proof. intros H H'. unfold leave. rewrite (env_length H), (env_length H'). cbn [length]. replace (S (length sh) - length sh)%nat with 1%nat by lia. inversion H'; subst. assumption. Qed.
Lemma leave_skip A s s' (sh : list A) : (length s <= length s')%nat -> length s = length sh -> leave s s' = skipn (length s' - length sh) s'.
Proof. intros _ E. unfold leave. now rewrite E. Qed.
Lemma block_sound l e : Forall (fun x => sound (snd x)) l -> sound e -> forall s t s1 s', block c gs ret e l s = Some (t, s1) -> env_ok (shape s) s' -> goes (fun r => is_a t (fst r) /\ (length s' <= length (snd r))%nat /\ env_ok (shape s) (leave s' (snd r))) (run_block e l s').
Proof.
  intros F K. induction F as [|[b x] l H _ IH]; intros s t s1 s' E V; cbn [block run_block] in *.
  - pose proof (K _ _ _ _ _ E V) as G. eapply goes_impl; [exact G|]. intros [v s2] [W V2]. cbn [fst snd] in *. assert (Ls : length s2 = length s') by (rewrite (env_length V), (env_length V2); reflexivity). split; [exact W|]. split; [lia|]. unfold leave. rewrite Ls, Nat.sub_diag. exact V2.
  - apply obind_some in E as ([t1 s2] & E1 & E). cbn [fst snd] in *. pose proof (@infer_keeps _ _ _ _ _ _ _ _ E1) as SS. eapply goes_bind; [exact (H _ _ _ _ _ E1 V)|]. intros [v s3] [W V3]. cbn [fst snd] in *.
    assert (V4 : env_ok (shape (tbind b t1 s2)) (bind_name b v s3)).
    { destruct b; cbn [tbind bind_name]; unfold shape; cbn [map fst]; fold (shape s2); rewrite SS; try exact V3; (constructor; [split; [reflexivity|exact W]|exact V3]). }
    eapply goes_impl; [exact (IH _ _ _ _ E V4)|]. intros [w s5] (W5 & L5 & V5). cbn [fst snd] in *. split; [exact W5|]. assert (L3 : length s3 = length s') by (rewrite (env_length V), (env_length V3); reflexivity).
    assert (Z : forall d, (length (d :: s3) <= length s5)%nat -> forall sd, env_ok (sd :: shape s) (skipn (length s5 - length (d :: s3)) s5) -> env_ok (shape s) (leave s' s5)).
    { intros d Ld sd Q. cbn [length] in *. destruct (skipn (length s5 - S (length s3)) s5) as [|a rest] eqn:R; [inversion Q|]. apply skipn_tail in R. unfold leave. replace (length s5 - length s')%nat with (S (length s5 - S (length s3))) by lia. rewrite R. now inversion Q. }
    destruct b; cbn [tbind bind_name length] in *; (split; [lia|]).
    + eapply (Z (x0, false, v)); [exact L5|]. unfold leave in V5. cbn [length] in *. unfold shape in V5. cbn [map fst] in V5. fold (shape s2) in V5. rewrite SS in V5. exact V5.
    + eapply (Z (x0, true, v)); [exact L5|]. unfold leave in V5. cbn [length] in *. unfold shape in V5. cbn [map fst] in V5. fold (shape s2) in V5. rewrite SS in V5. exact V5.
    + unfold leave in *. rewrite <- L3. rewrite SS in V5. exact V5.
Qed.
Lemma shape_lost s : shape (lost s) = shape s.
Proof. unfold shape, lost. rewrite map_map. apply map_ext. intros [[[x m] t] h]. reflexivity. Qed.
Lemma global_err q : is_path q ["INTERNAL_ERR"]%string = true -> exists s, global q = Done (VStr s).
Proof. intros E. apply is_path_eq in E. subst q. eexists. vm_compute. reflexivity. Qed.
Lemma done_env A (P : A -> Prop) sh o s1 : goes P o -> env_ok sh s1 -> good P sh (obindE o (fun v => Done (v, s1))).
Proof. intros H V. eapply goes_bind; [exact H|]. intros a Pa. split; assumption. Qed.
Lemma infer_sound e : sound e.
Proof.
  induction e as [e H] using expr_all. intros own s t s1 s' E V.
  assert (SL : forall l, Forall sound l -> forall s r s1 s', seqO (fun e s => inf e true s) l s = Some (r, s1) -> env_ok (shape s) s' -> good (Forall2 is_a r) (shape s) (seqM run l s')).
  { intros l F s0 r s2 s0' E0 V0. refine (proj2 (@seq_sound _ _ _ (fun e s => inf e true s) run is_a l _ _ _ _ _ E0 V0)). eapply Forall_impl; [|exact F]. intros a K s3 b s4 s5 E3 V5. split; [exact (@infer_keeps _ _ _ _ _ _ _ _ E3)|]. exact (K _ _ _ _ _ E3 V5). }
  assert (SR : forall l, Forall (fun x : str * expr => sound (snd x)) l -> forall s r s1 s', seqO (fun (x : str * expr) s => let? (t, s1) := inf (snd x) true s in Some ((fst x, t), s1)) l s = Some (r, s1) -> env_ok (shape s) s' ->
    good (Forall2 same_field r) (shape s) (seqM (fun (x : str * expr) s => obindE (run (snd x) s) (fun r => Done ((fst x, fst r), snd r))) l s')).
  { intros l F s0 r s2 s0' E0 V0. refine (proj2 (@seq_sound _ _ _ _ _ same_field l _ _ _ _ _ E0 V0)). eapply Forall_impl; [|exact F]. intros [x a] K s3 b s4 s5 E3 V5. apply obind_some in E3 as ([t' s''] & E3 & E4). injection E4 as <- <-. cbn [fst snd] in *. split; [exact (@infer_keeps _ _ _ _ _ _ _ _ E3)|]. eapply goes_bind; [exact (K _ _ _ _ _ E3 V5)|]. intros [w s6] [W V6]. split; [split; [reflexivity|exact W]|exact V6]. }
  assert (CL : forall a b s2 x body s3 s3', sound body -> inf body true ((x, false, a, true) :: lost s2) = Some (b, s3) -> forall v, is_a a v -> env_ok (shape s2) s3' ->
    good (is_a b) (shape s2) (obindE (run body ((x, false, v) :: s3')) (fun r => Done (fst r, leave s3' (snd r))))).
  { intros a b s2 x body s3 s3' K E0 v W V0. assert (V1 : env_ok (shape ((x, false, a, true) :: lost s2)) ((x, false, v) :: s3')).
    { unfold shape. cbn [map fst]. fold (shape (lost s2)). rewrite shape_lost. constructor; [split; [reflexivity|exact W]|exact V0]. }
    eapply goes_bind; [exact (K _ _ _ _ _ E0 V1)|]. intros [w s4] [W4 V4]. cbn [fst snd] in *. split; [exact W4|]. unfold shape in V4. cbn [map fst] in V4. fold (shape (lost s2)) in V4. rewrite shape_lost in V4. exact (leave_one V0 V4). }
  destruct e; cbn [parts] in H; cbn [infer] in E.
  - (* EPath *)
    assert (G : forall (Z : (if is_path p0 ["INTERNAL_ERR"]%string then if cx_err c then Some (SRef SStr, s) else None else let? t := at_name p0 constants in Some (t, s)) = Some (t, s1)), good (is_a t) (shape s) (obindE (global p0) (fun v => Done (v, s')))).
    { intros Z. apply done_env; [|exact V]. destruct (is_path p0 _) eqn:P.
      - destruct (global_err _ P) as (k & ->). destruct (cx_err c); [|discriminate]. injection Z as <- _. cbn. eauto.
      - apply obind_some in Z as (t' & A & Z). injection Z as <- _. destruct (constants_sound _ A) as (v & -> & W). exact W. }
    destruct p0 as [|x [|y p0]]; [exact (G E)| |exact (G E)]. cbn [eval]. pose proof (@env_lookup _ _ x V) as Lk. destruct (tlookup s x) as [[[m t'] here]|].
    + destruct here; [|discriminate]. injection E as <- _. destruct Lk as (v & -> & W). split; [exact W|exact V].
    + rewrite Lk. exact (G E).
  - injection E as <- <-. split; [cbn; eauto|exact V].
  - split; [|exact V]. destruct (str_eqb suffix (lit "usize")); [injection E as <- _; cbn; eauto|]. destruct (str_eqb suffix (lit "u8")); [injection E as <- _; cbn; eauto|discriminate].
  - injection E as <- <-. split; [cbn; eauto|exact V].
  - (* ECall *)
    set (lk := match p0 with [x] => tlookup s x | _ => None end) in E. destruct lk eqn:Lk; [discriminate|]. apply obind_some in E as ([ts s2] & E1 & E). apply obind_some in E as (t' & E2 & E). injection E as <- <-. cbn [eval].
    assert (NL : match p0 with [x] => match lookup s' x with Some _ => true | None => false end | _ => false end = false).
    { destruct p0 as [|x [|]]; try reflexivity. pose proof (@env_lookup _ _ x V) as L. subst lk. rewrite Lk in L. now rewrite L. }
    eapply goes_bind; [exact (SL _ H _ _ _ _ E1 V)|]. intros [vs s3] [W V3]. cbn [fst snd] in *. rewrite NL. apply done_env; [|exact V3]. apply gives_goes. destruct (builtin p0 vs) as [o|] eqn:B; [exact (@builtin_sound _ _ _ _ _ E2 W B)|exact (@calls _ _ _ _ E2 W B)].
  - (* EMethod *)
    destruct H as [H1 H2]. apply obind_some in E as ([t1 s2] & E1 & E). pose proof (@infer_keeps _ _ _ _ _ _ _ _ E1) as S1. cbn [eval]. eapply goes_bind; [exact (H1 _ _ _ _ _ E1 V)|]. intros [v s3] [W V3]. cbn [fst snd] in *.
    destruct (str_eqb m (lit "map")) eqn:Mp.
    + apply str_eqb_eq in Mp. subst m. destruct t1; try discriminate E. destruct turbofish; [|discriminate E]. destruct args as [|a [|]]; try discriminate E; try (destruct a; discriminate E). destruct a; try discriminate E. destruct (is_path p0 _) eqn:P; [|discriminate E]. apply is_path_eq in P. subst p0. apply obind_some in E as (b & E2 & E). injection E as <- <-. destruct W as (l & -> & F).
      change (good (is_a (SIter b)) (shape s) (Done (VIter l, s3))). split; [|exact V3]. exists l. split; [reflexivity|]. eapply Forall_impl; [|exact F]. intros w. apply into_sound. exact E2.
    + apply obind_some in E as ([ts s4] & E2 & E). apply obind_some in E as (r & E3 & E). rewrite <- S1 in V3. eapply goes_bind; [exact (SL _ H2 _ _ _ _ E2 V3)|]. intros [vs s5] [WS V5]. cbn [fst snd] in *. rewrite S1 in V5, V3. unfold invoke. change (mutating m) with (changing m). destruct (changing m) eqn:Ch.
      * assert (Et : t = r) by (clear -E; cases E; now injection E). subst t. eapply goes_bind; [exact (@mutate_sound _ _ _ _ _ _ _ E3 Ch W WS)|]. intros [w v'] [Ww Wv]. cbn [fst snd] in *.
        assert (D0 : good (is_a r) (shape s) (Done (w, s5))) by (split; assumption).
        destruct e; try exact D0. destruct p0 as [|x [|]]; try exact D0. destruct (tlookup s x) as [[[m0 tx] hx]|] eqn:Lk; [|discriminate E]. destruct m0; [|discriminate E]. pose proof (@env_lookup _ _ x V5) as L5. rewrite Lk in L5. destruct L5 as (v5 & -> & _).
        cbn [infer] in E1. rewrite Lk in E1. destruct hx; [|discriminate E1]. injection E1 as <- _. split; [exact Ww|]. cbn [snd]. exact (@env_update _ _ _ _ _ _ _ V5 Lk Wv).
      * injection E as <- <-. apply done_env; [|exact V5]. apply gives_goes. exact (@method_sound _ _ _ _ _ _ _ E3 Ch Mp W WS).
  - (* EMap *)
    destruct H as [H1 H2]. apply obind_some in E as ([t1 s2] & E1 & E). pose proof (@infer_keeps _ _ _ _ _ _ _ _ E1) as S1. cbn [eval]. eapply goes_bind; [exact (H1 _ _ _ _ _ E1 V)|]. intros [v s3] [W V3]. cbn [fst snd] in *. rewrite <- S1 in V3 |- *. destruct t1; try discriminate E.
    + apply obind_some in E as ([b s4] & E2 & E). injection E as <- <-. destruct W as (l & -> & F). cbn [map_val]. eapply goes_bind; [apply (@seq_map _ (is_a t1) (is_a b)); [|exact F|exact V3]|].
      * intros w s5 Ww V5. exact (CL _ _ _ _ _ _ _ H2 E2 w Ww V5).
      * intros [ws s5] [Ww V5]. split; [|exact V5]. cbn. eauto.
    + apply obind_some in E as ([b s4] & E2 & E). injection E as <- <-. destruct W as (tp & -> & F). cbn [map_val]. destruct tp as [|l|w0].
      * split; [cbn; eauto|exact V3]. 
      * eapply goes_bind; [apply (@seq_map _ (is_a t1) (is_a b)); [|exact F|exact V3]|].
        -- intros w s5 Ww V5. exact (CL _ _ _ _ _ _ _ H2 E2 w Ww V5).
        -- intros [ws s5] [Ww V5]. split; [|exact V5]. cbn. eauto.
      * eapply goes_bind; [exact (CL _ _ _ _ _ _ _ H2 E2 w0 F V3)|]. intros [ws s5] [Ww V5]. split; [|exact V5]. cbn. eauto.
  - apply obind_some in E as ([t1 s2] & E1 & E). apply obind_some in E as (r & E2 & E). injection E as <- <-. cbn [eval]. eapply goes_bind; [exact (H _ _ _ _ _ E1 V)|]. intros [v s3] [W V3]. cbn [fst snd] in *. apply done_env; [|exact V3]. apply gives_goes. exact (@get_sound _ _ _ _ E2 W).
  - apply obind_some in E as ([t1 s2] & E1 & E). apply obind_some in E as (r & E2 & E). destruct own; [discriminate|]. injection E as <- <-. cbn [eval]. eapply goes_bind; [exact (H _ _ _ _ _ E1 V)|]. intros [v s3] [W V3]. cbn [fst snd] in *. destruct (@first_sound _ _ _ E2 W) as (x & w & -> & Ww). split; assumption.
  - apply obind_some in E as ([t1 s2] & E1 & E). destruct t1; try discriminate E. destruct ret as [| | | | | | | | | | | | | | | | |rr| | | | | | | | | | | | | | | | | | | |] eqn:Er; try discriminate E. rewrite <- Er in *. injection E as <- <-. cbn [eval]. eapply goes_bind; [exact (H _ _ _ _ _ E1 V)|]. intros [v s3] [W V3]. cbn [fst snd] in *. destruct W as [(x & ->)|(w & -> & W)]; [|split; assumption]. exists x, rr. split; [reflexivity|exact Er].
  - apply obind_some in E as ([t1 s2] & E1 & E). injection E as <- <-. exact (H _ _ _ _ _ E1 V).
  - apply obind_some in E as ([t1 s2] & E1 & E). assert (X : exists a n, t1 = SBox (SArr a n) /\ is_byte a = false /\ t = SBox (SSlice a)).
    { clear -E. destruct t1 as [| | | | | | | | | | |a| | | | | | | | | | | | | | | | | | | | | | | | | |]; try discriminate E. destruct a; try discriminate E. destruct (_ && _) eqn:B; [|discriminate]. apply andb_true_iff in B as [_ B]. apply negb_true_iff in B. injection E as <- _. eauto. }
    destruct X as (a & n & -> & B & ->). cbn [eval]. eapply goes_impl; [exact (H _ _ _ _ _ E1 V)|]. intros [v s3] [W V3]. cbn [fst snd] in *. split; [|exact V3]. apply vt_box in W; [|reflexivity]. apply vt_arr in W; [|exact B]. destruct W as (l & -> & _ & F). exists l. auto.
  - destruct l as [|x [|y l]]; [injection E as <- <-; split; [reflexivity|exact V]|discriminate|]. apply obind_some in E as ([ts s2] & E1 & E). injection E as <- <-. cbn [eval]. eapply goes_bind; [exact (SL _ H _ _ _ _ E1 V)|]. intros [vs s3] [W V3]. split; [|exact V3]. apply vt_tuple. exists vs. split; [reflexivity|exact W].
  - apply obind_some in E as ([ts s2] & E1 & E). apply obind_some in E as (t' & E2 & E). injection E as <- <-. cbn [eval].
    assert (Ln : forall vs, Forall2 is_a ts vs -> len vs = len l).
    { intros vs W. unfold len. rewrite <- (Forall2_length W). f_equal. clear -E1. revert s ts s2 E1. induction l as [|x l IH]; intros s ts s2 E1; cbn [seqO] in E1; [injection E1 as <- _; reflexivity|]. apply obind_some in E1 as ([b s3] & _ & E). apply obind_some in E as ([bs s4] & E2 & E). injection E as <- _. cbn [length]. f_equal. exact (IH _ _ _ E2). }
    eapply goes_bind; [exact (SL _ H _ _ _ _ E1 V)|]. intros [vs s3] [W V3]. split; [|exact V3]. destruct (@common_sound _ _ _ E2 W) as [B F]. apply vt_arr; [exact B|]. exists vs. auto.
  - apply obind_some in E as ([t1 s2] & E1 & E). destruct t1; try discriminate E. injection E as <- <-. cbn [eval]. eapply goes_bind; [exact (H _ _ _ _ _ E1 V)|]. intros [v s3] [(k & ->) V3]. split; [|exact V3]. eexists. split; [reflexivity|]. unfold len. rewrite repeat_length. apply N2Nat.id.
  - apply obind_some in E as ([ts s2] & E1 & E). apply obind_some in E as (t' & E2 & E). injection E as <- <-. cbn [eval]. eapply goes_bind; [exact (SL _ H _ _ _ _ E1 V)|]. intros [vs s3] [W V3]. split; [|exact V3]. destruct (@common_sound _ _ _ E2 W) as [B F]. apply vt_vec; [exact B|]. exists vs. split; [reflexivity|exact F].
  - destruct H as [H1 H2]. apply obind_some in E as ([t1 s2] & E1 & E). injection E as <- <-. cbn [eval]. eapply goes_bind; [exact (@block_sound _ _ H1 H2 _ _ _ _ E1 V)|]. intros [v s3] (W & _ & V3). split; assumption.
  - apply obind_some in E as ([ts s2] & E1 & E). apply obind_some in E as (t' & E2 & E). injection E as <- <-. cbn [eval]. eapply goes_bind; [exact (SR _ H _ _ _ _ E1 V)|]. intros [vs s3] [W V3]. cbn [fst snd] in *. apply done_env; [|exact V3]. apply gives_goes. exact (@struct_sound _ _ _ _ E2 W).
  - apply obind_some in E as ([ts s2] & E1 & E). apply obind_some in E as (t' & E2 & E). injection E as <- <-. cbn [eval]. eapply goes_bind; [exact (SR _ H _ _ _ _ E1 V)|]. intros [vs s3] [W V3]. cbn [fst snd] in *. apply done_env; [|exact V3]. apply gives_goes. exact (@struct_sound _ _ _ _ E2 W).
  - apply obind_some in E as ([ts s2] & E1 & E). apply obind_some in E as (t' & E2 & E). injection E as <- <-. cbn [eval]. eapply goes_bind; [exact (SR _ H _ _ _ _ E1 V)|]. intros [vs s3] [W V3]. cbn [fst snd] in *. apply done_env; [|exact V3]. apply gives_goes. exact (@default_sound _ _ _ _ _ E2 W).
Qed.
End Sound.

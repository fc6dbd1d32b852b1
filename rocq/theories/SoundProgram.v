(** * Checked programs do not get stuck *)
From Verif Require Import Base BaseFacts StrFacts Types Function Event Contract Derive RustSyntax DeriveTree RustEval RustCheck CheckProgram SoundSpec SoundFacts SoundEval SoundCalls.
From Coq Require Import String Lia.
Set Implicit Arguments.
Notation length := List.length.
Notation obind := RustCheck.obind.
Notation obindE := RustEval.obind.
Local Open Scope N_scope.
Local Open Scope list_scope.

Lemma inside_ok items c : program_ok items = true -> inside items c -> module_ok c.
Proof.
  intros P. induction 1 as [|c doc x its _ IH I].
  - unfold program_ok in P. apply andb_true_iff in P as [P F]. apply andb_true_iff in P as [_ P]. split; [exact P|]. intros i Ii. rewrite forallb_forall in F. eauto.
  - destruct (proj2 IH _ I) as (o & H). cbn [item_ok] in H. apply andb_true_iff in H as [H F]. apply andb_true_iff in H as [_ H]. split; [exact H|]. cbn [cx_items]. intros i Ii. exists (cx_err c).
    set (inner := mkCtx _ _ _ _) in F |- *. clearbody inner. clear -F Ii. induction its as [|j its IHl]; [destruct Ii|]. apply andb_true_iff in F as [F1 F2]. destruct Ii as [->|Ii]; [exact F1|exact (IHl F2 Ii)].
Qed.
Definition typed (c : ctx) (vs : list str) (out : option rt) (f : fn) (ts : list rt) (r : rt) : Prop :=
  mapO (fun x : str * RustSyntax.ty => rt_of c vs out (snd x)) (fn_params f) = Some ts /\ rt_of c vs out (fn_ret f) = Some r.
Lemma fn_ok_typed c self f : fn_ok c self f = true -> exists ts r, typed c (map generic_var (generics_of f)) (option_map snd self) f ts r.
Proof.
  unfold fn_ok. intros H. apply andb_true_iff in H as [_ H]. destruct (mapO _ (fn_params f)) as [s|] eqn:E in H; [|discriminate]. destruct (rt_of _ _ _ (fn_ret f)) as [r|] eqn:R; [|discriminate]. destruct (typed_params _ _ _ _ E) as (_ & T & _). exists (map snd (map fst s)), r. split; assumption.
Qed.
Lemma program_sound p items c f : program_ok items = true -> inside items c -> In (IFn f) (cx_items c) ->
  exists ts r, mapO (fun x : str * RustSyntax.ty => rt_of c (map generic_var (generics_of f)) None (snd x)) (fn_params f) = Some ts /\ rt_of c (map generic_var (generics_of f)) None (fn_ret f) = Some r /\
  forall D n args, meets_bounds c (generics_of f) D -> Forall2 (of_rt c D) ts args -> 
    match run_fn p (called p n (cx_items c)) f args with Done v => of_rt c D r v | Panics => True | Return _ | Stuck => False end.
Proof.
  intros P In0 I. pose proof (inside_ok P In0) as OK. destruct (proj2 OK _ I) as (o & H). cbn [item_ok] in H. destruct (fn_ok_typed _ _ _ H) as (ts & r & T & R). exists ts, r. split; [exact T|]. split; [exact R|]. intros D n args M A.
  pose proof (@run_sound p c None f D (called p n (cx_items c)) ts r args H M (newtypes_ok OK) (@calls_sound p c OK n D) T R A) as G. destruct (run_fn _ _ _ _); exact G.
Qed.
Lemma impl_sound p items c trait x assoc t f : program_ok items = true -> inside items c -> In (IImpl trait x assoc t f) (cx_items c) ->
  exists ts r u, rt_of c [] None t = Some u /\ mapO (fun y : str * RustSyntax.ty => rt_of c [] (Some u) (snd y)) (fn_params f) = Some ts /\ rt_of c [] (Some u) (fn_ret f) = Some r /\
  forall D n v args, of_rt c D (SLocal (cx_here c ++ [x])) v -> Forall2 (of_rt c D) ts args ->
    match run_fn p (called p n (cx_items c)) f (v :: args) with Done v => of_rt c D r v | Panics => True | Return _ | Stuck => False end.
Proof.
  intros P In0 I. pose proof (inside_ok P In0) as OK. destruct (proj2 OK _ I) as (o & H). cbn [item_ok] in H. apply andb_true_iff in H as [H Hf]. destruct (newtype_of x (cx_items c)); [|discriminate]. destruct (rt_of c [] None t) as [u|]; [|discriminate].
  assert (Gs : generics_of f = []).
  { apply andb_true_iff in H as [H _]. apply andb_true_iff in H as [_ H]. unfold decode_signature in H. repeat (apply andb_true_iff in H as [H ?H]). unfold generics_of. destruct (fn_generics f); [discriminate|reflexivity]. }
  destruct (fn_ok_typed _ _ _ Hf) as (ts & r & T & R). rewrite Gs in T, R. cbn [map option_map snd] in T, R. exists ts, r, u. split; [reflexivity|]. split; [exact T|]. split; [exact R|]. intros D n v args V A.
  assert (M : meets_bounds c (generics_of f) D) by (rewrite Gs; intros xx g Bx; discriminate Bx).
  assert (G : gives c D r (run_fn p (called p n (cx_items c)) f (v :: args))).
  { apply (@run_sound p c (Some (SLocal (cx_here c ++ [x]), u)) f D (called p n (cx_items c)) ts r (v :: args) Hf M (newtypes_ok OK) (@calls_sound p c OK n D)); [rewrite Gs; exact T|rewrite Gs; exact R|]. constructor; assumption. }
  destruct (run_fn _ _ _ _); exact G.
Qed.

(** ** The depth of calls *)
Definition cut {A} (o o' : out A) : Prop := o = o' \/ o = Stuck /\ o' = Panics.
Lemma cut_bind A B (o o' : out A) (f g : A -> out B) : cut o o' -> (forall a, cut (f a) (g a)) -> cut (obindE o f) (obindE o' g).
Proof. intros [->|[-> ->]] H; [|right; auto]. destruct o'; cbn; [apply H|left; reflexivity|left; reflexivity|left; reflexivity]. Qed.
Lemma cut_same A (o : out A) : cut o o.
Proof. now left. Qed.
Section Cut.
Context (p : profile) (c1 c2 : path -> list val -> out val) (H : forall q vs, cut (c1 q vs) (c2 q vs)).
Definition cuts (e : expr) : Prop := forall s, cut (eval p c1 e s) (eval p c2 e s).
Lemma cut_seq A B (f g : A -> env -> out (B * env)) l : Forall (fun a => forall s, cut (f a s) (g a s)) l -> forall s, cut (seqM f l s) (seqM g l s).
Proof. induction 1 as [|a l Ha _ IH]; intros s; cbn [seqM]; [apply cut_same|]. fold (seqM f) (seqM g). apply cut_bind; [apply Ha|]. intros r. apply cut_bind; [apply IH|]. intros rs. apply cut_same. Qed.
Lemma eval_cuts e : cuts e.
Proof.
  induction e as [e Hp] using expr_all. intros s.
  assert (SL : forall l, Forall cuts l -> forall s, cut (seqM (eval p c1) l s) (seqM (eval p c2) l s)) by (intros l F; apply cut_seq; exact F).
  assert (SR : forall l, Forall (fun x : str * expr => cuts (snd x)) l -> forall s, cut (seqM (fun (x : str * expr) s => obindE (eval p c1 (snd x) s) (fun r => Done ((fst x, fst r), snd r))) l s) (seqM (fun (x : str * expr) s => obindE (eval p c2 (snd x) s) (fun r => Done ((fst x, fst r), snd r))) l s)).
  { intros l F. apply cut_seq. eapply Forall_impl; [|exact F]. intros a K s0. apply cut_bind; [apply K|]. intros r. apply cut_same. }
  destruct e; cbn [parts] in Hp; cbn [eval]; try apply cut_same.
  - apply cut_bind; [apply SL, Hp|]. intros r. destruct (match p0 with [x] => _ | _ => false end); [apply cut_same|]. apply cut_bind; [|intros v; apply cut_same]. destruct (builtin p0 (fst r)); [apply cut_same|apply H].
  - apply cut_bind; [apply Hp|]. intros r. apply cut_bind; [apply SL, Hp|]. intros rs. apply cut_same.
  - destruct Hp as [H1 H2]. apply cut_bind; [apply H1|]. intros r. 
    assert (K : forall v s, cut (obindE (eval p c1 e2 ((x, false, v) :: s)) (fun r => Done (fst r, leave s (snd r)))) (obindE (eval p c2 e2 ((x, false, v) :: s)) (fun r => Done (fst r, leave s (snd r))))) by (intros v s0; apply cut_bind; [apply H2|intros r0; apply cut_same]).
    destruct (fst r); cbn [map_val]; try apply cut_same.
    + apply cut_bind; [|intros r0; apply cut_same]. apply cut_seq. apply Forall_forall. intros v _ s0. apply K.
    + destruct t as [|l|w]; [apply cut_same| |].
      * apply cut_bind; [|intros r0; apply cut_same]. apply cut_seq. apply Forall_forall. intros v _ s0. apply K.
      * apply cut_bind; [apply K|intros r0; apply cut_same].
  - apply cut_bind; [apply Hp|]. intros r. apply cut_same.
  - apply cut_bind; [apply Hp|]. intros r. apply cut_same.
  - apply cut_bind; [apply Hp|]. intros r. apply cut_same.
  - apply Hp.
  - apply Hp.
  - destruct l; [apply cut_same|]. apply cut_bind; [apply SL, Hp|]. intros r. apply cut_same.
  - apply cut_bind; [apply SL, Hp|]. intros r. apply cut_same.
  - apply cut_bind; [apply Hp|]. intros r. apply cut_same.
  - apply cut_bind; [apply SL, Hp|]. intros r. apply cut_same.
  - destruct Hp as [H1 H2]. apply cut_bind; [|intros r; apply cut_same]. clear SL SR. revert s. induction H1 as [|x l Hx _ IH]; intros s; [apply H2|]. apply cut_bind; [apply Hx|]. intros r. apply IH.
  - apply cut_bind; [apply SR, Hp|]. intros r. apply cut_same.
  - apply cut_bind; [apply SR, Hp|]. intros r. apply cut_same.
  - apply cut_bind; [apply SR, Hp|]. intros r. apply cut_same.
Qed.
Lemma run_cuts f args : cut (run_fn p c1 f args) (run_fn p c2 f args).
Proof.
  unfold run_fn. destruct (_ && _); [|apply cut_same]. match goal with |- cut (match eval p c1 ?e ?s with _ => _ end) _ => pose proof (eval_cuts e s) as K end. destruct K as [->|[-> ->]]; [apply cut_same|right; auto].
Qed.
End Cut.
Lemma call_cuts p items n : forall q vs, cut (call p n items q vs) (called p n items q vs).
Proof.
  induction n as [|n IH]; intros q vs; cbn [call called]; [right; auto|]. destruct (resolve items q vs) as [[f|x]|]; try apply cut_same. apply run_cuts. exact IH.
Qed.
Lemma depth_only p n items f args : run_fn p (call p n items) f args = run_fn p (called p n items) f args \/ run_fn p (call p n items) f args = Stuck /\ run_fn p (called p n items) f args = Panics.
Proof. apply run_cuts. apply call_cuts. Qed.

(** ** Generated code *)
Lemma generated_sound p c fs es d items : derive_contract p c fs es = Ok d -> contract_tree c fs es = Ok items -> forall m f, inside items m -> In (IFn f) (cx_items m) ->
  exists ts r, mapO (fun x : str * RustSyntax.ty => rt_of m (map generic_var (generics_of f)) None (snd x)) (fn_params f) = Some ts /\ rt_of m (map generic_var (generics_of f)) None (fn_ret f) = Some r /\
  forall q D n args, meets_bounds m (generics_of f) D -> Forall2 (of_rt m D) ts args -> 
    match run_fn q (called q n (cx_items m)) f args with Done v => of_rt m D r v | Panics => True | Return _ | Stuck => False end.
Proof.
  intros E T m f Im If. assert (P : program_ok items = true) by (apply (@program_exact p c fs es items T); eauto).
  destruct (@program_sound p _ _ _ P Im If) as (ts & r & T1 & R1 & _). exists ts, r. split; [exact T1|]. split; [exact R1|]. intros q D n args M A.
  destruct (@program_sound q _ _ _ P Im If) as (ts' & r' & T2 & R2 & G). rewrite T1 in T2. rewrite R1 in R2. injection T2 as <-. injection R2 as <-. apply G; assumption.
Qed.

(** * Facts about derived interfaces *)
From Verif Require Import Base BaseFacts StrFacts Types TypeNames TypeNamesSpec Encoder EncoderTotal Decoder AbiSpec EncoderFacts DecoderProps CodecLemmas Keccak
  Function FunctionFacts Tokenizer TokenFacts Event EventSpec EventFacts FilterFacts Json Contract Heck HeckFacts Derive DeriveSpec.
From Coq Require Import String.
From Coq Require Import ZifyBool ZifyNat ZifyN Lia.
Set Implicit Arguments.
Local Open Scope N_scope.
Local Open Scope list_scope.
Notation length := List.length.

(** ** Types *)
Lemma rust_type_ok t : (exists y, rust_type t = Ok y) <-> no_tuple t = true.
Proof.
  induction t using ParamType_ind'; cbn [rust_type no_tuple]; try (split; [easy|eauto]; fail).
  - rewrite <- IHt. split; intros [y E]; [apply bind_ok in E as (a & E & _); eauto|rewrite E; cbn; eauto].
  - rewrite <- IHt. split; intros [y E]; [apply bind_ok in E as (a & E & _); eauto|rewrite E; cbn; eauto].
  - split; [intros [y E]|]; discriminate.
Qed.
Lemma plain_rust t y : rust_type t = Ok y -> compiles y = plain_type t.
Proof.
  revert y. induction t using ParamType_ind'; intros y E; cbn [rust_type] in E; try (injection E as <-; reflexivity).
  - apply bind_ok in E as (a & E & Q). injection Q as <-. cbn [compiles plain_type]. auto.
  - injection E as <-. now destruct (n =? 32).
  - apply bind_ok in E as (a & E & Q). injection Q as <-. reflexivity.
  - discriminate.
Qed.
Lemma plain_no_tuple t : plain_type t = true -> no_tuple t = true.
Proof. induction t using ParamType_ind'; cbn; auto; discriminate. Qed.
Lemma argument_no_tuple t : argument_type t = true -> no_tuple t = true.
Proof. destruct t; cbn [argument_type]; intros H; exact (plain_no_tuple _ H). Qed.
Lemma template_ok t b : template_param_type t = Ok b -> bound_compiles b = argument_type t.
Proof.
  destruct t; cbn [template_param_type rust_type]; intros E; try (injection E as <-; reflexivity).
  - apply bind_ok in E as (a & E & Q). injection Q as <-. cbn [bound_compiles argument_type plain_type]. now apply plain_rust.
  - cbn [bind] in E. injection E as <-. cbn. now destruct (size =? 32).
  - apply bind_ok in E as (a & E & Q). injection Q as <-. cbn [bound_compiles argument_type]. now apply plain_rust.
  - discriminate.
Qed.
Lemma to_syntax_ok t k : to_syntax t = Ok k <-> k = t /\ no_tuple t = true.
Proof.
  revert k. induction t using ParamType_ind'; intros k; cbn [to_syntax no_tuple]; try (split; [intros E; injection E as <-; auto|intros [-> _]; reflexivity]; fail).
  - split.
    + intros E. apply bind_ok in E as (a & E & Q). apply IHt in E as [-> N]. injection Q as <-. auto.
    + intros [-> N]. rewrite (proj2 (IHt t)) by auto. reflexivity.
  - split.
    + intros E. apply bind_ok in E as (a & E & Q). apply IHt in E as [-> N]. injection Q as <-. auto.
    + intros [-> N]. rewrite (proj2 (IHt t)) by auto. reflexivity.
  - split; [discriminate|intros [_ ?]; discriminate].
Qed.

(** ** Values *)
Lemma denotes_value t y : plain_type t = true -> rust_type t = Ok y -> forall v, of_type y v <-> exists x, denotes t v x.
Proof.
  revert y. induction t using ParamType_ind'; intros y P R v; cbn [rust_type plain_type] in *; try discriminate; try (injection R as <-); cbn [of_type denotes].
  - split; [intros (a & L & ->); exists (TAddress a); eauto|intros (x & a & L & -> & _); eauto].
  - split; [intros (a & ->); exists (TBytes a); eauto|intros (x & a & -> & _); eauto].
  - split; [intros (a & L & ->); exists (TInt a); eauto|intros (x & a & L & -> & _); eauto].
  - split; [intros (a & L & ->); exists (TUint a); eauto|intros (x & a & L & -> & _); eauto].
  - split; [intros (a & ->); exists (TBool a); eauto|intros (x & a & -> & _); eauto].
  - split; [intros (a & L & ->); exists (TString a); eauto|intros (x & a & L & -> & _); eauto].
  - apply bind_ok in R as (y' & R & Q). injection Q as <-. specialize (IHt y' P R). cbn [of_type]. split.
    + intros (vs & F & ->). assert (E : exists xs, Forall2 (denotes t) vs xs).
      { induction F as [|v0 vs0 V F [xs IH]]; [exists []; constructor|]. apply IHt in V as [x V]. exists (x :: xs). now constructor. }
      destruct E as [xs E]. exists (TArray xs), vs, xs. auto.
    + intros (x & vs & xs & F & -> & _). exists vs. split; [|reflexivity]. induction F; constructor; auto. apply IHt. eauto.
  - destruct (N.eqb_spec n 32) as [->|NE]; cbn [of_type]; (split; [intros (a & L & ->); exists (TFixedBytes a); eauto|intros (x & a & L & -> & _); eauto]).
Qed.
Lemma denotes_typed t : forall v x, denotes t v x -> has_type x t = true.
Proof.
  induction t using ParamType_ind'; intros v x D; cbn [denotes has_type] in *; try easy.
  - destruct D as (a & L & _ & ->). lia.
  - destruct D as (a & _ & ->). reflexivity.
  - destruct D as (a & L & _ & ->). lia.
  - destruct D as (a & L & _ & ->). lia.
  - destruct D as (a & _ & ->). reflexivity.
  - destruct D as (a & L & _ & ->). exact L.
  - destruct D as (vs & xs & F & _ & ->). apply forallb_forall. intros x I. induction F as [|v0 y0 vs0 ys0 D F IH]; [easy|].
    destruct I as [<-|I]; eauto.
  - destruct D as (a & L & _ & ->). lia.
Qed.
Lemma denotes_exists t : plain_type t = true -> forall x, has_type x t = true -> exists v, denotes t v x.
Proof.
  induction t using ParamType_ind'; intros P x T; cbn [plain_type] in P; try discriminate; destruct x; try discriminate; cbn [has_type denotes] in *.
  - exists (RAddress a), a. repeat split. lia.
  - eexists. eauto.
  - eexists. exists n0. repeat split. lia.
  - eexists. exists n0. repeat split. lia.
  - eexists. eauto.
  - eexists. eauto.
  - assert (E : exists ws, Forall2 (denotes t) ws vs).
    { induction vs as [|x vs IH]; [exists []; constructor|]. cbn [forallb] in T. apply andb_true_iff in T as [T1 T2].
      destruct (IH T2) as [ws F]. destruct (IHt P x T1) as [v V]. exists (v :: ws). now constructor. }
    destruct E as [ws E]. eexists. exists ws, vs. auto.
  - eexists. exists b. split; [lia|auto].
Qed.
Lemma to_token_ok t : no_tuple t = true -> exists f, to_token t = Ok f /\ forall v x, denotes t v x -> f v = Ok x.
Proof.
  induction t using ParamType_ind'; intros P; cbn [no_tuple to_token denotes] in *; try discriminate;
    try (eexists; split; [reflexivity|]; intros v x D; first [destruct D as (a & -> & ->)|destruct D as (a & _ & -> & ->)|idtac]; try reflexivity; fail).
  - destruct (IHt P) as (f & -> & H). cbn [bind]. eexists. split; [reflexivity|]. intros v x (vs & xs & F & -> & ->).
    rewrite (proj2 (mapM_ok f vs xs)); [reflexivity|]. induction F; constructor; auto.
  - eexists. split; [reflexivity|]. intros v x (b & L & -> & ->). now destruct (n =? 32).
  - destruct (IHt P) as (f & -> & H). cbn [bind]. eexists. split; [reflexivity|]. easy.
Qed.
Lemma from_token_ok t : no_tuple t = true -> exists g, from_token t = Ok g /\
  forall v x, denotes t v x -> g x = Ok v.
Proof.
  induction t using ParamType_ind'; intros P; cbn [no_tuple from_token denotes] in *; try discriminate;
    try (eexists; split; [reflexivity|]; intros v x D; first [destruct D as (a & -> & ->)|destruct D as (a & _ & -> & ->)|idtac]; try reflexivity; fail).
  - destruct (IHt P) as (g & -> & H). cbn [bind]. eexists. split; [reflexivity|]. intros v x (vs & xs & F & -> & ->).
    cbn [into_array expect bind]. rewrite (proj2 (mapM_ok g xs vs)); [reflexivity|]. induction F; constructor; auto.
  - destruct (N.eqb_spec n 32) as [->|NE]; (eexists; split; [reflexivity|]); intros v x (b & L & -> & ->);
      cbn [into_fixed_bytes expect bind]; rewrite copy_id by exact L; reflexivity.
  - destruct (IHt P) as (g & -> & H). cbn [bind]. eexists. split; [reflexivity|]. easy.
Qed.
(** Of well-formed tokens exactly those of the type are converted; on all
    others the generated code panics. *)
Lemma mapM_denotes g t l : (forall x, wf_token x = true -> (forall v, g x = Ok v -> denotes t v x) /\ ((forall v, ~ denotes t v x) -> g x = Panic)) ->
  (forall v x, denotes t v x -> g x = Ok v) -> forallb wf_token l = true ->
  (forall vs, mapM g l = Ok vs -> Forall2 (denotes t) vs l) /\ ((forall vs, ~ Forall2 (denotes t) vs l) -> mapM g l = Panic).
Proof.
  intros H O. induction l as [|x l IH]; intros W.
  - split; [intros vs E; injection E as <-; constructor|]. intros N. destruct (N [] (Forall2_nil _)).
  - cbn [forallb] in W. apply andb_true_iff in W as [W1 W2]. destruct (IH W2) as [A B]. destruct (H x W1) as [A' B']. cbn [mapM]. split.
    + intros vs E. apply bind_ok in E as (v & Ev & E). apply bind_ok in E as (vs' & Es & E). injection E as <-. constructor; auto.
    + intros N. destruct (g x) as [v|e|] eqn:G; cbn [bind].
      * rewrite B; [reflexivity|]. intros vs F. apply (N (v :: vs)). constructor; auto.
      * enough (g x = Panic) by congruence. rewrite G. apply B'. intros v D. apply O in D. congruence.
      * reflexivity.
Qed.
Lemma from_token_only t : plain_type t = true -> exists g, from_token t = Ok g /\ forall x, wf_token x = true ->
  (forall v, g x = Ok v <-> denotes t v x) /\ ((forall v, ~ denotes t v x) -> g x = Panic).
Proof.
  intros P. destruct (from_token_ok t (plain_no_tuple _ P)) as (g & E & O). exists g. split; [exact E|].
  enough (H : forall x, wf_token x = true -> (forall v, g x = Ok v -> denotes t v x) /\ ((forall v, ~ denotes t v x) -> g x = Panic)).
  { intros x W. destruct (H x W) as [A B]. split; [|exact B]. intros v. split; auto. }
  revert g E O. induction t using ParamType_ind'; intros g E O x W; cbn [plain_type from_token denotes] in *; try discriminate;
    try (injection E as <-; destruct x; cbn [into_address into_bytes into_int into_uint into_bool into_string expect rmap wf_token] in *;
         try (split; [intros w Q; discriminate Q|intros _; reflexivity]);
         (split; [intros w Q; injection Q as <-|intros N; exfalso; eapply N]);
         repeat match goal with H : _ && _ = true |- _ => apply andb_true_iff in H as [? ?] | H : (_ =? _) = true |- _ => apply N.eqb_eq in H | H : (_ <? _) = true |- _ => apply N.ltb_lt in H end;
         eexists; repeat (split; [eassumption|]); split; reflexivity).
  - apply bind_ok in E as (g' & E & Q). injection Q as <-. destruct (from_token_ok t (plain_no_tuple _ P)) as (g'' & E' & O'). rewrite E in E'. injection E' as <-.
    specialize (IHt P g' E O'). destruct x as [| | | | | | |l|l|]; cbn in *; try (split; [discriminate|reflexivity]).
    destruct (@mapM_denotes g' t l IHt O' W) as [A B]. split.
    + intros v Q. apply bind_ok in Q as (vs & Ev & Q). injection Q as <-. exists vs, l. auto.
    + intros N. rewrite B; [reflexivity|]. intros vs F. apply (N (RVec vs)). exists vs, l. auto.
  - destruct (N.eqb_spec n 32) as [->|NE]; injection E as <-; destruct x as [| |b| | | | | | |]; cbn in *; try (split; [discriminate|reflexivity]);
      unfold copy_from_slice; (match goal with |- context [len b =? ?k] => destruct (N.eqb_spec (len b) k) as [L|L] end; cbn [rmap]);
      (split; [intros w Q; inversion Q; subst; eauto|intros N; try reflexivity; exfalso; eapply N; eauto]).
Qed.
Lemma denotes_unique t v x x' : plain_type t = true -> denotes t v x -> denotes t v x' -> x' = x.
Proof.
  intros P D D'. destruct (to_token_ok t (plain_no_tuple _ P)) as (f & _ & H). apply H in D. apply H in D'. congruence.
Qed.
Lemma denotes_unique' t v v' x : plain_type t = true -> denotes t v x -> denotes t v' x -> v' = v.
Proof.
  intros P D D'. destruct (from_token_ok t (plain_no_tuple _ P)) as (f & _ & H). apply H in D. apply H in D'. congruence.
Qed.
Lemma argument_typed t v x : argument t v x -> has_type x t = true.
Proof.
  intros A. destruct t; try exact (denotes_typed _ _ _ A). destruct A as (vs & xs & L & F & _ & ->). cbn [has_type].
  assert (L' : len xs = len vs) by (unfold len; now rewrite (Forall2_length F)).
  rewrite L', L, N.eqb_refl. cbn [andb]. apply forallb_forall. intros x I. clear -F I. induction F as [|v0 y0 vs0 ys0 D F IH]; [easy|].
  destruct I as [<-|I]; eauto using denotes_typed.
Qed.
Lemma argument_token t : argument_type t = true -> exists f, to_token t = Ok f /\
  forall v x, argument t v x -> f (from_template_param t v) = Ok x.
Proof.
  intros A. pose proof (argument_no_tuple _ A) as N. destruct t as [| | | | | |t|n|t n|ts]; cbn [argument_type plain_type] in A; try discriminate;
    try (destruct (to_token_ok _ N) as (f & E & H); exists f; split; [exact E|]; intros v x D; cbn [argument] in D;
         apply H in D; destruct v; exact D).
  cbn [to_token no_tuple] in *. destruct (to_token_ok t N) as (f & -> & H). cbn [bind]. eexists. split; [reflexivity|].
  intros v x (vs & xs & L & F & -> & ->). cbn [from_template_param].
  rewrite (proj2 (mapM_ok f vs xs)); [reflexivity|]. clear -F H. induction F; constructor; auto.
Qed.
Lemma argument_meets t b : argument_type t = true -> template_param_type t = Ok b -> forall v, meets b v <-> exists x, argument t v x.
Proof.
  intros A B v. destruct t as [| | | | | |t|n|t n|ts]; cbn [argument_type plain_type template_param_type] in *; try discriminate;
    try (apply bind_ok in B as (y & R & Q); injection Q as <-; cbn [meets argument];
         match goal with |- context [denotes ?t] => apply (@denotes_value t y); [exact A|exact R] end).
  - apply bind_ok in B as (y & R & Q). injection Q as <-. cbn [meets argument].
    rewrite <- (@denotes_value (PArray t) (YVec y)); [reflexivity|exact A|]. cbn [rust_type]. now rewrite R.
  - apply bind_ok in B as (y & R & Q). injection Q as <-. cbn [meets argument]. split.
    + intros (vs & L & F & ->). assert (E : exists xs, Forall2 (denotes t) vs xs).
      { clear L. induction F as [|v0 vs0 V F [xs IH]]; [exists []; constructor|]. apply (@denotes_value t y A R) in V as [x V]. exists (x :: xs). now constructor. }
      destruct E as [xs E]. exists (TFixedArray xs), vs, xs. auto.
    + intros (x & vs & xs & L & F & -> & _). exists vs. split; [exact L|]. split; [|reflexivity].
      clear L. induction F; constructor; auto. apply (@denotes_value t y A R). eauto.
Qed.

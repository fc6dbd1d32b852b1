(** * How deep the calls are nested that read a value, exactly *)
From Verif Require Import Base BaseFacts StrFacts Types Tokenizer Work Stack StackSpec StackFacts StackBound TextStack.
From Coq Require Import Lia ZifyBool ZifyNat ZifyN.
Set Implicit Arguments.
Local Open Scope N_scope.
Local Open Scope list_scope.

Section Items.
Context {St C : Type} (next : St -> str -> res (Token * St)) (cost : C -> str -> N) (left : C -> C) (op cl : char) (value : str).
Lemma char_step s params pos ch s' params' : token_char next op cl value s params pos ch = Ok (s', params') ->
  match asked (token_char (fun _ : St => ask) op cl value s params pos ch) with
  | Some sub => exists v, next params sub = Ok (v, params') /\ tk_result s' = v :: tk_result s
  | None => params' = params /\ tk_result s' = tk_result s
  end.
Proof.
  assert (T : forall n, take_item next value s params n pos = Ok (s', params') ->
    match asked (take_item (fun _ : St => ask) value s params n pos) with
    | Some sub => exists v, next params sub = Ok (v, params') /\ tk_result s' = v :: tk_result s
    | None => params' = params /\ tk_result s' = tk_result s
    end).
  { intros n. unfold take_item. intros H. apply bind_ok in H as (sub & -> & H). apply bind_ok in H as ((v & q) & E & H). injection H as <- <-. cbn [bind ask asked]. exists v. now rewrite E. }
  unfold token_char. destruct (_ && _); [intros H; injection H as <- <-; now cbn|]. destruct (_ && _).
  - cbv zeta. destruct (_ <? 0)%Z; [discriminate|]. destruct (_ =? 0)%Z; [apply T|]. intros H; injection H as <- <-. now cbn.
  - destruct (_ =? ch_quote); [intros H; injection H as <- <-; now cbn|]. destruct (_ && _); [apply T|]. intros H; injection H as <- <-. now cbn.
Qed.
(** [h g vs]: what reading [vs] takes where [g] is left to read *)
Context {G : Type} (Rel : G -> St -> C -> Prop) (h : G -> list Token -> N).
Hypothesis Hnil : forall g, h g [] = 0.
Hypothesis Hnext : forall g params costs sub v params', Rel g params costs -> next params sub = Ok (v, params') ->
  exists g', Rel g' params' (left costs) /\ forall vs, h g (v :: vs) = N.max (cost costs sub) (h g' vs).
Lemma items_exact rest : forall pos s params costs g s', Rel g params costs -> token_loop next op cl value rest pos s params = Ok s' ->
  exists vs, tk_result s' = rev vs ++ tk_result s /\ items_calls next cost left op cl value rest pos s params costs = h g vs.
Proof.
  induction rest as [|ch rest IH]; intros pos s params costs g s' HR H; cbn [token_loop items_calls] in *.
  - injection H as <-. exists []. now rewrite Hnil.
  - apply bind_ok in H as ((s1 & q) & E & H). cbv zeta. pose proof (char_step _ _ _ _ E) as P. rewrite E. unfold cost_asked. destruct (asked _) as [sub|].
    + destruct P as (v & Ev & R). destruct (Hnext HR Ev) as (g' & HR' & Hg). destruct (IH _ _ _ _ _ _ HR' H) as (vs & Evs & ->). exists (v :: vs). split.
      * rewrite Evs, R. cbn [rev]. now rewrite <- app_assoc.
      * now rewrite Hg.
    + destruct P as [-> R]. destruct (IH _ _ _ _ _ _ HR H) as (vs & Evs & ->). exists vs. split; [now rewrite Evs, R|]. now rewrite N.max_0_l.
Qed.
Lemma group_exact params costs g vs : Rel g params costs -> tokenize_items next op cl value params = Ok vs -> group_calls next cost left op cl value params costs = 1 + h g vs.
Proof.
  unfold tokenize_items, group_calls. intros HR. destruct (_ || _); [discriminate|]. destruct (_ =? 2); [intros H; injection H as <-; now rewrite Hnil|].
  intros H. apply bind_ok in H as (s & E & H). destruct (tk_ignore s); [discriminate|]. injection H as <-. destruct (items_exact _ _ _ HR E) as (us & R & ->). cbn [tk_result] in R. now rewrite R, app_nil_r, rev_involutive.
Qed.
End Items.
Definition fields_calls (own : ParamType -> N) : list ParamType -> list Token -> N :=
  fix go ts vs := match ts, vs with t :: ts', v :: vs' => N.max (text_calls own t v) (go ts' vs') | _, _ => 0 end.
Lemma array_exact T own t s a : (forall s v, tokenize T t s = Ok v -> value_calls T own t s = text_calls own t v) -> tokenize_items (next_element (tokenize T t)) 91 93 s tt = Ok a ->
  group_calls (next_element (tokenize T t)) (fun _ => value_calls T own t) (fun u : unit => u) 91 93 s tt tt = 1 + most (text_calls own t) a.
Proof.
  intros IH E. refine (@group_exact _ _ (next_element (tokenize T t)) (fun _ => value_calls T own t) (fun u : unit => u) 91 93 s unit (fun _ _ _ => True) (fun _ => most (text_calls own t)) _ _ tt tt tt a Logic.I E); [reflexivity|].
  intros _ u c sub v u' _ H. apply bind_ok in H as (w & H & W). injection W as <- <-. exists tt. split; [exact Logic.I|]. intros vs. cbn [most]. now rewrite (IH _ _ H).
Qed.
Lemma value_exact T own t : forall s v, tokenize T t s = Ok v -> value_calls T own t s = text_calls own t v.
Proof.
  induction t using ParamType_ind'; intros s v E; cbn [tokenize value_calls] in *; unfold rmap in E; apply bind_ok in E as (a & E & W); injection W as <-.
  all: try reflexivity.
  - cbn [text_calls]. rewrite (@array_exact T own _ _ _ IHt E). lia.
  - apply bind_ok in E as (b & E & L). destruct (_ =? _); [|discriminate]. injection L as <-. cbn [text_calls]. rewrite (@array_exact T own _ _ _ IHt E). lia.
  - cbn [text_calls]. change ((fix go ts vs := match ts, vs with t :: ts', v :: vs' => N.max (text_calls own t v) (go ts' vs') | _, _ => 0 end) ts a) with (fields_calls own ts a).
    rewrite (@group_exact _ _ next_field (fun (l : list (str -> N)) s => match l with [] => 0 | f :: _ => f s end) (@tl _) 40 41 s (list ParamType)
      (fun us l c => l = map (tokenize T) us /\ c = map (value_calls T own) us /\ Forall (fun t => forall s v, tokenize T t s = Ok v -> value_calls T own t s = text_calls own t v) us) (fields_calls own)) with (g := ts) (vs := a); [lia| | | |exact E].
    + intros []; reflexivity.
    + intros us l c sub v l' (-> & -> & F) N. destruct us as [|u us]; cbn [map next_field] in N; [discriminate|]. apply bind_ok in N as (w & N & W). injection W as <- <-. exists us. split.
      * cbn [map tl]. repeat split. now apply Forall_inv_tail in F.
      * intros vs. cbn [map fields_calls]. f_equal. symmetry. exact (Forall_inv F _ _ N).
    + auto.
Qed.

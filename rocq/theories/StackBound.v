(** * How the nesting of calls is bounded *)
From Verif Require Import Base BaseFacts StrFacts Types TypeNames TypeNamesSpec Function Event Json Contract ReaderSpec ReaderFacts ReaderTotal ReaderGrammar ReaderExact ReaderNested Encoder Decoder AbiSpec WrapSpec EncoderFacts EncoderTotal DecoderFacts CodecLemmas WrapFacts MemSpec DepthSpec DepthFacts DepthJson Stack StackErase StackSpec StackFacts.
From Coq Require Import String Lia ZifyBool ZifyNat ZifyN.
Set Implicit Arguments.
Notation length := List.length.
Local Open Scope N_scope.
Local Open Scope list_scope.

Lemma bind_most A B (r : stack A) (k : A -> stack B) n : fst r <= n -> (forall a, snd r = Ok a -> fst (k a) <= n) -> fst (sbind r k) <= n.
Proof. intros H K. unfold sbind. destruct (snd r) as [a|e|]; cbn [fst]; [|exact H..]. specialize (K a eq_refl). lia. Qed.
Lemma most_le A (f : A -> N) l n : Forall (fun x => f x <= n) l -> most f l <= n.
Proof. induction 1; cbn [most]; lia. Qed.
Lemma most_in A (f : A -> N) l x : In x l -> f x <= most f l.
Proof. induction l as [|y l IH]; [easy|]. intros [->|I]; cbn [most]; [lia|]. specialize (IH I). lia. Qed.
Lemma most_mono A (f g : A -> N) l : Forall (fun x => f x <= g x) l -> most f l <= most g l.
Proof. induction 1; cbn [most]; lia. Qed.
Lemma most_until_le A (q : A -> bool) (f : A -> N) l : most_until q f l <= most f l.
Proof. induction l as [|x l IH]; cbn [most most_until]; [lia|]. destruct (q x); lia. Qed.
Lemma most_until_none A (q : A -> bool) (f : A -> N) l : existsb q l = false -> most_until q f l = most f l.
Proof. induction l as [|x l IH]; cbn [most most_until existsb]; [auto|]. intros E. apply orb_false_iff in E as [-> E]. now rewrite IH. Qed.

(** ** Decoding *)
Definition nlevels (t : ParamType) : N := N.of_nat (levels t).
Lemma nlevels_tuple ts : nlevels (PTuple ts) = 1 + most nlevels ts.
Proof. unfold nlevels. cbn [levels]. rewrite Nnat.Nat2N.inj_succ. assert (E : N.of_nat (fold_right (fun t n => Nat.max (levels t) n) 0%nat ts) = most (fun t => N.of_nat (levels t)) ts); [|lia].
  induction ts as [|t ts IH]; cbn [fold_right most]; [reflexivity|]. lia. Qed.
Lemma nlevels_pos t : 1 <= nlevels t.
Proof. unfold nlevels. destruct t; cbn [levels]; lia. Qed.
Lemma asking_levels t : asking_type t <= nlevels t.
Proof.
  induction t using ParamType_ind'; cbn [asking_type]; try (unfold nlevels; cbn [levels]; lia).
  - unfold nlevels in *. cbn [levels]. lia.
  - rewrite nlevels_tuple. pose proof (most_until_le dynamic asking_type ts). apply most_mono in H. lia.
Qed.
Section Decode.
Context (p : profile).
Notation ds := (decode_param_stack p).
Lemma loop_most tl n ts : Forall (fun t => forall data pos, fst (ds t data pos) <= n) ts -> forall s, fst (loop p tl ts s) <= n.
Proof.
  induction 1 as [|t ts H F IH]; intros [acc pos]; unfold loop in *; cbn [foldS]; [cbn; lia|]. apply bind_most; [|intros; apply IH].
  cbn [decode_step_stack]. apply bind_most; [apply H|]. intros [v o] _. cbn. lia.
Qed.
Ltac steps := repeat (apply bind_most; [try (apply (@N.le_trans _ 2); [cbn; lia|lia])|intros]).
Lemma decode_param_most t : forall data pos, fst (ds t data pos) <= 2 + nlevels t.
Proof.
  induction t using ParamType_ind'; intros data pos; cbn [decode_param_stack]; unfold call at 1; cbn [fst].
  all: try (apply (@N.le_trans _ (1 + 2) _); [apply N.add_le_mono_l; steps; cbn; lia|unfold nlevels; cbn [levels]; lia]; fail).
  - assert (L : 2 + nlevels (PArray t) = 1 + (2 + nlevels t)) by (unfold nlevels; cbn [levels]; lia). rewrite L. apply N.add_le_mono_l. pose proof (nlevels_pos t).
    steps. 1: rewrite loop_iter; apply loop_most; apply Forall_forall; intros x Hx; apply repeat_spec in Hx; now subst. destruct a4. cbn. lia.
  - assert (L : 2 + nlevels (PFixedArray t n) = 1 + (2 + nlevels t)) by (unfold nlevels; cbn [levels]; lia). rewrite L. apply N.add_le_mono_l. pose proof (nlevels_pos t).
    change (call (type_dynamic_stack t)) with (type_dynamic_stack (PFixedArray t n)). rewrite ask_type. apply bind_most.
    { cbn [fst]. pose proof (asking_levels (PFixedArray t n)). lia. }
    intros d _. apply bind_most; [destruct d; [|cbn; lia]; steps; cbn; lia|]. intros [tl start] _. apply bind_most; [|intros [? ?] _; cbn; lia].
    rewrite loop_iter. apply loop_most. apply Forall_forall. intros x Hx. apply repeat_spec in Hx. now subst.
  - rewrite nlevels_tuple. replace (2 + (1 + most nlevels ts)) with (1 + (2 + most nlevels ts)) by lia. apply N.add_le_mono_l.
    change (call (any_stack type_dynamic_stack ts)) with (type_dynamic_stack (PTuple ts)). rewrite ask_type. apply bind_most.
    { cbn [fst]. pose proof (asking_levels (PTuple ts)). rewrite nlevels_tuple in *. lia. }
    intros d _. apply bind_most; [destruct d; [|cbn; lia]; steps; cbn; lia|]. intros [tl start] _. apply bind_most; [|intros [? ?] _; cbn; lia].
    apply loop_most. rewrite Forall_forall in *. intros t I. intros. etransitivity; [apply H; exact I|]. pose proof (most_in nlevels _ _ I). lia.
Qed.
Lemma decode_most ts data : fst (decode_stack p ts data) <= 3 + most nlevels ts.
Proof.
  unfold decode_stack, call. cbn [fst]. replace (3 + most nlevels ts) with (1 + (2 + most nlevels ts)) by lia. apply N.add_le_mono_l.
  apply bind_most; [rewrite all_empty_calls; destruct ts; lia|]. intros valid _. destruct (_ && _); [cbn; lia|]. apply bind_most; [|intros [? ?] _; cbn; lia].
  apply (@loop_most data (2 + most nlevels ts) ts). apply Forall_forall. intros t I d pos. pose proof (decode_param_most t d pos). pose proof (most_in nlevels _ _ I). lia.
Qed.
(** from below *)
Lemma depth_most vs : fold_right (fun v d => N.max (depth v) d) 0 vs = most depth vs.
Proof. reflexivity. Qed.
Lemma most_app A (f : A -> N) l m : most f (l ++ m) = N.max (most f l) (most f m).
Proof. induction l as [|x l IH]; cbn [app most]; [lia|]. rewrite IH. lia. Qed.
Lemma most_rev A (f : A -> N) l : most f (rev l) = most f l.
Proof. induction l as [|x l IH]; cbn [rev most]; [reflexivity|]. rewrite most_app, IH. cbn [most]. lia. Qed.
Definition deep_read (t : ParamType) : Prop := forall data pos v next, snd (ds t data pos) = Ok (v, next) -> 1 + depth v <= fst (ds t data pos).
Lemma loop_least tl ts : Forall deep_read ts -> forall acc pos out next, snd (loop p tl ts (acc, pos)) = Ok (out, next) -> most depth out <= N.max (fst (loop p tl ts (acc, pos)) - 1) (most depth acc).
Proof.
  induction 1 as [|t ts Ht H IH]; intros acc pos out next E; unfold loop in *; cbn [foldS] in *.
  - injection E as <- <-. lia.
  - apply sbind_ok in E as ([acc' pos'] & E1 & E2 & ->). cbn [decode_step_stack] in E1 |- *. apply sbind_ok in E1 as ([v o] & E3 & E4 & ->). cbn [leaf fst snd] in E4 |- *. injection E4 as <- <-.
    apply IH in E2. apply Ht in E3. cbn [most] in E2. lia.
Qed.
Ltac onward E a E1 := apply sbind_ok in E as (a & E1 & E & ->).
Ltac ending E := cbn [leaf call fst snd] in E |- *; apply bind_ok in E as (? & _ & E); injection E as <- <-; cbn [depth].
Lemma deep_read_all t : deep_read t.
Proof.
  induction t using ParamType_ind'; intros data pos v next E; cbn [decode_param_stack] in *; rewrite snd_call in E; unfold call at 1; cbn [fst].
  all: try (onward E w E1; rewrite peek_calls; ending E; lia).
  - onward E w E1. rewrite peek_calls. onward E o E2. onward E w' E3. onward E l E4. onward E s E5. onward E b E6. ending E. lia.
  - onward E w E1. rewrite peek_calls. onward E b E2. ending E. lia.
  - onward E w E1. rewrite peek_calls. onward E o E2. onward E w' E3. onward E l E4. onward E s E5. onward E b E6. ending E. lia.
  - onward E w E1. rewrite peek_calls. onward E o E2. onward E w' E3. onward E l E4. onward E rest E5. onward E r E6. destruct r as [tokens q]. cbn [leaf fst snd] in E.
    apply bind_ok in E as (o' & _ & E). injection E as <- <-. rewrite loop_iter in E6 |- *. apply loop_least in E6; [|apply Forall_forall; intros x Hx; apply repeat_spec in Hx; now subst].
    cbn [depth]. rewrite depth_most, most_rev. cbn [most] in E6. lia.
  - onward E b E1. ending E. cbn [take_stack call leaf fst]. lia.
  - change (call (type_dynamic_stack t)) with (type_dynamic_stack (PFixedArray t n)) in *. rewrite ask_type in *. onward E d E0.
    onward E s E1. destruct s as [tl start]. onward E r E5. destruct r as [tokens q]. cbn [leaf fst snd] in E. apply bind_ok in E as (o' & _ & E). injection E as <- <-. rewrite loop_iter in E5 |- *.
    apply loop_least in E5; [|apply Forall_forall; intros x Hx; apply repeat_spec in Hx; now subst]. cbn [depth fst asking_type]. rewrite depth_most, most_rev. cbn [most] in E5. lia.
  - change (call (any_stack type_dynamic_stack ts)) with (type_dynamic_stack (PTuple ts)) in *. rewrite ask_type in *. onward E d E0.
    onward E s E1. destruct s as [tl start]. onward E r E5. destruct r as [tokens q]. cbn [leaf fst snd] in E. apply bind_ok in E as (o' & _ & E). injection E as <- <-. 
    apply (@loop_least tl ts H) in E5. unfold loop in E5. cbn [depth fst asking_type]. rewrite depth_most, most_rev. cbn [most] in E5. lia.
Qed.
Lemma decode_least ts data vs : decode p ts data = Ok vs -> vs <> [] -> 2 + most depth vs <= fst (decode_stack p ts data).
Proof.
  rewrite <- decode_same. unfold decode_stack. rewrite snd_call. unfold call. cbn [fst]. intros E N. onward E valid E1. destruct (_ && _); [discriminate|].
  onward E r E2. destruct r as [tokens q]. cbn [leaf fst snd] in E |- *. injection E as <-.
  apply (@loop_least data ts) in E2; [|apply Forall_forall; intros; apply deep_read_all]. unfold loop in E2. cbn [most] in E2. rewrite most_rev.
  assert (1 <= most depth tokens); [|lia]. destruct tokens as [|v tokens]; [now destruct N|]. cbn [most]. enough (1 <= depth v) by lia. destruct v; cbn [depth]; lia.
Qed.
(** ** attained, however deep *)
Fixpoint fixed (k : nat) (t : ParamType) : ParamType := match k with O => t | S k' => PFixedArray (fixed k' t) 1 end.
Fixpoint one_value (k : nat) (v : Token) : Token := match k with O => v | S k' => TFixedArray [one_value k' v] end.
Lemma fixed_levels k t : nlevels (fixed k t) = N.of_nat k + nlevels t.
Proof. unfold nlevels. induction k as [|k IH]; cbn [fixed levels]; [lia|]. lia. Qed.
Lemma fixed_asking k : asking_type (fixed k (PInt 256)) = N.of_nat k + 1.
Proof. induction k as [|k IH]; cbn [fixed asking_type]; [reflexivity|]. lia. Qed.
Lemma fixed_static k : dynamic (fixed k (PInt 256)) = false.
Proof. induction k as [|k IH]; cbn [fixed dynamic]; auto. Qed.
Lemma fixed_decode k data v o : ds (PInt 256) data 0 = (3, Ok (v, o)) -> ds (fixed k (PInt 256)) data 0 = (N.of_nat k + 3, Ok (one_value k v, o)).
Proof.
  intros H. induction k as [|k IH]; [exact H|]. cbn [fixed decode_param_stack one_value]. change (PFixedArray (fixed k (PInt 256)) 1) with (fixed (S k) (PInt 256)).
  rewrite ask_type, fixed_asking, fixed_static. cbn [iterS iterS_pos decode_step_stack]. unfold sbind at 1. cbn [fst snd]. unfold sbind at 1. cbn [leaf fst snd]. unfold sbind. cbn [leaf fst snd]. rewrite !IH. cbn [leaf fst snd bind rev app].
  unfold call. cbn [fst snd]. f_equal. lia.
Qed.
Lemma fixed_any k data : data <> [] -> N.of_nat k + 3 <= fst (decode_stack p [fixed (S k) (PInt 256)] data).
Proof.
  intros N. unfold decode_stack, call. cbn [fst all_empty_stack].
  replace (is_empty_bytes_valid_encoding (fixed (S k) (PInt 256))) with false by reflexivity.
  replace (len data =? 0) with false by (destruct data; [congruence|]; rewrite len_cons; symmetry; apply N.eqb_neq; lia).
  unfold sbind at 1. cbn [fst snd sbind call leaf negb andb]. rewrite N.max_0_r. 
  match goal with |- _ <= 1 + N.max _ (fst (sbind ?r _)) => assert (L : N.of_nat k + 2 <= fst r) end.
  2:{ unfold sbind at 1. destruct (snd _) as [[? ?]| |]; cbn [fst]; lia. }
  cbn [foldS decode_step_stack]. 
  assert (L : N.of_nat k + 2 <= fst (ds (fixed (S k) (PInt 256)) data 0)).
  { cbn [fixed decode_param_stack]. change (PFixedArray (fixed k (PInt 256)) 1) with (fixed (S k) (PInt 256)). rewrite ask_type, fixed_asking. unfold call. cbn [fst].
    unfold sbind at 1. cbn [fst snd]. lia. }
  unfold sbind at 1 2. destruct (snd (ds _ _ _)) as [[? ?]| |]; cbn [fst snd leaf]; lia.
Qed.
End Decode.

(** ** A file with such a type *)
Fixpoint ones (k : nat) : str := match k with O => [] | S k' => ones k' ++ lit "[1]" end.
Definition fixed_name (k : nat) : str := lit "int" ++ ones k.
Lemma one_size : size_text (lit "1") 1.
Proof. exists (lit "1"). split; [now left|]. split; [discriminate|]. split; [repeat constructor; discriminate|]. split; reflexivity. Qed.
Lemma ones_len k : len (ones k) = 3 * N.of_nat k.
Proof. induction k as [|k IH]; cbn [ones]; [reflexivity|]. rewrite len_app, IH. change (len (lit "[1]")) with 3. lia. Qed.
Lemma ones_ascii k : all_ascii (ones k) = true.
Proof. induction k as [|k IH]; cbn [ones]; [reflexivity|]. now rewrite all_ascii_app, IH. Qed.
Lemma fixed_spelled k : spelled (fixed_name k) (fixed k (PInt 256)).
Proof.
  unfold fixed_name. induction k as [|k IH]; cbn [ones fixed]; [apply sp_int256|]. rewrite app_assoc. change (lit "[1]") with (lit "[" ++ lit "1" ++ lit "]"). apply sp_fixed_array; [exact IH|apply one_size].
Qed.
Lemma fixed_reads p k : N.of_nat k < 2 ^ 60 -> read p (fixed_name k) = Ok (fixed k (PInt 256)).
Proof.
  intros K. apply (@nested_read p (S (length (fixed_name k))) (fixed_name k) (le_n _)).
  - unfold fixed_name. rewrite len_app, ones_len. change (len (lit "int")) with 3. change (2 ^ 63) with (8 * 2 ^ 60). lia.
  - unfold fixed_name. now rewrite all_ascii_app, ones_ascii.
  - apply ac_plain, fixed_spelled.
Qed.
Definition fixed_file (k : nat) : json :=
  JArr [JObj [(lit "type", JStr (lit "constructor")); (lit "inputs", JArr [JObj [(lit "name", JStr []); (lit "type", JStr (fixed_name k))]])]].
Lemma fixed_file_loads p k : N.of_nat k < 2 ^ 60 ->
  load p (fixed_file k) = Ok (mkContract (Some (mkConstructor [mkParam [] (fixed k (PInt 256)) None])) [] [] false false).
Proof.
  intros B. pose proof (@fixed_reads p k B) as E. unfold load, from_text.
  assert (D : json_depth (fixed_file k) = 4) by reflexivity. rewrite D. change (4 <=? 127) with true. cbv iota.
  assert (I : inner_tuple (fixed k (PInt 256)) = None) by (clear; induction k as [|k IH]; [reflexivity|exact IH]).
  unfold fixed_file. revert E I. generalize (fixed_name k) as s. generalize (fixed k (PInt 256)) as t. intros t s E I.
  lazy -[read inner_tuple]. rewrite E. lazy -[inner_tuple]. rewrite I. reflexivity.
Qed.

(** ** Encoding *)
Lemma asking_depth v : asking_value v <= depth v.
Proof.
  induction v using Token_ind'; cbn [asking_value depth]; try lia; rewrite depth_most; pose proof (most_until_le dynamic_value asking_value vs); apply most_mono in H; lia.
Qed.
Lemma asking_static v : dynamic_value v = false -> asking_value v = depth v.
Proof.
  induction v using Token_ind'; cbn [asking_value depth dynamic_value]; try reflexivity; try discriminate; intros D; rewrite depth_most, most_until_none by exact D;
    f_equal; (induction H as [|v vs H F IH]; [reflexivity|]; cbn [existsb] in D; apply orb_false_iff in D as [D1 D2]; cbn [most]; now rewrite H, IH).
Qed.
Lemma head_measured_depth v : head_measured v <= depth v.
Proof.
  induction v using Token_ind'; cbn [head_measured depth]; try lia. rewrite depth_most. apply most_mono in H. destruct (existsb _ _); lia.
Qed.
Lemma tail_measured_depth v : tail_measured v <= depth v.
Proof.
  assert (G : forall vs, Forall (fun v => tail_measured v <= depth v) vs -> most (fun v => N.max (head_measured v) (tail_measured v)) vs <= most depth vs).
  { intros vs H. rewrite most_max. apply most_mono in H. pose proof (@most_mono _ head_measured depth vs ltac:(apply Forall_forall; intros; apply head_measured_depth)). lia. }
  induction v using Token_ind'; cbn [tail_measured depth]; try lia; rewrite depth_most; apply G in H; try destruct (existsb _ _); lia.
Qed.
Lemma head_written_depth v : head_written v <= depth v + 1.
Proof.
  induction v using Token_ind'; cbn [head_written depth]; try lia; rewrite depth_most; destruct (existsb _ _); try lia.
  assert (most head_written vs <= most depth vs + 1); [|lia]. apply most_le. rewrite Forall_forall in *. intros v I. specialize (H v I). pose proof (most_in depth _ _ I). lia.
Qed.
Lemma depth_pos v : 1 <= depth v. Proof. destruct v; cbn [depth]; lia. Qed.
Lemma sequence_bound vs : Forall (fun v => tail_written v <= 2 * depth v) vs -> sequence vs <= 1 + N.max (most depth vs + 1) (2 * most depth vs) /\ (vs = [] -> sequence vs = 1).
Proof.
  intros H. split; [|now intros ->]. unfold sequence, sequence_with. apply N.add_le_mono_l. apply most_le. rewrite Forall_forall in *. intros v I.
  pose proof (H v I). pose proof (most_in depth _ _ I). pose proof (head_measured_depth v). pose proof (tail_measured_depth v). pose proof (head_written_depth v). lia.
Qed.
Lemma sequence_bound2 vs : Forall (fun v => tail_written v <= 2 * depth v) vs -> sequence vs <= 1 + 2 * most depth vs.
Proof.
  intros H. apply sequence_bound in H as [H N]. destruct vs as [|v vs]; [rewrite N by reflexivity; lia|].
  pose proof (depth_pos v). cbn [most] in *. lia.
Qed.
Lemma tail_written_depth v : tail_written v <= 2 * depth v.
Proof.
  induction v using Token_ind'; cbn [tail_written depth]; try lia; rewrite depth_most; fold (sequence vs); apply sequence_bound2 in H; try destruct (existsb _ _); lia.
Qed.
Lemma sequence_depth vs : sequence vs <= 1 + 2 * most depth vs.
Proof. apply sequence_bound2. apply Forall_forall. intros v _. apply tail_written_depth. Qed.
Lemma prepared_depth v : prepared v <= 1 + 2 * depth v.
Proof.
  induction v using Token_ind'; cbn [prepared depth]; try lia; rewrite depth_most.
  all: assert (Q : most prepared vs <= 1 + 2 * most depth vs) by (apply most_le; rewrite Forall_forall in *; intros v I; specialize (H v I); pose proof (most_in depth _ _ I); lia).
  - pose proof (asking_depth (TFixedArray vs)) as Z. cbn [depth] in Z. rewrite depth_most in Z. pose proof (sequence_depth vs). destruct (existsb _ _); lia.
  - lia.
  - pose proof (asking_depth (TTuple vs)) as Z. cbn [depth] in Z. rewrite depth_most in Z. lia.
Qed.
Lemma encoding_depth vs : encoding_calls vs <= 2 + 2 * most depth vs.
Proof.
  unfold encoding_calls. pose proof (sequence_depth vs). assert (Q : most prepared vs <= 1 + 2 * most depth vs); [|lia].
  apply most_le. apply Forall_forall. intros v I. pose proof (prepared_depth v). pose proof (most_in depth _ _ I). lia.
Qed.
(** from below *)
Lemma sequence_tail vs v : In v vs -> 1 + tail_written v <= sequence vs.
Proof. intros I. unfold sequence, sequence_with. pose proof (@most_in _ (fun v => N.max (N.max (head_measured v) (tail_measured v)) (N.max (head_written v) (tail_written v))) _ _ I) as Q. cbv beta in Q. lia. Qed.
Lemma prepared_least v : depth v <= prepared v.
Proof.
  induction v using Token_ind'; cbn [prepared depth]; try lia; rewrite depth_most; apply most_mono in H; lia.
Qed.
Lemma most_shift A (f g : A -> N) a l : Forall (fun x => a + f x <= g x) l -> l <> [] -> a + most f l <= most g l.
Proof.
  induction 1 as [|x l H F IH]; [easy|]. intros _. cbn [most]. destruct l as [|y l]; [cbn [most]; lia|]. specialize (IH ltac:(discriminate)). lia.
Qed.
Lemma least_of v : 1 + depth v <= N.max (prepared v) (1 + tail_written v).
Proof.
  assert (G : forall vs, Forall (fun v => 1 + depth v <= N.max (prepared v) (1 + tail_written v)) vs -> 1 + (1 + most depth vs) <= N.max (1 + most prepared vs) (1 + (1 + sequence vs))).
  { intros vs H. destruct vs as [|x vs]; [cbn; lia|]. apply most_shift in H; [|discriminate]. rewrite most_max in H.
    assert (most (fun v => 1 + tail_written v) (x :: vs) <= sequence (x :: vs)) by (apply most_le, Forall_forall; intros; now apply sequence_tail). lia. }
  assert (D : forall v, dynamic_value v = false -> 1 + asking_value v <= prepared v -> 1 + depth v <= N.max (prepared v) (1 + tail_written v)).
  { intros x D. rewrite (asking_static x D). lia. }
  induction v using Token_ind'; try (cbn [depth prepared tail_written]; lia).
  - destruct (existsb dynamic_value vs) eqn:E; [|apply D; [exact E|cbn [prepared]; lia]]. cbn [depth prepared tail_written]. rewrite depth_most, E. fold (sequence vs). apply G in H. lia.
  - cbn [depth prepared tail_written]. rewrite depth_most. fold (sequence vs). apply G in H. lia.
  - destruct (existsb dynamic_value vs) eqn:E; [|apply D; [exact E|cbn [prepared]; lia]]. cbn [depth prepared tail_written]. rewrite depth_most, E. fold (sequence vs). apply G in H. lia.
Qed.
Lemma encoding_least vs : 2 + most depth vs <= encoding_calls vs.
Proof.
  unfold encoding_calls. assert (Q : 1 + most depth vs <= N.max (most prepared vs) (sequence vs)); [|lia]. destruct vs as [|v vs]; [cbn; lia|].
  transitivity (most (fun v => N.max (prepared v) (1 + tail_written v)) (v :: vs)).
  - apply most_shift; [|discriminate]. apply Forall_forall. intros x _. apply least_of.
  - rewrite most_max. assert (most (fun v => 1 + tail_written v) (v :: vs) <= sequence (v :: vs)) by (apply most_le, Forall_forall; intros; now apply sequence_tail). lia.
Qed.
(** attained, above and below *)
Fixpoint lists (k : nat) (v : Token) : Token := match k with O => v | S k' => TArray [lists k' v] end.
Fixpoint pairs (k : nat) (v : Token) : Token := match k with O => v | S k' => TTuple [pairs k' v] end.
Lemma lists_depth k v : depth (lists k v) = N.of_nat k + depth v.
Proof. induction k as [|k IH]; cbn [lists depth fold_right]; [reflexivity|]. rewrite IH. lia. Qed.
Lemma pairs_depth k v : depth (pairs k v) = N.of_nat k + depth v.
Proof. induction k as [|k IH]; cbn [pairs depth fold_right]; [reflexivity|]. rewrite IH. lia. Qed.
Lemma lists_sequence k b : 2 * N.of_nat k + 3 <= sequence [lists k (TBytes b)].
Proof.
  induction k as [|k IH]; [cbn; lia|]. pose proof (@sequence_tail [lists (S k) (TBytes b)] _ ltac:(now left)) as Q. cbn [lists tail_written] in Q |- *.
  fold (sequence [lists k (TBytes b)]) in Q. lia.
Qed.
Lemma lists_calls k b : encoding_calls [lists k (TBytes b)] = 2 + 2 * depth (lists k (TBytes b)).
Proof.
  apply N.le_antisymm; [pose proof (encoding_depth [lists k (TBytes b)]) as H; cbn [most] in H; lia|].
  rewrite lists_depth. cbn [depth]. unfold encoding_calls. pose proof (lists_sequence k b). lia.
Qed.
Lemma pairs_calls k n : encoding_calls [pairs k (TUint n)] = 2 + depth (pairs k (TUint n)).
Proof.
  apply N.le_antisymm; [|pose proof (encoding_least [pairs k (TUint n)]) as H; cbn [most] in H; lia].
  assert (D : dynamic_value (pairs k (TUint n)) = false) by (induction k as [|k IH]; cbn [pairs dynamic_value existsb]; [reflexivity|now rewrite IH]).
  assert (P : prepared (pairs k (TUint n)) <= 1 + depth (pairs k (TUint n))).
  { pose proof (asking_depth (pairs k (TUint n))). clear D. induction k as [|k IH]; cbn [pairs prepared]; [cbn; lia|]. pose proof (asking_depth (pairs k (TUint n))). specialize (IH ltac:(assumption)).
    cbn [pairs] in H. pose proof (pairs_depth k (TUint n)). pose proof (pairs_depth (S k) (TUint n)). cbn [pairs most] in *. lia. }
  assert (T : tail_measured (pairs k (TUint n)) = 1 /\ tail_written (pairs k (TUint n)) = 1).
  { destruct k as [|k]; cbn [pairs tail_measured tail_written]; [auto|]. cbn [pairs dynamic_value] in D. rewrite D. auto. }
  assert (W : head_written (pairs k (TUint n)) <= depth (pairs k (TUint n))).
  { clear P T. induction k as [|k IH]; cbn [pairs head_written]; [cbn; lia|]. cbn [pairs dynamic_value] in D. rewrite D. cbn [existsb] in D. apply orb_false_iff in D as [D _]. specialize (IH D).
    cbn [most depth fold_right]. lia. }
  pose proof (head_measured_depth (pairs k (TUint n))). pose proof (depth_pos (pairs k (TUint n))). unfold encoding_calls, sequence, sequence_with. cbn [most]. lia.
Qed.
(** ** As stated *)
Lemma encode_most p vs : fst (encode_stack p vs) <= 2 + 2 * most depth vs.
Proof. etransitivity; [apply encoding_most|apply encoding_depth]. Qed.
Lemma encode_least p vs bytes : encode p vs = Ok bytes -> 2 + most depth vs <= fst (encode_stack p vs).
Proof. intros E. rewrite (@encoding_exact p vs bytes E). apply encoding_least. Qed.
Lemma both_attained k b n : encoding_calls [lists k (TBytes b)] = 2 + 2 * depth (lists k (TBytes b)) /\
  encoding_calls [pairs k (TUint n)] = 2 + depth (pairs k (TUint n)) /\
  depth (lists k (TBytes b)) = N.of_nat k + 1 /\ depth (pairs k (TUint n)) = N.of_nat k + 1.
Proof. rewrite lists_calls, pairs_calls, lists_depth, pairs_depth. auto. Qed.
Lemma fixed_attained p k data : 32 <= len data -> exists v,
  decode p [fixed k (PInt 256)] data = Ok [v] /\ fst (decode_stack p [fixed k (PInt 256)] data) = 3 + N.of_nat (levels (fixed k (PInt 256))).
Proof.
  intros L. assert (H : exists v o, decode_param_stack p (PInt 256) data 0 = (3, Ok (v, o))).
  { cbn [decode_param_stack]. unfold peek_stack, peek_32_bytes, peek. change (usize_add p 0 32) with (@Ok N 32). cbn [bind].
    replace (len data <? 32) with false by (symmetry; apply N.ltb_ge; exact L).
    assert (S : exists w, slice data 0 32 = Ok w).
    { unfold slice. change (0 <=? 32) with true. apply N.leb_le in L. rewrite L. eexists. reflexivity. }
    destruct S as [w ->]. unfold sbind, call, leaf. cbn [fst snd bind]. do 2 eexists. reflexivity. }
  destruct H as (v & o & H). apply (@fixed_decode p k) in H. exists (one_value k v).
  assert (Z : is_empty_bytes_valid_encoding (fixed k (PInt 256)) = false) by now destruct k.
  assert (D : negb false && (len data =? 0) = false) by (cbn; apply N.eqb_neq; lia).
  pose proof (fixed_levels k (PInt 256)) as LV. unfold nlevels in LV. cbn [levels] in LV.
  assert (E : decode_stack p [fixed k (PInt 256)] data = (N.of_nat k + 4, Ok [one_value k v])).
  { unfold decode_stack. cbn [all_empty_stack]. rewrite Z. unfold sbind at 1 2. cbn [fst snd call leaf]. rewrite D. cbn [foldS decode_step_stack]. rewrite H.
    unfold sbind, call, leaf. cbn [fst snd rev app]. f_equal. lia. }
  split; [rewrite <- decode_same, E; reflexivity|]. rewrite E. cbn [fst]. lia.
Qed.
Lemma file_unbounded p k : N.of_nat k < 2 ^ 59 -> exists c inputs, json_depth (fixed_file (S k)) = 4 /\
  load p (fixed_file (S k)) = Ok c /\ c_constructor c = Some (mkConstructor inputs) /\
  forall data, data <> [] -> N.of_nat k + 3 <= fst (decode_stack p (map p_kind inputs) data).
Proof.
  intros K. do 2 eexists. split; [reflexivity|]. split; [apply fixed_file_loads; change (2 ^ 60) with (2 * 2 ^ 59); lia|]. split; [reflexivity|]. cbn [map p_kind]. intros data N. now apply fixed_any.
Qed.

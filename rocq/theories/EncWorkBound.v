(** * Bounds on the work of encoding *)
From Verif Require Import Base Types AbiSpec WrapSpec MemSpec EncWorkSpec Encoder BaseFacts EncoderFacts EncoderTotal WrapFacts EncoderWork EncWorkErase EncWorkFacts CodecLemmas.
Set Implicit Arguments.
Local Open Scope N_scope.
Local Open Scope list_scope.

Lemma sum_of_le f g vs : Forall (fun v => f v <= g v) vs -> sum_of f vs <= sum_of g vs.
Proof. induction 1; cbn [sum_of]; lia. Qed.
Lemma upto_le f vs : upto_dynamic f vs <= sum_of f vs.
Proof. induction vs as [|v vs IH]; cbn [upto_dynamic sum_of]; [lia|]. destruct (dynamic_value v); lia. Qed.
Lemma sum_of_scale k f vs : sum_of (fun v => k * f v) vs = k * sum_of f vs.
Proof. induction vs as [|v vs IH]; cbn [sum_of]; [lia|]. rewrite IH. lia. Qed.
Lemma asking_nodes v : asking v <= nodes v.
Proof.
  induction v using Token_ind'; cbn [asking nodes]; try lia; pose proof (upto_le asking vs); pose proof (@sum_of_le _ _ _ H); cbn beta in *; lia.
Qed.
Lemma measuring_head_nodes v : measuring_head v <= nodes v.
Proof.
  induction v using Token_ind'; cbn [measuring_head nodes]; try lia. pose proof (@sum_of_le _ _ _ H). cbn beta in *. destruct (existsb _ _); lia.
Qed.
Lemma measuring_nodes v : measuring_head v + measuring_tail v <= 2 * nodes v.
Proof.
  induction v using Token_ind'; cbn [measuring_head measuring_tail nodes]; try lia; pose proof (@sum_of_le (fun v => measuring_head v + measuring_tail v) (fun v => 2 * nodes v) _ H) as L; rewrite sum_of_scale in L; try lia.
  - destruct (existsb _ _); lia.
  - pose proof (@sum_of_le measuring_head nodes vs) as L'. specialize (L' ltac:(apply Forall_forall; intros; apply measuring_head_nodes)). destruct (existsb _ _); lia.
Qed.
Lemma nodes_pos v : 1 <= nodes v. Proof. destruct v; cbn [nodes]; lia. Qed.
Lemma depth_deepest vs : fold_right (fun v d => N.max (depth v) d) 0 vs = deepest vs. Proof. reflexivity. Qed.
Definition handling (v : Token) : N := preparing v + writing_head v + writing_tail v.
Lemma handling_all vs : Forall (fun v => handling v <= 5 * depth v * (nodes v + words v)) vs -> sum_of handling vs <= 5 * deepest vs * size vs.
Proof.
  intros H. assert (G : forall d, deepest vs <= d -> sum_of handling vs <= 5 * d * size vs); [|apply G; reflexivity].
  induction H as [|v vs H F IH]; intros d L; cbn [sum_of]; [lia|]. unfold size, deepest in *. cbn [fold_right sum_of] in *.
  assert (5 * depth v * (nodes v + words v) <= 5 * d * (nodes v + words v)) by (apply N.mul_le_mono_r; lia).
  specialize (IH d ltac:(lia)). rewrite N.mul_add_distr_l. lia.
Qed.
Lemma size_split vs : size vs = sum_of nodes vs + sum_of words vs. Proof. unfold size. apply sum_of_plus. Qed.
Lemma words_split vs : sum_of words vs = sum_of head_room vs + sum_of tail_room vs. Proof. unfold words. apply sum_of_plus. Qed.
Lemma handling_split vs : sum_of handling vs = sum_of preparing vs + sum_of writing_head vs + sum_of writing_tail vs.
Proof. unfold handling. now rewrite !sum_of_plus. Qed.
Lemma writing_split vs : writing vs + sum_of preparing vs <= 1 + 2 * sum_of nodes vs + 2 * sum_of words vs + sum_of handling vs.
Proof.
  unfold writing, writing_with. rewrite !sum_of_plus, words_split, handling_split.
  pose proof (@sum_of_le (fun v => measuring_head v + measuring_tail v) (fun v => 2 * nodes v) vs ltac:(apply Forall_forall; intros; apply measuring_nodes)) as L. rewrite sum_of_scale, sum_of_plus in L. lia.
Qed.
Lemma some_node vs : existsb dynamic_value vs = true -> 1 <= sum_of nodes vs.
Proof. destruct vs as [|v vs]; [discriminate|]. intros _. cbn [sum_of]. pose proof (nodes_pos v). lia. Qed.
(** one more level *)
Lemma level h d s s' e : h <= 5 * d * s -> s <= s' -> e <= 5 * s' -> h + e <= 5 * (1 + d) * s'.
Proof. intros H L E. assert (5 * d * s <= 5 * d * s') by (now apply N.mul_le_mono_l). nia. Qed.
Lemma handling_bound v : handling v <= 5 * depth v * (nodes v + words v).
Proof.
  induction v using Token_ind'; unfold handling; try (cbn; lia).
  - cbn [preparing writing_head writing_tail depth nodes]. unfold words. cbn [head_room tail_room]. lia.
  - cbn [preparing writing_head writing_tail depth nodes]. unfold words. cbn [head_room tail_room]. lia.
  - cbn [preparing writing_head writing_tail depth nodes]. unfold words. cbn [head_room tail_room]. lia.
  - apply handling_all in H. pose proof (writing_split vs). pose proof (asking_nodes (TFixedArray vs)). pose proof (size_split vs). pose proof (words_split vs). pose proof (handling_split vs). unfold words at 1.
    cbn [preparing writing_head writing_tail depth nodes head_room tail_room asking] in *. rewrite depth_deepest. change (writing_with writing_tail) with writing.
    destruct (existsb dynamic_value vs) eqn:D.
    + pose proof (some_node _ D). rewrite sum_of_plus.
      etransitivity; [|apply level with (e := 6 + 3 * sum_of nodes vs + 2 * sum_of words vs) (h := sum_of handling vs) (s := size vs)]; [lia|exact H|lia|lia].
    + pose proof (static_rooms _ D).
      etransitivity; [|apply level with (e := 5 + 3 * sum_of nodes vs + 3 * sum_of words vs) (h := sum_of handling vs) (s := size vs)]; [lia|exact H|lia|lia].
  - apply handling_all in H. pose proof (writing_split vs). pose proof (size_split vs). pose proof (words_split vs). pose proof (handling_split vs). unfold words at 1.
    cbn [preparing writing_head writing_tail depth nodes head_room tail_room] in *. rewrite depth_deepest. change (writing_with writing_tail) with writing. rewrite sum_of_plus.
    etransitivity; [|apply level with (e := 6 + 2 * sum_of nodes vs + 3 * sum_of words vs) (h := sum_of handling vs) (s := size vs)]; [lia|exact H|lia|lia].
  - apply handling_all in H. pose proof (writing_split vs). pose proof (asking_nodes (TTuple vs)). pose proof (size_split vs). pose proof (words_split vs). pose proof (handling_split vs). unfold words at 1.
    cbn [preparing writing_head writing_tail depth nodes head_room tail_room asking] in *. rewrite depth_deepest. change (writing_with writing_tail) with writing.
    destruct (existsb dynamic_value vs) eqn:D.
    + pose proof (some_node _ D). rewrite sum_of_plus.
      etransitivity; [|apply level with (e := 7 + 3 * sum_of nodes vs + 2 * sum_of words vs) (h := sum_of handling vs) (s := size vs)]; [lia|exact H|lia|lia].
    + pose proof (static_rooms _ D). rewrite sum_of_plus.
      etransitivity; [|apply level with (e := 5 + 3 * sum_of nodes vs + 3 * sum_of words vs) (h := sum_of handling vs) (s := size vs)]; [lia|exact H|lia|lia].
Qed.
Lemma encoding_bound vs : encoding vs <= 2 + (5 * deepest vs + 3) * size vs.
Proof.
  pose proof (@handling_all vs ltac:(apply Forall_forall; intros; apply handling_bound)). pose proof (writing_split vs). pose proof (size_split vs). unfold encoding. lia.
Qed.
(** the steps that are counted *)
Lemma work_bound p vs : fst (encode_work p vs) <= 2 + (5 * deepest vs + 3) * size vs.
Proof. destruct (encoding_costs p vs) as [L _]. pose proof (encoding_bound vs). lia. Qed.
Lemma work_exact p vs data : encode p vs = Ok data -> fst (encode_work p vs) = encoding vs.
Proof. rewrite <- encode_same. intros E. destruct (encoding_costs p vs) as [_ H]. now destruct (H _ E). Qed.
Lemma work_most p vs : fst (encode_work p vs) <= encoding vs. Proof. apply encoding_costs. Qed.
Lemma words_exact p vs data : encode p vs = Ok data -> len data = 32 * sum_of words vs.
Proof.
  unfold encode. intros E. apply bind_ok in E as (ms & Em & E). apply bind_ok in E as (ws & Ew & E). injection E as <-. rewrite concat_len.
  - f_equal. destruct (@map_costs p vs) as [_ H]; [apply Forall_forall; intros; apply preparing_costs|].
    rewrite (@snd_map _ _ _ (encode_token p)) in H by (apply Forall_forall; intros; apply token_same). destruct (H _ Em) as [_ F].
    destruct (writing_costs F) as [_ G]. rewrite head_tail_same in G. now destruct (G _ Ew).
  - eapply encode_head_tail_words; [|exact Ew]. eapply mapM_forallb; [|exact Em]. apply Forall_forall. intros v _ m. apply encode_token_wf.
Qed.

(** ** One array in another *)
Lemma nested_nodes k : nodes (nested k) = 1 + N.of_nat k.
Proof. induction k as [|k IH]; [reflexivity|]. cbn [nested nodes sum_of]. rewrite IH. lia. Qed.
Lemma nested_head k : head_room (nested k) = 1. Proof. destruct k; reflexivity. Qed.
Lemma nested_tail k : tail_room (nested k) = 1 + 2 * N.of_nat k.
Proof. induction k as [|k IH]; [reflexivity|]. cbn [nested tail_room sum_of]. rewrite IH, nested_head. lia. Qed.
Lemma nested_depth k : depth (nested k) = 1 + N.of_nat k.
Proof. induction k as [|k IH]; [reflexivity|]. cbn [nested depth fold_right]. rewrite IH. lia. Qed.
Lemma nested_mh k : measuring_head (nested k) = 1. Proof. destruct k; reflexivity. Qed.
Lemma nested_mt k : measuring_tail (nested k) = 1 + 2 * N.of_nat k.
Proof. induction k as [|k IH]; [reflexivity|]. cbn [nested measuring_tail sum_of]. rewrite IH, nested_mh. lia. Qed.
Lemma nested_wh k : writing_head (nested k) = 2. Proof. destruct k; reflexivity. Qed.
Lemma nested_prep k : preparing (nested k) = 1 + N.of_nat k.
Proof. induction k as [|k IH]; [reflexivity|]. cbn [nested preparing sum_of]. rewrite IH. lia. Qed.
Lemma nested_wt k : writing_tail (nested k) = 3 + 8 * N.of_nat k + 4 * N.of_nat k * N.of_nat k.
Proof.
  induction k as [|k IH]; [reflexivity|]. cbn [nested]. cbn [writing_tail]. unfold writing_with. cbn [sum_of]. rewrite IH, nested_mh, nested_wh, nested_head, nested_mt, nested_tail.
  cbn [tail_room sum_of]. rewrite nested_head, nested_tail. lia.
Qed.
Lemma nested_encoding k : encoding [nested k] = 15 + 17 * N.of_nat k + 4 * N.of_nat k * N.of_nat k.
Proof.
  unfold encoding, writing, writing_with, words. cbn [sum_of]. rewrite nested_mh, nested_wh, nested_head, nested_mt, nested_tail, nested_prep, nested_wt. lia.
Qed.
Lemma nested_wf k : wf_token (nested k) = true.
Proof. induction k as [|k IH]; [reflexivity|]. cbn [nested wf_token forallb]. now rewrite IH. Qed.
Lemma nested_sizes k : deepest [nested k] = 1 + N.of_nat k /\ size [nested k] = 3 + 3 * N.of_nat k.
Proof. unfold deepest, size, words. cbn [fold_right sum_of]. rewrite nested_depth, nested_nodes, nested_head, nested_tail. lia. Qed.
Lemma nested_attained k : exists data, encode Release [nested k] = Ok data /\ len data = 64 + 64 * N.of_nat k /\
  fst (encode_work Release [nested k]) = 15 + 17 * N.of_nat k + 4 * N.of_nat k * N.of_nat k.
Proof.
  assert (W : forallb wf_token [nested k] = true) by (cbn [forallb]; now rewrite nested_wf).
  destruct (encode Release [nested k]) as [data|e|] eqn:E; [|exfalso; revert E; apply encode_not_err|destruct (encode_release _ W E)].
  exists data. split; [reflexivity|]. rewrite (work_exact _ _ E), (words_exact _ _ E), nested_encoding. split; [|reflexivity].
  unfold words. cbn [sum_of]. rewrite nested_head, nested_tail. lia.
Qed.
Lemma nested_tight k : deepest [nested k] * size [nested k] <= encoding [nested k].
Proof. destruct (nested_sizes k) as [-> ->]. rewrite nested_encoding. nia. Qed.

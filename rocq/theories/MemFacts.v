(** * What the encoder asks for is what MemSpec.v says *)
From Verif Require Import Base Types Encoder AbiSpec BaseFacts EncoderFacts WrapSpec WrapFacts EncoderMem MemSpec.
From Coq Require Import ZifyBool ZifyNat ZifyN.
Set Implicit Arguments.
Local Open Scope N_scope.
Local Open Scope list_scope.

Section Mem.
Context (room : N) (p : profile).
Definition allowed (cs : list N) : bool := forallb (fun n => 32 * n <=? room) cs.
Definition granted (A : Type) (cs : list N) (a : A) : res (A * list N) := if allowed cs then Ok (a, cs) else Panic.
Lemma allowed_app a b : allowed (a ++ b) = allowed a && allowed b. Proof. apply forallb_app. Qed.
Lemma granted_nil A (a : A) : granted [] a = Ok (a, []). Proof. reflexivity. Qed.
Lemma granted_bind A B (a : A) cs (f : A -> B) : (do (x, c) <- granted cs a; Ok (f x, c)) = granted cs (f a).
Proof. unfold granted. destruct (allowed cs); reflexivity. Qed.
Lemma granted_then A B C (a : A) (b : B) ca cb (f : A -> B -> C) : (do (x, c) <- granted ca a; do (y, c') <- granted cb b; Ok (f x y, c ++ c')) = granted (ca ++ cb) (f a b).
Proof. unfold granted. rewrite allowed_app. destruct (allowed ca), (allowed cb); reflexivity. Qed.
Lemma granted_chain A B C (a : A) (b : B) ca cb (f : A -> res (B * list N)) (g : B -> C) : f a = granted cb b ->
  (do (x, c) <- granted ca a; do (y, c') <- f x; Ok (g y, c ++ c')) = granted (ca ++ cb) (g b).
Proof. intros E. unfold granted in *. rewrite allowed_app. destruct (allowed ca); cbn [bind andb]; [|reflexivity]. rewrite E. destruct (allowed cb); reflexivity. Qed.
Lemma capacity_granted n : with_capacity room n = (do (x, _) <- granted [n] n; Ok x).
Proof. unfold with_capacity, granted, allowed. cbn [forallb]. rewrite andb_true_r. destruct (32 * n <=? room); reflexivity. Qed.
Lemma capacity_then A n (k : N -> res A) : (do c <- with_capacity room n; k c) = if allowed [n] then k n else Panic.
Proof. unfold with_capacity, allowed. cbn [forallb]. rewrite andb_true_r. destruct (32 * n <=? room); reflexivity. Qed.

Lemma pad_fixed_granted b ws : pad_fixed_bytes b = Ok ws -> pad_fixed_bytes_mem room b = granted [(len b + 31) / 32] ws.
Proof. intros E. unfold pad_fixed_bytes_mem. rewrite capacity_then, E. unfold granted. destruct (allowed _); reflexivity. Qed.
Lemma pad_granted b ws : pad_bytes b = Ok ws -> pad_bytes_mem room b = granted [(len b + 31) / 32] ws.
Proof. unfold pad_bytes, pad_bytes_mem. intros E. apply bind_ok in E as (r & E & X). injection X as <-. rewrite (pad_fixed_granted _ E). apply granted_bind. Qed.

(** ** Mediates *)
Definition tail_granted (v : Token) (m : Mediate) : Prop := exists ws, tail p m = Ok ws /\ tail_mem room p m = granted (for_tail v) ws.
Definition mem_ok (v : Token) (m : Mediate) : Prop := med32 p (part32 v) m /\ tail_granted v m.
Lemma mem_med vs ms : Forall2 mem_ok vs ms -> Forall2 (med32 p) (map part32 vs) ms.
Proof. induction 1 as [|v m vs ms [M _] H IH]; cbn [map]; constructor; auto. Qed.
Lemma tails_granted vs ms acc cs : Forall2 mem_ok vs ms -> exists ws, foldM (fun acc m => do t <- tail p m; Ok (acc ++ t)) ms acc = Ok (acc ++ ws) /\
  foldM (fun '(acc, cs) m => do (t, c) <- tail_mem room p m; Ok (acc ++ t, cs ++ c)) ms (acc, cs) = if allowed (flat_map for_tail vs) then Ok (acc ++ ws, cs ++ flat_map for_tail vs) else Panic.
Proof.
  intros H. revert acc cs. induction H as [|v m vs ms [_ (w & E & G)] H IH]; intros acc cs.
  - exists []. cbn. now rewrite !app_nil_r.
  - destruct (IH (acc ++ w) (cs ++ for_tail v)) as (ws & E' & G'). exists (w ++ ws). cbn [foldM flat_map]. rewrite E. cbn [bind]. rewrite E', <- app_assoc. split; [reflexivity|].
    rewrite G. unfold granted. rewrite allowed_app. destruct (allowed (for_tail v)); cbn [bind andb]; [|reflexivity]. rewrite G', <- !app_assoc. reflexivity.
Qed.
Lemma sub_fine h t : fine p (h + t) -> u32_sub p ((h + t) mod two32) (h mod two32) = Ok (t mod two32).
Proof.
  intros F. unfold u32_sub. pose proof two32_pos as P. assert (A : h mod two32 < two32) by now apply N.mod_lt. assert (B : t mod two32 < two32) by now apply N.mod_lt.
  assert (E : (h + t) mod two32 = if h mod two32 + t mod two32 <? two32 then h mod two32 + t mod two32 else h mod two32 + t mod two32 - two32).
  { rewrite N.add_mod by exact P. destruct (N.ltb_spec (h mod two32 + t mod two32) two32); [now apply N.mod_small|]. symmetry. apply N.mod_unique with 1; lia. }
  destruct (N.ltb_spec (h mod two32 + t mod two32) two32) as [L|L]; rewrite E.
  - replace (h mod two32 <=? _) with true by lia. f_equal. lia.
  - replace (h mod two32 <=? _) with false by lia. destruct F as [->|F]; [f_equal; lia|]. rewrite (N.mod_small h), (N.mod_small t) in L by lia. lia.
Qed.
Lemma seq_granted vs ms : Forall2 mem_ok vs ms -> fine p (len (seq32 (map part32 vs))) ->
  exists ws, encode_head_tail p ms = Ok ws /\ encode_head_tail_mem room p ms = granted (for_sequence vs ++ flat_map for_tail vs) ws.
Proof.
  intros H Hb. pose proof (mem_med H) as M. rewrite seq32_len in Hb. set (cs := map part32 vs) in *. unfold encode_head_tail, encode_head_tail_with, encode_head_tail_mem, encode_head_tail_mem_with.
  change (foldM _ ms 0) with (foldM (fun acc m => do h <- head_len p m; u32_add p acc h) ms (0 mod two32)).
  rewrite (fold_head_len32 _ M) by (eapply fine_le; [exact Hb|lia]). cbn [bind]. rewrite N.add_0_l.
  destruct (@fold_heads32 p cs ms (heads_size cs) [] M) as (hs & E & _ & _); [exact Hb|]. cbn [app] in E. rewrite capacity_then. rewrite E. cbn [bind]. rewrite (sub_fine _ _ Hb). cbn [bind]. rewrite capacity_then.
  destruct (tails_granted [] [] H) as (ws & E' & G'). cbn [app] in E', G'. rewrite E', G'. cbn [bind]. eexists. split; [reflexivity|].
  unfold granted. rewrite allowed_app. unfold for_sequence. change (parts vs) with cs. rewrite two32_eq.
  change (allowed [heads_size cs mod two32; len (tails cs) mod two32]) with (allowed ([heads_size cs mod two32] ++ [len (tails cs) mod two32])). rewrite allowed_app.
  destruct (allowed [heads_size cs mod two32]), (allowed [len (tails cs) mod two32]), (allowed (flat_map for_tail vs)); reflexivity.
Qed.

(** ** Tokens *)
Lemma static_tail_none v : dynamic_value v = false -> for_tail v = [].
Proof. destruct v; cbn [dynamic_value for_tail]; intros D; try reflexivity; try discriminate; now rewrite D. Qed.
Lemma static_tails_none vs : existsb dynamic_value vs = false -> flat_map for_tail vs = [].
Proof. induction vs as [|v vs IH]; cbn [existsb flat_map]; [reflexivity|]. intros D. apply orb_false_iff in D as [D1 D2]. now rewrite static_tail_none, IH. Qed.
Definition tok_mem (v : Token) : Prop := exists m, encode_token p v = Ok m /\ encode_token_mem room p v = granted (for_token v) m /\ mem_ok v m.
Lemma toks_mem vs : Forall (fun v => fine p (len (value32 v)) -> tok_mem v) vs -> fine p (len (seq32 (map part32 vs))) ->
  exists ms, mapM (encode_token p) vs = Ok ms /\ all_mem (encode_token_mem room p) vs = granted (flat_map for_token vs) ms /\ Forall2 mem_ok vs ms.
Proof.
  intros H Hb. pose proof (parts_bound (map part32 vs)) as B. rewrite Forall_map in B. rewrite Forall_forall in B, H.
  assert (G : Forall tok_mem vs). { apply Forall_forall. intros v Hin. apply (H _ Hin). specialize (B _ Hin). eapply fine_le; eauto. }
  clear -G. induction G as [|v l (m & E & F & M) G (ms & Es & Fs & Ms)]; cbn [mapM all_mem flat_map].
  - eexists; split; [reflexivity|]. split; [reflexivity|constructor].
  - rewrite E, Es. cbn [bind]. eexists; split; [reflexivity|]. split; [|now constructor]. fold (all_mem (encode_token_mem room p)). rewrite F, Fs. apply (granted_then m ms _ _ cons).
Qed.
Lemma all_values vs : forallb wf_token vs = true -> Forall (fun v => wf_token v = true -> fine p (len (value32 v)) -> tok_mem v) vs -> Forall (fun v => fine p (len (value32 v)) -> tok_mem v) vs.
Proof. intros T H. rewrite forallb_forall in T. rewrite Forall_forall in *. auto. Qed.
Lemma tok_mem_all v : wf_token v = true -> fine p (len (value32 v)) -> tok_mem v.
Proof.
  induction v using Token_ind'; intros T L;
    match goal with |- tok_mem ?v => destruct (@tok32_all p v T L) as (m & E & M) end; exists m; (split; [exact E|]); unfold mem_ok; cbn [encode_token encode_token_mem for_token] in *.
  - apply bind_ok in E as (c & E & X). injection X as <-. rewrite E. cbn [bind]. split; [reflexivity|]. split; [exact M|]. eexists. split; reflexivity.
  - apply bind_ok in E as (c & E & X). injection X as <-. rewrite (pad_fixed_granted _ E), granted_bind. split; [reflexivity|]. split; [exact M|]. eexists. split; reflexivity.
  - apply bind_ok in E as (c & E & X). injection X as <-. rewrite (pad_granted _ E), granted_bind. split; [reflexivity|]. split; [exact M|]. eexists. split; reflexivity.
  - injection E as <-. split; [reflexivity|]. split; [exact M|]. eexists. split; reflexivity.
  - injection E as <-. split; [reflexivity|]. split; [exact M|]. eexists. split; reflexivity.
  - injection E as <-. split; [reflexivity|]. split; [exact M|]. eexists. split; reflexivity.
  - apply bind_ok in E as (c & E & X). injection X as <-. rewrite (pad_granted _ E), granted_bind. split; [reflexivity|]. split; [exact M|]. eexists. split; reflexivity.
  - cbn [wf_token value32 token_is_dynamic] in *. change (fun v => (dynamic_value v, value32 v)) with part32 in *. destruct (@toks_mem vs (all_values T H) L) as (ms & Es & Fs & Ms). rewrite Es in E. cbn [bind] in E. rewrite Fs.
    destruct (seq_granted Ms L) as (ws & E1 & E2). pose proof (dynamic_values vs) as D. unfold tail_granted. cbn [for_tail]. rewrite <- D in *. destruct (existsb dynamic_value vs) eqn:Dy.
    + injection E as <-. rewrite app_nil_r. rewrite (granted_bind ms _ PrefixedArray). split; [reflexivity|]. split; [exact M|]. exists ws. split; [exact E1|exact E2].
    + cbv beta in E. rewrite E1 in E. cbn [bind] in E. injection E as <-. split; [|split; [exact M|exists []; split; reflexivity]].
      assert (Z : flat_map for_tail vs = []) by now apply static_tails_none.
      rewrite Z, app_nil_r in E2. exact (@granted_chain _ _ _ ms ws _ _ _ Raw E2).
  - cbn [wf_token value32] in *. change (fun v => (dynamic_value v, value32 v)) with part32 in *. assert (L' : fine p (len (seq32 (map part32 vs)))) by (rewrite len_app in L; eapply fine_le; [exact L|lia]).
    destruct (@toks_mem vs (all_values T H) L') as (ms & Es & Fs & Ms). rewrite Es in E. cbn [bind] in E. injection E as <-. rewrite Fs. rewrite (granted_bind ms _ PrefixedArrayWithLength). split; [reflexivity|]. split; [exact M|].
    destruct (seq_granted Ms L') as (ws & E1 & E2). eexists. cbn [tail tail_mem for_tail]. unfold encode_head_tail in E1. unfold encode_head_tail_mem in E2. rewrite E1. cbn [bind]. split; [reflexivity|]. rewrite E2. apply (granted_bind ws _ (fun w => pad_u32 (as_u32 (len ms)) :: w)).
  - cbn [wf_token value32 token_is_dynamic] in *. change (fun v => (dynamic_value v, value32 v)) with part32 in *. destruct (@toks_mem vs (all_values T H) L) as (ms & Es & Fs & Ms). rewrite Es in E. cbn [bind] in E. rewrite Fs.
    destruct (seq_granted Ms L) as (ws & E1 & E2). pose proof (dynamic_values vs) as D. unfold tail_granted. cbn [for_tail]. rewrite <- D in *. destruct (existsb dynamic_value vs); injection E as <-.
    + rewrite (granted_bind ms _ PrefixedTuple). split; [reflexivity|]. split; [exact M|]. exists ws. split; [exact E1|exact E2].
    + rewrite (granted_bind ms _ RawTuple). split; [reflexivity|]. split; [exact M|]. exists []. split; reflexivity.
Qed.

Lemma encode_granted vs : forallb wf_token vs = true -> fine p (len (encoding32 vs)) -> encode_mem room p vs = granted (reservations vs) (encoding32 vs).
Proof.
  intros T L. unfold encoding32, reservations in *. cbn [value32] in *. change (fun v => (dynamic_value v, value32 v)) with part32 in *.
  destruct (@toks_mem vs) as (ms & E & G & M); [|exact L|].
  { rewrite Forall_forall. rewrite forallb_forall in T. intros. apply tok_mem_all; auto. }
  destruct (seq_granted M L) as (ws & E1 & E2). destruct (head_tail32 (mem_med M) L) as (ws' & E' & C & _). rewrite E1 in E'. injection E' as <-.
  unfold encode_mem. rewrite G. rewrite <- C. exact (@granted_chain _ _ _ ms ws _ _ _ (@concat byte) E2).
Qed.
End Mem.

(** ** What follows for the targets *)
Lemma encode_room room p vs : forallb wf_token vs = true -> p = Release \/ len (encoding32 vs) < 2 ^ 32 ->
  encode_mem room p vs = if forallb (fun n => 32 * n <=? room) (reservations vs) then Ok (encoding32 vs, reservations vs) else Panic.
Proof. intros T F. exact (@encode_granted room p vs T F). Qed.

(** Each number is small, or that of the words of bytes or text. *)
Lemma flat_bound (f : Token -> list N) vs b : Forall (fun v => Forall (fun n => n < two32 \/ 32 * n <= len (value32 v)) (f v)) vs -> Forall (fun v => len (value32 v) <= b) vs ->
  Forall (fun n => n < two32 \/ 32 * n <= b) (flat_map f vs).
Proof.
  intros H B. apply Forall_flat_map. rewrite Forall_forall in *. intros v I. specialize (H _ I). specialize (B _ I). cbv beta in B. eapply Forall_impl; [|exact H]. cbv beta. intros n. lia.
Qed.
Lemma seq_values vs : Forall (fun v => len (value32 v) <= len (seq32 (parts vs))) vs.
Proof. pose proof (parts_bound (parts vs)) as B. unfold parts in *. rewrite Forall_map in B. exact B. Qed.
Lemma sequence_small vs b : Forall (fun n => n < two32 \/ 32 * n <= b) (for_sequence vs).
Proof. unfold for_sequence. constructor; [|constructor; [|constructor]]; left; rewrite two32_eq; apply N.mod_lt, two32_pos. Qed.
Lemma leaf_small b : 32 * ((len b + 31) / 32) <= len (b ++ padding (len b)).
Proof. rewrite len_app. unfold padding. rewrite len_zeros. pose proof (N.div_mod (len b + 31) 32). pose proof (N.mod_lt (len b + 31) 32). pose proof (N.div_mod (len b) 32). pose proof (N.mod_lt (len b) 32).
  destruct (N.eq_dec (len b mod 32) 0) as [Z|Z]; [rewrite Z; change ((32 - 0) mod 32) with 0; lia|]. rewrite (N.mod_small (32 - len b mod 32)) by lia. lia.
Qed.
Lemma tail_small v b : Forall (fun n => n < two32 \/ 32 * n <= b) (for_tail v).
Proof.
  induction v using Token_ind'; cbn [for_tail]; try constructor.
  - destruct (existsb dynamic_value vs); [|constructor]. apply Forall_app. split; [apply sequence_small|]. now apply Forall_flat_map.
  - left. rewrite two32_eq. apply N.mod_lt, two32_pos.
  - cbn [app]. constructor; [left; rewrite two32_eq; apply N.mod_lt, two32_pos|]. now apply Forall_flat_map.
  - destruct (existsb dynamic_value vs); [|constructor]. apply Forall_app. split; [apply sequence_small|]. now apply Forall_flat_map.
Qed.
Lemma token_small v : Forall (fun n => n < two32 \/ 32 * n <= len (value32 v)) (for_token v).
Proof.
  induction v using Token_ind'; cbn [for_token value32]; try (apply Forall_nil); try (change (map (fun v => (dynamic_value v, value32 v)) vs) with (parts vs) in *).
  - constructor; [right; apply leaf_small|constructor].
  - constructor; [right; rewrite len_app; pose proof (leaf_small b); lia|constructor].
  - constructor; [right; rewrite len_app; pose proof (leaf_small (utf8 s)); lia|constructor].
  - apply Forall_app. split; [apply flat_bound; [exact H|apply seq_values]|]. destruct (existsb dynamic_value vs); [constructor|apply sequence_small].
  - eapply Forall_impl; [|apply (@flat_bound for_token vs (len (seq32 (parts vs)))); [exact H|apply seq_values]]. cbv beta. intros n. rewrite len_app. lia.
  - apply flat_bound; [exact H|apply seq_values].
Qed.
Lemma reservations_small vs : Forall (fun n => n < two32 \/ 32 * n <= len (encoding32 vs)) (reservations vs).
Proof.
  unfold reservations, encoding32. cbn [value32]. change (map (fun v => (dynamic_value v, value32 v)) vs) with (parts vs). apply Forall_app. split; [|apply Forall_app; split; [apply sequence_small|]].
  - apply flat_bound; [|apply seq_values]. apply Forall_forall. intros. apply token_small.
  - apply Forall_flat_map. apply Forall_forall. intros. apply tail_small.
Qed.
Lemma encode_room64 room p vs : forallb wf_token vs = true -> p = Release \/ len (encoding32 vs) < 2 ^ 32 -> 2 ^ 37 <= room -> len (encoding32 vs) <= room ->
  encode_mem room p vs = Ok (encoding32 vs, reservations vs).
Proof.
  intros T F R L. rewrite encode_room by assumption. replace (forallb _ (reservations vs)) with true; [reflexivity|]. symmetry. apply forallb_forall. pose proof (reservations_small vs) as H. rewrite Forall_forall in H. intros n I. specialize (H _ I). cbv beta in H.
  change (2 ^ 37) with (32 * two32) in R. lia.
Qed.
Lemma encode_room_panics room p vs : forallb wf_token vs = true -> p = Release \/ len (encoding32 vs) < 2 ^ 32 -> (encode_mem room p vs = Panic <-> exists n, In n (reservations vs) /\ room < 32 * n).
Proof.
  intros T F. rewrite encode_room by assumption. destruct (forallb _ (reservations vs)) eqn:E.
  - split; [discriminate|]. intros (n & I & L). rewrite forallb_forall in E. specialize (E _ I). cbv beta in E. lia.
  - split; [|reflexivity]. intros _. clear -E. induction (reservations vs) as [|n l IH]; [discriminate|]. cbn [forallb] in E. apply andb_false_iff in E as [E|E]; [exists n; split; [left; reflexivity|lia]|].
    destruct (IH E) as (m & I & L). exists m. split; [right; exact I|exact L].
Qed.

(** ** How much it is in all *)
Lemma sum_app a b : sum (a ++ b) = sum a + sum b. Proof. induction a as [|n a IH]; cbn [app sum]; [reflexivity|]. rewrite IH. lia. Qed.
Lemma parts_sum cs : sum (map (fun c => len (snd c)) cs) <= len (seq32 cs).
Proof.
  rewrite seq32_len. induction cs as [|[[] e] cs IH]; cbn [map sum snd heads_size head_size tails]; [lia| |]; rewrite ?len_app; lia.
Qed.
Lemma sequence_sum vs : sum (for_sequence vs) <= len (seq32 (parts vs)).
Proof. unfold for_sequence. cbn [sum]. rewrite seq32_len. pose proof (N.mod_le (heads_size (parts vs)) (2 ^ 32)). pose proof (N.mod_le (len (tails (parts vs))) (2 ^ 32)). lia. Qed.
Definition weight (v : Token) : N := sum (for_token v) + sum (for_tail v).
Definition deepest (vs : list Token) : N := fold_right (fun v d => N.max (depth v) d) 0 vs.
Lemma weight_parts vs : Forall (fun v => weight v <= depth v * len (value32 v)) vs -> sum (flat_map for_token vs) + sum (flat_map for_tail vs) <= deepest vs * sum (map (fun c => len (snd c)) (parts vs)).
Proof.
  unfold parts. induction 1 as [|v vs Hv H IH]; [cbn; lia|]. cbn [flat_map map sum snd deepest fold_right]. rewrite !sum_app. fold (deepest vs). unfold weight in Hv.
  remember (sum (map (fun c : bool * list byte => len (snd c)) (map (fun v0 => (dynamic_value v0, value32 v0)) vs))) as S1. remember (len (value32 v)) as l.
  assert (A : depth v * l <= N.max (depth v) (deepest vs) * l) by (apply N.mul_le_mono_r; lia). assert (B : deepest vs * S1 <= N.max (depth v) (deepest vs) * S1) by (apply N.mul_le_mono_r; lia).
  rewrite N.mul_add_distr_l. lia.
Qed.
Lemma weight_seq vs : Forall (fun v => weight v <= depth v * len (value32 v)) vs -> sum (flat_map for_token vs) + sum (for_sequence vs) + sum (flat_map for_tail vs) <= (1 + deepest vs) * len (seq32 (parts vs)).
Proof.
  intros H. pose proof (weight_parts H) as W. pose proof (sequence_sum vs) as Q. pose proof (parts_sum (parts vs)) as P.
  assert (A : deepest vs * sum (map (fun c => len (snd c)) (parts vs)) <= deepest vs * len (seq32 (parts vs))) by (apply N.mul_le_mono_l; exact P). rewrite N.mul_add_distr_r. lia.
Qed.
Lemma leaf_weight b : (len b + 31) / 32 <= len (b ++ padding (len b)).
Proof. pose proof (leaf_small b). lia. Qed.
Lemma weight_all v : weight v <= depth v * len (value32 v).
Proof.
  induction v using Token_ind'; unfold weight; cbn [for_token for_tail depth value32 sum]; try (change (map (fun v => (dynamic_value v, value32 v)) vs) with (parts vs); fold (deepest vs)); try lia.
  - pose proof (leaf_weight b). lia.
  - rewrite len_app. pose proof (leaf_weight b). lia.
  - rewrite len_app. pose proof (leaf_weight (utf8 s)). lia.
  - pose proof (weight_seq H) as W. rewrite sum_app. destruct (existsb dynamic_value vs); cbn [sum]; rewrite ?sum_app; lia.
  - pose proof (weight_seq H) as W. rewrite !sum_app, len_app, N.mul_add_distr_l. lia.
  - pose proof (weight_seq H) as W. destruct (existsb dynamic_value vs); cbn [sum]; rewrite ?sum_app; lia.
Qed.
Lemma reserved_most vs : sum (reservations vs) <= depth (TTuple vs) * len (encoding32 vs).
Proof.
  unfold reservations, encoding32. cbn [value32 depth]. change (map (fun v => (dynamic_value v, value32 v)) vs) with (parts vs). fold (deepest vs).
  assert (H : Forall (fun v => weight v <= depth v * len (value32 v)) vs) by (apply Forall_forall; intros; apply weight_all). pose proof (weight_seq H). rewrite !sum_app. lia.
Qed.
Lemma reserved_least vs : len (encoding32 vs) < 2 ^ 32 -> len (encoding32 vs) <= sum (reservations vs).
Proof.
  unfold reservations, encoding32. cbn [value32]. change (map (fun v => (dynamic_value v, value32 v)) vs) with (parts vs). rewrite seq32_len. intros L. rewrite !sum_app. unfold for_sequence. cbn [sum].
  rewrite !N.mod_small by lia. lia.
Qed.
Lemma reserved_each args n : In n (reservations args) -> n <= len (encoding32 args).
Proof.
  enough (H : Forall (fun n => n <= len (encoding32 args)) (reservations args)) by (rewrite Forall_forall in H; auto). clear n.
  assert (Q : forall vs b, len (seq32 (parts vs)) <= b -> Forall (fun n => n <= b) (for_sequence vs)).
  { intros us b B. rewrite seq32_len in B. unfold for_sequence. pose proof (N.mod_le (heads_size (parts us)) (2 ^ 32)). pose proof (N.mod_le (len (tails (parts us))) (2 ^ 32)). constructor; [lia|]. constructor; [lia|constructor]. }
  assert (S : forall (f : Token -> list N) vs b, Forall (fun v => forall b, len (value32 v) <= b -> Forall (fun n => n <= b) (f v)) vs -> len (seq32 (parts vs)) <= b -> Forall (fun n => n <= b) (flat_map f vs)).
  { intros f us b H B. apply Forall_flat_map. pose proof (seq_values us) as V. rewrite Forall_forall in *. intros v I. apply H; [exact I|]. specialize (V _ I). cbv beta in V. lia. }
  assert (T : forall v b, len (value32 v) <= b -> Forall (fun n => n <= b) (for_tail v)).
  { intros v. induction v using Token_ind'; intros b' B; cbn [for_tail value32] in *; try (apply Forall_nil); try (change (map (fun v => (dynamic_value v, value32 v)) vs) with (parts vs) in B).
    - destruct (existsb dynamic_value vs); [|constructor]. apply Forall_app. auto.
    - rewrite len_app in B. apply Forall_app. split; [apply Q; lia|apply S; [exact H|lia]].
    - destruct (existsb dynamic_value vs); [|constructor]. apply Forall_app. auto. }
  assert (K : forall v b, len (value32 v) <= b -> Forall (fun n => n <= b) (for_token v)).
  { intros v. induction v using Token_ind'; intros b' B; cbn [for_token value32] in *; try (apply Forall_nil); try (change (map (fun v => (dynamic_value v, value32 v)) vs) with (parts vs) in B).
    - constructor; [|constructor]. pose proof (leaf_weight b). lia.
    - constructor; [|constructor]. rewrite len_app in B. pose proof (leaf_weight b). lia.
    - constructor; [|constructor]. rewrite len_app in B. pose proof (leaf_weight (utf8 s)). lia.
    - apply Forall_app. split; [auto|]. destruct (existsb dynamic_value vs); [constructor|auto].
    - rewrite len_app in B. apply S; [exact H|lia].
    - auto. }
  unfold reservations, encoding32. cbn [value32]. change (map (fun v => (dynamic_value v, value32 v)) args) with (parts args). apply Forall_app. split; [|apply Forall_app; split].
  - apply S; [apply Forall_forall; auto|lia].
  - apply Q. lia.
  - apply S; [apply Forall_forall; auto|lia].
Qed.

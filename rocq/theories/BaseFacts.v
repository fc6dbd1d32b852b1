(** * Lemmas about Base and Utf8 *)
From Verif Require Import Base Utf8.
From Coq Require Import ZifyBool ZifyNat ZifyN.
Set Implicit Arguments.
Local Open Scope N_scope.
Ltac Zify.zify_post_hook ::= Z.div_mod_to_equations.

Lemma len_app A (a b : list A) : len (a ++ b) = len a + len b.
Proof. unfold len. rewrite app_length. lia. Qed.
Lemma len_nil A : len (@nil A) = 0. Proof. reflexivity. Qed.
Lemma len_cons A (x : A) l : len (x :: l) = 1 + len l.
Proof. unfold len. cbn [length]. lia. Qed.
Lemma len_0 A (l : list A) : len l = 0 -> l = [].
Proof. destruct l; [reflexivity|]. rewrite len_cons. lia. Qed.
Lemma len_map A B (f : A -> B) l : len (map f l) = len l.
Proof. unfold len. now rewrite map_length. Qed.
Lemma len_rev A (l : list A) : len (rev l) = len l.
Proof. unfold len. now rewrite rev_length. Qed.
Lemma len_repeat A (x : A) n : len (repeat x n) = N.of_nat n.
Proof. unfold len. now rewrite repeat_length. Qed.
Lemma len_zeros n : len (zeros n) = N.of_nat n.
Proof. apply len_repeat. Qed.
Lemma zeros_app a b : zeros (a + b) = zeros a ++ zeros b.
Proof. apply repeat_app. Qed.

Lemma to_N_lt b : Byte.to_N b < 256.
Proof. pose proof (Byte.to_N_bounded b). lia. Qed.
Lemma to_N_byte_of_N n : Byte.to_N (byte_of_N n) = n mod 256.
Proof.
  unfold byte_of_N. destruct (Byte.of_N (n mod 256)) eqn:E.
  - now apply Byte.to_of_N.
  - apply Byte.of_N_None_iff in E. exfalso. lia.
Qed.
Lemma to_N_small n : n < 256 -> Byte.to_N (byte_of_N n) = n.
Proof. intros. rewrite to_N_byte_of_N. now apply N.mod_small. Qed.
Lemma byte_of_to_N b : byte_of_N (Byte.to_N b) = b.
Proof.
  unfold byte_of_N. pose proof (to_N_lt b).
  rewrite N.mod_small by lia. now rewrite Byte.of_to_N.
Qed.
Lemma to_N_inj a b : Byte.to_N a = Byte.to_N b -> a = b.
Proof. intros H. rewrite <- (byte_of_to_N a), <- (byte_of_to_N b). now rewrite H. Qed.

Lemma be_bytes_length k n : length (be_bytes k n) = k.
Proof. revert n; induction k; intros; cbn [be_bytes]; [reflexivity|].
  rewrite app_length, IHk. cbn. lia. Qed.
Lemma len_be_bytes k n : len (be_bytes k n) = N.of_nat k.
Proof. unfold len. now rewrite be_bytes_length. Qed.

Lemma of_be_app_acc l acc :
  fold_left (fun acc b => acc * 256 + Byte.to_N b) l acc = acc * 256 ^ len l + of_be l.
Proof.
  unfold of_be. revert acc. induction l as [|x l IH]; intros acc.
  - cbn. lia.
  - cbn [fold_left]. rewrite IH, (IH (0 * 256 + _)), len_cons.
    rewrite N.pow_add_r, N.pow_1_r. lia.
Qed.
Lemma of_be_app a b : of_be (a ++ b) = of_be a * 256 ^ len b + of_be b.
Proof. unfold of_be at 1. rewrite fold_left_app. apply of_be_app_acc. Qed.
Lemma of_be_single b : of_be [b] = Byte.to_N b.
Proof. unfold of_be. cbn [fold_left]. lia. Qed.
Lemma of_be_lt l : of_be l < 256 ^ len l.
Proof.
  induction l as [|x l IH] using rev_ind.
  - cbn. lia.
  - rewrite of_be_app, len_app, of_be_single. change (len [x]) with 1.
    rewrite N.pow_add_r, N.pow_1_r. pose proof (to_N_lt x). nia.
Qed.
Lemma of_be_be_bytes k n : of_be (be_bytes k n) = n mod 256 ^ N.of_nat k.
Proof.
  revert n; induction k; intros n.
  - cbn. now rewrite N.mod_1_r.
  - cbn [be_bytes]. rewrite of_be_app, IHk, of_be_single, to_N_byte_of_N.
    change (len [_]) with 1. rewrite N.pow_1_r.
    replace (N.of_nat (S k)) with (1 + N.of_nat k) by lia.
    rewrite N.pow_add_r, N.pow_1_r.
    rewrite N.mod_mul_r by (try apply N.pow_nonzero; lia). lia.
Qed.
Lemma of_be_be_bytes_small k n : n < 256 ^ N.of_nat k -> of_be (be_bytes k n) = n.
Proof. intros. rewrite of_be_be_bytes. now apply N.mod_small. Qed.
Lemma be_bytes_of_be l : be_bytes (length l) (of_be l) = l.
Proof.
  induction l as [|x l IH] using rev_ind; [reflexivity|].
  rewrite app_length. cbn [length]. rewrite Nat.add_comm. cbn [Nat.add be_bytes].
  rewrite of_be_app, of_be_single. change (len [x]) with 1. rewrite N.pow_1_r.
  pose proof (to_N_lt x).
  replace ((of_be l * 256 + Byte.to_N x) / 256) with (of_be l).
  2:{ apply N.div_unique with (Byte.to_N x); lia. }
  rewrite IH. f_equal. f_equal. apply to_N_inj. rewrite to_N_byte_of_N.
  rewrite N.add_comm, N.mod_add by lia. now apply N.mod_small.
Qed.
Lemma be_bytes_of_be' k l : length l = k -> be_bytes k (of_be l) = l.
Proof. intros <-. apply be_bytes_of_be. Qed.
Lemma be_bytes_0 k : be_bytes k 0 = zeros k.
Proof.
  induction k; [reflexivity|]. cbn [be_bytes]. change (0 / 256) with 0. rewrite IHk.
  change [byte_of_N 0] with (zeros 1). rewrite <- zeros_app.
  f_equal. lia.
Qed.
Lemma be_bytes_split a b n :
  be_bytes (a + b) n = be_bytes a (n / 256 ^ N.of_nat b) ++ be_bytes b n.
Proof.
  revert n; induction b; intros n.
  - rewrite Nat.add_0_r. cbn [be_bytes]. rewrite app_nil_r. f_equal.
    cbn. now rewrite N.div_1_r.
  - replace (a + S b)%nat with (S (a + b)) by lia. cbn [be_bytes].
    rewrite IHb, <- app_assoc. f_equal. f_equal. rewrite N.div_div by (try apply N.pow_nonzero; lia).
    f_equal. replace (N.of_nat (S b)) with (1 + N.of_nat b) by lia.
    rewrite N.pow_add_r. lia.
Qed.
Lemma be_bytes_small a b n : n < 256 ^ N.of_nat b ->
  be_bytes (a + b) n = zeros a ++ be_bytes b n.
Proof. intros. rewrite be_bytes_split, N.div_small by assumption. now rewrite be_bytes_0. Qed.

(** ** res *)
Lemma bind_ok A B (r : res A) (f : A -> res B) b :
  bind r f = Ok b <-> exists a, r = Ok a /\ f a = Ok b.
Proof.
  destruct r; cbn; split; try (intros; discriminate); try (intros (?&?&?); discriminate).
  - eauto.
  - intros (x & E & H). congruence.
Qed.
Lemma bind_panic A B (r : res A) (f : A -> res B) :
  bind r f = Panic <-> r = Panic \/ exists a, r = Ok a /\ f a = Panic.
Proof.
  destruct r; cbn; split; intros.
  - right; eauto.
  - destruct H as [|(x & E & H)]; congruence.
  - discriminate.
  - destruct H as [|(x & E & H)]; congruence.
  - now left.
  - reflexivity.
Qed.
Lemma bind_assoc A B C (r : res A) (f : A -> res B) (g : B -> res C) :
  bind (bind r f) g = bind r (fun x => bind (f x) g).
Proof. now destruct r. Qed.
Lemma bind_ext A B (r : res A) (f g : A -> res B) :
  (forall a, f a = g a) -> bind r f = bind r g.
Proof. intros H. destruct r; cbn; auto. Qed.

Lemma mapM_ok A B (f : A -> res B) l l' :
  mapM f l = Ok l' <-> Forall2 (fun x y => f x = Ok y) l l'.
Proof.
  revert l'; induction l as [|x l IH]; intros l'; cbn.
  - split; intros H; [injection H as <-; constructor | inversion H; reflexivity].
  - rewrite bind_ok. split.
    + intros (y & E & H). apply bind_ok in H as (ys & E' & H). injection H as <-.
      constructor; [assumption | now apply IH].
    + intros H. inversion H as [|? y ? ys E H' E1 E2]; subst.
      exists y. split; [assumption|]. apply bind_ok. exists ys.
      split; [now apply IH | reflexivity].
Qed.
Lemma mapM_not_panic A B (f : A -> res B) l :
  Forall (fun x => f x <> Panic) l -> mapM f l <> Panic.
Proof.
  induction 1; cbn; [discriminate|]. intros E. apply bind_panic in E as [|(y & E & E')]; [tauto|].
  apply bind_panic in E' as [|(? & ? & ?)]; [tauto|discriminate].
Qed.

Lemma foldM_app A S (f : S -> A -> res S) l1 l2 s :
  foldM f (l1 ++ l2) s = bind (foldM f l1 s) (foldM f l2).
Proof.
  revert s; induction l1 as [|x l1 IH]; intros s; cbn; [reflexivity|].
  rewrite bind_assoc. apply bind_ext. intros. apply IH.
Qed.
Lemma foldM_ext A S (f g : S -> A -> res S) l s :
  (forall s x, f s x = g s x) -> foldM f l s = foldM g l s.
Proof.
  intros E. revert s; induction l as [|x l IH]; intros s; cbn; [reflexivity|].
  rewrite E. apply bind_ext. auto.
Qed.
Lemma iter_pos_foldM A S (f : S -> res S) (x : A) pos s :
  iter_pos f pos s = foldM (fun s _ => f s) (repeat x (Pos.to_nat pos)) s.
Proof.
  revert s; induction pos; intros s.
  - rewrite Pos2Nat.inj_xI. cbn [repeat foldM iter_pos Nat.mul].
    apply bind_ext. intros s'. rewrite IHpos, Nat.add_0_r, repeat_app, foldM_app.
    apply bind_ext. intros. apply IHpos.
  - rewrite Pos2Nat.inj_xO. cbn [iter_pos]. cbn [Nat.mul]. rewrite Nat.add_0_r, repeat_app, foldM_app, IHpos.
    apply bind_ext. intros. apply IHpos.
  - change (Pos.to_nat 1) with 1%nat. cbn [repeat foldM iter_pos]. destruct (f s); reflexivity.
Qed.
Lemma iter_N_foldM A S (f : S -> res S) (x : A) n s :
  iter_N f n s = foldM (fun s _ => f s) (repeat x (N.to_nat n)) s.
Proof. destruct n; [reflexivity|]. cbn [iter_N N.to_nat]. apply iter_pos_foldM. Qed.

(** ** Arithmetic *)
Lemma two32_eq : two32 = 4294967296. Proof. reflexivity. Qed.
Lemma two64_eq : two64 = 18446744073709551616. Proof. reflexivity. Qed.
Lemma two256_eq : two256 = 256 ^ N.of_nat 32. Proof. vm_compute. reflexivity. Qed.
Lemma checked_small p m v : v < m -> checked p m v = Ok v.
Proof. intros. unfold checked. destruct (N.ltb_spec v m); [reflexivity|lia]. Qed.
Lemma u32_add_small p a b : a + b < two32 -> u32_add p a b = Ok (a + b).
Proof. apply checked_small. Qed.
Lemma u32_mul_small p a b : a * b < two32 -> u32_mul p a b = Ok (a * b).
Proof. apply checked_small. Qed.
Lemma usize_add_small p a b : a + b < two64 -> usize_add p a b = Ok (a + b).
Proof. apply checked_small. Qed.
Lemma as_u32_small a : a < two32 -> as_u32 a = a.
Proof. apply N.mod_small. Qed.

(** ** Slices *)
Lemma slice_app A (pre mid post : list A) a b :
  a = len pre -> b = len pre + len mid -> slice (pre ++ mid ++ post) a b = Ok mid.
Proof.
  intros -> ->. unfold slice. rewrite !len_app.
  destruct (N.leb_spec (len pre) (len pre + len mid)); [|lia].
  destruct (N.leb_spec (len pre + len mid) (len pre + (len mid + len post))); [|lia].
  cbn [andb]. f_equal. unfold len.
  rewrite Nat2N.id, skipn_app, skipn_all, Nat.sub_diag. cbn [app skipn].
  replace (N.to_nat _) with (length mid) by lia.
  rewrite firstn_app, firstn_all, Nat.sub_diag. cbn. now rewrite app_nil_r.
Qed.
Lemma slice_eq A (l : list A) a b m : slice l a b = Ok m ->
  firstn (N.to_nat (b - a)) (skipn (N.to_nat a) l) = m.
Proof. unfold slice. destruct (_ && _); congruence. Qed.
Lemma slice_ok A (l : list A) a b m : slice l a b = Ok m ->
  exists pre post, l = pre ++ m ++ post /\ a = len pre /\ b = len pre + len m.
Proof.
  unfold slice. destruct (N.leb_spec a b); [|discriminate].
  destruct (N.leb_spec b (len l)); [|discriminate]. cbn [andb]. intros E. injection E as <-.
  unfold len in *.
  exists (firstn (N.to_nat a) l), (skipn (N.to_nat (b - a)) (skipn (N.to_nat a) l)).
  rewrite firstn_skipn, firstn_skipn. split; [reflexivity|].
  rewrite !firstn_length, skipn_length. lia.
Qed.
Lemma slice_some A (l : list A) a b : a <= b -> b <= len l -> exists m, slice l a b = Ok m /\ len m = b - a.
Proof.
  intros. unfold slice. rewrite (proj2 (N.leb_le _ _) H), (proj2 (N.leb_le _ _) H0). cbn.
  eexists; split; [reflexivity|]. unfold len in *. rewrite firstn_length, skipn_length. lia.
Qed.
Lemma slice_from_app A (pre post : list A) a : a = len pre -> slice_from (pre ++ post) a = Ok post.
Proof.
  intros ->. unfold slice_from. rewrite <- (app_nil_r post) at 1. apply slice_app; [reflexivity|].
  now rewrite len_app.
Qed.


Lemma Forall2_length A B (P : A -> B -> Prop) l l' : Forall2 P l l' -> length l = length l'.
Proof. induction 1; cbn; congruence. Qed.

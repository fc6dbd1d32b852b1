(** * Types as sets of values *)
From Verif Require Import Base BaseFacts StrFacts Types Function Event Derive RustSyntax RustEval RustCheck SoundSpec.
From Coq Require Import String Lia.
Set Implicit Arguments.
Notation length := List.length.
Notation obind := RustCheck.obind.
Local Open Scope N_scope.
Local Open Scope list_scope.

Section Induction.
Context (P : rt -> Prop).
Definition one (t : rt) : Prop := match t with STuple _ => True | SRef a | SBox a | SVec a | SArr a _ | SSlice a | SOption a | SResult a | SIter a | STopic a | SInto a | SCollect a => P a | _ => True end.
Context (H1 : forall t, one t -> (forall l, t = STuple l -> Forall P l) -> P t).
Fixpoint rt_all (t : rt) : P t.
Proof.
  apply H1.
  - destruct t; cbn [one]; try exact I; apply rt_all.
  - destruct t; intros l' E; try discriminate. injection E as <-. induction l as [|a l IH]; constructor; [apply rt_all|exact IH].
Defined.
End Induction.

Section Values.
Context (L : path -> val -> Prop) (D : str -> val -> Prop).
Notation vt := (vt L D).
Lemma vt_vec t v : is_byte t = false -> vt (SVec t) v <-> exists l, v = VVec l /\ Forall (vt t) l.
Proof. destruct t; cbn [is_byte]; intros B; try discriminate; reflexivity. Qed.
Lemma vt_slice t v : is_byte t = false -> vt (SSlice t) v <-> exists l, v = VVec l /\ Forall (vt t) l.
Proof. destruct t; cbn [is_byte]; intros B; try discriminate; reflexivity. Qed.
Lemma vt_arr t n v : is_byte t = false -> vt (SArr t n) v <-> exists l, v = VArr l /\ len l = n /\ Forall (vt t) l.
Proof. destruct t; cbn [is_byte]; intros B; try discriminate; reflexivity. Qed.
Lemma vt_box t v : sized t = true -> vt (SBox t) v <-> vt t v.
Proof. destruct t; cbn [sized]; intros B; try discriminate; reflexivity. Qed.
Lemma vt_tuple ts v : vt (STuple ts) v <-> exists l, v = VTuple l /\ Forall2 vt ts l.
Proof.
  cbn [SoundSpec.vt]. split; intros (l & E & H); exists l; (split; [exact E|]); clear E; revert l H; induction ts as [|t ts IH]; intros [|w l] H; try (now inversion H); try constructor.
  - apply H.
  - apply IH, H.
  - now inversion H.
  - apply IH. now inversion H.
Qed.
Lemma fits_byte a b : fits a b = true -> is_byte b = is_byte a.
Proof. destruct a, b; cbn [fits is_byte]; intros E; try reflexivity; try discriminate; try (destruct a; discriminate). all: destruct a; cbn in E; try discriminate; destruct a; discriminate. Qed.
Lemma fits_ref a b : fits (SRef a) (SRef b) = true -> fits a b = true \/ exists u u', a = SVec u /\ b = SSlice u' /\ fits u u' = true.
Proof. destruct a, b; intros F; try (left; exact F). right. eauto. Qed.
Lemma path_eq p : forall q, path_eqb p q = true -> p = q.
Proof. induction p as [|x p IH]; intros [|y q] E; try discriminate; [reflexivity|]. cbn [path_eqb] in E. apply andb_true_iff in E as [E1 E2]. apply str_eqb_eq in E1. subst y. f_equal. auto. Qed.
Lemma fit_all_sound l : Forall (fun a => forall b v, fits a b = true -> vt a v -> vt b v) l -> forall l' vs, fit_all l l' = true -> Forall2 vt l vs -> Forall2 vt l' vs.
Proof. induction 1 as [|a l H _ IH]; intros [|b l'] vs F V; try discriminate; inversion V; subst; constructor; cbn [fit_all] in F; apply andb_true_iff in F as [F1 F2]; auto. Qed.
Lemma fits_sound a : forall b v, fits a b = true -> vt a v -> vt b v.
Proof.
  induction a as [a H HT] using rt_all. intros b v F V.
  assert (ZF : forall a b l, (forall b v, fits a b = true -> vt a v -> vt b v) -> fits a b = true -> Forall (vt a) l -> Forall (vt b) l) by (intros a' b' l O F' A; eapply Forall_impl; [|exact A]; intros w; now apply O).
  destruct a; cbn [one] in H; try (destruct b; try discriminate F; exact V).
  - (* SRef *) destruct b; try (destruct a; discriminate F). destruct (fits_ref _ _ F) as [F'|(u & u' & -> & -> & F')].
    + exact (H _ _ F' V).
    + pose proof (H (SVec u') v F' V) as X. destruct u'; exact X.
  - (* SBox *) destruct b; try discriminate F. change (fits a b = true) in F. destruct (sized a) eqn:S.
    + apply (proj1 (@vt_box a v S)) in V. destruct (sized b) eqn:S'; [apply vt_box; [exact S'|exact (H _ _ F V)]|]. destruct b; try discriminate S'; destruct a; try discriminate F; try discriminate S; try exact (False_ind _ V); destruct a; try discriminate F; destruct a; discriminate F.
    + destruct a; try discriminate S; destruct b; try discriminate F; [exact V|]. change (fits a b = true) in F. destruct V as (l & -> & A). exists l. split; [reflexivity|]. apply Forall_forall. intros w I. rewrite Forall_forall in A. specialize (A w I).
      destruct (is_byte a) eqn:B; [destruct a; try discriminate B; destruct b; try discriminate F; exact A|].
      assert (X : vt (SSlice b) (VVec [w])) by (apply (H (SSlice b)); [exact F|apply vt_slice; [exact B|eauto]]). apply vt_slice in X; [|rewrite (fits_byte _ _ F); exact B]. destruct X as (l' & E & X). injection E as <-. now inversion X.
  - (* SVec *) destruct b; try discriminate F. change (fits a b = true) in F. destruct (is_byte a) eqn:B; [destruct a; try discriminate B; destruct b; try discriminate F; exact V|].
    apply vt_vec in V; [|exact B]. destruct V as (l & -> & A). apply vt_vec; [rewrite (fits_byte _ _ F); exact B|]. eauto.
  - (* SArr *) destruct b; try discriminate F. change (fits a b && (n =? n0) = true) in F. apply andb_true_iff in F as [F N]. apply N.eqb_eq in N. subst n0. destruct (is_byte a) eqn:B; [destruct a; try discriminate B; destruct b; try discriminate F; exact V|].
    apply vt_arr in V; [|exact B]. destruct V as (l & -> & E & A). apply vt_arr; [rewrite (fits_byte _ _ F); exact B|]. exists l. eauto.
  - (* SSlice *) destruct b; try discriminate F. change (fits a b = true) in F. destruct (is_byte a) eqn:B; [destruct a; try discriminate B; destruct b; try discriminate F; exact V|].
    apply vt_slice in V; [|exact B]. destruct V as (l & -> & A). apply vt_slice; [rewrite (fits_byte _ _ F); exact B|]. eauto.
  - (* STuple *) destruct b; try discriminate F. change (fit_all l l0 = true) in F. apply vt_tuple in V as (vs & -> & A). apply vt_tuple. exists vs. split; [reflexivity|]. exact (@fit_all_sound l (HT l eq_refl) _ _ F A).
  - destruct b; try discriminate F. change (fits a b = true) in F. destruct V as [V|(w & E & V)]; [left; exact V|right; exists w; auto].
  - destruct b; try discriminate F. change (fits a b = true) in F. destruct V as [V|(w & E & V)]; [left; exact V|right; exists w; auto].
  - destruct b; try discriminate F. change (fits a b = true) in F. destruct V as (l & E & A). exists l. eauto.
  - destruct b; try discriminate F. change (fits a b = true) in F. destruct V as (t & E & A). exists t. split; [exact E|]. destruct t; eauto.
  - (* SLocal *) destruct b; try discriminate F. change (path_eqb p p0 = true) in F. apply path_eq in F. subst p0. exact V.
  - destruct b; try discriminate F. change (str_eqb x x0 = true) in F. apply str_eqb_eq in F. subst x0. exact V.
  - exact (False_ind _ V).
  - (* SInto *) destruct a as [| | | | | | | | | |a| | | | | | | | | | | | | | | | | | | | | | | | | | |]; try discriminate F. destruct a; try discriminate F. destruct b; try discriminate F. exact V.
  - (* SCollect *) destruct b; try discriminate F. change (fits a b = true) in F. destruct V as (B & l & -> & A). apply vt_vec; [rewrite (fits_byte _ _ F); exact B|]. eauto.
Qed.
End Values.
(** What a type without parameters stands for does not depend on them. *)
Lemma known_same b L L' D D' : (b = true -> forall q v, L q v <-> L' q v) -> forall t v, known b t = true -> (vt L D t v <-> vt L' D' t v).
Proof.
  intros HL t. induction t as [t H HT] using rt_all. intros v K.
  assert (ZF : forall a l, (forall v, known b a = true -> (vt L D a v <-> vt L' D' a v)) -> known b a = true -> (Forall (vt L D a) l <-> Forall (vt L' D' a) l)).
  { intros a l O Ka. rewrite !Forall_forall. split; intros A w I; apply (O w Ka), A, I. }
  destruct t; cbn [one known] in H, K; try reflexivity; try discriminate K.
  - exact (H v K).
  - destruct (sized t) eqn:S; [rewrite !vt_box by exact S; exact (H v K)|]. destruct t; try discriminate S; [exact (H v K)|]. cbn [vt]. cbn [known] in K.
    assert (X : forall w, vt L D t w <-> vt L' D' t w).
    { intros w. destruct (is_byte t) eqn:B; [destruct t; try discriminate B; reflexivity|]. pose proof (H (VVec [w]) K) as X. rewrite !vt_slice in X by exact B. split; intros A.
      - destruct (proj1 X (ex_intro _ [w] (conj eq_refl (Forall_cons _ A (Forall_nil _))))) as (l & E & Y). injection E as <-. now inversion Y.
      - destruct (proj2 X (ex_intro _ [w] (conj eq_refl (Forall_cons _ A (Forall_nil _))))) as (l & E & Y). injection E as <-. now inversion Y. }
    split; intros (l & E & A); exists l; (split; [exact E|]); eapply Forall_impl; try exact A; intros w; apply X.
  - destruct (is_byte t) eqn:B; [destruct t; try discriminate B; reflexivity|]. rewrite !vt_vec by exact B. split; intros (l & E & A); exists l; (split; [exact E|]); now apply (ZF t l H K).
  - destruct (is_byte t) eqn:B; [destruct t; try discriminate B; reflexivity|]. rewrite !vt_arr by exact B. split; intros (l & E & N & A); exists l; (split; [exact E|split; [exact N|]]); now apply (ZF t l H K).
  - destruct (is_byte t) eqn:B; [destruct t; try discriminate B; reflexivity|]. rewrite !vt_slice by exact B. split; intros (l & E & A); exists l; (split; [exact E|]); now apply (ZF t l H K).
  - rewrite !vt_tuple. assert (X : forall l', Forall2 (vt L D) l l' <-> Forall2 (vt L' D') l l').
    { specialize (HT l eq_refl). clear -HT K. induction HT as [|a l H _ IH]; intros l'; [split; intros A; inversion A; constructor|]. cbn [forallb] in K. apply andb_true_iff in K as [K1 K2].
      split; intros A; inversion A; subst; constructor; try (apply (H _ K1); assumption); apply (IH K2); assumption. }
    split; intros (l' & E & A); exists l'; (split; [exact E|now apply X]).
  - cbn [vt]. split; (intros [E|(w & E & A)]; [left; exact E|right; exists w; split; [exact E|now apply (H w K)]]).
  - cbn [vt]. split; (intros [E|(w & E & A)]; [left; exact E|right; exists w; split; [exact E|now apply (H w K)]]).
  - cbn [vt]. split; intros (l & E & A); exists l; (split; [exact E|]); now apply (ZF t l H K).
  - cbn [vt]. split; intros (x & E & A); exists x; (split; [exact E|]); destruct x; auto; first [now apply (ZF t _ H K)|now apply (H _ K)].
  - cbn [vt]. apply HL. exact K.
  - exact (H v K).
  - cbn [vt]. split; intros (B & l & E & A); (split; [exact B|]); exists l; (split; [exact E|]); now apply (ZF t l H K).
Qed.

(** ** Induction on expressions *)
Section Expressions.
Context (P : expr -> Prop).
Definition parts (e : expr) : Prop :=
  match e with
  | EPath _ | EStr _ | ENum _ _ | EBool _ => True
  | ECall _ l | ETuple l | EArray l | EVec l => Forall P l
  | EMethod e _ _ l => P e /\ Forall P l
  | EMap e _ b => P e /\ P b
  | EField e _ | EFirst e | ETry e | ERef e | ECast e _ | ERepeat e _ => P e
  | EBlock l e => Forall (fun x => P (snd x)) l /\ P e
  | EStruct _ l | EStructTrailing _ l | EStructDefault _ l _ => Forall (fun x => P (snd x)) l
  end.
Context (H : forall e, parts e -> P e).
Fixpoint expr_all (e : expr) : P e.
Proof.
  apply H. destruct e; cbn [parts]; try exact I; try apply expr_all; try (split; [|apply expr_all]); try (split; [apply expr_all|]).
  all: try apply expr_all.
  all: match goal with l : list _ |- _ => induction l as [|x l IH]; constructor; [apply expr_all|exact IH] end.
Defined.
End Expressions.

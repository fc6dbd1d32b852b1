(** * Proofs about [Debug for ParamType] *)
From Verif Require Import Base BaseFacts StrFacts Types TypeNames TypeNamesSpec FunctionFacts DebugType DebugSpec.
From Coq Require Import String Lia ZifyBool ZifyNat ZifyN.
Set Implicit Arguments.
Local Open Scope N_scope.
Local Open Scope list_scope.
Notation length := List.length.

Fixpoint fields_text (l : list ParamType) : str :=
  match l with
  | [] => []
  | t :: l' => debug_type t ++ match l' with [] => [] | _ => lit ", " ++ fields_text l' end
  end.
Lemma debug_tuple ts : debug_type (PTuple ts) = lit "Tuple([" ++ fields_text ts ++ lit "])".
Proof. cbn [debug_type]. do 2 f_equal. Qed.
(** Digits end where something else begins. *)
Lemma digits_prefix a b c d r r' : forallb is_digit a = true -> forallb is_digit b = true -> is_digit c = false -> is_digit d = false ->
  a ++ c :: r = b ++ d :: r' -> a = b /\ r = r'.
Proof.
  revert b. induction a as [|x a IH]; intros [|y b] A B C D E; cbn [app forallb] in *.
  - injection E as _ ->. auto.
  - injection E as -> _. rewrite C in B. discriminate.
  - injection E as -> _. rewrite D in A. discriminate.
  - injection E as -> E. apply andb_true_iff in A as [_ A], B as [_ B]. destruct (IH b A B C D E) as [-> ->]. auto.
Qed.
Lemma number_prefix n n' r r' : show_dec n ++ lit ")" ++ r = show_dec n' ++ lit ")" ++ r' -> n = n' /\ r = r'.
Proof.
  intros E. change (lit ")") with [41] in E. cbn [app] in E.
  apply digits_prefix in E as [E ->]; try reflexivity; try apply show_dec_digits. apply show_dec_inj in E. auto.
Qed.
(** No text is the beginning of another. *)
Definition unique (t : ParamType) : Prop := forall t' r r', debug_type t ++ r = debug_type t' ++ r' -> t = t' /\ r = r'.
Lemma fields_prefix ts : Forall unique ts -> forall ts' r r', fields_text ts ++ lit "])" ++ r = fields_text ts' ++ lit "])" ++ r' -> ts = ts' /\ r = r'.
Proof.
  assert (H0 : forall t l r r', lit "])" ++ r <> (debug_type t ++ l) ++ r').
  { intros t l r r' E. destruct t; discriminate E. }
  induction 1 as [|t ts U _ IH]; intros [|t' ts'] r r' E.
  - apply (app_inv_head (lit "])")) in E. auto.
  - exfalso. cbn [fields_text app] in E. now apply H0 in E.
  - exfalso. cbn [fields_text app] in E. symmetry in E. now apply H0 in E.
  - cbn [fields_text] in E. rewrite <- !app_assoc in E. apply U in E as [<- E].
    destruct ts as [|u ts], ts' as [|u' ts']; try discriminate E.
    + apply (app_inv_head (lit "])")) in E. auto.
    + rewrite <- !app_assoc in E. apply (app_inv_head (lit ", ")) in E. apply IH in E as [<- <-]. auto.
Qed.
Lemma debug_unique t : unique t.
Proof.
  induction t using ParamType_ind'; intros t' r r' E; destruct t'; try discriminate E; rewrite ?debug_tuple in E; cbn [debug_type] in E; rewrite <- ?app_assoc in E; apply app_inv_head in E.
  - auto.
  - auto.
  - apply number_prefix in E as [-> ->]. auto.
  - apply number_prefix in E as [-> ->]. auto.
  - auto.
  - auto.
  - apply IHt in E as [<- E]. apply app_inv_head in E. auto.
  - apply number_prefix in E as [-> ->]. auto.
  - apply IHt in E as [<- E]. apply app_inv_head in E. apply number_prefix in E as [-> ->]. auto.
  - apply fields_prefix in E as [-> ->]; auto.
Qed.
Theorem debug_inj t t' : debug_type t = debug_type t' -> t = t'.
Proof. intros E. apply (@debug_unique t t' [] []). now rewrite E. Qed.
Theorem debug_prefix t t' r r' : debug_type t ++ r = debug_type t' ++ r' -> t = t' /\ r = r'.
Proof. apply debug_unique. Qed.

(** ** The rules of Rust *)
Lemma listed_fields ts : fields_text ts = listed (map debug_type ts).
Proof.
  destruct ts as [|t ts]; [reflexivity|]. unfold listed, joined. cbn [map List.concat]. cbn [app skipn lit list_ascii_of_string].
  change (fields_text (t :: ts) = debug_type t ++ joined (map debug_type ts)).
  revert t. induction ts as [|u ts IH]; intros t; [reflexivity|]. cbn [fields_text] in *. rewrite IH. unfold joined. cbn [map List.concat]. now rewrite <- app_assoc.
Qed.
Lemma applied_one name a : applied name [a] = name ++ lit "(" ++ a ++ lit ")".
Proof. unfold applied, listed, joined. cbn [map List.concat]. rewrite app_nil_r. reflexivity. Qed.
Lemma applied_two name a b : applied name [a; b] = name ++ lit "(" ++ a ++ lit ", " ++ b ++ lit ")".
Proof. unfold applied, listed, joined. cbn [map List.concat]. rewrite app_nil_r. change (skipn 2 ((lit ", " ++ a) ++ lit ", " ++ b)) with (a ++ lit ", " ++ b). now rewrite <- !app_assoc. Qed.
Lemma applied_tuple ss : applied (lit "Tuple") [lit "[" ++ listed ss ++ lit "]"] = lit "Tuple([" ++ listed ss ++ lit "])".
Proof. rewrite applied_one, <- !app_assoc. reflexivity. Qed.
Lemma shown_debug t : shown t (debug_type t).
Proof.
  induction t using ParamType_ind'; try constructor.
  - change (debug_type (PInt n)) with (lit "Int" ++ lit "(" ++ show_dec n ++ lit ")"). rewrite <- applied_one. constructor. apply show_dec_numeral.
  - change (debug_type (PUint n)) with (lit "Uint" ++ lit "(" ++ show_dec n ++ lit ")"). rewrite <- applied_one. constructor. apply show_dec_numeral.
  - change (debug_type (PArray t)) with (lit "Array" ++ lit "(" ++ debug_type t ++ lit ")"). rewrite <- applied_one. now constructor.
  - change (debug_type (PFixedBytes n)) with (lit "FixedBytes" ++ lit "(" ++ show_dec n ++ lit ")"). rewrite <- applied_one. constructor. apply show_dec_numeral.
  - change (debug_type (PFixedArray t n)) with (lit "FixedArray" ++ lit "(" ++ debug_type t ++ lit ", " ++ show_dec n ++ lit ")"). rewrite <- applied_two. constructor; [assumption|apply show_dec_numeral].
  - rewrite debug_tuple, listed_fields, <- applied_tuple. constructor. induction H; constructor; auto.
Qed.
Lemma debug_shown t : forall s, shown t s -> s = debug_type t.
Proof.
  induction t using ParamType_ind'; intros s S; inversion S; subst; clear S;
    repeat match goal with Q : numeral _ _ |- _ => apply numeral_unique in Q; subst end; rewrite ?applied_one, ?applied_two; try reflexivity.
  - match goal with Q : shown _ _ |- _ => apply IHt in Q; subst end. reflexivity.
  - match goal with Q : shown _ _ |- _ => apply IHt in Q; subst end. reflexivity.
  - rewrite <- applied_one, applied_tuple, debug_tuple, listed_fields. do 3 f_equal.
    match goal with F : Forall2 _ _ _ |- _ => induction F as [|t s ts' ss' Q F IH] end; [reflexivity|]. inversion H as [|? ? K1 K2]; subst.
    cbn [map]. f_equal; [now apply K1|now apply IH].
Qed.
Theorem debug_rules t s : debug_type t = s <-> shown t s.
Proof. split; [intros <-; apply shown_debug|intros H; now apply debug_shown in H]. Qed.

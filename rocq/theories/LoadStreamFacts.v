(** * Loading item by item and loading at once (proofs) *)
From Verif Require Import Base BaseFacts Types TypeNames Function Event Json JsonSpec JsonFacts Contract ContractFacts JsonLemmas LoadSpec LoadCrash LoadStream.
From Coq Require Import String Lia ZifyBool ZifyNat ZifyN.
Set Implicit Arguments.
Local Open Scope N_scope.
Local Open Scope list_scope.

Section Stream.
Context (p : profile).
Definition step (c : Contract) (item : json) : res Contract := do o <- de_operation p item; Ok (add_operation c o).
Definition guarded (c : Contract) (item : json) : res Contract := if 1 + json_depth item <=? 127 then step c item else Err SerdeJson.
Lemma depth_items items : json_depth (JArr items) <= 127 <-> Forall (fun j => 1 + json_depth j <= 127) items.
Proof.
  cbn [json_depth]. induction items as [|j items IH]; cbn [fold_right].
  - split; [constructor|lia].
  - rewrite Forall_cons_iff, <- IH. lia.
Qed.
Lemma guarded_fold items : Forall (fun j => 1 + json_depth j <= 127) items -> forall c, foldM guarded items c = foldM step items c.
Proof.
  intros F. induction F as [|j items D _ IH]; intros c; [reflexivity|]. cbn [foldM]. unfold guarded at 1. rewrite (proj2 (N.leb_le _ _) D).
  destruct (step c j); cbn [bind]; auto.
Qed.
Lemma guarded_ok items : forall c c', foldM guarded items c = Ok c' -> Forall (fun j => 1 + json_depth j <= 127) items.
Proof.
  induction items as [|j items IH]; intros c c'; [constructor|]. cbn [foldM]. rewrite bind_ok. intros (c1 & E & F). constructor; [|eauto].
  unfold guarded in E. destruct (N.leb_spec (1 + json_depth j) 127) as [D|D]; [exact D|discriminate].
Qed.
Lemma load_step items : load p (JArr items) = if json_depth (JArr items) <=? 127 then foldM step items default_contract else Err SerdeJson.
Proof. reflexivity. Qed.
Lemma stream_ok j c : load_items p j = Ok c <-> load p j = Ok c.
Proof.
  destruct j as [| | | |items|l].
  1-4: split; discriminate.
  2: split; [discriminate|unfold load, from_text; destruct (json_depth (JObj l) <=? 127); discriminate].
  rewrite load_step. change (load_items p (JArr items)) with (foldM guarded items default_contract). split.
  - intros E. pose proof (guarded_ok _ _ E) as F. rewrite guarded_fold in E by exact F. apply depth_items in F. now rewrite (proj2 (N.leb_le _ _) F).
  - destruct (N.leb_spec (json_depth (JArr items)) 127) as [D|D]; [|discriminate]. apply depth_items in D. now rewrite guarded_fold.
Qed.
Lemma stream_panic j : load_items p j = Panic <-> exists l1 l2, j = JArr (l1 ++ l2) /\ load p (JArr l1) = Panic.
Proof.
  destruct j as [| | | |items|l].
  1-4,6: split; [discriminate|intros (l1 & l2 & E & _); discriminate].
  change (load_items p (JArr items)) with (foldM guarded items default_contract). rewrite foldM_panics. split.
  - intros (l1 & c & x & l2 & -> & M & X). exists (l1 ++ [x]), l2. split; [now rewrite <- app_assoc|]. rewrite load_step.
    pose proof (guarded_ok _ _ M) as F. unfold guarded in X. destruct (N.leb_spec (1 + json_depth x) 127) as [D|D]; [|discriminate].
    assert (F' : Forall (fun j => 1 + json_depth j <= 127) (l1 ++ [x])) by (apply Forall_app; auto).
    rewrite (proj2 (N.leb_le _ _) (proj2 (depth_items _) F')). apply foldM_panics. exists l1, c, x, []. split; [reflexivity|]. split; [|exact X].
    now rewrite <- guarded_fold.
  - intros (l1 & l2 & E & L). injection E as ->. rewrite load_step in L. destruct (N.leb_spec (json_depth (JArr l1)) 127) as [D|D]; [|discriminate].
    apply depth_items in D. apply foldM_panics in L as (k1 & c & x & k2 & -> & M & X). apply Forall_app in D as [D1 D2]. inversion D2 as [|? ? Dx _]; subst.
    exists k1, c, x, (k2 ++ l2). split; [now rewrite <- app_assoc|]. split; [now rewrite guarded_fold|]. unfold guarded. now rewrite (proj2 (N.leb_le _ _) Dx).
Qed.
End Stream.

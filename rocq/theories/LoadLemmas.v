(** * Loading: the theorems of PropsLoad.v before they are stated there *)
From Verif Require Import Base BaseFacts StrFacts Types TypeNames ReaderSpec ReaderNested ReaderPanics Function Event Json JsonSpec JsonFacts ItemFacts LoadFacts LoadTotal Contract ContractSpec ContractFacts JsonLemmas ErrorMore LoadSpec LoadExact LoadCrash.
From Coq Require Import String Permutation Lia ZifyBool ZifyNat ZifyN.
Set Implicit Arguments.
Local Open Scope N_scope.
Local Open Scope list_scope.

Definition reads (p : profile) (s : str) (t : ParamType) : Prop := read p s = Ok t.
Definition dies (p : profile) (s : str) : Prop := read p s = Panic.
Lemma behaves_reads p j : behaves p (reads p) (dies p) j.
Proof. intros s _. split; [intros t|]; reflexivity. Qed.
Lemma behaves_ascii p j : ascii_names j -> behaves p accepted panicking_name j.
Proof.
  intros H s T. destruct (H s T) as [L A]. split.
  - intros t. exact (@nested_read p (S (List.length s)) s (le_n _) L A t).
  - exact (@nested_panics p (S (List.length s)) s (le_n _) L A).
Qed.

Section General.
Context (p : profile) (names : str -> ParamType -> Prop) (crashes : str -> Prop).
Lemma loads_only j c : agree p names j -> load p j = Ok c -> json_depth j <= 127 /\ exists ops, contract_is names true j ops /\ gathers c ops.
Proof.
  intros G L. apply load_ok in L as [E D]. split; [exact D|]. apply loaded_represents in E as (items & ops & -> & M & R).
  exists ops. split; [apply (@contract_loads p names); eauto|]. now apply represents_lookup.
Qed.
Lemma loads_all j ops : agree p names j -> json_depth j <= 127 -> contract_is names true j ops -> exists c, load p j = Ok c /\ gathers c ops.
Proof.
  intros G D C. apply (@contract_loads p names) in C as (items & -> & M); [|exact G]. apply ops_load in M as (c & E & R). exists c.
  split; [unfold load, from_text; now rewrite (proj2 (N.leb_le _ _) D)|]. now apply represents_lookup.
Qed.
Lemma items_unique j ops1 ops2 : agree p names j -> contract_is names true j ops1 -> contract_is names true j ops2 -> ops1 = ops2.
Proof.
  intros G C1 C2. apply (@contract_loads p names) in C1 as (i1 & E1 & M1); [|exact G]. apply (@contract_loads p names) in C2 as (i2 & E2 & M2); [|exact G].
  congruence.
Qed.
Lemma load_crashes j : behaves p names crashes j -> (load p j = Panic <-> json_depth j <= 127 /\ contract_crashes names true crashes j).
Proof.
  intros G. rewrite <- (@contract_panics p names crashes j G). unfold load, from_text. destruct (N.leb_spec (json_depth j) 127) as [D|D].
  - tauto.
  - split; [discriminate|]. intros [D' _]. lia.
Qed.
Lemma load_trichotomy j : behaves p names crashes j ->
  (load p j = Err SerdeJson <-> ~ (json_depth j <= 127 /\ ((exists ops, contract_is names true j ops) \/ contract_crashes names true crashes j))).
Proof.
  intros G. pose proof (@behaves_agree _ _ _ _ G) as A. split.
  - intros E (D & [(ops & C)|C]).
    + destruct (loads_all A D C) as (c & L & _). congruence.
    + pose proof (proj2 (load_crashes G) (conj D C)). congruence.
  - intros N. destruct (load p j) as [c|e|] eqn:L.
    + exfalso. apply N. destruct (loads_only A L) as (D & ops & C & _). eauto.
    + f_equal. exact (@load_errors p j e L).
    + exfalso. apply N. apply (load_crashes G) in L as [D C]. auto.
Qed.
End General.
(** With the reader as it is. *)
Lemma param_reads p src j a : de_param p src j = Ok a <-> param_is (reads p) (oth src) j a.
Proof. apply param_iff. apply (@behaves_agree _ _ (dies p)), behaves_reads. Qed.
Lemma event_param_reads p src j a : de_event_param p src j = Ok a <-> event_param_is (reads p) (oth src) j a.
Proof. apply event_param_iff. apply (@behaves_agree _ _ (dies p)), behaves_reads. Qed.
Lemma tuple_param_reads p src j a : de_tuple_param p src j = Ok a <-> tuple_param_is (reads p) (oth src) j a.
Proof. apply tuple_param_iff. apply (@behaves_agree _ _ (dies p)), behaves_reads. Qed.
Lemma param_dies p src j : de_param p src j = Panic <-> param_crashes (reads p) (oth src) (dies p) j.
Proof. apply param_panics, behaves_reads. Qed.
Lemma event_param_dies p src j : de_event_param p src j = Panic <-> event_param_crashes (reads p) (oth src) (dies p) j.
Proof. apply event_param_panics, behaves_reads. Qed.
Lemma tuple_param_dies p src j : de_tuple_param p src j = Panic <-> param_crashes (reads p) (oth src) (dies p) j.
Proof. apply tuple_param_panics, behaves_reads. Qed.
Lemma agree_reads p j : agree p (reads p) j.
Proof. apply (@behaves_agree _ _ (dies p)), behaves_reads. Qed.
Lemma agree_ascii p j : ascii_names j -> agree p accepted j.
Proof. intros H. apply (@behaves_agree _ _ panicking_name). now apply behaves_ascii. Qed.
(** A decidable sufficient condition, for the examples. *)
Lemma texts_ascii j : type_texts (fun s => all_ascii s && (len s <? 1000)) j = true -> ascii_names j.
Proof.
  intros H s T. destruct (all_ascii s && (len s <? 1000)) eqn:E.
  - apply andb_true_iff in E as [E1 E2]. split; [|exact E1]. apply N.ltb_lt in E2. eapply N.lt_trans; [exact E2|reflexivity].
  - exfalso. change ((fun s => all_ascii s && (len s <? 1000)) s = false) in E. revert H T E. generalize (fun s => all_ascii s && (len s <? 1000)) as ok. intros ok H T. revert H. induction T as [l HI|l k v HI T IH|l v HI T IH]; cbn [type_texts]; rewrite forallb_forall; intros H E.
    + specialize (H _ HI). cbn [fst snd] in H. rewrite str_eqb_refl, E in H. discriminate.
    + specialize (H _ HI). apply andb_true_iff in H as [_ H]. now apply IH.
    + specialize (H _ HI). now apply IH.
Qed.

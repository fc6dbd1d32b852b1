(** * Concrete cases for the theorems on derived interfaces *)
From Verif Require Import Base BaseFacts Types TypeNames TypeNamesSpec Encoder Decoder AbiSpec CodecLemmas Keccak Function FunctionFacts Tokenizer Event EventSpec EventFacts
  Json Contract Heck HeckFacts Derive DeriveSpec DeriveFacts DeriveCalls DeriveEvents DeriveAccepts Samples.
From Coq Require Import String.
From Coq Require Import ZifyBool ZifyNat ZifyN Lia.
Set Implicit Arguments.
Local Open Scope N_scope.
Local Open Scope list_scope.

(** Conversions are inverse. *)
Lemma conversions t : plain_type t = true -> exists f g y, to_token t = Ok f /\ from_token t = Ok g /\ rust_type t = Ok y /\
  (forall v, of_type y v -> exists x, has_type x t = true /\ f v = Ok x /\ g x = Ok v) /\
  (forall x, has_type x t = true -> exists v, of_type y v /\ g x = Ok v /\ f v = Ok x) /\
  (forall v x, denotes t v x -> f v = Ok x /\ g x = Ok v).
Proof.
  intros P. pose proof (plain_no_tuple t P) as N. destruct (to_token_ok t N) as (f & Ef & F). destruct (from_token_ok t N) as (g & Eg & G).
  destruct (proj2 (rust_type_ok t) N) as [y Ey]. exists f, g, y. repeat (split; [assumption|]). split; [|split].
  - intros v V. apply (@denotes_value _ _ P Ey) in V as [x X]. exists x. split; [now apply denotes_typed in X|]. auto.
  - intros x X. destruct (@denotes_exists _ P _ X) as [v V]. exists v. split; [apply (@denotes_value _ _ P Ey); eauto|]. auto.
  - auto.
Qed.

(** ** A function *)
Definition derive_f : Function :=
  mkFunction (lit "setNames")
    [mkParam (lit "owner") PAddress None; mkParam (lit "new_names") (PFixedArray (PFixedBytes 32) 2) None; mkParam (lit "amounts") (PArray (PUint 256)) None]
    [mkParam [] PString None; mkParam [] (PArray (PInt 8)) None] false NonPayable.
Definition derive_args : list rval := [RAddress addr1; RArr [RHash (word 1); RHash (word 2)]; RVec [RUint 7; RUint 8]].
Definition derive_values : list Token := [TAddress addr1; TFixedArray [TFixedBytes (word 1); TFixedBytes (word 2)]; TArray [TUint 7; TUint 8]].
Definition derive_results : list rval := [RString (lit "ok"); RVec [RInt 1]].
Definition derive_outputs : list Token := [TString (lit "ok"); TArray [TInt 1]].
Lemma derive_args_ok : Forall3 argument (map p_kind (f_inputs derive_f)) derive_args derive_values.
Proof.
  repeat constructor.
  - exists addr1. repeat split.
  - exists [RHash (word 1); RHash (word 2)], [TFixedBytes (word 1); TFixedBytes (word 2)]. split; [reflexivity|]. split; [|split; reflexivity].
    repeat constructor; [exists (word 1)|exists (word 2)]; repeat split.
  - exists [RUint 7; RUint 8], [TUint 7; TUint 8]. split; [|split; reflexivity]. repeat constructor; [exists 7|exists 8]; repeat split.
Qed.
Lemma derive_results_ok : Forall3 denotes (map p_kind (f_outputs derive_f)) derive_results derive_outputs.
Proof.
  repeat constructor.
  - exists (lit "ok"). repeat split.
  - exists [RInt 1], [TInt 1]. split; [|split; reflexivity]. repeat constructor. exists 1. repeat split.
Qed.
Definition derive_c : Constructor := mkConstructor (f_inputs derive_f).

(** ** Events *)
Definition derive_e (name : str) : Event :=
  mkEvent name [mkEventParam (lit "owner") PAddress true; mkEventParam (lit "amounts") (PArray (PUint 256)) false; mkEventParam (lit "flag") PBool true] false.
Definition derive_fields : list rval := [RAddress addr1; RVec [RUint 7; RUint 8]; RBool true].
Definition derive_inputs : list Token := [TAddress addr1; TArray [TUint 7; TUint 8]; TBool true].
Definition derive_text (name : str) : str := name ++ lit "(address,uint256[],bool)".
Definition derive_log (name : str) : RawLog :=
  mkRawLog (keccak256 (utf8 (derive_text name)) :: indexed_topics (e_inputs (derive_e name)) derive_inputs)
    (abi_encode [PArray (PUint 256)] [TArray [TUint 7; TUint 8]]).
Lemma derive_emits name : emits (derive_e name) derive_inputs (derive_log name).
Proof. split; [|reflexivity]. exists (derive_text name). split; [apply canonical_iff; reflexivity|reflexivity]. Qed.
Lemma derive_fields_ok : Forall3 denotes (map ep_kind (e_inputs (derive_e (lit "NamesSet")))) derive_fields derive_inputs.
Proof.
  repeat constructor.
  - exists addr1. repeat split.
  - exists [RUint 7; RUint 8], [TUint 7; TUint 8]. split; [|split; reflexivity]. repeat constructor; [exists 7|exists 8]; repeat split.
  - exists true. repeat split.
Qed.
Lemma camel_sample : camel (lit "NamesSet"). Proof. apply camel_case_iff. vm_compute. reflexivity. Qed.
Lemma not_camel_sample : ~ camel (lit "namesSet"). Proof. rewrite <- camel_case_iff. vm_compute. discriminate. Qed.
Definition derive_topics : list (Topic rval) := [OneOf [RAddress addr1; RAddress (repeat x22 20)]; This (RBool true)].
Definition derive_tokens : list (Topic Token) := [OneOf [TAddress addr1; TAddress (repeat x22 20)]; This (TBool true)].
Lemma derive_topics_ok : Forall3 topic_denotes (map ep_kind (isel true (e_inputs (derive_e (lit "NamesSet"))))) derive_topics derive_tokens.
Proof.
  repeat constructor; [exists addr1|exists (repeat x22 20)|exists true]; repeat split.
Qed.

(** A log of the event of the file, refused by the derived code. *)
Lemma camel_refused p : exists e d vs log, derive_event p e = Ok d /\ emits e vs log /\ have_types vs (map ep_kind (e_inputs e)) = true /\
  is_ok (parse_log p e log) = true /\ event_signature (de_event d) <> event_signature e /\ de_parse_log d log = Err InvalidData.
Proof.
  exists (derive_e (lit "namesSet")).
  assert (OK : is_ok (derive_event p (derive_e (lit "namesSet"))) = true) by (destruct p; vm_compute; reflexivity).
  destruct (derive_event p (derive_e (lit "namesSet"))) as [d| |] eqn:D; try discriminate. clear OK.
  exists d, derive_inputs, (derive_log (lit "namesSet")). split; [reflexivity|]. split; [apply derive_emits|]. split; [reflexivity|].
  split; [destruct p; vm_compute; reflexivity|].
  pose proof (@derive_event_inv p _ d D) as (_ & Ev & _).
  assert (S : event_signature (de_event d) <> event_signature (derive_e (lit "namesSet"))) by (rewrite Ev; vm_compute; discriminate).
  split; [exact S|].
  eapply derived_rejects with (s := derive_text (lit "namesSet")) (s' := derive_text (lit "NamesSet")); [exact D|reflexivity|apply derive_emits| | |].
  - apply canonical_iff. reflexivity.
  - rewrite Ev. apply canonical_iff. reflexivity.
  - vm_compute. discriminate.
Qed.
(** Derived parse_log panics on a log its own event emits. *)
Definition hashed_event : Event := mkEvent (lit "Named") [mkEventParam (lit "name") PString true] false.
Definition hashed_log : RawLog := mkRawLog [keccak256 (utf8 (lit "Named(string)")); topic_of PString (TString (lit "me"))] [].
Lemma hashed_panics p : exists e d vs log, derive_event p e = Ok d /\ de_event d = e /\ emits e vs log /\ have_types vs (map ep_kind (e_inputs e)) = true /\
  is_ok (parse_log p e log) = true /\ de_parse_log d log = Panic.
Proof.
  exists hashed_event. assert (OK : is_ok (derive_event p hashed_event) = true) by (destruct p; vm_compute; reflexivity).
  destruct (derive_event p hashed_event) as [d| |] eqn:D; try discriminate. clear OK.
  exists d, [TString (lit "me")], hashed_log. split; [reflexivity|].
  assert (C : camel (lit "Named")) by (apply camel_case_iff; reflexivity).
  assert (E : emits hashed_event [TString (lit "me")] hashed_log).
  { split; [|reflexivity]. exists (lit "Named(string)"). split; [apply canonical_iff; reflexivity|reflexivity]. }
  split; [now apply (@derived_event_same p _ d D)|]. split; [exact E|]. split; [reflexivity|]. split; [destruct p; vm_compute; reflexivity|].
  eapply (@derived_panics p hashed_event d [TString (lit "me")]); try reflexivity; auto. repeat constructor. intros [].
Qed.
(** A filter on four inputs matches a log that differs in the fourth. *)
Definition four_event : Event :=
  mkEvent (lit "Four") (map (fun n => mkEventParam (lit n) PBool true) ["a"; "b"; "c"; "d"]%string) true.
Lemma four_ignored p : exists e d f vs log, derive_event p e = Ok d /\ de_event d = e /\ emits e vs log /\ have_types vs (map ep_kind (e_inputs e)) = true /\
  de_filter d [Any; Any; Any; This (RBool true)] = Ok f /\ vs = [TBool true; TBool true; TBool true; TBool false] /\ filter_matches f (rl_topics log).
Proof.
  exists four_event. assert (OK : is_ok (derive_event p four_event) = true) by (destruct p; vm_compute; reflexivity).
  destruct (derive_event p four_event) as [d| |] eqn:D; try discriminate. clear OK.
  assert (EV : de_event d = four_event) by (apply (@derived_event_same p _ d D); apply camel_case_iff; reflexivity).
  assert (Q : de_filter d [Any; Any; Any; This (RBool true)] = Ok (mkFilter Any Any Any Any)).
  { destruct (@derived_raw p four_event d [Any; Any; Any; This (RBool true)] [Any; Any; Any; This (TBool true)] D) as [-> _]; [|rewrite EV; destruct p; vm_compute; reflexivity].
    repeat constructor. exists true. repeat split. }
  exists d, (mkFilter Any Any Any Any), [TBool true; TBool true; TBool true; TBool false], (mkRawLog (indexed_topics (e_inputs four_event) [TBool true; TBool true; TBool true; TBool false]) []).
  split; [reflexivity|]. split; [exact EV|].
  split; [split; [exists (lit "Four(bool,bool,bool,bool)"); split; [apply canonical_iff; reflexivity|reflexivity]|reflexivity]|].
  split; [reflexivity|]. split; [exact Q|]. split; [reflexivity|]. repeat split; exact I.
Qed.
(** Two functions whose names differ and whose modules do not. *)
Definition plain_f (n : str) : Function := mkFunction n [] [] false NonPayable.
Lemma modules_clash : exists n m, n <> m /\ forall p, is_ok (derive_function p (plain_f n)) = true /\ is_ok (derive_function p (plain_f m)) = true /\
  forall d, derive_contract p default_contract [(n, [plain_f n]); (m, [plain_f m])] [] <> Ok d.
Proof.
  exists (lit "fooBar"), (lit "foo_bar"). split; [discriminate|]. intros p. split; [destruct p; vm_compute; reflexivity|]. split; [destruct p; vm_compute; reflexivity|].
  intros d H. apply derived_contract in H as (H & _). vm_compute in H. inversion H as [|? ? N]; subst. apply N. now left.
Qed.
Fixpoint doubled (s : str) : bool :=
  match s with c :: s' => match s' with d :: _ => (c =? 95) && (d =? 95) || doubled s' | [] => false end | [] => false end.
Lemma doubled_true l1 l2 : doubled (l1 ++ 95 :: 95 :: l2) = true.
Proof. induction l1 as [|c l1 IH]; [reflexivity|]. cbn [app doubled]. destruct (l1 ++ 95 :: 95 :: l2); [discriminate|]. rewrite IH. apply orb_true_r. Qed.
Definition snakeb (s : str) : bool :=
  match s with [] => false | c :: _ => negb (c =? 95) end && negb (last s 0 =? 95) && negb (doubled s) && forallb (fun c => is_lower c || is_num c || (c =? 95)) s.
Lemma snakeb_ok s : snakeb s = true -> snake s.
Proof.
  unfold snakeb. rewrite !andb_true_iff, !negb_true_iff. intros [[[H1 H2] H3] H4]. repeat split.
  - intros ->. discriminate.
  - intros c I. rewrite forallb_forall in H4. specialize (H4 c I). unfold is_lower, is_num in H4. unfold lower, digit. lia.
  - intros s' ->. discriminate.
  - intros s' ->. rewrite last_last in H2. discriminate.
  - intros l1 l2 ->. rewrite doubled_true in H3. discriminate.
Qed.
Lemma snake_sample : Forall snake [lit "owner"; lit "new_names"; lit "amounts"].
Proof. repeat (apply Forall_cons; [apply snakeb_ok; reflexivity|]). apply Forall_nil. Qed.
Definition usableb (s : str) : bool := is_ok (ident s) && negb (keyword s).
Lemma usableb_ok s : usableb s = true -> usable s.
Proof.
  unfold usableb. rewrite andb_true_iff. intros [I K]. split; [|now apply not_keyword]. destruct (ident s) as [r| |] eqn:E; try discriminate. now apply ident_ok in E.
Qed.
Lemma usable_sample : usable (lit "set_names") /\ ~ usable (lit "type") /\ ~ usable (lit "1").
Proof.
  split; [apply usableb_ok; reflexivity|]. split; intros [I K].
  - apply K, keyword_iff. reflexivity.
  - destruct I as (c & s & E & C & _). injection E as <- _. unfold letter, upper, lower in C. lia.
Qed.
Definition accepted_f : Function := mkFunction (lit "set_names") (f_inputs derive_f) (f_outputs derive_f) false NonPayable.
Lemma accepted_sample : forallb argument_type (map p_kind (f_inputs accepted_f)) = true /\ forallb plain_type (map p_kind (f_outputs accepted_f)) = true /\
  Forall (fun s => snake s /\ usable s) (map p_name (f_inputs accepted_f)) /\ NoDup (map p_name (f_inputs accepted_f)) /\
  ~ In (lit "f") (map p_name (f_inputs accepted_f)) /\ ~ In (lit "function") (map p_name (f_inputs accepted_f)) /\ snake (f_name accepted_f) /\ usable (f_name accepted_f).
Proof.
  split; [reflexivity|]. split; [reflexivity|]. split; [|split; [|split; [|split; [|split]]]].
  - repeat (apply Forall_cons; [split; [apply snakeb_ok; reflexivity|apply usableb_ok; reflexivity]|]). apply Forall_nil.
  - repeat constructor; cbn; intuition discriminate.
  - cbn. intuition discriminate.
  - cbn. intuition discriminate.
  - apply snakeb_ok. reflexivity.
  - apply usableb_ok. reflexivity.
Qed.
(** A function, and the same with a parameter called type. *)
Definition typed_f (n : str) : Function := mkFunction (lit "set") [mkParam n (PUint 256) None] [] false NonPayable.
Lemma keyword_sample p : is_ok (derive_function p (typed_f (lit "kind"))) = true /\ is_ok (derive_function p (typed_f (lit "self"))) = true /\
  forall n, In n [lit "type"; lit "Type"; lit "_1"; lit "function"; lit "f"] -> is_ok (derive_function p (typed_f n)) = false.
Proof.
  split; [destruct p; vm_compute; reflexivity|]. split; [destruct p; vm_compute; reflexivity|].
  intros n I. repeat (destruct I as [<-|I]; [destruct p; vm_compute; reflexivity|]). destruct I.
Qed.
(** Two events, each accepted, not accepted together. *)
Definition named_e (n : str) (t : ParamType) : Event := mkEvent n [mkEventParam (lit "text") t false] false.
Lemma hidden_type_sample p : is_ok (derive_event p (named_e (lit "String") PBool)) = true /\ is_ok (derive_event p (named_e (lit "Said") PString)) = true /\
  is_ok (derive_contract p default_contract [] [(lit "String", [named_e (lit "String") PBool]); (lit "Said", [named_e (lit "Said") PString])]) = false /\
  is_ok (derive_contract p default_contract [] [(lit "Text", [named_e (lit "Text") PBool]); (lit "Said", [named_e (lit "Said") PString])]) = true.
Proof. destruct p; vm_compute; auto. Qed.
Lemma letter_sample : starts_with_letter (lit "_Transfer") /\ ~ starts_with_letter (lit "_1st").
Proof.
  split.
  - exists [95], 84, (lit "ransfer"). split; [reflexivity|]. split; [intros x [<-|[]]; reflexivity|]. unfold letter, upper. lia.
  - intros X. apply snake_identifier in X.
    + destruct X as (c & s & E & C & _). vm_compute in E. injection E as <- _. unfold letter, upper, lower in C. lia.
    + intros c I. apply ident_char_iff. revert c I. apply forallb_forall. reflexivity.
Qed.
Lemma of_type_sample : of_type (YVec (YVec (YByteArray 3))) (RVec [RVec [RByteArray [x01; x02; x03]]; RVec []]).
Proof.
  exists [RVec [RByteArray [x01; x02; x03]]; RVec []]. split; [|reflexivity]. apply Forall_cons; [|apply Forall_cons; [|apply Forall_nil]].
  - exists [RByteArray [x01; x02; x03]]. split; [|reflexivity]. apply Forall_cons; [|apply Forall_nil]. exists [x01; x02; x03]. now split.
  - exists []. split; [apply Forall_nil|reflexivity].
Qed.

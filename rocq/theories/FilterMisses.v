(** * Filters that miss the logs they are for (computed) *)
From Verif Require Import Base Types AbiSpec TypeNames TypeNamesSpec Encoder Keccak Function FunctionFacts Event EventSpec.
From Coq Require Import String.
Local Open Scope N_scope.
Local Open Scope list_scope.

Definition missed (p : profile) (k : ParamType) (v : Token) : bool :=
  match event_filter p (mkEvent (lit "E") [mkEventParam (lit "x") k true] true) (mkRawFilter (This v) Any Any) with
  | Ok (mkFilter (This h) _ _ _) => negb (bytes_eqb h (topic_of k v))
  | _ => false
  end.
Lemma bytes_eqb_refl l : bytes_eqb l l = true.
Proof.
  unfold bytes_eqb. rewrite N.eqb_refl. cbn [andb]. induction l as [|b l IH]; [reflexivity|]. cbn [combine forallb fst snd].
  rewrite IH, andb_true_r. now apply Byte.byte_dec_lb.
Qed.
Lemma missed_spec p k v s : canonical_signature (lit "E") [k] s -> has_type v k = true -> missed p k v = true ->
  let e := mkEvent (lit "E") [mkEventParam (lit "x") k true] true in
  let log := mkRawLog [topic_of k v] [] in
  has_type v k = true /\ emits e [v] log /\ raw_matches (mkRawFilter (This v) Any Any) [v] /\
  exists f, event_filter p e (mkRawFilter (This v) Any Any) = Ok f /\ ~ filter_matches f (rl_topics log).
Proof.
  intros C T M e log. split; [exact T|]. split; [split; [exists s; split; [exact C|reflexivity]|reflexivity]|].
  split; [repeat split; exact I|]. unfold missed in M. fold e in M.
  destruct (event_filter p e _) as [[t0 t1 t2 t3]|x|]; try discriminate. destruct t0 as [| |h]; try discriminate.
  exists (mkFilter (This h) t1 t2 t3). split; [reflexivity|]. intros (H & _). cbn in H. injection H as H. subst h.
  now rewrite bytes_eqb_refl in M.
Qed.
Lemma filter_misses p :
  Forall (fun x : ParamType * Token => let '(k, v) := x in
    let e := mkEvent (lit "E") [mkEventParam (lit "x") k true] true in
    let log := mkRawLog [topic_of k v] [] in
    has_type v k = true /\ emits e [v] log /\ raw_matches (mkRawFilter (This v) Any Any) [v] /\
    exists f, event_filter p e (mkRawFilter (This v) Any Any) = Ok f /\ ~ filter_matches f (rl_topics log))
  [(PString, TString (lit "hello")); (PBytes, TBytes [x01; x02]); (PArray (PUint 256), TArray [TUint 1; TUint 2]);
   (PFixedArray (PUint 256) 1, TFixedArray [TUint 1])].
Proof.
  apply Forall_cons; [|apply Forall_cons; [|apply Forall_cons; [|apply Forall_cons; [|constructor]]]].
  - apply missed_spec with (s := lit "E(string)"); [apply canonical_iff; reflexivity|reflexivity|destruct p; vm_compute; reflexivity].
  - apply missed_spec with (s := lit "E(bytes)"); [apply canonical_iff; reflexivity|reflexivity|destruct p; vm_compute; reflexivity].
  - apply missed_spec with (s := lit "E(uint256[])"); [apply canonical_iff; reflexivity|reflexivity|destruct p; vm_compute; reflexivity].
  - apply missed_spec with (s := lit "E(uint256[1])"); [apply canonical_iff; reflexivity|reflexivity|destruct p; vm_compute; reflexivity].
Qed.

(** * The outcome of building filters, for all filters (C29, C60).
    Every theorem is proved elsewhere and closed here by [exact]. *)
From Verif Require Import Base BaseFacts Types AbiSpec Encoder Event EventSpec ShapeSpec WrapSpec WrapFacts AskedSpec AskedFacts Derive DeriveSpec Samples.
From Coq Require Import String.
Local Open Scope N_scope.
Local Open Scope list_scope.

(** ** C29: a filter is built exactly if everything that is asked for is fine;
    otherwise the first thing that is not decides between a panic and the
    error. *)
Theorem C29_fine : forall p e raw, let asks := all_asked raw (map ep_kind (isel true (e_inputs e))) in
  Forall measured asks -> ((exists f, event_filter p e raw = Ok f) <-> Forall (fine p) asks).
Proof. exact event_filter_fine. Qed.
Print Assumptions C29_fine.
Theorem C29_panics : forall p e raw, let asks := all_asked raw (map ep_kind (isel true (e_inputs e))) in
  Forall measured asks -> (event_filter p e raw = Panic <-> first_bad p (breaks p) asks).
Proof. exact event_filter_panics. Qed.
Print Assumptions C29_panics.
Theorem C29_refuses : forall p e raw, let asks := all_asked raw (map ep_kind (isel true (e_inputs e))) in
  Forall measured asks -> (event_filter p e raw = Err InvalidData <-> first_bad p misfits asks).
Proof. exact event_filter_refuses. Qed.
Print Assumptions C29_refuses.
Definition tuple_event : Event := mkEvent (lit "E") [mkEventParam (lit "x") (PTuple [PBool]) true; mkEventParam (lit "y") PBool true] false.
(** The same two mistakes in either order: the first one decides. *)
Example C29_panics_case : let long := TTuple [TBool true; TBool true] in let kinds := map ep_kind (isel true (e_inputs tuple_event)) in
  Forall measured (all_asked (mkRawFilter (OneOf [TTuple [TBool true]; long; TUint 1]) Any Any) kinds) /\
  first_bad Debug (breaks Debug) (all_asked (mkRawFilter (OneOf [TTuple [TBool true]; long; TUint 1]) Any Any) kinds) /\
  first_bad Debug misfits (all_asked (mkRawFilter (OneOf [TTuple [TBool true]; TUint 1; long]) Any Any) kinds) /\
  first_bad Debug misfits (all_asked (mkRawFilter Any (This (TBool true)) (OneOf [])) kinds) /\
  event_filter Debug tuple_event (mkRawFilter (OneOf [TTuple [TBool true]; long; TUint 1]) Any Any) = Panic /\
  event_filter Debug tuple_event (mkRawFilter (OneOf [TTuple [TBool true]; TUint 1; long]) Any Any) = Err InvalidData.
Proof.
  intros long kinds.
  assert (F : forall p, fine p (Some (TTuple [TBool true], PTuple [PBool]))) by (intros p; split; [reflexivity|right; vm_compute; reflexivity]).
  assert (F' : forall p, fine p (Some (TBool true, PBool))) by (intros p; split; [reflexivity|right; vm_compute; reflexivity]).
  split; [|split; [|split; [|split; [|split; vm_compute; reflexivity]]]].
  - repeat constructor.
  - exists [Some (TTuple [TBool true], PTuple [PBool])], (Some (long, PTuple [PBool])), [Some (TUint 1, PTuple [PBool])].
    split; [reflexivity|]. split; [now repeat constructor|]. left. apply (@over_long [_] _ []). repeat constructor.
  - exists [Some (TTuple [TBool true], PTuple [PBool])], (Some (TUint 1, PTuple [PBool])), [Some (long, PTuple [PBool])].
    split; [reflexivity|]. split; [now repeat constructor|]. split; [reflexivity|]. intros O. inversion O.
  - exists [Some (TBool true, PBool)], None, []. split; [reflexivity|]. split; [now repeat constructor|]. exact I.
Qed.

(** ** C60: when the generated filter function panics.  In checked builds it
    does exactly if one of the values asked for in the first three positions
    takes 4 GiB or more; otherwise it returns a filter. *)
Theorem C60_checked : forall p e d args ts, derive_event p e = Ok d ->
  Forall3 topic_denotes (map ep_kind (isel true (e_inputs e))) args ts ->
  (forall i v, (i < 3)%nat -> In v (topic_tokens (nth i ts Any)) -> len (encoding32 [v]) < 2 ^ 37) ->
  (de_filter d args = Panic <-> p = Debug /\ exists i v, (i < 3)%nat /\ In v (topic_tokens (nth i ts Any)) /\ 2 ^ 32 <= len (encoding32 [v])) /\
  (de_filter d args <> Panic -> exists f, de_filter d args = Ok f).
Proof. exact derived_filter_checked. Qed.
Print Assumptions C60_checked.
Definition long_event : Event := mkEvent (lit "E") [mkEventParam (lit "x") PBytes true] true.
Example C60_checked_case : exists b, is_ok (derive_event Debug long_event) = true /\
  Forall3 topic_denotes (map ep_kind (isel true (e_inputs long_event))) [This (RBytes b)] [This (TBytes b)] /\
  len (encoding32 [TBytes b]) < 2 ^ 37 /\ 2 ^ 32 <= len (encoding32 [TBytes b]).
Proof.
  exists (zeros (N.to_nat (2 ^ 32))). split; [vm_compute; reflexivity|]. split; [repeat constructor; eexists; split; reflexivity|].
  unfold encoding32. cbn [value32 map dynamic_value].
  rewrite seq32_len. cbn [heads_size head_size tails]. rewrite app_nil_r, !len_app, len_word32, len_zeros, Nnat.N2Nat.id.
  split; vm_compute; [reflexivity|discriminate].
Qed.

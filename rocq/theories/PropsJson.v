(** * Properties of ABI JSON and contracts (C23-C25, C41, C49-C54).
    Every theorem is proved elsewhere and closed here by [exact], or is a
    computed counterexample. *)
From Verif Require Import Base Types TypeNames TypeNamesSpec Function Event EventSpec Json JsonSpec Contract ContractSpec
  JsonFacts ItemFacts LoadFacts ContractFacts LoadTotal JsonLemmas JsonSamples.
From Coq Require Import String Permutation.
Local Open Scope N_scope.
Local Open Scope list_scope.

(** ** C23: ABI JSON of a parameter round trips. *)
(** As JSON trees, read from text ([Text]) or from a [Value] ([Buffered]).
    Missing: in text, serde_json only reads 127 levels of nesting. *)
Theorem C23_param_partial : forall p src a, wf_type (p_kind a) = true -> de_param p src (se_param a) = Ok a.
Proof. exact param_round. Qed.
Print Assumptions C23_param_partial.
Theorem C23_event_param_partial : forall p src a, wf_type (ep_kind a) = true -> de_event_param p src (se_event_param a) = Ok a.
Proof. exact event_param_round. Qed.
Print Assumptions C23_event_param_partial.
Theorem C23_tuple_param_partial : forall p src a, wf_type (tp_kind a) = true -> de_tuple_param p src (se_tuple_param a) = Ok a.
Proof. exact tuple_param_round. Qed.
Print Assumptions C23_tuple_param_partial.
(** Exactly when the text round trips. *)
Theorem C23_param_text : forall p a, wf_type (p_kind a) = true ->
  (from_text (de_param p Text) (se_param a) = Ok a <-> component_depth (p_kind a) <= 126).
Proof. exact param_text. Qed.
Print Assumptions C23_param_text.
Theorem C23_event_param_text : forall p a, wf_type (ep_kind a) = true ->
  (from_text (de_event_param p Text) (se_event_param a) = Ok a <-> component_depth (ep_kind a) <= 126).
Proof. exact event_param_text. Qed.
Print Assumptions C23_event_param_text.
Theorem C23_tuple_param_text : forall p a, wf_type (tp_kind a) = true ->
  (from_text (de_tuple_param p Text) (se_tuple_param a) = Ok a <-> component_depth (tp_kind a) <= 126).
Proof. exact tuple_param_text. Qed.
Print Assumptions C23_tuple_param_text.
Example C23_case : wf_type sample_kind = true /\ component_depth sample_kind = 4 /\
  se_param (mkParam (lit "x") (PArray (PTuple [PBool])) None) =
    JObj [(lit "name", JStr (lit "x")); (lit "type", JStr (lit "tuple[]"));
          (lit "components", JArr [JObj [(lit "type", JStr (lit "bool"))]])].
Proof. vm_compute. auto. Qed.
Theorem C23_refuted : forall p, exists a, wf_type (p_kind a) = true /\ from_text (de_param p Text) (se_param a) = Err SerdeJson.
Proof. intros p. exists (mkParam (lit "x") (nested_tuple 64) None). destruct p; vm_compute; auto. Qed.
Print Assumptions C23_refuted.

(** ** C24: ABI JSON of a contract round trips. *)
(** As JSON trees.  [fs], [es]: the entries of the maps in iteration order. *)
Theorem C24_round_partial : forall p p' j c fs es, de_contract p j = Ok c ->
  Permutation (c_functions c) fs -> Permutation (c_events c) es ->
  exists c', de_contract p' (se_contract c fs es) = Ok c' /\ same_contract c c'.
Proof. exact contract_round. Qed.
Print Assumptions C24_round_partial.
(** As text, for standard ABI JSON; missing: types written with parentheses
    within the type name, which get nested deeper by being written. *)
Theorem C24_text_partial : forall p p' j ops, contract_json j ops -> forallb wf_operation ops = true -> json_depth j <= 127 ->
  exists c, load p j = Ok c /\
    forall fs es, Permutation (c_functions c) fs -> Permutation (c_events c) es ->
      exists c', load p' (se_contract c fs es) = Ok c' /\ same_contract c c'.
Proof. exact standard_round. Qed.
Print Assumptions C24_text_partial.
(** As text, for every loaded contract: exactly if no parameter is nested
    deeper than 123 levels of JSON. *)
Theorem C24_exact : forall p p' j c fs es, load p j = Ok c -> Permutation (c_functions c) fs -> Permutation (c_events c) es ->
  if forallb (fun k => component_depth k <=? 123) (types_of c)
  then exists c', load p' (se_contract c fs es) = Ok c' /\ same_contract c c'
  else load p' (se_contract c fs es) = Err SerdeJson.
Proof. exact rewritten_exact. Qed.
Print Assumptions C24_exact.
Example C24_exact_case : (exists c, load Debug sample_json = Ok c /\ forallb (fun k => component_depth k <=? 123) (types_of c) = true /\ len (types_of c) = 4) /\
  (exists c, load Debug deep_json = Ok c /\ forallb (fun k => component_depth k <=? 123) (types_of c) = false).
Proof. split; eexists; (split; [vm_compute; reflexivity|]); vm_compute; repeat split; reflexivity. Qed.
(** What is written is standard ABI JSON with the contract's entries. *)
Theorem C24_written_standard : forall p j c fs es, load p j = Ok c ->
  Permutation (c_functions c) fs -> Permutation (c_events c) es ->
  exists ops, contract_json (se_contract c fs es) ops /\
    Permutation (functions_of ops) (iterate (c_functions c)) /\ Permutation (events_of ops) (iterate (c_events c)) /\
    last_of (constructors_of ops) = c_constructor c /\
    (In OpReceive ops <-> c_receive c = true) /\ (In OpFallback ops <-> c_fallback c = true).
Proof. exact written_standard. Qed.
Print Assumptions C24_written_standard.
Example C24_case : contract_json sample_json sample_operations /\ forallb wf_operation sample_operations = true /\ json_depth sample_json = 6.
Proof. split; [exact sample_standard|]. vm_compute. auto. Qed.
(** A loadable text whose contract, written again, is nested too deep. *)
Theorem C24_refuted : forall p, exists j c, load p j = Ok c /\ load p (se_contract c (c_functions c) (c_events c)) = Err SerdeJson.
Proof.
  intros p. exists deep_json.
  destruct p; eexists; (split; [vm_compute; reflexivity|vm_compute; reflexivity]).
Qed.
Print Assumptions C24_refuted.

(** ** C25: a contract groups its entries by name in file order. *)
Theorem C25_grouped : forall p j c, load p j = Ok c ->
  exists items ops, j = JArr items /\ Forall2 (fun item o => de_operation p item = Ok o) items ops /\
  (forall n, functions_by_name c n = match filter (fun f => str_eqb (f_name f) n) (functions_of ops) with [] => Err (InvalidName n) | r => Ok r end) /\
  (forall n, events_by_name c n = match filter (fun e => str_eqb (e_name e) n) (events_of ops) with [] => Err (InvalidName n) | r => Ok r end) /\
  (forall n, function c n = match find (fun f => str_eqb (f_name f) n) (functions_of ops) with Some f => Ok f | None => Err (InvalidName n) end) /\
  (forall n, event c n = match find (fun e => str_eqb (e_name e) n) (events_of ops) with Some e => Ok e | None => Err (InvalidName n) end) /\
  (forall order, Permutation (c_functions c) order -> Permutation (iterate order) (functions_of ops)) /\
  (forall order, Permutation (c_events c) order -> Permutation (iterate order) (events_of ops)) /\
  contract_constructor c = last_of (constructors_of ops) /\
  (c_receive c = true <-> In OpReceive ops) /\ (c_fallback c = true <-> In OpFallback ops).
Proof. exact loaded_lookup. Qed.
Print Assumptions C25_grouped.
Example C25_case : exists c, load Debug sample_json = Ok c /\
  function c (lit "pay") = Ok (mkFunction (lit "pay") [mkParam (lit "to") PAddress (Some (lit "address payable"))] [mkParam [] PBool None] false NonPayable) /\
  match functions_by_name c (lit "pay") with Ok l => len l = 2 | _ => False end /\ function c (lit "gone") = Err (InvalidName (lit "gone")) /\ len (iterate (c_functions c)) = 3.
Proof. eexists. split; [vm_compute; reflexivity|]. vm_compute. auto. Qed.

(** ** C41: names are sanitized. *)
Theorem C41_sanitized : forall text name, sanitize_name text = Ok name <-> before_paren text name.
Proof. exact sanitize_iff. Qed.
Print Assumptions C41_sanitized.
Theorem C41_total : forall text, exists name, sanitize_name text = Ok name.
Proof. exact sanitize_total. Qed.
Print Assumptions C41_total.
Theorem C41_idempotent : forall text name, sanitize_name text = Ok name -> sanitize_name name = Ok name.
Proof. exact sanitize_idempotent. Qed.
Print Assumptions C41_idempotent.
Example C41_case : sanitize_name (lit "f(g(x))") = Ok (lit "f") /\ sanitize_name (233 :: lit "t(") = Ok (233 :: lit "t").
Proof. vm_compute. auto. Qed.

(** ** C49: standard ABI JSON loads as the contract it describes. *)
Theorem C49_contract : forall p j ops, contract_json j ops -> forallb wf_operation ops = true -> json_depth j <= 127 ->
  exists c, load p j = Ok c /\
  (forall n, functions_by_name c n = match filter (fun f => str_eqb (f_name f) n) (functions_of ops) with [] => Err (InvalidName n) | r => Ok r end) /\
  (forall n, events_by_name c n = match filter (fun e => str_eqb (e_name e) n) (events_of ops) with [] => Err (InvalidName n) | r => Ok r end) /\
  (forall n, function c n = match find (fun f => str_eqb (f_name f) n) (functions_of ops) with Some f => Ok f | None => Err (InvalidName n) end) /\
  (forall n, event c n = match find (fun e => str_eqb (e_name e) n) (events_of ops) with Some e => Ok e | None => Err (InvalidName n) end) /\
  (forall order, Permutation (c_functions c) order -> Permutation (iterate order) (functions_of ops)) /\
  (forall order, Permutation (c_events c) order -> Permutation (iterate order) (events_of ops)) /\
  contract_constructor c = last_of (constructors_of ops) /\
  (c_receive c = true <-> In OpReceive ops) /\ (c_fallback c = true <-> In OpFallback ops).
Proof. exact standard_loads. Qed.
Print Assumptions C49_contract.
Theorem C49_param : forall p src others, (others = true -> src = Buffered) -> forall l name t internal,
  wf_type t = true -> param_json others l name t internal -> de_param p src (JObj l) = Ok (mkParam name t internal).
Proof. exact param_standard. Qed.
Print Assumptions C49_param.
Theorem C49_event_param : forall p src others, (others = true -> src = Buffered) -> forall l name t indexed,
  wf_type t = true -> event_param_json others l name t indexed -> de_event_param p src (JObj l) = Ok (mkEventParam name t indexed).
Proof. exact event_param_standard. Qed.
Print Assumptions C49_event_param.
Example C49_case : contract_json sample_json sample_operations /\ forallb wf_operation sample_operations = true /\ json_depth sample_json <= 127.
Proof. split; [exact sample_standard|]. vm_compute. split; [reflexivity|discriminate]. Qed.

(** ** C50: the order of the keys does not matter. *)
Theorem C50_any_order : forall p src l l', Permutation l l' ->
  (forall a, de_param p src (JObj l) = Ok a <-> de_param p src (JObj l') = Ok a) /\
  (forall a, de_event_param p src (JObj l) = Ok a <-> de_event_param p src (JObj l') = Ok a) /\
  (forall a, de_tuple_param p src (JObj l) = Ok a <-> de_tuple_param p src (JObj l') = Ok a) /\
  (forall o, de_operation p (JObj l) = Ok o <-> de_operation p (JObj l') = Ok o).
Proof. exact any_order. Qed.
Print Assumptions C50_any_order.
Example C50_case : de_param Debug Text (JObj [(lit "components", JArr [JObj [(lit "type", JStr (lit "bool"))]]);
    (lit "type", JStr (lit "tuple")); (lit "name", JStr (lit "x"))]) = Ok (mkParam (lit "x") (PTuple [PBool]) None).
Proof. vm_compute. reflexivity. Qed.

(** ** C51: loading does not panic. *)
(** Missing: type names that are not ASCII or have a ']' without a '[' (C17). *)
Theorem C51_no_panic_partial : forall p j, type_texts (fun s => all_ascii s && brackets_ok false s) j = true -> load p j <> Panic.
Proof. exact load_not_panic_ascii. Qed.
Print Assumptions C51_no_panic_partial.
Example C51_case : type_texts (fun s => all_ascii s && brackets_ok false s) sample_json = true.
Proof. vm_compute. reflexivity. Qed.
(** Whatever the file, only the reader of type names panics (C17 and C65 say on which) ... *)
Theorem C51_reader : forall p j, load p j = Panic -> exists s, type_text s j /\ read p s = Panic.
Proof. exact load_panics_reader. Qed.
Print Assumptions C51_reader.
(** ... and then a file with that name for a parameter does panic, unless it fails before it gets there. *)
Theorem C51_panics : forall p l1 ps name s ps' l2 c qs j,
  j = JArr (l1 ++ JObj [(lit "type", JStr (lit "constructor")); (lit "inputs", JArr (ps ++ JObj [(lit "name", JStr name); (lit "type", JStr s)] :: ps'))] :: l2) ->
  json_depth j <= 127 -> load p (JArr l1) = Ok c -> mapM (de_param p Buffered) ps = Ok qs -> read p s = Panic -> load p j = Panic.
Proof. exact load_panics. Qed.
Print Assumptions C51_panics.
Example C51_panics_case : exists l1 ps c qs, load Debug (JArr l1) = Ok c /\ c_receive c = true /\
  mapM (de_param Debug Buffered) ps = Ok qs /\ List.length qs = 1%nat /\ read Debug (lit "7]") = Panic.
Proof.
  exists [JObj [(lit "type", JStr (lit "receive"))]], [JObj [(lit "name", JStr (lit "a")); (lit "type", JStr (lit "bool[]"))]].
  do 2 eexists. repeat split; reflexivity.
Qed.
Theorem C51_refuted : exists j, load Debug j = Panic /\ load Release j = Panic.
Proof.
  exists (JArr [JObj [(lit "type", JStr (lit "constructor")); (lit "inputs", JArr
    [JObj [(lit "name", JStr (lit "x")); (lit "type", JStr (lit "]"))]])]]). vm_compute. auto.
Qed.
Print Assumptions C51_refuted.

(** ** C52: unknown and repeated keys. *)
(** Within a contract unknown keys of a parameter have no effect ... *)
Theorem C52_ignored : forall p l a,
  de_param p Buffered (JObj (filter (fun e => existsb (str_eqb (fst e)) component_keys) l)) = Ok a <-> de_param p Buffered (JObj l) = Ok a.
Proof. exact unknown_keys_buffered. Qed.
Print Assumptions C52_ignored.
Theorem C52_ignored_event : forall p l a,
  de_event_param p Buffered (JObj (filter (fun e => existsb (str_eqb (fst e)) [lit "type"; lit "components"; lit "name"; lit "indexed"]) l)) = Ok a <->
  de_event_param p Buffered (JObj l) = Ok a.
Proof. exact unknown_keys_buffered_event. Qed.
Print Assumptions C52_ignored_event.
(** ... but reading a parameter alone from text fails at them. *)
Theorem C52_rejected : forall p l,
  (forall a, de_param p Text (JObj l) = Ok a -> Forall (fun e => In (fst e) component_keys) l) /\
  (forall a, de_tuple_param p Text (JObj l) = Ok a -> Forall (fun e => In (fst e) component_keys) l) /\
  (forall a, de_event_param p Text (JObj l) = Ok a -> Forall (fun e => In (fst e) [lit "type"; lit "components"; lit "name"; lit "indexed"]) l).
Proof. exact unknown_keys_text. Qed.
Print Assumptions C52_rejected.
(** No known key may occur twice. *)
Theorem C52_no_duplicates : forall p src l a, de_param p src (JObj l) = Ok a -> forall k, In k component_keys -> (List.length (keyed l k) <= 1)%nat.
Proof. exact no_duplicates. Qed.
Print Assumptions C52_no_duplicates.
Example C52_case : de_param Debug Buffered indexed_param = Ok (mkParam (lit "a") PBool None) /\ de_param Debug Text indexed_param = Err SerdeJson.
Proof. vm_compute. auto. Qed.

(** ** C53: loaded contracts are well formed. *)
Theorem C53_well_formed : forall p j c, load p j = Ok c ->
  Forall (fun f => wf_params (f_inputs f) = true /\ wf_params (f_outputs f) = true /\ plain_name (f_name f) = true) (iterate (c_functions c)) /\
  Forall (fun e => wf_event_params (e_inputs e) = true /\ plain_name (e_name e) = true) (iterate (c_events c)) /\
  (forall k, c_constructor c = Some k -> wf_params (k_inputs k) = true).
Proof. exact loaded_types. Qed.
Print Assumptions C53_well_formed.
Example C53_case : exists c, load Release sample_json = Ok c /\ len (iterate (c_functions c)) = 3 /\ len (iterate (c_events c)) = 1.
Proof. eexists. split; [vm_compute; reflexivity|]. vm_compute. auto. Qed.

(** ** C54: filter JSON tells filters apart. *)
Theorem C54_injective : forall a b, se_filter a = se_filter b -> a = b.
Proof. exact se_filter_inj. Qed.
Print Assumptions C54_injective.
Example C54_case : se_filter (mkFilter (This (repeat xab 32)) Any (OneOf []) (OneOf [repeat x00 32])) =
  JArr [JStr (lit "0xabababababababababababababababababababababababababababababababab"); JNull; JArr [];
        JArr [JStr (lit "0x0000000000000000000000000000000000000000000000000000000000000000")]].
Proof. vm_compute. reflexivity. Qed.

(** * Which errors are returned (C76).
    Every theorem is proved elsewhere and closed here by [exact]. *)
From Verif Require Import Base StrFacts Types AbiSpec DecoderSpec Decoder TypeNames TypeNamesSpec Tokenizer TokenSpec TokenFacts Keccak Function Event EventSpec
  Json JsonSamples Contract Cli CliSamples LiteralSpec LiteralErrorSpec LiteralErrors ReaderSpec NameErrorSpec NameErrors ErrorSpec ErrorFacts ErrorMore.
From Coq Require Import String.
Local Open Scope N_scope.
Local Open Scope list_scope.

(** ** C76: errors name what is wrong. *)
(** A type name is rejected for a number in it, or for a part of it, which the
    error holds and which is rejected for itself when read alone. *)
Theorem C76_names : forall p s e, str_len s < 2 ^ 63 -> read p s = Err e ->
  e = ParseIntErr \/ exists x, part_of x s /\ e = InvalidName x /\ read p x = Err (InvalidName x).
Proof. exact read_errors. Qed.
Print Assumptions C76_names.
Example C76_names_case : read Debug (lit "(uint8,flag[2])") = Err (InvalidName (lit "flag")) /\ part_of (lit "flag") (lit "(uint8,flag[2])") /\
  read Debug (lit "(uint8,bool[x])") = Err ParseIntErr /\ read Debug (lit "uint8)") = Err (InvalidName (lit "uint8)")).
Proof. split; [vm_compute; reflexivity|]. split; [exists (lit "(uint8,"), (lit "[2])"); reflexivity|]. vm_compute. auto. Qed.

(** For names of ASCII characters, with tuples nested to any depth, exactly these
    names are rejected, with exactly these errors. *)
Theorem C76_ascii_names : forall p s e, len s < 2 ^ 63 -> all_ascii s = true -> (read p s = Err e <-> rejected_name number_error s e).
Proof. exact name_errors. Qed.
Print Assumptions C76_ascii_names.
Example C76_ascii_names_case : all_ascii (lit "(uint8,(bool,flag)[2])") = true /\
  read Debug (lit "(uint8,(bool,flag)[2])") = Err (InvalidName (lit "flag")) /\
  rejected_name number_error (lit "(uint8,(bool,flag)[2])") (InvalidName (lit "flag")) /\
  rejected_name number_error (lit "(bool)x,(int))") (InvalidName (lit "x,(int")) /\
  rejected_name number_error (lit "(bool,(int)x)") (InvalidName (lit "(int)x")).
Proof.
  split; [reflexivity|]. split; [vm_compute; reflexivity|]. split; [|split; (apply (name_errors Debug); [reflexivity..|vm_compute; reflexivity])].
  assert (W : forall s, forallb (fun c => negb ((c =? 40) || (c =? 41) || (c =? 44))) s = true -> no_separator s).
  { intros s H c I. rewrite forallb_forall in H. specialize (H c I). destruct (N.eqb_spec c 40), (N.eqb_spec c 41), (N.eqb_spec c 44); try discriminate H. auto. }
  assert (S8 : size_text (lit "8") 8) by (exists (lit "8"); repeat split; auto; [discriminate|repeat constructor; discriminate]).
  assert (S2 : size_text (lit "2") 2) by (exists (lit "2"); repeat split; auto; [discriminate|repeat constructor; discriminate]).
  assert (F : rejected_name number_error (lit "flag") (InvalidName (lit "flag"))).
  { apply rn_word; [intros r; split; intros E; apply (f_equal (@rev char)) in E; rewrite rev_app_distr in E; discriminate|].
    split; [intros H; repeat (destruct H as [H|H]; [discriminate H|]); destruct H|]. intros w k H E. repeat (destruct H as [<-|H]; [discriminate E|]). destruct H. }
  apply (@rn_tuple _ (lit "uint8,(bool,flag)[2]")). apply (@rt_field _ _ _ _ (lit "uint8") (PUint 8)); [now apply (@sp_uint (lit "8"))|].
  apply (@rt_open _ _ _ _ []); [now apply W|]. apply (@rt_field _ _ _ _ (lit "bool") PBool); [constructor|].
  apply (@rt_window _ _ _ _ (lit "flag") (lit "[2]") (lit ")")); [now apply W|discriminate| |right; exists []; now right|].
  { intros c H. repeat (destruct H as [<-|H]; [split; discriminate|]). destruct H. }
  apply (@rn_array _ (lit "(bool,flag)")); [right; exists (lit "2"), 2; auto|].
  apply (@rn_tuple _ (lit "bool,flag")). apply (@rt_field _ _ _ _ (lit "bool") PBool); [constructor|].
  apply (@rt_last_item _ _ _ (lit "flag")); [now apply W|discriminate|exact F].
Qed.

(** A value is rejected as malformed, or with the error of a part of it as a
    type within its type. *)
Theorem C76_values : forall T t s e, tokenize T t s = Err e ->
  e = InvalidData \/ exists t' x, List.In t' (leaves t) /\ part_of x s /\ tokenize T t' x = Err e.
Proof. exact value_errors. Qed.
Print Assumptions C76_values.
(** And these errors are exactly the following. *)
Theorem C76_strict : forall t s e, scalar t = true -> (tokenize StrictTokenizer t s = Err e <-> strict_error t s e).
Proof. exact strict_errors. Qed.
Print Assumptions C76_strict.
Theorem C76_lenient : forall t s e, scalar t = true -> (tokenize LenientTokenizer t s = Err e <-> lenient_error t s e).
Proof. exact lenient_errors. Qed.
Print Assumptions C76_lenient.
Example C76_values_case : let t := PTuple [PBool; PArray (PInt 8)] in let big := lit "57896044618658097711785492504343953926634992332820282019728792003956564819968" in
  leaves t = [PBool; PInt 8] /\
  tokenize LenientTokenizer t (lit "(true,[" ++ big ++ lit "])") = Err overflow /\ tokenize LenientTokenizer t (lit "(true,[-" ++ big ++ lit "0])") = Err too_long /\
  tokenize LenientTokenizer t (lit "(true,[-" ++ big ++ lit "])") = Ok (TTuple [TBool true; TArray [TInt (2 ^ 255)]]) /\
  tokenize LenientTokenizer t (lit "(true,[-57896044618658097711785492504343953926634992332820282019728792003956564819969])") = Err underflow /\
  tokenize LenientTokenizer t (lit "(true,[0x1])") = Err bad_character /\ tokenize LenientTokenizer t (lit "(yes,[1])") = Err InvalidData /\
  tokenize StrictTokenizer t (lit "(true,[0x1])") = Err HexErr /\ tokenize StrictTokenizer t (lit "(true,[01])") = Err InvalidData /\
  lenient_error (PInt 8) big overflow.
Proof.
  intros t big. repeat (split; [vm_compute; reflexivity|]). apply lenient_errors; [reflexivity|]. vm_compute. reflexivity.
Qed.
(** Containers, for all texts.  The error is that of the first item that is
    rejected; the text as a whole is malformed if there is none, but brackets or
    quotes are wrong.  Nothing behind a bracket that closes too much is read. *)
Theorem C76_array : forall T t s e, tokenize T (PArray t) s = Err e <->
  item_fails 91 93 s (Forall (fun r => exists m v, bytes_between s r m /\ tokenize T t m = Ok v)) (fun _ m => tokenize T t m = Err e) \/
  (e = InvalidData /\ literal_spoilt 91 93 s (Forall (fun r => exists m v, bytes_between s r m /\ tokenize T t m = Ok v))).
Proof. exact array_rejected. Qed.
Print Assumptions C76_array.
Theorem C76_fixed_array : forall T t n s e, tokenize T (PFixedArray t n) s = Err e <->
  tokenize T (PArray t) s = Err e \/ (e = InvalidData /\ exists vs, tokenize T (PArray t) s = Ok (TArray vs) /\ len vs <> n).
Proof. exact fixed_array_rejected. Qed.
Print Assumptions C76_fixed_array.
(** An item for which there is no type is rejected as malformed. *)
Theorem C76_tuple : forall T ts s e, tokenize T (PTuple ts) s = Err e <->
  item_fails 40 41 s
    (fun rs => (List.length rs <= List.length ts)%nat /\ Forall (fun x => exists m v, bytes_between s (snd x) m /\ tokenize T (fst x) m = Ok v) (combine ts rs))
    (fun k m => match nth_error ts k with Some t => tokenize T t m = Err e | None => e = InvalidData end) \/
  (e = InvalidData /\ literal_spoilt 40 41 s
    (fun rs => (List.length rs <= List.length ts)%nat /\ Forall (fun x => exists m v, bytes_between s (snd x) m /\ tokenize T (fst x) m = Ok v) (combine ts rs))).
Proof. exact tuple_rejected. Qed.
Print Assumptions C76_tuple.
Example C76_array_case : item_ranges 91 93 (lit "[0a,b]]") = [(1, 3); (4, 5)]%nat /\
  stray 91 93 (lit "[0a,b]]") 6 = true /\ tokenize StrictTokenizer (PArray PBytes) (lit "[0a,b]]") = Err HexErr /\
  tokenize StrictTokenizer (PArray PBytes) (lit "[0a,bb]]") = Err InvalidData /\
  item_ranges 91 93 (lit "[0a]][[b]") = [(1, 3); (4, 8)]%nat /\ stray 91 93 (lit "[0a]][[b]") 4 = true /\
  tokenize StrictTokenizer (PArray PBytes) (lit "[0a]][[b]") = Err InvalidData /\
  tokenize StrictTokenizer (PFixedArray PBytes 2) (lit "[0a]") = Err InvalidData /\ tokenize StrictTokenizer (PFixedArray PBytes 2) (lit "[0a,b,0c]") = Err HexErr /\
  tokenize StrictTokenizer (PTuple [PBool; PBytes]) (lit "(true,b,c)") = Err HexErr /\ tokenize StrictTokenizer (PTuple [PBool; PBytes]) (lit "(true,0b,c)") = Err InvalidData.
Proof. vm_compute. repeat split. Qed.

(** Loading a contract fails only with an error of serde. *)
Theorem C76_load : forall p j e, load p j = Err e -> e = SerdeJson.
Proof. exact load_errors. Qed.
Print Assumptions C76_load.
Example C76_load_case : load Debug (JArr [JObj [(lit "type", JStr (lit "constructor"));
    (lit "inputs", JArr [JObj [(lit "name", JStr (lit "x")); (lit "type", JStr (lit "flag"))]])]]) = Err SerdeJson /\ load Debug (JArr [JNull]) = Err SerdeJson.
Proof. vm_compute. auto. Qed.

(** Reading a log fails as invalid, or, exactly if the topics of the inputs
    are missing or the data is, with the hint about empty data. *)
Theorem C76_log : forall p e log s, canonical_signature (e_name e) (map ep_kind (e_inputs e)) s ->
  forallb wf_type (map ep_kind (e_inputs e)) = true -> forallb topic_sized (map ep_kind (isel true (e_inputs e))) = true ->
  Forall (fun w => len w = 32) (rl_topics log) -> len (rl_topics log) < 2 ^ 57 -> fits (rl_data log) ->
  (forall x, parse_log p e log = Err x -> x = InvalidData \/ x = InvalidName empty_data_msg) /\
  (parse_log p e log = Err (InvalidName empty_data_msg) <->
   exists topics, rl_topics log = topics_prefix e s ++ topics /\
    ((topics = [] /\ ~ Forall (fun q => ep_kind q = PFixedBytes 0) (isel true (e_inputs e))) \/
     (exists ts, topics_read (map ep_kind (isel true (e_inputs e))) topics ts /\
       rl_data log = [] /\ ~ Forall may_be_empty (map ep_kind (isel false (e_inputs e)))))).
Proof. exact log_errors. Qed.
Print Assumptions C76_log.
Example C76_log_case : let e := mkEvent (lit "E") [mkEventParam (lit "a") PBool true; mkEventParam (lit "b") PBool false] true in
  parse_log Debug e (mkRawLog [] (word 1)) = Err (InvalidName empty_data_msg) /\ parse_log Debug e (mkRawLog [word 1] []) = Err (InvalidName empty_data_msg) /\
  parse_log Debug e (mkRawLog [word (2 ^ 200)] []) = Err InvalidData /\ parse_log Debug e (mkRawLog [word 1; word 1] (word 1)) = Err InvalidData /\
  is_ok (parse_log Debug e (mkRawLog [word 1] (word 1))) = true.
Proof. vm_compute. auto. Qed.

(** The program fails for a missing contract file exactly if it was told to
    read one that is missing, and with an error of serde exactly if that file
    holds no contract. *)
Theorem C76_missing_file : forall p files opt,
  execute p files opt = Err io_error <-> exists path, contract_path opt = Some path /\ files path = None.
Proof. exact missing_file. Qed.
Print Assumptions C76_missing_file.
Theorem C76_bad_file : forall p files opt, execute p files opt = Err SerdeJson <->
  exists path j, contract_path opt = Some path /\ files path = Some j /\ load p j = Err SerdeJson.
Proof. exact bad_file. Qed.
Print Assumptions C76_bad_file.
Example C76_file_case : let files := fun path => if str_eqb path (lit "bad.json") then Some (JArr [JNull]) else sample_files path in
  execute Debug files (EncodeFunction (lit "none.json") (lit "stop") [] false) = Err io_error /\
  execute Debug files (DecodeLog (lit "bad.json") (lit "stop") [] []) = Err SerdeJson /\
  is_ok (execute Debug files (EncodeFunction (lit "shop.json") (lit "stop") [] false)) = true /\
  execute Debug files (EncodeFunction (lit "shop.json") (lit "none") [] false) = Err (InvalidName (lit "none")).
Proof. vm_compute. auto. Qed.

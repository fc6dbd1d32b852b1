(** * Theorems: the command line program *)
From Verif Require Import Base Types AbiSpec TypeNames TypeNamesSpec Encoder Decoder Keccak Function FunctionFacts Tokenizer TokenSpec TokenTotal Event EventSpec
  Json JsonSpec Contract ContractSpec JsonSamples Cli CliSpec CliFacts CliCommands CliAccepts PrintSpec WrapSpec CliExact CliSamples.
From Coq Require Import String.
Local Open Scope N_scope.
Local Open Scope list_scope.

(** ** C43: a name or a signature selects the right entry. *)
(** By name: the only function with that name. *)
Theorem C43_function_name : forall p files path ops n f, abi_file files path ops -> plain_name n = true ->
  (load_function p files path n = Ok f <-> only_such (fun g => f_name g = n) (functions_of ops) f).
Proof. exact load_function_name. Qed.
Print Assumptions C43_function_name.
(** A name that is absent, or ambiguous, is reported as such. *)
Theorem C43_function_name_error : forall p files path ops n, abi_file files path ops -> plain_name n = true ->
  (load_function p files path n = Err (InvalidName n) <-> forall g, In g (functions_of ops) -> f_name g <> n) /\
  (load_function p files path n = Err (OtherErr (lit "More than one function found for name `" ++ n ++ lit "`, try providing the full signature")) <->
   exists l1 l2 l3 g1 g2, functions_of ops = l1 ++ g1 :: l2 ++ g2 :: l3 /\ f_name g1 = n /\ f_name g2 = n).
Proof. exact load_function_name_error. Qed.
Print Assumptions C43_function_name_error.
(** By signature: the first function whose full signature it is. *)
Theorem C43_function_signature : forall p files path ops s f, abi_file files path ops -> plain_name s = false ->
  (load_function p files path s = Ok f <-> first_such (fun g => full_signature g s) (functions_of ops) f).
Proof. exact load_function_signature. Qed.
Print Assumptions C43_function_signature.
Theorem C43_function_signature_error : forall p files path ops s0 rest, abi_file files path ops -> plain_name s0 = true ->
  let s := s0 ++ 40 :: rest in
  (load_function p files path s = Err (InvalidName s0) <-> forall g, In g (functions_of ops) -> f_name g <> s0) /\
  (load_function p files path s = Err (OtherErr (lit "invalid function signature `" ++ s ++ lit "`")) <->
   (exists g, In g (functions_of ops) /\ f_name g = s0) /\ forall g, In g (functions_of ops) -> ~ full_signature g s).
Proof. exact load_function_absent. Qed.
Print Assumptions C43_function_signature_error.
Example C43_function_case : abi_file sample_files (lit "shop.json") sample_operations /\
  plain_name (lit "stop") = true /\ is_ok (load_function Debug sample_files (lit "shop.json") (lit "stop")) = true /\
  plain_name (lit "pay") = true /\ is_ok (load_function Debug sample_files (lit "shop.json") (lit "pay")) = false /\
  plain_name pay_address = false /\ is_ok (load_function Debug sample_files (lit "shop.json") pay_address) = true /\
  load_function Debug sample_files (lit "shop.json") pay_nothing = Ok (mkFunction (lit "pay") [] [] false View) /\
  is_ok (load_function Debug sample_files (lit "shop.json") (lit "pay(address)")) = false.
Proof. split; [exact sample_file|]. vm_compute. auto 10. Qed.
Theorem C43_event_name : forall p files path ops n e, abi_file files path ops -> plain_name n = true ->
  (load_event p files path n = Ok e <-> only_such (fun g => e_name g = n) (events_of ops) e).
Proof. exact load_event_name. Qed.
Print Assumptions C43_event_name.
Theorem C43_event_name_error : forall p files path ops n, abi_file files path ops -> plain_name n = true ->
  (load_event p files path n = Err (InvalidName n) <-> forall g, In g (events_of ops) -> e_name g <> n) /\
  (load_event p files path n = Err (OtherErr (lit "More than one function found for name `" ++ n ++ lit "`, try providing the full signature")) <->
   exists l1 l2 l3 g1 g2, events_of ops = l1 ++ g1 :: l2 ++ g2 :: l3 /\ e_name g1 = n /\ e_name g2 = n).
Proof. exact load_event_name_error. Qed.
Print Assumptions C43_event_name_error.
(** By signature: the first event with that name whose topic is the hash of the
    text without blanks. *)
Theorem C43_event_signature : forall p files path ops s0 rest e, abi_file files path ops -> plain_name s0 = true ->
  (load_event p files path (s0 ++ 40 :: rest) = Ok e <->
   first_such (fun g => e_name g = s0 /\ event_hash g (keccak256 (utf8 (unspaced (s0 ++ 40 :: rest))))) (events_of ops) e).
Proof. exact load_event_signature. Qed.
Print Assumptions C43_event_signature.
Theorem C43_event_signature_error : forall p files path ops s0 rest, abi_file files path ops -> plain_name s0 = true ->
  let s := s0 ++ 40 :: rest in let h := keccak256 (utf8 (unspaced s)) in
  (load_event p files path s = Err (InvalidName s0) <-> forall g, In g (events_of ops) -> e_name g <> s0) /\
  (load_event p files path s = Err (OtherErr (lit "Invalid signature `0x" ++ hex_encode (firstn 2 h) ++ [8230] ++ hex_encode (skipn 30 h) ++ lit "`")) <->
   (exists g, In g (events_of ops) /\ e_name g = s0) /\ forall g, In g (events_of ops) -> e_name g = s0 -> ~ event_hash g h).
Proof. exact load_event_absent. Qed.
Print Assumptions C43_event_signature_error.
(** The canonical signature of an event of the file, blanks allowed, finds an
    event with that name and those types, unless two signatures collide. *)
Theorem C43_event_found : forall p files path ops s e, abi_file files path ops -> In e (events_of ops) -> event_canonical e (unspaced s) ->
  (exists rest, s = e_name e ++ 40 :: rest) ->
  (forall g a, In g (events_of ops) -> event_canonical g a -> keccak256 (utf8 a) = keccak256 (utf8 (unspaced s)) -> a = unspaced s) ->
  exists e', load_event p files path s = Ok e' /\ In e' (events_of ops) /\ e_name e' = e_name e /\ map ep_kind (e_inputs e') = map ep_kind (e_inputs e).
Proof. exact load_event_found. Qed.
Print Assumptions C43_event_found.
Example C43_event_case : abi_file sample_files (lit "shop.json") sample_operations /\
  is_ok (load_event Debug sample_files (lit "shop.json") (lit "Sold")) = true /\
  is_ok (load_event Debug sample_files (lit "shop.json") (lit "Sold(address, (uint256, string[2])[])")) = true /\
  is_ok (load_event Debug sample_files (lit "shop.json") (lit "Sold(address)")) = false.
Proof. split; [exact sample_file|]. vm_compute. auto. Qed.
(** [unreachable!()] is not reached: if loading the file does not panic,
    selecting does not. *)
Theorem C43_no_panic : forall p files path n, (forall j, files path = Some j -> load p j <> Panic) ->
  load_function p files path n <> Panic /\ load_event p files path n <> Panic.
Proof. exact load_calm. Qed.
Print Assumptions C43_no_panic.
Example C43_no_panic_case : load Debug sample_json <> Panic.
Proof. vm_compute. discriminate. Qed.

(** ** C44: encode function uses the supplied values. *)
(** Too few values fail.  Missing: too many fail; they do not, see
    C44_refuted.  The values beyond the inputs have no effect. *)
Theorem C44_enough_partial : forall p files path n values lenient out, cli_encode_input p files path n values lenient = Ok out ->
  exists f, load_function p files path n = Ok f /\ (List.length (f_inputs f) <= List.length values)%nat /\
  forall values', firstn (List.length (f_inputs f)) values' = firstn (List.length (f_inputs f)) values ->
    cli_encode_input p files path n values' lenient = Ok out.
Proof. exact enough_values. Qed.
Print Assumptions C44_enough_partial.
Definition one_address : str := lit "1111111111111111111111111111111111111111".
Example C44_case : 
  is_ok (cli_encode_input Debug sample_files (lit "shop.json") pay_address [one_address] false) = true /\
  is_ok (cli_encode_input Debug sample_files (lit "shop.json") pay_address [] false) = false.
Proof. vm_compute. auto. Qed.
Theorem C44_refuted : forall p, exists out, cli_encode_input p sample_files (lit "shop.json") (lit "stop") [] false = Ok out /\
  cli_encode_input p sample_files (lit "shop.json") (lit "stop") [lit "not"; lit "used"] false = Ok out.
Proof. intros p. eexists. destruct p; split; vm_compute; reflexivity. Qed.
Print Assumptions C44_refuted.
(** What release builds accept, exactly: a function that loads, a value for each input, and each such value a text of its input's type. *)
Theorem C44_exact : forall files path n values lenient, forallb wf_str values = true ->
  (exists out, execute Release files (EncodeFunction path n values lenient) = Ok out) <->
  exists f vs, load_function Release files path n = Ok f /\ (List.length (f_inputs f) <= List.length values)%nat /\
    texts_denote lenient (map p_kind (f_inputs f)) values vs.
Proof. exact encode_function_accepts. Qed.
Print Assumptions C44_exact.
(** Both sides hold for one address, and neither for a text that is not an address. *)
Example C44_exact_case : forallb wf_str [one_address] = true /\ forallb wf_str [lit "beef"] = true /\
  is_ok (execute Release sample_files (EncodeFunction (lit "shop.json") pay_address [one_address] false)) = true /\
  is_ok (execute Release sample_files (EncodeFunction (lit "shop.json") pay_address [lit "beef"] false)) = false.
Proof. vm_compute. auto. Qed.

(** What is printed, for values of any size in release builds and of less than
    32 MiB in all builds. *)
Theorem C44_output : forall files p path n values lenient out, forallb wf_str values = true ->
  p = Release \/ texts_size values < 2 ^ 25 ->
  (execute p files (EncodeFunction path n values lenient) = Ok out <->
   exists f vs s, load_function p files path n = Ok f /\ (List.length (f_inputs f) <= List.length values)%nat /\
    texts_denote lenient (map p_kind (f_inputs f)) values vs /\ canonical_signature (f_name f) (map p_kind (f_inputs f)) s /\
    lower_hex_text out (firstn 4 (keccak256 (utf8 s)) ++ encoding32 vs)).
Proof. exact encode_function_exact. Qed.
Print Assumptions C44_output.
Example C44_output_case : texts_size [one_address] < 2 ^ 25 /\
  is_ok (execute Debug sample_files (EncodeFunction (lit "shop.json") pay_address [one_address] false)) = true.
Proof. vm_compute. auto. Qed.

(** ** C55: the encode commands print the ABI encoding. *)
Theorem C55_function : forall p files path n f values lenient vs s,
  load_function p files path n = Ok f -> texts_denote lenient (map p_kind (f_inputs f)) values vs ->
  canonical_signature (f_name f) (map p_kind (f_inputs f)) s ->
  forallb solidity_type (map p_kind (f_inputs f)) = true -> have_types vs (map p_kind (f_inputs f)) = true ->
  forallb short_arrays vs = true -> enc_size (PTuple (map p_kind (f_inputs f))) (TTuple vs) < two32 ->
  exists out, execute p files (EncodeFunction path n values lenient) = Ok out /\
  hex_text out (firstn 4 (keccak256 (utf8 s)) ++ abi_encode (map p_kind (f_inputs f)) vs).
Proof. exact encode_function_prints. Qed.
Print Assumptions C55_function.
Theorem C55_params : forall p files names ts texts lenient vs,
  Forall2 (fun n t => read p n = Ok t) names ts -> List.length texts = List.length names -> texts_denote lenient ts texts vs ->
  forallb solidity_type ts = true -> have_types vs ts = true ->
  forallb short_arrays vs = true -> enc_size (PTuple ts) (TTuple vs) < two32 ->
  exists out, execute p files (EncodeParams (flatten (combine names texts)) lenient) = Ok out /\ hex_text out (abi_encode ts vs).
Proof. exact encode_params_prints. Qed.
Print Assumptions C55_params.
(** What release builds accept, exactly: names and texts in turn, each name read and each text one of that type.  No limit on sizes. *)
Theorem C55_params_exact : forall files params lenient, forallb wf_str params = true ->
  (exists out, execute Release files (EncodeParams params lenient) = Ok out) <->
  exists names ts texts vs, params = flatten (combine names texts) /\ List.length texts = List.length names /\
    Forall2 (fun n t => read Release n = Ok t) names ts /\ texts_denote lenient ts texts vs.
Proof. exact encode_params_accepts. Qed.
Print Assumptions C55_params_exact.
Example C55_params_exact_case : let good := [lit "uint8"; lit "300"; lit "bytes"; lit "beef"] in
  forallb wf_str good = true /\ is_ok (execute Release sample_files (EncodeParams good true)) = true /\
  is_ok (execute Release sample_files (EncodeParams (good ++ [lit "bool"]) true)) = false /\
  is_ok (execute Release sample_files (EncodeParams (good ++ [lit "bool"; lit "2"]) true)) = false.
Proof. vm_compute. auto. Qed.
(** What is printed, as in C44_output. *)
Theorem C55_output : forall files p params lenient out, forallb wf_str params = true ->
  p = Release \/ texts_size params < 2 ^ 25 ->
  (execute p files (EncodeParams params lenient) = Ok out <->
   exists names ts texts vs, params = flatten (combine names texts) /\ List.length texts = List.length names /\
    Forall2 (fun n t => read p n = Ok t) names ts /\ texts_denote lenient ts texts vs /\ lower_hex_text out (encoding32 vs)).
Proof. exact encode_params_exact. Qed.
Print Assumptions C55_output.
Example C55_output_case : let params := [lit "uint8"; lit "300"; lit "bool"; lit "1"] in
  forallb wf_str params = true /\ texts_size params < 2 ^ 25 /\
  execute Debug sample_files (EncodeParams params true) = Ok (hex_encode (word 300 ++ word 1)).
Proof. vm_compute. auto. Qed.
(** The command of the README and of the tests (main.rs:264, 272-295). *)
Example C55_case : let names := [lit "address"; lit "uint8[]"] in let texts := [one_address; lit "[7,255]"] in
  let ts := [PAddress; PArray (PUint 8)] in let vs := [TAddress (repeat x11 20); TArray [TUint 7; TUint 255]] in
  Forall2 (fun n t => read Debug n = Ok t) names ts /\ texts_denote true ts texts vs /\ have_types vs ts = true /\
  forallb short_arrays vs = true /\ enc_size (PTuple ts) (TTuple vs) < two32 /\
  flatten (combine names texts) = [lit "address"; one_address; lit "uint8[]"; lit "[7,255]"].
Proof.
  cbv zeta. split; [repeat constructor|]. split; [apply Forall2_cons; [vm_compute; reflexivity|]; apply Forall2_cons; [vm_compute; reflexivity|constructor]|].
  vm_compute. auto.
Qed.

(** ** C56: decode params undoes encode params. *)
Theorem C56_round_trip : forall p files names ts texts lenient vs canon,
  Forall2 (fun n t => read p n = Ok t) names ts -> Forall2 type_name ts canon ->
  List.length texts = List.length names -> texts_denote lenient ts texts vs ->
  forallb solidity_type ts = true -> have_types vs ts = true ->
  forallb short_arrays vs = true -> enc_size (PTuple ts) (TTuple vs) < two32 -> forallb zero_size ts = false \/ ts = [] ->
  exists out, execute p files (EncodeParams (flatten (combine names texts)) lenient) = Ok out /\
  execute p files (DecodeParams names out) = Ok (lines (combine canon (map display vs))).
Proof. exact decode_params_round. Qed.
Print Assumptions C56_round_trip.
(** "uint" is read as uint256 and printed as such. *)
Example C56_case : execute Debug sample_files (EncodeParams [lit "uint"; lit "10"; lit "bytes"; lit "beef"] true) =
    Ok (hex_encode (word 10 ++ word 64 ++ word 2 ++ [xbe; xef] ++ zeros 30)) /\
  execute Debug sample_files (DecodeParams [lit "uint"; lit "bytes"] (hex_encode (word 10 ++ word 64 ++ word 2 ++ [xbe; xef] ++ zeros 30))) =
    Ok (lines [(lit "uint256", lit "a"); (lit "bytes", lit "beef")]) /\
  read Debug (lit "uint") = Ok (PUint 256) /\ type_name (PUint 256) (lit "uint256").
Proof. split; [vm_compute; reflexivity|]. split; [vm_compute; reflexivity|]. split; [vm_compute; reflexivity|]. apply type_name_iff. reflexivity. Qed.

(** ** C57: what the decode commands print, and when they panic. *)
Theorem C57_params : forall p files names text out, len text < 2 ^ 63 ->
  (execute p files (DecodeParams names text) = Ok out <->
   exists ts data vs canon, Forall2 (fun n t => read p n = Ok t) names ts /\ hex_text text data /\
     decode p ts data = Ok vs /\ Forall2 type_name ts canon /\ out = lines (combine canon (map display vs))).
Proof. exact decode_params_iff. Qed.
Print Assumptions C57_params.
Theorem C57_function : forall p files path n text out, len text < 2 ^ 63 ->
  (execute p files (DecodeFunction path n text) = Ok out <->
   exists f data vs canon, load_function p files path n = Ok f /\ hex_text text data /\
     decode p (map p_kind (f_outputs f)) data = Ok vs /\ Forall2 type_name (map p_kind (f_outputs f)) canon /\
     out = lines (combine canon (map display vs))).
Proof. exact decode_function_iff. Qed.
Print Assumptions C57_function.
(** decode log prints exactly the parameters of a log that parses. *)
Theorem C57_log : forall p files path n texts text out,
  execute p files (DecodeLog path n texts text) = Ok out <->
  exists e topics data l, load_event p files path n = Ok e /\ Forall2 loose_topic_text texts topics /\ hex_text text data /\
    parse_log p e (mkRawLog topics data) = Ok l /\ out = lines (map (fun x => (lp_name x, display (lp_value x))) (l_params l)).
Proof. exact decode_log_iff. Qed.
Print Assumptions C57_log.
(** The assertions that there are as many tokens as types never fail: a panic
    comes from the reader, the loader or the decoder. *)
Theorem C57_params_assert : forall p files names text, len text < 2 ^ 63 -> execute p files (DecodeParams names text) = Panic ->
  (exists n, In n names /\ read p n = Panic) \/
  exists ts data, Forall2 (fun n t => read p n = Ok t) names ts /\ hex_text text data /\ decode p ts data = Panic.
Proof. exact decode_params_panic. Qed.
Print Assumptions C57_params_assert.
Theorem C57_function_assert : forall p files path n text, len text < 2 ^ 63 -> execute p files (DecodeFunction path n text) = Panic ->
  load_function p files path n = Panic \/
  exists f data, load_function p files path n = Ok f /\ hex_text text data /\ decode p (map p_kind (f_outputs f)) data = Panic.
Proof. exact decode_function_panic. Qed.
Print Assumptions C57_function_assert.
(** The assertion of [encode_params] fails on every odd number of arguments;
    the argument parser lets only even numbers through. *)
Theorem C57_odd : forall p files params lenient, Nat.odd (List.length params) = true -> execute p files (EncodeParams params lenient) = Panic.
Proof. exact odd_params. Qed.
Print Assumptions C57_odd.
Example C57_case :
  execute Release sample_files (DecodeFunction (lit "shop.json") pay_address (hex_encode (word 1))) = Ok (lit "bool true") /\
  execute Release sample_files (DecodeParams [lit "]"] []) = Panic /\
  execute Release sample_files (EncodeParams [lit "bool"] true) = Panic.
Proof. vm_compute. auto. Qed.
Example C57_log_case : let log t2 := DecodeLog (lit "shop.json") (lit "Sold") [hex_encode (keccak256 (utf8 (lit "Sold(address,(uint256,string[2])[])"))); t2]
    (hex_encode (abi_encode [PArray (PTuple [PUint 256; PFixedArray PString 2])] [TArray []])) in
  execute Debug sample_files (log (lit "0x " ++ hex_encode (zeros 12) ++ lit " " ++ hex_encode (repeat x11 20))) =
    Ok (lines [(lit "who", one_address); (lit "items", lit "[]")]) /\
  execute Debug sample_files (log (hex_encode (zeros 11 ++ repeat x11 20))) = Err HexErr.
Proof. vm_compute. auto. Qed.

(** ** C58: decode log prints the inputs of an emitted event. *)
Theorem C58_log : forall p files path n e texts topics text vs data,
  load_event p files path n = Ok e -> Forall2 topic_text texts topics -> hex_text text data ->
  emits e vs (mkRawLog topics data) ->
  have_types vs (map ep_kind (e_inputs e)) = true -> NoDup (map ep_name (e_inputs e)) ->
  forallb wf_type (map ep_kind (e_inputs e)) = true -> forallb solidity_type (map ep_kind (e_inputs e)) = true ->
  forallb short_arrays vs = true -> len (e_inputs e) < 2 ^ 56 ->
  enc_size (PTuple (map ep_kind (isel false (e_inputs e)))) (TTuple (values_of (select false (e_inputs e) vs))) < two32 ->
  forallb zero_size (map ep_kind (isel false (e_inputs e))) = false \/ isel false (e_inputs e) = [] ->
  execute p files (DecodeLog path n texts text) =
    Ok (lines (map (fun x => (ep_name (fst x), display (visible (fst x) (snd x)))) (combine (e_inputs e) vs))).
Proof. exact decode_log_prints. Qed.
Print Assumptions C58_log.
Example C58_case : let e := mkEvent (lit "Sold") [mkEventParam (lit "who") PAddress true;
     mkEventParam (lit "items") (PArray (PTuple [PUint 256; PFixedArray PString 2])) false] false in
  let vs := [TAddress (repeat x11 20); TArray [TTuple [TUint 9; TFixedArray [TString (lit "a"); TString (lit "b")]]]] in
  let topics := [keccak256 (utf8 (lit "Sold(address,(uint256,string[2])[])")); zeros 12 ++ repeat x11 20] in
  let data := abi_encode [PArray (PTuple [PUint 256; PFixedArray PString 2])] (tl vs) in
  load_event Debug sample_files (lit "shop.json") (lit "Sold") = Ok e /\ emits e vs (mkRawLog topics data) /\
  have_types vs (map ep_kind (e_inputs e)) = true /\
  execute Debug sample_files (DecodeLog (lit "shop.json") (lit "Sold") [lit "0x" ++ hex_encode (hd [] topics); hex_encode (nth 1 topics [])] (hex_encode data)) =
    Ok (lines [(lit "who", one_address); (lit "items", lit "[(9,[a,b])]")]).
Proof.
  cbv zeta. split; [vm_compute; reflexivity|]. split; [|split; vm_compute; reflexivity]. split; [|vm_compute; reflexivity].
  exists (lit "Sold(address,(uint256,string[2])[])"). split; [apply canonical_iff; reflexivity|vm_compute; reflexivity].
Qed.

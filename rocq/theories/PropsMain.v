(** * Theorems: the program, from its arguments and the bytes of its files *)
From Verif Require Import Base Utf8 Types AbiSpec TypeNames TypeNamesSpec Function FunctionFacts Tokenizer TokenSpec Json Contract JsonText Cli CliSpec CliFacts TokenFacts CliCommands
  Args ArgsSpec ArgsFacts RepoTestsMain.
From Coq Require Import String.
Local Open Scope N_scope.
Local Open Scope list_scope.

(** ** C68: which command lines the program accepts, and what they mean. *)
(** Exactly the lines of the grammar, with the meaning it gives them. *)
Theorem C68_exact : forall args opt, from_iter args = Some opt <-> command_line args opt.
Proof. exact from_iter_exact. Qed.
Print Assumptions C68_exact.
(** Positional arguments, flags and options in any order. *)
Theorem C68_encode_function : forall prog xs path name (b : bool), Forall (piece_ok 1 false true) xs ->
  List.concat (map piece_positionals xs) = [path; name] -> list_sum (map piece_flags xs) = (if b then 1 else 0)%nat ->
  from_iter (prog :: lit "encode" :: lit "function" :: List.concat (map (piece_text 112) xs)) =
    Some (EncodeFunction path name (List.concat (map piece_values xs)) b).
Proof. exact pieces_encode_function. Qed.
Print Assumptions C68_encode_function.
Theorem C68_encode_params : forall prog xs (b : bool), Forall (piece_ok 2 true true) xs ->
  List.concat (map piece_positionals xs) = [] -> list_sum (map piece_flags xs) = (if b then 1 else 0)%nat ->
  from_iter (prog :: lit "encode" :: lit "params" :: List.concat (map (piece_text 118) xs)) =
    Some (EncodeParams (List.concat (map piece_values xs)) b).
Proof. exact pieces_encode_params. Qed.
Print Assumptions C68_encode_params.
Theorem C68_decode_params : forall prog xs data, Forall (piece_ok 1 false false) xs ->
  List.concat (map piece_positionals xs) = [data] ->
  from_iter (prog :: lit "decode" :: lit "params" :: List.concat (map (piece_text 116) xs)) =
    Some (DecodeParams (List.concat (map piece_values xs)) data).
Proof. exact pieces_decode_params. Qed.
Print Assumptions C68_decode_params.
Theorem C68_decode_log : forall prog xs path name data, Forall (piece_ok 1 false false) xs ->
  List.concat (map piece_positionals xs) = [path; name; data] ->
  from_iter (prog :: lit "decode" :: lit "log" :: List.concat (map (piece_text 108) xs)) =
    Some (DecodeLog path name (List.concat (map piece_values xs)) data).
Proof. exact pieces_decode_log. Qed.
Print Assumptions C68_decode_log.
Theorem C68_decode_function : forall prog path name data, bare path -> bare name -> bare data ->
  from_iter [prog; lit "decode"; lit "function"; path; name; data] = Some (DecodeFunction path name data).
Proof. exact words_decode_function. Qed.
Print Assumptions C68_decode_function.
Example C68_pieces_case :
  let xs := [Option [lit "1"]; Positional (lit "a.json"); Flag true; Option [lit "-"]; Positional (lit "f")] in
  Forall (piece_ok 1 false true) xs /\ List.concat (map piece_positionals xs) = [lit "a.json"; lit "f"] /\ list_sum (map piece_flags xs) = 1%nat /\
  from_iter (words [] (lit "ethabi encode function -p 1 a.json --lenient -p - f")) = Some (EncodeFunction (lit "a.json") (lit "f") [lit "1"; lit "-"] true) /\
  from_iter (words [] (lit "ethabi decode log -l 00 a.json E -l 01 02")) = Some (DecodeLog (lit "a.json") (lit "E") [lit "00"; lit "01"] (lit "02")).
Proof.
  cbv zeta. split; [|vm_compute; auto].
  repeat constructor; try (right; intros y r' E; discriminate E); intros y r' E; discriminate E.
Qed.
(** Every request can be made, whatever its texts look like, if the number of
    types and values is even; a line never gives an odd one, so that the
    assertion of [encode_params] (C57_odd) does not fail when the program runs. *)
Theorem C68_expressible : forall opt prog, match opt with EncodeParams ps _ => Nat.even (List.length ps) = true | _ => True end ->
  exists args, from_iter (prog :: args) = Some opt.
Proof. exact expressible. Qed.
Print Assumptions C68_expressible.
Theorem C68_even : forall args ps b, from_iter args = Some (EncodeParams ps b) -> Nat.even (List.length ps) = true.
Proof. exact even_params. Qed.
Print Assumptions C68_even.
Example C68_expressible_case :
  from_iter (words [] (lit "ethabi encode function -p=-5 -p=--lenient -l -- -x.json --")) = Some (EncodeFunction (lit "-x.json") (lit "--") [lit "-5"; lit "--lenient"] true) /\
  from_iter (words [] (lit "ethabi encode params -v int256 -5 -v string --lenient")) = Some (EncodeParams [lit "int256"; lit "-5"; lit "string"; lit "--lenient"] false) /\
  from_iter (words [] (lit "ethabi encode params -v int256")) = None.
Proof. vm_compute. auto. Qed.
(** A file is read as the bytes of a JSON text. *)
Theorem C68_files : forall p disk path, open_contract p (trees disk) path =
  match disk path with None => Err (OtherErr (lit "io error")) | Some l => load_bytes p l end.
Proof. exact open_bytes. Qed.
Print Assumptions C68_files.
Example C68_files_case : is_ok (open_contract Debug (trees disk) (lit "../res/test.abi")) = true /\
  open_contract Debug (trees (fun _ => Some (utf8 (lit "[] x")))) (lit "a") = Err SerdeJson /\
  open_contract Debug (trees (fun _ => None)) (lit "a") = Err (OtherErr (lit "io error")).
Proof. vm_compute. auto. Qed.
(** End to end: encode params prints the encoding of the values, and decode
    params prints them again. *)
Theorem C68_round : forall p disk prog prog' names ts texts (lenient : bool) vs canon,
  Forall2 (fun n t => read p n = Ok t) names ts -> Forall2 type_name ts canon -> Forall bare names ->
  List.length texts = List.length names -> texts_denote lenient ts texts vs ->
  forallb solidity_type ts = true -> have_types vs ts = true ->
  forallb short_arrays vs = true -> enc_size (PTuple ts) (TTuple vs) < two32 -> forallb zero_size ts = false \/ ts = [] ->
  exists out, hex_text out (abi_encode ts vs) /\
  main p disk (prog :: lit "encode" :: lit "params" :: flat_map (fun x => [lit "-v"; fst x; snd x]) (combine names texts) ++
    (if lenient then [lit "--lenient"] else [])) = Some (Ok out) /\
  main p disk (prog' :: lit "decode" :: lit "params" :: flat_map (fun n => [lit "-t"; n]) names ++ [out]) =
    Some (Ok (lines (combine canon (map display vs)))).
Proof. exact params_round. Qed.
Print Assumptions C68_round.
Example C68_round_case :
  let names := [lit "int256"; lit "uint8[]"] in let ts := [PInt 256; PArray (PUint 8)] in
  let texts := [lit "-2"; lit "[1,2]"] in
  Forall2 (fun n t => read Debug n = Ok t) names ts /\
  texts_denote true ts texts [TInt (two256 - 2); TArray [TUint 1; TUint 2]] /\
  main Debug disk (words [] (lit "ethabi encode params -v int256 -2 -v uint8[] [1,2] --lenient")) =
    Some (Ok (hex_encode (abi_encode ts [TInt (two256 - 2); TArray [TUint 1; TUint 2]]))).
Proof.
  cbv zeta. split; [repeat constructor|]. split; [|vm_compute; reflexivity].
  apply parse_tokens_iff. vm_compute. reflexivity.
Qed.
(** A negative value of [-p] ends the program although it is an argument of
    the function; [-p] without a value is no error before a flag. *)
Theorem C68_refuted : exists path name value,
  from_iter [lit "ethabi"; lit "encode"; lit "function"; path; name; lit "-p"; value; lit "--lenient"] = None /\
  from_iter [lit "ethabi"; lit "encode"; lit "function"; path; name; lit "-p=" ++ value; lit "--lenient"] =
    Some (EncodeFunction path name [value] true) /\
  from_iter [lit "ethabi"; lit "encode"; lit "function"; path; name; lit "-p"; lit "-l"] = Some (EncodeFunction path name [] true).
Proof. exists (lit "a.json"), (lit "f"), (lit "-5"). vm_compute. auto. Qed.
Print Assumptions C68_refuted.

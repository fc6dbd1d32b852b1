(** * The command line program: /repo/cli/src/main.rs

    The file system is a function [files] from paths to the JSON tree that the
    file holds ([None]: cannot be opened).  Reading the text of the files and
    parsing the argument vector (structopt, main.rs:78) are in JsonText.v and
    Args.v: [Opt] is the result of the latter, here any lists of strings. *)
From Verif Require Import Base Types TypeNames Encoder Decoder Keccak Function Tokenizer Event Json Contract.
From Coq Require Import String.
Set Implicit Arguments.
Local Open Scope N_scope.
Local Open Scope list_scope.

(** main.rs:13-65 *)
Inductive Opt :=
| EncodeFunction (abi_path function_name_or_signature : str) (params : list str) (lenient : bool)
| EncodeParams (params : list str) (lenient : bool)
| DecodeFunction (abi_path function_name_or_signature data : str)
| DecodeParams (types : list str) (data : str)
| DecodeLog (abi_path event_name_or_signature : str) (topics : list str) (data : str).

(** main.rs:248-250.  [sig.replace(" ", "")]; [Hash::from_slice] panics unless
    given 32 bytes. *)
Definition hash_signature (sig : str) : res hash :=
  copy_from_slice 32 (keccak256 (utf8 (filter (fun c => negb (c =? 32)) sig))).

(** [t.parse::<Hash>()] (crates fixed-hash 0.7 and rustc-hex 2): an optional
    "0x", then pairs of hex digits, blanks between digits being skipped; there
    must be exactly 32 pairs. *)
Definition parse_hash (t : str) : res hash :=
  let t := match t with 48 :: 120 :: t' => t' | _ => t end in
  do b <- hex_decode (filter (fun c => negb ((c =? 32) || (c =? 13) || (c =? 10) || (c =? 9))) t);
  if len b =? 32 then Ok b else Err HexErr.

(** [iter.tuples::<(_, _)>()] (crate itertools): an odd last item is dropped. *)
Fixpoint pairs {A} (l : list A) : list (A * A) :=
  match l with
  | x :: y :: l' => (x, y) :: pairs l'
  | _ => []
  end.

Section Cli.
Context (p : profile) (files : str -> option json).

(** [File::open(path)?] and [Contract::load(file)?]: main.rs:96-97, 129-130 *)
Definition open_contract (path : str) : res Contract :=
  match files path with
  | None => Err (OtherErr (lit "io error"))
  | Some j => load p j
  end.

(** [iter().find(|f| test(f))] with a test that may fail *)
Fixpoint findM {A} (test : A -> res bool) (l : list A) : res (option A) :=
  match l with
  | [] => Ok None
  | x :: l' => do b <- test x; if b then Ok (Some x) else findM test l'
  end.

(** main.rs:120-123 and 153-156 *)
Definition more_than_one (name : str) : err :=
  OtherErr (lit "More than one function found for name `" ++ name ++ lit "`, try providing the full signature").
(** [Display for H256] (crate fixed-hash 0.7): the first and last two bytes
    around an ellipsis. *)
Definition display_hash (h : hash) : str := lit "0x" ++ hex_encode (firstn 2 h) ++ [8230] ++ hex_encode (skipn 30 h).
(** main.rs:95-126 *)
Definition load_function (path name_or_signature : str) : res Function :=
  do contract <- open_contract path;
  match str_find name_or_signature 40 with
  | Some params_start =>
    do name <- str_slice name_or_signature 0 params_start;
    do functions <- functions_by_name contract name;
    match find (fun f => str_eqb (signature f) name_or_signature) functions with
    | Some f => Ok f
    | None => Err (OtherErr (lit "invalid function signature `" ++ name_or_signature ++ lit "`"))
    end
  | None =>
    do functions <- functions_by_name contract name_or_signature;
    match functions with
    | [] => Panic
    | [f] => Ok f
    | _ => Err (more_than_one name_or_signature)
    end
  end.

(** main.rs:128-159 *)
Definition load_event (path name_or_signature : str) : res Event :=
  do contract <- open_contract path;
  match str_find name_or_signature 40 with
  | Some params_start =>
    do name <- str_slice name_or_signature 0 params_start;
    do signature <- hash_signature name_or_signature;
    do events <- events_by_name contract name;
    do found <- findM (fun e => do s <- event_signature e; Ok (bytes_eqb s signature)) events;
    match found with
    | Some e => Ok e
    | None => Err (OtherErr (lit "Invalid signature `" ++ display_hash signature ++ lit "`"))
    end
  | None =>
    do events <- events_by_name contract name_or_signature;
    match events with
    | [] => Panic
    | [e] => Ok e
    | _ => Err (more_than_one name_or_signature)
    end
  end.

(** main.rs:161-170 *)
Definition parse_tokens (params : list (ParamType * str)) (lenient : bool) : res (list Token) :=
  mapM (fun x => tokenize (if lenient then LenientTokenizer else StrictTokenizer) (fst x) (snd x)) params.

(** main.rs:172-182 *)
Definition cli_encode_input (path name_or_signature : str) (values : list str) (lenient : bool) : res str :=
  do function <- load_function path name_or_signature;
  do tokens <- parse_tokens (combine (map p_kind (f_inputs function)) values) lenient;
  do result <- encode_input p function tokens;
  Ok (hex_encode result).

(** main.rs:184-197 *)
Definition encode_params (params : list str) (lenient : bool) : res str :=
  if negb (len params mod 2 =? 0) then Panic
  else
    do params <- mapM (fun x => do z <- read p (fst x); Ok (z, snd x)) (pairs params);
    do tokens <- parse_tokens params lenient;
    do result <- encode p tokens;
    Ok (hex_encode result).

(** main.rs:207-212 and 226-227: the output lines *)
Definition show_values (types : list ParamType) (tokens : list Token) : str :=
  join [10] (map (fun x => ptype_to_string (fst x) ++ lit " " ++ display (snd x)) (combine types tokens)).

(** main.rs:199-215 *)
Definition decode_call_output (path name_or_signature data : str) : res str :=
  do function <- load_function path name_or_signature;
  do data <- hex_decode data;
  do tokens <- decode_output p function data;
  if negb (len (f_outputs function) =? len tokens) then Panic
  else Ok (show_values (map p_kind (f_outputs function)) tokens).

(** main.rs:217-230 *)
Definition decode_params (types : list str) (data : str) : res str :=
  do types <- mapM (read p) types;
  do data <- hex_decode data;
  do tokens <- decode p types data;
  if negb (len types =? len tokens) then Panic
  else Ok (show_values types tokens).

(** main.rs:232-246 *)
Definition decode_log (path name_or_signature : str) (topics : list str) (data : str) : res str :=
  do event <- load_event path name_or_signature;
  do topics <- mapM parse_hash topics;
  do data <- hex_decode data;
  do decoded <- parse_log p event (mkRawLog topics data);
  Ok (join [10] (map (fun x => lp_name x ++ lit " " ++ display (lp_value x)) (l_params decoded))).

(** main.rs:73-93 *)
Definition execute (opt : Opt) : res str :=
  match opt with
  | EncodeFunction abi_path name params lenient => cli_encode_input abi_path name params lenient
  | EncodeParams params lenient => encode_params params lenient
  | DecodeFunction abi_path name data => decode_call_output abi_path name data
  | DecodeParams types data => decode_params types data
  | DecodeLog abi_path name topics data => decode_log abi_path name topics data
  end.
End Cli.

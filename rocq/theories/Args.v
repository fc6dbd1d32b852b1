(** * The argument vector: /repo/cli/src/main.rs:13-65, 78

    [Opt::from_iter] (crates structopt 0.3 and clap 2.33) for the commands,
    options and positional arguments that main.rs declares.  Of clap's parser
    ([Parser::get_matches_with] and [Validator::validate]) exactly what these
    declarations use is modelled.  Simplified: whenever clap prints something
    and ends the process (help, version, all errors) the result is [None]. *)
From Verif Require Import Base Cli JsonText Json Contract.
From Coq Require Import String.
Set Implicit Arguments.
Local Open Scope N_scope.
Local Open Scope list_scope.

Definition hyphen : char := 45.  (* '-' *)
Definition equals : char := 61.  (* '=' *)

(** One of the innermost commands: the letter of its option, how many values
    each use of the option takes ([number_of_values]), whether these may start
    with a hyphen ([allow_hyphen_values]), whether there is the flag
    [-l]/[--lenient], and the number of positional arguments. *)
Record command := mkCommand {
  c_letter : option char;
  c_values : nat;
  c_hyphens : bool;
  c_lenient : bool;
  c_positionals : nat }.

(** main.rs:25-34 *)
Definition encode_function_command := mkCommand (Some 112) 1 false true 2.
(** main.rs:36-45 *)
Definition encode_params_command := mkCommand (Some 118) 2 true true 0.
(** main.rs:51 *)
Definition decode_function_command := mkCommand None 1 false false 3.
(** main.rs:53-57 *)
Definition decode_params_command := mkCommand (Some 116) 1 false false 1.
(** main.rs:59-64 *)
Definition decode_log_command := mkCommand (Some 108) 1 false false 3.

(** What the parser has seen of a command: [needs] is
    [needs_val_of == ParseResult::Opt(_)], [trailing] is
    [AppSettings::TrailingValues]. *)
Record seen := mkSeen {
  needs : bool;
  trailing : bool;
  values : list str;
  lenients : nat;
  positionals : list str }.

(** [str::trim_start_matches], used by clap on options *)
Fixpoint trim_left (c : char) (s : str) : str :=
  match s with
  | x :: s' => if x =? c then trim_left c s' else s
  | [] => []
  end.
(** The part of a text before the first [c]. *)
Fixpoint before (c : char) (s : str) : str :=
  match s with
  | x :: s' => if x =? c then [] else x :: before c s'
  | [] => []
  end.

Section Parse.
Context (c : command).

(** [ArgMatcher::needs_more_vals] *)
Definition needs_more_vals (vals : list str) : bool := negb (Nat.eqb (Nat.modulo (List.length vals) (c_values c)) 0).

(** [Parser::add_val_to_arg] for the option *)
Definition add_val (st : seen) (v : str) : seen :=
  let vals := values st ++ [v] in
  mkSeen (needs_more_vals vals) (trailing st) vals (lenients st) (positionals st).

(** [Parser::is_new_arg].  After [ParseResult::ValuesDone] clap answers yes
    whatever the argument; that makes no difference to what follows. *)
Definition is_new_arg (st : seen) (arg : str) : bool :=
  if needs st && c_hyphens c then false
  else match arg with
       | x :: _ :: _ => x =? hyphen
       | _ => false
       end.

(** [Parser::parse_opt]; [val] is what follows the letter. *)
Definition parse_opt (st : seen) (val : str) : seen :=
  match val with
  | [] => mkSeen true (trailing st) (values st) (lenients st) (positionals st)
  | x :: _ =>
    let st' := add_val st (trim_left equals val) in
    mkSeen (negb (x =? equals) && needs st') (trailing st') (values st') (lenients st') (positionals st')
  end.

(** [Parser::parse_short_arg], without the hyphen: a run of letters of flags,
    and at most one letter of an option, the rest being its value. *)
Fixpoint parse_short (st : seen) (letters : str) : option seen :=
  match letters with
  | [] => Some (mkSeen false (trailing st) (values st) (lenients st) (positionals st))
  | x :: letters' =>
    if match c_letter c with Some o => x =? o | None => false end then Some (parse_opt st letters')
    else if c_lenient c && (x =? 108)
    then parse_short (mkSeen (needs st) (trailing st) (values st) (S (lenients st)) (positionals st)) letters'
    else None
  end.

(** [Parser::parse_long_arg]: a flag may be given a value, which is ignored. *)
Definition parse_long (st : seen) (arg : str) : option seen :=
  if c_lenient c && str_eqb (before equals (trim_left hyphen arg)) (lit "lenient")
  then Some (mkSeen false (trailing st) (values st) (S (lenients st)) (positionals st))
  else None.

(** One iteration of the loop of [Parser::get_matches_with]. *)
Definition parse_arg (st : seen) (arg : str) : option seen :=
  let positional :=
    if Nat.ltb (List.length (positionals st)) (c_positionals c)
    then Some (mkSeen (needs st) (trailing st) (values st) (lenients st) (positionals st ++ [arg]))
    else None in
  if trailing st then positional
  else if is_new_arg st arg then
    if str_eqb arg (lit "--") then Some (mkSeen (needs st) true (values st) (lenients st) (positionals st))
    else if starts_with arg (lit "--") then parse_long st arg
    else parse_short st (skipn 1 arg)
  else if needs st then Some (add_val st arg)
  else positional.

(** [Parser::get_matches_with], all of the arguments *)
Fixpoint parse_loop (st : seen) (args : list str) : option seen :=
  match args with
  | [] => Some st
  | arg :: args' => match parse_arg st arg with Some st' => parse_loop st' args' | None => None end
  end.

(** [Validator::validate]: an option that waits for its first value, missing
    positional arguments, a wrong number of values, a repeated flag. *)
Definition validate (st : seen) : bool :=
  negb (needs st && match values st with [] => true | _ => false end) &&
  Nat.eqb (List.length (positionals st)) (c_positionals c) &&
  negb (needs_more_vals (values st)) &&
  Nat.leb (lenients st) 1.

(** The arguments of one command: main.rs:22-65 *)
Definition parse_command (args : list str) : option (list str * bool * list str) :=
  match parse_loop (mkSeen false false [] O []) args with
  | Some st => if validate st then Some (values st, Nat.eqb (lenients st) 1, positionals st) else None
  | None => None
  end.
End Parse.

(** The commands inside [encode] and [decode]. *)
Definition parse_encode (name : str) (args : list str) : option Opt :=
  if str_eqb name (lit "function") then
    match parse_command encode_function_command args with
    | Some (params, lenient, [abi_path; function]) => Some (EncodeFunction abi_path function params lenient)
    | _ => None
    end
  else if str_eqb name (lit "params") then
    match parse_command encode_params_command args with
    | Some (params, lenient, []) => Some (EncodeParams params lenient)
    | _ => None
    end
  else None.
(** main.rs:47-65 *)
Definition parse_decode (name : str) (args : list str) : option Opt :=
  if str_eqb name (lit "function") then
    match parse_command decode_function_command args with
    | Some (_, _, [abi_path; function; data]) => Some (DecodeFunction abi_path function data)
    | _ => None
    end
  else if str_eqb name (lit "params") then
    match parse_command decode_params_command args with
    | Some (types, _, [data]) => Some (DecodeParams types data)
    | _ => None
    end
  else if str_eqb name (lit "log") then
    match parse_command decode_log_command args with
    | Some (topics, _, [abi_path; event; data]) => Some (DecodeLog abi_path event topics data)
    | _ => None
    end
  else None.

(** main.rs:78: [Opt::from_iter(args)]; the first argument is the program's
    name.  [Opt] and its variants are commands with no options but help and
    version, so that the first two arguments must be the names. *)
Definition from_iter (args : list str) : option Opt :=
  match args with
  | _ :: outer :: name :: args' =>
    if str_eqb outer (lit "encode") then parse_encode name args'
    else if str_eqb outer (lit "decode") then parse_decode name args'
    else None
  | _ => None
  end.

(** ** Files as bytes *)
(** The trees behind the bytes of files.  A file that does not hold a JSON text
    is given a tree that [Contract::load] rejects with the same kind of error. *)
Definition trees (disk : str -> option (list byte)) (path : str) : option json :=
  match disk path with
  | None => None
  | Some l => Some (match parse_bytes l with Ok j => j | _ => JNull end)
  end.

(** main.rs:67-93: [None] if the process ends while parsing its arguments. *)
Definition main (p : profile) (disk : str -> option (list byte)) (args : list str) : option (res str) :=
  match from_iter args with
  | Some opt => Some (execute p (trees disk) opt)
  | None => None
  end.

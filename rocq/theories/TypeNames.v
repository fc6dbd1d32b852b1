(** * Type names: /repo/ethabi/src/param_type/writer.rs and reader.rs *)
From Verif Require Import Base Types.
From Coq Require Import String.
Set Implicit Arguments.
Local Open Scope N_scope.
Local Open Scope list_scope.

(** /repo/ethabi/src/param_type/writer.rs:23-51 *)
Fixpoint write_for_abi (param : ParamType) (serialize_tuple_contents : bool) : str :=
  match param with
  | PAddress => lit "address"
  | PBytes => lit "bytes"
  | PFixedBytes l => lit "bytes" ++ show_dec l
  | PInt l => lit "int" ++ show_dec l
  | PUint l => lit "uint" ++ show_dec l
  | PBool => lit "bool"
  | PString => lit "string"
  | PFixedArray t l => write_for_abi t serialize_tuple_contents ++ lit "[" ++ show_dec l ++ lit "]"
  | PArray t => write_for_abi t serialize_tuple_contents ++ lit "[]"
  | PTuple ts =>
    if serialize_tuple_contents
    then lit "(" ++ join (lit ",") (map (fun t => write_for_abi t serialize_tuple_contents) ts) ++ lit ")"
    else lit "tuple"
  end.
(** /repo/ethabi/src/param_type/writer.rs:16-18 *)
Definition write (param : ParamType) : str := write_for_abi param true.
(** /repo/ethabi/src/param_type/param_type.rs:39-43 ([Display for ParamType]) *)
Definition ptype_to_string (t : ParamType) : str := write t.

(** ** Reader *)
Definition ch_open : char := 40.      (* '(' *)
Definition ch_close : char := 41.     (* ')' *)
Definition ch_comma : char := 44.     (* ',' *)
Definition ch_lbracket : char := 91.  (* '[' *)
Definition ch_rbracket : char := 93.  (* ']' *)

(** The local variables of the tuple branch, reader.rs:24-29. *)
Record rstate := mkR {
  subtypes : list ParamType;
  subtuples : list (list ParamType);
  nested : Z;
  top_level_paren_open : N;
  last_item : N }.

(** [subtuples[i].push(x)] and [mem::take(&mut subtuples[i])]: indexing panics
    when out of range. *)
Fixpoint push_at (l : list (list ParamType)) (i : nat) (x : ParamType) : res (list (list ParamType)) :=
  match l, i with
  | [], _ => Panic
  | a :: l', O => Ok ((a ++ [x]) :: l')
  | a :: l', S i' => do r <- push_at l' i' x; Ok (a :: r)
  end.
(** [mem::take(&mut subtuples[i])]: reader.rs:83 *)
Fixpoint take_at (l : list (list ParamType)) (i : nat) : res (list ParamType * list (list ParamType)) :=
  match l, i with
  | [], _ => Panic
  | a :: l', O => Ok (a, [] :: l')
  | a :: l', S i' => do (x, r) <- take_at l' i'; Ok (x, a :: r)
  end.

Section Reader.
Context (p : profile).
(** The recursive call [Reader::read]. *)
Context (read_rec : str -> res ParamType).

(** One iteration of the [while let] loop, reader.rs:32-115.  [rest] is what
    the iterator [chars] still holds; the second result is the number of
    characters the inner [loop] (reader.rs:67-76) takes from it. *)
Definition read_char (name : str) (st : rstate) (pos : N) (c : char) (rest : str) : res (rstate * nat) :=
  if c =? ch_open then
    let n := (nested st + 1)%Z in
    if (1 <? n)%Z
    then Ok (mkR (subtypes st) (subtuples st ++ [[]]) n pos (pos + 1), O)
    else Ok (mkR (subtypes st) (subtuples st) n pos (last_item st), O)
  else if c =? ch_close then
    let n := (nested st - 1)%Z in
    if (n <? 0)%Z then Err (InvalidName name)
    else
      do item <- str_slice name (last_item st) pos;
      match item with
      | [] => Ok (mkR (subtypes st) (subtuples st) n (top_level_paren_open st) (pos + 1), O)
      | _ =>
        if (n =? 0)%Z then
          do subtype <- read_rec item;
          Ok (mkR (subtypes st ++ [subtype]) (subtuples st) n (top_level_paren_open st) (pos + 1), O)
        else
          let skipped := take_while (fun c => negb ((c =? ch_comma) || (c =? ch_close))) rest in
          let pos := pos + len skipped in
          do inner_tuple <- str_slice name (top_level_paren_open st) (pos + 1);
          do subtype <- read_rec inner_tuple;
          if (1 <? n)%Z then
            do (subtuple, sts) <- take_at (subtuples st) (Z.to_nat (n - 2));
            Ok (mkR (subtypes st ++ [PTuple (subtuple ++ [subtype])]) sts n (top_level_paren_open st) (pos + 1),
                List.length skipped)
          else
            Ok (mkR (subtypes st ++ [subtype]) (subtuples st) n (top_level_paren_open st) (pos + 1),
                List.length skipped)
      end
  else if c =? ch_comma then
    do item <- str_slice name (last_item st) pos;
    match item with
    | [] => Ok (mkR (subtypes st) (subtuples st) (nested st) (top_level_paren_open st) (pos + 1), O)
    | _ =>
      if (nested st =? 1)%Z then
        do subtype <- read_rec item;
        Ok (mkR (subtypes st ++ [subtype]) (subtuples st) (nested st) (top_level_paren_open st) (pos + 1), O)
      else if (1 <? nested st)%Z then
        do subtype <- read_rec item;
        do sts <- push_at (subtuples st) (Z.to_nat (nested st - 2)) subtype;
        Ok (mkR (subtypes st) sts (nested st) (top_level_paren_open st) (pos + 1), O)
      else Ok (st, O)
    end
  else Ok (st, O).

(** The [while let] loop, reader.rs:32: [skip] characters were already taken
    from the iterator by the inner loop. *)
Fixpoint read_tuple_loop (name : str) (rest : str) (pos : N) (skip : nat) (st : rstate) : res rstate :=
  match rest with
  | [] => Ok st
  | c :: rest' =>
    match skip with
    | S k => read_tuple_loop name rest' (pos + 1) k st
    | O => do (st', k) <- read_char name st pos c rest';
           read_tuple_loop name rest' (pos + 1) k st'
    end
  end.

(** /repo/ethabi/src/param_type/reader.rs:19-117 *)
Definition read_tuple (name : str) : res ParamType :=
  if starts_with_char name ch_open then
    do st <- read_tuple_loop name name 0 O (mkR [] [] 0 0 1);
    Ok (PTuple (subtypes st))
  else Err (InvalidName name).

(** /repo/ethabi/src/param_type/reader.rs:120-136 *)
Definition read_array (name : str) : res ParamType :=
  let num := rev (take_while (fun c => negb (c =? ch_lbracket)) (skipn 1 (rev name))) in
  let count := len name in
  match num with
  | [] =>
    do e <- usize_sub p count 2;
    do sub <- str_slice name 0 e;
    do subtype <- read_rec sub;
    Ok (PArray subtype)
  | _ =>
    do l <- parse_usize num;
    do e0 <- usize_sub p count (str_len num);
    do e <- usize_sub p e0 2;
    do sub <- str_slice name 0 e;
    do subtype <- read_rec sub;
    Ok (PFixedArray subtype l)
  end.
End Reader.

(** /repo/ethabi/src/param_type/reader.rs:140-163 *)
Definition read_base (name : str) : res ParamType :=
  if str_eqb name (lit "address") then Ok PAddress
  else if str_eqb name (lit "bytes") then Ok PBytes
  else if str_eqb name (lit "bool") then Ok PBool
  else if str_eqb name (lit "string") then Ok PString
  else if str_eqb name (lit "int") then Ok (PInt 256)
  else if str_eqb name (lit "tuple") then Ok (PTuple [])
  else if str_eqb name (lit "uint") then Ok (PUint 256)
  else if starts_with name (lit "int") then
    do s <- str_from name 3; do l <- parse_usize s; Ok (PInt l)
  else if starts_with name (lit "uint") then
    do s <- str_from name 4; do l <- parse_usize s; Ok (PUint l)
  else if starts_with name (lit "bytes") then
    do s <- str_from name 5; do l <- parse_usize s; Ok (PFixedBytes l)
  else Err (InvalidName name).

(** /repo/ethabi/src/param_type/reader.rs:16-166, recursion bounded by [fuel]. *)
Fixpoint read_fuel (p : profile) (fuel : nat) (name : str) : res ParamType :=
  match fuel with
  | O => Err OutOfFuel
  | S f =>
    match last_char name with
    | Some c =>
      if c =? ch_close then read_tuple (read_fuel p f) name
      else if c =? ch_rbracket then read_array p (read_fuel p f) name
      else read_base name
    | None => read_base name
    end
  end.
(** [Reader::read].  Every recursive call is on a strictly shorter string, so
    this fuel is never exhausted (proved: [read_fuel_enough]). *)
Definition read (p : profile) (name : str) : res ParamType := read_fuel p (S (List.length name)) name.

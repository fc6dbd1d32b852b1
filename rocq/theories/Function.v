(** * Signatures, functions and constructors *)
From Verif Require Import Base Types TypeNames Encoder Decoder Keccak.
From Coq Require Import String.
Set Implicit Arguments.
Local Open Scope N_scope.
Local Open Scope list_scope.

(** ** /repo/ethabi/src/signature.rs *)
(** /repo/ethabi/src/signature.rs:27-33; [l] is [result.len()], the result is
    the new contents of [result]. *)
Definition fill_signature (name : str) (params : list ParamType) (l : N) : res (list byte) :=
  let types := join (lit ",") (map write params) in
  let data := utf8 (name ++ lit "(" ++ types ++ lit ")") in
  do src <- slice_to (keccak256 data) l;
  copy_from_slice l src.
(** /repo/ethabi/src/signature.rs:15-19 *)
Definition short_signature (name : str) (params : list ParamType) : res (list byte) :=
  fill_signature name params 4.
(** /repo/ethabi/src/signature.rs:21-25 *)
Definition long_signature (name : str) (params : list ParamType) : res (list byte) :=
  fill_signature name params 32.

(** ** /repo/ethabi/src/param.rs:22-29 *)
Record Param := mkParam {
  p_name : str;
  p_kind : ParamType;
  p_internal_type : option str }.

(** /repo/ethabi/src/state_mutability.rs:5-18 *)
Inductive StateMutability := Pure | View | NonPayable | Payable.

(** ** /repo/ethabi/src/function.rs:20-37 *)
Record Function := mkFunction {
  f_name : str;
  f_inputs : list Param;
  f_outputs : list Param;
  f_constant : bool;
  f_state_mutability : StateMutability }.

(** /repo/ethabi/src/function.rs:41-43 *)
Definition input_param_types (f : Function) : list ParamType := map p_kind (f_inputs f).
(** /repo/ethabi/src/function.rs:46-48 *)
Definition output_param_types (f : Function) : list ParamType := map p_kind (f_outputs f).

(** /repo/ethabi/src/function.rs:51-61 *)
Definition encode_input (p : profile) (f : Function) (tokens : list Token) : res (list byte) :=
  let params := input_param_types f in
  do ok <- types_check tokens params;
  if negb ok then Err InvalidData
  else
    do signed <- short_signature (f_name f) params;
    do encoded <- encode p tokens;
    Ok (signed ++ encoded).
(** /repo/ethabi/src/function.rs:64-66 *)
Definition decode_output (p : profile) (f : Function) (data : list byte) : res (list Token) :=
  decode p (output_param_types f) data.
(** /repo/ethabi/src/function.rs:69-71 *)
Definition decode_input (p : profile) (f : Function) (data : list byte) : res (list Token) :=
  decode p (input_param_types f) data.
(** /repo/ethabi/src/function.rs:80-89 *)
Definition signature (f : Function) : str :=
  let inputs := join (lit ",") (map (fun p => ptype_to_string (p_kind p)) (f_inputs f)) in
  let outputs := join (lit ",") (map (fun p => ptype_to_string (p_kind p)) (f_outputs f)) in
  if str_len outputs =? 0 then f_name f ++ lit "(" ++ inputs ++ lit ")"
  else f_name f ++ lit "(" ++ inputs ++ lit "):(" ++ outputs ++ lit ")".

(** ** /repo/ethabi/src/constructor.rs:15-18 *)
Record Constructor := mkConstructor { k_inputs : list Param }.
(** /repo/ethabi/src/constructor.rs:22-24 *)
Definition param_types (c : Constructor) : list ParamType := map p_kind (k_inputs c).
(** /repo/ethabi/src/constructor.rs:27-35 *)
Definition constructor_encode_input (p : profile) (c : Constructor) (code : list byte) (tokens : list Token)
  : res (list byte) :=
  let params := param_types c in
  do ok <- types_check tokens params;
  if ok then do encoded <- encode p tokens; Ok (code ++ encoded)
  else Err InvalidData.

(** * How deep the calls are nested that read text

    The calls that a loop makes are observed as in Work.v.  Functions of this
    crate count; those of other crates, closures and conversions of errors do
    not. *)
From Verif Require Import Base Types TypeNames Tokenizer Work.
Set Implicit Arguments.
Local Open Scope N_scope.
Local Open Scope list_scope.

(** ** Type names: /repo/ethabi/src/param_type/reader.rs *)
(** reader.rs:32-115: the deepest call made in the loop of the tuple branch *)
Fixpoint tuple_calls (rd : str -> res ParamType) (calls : str -> N) (name rest : str) (pos : N) (skip : nat) (st : rstate) : N :=
  match rest with
  | [] => 0
  | c :: rest' =>
    match skip with
    | S k => tuple_calls rd calls name rest' (pos + 1) k st
    | O => N.max (cost_asked calls (read_char ask name st pos c rest'))
             match read_char rd name st pos c rest' with
             | Ok (st', k) => tuple_calls rd calls name rest' (pos + 1) k st'
             | _ => 0
             end
    end
  end.
(** reader.rs:16-166, with the fuel of [read_fuel].  [Reader::read] calls no
    function but itself. *)
Fixpoint name_calls_fuel (p : profile) (fuel : nat) (name : str) : N :=
  match fuel with
  | O => 0
  | S f =>
    1 +
    match last_char name with
    | Some c =>
      if c =? ch_close then
        if starts_with_char name ch_open
        then tuple_calls (read_fuel p f) (name_calls_fuel p f) name name 0 O (mkR [] [] 0 0 1)
        else 0
      else if c =? ch_rbracket then cost_asked (name_calls_fuel p f) (read_array p ask name)
      else 0
    | None => 0
    end
  end.
(** reader.rs:16-166 *)
Definition name_calls (p : profile) (name : str) : N := name_calls_fuel p (S (List.length name)) name.

(** ** Values: /repo/ethabi/src/token/mod.rs *)
Section Items.
Context {St C : Type} (next : St -> str -> res (Token * St)) (cost : C -> str -> N) (left : C -> C) (op cl : char) (value : str).
(** mod.rs:62-94 and 117-148: the deepest call made in the loops *)
Fixpoint items_calls (rest : str) (pos : N) (s : tstate) (params : St) (costs : C) : N :=
  match rest with
  | [] => 0
  | ch :: rest' =>
    let r := token_char (fun _ => ask) op cl value s params pos ch in
    N.max (cost_asked (cost costs) r)
      match token_char next op cl value s params pos ch with
      | Ok (s', params') => items_calls rest' (pos + 1) s' params' (match asked r with Some _ => left costs | None => costs end)
      | _ => 0
      end
  end.
(** mod.rs:48-101 and 104-155: [tokenize_struct] and [tokenize_array] *)
Definition group_calls (params : St) (costs : C) : N :=
  1 + (if negb (starts_with_char value op) || negb (ends_with_char value cl) then 0
       else if len value =? 2 then 0
       else items_calls value 0 (mkT [] 0 false 1) params costs).
End Items.
(** mod.rs:23-45.  [own t]: the calls of the method for [t], which the trait
    requires. *)
Fixpoint value_calls (T : Tokenizer) (own : ParamType -> N) (param : ParamType) (value : str) : N :=
  1 +
  match param with
  | PAddress | PString | PBool | PBytes | PFixedBytes _ | PUint _ | PInt _ => own param
  | PArray t => group_calls (next_element (tokenize T t)) (fun _ => value_calls T own t) (fun u => u) 91 93 value tt tt
  | PFixedArray t _ => 1 + group_calls (next_element (tokenize T t)) (fun _ => value_calls T own t) (fun u => u) 91 93 value tt tt
  | PTuple ts =>
    group_calls next_field (fun l s => match l with [] => 0 | f :: _ => f s end) (@tl _) 40 41 value (map (tokenize T) ts) (map (value_calls T own) ts)
  end.
(** /repo/ethabi/src/token/strict.rs:15-65: [tokenize_int] calls [tokenize_uint]. *)
Definition strict_own (t : ParamType) : N := match t with PInt _ => 2 | _ => 1 end.
(** /repo/ethabi/src/token/lenient.rs:20-75: each method calls that of
    [StrictTokenizer]. *)
Definition lenient_own (t : ParamType) : N := 1 + strict_own t.

(** * How much text the recursive readers go over

    The calls that a loop makes are observed on the model of the loop itself:
    it is given a reader that fails with the text it is asked to read
    ([ask]).  Each call is counted as one more than the number of characters
    (for values: bytes) of its text, which bounds what it does apart from
    further calls, up to a factor. *)
From Verif Require Import Base Types TypeNames Tokenizer.
Set Implicit Arguments.
Local Open Scope N_scope.
Local Open Scope list_scope.

(** What the reader is asked for, as an error *)
Definition ask {A} (s : str) : res A := Err (OtherErr s).
(** The text asked for, if any: no other error of these loops is [OtherErr]. *)
Definition asked {A} (r : res A) : option str := match r with Err (OtherErr s) => Some s | _ => None end.
(** What it costs to read the text asked for *)
Definition cost_asked {A} (cost : str -> N) (r : res A) : N := match asked r with Some s => cost s | None => 0 end.

(** ** Type names: /repo/ethabi/src/param_type/reader.rs *)
(** reader.rs:32-115: the calls made in the loop of the tuple branch *)
Fixpoint tuple_work (rd : str -> res ParamType) (cost : str -> N) (name rest : str) (pos : N) (skip : nat) (st : rstate) : N :=
  match rest with
  | [] => 0
  | c :: rest' =>
    match skip with
    | S k => tuple_work rd cost name rest' (pos + 1) k st
    | O => cost_asked cost (read_char ask name st pos c rest') +
           match read_char rd name st pos c rest' with
           | Ok (st', k) => tuple_work rd cost name rest' (pos + 1) k st'
           | _ => 0
           end
    end
  end.
(** reader.rs:16-166, with the fuel of [read_fuel] *)
Fixpoint name_work_fuel (p : profile) (fuel : nat) (name : str) : N :=
  match fuel with
  | O => 0
  | S f =>
    1 + len name +
    match last_char name with
    | Some c =>
      if c =? ch_close then
        if starts_with_char name ch_open
        then tuple_work (read_fuel p f) (name_work_fuel p f) name name 0 O (mkR [] [] 0 0 1)
        else 0
      else if c =? ch_rbracket then cost_asked (name_work_fuel p f) (read_array p ask name)
      else 0
    | None => 0
    end
  end.
(** reader.rs:16-166 *)
Definition name_work (p : profile) (name : str) : N := name_work_fuel p (S (List.length name)) name.

(** ** Values: /repo/ethabi/src/token/mod.rs *)
Section Items.
(** [cost] is what a call on the next item costs and what is left for those
    after it. *)
Context {St C : Type} (next : St -> str -> res (Token * St)) (cost : C -> str -> N) (left : C -> C) (op cl : char) (value : str).
(** mod.rs:62-94 and 117-148: the calls made in the loops *)
Fixpoint items_work (rest : str) (pos : N) (s : tstate) (params : St) (costs : C) : N :=
  match rest with
  | [] => 0
  | ch :: rest' =>
    let r := token_char (fun _ => ask) op cl value s params pos ch in
    cost_asked (cost costs) r +
    match token_char next op cl value s params pos ch with
    | Ok (s', params') => items_work rest' (pos + 1) s' params' (match asked r with Some _ => left costs | None => costs end)
    | _ => 0
    end
  end.
(** mod.rs:48-101 and 104-155 *)
Definition group_work (params : St) (costs : C) : N :=
  if negb (starts_with_char value op) || negb (ends_with_char value cl) then 0
  else if len value =? 2 then 0
  else items_work value 0 (mkT [] 0 false 1) params costs.
End Items.
(** mod.rs:23-36 *)
Fixpoint value_work (T : Tokenizer) (param : ParamType) (value : str) : N :=
  1 + str_len value +
  match param with
  | PAddress | PString | PBool | PBytes | PFixedBytes _ | PUint _ | PInt _ => 0
  | PArray t | PFixedArray t _ =>
    group_work (next_element (tokenize T t)) (fun _ => value_work T t) (fun u => u) 91 93 value tt tt
  | PTuple ts =>
    group_work next_field (fun l s => match l with [] => 0 | f :: _ => f s end) (@tl _) 40 41 value (map (tokenize T) ts) (map (value_work T) ts)
  end.

(** * How much work decoding takes: a specification, independent of the model *)
From Verif Require Import Base Types AbiSpec.
Set Implicit Arguments.
Local Open Scope N_scope.

Definition total {A} (f : A -> N) : list A -> N := fix go l := match l with [] => 0 | x :: l' => f x + go l' end.
(** Asking whether a type is dynamic: the search ends at the first field that is. *)
Definition upto_dynamic (f : ParamType -> N) : list ParamType -> N :=
  fix go ts := match ts with [] => 0 | t :: ts' => f t + (if dynamic t then 0 else go ts') end.
Fixpoint asking (t : ParamType) : N :=
  match t with
  | PFixedArray t' _ => 1 + asking t'
  | PTuple ts => 1 + upto_dynamic asking ts
  | _ => 1
  end.
Definition offset_word (t : ParamType) : N := if dynamic t then 1 else 0.

(** Reading the value [v] of type [t]: a call, the words that are looked at,
    the bytes that are copied, and a call and a push for each member.  Text is
    copied and then made into characters, of [k] bytes each. *)
Fixpoint reading (k : N) (t : ParamType) (v : Token) {struct t} : N :=
  match t, v with
  | PFixedBytes _, TFixedBytes b => 2 + len b
  | PBytes, TBytes b => 4 + len b
  | PString, TString s => 4 + 2 * (k * len s)
  | PArray t', TArray vs => 3 + total (fun v => reading k t' v + 1) vs
  | PFixedArray t' _, TFixedArray vs => 1 + asking t + offset_word t + total (fun v => reading k t' v + 1) vs
  | PTuple ts, TTuple vs =>
    1 + asking t + offset_word t +
    (fix go ts vs := match ts, vs with t :: ts', v :: vs' => (reading k t v + 1) + go ts' vs' | _, _ => 0 end) ts vs
  | _, _ => 2
  end.
Definition readings (k : N) : list ParamType -> list Token -> N :=
  fix go ts vs := match ts, vs with t :: ts', v :: vs' => (reading k t v + 1) + go ts' vs' | _, _ => 0 end.
(** How many types are asked whether they need no data. *)
Fixpoint upto_sized (ts : list ParamType) : N :=
  match ts with
  | [] => 0
  | PFixedBytes 0 :: ts' | PFixedArray _ 0 :: ts' => 1 + upto_sized ts'
  | _ :: _ => 1
  end.
Definition decoding (k : N) (ts : list ParamType) (vs : list Token) : N := 1 + upto_sized ts + readings k ts vs.
Fixpoint no_text (t : ParamType) : bool :=
  match t with
  | PString => false
  | PArray t' | PFixedArray t' _ => no_text t'
  | PTuple ts => forallb no_text ts
  | _ => true
  end.

(** The most that any run can take on [size] bytes, whether it succeeds or
    not.  A loop over members that take room ends, at the latest, with the first
    member beyond the data; a loop over members that take none only with the
    number that the data or the type gives. *)
Definition rounds (size : N) (t : ParamType) (n : N) : N := if zero_size t then n else N.min n (size / 32 + 2).
Fixpoint work_limit (size : N) (t : ParamType) : N :=
  match t with
  | PAddress | PInt _ | PUint _ | PBool => 2
  | PFixedBytes n => 2 + N.min n size
  | PBytes => 4 + size
  | PString => 4 + 2 * size
  | PArray t' => 3 + rounds size t' (2 ^ 32 - 1) * (work_limit size t' + 1)
  | PFixedArray t' n => 1 + asking t + offset_word t + rounds size t' n * (work_limit size t' + 1)
  | PTuple ts => 1 + asking t + offset_word t + total (fun t => work_limit size t + 1) ts
  end.
Definition decode_limit (size : N) (ts : list ParamType) : N := 1 + upto_sized ts + total (fun t => work_limit size t + 1) ts.

(** The number of types in a type, itself included. *)
Fixpoint type_nodes (t : ParamType) : N :=
  match t with
  | PArray t' | PFixedArray t' _ => 1 + type_nodes t'
  | PTuple ts => 1 + total type_nodes ts
  | _ => 1
  end.

(** * The room a decoded value takes, independent of the model *)
From Verif Require Import Base Types AbiSpec.
Set Implicit Arguments.
Local Open Scope N_scope.

(** Tokens, bytes and characters a value consists of. *)
Fixpoint weight (v : Token) : N :=
  match v with
  | TFixedBytes b | TBytes b => 1 + len b
  | TString s => 1 + len s
  | TArray vs | TFixedArray vs | TTuple vs => 1 + fold_right (fun v n => weight v + n) 0 vs
  | TAddress _ | TInt _ | TUint _ | TBool _ => 1
  end.
Definition weights (vs : list Token) : N := fold_right (fun v n => weight v + n) 0 vs.
(** The most that a value of type [t] can weigh if all its parts are found in
    [size] bytes: each array multiplies by the number of words. *)
Fixpoint weight_limit (size : N) (t : ParamType) : N :=
  match t with
  | PFixedBytes _ | PBytes | PString => 1 + size
  | PArray t' => 1 + size / 32 * weight_limit size t'
  | PFixedArray t' n => 1 + n * weight_limit size t'
  | PTuple ts => 1 + fold_right (fun t n => weight_limit size t + n) 0 ts
  | PAddress | PInt _ | PUint _ | PBool => 1
  end.
Definition weights_limit (size : N) (ts : list ParamType) : N := fold_right (fun t n => weight_limit size t + n) 0 ts.

(** Arrays of arrays of ... of uint256. *)
Fixpoint nested (depth : nat) : ParamType := match depth with O => PUint 256 | S d => PArray (nested d) end.
(** [k] equal elements on each level. *)
Fixpoint full (k : N) (depth : nat) : Token :=
  match depth with O => TUint 7 | S d => TArray (repeat (full k d) (N.to_nat k)) end.

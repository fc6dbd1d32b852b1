(** * Shapes of values that do not fit their types, independent of the model *)
From Verif Require Import Base Types AbiSpec.
Set Implicit Arguments.
Local Open Scope N_scope.

(** A value has more fields than its tuple type, and everything before the
    first field too many is loosely typed ([loosely_typed]). *)
Inductive overruns : Token -> ParamType -> Prop :=
| over_array before v after t : Forall (fun x => loosely_typed x t = true) before -> overruns v t ->
    overruns (TArray (before ++ v :: after)) (PArray t)
| over_fixed_array before v after t n : len (before ++ v :: after) = n ->
    Forall (fun x => loosely_typed x t = true) before -> overruns v t ->
    overruns (TFixedArray (before ++ v :: after)) (PFixedArray t n)
| over_field before v after ts t ts' : Forall2 (fun x t => loosely_typed x t = true) before ts -> overruns v t ->
    overruns (TTuple (before ++ v :: after)) (PTuple (ts ++ t :: ts'))
| over_long before v after ts : Forall2 (fun x t => loosely_typed x t = true) before ts ->
    overruns (TTuple (before ++ v :: after)) (PTuple ts).

(** A type whose values show that it is dynamic: an array of no elements does
    not. *)
Fixpoint shows_dynamic (t : ParamType) : bool :=
  match t with
  | PBytes | PString | PArray _ => true
  | PFixedArray t' n => (1 <=? n) && shows_dynamic t'
  | PTuple ts => existsb shows_dynamic ts
  | PAddress | PInt _ | PUint _ | PBool | PFixedBytes _ => false
  end.

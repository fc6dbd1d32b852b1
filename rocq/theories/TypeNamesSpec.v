(** * Notions used to state properties of type names (independent of the
    reader and writer models) *)
From Verif Require Import Base Types.
From Coq Require Import String.
Set Implicit Arguments.
Local Open Scope N_scope.
Local Open Scope list_scope.

(** No tuple anywhere inside. *)
Fixpoint tuple_free (t : ParamType) : bool :=
  match t with
  | PArray t' | PFixedArray t' _ => tuple_free t'
  | PTuple _ => false
  | _ => true
  end.
(** A tuple-free type, or (arrays of) a non-empty tuple of tuple-free types. *)
Fixpoint shallow (t : ParamType) : bool :=
  match t with
  | PArray t' | PFixedArray t' _ => shallow t'
  | PTuple ts => match ts with [] => false | _ => forallb tuple_free ts end
  | _ => true
  end.
(** At most two levels of tuples, the inner ones not empty. *)
Fixpoint two_levels (t : ParamType) : bool :=
  match t with
  | PArray t' | PFixedArray t' _ => two_levels t'
  | PTuple ts => forallb shallow ts
  | _ => true
  end.

(** Every ']' has a '[' before it with none of "(" ")" "," in between.
    [seen]: a '[' was seen since the last of those characters. *)
Fixpoint brackets_ok (seen : bool) (s : str) : bool :=
  match s with
  | [] => true
  | c :: s' =>
    if (c =? 91) then brackets_ok true s'
    else if (c =? 40) || (c =? 41) || (c =? 44) then brackets_ok false s'
    else if (c =? 93) then seen && brackets_ok seen s'
    else brackets_ok seen s'
  end.

(** No '(' in a name. *)
Definition plain_name (s : str) : bool := forallb (fun c => negb (c =? 40)) s.

(** ** Canonical type names, as a grammar *)
(** [s] is the decimal numeral of [n]: digits, no superfluous leading zero. *)
Definition numeral (s : str) (n : N) : Prop :=
  Forall (fun c => 48 <= c /\ c <= 57) s /\ s <> [] /\ (forall r, s = 48 :: r -> r = []) /\
  n = fold_left (fun acc c => 10 * acc + (c - 48)) s 0.
(** Items separated by commas (44). *)
Inductive comma_list : list str -> str -> Prop :=
| cl_nil : comma_list [] []
| cl_one : forall s, comma_list [s] s
| cl_cons : forall s l r, l <> [] -> comma_list l r -> comma_list (s :: l) (s ++ 44 :: r).
(** The names of the Solidity ABI specification: "uint<M>", "int<M>",
    "address", "bool", "bytes<M>", "bytes", "string", "<type>[<M>]",
    "<type>[]", "(T1,T2,...,Tn)". *)
Inductive type_name : ParamType -> str -> Prop :=
| tn_address : type_name PAddress (lit "address")
| tn_bytes : type_name PBytes (lit "bytes")
| tn_bool : type_name PBool (lit "bool")
| tn_string : type_name PString (lit "string")
| tn_int : forall n s, numeral s n -> type_name (PInt n) (lit "int" ++ s)
| tn_uint : forall n s, numeral s n -> type_name (PUint n) (lit "uint" ++ s)
| tn_fixed_bytes : forall n s, numeral s n -> type_name (PFixedBytes n) (lit "bytes" ++ s)
| tn_array : forall t s, type_name t s -> type_name (PArray t) (s ++ lit "[]")
| tn_fixed_array : forall t s n k, type_name t s -> numeral k n -> type_name (PFixedArray t n) (s ++ lit "[" ++ k ++ lit "]")
| tn_tuple : forall ts l s, type_names ts l -> comma_list l s -> type_name (PTuple ts) (lit "(" ++ s ++ lit ")")
with type_names : list ParamType -> list str -> Prop :=
| tns_nil : type_names [] []
| tns_cons : forall t ts s l, type_name t s -> type_names ts l -> type_names (t :: ts) (s :: l).
(** "name(T1,...,Tn)" *)
Definition canonical_signature (name : str) (ts : list ParamType) (s : str) : Prop :=
  exists l args, type_names ts l /\ comma_list l args /\ s = name ++ lit "(" ++ args ++ lit ")".

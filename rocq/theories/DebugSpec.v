(** * The text that derived [Debug] gives a type (independent of the model) *)
From Verif Require Import Base Types TypeNamesSpec.
From Coq Require Import String.
Set Implicit Arguments.
Local Open Scope N_scope.
Local Open Scope list_scope.

(** Rust's rules: a variant with fields is its name with the fields in
    parentheses, a vector its elements in brackets, both with a comma and a
    blank between. *)
Definition joined (l : list str) : str := List.concat (map (fun s => lit ", " ++ s) l).
Definition listed (l : list str) : str := skipn 2 (joined l).
Definition applied (name : str) (fields : list str) : str := name ++ lit "(" ++ listed fields ++ lit ")".
Inductive shown : ParamType -> str -> Prop :=
| sh_address : shown PAddress (lit "Address")
| sh_bytes : shown PBytes (lit "Bytes")
| sh_bool : shown PBool (lit "Bool")
| sh_string : shown PString (lit "String")
| sh_int : forall n d, numeral d n -> shown (PInt n) (applied (lit "Int") [d])
| sh_uint : forall n d, numeral d n -> shown (PUint n) (applied (lit "Uint") [d])
| sh_fixed_bytes : forall n d, numeral d n -> shown (PFixedBytes n) (applied (lit "FixedBytes") [d])
| sh_array : forall t s, shown t s -> shown (PArray t) (applied (lit "Array") [s])
| sh_fixed_array : forall t s n d, shown t s -> numeral d n -> shown (PFixedArray t n) (applied (lit "FixedArray") [s; d])
| sh_tuple : forall ts ss, Forall2 shown ts ss -> shown (PTuple ts) (applied (lit "Tuple") [lit "[" ++ listed ss ++ lit "]"]).

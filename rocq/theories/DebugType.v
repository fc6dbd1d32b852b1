(** * [Debug for ParamType]: the text of [{:?}] *)
From Verif Require Import Base Types.
From Coq Require Import String.
Set Implicit Arguments.
Local Open Scope N_scope.
Local Open Scope list_scope.

(** /repo/ethabi/src/param_type/param_type.rs:15-37, the derived [Debug], as
    [fmt::Formatter::debug_tuple] and [debug_list] write it without [#]; a [Box]
    is written as what it holds. *)
Fixpoint debug_type (t : ParamType) : str :=
  match t with
  | PAddress => lit "Address"
  | PBytes => lit "Bytes"
  | PInt n => lit "Int(" ++ show_dec n ++ lit ")"
  | PUint n => lit "Uint(" ++ show_dec n ++ lit ")"
  | PBool => lit "Bool"
  | PString => lit "String"
  | PArray t => lit "Array(" ++ debug_type t ++ lit ")"
  | PFixedBytes n => lit "FixedBytes(" ++ show_dec n ++ lit ")"
  | PFixedArray t n => lit "FixedArray(" ++ debug_type t ++ lit ", " ++ show_dec n ++ lit ")"
  | PTuple ts =>
    lit "Tuple([" ++
    (fix fields (l : list ParamType) : str :=
       match l with
       | [] => []
       | t :: l' => debug_type t ++ match l' with [] => [] | _ => lit ", " ++ fields l' end
       end) ts ++ lit "])"
  end.

(** * What names in code stand for

    To say that every name in code is bound.  Nothing here comes from /repo. *)
From Verif Require Import Base RustSyntax.
From Coq Require Import String.
Set Implicit Arguments.
Local Open Scope list_scope.

(** A module with those around it, the innermost first *)
Inductive nested (items : list item) : list (list item) -> Prop :=
| nested_root : nested items [items]
| nested_in its up doc x its' : nested items (its :: up) -> In (IMod doc x its') its -> nested items (its' :: its :: up).
Definition defines_error (its : list item) : Prop := exists text, In (IConst (lit "INTERNAL_ERR") (TyStatic (TyName [lit "str"] [])) text) its.
Definition imports_error (its : list item) : Prop := In (IUse [lit "super"; lit "INTERNAL_ERR"]) its.
(** The constant is imported from module to module, from one that defines it. *)
Definition error_known (mods : list (list item)) : Prop :=
  exists inner its up, mods = inner ++ its :: up /\ Forall imports_error inner /\ defines_error its.
(** Functions and methods *)
Definition function_of (f : fn) (its : list item) : Prop := In (IFn f) its \/ exists trait x assoc t, In (IImpl trait x assoc t f) its.

(** * Why a type name without ')' is rejected, whatever its characters
    (independent of the reader model) *)
From Verif Require Import Base Types ReaderSpec NameErrorSpec.
From Coq Require Import String.
Set Implicit Arguments.
Local Open Scope N_scope.
Local Open Scope list_scope.

(** As [rejected_name], but the name before an array suffix is cut: the reader
    looks at as many bytes of it as it has characters.  The rest of it, [b], is
    not looked at; it is empty if the name is of ASCII characters. *)
Section Numbers.
(** What a text that should be a size and is not is rejected with *)
Variable bad_number : str -> err -> Prop.
Inductive rejected_plain : str -> err -> Prop :=
| rp_word : forall s, ends_plain s -> unknown_word s -> rejected_plain s (InvalidName s)
| rp_size : forall w k e, In w sized_words -> k <> [] -> not_size k -> bad_number k e -> ends_plain (w ++ k) -> rejected_plain (w ++ k) e
| rp_count : forall y k e, (y = [] \/ exists z, y = z ++ lit "[") -> k <> [] -> ~ In 91 k -> not_size k -> bad_number k e -> rejected_plain (y ++ k ++ lit "]") e
| rp_array : forall a b x e, array_suffix x -> len (utf8 a) = len (a ++ b) -> rejected_plain a e -> rejected_plain (a ++ b ++ x) e.
End Numbers.

(** * Why a type name is rejected (independent of the reader model) *)
From Verif Require Import Base Types ReaderSpec.
From Coq Require Import String.
Set Implicit Arguments.
Local Open Scope N_scope.
Local Open Scope list_scope.

Definition not_size (k : str) : Prop := forall n, ~ size_text k n.
(** Ends with neither ')' nor ']'. *)
Definition ends_plain (s : str) : Prop := forall r, s <> r ++ lit ")" /\ s <> r ++ lit "]".
Definition sized_words : list str := [lit "int"; lit "uint"; lit "bytes"].
Definition unknown_word (s : str) : Prop :=
  ~ In s [lit "address"; lit "bool"; lit "string"; lit "tuple"] /\ forall w k, In w sized_words -> s <> w ++ k.

(** What a text that should be a size and is not is rejected with *)
Section Numbers.
Variable bad_number : str -> err -> Prop.
(** The names the reader rejects, and the error.  The cases are told apart by
    the last character, as the rules for accepted names are. *)
Inductive rejected_name : str -> err -> Prop :=
| rn_word : forall s, ends_plain s -> unknown_word s -> rejected_name s (InvalidName s)
| rn_size : forall w k e, In w sized_words -> k <> [] -> not_size k -> bad_number k e -> ends_plain (w ++ k) -> rejected_name (w ++ k) e
| rn_count : forall y k e, (y = [] \/ exists z, y = z ++ lit "[") -> k <> [] -> ~ In 91 k -> not_size k -> bad_number k e -> rejected_name (y ++ k ++ lit "]") e
| rn_array : forall s x e, array_suffix x -> rejected_name s e -> rejected_name (s ++ x) e
| rn_unopened : forall s, (forall r, s <> 40 :: r) -> rejected_name (s ++ lit ")") (InvalidName (s ++ lit ")"))
| rn_tuple : forall s e, rejected_text (lit "(" ++ s ++ lit ")") 1 [] (s ++ lit ")") e -> rejected_name (lit "(" ++ s ++ lit ")") e
(** [rejected_text name n u s e]: in [name], [s] is what follows a separator,
    inside [n] parentheses, and [u] is the text between the last opening
    parenthesis and [s].
    - An item is the text between two separators.  At depth 1 and before a
      comma, it is read for itself ([rt_item], [rt_last_item]).
    - The last item of an inner tuple is read with everything since the last
      opening parenthesis, and everything up to the next separator
      ([rt_window]).
    - A parenthesis that closes nothing is an error of the whole name
      ([rt_stray]). *)
with rejected_text : str -> nat -> str -> str -> err -> Prop :=
| rt_item : forall name n u x s e, no_separator x -> x <> [] -> rejected_name x e -> rejected_text name (S n) u (x ++ 44 :: s) e
| rt_last_item : forall name u x s e, no_separator x -> x <> [] -> rejected_name x e -> rejected_text name 1 u (x ++ 41 :: s) e
| rt_window : forall name n u x y s e, no_separator x -> x <> [] -> (forall c, In c y -> c <> 44 /\ c <> 41) -> at_separator s ->
    rejected_name (40 :: (u ++ x) ++ 41 :: y) e -> rejected_text name (S (S n)) u (x ++ 41 :: y ++ s) e
| rt_stray : forall name u j s, no_paren j -> rejected_text name 0 u (j ++ 41 :: s) (InvalidName name)
(** After the end of the outermost tuple another one may be opened; its first
    item is read with the text that stands between the two. *)
| rt_again_item : forall name u k w x c s e, no_paren w -> (forall r, w <> 44 :: r) -> no_separator x -> c = 44 \/ c = 41 ->
    rejected_name (w ++ 40 :: x) e -> rejected_text name 0 u (repeat 44 k ++ w ++ 40 :: x ++ c :: s) e
(** Otherwise the item is read, or dropped, and the rest is rejected. *)
| rt_nothing : forall name n u s e, rejected_text name (S n) (u ++ [44]) s e -> rejected_text name (S n) u (44 :: s) e
| rt_field : forall name n u x t s e, spelled x t -> rejected_text name (S n) (u ++ x ++ [44]) s e -> rejected_text name (S n) u (x ++ 44 :: s) e
| rt_close : forall name n u s e, rejected_text name n (u ++ [41]) s e -> rejected_text name (S n) u (41 :: s) e
| rt_last : forall name u x t s e, spelled x t -> rejected_text name 0 (u ++ x ++ [41]) s e -> rejected_text name 1 u (x ++ 41 :: s) e
| rt_tuple : forall name n u x y t s e, no_separator x -> x <> [] -> (forall c, In c y -> c <> 44 /\ c <> 41) -> at_separator s ->
    accepted (40 :: (u ++ x) ++ 41 :: y) t -> rejected_text name (S n) (u ++ x ++ 41 :: y) s e -> rejected_text name (S (S n)) u (x ++ 41 :: y ++ s) e
| rt_open : forall name n u x s e, no_separator x -> rejected_text name (S (S n)) [] s e -> rejected_text name (S n) u (x ++ 40 :: s) e
| rt_again : forall name u j x s e, no_paren j -> no_separator x -> rejected_text name 2 [] s e -> rejected_text name 0 u (j ++ 40 :: x ++ 40 :: s) e.
End Numbers.
(** The error without its text *)
Definition number_error (_ : str) (e : err) : Prop := e = ParseIntErr.

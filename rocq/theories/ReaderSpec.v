(** * The type names the reader accepts, as grammars (independent of the
    reader model) *)
From Verif Require Import Base Types TypeNamesSpec.
From Coq Require Import String.
Set Implicit Arguments.
Local Open Scope N_scope.
Local Open Scope list_scope.

(** A size: decimal digits, perhaps after a '+', below 2^64. *)
Definition size_text (s : str) (n : N) : Prop :=
  exists d, (s = d \/ s = 43 :: d) /\ d <> [] /\ Forall (fun c => 48 <= c /\ c <= 57) d /\
    n = fold_left (fun acc c => 10 * acc + (c - 48)) d 0 /\ n < 2 ^ 64.
(** Names without parentheses. *)
Inductive spelled : str -> ParamType -> Prop :=
| sp_address : spelled (lit "address") PAddress
| sp_bytes : spelled (lit "bytes") PBytes
| sp_bool : spelled (lit "bool") PBool
| sp_string : spelled (lit "string") PString
| sp_int256 : spelled (lit "int") (PInt 256)
| sp_uint256 : spelled (lit "uint") (PUint 256)
| sp_tuple : spelled (lit "tuple") (PTuple [])
| sp_int : forall s n, size_text s n -> spelled (lit "int" ++ s) (PInt n)
| sp_uint : forall s n, size_text s n -> spelled (lit "uint" ++ s) (PUint n)
| sp_fixed_bytes : forall s n, size_text s n -> spelled (lit "bytes" ++ s) (PFixedBytes n)
| sp_array : forall s t, spelled s t -> spelled (s ++ lit "[]") (PArray t)
| sp_fixed_array : forall s t k n, spelled s t -> size_text k n -> spelled (s ++ lit "[" ++ k ++ lit "]") (PFixedArray t n).
(** The fields of a tuple without inner tuples; nothing may stand between two
    commas. *)
Inductive fields_text : str -> list ParamType -> Prop :=
| ft_end : fields_text [] []
| ft_last : forall s t, spelled s t -> fields_text s [t]
| ft_nothing : forall s ts, fields_text s ts -> fields_text (44 :: s) ts
| ft_field : forall s t r ts, spelled s t -> fields_text r ts -> fields_text (s ++ 44 :: r) (t :: ts).
(** Names in which no tuple is inside another one. *)
Inductive spelled_flat : str -> ParamType -> Prop :=
| sf_plain : forall s t, spelled s t -> spelled_flat s t
| sf_tuple : forall s ts, fields_text s ts -> spelled_flat (lit "(" ++ s ++ lit ")") (PTuple ts)
| sf_array : forall s t, spelled_flat s t -> spelled_flat (s ++ lit "[]") (PArray t)
| sf_fixed_array : forall s t k n, spelled_flat s t -> size_text k n -> spelled_flat (s ++ lit "[" ++ k ++ lit "]") (PFixedArray t n).

(** A closing bracket after nothing, or after a size. *)
Definition lone_bracket (s : str) : Prop := s = lit "]" \/ exists k n, size_text k n /\ s = k ++ lit "]".
(** "[]" or "[n]" *)
Definition array_suffix (s : str) : Prop := s = lit "[]" \/ exists k n, size_text k n /\ s = lit "[" ++ k ++ lit "]".
(** Names without parentheses that make the reader panic: a lone bracket, or
    such a name before an array suffix.  The reader mixes up bytes and
    characters: it looks at as many bytes of the name before the suffix as that
    name has characters, and panics too if this cuts a character in two. *)
Inductive panicking : str -> Prop :=
| pn_lone : forall s, lone_bracket s -> panicking s
| pn_cut : forall s x, array_suffix x -> (forall a b, s = a ++ b -> len (utf8 a) <> len s) -> panicking (s ++ x)
| pn_prefix : forall a b x, array_suffix x -> len (utf8 a) = len (a ++ b) -> panicking a -> panicking (a ++ b ++ x).

(** ** The types whose written name is read back *)
(** (Arrays of) a tuple with at least one field and no inner tuple. *)
Fixpoint tuple_arrays (t : ParamType) : option (list ParamType) :=
  match t with
  | PArray t' | PFixedArray t' _ => tuple_arrays t'
  | PTuple ts => if forallb tuple_free ts then match ts with [] => None | _ => Some ts end else None
  | _ => None
  end.
(** A tuple whose last field is (arrays of) a tuple as above, and no other field
    contains a tuple. *)
Fixpoint ends_in_tuple (ts : list ParamType) : bool :=
  match ts with
  | [] => false
  | [t] => match tuple_arrays t with Some _ => true | None => false end
  | t :: ts' => tuple_free t && ends_in_tuple ts'
  end.
(** The fields of the outermost tuple.  [clean]: since the last field with an
    inner tuple, or since the start, no field was (arrays of) a tuple with more
    than one field. *)
Fixpoint readable_fields (clean : bool) (ts : list ParamType) : bool :=
  match ts with
  | [] => true
  | t :: r =>
    if tuple_free t then readable_fields clean r
    else match tuple_arrays t with
         | Some us => readable_fields (clean && (len us =? 1)) r
         | None => match t with
                   | PTuple us => ends_in_tuple us && clean && readable_fields true r
                   | _ => false
                   end
         end
  end.
Fixpoint readable (t : ParamType) : bool :=
  match t with
  | PArray t' | PFixedArray t' _ => readable t'
  | PTuple ts => readable_fields true ts
  | _ => true
  end.

(** ** Names with tuples inside tuples *)
(** Array suffixes after the text of a type. *)
Inductive arrays_text : str -> ParamType -> ParamType -> Prop :=
| at_none : forall t, arrays_text [] t t
| at_array : forall y t0 t, arrays_text y t0 t -> arrays_text (y ++ lit "[]") t0 (PArray t)
| at_fixed_array : forall y t0 t k n, arrays_text y t0 t -> size_text k n -> arrays_text (y ++ lit "[" ++ k ++ lit "]") t0 (PFixedArray t n).
(** Fields each of which is followed by a comma; commas may stand alone. *)
Inductive closed_fields : str -> list ParamType -> Prop :=
| cf_end : closed_fields [] []
| cf_nothing : forall g ts, closed_fields g ts -> closed_fields (44 :: g) ts
| cf_field : forall x t g ts, spelled x t -> closed_fields g ts -> closed_fields (x ++ 44 :: g) (t :: ts).
Definition no_paren (s : str) : Prop := forall c, In c s -> c <> 40 /\ c <> 41.
Definition no_separator (s : str) : Prop := forall c, In c s -> c <> 40 /\ c <> 41 /\ c <> 44.
(** Nothing follows, or a comma or a closing parenthesis does. *)
Definition at_separator (s : str) : Prop := s = [] \/ exists s', s = 44 :: s' \/ s = 41 :: s'.
(** For each depth, the fields that were read there and have not found their
    tuple. *)
Definition waiting := nat -> list ParamType.
Definition set_waiting (k : waiting) (n : nat) (ts : list ParamType) : waiting := fun i => if Nat.eqb i n then ts else k i.
Definition add_waiting (k : waiting) (n : nat) (ts : list ParamType) : waiting := set_waiting k n (k n ++ ts).
(** The text after the opening parenthesis of a name, and the fields it gives.
    [body n]: inside [n] parentheses, the last parenthesis before was a closing
    one, or it was the first of all.  [opened n]: right after the opening
    parenthesis that leads to depth [n >= 2].

    What the reader makes of inner tuples is peculiar:
    - the text between a separator and an opening parenthesis is dropped
      ([bd_open], [op_deeper]);
    - all fields of an inner tuple but the last wait at their depth, where the
      next tuple that closes one level deeper finds them ([op_inner]);
    - an inner tuple that is empty or ends with a comma is dropped, and its
      fields wait ([op_lost]);
    - a tuple inside tuples becomes a field of the outermost one;
    - the name may end with parentheses open ([bd_end]), and a second tuple may
      follow the first, whose own fields are the inner tuples ([bd_again]). *)
Inductive body : nat -> waiting -> str -> list ParamType -> Prop :=
| bd_end : forall n k, body n k [] []
| bd_nothing : forall n k s ts, body (S n) k s ts -> body (S n) k (44 :: s) ts
| bd_field : forall k x t s ts, spelled x t -> body 1 k s ts -> body 1 k (x ++ 44 :: s) (t :: ts)
| bd_waits : forall n k x t s ts, spelled x t -> body (S (S n)) (add_waiting k (S (S n)) [t]) s ts -> body (S (S n)) k (x ++ 44 :: s) ts
| bd_close : forall n k s ts, body n k s ts -> body (S n) k (41 :: s) ts
| bd_last : forall k x t s ts, spelled x t -> body 0 k s ts -> body 1 k (x ++ 41 :: s) (t :: ts)
| bd_open : forall n k x s ts, no_separator x -> opened (S (S n)) k s ts -> body (S n) k (x ++ 40 :: s) ts
| bd_again : forall k j x s ts, no_paren j -> no_separator x -> opened 2 k s ts -> body 0 k (j ++ 40 :: x ++ 40 :: s) ts
with opened : nat -> waiting -> str -> list ParamType -> Prop :=
| op_lost : forall n k g us s ts, closed_fields g us -> body (S n) (add_waiting k (S (S n)) us) s ts -> opened (S (S n)) k (g ++ 41 :: s) ts
| op_deeper : forall n k g us x s ts, closed_fields g us -> no_separator x ->
    opened (S (S (S n))) (add_waiting k (S (S n)) us) s ts -> opened (S (S n)) k (g ++ x ++ 40 :: s) ts
| op_field : forall k g us x z y t s ts, closed_fields g us -> spelled x z -> arrays_text y (PTuple (us ++ [z])) t -> at_separator s ->
    body 1 (add_waiting k 2 us) s ts -> opened 2 k (g ++ x ++ 41 :: y ++ s) (t :: ts)
| op_inner : forall n k g us x z y t s ts, closed_fields g us -> spelled x z -> arrays_text y (PTuple (us ++ [z])) t -> at_separator s ->
    body (S (S n)) (set_waiting (add_waiting k (S (S (S n))) us) (S (S n)) []) s ts ->
    opened (S (S (S n))) k (g ++ x ++ 41 :: y ++ s) (PTuple (k (S (S n)) ++ [t]) :: ts).
(** The type names the reader accepts. *)
Inductive accepted : str -> ParamType -> Prop :=
| ac_plain : forall s t, spelled s t -> accepted s t
| ac_tuple : forall s ts, body 1 (fun _ => []) (s ++ lit ")") ts -> accepted (lit "(" ++ s ++ lit ")") (PTuple ts)
| ac_array : forall s t, accepted s t -> accepted (s ++ lit "[]") (PArray t)
| ac_fixed_array : forall s t k n, accepted s t -> size_text k n -> accepted (s ++ lit "[" ++ k ++ lit "]") (PFixedArray t n).

(** ** Names that make the reader panic *)
(** The fields of a tuple without inner tuples: all fields before some field are
    types, and that field makes the reader panic. *)
Definition panicking_fields (f : str) : Prop :=
  exists g us x r, closed_fields g us /\ no_separator x /\ panicking x /\ (r = [] \/ exists r', r = 44 :: r') /\ f = g ++ x ++ r.
(** The text after the opening parenthesis of a name: what stands before some
    field is read as in [body] and [opened], and that field makes the reader
    panic. *)
Inductive panicking_body : nat -> str -> Prop :=
| pb_item : forall n x s, no_separator x -> panicking x -> panicking_body (S n) (x ++ 44 :: s)
| pb_last_item : forall x s, no_separator x -> panicking x -> panicking_body 1 (x ++ 41 :: s)
| pb_nothing : forall n s, panicking_body (S n) s -> panicking_body (S n) (44 :: s)
| pb_field : forall n x t s, spelled x t -> panicking_body (S n) s -> panicking_body (S n) (x ++ 44 :: s)
| pb_close : forall n s, panicking_body n s -> panicking_body (S n) (41 :: s)
| pb_last : forall x t s, spelled x t -> panicking_body 0 s -> panicking_body 1 (x ++ 41 :: s)
| pb_open : forall n x s, no_separator x -> panicking_opened (S n) s -> panicking_body (S n) (x ++ 40 :: s)
| pb_again : forall j x s, no_paren j -> no_separator x -> panicking_opened 1 s -> panicking_body 0 (j ++ 40 :: x ++ 40 :: s)
(** [panicking_opened n]: right after the parenthesis that leads from depth [n]
    to depth [n + 1]. *)
with panicking_opened : nat -> str -> Prop :=
| po_item : forall n g us x s, closed_fields g us -> no_separator x -> panicking x -> panicking_opened n (g ++ x ++ 44 :: s)
| po_last_item : forall n g us x y t0 t s, closed_fields g us -> no_separator x -> panicking x -> arrays_text y t0 t -> at_separator s ->
    panicking_opened n (g ++ x ++ 41 :: y ++ s)
| po_lost : forall n g us s, closed_fields g us -> panicking_body n s -> panicking_opened n (g ++ 41 :: s)
| po_deeper : forall n g us x s, closed_fields g us -> no_separator x -> panicking_opened (S n) s -> panicking_opened n (g ++ x ++ 40 :: s)
| po_tuple : forall n g us x z y t0 t s, closed_fields g us -> spelled x z -> arrays_text y t0 t -> at_separator s ->
    panicking_body n s -> panicking_opened n (g ++ x ++ 41 :: y ++ s).
Inductive panicking_name : str -> Prop :=
| pnm_plain : forall s, no_separator s -> panicking s -> panicking_name s
| pnm_tuple : forall s, panicking_body 1 (s ++ lit ")") -> panicking_name (lit "(" ++ s ++ lit ")")
| pnm_array : forall s x, array_suffix x -> panicking_name s -> panicking_name (s ++ x).

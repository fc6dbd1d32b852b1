(** * What derived interfaces mean, independently of their model *)
From Verif Require Import Base Types AbiSpec Function Event EventSpec Heck Derive.
From Coq Require Import String.
Set Implicit Arguments.
Local Open Scope N_scope.
Local Open Scope list_scope.

(** ** Types *)
(** No tuple anywhere inside. *)
Fixpoint no_tuple (t : ParamType) : bool :=
  match t with PArray t' | PFixedArray t' _ => no_tuple t' | PTuple _ => false | _ => true end.
(** Neither a tuple nor a fixed-size array anywhere inside: the types that
    work as results. *)
Fixpoint plain_type (t : ParamType) : bool :=
  match t with PArray t' => plain_type t' | PFixedArray _ _ | PTuple _ => false | _ => true end.
(** As arguments, fixed-size arrays of such types work as well. *)
Definition argument_type (t : ParamType) : bool :=
  match t with PFixedArray t' _ => plain_type t' | _ => plain_type t end.

(** ** Values: [denotes t v x], the Rust value [v] stands for the value [x] of
    type [t] *)
Fixpoint denotes (t : ParamType) (v : rval) (x : Token) {struct t} : Prop :=
  match t with
  | PAddress => exists a, len a = 20 /\ v = RAddress a /\ x = TAddress a
  | PBytes => exists b, v = RBytes b /\ x = TBytes b
  | PFixedBytes n => exists b, len b = n /\ v = (if n =? 32 then RHash b else RByteArray b) /\ x = TFixedBytes b
  | PInt _ => exists n, n < two256 /\ v = RInt n /\ x = TInt n
  | PUint _ => exists n, n < two256 /\ v = RUint n /\ x = TUint n
  | PBool => exists b, v = RBool b /\ x = TBool b
  | PString => exists s, wf_str s = true /\ v = RString s /\ x = TString s
  | PArray t' => exists vs xs, Forall2 (denotes t') vs xs /\ v = RVec vs /\ x = TArray xs
  | PFixedArray _ _ | PTuple _ => False
  end.
(** A Rust array as argument for a fixed-size array. *)
Definition argument (t : ParamType) (v : rval) (x : Token) : Prop :=
  match t with
  | PFixedArray t' n => exists vs xs, len vs = n /\ Forall2 (denotes t') vs xs /\ v = RArr vs /\ x = TFixedArray xs
  | _ => denotes t v x
  end.
Inductive Forall3 {A B C} (P : A -> B -> C -> Prop) : list A -> list B -> list C -> Prop :=
| Forall3_nil : Forall3 P [] [] []
| Forall3_cons a b c la lb lc : P a b c -> Forall3 P la lb lc -> Forall3 P (a :: la) (b :: lb) (c :: lc).
(** Alternatives of a filter. *)
Definition topic_denotes (t : ParamType) (v : Topic rval) (x : Topic Token) : Prop :=
  match v, x with
  | Any, Any => True
  | This v, This x => denotes t v x
  | OneOf vs, OneOf xs => Forall2 (denotes t) vs xs
  | _, _ => False
  end.

(** ** Names that CamelCase leaves alone *)
Definition upper (c : char) : Prop := 65 <= c <= 90.
Definition lower (c : char) : Prop := 97 <= c <= 122.
(** The last letter of a text. *)
Inductive last_letter : str -> char -> Prop :=
| last_letter_here l c : upper c \/ lower c -> last_letter (l ++ [c]) c
| last_letter_before l c d : last_letter l c -> ~ upper d -> ~ lower d -> last_letter (l ++ [d]) c.
(** No '_', not starting with a lower case letter, and every capital that is
    not at the start follows a lower case letter (digits in between do not
    matter), or follows a capital and is followed by a lower case letter. *)
Definition camel (s : str) : Prop :=
  ~ In 95 s /\
  (forall c s', s = c :: s' -> ~ lower c) /\
  (forall l1 c l2, s = l1 ++ c :: l2 -> l1 <> [] -> upper c ->
    exists b, last_letter l1 b /\ (lower b \/ exists d l3, l2 = d :: l3 /\ lower d)).

(** ** Values of the Rust types *)
Fixpoint of_type (y : rty) (v : rval) {struct y} : Prop :=
  match y with
  | YAddress => exists a, len a = 20 /\ v = RAddress a
  | YBytes => exists b, v = RBytes b
  | YHash => exists b, len b = 32 /\ v = RHash b
  | YByteArray n => exists b, len b = n /\ v = RByteArray b
  | YInt => exists n, n < two256 /\ v = RInt n
  | YUint => exists n, n < two256 /\ v = RUint n
  | YBool => exists b, v = RBool b
  | YString => exists s, wf_str s = true /\ v = RString s
  | YVec y' => exists vs, Forall (of_type y') vs /\ v = RVec vs
  | YComma _ _ => False
  end.
(** Arguments a bound admits, as the code sees them. *)
Definition meets (b : bound) (v : rval) : Prop :=
  match b with
  | BInto y => of_type y v
  | BIter y => exists vs, Forall (of_type y) vs /\ v = RVec vs
  | BArray y n => exists vs, len vs = n /\ Forall (of_type y) vs /\ v = RArr vs
  end.
(** The alternatives of a topic argument. *)
Definition topic_of_type (y : rty) (v : Topic rval) : Prop := Forall (of_type y) (topic_tokens v).

(** ** Names that snake_case leaves alone *)
Definition digit (c : char) : Prop := 48 <= c <= 57.
Definition snake (s : str) : Prop :=
  s <> [] /\ (forall c, In c s -> lower c \/ digit c \/ c = 95) /\
  (forall s', s <> 95 :: s') /\ (forall s', s <> s' ++ [95]) /\ (forall l1 l2, s <> l1 ++ 95 :: 95 :: l2).

(** ** Names the compiler takes *)
Definition letter (c : char) : Prop := upper c \/ lower c.
Definition identifier (s : str) : Prop :=
  exists c s', s = c :: s' /\ (letter c \/ c = 95) /\ forall d, In d s' -> letter d \/ digit d \/ d = 95.
(** A letter comes first, after any number of '_'. *)
Definition starts_with_letter (s : str) : Prop := exists l c r, s = l ++ c :: r /\ (forall x, In x l -> x = 95) /\ letter c.
(** The reference, "Keywords": strict ones, those added in the 2018 edition,
    and reserved ones. *)
Definition reserved_words : list str :=
  map lit ["as"; "break"; "const"; "continue"; "crate"; "else"; "enum"; "extern"; "false"; "fn"; "for"; "if"; "impl"; "in"; "let"; "loop"; "match"; "mod"; "move"]%string ++
  map lit ["mut"; "pub"; "ref"; "return"; "self"; "Self"; "static"; "struct"; "super"; "trait"; "true"; "type"; "unsafe"; "use"; "where"; "while"]%string ++
  map lit ["async"; "await"; "dyn"]%string ++
  map lit ["abstract"; "become"; "box"; "do"; "final"; "macro"; "override"; "priv"; "typeof"; "unsized"; "virtual"; "yield"; "try"]%string.
Definition usable (s : str) : Prop := identifier s /\ ~ In s reserved_words.
(** [names] are the names of the entries of [l] in turn, where the i-th entry
    x may be called n if [name i x n]. *)
Definition named {A} (name : nat -> A -> str -> Prop) (l : list A) (names : list str) : Prop :=
  List.length names = List.length l /\ forall i x, nth_error l i = Some x -> exists n, nth_error names i = Some n /\ name i x n.
(** What a parameter is called in the generated code. *)
Definition parameter_name (i : nat) (x : Param) (n : str) : Prop :=
  (p_name x = [] -> n = lit "param" ++ show_dec (N.of_nat i)) /\
  (p_name x = lit "self" -> n = lit "_self") /\
  (p_name x <> [] -> p_name x <> lit "self" -> n = to_snake_case (p_name x)).
(** What the field of the log for a parameter is called, and the parameter of
    the filter. *)
Definition field_name (i : nat) (x : EventParam) (n : str) : Prop :=
  (ep_name x = [] -> ep_indexed x = true -> n = lit "topic" ++ show_dec (N.of_nat i)) /\
  (ep_name x = [] -> ep_indexed x = false -> n = lit "param" ++ show_dec (N.of_nat i)) /\
  (ep_name x <> [] -> n = to_snake_case (ep_name x)).
(** Arrays of arrays (...) of strings. *)
Fixpoint string_inside (t : ParamType) : Prop :=
  match t with PString => True | PArray t' => string_inside t' | _ => False end.

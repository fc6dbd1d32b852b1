(** * What the attribute of the derive macro says

    The grammar of attributes and the file that they name, in terms of tokens
    (the types of Attr.v); nothing of the parser is used. *)
From Verif Require Import Base Attr.
From Coq Require Import String.
Set Implicit Arguments.
Local Open Scope N_scope.
Local Open Scope list_scope.

Definition punct (s : string) : tree := TPunct (lit s).
Definition is_bool (s : str) : Prop := s = lit "true" \/ s = lit "false".
Inductive lit_text : list tree -> lit_value -> Prop :=
| lt_str : forall v, lit_text [TLiteral (LitStr v)] (VStr v)
| lt_literal : forall l, (forall v, l <> LitStr v) -> lit_text [TLiteral l] VOther
| lt_bool : forall s, is_bool s -> lit_text [TIdent s] VOther
| lt_negative : lit_text [punct "-"; TLiteral LitNumber] VOther.
Inductive idents_text : list tree -> list str -> Prop :=
| it_last : forall s, idents_text [TIdent s] [s]
| it_more : forall s ts l, idents_text ts l -> idents_text (TIdent s :: punct "::" :: ts) (s :: l).
Inductive path_text : list tree -> path -> Prop :=
| pt_plain : forall ts l, idents_text ts l -> path_text ts (mkPath false l)
| pt_leading : forall ts l, idents_text ts l -> path_text (punct "::" :: ts) (mkPath true l).
(** [after_text q ts m]: [ts] after the path [q] makes the item [m].
    [true] and [false] are literals, not paths, unless a value is given to
    them. *)
Inductive after_text : path -> list tree -> meta -> Prop :=
| af_path : forall q, after_text q [] (MPath q)
| af_list : forall q ts l, items_text ts l -> after_text q [TParen ts] (MList q l)
| af_value : forall q ts v, lit_text ts v -> after_text q (punct "=" :: ts) (MNameValue q v)
with items_text : list tree -> list nested -> Prop :=
| is_none : items_text [] []
| is_last : forall ts n, nested_text ts n -> items_text ts [n]
| is_more : forall ts n rest l, nested_text ts n -> items_text rest l -> items_text (ts ++ punct "," :: rest) (n :: l)
with nested_text : list tree -> nested -> Prop :=
| ns_lit : forall ts v, lit_text ts v -> nested_text ts (NLit v)
| ns_meta : forall ts q rest m, path_text ts q -> after_text q rest m ->
    (forall s ts', ts = TIdent s :: ts' -> is_bool s -> ts' = [] /\ exists v, m = MNameValue q v) -> nested_text (ts ++ rest) (NMeta m).

(** The attributes name the file [file]: the first well-formed attribute
    [ethabi_contract_options] is a list, and its first item [path] is a string. *)
Definition names_file (attrs : list attribute) (file : str) : Prop := exists before ts after l1 l2,
  attrs = before ++ mkAttr (mkPath false [lit "ethabi_contract_options"]) [TParen ts] :: after /\
  (forall a m, In a before -> at_path a = mkPath false [lit "ethabi_contract_options"] -> ~ after_text (at_path a) (at_tokens a) m) /\
  items_text ts (l1 ++ NMeta (MNameValue (mkPath false [lit "path"]) (VStr file)) :: l2) /\
  (forall m, In (NMeta m) l1 -> meta_path m <> mkPath false [lit "path"]).
(** A path that is not absolute is taken relative to the directory of the
    manifest. *)
Definition found_at (dir rel full : str) : Prop :=
  (exists r, rel = lit "/" ++ r /\ full = rel) \/
  ((forall r, rel <> lit "/" ++ r) /\
   ((dir = [] /\ full = rel) \/ (exists d, dir = d ++ lit "/" /\ full = dir ++ rel) \/
    (dir <> [] /\ (forall d, dir <> d ++ lit "/") /\ full = dir ++ lit "/" ++ rel))).

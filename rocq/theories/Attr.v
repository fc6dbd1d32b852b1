(** * The attribute of the derive macro

    /repo/derive/src/lib.rs:27-83 and the part of the crate syn that it uses:
    [Attribute::parse_meta] with [Meta], [NestedMeta], [Lit] and [Path].
    From the attributes of the struct, the environment and the files to the
    generated code; what comes after the file is in JsonText.v and
    DeriveText.v. *)
From Verif Require Import Base Contract JsonText Quote RustSyntax DeriveText.
From Coq Require Import String.
Set Implicit Arguments.
Local Open Scope N_scope.
Local Open Scope list_scope.

(** ** Tokens
    Crate proc_macro2: [TokenTree].  Simplified: characters of an operator such
    as [::] are one token; a string literal stands for its value, other
    literals only for their kind; groups without delimiters, in which macros
    pass their arguments, are replaced by their contents, as the cursor of syn
    does. *)
Inductive literal := LitStr (value : str) | LitNumber | LitOther.
(** Token trees of crate proc-macro2: what syn reads at lib.rs:28-41 *)
Inductive tree :=
| TIdent (s : str)
| TPunct (s : str)
| TLiteral (l : literal)
| TParen (ts : list tree)
| TGroup (ts : list tree).   (* braces or brackets *)
(** syn [Path]: is there a leading [::], and the identifiers *)
Record path := mkPath { leading : bool; idents : list str }.
(** syn [Lit]: only strings are told apart. *)
Inductive lit_value := VStr (value : str) | VOther.
(** syn [Meta] and [NestedMeta] *)
Inductive meta :=
| MPath (q : path)
| MList (q : path) (l : list nested)
| MNameValue (q : path) (v : lit_value)
with nested :=
| NMeta (m : meta)
| NLit (v : lit_value).
(** syn [Attribute]: the path and what follows it *)
Record attribute := mkAttr { at_path : path; at_tokens : list tree }.
(** syn [Meta::path] *)
Definition meta_path (m : meta) : path := match m with MPath q | MList q _ | MNameValue q _ => q end.
(** syn [Path::is_ident] *)
Definition is_ident (q : path) (name : str) : bool :=
  match q with mkPath false [x] => str_eqb x name | _ => false end.

(** ** The parser of syn *)
(** syn [Lit::parse] *)
Definition parse_lit (ts : list tree) : option (lit_value * list tree) :=
  match ts with
  | TLiteral (LitStr v) :: r => Some (VStr v, r)
  | TLiteral _ :: r => Some (VOther, r)
  | TIdent s :: r => if str_eqb s (lit "true") || str_eqb s (lit "false") then Some (VOther, r) else None
  | TPunct s :: TLiteral LitNumber :: r => if str_eqb s (lit "-") then Some (VOther, r) else None
  | _ => None
  end.
(** [Token![x]::peek] *)
Definition is_punct (s : string) (t : tree) : bool := match t with TPunct s' => str_eqb s' (lit s) | _ => false end.
(** [ParseBuffer::peek] *)
Definition next_is (s : string) (ts : list tree) : bool := match ts with t :: _ => is_punct s t | [] => false end.
(** syn [parse_meta_path]: identifiers between [::], at least one *)
Fixpoint parse_idents (ts : list tree) : option (list str * list tree) :=
  match ts with
  | TIdent s :: t :: r => if is_punct "::" t then match parse_idents r with Some (l, r') => Some (s :: l, r') | None => None end else Some ([s], t :: r)
  | TIdent s :: [] => Some ([s], [])
  | _ => None
  end.
(** syn [parse_meta_path], all of the path *)
Definition parse_path (ts : list tree) : option (path * list tree) :=
  let b := next_is "::" ts in
  match parse_idents (if b then tl ts else ts) with Some (l, r) => Some (mkPath b l, r) | None => None end.
(** syn [parse_meta_after_path], [Meta::parse], [NestedMeta::parse] and
    [parse_terminated].  [fuel] bounds the nesting and the number of items. *)
Fixpoint parse_items (fuel : nat) (ts : list tree) : option (list nested) :=
  match fuel with
  | O => None
  | S f =>
    let after_path (q : path) (ts : list tree) : option (meta * list tree) :=
      match ts with
      | TParen c :: r => match parse_items f c with Some l => Some (MList q l, r) | None => None end
      | t :: r => if is_punct "=" t then match parse_lit r with Some (v, r') => Some (MNameValue q v, r') | None => None end else Some (MPath q, ts)
      | [] => Some (MPath q, [])
      end in
    let parse_nested (ts : list tree) : option (nested * list tree) :=
      match parse_lit ts with
      | Some (v, r) =>
        if match ts with TIdent _ :: _ => next_is "=" r | _ => false end
        then match parse_path ts with Some (q, r) => match after_path q r with Some (m, r') => Some (NMeta m, r') | None => None end | None => None end
        else Some (NLit v, r)
      | None => match parse_path ts with Some (q, r) => match after_path q r with Some (m, r') => Some (NMeta m, r') | None => None end | None => None end
      end in
    match ts with
    | [] => Some []
    | _ =>
      match parse_nested ts with
      | Some (n, []) => Some [n]
      | Some (n, t :: r) => if is_punct "," t then match parse_items f r with Some l => Some (n :: l) | None => None end else None
      | None => None
      end
    end
  end.
(** The number of tokens *)
Fixpoint tree_size (t : tree) : nat :=
  match t with
  | TParen ts | TGroup ts => S (fold_right (fun t n => (tree_size t + n)%nat) O ts)
  | _ => 1
  end.
(** The number of tokens in trees: fuel *)
Definition trees_size (ts : list tree) : nat := fold_right (fun t n => (tree_size t + n)%nat) O ts.
(** syn [Attribute::parse_meta] *)
Definition parse_meta (a : attribute) : option meta :=
  match at_tokens a with
  | [] => Some (MPath (at_path a))
  | [TParen c] => match parse_items (S (trees_size c)) c with Some l => Some (MList (at_path a) l) | None => None end
  | t :: r => if is_punct "=" t then match parse_lit r with Some (v, []) => Some (MNameValue (at_path a) v) | _ => None end else None
  end.

(** ** /repo/derive/src/lib.rs *)
(** lib.rs:46-53 [get_options]: attributes that are not well-formed are passed
    over. *)
Definition get_options (attrs : list attribute) (name : str) : res (list nested) :=
  match find (fun m => is_ident (meta_path m) name) (flat_map (fun a => match parse_meta a with Some m => [m] | None => [] end) attrs) with
  | Some (MList _ l) => Ok l
  | _ => Err (OtherErr (lit "Unexpected meta item"))
  end.
(** lib.rs:68-76 [str_value_of_meta_item] *)
Definition str_value_of_meta_item (m : meta) (name : str) : res str :=
  match m with
  | MNameValue _ (VStr v) => Ok v
  | _ => Err (OtherErr (lit "`" ++ name ++ lit "` must be in the form `#[" ++ name ++ lit "=""something""]`"))
  end.
(** lib.rs:55-66 [get_option] *)
Definition get_option (options : list nested) (name : str) : res str :=
  match find (fun m => is_ident (meta_path m) name) (flat_map (fun n => match n with NMeta m => [m] | NLit _ => [] end) options) with
  | Some m => str_value_of_meta_item m name
  | None => Err (OtherErr (lit "Expected to find option " ++ name))
  end.
(** std [PathBuf::push] on Unix, paths as strings *)
Definition push_path (dir rel : str) : str :=
  match rel with
  | 47 :: _ => rel
  | _ => match last_char dir with
         | None => rel
         | Some c => if c =? 47 then dir ++ rel else dir ++ 47 :: rel
         end
  end.
(** lib.rs:78-84 [normalize_path]; [manifest_dir]: [env::var("CARGO_MANIFEST_DIR")]
    if it is set and valid UTF-8 *)
Definition normalize_path (manifest_dir : option str) (relative_path : str) : res str :=
  match manifest_dir with Some dir => Ok (push_path dir relative_path) | None => Err (OtherErr (lit "Cannot find manifest file")) end.
(** What a path leads to: [None] if it cannot be opened; a file that can be
    opened but not read, such as a directory, is [Some None]. *)
Definition files := str -> option (option (list byte)).
Section Macro.
Context (p : profile) (manifest_dir : option str) (fs : files).
(** The order in which the hash maps of a contract are iterated over *)
Context (order : Contract -> groups Function.Function * groups Event.Event).
(** lib.rs:34-44 [impl_ethabi_derive] *)
Definition impl_ethabi_derive (attrs : list attribute) : res toks :=
  do options <- get_options attrs (lit "ethabi_contract_options");
  do rel <- get_option options (lit "path");
  do file <- normalize_path manifest_dir rel;
  match fs file with
  | None => Err (OtherErr (lit "Cannot load contract abi from `" ++ file ++ lit "`"))
  | Some None => Err SerdeJson
  | Some (Some bytes) =>
    do c <- load_bytes p bytes;
    contract_text c (fst (order c)) (snd (order c))
  end.
(** lib.rs:27-32 [ethabi_derive]: an error is a panic of the macro, which is an
    error of the compiler.  That the input is a struct is taken for granted. *)
Definition ethabi_derive (attrs : list attribute) : res toks :=
  match impl_ethabi_derive attrs with Ok text => Ok text | _ => Panic end.
End Macro.
(** /repo/contract/src/lib.rs:10-24 [use_contract!]: the attributes of the
    struct in the module, for the tokens of the second argument.  (The compiler
    removes [derive] before it calls the macro.) *)
Definition use_contract (argument : list tree) : list attribute :=
  [mkAttr (mkPath false [lit "ethabi_contract_options"]) [TParen (TIdent (lit "path") :: TPunct (lit "=") :: argument)]].

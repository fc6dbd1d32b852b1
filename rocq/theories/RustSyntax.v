(** * The part of Rust in which the derive macro writes

    Tokens, syntax trees, and how the trees are written as tokens.  This is
    what the texts of /repo/derive/src use; nothing here comes from the
    repository.  Simplifications: punctuation is a sequence of single
    characters (proc_macro2 also records whether two of them touch, which
    decides on spaces when printing); delimiters are plain tokens. *)
From Verif Require Import Base.
From Coq Require Import String.
Set Implicit Arguments.
Local Open Scope N_scope.
Local Open Scope list_scope.

(** ** Tokens *)
Inductive tok :=
| KId (s : str)                  (* identifiers and keywords *)
| KPu (c : char)                 (* punctuation and delimiters *)
| KStr (s : str)                 (* "s" *)
| KNum (n : N) (suffix : str)    (* 256usize *)
| KLife (s : str).               (* 's *)
Notation toks := (list tok).
(** Punctuation given as text *)
Definition pu (s : string) : toks := map KPu (lit s).
(** A word *)
Definition kw (s : string) : tok := KId (lit s).
(** [#(#l)sep*] *)
Fixpoint sep (s : toks) (l : list toks) : toks :=
  match l with
  | [] => []
  | [x] => x
  | x :: l' => x ++ s ++ sep s l'
  end.
(** [#(#l),*] *)
Definition commas (l : list toks) : toks := sep (pu ",") l.

(** ** Trees *)
(** [a::b::c]; an empty first segment writes [::a::b]. *)
Notation path := (list str).
(** A path of these names *)
Definition segments (l : list string) : path := map lit l.
(** Types: those written at lib.rs:130-182, function.rs:169-214, event.rs:143-200 *)
Inductive ty :=
| TyName (p : path) (args : list ty)     (* p<args>, or p if there are none *)
| TyArray (t : ty) (n : N)               (* [t; nusize] *)
| TyComma (t : ty) (n : N)               (* [t, nusize], which is no type *)
| TySlice (t : ty)                       (* [t] *)
| TyRef (t : ty)                         (* &t *)
| TyStatic (t : ty)                      (* &'static t *)
| TyTuple (l : list ty)                  (* (a, b); () if empty *)
| TyInfer.                               (* _ *)
Inductive binder := Let (x : str) | LetMut (x : str) | Do.
(** Expressions: those written at lib.rs:85-283, function.rs:98-214, constructor.rs:71-79, event.rs:46-200 *)
Inductive expr :=
| EPath (p : path)
| EStr (s : str) | ENum (n : N) (suffix : str) | EBool (b : bool)
| ECall (p : path) (args : list expr)                        (* p(args) *)
| EMethod (e : expr) (m : str) (turbofish : list ty) (args : list expr) (* e.m::<ty>(args) *)
| EMap (e : expr) (x : str) (body : expr)                    (* e.map(|x| body) *)
| EField (e : expr) (f : str)                                (* e.f *)
| EFirst (e : expr)                                          (* e.0 *)
| ETry (e : expr)                                            (* e? *)
| ERef (e : expr)                                            (* &e *)
| ECast (e : expr) (t : ty)                                  (* (e as t) *)
| ETuple (l : list expr)                                     (* (a, b); () if empty *)
| EArray (l : list expr)                                     (* [a, b] *)
| ERepeat (e : expr) (n : N)                                 (* [e; n] *)
| EVec (l : list expr)                                       (* vec![a, b] *)
| EBlock (l : list (binder * expr)) (e : expr)               (* { let x = e'; e } *)
| EStruct (p : path) (fields : list (str * expr)) (* p { f: e } *)
| EStructTrailing (p : path) (fields : list (str * expr)) (* p { f: e, } *)
| EStructDefault (p : path) (fields : list (str * expr)) (base : path). (* p { f: e, ..base() } *)

(** The text of a path *)
Fixpoint wr_path (p : path) : toks :=
  match p with
  | [] => []
  | [x] => [KId x]
  | x :: p' => (match x with [] => [] | _ => [KId x] end) ++ pu "::" ++ wr_path p'
  end.
(** The text of a type *)
Fixpoint wr_ty (t : ty) : toks :=
  match t with
  | TyName p [] => wr_path p
  | TyName p args => wr_path p ++ pu "<" ++ commas (map wr_ty args) ++ pu ">"
  | TyArray t n => pu "[" ++ wr_ty t ++ pu ";" ++ [KNum n (lit "usize")] ++ pu "]"
  | TyComma t n => pu "[" ++ wr_ty t ++ pu "," ++ [KNum n (lit "usize")] ++ pu "]"
  | TySlice t => pu "[" ++ wr_ty t ++ pu "]"
  | TyRef t => pu "&" ++ wr_ty t
  | TyStatic t => pu "&" ++ [KLife (lit "static")] ++ wr_ty t
  | TyTuple l => pu "(" ++ commas (map wr_ty l) ++ pu ")"
  | TyInfer => [kw "_"]
  end.
(** The text of a pattern *)
Definition wr_binder (b : binder) : toks :=
  match b with
  | Let x => [kw "let"; KId x] ++ pu "="
  | LetMut x => [kw "let"; kw "mut"; KId x] ++ pu "="
  | Do => []
  end.
(** The text of an expression *)
Fixpoint wr (e : expr) : toks :=
  let field (x : str * expr) := [KId (fst x)] ++ pu ":" ++ wr (snd x) in
  match e with
  | EPath p => wr_path p
  | EStr s => [KStr s]
  | ENum n suffix => [KNum n suffix]
  | EBool b => [kw (if b then "true" else "false")]
  | ECall p args => wr_path p ++ pu "(" ++ commas (map wr args) ++ pu ")"
  | EMethod e m [] args => wr e ++ pu "." ++ [KId m] ++ pu "(" ++ commas (map wr args) ++ pu ")"
  | EMethod e m ts args => wr e ++ pu "." ++ [KId m] ++ pu "::<" ++ commas (map wr_ty ts) ++ pu ">(" ++ commas (map wr args) ++ pu ")"
  | EMap e x body => wr e ++ pu "." ++ [kw "map"] ++ pu "(|" ++ [KId x] ++ pu "|" ++ wr body ++ pu ")"
  | EField e f => wr e ++ pu "." ++ [KId f]
  | EFirst e => wr e ++ pu "." ++ [KNum 0 []]
  | ETry e => wr e ++ pu "?"
  | ERef e => pu "&" ++ wr e
  | ECast e t => pu "(" ++ wr e ++ [kw "as"] ++ wr_ty t ++ pu ")"
  | ETuple l => pu "(" ++ commas (map wr l) ++ pu ")"
  | EArray l => pu "[" ++ commas (map wr l) ++ pu "]"
  | ERepeat e n => pu "[" ++ wr e ++ pu ";" ++ [KNum n []] ++ pu "]"
  | EVec l => [kw "vec"] ++ pu "![" ++ commas (map wr l) ++ pu "]"
  | EBlock l e => pu "{" ++ List.concat (map (fun x => wr_binder (fst x) ++ wr (snd x) ++ pu ";") l) ++ wr e ++ pu "}"
  | EStruct p fields => wr_path p ++ pu "{" ++ commas (map field fields) ++ pu "}"
  | EStructTrailing p fields => wr_path p ++ pu "{" ++ List.concat (map (fun x => field x ++ pu ",") fields) ++ pu "}"
  | EStructDefault p fields base => wr_path p ++ pu "{" ++ List.concat (map (fun x => field x ++ pu ",") fields) ++ pu ".." ++ wr_path base ++ pu "()" ++ pu "}"
  end.

(** ** Items *)
(** [x: Into<t>] and [x: IntoIterator<Item = u>] *)
Inductive generic := GInto (x : str) (t : ty) | GIter (x u : str).
(** The body of a function is a block. *)
Record fn := mkFn {
  fn_doc : option str;
  fn_pub : bool;
  fn_name : str;
  fn_generics : option (list generic);
  fn_self : bool;
  fn_params : list (str * ty);
  fn_ret : ty;
  fn_body : list (binder * expr);
  fn_result : expr }.
(** Items: contract.rs:38-62, function.rs:169-214, constructor.rs:71-79, event.rs:143-200 *)
Inductive item :=
| IUse (p : path)
| IConst (x : str) (t : ty) (value : str)
| IFn (f : fn)
| INewtype (doc : str) (x : str) (t : ty)                       (* pub struct x(t); *)
| IImpl (trait : path) (x : str) (assoc : str) (t : ty) (f : fn)    (* impl trait for x { type assoc = t; f } *)
| IStruct (derives : list str) (x : str) (fields : list (str * ty))
| IMod (doc : option str) (x : str) (items : list item).

(** The text of a doc comment *)
Definition wr_doc (d : option str) : toks :=
  match d with None => [] | Some s => pu "#[" ++ [kw "doc"] ++ pu "=" ++ [KStr s] ++ pu "]" end.
(** The text of a bound *)
Definition wr_generic (g : generic) : toks :=
  match g with
  | GInto x t => [KId x] ++ pu ":" ++ [kw "Into"] ++ pu "<" ++ wr_ty t ++ pu ">"
  | GIter x u => [KId x] ++ pu ":" ++ [kw "IntoIterator"] ++ pu "<" ++ [kw "Item"] ++ pu "=" ++ [KId u] ++ pu ">"
  end.
(** The text of a field or parameter *)
Definition wr_field (x : str * ty) : toks := [KId (fst x)] ++ pu ":" ++ wr_ty (snd x).
(** The text of a function *)
Definition wr_fn (f : fn) : toks :=
  wr_doc (fn_doc f) ++ (if fn_pub f then [kw "pub"] else []) ++ [kw "fn"; KId (fn_name f)] ++
  match fn_generics f with None => [] | Some l => pu "<" ++ commas (map wr_generic l) ++ pu ">" end ++
  pu "(" ++ commas ((if fn_self f then [pu "&" ++ [kw "self"]] else []) ++ map wr_field (fn_params f)) ++ pu ")" ++
  pu "->" ++ wr_ty (fn_ret f) ++ wr (EBlock (fn_body f) (fn_result f)).
(** The text of an item *)
Fixpoint wr_item (i : item) : toks :=
  match i with
  | IUse p => [kw "use"] ++ wr_path p ++ pu ";"
  | IConst x t s => [kw "const"; KId x] ++ pu ":" ++ wr_ty t ++ pu "=" ++ [KStr s] ++ pu ";"
  | IFn f => wr_fn f
  | INewtype doc x t => wr_doc (Some doc) ++ [kw "pub"; kw "struct"; KId x] ++ pu "(" ++ wr_ty t ++ pu ");"
  | IImpl trait x assoc t f =>
    [kw "impl"] ++ wr_path trait ++ [kw "for"; KId x] ++ pu "{" ++ [kw "type"; KId assoc] ++ pu "=" ++ wr_ty t ++ pu ";" ++ wr_fn f ++ pu "}"
  | IStruct derives x fields =>
    pu "#[" ++ [kw "derive"] ++ pu "(" ++ commas (map (fun d => [KId d]) derives) ++ pu ")]" ++
    [kw "pub"; kw "struct"; KId x] ++ pu "{" ++ commas (map (fun f => [kw "pub"] ++ wr_field f) fields) ++ pu "}"
  | IMod doc x items => wr_doc doc ++ [kw "pub"; kw "mod"; KId x] ++ pu "{" ++ List.concat (map wr_item items) ++ pu "}"
  end.
(** The text of a module *)
Definition wr_items (l : list item) : toks := List.concat (map wr_item l).

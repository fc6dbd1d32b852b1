(** * Reading the generated code

    A parser by recursive descent for the part of Rust in which the derive
    macro writes, after the grammar in the Rust reference: which tokens make
    up which syntax tree of RustSyntax.v.  It is not the inverse of the
    writer in RustSyntax.v: the writer writes every tree, the parser takes
    what is Rust.  It refuses keywords as names, [[t, n]] as a type, and
    where two trees are written in the same way ([&a.b()], [(a)], [p {}]) it
    decides as Rust does.  Nothing here comes from /repo.  Simplifications:
    only the forms that RustSyntax.v has trees for; what follows a path and
    an opening brace is a struct; no statement starts with a block. *)
From Verif Require Import Base RustSyntax.
From Coq Require Import String.
Notation length := List.length.
Set Implicit Arguments.
Local Open Scope N_scope.
Local Open Scope list_scope.

(** What is read and what is left *)
Definition parser (A : Type) := toks -> option (A * toks).
(** One after the other *)
Definition andthen {A B} (o : option A) (f : A -> option B) : option B := match o with Some a => f a | None => None end.
Notation "'try' x <- o ; k" := (andthen o (fun x => k)) (at level 200, x pattern, o at level 100, k at level 200).

(** ** Tokens *)
Definition tok_eqb (a b : tok) : bool :=
  match a, b with
  | KId s, KId s' | KStr s, KStr s' | KLife s, KLife s' => str_eqb s s'
  | KPu c, KPu c' => c =? c'
  | KNum n s, KNum n' s' => (n =? n') && str_eqb s s'
  | _, _ => false
  end.
(** Takes off the tokens [t]. *)
Fixpoint eat (t l : toks) : option toks :=
  match t with
  | [] => Some l
  | a :: t' => match l with b :: l' => if tok_eqb a b then eat t' l' else None | [] => None end
  end.
(** Whether the tokens [t] follow *)
Definition next (t l : toks) : bool := match eat t l with Some _ => true | None => false end.

(** ** Names: https://doc.rust-lang.org/reference/keywords.html *)
Definition reserved : list str := map lit [
  "as"; "break"; "const"; "continue"; "crate"; "else"; "enum"; "extern"; "false"; "fn"; "for"; "if"; "impl"; "in"; "let"; "loop"; "match"; "mod"; "move";
  "mut"; "pub"; "ref"; "return"; "self"; "Self"; "static"; "struct"; "super"; "trait"; "true"; "type"; "unsafe"; "use"; "where"; "while"; "async"; "await"; "dyn";
  "abstract"; "become"; "box"; "do"; "final"; "macro"; "override"; "priv"; "typeof"; "unsized"; "virtual"; "yield"; "try"]%string.
(** A name that is no keyword *)
Definition is_name (s : str) : bool := negb (existsb (str_eqb s) reserved) && negb (str_eqb s (lit "_")).
(** In paths [self], [Self], [super] and [crate] are allowed. *)
Definition is_segment (s : str) : bool := is_name s || existsb (str_eqb s) (segments ["self"; "Self"; "super"; "crate"]%string).
(** One segment of a path *)
Definition p_word : parser str := fun l =>
  match l with KId s :: l' => if is_name s then Some (s, l') else None | _ => None end.
(** A literal [".."] *)
Definition p_string : parser str := fun l => match l with KStr s :: l' => Some (s, l') | _ => None end.
(** A literal [32usize]: the number and its suffix *)
Definition p_number : parser (N * str) := fun l => match l with KNum n s :: l' => Some ((n, s), l') | _ => None end.
(** [a::b::c] *)
Fixpoint p_segments (l : toks) : option (path * toks) :=
  match l with
  | KId s :: l' =>
    if is_segment s then
      match l' with
      | KPu c :: KPu d :: l'' =>
        if (c =? 58) && (d =? 58) then try (p, r) <- p_segments l''; Some (s :: p, r) else Some ([s], l')
      | _ => Some ([s], l')
      end
    else None
  | _ => None
  end.
(** [a::b::c] or [::a::b] *)
Definition p_path : parser path := fun l =>
  match eat (pu "::") l with
  | Some l' => try (p, r) <- p_segments l'; Some ([] :: p, r)
  | None => p_segments l
  end.

(** ** Lists up to a closing token *)
Section Lists.
Context {A : Type} (one : parser A) (close : toks).
(** [a, b close] *)
Fixpoint p_commas1 (n : nat) (l : toks) : option (list A * toks) :=
  match n with
  | O => None
  | S n' =>
    try (a, r) <- one l;
    match eat close r with
    | Some r' => Some ([a], r')
    | None => try r' <- eat (pu ",") r; try (l', r'') <- p_commas1 n' r'; Some (a :: l', r'')
    end
  end.
(** [a, b close], the end at once or after an item *)
Definition p_commas (n : nat) (l : toks) : option (list A * toks) :=
  match eat close l with Some r => Some ([], r) | None => p_commas1 n l end.
(** [a b close] *)
Fixpoint p_many (n : nat) (l : toks) : option (list A * toks) :=
  match eat close l with
  | Some r => Some ([], r)
  | None => match n with O => None | S n' => try (a, r) <- one l; try (l', r') <- p_many n' r; Some (a :: l', r') end
  end.
End Lists.

(** ** Types *)
Definition p_size (suffix : string) : parser N := fun l =>
  try (n, r) <- p_number l; if str_eqb (snd n) (lit suffix) then Some (fst n, r) else None.
(** Types: those written at lib.rs:130-182, function.rs:169-214, event.rs:143-200 *)
Fixpoint p_ty (n : nat) (l : toks) : option (ty * toks) :=
  match n with
  | O => None
  | S n =>
    if next (pu "[") l then
      try l <- eat (pu "[") l;
      try (t, r) <- p_ty n l;
      match eat (pu "]") r with
      | Some r' => Some (TySlice t, r')
      | None => try r <- eat (pu ";") r; try (k, r) <- p_size "usize" r; try r <- eat (pu "]") r; Some (TyArray t k, r)
      end
    else if next (pu "&") l then
      try l <- eat (pu "&") l;
      match eat [KLife (lit "static")] l with
      | Some l' => try (t, r) <- p_ty n l'; Some (TyStatic t, r)
      | None => try (t, r) <- p_ty n l; Some (TyRef t, r)
      end
    else if next (pu "(") l then
      try l <- eat (pu "(") l;
      try (ts, r) <- p_commas (p_ty n) (pu ")") n l;
      Some (match ts with [t] => t | _ => TyTuple ts end, r)
    else if next [kw "_"] l then try r <- eat [kw "_"] l; Some (TyInfer, r)
    else
      try (p, r) <- p_path l;
      match eat (pu "<") r with
      | Some r' => try (ts, r'') <- p_commas1 (p_ty n) (pu ">") n r'; Some (TyName p ts, r'')
      | None => Some (TyName p [], r)
      end
  end.

(** ** Expressions *)
Section Expressions.
Context (one : parser expr) (n : nat).
(** The arguments of a call *)
Definition p_args : parser (list expr) := p_commas one (pu ")") n.
(** [name: e] in a struct *)
Definition p_field : parser (str * expr) := fun l =>
  try (x, r) <- p_word l; try r <- eat (pu ":") r; try (e, r) <- one r; Some ((x, e), r).
(** What follows [p {] *)
Inductive ending := Plain | Trailing | Base (p : path).
(** [..Default::default()]: event.rs:178-181 *)
Definition p_base (l : toks) : option (path * toks) :=
  try r <- eat (pu "..") l; try (p, r) <- p_path r; try r <- eat (pu "()}") r; Some (p, r).
(** The fields of a struct, and what ends them *)
Fixpoint p_fields (k : nat) (l : toks) : option (list (str * expr) * ending * toks) :=
  match k with
  | O => None
  | S k =>
    if next (pu "..") l then try (p, r) <- p_base l; Some ([], Base p, r)
    else
      try (f, r) <- p_field l;
      match eat (pu "}") r with
      | Some r' => Some ([f], Plain, r')
      | None =>
        try r <- eat (pu ",") r;
        match eat (pu "}") r with
        | Some r' => Some ([f], Trailing, r')
        | None => try (x, r) <- p_fields k r; Some (f :: fst x, snd x, r)
        end
      end
  end.
(** A struct, after its path *)
Definition p_struct (p : path) : parser expr := fun l =>
  match eat (pu "}") l with
  | Some r => Some (EStruct p [], r)
  | None =>
    try (x, r) <- p_fields n l;
    Some (match snd x with Plain => EStruct p (fst x) | Trailing => EStructTrailing p (fst x) | Base b => EStructDefault p (fst x) b end, r)
  end.
(** What follows an opening brace *)
Definition p_binder : parser binder := fun l =>
  match eat [kw "let"] l with
  | None => Some (Do, l)
  | Some l =>
    match eat [kw "mut"] l with
    | Some l => try (x, r) <- p_word l; try r <- eat (pu "=") r; Some (LetMut x, r)
    | None => try (x, r) <- p_word l; try r <- eat (pu "=") r; Some (Let x, r)
    end
  end.
(** Statements and the value of a block *)
Fixpoint p_block (k : nat) (l : toks) : option (list (binder * expr) * expr * toks) :=
  match k with
  | O => None
  | S k =>
    try (b, r) <- p_binder l;
    try (e, r) <- (match b with Do => if next (pu "{") r then None else one r | _ => one r end);
    match eat (pu ";") r with
    | Some r => try (x, r) <- p_block k r; Some ((b, e) :: fst x, snd x, r)
    | None => match b with Do => try r <- eat (pu "}") r; Some ([], e, r) | _ => None end
    end
  end.
(** An expression without what may follow it *)
Definition p_primary : parser expr := fun l =>
  match l with
  | KStr s :: r => Some (EStr s, r)
  | KNum k s :: r => Some (ENum k s, r)
  | _ =>
    if next (pu "(") l then
      try l <- eat (pu "(") l;
      match eat (pu ")") l with
      | Some r => Some (ETuple [], r)
      | None =>
        try (e, r) <- one l;
        if next [kw "as"] r then try r <- eat [kw "as"] r; try (t, r) <- p_ty n r; try r <- eat (pu ")") r; Some (ECast e t, r)
        else match eat (pu ")") r with
             | Some r => Some (e, r)
             | None => try r <- eat (pu ",") r; try (es, r) <- p_commas1 one (pu ")") n r; Some (ETuple (e :: es), r)
             end
      end
    else if next (pu "[") l then
      try l <- eat (pu "[") l;
      match eat (pu "]") l with
      | Some r => Some (EArray [], r)
      | None =>
        try (e, r) <- one l;
        match eat (pu ";") r with
        | Some r => try (k, r) <- p_size "" r; try r <- eat (pu "]") r; Some (ERepeat e k, r)
        | None =>
          match eat (pu "]") r with
          | Some r => Some (EArray [e], r)
          | None => try r <- eat (pu ",") r; try (es, r) <- p_commas1 one (pu "]") n r; Some (EArray (e :: es), r)
          end
        end
      end
    else if next (pu "{") l then
      try l <- eat (pu "{") l; try (x, r) <- p_block n l; Some (EBlock (fst x) (snd x), r)
    else if next [kw "true"] l then try r <- eat [kw "true"] l; Some (EBool true, r)
    else if next [kw "false"] l then try r <- eat [kw "false"] l; Some (EBool false, r)
    else if next ([kw "vec"] ++ pu "![") l then
      try l <- eat ([kw "vec"] ++ pu "![") l; try (es, r) <- p_commas one (pu "]") n l; Some (EVec es, r)
    else
      try (p, r) <- p_path l;
      match eat (pu "(") r with
      | Some r => try (es, r) <- p_args r; Some (ECall p es, r)
      | None => match eat (pu "{") r with Some r => p_struct p r | None => Some (EPath p, r) end
      end
  end.
(** Fields, method calls and [?] after the expression [e] *)
Definition p_dot (e : expr) (l : toks) : option (expr * toks) :=
  match l with
  | KNum k [] :: r => if k =? 0 then Some (EFirst e, r) else None
  | _ =>
    try (m, r) <- p_word l;
    match eat (pu "(") r with
    | Some r =>
      match eat (pu "|") r with
      | Some r =>
        if str_eqb m (lit "map") then try (x, r) <- p_word r; try r <- eat (pu "|") r; try (b, r) <- one r; try r <- eat (pu ")") r; Some (EMap e x b, r)
        else None
      | None => try (es, r) <- p_args r; Some (EMethod e m [] es, r)
      end
    | None =>
      match eat (pu "::<") r with
      | Some r => try (ts, r) <- p_commas1 (p_ty n) (pu ">") n r; try r <- eat (pu "(") r; try (es, r) <- p_args r; Some (EMethod e m ts es, r)
      | None => Some (EField e m, r)
      end
    end
  end.
(** What may follow the expression [e]: [.x], [.m::<t>(..)], [.0] and [?] *)
Fixpoint p_postfix (k : nat) (e : expr) (l : toks) : option (expr * toks) :=
  match k with
  | O => None
  | S k =>
    match eat (pu "?") l with
    | Some r => p_postfix k (ETry e) r
    | None =>
      match eat (pu ".") l with
      | Some r => try (e', r) <- p_dot e r; p_postfix k e' r
      | None => Some (e, l)
      end
    end
  end.
End Expressions.
(** [&] binds weaker than what follows an expression. *)
Fixpoint p_expr (n : nat) (l : toks) : option (expr * toks) :=
  match n with
  | O => None
  | S n =>
    match eat (pu "&") l with
    | Some l => try (e, r) <- p_expr n l; Some (ERef e, r)
    | None => try (e, r) <- p_primary (p_expr n) n l; p_postfix (p_expr n) n n e r
    end
  end.

(** ** Items *)
Definition p_doc : parser (option str) := fun l =>
  match eat (pu "#[" ++ [kw "doc"] ++ pu "=") l with
  | Some l => try (s, r) <- p_string l; try r <- eat (pu "]") r; Some (Some s, r)
  | None => Some (None, l)
  end.
(** [name: type] *)
Definition p_typed (n : nat) : parser (str * ty) := fun l =>
  try (x, r) <- p_word l; try r <- eat (pu ":") r; try (t, r) <- p_ty n r; Some ((x, t), r).
(** One bound: lib.rs:154-182 *)
Definition p_generic (n : nat) : parser generic := fun l =>
  try (x, r) <- p_word l;
  try r <- eat (pu ":") r;
  match eat ([kw "Into"] ++ pu "<") r with
  | Some r => try (t, r) <- p_ty n r; try r <- eat (pu ">") r; Some (GInto x t, r)
  | None =>
    try r <- eat ([kw "IntoIterator"] ++ pu "<" ++ [kw "Item"] ++ pu "=") r;
    try (u, r) <- p_word r; try r <- eat (pu ">") r; Some (GIter x u, r)
  end.
(** Bounds between angles, if there are any: function.rs:196, constructor.rs:73, event.rs:177 *)
Definition p_generics (n : nat) : parser (option (list generic)) := fun l =>
  match eat (pu "<") l with
  | Some l => try (gs, r) <- p_commas (p_generic n) (pu ">") n l; Some (Some gs, r)
  | None => Some (None, l)
  end.
(** What follows the opening parenthesis *)
Definition p_params (n : nat) : parser (bool * list (str * ty)) := fun l =>
  match eat (pu "&" ++ [kw "self"]) l with
  | Some l =>
    match eat (pu ")") l with
    | Some r => Some ((true, []), r)
    | None => try l <- eat (pu ",") l; try (ps, r) <- p_commas1 (p_typed n) (pu ")") n l; Some ((true, ps), r)
    end
  | None => try (ps, r) <- p_commas (p_typed n) (pu ")") n l; Some ((false, ps), r)
  end.
(** What follows [fn] *)
Definition p_fn_rest (n : nat) (doc : option str) (pub : bool) : parser fn := fun l =>
  try (x, r) <- p_word l;
  try (gs, r) <- p_generics n r;
  try r <- eat (pu "(") r;
  try (ps, r) <- p_params n r;
  try r <- eat (pu "->") r;
  try (t, r) <- p_ty n r;
  try r <- eat (pu "{") r;
  try (b, r) <- p_block (p_expr n) n r;
  Some (mkFn doc pub x gs (fst ps) (snd ps) t (fst b) (snd b), r).
(** A function, after [fn] *)
Definition p_fn (n : nat) : parser fn := fun l =>
  try (doc, r) <- p_doc l;
  match eat [kw "pub"] r with
  | Some r => try r <- eat [kw "fn"] r; p_fn_rest n doc true r
  | None => try r <- eat [kw "fn"] r; p_fn_rest n doc false r
  end.
(** [pub name: type]: event.rs:48 *)
Definition p_struct_field (n : nat) : parser (str * ty) := fun l => try r <- eat [kw "pub"] l; p_typed n r.
(** An item: contract.rs:38-62, function.rs:169-214, constructor.rs:71-79, event.rs:143-200 *)
Fixpoint p_item (n : nat) (l : toks) : option (item * toks) :=
  match n with
  | O => None
  | S n =>
    if next [kw "use"] l then try r <- eat [kw "use"] l; try (p, r) <- p_path r; try r <- eat (pu ";") r; Some (IUse p, r)
    else if next [kw "const"] l then
      try r <- eat [kw "const"] l; try (x, r) <- p_typed n r; try r <- eat (pu "=") r; try (s, r) <- p_string r; try r <- eat (pu ";") r;
      Some (IConst (fst x) (snd x) s, r)
    else if next [kw "impl"] l then
      try r <- eat [kw "impl"] l; try (p, r) <- p_path r; try r <- eat [kw "for"] r; try (x, r) <- p_word r;
      try r <- eat (pu "{" ++ [kw "type"]) r; try (a, r) <- p_word r; try r <- eat (pu "=") r; try (t, r) <- p_ty n r; try r <- eat (pu ";") r;
      try (f, r) <- p_fn n r; try r <- eat (pu "}") r; Some (IImpl p x a t f, r)
    else if next (pu "#[" ++ [kw "derive"]) l then
      try r <- eat (pu "#[" ++ [kw "derive"] ++ pu "(") l; try (ds, r) <- p_commas p_word (pu ")") n r; try r <- eat (pu "]" ++ [kw "pub"; kw "struct"]) r;
      try (x, r) <- p_word r; try r <- eat (pu "{") r; try (fs, r) <- p_commas (p_struct_field n) (pu "}") n r; Some (IStruct ds x fs, r)
    else
      try (doc, r) <- p_doc l;
      match eat [kw "fn"] r with
      | Some r => try (f, r) <- p_fn_rest n doc false r; Some (IFn f, r)
      | None =>
        try r <- eat [kw "pub"] r;
        if next [kw "fn"] r then try r <- eat [kw "fn"] r; try (f, r) <- p_fn_rest n doc true r; Some (IFn f, r)
        else if next [kw "mod"] r then
          try r <- eat [kw "mod"] r; try (x, r) <- p_word r; try r <- eat (pu "{") r; try (is, r) <- p_many (p_item n) (pu "}") n r; Some (IMod doc x is, r)
        else
          try r <- eat [kw "struct"] r; try (x, r) <- p_word r; try r <- eat (pu "(") r; try (t, r) <- p_ty n r; try r <- eat (pu ");") r;
          match doc with Some d => Some (INewtype d x t, r) | None => None end
      end
  end.
(** A whole text *)
Fixpoint p_items (k : nat) (n : nat) (l : toks) : option (list item) :=
  match l with
  | [] => Some []
  | _ => match k with O => None | S k => try (i, r) <- p_item n l; try is <- p_items k n r; Some (i :: is) end
  end.
(** A whole text: contract.rs:38-62 *)
Definition parse (l : toks) : option (list item) := p_items (length l) (S (length l)) l.

(** * Running generated code

    What the trees of RustSyntax.v do when they run: the meaning of the part
    of Rust that the derive macro writes, with the functions of the crate
    ethabi as Function.v, Event.v and Types.v have them.  Nothing here comes
    from /repo/derive.

    [Stuck] is code that the compiler would not have accepted: a name that is
    not there, a value of a wrong kind, a variable written to that is not
    [mut], a method that does not exist.  Simplifications: values carry their
    kind instead of being checked before running, and ownership and lifetimes
    are not checked; [into], [as], [&] and [Box::new] leave values as they are
    (callers pass values of the very types); iterators are lists, so that
    [map] runs at once; imports are taken for granted. *)
From Verif Require Import Base Types Function Event Heck Derive RustSyntax.
From Coq Require Import String.
Set Implicit Arguments.
Notation length := List.length.
Local Open Scope string_scope.
Local Open Scope N_scope.
Local Open Scope list_scope.

(** ** Values *)
Inductive val :=
| VUnit | VBool (b : bool) | VNum (n : N) | VStr (s : str)
| VBytes (b : list byte)                   (* Vec<u8> and &[u8] *)
| VByteArr (b : list byte)                 (* [u8; n] *)
| VAddr (a : list byte) | VHash (h : list byte) | VInt (n : N) | VUint (n : N)
| VVec (l : list val) | VArr (l : list val) | VIter (l : list val) | VTuple (l : list val)
| VNone | VSome (v : val)
| VOk (v : val) | VErr (e : err)
| VInto                                    (* Into::into *)
| VKind (k : ParamType) | VMut (m : StateMutability) | VParam (x : Param) | VEParam (x : EventParam)
| VFun (f : Function) | VCtor (c : Constructor) | VEvent (e : Event)
| VTok (t : Token)
| VTopic (t : Topic val)
| VRaw (f : RawTopicFilter) | VFilter (f : TopicFilter)
| VRawLog (l : RawLog) | VLog (l : Log) | VLogParam (x : LogParam)
| VNewtype (x : str) (v : val)
| VRecord (p : path) (l : list (str * val)).
(** How running code ends: with a value, by [?] with an error, by a panic, or not at all *)
Inductive out (A : Type) := Done (a : A) | Return (v : val) | Panics | Stuck.
Arguments Done {A} a.
Arguments Return {A} v.
Arguments Panics {A}.
Arguments Stuck {A}.
(** One after the other *)
Definition obind {A B} (r : out A) (f : A -> out B) : out B :=
  match r with Done a => f a | Return v => Return v | Panics => Panics | Stuck => Stuck end.
(** A call of the crate ethabi *)
Definition returned {A} (f : A -> val) (r : res A) : out val :=
  match r with Ok a => Done (VOk (f a)) | Err e => Done (VErr e) | Panic => Panics end.
(** A value of type [Option] *)
Definition optional {A} (f : A -> val) (o : option A) : val := match o with Some a => VSome (f a) | None => VNone end.

(** ** Variables: name, whether [mut], value; the last one first *)
Notation env := (list (str * bool * val)).
(** The variable [x]: whether [mut], and its value *)
Fixpoint lookup (s : env) (x : str) : option (bool * val) :=
  match s with
  | [] => None
  | (y, mutable, v) :: s' => if str_eqb x y then Some (mutable, v) else lookup s' x
  end.
(** [x] gets another value. *)
Fixpoint update (s : env) (x : str) (v : val) : env :=
  match s with
  | [] => []
  | (y, mutable, w) :: s' => if str_eqb x y then (y, mutable, v) :: s' else (y, mutable, w) :: update s' x v
  end.
(** Leaving the block entered with [s] *)
Definition leave (s s' : env) : env := skipn (length s' - length s) s'.

(** One after the other *)
Definition seqM {A B} (f : A -> env -> out (B * env)) : list A -> env -> out (list B * env) :=
  fix go l s :=
    match l with
    | [] => Done ([], s)
    | x :: l' => obind (f x s) (fun r => obind (go l' (snd r)) (fun rs => Done (fst r :: fst rs, snd rs)))
    end.

(** ** Reading lists of values *)
Definition reads {A} (f : val -> option A) : list val -> option (list A) :=
  fix go l := match l with [] => Some [] | v :: l' => match f v, go l' with Some a, Some r => Some (a :: r) | _, _ => None end end.
(** A value that is an [ethabi::Param] *)
Definition as_param (v : val) : option Param := match v with VParam x => Some x | _ => None end.
(** A value that is an [ethabi::EventParam] *)
Definition as_event_param (v : val) : option EventParam := match v with VEParam x => Some x | _ => None end.
(** A value that is an [ethabi::Token] *)
Definition as_token (v : val) : option Token := match v with VTok t => Some t | _ => None end.
(** A value that is an [ethabi::Topic<Token>] *)
Definition as_topic (v : val) : option (Topic Token) :=
  match v with
  | VTopic Any => Some Any
  | VTopic (OneOf l) => match reads as_token l with Some l' => Some (OneOf l') | None => None end
  | VTopic (This w) => match as_token w with Some t => Some (This t) | None => None end
  | _ => None
  end.

(** ** Names of the crate ethabi and of the standard library *)
Definition at_path (p : path) (l : list string) : bool :=
  (length p =? length l)%nat && forallb (fun x => str_eqb (fst x) (lit (snd x))) (combine p l).
(** A path that is a value: lib.rs:87-97, function.rs:160-165, event.rs:89 *)
Definition global (p : path) : out val :=
  let is l := at_path p l in
  let kind s := is ["ethabi"; "ParamType"; s] in
  let mutability s := is [""; "ethabi"; "StateMutability"; s] in
  if is ["INTERNAL_ERR"] then Done (VStr (lit "`ethabi_derive` internal error"))
  else if is ["None"] then Done VNone
  else if is ["Into"; "into"] then Done VInto
  else if is ["ethabi"; "Topic"; "Any"] then Done (VTopic Any)
  else if kind "Address" then Done (VKind PAddress)
  else if kind "Bytes" then Done (VKind PBytes)
  else if kind "Bool" then Done (VKind PBool)
  else if kind "String" then Done (VKind PString)
  else if mutability "Pure" then Done (VMut Pure)
  else if mutability "View" then Done (VMut View)
  else if mutability "NonPayable" then Done (VMut NonPayable)
  else if mutability "Payable" then Done (VMut Payable)
  else Stuck.
(** [None]: not one of them *)
Definition builtin (p : path) (args : list val) : option (out val) :=
  let is l := at_path p l in
  let kind s := is ["ethabi"; "ParamType"; s] in
  let token s := is ["ethabi"; "Token"; s] in
  if is ["Ok"] then Some (match args with [v] => Done (VOk v) | _ => Stuck end)
  else if is ["Box"; "new"] then Some (match args with [v] => Done v | _ => Stuck end)
  else if is ["ethabi"; "Hash"; "from"] then Some (match args with [VByteArr b] => if len b =? 32 then Done (VHash b) else Stuck | _ => Stuck end)
  else if kind "Int" then Some (match args with [VNum n] => Done (VKind (PInt n)) | _ => Stuck end)
  else if kind "Uint" then Some (match args with [VNum n] => Done (VKind (PUint n)) | _ => Stuck end)
  else if kind "FixedBytes" then Some (match args with [VNum n] => Done (VKind (PFixedBytes n)) | _ => Stuck end)
  else if kind "Array" then Some (match args with [VKind k] => Done (VKind (PArray k)) | _ => Stuck end)
  else if kind "FixedArray" then Some (match args with [VKind k; VNum n] => Done (VKind (PFixedArray k n)) | _ => Stuck end)
  else if token "Address" then Some (match args with [VAddr a] => Done (VTok (TAddress a)) | _ => Stuck end)
  else if token "Bytes" then Some (match args with [VBytes b] => Done (VTok (TBytes b)) | _ => Stuck end)
  else if token "FixedBytes" then Some (match args with [VBytes b] => Done (VTok (TFixedBytes b)) | _ => Stuck end)
  else if token "Int" then Some (match args with [VInt n] => Done (VTok (TInt n)) | _ => Stuck end)
  else if token "Uint" then Some (match args with [VUint n] => Done (VTok (TUint n)) | _ => Stuck end)
  else if token "Bool" then Some (match args with [VBool b] => Done (VTok (TBool b)) | _ => Stuck end)
  else if token "String" then Some (match args with [VStr s] => Done (VTok (TString s)) | _ => Stuck end)
  else if token "Array" then
    Some (match args with [VVec l] => match reads as_token l with Some ts => Done (VTok (TArray ts)) | None => Stuck end | _ => Stuck end)
  else if token "FixedArray" then
    Some (match args with [VVec l] => match reads as_token l with Some ts => Done (VTok (TFixedArray ts)) | None => Stuck end | _ => Stuck end)
  else None.

(** ** Structs: all fields, in any order *)
Fixpoint field (l : list (str * val)) (x : string) : option val :=
  match l with [] => None | (y, v) :: l' => if str_eqb (lit x) y then Some v else field l' x end.
(** [p { l }]: lib.rs:117-123, function.rs:175-181, event.rs:113-117 and 170-174 *)
Definition struct (p : path) (l : list (str * val)) : out val :=
  let is q := at_path p q in
  if is ["ethabi"; "Param"] then
    match length l, field l "name", field l "kind", field l "internal_type" with
    | 3%nat, Some (VStr n), Some (VKind k), Some VNone => Done (VParam (mkParam n k None))
    | _, _, _, _ => Stuck
    end
  else if is ["ethabi"; "EventParam"] then
    match length l, field l "name", field l "kind", field l "indexed" with
    | 3%nat, Some (VStr n), Some (VKind k), Some (VBool b) => Done (VEParam (mkEventParam n k b))
    | _, _, _, _ => Stuck
    end
  else if is ["ethabi"; "Function"] then
    match length l, field l "name", field l "inputs", field l "outputs", field l "constant", field l "state_mutability" with
    | 5%nat, Some (VStr n), Some (VVec i), Some (VVec o), Some (VBool c), Some (VMut m) =>
      match reads as_param i, reads as_param o with
      | Some i', Some o' => Done (VFun (mkFunction n i' o' c m))
      | _, _ => Stuck
      end
    | _, _, _, _, _, _ => Stuck
    end
  else if is ["ethabi"; "Constructor"] then
    match length l, field l "inputs" with
    | 1%nat, Some (VVec i) => match reads as_param i with Some i' => Done (VCtor (mkConstructor i')) | None => Stuck end
    | _, _ => Stuck
    end
  else if is ["ethabi"; "Event"] then
    match length l, field l "name", field l "inputs", field l "anonymous" with
    | 3%nat, Some (VStr n), Some (VVec i), Some (VBool a) =>
      match reads as_event_param i with Some i' => Done (VEvent (mkEvent n i' a)) | None => Stuck end
    | _, _, _, _ => Stuck
    end
  else if at_path (firstn 3 p) ["super"; "super"; "logs"] then Done (VRecord p l)
  else Stuck.
(** [ethabi::RawTopicFilter { l, ..Default::default() }], no field twice *)
Definition with_default (p base : path) (l : list (str * val)) : out val :=
  let topic x := match field l x with None => Some Any | Some v => as_topic v end in
  if at_path p ["ethabi"; "RawTopicFilter"] && at_path base ["Default"; "default"] &&
     distinct (map fst l) && forallb (fun x => existsb (str_eqb (fst x)) (map lit ["topic0"; "topic1"; "topic2"])) l
  then match topic "topic0", topic "topic1", topic "topic2" with
       | Some a, Some b, Some c => Done (VRaw (mkRawFilter a b c))
       | _, _, _ => Stuck
       end
  else Stuck.

(** ** Methods *)
Section Profile.
Context (p : profile).
(** [v.m(args)] for methods that take [self] or [&self]: lib.rs:184-283 *)
Definition method (v : val) (m : str) (args : list val) : out val :=
  let is s := str_eqb m (lit s) in
  match args with
  | [] =>
    if is "into" then Done v
    else if is "to_owned" then match v with VStr s => Done v | _ => Stuck end
    else if is "into_iter" then match v with VVec l => Done (VIter l) | _ => Stuck end
    else if is "collect" then match v with VIter l => Done (VVec l) | _ => Stuck end
    else if is "into_vec" then match v with VArr l => Done (VVec l) | _ => Stuck end
    else if is "as_ref" then match v with VHash b | VByteArr b => Done (VBytes b) | _ => Stuck end
    else if is "to_vec" then match v with VBytes b => Done (VBytes b) | _ => Stuck end
    else match v with
    | VTok t =>
      if is "into_address" then Done (optional VAddr (into_address t))
      else if is "into_bytes" then Done (optional VBytes (into_bytes t))
      else if is "into_fixed_bytes" then Done (optional VBytes (into_fixed_bytes t))
      else if is "into_int" then Done (optional VInt (into_int t))
      else if is "into_uint" then Done (optional VUint (into_uint t))
      else if is "into_bool" then Done (optional VBool (into_bool t))
      else if is "into_string" then Done (optional VStr (into_string t))
      else if is "into_array" then Done (optional (fun l => VVec (map VTok l)) (into_array t))
      else if is "into_fixed_array" then Done (optional (fun l => VVec (map VTok l)) (into_fixed_array t))
      else Stuck
    | _ => Stuck
    end
  | [a] =>
    if is "expect" then
      match v, a with
      | VSome w, VStr _ | VOk w, VStr _ => Done w
      | VNone, VStr _ | VErr _, VStr _ => Panics
      | _, _ => Stuck
      end
    else if is "map" then match v, a with VIter l, VInto => Done (VIter l) | _, _ => Stuck end
    else if is "encode_input" then
      match v, a with
      | VFun f, VVec l => match reads as_token l with Some ts => returned VBytes (encode_input p f ts) | None => Stuck end
      | _, _ => Stuck
      end
    else if is "decode_output" then
      match v, a with VFun f, VBytes b => returned (fun l => VVec (map VTok l)) (decode_output p f b) | _, _ => Stuck end
    else if is "filter" then
      match v, a with VEvent e, VRaw r => returned VFilter (event_filter p e r) | _, _ => Stuck end
    else if is "parse_log" then
      match v, a with VEvent e, VRawLog l => returned VLog (parse_log p e l) | _, _ => Stuck end
    else Stuck
  | [a; b] =>
    if is "encode_input" then
      match v, a, b with
      | VCtor c, VBytes code, VVec l => match reads as_token l with Some ts => returned VBytes (constructor_encode_input p c code ts) | None => Stuck end
      | _, _, _ => Stuck
      end
    else Stuck
  | _ => Stuck
  end.
(** Methods that take [&mut self]: what they return and what becomes of
    [self] *)
Definition mutating (m : str) : bool := existsb (str_eqb m) (map lit ["next"; "copy_from_slice"]).
(** [v.m(args)] for methods that take [&mut self]: lib.rs:235-283 *)
Definition mutate (v : val) (m : str) (args : list val) : out (val * val) :=
  match v, args with
  | VIter l, [] =>
    if str_eqb m (lit "next") then match l with [] => Done (VNone, v) | x :: l' => Done (VSome x, VIter l') end else Stuck
  | VByteArr b, [VBytes c] =>
    if str_eqb m (lit "copy_from_slice") then if (length b =? length c)%nat then Done (VUnit, VByteArr c) else Panics else Stuck
  | _, _ => Stuck
  end.
(** A variable that a method changes has to be [mut]. *)
Definition invoke (e : expr) (v : val) (m : str) (args : list val) (s : env) : out (val * env) :=
  if mutating m then
    obind (mutate v m args) (fun r =>
      match e with
      | EPath [x] => match lookup s x with Some (true, _) => Done (fst r, update s x (snd r)) | _ => Stuck end
      | _ => Done (fst r, s)
      end)
  else obind (method v m args) (fun w => Done (w, s)).
(** [v.map(|x| body)] on an iterator and on a topic *)
Definition map_val (f : val -> env -> out (val * env)) (v : val) (s : env) : out (val * env) :=
  match v with
  | VIter l => obind (seqM f l s) (fun r => Done (VIter (fst r), snd r))
  | VTopic Any => Done (VTopic Any, s)
  | VTopic (OneOf l) => obind (seqM f l s) (fun r => Done (VTopic (OneOf (fst r)), snd r))
  | VTopic (This w) => obind (f w s) (fun r => Done (VTopic (This (fst r)), snd r))
  | _ => Stuck
  end.
(** [v.f] *)
Definition get (v : val) (f : str) : out val :=
  match v with
  | VLog l => if str_eqb f (lit "params") then Done (VVec (map VLogParam (l_params l))) else Stuck
  | VLogParam x => if str_eqb f (lit "value") then Done (VTok (lp_value x)) else Stuck
  | _ => Stuck
  end.
(** [let b = v] *)
Definition bind_name (b : binder) (v : val) (s : env) : env :=
  match b with Let x => (x, false, v) :: s | LetMut x => (x, true, v) :: s | Do => s end.

(** ** Expressions: [call] runs what the module defines *)
Section Call.
Context (call : path -> list val -> out val).
(** The value of an expression, and the variables afterwards *)
Fixpoint eval (e : expr) (s : env) {struct e} : out (val * env) :=
  let record l s := seqM (fun (x : str * expr) s => obind (eval (snd x) s) (fun r => Done ((fst x, fst r), snd r))) l s in
  match e with
  | EPath [x] => match lookup s x with Some (_, v) => Done (v, s) | None => obind (global [x]) (fun v => Done (v, s)) end
  | EPath q => obind (global q) (fun v => Done (v, s))
  | EStr t => Done (VStr t, s)
  | ENum n _ => Done (VNum n, s)
  | EBool b => Done (VBool b, s)
  | ECall q args =>
    obind (seqM eval args s) (fun r =>
      let is_local := match q with [x] => match lookup s x with Some _ => true | None => false end | _ => false end in
      if is_local then Stuck
      else obind (match builtin q (fst r) with Some o => o | None => call q (fst r) end) (fun v => Done (v, snd r)))
  | EMethod e m _ args =>
    obind (eval e s) (fun r => obind (seqM eval args (snd r)) (fun rs => invoke e (fst r) m (fst rs) (snd rs)))
  | EMap e x body =>
    obind (eval e s) (fun r =>
      map_val (fun v s => obind (eval body ((x, false, v) :: s)) (fun r => Done (fst r, leave s (snd r)))) (fst r) (snd r))
  | EField e f => obind (eval e s) (fun r => obind (get (fst r) f) (fun v => Done (v, snd r)))
  | EFirst e => obind (eval e s) (fun r => match fst r with VNewtype _ v => Done (v, snd r) | _ => Stuck end)
  | ETry e => obind (eval e s) (fun r => match fst r with VOk v => Done (v, snd r) | VErr x => Return (VErr x) | _ => Stuck end)
  | ERef e => eval e s
  | ECast e _ => eval e s
  | ETuple [] => Done (VUnit, s)
  | ETuple l => obind (seqM eval l s) (fun r => Done (VTuple (fst r), snd r))
  | EArray l => obind (seqM eval l s) (fun r => Done (VArr (fst r), snd r))
  | ERepeat e n =>
    obind (eval e s) (fun r => match fst r with VNum k => Done (VByteArr (repeat (byte_of_N k) (N.to_nat n)), snd r) | _ => Stuck end)
  | EVec l => obind (seqM eval l s) (fun r => Done (VVec (fst r), snd r))
  | EBlock l e =>
    obind ((fix go l s :=
              match l with
              | [] => eval e s
              | x :: l' => obind (eval (snd x) s) (fun r => go l' (bind_name (fst x) (fst r) (snd r)))
              end) l s) (fun r => Done (fst r, leave s (snd r)))
  | EStruct q l | EStructTrailing q l => obind (record l s) (fun r => obind (struct q (fst r)) (fun v => Done (v, snd r)))
  | EStructDefault q l base => obind (record l s) (fun r => obind (with_default q base (fst r)) (fun v => Done (v, snd r)))
  end.
End Call.

(** ** Functions and modules *)
Fixpoint is_type (t : RustSyntax.ty) : bool :=
  match t with
  | TyName _ args => forallb is_type args
  | TyArray t _ | TySlice t | TyRef t | TyStatic t => is_type t
  | TyComma _ _ => false
  | TyTuple l => forallb is_type l
  | TyInfer => true
  end.
(** The types that a bound mentions are types. *)
Definition generic_types (g : generic) : bool := match g with GInto _ t => is_type t | GIter _ _ => true end.
(** The names of the parameters differ and are no keywords, the types are
    types. *)
Definition fn_correct (f : fn) : bool :=
  distinct (map fst (fn_params f)) && negb (existsb keyword (map fst (fn_params f))) &&
  forallb generic_types (match fn_generics f with Some l => l | None => [] end) && forallb (fun x => is_type (snd x)) (fn_params f) && is_type (fn_ret f).
(** A call of [f] *)
Definition run_fn (call : path -> list val -> out val) (f : fn) (args : list val) : out val :=
  let names := (if fn_self f then [lit "self"] else []) ++ map fst (fn_params f) in
  if fn_correct f && (length names =? length args)%nat then
    match eval call (EBlock (fn_body f) (fn_result f)) (map (fun x => (fst x, false, snd x)) (combine names args)) with
    | Done (v, _) => Done v
    | Return v => Done v
    | Panics => Panics
    | Stuck => Stuck
    end
  else Stuck.
(** What a path called as a function stands for: a function, a newtype, or
    the method of a trait for the type of its first argument *)
Definition resolve (items : list item) (q : path) (args : list val) : option (fn + str) :=
  let method_of (x : str) (i : item) :=
    match i with IImpl trait y _ _ f => if str_eqb x y && forallb (fun z => str_eqb (fst z) (snd z)) (combine q (trait ++ [fn_name f])) &&
        (length q =? length (trait ++ [fn_name f]))%nat then [inl f] else [] | _ => [] end in
  let here (x : str) (i : item) :=
    match i with
    | IFn f => if str_eqb x (fn_name f) then [inl f] else []
    | INewtype _ y _ => if str_eqb x y then [inr y] else []
    | _ => []
    end in
  match (match q, args with
         | [x], _ => List.concat (map (here x) items)
         | _, VNewtype x _ :: _ => List.concat (map (method_of x) items)
         | _, _ => []
         end) with
  | [r] => Some r
  | _ => None
  end.
(** Calls nested at most [depth] deep *)
Fixpoint call (depth : nat) (items : list item) (q : path) (args : list val) : out val :=
  match depth with
  | O => Stuck
  | S depth =>
    match resolve items q args with
    | Some (inl f) => run_fn (call depth items) f args
    | Some (inr x) => match args with [v] => Done (VNewtype x v) | _ => Stuck end
    | None => Stuck
    end
  end.
End Profile.

(** ** Values of generated interfaces *)
Fixpoint inj (v : rval) : val :=
  match v with
  | RAddress a => VAddr a
  | RBytes b => VBytes b
  | RHash h => VHash h
  | RByteArray b => VByteArr b
  | RInt n => VInt n
  | RUint n => VUint n
  | RBool b => VBool b
  | RString s => VStr s
  | RVec l => VVec (map inj l)
  | RArr l => VArr (map inj l)
  end.
(** A topic of a generated filter: event.rs:91-102 *)
Definition inj_topic (t : Topic rval) : val :=
  VTopic (match t with Any => Any | OneOf l => OneOf (map inj l) | This v => This (inj v) end).
(** What a function that returns no [Result] comes to, and one that does *)
Definition plainly {A} (f : A -> val) (r : res A) : out val :=
  match r with Ok a => Done (f a) | Err _ => Stuck | Panic => Panics end.
(** The results of a function: none, one, or a tuple *)
Definition results (l : list rval) : val :=
  match l with [] => VUnit | [v] => inj v | _ => VTuple (map inj l) end.

(** * What the compiler checks before generated code runs

    The static semantics of the part of Rust that the derive macro writes, on
    the trees of RustSyntax.v: names, types, and moves of values.  Together
    with RustEval.v (what the code does when it runs) this is trusted as a
    description of Rust; nothing here comes from /repo/derive.

    Simplifications.  Less is accepted than by the compiler: closures use no
    variables but their own; a function with type parameters is called with
    values of the very types its bounds convert to, which name no type
    parameters; trait methods are those of [ethabi::FunctionOutputDecoder];
    signatures have no [_]; [ethabi::Int] and [ethabi::Uint], which are names
    for the same type, are kept apart; vectors of bytes are not written item by
    item; a newtype holds no struct of the generated code; structs are written
    with their paths; the internal type of a parameter is [None].  Lifetimes are not checked (the only
    references that are kept are arguments and string literals).  [ethabi] is
    found as a crate, imported or not, as in the 2018 edition.  What it offers
    is written down here with the types that /repo/ethabi/src gives it:
    token/token.rs:18-73 and 228-313, param_type/param_type.rs:16-38,
    state_mutability.rs:14-28, param.rs:22-29, event_param.rs:21-28,
    function.rs:20-66, constructor.rs:15-44, event.rs:22-54 and 123,
    log.rs:29-57, filter.rs:16-66, lib.rs:60-87. *)
From Verif Require Import Base Derive RustSyntax.
From Coq Require Import String.
Set Implicit Arguments.
Notation length := List.length.
Local Open Scope string_scope.
Local Open Scope N_scope.
Local Open Scope list_scope.

(** ** Types *)
Inductive rt :=
| SUnit | SBool | SUsize | SU8 | SStr | SString | SAddress | SHash | SInt | SUint
| SRef (t : rt) | SBox (t : rt) | SVec (t : rt) | SArr (t : rt) (n : N) | SSlice (t : rt) | STuple (l : list rt)
| SOption (t : rt) | SResult (t : rt) | SIter (t : rt) | STopic (t : rt)
| SKind | SMutability | SParam | SEventParam | SFunction | SConstructor | SEvent | SToken
| SRawFilter | SFilter | SRawLog | SLog | SLogParam
| SLocal (p : path)              (* a struct of the generated code, by its path from the root *)
| SVar (x : str)                 (* a type parameter *)
| SAny                           (* not yet known: anything *)
| SInto (t : rt)                 (* not yet known: what a [t] is turned into *)
| SCollect (t : rt).             (* not yet known: what an iterator over [t] is collected into *)
Fixpoint path_eqb (p q : path) : bool :=
  match p, q with [], [] => true | x :: p, y :: q => str_eqb x y && path_eqb p q | _, _ => false end.
(** A value of type [a] where one of type [b] is expected: open types are
    fixed, and a reference to a vector is one to its slice. *)
Fixpoint fits (a b : rt) {struct a} : bool :=
  match a, b with
  | SAny, SU8 => false
  | SAny, _ => true
  | SInto (SRef SStr), SString => true
  | SCollect t, SVec t' => fits t t'
  | SRef (SVec t), SRef (SSlice t') => fits t t'
  | SUnit, SUnit | SBool, SBool | SUsize, SUsize | SU8, SU8 | SStr, SStr | SString, SString | SAddress, SAddress | SHash, SHash | SInt, SInt | SUint, SUint => true
  | SRef t, SRef t' | SBox t, SBox t' | SVec t, SVec t' | SSlice t, SSlice t' | SOption t, SOption t' | SResult t, SResult t' | SIter t, SIter t' | STopic t, STopic t' => fits t t'
  | SArr t n, SArr t' n' => fits t t' && (n =? n')
  | STuple l, STuple l' =>
    (fix go l l' := match l, l' with [], [] => true | t :: l, t' :: l' => fits t t' && go l l' | _, _ => false end) l l'
  | SKind, SKind | SMutability, SMutability | SParam, SParam | SEventParam, SEventParam | SFunction, SFunction | SConstructor, SConstructor | SEvent, SEvent
  | SToken, SToken | SRawFilter, SRawFilter | SFilter, SFilter | SRawLog, SRawLog | SLog, SLog | SLogParam, SLogParam => true
  | SLocal q, SLocal q' => path_eqb q q'
  | SVar x, SVar y => str_eqb x y
  | _, _ => false
  end.
(** [fits], for lists of the same length *)
Fixpoint fit_all (l l' : list rt) : bool :=
  match l, l' with [], [] => true | t :: l, t' :: l' => fits t t' && fit_all l l' | _, _ => false end.
(** Values that are copied, not moved *)
Fixpoint copied (t : rt) : bool :=
  match t with
  | SUnit | SBool | SUsize | SU8 | SAddress | SHash | SInt | SUint | SRef _ => true
  | SArr t _ | SOption t => copied t
  | STuple l => forallb copied l
  | _ => false
  end.

(** Types without type parameters, and without structs of the generated code
    unless [locals] *)
Fixpoint known (locals : bool) (t : rt) : bool :=
  match t with
  | SRef t | SBox t | SVec t | SArr t _ | SSlice t | SOption t | SResult t | SIter t | STopic t | SInto t | SCollect t => known locals t
  | STuple l => forallb (known locals) l
  | SLocal _ => locals
  | SVar _ => false
  | _ => true
  end.
(** Values that can be put in a box *)
Definition sized (t : rt) : bool := match t with SStr | SSlice _ => false | _ => true end.
(** [u8] *)
Definition is_byte (t : rt) : bool := match t with SU8 => true | _ => false end.

(** [?] on an option *)
Definition obind {A B} (o : option A) (f : A -> option B) : option B := match o with Some a => f a | None => None end.
Notation "'let?' x := e 'in' k" := (obind e (fun x => k)) (at level 200, x pattern, k at level 200).
(** A condition *)
Definition guard (b : bool) : option unit := if b then Some tt else None.
(** All or nothing *)
Definition mapO {A B} (f : A -> option B) : list A -> option (list B) :=
  fix go l := match l with [] => Some [] | x :: l' => let? y := f x in let? r := go l' in Some (y :: r) end.
(** Whether the path is that of the names *)
Definition is_path (p : path) (l : list string) : bool := path_eqb p (map lit l).

(** ** Modules *)
(** The path of the module, its items, those of the root, and whether
    [INTERNAL_ERR] is visible *)
Record ctx := mkCtx { cx_here : path; cx_items : list item; cx_root : list item; cx_err : bool }.
(** The fields of a struct: event.rs:143-148 *)
Definition struct_of (x : str) (items : list item) : option (list (str * ty)) :=
  match List.concat (map (fun i => match i with IStruct _ y fields => if str_eqb x y then [fields] else [] | _ => [] end) items) with
  | [fields] => Some fields
  | _ => None
  end.
(** [struct x(t)]: function.rs:185 *)
Definition newtype_of (x : str) (items : list item) : option ty :=
  match List.concat (map (fun i => match i with INewtype _ y t => if str_eqb x y then [t] else [] | _ => [] end) items) with
  | [t] => Some t
  | _ => None
  end.
(** A function of the module: function.rs:169-214 *)
Definition fn_of (x : str) (items : list item) : option fn :=
  match List.concat (map (fun i => match i with IFn f => if str_eqb x (fn_name f) then [f] else [] | _ => [] end) items) with
  | [f] => Some f
  | _ => None
  end.
(** Whether the module has a type of that name *)
Definition local_type (x : str) (items : list item) : bool :=
  existsb (fun i => match i with IStruct _ y _ | INewtype _ y _ => str_eqb x y | _ => false end) items.
(** A module: contract.rs:44-61 *)
Definition module_of (x : str) (items : list item) : option (list item) :=
  match List.concat (map (fun i => match i with IMod _ y its => if str_eqb x y then [its] else [] | _ => [] end) items) with
  | [its] => Some its
  | _ => None
  end.
(** The module logs: contract.rs:56-61 *)
Definition logs_items (root : list item) : list item := match module_of (lit "logs") root with Some its => its | None => [] end.

(** ** Types as they are written.  [vars]: the type parameters; [self]: what
    [Self::Output] stands for. *)
Definition plain_types : list (list string * rt) := [
  (["bool"], SBool); (["u8"], SU8); (["String"], SString); (["str"], SStr);
  (["ethabi"; "Address"], SAddress); (["ethabi"; "Bytes"], SVec SU8); (["ethabi"; "Hash"], SHash); (["ethabi"; "Int"], SInt); (["ethabi"; "Uint"], SUint);
  (["ethabi"; "Function"], SFunction); (["ethabi"; "Constructor"], SConstructor); (["ethabi"; "Event"], SEvent);
  (["ethabi"; "TopicFilter"], SFilter); (["ethabi"; "RawLog"], SRawLog)].
(** Types with one parameter: lib.rs:130-182, function.rs:169-214 *)
Definition type_makers : list (list string * (rt -> rt)) := [
  (["Vec"], SVec); (["Box"], SBox); (["ethabi"; "Result"], SResult); (["ethabi"; "Topic"], STopic)].
(** The entry of a table for a path *)
Definition at_name {A} (q : path) (l : list (list string * A)) : option A := option_map snd (find (fun x => is_path q (fst x)) l).
Section Types.
Context (c : ctx) (vars : list str) (self : option rt).
(** A type without parameters: a type parameter, a type of the module, or one of ethabi and std *)
Definition plain_name (q : path) : option rt :=
  match q with
  | [x] =>
    if existsb (str_eqb x) vars then Some (SVar x)
    else if local_type x (cx_items c) then Some (SLocal (cx_here c ++ [x]))
    else at_name q plain_types
  | _ =>
    if is_path q ["Self"; "Output"] then self
    else if is_path (firstn 3 q) ["super"; "super"; "logs"] then
      match skipn 3 q, cx_here c with
      | [x], [_; _] => if local_type x (logs_items (cx_root c)) then Some (SLocal [lit "logs"; x]) else None
      | _, _ => None
      end
    else at_name q plain_types
  end.
(** A type with a parameter *)
Definition maker_name (q : path) : option (rt -> rt) :=
  match q with [x] => if existsb (str_eqb x) vars || local_type x (cx_items c) then None else at_name q type_makers | _ => at_name q type_makers end.
(** The type that is written *)
Fixpoint rt_of (t : ty) : option rt :=
  match t with
  | TyName q [] => plain_name q
  | TyName q [a] => let? f := maker_name q in let? s := rt_of a in Some (f s)
  | TyName _ _ => None
  | TyArray t n => let? s := rt_of t in Some (SArr s n)
  | TyComma _ _ => None
  | TySlice t => let? s := rt_of t in Some (SSlice s)
  | TyRef t | TyStatic t => let? s := rt_of t in Some (SRef s)
  | TyTuple [] => Some SUnit
  | TyTuple [_] => None
  | TyTuple l => let? ss := mapO rt_of l in Some (STuple ss)
  | TyInfer => None
  end.
End Types.
(** The fields of a struct of the module logs *)
Definition logs_ctx (c : ctx) : ctx := mkCtx [lit "logs"] (logs_items (cx_root c)) (cx_root c) true.
(** The types of fields as they are written *)
Definition typed_fields (c : ctx) (l : list (str * ty)) : option (list (str * rt)) :=
  mapO (fun x : str * ty => let? t := rt_of c [] None (snd x) in Some (fst x, t)) l.

(** ** Type parameters *)
Definition generic_var (g : generic) : str := match g with GInto x _ | GIter x _ => x end.
(** The bound of a type parameter: lib.rs:154-182 *)
Definition bound_of (gs : list generic) (x : str) : option generic := find (fun g => str_eqb x (generic_var g)) gs.

(** ** Variables: name, whether [mut], type, whether it still has its value *)
Notation tenv := (list (str * bool * rt * bool)).
(** The variable [x]: whether [mut], its type, whether it has its value *)
Fixpoint tlookup (s : tenv) (x : str) : option (bool * rt * bool) :=
  match s with
  | [] => None
  | (y, m, t, here) :: s' => if str_eqb x y then Some (m, t, here) else tlookup s' x
  end.
(** [x] has been moved out of. *)
Fixpoint moved (s : tenv) (x : str) : tenv :=
  match s with
  | [] => []
  | (y, m, t, here) :: s' => if str_eqb x y then (y, m, t, false) :: s' else (y, m, t, here) :: moved s' x
  end.
(** What a closure does not use *)
Definition lost (s : tenv) : tenv := map (fun '(y, m, t, _) => (y, m, t, false)) s.
(** The variables at the end of a block, [s] being those at its start *)
Definition tleave (s s' : tenv) : tenv := skipn (length s' - length s) s'.
(** [let b = ..] *)
Definition tbind (b : binder) (t : rt) (s : tenv) : tenv :=
  match b with Let x => (x, false, t, true) :: s | LetMut x => (x, true, t, true) :: s | Do => s end.
(** Expressions from left to right *)
Definition seqO {A B} (f : A -> tenv -> option (B * tenv)) : list A -> tenv -> option (list B * tenv) :=
  fix go l s :=
    match l with
    | [] => Some ([], s)
    | x :: l' => let? (a, s1) := f x s in let? (r, s2) := go l' s1 in Some (a :: r, s2)
    end.
(** All of one type *)
Definition common (l : list rt) : option rt :=
  match l with [] => Some SAny | SU8 :: _ => None | t :: l' => if forallb (fun t' => fits t' t) l' then Some t else None end.

(** ** The crate ethabi and the standard library *)
Definition constants : list (list string * rt) := [
  (["None"], SOption SAny); (["ethabi"; "Topic"; "Any"], STopic SAny);
  (["ethabi"; "ParamType"; "Address"], SKind); (["ethabi"; "ParamType"; "Bytes"], SKind); (["ethabi"; "ParamType"; "Bool"], SKind); (["ethabi"; "ParamType"; "String"], SKind);
  ([""; "ethabi"; "StateMutability"; "Pure"], SMutability); ([""; "ethabi"; "StateMutability"; "View"], SMutability);
  ([""; "ethabi"; "StateMutability"; "NonPayable"], SMutability); ([""; "ethabi"; "StateMutability"; "Payable"], SMutability)].
(** Functions of ethabi and std that are called with these types: lib.rs:85-283 *)
Definition functions : list (list string * (list rt * rt)) := [
  (["ethabi"; "Hash"; "from"], ([SArr SU8 32], SHash));
  (["ethabi"; "ParamType"; "Int"], ([SUsize], SKind)); (["ethabi"; "ParamType"; "Uint"], ([SUsize], SKind)); (["ethabi"; "ParamType"; "FixedBytes"], ([SUsize], SKind));
  (["ethabi"; "ParamType"; "Array"], ([SBox SKind], SKind)); (["ethabi"; "ParamType"; "FixedArray"], ([SBox SKind; SUsize], SKind));
  (["ethabi"; "Token"; "Address"], ([SAddress], SToken)); (["ethabi"; "Token"; "Bytes"], ([SVec SU8], SToken)); (["ethabi"; "Token"; "FixedBytes"], ([SVec SU8], SToken));
  (["ethabi"; "Token"; "Int"], ([SInt], SToken)); (["ethabi"; "Token"; "Uint"], ([SUint], SToken)); (["ethabi"; "Token"; "Bool"], ([SBool], SToken));
  (["ethabi"; "Token"; "String"], ([SString], SToken)); (["ethabi"; "Token"; "Array"], ([SVec SToken], SToken)); (["ethabi"; "Token"; "FixedArray"], ([SVec SToken], SToken))].
(** Structs of ethabi, their fields and types: lib.rs:117-123, function.rs:175-181, event.rs:113-117 and 170-174 *)
Definition structs : list (list string * (list (string * rt) * rt)) := [
  (["ethabi"; "Param"], ([("name", SString); ("kind", SKind); ("internal_type", SOption SAny)], SParam));
  (["ethabi"; "EventParam"], ([("name", SString); ("kind", SKind); ("indexed", SBool)], SEventParam));
  (["ethabi"; "Function"], ([("name", SString); ("inputs", SVec SParam); ("outputs", SVec SParam); ("constant", SBool); ("state_mutability", SMutability)], SFunction));
  (["ethabi"; "Constructor"], ([("inputs", SVec SParam)], SConstructor));
  (["ethabi"; "Event"], ([("name", SString); ("inputs", SVec SEventParam); ("anonymous", SBool)], SEvent))].
(** Methods of [Token] *)
Definition token_methods : list (string * rt) := [
  ("into_address", SAddress); ("into_bytes", SVec SU8); ("into_fixed_bytes", SVec SU8); ("into_int", SInt); ("into_uint", SUint); ("into_bool", SBool);
  ("into_string", SString); ("into_array", SVec SToken); ("into_fixed_array", SVec SToken)].
(** Methods that take [&self] or [&mut self], and those of the latter *)
Definition borrowing (m : str) : bool :=
  existsb (str_eqb m) (map lit ["to_owned"; "as_ref"; "to_vec"; "next"; "copy_from_slice"; "encode_input"; "decode_output"; "filter"; "parse_log"]).
(** Methods that take [&mut self]: lib.rs:235-283 *)
Definition changing (m : str) : bool := existsb (str_eqb m) (map lit ["next"; "copy_from_slice"]).

(** Fields given, each once, against fields declared *)
Definition fields_fit (declared given : list (str * rt)) : bool :=
  (length declared =? length given)%nat && distinct (map fst given) &&
  forallb (fun x => match find (fun y => str_eqb (fst x) (fst y)) declared with Some y => fits (snd x) (snd y) | None => false end) given.

Section Function.
Context (c : ctx) (gs : list generic) (ret : rt).
(** The type parameters of the function *)
Definition vars : list str := map generic_var gs.
(** What [t.into()] is, and the items of [t.into_iter()] *)
Definition into (t : rt) : option rt :=
  match t with
  | SVar x => match bound_of gs x with Some (GInto _ y) => rt_of c vars None y | _ => None end
  | SRef SStr => Some (SInto t)
  | _ => None
  end.
(** The items of [t.into_iter()] *)
Definition items_of (t : rt) : option rt :=
  match t with
  | SVar x => match bound_of gs x with Some (GIter _ u) => Some (SVar u) | _ => None end
  | SVec SU8 => None
  | SVec t' => Some t'
  | _ => None
  end.
(** [Vec<_>] and [Box<[_]>] *)
Definition vec_of_any (l : list ty) : bool :=
  match l with [TyName [x] [TyInfer]] => str_eqb x (lit "Vec") && negb (local_type x (cx_items c)) && negb (existsb (str_eqb x) vars) | _ => false end.
(** [Box<[_]>]: lib.rs:188 *)
Definition box_of_any (t : ty) : bool :=
  match t with TyName [x] [TySlice TyInfer] => str_eqb x (lit "Box") && negb (local_type x (cx_items c)) && negb (existsb (str_eqb x) vars) | _ => false end.
(** The result of a method, all arguments as given *)
Definition method_type (t : rt) (m : str) (turbofish : list ty) (args : list rt) : option rt :=
  let is s := str_eqb m (lit s) in
  match args with
  | [] =>
    if is "collect" then
      match t with
      | SIter a => if is_byte a then None else match turbofish with [] => Some (SCollect a) | _ => if vec_of_any turbofish then Some (SVec a) else None end
      | _ => None
      end
    else match turbofish with _ :: _ => None | [] =>
      if is "into" then into t
      else if is "to_owned" then match t with SRef SStr => Some SString | _ => None end
      else if is "into_iter" then let? a := items_of t in Some (SIter a)
      else if is "into_vec" then match t with SBox (SSlice a) => if is_byte a then None else Some (SVec a) | _ => None end
      else if is "as_ref" then match t with SHash | SArr SU8 _ => Some (SRef (SSlice SU8)) | _ => None end
      else if is "to_vec" then match t with SRef (SSlice SU8) => Some (SVec SU8) | _ => None end
      else if is "next" then match t with SIter a => Some (SOption a) | _ => None end
      else match t with SToken => let? a := option_map snd (find (fun x => is (fst x)) token_methods) in Some (SOption a) | _ => None end
    end
  | _ =>
    match turbofish, t with
    | [], SOption a | [], SResult a => if is "expect" && fit_all args [SRef SStr] then Some a else None
    | [], SArr SU8 _ => if is "copy_from_slice" && fit_all args [SRef (SSlice SU8)] then Some SUnit else None
    | [], SFunction =>
      if is "encode_input" && fit_all args [SRef (SSlice SToken)] then Some (SResult (SVec SU8))
      else if is "decode_output" && fit_all args [SRef (SSlice SU8)] then Some (SResult (SVec SToken))
      else None
    | [], SConstructor => if is "encode_input" && fit_all args [SVec SU8; SRef (SSlice SToken)] then Some (SResult (SVec SU8)) else None
    | [], SEvent =>
      if is "filter" && fit_all args [SRawFilter] then Some (SResult SFilter)
      else if is "parse_log" && fit_all args [SRawLog] then Some (SResult SLog)
      else None
    | _, _ => None
    end
  end.
(** Fields: event.rs:50 and 193, function.rs:115 *)
Definition field_type (t : rt) (f : str) : option rt :=
  match t with
  | SLog => if str_eqb f (lit "params") then Some (SVec SLogParam) else None
  | SLogParam => if str_eqb f (lit "value") then Some SToken else None
  | _ => None
  end.
(** [t.0] of a newtype or a reference to one *)
Definition first_type (t : rt) : option rt :=
  match t with
  | SLocal q | SRef (SLocal q) =>
    match q with
    | [] => None
    | _ => if path_eqb (removelast q) (cx_here c) then let? y := newtype_of (last q []) (cx_items c) in rt_of c [] None y else None
    end
  | _ => None
  end.
(** A function of the module; its type parameters are what its arguments
    convert to. *)
Definition argument_fits (callee : list generic) (t : rt) (p : ty) : bool :=
  let vs := map generic_var callee in
  match rt_of c vs None p with
  | Some (SVar x) =>
    match bound_of callee x with
    | Some (GInto _ y) => match rt_of c vs None y with Some u => known true u && fits t u | None => false end
    | _ => false
    end
  | Some u => known true u && fits t u
  | None => false
  end.
(** The type parameters of a function *)
Definition generics_of (f : fn) : list generic := match fn_generics f with Some l => l | None => [] end.
(** What a call of a function of the module gives *)
Definition fn_type (f : fn) (args : list rt) : option rt :=
  if negb (fn_self f) && (length (fn_params f) =? length args)%nat &&
     forallb (fun x => argument_fits (generics_of f) (fst x) (snd (snd x))) (combine args (fn_params f))
  then let? r := rt_of c (map generic_var (generics_of f)) None (fn_ret f) in if known true r then Some r else None
  else None.
(** [ethabi::FunctionOutputDecoder::decode(&x, output)] *)
Definition is_decoder (q : path) : bool := is_path q ["ethabi"; "FunctionOutputDecoder"].
(** The result of [decode] in [impl FunctionOutputDecoder for x]: function.rs:187-193 *)
Definition output_of (x : str) : option rt :=
  match List.concat (map (fun i => match i with IImpl trait y _ t _ => if str_eqb x y && is_decoder trait then [t] else [] | _ => [] end) (cx_items c)) with
  | [t] => rt_of c [] None t
  | _ => None
  end.
(** [q(args)] *)
Definition call_type (q : path) (args : list rt) : option rt :=
  if is_path q ["Ok"] then match args with [t] => Some (SResult t) | _ => None end
  else if is_path q ["Box"; "new"] then match args with [t] => if sized t then Some (SBox t) else None | _ => None end
  else if is_path q ["ethabi"; "FunctionOutputDecoder"; "decode"] then
    match args with
    | [SRef (SLocal ((_ :: _) as p)); t] =>
      if path_eqb (removelast p) (cx_here c) && fits t (SRef (SSlice SU8)) then let? u := output_of (last p []) in Some (SResult u) else None
    | _ => None
    end
  else match at_name q functions with
  | Some (params, r) => if fit_all args params then Some r else None
  | None =>
    match q with
    | [x] =>
      match fn_of x (cx_items c), newtype_of x (cx_items c) with
      | Some f, None => fn_type f args
      | None, Some y =>
        match args, rt_of c [] None y with
        | [t], Some u => if fits t u then Some (SLocal (cx_here c ++ [x])) else None
        | _, _ => None
        end
      | _, _ => None
      end
    | _ => None
    end
  end.
(** [q { given }] *)
Definition struct_type (q : path) (given : list (str * rt)) : option rt :=
  match at_name q structs with
  | Some (declared, r) => if fields_fit (map (fun x => (lit (fst x), snd x)) declared) given then Some r else None
  | None =>
    match (match q with [_] => None | _ => plain_name c [] None q end) with
    | Some (SLocal [m; x]) =>
      if str_eqb m (lit "logs") then
        let? fields := struct_of x (logs_items (cx_root c)) in
        let? declared := typed_fields (logs_ctx c) fields in
        if fields_fit declared given then Some (SLocal [m; x]) else None
      else None
    | _ => None
    end
  end.
(** [q { given, ..base() }]: event.rs:178-181 *)
Definition default_type (q base : path) (given : list (str * rt)) : option rt :=
  if is_path q ["ethabi"; "RawTopicFilter"] && is_path base ["Default"; "default"] && distinct (map fst given) &&
     forallb (fun x : str * rt => existsb (str_eqb (fst x)) (map lit ["topic0"; "topic1"; "topic2"]) && fits (snd x) (STopic SToken)) given
  then Some SRawFilter else None.

(** ** Expressions.  [own]: the value is taken, not borrowed. *)
Fixpoint infer (e : expr) (own : bool) (s : tenv) {struct e} : option (rt * tenv) :=
  let take e s := infer e true s in
  let record l s := seqO (fun (x : str * expr) s => let? (t, s1) := take (snd x) s in Some ((fst x, t), s1)) l s in
  match e with
  | EPath q =>
    match (match q with [x] => tlookup s x | _ => None end), q with
    | Some (_, t, here), [x] => if here then Some (t, if own && negb (copied t) then moved s x else s) else None
    | _, _ => if is_path q ["INTERNAL_ERR"] then if cx_err c then Some (SRef SStr, s) else None else let? t := at_name q constants in Some (t, s)
    end
  | EStr _ => Some (SRef SStr, s)
  | ENum _ suffix => if str_eqb suffix (lit "usize") then Some (SUsize, s) else if str_eqb suffix (lit "u8") then Some (SU8, s) else None
  | EBool _ => Some (SBool, s)
  | ECall q args =>
    match (match q with [x] => tlookup s x | _ => None end) with
    | Some _ => None
    | None => let? (ts, s1) := seqO take args s in let? t := call_type q ts in Some (t, s1)
    end
  | EMethod e m turbofish args =>
    let? (t, s1) := infer e (negb (borrowing m)) s in
    if str_eqb m (lit "map") then
      match t, turbofish, args with
      | SIter a, [], [EPath q] => if is_path q ["Into"; "into"] then let? b := into a in Some (SIter b, s1) else None
      | _, _, _ => None
      end
    else
      let? (ts, s2) := seqO take args s1 in
      let? r := method_type t m turbofish ts in
      if changing m then
        match e with
        | EPath [x] => match tlookup s x with Some (true, _, _) => Some (r, s2) | _ => None end
        | EPath _ | EField _ _ | EFirst _ | ERef _ => None
        | _ => Some (r, s2)
        end
      else Some (r, s2)
  | EMap e x body =>
    let? (t, s1) := take e s in
    match t with
    | SIter a => let? (b, _) := take body ((x, false, a, true) :: lost s1) in Some (SIter b, s1)
    | STopic a => let? (b, _) := take body ((x, false, a, true) :: lost s1) in Some (STopic b, s1)
    | _ => None
    end
  | EField e f => let? (t, s1) := take e s in let? r := field_type t f in Some (r, s1)
  | EFirst e => let? (t, s1) := infer e false s in let? r := first_type t in if own then None else Some (r, s1)
  | ETry e => let? (t, s1) := take e s in match t, ret with SResult a, SResult _ => Some (a, s1) | _, _ => None end
  | ERef e => let? (t, s1) := infer e false s in Some (SRef t, s1)
  | ECast e y => let? (t, s1) := take e s in match t with SBox (SArr a _) => if box_of_any y && negb (is_byte a) then Some (SBox (SSlice a), s1) else None | _ => None end
  | ETuple [] => Some (SUnit, s)
  | ETuple [_] => None
  | ETuple l => let? (ts, s1) := seqO take l s in Some (STuple ts, s1)
  | EArray l => let? (ts, s1) := seqO take l s in let? t := common ts in Some (SArr t (len l), s1)
  | ERepeat e n => let? (t, s1) := take e s in match t with SU8 => Some (SArr SU8 n, s1) | _ => None end
  | EVec l => let? (ts, s1) := seqO take l s in let? t := common ts in Some (SVec t, s1)
  | EBlock l e =>
    let? (t, s1) := (fix go l s :=
      match l with
      | [] => take e s
      | x :: l' => let? (t, s1) := take (snd x) s in go l' (tbind (fst x) t s1)
      end) l s in
    Some (t, tleave s s1)
  | EStruct q l | EStructTrailing q l => let? (ts, s1) := record l s in let? t := struct_type q ts in Some (t, s1)
  | EStructDefault q l base => let? (ts, s1) := record l s in let? t := default_type q base ts in Some (t, s1)
  end.
End Function.

(** ** Functions *)
Definition names_ok (l : list str) : bool := distinct l && negb (existsb keyword l).
(** Whether a bound is one: lib.rs:154-182, event.rs:79 *)
Definition generic_ok (c : ctx) (gs : list generic) (g : generic) : bool :=
  match g with
  | GInto _ t => match rt_of c (map generic_var gs) None t with Some _ => true | None => false end
  | GIter _ u => existsb (str_eqb u) (map generic_var gs)
  end.
(** [self]: the type of the impl, and what [Self::Output] stands for *)
Definition fn_ok (c : ctx) (self : option (rt * rt)) (f : fn) : bool :=
  let gs := generics_of f in
  let vs := map generic_var gs in
  let out := option_map snd self in
  names_ok vs && forallb (generic_ok c gs) gs && names_ok (map fst (fn_params f)) && negb (keyword (fn_name f)) &&
  match mapO (fun x : str * ty => let? t := rt_of c vs out (snd x) in Some (fst x, false, t, true)) (fn_params f), rt_of c vs out (fn_ret f) with
  | Some s, Some ret =>
    match (match fn_self f, self with true, Some (t, _) => Some [(lit "self", false, SRef t, true)] | false, None => Some [] | _, _ => None end) with
    | Some s0 => match infer c gs ret (EBlock (fn_body f) (fn_result f)) true (s0 ++ s) with Some (t, _) => fits t ret | None => false end
    | None => false
    end
  | _, _ => false
  end.

(** ** Items *)
(** [fn decode(&self, _: &[u8]) -> Result<Self::Output>] *)
Definition decode_signature (f : fn) : bool :=
  str_eqb (fn_name f) (lit "decode") && fn_self f && match fn_generics f with None => true | Some _ => false end && negb (fn_pub f) &&
  match fn_params f, fn_ret f with
  | [(_, TyRef (TySlice (TyName q [])))], TyName r [TyName o []] => is_path q ["u8"] && is_path r ["ethabi"; "Result"] && is_path o ["Self"; "Output"]
  | _, _ => false
  end.
(** The names that an item adds to the types and modules, and those it adds to
    the functions and constants *)
Definition type_names (i : item) : list str :=
  match i with
  | IUse q => if is_path q ["ethabi"] then q else []
  | INewtype _ x _ | IStruct _ x _ | IMod _ x _ => [x]
  | _ => []
  end.
(** The names that an item adds to the functions and constants *)
Definition value_names (i : item) : list str :=
  match i with
  | IUse q => if is_path q ["ethabi"] then [] else [last q []]
  | IConst x _ _ => [x]
  | IFn f => [fn_name f]
  | INewtype _ x _ => [x]
  | _ => []
  end.
(** Whether the item brings INTERNAL_ERR into scope *)
Definition sees_err (i : item) : bool :=
  match i with
  | IUse q => is_path q ["super"; "INTERNAL_ERR"]
  | IConst x t _ => str_eqb x (lit "INTERNAL_ERR") && match t with TyStatic (TyName q []) => is_path q ["str"] | _ => false end
  | _ => false
  end.
(** [outer]: whether the module around sees [INTERNAL_ERR] *)
Fixpoint item_ok (c : ctx) (outer : bool) (i : item) {struct i} : bool :=
  match i with
  | IUse q => is_path q ["ethabi"] || is_path q ["super"; "INTERNAL_ERR"] && outer
  | IConst x t _ => negb (keyword x) && match t with TyStatic (TyName q []) => is_path q ["str"] | _ => false end
  | IFn f => fn_ok c None f
  | INewtype _ x t => negb (keyword x) && match rt_of c [] None t with Some u => known false u | None => false end
  | IImpl trait x assoc t f =>
    is_decoder trait && str_eqb assoc (lit "Output") && decode_signature f && negb (local_type (lit "u8") (cx_items c)) &&
    match newtype_of x (cx_items c), rt_of c [] None t with
    | Some _, Some u => fn_ok c (Some (SLocal (cx_here c ++ [x]), u)) f
    | _, _ => false
    end
  | IStruct derives x fields =>
    forallb (fun d => existsb (str_eqb d) (map lit ["Debug"; "Clone"; "PartialEq"])) derives &&
    negb (keyword x) && names_ok (map fst fields) && match typed_fields c fields with Some _ => true | None => false end
  | IMod _ x items =>
    let err := existsb sees_err items in
    let inner := mkCtx (cx_here c ++ [x]) items (cx_root c) err in
    negb (keyword x) && distinct (List.concat (map type_names items)) && distinct (List.concat (map value_names items)) &&
    (fix go l := match l with [] => true | i :: l' => item_ok inner (cx_err c) i && go l' end) items
  end.
(** What the macro writes is put in a module of its own. *)
Definition program_ok (items : list item) : bool :=
  let c := mkCtx [] items items (existsb sees_err items) in
  distinct (List.concat (map type_names items)) && distinct (List.concat (map value_names items)) && forallb (item_ok c false) items.

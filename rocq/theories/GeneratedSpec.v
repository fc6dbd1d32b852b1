(** * What generated code offers and does

    What is said about the syntax trees of RustSyntax.v: how signatures read,
    and when a module or a function, run by RustEval.v, does what Derive.v
    says of the interface.  Nothing here comes from /repo/derive. *)
From Verif Require Import Base Types Function Event Heck Derive RustSyntax RustEval DeriveSpec.
From Coq Require Import String.
Set Implicit Arguments.
Local Open Scope string_scope.
Local Open Scope N_scope.
Local Open Scope list_scope.

(** ** Types *)
Fixpoint read_ty (t : ty) : option rty :=
  match t with
  | TyName q [] =>
    if at_path q ["ethabi"; "Address"] then Some YAddress
    else if at_path q ["ethabi"; "Bytes"] then Some YBytes
    else if at_path q ["ethabi"; "Hash"] then Some YHash
    else if at_path q ["ethabi"; "Int"] then Some YInt
    else if at_path q ["ethabi"; "Uint"] then Some YUint
    else if at_path q ["bool"] then Some YBool
    else if at_path q ["String"] then Some YString
    else None
  | TyName q [t'] => if at_path q ["Vec"] then option_map YVec (read_ty t') else None
  | TyArray (TyName q []) n => if at_path q ["u8"] then Some (YByteArray n) else None
  | _ => None
  end.
Definition read_all {A B} (f : A -> option B) (l : list A) : option (list B) :=
  fold_right (fun a r => match f a, r with Some b, Some l => Some (b :: l) | _, _ => None end) (Some []) l.
(** The result of a function: nothing, one value or a tuple *)
Definition read_results (t : ty) : option (list rty) :=
  match t with TyTuple l => read_all read_ty l | _ => option_map (fun y => [y]) (read_ty t) end.
(** ** Type parameters *)
Definition generic_name (g : generic) : str := match g with GInto x _ | GIter x _ => x end.
Definition generic_of (gs : list generic) (x : str) : option generic := find (fun g => str_eqb x (generic_name g)) gs.
Definition read_generic (gs : list generic) (u : str) : option rty :=
  match generic_of gs u with Some (GInto _ t) => read_ty t | _ => None end.
(** A parameter of type [t] *)
Definition read_bound (gs : list generic) (t : ty) : option bound :=
  match t with
  | TyName [x] [] =>
    match generic_of gs x with
    | Some (GInto _ t') =>
      match t' with
      | TyArray (TyName [u] []) n => match generic_of gs u with Some _ => option_map (fun y => BArray y n) (read_generic gs u) | None => option_map BInto (read_ty t') end
      | _ => option_map BInto (read_ty t')
      end
    | Some (GIter _ u) => option_map BIter (read_generic gs u)
    | None => None
    end
  | _ => None
  end.
(** A parameter of a filter: [T: Into<ethabi::Topic<t>>] *)
Definition read_topic (gs : list generic) (t : ty) : option rty :=
  match t with
  | TyName [x] [] =>
    match generic_of gs x with
    | Some (GInto _ (TyName q [t'])) => if at_path q ["ethabi"; "Topic"] then read_ty t' else None
    | _ => None
    end
  | _ => None
  end.
Definition generics (f : fn) : list generic := match fn_generics f with Some l => l | None => [] end.
(** [Result<t>] *)
Definition ethabi_result (t : ty) : ty := TyName (segments ["ethabi"; "Result"]) [t].

(** ** Modules *)
(** The public function of that name, and there is no other item of that name *)
Definition offers (items : list item) (x : string) (f : fn) : Prop := resolve items [lit x] [] = Some (inl f) /\ fn_pub f = true /\ fn_self f = false.
Section Profile.
Context (p : profile).
Definition function_module (d : DFunction) (i : item) : Prop := exists items,
  i = IMod None (df_module d) items /\
  (forall n, call p (S n) items [lit "function"] [] = Done (VFun (df_function d))) /\
  (exists f, offers items "encode_input" f /\ named parameter_name (f_inputs (df_function d)) (map fst (fn_params f)) /\ read_all (read_bound (generics f)) (map snd (fn_params f)) = Some (df_bounds d) /\ read_ty (fn_ret f) = Some YBytes) /\
  (exists f, offers items "call" f /\ named parameter_name (f_inputs (df_function d)) (map fst (fn_params f)) /\ read_all (read_bound (generics f)) (map snd (fn_params f)) = Some (df_bounds d) /\
     fn_ret f = TyTuple [TyName (segments ["ethabi"; "Bytes"]) []; TyName [lit "Decoder"] []]) /\
  (exists f t, offers items "decode_output" f /\ map snd (fn_params f) = [TyRef (TySlice (TyName [lit "u8"] []))] /\ fn_ret f = ethabi_result t /\ read_results t = Some (df_results d)) /\
  (exists f t, In (IImpl (segments ["ethabi"; "FunctionOutputDecoder"]) (lit "Decoder") (lit "Output") t f) items /\ read_results t = Some (df_results d)) /\
  (exists doc, In (INewtype doc (lit "Decoder") (TyName (segments ["ethabi"; "Function"]) [])) items) /\
  (forall n args, Forall2 meets (df_bounds d) args ->
     call p (S (S n)) items [lit "encode_input"] (map inj args) = plainly VBytes (df_encode_input d args) /\
     call p (S (S n)) items [lit "call"] (map inj args) =
       plainly (fun b => VTuple [VBytes b; VNewtype (lit "Decoder") (VFun (df_function d))]) (df_encode_input d args)) /\
  (forall n data,
     call p (S (S n)) items [lit "decode_output"] [VBytes data] = returned results (df_decode_output d data) /\
     call p (S n) items (segments ["ethabi"; "FunctionOutputDecoder"; "decode"]) [VNewtype (lit "Decoder") (VFun (df_function d)); VBytes data] =
       returned results (df_decode_output d data)).
Definition constructor_function (d : DConstructor) (i : item) : Prop := exists f t ts names,
  map fst (fn_params f) = lit "code" :: names /\ named parameter_name (k_inputs (dk_constructor d)) names /\
  i = IFn f /\ fn_name f = lit "constructor" /\ fn_pub f = true /\ fn_self f = false /\
  map snd (fn_params f) = t :: ts /\ read_ty t = Some YBytes /\ read_all (read_bound (generics f)) ts = Some (dk_bounds d) /\ read_ty (fn_ret f) = Some YBytes /\
  forall n code args, Forall2 meets (dk_bounds d) args ->
    call p (S n) [i] [lit "constructor"] (VBytes code :: map inj args) = plainly VBytes (dk_encode d code args).
(** [log]: the path of the struct for the logs *)
Definition event_module (d : DEvent) (names : list str) (i : item) : Prop := exists items,
  let log := segments ["super"; "super"; "logs"] ++ [e_name (de_event d)] in
  i = IMod None (de_module d) items /\
  (exists f, offers items "event" f /\ fn_params f = [] /\ fn_ret f = TyName (segments ["ethabi"; "Event"]) []) /\
  (exists f, offers items "filter" f /\ map fst (fn_params f) = map snd (filter (fun x => ep_indexed (fst x)) (combine (e_inputs (de_event d)) names)) /\ read_all (read_topic (generics f)) (map snd (fn_params f)) = Some (de_topic_types d) /\ fn_ret f = TyName (segments ["ethabi"; "TopicFilter"]) []) /\
  (exists f, offers items "wildcard_filter" f /\ fn_params f = [] /\ fn_ret f = TyName (segments ["ethabi"; "TopicFilter"]) []) /\
  (exists f, offers items "parse_log" f /\ map snd (fn_params f) = [TyName (segments ["ethabi"; "RawLog"]) []] /\ fn_ret f = ethabi_result (TyName log [])) /\
  (forall n, call p (S n) items [lit "event"] [] = Done (VEvent (de_event d))) /\
  (forall n args, Forall2 topic_of_type (de_topic_types d) args ->
     call p (S (S n)) items [lit "filter"] (map inj_topic args) = plainly VFilter (de_filter d args)) /\
  (forall n, call p (S (S (S n))) items [lit "wildcard_filter"] [] = plainly VFilter (de_wildcard_filter d)) /\
  (forall n l, call p (S (S n)) items [lit "parse_log"] [VRawLog l] = returned (fun vs => VRecord log (combine names (map inj vs))) (de_parse_log d l)).
Definition log_struct (d : DEvent) (names : list str) (i : item) : Prop := exists fields,
  i = IStruct (segments ["Debug"; "Clone"; "PartialEq"]) (e_name (de_event d)) fields /\ map fst fields = names /\ read_all read_ty (map snd fields) = Some (de_fields d).
(** The module and the struct of an event *)
Definition event_code (d : DEvent) (i j : item) : Prop := exists names,
  named field_name (e_inputs (de_event d)) names /\ event_module d names i /\ log_struct d names j.
Definition constructor_code (o : option DConstructor) (items : list item) : Prop :=
  match o with Some d => exists i, items = [i] /\ constructor_function d i | None => items = [] end.
(** Everything; the names in each of the modules differ. *)
Definition contract_code (d : DContract) (items : list item) : Prop := exists constructor functions events logs uses uses' uses'' doc doc' doc'',
  items = [IUse (segments ["ethabi"]); IConst (lit "INTERNAL_ERR") (TyStatic (TyName [lit "str"] [])) (lit "`ethabi_derive` internal error")] ++ constructor ++
    [IMod doc (lit "functions") (map IUse uses ++ functions); IMod doc' (lit "events") (map IUse uses' ++ events); IMod doc'' (lit "logs") (map IUse uses'' ++ logs)] /\
  constructor_code (dc_constructor d) constructor /\
  Forall2 function_module (dc_functions d) functions /\ NoDup (map df_module (dc_functions d)) /\
  Forall3 event_code (dc_events d) events logs /\ NoDup (map de_module (dc_events d)) /\ NoDup (map (fun x => e_name (de_event x)) (dc_events d)).
(** ** Contracts that code can be written for at all: identifiers, no tuples *)
Definition writable_types (l : list ParamType) : Prop := Forall (fun t => no_tuple t = true) l.
Definition writable_function (f : Function) : Prop :=
  (exists names, named parameter_name (f_inputs f) names /\ Forall identifier names) /\ identifier (to_snake_case (f_name f)) /\
  writable_types (map p_kind (f_inputs f)) /\ writable_types (map p_kind (f_outputs f)).
Definition writable_constructor (c : Constructor) : Prop :=
  (exists names, named parameter_name (k_inputs c) names /\ Forall identifier names) /\ writable_types (map p_kind (k_inputs c)).
Definition writable_event (e : Event) : Prop :=
  (exists names, named field_name (e_inputs e) names /\ Forall identifier names) /\ identifier (to_snake_case (e_name e)) /\ identifier (to_camel_case (e_name e)) /\
  writable_types (map ep_kind (e_inputs e)).

(** ** Code that the compiler does not take
    Functions that get nowhere, whatever they are given; modules and structs
    named like keywords; structs that are none. *)
Definition stuck (items : list item) (x : string) : Prop := forall n args, call p n items [lit x] args = Stuck.
Definition refused_function (i : item) : Prop := exists m items,
  i = IMod None m items /\ (In m reserved_words \/ stuck items "encode_input" \/ stuck items "decode_output").
Definition refused_constructor (i : item) : Prop := stuck [i] "constructor".
Definition refused_event (i : item) : Prop := exists m items, i = IMod None m items /\ (In m reserved_words \/ stuck items "filter").
Definition refused_struct (i : item) : Prop := exists derives x fields,
  i = IStruct derives x fields /\
  (In x reserved_words \/ ~ NoDup (map fst fields) \/ Exists (fun y => In y reserved_words) (map fst fields) \/ Exists (fun t => is_type t = false) (map snd fields)).
Definition item_name (i : item) : option str :=
  match i with IMod _ x _ | IStruct _ x _ => Some x | IFn f => Some (fn_name f) | INewtype _ x _ => Some x | IConst x _ _ => Some x | IUse _ | IImpl _ _ _ _ _ => None end.
(** The types of the fields contain a type [x] of the standard library. *)
Fixpoint mentions_name (x : str) (t : ty) : Prop :=
  match t with
  | TyName q l => q = [x] \/ (fix any l := match l with [] => False | t' :: l' => mentions_name x t' \/ any l' end) l
  | TyArray t' _ | TySlice t' | TyRef t' | TyStatic t' => mentions_name x t'
  | TyComma _ _ | TyInfer => False
  | TyTuple l => (fix any l := match l with [] => False | t' :: l' => mentions_name x t' \/ any l' end) l
  end.
Definition hidden_type (items : list item) : Prop := exists x derives fields i,
  In x [lit "String"; lit "Vec"] /\ In (IStruct derives x fields) items /\ In i items /\
  match i with IStruct _ _ l => Exists (mentions_name x) (map snd l) | _ => False end.
Definition refused_code (items : list item) : Prop :=
  Exists (fun i => match i with
    | IFn _ => refused_constructor i
    | IMod _ x l =>
      ~ NoDup (flat_map (fun j => match item_name j with Some n => [n] | None => [] end) l) \/
      x = lit "functions" /\ Exists refused_function l \/
      x = lit "events" /\ Exists refused_event l \/
      x = lit "logs" /\ (Exists refused_struct l \/ hidden_type l)
    | _ => False
    end) items.
End Profile.

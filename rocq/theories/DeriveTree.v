(** * ethabi-derive: the generated code as syntax trees

    What the texts of DeriveText.v parse as: DeriveTextFacts.v proves that
    writing these trees gives those texts. *)
From Verif Require Import Base Types TypeNames Function Event Contract Heck Derive RustSyntax.
From Coq Require Import String.
Set Implicit Arguments.
Local Open Scope N_scope.
Local Open Scope list_scope.
Local Open Scope string_scope.
Local Open Scope list_scope.

(** A path of one segment *)
Definition name (s : string) : expr := EPath [lit s].
(** [ethabi::l] *)
Definition ethabi (l : list string) : path := segments ("ethabi" :: l).
(** [e.m()] *)
Definition method (e : expr) (m : string) : expr := EMethod e (lit m) [] [].
(** The constant of contract.rs:40 *)
Definition internal_err : expr := name "INTERNAL_ERR".
(** [e.expect(INTERNAL_ERR)]: lib.rs:231-283 *)
Definition expecting (e : expr) : expr := EMethod e (lit "expect") [] [internal_err].
(** [e.map(Into::into)]: lib.rs:184-192 *)
Definition map_into (e : expr) : expr := EMethod e (lit "map") [] [EPath (segments ["Into"; "into"])].
(** [e.collect::<Vec<_>>()]: lib.rs:184-192 *)
Definition collect_vec (e : expr) : expr := EMethod e (lit "collect") [TyName [lit "Vec"] [TyInfer]] [].
(** A type of one segment *)
Definition ty (s : string) : ty := TyName [lit s] [].
(** [ethabi::s] as a type: lib.rs:130-152 *)
Definition ethabi_ty (s : string) : RustSyntax.ty := TyName (ethabi [s]) [].

(** lib.rs:85-106 *)
Definition param_type (s : string) : path := ethabi ["ParamType"; s].
(** [Box::new(e)]: lib.rs:95 and 100 *)
Definition box_new (e : expr) : expr := ECall (segments ["Box"; "new"]) [e].
(** A literal [n usize]: lib.rs:89-100 *)
Definition usize (n : N) : expr := ENum n (lit "usize").
(** lib.rs:85-106 *)
Fixpoint syntax_tree (param_type' : ParamType) : res expr :=
  match param_type' with
  | PAddress => Ok (EPath (param_type "Address"))
  | PBytes => Ok (EPath (param_type "Bytes"))
  | PInt x => Ok (ECall (param_type "Int") [usize x])
  | PUint x => Ok (ECall (param_type "Uint") [usize x])
  | PBool => Ok (EPath (param_type "Bool"))
  | PString => Ok (EPath (param_type "String"))
  | PArray k => do e <- syntax_tree k; Ok (ECall (param_type "Array") [box_new e])
  | PFixedBytes x => Ok (ECall (param_type "FixedBytes") [usize x])
  | PFixedArray k x => do e <- syntax_tree k; Ok (ECall (param_type "FixedArray") [box_new e; usize x])
  | PTuple _ => Panic
  end.
(** lib.rs:108-128 *)
Definition param_tree (x : Param) : res expr :=
  do kind <- syntax_tree (p_kind x);
  Ok (EStruct (ethabi ["Param"]) [(lit "name", method (EStr (p_name x)) "to_owned"); (lit "kind", kind); (lit "internal_type", name "None")]).
(** lib.rs:108-128 *)
Definition params_tree (params : list Param) : res expr :=
  do p <- mapM param_tree params; Ok (EVec p).
(** lib.rs:130-152 *)
Fixpoint type_tree (input : ParamType) : res RustSyntax.ty :=
  match input with
  | PAddress => Ok (ethabi_ty "Address")
  | PBytes => Ok (ethabi_ty "Bytes")
  | PFixedBytes size => Ok (if N.eqb size 32 then ethabi_ty "Hash" else TyArray (ty "u8") size)
  | PInt _ => Ok (ethabi_ty "Int")
  | PUint _ => Ok (ethabi_ty "Uint")
  | PBool => Ok (ty "bool")
  | PString => Ok (ty "String")
  | PArray kind => do t <- type_tree kind; Ok (TyName [lit "Vec"] [t])
  | PFixedArray kind size => do t <- type_tree kind; Ok (TyComma t size)
  | PTuple _ => Panic
  end.
(** lib.rs:154-182 *)
Definition bound_tree (input : ParamType) (index : nat) : res (list generic) :=
  let t_ident := numbered (lit "T") index in
  let u_ident := numbered (lit "U") index in
  match input with
  | PArray kind => do t <- type_tree kind; Ok [GIter t_ident u_ident; GInto u_ident t]
  | PFixedArray kind size => do t <- type_tree kind; Ok [GInto t_ident (TyArray (TyName [u_ident] []) size); GInto u_ident t]
  | _ => do t <- type_tree input; Ok [GInto t_ident t]
  end.
(** lib.rs:184-192 *)
Definition template_tree (input : ParamType) (name : str) : expr :=
  match input with
  | PArray _ => collect_vec (map_into (method (EPath [name]) "into_iter"))
  | PFixedArray _ _ =>
    collect_vec (map_into (method (method (ECast (box_new (method (EPath [name]) "into")) (TyName [lit "Box"] [TySlice TyInfer])) "into_vec") "into_iter"))
  | _ => method (EPath [name]) "into"
  end.
(** lib.rs:194-229 *)
Definition token (s : string) : path := ethabi ["Token"; s].
(** lib.rs:194-229 *)
Definition token_block (s : string) (e inner_loop : expr) : expr :=
  EBlock [(Let (lit "v"), method (EMap (method e "into_iter") (lit "inner") inner_loop) "collect")] (ECall (token s) [name "v"]).
(** lib.rs:194-229 *)
Fixpoint to_token_tree (e : expr) (kind : ParamType) : res expr :=
  match kind with
  | PAddress => Ok (ECall (token "Address") [e])
  | PBytes => Ok (ECall (token "Bytes") [e])
  | PFixedBytes _ => Ok (ECall (token "FixedBytes") [method (method e "as_ref") "to_vec"])
  | PInt _ => Ok (ECall (token "Int") [e])
  | PUint _ => Ok (ECall (token "Uint") [e])
  | PBool => Ok (ECall (token "Bool") [e])
  | PString => Ok (ECall (token "String") [e])
  | PArray kind => do inner_loop <- to_token_tree (name "inner") kind; Ok (token_block "Array" e inner_loop)
  | PFixedArray kind _ => do inner_loop <- to_token_tree (name "inner") kind; Ok (token_block "FixedArray" e inner_loop)
  | PTuple _ => Panic
  end.
(** lib.rs:231-283 *)
Definition copied (size : N) (e result : expr) : expr :=
  EBlock [(LetMut (lit "result"), ERepeat (ENum 0 (lit "u8")) size);
          (Let (lit "v"), expecting (method e "into_fixed_bytes"));
          (Do, EMethod (name "result") (lit "copy_from_slice") [] [ERef (name "v")])] result.
(** lib.rs:231-283 *)
Fixpoint from_token_tree (kind : ParamType) (e : expr) : res expr :=
  match kind with
  | PAddress => Ok (expecting (method e "into_address"))
  | PBytes => Ok (expecting (method e "into_bytes"))
  | PFixedBytes size =>
    Ok (if N.eqb size 32 then copied 32 e (ECall (ethabi ["Hash"; "from"]) [name "result"]) else copied size e (name "result"))
  | PInt _ => Ok (expecting (method e "into_int"))
  | PUint _ => Ok (expecting (method e "into_uint"))
  | PBool => Ok (expecting (method e "into_bool"))
  | PString => Ok (expecting (method e "into_string"))
  | PArray kind =>
    do inner_loop <- from_token_tree kind (name "inner");
    Ok (method (EMap (method (expecting (method e "into_array")) "into_iter") (lit "inner") inner_loop) "collect")
  | PFixedArray kind size =>
    do inner_loop <- from_token_tree kind (name "inner");
    Ok (EBlock [(Let (lit "iter"), EMap (method (expecting (method e "to_array")) "into_iter") (lit "inner") inner_loop)]
          (EArray (repeat (method (name "iter") "next") (N.to_nat size))))
  | PTuple _ => Panic
  end.
(** lib.rs:303-315 *)
Definition output_tree (outputs : list Param) : res RustSyntax.ty :=
  match outputs with
  | [x] => type_tree (p_kind x)
  | _ => do outs <- mapM (fun param => type_tree (p_kind param)) outputs; Ok (TyTuple outs)
  end.

(** ** /repo/derive/src/function.rs *)
(** function.rs:75-91, constructor.rs:28-44 *)
Definition bounds_tree (inputs : list Param) : res (list generic) :=
  do l <- mapM (fun r => r) (mapi (fun index param => bound_tree (p_kind param) index) inputs); Ok (List.concat l).
(** function.rs:87-90, constructor.rs:40-45 *)
Definition typed (names : list str) : list (str * RustSyntax.ty) :=
  mapi (fun index n => (n, TyName [numbered (lit "T") index] [])) names.
(** function.rs:98-102 and constructor.rs:48-52 *)
Definition tokenize_tree (names : list str) (inputs : list Param) : res (list expr) :=
  mapM (fun x => to_token_tree (template_tree (p_kind (snd x)) (fst x)) (p_kind (snd x))) (combine names inputs).
(** function.rs:106-128 *)
Definition decoded : expr := method (ETry (EMethod (EFirst (name "self")) (lit "decode_output") [] [name "output"])) "into_iter".
(** function.rs:106-128 *)
Definition decode_tree (outputs : list Param) : res (list (binder * expr) * expr) :=
  match outputs with
  | [] => Ok ([(Let (lit "_output"), name "output")], ECall [lit "Ok"] [ETuple []])
  | [x] =>
    do from_first <- from_token_tree (p_kind x) (name "out");
    Ok ([(Let (lit "out"), expecting (method decoded "next"))], ECall [lit "Ok"] [from_first])
  | _ =>
    do outs <- mapM (fun param => from_token_tree (p_kind param) (expecting (method (name "out") "next"))) outputs;
    Ok ([(LetMut (lit "out"), decoded)], ECall [lit "Ok"] [ETuple outs])
  end.
(** function.rs:160-165 *)
Definition mutability_tree (m : StateMutability) : expr :=
  let variant s := EPath (segments [""; "ethabi"; "StateMutability"; s]) in
  match m with Pure => variant "Pure" | Payable => variant "Payable" | NonPayable => variant "NonPayable" | View => variant "View" end.
(** function.rs:169-214 *)
Definition slice : RustSyntax.ty := TyRef (TySlice (ty "u8")).
(** function.rs:171-172 *)
Definition uses : list item := [IUse (segments ["ethabi"]); IUse (segments ["super"; "INTERNAL_ERR"])].
(** function.rs:174-182 *)
Definition fn_function (f : Function) (inputs outputs : expr) : fn :=
  mkFn None false (lit "function") None false [] (ethabi_ty "Function") []
    (EStruct (ethabi ["Function"]) [(lit "name", method (EStr (f_name f)) "into"); (lit "inputs", inputs); (lit "outputs", outputs);
       (lit "constant", EBool (f_constant f)); (lit "state_mutability", mutability_tree (f_state_mutability f))]).
(** function.rs:190-192 *)
Definition fn_decode (b : list (binder * expr) * expr) : fn :=
  mkFn None false (lit "decode") None true [(lit "output", slice)] (TyName (ethabi ["Result"]) [TyName (segments ["Self"; "Output"]) []]) (fst b) (snd b).
(** function.rs:197-198 *)
Definition encoding (tokenize : list expr) : list (binder * expr) :=
  [(Let (lit "f"), ECall [lit "function"] []); (Let (lit "tokens"), EVec tokenize)].
(** function.rs:199 *)
Definition encoded : expr := expecting (EMethod (name "f") (lit "encode_input") [] [ERef (name "tokens")]).
(** function.rs:195-200 *)
Definition fn_encode_input (bounds : list generic) (names : list str) (tokenize : list expr) : fn :=
  mkFn (Some (lit " Encodes function input.")) true (lit "encode_input") (Some bounds) false (typed names) (ethabi_ty "Bytes") (encoding tokenize) encoded.
(** function.rs:202-205 *)
Definition fn_decode_output (result : RustSyntax.ty) : fn :=
  mkFn (Some (lit " Decodes function output.")) true (lit "decode_output") None false [(lit "output", slice)] (TyName (ethabi ["Result"]) [result]) []
    (ECall (ethabi ["FunctionOutputDecoder"; "decode"]) [ERef (ECall [lit "Decoder"] [ECall [lit "function"] []]); name "output"]).
(** function.rs:207-212 *)
Definition fn_call (bounds : list generic) (names : list str) (tokenize : list expr) : fn :=
  mkFn (Some (lit " Encodes function output and creates a `Decoder` instance.")) true (lit "call") (Some bounds) false (typed names)
    (TyTuple [ethabi_ty "Bytes"; ty "Decoder"]) (encoding tokenize) (ETuple [encoded; ECall [lit "Decoder"] [name "f"]]).
(** function.rs:72-146 and 148-216 *)
Definition function_tree (f : Function) : res item :=
  do names <- input_names (f_inputs f);
  do bounds <- bounds_tree (f_inputs f);
  do kinds <- mapM (fun param => type_tree (p_kind param)) (f_inputs f);
  do tokenize <- tokenize_tree names (f_inputs f);
  do result <- output_tree (f_outputs f);
  do implementation <- decode_tree (f_outputs f);
  do inputs <- params_tree (f_inputs f);
  do outputs <- params_tree (f_outputs f);
  do module_name <- ident (to_snake_case (f_name f));
  Ok (IMod None module_name (uses ++ [
    IFn (fn_function f inputs outputs);
    INewtype (lit " Generic function output decoder.") (lit "Decoder") (ethabi_ty "Function");
    IImpl (ethabi ["FunctionOutputDecoder"]) (lit "Decoder") (lit "Output") result (fn_decode implementation);
    IFn (fn_encode_input bounds names tokenize);
    IFn (fn_decode_output result);
    IFn (fn_call bounds names tokenize)])).

(** ** /repo/derive/src/constructor.rs:24-82 *)
Definition fn_constructor (bounds : list generic) (names : list str) (inputs : expr) (tokenize : list expr) : fn :=
  mkFn (Some (lit " Encodes a call to contract's constructor.")) true (lit "constructor") (Some bounds) false
    ((lit "code", ethabi_ty "Bytes") :: typed names) (ethabi_ty "Bytes")
    [(Let (lit "c"), EStructTrailing (ethabi ["Constructor"]) [(lit "inputs", inputs)]); (Let (lit "tokens"), EVec tokenize)]
    (expecting (EMethod (name "c") (lit "encode_input") [] [name "code"; ERef (name "tokens")])).
(** constructor.rs:24-82 *)
Definition constructor_tree (c : Constructor) : res item :=
  do names <- input_names (k_inputs c);
  do bounds <- bounds_tree (k_inputs c);
  do kinds <- mapM (fun param => type_tree (p_kind param)) (k_inputs c);
  do tokenize <- tokenize_tree names (k_inputs c);
  do inputs <- params_tree (k_inputs c);
  Ok (IFn (fn_constructor bounds names inputs tokenize)).

(** ** /repo/derive/src/event.rs *)
(** event.rs:137-149 *)
Definition log_tree (e : Event) : res item :=
  do names <- field_names (e_inputs e);
  do kinds <- mapM (fun param => type_tree (ep_kind param)) (e_inputs e);
  do name <- ident (to_camel_case (e_name e));
  Ok (IStruct (segments ["Debug"; "Clone"; "PartialEq"]) name (combine names kinds)).
(** event.rs:104-121 *)
Definition event_param_tree (x : EventParam) : res expr :=
  do kind <- syntax_tree (ep_kind x);
  Ok (EStruct (ethabi ["EventParam"]) [(lit "name", method (EStr (ep_name x)) "to_owned"); (lit "kind", kind); (lit "indexed", EBool (ep_indexed x))]).
(** event.rs:164-200 *)
Definition fn_event (e : Event) (inputs : list expr) : fn :=
  mkFn None true (lit "event") None false [] (ethabi_ty "Event") []
    (EStructTrailing (ethabi ["Event"]) [(lit "name", method (EStr (to_camel_case (e_name e))) "into"); (lit "inputs", EVec inputs);
       (lit "anonymous", EBool (e_anonymous e))]).
(** event.rs:177-185 *)
Definition fn_filter (bounds : list generic) (names : list str) (init : list (str * expr)) : fn :=
  mkFn None true (lit "filter") (Some bounds) false (typed names) (ethabi_ty "TopicFilter")
    [(Let (lit "raw"), EStructDefault (ethabi ["RawTopicFilter"]) init (segments ["Default"; "default"])); (Let (lit "e"), ECall [lit "event"] [])]
    (expecting (EMethod (name "e") (lit "filter") [] [name "raw"])).
(** event.rs:187-189 *)
Definition fn_wildcard_filter (names : list str) : fn :=
  mkFn None true (lit "wildcard_filter") None false [] (ethabi_ty "TopicFilter") []
    (ECall [lit "filter"] (map (fun _ => EPath (ethabi ["Topic"; "Any"])) names)).
(** event.rs:191 *)
Definition log_path (camel_name : str) : path := segments ["super"; "super"; "logs"] ++ [camel_name].
(** event.rs:191-198 *)
Definition fn_parse_log (camel_name : str) (init : list (str * expr)) : fn :=
  mkFn None true (lit "parse_log") None false [(lit "log", ethabi_ty "RawLog")] (TyName (ethabi ["Result"]) [TyName (log_path camel_name) []])
    [(Let (lit "e"), ECall [lit "event"] []);
     (LetMut (lit "log"), method (EField (ETry (EMethod (name "e") (lit "parse_log") [] [name "log"])) (lit "params")) "into_iter");
     (Let (lit "result"), EStruct (log_path camel_name) init)]
    (ECall [lit "Ok"] [name "result"]).
(** event.rs:50 *)
Definition log_next : expr := EField (expecting (method (name "log") "next")) (lit "value").
(** event.rs:76-80 *)
Definition topic_bounds (kinds : list RustSyntax.ty) : list generic :=
  mapi (fun index kind => GInto (numbered (lit "T") index) (TyName (ethabi ["Topic"]) [kind])) kinds.
(** event.rs:91-102 *)
Definition filter_init_tree (topics : list (str * EventParam)) : res (list (str * expr)) :=
  mapM (fun r => r) (mapi (fun index x =>
    do to_token <- to_token_tree (name "i") (ep_kind (snd x));
    Ok (numbered (lit "topic") index, EMap (method (EPath [fst x]) "into") (lit "i") to_token)) topics).
(** event.rs:28-135 and 151-202 *)
Definition event_tree (e : Event) : res item :=
  let topics := filter ep_indexed (e_inputs e) in
  do names <- field_names (e_inputs e);
  do to_log <- mapM (fun param => from_token_tree (ep_kind param) log_next) (e_inputs e);
  do topic_kinds <- mapM (fun param => type_tree (ep_kind param)) topics;
  let topic_names := topic_names (e_inputs e) names in
  do filter_init <- filter_init_tree (firstn 3 (combine topic_names topics));
  do event_inputs <- mapM event_param_tree (e_inputs e);
  do name <- ident (to_snake_case (e_name e));
  do camel_name <- ident (to_camel_case (e_name e));
  Ok (IMod None name (uses ++ [
    IFn (fn_event e event_inputs);
    IFn (fn_filter (topic_bounds topic_kinds) topic_names filter_init);
    IFn (fn_wildcard_filter topic_names);
    IFn (fn_parse_log camel_name (combine names to_log))])).

(** ** /repo/derive/src/contract.rs:14-64 *)
Definition contract_tree (c : Contract) (functions : groups Function) (events : groups Event) : res (list item) :=
  do constructor <- match c_constructor c with None => Ok [] | Some k => do i <- constructor_tree k; Ok [i] end;
  do fs <- mapM function_tree (iterate functions);
  do es <- mapM event_tree (iterate events);
  do logs <- mapM log_tree (iterate events);
  let use_err := IUse (segments ["super"; "INTERNAL_ERR"]) in
  Ok ([IUse (segments ["ethabi"]); IConst (lit "INTERNAL_ERR") (TyStatic (ty "str")) (lit "`ethabi_derive` internal error")] ++ constructor ++ [
    IMod (Some (lit " Contract's functions.")) (lit "functions") (use_err :: fs);
    IMod (Some (lit " Contract's events.")) (lit "events") (use_err :: es);
    IMod (Some (lit " Contract's logs.")) (lit "logs") ([use_err; IUse (segments ["ethabi"])] ++ logs)]).

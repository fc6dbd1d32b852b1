(** * ABI JSON: parameters, functions, events, operations and filters.

    JSON is modelled as a tree; the text layer of serde_json (the JSON grammar,
    string escapes) is in JsonText.v, only its recursion limit is here (see
    [from_text]).  The errors of serde are all [SerdeJson]. *)
From Verif Require Import Base Types TypeNames Function Event.
From Coq Require Import String.
Set Implicit Arguments.
Local Open Scope N_scope.
Local Open Scope list_scope.

(** [serde_json::Value], with the text of numbers and the entries of objects in order *)
Inductive json :=
| JNull
| JBool (b : bool)
| JNum (text : str)
| JStr (s : str)
| JArr (l : list json)
| JObj (l : list (str * json)).

(** Where a visitor reads from: directly from JSON text, or from an already
    parsed value ([serde_json::Value], or the buffer serde uses for internally
    tagged enums such as [Operation]). *)
Inductive source := Text | Buffered.

(** ** Values of the simple types, as serde reads them *)
Definition de_string (j : json) : res str := match j with JStr s => Ok s | _ => Err SerdeJson end.
(** [bool::deserialize] *)
Definition de_bool (j : json) : res bool := match j with JBool b => Ok b | _ => Err SerdeJson end.
(** [Vec::deserialize] *)
Definition de_vec {A} (f : json -> res A) (j : json) : res (list A) :=
  match j with JArr l => mapM f l | _ => Err SerdeJson end.
(** /repo/ethabi/src/param_type/deserialize.rs:16-47 *)
Definition de_param_type (p : profile) (j : json) : res ParamType :=
  match j with
  | JStr s => match read p s with Ok t => Ok t | Err _ => Err SerdeJson | Panic => Panic end
  | _ => Err SerdeJson
  end.

(** ** Parameters *)
(** /repo/ethabi/src/tuple_param.rs:19-30 *)
Record TupleParam := mkTupleParam {
  tp_name : option str;
  tp_kind : ParamType;
  tp_internal_type : option str }.

(** The local variables of the three [visit_map] functions: param.rs:53-56,
    event_param.rs:52-55, tuple_param.rs:54-57. *)
Record fields := mkFields {
  fd_name : option str;
  fd_kind : option ParamType;
  fd_indexed : option bool;
  fd_internal : option str;
  fd_components : option (list TupleParam) }.
(** param.rs:53-56, event_param.rs:52-55, tuple_param.rs:54-57 *)
Definition no_fields : fields := mkFields None None None None None.
(** Which of the optional keys a visitor knows. *)
Inductive visitor := VParam | VEventParam | VTupleParam.
(** event_param.rs:78-83: only there *)
Definition knows_indexed (v : visitor) : bool := match v with VEventParam => true | _ => false end.
(** param.rs:72-77 and tuple_param.rs:73-78: not in event_param.rs *)
Definition knows_internal (v : visitor) : bool := match v with VEventParam => false | _ => true end.

(** [duplicate_field]: param.rs:61-62, event_param.rs:60-61, tuple_param.rs:62-63 *)
Definition set_once {A} (old : option A) (r : res A) : res (option A) :=
  match old with Some _ => Err SerdeJson | None => do a <- r; Ok (Some a) end.

(** One iteration of the [while let] loops: param.rs:58-87,
    event_param.rs:57-86, tuple_param.rs:59-88.  [components] reads the value
    as [Vec<TupleParam>].  A key that is not known is skipped without reading
    its value: serde's buffered map then drops the value, but serde_json's
    text map fails, because it expects ',' or '}' and finds ':'. *)
Definition visit_entry (p : profile) (src : source) (vis : visitor) (key : str) (value : json)
  (components : unit -> res (list TupleParam)) (st : fields) : res fields :=
  if str_eqb key (lit "name") then
    do x <- set_once (fd_name st) (de_string value);
    Ok (mkFields x (fd_kind st) (fd_indexed st) (fd_internal st) (fd_components st))
  else if str_eqb key (lit "type") then
    do x <- set_once (fd_kind st) (de_param_type p value);
    Ok (mkFields (fd_name st) x (fd_indexed st) (fd_internal st) (fd_components st))
  else if knows_internal vis && str_eqb key (lit "internalType") then
    do x <- set_once (fd_internal st) (de_string value);
    Ok (mkFields (fd_name st) (fd_kind st) (fd_indexed st) x (fd_components st))
  else if str_eqb key (lit "components") then
    do x <- set_once (fd_components st) (components tt);
    Ok (mkFields (fd_name st) (fd_kind st) (fd_indexed st) (fd_internal st) x)
  else if knows_indexed vis && str_eqb key (lit "indexed") then
    do x <- set_once (fd_indexed st) (de_bool value);
    Ok (mkFields (fd_name st) (fd_kind st) x (fd_internal st) (fd_components st))
  else match src with Text => Err SerdeJson | Buffered => Ok st end.

(** [missing_field]: param.rs:88-89, event_param.rs:87-88, tuple_param.rs:90 *)
Definition required {A} (o : option A) : res A := match o with Some a => Ok a | None => Err SerdeJson end.

(** /repo/ethabi/src/param.rs:114-123 ([inner_tuple_mut]), as the type with the
    fields of its inner tuple replaced by [f] of them; [None] if there is no
    inner tuple. *)
Fixpoint map_inner_tuple (f : list ParamType -> list ParamType) (param : ParamType) : option ParamType :=
  match param with
  | PArray inner => option_map PArray (map_inner_tuple f inner)
  | PFixedArray inner n => option_map (fun t => PFixedArray t n) (map_inner_tuple f inner)
  | PTuple inner => Some (PTuple (f inner))
  | _ => None
  end.
(** /repo/ethabi/src/param.rs:125-134 *)
Fixpoint inner_tuple (param : ParamType) : option (list ParamType) :=
  match param with
  | PArray inner => inner_tuple inner
  | PFixedArray inner _ => inner_tuple inner
  | PTuple inner => Some inner
  | _ => None
  end.
(** /repo/ethabi/src/param.rs:136-145 *)
Definition set_tuple_components (kind : ParamType) (components : option (list TupleParam)) : res ParamType :=
  match inner_tuple kind with
  | Some _ =>
    do tuple_params <- required components;
    match map_inner_tuple (fun inner => inner ++ map tp_kind tuple_params) kind with
    | Some t => Ok t
    | None => Ok kind
    end
  | None => Ok kind
  end.

(** /repo/ethabi/src/tuple_param.rs:32-94 *)
Fixpoint de_tuple_param (p : profile) (src : source) (j : json) : res TupleParam :=
  match j with
  | JObj entries =>
    do st <- (fix loop (l : list (str * json)) (st : fields) : res fields :=
      match l with
      | [] => Ok st
      | (key, value) :: l' =>
        do st' <- visit_entry p src VTupleParam key value
          (fun _ => match value with JArr items => mapM (de_tuple_param p src) items | _ => Err SerdeJson end) st;
        loop l' st'
      end) entries no_fields;
    do kind <- required (fd_kind st);
    do kind <- set_tuple_components kind (fd_components st);
    Ok (mkTupleParam (fd_name st) kind (fd_internal st))
  | _ => Err SerdeJson
  end.
(** The loop of [visit_map] for the other visitors. *)
Fixpoint visit_map (p : profile) (src : source) (vis : visitor) (l : list (str * json)) (st : fields) : res fields :=
  match l with
  | [] => Ok st
  | (key, value) :: l' =>
    do st' <- visit_entry p src vis key value (fun _ => de_vec (de_tuple_param p src) value) st;
    visit_map p src vis l' st'
  end.
(** /repo/ethabi/src/param.rs:31-93 *)
Definition de_param (p : profile) (src : source) (j : json) : res Param :=
  match j with
  | JObj entries =>
    do st <- visit_map p src VParam entries no_fields;
    do name <- required (fd_name st);
    do kind <- required (fd_kind st);
    do kind <- set_tuple_components kind (fd_components st);
    Ok (mkParam name kind (fd_internal st))
  | _ => Err SerdeJson
  end.
(** /repo/ethabi/src/event_param.rs:30-93 *)
Definition de_event_param (p : profile) (src : source) (j : json) : res EventParam :=
  match j with
  | JObj entries =>
    do st <- visit_map p src VEventParam entries no_fields;
    do name <- required (fd_name st);
    do kind <- required (fd_kind st);
    do kind <- set_tuple_components kind (fd_components st);
    Ok (mkEventParam name kind (match fd_indexed st with Some b => b | None => false end))
  | _ => Err SerdeJson
  end.

(** /repo/ethabi/src/param.rs:147-177.  The model recurses over the type; the
    code over [inner_tuple] of the type, which is the same. *)
Definition se_type (t : ParamType) : json := JStr (write_for_abi t false).
(** param.rs:147-177 *)
Fixpoint se_components (t : ParamType) : option json :=
  match t with
  | PArray t' | PFixedArray t' _ => se_components t'
  | PTuple ts =>
    Some (JArr (map (fun t' => JObj ((lit "type", se_type t') ::
      match se_components t' with Some c => [(lit "components", c)] | None => [] end)) ts))
  | _ => None
  end.
(** param.rs:106-109: no entry for types without tuples *)
Definition components_entry (t : ParamType) : list (str * json) :=
  match se_components t with Some c => [(lit "components", c)] | None => [] end.
(** /repo/ethabi/src/param.rs:95-112 *)
Definition se_param (a : Param) : json :=
  JObj (match p_internal_type a with Some s => [(lit "internalType", JStr s)] | None => [] end ++
        [(lit "name", JStr (p_name a)); (lit "type", se_type (p_kind a))] ++ components_entry (p_kind a)).
(** /repo/ethabi/src/event_param.rs:95-110 *)
Definition se_event_param (a : EventParam) : json :=
  JObj ([(lit "name", JStr (ep_name a)); (lit "type", se_type (ep_kind a)); (lit "indexed", JBool (ep_indexed a))]
        ++ components_entry (ep_kind a)).
(** /repo/ethabi/src/tuple_param.rs:96-115 *)
Definition se_tuple_param (a : TupleParam) : json :=
  JObj (match tp_internal_type a with Some s => [(lit "internalType", JStr s)] | None => [] end ++
        match tp_name a with Some s => [(lit "name", JStr s)] | None => [] end ++
        [(lit "type", se_type (tp_kind a))] ++ components_entry (tp_kind a)).

(** ** Names: /repo/ethabi/src/util.rs:34-38 *)
(** [str::find(char)]: the byte offset of the first occurrence. *)
Fixpoint str_find (s : str) (c : char) : option N :=
  match s with
  | [] => None
  | d :: s' => if d =? c then Some 0 else option_map (fun i => char_len d + i) (str_find s' c)
  end.
(** [String::truncate]: panics if the offset is not a character boundary; no
    effect if it is past the end. *)
Definition str_truncate (s : str) (i : N) : res str := if str_len s <? i then Ok s else str_slice s 0 i.
(** /repo/ethabi/src/util.rs:34-38 *)
Definition sanitize_name (name : str) : res str :=
  match str_find name 40 with Some i => str_truncate name i | None => Ok name end.
(** /repo/ethabi/src/util.rs:25-32 *)
Definition de_name (j : json) : res str := do name <- de_string j; sanitize_name name.

(** ** Functions, constructors, events *)
(** /repo/ethabi/src/state_mutability.rs:4-18: an enum of unit variants is read
    from its name, or from an object with that name as its only key and null
    as its value. *)
Definition state_mutability_of (s : str) : res StateMutability :=
  if str_eqb s (lit "pure") then Ok Pure
  else if str_eqb s (lit "view") then Ok View
  else if str_eqb s (lit "nonpayable") then Ok NonPayable
  else if str_eqb s (lit "payable") then Ok Payable
  else Err SerdeJson.
(** state_mutability.rs:4-18, [Deserialize] *)
Definition de_state_mutability (j : json) : res StateMutability :=
  match j with
  | JStr s => state_mutability_of s
  | JObj [(s, JNull)] => state_mutability_of s
  | _ => Err SerdeJson
  end.
(** state_mutability.rs:4-18, [Serialize] *)
Definition se_state_mutability (m : StateMutability) : json :=
  JStr (match m with Pure => lit "pure" | View => lit "view" | NonPayable => lit "nonpayable" | Payable => lit "payable" end).
(** state_mutability.rs:20-24 *)
Definition default_mutability : StateMutability := NonPayable.

(** [#[derive(Deserialize)]] for structs: a loop over the entries with one
    [Option] per field, failing at a key that occurs twice; unknown keys are
    ignored, in text as well.  Structs are also read from an array of the
    field values in declaration order, in which fields with a default may be
    missing at the end. *)
Definition field_or {A} (f : json -> res A) (o : option json) (default : A) : res A :=
  match o with Some j => f j | None => Ok default end.
(** A field without [serde(default)]: an error if it is not there *)
Definition field {A} (f : json -> res A) (o : option json) : res A :=
  match o with Some j => f j | None => Err SerdeJson end.
(** A field with [serde(default)] *)
Definition or_default {A} (o : option A) (default : A) : A := match o with Some a => a | None => default end.

(** /repo/ethabi/src/function.rs:20-37 *)
Record ffields := mkFF {
  ff_name : option str;
  ff_inputs : option (list Param);
  ff_outputs : option (list Param);
  ff_constant : option bool;
  ff_mutability : option StateMutability }.
(** function.rs:20-37, [Deserialize]: one entry *)
Definition visit_function (p : profile) (src : source) (st : ffields) (e : str * json) : res ffields :=
  let '(key, value) := e in
  if str_eqb key (lit "name") then
    do x <- set_once (ff_name st) (de_name value);
    Ok (mkFF x (ff_inputs st) (ff_outputs st) (ff_constant st) (ff_mutability st))
  else if str_eqb key (lit "inputs") then
    do x <- set_once (ff_inputs st) (de_vec (de_param p src) value);
    Ok (mkFF (ff_name st) x (ff_outputs st) (ff_constant st) (ff_mutability st))
  else if str_eqb key (lit "outputs") then
    do x <- set_once (ff_outputs st) (de_vec (de_param p src) value);
    Ok (mkFF (ff_name st) (ff_inputs st) x (ff_constant st) (ff_mutability st))
  else if str_eqb key (lit "constant") then
    do x <- set_once (ff_constant st) (de_bool value);
    Ok (mkFF (ff_name st) (ff_inputs st) (ff_outputs st) x (ff_mutability st))
  else if str_eqb key (lit "stateMutability") then
    do x <- set_once (ff_mutability st) (de_state_mutability value);
    Ok (mkFF (ff_name st) (ff_inputs st) (ff_outputs st) (ff_constant st) x)
  else Ok st.
(** function.rs:20-37, [Deserialize] *)
Definition de_function (p : profile) (src : source) (j : json) : res Function :=
  match j with
  | JObj l =>
    do st <- foldM (visit_function p src) l (mkFF None None None None None);
    do name <- required (ff_name st);
    do inputs <- required (ff_inputs st);
    do outputs <- required (ff_outputs st);
    Ok (mkFunction name inputs outputs (or_default (ff_constant st) false)
          (or_default (ff_mutability st) default_mutability))
  | JArr l =>
    do name <- field de_name (nth_error l 0);
    do inputs <- field (de_vec (de_param p src)) (nth_error l 1);
    do outputs <- field (de_vec (de_param p src)) (nth_error l 2);
    do constant <- field_or de_bool (nth_error l 3) false;
    do mutability <- field_or de_state_mutability (nth_error l 4) default_mutability;
    if len l <=? 5 then Ok (mkFunction name inputs outputs constant mutability) else Err SerdeJson
  | _ => Err SerdeJson
  end.
(** /repo/ethabi/src/constructor.rs:14-18 *)
Definition visit_constructor (p : profile) (src : source) (st : option (list Param)) (e : str * json)
  : res (option (list Param)) :=
  let '(key, value) := e in
  if str_eqb key (lit "inputs") then set_once st (de_vec (de_param p src) value) else Ok st.
(** constructor.rs:14-18, [Deserialize] *)
Definition de_constructor (p : profile) (src : source) (j : json) : res Constructor :=
  match j with
  | JObj l =>
    do st <- foldM (visit_constructor p src) l None;
    do inputs <- required st;
    Ok (mkConstructor inputs)
  | JArr l =>
    do inputs <- field (de_vec (de_param p src)) (nth_error l 0);
    if len l <=? 1 then Ok (mkConstructor inputs) else Err SerdeJson
  | _ => Err SerdeJson
  end.
(** /repo/ethabi/src/event.rs:20-30 *)
Record efields := mkEF {
  ef_name : option str;
  ef_inputs : option (list EventParam);
  ef_anonymous : option bool }.
(** event.rs:20-30, [Deserialize]: one entry *)
Definition visit_event (p : profile) (src : source) (st : efields) (e : str * json) : res efields :=
  let '(key, value) := e in
  if str_eqb key (lit "name") then
    do x <- set_once (ef_name st) (de_name value); Ok (mkEF x (ef_inputs st) (ef_anonymous st))
  else if str_eqb key (lit "inputs") then
    do x <- set_once (ef_inputs st) (de_vec (de_event_param p src) value); Ok (mkEF (ef_name st) x (ef_anonymous st))
  else if str_eqb key (lit "anonymous") then
    do x <- set_once (ef_anonymous st) (de_bool value); Ok (mkEF (ef_name st) (ef_inputs st) x)
  else Ok st.
(** event.rs:20-30, [Deserialize] *)
Definition de_event (p : profile) (src : source) (j : json) : res Event :=
  match j with
  | JObj l =>
    do st <- foldM (visit_event p src) l (mkEF None None None);
    do name <- required (ef_name st);
    do inputs <- required (ef_inputs st);
    do anonymous <- required (ef_anonymous st);
    Ok (mkEvent name inputs anonymous)
  | JArr l =>
    do name <- field de_name (nth_error l 0);
    do inputs <- field (de_vec (de_event_param p src)) (nth_error l 1);
    do anonymous <- field de_bool (nth_error l 2);
    if len l <=? 3 then Ok (mkEvent name inputs anonymous) else Err SerdeJson
  | _ => Err SerdeJson
  end.
(** [#[derive(Serialize)]] of the same structs, as lists of entries. *)
Definition se_function (f : Function) : list (str * json) :=
  [(lit "name", JStr (f_name f)); (lit "inputs", JArr (map se_param (f_inputs f)));
   (lit "outputs", JArr (map se_param (f_outputs f))); (lit "constant", JBool (f_constant f));
   (lit "stateMutability", se_state_mutability (f_state_mutability f))].
(** constructor.rs:14-18, [Serialize] *)
Definition se_constructor (c : Constructor) : list (str * json) := [(lit "inputs", JArr (map se_param (k_inputs c)))].
(** event.rs:20-30, [Serialize] *)
Definition se_event (e : Event) : list (str * json) :=
  [(lit "name", JStr (e_name e)); (lit "inputs", JArr (map se_event_param (e_inputs e))); (lit "anonymous", JBool (e_anonymous e))].

(** ** /repo/ethabi/src/operation.rs:14-33 *)
Inductive Operation :=
| OpConstructor (c : Constructor)
| OpFunction (f : Function)
| OpEvent (e : Event)
| OpFallback
| OpReceive.
(** [#[serde(tag = "type")]]: the tag is taken out of the object and the rest
    is read, buffered, as the variant; from an array the tag is the first
    element. *)
Definition de_operation (p : profile) (j : json) : res Operation :=
  let variant (tag : str) (rest : json) : res Operation :=
    if str_eqb tag (lit "constructor") then do c <- de_constructor p Buffered rest; Ok (OpConstructor c)
    else if str_eqb tag (lit "function") then do f <- de_function p Buffered rest; Ok (OpFunction f)
    else if str_eqb tag (lit "event") then do e <- de_event p Buffered rest; Ok (OpEvent e)
    else if str_eqb tag (lit "fallback") then match rest with JArr (_ :: _) => Err SerdeJson | _ => Ok OpFallback end
    else if str_eqb tag (lit "receive") then match rest with JArr (_ :: _) => Err SerdeJson | _ => Ok OpReceive end
    else Err SerdeJson in
  match j with
  | JObj l =>
    match filter (fun e => str_eqb (fst e) (lit "type")) l with
    | [(_, t)] =>
      do tag <- de_string t;
      variant tag (JObj (filter (fun e => negb (str_eqb (fst e) (lit "type"))) l))
    | _ => Err SerdeJson
    end
  | JArr (t :: l) => do tag <- de_string t; variant tag (JArr l)
  | _ => Err SerdeJson
  end.
(** operation.rs:14-33, [Serialize] *)
Definition se_operation (o : Operation) : json :=
  let tagged (tag : str) (l : list (str * json)) := JObj ((lit "type", JStr tag) :: l) in
  match o with
  | OpConstructor c => tagged (lit "constructor") (se_constructor c)
  | OpFunction f => tagged (lit "function") (se_function f)
  | OpEvent e => tagged (lit "event") (se_event e)
  | OpFallback => tagged (lit "fallback") []
  | OpReceive => tagged (lit "receive") []
  end.

(** ** Text *)
(** serde_json refuses to read text in which arrays and objects are nested
    more than 127 deep.  (When a type name on which [Reader::read] panics
    occurs before the nesting gets that deep the panic comes first.) *)
Fixpoint json_depth (j : json) : N :=
  match j with
  | JArr l => 1 + fold_right (fun x m => N.max (json_depth x) m) 0 l
  | JObj l => 1 + fold_right (fun e m => N.max (json_depth (snd e)) m) 0 l
  | _ => 0
  end.
(** [serde_json::from_str], with its limit on nesting *)
Definition from_text {A} (f : json -> res A) (j : json) : res A :=
  if json_depth j <=? 127 then f j else Err SerdeJson.

(** ** Filters: /repo/ethabi/src/filter.rs:39-45 and 117-132 *)
Definition se_topic (t : Topic hash) : json :=
  match t with
  | Any => JNull
  | OneOf vec => JArr (map (fun h => JStr (lit "0x" ++ hex_encode h)) vec)
  | This h => JStr (lit "0x" ++ hex_encode h)
  end.
(** filter.rs:39-45 *)
Definition se_filter (f : TopicFilter) : json :=
  JArr [se_topic (topic0 f); se_topic (topic1 f); se_topic (topic2 f); se_topic (topic3 f)].

(** * The ABI JSON format, independently of its reader and writer *)
From Verif Require Import Base Types TypeNamesSpec Function Event Json.
From Coq Require Import String.
Set Implicit Arguments.
Local Open Scope N_scope.
Local Open Scope list_scope.

(** All values an object has under a key. *)
Definition keyed (l : list (str * json)) (k : str) : list json := map snd (filter (fun e => str_eqb (fst e) k) l).
(** Under the key [k]: the text [o], or nothing. *)
Definition optional_text (l : list (str * json)) (k : str) (o : option str) : Prop :=
  keyed l k = match o with None => [] | Some s => [JStr s] end.
(** Only these keys occur, unless others are allowed. *)
Definition keys_ok (others : bool) (keys : list str) (l : list (str * json)) : Prop :=
  others = true \/ Forall (fun e => In (fst e) keys) l.

(** The innermost element type is a tuple with these fields. *)
Fixpoint tuple_fields (t : ParamType) : option (list ParamType) :=
  match t with
  | PArray t' | PFixedArray t' _ => tuple_fields t'
  | PTuple ts => Some ts
  | _ => None
  end.
(** "type": the canonical name of the type, except that tuples are called
    "tuple" and their fields are listed under "components". *)
Inductive abi_name : ParamType -> str -> Prop :=
| an_tuple ts : abi_name (PTuple ts) (lit "tuple")
| an_array t s : abi_name t s -> abi_name (PArray t) (s ++ lit "[]")
| an_fixed t s n k : abi_name t s -> numeral k n -> abi_name (PFixedArray t n) (s ++ lit "[" ++ k ++ lit "]")
| an_leaf t s : match t with PTuple _ | PArray _ | PFixedArray _ _ => False | _ => True end -> type_name t s -> abi_name t s.
Definition component_keys : list str := [lit "type"; lit "components"; lit "name"; lit "internalType"].
(** [describes others l t]: an object with the entries [l], in whatever order,
    describes the type [t].  [others]: are further keys allowed? *)
Inductive describes (others : bool) : list (str * json) -> ParamType -> Prop :=
| ds_leaf l t s : keyed l (lit "type") = [JStr s] -> abi_name t s -> tuple_fields t = None ->
    keyed l (lit "components") = [] -> describes others l t
| ds_tuple l t s ts items : keyed l (lit "type") = [JStr s] -> abi_name t s -> tuple_fields t = Some ts ->
    keyed l (lit "components") = [JArr items] -> components others items ts -> describes others l t
with components (others : bool) : list json -> list ParamType -> Prop :=
| cs_nil : components others [] []
| cs_cons l t name internal items ts : describes others l t ->
    optional_text l (lit "name") name -> optional_text l (lit "internalType") internal ->
    keys_ok others component_keys l -> components others items ts ->
    components others (JObj l :: items) (t :: ts).
(** The JSON object of a function parameter. *)
Definition param_json (others : bool) (l : list (str * json)) (name : str) (t : ParamType) (internal : option str) : Prop :=
  describes others l t /\ keyed l (lit "name") = [JStr name] /\ optional_text l (lit "internalType") internal /\
  keys_ok others component_keys l.
(** The JSON object of an event parameter; not indexed unless it says so. *)
Definition event_param_json (others : bool) (l : list (str * json)) (name : str) (t : ParamType) (indexed : bool) : Prop :=
  describes others l t /\ keyed l (lit "name") = [JStr name] /\
  (keyed l (lit "indexed") = [JBool indexed] \/ indexed = false /\ keyed l (lit "indexed") = []) /\
  keys_ok others [lit "type"; lit "components"; lit "name"; lit "indexed"] l.
(** The JSON object of a tuple field. *)
Definition tuple_param_json (others : bool) (l : list (str * json)) (name : option str) (t : ParamType) (internal : option str) : Prop :=
  describes others l t /\ optional_text l (lit "name") name /\ optional_text l (lit "internalType") internal /\
  keys_ok others component_keys l.
(** How deep the JSON under "components" is nested. *)
Fixpoint component_depth (t : ParamType) : N :=
  match t with
  | PArray t' | PFixedArray t' _ => component_depth t'
  | PTuple ts => 1 + fold_right (fun t' m => N.max (1 + component_depth t') m) 0 ts
  | _ => 0
  end.

Scheme describes_ind2 := Induction for describes Sort Prop
  with components_ind2 := Induction for components Sort Prop.

(** ** Functions, constructors, events, operations *)
(** What precedes the first '(' (40), or everything. *)
Definition before_paren (text s : str) : Prop :=
  plain_name s = true /\ (text = s \/ exists rest, text = s ++ 40 :: rest).
Definition param_item (j : json) (a : Param) : Prop :=
  exists l, j = JObj l /\ param_json true l (p_name a) (p_kind a) (p_internal_type a).
Definition event_param_item (j : json) (a : EventParam) : Prop :=
  exists l, j = JObj l /\ event_param_json true l (ep_name a) (ep_kind a) (ep_indexed a).
Definition mutability_name (m : StateMutability) : str :=
  match m with Pure => lit "pure" | View => lit "view" | NonPayable => lit "nonpayable" | Payable => lit "payable" end.
(** The object of a contract item: the keys in any order, further keys
    allowed; "constant" is false and "stateMutability" "nonpayable" unless
    present. *)
Inductive item_json : list (str * json) -> Operation -> Prop :=
| ij_constructor l inputs params : keyed l (lit "type") = [JStr (lit "constructor")] ->
    keyed l (lit "inputs") = [JArr inputs] -> Forall2 param_item inputs params ->
    item_json l (OpConstructor (mkConstructor params))
| ij_function l text name inputs params outputs results constant mutability :
    keyed l (lit "type") = [JStr (lit "function")] ->
    keyed l (lit "name") = [JStr text] -> before_paren text name ->
    keyed l (lit "inputs") = [JArr inputs] -> Forall2 param_item inputs params ->
    keyed l (lit "outputs") = [JArr outputs] -> Forall2 param_item outputs results ->
    (keyed l (lit "constant") = [JBool constant] \/ constant = false /\ keyed l (lit "constant") = []) ->
    (keyed l (lit "stateMutability") = [JStr (mutability_name mutability)] \/
     mutability = NonPayable /\ keyed l (lit "stateMutability") = []) ->
    item_json l (OpFunction (mkFunction name params results constant mutability))
| ij_event l text name inputs params anonymous :
    keyed l (lit "type") = [JStr (lit "event")] ->
    keyed l (lit "name") = [JStr text] -> before_paren text name ->
    keyed l (lit "inputs") = [JArr inputs] -> Forall2 event_param_item inputs params ->
    keyed l (lit "anonymous") = [JBool anonymous] ->
    item_json l (OpEvent (mkEvent name params anonymous))
| ij_fallback l : keyed l (lit "type") = [JStr (lit "fallback")] -> item_json l OpFallback
| ij_receive l : keyed l (lit "type") = [JStr (lit "receive")] -> item_json l OpReceive.
(** The JSON of a contract: an array of items. *)
Definition contract_json (j : json) (ops : list Operation) : Prop :=
  exists items, j = JArr items /\ Forall2 (fun item o => exists l, item = JObj l /\ item_json l o) items ops.
(** All types of an item have 64 bit sizes. *)
Definition wf_params (l : list Param) : bool := forallb (fun a => wf_type (p_kind a)) l.
Definition wf_event_params (l : list EventParam) : bool := forallb (fun a => wf_type (ep_kind a)) l.
Definition wf_operation (o : Operation) : bool :=
  match o with
  | OpConstructor c => wf_params (k_inputs c)
  | OpFunction f => wf_params (f_inputs f) && wf_params (f_outputs f)
  | OpEvent e => wf_event_params (e_inputs e)
  | _ => true
  end.
(** The names of an item contain no '('. *)
Definition plain_operation (o : Operation) : bool :=
  match o with
  | OpFunction f => plain_name (f_name f)
  | OpEvent e => plain_name (e_name e)
  | _ => true
  end.
(** How deep the JSON of an item is nested. *)
Definition max_of {A} (f : A -> N) (l : list A) : N := fold_right (fun a m => N.max (f a) m) 0 l.
Definition params_depth (l : list Param) : N := 1 + max_of (fun a => 1 + component_depth (p_kind a)) l.
Definition event_params_depth (l : list EventParam) : N := 1 + max_of (fun a => 1 + component_depth (ep_kind a)) l.
Definition operation_depth (o : Operation) : N :=
  1 + match o with
      | OpConstructor c => params_depth (k_inputs c)
      | OpFunction f => N.max (params_depth (f_inputs f)) (params_depth (f_outputs f))
      | OpEvent e => event_params_depth (e_inputs e)
      | _ => 0
      end.

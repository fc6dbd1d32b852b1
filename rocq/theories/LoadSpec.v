(** * Which JSON is a contract, and which JSON makes loading it panic

    Said without a visitor: what the values under each key are.  Everything
    here depends only on which texts are names of types, [names s t], and on
    which texts the reader of type names crashes, [crashes s]. *)
From Verif Require Import Base Types Function Event Json JsonSpec Contract ContractSpec.
From Coq Require Import String Permutation.
Set Implicit Arguments.
Local Open Scope N_scope.
Local Open Scope list_scope.

(** The fields of the tuple at the core of a type, extended; a type without
    one is not affected, and has no need of components. *)
Inductive with_components : ParamType -> option (list ParamType) -> ParamType -> Prop :=
| wc_plain t cs : tuple_fields t = None -> with_components t cs t
| wc_tuple ts cs : with_components (PTuple ts) (Some cs) (PTuple (ts ++ cs))
| wc_array t cs t' : with_components t cs t' -> with_components (PArray t) cs (PArray t')
| wc_fixed t n cs t' : with_components t cs t' -> with_components (PFixedArray t n) cs (PFixedArray t' n).

(** A value that may be missing. *)
Definition default_to {A} (present : A -> Prop) (missing : Prop) (d a : A) : Prop := present a \/ missing /\ a = d.
(** The object of a struct with these fields: the object, or the array of
    the values of the first of them. *)
Inductive struct_entries (fields : list str) : json -> list (str * json) -> Prop :=
| se_object l : struct_entries fields (JObj l) l
| se_values l : (List.length l <= List.length fields)%nat -> struct_entries fields (JArr l) (combine fields l).
(** ... as far as they are read: what is too much is noticed at the end. *)
Inductive struct_start (fields : list str) : json -> list (str * json) -> Prop :=
| ss_object l : struct_start fields (JObj l) l
| ss_values l : struct_start fields (JArr l) (combine fields l).
(** The tag of an enum, and the rest. *)
Inductive tagged : json -> str -> json -> Prop :=
| tg_object l tag : keyed l (lit "type") = [JStr tag] ->
    tagged (JObj l) tag (JObj (filter (fun e => negb (str_eqb (fst e) (lit "type"))) l))
| tg_array tag l : tagged (JArr (JStr tag :: l)) tag (JArr l).

Definition function_keys : list str := [lit "name"; lit "inputs"; lit "outputs"; lit "constant"; lit "stateMutability"].
Definition event_keys : list str := [lit "name"; lit "inputs"; lit "anonymous"].
Definition event_param_keys : list str := [lit "type"; lit "components"; lit "name"; lit "indexed"].
(** "pure", or {"pure": null} *)
Definition mutability_json (j : json) (m : StateMutability) : Prop :=
  j = JStr (mutability_name m) \/ j = JObj [(mutability_name m, JNull)].
Definition name_json (j : json) (name : str) : Prop := exists text, j = JStr text /\ before_paren text name.
Definition list_json {A} (item : json -> A -> Prop) (j : json) (l : list A) : Prop :=
  exists items, j = JArr items /\ Forall2 item items l.
(** Under the key: one value that says [a]. *)
Definition one {A} (l : list (str * json)) (k : str) (says : json -> A -> Prop) (a : A) : Prop :=
  exists v, keyed l k = [v] /\ says v a.
(** Under the key: at most one value, and that says something. *)
Definition at_most_one {A} (l : list (str * json)) (k : str) (says : json -> A -> Prop) : Prop :=
  keyed l k = [] \/ exists a, one l k says a.
Definition bool_json (j : json) (b : bool) : Prop := j = JBool b.
Definition text_json (j : json) (s : str) : Prop := j = JStr s.

Section Loading.
Context (names : str -> ParamType -> Prop) (others : bool).

(** ** What is accepted *)
Inductive tuple_param_is : json -> TupleParam -> Prop :=
| tp_is l name s t cs t' internal :
    optional_text l (lit "name") name -> optional_text l (lit "internalType") internal -> keys_ok others component_keys l ->
    keyed l (lit "type") = [JStr s] -> names s t ->
    components_are (keyed l (lit "components")) cs -> with_components t cs t' ->
    tuple_param_is (JObj l) (mkTupleParam name t' internal)
with components_are : list json -> option (list ParamType) -> Prop :=
| ca_none : components_are [] None
| ca_some js cs : tuple_params_are js cs -> components_are [JArr js] (Some (map tp_kind cs))
with tuple_params_are : list json -> list TupleParam -> Prop :=
| ta_nil : tuple_params_are [] []
| ta_cons j c js cs : tuple_param_is j c -> tuple_params_are js cs -> tuple_params_are (j :: js) (c :: cs).

(** The type of a parameter: its name completed by its components. *)
Definition type_is (l : list (str * json)) (t : ParamType) : Prop :=
  exists s core cs, keyed l (lit "type") = [JStr s] /\ names s core /\
    components_are (keyed l (lit "components")) cs /\ with_components core cs t.
Definition param_is (j : json) (a : Param) : Prop :=
  exists l, j = JObj l /\ keyed l (lit "name") = [JStr (p_name a)] /\ type_is l (p_kind a) /\
    optional_text l (lit "internalType") (p_internal_type a) /\ keys_ok others component_keys l.
Definition event_param_is (j : json) (a : EventParam) : Prop :=
  exists l, j = JObj l /\ keyed l (lit "name") = [JStr (ep_name a)] /\ type_is l (ep_kind a) /\
    default_to (fun b => keyed l (lit "indexed") = [JBool b]) (keyed l (lit "indexed") = []) false (ep_indexed a) /\
    keys_ok others event_param_keys l.

Definition function_entries (l : list (str * json)) (f : Function) : Prop :=
  one l (lit "name") name_json (f_name f) /\
  one l (lit "inputs") (list_json param_is) (f_inputs f) /\
  one l (lit "outputs") (list_json param_is) (f_outputs f) /\
  default_to (one l (lit "constant") bool_json) (keyed l (lit "constant") = []) false (f_constant f) /\
  default_to (one l (lit "stateMutability") mutability_json) (keyed l (lit "stateMutability") = []) NonPayable (f_state_mutability f).
Definition event_entries (l : list (str * json)) (e : Event) : Prop :=
  one l (lit "name") name_json (e_name e) /\
  one l (lit "inputs") (list_json event_param_is) (e_inputs e) /\
  one l (lit "anonymous") bool_json (e_anonymous e).
Definition constructor_entries (l : list (str * json)) (c : Constructor) : Prop :=
  one l (lit "inputs") (list_json param_is) (k_inputs c).

Inductive item_is (j : json) : Operation -> Prop :=
| it_constructor rest l c : tagged j (lit "constructor") rest -> struct_entries [lit "inputs"] rest l ->
    constructor_entries l c -> item_is j (OpConstructor c)
| it_function rest l f : tagged j (lit "function") rest -> struct_entries function_keys rest l ->
    function_entries l f -> item_is j (OpFunction f)
| it_event rest l e : tagged j (lit "event") rest -> struct_entries event_keys rest l ->
    event_entries l e -> item_is j (OpEvent e)
| it_fallback rest l : tagged j (lit "fallback") rest -> struct_entries [] rest l -> item_is j OpFallback
| it_receive rest l : tagged j (lit "receive") rest -> struct_entries [] rest l -> item_is j OpReceive.
Definition contract_is (j : json) (ops : list Operation) : Prop := list_json item_is j ops.

(** ** What panics *)
Context (crashes : str -> Prop).
(** The entries of a parameter so far: known keys at most once, with values that are read. *)
Definition components_read (l : list (str * json)) : Prop := exists cs, components_are (keyed l (lit "components")) cs.
Definition type_json (j : json) (t : ParamType) : Prop := exists s, j = JStr s /\ names s t.
Definition start_param (l : list (str * json)) : Prop :=
  at_most_one l (lit "name") text_json /\ at_most_one l (lit "type") type_json /\
  at_most_one l (lit "internalType") text_json /\ components_read l /\ keys_ok others component_keys l.
Definition start_event_param (l : list (str * json)) : Prop :=
  at_most_one l (lit "name") text_json /\ at_most_one l (lit "type") type_json /\
  at_most_one l (lit "indexed") bool_json /\ components_read l /\ keys_ok others event_param_keys l.
(** The first entry that is not read is a name, or has a component, on which
    the reader crashes. *)
Inductive tuple_param_crashes : json -> Prop :=
| tc_type l1 s l2 : start_param l1 -> keyed l1 (lit "type") = [] -> crashes s ->
    tuple_param_crashes (JObj (l1 ++ (lit "type", JStr s) :: l2))
| tc_component l1 js1 cs1 j js2 l2 : start_param l1 -> keyed l1 (lit "components") = [] ->
    tuple_params_are js1 cs1 -> tuple_param_crashes j ->
    tuple_param_crashes (JObj (l1 ++ (lit "components", JArr (js1 ++ j :: js2)) :: l2)).
Inductive value_crashes (l1 : list (str * json)) : str -> json -> Prop :=
| vc_type s : keyed l1 (lit "type") = [] -> crashes s -> value_crashes l1 (lit "type") (JStr s)
| vc_component js1 cs1 j js2 : keyed l1 (lit "components") = [] -> tuple_params_are js1 cs1 -> tuple_param_crashes j ->
    value_crashes l1 (lit "components") (JArr (js1 ++ j :: js2)).
Definition param_crashes (j : json) : Prop :=
  exists l1 k v l2, j = JObj (l1 ++ (k, v) :: l2) /\ start_param l1 /\ value_crashes l1 k v.
Definition event_param_crashes (j : json) : Prop :=
  exists l1 k v l2, j = JObj (l1 ++ (k, v) :: l2) /\ start_event_param l1 /\ value_crashes l1 k v.
Definition list_crashes {A} (item : json -> A -> Prop) (crash : json -> Prop) (j : json) : Prop :=
  exists js1 done j' js2, j = JArr (js1 ++ j' :: js2) /\ Forall2 item js1 done /\ crash j'.

Definition start_function (l : list (str * json)) : Prop :=
  at_most_one l (lit "name") name_json /\ at_most_one l (lit "inputs") (list_json param_is) /\
  at_most_one l (lit "outputs") (list_json param_is) /\ at_most_one l (lit "constant") bool_json /\
  at_most_one l (lit "stateMutability") mutability_json.
Definition start_event (l : list (str * json)) : Prop :=
  at_most_one l (lit "name") name_json /\ at_most_one l (lit "inputs") (list_json event_param_is) /\
  at_most_one l (lit "anonymous") bool_json.
Definition function_crashes (l : list (str * json)) : Prop :=
  exists l1 k v l2, l = l1 ++ (k, v) :: l2 /\ start_function l1 /\ (k = lit "inputs" \/ k = lit "outputs") /\
    keyed l1 k = [] /\ list_crashes param_is param_crashes v.
Definition event_crashes (l : list (str * json)) : Prop :=
  exists l1 v l2, l = l1 ++ (lit "inputs", v) :: l2 /\ start_event l1 /\
    keyed l1 (lit "inputs") = [] /\ list_crashes event_param_is event_param_crashes v.
Definition constructor_crashes (l : list (str * json)) : Prop :=
  exists l1 v l2, l = l1 ++ (lit "inputs", v) :: l2 /\
    keyed l1 (lit "inputs") = [] /\ list_crashes param_is param_crashes v.

Inductive item_crashes (j : json) : Prop :=
| ic_constructor rest l : tagged j (lit "constructor") rest -> struct_start [lit "inputs"] rest l ->
    constructor_crashes l -> item_crashes j
| ic_function rest l : tagged j (lit "function") rest -> struct_start function_keys rest l ->
    function_crashes l -> item_crashes j
| ic_event rest l : tagged j (lit "event") rest -> struct_start event_keys rest l ->
    event_crashes l -> item_crashes j.
Definition contract_crashes (j : json) : Prop := list_crashes item_is item_crashes j.
End Loading.
Scheme tuple_param_is_ind2 := Induction for tuple_param_is Sort Prop
  with components_are_ind2 := Induction for components_are Sort Prop
  with tuple_params_are_ind2 := Induction for tuple_params_are Sort Prop.

(** ** What a contract answers when these items were loaded *)
Definition gathers (c : Contract) (ops : list Operation) : Prop :=
  (forall n, functions_by_name c n = match filter (fun f => str_eqb (f_name f) n) (functions_of ops) with [] => Err (InvalidName n) | r => Ok r end) /\
  (forall n, events_by_name c n = match filter (fun e => str_eqb (e_name e) n) (events_of ops) with [] => Err (InvalidName n) | r => Ok r end) /\
  (forall n, function c n = match find (fun f => str_eqb (f_name f) n) (functions_of ops) with Some f => Ok f | None => Err (InvalidName n) end) /\
  (forall n, event c n = match find (fun e => str_eqb (e_name e) n) (events_of ops) with Some e => Ok e | None => Err (InvalidName n) end) /\
  (forall order, Permutation (c_functions c) order -> Permutation (iterate order) (functions_of ops)) /\
  (forall order, Permutation (c_events c) order -> Permutation (iterate order) (events_of ops)) /\
  contract_constructor c = last_of (constructors_of ops) /\
  (c_receive c = true <-> In OpReceive ops) /\ (c_fallback c = true <-> In OpFallback ops).
(** All type names are ASCII, and can be in memory. *)
Definition ascii_names (j : json) : Prop := forall s, type_text s j -> len s < 2 ^ 63 /\ all_ascii s = true.

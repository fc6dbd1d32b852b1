(** * Contracts: /repo/ethabi/src/contract.rs *)
From Verif Require Import Base Types TypeNames Function Event Json.
From Coq Require Import Permutation.
Set Implicit Arguments.
Local Open Scope N_scope.
Local Open Scope list_scope.

(** [HashMap<String, Vec<A>>]: a list of entries with different keys.  The
    order of the entries means nothing: wherever the code iterates over the
    map, the model takes the order as an extra argument, any permutation of
    the entries. *)
Notation groups A := (list (str * list A)) (only parsing).
(** [m.get(k)] *)
Definition group {A} (m : groups A) (k : str) : option (list A) :=
  option_map snd (find (fun e => str_eqb (fst e) k) m).
(** [m.entry(k).or_default().push(x)] *)
Fixpoint push_group {A} (m : groups A) (k : str) (x : A) : groups A :=
  match m with
  | [] => [(k, [x])]
  | (k', l) :: m' => if str_eqb k' k then (k', l ++ [x]) :: m' else (k', l) :: push_group m' k x
  end.

(** contract.rs:21-34 *)
Record Contract := mkContract {
  c_constructor : option Constructor;
  c_functions : groups Function;
  c_events : groups Event;
  c_receive : bool;
  c_fallback : bool }.
(** [Contract::default()] *)
Definition default_contract : Contract := mkContract None [] [] false false.

(** contract.rs:59-78: one iteration of the loop *)
Definition add_operation (c : Contract) (o : Operation) : Contract :=
  match o with
  | OpConstructor k => mkContract (Some k) (c_functions c) (c_events c) (c_receive c) (c_fallback c)
  | OpFunction f => mkContract (c_constructor c) (push_group (c_functions c) (f_name f) f) (c_events c) (c_receive c) (c_fallback c)
  | OpEvent e => mkContract (c_constructor c) (c_functions c) (push_group (c_events c) (e_name e) e) (c_receive c) (c_fallback c)
  | OpFallback => mkContract (c_constructor c) (c_functions c) (c_events c) (c_receive c) true
  | OpReceive => mkContract (c_constructor c) (c_functions c) (c_events c) true (c_fallback c)
  end.
(** contract.rs:36-81 *)
Definition de_contract (p : profile) (j : json) : res Contract :=
  match j with
  | JArr items => foldM (fun c j => do o <- de_operation p j; Ok (add_operation c o)) items default_contract
  | _ => Err SerdeJson
  end.
(** contract.rs:140-142, on JSON text *)
Definition load (p : profile) (j : json) : res Contract := from_text (de_contract p) j.

(** contract.rs:83-136; [functions] and [events] are the entries of the maps in
    iteration order. *)
Definition contract_operations (c : Contract) (functions : groups Function) (events : groups Event) : list Operation :=
  match c_constructor c with Some k => [OpConstructor k] | None => [] end ++
  map OpFunction (concat (map snd functions)) ++
  map OpEvent (concat (map snd events)) ++
  (if c_receive c then [OpReceive] else []) ++
  (if c_fallback c then [OpFallback] else []).
(** contract.rs:83-136 *)
Definition se_contract (c : Contract) (functions : groups Function) (events : groups Event) : json :=
  JArr (map se_operation (contract_operations c functions events)).

(** contract.rs:145-147 *)
Definition contract_constructor (c : Contract) : option Constructor := c_constructor c.
(** [Option<&Vec<A>>::into_iter().flatten().next()] *)
Definition first_of {A} (o : option (list A)) : option A :=
  match o with Some (x :: _) => Some x | _ => None end.
(** [ok_or_else(|| Error::InvalidName(name.to_owned()))]: contract.rs:152-167 *)
Definition ok_or_name {A} (o : option A) (name : str) : res A :=
  match o with Some a => Ok a | None => Err (InvalidName name) end.
(** contract.rs:151-153 *)
Definition function (c : Contract) (name : str) : res Function := ok_or_name (first_of (group (c_functions c) name)) name.
(** contract.rs:156-158 *)
Definition event (c : Contract) (name : str) : res Event := ok_or_name (first_of (group (c_events c) name)) name.
(** contract.rs:161-163 *)
Definition events_by_name (c : Contract) (name : str) : res (list Event) := ok_or_name (group (c_events c) name) name.
(** contract.rs:166-168 *)
Definition functions_by_name (c : Contract) (name : str) : res (list Function) := ok_or_name (group (c_functions c) name) name.
(** contract.rs:171-173, 176-178 and 182-201, with the entries in iteration order *)
Definition iterate {A} (order : groups A) : list A := concat (map snd order).

(** * What a contract is, independently of how it is loaded *)
From Verif Require Import Base Types TypeNamesSpec Function Event Json JsonSpec Contract.
From Coq Require Import String.
Set Implicit Arguments.
Local Open Scope N_scope.
Local Open Scope list_scope.

Definition constructors_of (ops : list Operation) : list Constructor :=
  flat_map (fun o => match o with OpConstructor c => [c] | _ => [] end) ops.
Definition functions_of (ops : list Operation) : list Function :=
  flat_map (fun o => match o with OpFunction f => [f] | _ => [] end) ops.
Definition events_of (ops : list Operation) : list Event :=
  flat_map (fun o => match o with OpEvent e => [e] | _ => [] end) ops.
Fixpoint last_of {A} (l : list A) : option A :=
  match l with [] => None | [x] => Some x | _ :: l' => last_of l' end.
(** The items with a name, in order; [None] if there are none. *)
Definition named {A} (name : A -> str) (l : list A) (k : str) : option (list A) :=
  match filter (fun x => str_eqb (name x) k) l with [] => None | r => Some r end.
(** The same contract: the maps are equal as functions. *)
Definition same_contract (c1 c2 : Contract) : Prop :=
  c_constructor c1 = c_constructor c2 /\
  (forall k, group (c_functions c1) k = group (c_functions c2) k) /\
  (forall k, group (c_events c1) k = group (c_events c2) k) /\
  c_receive c1 = c_receive c2 /\ c_fallback c1 = c_fallback c2.
(** The functions and events of a contract, nested how deep? *)
Definition contract_depth (ops : list Operation) : N := 1 + max_of operation_depth ops.

(** The types of all parameters of a contract. *)
Definition types_of (c : Contract) : list ParamType :=
  match c_constructor c with Some k => map p_kind (k_inputs k) | None => [] end ++
  flat_map (fun f => map p_kind (f_inputs f) ++ map p_kind (f_outputs f)) (iterate (c_functions c)) ++
  flat_map (fun e => map ep_kind (e_inputs e)) (iterate (c_events c)).

(** [s] is the text of a "type" key somewhere inside. *)
Inductive type_text (s : str) : json -> Prop :=
  | tt_here l : In (lit "type", JStr s) l -> type_text s (JObj l)
  | tt_value l k v : In (k, v) l -> type_text s v -> type_text s (JObj l)
  | tt_item l v : In v l -> type_text s v -> type_text s (JArr l).
(** Every "type" text inside satisfies [ok]. *)
Fixpoint type_texts (ok : str -> bool) (j : json) : bool :=
  match j with
  | JArr l => forallb (type_texts ok) l
  | JObj l => forallb (fun e => (if str_eqb (fst e) (lit "type") then match snd e with JStr s => ok s | _ => true end else true) &&
                                type_texts ok (snd e)) l
  | _ => true
  end.

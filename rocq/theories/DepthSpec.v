(** * How deeply a type is nested, independent of the model *)
From Verif Require Import Base Types Function Event Json Contract.
Set Implicit Arguments.

(** The functions that walk over a type ([encode], [decode], [write], the
    destructor) call themselves once for each level. *)
Fixpoint levels (t : ParamType) : nat :=
  match t with
  | PArray t' | PFixedArray t' _ => S (levels t')
  | PTuple ts => S (fold_right (fun t n => Nat.max (levels t) n) 0 ts)
  | PAddress | PBytes | PInt _ | PUint _ | PBool | PString | PFixedBytes _ => 1
  end%nat.

(** The characters in the texts inside a JSON value. *)
Fixpoint letters (j : json) : nat :=
  match j with
  | JStr s => List.length s
  | JArr l => list_sum (map letters l)
  | JObj l => list_sum (map (fun e => letters (snd e)) l)
  | JNull | JBool _ | JNum _ => 0
  end.
(** The parameter types of a contract. *)
Definition types_in (c : Contract) : list ParamType :=
  match c_constructor c with Some k => map p_kind (k_inputs k) | None => [] end ++
  flat_map (fun g => flat_map (fun f => map p_kind (f_inputs f) ++ map p_kind (f_outputs f)) (snd g)) (c_functions c) ++
  flat_map (fun g => flat_map (fun e => map ep_kind (e_inputs e)) (snd g)) (c_events c).

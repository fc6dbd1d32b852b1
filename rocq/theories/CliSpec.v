(** * What the command line program is asked to find and to print *)
From Verif Require Import Base Types Keccak TypeNamesSpec Function Tokenizer TokenSpec Event Json JsonSpec Contract ContractSpec.
From Coq Require Import String.
Set Implicit Arguments.
Local Open Scope N_scope.
Local Open Scope list_scope.

(** The file at [path] is a standard ABI file with the items [ops]. *)
Definition abi_file (files : str -> option json) (path : str) (ops : list Operation) : Prop :=
  exists j, files path = Some j /\ contract_json j ops /\ forallb wf_operation ops = true /\ json_depth j <= 127.
(** "name(inputs)", followed by ":(outputs)" if there are outputs. *)
Definition full_signature (f : Function) (s : str) : Prop :=
  exists a, canonical_signature (f_name f) (map p_kind (f_inputs f)) a /\
  ((f_outputs f = [] /\ s = a) \/
   (f_outputs f <> [] /\ exists b, canonical_signature [] (map p_kind (f_outputs f)) b /\ s = a ++ lit ":" ++ b)).
Definition event_canonical (e : Event) (s : str) : Prop := canonical_signature (e_name e) (map ep_kind (e_inputs e)) s.
Definition event_hash (e : Event) (h : list byte) : Prop := exists s, event_canonical e s /\ h = keccak256 (utf8 s).
(** [x] is the first member of [l] with [P]. *)
Definition first_such {A} (P : A -> Prop) (l : list A) (x : A) : Prop :=
  exists l1 l2, l = l1 ++ x :: l2 /\ P x /\ Forall (fun y => ~ P y) l1.
(** [x] is the only member of [l] with [P]. *)
Definition only_such {A} (P : A -> Prop) (l : list A) (x : A) : Prop :=
  exists l1 l2, l = l1 ++ x :: l2 /\ P x /\ Forall (fun y => ~ P y) (l1 ++ l2).
(** Blanks (32) removed. *)
Definition unspaced (s : str) : str := filter (fun c => negb (c =? 32)) s.
Definition tokenizer (lenient : bool) : Tokenizer := if lenient then LenientTokenizer else StrictTokenizer.
(** The texts denote the values. *)
Definition texts_denote (lenient : bool) (ts : list ParamType) (texts : list str) (vs : list Token) : Prop :=
  Forall2 (fun x v => tokenize (tokenizer lenient) (fst x) (snd x) = Ok v) (combine ts texts) vs.
(** "first second", one line each. *)
Definition lines (l : list (str * str)) : str := join [10] (map (fun x => fst x ++ 32 :: snd x) l).
(** Command line pairs: type, value, type, value, ... *)
Definition flatten {A} (l : list (A * A)) : list A := flat_map (fun x => [fst x; snd x]) l.
(** A topic argument: 64 hex digits, with or without 0x. *)
Definition topic_text (s : str) (w : list byte) : Prop :=
  len w = 32 /\ (hex_text s w \/ exists s', s = lit "0x" ++ s' /\ hex_text s' w).
(** The topic arguments the program accepts: blanks (space, carriage return,
    line feed, tab) may stand anywhere after the optional 0x. *)
Definition unblanked (s : str) : str := filter (fun c => negb ((c =? 32) || (c =? 13) || (c =? 10) || (c =? 9))) s.
Definition loose_topic_text (s : str) (w : list byte) : Prop :=
  len w = 32 /\ exists t, (s = t \/ s = lit "0x" ++ t) /\ hex_text (unblanked t) w.

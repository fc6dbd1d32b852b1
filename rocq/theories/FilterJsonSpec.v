(** * What the JSON of a topic filter means to the node that receives it
    (the Ethereum JSON-RPC convention for the [topics] of [eth_getLogs]).
    Written without reference to [se_filter]. *)
From Verif Require Import Base Json TokenSpec PrintSpec.
From Coq Require Import String.
Set Implicit Arguments.
Local Open Scope N_scope.
Local Open Scope list_scope.

(** [0x] and two lower-case digits for every byte. *)
Definition hash_text (s : str) (h : list byte) : Prop := exists d, s = lit "0x" ++ d /\ lower_hex_text d h.
(** What one position of the list allows: [null] everything, a text the hash
    it writes, a list any hash that one of its texts writes. *)
Definition place_allows (j : json) (o : option (list byte)) : Prop :=
  match j with
  | JNull => True
  | JStr s => exists h, hash_text s h /\ o = Some h
  | JArr l => exists s h, In (JStr s) l /\ hash_text s h /\ o = Some h
  | _ => False
  end.
(** A list of places allows the topics of a log if each place allows the topic
    at the same position. *)
Definition places_allow (js : list json) (topics : list (list byte)) : Prop :=
  forall i j, nth_error js i = Some j -> place_allows j (nth_error topics i).
(** The forms a place may take. *)
Definition place_form (j : json) : Prop :=
  j = JNull \/ (exists s h, j = JStr s /\ hash_text s h) \/
  (exists ss, j = JArr (map JStr ss) /\ Forall (fun s => exists h, hash_text s h) ss).

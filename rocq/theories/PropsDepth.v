(** * How deeply types can be nested (C74).
    Every theorem is proved elsewhere and closed here by [exact]. *)
From Verif Require Import Base StrFacts Types TypeNames Json Contract ContractSpec ReaderSpec DepthSpec DepthFacts DepthJson.
From Coq Require Import String.
Local Open Scope N_scope.
Local Open Scope list_scope.

(** ** C74: a type read from a name is nested at most as deeply as the name is
    long, and at most half as deeply if the name is ASCII; that bound is
    attained, however deep. *)
Theorem C74_levels : forall p s t, len s < 2 ^ 63 -> all_ascii s = true -> read p s = Ok t ->
  (2 * levels t <= List.length s + 1)%nat.
Proof. exact read_levels. Qed.
Print Assumptions C74_levels.
Theorem C74_any : forall p s t, str_len s < 2 ^ 63 -> read p s = Ok t -> (levels t <= List.length s)%nat.
Proof. exact read_any_levels. Qed.
Print Assumptions C74_any.
Theorem C74_attained : forall p k, N.of_nat k < 2 ^ 60 ->
  read p (deep_name k) = Ok (deep_type k) /\ (2 * levels (deep_type k) = List.length (deep_name k) + 1)%nat.
Proof. exact deep_reads. Qed.
Print Assumptions C74_attained.
Example C74_levels_case : forall p, let s := lit "(uint8[2][],(bool,string[]))" in
  read p s = Ok (PTuple [PArray (PFixedArray (PUint 8) 2); PTuple [PBool; PArray PString]]) /\
  all_ascii s = true /\ len s < 2 ^ 63 /\ levels (PTuple [PArray (PFixedArray (PUint 8) 2); PTuple [PBool; PArray PString]]) = 4%nat.
Proof. intros p s. repeat split; destruct p; vm_compute; reflexivity. Qed.
(** A name with accents (é), whose field is read from the wrong place (C65_refuted). *)
Example C74_any_case : forall p, let s := lit "(" ++ repeat 233 7 ++ lit "address(abcde))" in str_len s < 2 ^ 63 /\
  read p s = Ok (PTuple [PAddress]) /\ all_ascii s = false /\ levels (PTuple [PAddress]) = 2%nat.
Proof. intros p s. repeat split; destruct p; vm_compute; reflexivity. Qed.
Example C74_attained_case : deep_name 2 = lit "(((int[][])" /\ deep_type 2 = PTuple [PTuple [PTuple [PArray (PArray (PInt 256))]]] /\ levels (deep_type 2) = 6%nat.
Proof. vm_compute. repeat split; reflexivity. Qed.

(** The types of a loaded contract are nested at most as deeply as its texts
    are long altogether.  The limit that serde_json puts on the nesting of the
    JSON does not bound them: a file that is five deep holds types of any depth. *)
Theorem C74_loaded : forall p j c t, type_texts (fun s => str_len s <? 2 ^ 63) j = true -> de_contract p j = Ok c ->
  In t (types_in c) -> (levels t <= letters j)%nat.
Proof. exact contract_levels. Qed.
Print Assumptions C74_loaded.
Theorem C74_file : forall p k, N.of_nat k < 2 ^ 60 -> exists c, load p (deep_file k) = Ok c /\ In (deep_type k) (types_in c).
Proof. exact deep_file_loads. Qed.
Print Assumptions C74_file.
Example C74_loaded_case : forall p, exists c, type_texts (fun s => str_len s <? 2 ^ 63) (deep_file 3) = true /\
  de_contract p (deep_file 3) = Ok c /\ In (PTuple [PTuple [PTuple [PArray (PArray (PArray (PInt 256)))]]]) (types_in c) /\
  letters (deep_file 3) = 24%nat /\ json_depth (deep_file 3) = 5.
Proof. intros p. eexists. split; [|split]; [destruct p; vm_compute; reflexivity..|]. repeat split; try (vm_compute; reflexivity). now left. Qed.

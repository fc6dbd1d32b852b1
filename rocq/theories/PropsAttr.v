(** * Theorems: the attribute of the derive macro *)
From Verif Require Import Base Utf8 Contract Json JsonText JsonTextSpec Derive RustSyntax Quote DeriveText DeriveTree RustEval GeneratedSpec TextSamples Attr AttrSpec AttrSamples AttrFacts.
From Coq Require Import String.
Local Open Scope N_scope.
Local Open Scope list_scope.

(** ** C70: from the attribute to the code. *)
(** Attributes are read as the grammar says. *)
Theorem C70_attribute : forall a m, parse_meta a = Some m <-> after_text (at_path a) (at_tokens a) m.
Proof. exact meta_exact. Qed.
Print Assumptions C70_attribute.
Theorem C70_unique : forall attrs file file', names_file attrs file -> names_file attrs file' -> file = file'.
Proof. exact named_unique. Qed.
Print Assumptions C70_unique.
(** There is code exactly if the attributes name a file, the file is the text
    of a JSON value, and a contract loads from it that can be written; then the
    code is that of this contract.  Otherwise the macro panics. *)
Theorem C70_exact : forall p manifest_dir fs order attrs text, ethabi_derive p manifest_dir fs order attrs = Ok text <->
  exists rel dir full s j c, names_file attrs rel /\ manifest_dir = Some dir /\ found_at dir rel full /\
    fs full = Some (Some (utf8 s)) /\ wf_str s = true /\ json_text s j /\ load p j = Ok c /\ contract_text c (fst (order c)) (snd (order c)) = Ok text.
Proof. exact derive_exact. Qed.
Print Assumptions C70_exact.
Theorem C70_panics : forall p manifest_dir fs order attrs,
  (forall text, ethabi_derive p manifest_dir fs order attrs <> Ok text) -> ethabi_derive p manifest_dir fs order attrs = Panic.
Proof. exact derive_total. Qed.
Print Assumptions C70_panics.
(** It depends on no other file. *)
Theorem C70_local : forall p manifest_dir fs fs' order attrs,
  (forall rel dir full, names_file attrs rel -> manifest_dir = Some dir -> found_at dir rel full -> fs full = fs' full) ->
  ethabi_derive p manifest_dir fs order attrs = ethabi_derive p manifest_dir fs' order attrs.
Proof. exact derive_local. Qed.
Print Assumptions C70_local.
Example C70_case : names_file sample_attrs (lit "../res/set.abi") /\ found_at (lit "/home/me/derive") (lit "../res/set.abi") (lit "/home/me/derive/../res/set.abi") /\
  is_ok (ethabi_derive Debug (Some (lit "/home/me/derive")) sample_files sample_order sample_attrs) = true /\
  ethabi_derive Debug None sample_files sample_order sample_attrs = Panic /\
  ethabi_derive Debug (Some (lit "/home/me")) sample_files sample_order sample_attrs = Panic /\
  ethabi_derive Debug (Some (lit "/home/me/derive")) sample_files sample_order (rev sample_attrs) = Panic.
Proof.
  split; [apply named_exact; vm_compute; reflexivity|]. split; [apply found_exact; vm_compute; reflexivity|]. vm_compute. auto.
Qed.
(** [use_contract!] takes a string literal, and names the file that it is. *)
Theorem C70_use_contract : forall argument file, names_file (use_contract argument) file <->
  exists rest, argument = TLiteral (LitStr file) :: rest /\ (rest = [] \/ exists ts l, rest = punct "," :: ts /\ items_text ts l).
Proof. exact used_exact. Qed.
Print Assumptions C70_use_contract.
(** From the file to the behaviour of the code: what C69 says holds for the
    contract in the file. *)
Theorem C70_runs : forall p dir fs order rel full s j c d,
  found_at dir rel full -> fs full = Some (Some (utf8 s)) -> wf_str s = true -> json_text s j -> load p j = Ok c ->
  derive_contract p c (fst (order c)) (snd (order c)) = Ok d ->
  exists items, ethabi_derive p (Some dir) fs order (use_contract [TLiteral (LitStr rel)]) = Ok (wr_items items) /\ contract_code p d items.
Proof. exact used_runs. Qed.
Print Assumptions C70_runs.
Theorem C70_refused : forall p dir fs order attrs rel full s j c text,
  names_file attrs rel -> found_at dir rel full -> fs full = Some (Some (utf8 s)) -> wf_str s = true -> json_text s j -> load p j = Ok c ->
  ethabi_derive p (Some dir) fs order attrs = Ok text ->
  exists items, text = wr_items items /\ ((exists d, derive_contract p c (fst (order c)) (snd (order c)) = Ok d) <-> ~ refused_code p items).
Proof. exact derive_decided. Qed.
Print Assumptions C70_refused.
Example C70_runs_case : found_at (lit "/home/me/derive/") (lit "../res/set.abi") (lit "/home/me/derive/../res/set.abi") /\
  sample_files (lit "/home/me/derive/../res/set.abi") = Some (Some (utf8 set_abi)) /\ wf_str set_abi = true /\
  exists j c, json_text set_abi j /\ load Debug j = Ok c /\ is_ok (derive_contract Debug c (fst (sample_order c)) (snd (sample_order c))) = true.
Proof. exact sample_runs. Qed.

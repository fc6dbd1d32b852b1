(** * Theorems: which of the generated texts are accepted *)
From Verif Require Import Base Utf8 Types TypeNames Function Event Contract Json JsonText JsonTextSpec Heck Derive DeriveSpec DeriveSamples RustSyntax Quote DeriveText DeriveTree RustEval GeneratedSpec
  Attr AttrSpec RustParse RustCheck ReadSpec DeriveRejected DeriveReadFile.
From Coq Require Import String.
Local Open Scope N_scope.
Local Open Scope list_scope.

(** ** C80: the generated text is accepted exactly for the contracts of C62. *)
(** Of the texts that are written, the parser reads those whose arguments and
    results have types that Rust can name and whose names are not reserved;
    all others it refuses. *)
Theorem C80_reads : forall c fs es text, contract_text c fs es = Ok text -> ((exists items, parse text = Some items) <-> readable c fs es).
Proof. exact text_reads. Qed.
Print Assumptions C80_reads.
(** What is read is the code of C69 and C77, and nothing else. *)
Theorem C80_parse : forall c fs es text items, contract_text c fs es = Ok text ->
  (parse text = Some items <-> contract_tree c fs es = Ok items /\ readable c fs es).
Proof. exact parse_exact. Qed.
Print Assumptions C80_parse.
(** A written text is read and passes the check exactly if the contract has an
    interface; what is read then does what the interface says. *)
Theorem C80_decides : forall p c fs es text, contract_text c fs es = Ok text -> (accepted text <-> exists d, derive_contract p c fs es = Ok d).
Proof. exact text_decides. Qed.
Print Assumptions C80_decides.
Theorem C80_exact : forall p c fs es, (exists text, contract_text c fs es = Ok text /\ accepted text) <-> exists d, derive_contract p c fs es = Ok d.
Proof. exact accepted_exact. Qed.
Print Assumptions C80_exact.
Theorem C80_means : forall p c fs es text items d, contract_text c fs es = Ok text -> parse text = Some items -> derive_contract p c fs es = Ok d -> contract_code p d items.
Proof. exact accepted_means. Qed.
Print Assumptions C80_means.
(** From the attribute and the file on. *)
Theorem C80_file : forall p manifest_dir fs order attrs, (exists text, ethabi_derive p manifest_dir fs order attrs = Ok text /\ accepted text) <->
  exists rel dir full s j c d, names_file attrs rel /\ manifest_dir = Some dir /\ found_at dir rel full /\
    fs full = Some (Some (utf8 s)) /\ wf_str s = true /\ json_text s j /\ load p j = Ok c /\ derive_contract p c (fst (order c)) (snd (order c)) = Ok d.
Proof. exact file_decides. Qed.
Print Assumptions C80_file.

Definition outcome (c : Contract) (fs : groups Function) (es : groups Event) : option (option bool) :=
  match contract_text c fs es with Ok text => Some (match parse text with Some items => Some (program_ok items) | None => None end) | _ => None end.
Definition of_function (f : Function) := outcome default_contract [(f_name f, [f])] [].
Definition of_event (e : Event) := outcome default_contract [] [(e_name e, [e])].
(** Written, read and accepted; written and read, but not accepted; written
    but not read; not written. *)
Example C80_case :
  outcome (mkContract (Some derive_c) [] [] false false) [(lit "setNames", [derive_f])] [(lit "NamesSet", [derive_e (lit "NamesSet")])] = Some (Some true) /\
  of_function (mkFunction (lit "set") [mkParam (lit "function") PBool None] [] false NonPayable) = Some (Some false) /\
  of_function (mkFunction (lit "set") [mkParam (lit "type") PBool None] [] false NonPayable) = Some None /\
  of_function (mkFunction (lit "set") [mkParam (lit "1") PBool None] [] false NonPayable) = None /\
  of_function (mkFunction (lit "set") [mkParam (lit "l") (PFixedArray (PArray PBool) 2) None] [] false NonPayable) = Some (Some true) /\
  of_function (mkFunction (lit "set") [mkParam (lit "l") (PArray (PFixedArray PBool 2)) None] [] false NonPayable) = Some None /\
  of_function (mkFunction (lit "get") [] [mkParam [] PBool None; mkParam [] (PArray (PFixedArray PBool 2)) None] false NonPayable) = Some None /\
  of_function (mkFunction (lit "get") [] [mkParam [] PBool None; mkParam [] (PTuple []) None] false NonPayable) = None /\
  of_event (mkEvent (lit "Move") [] false) = Some None /\ of_event (mkEvent (lit "Moved") [] false) = Some (Some true) /\ of_event (mkEvent (lit "Self") [] false) = Some None /\
  of_event (mkEvent (lit "Moved") [mkEventParam (lit "in") PBool false] false) = Some None /\ of_event (mkEvent (lit "Moved") [mkEventParam (lit "in") PBool true] false) = Some None /\
  outcome default_contract [] [(lit "Moved", [mkEvent (lit "Moved") [] false; mkEvent (lit "Moved") [] false])] = Some (Some false).
Proof. vm_compute. auto 20. Qed.

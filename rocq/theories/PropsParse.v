(** * Theorems: the generated text, read as Rust *)
From Verif Require Import Base Utf8 Types AbiSpec TypeNames Function Event Contract Json JsonText JsonTextSpec Heck Derive DeriveSpec DeriveSamples Samples RustSyntax Quote DeriveText DeriveTree RustEval GeneratedSpec
  Attr AttrSpec RustParse RustParseFacts DeriveParsed DeriveParsedFile.
From Coq Require Import String.
Local Open Scope N_scope.
Local Open Scope list_scope.

(** ** C73: the generated text is a program. *)
(** The text of every contract that C62 lists is read by the parser of
    RustParse.v, and what is read, when run, does what the interface says. *)
Theorem C73_parses : forall p c fs es d, derive_contract p c fs es = Ok d ->
  exists text items, contract_text c fs es = Ok text /\ parse text = Some items /\ contract_code p d items.
Proof. exact generated_parses. Qed.
Print Assumptions C73_parses.
Example C73_case : is_ok (derive_contract Debug (mkContract (Some derive_c) [] [] false false)
    [(lit "setNames", [derive_f])] [(lit "NamesSet", [derive_e (lit "NamesSet")])]) = true.
Proof. vm_compute. reflexivity. Qed.
(** From the file on. *)
Theorem C73_file : forall p dir fs order rel full s j c d,
  found_at dir rel full -> fs full = Some (Some (utf8 s)) -> wf_str s = true -> json_text s j -> load p j = Ok c ->
  derive_contract p c (fst (order c)) (snd (order c)) = Ok d ->
  exists text items, ethabi_derive p (Some dir) fs order (use_contract [TLiteral (LitStr rel)]) = Ok text /\ parse text = Some items /\ contract_code p d items.
Proof. exact used_parses. Qed.
Print Assumptions C73_file.
(** Texts with a keyword for the name of a module, and texts with an array of
    fixed size in the place of a type, are no programs. *)
Example C73_rejected_case :
  (exists text, contract_text default_contract [(lit "move", [mkFunction (lit "move") [] [] false NonPayable])] [] = Ok text /\ parse text = None) /\
  (exists text, contract_text default_contract [(lit "moves", [mkFunction (lit "moves") [] [] false NonPayable])] [] = Ok text /\ parse text <> None) /\
  (exists text, contract_text default_contract [(lit "pair", [mkFunction (lit "pair") [] [mkParam [] (PFixedArray PBool 2) None] false NonPayable])] [] = Ok text /\ parse text = None) /\
  (exists text, contract_text default_contract [(lit "pair", [mkFunction (lit "pair") [] [mkParam [] (PArray PBool) None] false NonPayable])] [] = Ok text /\ parse text <> None) /\
  (exists text, contract_text default_contract [] [(lit "Done", [mkEvent (lit "Done") [mkEventParam (lit "type") PBool false] false])] = Ok text /\ parse text = None) /\
  (exists text, contract_text default_contract [] [(lit "Done", [mkEvent (lit "Done") [mkEventParam (lit "kind") PBool false] false])] = Ok text /\ parse text <> None).
Proof. repeat split; (eexists; split; [ vm_compute; reflexivity | vm_compute; (reflexivity || discriminate) ]). Qed.

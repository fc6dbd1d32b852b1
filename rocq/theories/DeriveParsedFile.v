(** * From the file to a program *)
From Verif Require Import Base Utf8 Contract Json JsonText JsonTextSpec Derive RustSyntax Quote DeriveText DeriveTree RustEval GeneratedSpec Attr AttrSpec AttrFacts RustParse DeriveParsed.
Local Open Scope N_scope.
Local Open Scope list_scope.
Lemma used_parses p dir fs order rel full s j c d : found_at dir rel full -> fs full = Some (Some (utf8 s)) -> wf_str s = true -> json_text s j -> load p j = Ok c ->
  derive_contract p c (fst (order c)) (snd (order c)) = Ok d ->
  exists text items, ethabi_derive p (Some dir) fs order (use_contract [TLiteral (LitStr rel)]) = Ok text /\ parse text = Some items /\ contract_code p d items.
Proof.
  intros F FS W T L D. destruct (@generated_parses _ _ _ _ _ D) as (text & items & X & R & C). exists text, items. split; [ | auto ]. apply derive_exact. exists rel, dir, full, s, j, c.
  split; [apply used_exact; eauto|]. auto 10.
Qed.

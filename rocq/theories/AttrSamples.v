(** * Attributes for the examples of C70 *)
From Verif Require Import Base BaseFacts StrFacts Utf8 Utf8Facts Contract Json JsonText JsonTextSpec JsonTextFacts JsonTextLoad Derive Attr AttrSpec AttrFacts.
From Coq Require Import String.
Local Open Scope N_scope.
Local Open Scope list_scope.

Definition set_abi : str :=
  lit "[{ ""type"":""function"", ""name"":""set"", ""inputs"":[{""name"":""who"",""type"":""address""}], ""outputs"":[{""name"":"""",""type"":""bool""}] },
        { ""type"":""event"", ""name"":""WasSet"", ""inputs"":[{""name"":""who"",""type"":""address"",""indexed"":true}], ""anonymous"":false }]".
(** [#[doc = "x"]], an attribute that is not well-formed, and
    [#[ethabi_contract_options(true, a::path = -1, b(), path = "../res/set.abi", path)]] *)
Definition sample_attrs : list attribute :=
  [mkAttr (mkPath false [lit "doc"]) [punct "="; TLiteral (LitStr (lit "x"))];
   mkAttr (mkPath false [lit "ethabi_contract_options"]) [TParen [TIdent (lit "path"); TLiteral (LitStr (lit "no.abi"))]];
   mkAttr (mkPath false [lit "ethabi_contract_options"]) [TParen [TIdent (lit "true"); punct ",";
     TIdent (lit "a"); punct "::"; TIdent (lit "path"); punct "="; punct "-"; TLiteral LitNumber; punct ",";
     TIdent (lit "b"); TParen []; punct ",";
     TIdent (lit "path"); punct "="; TLiteral (LitStr (lit "../res/set.abi")); punct ","; TIdent (lit "path")]];
   mkAttr (mkPath false [lit "ethabi_contract_options"]) []].
Definition sample_files : files := fun path =>
  if str_eqb path (lit "/home/me/derive/../res/set.abi") then Some (Some (utf8 set_abi)) else if str_eqb path (lit "/home/me") then Some None else None.
Definition sample_order (c : Contract) := (c_functions c, c_events c).
Local Opaque Keccak.keccak256.
Lemma sample_runs : found_at (lit "/home/me/derive/") (lit "../res/set.abi") (lit "/home/me/derive/../res/set.abi") /\
  sample_files (lit "/home/me/derive/../res/set.abi") = Some (Some (utf8 set_abi)) /\ wf_str set_abi = true /\
  exists j c, json_text set_abi j /\ load Debug j = Ok c /\ is_ok (derive_contract Debug c (fst (sample_order c)) (snd (sample_order c))) = true.
Proof.
  split; [apply found_exact; vm_compute; reflexivity|]. split; [vm_compute; reflexivity|]. split; [vm_compute; reflexivity|].
  assert (E : is_ok (do c <- load_bytes Debug (utf8 set_abi); derive_contract Debug c (fst (sample_order c)) (snd (sample_order c))) = true) by (vm_compute; reflexivity).
  destruct (load_bytes Debug (utf8 set_abi)) as [c| |] eqn:L; try discriminate. cbn [bind] in E. apply load_bytes_exact in L as (s & j & W & U & T & L).
  assert (s = set_abi) by (rewrite <- (utf8_lossy_utf8 s W), <- U; vm_compute; reflexivity). subst s. eauto.
Qed.

(** * What of the generated code is accepted, from the text on and from the file on *)
From Verif Require Import Base BaseFacts Utf8 Types Function Event Contract Heck Json JsonText JsonTextSpec Derive DeriveSpec DeriveAccepts RustSyntax Quote DeriveText DeriveTree RustEval GeneratedSpec Attr AttrSpec AttrFacts
  RustParse RustParseFacts DeriveGenerated DeriveParsed DeriveTextFacts RustCheck CheckProgram ReadSpec DeriveRejected.
Local Open Scope N_scope.
Local Open Scope list_scope.
Lemma text_reads c fs es text : contract_text c fs es = Ok text -> ((exists items, parse text = Some items) <-> readable c fs es).
Proof.
  intros T. split.
  - intros [items H]. now apply (@parse_exact _ _ _ _ items T) in H.
  - intros R. pose proof T as T'. rewrite contract_ok in T'. destruct (contract_tree c fs es) as [items| |] eqn:E; try discriminate. exists items. apply (@parse_exact _ _ _ _ items T). auto.
Qed.
Lemma derived_readable p c fs es d : derive_contract p c fs es = Ok d -> readable c fs es.
Proof.
  intros D. destruct (proj1 (@contract_exact p c fs es) (ex_intro _ d D)) as (K & F & E & _). split; [|split].
  - intros k X. destruct (proj1 (@DeriveAccepts.constructor_exact p k) (K k X)) as (A & names & N & U & _). split; [exact A|eauto].
  - eapply Forall_impl; [|exact F]. intros f X. destruct (proj1 (@function_exact p f) X) as (A & P & (names & N & U & _) & M). split; [split; [exact A|eauto]|auto].
  - eapply Forall_impl; [|exact E]. intros f X. destruct (proj1 (@event_exact p f) X) as (P & (names & N & U & _) & M). split; [exact P|]. split; [eauto|exact M].
Qed.
Lemma text_decides p c fs es text : contract_text c fs es = Ok text -> (accepted text <-> exists d, derive_contract p c fs es = Ok d).
Proof.
  intros T. split.
  - intros (items & H & C). apply (@parse_exact _ _ _ _ items T) in H as [E _]. exact (proj1 (@program_exact p _ _ _ _ E) C).
  - intros [d D]. destruct (@text_checks p _ _ _ _ D) as (text' & items & T' & P & C & _). rewrite T in T'. injection T' as <-. exists items. auto.
Qed.
Lemma accepted_exact p c fs es : (exists text, contract_text c fs es = Ok text /\ accepted text) <-> exists d, derive_contract p c fs es = Ok d.
Proof.
  split.
  - intros (text & T & A). exact (proj1 (@text_decides p _ _ _ _ T) A).
  - intros [d D]. destruct (@text_checks p _ _ _ _ D) as (text & items & T & P & C & _). exists text. split; [exact T|]. exists items. auto.
Qed.
Lemma accepted_means p c fs es text items d : contract_text c fs es = Ok text -> parse text = Some items -> derive_contract p c fs es = Ok d -> contract_code p d items.
Proof.
  intros T P D. destruct (@generated_parses p _ _ _ _ D) as (text' & items' & T' & P' & C). rewrite T in T'. injection T' as <-. rewrite P in P'. injection P' as <-. exact C.
Qed.
Lemma file_decides p manifest_dir fs order attrs : (exists text, ethabi_derive p manifest_dir fs order attrs = Ok text /\ accepted text) <->
  exists rel dir full s j c d, names_file attrs rel /\ manifest_dir = Some dir /\ found_at dir rel full /\
    fs full = Some (Some (utf8 s)) /\ wf_str s = true /\ json_text s j /\ load p j = Ok c /\ derive_contract p c (fst (order c)) (snd (order c)) = Ok d.
Proof.
  split.
  - intros (text & E & A). apply derive_exact in E as (rel & dir & full & s & j & c & H1 & H2 & H3 & H4 & H5 & H6 & H7 & T). destruct (proj1 (@text_decides p _ _ _ _ T) A) as [d D]. exists rel, dir, full, s, j, c, d. auto 10.
  - intros (rel & dir & full & s & j & c & d & H1 & H2 & H3 & H4 & H5 & H6 & H7 & D). destruct (proj2 (@accepted_exact p _ _ _) (ex_intro _ d D)) as (text & T & A). exists text. split; [|exact A]. apply derive_exact. exists rel, dir, full, s, j, c. auto 10.
Qed.

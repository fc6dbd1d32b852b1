(** * Derived functions and constructors *)
From Verif Require Import Base BaseFacts StrFacts Types TypeNames TypeNamesSpec Encoder EncoderTotal Decoder AbiSpec EncoderFacts DecoderProps CodecLemmas Keccak
  Function FunctionFacts Tokenizer TokenFacts Event EventSpec EventFacts FilterFacts Json Contract Heck HeckFacts Derive DeriveSpec DeriveFacts.
From Coq Require Import String.
From Coq Require Import ZifyBool ZifyNat ZifyN Lia.
Set Implicit Arguments.
Local Open Scope N_scope.
Local Open Scope list_scope.
Notation length := List.length.
Local Opaque keccak256.

Definition strip (x : Param) : Param := mkParam (p_name x) (p_kind x) None.
Lemma strip_kinds l : map p_kind (map strip l) = map p_kind l.
Proof. rewrite map_map. now apply map_ext. Qed.
Lemma check_ok A b (a r : A) : check b a = Ok r <-> b = true /\ r = a.
Proof. unfold check, compile_error. destruct b; split; try (intros [? ?]); congruence || (intros E; injection E; auto). Qed.
Lemma ident_char_iff c : ident_char c = true <-> letter c \/ digit c \/ c = 95.
Proof. unfold ident_char, is_upper, is_lower, is_num, letter, upper, lower, digit. lia. Qed.
Lemma ident_ok s r : ident s = Ok r <-> r = s /\ identifier s.
Proof.
  unfold ident, identifier. destruct s as [|c s]; [split; [discriminate|intros [_ (? & ? & E & _)]; discriminate]|].
  destruct ((is_upper c || is_lower c || (c =? 95)) && forallb ident_char s) eqn:E.
  - apply andb_true_iff in E as [C F]. split; [|now intros [-> _]]. intros Q. injection Q as <-. split; [reflexivity|]. exists c, s. split; [reflexivity|]. split.
    + unfold is_upper, is_lower in C. unfold letter, upper, lower. lia.
    + intros d I. rewrite forallb_forall in F. now apply ident_char_iff, F.
  - split; [discriminate|]. intros (_ & c' & s' & Q & C & F). injection Q as <- <-. apply andb_false_iff in E as [E|E].
    + unfold is_upper, is_lower in E. unfold letter, upper, lower in C. lia.
    + assert (forallb ident_char s = true); [|congruence]. apply forallb_forall. intros d I. now apply ident_char_iff, F.
Qed.
Lemma param_vec_ok l r : to_ethabi_param_vec l = Ok r <-> r = map strip l /\ forallb no_tuple (map p_kind l) = true.
Proof.
  unfold to_ethabi_param_vec. revert r. induction l as [|x l IH]; intros r; cbn [mapM map forallb].
  - split; [intros E; injection E as <-; auto|intros [-> _]; reflexivity].
  - split.
    + intros E. apply bind_ok in E as (a & Ea & E). apply bind_ok in E as (r' & Er & E). injection E as <-.
      apply bind_ok in Ea as (k & Ek & Ea). apply to_syntax_ok in Ek as [-> N]. injection Ea as <-.
      apply IH in Er as [-> F]. rewrite N, F. auto.
    + intros [-> F]. apply andb_true_iff in F as [N F]. rewrite (proj2 (to_syntax_ok _ _)) by eauto. cbn [bind].
      rewrite (proj2 (IH _)) by eauto. reflexivity.
Qed.
Lemma mapM_kinds A B (k : A -> ParamType) (g : ParamType -> res B) (P : ParamType -> bool) (h : B -> bool) l r :
  (forall t b, g t = Ok b -> h b = P t) -> mapM (fun x => g (k x)) l = Ok r -> forallb h r = forallb P (map k l).
Proof.
  intros H E. apply mapM_ok in E. induction E as [|x y l r E F IH]; [reflexivity|]. cbn [forallb map]. now rewrite (H _ _ E), IH.
Qed.
Lemma mapM_exists A B (f : A -> res B) l : Forall (fun x => exists y, f x = Ok y) l -> exists r, mapM f l = Ok r.
Proof. induction 1 as [|x l [y E] F [r IH]]; [now exists []|]. exists (y :: r). cbn [mapM]. rewrite E. cbn [bind]. now rewrite IH. Qed.

Lemma tokenize_ok inputs tok : tokenize_params inputs = Ok tok -> forallb argument_type (map p_kind inputs) = true ->
  forall args xs, Forall3 argument (map p_kind inputs) args xs -> tok args = Ok xs.
Proof.
  intros E A args xs F. unfold tokenize_params in E. apply bind_ok in E as (fs & E & Q). injection Q as <-. apply mapM_ok in E.
  remember (map p_kind inputs) as ks. revert inputs fs Heqks E. induction F as [|k v x ks args xs H F IH]; intros inputs fs K E.
  - destruct inputs; [|discriminate]. inversion E; subst. reflexivity.
  - destruct inputs as [|q inputs]; [discriminate|]. cbn [map] in K. injection K as -> ->. inversion E as [|? f ? fs' Ef E']; subst.
    cbn [forallb] in A. apply andb_true_iff in A as [A1 A2]. destruct (argument_token _ A1) as (g & Eg & G). rewrite Eg in Ef. cbn [bind] in Ef.
    injection Ef as <-. cbn [combine mapM fst snd]. rewrite (G _ _ H). cbn [bind]. rewrite (IH A2 inputs fs' eq_refl E'). reflexivity.
Qed.
Lemma arguments_typed ks args xs : Forall3 argument ks args xs -> have_types xs ks = true.
Proof. intros F. apply tuple_type. induction F; constructor; eauto using argument_typed. Qed.
Lemma arguments_exist inputs bounds args : mapM (fun q => template_param_type (p_kind q)) inputs = Ok bounds ->
  forallb argument_type (map p_kind inputs) = true -> Forall2 meets bounds args -> exists xs, Forall3 argument (map p_kind inputs) args xs.
Proof.
  intros E A M. apply mapM_ok in E. revert args M. induction E as [|q b inputs bounds E F IH]; intros args M; inversion M as [|? v ? args' V M']; subst.
  - exists []. constructor.
  - cbn [map forallb] in *. apply andb_true_iff in A as [A1 A2]. destruct (IH A2 args' M') as [xs X].
    apply (@argument_meets _ _ A1 E) in V as [x V]. exists (x :: xs). now constructor.
Qed.
Lemma convert_all_ok A (k : A -> ParamType) outs fs vs xs : mapM (fun q => from_token (k q)) outs = Ok fs ->
  forallb no_tuple (map k outs) = true -> Forall3 denotes (map k outs) vs xs -> convert_all fs xs = Ok vs.
Proof.
  intros E P F. apply mapM_ok in E. revert vs xs F. induction E as [|q f outs fs Ef E IH]; intros vs xs F; inversion F as [|? v x ? vs' xs' H F']; subst; [reflexivity|].
  cbn [forallb map] in P. apply andb_true_iff in P as [A1 A2]. destruct (from_token_ok _ A1) as (g & Eg & G). rewrite Eg in Ef. injection Ef as <-.
  cbn [convert_all]. rewrite (G _ _ H). cbn [bind]. now rewrite (IH A2 vs' xs' F').
Qed.
Lemma denotes_all ks xs : forallb plain_type ks = true -> have_types xs ks = true -> exists vs, Forall3 denotes ks vs xs.
Proof.
  intros P T. apply tuple_type in T. induction T as [|x k xs ks T F IH]; [exists []; constructor|]. cbn [forallb] in P.
  apply andb_true_iff in P as [P1 P2]. destruct (IH P2) as [vs V]. destruct (@denotes_exists _ P1 _ T) as [v D]. exists (v :: vs). now constructor.
Qed.
Lemma denotes_typed_all ks vs xs : Forall3 denotes ks vs xs -> have_types xs ks = true.
Proof. intros F. apply tuple_type. induction F; constructor; eauto using denotes_typed. Qed.
Lemma plain_no_tuples ks : forallb plain_type ks = true -> forallb no_tuple ks = true.
Proof. rewrite !forallb_forall. intros H t I. auto using plain_no_tuple. Qed.

Section Profile.
Context (p : profile).
Lemma derive_function_inv f d : derive_function p f = Ok d ->
  forallb argument_type (map p_kind (f_inputs f)) = true /\ forallb plain_type (map p_kind (f_outputs f)) = true /\
  df_function d = mkFunction (f_name f) (map strip (f_inputs f)) (map strip (f_outputs f)) (f_constant f) (f_state_mutability f) /\
  mapM (fun q => template_param_type (p_kind q)) (f_inputs f) = Ok (df_bounds d) /\
  df_module d = to_snake_case (f_name f) /\
  (exists tok, tokenize_params (f_inputs f) = Ok tok /\
     forall args, df_encode_input d args = do xs <- tok args; expect_ok (encode_input p (df_function d) xs)) /\
  (exists fs, mapM (fun q => from_token (p_kind q)) (f_outputs f) = Ok fs /\
     forall data, df_decode_output d data = match fs with [] => Ok [] | _ => do out <- decode_output p (df_function d) data; convert_all fs out end).
Proof.
  unfold derive_function. intros E.
  apply bind_ok in E as (names & _ & E). apply bind_ok in E as (bounds & Eb & E). apply bind_ok in E as (kinds & _ & E).
  apply bind_ok in E as (tok & Et & E). apply bind_ok in E as (results & Er & E). apply bind_ok in E as (fs & Ef & E).
  apply bind_ok in E as (ins & Ei & E). apply bind_ok in E as (outs & Eo & E). apply bind_ok in E as (m & Em & E).
  apply bind_ok in E as (u & Ec & E). apply check_ok in Ec as [Ec _]. apply andb_true_iff in Ec as [Ec _]. apply andb_true_iff in Ec as [Ec _]. apply andb_true_iff in Ec as [C1 C2].
  apply param_vec_ok in Ei as [-> _]. apply param_vec_ok in Eo as [-> _]. injection E as <-.
  cbn [df_function df_bounds df_module df_encode_input df_decode_output].
  split; [rewrite <- C1; symmetry; apply (mapM_kinds p_kind template_param_type argument_type bound_compiles _ template_ok Eb)|].
  split; [rewrite <- C2; symmetry; apply (mapM_kinds p_kind rust_type plain_type compiles _ plain_rust Er)|].
  split; [reflexivity|]. split; [exact Eb|]. split; [|split; eauto].
  now apply ident_ok in Em as [-> _].
Qed.
Lemma derived_encode f d args xs s : derive_function p f = Ok d ->
  Forall3 argument (map p_kind (f_inputs f)) args xs ->
  canonical_signature (f_name f) (map p_kind (f_inputs f)) s ->
  forallb solidity_type (map p_kind (f_inputs f)) = true -> forallb short_arrays xs = true ->
  enc_size (PTuple (map p_kind (f_inputs f))) (TTuple xs) < two32 ->
  df_encode_input d args = Ok (firstn 4 (keccak256 (utf8 s)) ++ abi_encode (map p_kind (f_inputs f)) xs).
Proof.
  intros D A C S H Z. apply derive_function_inv in D as (A1 & A2 & F & B & M & (tok & T & E) & _). rewrite E, (@tokenize_ok _ _ T A1 _ _ A). cbn [bind].
  rewrite F. rewrite (@encode_input_ok p _ xs s); cbn [f_name f_inputs]; rewrite ?strip_kinds; auto. eauto using arguments_typed.
Qed.
Lemma derived_decode f d vs xs : derive_function p f = Ok d -> f_outputs f <> [] ->
  Forall3 denotes (map p_kind (f_outputs f)) vs xs -> forall data, decode p (map p_kind (f_outputs f)) data = Ok xs ->
  df_decode_output d data = Ok vs.
Proof.
  intros D N V data E. apply derive_function_inv in D as (A1 & A2 & F & B & M & _ & (fs & T & Q)). rewrite Q.
  destruct fs as [|g fs']; [apply mapM_ok in T; inversion T; congruence|]. unfold decode_output, output_param_types. rewrite F.
  cbn [f_outputs]. rewrite strip_kinds, E. cbn [bind]. eapply convert_all_ok; [exact T| |exact V]. now apply plain_no_tuples.
Qed.
Lemma derived_decode_nothing f d data : derive_function p f = Ok d -> f_outputs f = [] -> df_decode_output d data = Ok [].
Proof.
  intros D N. apply derive_function_inv in D as (_ & _ & _ & _ & _ & _ & (fs & T & Q)). rewrite Q. rewrite N in T. cbn in T. now injection T as <-.
Qed.
(** Decoding panics only if the decoder does. *)
Lemma derived_decode_panic f d data : derive_function p f = Ok d -> forallb wf_type (map p_kind (f_outputs f)) = true -> fits data ->
  (df_decode_output d data = Panic <-> f_outputs f <> [] /\ decode p (map p_kind (f_outputs f)) data = Panic) /\
  (forall e, df_decode_output d data = Err e <-> f_outputs f <> [] /\ decode p (map p_kind (f_outputs f)) data = Err e).
Proof.
  intros D W L. destruct (f_outputs f) as [|q0 outs0] eqn:N.
  - rewrite (@derived_decode_nothing f d data D N). split; [|intros e]; (split; [discriminate|]); intros [H _]; congruence.
  - assert (NE : f_outputs f <> []) by congruence. rewrite <- N in *. clear N q0 outs0.
    pose proof D as D'. apply derive_function_inv in D' as (A1 & A2 & F & B & M & _ & (fs & T & Q)).
    destruct (decode p (map p_kind (f_outputs f)) data) as [xs|e|] eqn:E.
    + destruct (@decode_typed p (map p_kind (f_outputs f)) data xs W L E) as (_ & H & _). destruct (@denotes_all _ _ A2 H) as [vs V].
      rewrite (@derived_decode f d vs xs D NE V _ E). split; [|intros e]; (split; [discriminate|]); intros [_ H']; discriminate.
    + rewrite Q. destruct fs as [|g fs']; [apply mapM_ok in T; inversion T; congruence|]. unfold decode_output, output_param_types. rewrite F.
      cbn [f_outputs]. rewrite strip_kinds, E. cbn [bind]. split; [split; [discriminate|intros [_ ?]; discriminate]|]. intros e'. split; [intros H; split; congruence|intros [_ H]; congruence].
    + rewrite Q. destruct fs as [|g fs']; [apply mapM_ok in T; inversion T; congruence|]. unfold decode_output, output_param_types. rewrite F.
      cbn [f_outputs]. rewrite strip_kinds, E. cbn [bind]. split; [split; auto; now intros [_ ?]|]. intros e. split; [discriminate|intros [_ ?]; discriminate].
Qed.

(** ** Constructors *)
Lemma derive_constructor_inv c d : derive_constructor p c = Ok d ->
  forallb argument_type (map p_kind (k_inputs c)) = true /\
  dk_constructor d = mkConstructor (map strip (k_inputs c)) /\
  mapM (fun q => template_param_type (p_kind q)) (k_inputs c) = Ok (dk_bounds d) /\
  (exists tok, tokenize_params (k_inputs c) = Ok tok /\
     forall code args, dk_encode d code args = do xs <- tok args; expect_ok (constructor_encode_input p (dk_constructor d) code xs)).
Proof.
  unfold derive_constructor. intros E.
  apply bind_ok in E as (names & _ & E). apply bind_ok in E as (bounds & Eb & E). apply bind_ok in E as (kinds & _ & E).
  apply bind_ok in E as (tok & Et & E). apply bind_ok in E as (ins & Ei & E).
  apply bind_ok in E as (u & Ec & E). apply check_ok in Ec as [Ec _]. apply andb_true_iff in Ec as [C1 _].
  apply param_vec_ok in Ei as [-> _]. injection E as <-. cbn [dk_constructor dk_bounds dk_encode].
  split; [rewrite <- C1; symmetry; apply (mapM_kinds p_kind template_param_type argument_type bound_compiles _ template_ok Eb)|].
  split; [reflexivity|]. split; [exact Eb|]. eauto.
Qed.
Lemma derived_constructor c d code args xs : derive_constructor p c = Ok d ->
  Forall3 argument (map p_kind (k_inputs c)) args xs ->
  forallb solidity_type (map p_kind (k_inputs c)) = true -> forallb short_arrays xs = true ->
  enc_size (PTuple (map p_kind (k_inputs c))) (TTuple xs) < two32 ->
  dk_encode d code args = Ok (code ++ abi_encode (map p_kind (k_inputs c)) xs).
Proof.
  intros D A S H Z. apply derive_constructor_inv in D as (A1 & F & B & (tok & T & E)). rewrite E, (@tokenize_ok _ _ T A1 _ _ A). cbn [bind].
  rewrite F. rewrite (@constructor_ok p _ code xs); cbn [k_inputs]; rewrite ?strip_kinds; auto. eauto using arguments_typed.
Qed.
End Profile.

(** ** No panic, whatever the size, in an optimised build *)
Lemma forall2_wf xs ks : Forall2 (fun x k => has_type x k = true) xs ks -> forallb wf_token xs = true.
Proof. induction 1; [reflexivity|]. cbn [forallb]. now rewrite (@has_type_wf _ _ H). Qed.
Lemma encode_release_ok ks xs : have_types xs ks = true -> exists enc, encode Release xs = Ok enc.
Proof.
  intros T. assert (W : forallb wf_token xs = true) by (apply tuple_type in T; eauto using forall2_wf).
  destruct (encode Release xs) as [enc|e|] eqn:E; [eauto|now apply encode_not_err in E|now apply encode_release in E].
Qed.
Lemma derived_encode_release f d args : derive_function Release f = Ok d -> Forall2 meets (df_bounds d) args ->
  exists data, df_encode_input d args = Ok data.
Proof.
  intros D M. pose proof (@derive_function_inv _ _ _ D) as (A1 & A2 & F & B & _ & (tok & T & E) & _).
  destruct (@arguments_exist _ _ _ B A1 M) as [xs A]. rewrite E, (@tokenize_ok _ _ T A1 _ _ A). cbn [bind]. rewrite F.
  unfold encode_input, input_param_types. cbn [f_inputs f_name]. rewrite strip_kinds. pose proof (@arguments_typed _ _ _ A) as HT.
  rewrite (@have_types_checks _ _ HT). cbn [bind negb].
  destruct (canonical_exists (f_name f) (map p_kind (f_inputs f))) as [s C]. rewrite (@short_signature_ok _ _ _ C). cbn [bind].
  destruct (@encode_release_ok _ _ HT) as [enc ->]. cbn [bind expect_ok]. eauto.
Qed.
Lemma derived_constructor_release c d code args : derive_constructor Release c = Ok d -> Forall2 meets (dk_bounds d) args ->
  exists data, dk_encode d code args = Ok data.
Proof.
  intros D M. pose proof (@derive_constructor_inv _ _ _ D) as (A1 & F & B & (tok & T & E)).
  destruct (@arguments_exist _ _ _ B A1 M) as [xs A]. rewrite E, (@tokenize_ok _ _ T A1 _ _ A). cbn [bind]. rewrite F.
  unfold constructor_encode_input, param_types. cbn [k_inputs]. rewrite strip_kinds. pose proof (@arguments_typed _ _ _ A) as HT.
  rewrite (@have_types_checks _ _ HT). cbn [bind].
  destruct (@encode_release_ok _ _ HT) as [enc ->]. cbn [bind expect_ok]. eauto.
Qed.
(** The arguments of a call determine the values, and the other way round. *)
Lemma derived_arguments p f d args : derive_function p f = Ok d ->
  (Forall2 meets (df_bounds d) args <-> exists xs, Forall3 argument (map p_kind (f_inputs f)) args xs).
Proof.
  intros D. apply derive_function_inv in D as (A1 & _ & _ & B & _). split; [now apply arguments_exist|].
  intros [xs F]. apply mapM_ok in B. revert args xs F. induction B as [|q b inputs bounds E F IH]; intros args xs X; inversion X as [|? v x ? args' xs' H X']; subst; [constructor|].
  cbn [map forallb] in A1. apply andb_true_iff in A1 as [A1 A2]. constructor; [|eauto]. apply (@argument_meets _ _ A1 E). eauto.
Qed.

(** * Running the generated modules *)
From Verif Require Import Base BaseFacts StrFacts Types TypeNames Tokenizer AbiSpec Function Event EventSpec Contract Heck Derive DeriveSpec DeriveFacts DeriveCalls DeriveEvents DeriveAccepts
  RustSyntax DeriveTree RustEval DeriveRun.
From Verif Require DeriveTextFacts.
From Coq Require Import String Lia.
Set Implicit Arguments.
Notation length := List.length.
Local Open Scope N_scope.
Local Open Scope list_scope.

Lemma forallb_typed names : forallb (fun x : str * RustSyntax.ty => is_type (snd x)) (typed names) = true.
Proof. unfold typed, mapi. generalize 0%nat. induction names as [ | n names IH ]; intros i; [ reflexivity | ]. cbn [mapi_from forallb snd is_type]. apply IH. Qed.
Lemma typed_names names : map fst (typed names) = names.
Proof. unfold typed, mapi. generalize 0%nat. induction names as [ | n names IH ]; intros i; [ reflexivity | ]. cbn [mapi_from map fst]. rewrite IH. reflexivity. Qed.
Lemma upper_absent names x : (forall n c, In n names -> In c n -> is_upper c = false) -> (exists c, In c x /\ is_upper c = true) -> ~ In x names.
Proof. intros H (c & I & U) J. rewrite (H x c J I) in U. discriminate. Qed.

Lemma correct_params doc x g (names : list str) extra ret self b v :
  NoDup (map fst extra ++ names) -> Forall (fun s => ~ In s reserved_words) (map fst extra ++ names) -> forallb generic_types g = true ->
  forallb (fun x : str * RustSyntax.ty => is_type (snd x)) extra = true -> is_type ret = true ->
  fn_correct (mkFn doc true x (Some g) self (extra ++ typed names) ret b v) = true.
Proof.
  intros ND KW G E R. unfold fn_correct. cbn [fn_params fn_generics fn_ret]. rewrite map_app, forallb_app, typed_names, forallb_typed, G, E, R.
  set (l := map fst extra ++ names) in *. change (distinct l && negb (existsb keyword l)) with (declarable l). rewrite (proj2 (declarable_iff l) (conj ND KW)). reflexivity.
Qed.

Section Profile.
Context (p : profile).

(** ** Functions *)
Section Calls.
Context (c : path -> list val -> out val).
Lemma run_function f inputs outputs : params_tree (f_inputs f) = Ok inputs -> params_tree (f_outputs f) = Ok outputs ->
  forallb no_tuple (map p_kind (f_inputs f)) = true -> forallb no_tuple (map p_kind (f_outputs f)) = true ->
  run_fn p c (fn_function f inputs outputs) [] =
  Done (VFun (mkFunction (f_name f) (map strip (f_inputs f)) (map strip (f_outputs f)) (f_constant f) (f_state_mutability f))).
Proof.
  intros Ei Eo Ni No. pose proof (proj2 (DeriveCalls.param_vec_ok _ _) (conj eq_refl Ni)) as Vi. pose proof (proj2 (DeriveCalls.param_vec_ok _ _) (conj eq_refl No)) as Vo.
  unfold run_fn. change (fn_correct (fn_function f inputs outputs) && _) with true. cbn iota. cbn [fn_function fn_self fn_params fn_body fn_result app map combine].
  pose proof (@ev_params p c _ _ _ Ei Vi [] eq_refl) as E1. pose proof (@ev_params p c _ _ _ Eo Vo [] eq_refl) as E2.
  change (eval p c (EBlock [] ?e) []) with (obind (eval p c e []) (fun r => Done (fst r, leave [] (snd r)))).
  rewrite (@ev_struct p c _ _ [] [(lit "name", VStr (f_name f)); (lit "inputs", VVec (map VParam (map strip (f_inputs f)))); (lit "outputs", VVec (map VParam (map strip (f_outputs f))));
    (lit "constant", VBool (f_constant f)); (lit "state_mutability", VMut (f_state_mutability f))]).
  - change (struct (ethabi ["Function"%string]) _) with
      (match reads as_param (map VParam (map strip (f_inputs f))), reads as_param (map VParam (map strip (f_outputs f))) with
       | Some i', Some o' => Done (VFun (mkFunction (f_name f) i' o' (f_constant f) (f_state_mutability f)))
       | _, _ => Stuck
       end).
    rewrite !(reads_map as_param VParam) by reflexivity. reflexivity.
  - repeat (constructor; [ split; [ reflexivity | ] | ]); cbn [snd]; try constructor; try assumption; try reflexivity. destruct (f_state_mutability f); reflexivity.
Qed.
Context (F : Function) (fun_ok : c [lit "function"] [] = Done (VFun F)).
Context (bounds : list generic) (names : list str) (tokenize : list expr) (inputs : list Param).
Context (Tok : tokenize_tree names inputs = Ok tokenize) (Ln : length names = length inputs) (Bo : forallb generic_types bounds = true).
Context (ND : NoDup (lit "f" :: lit "function" :: names)) (KW : Forall (fun s => ~ In s reserved_words) (lit "f" :: lit "function" :: names))
  (UP : forall n c, In n names -> In c n -> is_upper c = false).
Lemma hidden x : (exists k, In k x /\ is_upper k = true) -> forall vals, lookup (params_env names vals) x = None.
Proof. intros H vals. apply lookup_absent. exact (@upper_absent _ _ UP H). Qed.
Lemma argument_length args xs : Forall3 argument (map p_kind inputs) args xs -> length names = length (map inj args).
Proof.
  intros H. rewrite map_length, Ln, <- (map_length p_kind). clear -H. induction H; cbn [List.length]; congruence.
Qed.
Lemma run_encoding doc x ret args xs k : is_type ret = true -> Forall3 argument (map p_kind inputs) args xs ->
  run_fn p c (mkFn doc true x (Some bounds) false (typed names) ret (encoding tokenize) k) (map inj args) =
  match eval p c k ((lit "tokens", false, VVec (map VTok xs)) :: (lit "f", false, VFun F) :: params_env names (map inj args)) with
  | Done (v, _) => Done v
  | Return v => Done v
  | Panics => Panics
  | Stuck => Stuck
  end.
Proof.
  intros R A. inversion ND as [ | ? ? N1 ND1 ]; subst. inversion ND1 as [ | ? ? N2 ND2 ]; subst. inversion KW as [ | ? ? _ KW1 ]; subst. inversion KW1 as [ | ? ? _ KW2 ]; subst.
  pose proof (@correct_params doc x bounds names [] ret false (encoding tokenize) k ND2 KW2 Bo eq_refl R) as Co. cbn [app] in Co. unfold run_fn. rewrite Co.
  cbn [fn_self fn_params fn_body fn_result app]. rewrite typed_names, (argument_length A), Nat.eqb_refl. cbn [andb].
  change (map (fun x0 : str * val => (fst x0, false, snd x0)) (combine names (map inj args))) with (params_env names (map inj args)).
  cbn [eval]. rewrite (@ev_encoding p c F tokenize xs (params_env names (map inj args)) fun_ok).
  - destruct (eval p c k _) as [ [ v s ] | | | ]; reflexivity.
  - apply lookup_absent. exact N2.
  - apply hidden. exists 73. split; [ left; reflexivity | reflexivity ].
  - intros b. eapply ev_tokenize; [ exact Tok | exact Ln | exact A | ]. intros n v I. cbn [lookup]. destruct (str_eqb n (lit "f")) eqn:E; [ | exact (@lookup_params _ _ _ _ ND2 I) ].
    apply str_eqb_eq in E. subst n. exfalso. apply N1. right. eapply in_combine_l. exact I.
Qed.
Lemma clean_names vals : clean (params_env names vals).
Proof. apply hidden. exists 73. split; [ left; reflexivity | reflexivity ]. Qed.
Lemma run_encode args xs : Forall3 argument (map p_kind inputs) args xs ->
  run_fn p c (fn_encode_input bounds names tokenize) (map inj args) = plainly VBytes (expect_ok (encode_input p F xs)).
Proof.
  intros A. unfold fn_encode_input. rewrite (@run_encoding _ _ _ args xs); [ | reflexivity | exact A ]. rewrite ev_encoded by apply clean_names.
  destruct (encode_input p F xs); reflexivity.
Qed.
Lemma run_call args xs : c [lit "Decoder"] [VFun F] = Done (VNewtype (lit "Decoder") (VFun F)) -> Forall3 argument (map p_kind inputs) args xs ->
  run_fn p c (fn_call bounds names tokenize) (map inj args) = plainly (fun b => VTuple [VBytes b; VNewtype (lit "Decoder") (VFun F)]) (expect_ok (encode_input p F xs)).
Proof.
  intros D A. unfold fn_call. rewrite (@run_encoding _ _ _ args xs); [ | reflexivity | exact A ]. set (s := _ :: _ :: params_env _ _).
  change (eval p c (ETuple [encoded; ECall [lit "Decoder"] [name "f"]]) s) with
    (obind (seqM (eval p c) [encoded; ECall [lit "Decoder"] [name "f"]] s) (fun r => Done (VTuple (fst r), snd r))).
  cbn [seqM]. unfold s at 1. rewrite (@ev_encoded p c F xs _ (clean_names _)). fold s.
  destruct (encode_input p F xs) as [ b | e | ]; cbn [expect_ok plainly obind fst snd]; [ | reflexivity | reflexivity ].
  change (eval p c (ECall [lit "Decoder"] [name "f"]) s) with
    (if match lookup s (lit "Decoder") with Some _ => true | None => false end then Stuck else obind (c [lit "Decoder"] [VFun F]) (fun v => Done (v, s))).
  replace (lookup s (lit "Decoder")) with (@None (bool * val)); [ rewrite D; reflexivity | ]. symmetry. unfold s.
  change (lookup (params_env names (map inj args)) (lit "Decoder") = None). apply hidden. exists 68. split; [ left; reflexivity | reflexivity ].
Qed.
End Calls.

Definition function_items (f : Function) (inputs outputs : expr) (result : RustSyntax.ty) (body : list (binder * expr) * expr) (bounds : list generic) (names : list str) (tokenize : list expr) : list item :=
  uses ++ [
    IFn (fn_function f inputs outputs);
    INewtype (lit " Generic function output decoder.") (lit "Decoder") (ethabi_ty "Function");
    IImpl (ethabi ["FunctionOutputDecoder"%string]) (lit "Decoder") (lit "Output") result (fn_decode body);
    IFn (fn_encode_input bounds names tokenize);
    IFn (fn_decode_output result);
    IFn (fn_call bounds names tokenize)].
Lemma function_runs f d : derive_function p f = Ok d -> exists inputs outputs result body bounds names tokenize,
  let items := function_items f inputs outputs result body bounds names tokenize in
  function_tree f = Ok (IMod None (df_module d) items) /\ bounds_tree (f_inputs f) = Ok bounds /\ output_tree (f_outputs f) = Ok result /\ input_names (f_inputs f) = Ok names /\ forall n,
  call p (S n) items [lit "function"] [] = Done (VFun (df_function d)) /\
  (forall args, Forall2 meets (df_bounds d) args ->
     call p (S (S n)) items [lit "encode_input"] (map inj args) = plainly VBytes (df_encode_input d args) /\
     call p (S (S n)) items [lit "call"] (map inj args) = plainly (fun b => VTuple [VBytes b; VNewtype (lit "Decoder") (VFun (df_function d))]) (df_encode_input d args)) /\
  (forall data,
     call p (S (S n)) items [lit "decode_output"] [VBytes data] = returned results (df_decode_output d data) /\
     call p (S n) items (segments ["ethabi"; "FunctionOutputDecoder"; "decode"]%string) [VNewtype (lit "Decoder") (VFun (df_function d)); VBytes data] = returned results (df_decode_output d data)).
Proof.
  intros D. pose proof (@derive_function_inv p f d D) as (A & P & Fd & B & Mo & (tok & Tok & Enc) & (fs & Fs & Dec)).
  pose proof (arguments_no_tuples _ A) as NA. pose proof (plain_no_tuples _ P) as NP.
  assert (Na : exists names module, input_names (f_inputs f) = Ok names /\ ident (to_snake_case (f_name f)) = Ok module /\ declarable (lit "f" :: lit "function" :: names) = true).
  { unfold derive_function in D. apply bind_ok in D as (names & En & D). do 7 apply bind_ok in D as (? & _ & D). apply bind_ok in D as (m & Em & D). apply bind_ok in D as (u & Ec & _).
    apply check_ok in Ec as [ Ec _ ]. apply andb_true_iff in Ec as [ Ec _ ]. apply andb_true_iff in Ec as [ _ Ec ]. eauto. }
  destruct Na as (names & module & En & Em & Dc).
  destruct (bounds_tree_exists _ NA) as [ bounds Eb ]. destruct (@all_exist _ _ p_kind (fun q => type_tree (p_kind q)) (f_inputs f)) as [ kinds Ek ]; [ intros; apply type_tree_exists; assumption | exact NA | ].
  destruct (tokenize_tree_exists names _ NA) as [ tokenize Et ]. destruct (output_tree_exists _ NP) as [ result Er ]. destruct (decode_tree_exists _ NP) as [ body Eo ].
  destruct (params_tree_exists _ NA) as [ inputs Ei ]. destruct (params_tree_exists _ NP) as [ outputs Eu ].
  exists inputs, outputs, result, body, bounds, names, tokenize. cbn zeta. split.
  { unfold function_tree. rewrite En. cbn [bind]. rewrite Eb. cbn [bind]. rewrite Ek. cbn [bind]. rewrite Et. cbn [bind]. rewrite Er. cbn [bind]. rewrite Eo. cbn [bind].
    rewrite Ei. cbn [bind]. rewrite Eu. cbn [bind]. rewrite Em. cbn [bind]. rewrite Mo. apply ident_ok in Em as [ -> _ ]. reflexivity. }
  set (items := function_items f inputs outputs result body bounds names tokenize).
  assert (Ln : length names = length (f_inputs f)) by (eapply DeriveTextFacts.input_names_length; exact En).
  apply declarable_iff in Dc as [ ND KW ]. pose proof (@input_names_lower _ _ En) as UP. pose proof (bounds_tree_ok _ Eb) as Bo. rewrite A in Bo.
  assert (R1 : forall n, call p (S n) items [lit "function"] [] = Done (VFun (df_function d))).
  { intros n. cbn [call]. change (resolve items [lit "function"] []) with (Some (@inl fn str (fn_function f inputs outputs))). cbn iota. rewrite Fd. apply run_function; assumption. }
  assert (R2 : forall n, call p (S n) items [lit "Decoder"] [VFun (df_function d)] = Done (VNewtype (lit "Decoder") (VFun (df_function d)))) by reflexivity.
  assert (R3 : forall n data, call p (S n) items (segments ["ethabi"; "FunctionOutputDecoder"; "decode"]%string) [VNewtype (lit "Decoder") (VFun (df_function d)); VBytes data] =
    returned results (df_decode_output d data)).
  { intros n data. cbn [call]. change (resolve items (segments ["ethabi"; "FunctionOutputDecoder"; "decode"]%string) [VNewtype (lit "Decoder") (VFun (df_function d)); VBytes data])
      with (Some (@inl fn str (fn_decode body))). cbn iota. rewrite Dec. exact (@run_decode p (call p n items) (df_function d) data _ _ _ Eo P Fs). }
  split; [ exact Eb | split; [ exact Er | split; [ exact En | ] ] ].
  intros n. split; [ apply R1 | split; [ | split; [ | apply R3 ] ] ].
  - intros args M. apply (@derived_arguments p f d args D) in M as [ xs M ]. rewrite Enc, (DeriveCalls.tokenize_ok _ Tok A M). cbn [bind]. split.
    + change (call p (S (S n)) items [lit "encode_input"] (map inj args)) with (run_fn p (call p (S n) items) (fn_encode_input bounds names tokenize) (map inj args)).
      eapply run_encode; eauto.
    + change (call p (S (S n)) items [lit "call"] (map inj args)) with (run_fn p (call p (S n) items) (fn_call bounds names tokenize) (map inj args)).
      eapply run_call; eauto.
  - rewrite <- (R3 n data).
    change (call p (S (S n)) items [lit "decode_output"] [VBytes data]) with (run_fn p (call p (S n) items) (fn_decode_output result) [VBytes data]).
    unfold run_fn. replace (fn_correct (fn_decode_output result)) with true; [ | unfold fn_correct; cbn; rewrite (output_tree_ok _ Er P); reflexivity ].
    cbn [fn_decode_output fn_self fn_params fn_body fn_result app map fst snd List.length combine Nat.eqb andb].
    set (s := [(lit "output", false, VBytes data)]).
    change (eval p (call p (S n) items) (EBlock [] ?e) s) with (obind (eval p (call p (S n) items) e s) (fun r => Done (fst r, leave s (snd r)))).
    set (c := call p (S n) items).
    assert (E1 : eval p c (ECall [lit "function"] []) s = Done (VFun (df_function d), s)).
    { change (eval p c (ECall [lit "function"] []) s) with (obind (c [lit "function"] []) (fun v => Done (v, s))). unfold c. rewrite R1. reflexivity. }
    assert (E2 : eval p c (ECall [lit "Decoder"] [ECall [lit "function"] []]) s = Done (VNewtype (lit "Decoder") (VFun (df_function d)), s)).
    { change (eval p c (ECall [lit "Decoder"] [ECall [lit "function"] []]) s) with
        (obind (seqM (eval p c) [ECall [lit "function"] []] s) (fun r =>
           obind (match builtin [lit "Decoder"] (fst r) with Some o => o | None => c [lit "Decoder"] (fst r) end) (fun v => Done (v, snd r)))).
      rewrite (@seq1 p c _ _ _ _ E1). cbn [obind fst snd]. reflexivity. }
    change (eval p c (ECall ?q [ERef ?a; ?b]) s) with (obind (obind (eval p c a s) (fun r => obind (seqM (eval p c) [b] (snd r)) (fun rs => Done (fst r :: fst rs, snd rs)))) (fun r =>
           obind (match builtin q (fst r) with Some o => o | None => c q (fst r) end) (fun v => Done (v, snd r)))).
    rewrite E2. cbn [obind fst snd]. change (seqM (eval p c) [name "output"] s) with (@Done (list val * env) ([VBytes data], s)). cbn [obind fst snd].
    change (builtin (ethabi ["FunctionOutputDecoder"; "decode"]%string) [VNewtype (lit "Decoder") (VFun (df_function d)); VBytes data]) with (@None (out val)). cbn iota.
    unfold c. change (ethabi ["FunctionOutputDecoder"; "decode"]%string) with (segments ["ethabi"; "FunctionOutputDecoder"; "decode"]%string). rewrite !R3.
    destruct (df_decode_output d data); reflexivity.
Qed.

(** ** Constructors *)
Lemma block2 c x1 e1 x2 e2 k s v1 s1 v2 s2 : eval p c e1 s = Done (v1, s1) -> eval p c e2 (bind_name x1 v1 s1) = Done (v2, s2) ->
  eval p c (EBlock [(x1, e1); (x2, e2)] k) s = obind (eval p c k (bind_name x2 v2 s2)) (fun r => Done (fst r, leave s (snd r))).
Proof. intros E1 E2. cbn [eval fst snd]. rewrite E1. cbn [obind fst snd]. rewrite E2. reflexivity. Qed.
Lemma constructor_runs k d : derive_constructor p k = Ok d -> exists bounds names inputs tokenize,
  let item := IFn (fn_constructor bounds names inputs tokenize) in
  constructor_tree k = Ok item /\ bounds_tree (k_inputs k) = Ok bounds /\ input_names (k_inputs k) = Ok names /\ forall n code args, Forall2 meets (dk_bounds d) args ->
  call p (S n) [item] [lit "constructor"] (VBytes code :: map inj args) = plainly VBytes (dk_encode d code args).
Proof.
  intros D. pose proof (@derive_constructor_inv p k d D) as (A & Kd & B & (tok & Tok & Enc)). pose proof (arguments_no_tuples _ A) as NA.
  assert (Na : exists names, input_names (k_inputs k) = Ok names /\ declarable (lit "c" :: lit "code" :: names) = true).
  { unfold derive_constructor in D. apply bind_ok in D as (names & En & D). do 4 apply bind_ok in D as (? & _ & D). apply bind_ok in D as (u & Ec & _).
    apply check_ok in Ec as [ Ec _ ]. apply andb_true_iff in Ec as [ _ Ec ]. eauto. }
  destruct Na as (names & En & Dc).
  destruct (bounds_tree_exists _ NA) as [ bounds Eb ]. destruct (@all_exist _ _ p_kind (fun q => type_tree (p_kind q)) (k_inputs k)) as [ kinds Ek ]; [ intros; apply type_tree_exists; assumption | exact NA | ].
  destruct (tokenize_tree_exists names _ NA) as [ tokenize Et ]. destruct (params_tree_exists _ NA) as [ inputs Ei ].
  exists bounds, names, inputs, tokenize. cbn zeta. split.
  { unfold constructor_tree. rewrite En. cbn [bind]. rewrite Eb. cbn [bind]. rewrite Ek. cbn [bind]. rewrite Et. cbn [bind]. rewrite Ei. reflexivity. }
  assert (Ln : length names = length (k_inputs k)) by (eapply DeriveTextFacts.input_names_length; exact En).
  apply declarable_iff in Dc as [ ND KW ]. pose proof (@input_names_lower _ _ En) as UP. pose proof (bounds_tree_ok _ Eb) as Bo. rewrite A in Bo.
  inversion ND as [ | ? ? N1 ND1 ]; subst. inversion KW as [ | ? ? _ KW1 ]; subst.
  split; [ exact Eb | split; [ exact En | ] ].
  intros n code args M. apply (@arguments_exist _ _ _ B A) in M as [ xs M ]. rewrite Enc, (DeriveCalls.tokenize_ok _ Tok A M). cbn [bind].
  cbn [call]. change (resolve [IFn (fn_constructor bounds names inputs tokenize)] [lit "constructor"] (VBytes code :: map inj args)) with (Some (@inl fn str (fn_constructor bounds names inputs tokenize))). cbn iota.
  set (c := call p n _).
  assert (Co : fn_correct (fn_constructor bounds names inputs tokenize) = true).
  { apply (@correct_params _ _ bounds names [(lit "code", ethabi_ty "Bytes")] (ethabi_ty "Bytes") false); [ exact ND1 | exact KW1 | exact Bo | reflexivity | reflexivity ]. }
  unfold run_fn. rewrite Co. cbn [fn_constructor fn_self fn_params fn_body fn_result app map fst]. rewrite typed_names. cbn [List.length Nat.eqb].
  rewrite (argument_length names _ Ln M), Nat.eqb_refl. cbn [andb].
  change (map (fun x : str * val => (fst x, false, snd x)) (combine (lit "code" :: names) (VBytes code :: map inj args))) with (params_env (lit "code" :: names) (VBytes code :: map inj args)).
  set (s := params_env (lit "code" :: names) (VBytes code :: map inj args)).
  assert (Up : forall x, str_eqb x (lit "code") = false -> (exists k, In k x /\ is_upper k = true) -> lookup s x = None).
  { intros x Nx H. apply lookup_absent. intros [ <- | I ]; [ rewrite str_eqb_refl in Nx; discriminate | ]. exact (@upper_absent _ _ UP H I). }
  rewrite (@block2 c _ _ _ _ _ s (VCtor (dk_constructor d)) s (VVec (map VTok xs)) ((lit "c", false, VCtor (dk_constructor d)) :: s)).
  - cbn [bind_name]. set (s' := _ :: _ :: s). assert (Cl : clean s') by (change (lookup s (lit "INTERNAL_ERR") = None); apply Up; [ reflexivity | exists 73; split; [ left; reflexivity | reflexivity ] ]).
    erewrite ev_expecting_result with (f := VBytes) (r := constructor_encode_input p (dk_constructor d) code xs) (s' := s'); [ | | exact Cl ].
    + destruct (constructor_encode_input p (dk_constructor d) code xs); reflexivity.
    + erewrite ev_method with (v := VCtor (dk_constructor d)) (vs := [VBytes code; VVec (map VTok xs)]) (s1 := s') (s2 := s'); [ | reflexivity | reflexivity ].
      unfold invoke. change (mutating (lit "encode_input")) with false. cbn iota.
      change (RustEval.method p (VCtor (dk_constructor d)) (lit "encode_input") [VBytes code; VVec (map VTok xs)]) with
        (match reads as_token (map VTok xs) with Some ts => returned VBytes (constructor_encode_input p (dk_constructor d) code ts) | None => Stuck end).
      rewrite (reads_map as_token VTok) by reflexivity. reflexivity.
  - pose proof (proj2 (DeriveCalls.param_vec_ok _ _) (conj eq_refl NA)) as Vi.
    rewrite (@ev_struct_trailing p c _ _ s [(lit "inputs", VVec (map VParam (map strip (k_inputs k))))]).
    + change (struct (ethabi ["Constructor"%string]) _) with
        (match reads as_param (map VParam (map strip (k_inputs k))) with Some i' => Done (VCtor (mkConstructor i')) | None => Stuck end).
      rewrite (reads_map as_param VParam) by reflexivity. rewrite Kd. reflexivity.
    + constructor; [ split; [ reflexivity | ] | constructor ]. cbn [snd]. apply (@ev_params p c _ _ _ Ei Vi). apply Up; [ reflexivity | exists 78; split; [ left; reflexivity | reflexivity ] ].
  - cbn [bind_name eval]. erewrite ev_tokenize; [ reflexivity | exact Et | exact Ln | exact M | ]. intros m v I. cbn [lookup]. destruct (str_eqb m (lit "c")) eqn:E.
    + apply str_eqb_eq in E. subst m. exfalso. apply N1. right. eapply in_combine_l. exact I.
    + apply lookup_params; [ exact ND1 | right; exact I ].
Qed.
End Profile.

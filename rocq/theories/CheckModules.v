(** * Checking generated modules of functions, and constructors *)
From Verif Require Import Base BaseFacts StrFacts Types TypeNames Tokenizer AbiSpec Function Event EventSpec Contract Heck Derive DeriveSpec DeriveFacts DeriveCalls DeriveEvents DeriveAccepts
  FilterFacts RustSyntax DeriveTree RustEval GeneratedSpec DeriveRun DeriveModules DeriveLogs DeriveGenerated RustCheck CheckFacts CheckCalls.
From Coq Require Import String Lia.
Set Implicit Arguments.
Notation length := List.length.
Notation obind := RustCheck.obind.
Notation tmethod := DeriveTree.method.
Local Open Scope N_scope.
Local Open Scope list_scope.

(** ** Bodies that write tokens *)
Section Body.
Context (c : ctx) (gs : list generic) (ret : rt).
Notation inf := (infer c gs ret).
Context (G : NoDup (map generic_name gs)) (V : seen c (vars gs)).
Context (inputs : list Param) (names : list str) (es : list expr) (L : length names = length inputs) (P : provided gs 0 inputs) (Et : tokenize_tree names inputs = Ok es) (ND : NoDup names)
  (A : forallb argument_type (map p_kind inputs) = true).
Context (s : tenv) (Es : forall i n, nth_error names i = Some n -> tlookup s n = Some (false, SVar (T i), true)).
Context (x : str) (t0 : rt) (e0 : expr) (E0 : inf e0 true s = Some (t0, s)).
Lemma block_two b2 e2 e own : inf (EBlock [(Let x, e0); (Let b2, e2)] e) own s =
  obind (inf e2 true ((x, false, t0, true) :: s)) (fun '(t2, s2) => obind (inf e true ((b2, false, t2, true) :: s2)) (fun '(t, s3) => Some (t, tleave s s3))).
Proof.
  cbn [infer snd fst]. rewrite E0. cbn [obind tbind]. destruct (inf e2 true ((x, false, t0, true) :: s)) as [[t2 s2]|]; reflexivity.
Qed.
Lemma body_checked e own : ~ In x names -> exists r s', (r = SToken \/ r = SAny) /\ length s' = S (length s) /\
  inf (EBlock [(Let x, e0); (Let (lit "tokens"), EVec es)] e) own s = obind (inf e true ((lit "tokens", false, SVec r, true) :: s')) (fun '(t, s3) => Some (t, tleave s s3)) /\
  tlookup s' x = Some (false, t0, true) /\ forall y, y <> x -> ~ In y names -> tlookup s' y = tlookup s y.
Proof.
  intros N. rewrite block_two. destruct (@inf_tokens c gs ret G V inputs 0 names es true ((x, false, t0, true) :: s) A L P Et ND) as (s' & r & Q & R & Ls & K).
  { intros i n H. exists false. cbn [tlookup]. rewrite str_neqb; [exact (Es i H)|]. intros ->. apply N. eapply nth_error_In, H. }
  exists r, s'. split; [exact R|]. split; [exact Ls|]. rewrite Q. split; [reflexivity|]. split.
  - rewrite K by exact N. cbn [tlookup]. now rewrite str_eqb_refl.
  - intros y Ny Iy. rewrite K by exact Iy. cbn [tlookup]. now rewrite str_neqb.
Qed.
Lemma body_hidden e own : In x names -> into c gs t0 = None -> items_of gs t0 = None -> inf (EBlock [(Let x, e0); (Let (lit "tokens"), EVec es)] e) own s = None.
Proof.
  intros I J K. rewrite block_two. cbn [infer].
  rewrite (@seq_hidden c gs ret G V inputs A 0 names es ((x, false, t0, true) :: s) x false t0); auto.
  - cbn [tlookup]. now rewrite str_eqb_refl.
  - intros i n H Nx. exists false. cbn [tlookup]. rewrite str_neqb by exact Nx. exact (Es i H).
Qed.
End Body.
(** ** Functions *)
Definition function_items (f : Function) (inputs outputs : expr) (result : RustSyntax.ty) (implementation : list (binder * expr) * expr) (bounds : list generic) (names : list str) (tokenize : list expr) : list item :=
  uses ++ [
    IFn (fn_function f inputs outputs);
    INewtype (lit " Generic function output decoder.") (lit "Decoder") (ethabi_ty "Function");
    IImpl (ethabi ["FunctionOutputDecoder"%string]) (lit "Decoder") (lit "Output") result (fn_decode implementation);
    IFn (fn_encode_input bounds names tokenize);
    IFn (fn_decode_output result);
    IFn (fn_call bounds names tokenize)].
Section Module.
Context (f : Function) (inputs outputs : expr) (result : RustSyntax.ty) (implementation : list (binder * expr) * expr) (bounds : list generic) (names : list str) (tokenize : list expr).
Notation items := (function_items f inputs outputs result implementation bounds names tokenize).
Context (here : path) (root : list item).
Notation c := (mkCtx here items root true).
Context (En : input_names (f_inputs f) = Ok names) (Eb : bounds_tree (f_inputs f) = Ok bounds) (Et : tokenize_tree names (f_inputs f) = Ok tokenize)
  (Er : output_tree (f_outputs f) = Ok result) (Ei : decode_tree (f_outputs f) = Ok implementation) (Ein : params_tree (f_inputs f) = Ok inputs) (Eout : params_tree (f_outputs f) = Ok outputs).
Lemma locals x : In x ["bool"; "u8"; "String"; "Vec"; "Box"; "str"]%string -> local_type (lit x) items = false.
Proof. intros I. cbn [In] in I. repeat (destruct I as [<-|I]; [reflexivity|]). destruct I. Qed.
Lemma names_length : length names = length (f_inputs f).
Proof. apply input_names_iff in En as [[N _] _]. exact N. Qed.
Lemma names_absent x : (exists u, In u x /\ is_upper u = true) -> ~ In x names.
Proof. apply upper_absent. exact (input_names_lower _ En). Qed.
Lemma function_checked : fn_ok c None (fn_function f inputs outputs) = true.
Proof.
  unfold fn_ok, fn_function. cbn [generics_of fn_generics map names_ok distinct existsb negb andb forallb fn_params fn_name fn_ret fn_self fn_body fn_result mapO app option_map].
  change (rt_of c [] None (ethabi_ty "Function")) with (Some SFunction). cbv iota.
  destruct (@inf_params c [] SFunction _ _ true [] Ein eq_refl) as (r & E1 & R1). destruct (@inf_params c [] SFunction _ _ true [] Eout eq_refl) as (r' & E2 & R2).
  cbn [infer snd fst seqO]. change (infer c [] SFunction (tmethod (EStr (f_name f)) "into") true []) with (Some (SInto (SRef SStr), [] : tenv)). cbn [obind]. rewrite E1. cbn [obind]. rewrite E2. cbn [obind].
  assert (M : infer c [] SFunction (mutability_tree (f_state_mutability f)) true [] = Some (SMutability, [])) by (destruct (f_state_mutability f); reflexivity).
  rewrite M. cbn [obind]. destruct R1 as [-> | ->], R2 as [-> | ->]; reflexivity.
Qed.

Lemma bounds_parts : NoDup (map generic_name bounds) /\ Forall (own 0) bounds /\ provided bounds 0 (f_inputs f) /\ seen c (vars bounds) /\
  forallb (generic_ok c bounds) bounds = forallb argument_type (map p_kind (f_inputs f)).
Proof.
  pose proof Eb as E. unfold bounds_tree, mapi in E. apply bind_ok in E as (r & E & Q). injection Q as Q. destruct (bounds_names _ _ E) as (N & O & I). rewrite Q in *.
  assert (V : seen c (vars bounds)) by (apply own_seen; [exact O|exact locals]). repeat (split; [assumption|]). transitivity (forallb (generic_ok c bounds) (List.concat r)); [now rewrite Q|]. apply bounds_generics with (2 := E); [exact V|]. rewrite Q. intros g H. exact H.
Qed.
Lemma typed_names l : forall k, map fst (mapi_from (fun index (n : str) => (n, TyName [numbered (lit "T") index] [])) k l) = l.
Proof. induction l as [|n l IH]; intros k; cbn [mapi_from map fst]; [reflexivity|]. now rewrite IH. Qed.
Lemma generic_fn doc x y r body e : rt_of c (vars bounds) None y = Some r -> keyword x = false ->
  fn_ok c None (mkFn doc true x (Some bounds) false (typed names) y body e) =
  forallb argument_type (map p_kind (f_inputs f)) && names_ok names && match infer c bounds r (EBlock body e) true (env 0 names) with Some (t, _) => fits t r | None => false end.
Proof.
  intros R K. destruct bounds_parts as (N & O & P & V & B). unfold fn_ok. cbn [generics_of fn_generics fn_params fn_name fn_ret fn_self fn_body fn_result option_map].
  rewrite (own_vars N O), B. cbn [andb]. unfold typed, mapi. rewrite typed_names. unfold DeriveTree.ty in *.
  rewrite (@params_env c bounds None (f_inputs f) 0 names names_length P). rewrite (R : rt_of c (map generic_var bounds) None y = _), K. cbn [negb app]. rewrite andb_true_r. reflexivity.
Qed.
Lemma inf_function gs r own s : tlookup s (lit "function") = None -> infer c gs r (ECall [lit "function"] []) own s = Some (SFunction, s).
Proof. intros N. cbn [infer seqO]. rewrite N. reflexivity. Qed.
Lemma f_not_function : lit "f" <> lit "function". Proof. discriminate. Qed.
Definition conditions : Prop := forallb argument_type (map p_kind (f_inputs f)) = true /\ NoDup (lit "f" :: lit "function" :: names) /\ Forall (fun x => keyword x = false) names.
Lemma encode_refused : fn_ok c None (fn_encode_input bounds names tokenize) = true -> conditions.
Proof.
  unfold fn_encode_input. rewrite generic_fn with (r := SVec SU8) by reflexivity. rewrite !andb_true_iff, names_ok_iff. intros [[A [ND K]] H].
  destruct bounds_parts as (N & O & P & V & _). split; [exact A|]. split; [|exact K]. unfold encoding in H.
  assert (NF : ~ In (lit "function") names).
  { intros I. apply In_nth_error in I as [i I]. pose proof (@env_found names ND 0 i _ I) as X. cbn [infer snd fst] in H. rewrite X in H. discriminate. }
  constructor; [|constructor; assumption]. intros [X|X]; [discriminate|].
  rewrite (@body_hidden c bounds (SVec SU8) N V (f_inputs f) names tokenize names_length P Et ND A (env 0 names)) with (t0 := SFunction) in H; try discriminate; auto.
  - intros i n Q. rewrite (@env_found names ND 0 i n Q). reflexivity.
  - apply inf_function. now apply env_absent.
Qed.
Lemma encoding_checked gs r own e : conditions -> gs = bounds -> exists q s', (q = SToken \/ q = SAny) /\
  infer c gs r (EBlock (encoding tokenize) e) own (env 0 names) = obind (infer c gs r e true ((lit "tokens", false, SVec q, true) :: s')) (fun '(t, s3) => Some (t, tleave (env 0 names) s3)) /\
  tlookup s' (lit "f") = Some (false, SFunction, true) /\ unnamed s' /\ tlookup s' (lit "Decoder") = None.
Proof.
  intros (A & ND & K) ->. destruct bounds_parts as (N & O & P & V & _). inversion ND as [|? ? N1 ND1]; subst. inversion ND1 as [|? ? N2 ND2]; subst.
  destruct (@body_checked c bounds r N V (f_inputs f) names tokenize names_length P Et ND2 A (env 0 names)) with (x := lit "f") (t0 := SFunction) (e0 := ECall [lit "function"] []) (e := e) (own := own) as (q & s' & Q & Ls & H & F & Y).
  - intros i n X. rewrite (@env_found names ND2 0 i n X). reflexivity.
  - apply inf_function. now apply env_absent.
  - intros I. apply N1. now right.
  - exists q, s'. split; [exact Q|]. split; [exact H|]. split; [exact F|].
    split; [unfold unnamed|]; (rewrite Y; [apply env_absent| |]); try discriminate; apply names_absent; [exists 73|exists 73|exists 68|exists 68]; (split; [cbn; auto|reflexivity]).
Qed.
Lemma inf_encoded gs r own q s : q = SToken \/ q = SAny -> tlookup s (lit "f") = Some (false, SFunction, true) -> unnamed s ->
  infer c gs r encoded own ((lit "tokens", false, SVec q, true) :: s) = Some (SVec SU8, (lit "tokens", false, SVec q, true) :: s).
Proof.
  intros Q F U. apply inf_expecting with (t := SResult (SVec SU8)); auto. unfold name. cbn [infer seqO]. cbn [tlookup]. change (str_eqb (lit "f") (lit "tokens")) with false. cbv iota. rewrite F.
  change (negb (borrowing (lit "encode_input"))) with false. cbn [andb obind]. change (str_eqb (lit "encode_input") (lit "map")) with false. cbv iota. cbn [tlookup]. rewrite str_eqb_refl. cbn [andb obind].
  destruct Q as [-> | ->]; reflexivity.
Qed.
Lemma encode_checked : conditions -> fn_ok c None (fn_encode_input bounds names tokenize) = true.
Proof.
  intros C. unfold fn_encode_input. rewrite generic_fn with (r := SVec SU8) by reflexivity. destruct (@encoding_checked bounds (SVec SU8) true encoded C eq_refl) as (q & s' & Q & H & F & U & _).
  rewrite H, inf_encoded by assumption. destruct C as (A & ND & K). rewrite A. rewrite (proj2 (names_ok_iff names)); [reflexivity|]. split; [|exact K]. now inversion ND as [|? ? ? ND1]; inversion ND1.
Qed.
Lemma call_checked : conditions -> fn_ok c None (fn_call bounds names tokenize) = true.
Proof.
  intros C. destruct bounds_parts as (_ & O & _).
  assert (D : existsb (str_eqb (lit "Decoder")) (vars bounds) = false).
  { destruct (existsb _ _) eqn:E; [|reflexivity]. apply existsb_exists in E as (y & J & Q). apply str_eqb_eq in Q. subst y. unfold vars in J. apply in_map_iff in J as (g & Q & J).
    rewrite Forall_forall in O. destruct (O g J) as (i & _ & X). unfold generic_name in X. unfold generic_var in Q. rewrite Q in X. destruct X; discriminate. }
  unfold fn_call. rewrite generic_fn with (r := STuple [SVec SU8; SLocal (here ++ [lit "Decoder"])]); [| |reflexivity].
  2:{ cbn [rt_of mapO]. change (rt_of c (vars bounds) None (ethabi_ty "Bytes")) with (Some (SVec SU8)). cbn [obind]. change (rt_of c (vars bounds) None (ty "Decoder")) with (plain_name c (vars bounds) None [lit "Decoder"]).
      cbn [plain_name]. rewrite D. reflexivity. }
  set (r := STuple _). destruct (@encoding_checked bounds r true (ETuple [encoded; ECall [lit "Decoder"] [name "f"]]) C eq_refl) as (q & s' & Q & H & F & U & X). rewrite H. cbn [infer seqO]. rewrite inf_encoded by assumption. cbn [obind].
  cbn [tlookup]. change (str_eqb (lit "Decoder") (lit "tokens")) with false. cbv iota. rewrite X. unfold name at 1. cbn [infer tlookup]. change (str_eqb (lit "f") (lit "tokens")) with false. cbv iota. rewrite F. cbn [RustCheck.copied negb andb obind].
  change (call_type c [lit "Decoder"] [SFunction]) with (Some (SLocal (here ++ [lit "Decoder"]))). cbn [obind]. unfold r.
  assert (Z : fits (STuple [SVec SU8; SLocal (here ++ [lit "Decoder"])]) (STuple [SVec SU8; SLocal (here ++ [lit "Decoder"])]) = true) by (cbn [fits]; rewrite path_eqb_refl; reflexivity).
  rewrite Z. destruct C as (A & ND & K). rewrite A. rewrite (proj2 (names_ok_iff names)); [reflexivity|]. split; [|exact K]. now inversion ND as [|? ? ? ND1]; inversion ND1.
Qed.
(** *** Outputs *)
Definition out_rt (l : list ParamType) : rt := match l with [] => SUnit | [k] => srt k | _ => STuple (map srt l) end.
Lemma seen_none : seen c [].
Proof. intros x I. split; [exact (@locals x I)|reflexivity]. Qed.
Lemma rt_types self l ys : mapM (fun q : Param => type_tree (p_kind q)) l = Ok ys -> mapO (rt_of c [] self) ys = if forallb plain_type (map p_kind l) then Some (map srt (map p_kind l)) else None.
Proof.
  intros E. apply mapM_ok in E. induction E as [|q y l ys Y _ IH]; [reflexivity|]. rewrite mapO_cons, (rt_type self _ seen_none Y), IH. cbn [map forallb]. destruct (plain_type (p_kind q)), (forallb plain_type (map p_kind l)); reflexivity.
Qed.
Lemma rt_result : rt_of c [] None result = if forallb plain_type (map p_kind (f_outputs f)) then Some (out_rt (map p_kind (f_outputs f))) else None.
Proof.
  unfold output_tree in Er. destruct (f_outputs f) as [|x [|x' l]].
  - injection Er as <-. reflexivity.
  - rewrite (rt_type None _ seen_none Er). cbn [map forallb out_rt]. now rewrite andb_true_r.
  - apply bind_ok in Er as (ys & Y & E). injection E as E. pose proof (rt_types None _ Y) as H. apply mapM_ok in Y.
    destruct ys as [|y1 [|y2 ys2]]; [inversion Y|inversion Y as [|? ? ? ? _ Y1]; inversion Y1|]. transitivity (rt_of c [] None (TyTuple (y1 :: y2 :: ys2))); [now rewrite E|].
    change (rt_of c [] None (TyTuple (y1 :: y2 :: ys2))) with (obind (mapO (rt_of c [] None) (y1 :: y2 :: ys2)) (fun ss => Some (STuple ss))). rewrite H.
    destruct (forallb plain_type (map p_kind (x :: x' :: l))); reflexivity.
Qed.
Lemma fits_tuple l l' : fits (STuple l) (STuple l') = fit_all l l'.
Proof. cbn [fits]. revert l'. induction l as [|t l IH]; intros [|t' l']; reflexivity || (cbn [fit_all]; rewrite <- IH; reflexivity). Qed.
Lemma fit_srt l : forallb plain_type l = true -> fit_all (map srt l) (map srt l) = true.
Proof. induction l as [|t l IH]; cbn [forallb map fit_all]; intros P; [reflexivity|]. apply andb_true_iff in P as [P1 P2]. rewrite fits_refl_srt, IH by assumption. reflexivity. Qed.
Lemma fit_frt l : forallb plain_type l = true -> fit_all (map frt l) (map srt l) = true.
Proof. induction l as [|t l IH]; cbn [forallb map fit_all]; intros P; [reflexivity|]. apply andb_true_iff in P as [P1 P2]. rewrite frt_fits, IH by assumption. reflexivity. Qed.
Lemma fits_out l : forallb plain_type l = true -> fits (out_rt l) (out_rt l) = true.
Proof.
  intros P. destruct l as [|x [|x' l]]; [reflexivity| |].
  - cbn [out_rt]. apply fits_refl_srt. cbn [forallb] in P. now rewrite andb_true_r in P.
  - cbn [out_rt]. rewrite fits_tuple. now apply fit_srt.
Qed.
Lemma removelast_here x : removelast (here ++ [x]) = here.
Proof. rewrite removelast_app by discriminate. apply app_nil_r. Qed.
Lemma inf_decoder gs r own s : tlookup s (lit "function") = None -> tlookup s (lit "Decoder") = None ->
  infer c gs r (ECall [lit "Decoder"] [ECall [lit "function"] []]) own s = Some (SLocal (here ++ [lit "Decoder"]), s).
Proof.
  intros N D. change (infer c gs r (ECall [lit "Decoder"] [ECall [lit "function"] []]) own s) with
    (match tlookup s (lit "Decoder") with Some _ => None | None => obind (seqO (fun e s => infer c gs r e true s) [ECall [lit "function"] []] s) (fun '(ts, s1) => obind (call_type c [lit "Decoder"] ts) (fun t => Some (t, s1))) end).
  rewrite D. cbn [seqO]. rewrite inf_function by exact N. reflexivity.
Qed.
Lemma decode_output_checked : forallb plain_type (map p_kind (f_outputs f)) = true -> fn_ok c None (fn_decode_output result) = true.
Proof.
  intros P. pose proof rt_result as R. rewrite P in R. unfold fn_ok, fn_decode_output. cbn [generics_of fn_generics map names_ok distinct existsb negb andb forallb fn_params fn_name fn_ret fn_self fn_body fn_result mapO app option_map fst snd].
  change (keyword (lit "output")) with false. change (keyword (lit "decode_output")) with false. cbn [orb negb andb].
  change (rt_of c [] None slice) with (Some (SRef (SSlice SU8))). cbn [obind].
  change (rt_of c [] None (TyName (ethabi ["Result"%string]) [result])) with (obind (rt_of c [] None result) (fun s => Some (SResult s))). rewrite R. cbn [obind].
  set (s := [(lit "output", false, SRef (SSlice SU8), true)]). set (r := SResult _).
  assert (H : infer c [] r (ECall (ethabi ["FunctionOutputDecoder"; "decode"]%string) [ERef (ECall [lit "Decoder"] [ECall [lit "function"] []]); name "output"]) true s = Some (r, s)).
  { set (d := ECall [lit "Decoder"] [ECall [lit "function"] []]). unfold ethabi. cbn [segments map infer seqO]. unfold d. rewrite inf_decoder by reflexivity. cbn [obind].
    change (infer c [] r (name "output") true s) with (Some (SRef (SSlice SU8), s)). cbn [obind].
    assert (CT : call_type c [lit "ethabi"; lit "FunctionOutputDecoder"; lit "decode"] [SRef (SLocal (here ++ [lit "Decoder"])); SRef (SSlice SU8)] = Some r).
    { change (call_type c [lit "ethabi"; lit "FunctionOutputDecoder"; lit "decode"] [SRef (SLocal (here ++ [lit "Decoder"])); SRef (SSlice SU8)]) with
        (match here ++ [lit "Decoder"] with [] => None | _ :: _ => if path_eqb (removelast (here ++ [lit "Decoder"])) here && true then obind (output_of c (last (here ++ [lit "Decoder"]) [])) (fun u => Some (SResult u)) else None end).
      rewrite removelast_here, last_last, path_eqb_refl. cbn [andb]. change (output_of c (lit "Decoder")) with (rt_of c [] None result). rewrite R. destruct here; reflexivity. }
    rewrite CT. reflexivity. }
  change (infer c [] r (EBlock [] (ECall (ethabi ["FunctionOutputDecoder"; "decode"]%string) [ERef (ECall [lit "Decoder"] [ECall [lit "function"] []]); name "output"])) true s) with
    (obind (infer c [] r (ECall (ethabi ["FunctionOutputDecoder"; "decode"]%string) [ERef (ECall [lit "Decoder"] [ECall [lit "function"] []]); name "output"]) true s) (fun '(t, s1) => Some (t, tleave s s1))).
  rewrite H. cbn [obind]. unfold r. cbn [fits]. now apply fits_out.
Qed.
Notation decoder := (SLocal (here ++ [lit "Decoder"])).
Definition decode_env : tenv := [(lit "self", false, SRef decoder, true); (lit "output", false, SRef (SSlice SU8), true)].
Lemma inf_decoded u own : infer c [] (SResult u) decoded own decode_env = Some (SIter SToken, decode_env).
Proof.
  assert (F : first_type c (SRef decoder) = Some SFunction).
  { change (first_type c (SRef decoder)) with
      (match here ++ [lit "Decoder"] with [] => None | _ :: _ => if path_eqb (removelast (here ++ [lit "Decoder"])) here then obind (newtype_of (last (here ++ [lit "Decoder"]) []) items) (fun y => rt_of c [] None y) else None end).
    rewrite removelast_here, last_last, path_eqb_refl. destruct here; reflexivity. }
  apply inf_method0 with (t := SVec SToken); try reflexivity. cbn [infer]. change (negb (borrowing (lit "decode_output"))) with false.
  change (infer c [] (SResult u) (name "self") false decode_env) with (Some (SRef decoder, decode_env)). cbn [obind]. rewrite F. reflexivity.
Qed.
Lemma inf_next u own : infer c [] (SResult u) (expecting (tmethod decoded "next")) own decode_env = Some (SToken, decode_env).
Proof.
  apply inf_expecting with (t := SOption SToken); auto; [|reflexivity]. set (d := decoded). unfold tmethod. cbn [infer seqO]. change (negb (borrowing (lit "next"))) with false. unfold d. rewrite inf_decoded. reflexivity.
Qed.
Lemma out_next r s : tlookup s (lit "out") = Some (true, SIter SToken, true) -> unnamed s -> provides c [] r (expecting (tmethod (name "out") "next")) s (fun _ => s).
Proof.
  intros O N pre own R. assert (N' : unnamed (pre ++ s)) by (unfold unnamed; rewrite results_lookup by (exact R || reflexivity); exact N).
  apply inf_expecting with (t := SOption SToken); auto. unfold tmethod, name. cbn [infer seqO]. change (negb (borrowing (lit "next"))) with false. rewrite results_lookup by (exact R || reflexivity). rewrite O. reflexivity.
Qed.
Lemma inf_tuple gs r e1 e2 es own s : infer c gs r (ETuple (e1 :: e2 :: es)) own s = obind (seqO (fun e s => infer c gs r e true s) (e1 :: e2 :: es) s) (fun '(ts, s1) => Some (STuple ts, s1)).
Proof. reflexivity. Qed.
Lemma inf_ok gs r e own s : tlookup s (lit "Ok") = None -> infer c gs r (ECall [lit "Ok"] [e]) own s = obind (infer c gs r e true s) (fun '(t, s1) => Some (SResult t, s1)).
Proof. intros N. cbn [infer seqO]. rewrite N. destruct (infer c gs r e true s) as [[t s1]|]; reflexivity. Qed.
Lemma block_one gs r b e0 e own s : infer c gs r (EBlock [(b, e0)] e) own s = obind (infer c gs r e0 true s) (fun '(t0, s0) => obind (infer c gs r e true (tbind b t0 s0)) (fun '(t, s1) => Some (t, tleave s s1))).
Proof. cbn [infer fst snd]. destruct (infer c gs r e0 true s) as [[t0 s0]|]; reflexivity. Qed.
Lemma decode_checked : forallb plain_type (map p_kind (f_outputs f)) = true -> fn_ok c (Some (decoder, out_rt (map p_kind (f_outputs f)))) (fn_decode implementation) = true.
Proof.
  intros P. unfold fn_ok, fn_decode. cbn [generics_of fn_generics map names_ok distinct existsb negb andb forallb fn_params fn_name fn_ret fn_self fn_body fn_result mapO app option_map fst snd].
  change (keyword (lit "output")) with false. change (keyword (lit "decode")) with false. cbn [orb negb andb]. set (u := out_rt _).
  change (rt_of c [] (Some u) slice) with (Some (SRef (SSlice SU8))). cbn [obind].
  change (rt_of c [] (Some u) (TyName (ethabi ["Result"%string]) [TyName (segments ["Self"; "Output"]%string) []])) with (Some (SResult u)). cbv iota. fold decode_env.
  unfold decode_tree in Ei. destruct (f_outputs f) as [|x [|x' l]] eqn:Q.
  - injection Ei as E. assert (E1 : fst implementation = [(Let (lit "_output"), name "output")]) by now rewrite <- E. assert (E2 : snd implementation = ECall [lit "Ok"] [ETuple []]) by now rewrite <- E. rewrite E1, E2. reflexivity.
  - apply bind_ok in Ei as (e & Ee & E). injection E as E. cbn [map forallb] in P. rewrite andb_true_r in P. subst u. cbn [map out_rt].
    assert (E1 : fst implementation = [(Let (lit "out"), expecting (tmethod decoded "next"))]) by now rewrite <- E. assert (E2 : snd implementation = ECall [lit "Ok"] [e]) by now rewrite <- E. rewrite E1, E2.
    rewrite block_one, inf_next. cbn [obind tbind fst]. set (s := (lit "out", false, SToken, true) :: decode_env). rewrite inf_ok by reflexivity.
    rewrite (@inf_from_token c [] (SResult (srt (p_kind x))) (p_kind x) eq_refl P (name "out") e true s (fun own => if own then moved s (lit "out") else s) Ee).
    + cbn [obind fits]. now apply frt_fits.
    + intros pre own R. unfold name. cbn [infer]. rewrite results_lookup by (exact R || reflexivity). change (tlookup s (lit "out")) with (Some (false, SToken, true)). cbn [RustCheck.copied negb]. rewrite andb_true_r. destruct own; [rewrite results_moved by (exact R || reflexivity)|]; reflexivity.
    + reflexivity.
    + apply moved_length.
  - apply bind_ok in Ei as (es & Ee & E). injection E as E.
    assert (E1 : fst implementation = [(LetMut (lit "out"), decoded)]) by now rewrite <- E. assert (E2 : snd implementation = ECall [lit "Ok"] [ETuple es]) by now rewrite <- E. rewrite E1, E2.
    rewrite block_one, inf_decoded. cbn [obind tbind fst].
    set (s := (lit "out", true, SIter SToken, true) :: decode_env). rewrite inf_ok by reflexivity.
    assert (S : forall w, seqO (fun e s => infer c [] w e true s) es s = Some (map frt (map p_kind (x :: x' :: l)), s)).
    { intros w. pose proof (@out_next w s eq_refl eq_refl) as O. apply mapM_ok in Ee. clearbody u. clear -Ee P O. revert P. induction Ee as [|q e l' es E _ IH]; intros P; [reflexivity|]. cbn [map forallb] in P. apply andb_true_iff in P as [P1 P2].
      cbn [seqO]. rewrite (@inf_from_token c [] w (p_kind q) eq_refl P1 _ e true s (fun _ => s) E O eq_refl eq_refl). cbn [obind]. fold (seqO (fun e s => infer c [] w e true s)). rewrite (IH P2). reflexivity. }
    apply mapM_ok in Ee. destruct es as [|e1 [|e2 es]]; [inversion Ee|inversion Ee as [|? ? ? ? _ Y1]; inversion Y1|]. rewrite inf_tuple, S. cbn [obind fits]. exact (eq_trans (fits_tuple _ _) (fit_frt _ P)).
Qed.
End Module.
Lemma module_ok c doc x items outer : existsb sees_err items = true -> item_ok c outer (IMod doc x items) =
  negb (keyword x) && distinct (List.concat (map type_names items)) && distinct (List.concat (map value_names items)) && forallb (item_ok (mkCtx (cx_here c ++ [x]) items (cx_root c) true) (cx_err c)) items.
Proof. intros E. cbn [item_ok]. rewrite E. reflexivity. Qed.
Lemma not_keywords l : Forall (fun x => keyword x = false) l <-> Forall (fun s => ~ In s reserved_words) l.
Proof. rewrite !Forall_forall. split; intros H x I; specialize (H x I); rewrite <- keyword_iff in *; destruct (keyword x); congruence || discriminate. Qed.
Lemma function_tree_parts f i : function_tree f = Ok i -> exists names bounds tokenize result implementation inputs outputs, i = IMod None (to_snake_case (f_name f)) (function_items f inputs outputs result implementation bounds names tokenize) /\
  identifier (to_snake_case (f_name f)) /\ input_names (f_inputs f) = Ok names /\ bounds_tree (f_inputs f) = Ok bounds /\ tokenize_tree names (f_inputs f) = Ok tokenize /\
  output_tree (f_outputs f) = Ok result /\ decode_tree (f_outputs f) = Ok implementation /\ params_tree (f_inputs f) = Ok inputs /\ params_tree (f_outputs f) = Ok outputs.
Proof.
  intros E. unfold function_tree in E. apply bind_ok in E as (names & E1 & E). apply bind_ok in E as (bounds & E2 & E). apply bind_ok in E as (kinds & _ & E). apply bind_ok in E as (tokenize & E3 & E).
  apply bind_ok in E as (result & E4 & E). apply bind_ok in E as (implementation & E5 & E). apply bind_ok in E as (inputs & E6 & E). apply bind_ok in E as (outputs & E7 & E). apply bind_ok in E as (m & E8 & E).
  apply ident_ok in E8 as [-> I]. injection E as <-. exists names, bounds, tokenize, result, implementation, inputs, outputs. auto 12.
Qed.
Lemma function_item p f i c outer : function_tree f = Ok i -> cx_err c = true -> (item_ok c outer i = true <-> exists d, derive_function p f = Ok d).
Proof.
  intros E C. apply function_tree_parts in E as (names & bounds & tokenize & result & implementation & inputs & outputs & -> & I & E1 & E2 & E3 & E4 & E5 & E6 & E7).
  rewrite module_ok by reflexivity. rewrite C. set (c' := mkCtx _ _ _ true). rewrite function_exact.
  assert (ER : rt_of c' [] None result = _) by (eapply rt_result; eassumption).
  split.
  - intros H. apply andb_true_iff in H as [H F]. apply andb_true_iff in H as [H _]. apply andb_true_iff in H as [K _].
    rewrite forallb_forall in F.
    assert (Q : conditions f names) by (eapply encode_refused; [exact E1|exact E2|exact E3|apply (F (IFn (fn_encode_input bounds names tokenize))); cbn; auto 10]). destruct Q as (A & ND & KW).
    split; [exact A|]. split; [|split].
    + specialize (F (IImpl (ethabi ["FunctionOutputDecoder"%string]) (lit "Decoder") (lit "Output") result (fn_decode implementation)) ltac:(cbn; auto 10)). cbn [item_ok] in F. apply andb_true_iff in F as [_ F].
      rewrite ER in F. destruct (forallb plain_type (map p_kind (f_outputs f))); [reflexivity|]. destruct (newtype_of _ _); discriminate.
    + apply input_names_iff in E1 as [N J]. exists names. split; [exact N|]. split; [|exact ND]. apply usable_all; [exact J|now apply not_keywords].
    + split; [exact I|]. now apply not_keyword.
  - intros (A & O & (names' & N' & U & ND) & [_ UM]).
    assert (names' = names) by (apply usable_split in U as [UI _]; pose proof (proj2 (input_names_iff _ _) (conj N' UI)); congruence). subst names'.
    assert (Q : conditions f names) by (split; [exact A|split; [exact ND|apply not_keywords; now apply usable_split in U]]).
    apply not_keyword in UM. rewrite UM. change (distinct (List.concat (map type_names (function_items f inputs outputs result implementation bounds names tokenize)))) with true.
    change (distinct (List.concat (map value_names (function_items f inputs outputs result implementation bounds names tokenize)))) with true. cbn [andb].
    rewrite O in ER. unfold function_items at 1, uses. cbn [app forallb item_ok].
    change (is_path (segments ["ethabi"%string]) ["ethabi"%string]) with true. change (is_path (segments ["super"; "INTERNAL_ERR"]%string) ["super"; "INTERNAL_ERR"]%string) with true.
    assert (X1 : fn_ok c' None (fn_function f inputs outputs) = true) by (apply function_checked; assumption).
    assert (X2 : fn_ok c' (Some (SLocal (cx_here c' ++ [lit "Decoder"]), out_rt (map p_kind (f_outputs f)))) (fn_decode implementation) = true) by (apply decode_checked; assumption).
    assert (X3 : fn_ok c' None (fn_encode_input bounds names tokenize) = true) by (apply encode_checked; assumption).
    assert (X4 : fn_ok c' None (fn_call bounds names tokenize) = true) by (apply call_checked; assumption).
    assert (X5 : fn_ok c' None (fn_decode_output result) = true) by (apply decode_output_checked; assumption).
    rewrite X1, X3, X4, X5.
    change (match rt_of c' [] None (ethabi_ty "Function") with Some _ => true | None => false end) with true. change (keyword (lit "Decoder")) with false.
    change (is_decoder (ethabi ["FunctionOutputDecoder"%string])) with true. change (decode_signature (fn_decode implementation)) with true. change (newtype_of (lit "Decoder") (cx_items c')) with (Some (ethabi_ty "Function")).
    rewrite ER. rewrite str_eqb_refl. cbn [andb orb negb].
    rewrite X2. reflexivity.
Qed.

(** ** Constructors *)
Section Constructor.
Context (k : Constructor) (inputs : expr) (bounds : list generic) (names : list str) (tokenize : list expr) (c : ctx).
Context (En : input_names (k_inputs k) = Ok names) (Eb : bounds_tree (k_inputs k) = Ok bounds) (Et : tokenize_tree names (k_inputs k) = Ok tokenize) (Ein : params_tree (k_inputs k) = Ok inputs).
Context (Cl : forall x, In x ["bool"; "u8"; "String"; "Vec"; "Box"; "str"]%string -> local_type (lit x) (cx_items c) = false) (Ce : cx_err c = true).
Notation senv := ((lit "code", false, SVec SU8, true) :: env 0 names).
Definition make : expr := EStructTrailing (ethabi ["Constructor"%string]) [(lit "inputs", inputs)].
Lemma inf_make : infer c bounds (SVec SU8) make true senv = Some (SConstructor, senv).
Proof.
  unfold make. destruct (@inf_params c bounds (SVec SU8) _ _ true senv Ein) as (r & E1 & R1).
  - unfold none_free. cbn [tlookup]. change (str_eqb (lit "None") (lit "code")) with false. cbv iota. apply env_absent. apply (@upper_absent names); [exact (input_names_lower _ En)|]. exists 78. split; [cbn; auto|reflexivity].
  - cbn [infer seqO fst snd]. rewrite E1. destruct R1 as [-> | ->]; reflexivity.
Qed.
Lemma constructor_checked : fn_ok c None (fn_constructor bounds names inputs tokenize) = true <->
  forallb argument_type (map p_kind (k_inputs k)) = true /\ NoDup (lit "c" :: lit "code" :: names) /\ Forall (fun x => keyword x = false) names.
Proof.
  pose proof Eb as E. unfold bounds_tree, mapi in E. apply bind_ok in E as (r & E & Q). injection Q as Q. destruct (bounds_names _ _ E) as (N & O & I). rewrite Q in N, O, I.
  assert (V : seen c (vars bounds)) by (apply own_seen; [exact O|exact Cl]).
  assert (B : forallb (generic_ok c bounds) bounds = forallb argument_type (map p_kind (k_inputs k))).
  { transitivity (forallb (generic_ok c bounds) (List.concat r)); [now rewrite Q|]. apply bounds_generics with (2 := E); [exact V|]. rewrite Q. intros g H. exact H. }
  clear E Q r. assert (L : length names = length (k_inputs k)) by now apply input_names_iff in En as [[NN _] _].
  unfold fn_ok. cbn [generics_of fn_constructor fn_generics fn_params fn_name fn_ret fn_self fn_body fn_result option_map map fst]. rewrite (own_vars N O), B. unfold typed, mapi. rewrite typed_names. rewrite mapO_cons. cbn [snd fst].
  change (rt_of c (map generic_var bounds) None (ethabi_ty "Bytes")) with (Some (SVec SU8)). cbn [obind]. unfold DeriveTree.ty in *. rewrite (@params_env c bounds None (k_inputs k) 0 names L I). cbn [obind app].
  change (keyword (lit "constructor")) with false. cbn [andb negb]. rewrite andb_true_r. fold make.
  rewrite !andb_true_iff, names_ok_iff.
  assert (ES : NoDup names -> ~ In (lit "code") names -> forall i n, nth_error names i = Some n -> tlookup senv n = Some (false, SVar (T i), true)).
  { intros ND NC i n H. cbn [tlookup]. rewrite str_neqb; [exact (@env_found names ND 0 i n H)|]. intros ->. apply NC. eapply nth_error_In, H. }
  split.
  - intros [[A [ND K]] H]. inversion ND as [|? ? N1 ND1]; subst. inversion K as [|? ? _ K1]; subst. split; [exact A|]. split; [|exact K1]. constructor; [|exact ND]. intros [X|X]; [discriminate|].
    rewrite (@body_hidden c _ (SVec SU8) N V (k_inputs k) names tokenize L I Et ND1 A senv (ES ND1 N1)) with (t0 := SConstructor) in H; try discriminate; auto. exact inf_make.
  - intros (A & ND & K). inversion ND as [|? ? N1 ND1]; subst. inversion ND1 as [|? ? N2 ND2]; subst. split; [split; [exact A|split; [exact ND1|constructor; [reflexivity|exact K]]]|].
    destruct (@body_checked c _ (SVec SU8) N V (k_inputs k) names tokenize L I Et ND2 A senv (ES ND2 N2)) with (x := lit "c") (t0 := SConstructor) (e0 := make)
      (e := expecting (EMethod (name "c") (lit "encode_input") [] [name "code"; ERef (name "tokens")])) (own := true) as (q & s' & Q & Ls & H & F & Y).
    + exact inf_make.
    + intros J. apply N1. now right.
    + rewrite H. set (s2 := (lit "tokens", false, SVec q, true) :: s').
      assert (C2 : tlookup s' (lit "code") = Some (false, SVec SU8, true)) by (rewrite Y; [reflexivity|discriminate|exact N2]).
      assert (U : unnamed s').
      { assert (NI : ~ In (lit "INTERNAL_ERR") names) by (apply upper_absent; [exact (input_names_lower _ En)|]; exists 73; split; [cbn; auto|reflexivity]).
        unfold unnamed. rewrite Y; [|discriminate|exact NI]. cbn [tlookup]. change (str_eqb (lit "INTERNAL_ERR") (lit "code")) with false. cbv iota. now apply env_absent. }
      rewrite inf_expecting with (t := SResult (SVec SU8)) (r := SVec SU8) (s1 := moved s2 (lit "code")); auto.
      * unfold name. cbn [infer seqO]. change (negb (borrowing (lit "encode_input"))) with false. rewrite (F : tlookup s2 (lit "c") = _). cbn [andb obind].
        change (str_eqb (lit "encode_input") (lit "map")) with false. cbv iota. rewrite (C2 : tlookup s2 (lit "code") = _). cbn [RustCheck.copied negb andb obind].
        change (tlookup (moved s2 (lit "code")) (lit "tokens")) with (Some (false, SVec q, true)). cbn [andb obind].
        destruct Q as [-> | ->]; reflexivity.
      * unfold unnamed. rewrite tlookup_moved by reflexivity. exact U.
Qed.
End Constructor.
Lemma constructor_item p k i c outer : constructor_tree k = Ok i -> (forall x, In x ["bool"; "u8"; "String"; "Vec"; "Box"; "str"]%string -> local_type (lit x) (cx_items c) = false) -> cx_err c = true ->
  (item_ok c outer i = true <-> exists d, derive_constructor p k = Ok d).
Proof.
  intros E Cl Ce. unfold constructor_tree in E. apply bind_ok in E as (names & E1 & E). apply bind_ok in E as (bounds & E2 & E). apply bind_ok in E as (kinds & _ & E). apply bind_ok in E as (tokenize & E3 & E).
  apply bind_ok in E as (inputs & E4 & E). injection E as <-. cbn [item_ok]. rewrite (constructor_checked k c E1 E2 E3 E4 Cl Ce). rewrite constructor_exact. split.
  - intros (A & ND & K). split; [exact A|]. apply input_names_iff in E1 as [N J]. exists names. split; [exact N|]. split; [|exact ND]. apply usable_all; [exact J|now apply not_keywords].
  - intros (A & names' & N' & U & ND). assert (names' = names) by (apply usable_split in U as [UI _]; pose proof (proj2 (input_names_iff _ _) (conj N' UI)); congruence). subst names'.
    split; [exact A|]. split; [exact ND|]. apply not_keywords. now apply usable_split in U.
Qed.

(** * Theorems: code that passes the check does not get stuck *)
From Verif Require Import Base Types Function Event Contract Derive RustSyntax DeriveTree RustEval RustCheck SoundSpec SoundProgram.
From Coq Require Import String.
Local Open Scope N_scope.
Local Open Scope list_scope.

(** ** C78: the checker of C77 and the runner of C69 agree. *)
(** In every program that passes the check, generated or not, each function of
    each module, called with values of the types of its parameters, panics or
    comes to a value of the type it declares.  It never gets stuck, to
    whatever depth its calls are followed. *)
Theorem C78_sound : forall p items c f, program_ok items = true -> inside items c -> In (IFn f) (cx_items c) ->
  exists ts r, mapO (fun x : str * RustSyntax.ty => rt_of c (map generic_var (generics_of f)) None (snd x)) (fn_params f) = Some ts /\ rt_of c (map generic_var (generics_of f)) None (fn_ret f) = Some r /\
  forall D n args, meets_bounds c (generics_of f) D -> Forall2 (of_rt c D) ts args ->
    match run_fn p (called p n (cx_items c)) f args with Done v => of_rt c D r v | Panics => True | Return _ | Stuck => False end.
Proof. exact program_sound. Qed.
Print Assumptions C78_sound.
(** The same for the methods of traits. *)
Theorem C78_impl : forall p items c trait x assoc t f, program_ok items = true -> inside items c -> In (IImpl trait x assoc t f) (cx_items c) ->
  exists ts r u, rt_of c [] None t = Some u /\ mapO (fun y : str * RustSyntax.ty => rt_of c [] (Some u) (snd y)) (fn_params f) = Some ts /\ rt_of c [] (Some u) (fn_ret f) = Some r /\
  forall D n v args, of_rt c D (SLocal (cx_here c ++ [x])) v -> Forall2 (of_rt c D) ts args ->
    match run_fn p (called p n (cx_items c)) f (v :: args) with Done v => of_rt c D r v | Panics => True | Return _ | Stuck => False end.
Proof. exact impl_sound. Qed.
Print Assumptions C78_impl.
(** For the runner of RustEval.v, then, the only way left to get stuck is to
    run out of the depth it is given. *)
Theorem C78_depth : forall p n items f args,
  run_fn p (call p n items) f args = run_fn p (called p n items) f args \/
  run_fn p (call p n items) f args = Stuck /\ run_fn p (called p n items) f args = Panics.
Proof. exact depth_only. Qed.
Print Assumptions C78_depth.
(** In particular for all the code that the macro writes. *)
Theorem C78_generated : forall p c fs es d items, derive_contract p c fs es = Ok d -> contract_tree c fs es = Ok items -> forall m f, inside items m -> In (IFn f) (cx_items m) ->
  exists ts r, mapO (fun x : str * RustSyntax.ty => rt_of m (map generic_var (generics_of f)) None (snd x)) (fn_params f) = Some ts /\ rt_of m (map generic_var (generics_of f)) None (fn_ret f) = Some r /\
  forall q D n args, meets_bounds m (generics_of f) D -> Forall2 (of_rt m D) ts args ->
    match run_fn q (called q n (cx_items m)) f args with Done v => of_rt m D r v | Panics => True | Return _ | Stuck => False end.
Proof. exact generated_sound. Qed.
Print Assumptions C78_generated.

(** A program of two functions, one of them with a type parameter.
    [pub fn greet<T: Into<String>>(x: T, n: Vec<bool>) -> (String, Vec<bool>) { let y = pass(x.into()); (y, n) }]
    and [pub fn pass(s: String) -> String { s }] *)
Definition string_type : RustSyntax.ty := TyName [lit "String"] [].
Definition bools_type : RustSyntax.ty := TyName [lit "Vec"] [TyName [lit "bool"] []].
Definition greet (callee : string) : fn :=
  mkFn None true (lit "greet") (Some [GInto (lit "T") string_type]) false [(lit "x", TyName [lit "T"] []); (lit "n", bools_type)] (TyTuple [string_type; bools_type])
    [(Let (lit "y"), ECall [lit callee] [EMethod (EPath [lit "x"]) (lit "into") [] []])] (ETuple [EPath [lit "y"]; EPath [lit "n"]]).
Definition pass : fn := mkFn None true (lit "pass") None false [(lit "s", string_type)] string_type [] (EPath [lit "s"]).
Definition two : list item := [IFn (greet "pass"); IFn pass].
Definition two_ctx : ctx := mkCtx [] two two false.
Definition strings : str -> val -> Prop := fun _ v => exists s, v = VStr s.
Example C78_case :
  program_ok two = true /\ inside two two_ctx /\ In (IFn (greet "pass")) (cx_items two_ctx) /\ meets_bounds two_ctx (generics_of (greet "pass")) strings /\
  Forall2 (of_rt two_ctx strings) [SVar (lit "T"); SVec SBool] [VStr (lit "hi"); VVec [VBool true; VBool false]] /\
  run_fn Debug (called Debug 1 two) (greet "pass") [VStr (lit "hi"); VVec [VBool true; VBool false]] = Done (VTuple [VStr (lit "hi"); VVec [VBool true; VBool false]]) /\
  run_fn Debug (called Debug 0 two) (greet "pass") [VStr (lit "hi"); VVec [VBool true; VBool false]] = Panics.
Proof.
  split; [vm_compute; reflexivity|]. split; [exact (in_root two)|]. split; [now left|]. split; [|split; [|split; vm_compute; reflexivity]].
  - intros x g B v V. assert (G : g = GInto (lit "T") string_type) by (apply List.find_some in B as [[B|[]] _]; congruence). subst g. intros u E. change (Some SString = Some u) in E. injection E as <-. exact V.
  - constructor; [exists (lit "hi"); reflexivity|]. constructor; [|constructor]. exists [VBool true; VBool false]. split; [reflexivity|]. repeat constructor; [exists true|exists false]; reflexivity.
Qed.
(** What the checker refuses may well get stuck: a function that is not there,
    and arguments of other types than the signature has. *)
Example C78_refused :
  program_ok [IFn (greet "pas"); IFn pass] = false /\
  run_fn Debug (called Debug 1 [IFn (greet "pas"); IFn pass]) (greet "pas") [VStr (lit "hi"); VVec []] = Stuck /\
  run_fn Debug (called Debug 1 two) (greet "pass") [VStr (lit "hi")] = Stuck.
Proof. vm_compute. auto. Qed.
(** A newtype with the trait of the crate, whose [decode] passes on what it
    holds to [same], and [pub fn read(b: bool, l: ethabi::Bytes) ->
    ethabi::Result<bool> { let d = Decoder(b);
    ethabi::FunctionOutputDecoder::decode(&d, &l) }] *)
Definition held : fn :=
  mkFn None false (lit "decode") None true [(lit "_output", TyRef (TySlice (TyName [lit "u8"] [])))] (TyName (segments ["ethabi"; "Result"]%string) [TyName (segments ["Self"; "Output"]%string) []])
    [] (ECall [lit "Ok"] [ECall [lit "same"] [ERef (EFirst (EPath [lit "self"]))]]).
Definition same : fn := mkFn None true (lit "same") None false [(lit "b", TyRef (TyName [lit "bool"] []))] (TyName [lit "bool"] []) [] (EBool true).
Definition read : fn :=
  mkFn None true (lit "read") None false [(lit "b", TyName [lit "bool"] []); (lit "l", TyName (segments ["ethabi"; "Bytes"]%string) [])] (TyName (segments ["ethabi"; "Result"]%string) [TyName [lit "bool"] []])
    [(Let (lit "d"), ECall [lit "Decoder"] [EPath [lit "b"]])] (ECall (segments ["ethabi"; "FunctionOutputDecoder"; "decode"]%string) [ERef (EPath [lit "d"]); ERef (EPath [lit "l"])]).
Definition decoding : list item :=
  [INewtype (lit "doc") (lit "Decoder") (TyName [lit "bool"] []); IImpl (segments ["ethabi"; "FunctionOutputDecoder"]%string) (lit "Decoder") (lit "Output") (TyName [lit "bool"] []) held; IFn same; IFn read].
Definition decoding_ctx : ctx := mkCtx [] decoding decoding false.
Example C78_impl_case :
  program_ok decoding = true /\ inside decoding decoding_ctx /\
  In (IImpl (segments ["ethabi"; "FunctionOutputDecoder"]%string) (lit "Decoder") (lit "Output") (TyName [lit "bool"] []) held) (cx_items decoding_ctx) /\
  (forall D, of_rt decoding_ctx D (SLocal (cx_here decoding_ctx ++ [lit "Decoder"])) (VNewtype (lit "Decoder") (VBool false))) /\
  run_fn Debug (called Debug 2 decoding) read [VBool false; VBytes []] = Done (VOk (VBool true)).
Proof.
  split; [vm_compute; reflexivity|]. split; [exact (in_root decoding)|]. split; [right; now left|]. split; [|vm_compute; reflexivity].
  intros D. left. exists (lit "Decoder"), (VBool false), (TyName [lit "bool"] []), SBool. repeat split. now exists false.
Qed.

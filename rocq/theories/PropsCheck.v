(** * Theorems: the generated code, checked before it runs *)
From Verif Require Import Base Types TypeNames Function Event Contract Heck Derive DeriveSpec DeriveSamples RustSyntax DeriveText DeriveTree RustEval GeneratedSpec RustParse RustCheck CheckProgram.
From Coq Require Import String.
Local Open Scope N_scope.
Local Open Scope list_scope.

(** ** C77: the generated code is well typed exactly where C62 says so. *)
(** The names, types and moves of the code of a contract pass the checker of
    RustCheck.v exactly for the contracts whose interface exists. *)
Theorem C77_checked : forall p c fs es,
  (exists d, derive_contract p c fs es = Ok d) <-> exists items, contract_tree c fs es = Ok items /\ program_ok items = true.
Proof. exact contract_checks. Qed.
Print Assumptions C77_checked.
(** Where code is written at all, it is its check that decides. *)
Theorem C77_decides : forall p c fs es items, contract_tree c fs es = Ok items ->
  (program_ok items = true <-> exists d, derive_contract p c fs es = Ok d).
Proof. exact program_exact. Qed.
Print Assumptions C77_decides.
(** From the text on: it is read as a program that passes, and that does what
    the interface says. *)
Theorem C77_text : forall p c fs es d, derive_contract p c fs es = Ok d ->
  exists text items, contract_text c fs es = Ok text /\ parse text = Some items /\ program_ok items = true /\ contract_code p d items.
Proof. exact text_checks. Qed.
Print Assumptions C77_text.

Definition checked (c : Contract) (fs : groups Function) (es : groups Event) : option bool :=
  match contract_tree c fs es with Ok items => Some (program_ok items) | _ => None end.
Definition one_function (f : Function) : option bool := checked default_contract [(f_name f, [f])] [].
Definition one_event (e : Event) : option bool := checked default_contract [] [(e_name e, [e])].
Definition taking (name : string) (t : ParamType) : Function := mkFunction (lit "set") [mkParam (lit name) t None] [] false NonPayable.
Definition giving (t : ParamType) : Function := mkFunction (lit "get") [] [mkParam [] t None] false NonPayable.
Definition telling (name : string) (t : ParamType) (indexed : bool) : Event := mkEvent (lit "Told") [mkEventParam (lit name) t indexed] false.
Example C77_case :
  checked (mkContract (Some derive_c) [] [] false false) [(lit "setNames", [derive_f])] [(lit "NamesSet", [derive_e (lit "NamesSet")])] = Some true /\
  one_function (taking "values" (PArray (PFixedArray PString 3))) = Some false /\ one_function (taking "values" (PFixedArray (PArray PString) 3)) = Some true /\
  one_function (giving (PArray (PArray PBytes))) = Some true /\ one_function (giving (PFixedArray PBytes 3)) = Some false /\
  one_function (taking "type" PBool) = Some false /\ one_function (taking "tokens" PBool) = Some true /\ one_function (taking "function" PBool) = Some false /\
  one_event (telling "event" PBool true) = Some false /\ one_event (telling "event" PBool false) = Some true /\
  one_event (telling "kind" (PFixedBytes 3) true) = Some true /\ one_event (telling "kind" (PFixedArray PBool 3) true) = Some false /\
  checked default_contract [(lit "set", [derive_f; derive_f])] [] = Some false /\
  one_event (mkEvent (lit "String") [mkEventParam (lit "s") PString false] false) = Some false /\
  one_event (mkEvent (lit "String") [mkEventParam (lit "s") PBytes false] false) = Some true /\
  one_event (mkEvent (lit "Vec") [mkEventParam (lit "s") (PArray PBool) false] false) = Some false /\
  one_function (taking "1" PBool) = None.
Proof. vm_compute. auto 20. Qed.
(** The checker is not made for these trees alone.  Of the bodies below, with
    [x] a string and [n] a vector of bools, it takes those that Rust takes:
    a value is moved once, what is returned has the type of the signature,
    methods belong to types, and names are declared. *)
Definition body (ret : RustSyntax.ty) (l : list (binder * expr)) (e : expr) : bool :=
  program_ok [IFn (mkFn None true (lit "f") None false [(lit "x", TyName [lit "String"] []); (lit "n", TyName [lit "Vec"] [TyName [lit "bool"] []])] ret l e)].
Definition var (s : string) : expr := EPath [lit s].
Definition string_ty : RustSyntax.ty := TyName [lit "String"] [].
Example C77_bodies :
  body string_ty [] (var "x") = true /\ body string_ty [(Let (lit "y"), var "x")] (var "y") = true /\
  body string_ty [(Let (lit "y"), var "x")] (var "x") = false /\ body (TyTuple [string_ty; string_ty]) [] (ETuple [var "x"; var "x"]) = false /\
  body (TyName [lit "bool"] []) [] (var "x") = false /\ body string_ty [] (var "y") = false /\
  body (TyName [lit "Vec"] [TyName [lit "bool"] []]) [] (EMethod (EMap (EMethod (var "n") (lit "into_iter") [] []) (lit "b") (var "b")) (lit "collect") [TyName [lit "Vec"] [TyInfer]] []) = true /\
  body (TyName [lit "Vec"] [string_ty]) [] (EMethod (EMap (EMethod (var "n") (lit "into_iter") [] []) (lit "b") (var "b")) (lit "collect") [TyName [lit "Vec"] [TyInfer]] []) = false /\
  body (TyName [lit "Vec"] [string_ty]) [] (EVec [var "x"; EMethod (EStr (lit "a")) (lit "into") [] []]) = true /\
  body (TyName [lit "Vec"] [string_ty]) [] (EVec [var "x"; EBool true]) = false /\
  body string_ty [] (EMethod (var "x") (lit "into_iter") [] []) = false.
Proof. vm_compute. auto 20. Qed.

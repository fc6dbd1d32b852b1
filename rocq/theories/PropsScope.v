(** * Theorems: names in code stand for something *)
From Verif Require Import Base Types Function Event Contract Derive RustSyntax DeriveTree RustCheck MoveSpec ScopeSpec ScopeFacts.
From Coq Require Import String.
Local Open Scope list_scope.

(** ** C88: in code that passes the check every name is bound. *)
(** A name that a function uses, and that is not bound inside it, is one of its
    parameters, [self] of a method, [None], or the constant [INTERNAL_ERR], which
    is then imported from module to module from one that defines it. *)
Theorem C88_names : forall items its up f, program_ok items = true -> nested items (its :: up) -> function_of f its ->
  forall x b, In (x, b) (uses (EBlock (fn_body f) (fn_result f)) true) ->
  In x (map fst (fn_params f)) \/ (x = lit "self" /\ fn_self f = true) \/ x = lit "None" \/ (x = lit "INTERNAL_ERR" /\ error_known (its :: up)).
Proof. exact names_known. Qed.
Print Assumptions C88_names.
(** What is imported is there. *)
Theorem C88_imports : forall items its up, program_ok items = true -> nested items (its :: up) -> imports_error its -> error_known up.
Proof. exact imports_known. Qed.
Print Assumptions C88_imports.
(** In particular for all the code that the macro writes. *)
Theorem C88_generated : forall p c fs es d items, derive_contract p c fs es = Ok d -> contract_tree c fs es = Ok items ->
  forall its up f, nested items (its :: up) -> function_of f its -> forall x b, In (x, b) (uses (EBlock (fn_body f) (fn_result f)) true) ->
  In x (map fst (fn_params f)) \/ (x = lit "self" /\ fn_self f = true) \/ x = lit "None" \/ (x = lit "INTERNAL_ERR" /\ error_known (its :: up)).
Proof. exact generated_known. Qed.
Print Assumptions C88_generated.

(** [const INTERNAL_ERR: &'static str = "x";] and a module inside a module with
    [pub fn why() -> &str { INTERNAL_ERR }]: it passes if both import the
    constant, and not if one does not, or if nothing defines it. *)
Definition err_const : item := IConst (lit "INTERNAL_ERR") (TyStatic (TyName [lit "str"] [])) (lit "x").
Definition err_use : item := IUse [lit "super"; lit "INTERNAL_ERR"].
Definition why : fn := mkFn None true (lit "why") None false [] (TyRef (TyName [lit "str"] [])) [] (EPath [lit "INTERNAL_ERR"]).
Definition inner_module (l : list item) : item := IMod None (lit "b") (l ++ [IFn why]).
Definition outer_module (l l' : list item) : item := IMod None (lit "a") (l ++ [inner_module l']).
Example C88_case :
  map program_ok [[err_const; outer_module [err_use] [err_use]]; [err_const; outer_module [] [err_use]]; [err_const; outer_module [err_use] []];
    [outer_module [err_use] [err_use]]; [outer_module [] [err_const]]; [err_use]; [err_const; outer_module [] []]] = [true; false; false; false; true; false; false] /\
  uses (EBlock (fn_body why) (fn_result why)) true = [(lit "INTERNAL_ERR", true)] /\
  let items := [err_const; outer_module [err_use] [err_use]] in
  nested items [[err_use; IFn why]; [err_use; inner_module [err_use]]; items] /\ error_known [[err_use; IFn why]; [err_use; inner_module [err_use]]; items].
Proof.
  split; [vm_compute; reflexivity|]. split; [reflexivity|]. cbv zeta. split.
  - eapply nested_in; [eapply nested_in; [apply nested_root|right; left; reflexivity]|right; left; reflexivity].
  - exists [[err_use; IFn why]; [err_use; inner_module [err_use]]], [err_const; outer_module [err_use] [err_use]], []. split; [reflexivity|]. split; [repeat constructor; now left|]. exists (lit "x"). now left.
Qed.

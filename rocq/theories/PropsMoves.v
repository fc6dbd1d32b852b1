(** * Theorems: no value is used after it has been moved *)
From Verif Require Import Base Types Function Event Contract Derive RustSyntax DeriveTree RustCheck SoundSpec MoveSpec MovePrograms.
From Coq Require Import String.
Local Open Scope list_scope.

(** ** C79: in code that passes the check no value is used after it has been
    moved. *)
(** Parameters: once the value of a parameter has been taken, and its type is
    not one of those that are copied, the parameter does not occur again. *)
Theorem C79_params : forall items c f x y t, program_ok items = true -> inside items c -> In (IFn f) (cx_items c) -> In (x, y) (fn_params f) -> rt_of c (map generic_var (generics_of f)) None y = Some t -> ~ copies t ->
  forall l l', uses (EBlock (fn_body f) (fn_result f)) true = l ++ (x, true) :: l' -> forall o, ~ In (x, o) l'.
Proof. exact params_once. Qed.
Print Assumptions C79_params.
(** The same for what a [let] of a function or of a method binds, with the
    type of the expression it binds. *)
Theorem C79_lets : forall items c f l b x e l', program_ok items = true -> inside items c -> (In (IFn f) (cx_items c) \/ exists trait y assoc t, In (IImpl trait y assoc t f) (cx_items c)) -> fn_body f = l ++ (b, e) :: l' -> b = Let x \/ b = LetMut x ->
  exists ret s t s', infer c (generics_of f) ret e true s = Some (t, s') /\ (~ copies t -> forall k k', uses (EBlock l' (fn_result f)) true = k ++ (x, true) :: k' -> forall o, ~ In (x, o) k').
Proof. exact lets_once. Qed.
Print Assumptions C79_lets.
(** Closures, which may run many times, use nothing of what is around them. *)
Theorem C79_closures : forall c gs ret e x body own s t s1, infer c gs ret (EMap e x body) own s = Some (t, s1) -> forall y d, tlookup s y = Some d -> y <> x -> forall o, ~ In (y, o) (uses body true).
Proof. exact closed. Qed.
Print Assumptions C79_closures.
(** In particular for all the code that the macro writes. *)
Theorem C79_generated : forall p c fs es d items, derive_contract p c fs es = Ok d -> contract_tree c fs es = Ok items -> forall m f x y t, inside items m -> In (IFn f) (cx_items m) -> In (x, y) (fn_params f) -> rt_of m (map generic_var (generics_of f)) None y = Some t -> ~ copies t ->
  forall l l', uses (EBlock (fn_body f) (fn_result f)) true = l ++ (x, true) :: l' -> forall o, ~ In (x, o) l'.
Proof. exact generated_once. Qed.
Print Assumptions C79_generated.

(** [pub fn pair(x: Vec<bool>) -> (bool, Vec<bool>) { let y = x; let n = any(&y); (n, y) }],
    with [pub fn any(l: &Vec<bool>) -> bool { true }], which takes [x] once and [y] once, after it has borrowed it; and the same
    with [(n, x)] at the end, or with [y] taken before it is lent *)
Definition bools : RustSyntax.ty := TyName [lit "Vec"] [TyName [lit "bool"] []].
Definition var (x : string) : expr := EPath [lit x].
Definition pair (l : list (binder * expr)) (e : expr) : fn :=
  mkFn None true (lit "pair") None false [(lit "x", bools)] (TyTuple [TyName [lit "bool"] []; bools]) l e.
Definition any : fn := mkFn None true (lit "any") None false [(lit "l", TyRef bools)] (TyName [lit "bool"] []) [] (EBool true).
Definition lent (x : string) : expr := ECall [lit "any"] [ERef (var x)].
Definition good : fn := pair [(Let (lit "y"), var "x"); (Let (lit "n"), lent "y")] (ETuple [var "n"; var "y"]).
Definition twice : fn := pair [(Let (lit "y"), var "x"); (Let (lit "n"), lent "y")] (ETuple [var "n"; var "x"]).
Definition late : fn := pair [(Let (lit "y"), var "x"); (Let (lit "z"), var "y"); (Let (lit "n"), lent "y")] (ETuple [var "n"; var "z"]).
Definition with_any (f : fn) : list item := [IFn any; IFn f].
Definition alone (f : fn) : ctx := mkCtx [] (with_any f) (with_any f) false.
Example C79_case :
  program_ok (with_any good) = true /\ inside (with_any good) (alone good) /\ In (IFn good) (cx_items (alone good)) /\ In (lit "x", bools) (fn_params good) /\ rt_of (alone good) (map generic_var (generics_of good)) None bools = Some (SVec SBool) /\ ~ copies (SVec SBool) /\
  uses (EBlock (fn_body good) (fn_result good)) true = [(lit "x", true)] /\
  uses (EBlock (skipn 1 (fn_body good)) (fn_result good)) true = [(lit "y", false); (lit "y", true)] /\
  program_ok (with_any twice) = false /\ uses (EBlock (fn_body twice) (fn_result twice)) true = [(lit "x", true); (lit "x", true)] /\
  program_ok (with_any late) = false /\ uses (EBlock (skipn 1 (fn_body late)) (fn_result late)) true = [(lit "y", true); (lit "y", false)].
Proof.
  split; [vm_compute; reflexivity|]. split; [exact (in_root (with_any good))|]. split; [right; now left|]. split; [now left|]. split; [vm_compute; reflexivity|]. split; [|vm_compute; auto 10].
  intros C. inversion C as [t I| | | |]. subst t. cbn [In] in I. repeat (destruct I as [I|I]; [discriminate I|]). exact I.
Qed.
(** [l.into_iter().map(|b| b)] and [l.into_iter().map(|b| o)], in which the
    closure uses [o] from outside *)
Definition mapped (e : expr) : expr := EMap (EMethod (var "l") (lit "into_iter") [] []) (lit "b") e.
Definition around : list (str * bool * rt * bool) := [(lit "l", false, SVec SBool, true); (lit "o", false, SBool, true)].
Example C79_closure_case :
  (exists r, infer (alone good) [] SUnit (mapped (var "b")) true around = Some r) /\ tlookup around (lit "o") = Some (false, SBool, true) /\
  infer (alone good) [] SUnit (mapped (var "o")) true around = None.
Proof. split; [eexists; vm_compute; reflexivity|vm_compute; auto]. Qed.

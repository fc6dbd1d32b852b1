(** * Sample parameters and contracts in JSON *)
From Verif Require Import Base Types TypeNames TypeNamesSpec Function Event EventSpec Json JsonSpec Contract ContractSpec JsonFacts.
From Coq Require Import String.
Local Open Scope N_scope.
Local Open Scope list_scope.

(** A struct in a struct in an array in an array. *)
Definition sample_kind : ParamType :=
  PArray (PFixedArray (PTuple [PUint 256; PArray (PTuple [PString; PFixedBytes 4]); PTuple []]) 3).
Definition sample_param : Param := mkParam (lit "orders") sample_kind (Some (lit "struct Shop.Order[3][]")).
(** Tuples nested in one another [n] times. *)
Definition nested_tuple (n : nat) : ParamType := Nat.iter n (fun t => PTuple [t]) PBool.

(** A contract with overloaded functions, keys in different orders, extra
    keys, missing defaults and names with parentheses. *)
Definition sample_json : json :=
  JArr [
    JObj [(lit "outputs", JArr [JObj [(lit "type", JStr (lit "bool")); (lit "name", JStr [])]]); (lit "name", JStr (lit "pay(address)"));
          (lit "type", JStr (lit "function")); (lit "gas", JNum (lit "21000"));
          (lit "inputs", JArr [JObj [(lit "internalType", JStr (lit "address payable")); (lit "type", JStr (lit "address")); (lit "name", JStr (lit "to"))]])];
    JObj [(lit "type", JStr (lit "constructor")); (lit "inputs", JArr []); (lit "payable", JBool true)];
    JObj [(lit "type", JStr (lit "fallback"))];
    JObj [(lit "name", JStr (lit "Sold")); (lit "inputs", JArr
            [JObj [(lit "name", JStr (lit "who")); (lit "indexed", JBool true); (lit "type", JStr (lit "address")); (lit "internalType", JStr (lit "address"))];
             JObj [(lit "components", JArr [JObj [(lit "name", JStr (lit "price")); (lit "type", JStr (lit "uint256"))]; JObj [(lit "type", JStr (lit "string[2]"))]]);
                   (lit "type", JStr (lit "tuple[]")); (lit "name", JStr (lit "items"))]]);
          (lit "anonymous", JBool false); (lit "type", JStr (lit "event"))];
    JObj [(lit "type", JStr (lit "function")); (lit "name", JStr (lit "stop")); (lit "inputs", JArr []); (lit "outputs", JArr []);
          (lit "stateMutability", JStr (lit "payable")); (lit "constant", JBool true)];
    JObj [(lit "type", JStr (lit "function")); (lit "name", JStr (lit "pay")); (lit "inputs", JArr []); (lit "outputs", JArr []);
          (lit "stateMutability", JStr (lit "view"))]].
Definition sample_operations : list Operation :=
  [OpFunction (mkFunction (lit "pay") [mkParam (lit "to") PAddress (Some (lit "address payable"))] [mkParam [] PBool None] false NonPayable);
   OpConstructor (mkConstructor []);
   OpFallback;
   OpEvent (mkEvent (lit "Sold") [mkEventParam (lit "who") PAddress true;
     mkEventParam (lit "items") (PArray (PTuple [PUint 256; PFixedArray PString 2])) false] false);
   OpFunction (mkFunction (lit "stop") [] [] true Payable);
   OpFunction (mkFunction (lit "pay") [] [] false View)].
Ltac std_item := unfold param_item, event_param_item; cbv beta; match goal with |- exists l, JObj ?x = JObj l /\ _ => exists x; split; [reflexivity|] end.
Ltac keys_open := left; reflexivity.
Ltac leaf_param := std_item; split; [eapply ds_leaf; [reflexivity|apply abi_name_write; reflexivity|reflexivity|reflexivity]|].
Lemma sample_standard : contract_json sample_json sample_operations.
Proof.
  eexists. split; [reflexivity|].
  apply Forall2_cons; [std_item; apply ij_function with (text := lit "pay(address)") (inputs := [JObj [(lit "internalType", JStr (lit "address payable")); (lit "type", JStr (lit "address")); (lit "name", JStr (lit "to"))]]) (outputs := [JObj [(lit "type", JStr (lit "bool")); (lit "name", JStr [])]]); try reflexivity; auto|].
  { split; [reflexivity|right; exists (lit "address)"); reflexivity]. }
  { apply Forall2_cons; [leaf_param; repeat split; keys_open|constructor]. }
  { apply Forall2_cons; [leaf_param; repeat split; keys_open|constructor]. }
  apply Forall2_cons; [std_item; eapply ij_constructor; try reflexivity; constructor|].
  apply Forall2_cons; [std_item; apply ij_fallback; reflexivity|].
  apply Forall2_cons; [std_item; eapply ij_event; try reflexivity; [split; auto|]|].
  { apply Forall2_cons; [leaf_param; repeat split; [left; reflexivity|keys_open]|]. apply Forall2_cons; [|constructor].
    std_item. split; [eapply ds_tuple; [reflexivity|apply abi_name_write; reflexivity|reflexivity|reflexivity|]|repeat split; [right; auto|keys_open]].
    apply cs_cons with (Some (lit "price")) None; try reflexivity; [eapply ds_leaf; [reflexivity|apply abi_name_write; reflexivity|reflexivity|reflexivity]|keys_open|].
    apply cs_cons with None None; try reflexivity; [eapply ds_leaf; [reflexivity|apply abi_name_write; reflexivity|reflexivity|reflexivity]|keys_open|constructor]. }
  apply Forall2_cons; [std_item; eapply ij_function; try reflexivity; try constructor; auto; reflexivity|].
  apply Forall2_cons; [std_item; eapply ij_function; try reflexivity; try constructor; auto; reflexivity|].
  constructor.
Qed.
(** A loadable text whose contract, written again, is nested too deep. *)
Definition deep_components (n : nat) : json :=
  Nat.iter n (fun j => JObj [(lit "type", JStr (lit "tuple")); (lit "components", JArr [j])])
    (JObj [(lit "type", JStr (lit "((bool))")); (lit "components", JArr [])]).
Definition deep_json : json :=
  JArr [JObj [(lit "type", JStr (lit "constructor")); (lit "inputs", JArr
    [JObj [(lit "name", JStr (lit "x")); (lit "type", JStr (lit "tuple")); (lit "components", JArr [deep_components 60])]])]].
Definition indexed_param : json := JObj [(lit "name", JStr (lit "a")); (lit "type", JStr (lit "bool")); (lit "baseType", JStr (lit "bool"))].

(** * Sample files and commands *)
From Verif Require Import Base Types TypeNames TypeNamesSpec Function Tokenizer TokenSpec Event EventSpec Json JsonSpec Contract ContractSpec JsonSamples Cli CliSpec Samples.
From Coq Require Import String.
Local Open Scope N_scope.
Local Open Scope list_scope.

Definition sample_files (path : str) : option json := if str_eqb path (lit "shop.json") then Some sample_json else None.
Lemma sample_file : abi_file sample_files (lit "shop.json") sample_operations.
Proof. exists sample_json. split; [reflexivity|]. split; [exact sample_standard|]. vm_compute. split; [reflexivity|discriminate]. Qed.
(** Two functions with the same name and different inputs. *)
Definition pay_address : str := lit "pay(address):(bool)".
Definition pay_nothing : str := lit "pay()".

(** * The tests of the command line program and of the derived code, run on
    the model

    As in RepoTests, nothing here is a proof of a property.  The ABI files
    of /repo/res are copied as JSON trees. *)
From Verif Require Import Base Types TypeNames Encoder Decoder Keccak Function Tokenizer Event Json Contract Cli Heck Derive RepoTests.
From Coq Require Import String.
Local Open Scope N_scope.
Local Open Scope list_scope.

(** /repo/res/test.abi *)
Definition abi_test : json :=
  JArr [
    JObj [(lit "inputs", JArr [JObj [(lit "name", JStr (lit "a")); (lit "type", JStr (lit "bool"))]]); (lit "name", JStr (lit "foo")); (lit "outputs", JArr []); (lit "type", JStr (lit "function"))];
    JObj [(lit "inputs", JArr [JObj [(lit "name", JStr (lit "a")); (lit "type", JStr (lit "bool"))]]); (lit "name", JStr (lit "bar")); (lit "outputs", JArr []); (lit "type", JStr (lit "function"))];
    JObj [(lit "inputs", JArr [JObj [(lit "name", JStr (lit "a")); (lit "type", JStr (lit "string"))]]); (lit "name", JStr (lit "bar")); (lit "outputs", JArr [JObj [(lit "name", JStr (lit "b")); (lit "type", JStr (lit "uint256"))]]); (lit "type", JStr (lit "function"))]].
(** /repo/res/foo.abi *)
Definition abi_foo : json :=
  JArr [
    JObj [(lit "constant", JBool false); (lit "inputs", JArr [JObj [(lit "name", JStr (lit "hello")); (lit "type", JStr (lit "address"))]]); (lit "name", JStr (lit "bar")); (lit "outputs", JArr [JObj [(lit "name", JStr (lit "")); (lit "type", JStr (lit "bool"))]]); (lit "type", JStr (lit "function"))]].
(** /repo/res/event.abi *)
Definition abi_event : json :=
  JArr [
    JObj [(lit "anonymous", JBool true); (lit "inputs", JArr [JObj [(lit "indexed", JBool true); (lit "name", JStr (lit "a")); (lit "type", JStr (lit "bool"))]; JObj [(lit "indexed", JBool false); (lit "name", JStr (lit "b")); (lit "type", JStr (lit "address"))]]); (lit "name", JStr (lit "Event")); (lit "type", JStr (lit "event"))]].
(** /repo/res/constructor.abi *)
Definition abi_constructor : json :=
  JArr [
    JObj [(lit "inputs", JArr [JObj [(lit "name", JStr (lit "a")); (lit "type", JStr (lit "address"))]]); (lit "type", JStr (lit "constructor"))]].
(** /repo/res/eip20.abi *)
Definition abi_eip20 : json :=
  JArr [
    JObj [(lit "constant", JBool false); (lit "inputs", JArr [JObj [(lit "name", JStr (lit "_spender")); (lit "type", JStr (lit "address"))]; JObj [(lit "name", JStr (lit "_value")); (lit "type", JStr (lit "uint256"))]]); (lit "name", JStr (lit "approve")); (lit "outputs", JArr [JObj [(lit "name", JStr (lit "success")); (lit "type", JStr (lit "bool"))]]); (lit "type", JStr (lit "function"))];
    JObj [(lit "constant", JBool true); (lit "inputs", JArr []); (lit "name", JStr (lit "totalSupply")); (lit "outputs", JArr [JObj [(lit "name", JStr (lit "total")); (lit "type", JStr (lit "uint256"))]]); (lit "type", JStr (lit "function"))];
    JObj [(lit "constant", JBool false); (lit "inputs", JArr [JObj [(lit "name", JStr (lit "_from")); (lit "type", JStr (lit "address"))]; JObj [(lit "name", JStr (lit "_to")); (lit "type", JStr (lit "address"))]; JObj [(lit "name", JStr (lit "_value")); (lit "type", JStr (lit "uint256"))]]); (lit "name", JStr (lit "transferFrom")); (lit "outputs", JArr [JObj [(lit "name", JStr (lit "success")); (lit "type", JStr (lit "bool"))]]); (lit "type", JStr (lit "function"))];
    JObj [(lit "constant", JBool true); (lit "inputs", JArr [JObj [(lit "name", JStr (lit "_owner")); (lit "type", JStr (lit "address"))]]); (lit "name", JStr (lit "balanceOf")); (lit "outputs", JArr [JObj [(lit "name", JStr (lit "balance")); (lit "type", JStr (lit "uint256"))]]); (lit "type", JStr (lit "function"))];
    JObj [(lit "constant", JBool false); (lit "inputs", JArr [JObj [(lit "name", JStr (lit "_to")); (lit "type", JStr (lit "address"))]; JObj [(lit "name", JStr (lit "_value")); (lit "type", JStr (lit "uint256"))]]); (lit "name", JStr (lit "transfer")); (lit "outputs", JArr [JObj [(lit "name", JStr (lit "success")); (lit "type", JStr (lit "bool"))]]); (lit "type", JStr (lit "function"))];
    JObj [(lit "constant", JBool true); (lit "inputs", JArr [JObj [(lit "name", JStr (lit "_owner")); (lit "type", JStr (lit "address"))]; JObj [(lit "name", JStr (lit "_spender")); (lit "type", JStr (lit "address"))]]); (lit "name", JStr (lit "allowance")); (lit "outputs", JArr [JObj [(lit "name", JStr (lit "remaining")); (lit "type", JStr (lit "uint256"))]]); (lit "type", JStr (lit "function"))];
    JObj [(lit "anonymous", JBool false); (lit "inputs", JArr [JObj [(lit "indexed", JBool true); (lit "name", JStr (lit "from")); (lit "type", JStr (lit "address"))]; JObj [(lit "indexed", JBool true); (lit "name", JStr (lit "to")); (lit "type", JStr (lit "address"))]; JObj [(lit "indexed", JBool false); (lit "name", JStr (lit "value")); (lit "type", JStr (lit "uint256"))]]); (lit "name", JStr (lit "Transfer")); (lit "type", JStr (lit "event"))];
    JObj [(lit "anonymous", JBool false); (lit "inputs", JArr [JObj [(lit "indexed", JBool true); (lit "name", JStr (lit "owner")); (lit "type", JStr (lit "address"))]; JObj [(lit "indexed", JBool true); (lit "name", JStr (lit "spender")); (lit "type", JStr (lit "address"))]; JObj [(lit "indexed", JBool false); (lit "name", JStr (lit "value")); (lit "type", JStr (lit "uint256"))]]); (lit "name", JStr (lit "Approval")); (lit "type", JStr (lit "event"))]].
(** /repo/res/Validators.abi *)
Definition abi_Validators : json :=
  JArr [
    JObj [(lit "constant", JBool true); (lit "inputs", JArr [JObj [(lit "name", JStr (lit "")); (lit "type", JStr (lit "uint256"))]]); (lit "name", JStr (lit "validators")); (lit "outputs", JArr [JObj [(lit "name", JStr (lit "")); (lit "type", JStr (lit "address"))]]); (lit "payable", JBool false); (lit "stateMutability", JStr (lit "view")); (lit "type", JStr (lit "function"))];
    JObj [(lit "constant", JBool false); (lit "inputs", JArr [JObj [(lit "name", JStr (lit "newValidators")); (lit "type", JStr (lit "address[2]"))]]); (lit "name", JStr (lit "addTwoValidators")); (lit "outputs", JArr []); (lit "payable", JBool false); (lit "stateMutability", JStr (lit "nonpayable")); (lit "type", JStr (lit "function"))];
    JObj [(lit "constant", JBool false); (lit "inputs", JArr [JObj [(lit "name", JStr (lit "newValidators")); (lit "type", JStr (lit "address[]"))]]); (lit "name", JStr (lit "setValidators")); (lit "outputs", JArr []); (lit "payable", JBool false); (lit "stateMutability", JStr (lit "nonpayable")); (lit "type", JStr (lit "function"))];
    JObj [(lit "inputs", JArr [JObj [(lit "name", JStr (lit "newValidators")); (lit "type", JStr (lit "address[]"))]]); (lit "payable", JBool false); (lit "stateMutability", JStr (lit "nonpayable")); (lit "type", JStr (lit "constructor"))];
    JObj [(lit "anonymous", JBool false); (lit "inputs", JArr [JObj [(lit "indexed", JBool true); (lit "name", JStr (lit "validators")); (lit "type", JStr (lit "address[]"))]]); (lit "name", JStr (lit "Changed")); (lit "type", JStr (lit "event"))];
    JObj [(lit "constant", JBool false); (lit "inputs", JArr [JObj [(lit "name", JStr (lit "title")); (lit "type", JStr (lit "string"))]]); (lit "name", JStr (lit "setTitle")); (lit "outputs", JArr []); (lit "payable", JBool false); (lit "stateMutability", JStr (lit "nonpayable")); (lit "type", JStr (lit "function"))]].
(** /repo/res/Operations.abi *)
Definition abi_Operations : json :=
  JArr [
    JObj [(lit "constant", JBool false); (lit "inputs", JArr [JObj [(lit "name", JStr (lit "_client")); (lit "type", JStr (lit "bytes32"))]; JObj [(lit "name", JStr (lit "_newOwner")); (lit "type", JStr (lit "address"))]]); (lit "name", JStr (lit "resetClientOwner")); (lit "outputs", JArr []); (lit "payable", JBool false); (lit "type", JStr (lit "function"))];
    JObj [(lit "constant", JBool true); (lit "inputs", JArr [JObj [(lit "name", JStr (lit "_client")); (lit "type", JStr (lit "bytes32"))]; JObj [(lit "name", JStr (lit "_release")); (lit "type", JStr (lit "bytes32"))]]); (lit "name", JStr (lit "isLatest")); (lit "outputs", JArr [JObj [(lit "name", JStr (lit "")); (lit "type", JStr (lit "bool"))]]); (lit "payable", JBool false); (lit "type", JStr (lit "function"))];
    JObj [(lit "constant", JBool false); (lit "inputs", JArr [JObj [(lit "name", JStr (lit "_txid")); (lit "type", JStr (lit "bytes32"))]]); (lit "name", JStr (lit "rejectTransaction")); (lit "outputs", JArr []); (lit "payable", JBool false); (lit "type", JStr (lit "function"))];
    JObj [(lit "constant", JBool false); (lit "inputs", JArr [JObj [(lit "name", JStr (lit "_newOwner")); (lit "type", JStr (lit "address"))]]); (lit "name", JStr (lit "setOwner")); (lit "outputs", JArr []); (lit "payable", JBool false); (lit "type", JStr (lit "function"))];
    JObj [(lit "constant", JBool false); (lit "inputs", JArr [JObj [(lit "name", JStr (lit "_number")); (lit "type", JStr (lit "uint32"))]; JObj [(lit "name", JStr (lit "_name")); (lit "type", JStr (lit "bytes32"))]; JObj [(lit "name", JStr (lit "_hard")); (lit "type", JStr (lit "bool"))]; JObj [(lit "name", JStr (lit "_spec")); (lit "type", JStr (lit "bytes32"))]]); (lit "name", JStr (lit "proposeFork")); (lit "outputs", JArr []); (lit "payable", JBool false); (lit "type", JStr (lit "function"))];
    JObj [(lit "constant", JBool false); (lit "inputs", JArr [JObj [(lit "name", JStr (lit "_client")); (lit "type", JStr (lit "bytes32"))]]); (lit "name", JStr (lit "removeClient")); (lit "outputs", JArr []); (lit "payable", JBool false); (lit "type", JStr (lit "function"))];
    JObj [(lit "constant", JBool true); (lit "inputs", JArr [JObj [(lit "name", JStr (lit "_client")); (lit "type", JStr (lit "bytes32"))]; JObj [(lit "name", JStr (lit "_release")); (lit "type", JStr (lit "bytes32"))]]); (lit "name", JStr (lit "release")); (lit "outputs", JArr [JObj [(lit "name", JStr (lit "o_forkBlock")); (lit "type", JStr (lit "uint32"))]; JObj [(lit "name", JStr (lit "o_track")); (lit "type", JStr (lit "uint8"))]; JObj [(lit "name", JStr (lit "o_semver")); (lit "type", JStr (lit "uint24"))]; JObj [(lit "name", JStr (lit "o_critical")); (lit "type", JStr (lit "bool"))]]); (lit "payable", JBool false); (lit "type", JStr (lit "function"))];
    JObj [(lit "constant", JBool true); (lit "inputs", JArr [JObj [(lit "name", JStr (lit "_client")); (lit "type", JStr (lit "bytes32"))]; JObj [(lit "name", JStr (lit "_checksum")); (lit "type", JStr (lit "bytes32"))]]); (lit "name", JStr (lit "build")); (lit "outputs", JArr [JObj [(lit "name", JStr (lit "o_release")); (lit "type", JStr (lit "bytes32"))]; JObj [(lit "name", JStr (lit "o_platform")); (lit "type", JStr (lit "bytes32"))]]); (lit "payable", JBool false); (lit "type", JStr (lit "function"))];
    JObj [(lit "constant", JBool false); (lit "inputs", JArr []); (lit "name", JStr (lit "rejectFork")); (lit "outputs", JArr []); (lit "payable", JBool false); (lit "type", JStr (lit "function"))];
    JObj [(lit "constant", JBool true); (lit "inputs", JArr [JObj [(lit "name", JStr (lit "")); (lit "type", JStr (lit "bytes32"))]]); (lit "name", JStr (lit "client")); (lit "outputs", JArr [JObj [(lit "name", JStr (lit "owner")); (lit "type", JStr (lit "address"))]; JObj [(lit "name", JStr (lit "required")); (lit "type", JStr (lit "bool"))]]); (lit "payable", JBool false); (lit "type", JStr (lit "function"))];
    JObj [(lit "constant", JBool false); (lit "inputs", JArr [JObj [(lit "name", JStr (lit "_newOwner")); (lit "type", JStr (lit "address"))]]); (lit "name", JStr (lit "setClientOwner")); (lit "outputs", JArr []); (lit "payable", JBool false); (lit "type", JStr (lit "function"))];
    JObj [(lit "constant", JBool true); (lit "inputs", JArr [JObj [(lit "name", JStr (lit "")); (lit "type", JStr (lit "uint32"))]]); (lit "name", JStr (lit "fork")); (lit "outputs", JArr [JObj [(lit "name", JStr (lit "name")); (lit "type", JStr (lit "bytes32"))]; JObj [(lit "name", JStr (lit "spec")); (lit "type", JStr (lit "bytes32"))]; JObj [(lit "name", JStr (lit "hard")); (lit "type", JStr (lit "bool"))]; JObj [(lit "name", JStr (lit "ratified")); (lit "type", JStr (lit "bool"))]; JObj [(lit "name", JStr (lit "requiredCount")); (lit "type", JStr (lit "uint256"))]]); (lit "payable", JBool false); (lit "type", JStr (lit "function"))];
    JObj [(lit "constant", JBool false); (lit "inputs", JArr [JObj [(lit "name", JStr (lit "_release")); (lit "type", JStr (lit "bytes32"))]; JObj [(lit "name", JStr (lit "_platform")); (lit "type", JStr (lit "bytes32"))]; JObj [(lit "name", JStr (lit "_checksum")); (lit "type", JStr (lit "bytes32"))]]); (lit "name", JStr (lit "addChecksum")); (lit "outputs", JArr []); (lit "payable", JBool false); (lit "type", JStr (lit "function"))];
    JObj [(lit "constant", JBool false); (lit "inputs", JArr [JObj [(lit "name", JStr (lit "_txid")); (lit "type", JStr (lit "bytes32"))]]); (lit "name", JStr (lit "confirmTransaction")); (lit "outputs", JArr [JObj [(lit "name", JStr (lit "txSuccess")); (lit "type", JStr (lit "uint256"))]]); (lit "payable", JBool false); (lit "type", JStr (lit "function"))];
    JObj [(lit "constant", JBool true); (lit "inputs", JArr [JObj [(lit "name", JStr (lit "")); (lit "type", JStr (lit "bytes32"))]]); (lit "name", JStr (lit "proxy")); (lit "outputs", JArr [JObj [(lit "name", JStr (lit "requiredCount")); (lit "type", JStr (lit "uint256"))]; JObj [(lit "name", JStr (lit "to")); (lit "type", JStr (lit "address"))]; JObj [(lit "name", JStr (lit "data")); (lit "type", JStr (lit "bytes"))]; JObj [(lit "name", JStr (lit "value")); (lit "type", JStr (lit "uint256"))]; JObj [(lit "name", JStr (lit "gas")); (lit "type", JStr (lit "uint256"))]]); (lit "payable", JBool false); (lit "type", JStr (lit "function"))];
    JObj [(lit "constant", JBool false); (lit "inputs", JArr [JObj [(lit "name", JStr (lit "_client")); (lit "type", JStr (lit "bytes32"))]; JObj [(lit "name", JStr (lit "_owner")); (lit "type", JStr (lit "address"))]]); (lit "name", JStr (lit "addClient")); (lit "outputs", JArr []); (lit "payable", JBool false); (lit "type", JStr (lit "function"))];
    JObj [(lit "constant", JBool true); (lit "inputs", JArr [JObj [(lit "name", JStr (lit "")); (lit "type", JStr (lit "address"))]]); (lit "name", JStr (lit "clientOwner")); (lit "outputs", JArr [JObj [(lit "name", JStr (lit "")); (lit "type", JStr (lit "bytes32"))]]); (lit "payable", JBool false); (lit "type", JStr (lit "function"))];
    JObj [(lit "constant", JBool false); (lit "inputs", JArr [JObj [(lit "name", JStr (lit "_txid")); (lit "type", JStr (lit "bytes32"))]; JObj [(lit "name", JStr (lit "_to")); (lit "type", JStr (lit "address"))]; JObj [(lit "name", JStr (lit "_data")); (lit "type", JStr (lit "bytes"))]; JObj [(lit "name", JStr (lit "_value")); (lit "type", JStr (lit "uint256"))]; JObj [(lit "name", JStr (lit "_gas")); (lit "type", JStr (lit "uint256"))]]); (lit "name", JStr (lit "proposeTransaction")); (lit "outputs", JArr [JObj [(lit "name", JStr (lit "txSuccess")); (lit "type", JStr (lit "uint256"))]]); (lit "payable", JBool false); (lit "type", JStr (lit "function"))];
    JObj [(lit "constant", JBool true); (lit "inputs", JArr []); (lit "name", JStr (lit "grandOwner")); (lit "outputs", JArr [JObj [(lit "name", JStr (lit "")); (lit "type", JStr (lit "address"))]]); (lit "payable", JBool false); (lit "type", JStr (lit "function"))];
    JObj [(lit "constant", JBool false); (lit "inputs", JArr [JObj [(lit "name", JStr (lit "_release")); (lit "type", JStr (lit "bytes32"))]; JObj [(lit "name", JStr (lit "_forkBlock")); (lit "type", JStr (lit "uint32"))]; JObj [(lit "name", JStr (lit "_track")); (lit "type", JStr (lit "uint8"))]; JObj [(lit "name", JStr (lit "_semver")); (lit "type", JStr (lit "uint24"))]; JObj [(lit "name", JStr (lit "_critical")); (lit "type", JStr (lit "bool"))]]); (lit "name", JStr (lit "addRelease")); (lit "outputs", JArr []); (lit "payable", JBool false); (lit "type", JStr (lit "function"))];
    JObj [(lit "constant", JBool false); (lit "inputs", JArr []); (lit "name", JStr (lit "acceptFork")); (lit "outputs", JArr []); (lit "payable", JBool false); (lit "type", JStr (lit "function"))];
    JObj [(lit "constant", JBool true); (lit "inputs", JArr []); (lit "name", JStr (lit "clientsRequired")); (lit "outputs", JArr [JObj [(lit "name", JStr (lit "")); (lit "type", JStr (lit "uint32"))]]); (lit "payable", JBool false); (lit "type", JStr (lit "function"))];
    JObj [(lit "constant", JBool true); (lit "inputs", JArr [JObj [(lit "name", JStr (lit "_client")); (lit "type", JStr (lit "bytes32"))]; JObj [(lit "name", JStr (lit "_release")); (lit "type", JStr (lit "bytes32"))]]); (lit "name", JStr (lit "track")); (lit "outputs", JArr [JObj [(lit "name", JStr (lit "")); (lit "type", JStr (lit "uint8"))]]); (lit "payable", JBool false); (lit "type", JStr (lit "function"))];
    JObj [(lit "constant", JBool false); (lit "inputs", JArr [JObj [(lit "name", JStr (lit "_client")); (lit "type", JStr (lit "bytes32"))]; JObj [(lit "name", JStr (lit "_r")); (lit "type", JStr (lit "bool"))]]); (lit "name", JStr (lit "setClientRequired")); (lit "outputs", JArr []); (lit "payable", JBool false); (lit "type", JStr (lit "function"))];
    JObj [(lit "constant", JBool true); (lit "inputs", JArr []); (lit "name", JStr (lit "latestFork")); (lit "outputs", JArr [JObj [(lit "name", JStr (lit "")); (lit "type", JStr (lit "uint32"))]]); (lit "payable", JBool false); (lit "type", JStr (lit "function"))];
    JObj [(lit "constant", JBool true); (lit "inputs", JArr [JObj [(lit "name", JStr (lit "_client")); (lit "type", JStr (lit "bytes32"))]; JObj [(lit "name", JStr (lit "_track")); (lit "type", JStr (lit "uint8"))]]); (lit "name", JStr (lit "latestInTrack")); (lit "outputs", JArr [JObj [(lit "name", JStr (lit "")); (lit "type", JStr (lit "bytes32"))]]); (lit "payable", JBool false); (lit "type", JStr (lit "function"))];
    JObj [(lit "constant", JBool true); (lit "inputs", JArr [JObj [(lit "name", JStr (lit "_client")); (lit "type", JStr (lit "bytes32"))]; JObj [(lit "name", JStr (lit "_release")); (lit "type", JStr (lit "bytes32"))]; JObj [(lit "name", JStr (lit "_platform")); (lit "type", JStr (lit "bytes32"))]]); (lit "name", JStr (lit "checksum")); (lit "outputs", JArr [JObj [(lit "name", JStr (lit "")); (lit "type", JStr (lit "bytes32"))]]); (lit "payable", JBool false); (lit "type", JStr (lit "function"))];
    JObj [(lit "constant", JBool true); (lit "inputs", JArr []); (lit "name", JStr (lit "proposedFork")); (lit "outputs", JArr [JObj [(lit "name", JStr (lit "")); (lit "type", JStr (lit "uint32"))]]); (lit "payable", JBool false); (lit "type", JStr (lit "function"))]].
(** /repo/res/urlhint.abi *)
Definition abi_urlhint : json :=
  JArr [
    JObj [(lit "constant", JBool false); (lit "inputs", JArr [JObj [(lit "name", JStr (lit "_content")); (lit "type", JStr (lit "bytes32"))]; JObj [(lit "name", JStr (lit "_url")); (lit "type", JStr (lit "string"))]]); (lit "name", JStr (lit "hintURL")); (lit "outputs", JArr []); (lit "type", JStr (lit "function"))];
    JObj [(lit "constant", JBool false); (lit "inputs", JArr [JObj [(lit "name", JStr (lit "_content")); (lit "type", JStr (lit "bytes32"))]; JObj [(lit "name", JStr (lit "_accountSlashRepo")); (lit "type", JStr (lit "string"))]; JObj [(lit "name", JStr (lit "_commit")); (lit "type", JStr (lit "bytes20"))]]); (lit "name", JStr (lit "hint")); (lit "outputs", JArr []); (lit "type", JStr (lit "function"))];
    JObj [(lit "constant", JBool true); (lit "inputs", JArr [JObj [(lit "name", JStr (lit "")); (lit "type", JStr (lit "bytes32"))]]); (lit "name", JStr (lit "entries")); (lit "outputs", JArr [JObj [(lit "name", JStr (lit "accountSlashRepo")); (lit "type", JStr (lit "string"))]; JObj [(lit "name", JStr (lit "commit")); (lit "type", JStr (lit "bytes20"))]; JObj [(lit "name", JStr (lit "owner")); (lit "type", JStr (lit "address"))]]); (lit "type", JStr (lit "function"))];
    JObj [(lit "constant", JBool false); (lit "inputs", JArr [JObj [(lit "name", JStr (lit "_content")); (lit "type", JStr (lit "bytes32"))]]); (lit "name", JStr (lit "unhint")); (lit "outputs", JArr []); (lit "type", JStr (lit "function"))]].
(** /repo/res/test_rust_keywords.abi *)
Definition abi_test_rust_keywords : json :=
  JArr [
    JObj [(lit "inputs", JArr [JObj [(lit "name", JStr (lit "self")); (lit "type", JStr (lit "bool"))]]); (lit "name", JStr (lit "foo")); (lit "outputs", JArr []); (lit "type", JStr (lit "function"))]].

Definition files (path : str) : option json :=
  if str_eqb path (lit "../res/test.abi") then Some abi_test
  else if str_eqb path (lit "../res/foo.abi") then Some abi_foo
  else if str_eqb path (lit "../res/event.abi") then Some abi_event
  else None.
Local Ltac solve_test := intros []; vm_compute; repeat split; reflexivity.

(** /repo/cli/src/main.rs:257 *)
Example cli_simple_encode : forall p : profile,
  execute p files (EncodeParams [lit "bool"; lit "1"] false) = Ok (lit "0000000000000000000000000000000000000000000000000000000000000001").
Proof. solve_test. Qed.

(** /repo/cli/src/main.rs:264 *)
Example cli_int_encode : forall p : profile,
  execute p files (EncodeParams [lit "int256"; lit "-2"] true) = Ok (lit "fffffffffffffffffffffffffffffffffffffffffffffffffffffffffffffffe") /\
  execute p files (EncodeParams [lit "int256"; lit "-0"] true) = Ok (lit "0000000000000000000000000000000000000000000000000000000000000000").
Proof. solve_test. Qed.

(** /repo/cli/src/main.rs:275 *)
Example cli_uint_encode_must_be_positive : forall p : profile,
  is_err (execute p files (EncodeParams [lit "uint256"; lit "-2"] true)) = true.
Proof. solve_test. Qed.

(** /repo/cli/src/main.rs:281 *)
Example cli_uint_encode_requires_decimal_inputs : forall p : profile,
  is_err (execute p files (EncodeParams [lit "uint256"; lit "123abc"] true)) = true.
Proof. solve_test. Qed.

(** /repo/cli/src/main.rs:290 *)
Example cli_uint_encode_big_numbers : forall p : profile,
  execute p files (EncodeParams [lit "uint256"; lit "100000000000000000000000000000000022222222222222221111111111111"] true) = Ok (lit "0000000000003e3aeb4ae1383562f4b82261d96a3f7a5f62ca19599c1ad6d1c7").
Proof. solve_test. Qed.

(** /repo/cli/src/main.rs:299 *)
Example cli_int_encode_large_negative_numbers : forall p : profile,
  execute p files (EncodeParams [lit "int256"; lit "-57896044618658097711785492504343953926634992332820282019728792003956564819968"] true) = Ok (lit "8000000000000000000000000000000000000000000000000000000000000000") /\
  is_err (execute p files (EncodeParams [lit "int256"; lit "-57896044618658097711785492504343953926634992332820282019728792003956564819969"] true)) = true.
Proof. solve_test. Qed.

(** /repo/cli/src/main.rs:311 *)
Example cli_int_encode_large_positive_numbers : forall p : profile,
  is_err (execute p files (EncodeParams [lit "int256"; lit "100000000000000000000000000000000022222222222222221111111111111333333333344556"] true)) = true /\
  execute p files (EncodeParams [lit "int256"; lit "57896044618658097711785492504343953926634992332820282019728792003956564819967"] true) = Ok (lit "7fffffffffffffffffffffffffffffffffffffffffffffffffffffffffffffff") /\
  is_err (execute p files (EncodeParams [lit "int256"; lit "57896044618658097711785492504343953926634992332820282019728792003956564819968"] true)) = true.
Proof. solve_test. Qed.

(** /repo/cli/src/main.rs:327 *)
Example cli_multi_encode : forall p : profile,
  execute p files (EncodeParams [lit "bool"; lit "1"; lit "string"; lit "gavofyork"; lit "bool"; lit "0"] false) = Ok (lit "00000000000000000000000000000000000000000000000000000000000000010000000000000000000000000000000000000000000000000000000000000060000000000000000000000000000000000000000000000000000000000000000000000000000000000000000000000000000000000000000000000000000000096761766f66796f726b0000000000000000000000000000000000000000000000").
Proof. solve_test. Qed.

(** /repo/cli/src/main.rs:334 *)
Example cli_array_encode : forall p : profile,
  execute p files (EncodeParams [lit "bool[]"; lit "[1,0,false]"] false) = Ok (lit "00000000000000000000000000000000000000000000000000000000000000200000000000000000000000000000000000000000000000000000000000000003000000000000000000000000000000000000000000000000000000000000000100000000000000000000000000000000000000000000000000000000000000000000000000000000000000000000000000000000000000000000000000000000").
Proof. solve_test. Qed.

(** /repo/cli/src/main.rs:341 *)
Example cli_function_encode_by_name : forall p : profile,
  execute p files (EncodeFunction (lit "../res/test.abi") (lit "foo") [lit "1"] false) = Ok (lit "455575780000000000000000000000000000000000000000000000000000000000000001").
Proof. solve_test. Qed.

(** /repo/cli/src/main.rs:348 *)
Example cli_function_encode_by_signature : forall p : profile,
  execute p files (EncodeFunction (lit "../res/test.abi") (lit "foo(bool)") [lit "1"] false) = Ok (lit "455575780000000000000000000000000000000000000000000000000000000000000001").
Proof. solve_test. Qed.

(** /repo/cli/src/main.rs:355 *)
Example cli_nonexistent_function : forall p : profile,
  is_err (execute p files (EncodeFunction (lit "../res/test.abi") (lit "nope") [lit "1"] false)) = true.
Proof. solve_test. Qed.

(** /repo/cli/src/main.rs:362 *)
Example cli_overloaded_function_encode_by_name : forall p : profile,
  is_err (execute p files (EncodeFunction (lit "../res/test.abi") (lit "bar") [lit "1"] false)) = true.
Proof. solve_test. Qed.

(** /repo/cli/src/main.rs:369 *)
Example cli_overloaded_function_encode_by_first_signature : forall p : profile,
  execute p files (EncodeFunction (lit "../res/test.abi") (lit "bar(bool)") [lit "1"] false) = Ok (lit "6fae94120000000000000000000000000000000000000000000000000000000000000001").
Proof. solve_test. Qed.

(** /repo/cli/src/main.rs:376 *)
Example cli_overloaded_function_encode_by_second_signature : forall p : profile,
  execute p files (EncodeFunction (lit "../res/test.abi") (lit "bar(string):(uint256)") [lit "1"] false) = Ok (lit "d473a8ed000000000000000000000000000000000000000000000000000000000000002000000000000000000000000000000000000000000000000000000000000000013100000000000000000000000000000000000000000000000000000000000000").
Proof. solve_test. Qed.

(** /repo/cli/src/main.rs:385 *)
Example cli_simple_decode : forall p : profile,
  execute p files (DecodeParams [lit "bool"] (lit "0000000000000000000000000000000000000000000000000000000000000001")) = Ok (lit "bool true").
Proof. solve_test. Qed.

(** /repo/cli/src/main.rs:393 *)
Example cli_int_decode : forall p : profile,
  execute p files (DecodeParams [lit "int256"] (lit "fffffffffffffffffffffffffffffffffffffffffffffffffffffffffffffffe")) = Ok (lit "int256 fffffffffffffffffffffffffffffffffffffffffffffffffffffffffffffffe").
Proof. solve_test. Qed.

(** /repo/cli/src/main.rs:401 *)
Example cli_multi_decode : forall p : profile,
  execute p files (DecodeParams [lit "bool"; lit "string"; lit "bool"] (lit "00000000000000000000000000000000000000000000000000000000000000010000000000000000000000000000000000000000000000000000000000000060000000000000000000000000000000000000000000000000000000000000000000000000000000000000000000000000000000000000000000000000000000096761766f66796f726b0000000000000000000000000000000000000000000000")) = Ok (lit "bool true" ++ 10 :: lit "string gavofyork" ++ 10 :: lit "bool false").
Proof. solve_test. Qed.

(** /repo/cli/src/main.rs:410 *)
Example cli_array_decode : forall p : profile,
  execute p files (DecodeParams [lit "bool[]"] (lit "00000000000000000000000000000000000000000000000000000000000000200000000000000000000000000000000000000000000000000000000000000003000000000000000000000000000000000000000000000000000000000000000100000000000000000000000000000000000000000000000000000000000000000000000000000000000000000000000000000000000000000000000000000000")) = Ok (lit "bool[] [true,false,false]").
Proof. solve_test. Qed.

(** /repo/cli/src/main.rs:417 *)
Example cli_abi_decode : forall p : profile,
  execute p files (DecodeFunction (lit "../res/foo.abi") (lit "bar") (lit "0000000000000000000000000000000000000000000000000000000000000001")) = Ok (lit "bool true").
Proof. solve_test. Qed.

(** /repo/cli/src/main.rs:424 *)
Example cli_log_decode : forall p : profile,
  execute p files (DecodeLog (lit "../res/event.abi") (lit "Event") [lit "0000000000000000000000000000000000000000000000000000000000000001"] (lit "0000000000000000000000004444444444444444444444444444444444444444")) = Ok (lit "a true" ++ 10 :: lit "b 4444444444444444444444444444444444444444").
Proof. solve_test. Qed.

(** /repo/cli/src/main.rs:432 *)
Example cli_log_decode_signature : forall p : profile,
  execute p files (DecodeLog (lit "../res/event.abi") (lit "Event(bool,address)") [lit "0000000000000000000000000000000000000000000000000000000000000001"] (lit "0000000000000000000000004444444444444444444444444444444444444444")) = Ok (lit "a true" ++ 10 :: lit "b 4444444444444444444444444444444444444444").
Proof. solve_test. Qed.

(** /repo/cli/src/main.rs:440 *)
Example cli_nonexistent_event : forall p : profile,
  is_err (execute p files (DecodeLog (lit "../res/event.abi") (lit "Nope(bool,address)") [lit "0000000000000000000000000000000000000000000000000000000000000000"] (lit "0000000000000000000000004444444444444444444444444444444444444444"))) = true.
Proof. solve_test. Qed.

(** ** /repo/tests/src/lib.rs *)
Definition derived (p : profile) (abi : json) : res DContract :=
  do c <- load p abi;
  derive_contract p c (c_functions c) (c_events c).
Definition derived_function (p : profile) (abi : json) (module : string) : res DFunction :=
  do d <- derived p abi;
  match find (fun f => str_eqb (df_module f) (lit module)) (dc_functions d) with Some f => Ok f | None => Panic end.
Definition derived_event (p : profile) (abi : json) (module : string) : res DEvent :=
  do d <- derived p abi;
  match find (fun e => str_eqb (de_module e) (lit module)) (dc_events d) with Some e => Ok e | None => Panic end.

(** /repo/tests/src/lib.rs:9-14: all of the contracts compile *)
Example derive_compiles : forall p : profile,
  map (fun abi => is_ok (derived p abi)) [abi_eip20; abi_constructor; abi_Validators; abi_Operations; abi_urlhint; abi_test_rust_keywords] =
  [true; true; true; true; true; true].
Proof. solve_test. Qed.

Definition first : rval := RAddress (repeat x11 20).
Definition second : rval := RAddress (repeat x22 20).
(** /repo/tests/src/lib.rs:31 *)
Example derive_test_encoding_function_input_as_array : forall p : profile,
  (do f <- derived_function p abi_Validators "set_validators"; df_encode_input f [RVec [first; second]]) =
  Ok (hx "9300c9260000000000000000000000000000000000000000000000000000000000000020000000000000000000000000000000000000000000000000000000000000000200000000000000000000000011111111111111111111111111111111111111110000000000000000000000002222222222222222222222222222222222222222").
Proof. solve_test. Qed.

(** /repo/tests/src/lib.rs:48 *)
Example derive_test_decoding_function_output : forall p : profile,
  (do f <- derived_function p abi_eip20 "total_supply"; df_decode_output f (hx "000000000000000000000000000000000000000000000000000000000036455B")) =
  Ok [RUint 3556699].
Proof. solve_test. Qed.

(** /repo/tests/src/lib.rs:65 *)
Example derive_test_encoding_constructor_as_array : forall p : profile,
  (do d <- derived p abi_Validators; match dc_constructor d with Some k => dk_encode k [] [RVec [first; second]] | None => Panic end) =
  Ok (hx "0000000000000000000000000000000000000000000000000000000000000020000000000000000000000000000000000000000000000000000000000000000200000000000000000000000011111111111111111111111111111111111111110000000000000000000000002222222222222222222222222222222222222222").
Proof. solve_test. Qed.

(** /repo/tests/src/lib.rs:83 *)
Example derive_test_encoding_function_input_as_fixed_array : forall p : profile,
  (do f <- derived_function p abi_Validators "add_two_validators"; df_encode_input f [RArr [first; second]]) =
  Ok (hx "7de33d2000000000000000000000000011111111111111111111111111111111111111110000000000000000000000002222222222222222222222222222222222222222") /\
  (do f <- derived_function p abi_Validators "set_title"; df_encode_input f [RString (lit "foo")]) =
  Ok (hx "72910be000000000000000000000000000000000000000000000000000000000000000200000000000000000000000000000000000000000000000000000000000000003666f6f0000000000000000000000000000000000000000000000000000000000").
Proof. solve_test. Qed.

(** /repo/tests/src/lib.rs:102 *)
Example derive_encoding_input_works : forall p : profile,
  (do f <- derived_function p abi_eip20 "allowance"; df_encode_input f [RAddress (repeat x00 20); RAddress (repeat x01 20)]) =
  Ok (hx "dd62ed3e00000000000000000000000000000000000000000000000000000000000000000000000000000000000000000101010101010101010101010101010101010101") /\
  is_ok (do e <- derived_event p abi_eip20 "transfer"; de_filter e [This (RAddress (repeat x02 20)); OneOf [RAddress (repeat x03 20); RAddress (repeat x04 20)]]) = true /\
  (do e <- derived_event p abi_eip20 "transfer"; de_filter e [Any; Any]) = (do e <- derived_event p abi_eip20 "transfer"; de_wildcard_filter e).
Proof. solve_test. Qed.

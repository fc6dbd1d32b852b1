(** * The tests of /repo/cli/src/main.rs, from the arguments and the bytes of the files

    Each lemma is a test of the repository, run on [main]: its command line is
    split at spaces as in the test, and the files are the bytes of /repo/res. *)
From Verif Require Import Base Utf8 Json Contract JsonText Cli Args.
From Coq Require Import String.
Set Implicit Arguments.
Local Open Scope N_scope.
Local Open Scope list_scope.

(** The arguments: [command.split(' ')]. *)
Fixpoint words (w s : str) : list str :=
  match s with
  | [] => [rev w]
  | c :: s' => if c =? 32 then rev w :: words [] s' else words (c :: w) s'
  end.
(** /repo/res/test.abi *)
Definition test_abi : str := lit "[
    {
        ""inputs"": [
            {
                ""name"": ""a"",
                ""type"": ""bool""
            }
        ],
        ""name"": ""foo"",
        ""outputs"": [],
        ""type"": ""function""
    },
    {
        ""inputs"": [
            {
                ""name"": ""a"",
                ""type"": ""bool""
            }
        ],
        ""name"": ""bar"",
        ""outputs"": [
        ],
        ""type"": ""function""
    },
    {
        ""inputs"": [
            {
                ""name"": ""a"",
                ""type"": ""string""
            }
        ],
        ""name"": ""bar"",
        ""outputs"": [
            {
                ""name"": ""b"",
                ""type"": ""uint256""
            }
        ],
        ""type"": ""function""
    }
]
".
(** /repo/res/foo.abi *)
Definition foo_abi : str := lit "[
    {
        ""constant"": false,
        ""inputs"": [
            {
                ""name"": ""hello"",
                ""type"": ""address""
            }
        ],
        ""name"": ""bar"",
        ""outputs"": [
            {
                ""name"": """",
                ""type"": ""bool""
            }
        ],
        ""type"": ""function""
    }
]
".
(** /repo/res/event.abi *)
Definition event_abi : str := lit "[
    {
        ""anonymous"": true,
        ""inputs"": [
            {
                ""indexed"": true,
                ""name"": ""a"",
                ""type"": ""bool""
            },
            {
                ""indexed"": false,
                ""name"": ""b"",
                ""type"": ""address""
            }
        ],
        ""name"": ""Event"",
        ""type"": ""event""
    }
]
".
Definition disk (path : str) : option (list byte) :=
  if str_eqb path (lit "../res/test.abi") then Some (utf8 test_abi)
  else if str_eqb path (lit "../res/foo.abi") then Some (utf8 foo_abi)
  else if str_eqb path (lit "../res/event.abi") then Some (utf8 event_abi)
  else None.
Definition run (p : profile) (command : str) : option (res str) := main p disk (words [] command).
Definition failed (r : option (res str)) : bool := match r with Some (Err _) => true | _ => false end.

(** main.rs:257 *)
Lemma simple_encode : forall p,
  run p (lit "ethabi encode params -v bool 1") = Some (Ok (lit "0000000000000000000000000000000000000000000000000000000000000001")).
Proof. intros []; vm_compute; reflexivity. Qed.
(** main.rs:264 *)
Lemma int_encode : forall p,
  run p (lit "ethabi encode params -v int256 -2 --lenient") = Some (Ok (lit "fffffffffffffffffffffffffffffffffffffffffffffffffffffffffffffffe")) /\
  run p (lit "ethabi encode params -v int256 -0 --lenient") = Some (Ok (lit "0000000000000000000000000000000000000000000000000000000000000000")).
Proof. intros []; repeat split; vm_compute; reflexivity. Qed.
(** main.rs:275 *)
Lemma uint_encode_must_be_positive : forall p,
  failed (run p (lit "ethabi encode params -v uint256 -2 --lenient")) = true.
Proof. intros []; vm_compute; reflexivity. Qed.
(** main.rs:281 *)
Lemma uint_encode_requires_decimal_inputs : forall p,
  run p (lit "ethabi encode params -v uint256 123abc --lenient") = Some (Err (OtherErr (lit "Uint parse error: InvalidCharacter"))).
Proof. intros []; vm_compute; reflexivity. Qed.
(** main.rs:290 *)
Lemma uint_encode_big_numbers : forall p,
  run p (lit "ethabi encode params -v uint256 100000000000000000000000000000000022222222222222221111111111111 --lenient") = Some (Ok (lit "0000000000003e3aeb4ae1383562f4b82261d96a3f7a5f62ca19599c1ad6d1c7")).
Proof. intros []; vm_compute; reflexivity. Qed.
(** main.rs:299 *)
Lemma int_encode_large_negative_numbers : forall p,
  run p (lit "ethabi encode params -v int256 -57896044618658097711785492504343953926634992332820282019728792003956564819968 --lenient") = Some (Ok (lit "8000000000000000000000000000000000000000000000000000000000000000")) /\
  run p (lit "ethabi encode params -v int256 -57896044618658097711785492504343953926634992332820282019728792003956564819969 --lenient") = Some (Err (OtherErr (lit "int256 parse error: Underflow"))).
Proof. intros []; repeat split; vm_compute; reflexivity. Qed.
(** main.rs:311 *)
Lemma int_encode_large_positive_numbers : forall p,
  run p (lit "ethabi encode params -v int256 100000000000000000000000000000000022222222222222221111111111111333333333344556 --lenient") = Some (Err (OtherErr (lit "int256 parse error: Overflow"))) /\
  run p (lit "ethabi encode params -v int256 57896044618658097711785492504343953926634992332820282019728792003956564819967 --lenient") = Some (Ok (lit "7fffffffffffffffffffffffffffffffffffffffffffffffffffffffffffffff")) /\
  run p (lit "ethabi encode params -v int256 57896044618658097711785492504343953926634992332820282019728792003956564819968 --lenient") = Some (Err (OtherErr (lit "int256 parse error: Overflow"))).
Proof. intros []; repeat split; vm_compute; reflexivity. Qed.
(** main.rs:327 *)
Lemma multi_encode : forall p,
  run p (lit "ethabi encode params -v bool 1 -v string gavofyork -v bool 0") = Some (Ok (lit "00000000000000000000000000000000000000000000000000000000000000010000000000000000000000000000000000000000000000000000000000000060000000000000000000000000000000000000000000000000000000000000000000000000000000000000000000000000000000000000000000000000000000096761766f66796f726b0000000000000000000000000000000000000000000000")).
Proof. intros []; vm_compute; reflexivity. Qed.
(** main.rs:334 *)
Lemma array_encode : forall p,
  run p (lit "ethabi encode params -v bool[] [1,0,false]") = Some (Ok (lit "00000000000000000000000000000000000000000000000000000000000000200000000000000000000000000000000000000000000000000000000000000003000000000000000000000000000000000000000000000000000000000000000100000000000000000000000000000000000000000000000000000000000000000000000000000000000000000000000000000000000000000000000000000000")).
Proof. intros []; vm_compute; reflexivity. Qed.
(** main.rs:341 *)
Lemma function_encode_by_name : forall p,
  run p (lit "ethabi encode function ../res/test.abi foo -p 1") = Some (Ok (lit "455575780000000000000000000000000000000000000000000000000000000000000001")).
Proof. intros []; vm_compute; reflexivity. Qed.
(** main.rs:348 *)
Lemma function_encode_by_signature : forall p,
  run p (lit "ethabi encode function ../res/test.abi foo(bool) -p 1") = Some (Ok (lit "455575780000000000000000000000000000000000000000000000000000000000000001")).
Proof. intros []; vm_compute; reflexivity. Qed.
(** main.rs:355 *)
Lemma nonexistent_function : forall p,
  failed (run p (lit "ethabi encode function ../res/test.abi nope -p 1")) = true.
Proof. intros []; vm_compute; reflexivity. Qed.
(** main.rs:362 *)
Lemma overloaded_function_encode_by_name : forall p,
  failed (run p (lit "ethabi encode function ../res/test.abi bar -p 1")) = true.
Proof. intros []; vm_compute; reflexivity. Qed.
(** main.rs:369 *)
Lemma overloaded_function_encode_by_first_signature : forall p,
  run p (lit "ethabi encode function ../res/test.abi bar(bool) -p 1") = Some (Ok (lit "6fae94120000000000000000000000000000000000000000000000000000000000000001")).
Proof. intros []; vm_compute; reflexivity. Qed.
(** main.rs:376 *)
Lemma overloaded_function_encode_by_second_signature : forall p,
  run p (lit "ethabi encode function ../res/test.abi bar(string):(uint256) -p 1") = Some (Ok (lit "d473a8ed000000000000000000000000000000000000000000000000000000000000002000000000000000000000000000000000000000000000000000000000000000013100000000000000000000000000000000000000000000000000000000000000")).
Proof. intros []; vm_compute; reflexivity. Qed.
(** main.rs:385 *)
Lemma simple_decode : forall p,
  run p (lit "ethabi decode params -t bool 0000000000000000000000000000000000000000000000000000000000000001") = Some (Ok (lit "bool true")).
Proof. intros []; vm_compute; reflexivity. Qed.
(** main.rs:393 *)
Lemma int_decode : forall p,
  run p (lit "ethabi decode params -t int256 fffffffffffffffffffffffffffffffffffffffffffffffffffffffffffffffe") = Some (Ok (lit "int256 fffffffffffffffffffffffffffffffffffffffffffffffffffffffffffffffe")).
Proof. intros []; vm_compute; reflexivity. Qed.
(** main.rs:401 *)
Lemma multi_decode : forall p,
  run p (lit "ethabi decode params -t bool -t string -t bool 00000000000000000000000000000000000000000000000000000000000000010000000000000000000000000000000000000000000000000000000000000060000000000000000000000000000000000000000000000000000000000000000000000000000000000000000000000000000000000000000000000000000000096761766f66796f726b0000000000000000000000000000000000000000000000") = Some (Ok (lit "bool true
string gavofyork
bool false")).
Proof. intros []; vm_compute; reflexivity. Qed.
(** main.rs:410 *)
Lemma array_decode : forall p,
  run p (lit "ethabi decode params -t bool[] 00000000000000000000000000000000000000000000000000000000000000200000000000000000000000000000000000000000000000000000000000000003000000000000000000000000000000000000000000000000000000000000000100000000000000000000000000000000000000000000000000000000000000000000000000000000000000000000000000000000000000000000000000000000") = Some (Ok (lit "bool[] [true,false,false]")).
Proof. intros []; vm_compute; reflexivity. Qed.
(** main.rs:417 *)
Lemma abi_decode : forall p,
  run p (lit "ethabi decode function ../res/foo.abi bar 0000000000000000000000000000000000000000000000000000000000000001") = Some (Ok (lit "bool true")).
Proof. intros []; vm_compute; reflexivity. Qed.
(** main.rs:424 *)
Lemma log_decode : forall p,
  run p (lit "ethabi decode log ../res/event.abi Event -l 0000000000000000000000000000000000000000000000000000000000000001 0000000000000000000000004444444444444444444444444444444444444444") = Some (Ok (lit "a true
b 4444444444444444444444444444444444444444")).
Proof. intros []; vm_compute; reflexivity. Qed.
(** main.rs:432 *)
Lemma log_decode_signature : forall p,
  run p (lit "ethabi decode log ../res/event.abi Event(bool,address) -l 0000000000000000000000000000000000000000000000000000000000000001 0000000000000000000000004444444444444444444444444444444444444444") = Some (Ok (lit "a true
b 4444444444444444444444444444444444444444")).
Proof. intros []; vm_compute; reflexivity. Qed.
(** main.rs:440 *)
Lemma nonexistent_event : forall p,
  failed (run p (lit "ethabi decode log ../res/event.abi Nope(bool,address) -l 0000000000000000000000000000000000000000000000000000000000000000 0000000000000000000000004444444444444444444444444444444444444444")) = true.
Proof. intros []; vm_compute; reflexivity. Qed.

(** * Concrete values used by the non-vacuity examples *)
From Verif Require Import Base Types AbiSpec.
From Coq Require Import String.
Local Open Scope N_scope.
Local Open Scope list_scope.

Definition addr1 : list byte := repeat x11 20.
(** (uint256, string, (bool, bytes)[], bytes3[2], address) *)
Definition sample_types : list ParamType :=
  [PUint 256; PString; PArray (PTuple [PBool; PBytes]); PFixedArray (PFixedBytes 3) 2; PAddress].
Definition sample_values : list Token :=
  [TUint 5; TString (lit "gavofyork"); TArray [TTuple [TBool true; TBytes [x01; x02]]; TTuple [TBool false; TBytes []]];
   TFixedArray [TFixedBytes [x01; x02; x03]; TFixedBytes [x0a; x0b; x0c]]; TAddress addr1].
Definition sample_data : list byte := abi_encode sample_types sample_values.

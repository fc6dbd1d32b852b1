(** * Samples for the properties of JSON text *)
From Verif Require Import Base Utf8 Types Function Event Json JsonText JsonTextSpec.
From Coq Require Import String.
Set Implicit Arguments.
Local Open Scope N_scope.
Local Open Scope list_scope.

Definition sample_text : str :=
  lit " [ ""a\n\""\u001F"" , ""\uD83d\ude00"",{ ""k"" :[-1.5e+3 ,true,{ }]}  ] ".
Definition sample_value : json :=
  JArr [JStr [97; 10; 34; 31]; JStr [0x1F600]; JObj [(lit "k", JArr [JNum (lit "-1.5e+3"); JBool true; JObj []])]].
Lemma sample_writable : writable sample_value.
Proof.
  repeat (constructor; cbn [snd]). exists (lit "-"), (lit "1"), (lit ".5"), (lit "e+3"). split; [reflexivity|]. split; [auto|].
  split; [right; exists 49, []; repeat split; (constructor || discriminate)|].
  split; right.
  - exists (lit "5"). split; [reflexivity|]. split; [discriminate|repeat constructor; discriminate].
  - exists 101, (lit "+"), (lit "3"). split; [reflexivity|]. split; [auto|]. split; [auto|]. split; [discriminate|repeat constructor; discriminate].
Qed.

Definition sample_abi : str :=
  lit "[{ ""type"":""function"", ""inputs"":[{""name"":""a"",""type"":""tuple"",""components"":[{""type"":""uint256""},{""type"":""bool""}]}],
        ""name"":""f(uint256,bool)"", ""outputs"":[], ""payable"" : 1e3}]".
Definition written_abi : str :=
  lit "[{""type"":""function"",""name"":""f"",""inputs"":[{""name"":""a"",""type"":""tuple"",""components"":[{""type"":""uint256""},{""type"":""bool""}]}],""outputs"":[],""constant"":false,""stateMutability"":""nonpayable""}]".
(** A type name on which [Reader::read] panics. *)
Definition panicking_abi : str := lit "[{""type"":""constructor"",""inputs"":[{""name"":""a"",""type"":""]""}]}]".

(** * How deep calls are nested (C86).
    Every theorem is proved elsewhere and closed here by [exact]. *)
From Verif Require Import Base StrFacts Types TypeNames TypeNamesSpec Function Json Contract Tokenizer Encoder Decoder MemSpec DepthSpec DepthFacts Work WorkLower Stack StackErase StackSpec StackFacts StackBound TextStack TextStackFacts TextStackExact NameStackExact.
From Coq Require Import String.
Local Open Scope N_scope.
Local Open Scope list_scope.

(** ** C86: how many calls of the crate's functions are active at once depends
    on the nesting of types and values, not on the data or the text. *)
(** The runs in which calls are counted are the runs of the model. *)
Theorem C86_same : forall p, (forall vs, snd (encode_stack p vs) = encode p vs) /\ (forall ts data, snd (decode_stack p ts data) = decode p ts data).
Proof. exact (fun p => conj (encode_same p) (decode_same p)). Qed.
Print Assumptions C86_same.

(** *** Decoding *)
Theorem C86_decode : forall p ts data vs, decode p ts data = Ok vs -> fst (decode_stack p ts data) = decoding_calls ts vs.
Proof. exact decoding_exact. Qed.
Print Assumptions C86_decode.
(** Whatever the data is and whether or not decoding succeeds *)
Theorem C86_decode_most : forall p ts data, fst (decode_stack p ts data) <= 3 + most (fun t => N.of_nat (levels t)) ts.
Proof. exact decode_most. Qed.
Print Assumptions C86_decode_most.
Theorem C86_decode_least : forall p ts data vs, decode p ts data = Ok vs -> vs <> [] -> 2 + most depth vs <= fst (decode_stack p ts data).
Proof. exact decode_least. Qed.
Print Assumptions C86_decode_least.
Theorem C86_decode_attained : forall p k data, 32 <= len data -> exists v,
  decode p [fixed k (PInt 256)] data = Ok [v] /\ fst (decode_stack p [fixed k (PInt 256)] data) = 3 + N.of_nat (levels (fixed k (PInt 256))).
Proof. exact fixed_attained. Qed.
Print Assumptions C86_decode_attained.
Example C86_decode_case : forall p, let t := PTuple [PBool; PArray (PTuple [PString; PFixedArray (PUint 8) 2])] in
  let v := TTuple [TBool true; TArray [TTuple [TString (lit "ab"); TFixedArray [TUint 1; TUint 2]]]] in
  exists data, encode p [v] = Ok data /\ decode p [t] data = Ok [v] /\ fst (decode_stack p [t] data) = 8 /\ decoding_calls [t] [v] = 8 /\
  levels t = 5%nat /\ depth v = 5 /\ decoding_calls [PArray t] [TArray []] = 4.
Proof. intros p t v. eexists. split; [destruct p; vm_compute; reflexivity|]. repeat split; destruct p; vm_compute; reflexivity. Qed.
Example C86_decode_most_case : forall p, decode p [PArray (PArray PBool)] [x00] = Err InvalidData /\ fst (decode_stack p [PArray (PArray PBool)] [x00]) = 4 /\
  3 + most (fun t => N.of_nat (levels t)) [PArray (PArray PBool)] = 6.
Proof. intros p. destruct p; vm_compute; repeat split; reflexivity. Qed.
Example C86_decode_attained_case : forall p, fixed 2 (PInt 256) = PFixedArray (PFixedArray (PInt 256) 1) 1 /\
  decode p [fixed 2 (PInt 256)] (repeat x00 32) = Ok [TFixedArray [TFixedArray [TInt 0]]] /\ fst (decode_stack p [fixed 2 (PInt 256)] (repeat x00 32)) = 6.
Proof. intros p. destruct p; vm_compute; repeat split; reflexivity. Qed.
(** No constant bounds the calls: a file of JSON that is four deep, with a
    short name for each level, gives types for which any data but the empty one
    nests the calls as deep as one likes. *)
Theorem C86_decode_unbounded : forall p k, N.of_nat k < 2 ^ 59 -> exists c inputs, json_depth (fixed_file (S k)) = 4 /\
  load p (fixed_file (S k)) = Ok c /\ c_constructor c = Some (mkConstructor inputs) /\
  forall data, data <> [] -> N.of_nat k + 3 <= fst (decode_stack p (map p_kind inputs) data).
Proof. exact file_unbounded. Qed.
Print Assumptions C86_decode_unbounded.
Example C86_decode_unbounded_case : forall p, fixed_name 2 = lit "int[1][1]" /\ json_depth (fixed_file 2) = 4 /\ fst (decode_stack p [fixed 2 (PInt 256)] [x00]) = 6.
Proof. intros p. destruct p; vm_compute; repeat split; reflexivity. Qed.

(** *** Encoding *)
Theorem C86_encode : forall p vs bytes, encode p vs = Ok bytes -> fst (encode_stack p vs) = encoding_calls vs.
Proof. exact encoding_exact. Qed.
Print Assumptions C86_encode.
Theorem C86_encode_most : forall p vs, fst (encode_stack p vs) <= 2 + 2 * most depth vs.
Proof. exact encode_most. Qed.
Print Assumptions C86_encode_most.
Theorem C86_encode_least : forall p vs bytes, encode p vs = Ok bytes -> 2 + most depth vs <= fst (encode_stack p vs).
Proof. exact encode_least. Qed.
Print Assumptions C86_encode_least.
(** Both bounds are attained, however deep. *)
Theorem C86_encode_attained : forall k b n, encoding_calls [lists k (TBytes b)] = 2 + 2 * depth (lists k (TBytes b)) /\
  encoding_calls [pairs k (TUint n)] = 2 + depth (pairs k (TUint n)) /\
  depth (lists k (TBytes b)) = N.of_nat k + 1 /\ depth (pairs k (TUint n)) = N.of_nat k + 1.
Proof. exact both_attained. Qed.
Print Assumptions C86_encode_attained.
Example C86_encode_case : forall p, let v := TTuple [TBool true; TArray [TTuple [TString (lit "ab"); TFixedArray [TUint 1; TUint 2]]]] in
  exists data, encode p [v] = Ok data /\ fst (encode_stack p [v]) = 10 /\ encoding_calls [v] = 10 /\ depth v = 5.
Proof. intros p v. eexists. split; [destruct p; vm_compute; reflexivity|]. repeat split; destruct p; vm_compute; reflexivity. Qed.
Example C86_encode_attained_case : forall p, lists 2 (TBytes [x01]) = TArray [TArray [TBytes [x01]]] /\ fst (encode_stack p [lists 2 (TBytes [x01])]) = 8 /\
  pairs 2 (TUint 7) = TTuple [TTuple [TUint 7]] /\ fst (encode_stack p [pairs 2 (TUint 7)]) = 5 /\
  (exists b, encode p [lists 2 (TBytes [x01])] = Ok b) /\ (exists b, encode p [pairs 2 (TUint 7)] = Ok b).
Proof. intros p. destruct p; vm_compute; repeat split; try reflexivity; eexists; reflexivity. Qed.

(** *** Names *)
(** For ASCII names at most half as many calls as characters (and a half of
    three more), and that is attained; at most as many as characters, and one
    more, for any name.  For all fuel: the bounds are not those of the fuel. *)
Theorem C86_names : forall p f s, all_ascii s = true -> len s < 2 ^ 63 -> 2 * name_calls_fuel p f s <= len s + 3.
Proof. exact ascii_calls_fuel. Qed.
Print Assumptions C86_names.
Theorem C86_names_any : forall p f s, str_len s < 2 ^ 63 -> name_calls_fuel p f s <= len s + 1.
Proof. exact any_calls_fuel. Qed.
Print Assumptions C86_names_any.
Theorem C86_names_attained : forall p k, name_calls p (lit "((" ++ suffixes (S k) ++ lit ")") = N.of_nat (S k) + 3 /\
  len (lit "((" ++ suffixes (S k) ++ lit ")") + 3 = 2 * name_calls p (lit "((" ++ suffixes (S k) ++ lit ")").
Proof. exact bad_calls. Qed.
Print Assumptions C86_names_attained.
Theorem C86_names_types : forall p k, name_calls p (lit "int" ++ suffixes k) = N.of_nat k + 1.
Proof. exact int_calls. Qed.
Print Assumptions C86_names_types.
(** The names that the crate writes and reads back: one call for each level. *)
Theorem C86_names_written : forall p t, wf_type t = true -> two_levels t = true -> name_calls p (write t) = N.of_nat (levels t).
Proof. exact written_calls. Qed.
Print Assumptions C86_names_written.
Example C86_names_written_case : forall p, let t := PArray (PTuple [PBool; PFixedArray (PTuple [PUint 8; PArray PString]) 2; PAddress; PInt 8]) in
  wf_type t = true /\ two_levels t = true /\ write t = lit "(bool,(uint8,string[])[2],address,int8)[]" /\ name_calls p (write t) = 6 /\ levels t = 6%nat.
Proof. intros p. destruct p; vm_compute; repeat split; reflexivity. Qed.
Example C86_names_case : forall p, name_calls p (lit "(uint8[2][],(bool,string[]))") = 4 /\ len (lit "(uint8[2][],(bool,string[]))") = 28 /\
  read p (lit "(uint8[2][],(bool,string[]))") = Ok (PTuple [PArray (PFixedArray (PUint 8) 2); PTuple [PBool; PArray PString]]) /\
  name_calls p (lit "(([][])") = 5 /\ (exists e, read p (lit "(([][])") = Err e) /\
  name_calls p (lit "int[][]") = 3 /\ read p (lit "int[][]") = Ok (PArray (PArray (PInt 256))).
Proof. intros p. destruct p; vm_compute; repeat split; try reflexivity; eexists; reflexivity. Qed.
(** With accents (é) *)
Example C86_names_any_case : forall p, let s := lit "(" ++ repeat 233 7 ++ lit "address(abcde))" in all_ascii s = false /\ str_len s < 2 ^ 63 /\ read p s = Ok (PTuple [PAddress]) /\ name_calls p s = 2.
Proof. intros p s. destruct p; vm_compute; repeat split; reflexivity. Qed.

(** *** Values *)
(** At most three calls for each level of the type, whatever the text. *)
Theorem C86_values : forall t s,
  value_calls StrictTokenizer strict_own t s <= 3 * N.of_nat (levels t) /\
  value_calls LenientTokenizer lenient_own t s <= 3 * N.of_nat (levels t) + 1.
Proof. exact values_most. Qed.
Print Assumptions C86_values.
(** Exactly, for text that is a value *)
Theorem C86_values_exact : forall T own t s v, tokenize T t s = Ok v -> value_calls T own t s = text_calls own t v.
Proof. exact value_exact. Qed.
Print Assumptions C86_values_exact.
Example C86_values_exact_case : let t := PTuple [PBool; PFixedArray (PArray (PInt 8)) 1; PString] in let s := lit "(1,[[7]],ab)" in
  let v := TTuple [TBool true; TFixedArray [TArray [TInt 7]]; TString (lit "ab")] in
  tokenize LenientTokenizer t s = Ok v /\ value_calls LenientTokenizer lenient_own t s = 11 /\ text_calls lenient_own t v = 11 /\
  text_calls lenient_own t (TTuple [TBool true; TFixedArray [TArray []]; TString []]) = 7.
Proof. vm_compute. repeat split; reflexivity. Qed.
Theorem C86_values_attained : forall k, let t := fixed k PBool in let s := nested_value k in
  tokenize StrictTokenizer t s = Ok (one_value k (TBool true)) /\ tokenize LenientTokenizer t s = Ok (one_value k (TBool true)) /\
  value_calls StrictTokenizer strict_own t s = 3 * N.of_nat k + 2 /\
  value_calls LenientTokenizer lenient_own t s = 3 * N.of_nat k + 3 /\ levels t = S k.
Proof. exact values_attained. Qed.
Print Assumptions C86_values_attained.
Example C86_values_case : let t := PArray (PArray (PInt 256)) in let s := lit "[[-1,2],[3]]" in
  (exists v, tokenize LenientTokenizer t s = Ok (TArray [TArray [TInt v; TInt 2]; TArray [TInt 3]])) /\
  value_calls LenientTokenizer lenient_own t s = 8 /\ value_calls StrictTokenizer strict_own t s = 7 /\ (exists e, tokenize StrictTokenizer t s = Err e) /\ levels t = 3%nat /\
  value_calls StrictTokenizer strict_own t (lit "[[[[[[[[") = 2 /\ nested_value 2 = lit "[[true]]".
Proof. cbv zeta. split; [eexists; vm_compute; reflexivity|]. vm_compute. repeat split; try reflexivity. eexists. reflexivity. Qed.

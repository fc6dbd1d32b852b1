(** * Properties of the tokenizers (C32-C38, C47).
    Every theorem is proved elsewhere and closed here by [exact], or is a
    computed counterexample. *)
From Verif Require Import Base Types AbiSpec TypeNamesSpec Tokenizer TokenSpec TokenFacts TokenTotal LiteralSpec LiteralExact DisplayExact.
From Coq Require Import String Lia.
Local Open Scope N_scope.
Local Open Scope list_scope.

Local Definition z64 : str := lit "000000000000000000000000000000000000000000000000000000000000000A".

(** ** C32: the strict tokenizer parses hex exactly. *)
Theorem C32_hex : forall s v,
  (tokenize StrictTokenizer PAddress s = Ok v <-> exists b, hex_text s b /\ len b = 20 /\ v = TAddress b) /\
  (tokenize StrictTokenizer PBytes s = Ok v <-> exists b, hex_text s b /\ v = TBytes b) /\
  (forall n, tokenize StrictTokenizer (PFixedBytes n) s = Ok v <-> exists b, hex_text s b /\ len b = n /\ v = TFixedBytes b) /\
  (forall n, tokenize StrictTokenizer (PUint n) s = Ok v <-> exists b, hex_text s b /\ len b = 32 /\ v = TUint (of_be b)) /\
  (forall n, tokenize StrictTokenizer (PInt n) s = Ok v <-> exists b, hex_text s b /\ len b = 32 /\ v = TInt (of_be b)).
Proof. exact strict_hex. Qed.
Print Assumptions C32_hex.
Theorem C32_bool_string : forall s v,
  (tokenize StrictTokenizer PBool s = Ok v <->
   ((s = lit "true" \/ s = lit "1") /\ v = TBool true) \/ ((s = lit "false" \/ s = lit "0") /\ v = TBool false)) /\
  tokenize StrictTokenizer PString s = Ok (TString s).
Proof. exact strict_bool_string. Qed.
Print Assumptions C32_bool_string.
Example C32_example :
  tokenize StrictTokenizer (PFixedBytes 3) (lit "Ab01fF") = Ok (TFixedBytes [xab; x01; xff]) /\
  hex_text (lit "Ab01fF") [xab; x01; xff] /\
  tokenize StrictTokenizer (PUint 256) z64 = Ok (TUint 10) /\
  tokenize StrictTokenizer (PFixedBytes 2) (lit "Ab01fF") = Err InvalidData /\
  tokenize StrictTokenizer PBytes (lit "0x01") = Err HexErr.
Proof. split; [|split; [apply hex_decode_spec|]]; vm_compute; auto. Qed.

(** ** C33: lenient decimal integers.
    Missing: decimal strings of exactly 64 digits, which are read as hex. *)
Theorem C33_decimal_partial : forall k s n, decimal_text s n -> List.length s <> 64%nat ->
  tokenize LenientTokenizer (PUint k) s =
    if n <? two256 then Ok (TUint n) else Err (OtherErr (lit "Uint parse error: InvalidLength")).
Proof. exact lenient_decimal. Qed.
Print Assumptions C33_decimal_partial.
Theorem C33_not_decimal : forall k s, List.length s <> 64%nat -> (forall n, ~ decimal_text s n) ->
  tokenize LenientTokenizer (PUint k) s = Err (OtherErr (lit "Uint parse error: InvalidCharacter")).
Proof. exact lenient_not_decimal. Qed.
Print Assumptions C33_not_decimal.
(** Exactly what is accepted, over all strings. *)
Theorem C33_exact : forall k s v, tokenize LenientTokenizer (PUint k) s = Ok v <->
  (exists b, hex_text s b /\ len b = 32 /\ v = TUint (of_be b)) \/
  ((forall b, hex_text s b -> len b <> 32) /\ exists n, decimal_text s n /\ n < two256 /\ v = TUint n).
Proof. exact lenient_uint_exact. Qed.
Print Assumptions C33_exact.
(** The full claim fails: 64 decimal digits denoting 10 are read as 16. *)
Theorem C33_refuted : exists s n k, decimal_text s n /\ n < two256 /\ tokenize LenientTokenizer (PUint k) s <> Ok (TUint n).
Proof. exact lenient_decimal_refuted. Qed.
Print Assumptions C33_refuted.
Example C33_example :
  decimal_text (lit "115792089237316195423570985008687907853269984665640564039457584007913129639935") (two256 - 1) /\
  tokenize LenientTokenizer (PUint 8) (lit "115792089237316195423570985008687907853269984665640564039457584007913129639935")
    = Ok (TUint (two256 - 1)) /\
  tokenize LenientTokenizer (PUint 8) (lit "115792089237316195423570985008687907853269984665640564039457584007913129639936")
    = Err (OtherErr (lit "Uint parse error: InvalidLength")) /\
  tokenize LenientTokenizer (PUint 8) (lit "1e") = Err (OtherErr (lit "Uint parse error: InvalidCharacter")).
Proof. split; [apply decimal_text_spec|]; vm_compute; auto. Qed.

(** ** C34: lenient signed integers.
    Missing: non-negative decimal strings of exactly 64 digits. *)
Theorem C34_signed_partial : forall k s z, signed_text s z -> List.length s <> 64%nat \/ (z < 0)%Z ->
  (in_int256 z = true -> tokenize LenientTokenizer (PInt k) s = Ok (TInt (twos_complement z))) /\
  (in_int256 z = false -> exists m, tokenize LenientTokenizer (PInt k) s = Err (OtherErr m)).
Proof. exact lenient_signed. Qed.
Print Assumptions C34_signed_partial.
(** Exactly what is accepted, over all strings. *)
Theorem C34_exact : forall k s v, tokenize LenientTokenizer (PInt k) s = Ok v <->
  (exists b, hex_text s b /\ len b = 32 /\ v = TInt (of_be b)) \/
  ((forall b, hex_text s b -> len b <> 32) /\ exists z, minus_text s z /\ in_int256 z = true /\ v = TInt (twos_complement z)).
Proof. exact lenient_int_exact. Qed.
Print Assumptions C34_exact.
(** Several signs and no digits at all are accepted. *)
Example C34_exact_case : minus_text (lit "--5") (-5) /\ minus_text (lit "-") 0 /\
  tokenize LenientTokenizer (PInt 8) (lit "--5") = Ok (TInt (two256 - 5)) /\ tokenize LenientTokenizer (PInt 8) (lit "-") = Ok (TInt 0) /\
  is_ok (tokenize LenientTokenizer (PInt 8) (lit "-5-")) = false.
Proof.
  split; [exists 2%nat, (lit "5"), 5; repeat split; repeat constructor; vm_compute; discriminate|].
  split; [exists 1%nat, [], 0; repeat split; constructor|]. vm_compute. auto.
Qed.
Theorem C34_refuted : exists s z k, signed_text s z /\ in_int256 z = true /\
  tokenize LenientTokenizer (PInt k) s <> Ok (TInt (twos_complement z)).
Proof. exact lenient_signed_refuted. Qed.
Print Assumptions C34_refuted.
Example C34_example :
  signed_text (lit "-12") (-12) /\ in_int256 (-12) = true /\
  tokenize LenientTokenizer (PInt 8) (lit "-12") = Ok (TInt (two256 - 12)) /\ twos_complement (-12) = two256 - 12 /\
  tokenize LenientTokenizer (PInt 8) (lit "-57896044618658097711785492504343953926634992332820282019728792003956564819968") = Ok (TInt (2 ^ 255)) /\
  tokenize LenientTokenizer (PInt 8) (lit "-57896044618658097711785492504343953926634992332820282019728792003956564819969")
    = Err (OtherErr (lit "int256 parse error: Underflow")) /\
  tokenize LenientTokenizer (PInt 8) (lit "57896044618658097711785492504343953926634992332820282019728792003956564819968")
    = Err (OtherErr (lit "int256 parse error: Overflow")).
Proof.
  split; [|vm_compute; auto 10]. exists (lit "12"), 12. split; [discriminate|]. split; [apply decimal_text_spec; vm_compute; auto|].
  right. split; reflexivity.
Qed.

(** ** C35: the lenient tokenizer extends the strict one. *)
Theorem C35_extends : forall t s v, tokenize StrictTokenizer t s = Ok v -> tokenize LenientTokenizer t s = Ok v.
Proof. exact lenient_extends. Qed.
Print Assumptions C35_extends.
Example C35_example :
  tokenize StrictTokenizer (PTuple [PArray PBool; PFixedBytes 1]) (lit "([true],07)") = Ok (TTuple [TArray [TBool true]; TFixedBytes [x07]]) /\
  tokenize LenientTokenizer (PTuple [PArray PBool; PFixedBytes 1]) (lit "([true],07)") = Ok (TTuple [TArray [TBool true]; TFixedBytes [x07]]).
Proof. vm_compute. auto. Qed.

(** ** C36: tokenized values have the requested type.
    For types without tuples the claim holds in full. *)
Theorem C36_typed_partial : forall T, T = StrictTokenizer \/ T = LenientTokenizer ->
  forall t, tuple_free t = true -> forall s v, wf_str s = true -> tokenize T t s = Ok v -> has_type v t = true.
Proof. exact typed_both. Qed.
Print Assumptions C36_typed_partial.
(** With tuples, a value can have too few fields, and that is all that can be
    wrong ([typed_prefix] allows only that). *)
Theorem C36_loose : forall T, T = StrictTokenizer \/ T = LenientTokenizer ->
  forall t s v, wf_str s = true -> tokenize T t s = Ok v -> typed_prefix v t = true.
Proof. exact loose_both. Qed.
Print Assumptions C36_loose.
Theorem C36_refuted :
  tokenize StrictTokenizer (PTuple [PBool; PBool]) (lit "(1)") = Ok (TTuple [TBool true]) /\
  has_type (TTuple [TBool true]) (PTuple [PBool; PBool]) = false /\ typed_prefix (TTuple [TBool true]) (PTuple [PBool; PBool]) = true.
Proof. vm_compute. auto. Qed.
Print Assumptions C36_refuted.
Example C36_example :
  tokenize LenientTokenizer (PFixedArray (PArray (PUint 8)) 2) (lit "[[1,2],[3]]") =
    Ok (TFixedArray [TArray [TUint 1; TUint 2]; TArray [TUint 3]]) /\
  has_type (TFixedArray [TArray [TUint 1; TUint 2]; TArray [TUint 3]]) (PFixedArray (PArray (PUint 8)) 2) = true /\
  tokenize LenientTokenizer (PFixedArray (PArray (PUint 8)) 3) (lit "[[1,2],[3]]") = Err InvalidData.
Proof. vm_compute. auto. Qed.

(** ** C37: tokenizers do not panic.
    Missing: array and tuple literals with non-ASCII characters. *)
Theorem C37_no_panic_partial : forall T, T = StrictTokenizer \/ T = LenientTokenizer ->
  forall t s, scalar t = true \/ all_ascii s = true -> tokenize T t s <> Panic.
Proof. exact calm_both. Qed.
Print Assumptions C37_no_panic_partial.
Theorem C37_refuted : exists s, wf_str s = true /\ tokenize StrictTokenizer (PArray PString) s = Panic /\
  tokenize LenientTokenizer (PTuple [PString]) (map (fun c => if c =? 91 then 40 else if c =? 93 then 41 else c) s) = Panic.
Proof. exists [91; 233; 93]. vm_compute. auto. Qed.
Print Assumptions C37_refuted.
(** For all texts: the first item that cannot be cut out at its character positions taken as byte offsets, or that panics itself. *)
Theorem C37_panics_array : forall T t s, tokenize T (PArray t) s = Panic <->
  item_breaks 91 93 s (Forall (fun r => exists m v, bytes_between s r m /\ tokenize T t m = Ok v)) (fun _ m => tokenize T t m = Panic).
Proof. exact array_panics. Qed.
Print Assumptions C37_panics_array.
Theorem C37_panics_fixed_array : forall T t n s, tokenize T (PFixedArray t n) s = Panic <-> tokenize T (PArray t) s = Panic.
Proof. exact fixed_array_panics. Qed.
Print Assumptions C37_panics_fixed_array.
Theorem C37_panics_tuple : forall T ts s, tokenize T (PTuple ts) s = Panic <->
  item_breaks 40 41 s
    (fun rs => (List.length rs <= List.length ts)%nat /\
      Forall (fun x => exists m v, bytes_between s (snd x) m /\ tokenize T (fst x) m = Ok v) (combine ts rs))
    (fun k m => exists t, nth_error ts k = Some t /\ tokenize T t m = Panic).
Proof. exact tuple_panics. Qed.
Print Assumptions C37_panics_tuple.
(** "é" takes two bytes, so the first item of ["a,é"] in brackets is cut out well, the second is not; a stray bracket before its end prevents the panic. *)
Example C37_panics_case : item_ranges 91 93 [91; 97; 44; 233; 93] = [(1, 2); (3, 4)]%nat /\
  tokenize StrictTokenizer (PArray PString) [91; 97; 44; 233; 93] = Panic /\
  tokenize StrictTokenizer (PTuple [PString]) [40; 97; 44; 233; 41] = Panic /\
  tokenize StrictTokenizer (PTuple [PString]) [40; 97; 44; 98; 44; 233; 41] = Err InvalidData /\
  tokenize StrictTokenizer (PArray PString) [91; 97; 93; 93; 91; 233; 93] = Err InvalidData.
Proof. vm_compute. auto 10. Qed.
Example C37_example :
  tokenize StrictTokenizer (PArray PString) (lit "[a,""b],c"",[d]]]") = Err InvalidData /\
  tokenize StrictTokenizer (PArray PString) (lit "[a,""b],c"",[d]]") = Ok (TArray [TString (lit "a"); TString (lit """b],c"""); TString (lit "[d]")]) /\
  tokenize StrictTokenizer (PArray PString) (lit "[") = Err InvalidData /\
  tokenize StrictTokenizer (PArray PString) (lit "[""]") = Err InvalidData.
Proof. vm_compute. auto. Qed.

(** ** C38: the display of a token is parsed back.
    Missing: numbers below 2^252, containers with one empty text, with text
    that cannot be separated, or with non-ASCII text; these are not read back
    (C38_exact). *)
Theorem C38_display_partial : forall t v, has_type v t = true -> readable display v = true ->
  tokenize StrictTokenizer t (display v) = Ok v.
Proof. exact read_display. Qed.
Print Assumptions C38_display_partial.
(** Nested arrays, or nested tuples, of address, bool and bytesN. *)
Theorem C38_leaves : forall t v, leaf_arrays t = true \/ leaf_tuples t = true -> has_type v t = true ->
  tokenize StrictTokenizer t (display v) = Ok v.
Proof. exact read_leaf_display. Qed.
Print Assumptions C38_leaves.
(** No other value is read back. *)
Theorem C38_exact : forall t v, has_type v t = true -> (tokenize StrictTokenizer t (display v) = Ok v <-> readable display v = true).
Proof. exact display_exact. Qed.
Print Assumptions C38_exact.
Example C38_exact_case :
  let t := PTuple [PArray (PTuple [PString; PBool]); PString] in
  let v := TTuple [TArray [TTuple [TString (lit "1"); TBool true]]; TString (lit "b")] in
  let w := TTuple [TArray []; TString (lit "b)")] in
  has_type v t = true /\ readable display v = false /\ has_type w t = true /\ readable display w = false /\
  readable display (TTuple [TArray []; TString (lit "(b)")]) = true.
Proof. vm_compute. auto 10. Qed.
Theorem C38_refuted :
  tokenize StrictTokenizer (PUint 8) (display (TUint 7)) = Err HexErr /\
  tokenize StrictTokenizer (PArray PString) (display (TArray [TString []])) = Ok (TArray []) /\
  tokenize StrictTokenizer (PArray PString) (display (TArray [TString (lit "a,b")])) = Ok (TArray [TString (lit "a"); TString (lit "b")]) /\
  tokenize StrictTokenizer (PArray (PTuple [PBool; PBool])) (display (TArray [TTuple [TBool true; TBool false]])) = Err InvalidData /\
  tokenize StrictTokenizer (PArray PString) (display (TArray [TString [233]])) = Panic.
Proof. vm_compute. auto 10. Qed.
Print Assumptions C38_refuted.
Example C38_example :
  let v := TTuple [TTuple [TBool true; TFixedBytes [xab]]; TUint (two256 - 1); TString (lit "x""(,""[y]")] in
  let t := PTuple [PTuple [PBool; PFixedBytes 1]; PUint 8; PString] in
  has_type v t = true /\ readable display v = true /\
  leaf_arrays (PArray (PFixedArray PBool 2)) = true /\ leaf_tuples (PTuple [PTuple [PAddress]; PBool]) = true.
Proof. vm_compute. auto. Qed.

(** ** C47: array and tuple literals are read item by item. *)
Theorem C47_array : forall T t items vs, items_readable 91 93 items = true ->
  (tokenize T (PArray t) (lit "[" ++ join (lit ",") items ++ lit "]") = Ok (TArray vs) <->
   Forall2 (fun s v => tokenize T t s = Ok v) items vs) /\
  (forall n, tokenize T (PFixedArray t n) (lit "[" ++ join (lit ",") items ++ lit "]") = Ok (TFixedArray vs) <->
   Forall2 (fun s v => tokenize T t s = Ok v) items vs /\ len vs = n).
Proof. exact array_literal. Qed.
Print Assumptions C47_array.
Theorem C47_tuple : forall T ts items vs, items_readable 40 41 items = true ->
  (tokenize T (PTuple ts) (lit "(" ++ join (lit ",") items ++ lit ")") = Ok (TTuple vs) <->
   (List.length items <= List.length ts)%nat /\
   Forall2 (fun x v => tokenize T (fst x) (snd x) = Ok v) (combine ts items) vs).
Proof. exact tuple_literal. Qed.
Print Assumptions C47_tuple.
Example C47_example :
  items_readable 91 93 [lit "[1,2]"; lit """a,]"""; []] = true /\ items_readable 40 41 [lit "[1"; lit "(2,3)"] = true /\
  items_readable 91 93 [lit "(1,2)"] = false /\ items_readable 91 93 [[]] = false.
Proof. vm_compute. auto. Qed.

(** ** C66: the brackets of literals.
    What is accepted, exactly and for all texts; missing: that brackets are
    balanced and no text is lost, see C66_refuted. *)
Theorem C66_array_partial : forall T t s vs, tokenize T (PArray t) s = Ok (TArray vs) <->
  (s = lit "[]" /\ vs = []) \/
  (sound_literal 91 93 s /\ Forall2 (fun r v => exists m, bytes_between s r m /\ tokenize T t m = Ok v) (item_ranges 91 93 s) vs).
Proof. exact array_exact. Qed.
Print Assumptions C66_array_partial.
Theorem C66_fixed_array : forall T t n s vs,
  tokenize T (PFixedArray t n) s = Ok (TFixedArray vs) <-> len vs = n /\ tokenize T (PArray t) s = Ok (TArray vs).
Proof. exact fixed_array_exact. Qed.
Print Assumptions C66_fixed_array.
Theorem C66_tuple_partial : forall T ts s vs, tokenize T (PTuple ts) s = Ok (TTuple vs) <->
  (s = lit "()" /\ vs = []) \/
  (sound_literal 40 41 s /\ (List.length (item_ranges 40 41 s) <= List.length ts)%nat /\
   Forall2 (fun x v => exists m, bytes_between s (snd x) m /\ tokenize T (fst x) m = Ok v) (combine ts (item_ranges 40 41 s)) vs).
Proof. exact tuple_exact. Qed.
Print Assumptions C66_tuple_partial.
(** In ASCII text, byte offsets are positions of characters. *)
Theorem C66_ascii : forall s a b m, all_ascii s = true ->
  (bytes_between s (a, b) m <-> (a <= b)%nat /\ (b <= List.length s)%nat /\ m = firstn (b - a) (skipn a s)).
Proof. exact ascii_between. Qed.
Print Assumptions C66_ascii.
Example C66_case : let s := lit "[1,""]"",[2,3]]" in
  sound_literal 91 93 s /\ item_ranges 91 93 s = [(1, 2); (3, 6); (7, 12)]%nat /\
  is_ok (tokenize StrictTokenizer (PArray PString) s) = true.
Proof.
  cbv zeta. split; [|vm_compute; auto]. split; [exists (lit "1,""]"",[2,3]"); reflexivity|]. split; [discriminate|]. split; [reflexivity|].
  intros i. do 13 (destruct i as [|i]; [reflexivity|]). unfold stray, plain, is_at. cbn. now rewrite (proj2 (nth_error_None _ _)) by (cbn; lia).
Qed.
(** A bracket too many at the start loses the items, and a second group of brackets keeps its opening one in the item. *)
Theorem C66_refuted : forall T t, T = StrictTokenizer \/ T = LenientTokenizer ->
  tokenize T (PArray t) (lit "[[1,2]") = Ok (TArray []) /\
  tokenize T (PArray PString) (lit "[a][b]") = Ok (TArray [TString (lit "a"); TString (lit "[b")]) /\
  tokenize T (PTuple [PBool; PString]) (lit "((true,a)") = Ok (TTuple []).
Proof. intros T t [->| ->]; vm_compute; auto. Qed.
Print Assumptions C66_refuted.

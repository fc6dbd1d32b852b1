(** * The texts of errors (C87).
    Every theorem is proved elsewhere and closed here by [exact]. *)
From Verif Require Import Base StrFacts Types TypeNames TypeNamesSpec Tokenizer TokenSpec TokenFacts TokenTotal ReaderSpec LiteralSpec LiteralErrorSpec ErrorSpec ErrorFacts
  Message MessageSpec MessageFacts MessageValues MessageNames MessageFirst LiteralMessages NameErrorSpec NameMessages.
From Coq Require Import String.
Local Open Scope N_scope.
Local Open Scope list_scope.

(** ** C87: messages say what is wrong and where. *)
(** Hexadecimal text: either it is two digits for each byte, or there is an odd
    number of bytes, or one error names the first that is not a digit. *)
Theorem C87_hex : forall s, wf_str s = true ->
  (forall b, hex_decode_detail s = inl b <-> hex_text s b) /\
  (hex_decode_detail s = inr OddLength <-> N.odd (len (utf8 s)) = true) /\
  (forall c i, hex_decode_detail s = inr (InvalidHexCharacter c i) <->
     N.odd (len (utf8 s)) = false /\ exists b, c = Byte.to_N b /\ first_bad (utf8 s) i b).
Proof. exact hex_kinds. Qed.
Print Assumptions C87_hex.
Example C87_hex_case : hex_decode_detail (lit "0aF") = inr OddLength /\ hex_decode_detail (lit "0x0aFF") = inr (InvalidHexCharacter 120 1) /\
  hex_decode_detail [48; 8364] = inr (InvalidHexCharacter 226 1) /\ hex_decode_detail (lit "0aFf") = inl (map byte_of_N [10; 255]).
Proof. vm_compute. auto. Qed.
(** Sizes: empty, too large, or with something that is not a digit. *)
Theorem C87_numbers : forall s,
  (forall n, parse_usize_detail s = inl n <-> size_text s n) /\
  (parse_usize_detail s = inr Empty <-> s = []) /\
  (parse_usize_detail s = inr PosOverflow <-> overflows s) /\
  (parse_usize_detail s = inr InvalidDigit <-> s <> [] /\ ~ overflows s /\ forall n, ~ size_text s n).
Proof. exact number_kinds. Qed.
Print Assumptions C87_numbers.
Example C87_numbers_case : parse_usize_detail (lit "18446744073709551616x") = inr PosOverflow /\ parse_usize_detail (lit "1844674407370955161x") = inr InvalidDigit /\
  parse_usize_detail (lit "-5") = inr InvalidDigit /\ parse_usize_detail (lit "+5") = inl 5 /\ parse_usize_detail (lit "+") = inr InvalidDigit.
Proof. vm_compute. auto. Qed.
(** A byte in a message *)
Theorem C87_quoted : forall c m, c < 256 -> (debug_char c = m <-> quoted c m).
Proof. exact quoted_iff. Qed.
Print Assumptions C87_quoted.
Example C87_quoted_case : map debug_char [103; 39; 127; 10] = [lit "'g'"; lit "'\''"; lit "'\u{7f}'"; lit "'\n'"].
Proof. vm_compute. reflexivity. Qed.
(** Different problems have different messages. *)
Theorem C87_distinct :
  (forall s s' e e', hex_decode_detail s = inr e -> hex_decode_detail s' = inr e' -> hex_message e = hex_message e' -> e = e') /\
  (forall k k', int_message k = int_message k' -> k = k').
Proof. exact messages_distinct. Qed.
Print Assumptions C87_distinct.
Example C87_distinct_case : hex_message (InvalidHexCharacter 39 10) = lit "Hex parsing error: Invalid character '\'' at position 10" /\
  int_message PosOverflow = lit "Integer parsing error: number too large to fit in target type".
Proof. vm_compute. auto. Qed.

(** With the text in place of the hexadecimal error, results stay what they are
    in [Tokenizer.v]. *)
Theorem C87_same : forall t s, wf_str s = true ->
  retold (tokenize StrictTokenizer t s) (tokenize StrictTold t s) /\ retold (tokenize LenientTokenizer t s) (tokenize LenientTold t s).
Proof. exact both_retold. Qed.
Print Assumptions C87_same.
(** There is a message exactly for the texts that are rejected. *)
Theorem C87_given : forall (lenient : bool) t s, wf_str s = true ->
  ((exists e, tokenize (if lenient then LenientTokenizer else StrictTokenizer) t s = Err e) <-> exists m, value_message lenient t s = Some m).
Proof. exact messages_cover. Qed.
Print Assumptions C87_given.
(** A value that is not a container has exactly these messages. *)
Theorem C87_scalars : forall lenient t s m, wf_str s = true -> scalar t = true -> (value_message lenient t s = Some m <-> told_error lenient t s m).
Proof. exact scalar_messages. Qed.
Print Assumptions C87_scalars.
(** Any other is rejected as a whole, or with the message for a part of it. *)
Theorem C87_values : forall lenient t s m, wf_str s = true -> value_message lenient t s = Some m ->
  m = lit "Invalid data" \/ exists u x, List.In u (leaves t) /\ part_of x s /\ blames lenient u x m.
Proof. exact value_messages. Qed.
Print Assumptions C87_values.
Example C87_values_case : let t := PTuple [PBool; PArray PBytes; PUint 8] in
  value_message false t (lit "(true,[0abg],7)") = Some (lit "Hex parsing error: Invalid character 'g' at position 3") /\
  value_message false t (lit "(true,[0ab],7)") = Some (lit "Hex parsing error: Odd number of digits") /\
  value_message false t (lit "(true,[0abb],7)") = Some (lit "Hex parsing error: Odd number of digits") /\
  value_message true t (lit "(true,[0abb],7)") = None /\ tokenize LenientTokenizer t (lit "(true,[0abb],7)") = Ok (TTuple [TBool true; TArray [TBytes (map byte_of_N [10; 187])]; TUint 7]) /\
  value_message true t (lit "(true,[0abb],7f)") = Some (lit "Uint parse error: InvalidCharacter") /\
  value_message true t (lit "(yes,[0abb],7)") = Some (lit "Invalid data").
Proof. vm_compute. repeat split. Qed.

(** Of several wrong items, the message is about the first.  A tuple or an array
    of a given size is told to be invalid for the number of its items only after
    they were read. *)
Theorem C87_first_array : forall lenient t items m, items_readable 91 93 items = true ->
  (value_message lenient (PArray t) (lit "[" ++ join (lit ",") items ++ lit "]") = Some m <->
   exists before x after, items = before ++ x :: after /\
     Forall (fun y => exists v, tokenize (if lenient then LenientTokenizer else StrictTokenizer) t y = Ok v) before /\ value_message lenient t x = Some m).
Proof. exact array_message. Qed.
Print Assumptions C87_first_array.
Theorem C87_first_fixed : forall lenient t n items m, items_readable 91 93 items = true ->
  (value_message lenient (PFixedArray t n) (lit "[" ++ join (lit ",") items ++ lit "]") = Some m <->
   (exists before x after, items = before ++ x :: after /\
      Forall (fun y => exists v, tokenize (if lenient then LenientTokenizer else StrictTokenizer) t y = Ok v) before /\ value_message lenient t x = Some m) \/
   (Forall (fun y => exists v, tokenize (if lenient then LenientTokenizer else StrictTokenizer) t y = Ok v) items /\ len items <> n /\ m = lit "Invalid data")).
Proof. exact fixed_message. Qed.
Print Assumptions C87_first_fixed.
Theorem C87_first_tuple : forall lenient ts items m, items_readable 40 41 items = true ->
  (value_message lenient (PTuple ts) (lit "(" ++ join (lit ",") items ++ lit ")") = Some m <->
   (exists before x after us u ws, items = before ++ x :: after /\ ts = us ++ u :: ws /\
      Forall2 (fun t y => exists v, tokenize (if lenient then LenientTokenizer else StrictTokenizer) t y = Ok v) us before /\ value_message lenient u x = Some m) \/
   (exists before after, items = before ++ after /\ after <> [] /\
      Forall2 (fun t y => exists v, tokenize (if lenient then LenientTokenizer else StrictTokenizer) t y = Ok v) ts before /\ m = lit "Invalid data")).
Proof. exact tuple_message. Qed.
Print Assumptions C87_first_tuple.
Example C87_first_case : items_readable 91 93 [lit "0a"; lit "0bg0"; lit "abc"] = true /\
  value_message false (PArray PBytes) (lit "[0a,0bg0,abc]") = Some (lit "Hex parsing error: Invalid character 'g' at position 2") /\
  value_message false (PFixedArray PBytes 2) (lit "[0a,0b,abc]") = Some (lit "Hex parsing error: Odd number of digits") /\
  value_message false (PFixedArray PBytes 2) (lit "[0a,0b,abcd]") = Some (lit "Invalid data") /\
  items_readable 40 41 [lit "true"; lit "0a"; lit "zz"] = true /\
  value_message true (PTuple [PBool; PBytes]) (lit "(true,0a,zz)") = Some (lit "Invalid data") /\
  value_message true (PTuple [PBool; PBytes]) (lit "(true,zz,zzz)") = Some (lit "Hex parsing error: Invalid character 'z' at position 0") /\
  value_message true (PTuple [PBool; PBytes]) (lit "(true)") = None.
Proof. vm_compute. repeat split. Qed.

(** The same for all texts, by the positions of items (C66). *)
Theorem C87_array : forall lenient t s m, wf_str s = true ->
  (value_message lenient (PArray t) s = Some m <->
   item_fails 91 93 s (Forall (fun r => exists x v, bytes_between s r x /\ tokenize (if lenient then LenientTokenizer else StrictTokenizer) t x = Ok v))
     (fun _ x => value_message lenient t x = Some m) \/
   (m = lit "Invalid data" /\
    literal_spoilt 91 93 s (Forall (fun r => exists x v, bytes_between s r x /\ tokenize (if lenient then LenientTokenizer else StrictTokenizer) t x = Ok v)))).
Proof. exact array_told. Qed.
Print Assumptions C87_array.
Theorem C87_fixed_array : forall lenient t n s m, wf_str s = true ->
  (value_message lenient (PFixedArray t n) s = Some m <->
   value_message lenient (PArray t) s = Some m \/
   (m = lit "Invalid data" /\ exists vs, tokenize (if lenient then LenientTokenizer else StrictTokenizer) (PArray t) s = Ok (TArray vs) /\ len vs <> n)).
Proof. exact fixed_array_told. Qed.
Print Assumptions C87_fixed_array.
Theorem C87_tuple : forall lenient ts s m, wf_str s = true ->
  (value_message lenient (PTuple ts) s = Some m <->
   item_fails 40 41 s
     (fun rs => (List.length rs <= List.length ts)%nat /\
        Forall (fun y => exists x v, bytes_between s (snd y) x /\ tokenize (if lenient then LenientTokenizer else StrictTokenizer) (fst y) x = Ok v) (combine ts rs))
     (fun k x => match nth_error ts k with Some t => value_message lenient t x = Some m | None => m = lit "Invalid data" end) \/
   (m = lit "Invalid data" /\ literal_spoilt 40 41 s
     (fun rs => (List.length rs <= List.length ts)%nat /\
        Forall (fun y => exists x v, bytes_between s (snd y) x /\ tokenize (if lenient then LenientTokenizer else StrictTokenizer) (fst y) x = Ok v) (combine ts rs)))).
Proof. exact tuple_told. Qed.
Print Assumptions C87_tuple.
Example C87_array_case : item_ranges 91 93 (lit "[0a,0g]]") = [(1, 3); (4, 6)]%nat /\ stray 91 93 (lit "[0a,0g]]") 7 = true /\
  value_message false (PArray PBytes) (lit "[0a,0g]]") = Some (lit "Hex parsing error: Invalid character 'g' at position 1") /\
  value_message false (PArray PBytes) (lit "[0a,0b]]") = Some (lit "Invalid data") /\
  value_message false (PTuple [PArray PBytes; PBool]) (lit "([0a,0b]],""(true"")") = Some (lit "Invalid data") /\
  value_message false (PTuple [PString; PBytes]) (lit "(""),(,"",0b0)") = Some (lit "Hex parsing error: Odd number of digits").
Proof. vm_compute. repeat split. Qed.

(** With the text in place of the error about a number, the reader of names
    stays what it is in [TypeNames.v]. *)
Theorem C87_names_same : forall p s, recounted (read p s) (read_told p s).
Proof. exact read_recounted. Qed.
Print Assumptions C87_names_same.
(** There is a message exactly for the names that are rejected. *)
Theorem C87_names_given : forall p s, str_len s < 2 ^ 63 -> ((exists e, read p s = Err e) <-> exists m, name_message p s = Some m).
Proof. exact names_cover. Qed.
Print Assumptions C87_names_given.
(** It shows a part of the name that is rejected so too when read alone, or it
    says why what stands in the place of a size, in such a part, is not one.  That
    is never that it is empty. *)
Theorem C87_names : forall p s m, str_len s < 2 ^ 63 -> name_message p s = Some m ->
  (exists x, part_of x s /\ m = lit "Invalid name: " ++ x /\ read p s = Err (InvalidName x) /\ read p x = Err (InvalidName x)) \/
  (exists x k, part_of x s /\ read p s = Err ParseIntErr /\ read p x = Err ParseIntErr /\ size_place x k /\ k <> [] /\ bad_size_message k m).
Proof. exact name_messages. Qed.
Print Assumptions C87_names.
Example C87_names_case : read Debug (lit "(bool,uint8[3x][])") = Err ParseIntErr /\ part_of (lit "uint8[3x]") (lit "(bool,uint8[3x][])") /\
  read Debug (lit "uint8[3x]") = Err ParseIntErr /\ size_place (lit "uint8[3x]") (lit "3x") /\
  name_message Debug (lit "(bool,uint8[3x][])") = Some (lit "Integer parsing error: invalid digit found in string") /\
  name_message Debug (lit "(bool,bytes99999999999999999999x)") = Some (lit "Integer parsing error: number too large to fit in target type") /\
  name_message Debug (lit "(bool,flag)") = Some (lit "Invalid name: flag") /\ name_message Debug (lit "(bool,uint8)") = None.
Proof.
  split; [vm_compute; reflexivity|]. split; [exists (lit "(bool,"), (lit "[])"); reflexivity|]. split; [vm_compute; reflexivity|]. split; [|vm_compute; auto].
  right; right; right. split; [intros [X|[X|[]]]; discriminate X|]. right. exists (lit "uint8"). reflexivity.
Qed.
(** For names of ASCII characters, exactly these messages, for exactly these
    names. *)
Theorem C87_ascii_names : forall p s m, len s < 2 ^ 63 -> all_ascii s = true ->
  (name_message p s = Some m <->
   (exists x, rejected_name number_told s (InvalidName x) /\ m = lit "Invalid name: " ++ x) \/ rejected_name number_told s (OtherErr m)).
Proof. exact name_messages_exact. Qed.
Print Assumptions C87_ascii_names.
Example C87_ascii_names_case : all_ascii (lit "bool[2x][]") = true /\
  name_message Debug (lit "bool[2x][]") = Some (lit "Integer parsing error: invalid digit found in string") /\
  rejected_name number_told (lit "bool[2x][]") (OtherErr (lit "Integer parsing error: invalid digit found in string")) /\
  name_message Debug (lit "(uint8,(int,((bool)x),int9x)") = Some (lit "Invalid name: (bool)x").
Proof.
  split; [reflexivity|]. split; [vm_compute; reflexivity|]. split; [|vm_compute; reflexivity].
  assert (N : not_size (lit "2x")).
  { intros n (d & E & _ & F & _). rewrite Forall_forall in F. destruct (F 120) as [_ F']; [destruct E as [<-|E]; [right; now left|discriminate E]|]. now apply F'. }
  apply (@rn_array number_told (lit "bool[2x]") (lit "[]")); [now left|].
  apply (@rn_count number_told (lit "bool[") (lit "2x")); [right; exists (lit "bool"); reflexivity|discriminate|intros [X|[X|[]]]; discriminate X|exact N|].
  eexists. split; [reflexivity|]. right. split; [|split; [exact N|reflexivity]].
  intros (d & r & E & F & L). change (unsigned (lit "2x")) with (lit "2x") in E.
  destruct d as [|a [|b d]]; [now apply L|injection E as <- _; now apply L|]. injection E as _ <- _. inversion F as [|? ? _ F']. inversion F' as [|? ? [_ X] _]. now apply X.
Qed.

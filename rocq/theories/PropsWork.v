(** * How much text is gone over in reading type names and values (C75).
    Every theorem is proved elsewhere and closed here by [exact]. *)
From Verif Require Import Base StrFacts Types TypeNames TypeNamesSpec Tokenizer ReaderSpec DepthSpec DepthFacts Work WorkFacts WorkNames WorkLower.
From Coq Require Import String.
Local Open Scope N_scope.
Local Open Scope list_scope.

(** ** C75: the calls that reading a type name makes, each counted as one more
    than the characters of its text, add up to at most three times the square
    of the length; some names, however long, take a quarter of the square. *)
Theorem C75_names : forall p s, all_ascii s = true -> len s < 2 ^ 63 -> name_work p s <= 3 * ((1 + len s) * (1 + len s)).
Proof. exact name_work_bound. Qed.
Print Assumptions C75_names.
Theorem C75_names_attained : forall p k, let s := lit "int" ++ suffixes k in
  len s = 2 * N.of_nat k + 3 /\ name_work p s = (N.of_nat k + 1) * (N.of_nat k + 4) /\ len s * len s <= 4 * name_work p s.
Proof. exact long_names. Qed.
Print Assumptions C75_names_attained.
Example C75_names_case : let s := lit "(uint8[2][],(bool,string[]))" in all_ascii s = true /\ len s = 28 /\ name_work Debug s = 97.
Proof. vm_compute. repeat split; reflexivity. Qed.
Example C75_names_attained_case : lit "int" ++ suffixes 3 = lit "int[][][]" /\ name_work Release (lit "int[][][]") = 28 /\
  read Release (lit "int[][][]") = Ok (PArray (PArray (PArray (PInt 256)))).
Proof. vm_compute. repeat split; reflexivity. Qed.

(** Reading a value as a type goes over the text at most once for each level
    of the type; for some types and values, however deep, that is what happens
    up to a factor of two. *)
Theorem C75_values : forall T t s, value_work T t s <= N.of_nat (levels t) * (1 + str_len s).
Proof. exact value_bound. Qed.
Print Assumptions C75_values.
Theorem C75_values_attained : forall T k, let t := arrays k PBool in let s := nested_value k in
  levels t = S k /\ str_len s = 2 * N.of_nat k + 4 /\
  (tokenize_bool T (lit "true") = Ok true -> tokenize T t s = Ok (nested_token k)) /\
  value_work T t s = (N.of_nat k + 1) * (N.of_nat k + 5) /\
  N.of_nat (levels t) * (1 + str_len s) <= 2 * value_work T t s.
Proof. exact long_values. Qed.
Print Assumptions C75_values_attained.
Example C75_values_case : let t := PArray (PArray PBool) in let s := lit "[[true,false],[true]]" in
  tokenize StrictTokenizer t s = Ok (TArray [TArray [TBool true; TBool false]; TArray [TBool true]]) /\
  levels t = 3%nat /\ str_len s = 21 /\ value_work StrictTokenizer t s = 58.
Proof. vm_compute. repeat split; reflexivity. Qed.
Example C75_values_attained_case : nested_value 2 = lit "[[true]]" /\ nested_token 2 = TArray [TArray [TBool true]] /\
  value_work LenientTokenizer (PArray (PArray PBool)) (lit "[[true]]") = 21.
Proof. vm_compute. repeat split; reflexivity. Qed.

(** The calls counted are the ones made: a step of the loop over a name, the
    branch for arrays and a step of the loop over a value call the reader on
    the text counted for them, once, or not at all if none is counted. *)
Theorem C75_calls_char : forall name st pos c rest,
  match asked (read_char ask name st pos c rest) with
  | None => forall rd, read_char rd name st pos c rest = read_char ask name st pos c rest
  | Some s => exists k, forall rd, read_char rd name st pos c rest = (do t <- rd s; k t)
  end.
Proof. exact char_calls_once. Qed.
Print Assumptions C75_calls_char.
Theorem C75_calls_array : forall p name,
  match asked (read_array p ask name) with
  | None => forall rd, read_array p rd name = read_array p ask name
  | Some s => exists k, forall rd, read_array p rd name = (do t <- rd s; k t)
  end.
Proof. exact array_calls_once. Qed.
Print Assumptions C75_calls_array.
Theorem C75_calls_token : forall (St : Type) op cl value s (params : St) pos ch,
  match asked (token_char (fun _ => ask) op cl value s params pos ch) with
  | None => forall next, token_char next op cl value s params pos ch = token_char (fun _ => ask) op cl value s params pos ch
  | Some sub => exists k, forall next, token_char next op cl value s params pos ch = (do r <- next params sub; k r)
  end.
Proof. exact @token_calls_once. Qed.
Print Assumptions C75_calls_token.
Example C75_calls_case :
  asked (read_char ask (lit "(bool,int)") (mkR [] [] 1 0 1) 5 44 (lit "int)")) = Some (lit "bool") /\
  asked (read_char ask (lit "(bool,int)") (mkR [] [] 1 0 1) 4 108 (lit ",int)")) = None /\
  asked (read_array Debug ask (lit "bool[3]")) = Some (lit "bool") /\
  asked (token_char (fun _ => ask) 91 93 (lit "[true,1]") (mkT [] 1 false 1) tt 5 44) = Some (lit "true").
Proof. vm_compute. repeat split; reflexivity. Qed.

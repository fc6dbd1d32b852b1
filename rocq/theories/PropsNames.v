(** * Properties of type names (C20-C22, C65).
    Every theorem is proved elsewhere and closed here by [exact], or is a
    computed counterexample. *)
From Verif Require Import Base Types AbiSpec TypeNames TypeNamesSpec TypeNamesFacts ReaderSpec ReaderFacts ReaderTotal ReaderGrammar ReaderExact ReaderNested ReaderPanics.
From Coq Require Import String.
Local Open Scope N_scope.
Local Open Scope list_scope.

(** ** C20: [Reader::read] inverts [Writer::write].
    Proved for every type with at most two levels of tuples (arrays nested
    anywhere to any depth).  Missing: three or more levels, and empty tuples
    inside a tuple, for which the claim is false. *)
Theorem C20_round_trip_partial : forall p t,
  wf_type t = true -> two_levels t = true -> read p (write t) = Ok t.
Proof. exact read_written. Qed.
Print Assumptions C20_round_trip_partial.
Definition C20_type : ParamType :=
  PArray (PTuple [PFixedArray (PTuple [PUint 256; PArray (PArray PString)]) 3; PFixedBytes 4; PArray (PTuple [PAddress])]).
Example C20_case : wf_type C20_type = true /\ two_levels C20_type = true /\
  write C20_type = lit "((uint256,string[][])[3],bytes4,(address)[])[]".
Proof. vm_compute. repeat split. Qed.
(** Exactly which types come back: [readable] (ReaderSpec.v).  Types with three
    levels of tuples only do if each field of the outermost tuple is
    tuple-free, (arrays of) a flat tuple, or a tuple that ends in one, and no
    field is left over from a flat tuple before one of the latter. *)
Theorem C20_exact : forall p t, wf_type t = true -> len (write t) < 2 ^ 63 ->
  (read p (write t) = Ok t <-> readable t = true).
Proof. exact read_exact. Qed.
Print Assumptions C20_exact.
Definition C20_deep : ParamType :=
  PArray (PTuple [PTuple [PArray PString; PFixedArray (PTuple [PInt 8; PBool]) 2]; PArray (PTuple [PUint 256; PAddress])]).
Definition C20_deep_swapped : ParamType :=
  PArray (PTuple [PArray (PTuple [PUint 256; PAddress]); PTuple [PArray PString; PFixedArray (PTuple [PInt 8; PBool]) 2]]).
Example C20_exact_case : two_levels C20_deep = false /\ readable C20_deep = true /\ wf_type C20_deep = true /\
  write C20_deep = lit "((string[],(int8,bool)[2]),(uint256,address)[])[]" /\
  readable C20_deep_swapped = false /\ wf_type C20_deep_swapped = true.
Proof. vm_compute. repeat split. Qed.
(** Three levels: a different type is returned. *)
Theorem C20_refuted : exists t, wf_type t = true /\ forall p, exists t', read p (write t) = Ok t' /\ t' <> t.
Proof.
  exists (PTuple [PTuple [PAddress; PBool]; PTuple [PString; PTuple [PBytes; PInt 8]]]). split; [reflexivity|].
  intros p. exists (PTuple [PTuple [PAddress; PBool]; PTuple [PAddress; PString; PTuple [PBytes; PInt 8]]]).
  split; [destruct p; vm_compute; reflexivity|discriminate].
Qed.
Print Assumptions C20_refuted.
(** Three levels: the written name is rejected. *)
Theorem C20_refuted_error : exists t, wf_type t = true /\ forall p, exists e, read p (write t) = Err e.
Proof.
  exists (PTuple [PTuple [PTuple [PAddress; PBool]; PString]; PBytes]). split; [reflexivity|].
  intros p. eexists. destruct p; vm_compute; reflexivity.
Qed.
Print Assumptions C20_refuted_error.
(** An empty inner tuple is dropped. *)
Theorem C20_refuted_unit : forall p, read p (write (PTuple [PTuple []; PAddress])) = Ok (PTuple [PAddress]).
Proof. intros p. destruct p; vm_compute; reflexivity. Qed.
Print Assumptions C20_refuted_unit.

(** ** C21: [Reader::read] never panics.
    Proved for ASCII names in which every ']' closes a '[' of the same tuple
    item.  Missing: other strings, for which the claim is false. *)
Theorem C21_no_panic_partial : forall p name,
  all_ascii name = true -> brackets_ok false name = true -> read p name <> Panic.
Proof. exact (fun p name A B => @read_not_panic p (S (List.length name)) name (conj A B)). Qed.
Print Assumptions C21_no_panic_partial.
Example C21_case : let s := lit "((a[],b[7]x),),(x))" in all_ascii s = true /\ brackets_ok false s = true.
Proof. vm_compute. auto. Qed.
(** Exactly which ASCII names make it panic: those of the grammar
    [panicking_name] (ReaderSpec.v), whose first field that is not read as a type
    has a lone closing bracket. *)
Theorem C21_exact : forall p s, len s < 2 ^ 63 -> all_ascii s = true -> (read p s = Panic <-> panicking_name s).
Proof. exact (fun p s L A => @nested_panics p (S (List.length s)) s (le_n _) L A). Qed.
Print Assumptions C21_exact.
Definition C21_name : str := lit "(bool,(int8,7][])[2],%$#)[]".
Example C21_exact_case : len C21_name < 2 ^ 63 /\ all_ascii C21_name = true /\ panicking_name C21_name.
Proof.
  split; [reflexivity|]. split; [reflexivity|].
  apply (pnm_array (s := lit "(bool,(int8,7][])[2],%$#)") (x := lit "[]")); [now left|]. apply (pnm_tuple (lit "bool,(int8,7][])[2],%$#")).
  apply (pb_field (x := lit "bool") (t := PBool) (s := lit "(int8,7][])[2],%$#)")); [constructor|]. apply (pb_open (x := []) (s := lit "int8,7][])[2],%$#)")); [intros c []|].
  apply (@po_last_item 1 (lit "int8,") [PInt 8] (lit "7][]") (lit "[2]") PBool (PFixedArray PBool 2) (lit ",%$#)")).
  - apply (cf_field (x := lit "int8") (g := [])); [|constructor]. apply (sp_int (s := lit "8")). now apply parse_usize_iff.
  - intros c I. vm_compute in I. repeat (destruct I as [<-|I]; [repeat split; discriminate|]). destruct I.
  - apply (@pn_prefix (lit "7]") [] (lit "[]")); [now left|reflexivity|]. apply pn_lone. right. exists (lit "7"), 7. split; [now apply parse_usize_iff|reflexivity].
  - apply (at_fixed_array (y := []) (k := lit "2")); [constructor|]. now apply parse_usize_iff.
  - right. eexists. left. reflexivity.
Qed.
(** It always terminates: the recursion bound of the model is never reached
    (Rust strings are shorter than 2^63 bytes). *)
Theorem C21_terminates : forall p name, str_len name < 2 ^ 63 -> read p name <> Err OutOfFuel.
Proof. exact (fun p name L => @read_fuel_enough p (S (List.length name)) name L (le_n _)). Qed.
Print Assumptions C21_terminates.
Theorem C21_refuted : forall p,
  read p (lit "]") = Panic /\ read p (lit "5]") = Panic /\
  read p (lit "(5],bool)") = Panic /\ read p [233; 91; 93] = Panic /\ read p (40 :: 233 :: lit ",bool)") = Panic.
Proof. intros p. destruct p; vm_compute; repeat split. Qed.
Print Assumptions C21_refuted.
(** Nonsense that is accepted. *)
Theorem C21_refuted_rejects : forall p,
  read p (lit "(address,,bool)") = Ok (PTuple [PAddress; PBool]) /\
  read p (lit "int+8") = Ok (PInt 8) /\ read p (lit "uint0") = Ok (PUint 0) /\
  read p (lit "bytes33") = Ok (PFixedBytes 33) /\ read p (lit "(a(address)") = Ok (PTuple [PTuple [PAddress]]).
Proof. intros p. destruct p; vm_compute; repeat split. Qed.
Print Assumptions C21_refuted_rejects.

(** ** C22: different types have different names. *)
Theorem C22_injective : forall t1 t2, write t1 = write t2 -> t1 = t2.
Proof. exact write_inj. Qed.
Print Assumptions C22_injective.
Example C22_case : write (PTuple [PTuple [PUint 25]; PArray (PUint 6)]) = lit "((uint25),uint6[])".
Proof. reflexivity. Qed.

(** ** C65: which type names are accepted, and as what.
    Proved for all ASCII names, with tuples nested to any depth (C65_exact), and
    for all names, ASCII or not, without ')' or with no '(' but perhaps the
    first character.  For other names with non-ASCII characters the claim is
    false (C65_refuted): the reader takes positions of characters for positions
    of bytes and reads other text than the field. *)
Theorem C65_exact : forall p s t, len s < 2 ^ 63 -> all_ascii s = true -> (read p s = Ok t <-> accepted s t).
Proof. exact (fun p s t L A => @nested_read p (S (List.length s)) s (le_n _) L A t). Qed.
Print Assumptions C65_exact.
(** Text before an inner tuple, a second tuple after the first. *)
Definition C65_name : str := lit "(bool,x(int8,address)[])?((string))[2]".
Definition C65_type : ParamType := PFixedArray (PTuple [PBool; PArray (PTuple [PInt 8; PAddress]); PTuple [PString]]) 2.
Example C65_exact_case : len C65_name < 2 ^ 63 /\ all_ascii C65_name = true /\ accepted C65_name C65_type.
Proof.
  split; [reflexivity|]. split; [reflexivity|].
  assert (D2 : size_text (lit "2") 2) by (exists (lit "2"); repeat split; [now left|discriminate|]; constructor; [split; vm_compute; discriminate|constructor]).
  assert (D8 : size_text (lit "8") 8) by (exists (lit "8"); repeat split; [now left|discriminate|]; constructor; [split; vm_compute; discriminate|constructor]).
  apply (ac_fixed_array (s := lit "(bool,x(int8,address)[])?((string))") (k := lit "2")); [|exact D2].
  apply (ac_tuple (lit "bool,x(int8,address)[])?((string)")).
  apply (bd_field (x := lit "bool") (s := lit "x(int8,address)[])?((string))")); [constructor|].
  apply (bd_open (x := lit "x") (s := lit "int8,address)[])?((string))")). { intros c [<-|[]]. repeat split; discriminate. }
  apply (op_field (g := lit "int8,") (us := [PInt 8]) (x := lit "address") (z := PAddress) (y := lit "[]") (s := lit ")?((string))")).
  - apply (cf_field (x := lit "int8") (g := [])); [|constructor]. apply (sp_int (s := lit "8")). exact D8.
  - constructor.
  - apply (at_array (y := [])). constructor.
  - right. eexists. right. reflexivity.
  - apply (bd_close (s := lit "?((string))")), (bd_again (j := lit "?") (x := []) (s := lit "string))")).
    + intros c [<-|[]]. repeat split; discriminate.
    + intros c [].
    + apply (op_field (g := []) (us := []) (x := lit "string") (z := PString) (y := []) (s := lit ")"));
        [constructor|constructor|constructor| |repeat constructor]. right. eexists. right. reflexivity.
Qed.
Theorem C65_refuted : exists s t, str_len s < 2 ^ 63 /\ (forall p, read p s = Ok t) /\ ~ accepted s t.
Proof. exact accented_read. Qed.
Print Assumptions C65_refuted.
Theorem C65_plain_partial : forall p s t, str_len s < 2 ^ 63 -> ~ In 41 s -> (read p s = Ok t <-> spelled s t).
Proof. exact (fun p s t L N => proj1 (@plain_read p (S (List.length s)) s (le_n _) L N) t). Qed.
Print Assumptions C65_plain_partial.
Theorem C65_flat_partial : forall p s t, str_len s < 2 ^ 63 -> ~ In 40 (tl s) -> (read p s = Ok t <-> spelled_flat s t).
Proof. exact (fun p s t L N => @flat_read p (S (List.length s)) s (le_n _) L N t). Qed.
Print Assumptions C65_flat_partial.
Example C65_case : exists s, spelled_flat s (PArray (PTuple [PInt 8; PFixedArray PBool 2])) /\ s = lit "(int+08,,bool[02],)[]" /\
  str_len s < 2 ^ 63 /\ ~ In 40 (tl s).
Proof.
  exists (lit "(int+08,,bool[02],)[]"). split; [|split; [reflexivity|split; [reflexivity|vm_compute; intuition discriminate]]].
  apply (sf_array (s := lit "(int+08,,bool[02],)")), (sf_tuple (s := lit "int+08,,bool[02],")).
  apply (ft_field (s := lit "int+08") (r := lit ",bool[02],")).
  - apply (sp_int (s := lit "+08")). exists (lit "08"). repeat split; [now right|discriminate|].
    repeat (constructor; [split; vm_compute; discriminate|]). constructor.
  - apply (ft_nothing (s := lit "bool[02],")), (ft_field (s := lit "bool[02]") (r := [])); [|constructor].
    apply (sp_fixed_array (s := lit "bool") (k := lit "02")); [constructor|]. exists (lit "02"). repeat split; [now left|discriminate|].
    repeat (constructor; [split; vm_compute; discriminate|]). constructor.
Qed.
(** The names without ')' that make the reader panic. *)
Theorem C65_panics_partial : forall p s, str_len s < 2 ^ 63 -> ~ In 41 s -> (read p s = Panic <-> panicking s).
Proof. exact (fun p s L N => proj2 (@plain_read p (S (List.length s)) s (le_n _) L N)). Qed.
Print Assumptions C65_panics_partial.
Example C65_panics_case : panicking (lit "7][]") /\ panicking (233 :: lit "[3]") /\ read Release (lit "7][]") = Panic /\ read Debug (233 :: lit "[3]") = Panic.
Proof.
  split; [|split; [|split; reflexivity]].
  - apply (@pn_prefix (lit "7]") [] (lit "[]")); [now left|reflexivity|]. apply pn_lone. right. exists (lit "7"), 7. split; [|reflexivity].
    exists (lit "7"). repeat split; [now left|discriminate|]. constructor; [split; vm_compute; discriminate|constructor].
  - apply (@pn_cut [233] (lit "[3]")).
    + right. exists (lit "3"), 3. split; [|reflexivity]. exists (lit "3"). repeat split; [now left|discriminate|]. constructor; [split; vm_compute; discriminate|constructor].
    + intros [|c a] b E; [discriminate|]. injection E as <- E. destruct a; [|discriminate]. vm_compute. discriminate.
Qed.

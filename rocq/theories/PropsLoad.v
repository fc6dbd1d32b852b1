(** * Which JSON is loaded, and which makes loading panic (C83, C51).
    Every theorem is proved elsewhere and closed here by [exact]. *)
From Verif Require Import Base Types TypeNames ReaderSpec Function Event Json JsonSpec Contract ContractSpec LoadSpec LoadLemmas LoadStream LoadStreamFacts.
From Coq Require Import String.
Local Open Scope N_scope.
Local Open Scope list_scope.

(** ** C83: exactly the JSON that says what a contract is is loaded. *)
(** When the type names are ASCII nothing of the code is left in the
    condition: [accepted] is the grammar of names (C65). *)
Theorem C83_only : forall p j c, ascii_names j -> load p j = Ok c ->
  json_depth j <= 127 /\ exists ops, contract_is accepted true j ops /\ gathers c ops.
Proof. exact (fun p j c A => @loads_only p accepted j c (@agree_ascii p j A)). Qed.
Print Assumptions C83_only.
Theorem C83_all : forall p j ops, ascii_names j -> json_depth j <= 127 -> contract_is accepted true j ops ->
  exists c, load p j = Ok c /\ gathers c ops.
Proof. exact (fun p j ops A => @loads_all p accepted j ops (@agree_ascii p j A)). Qed.
Print Assumptions C83_all.
Theorem C83_unique : forall j ops1 ops2, ascii_names j -> contract_is accepted true j ops1 -> contract_is accepted true j ops2 -> ops1 = ops2.
Proof. exact (fun j ops1 ops2 A => @items_unique Debug accepted j ops1 ops2 (@agree_ascii Debug j A)). Qed.
Print Assumptions C83_unique.
(** Any names: those that the reader reads. *)
Theorem C83_only_any : forall p j c, load p j = Ok c ->
  json_depth j <= 127 /\ exists ops, contract_is (fun s t => read p s = Ok t) true j ops /\ gathers c ops.
Proof. exact (fun p j c => @loads_only p (reads p) j c (@agree_reads p j)). Qed.
Print Assumptions C83_only_any.
Theorem C83_all_any : forall p j ops, json_depth j <= 127 -> contract_is (fun s t => read p s = Ok t) true j ops ->
  exists c, load p j = Ok c /\ gathers c ops.
Proof. exact (fun p j ops => @loads_all p (reads p) j ops (@agree_reads p j)). Qed.
Print Assumptions C83_all_any.
(** A function given by the values of its fields, without the last; a
    parameter whose name has a field that its components are added to; a
    mutability as an object; unknown keys. *)
Definition C83_json : json := JArr [
  JArr [JStr (lit "function"); JStr (lit "f(bool)"); JArr [
      JObj [(lit "components", JArr [JObj [(lit "type", JStr (lit "bool")); (lit "?", JNull)]]); (lit "type", JStr (lit "(address)[2]")); (lit "name", JStr (lit "a"))]];
    JArr []; JBool true];
  JObj [(lit "outputs", JArr []); (lit "stateMutability", JObj [(lit "view", JNull)]); (lit "inputs", JArr []); (lit "name", JStr (lit "g"));
    (lit "type", JStr (lit "function")); (lit "?", JNum (lit "7"))];
  JArr [JStr (lit "receive")]].
Example C83_case : ascii_names C83_json /\ json_depth C83_json = 6 /\ exists c, load Debug C83_json = Ok c /\
  function c (lit "f") = Ok (mkFunction (lit "f") [mkParam (lit "a") (PFixedArray (PTuple [PAddress; PBool]) 2) None] [] true NonPayable) /\
  function c (lit "g") = Ok (mkFunction (lit "g") [] [] false View) /\ c_receive c = true /\ c_fallback c = false.
Proof. split; [apply texts_ascii; vm_compute; reflexivity|]. split; [reflexivity|]. eexists. split; [vm_compute; reflexivity|]. vm_compute. auto. Qed.
(** A value too many, a key twice, a tuple without components, a component
    that is not read: not loaded. *)
Example C83_not : Forall (fun j => load Debug (JArr [j]) = Err SerdeJson) [
  JArr [JStr (lit "fallback"); JNull];
  JArr [JStr (lit "constructor"); JArr []; JArr []];
  JObj [(lit "type", JStr (lit "constructor")); (lit "inputs", JArr []); (lit "inputs", JArr [])];
  JObj [(lit "type", JStr (lit "constructor")); (lit "inputs", JArr [JObj [(lit "name", JStr []); (lit "type", JStr (lit "tuple"))]])];
  JObj [(lit "type", JStr (lit "constructor")); (lit "inputs", JArr [JObj [(lit "name", JStr []); (lit "type", JStr (lit "bool")); (lit "components", JArr [JNull])]])]].
Proof. repeat (apply List.Forall_cons; [vm_compute; reflexivity|]). apply List.Forall_nil. Qed.
(** Single parameters, from text and from a parsed value: only in text are
    further keys refused. *)
Theorem C83_param : forall p j a, (de_param p Text j = Ok a <-> param_is (fun s t => read p s = Ok t) false j a) /\
  (de_param p Buffered j = Ok a <-> param_is (fun s t => read p s = Ok t) true j a).
Proof. exact (fun p j a => conj (@param_reads p Text j a) (@param_reads p Buffered j a)). Qed.
Print Assumptions C83_param.
Theorem C83_event_param : forall p j a, (de_event_param p Text j = Ok a <-> event_param_is (fun s t => read p s = Ok t) false j a) /\
  (de_event_param p Buffered j = Ok a <-> event_param_is (fun s t => read p s = Ok t) true j a).
Proof. exact (fun p j a => conj (@event_param_reads p Text j a) (@event_param_reads p Buffered j a)). Qed.
Print Assumptions C83_event_param.
Theorem C83_tuple_param : forall p j a, (de_tuple_param p Text j = Ok a <-> tuple_param_is (fun s t => read p s = Ok t) false j a) /\
  (de_tuple_param p Buffered j = Ok a <-> tuple_param_is (fun s t => read p s = Ok t) true j a).
Proof. exact (fun p j a => conj (@tuple_param_reads p Text j a) (@tuple_param_reads p Buffered j a)). Qed.
Print Assumptions C83_tuple_param.
Example C83_param_case : let l := [(lit "type", JStr (lit "uint")); (lit "name", JStr (lit "a")); (lit "?", JNull)] in
  de_param Debug Text (JObj l) = Err SerdeJson /\ de_param Debug Buffered (JObj l) = Ok (mkParam (lit "a") (PUint 256) None) /\
  de_event_param Debug Text (JObj (firstn 2 l)) = Ok (mkEventParam (lit "a") (PUint 256) false) /\
  de_tuple_param Debug Text (JObj (firstn 1 l)) = Ok (mkTupleParam None (PUint 256) None).
Proof. vm_compute. auto. Qed.

(** ** C51: exactly when loading panics. *)
(** The items before are read, of the item the entries before, and so on down
    to a name on which the reader panics; [panicking_name] is the grammar of
    these names (C21). *)
Theorem C51_exact : forall p j, ascii_names j ->
  (load p j = Panic <-> json_depth j <= 127 /\ contract_crashes accepted true panicking_name j).
Proof. exact (fun p j A => @load_crashes p accepted panicking_name j (@behaves_ascii p j A)). Qed.
Print Assumptions C51_exact.
Theorem C51_exact_any : forall p j, load p j = Panic <-> json_depth j <= 127 /\
  contract_crashes (fun s t => read p s = Ok t) true (fun s => read p s = Panic) j.
Proof. exact (fun p j => @load_crashes p (reads p) (dies p) j (@behaves_reads p j)). Qed.
Print Assumptions C51_exact_any.
(** The panicking name is a component of the second parameter of the second item. *)
Definition C51_json : json := JArr [JArr [JStr (lit "receive")];
  JArr [JStr (lit "event"); JStr (lit "e"); JArr [
    JObj [(lit "name", JStr (lit "a")); (lit "type", JStr (lit "bool"))];
    JObj [(lit "indexed", JBool true); (lit "components", JArr [JObj [(lit "type", JStr (lit "(bool,7])"))]])]]]].
Example C51_exact_case : ascii_names C51_json /\ json_depth C51_json = 6 /\ load Debug C51_json = Panic.
Proof. split; [apply texts_ascii; vm_compute; reflexivity|]. vm_compute. auto. Qed.
(** Something unreadable before it: an error. *)
Example C51_before : load Debug (JArr [JArr [JStr (lit "event"); JNull; JArr [JObj [(lit "type", JStr (lit "7]"))]]]]) = Err SerdeJson /\
  load Debug (JArr [JArr [JStr (lit "event"); JStr []; JArr [JObj [(lit "type", JStr (lit "7]"))]]]]) = Panic.
Proof. vm_compute. auto. Qed.
(** Everything else is an error. *)
Theorem C51_otherwise : forall p j, ascii_names j ->
  (load p j = Err SerdeJson <->
   ~ (json_depth j <= 127 /\ ((exists ops, contract_is accepted true j ops) \/ contract_crashes accepted true panicking_name j))).
Proof. exact (fun p j A => @load_trichotomy p accepted panicking_name j (@behaves_ascii p j A)). Qed.
Print Assumptions C51_otherwise.
(** Single parameters. *)
Theorem C51_params : forall p j,
  (de_param p Text j = Panic <-> param_crashes (fun s t => read p s = Ok t) false (fun s => read p s = Panic) j) /\
  (de_event_param p Text j = Panic <-> event_param_crashes (fun s t => read p s = Ok t) false (fun s => read p s = Panic) j) /\
  (de_tuple_param p Text j = Panic <-> param_crashes (fun s t => read p s = Ok t) false (fun s => read p s = Panic) j).
Proof. exact (fun p j => conj (@param_dies p Text j) (conj (@event_param_dies p Text j) (@tuple_param_dies p Text j))). Qed.
Print Assumptions C51_params.
Example C51_params_case : let bad := (lit "type", JStr (lit "]")) in
  de_param Debug Text (JObj [bad]) = Panic /\ de_param Debug Text (JObj [(lit "?", JNull); bad]) = Err SerdeJson /\
  de_event_param Debug Text (JObj [(lit "indexed", JBool false); bad]) = Panic /\
  de_tuple_param Debug Text (JObj [(lit "components", JArr [JObj [bad]])]) = Panic.
Proof. vm_compute. auto. Qed.
(** The code does not look at the whole text first (LoadStream.v): it accepts
    the same contracts, but panics if any number of items at the start would
    make it panic, however deep the others are nested. *)
Theorem C51_stream : forall p j, (forall c, load_items p j = Ok c <-> load p j = Ok c) /\
  (load_items p j = Panic <-> exists l1 l2, j = JArr (l1 ++ l2) /\ load p (JArr l1) = Panic).
Proof. exact (fun p j => conj (@stream_ok p j) (@stream_panic p j)). Qed.
Print Assumptions C51_stream.
Fixpoint C51_deep (n : nat) : json := match n with O => JNull | S n => JArr [C51_deep n] end.
Example C51_stream_case : let j := JArr [JArr [JStr (lit "constructor"); JArr [JObj [(lit "type", JStr (lit "]"))]]]; C51_deep 127] in
  load Debug j = Err SerdeJson /\ load_items Debug j = Panic.
Proof. vm_compute. auto. Qed.

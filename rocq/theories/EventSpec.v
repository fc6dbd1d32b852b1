(** * What events, logs and filters mean, independently of their model *)
From Verif Require Import Base Types AbiSpec TypeNamesSpec Keccak Event.
Set Implicit Arguments.
Local Open Scope N_scope.

(** ** Reading one topic *)
(** Types a topic holds a value of, as opposed to a hash. *)
Definition value_type (t : ParamType) : bool :=
  match t with PAddress | PInt _ | PUint _ | PBool | PFixedBytes _ => true | _ => false end.
(** The value the 32-byte topic [w] denotes for an indexed input. *)
Definition topic_value (t : ParamType) (w : list byte) (v : Token) : Prop :=
  match t with
  | PAddress => v = TAddress (skipn 12 w)
  | PInt _ => v = TInt (of_be w)
  | PUint _ => v = TUint (of_be w)
  | PBool => of_be w < 256 /\ v = TBool (of_be w =? 1)
  | PFixedBytes n => v = TFixedBytes (firstn (N.to_nat n) w)
  | _ => v = TFixedBytes w
  end.
(** A topic has room for at most 32 bytes. *)
Definition topic_sized (t : ParamType) : bool := match t with PFixedBytes n => n <=? 32 | _ => true end.
(** The values of a list of topics. *)
Definition topics_read (ks : list ParamType) (ws : list (list byte)) (vs : list Token) : Prop :=
  length ws = length ks /\ Forall2 (fun x v => topic_value (fst x) (snd x) v) (combine ks ws) vs.
(** The inputs found in topics, and those found in data. *)
Definition isel (b : bool) (inputs : list EventParam) := filter (fun q => Bool.eqb (ep_indexed q) b) inputs.
(** The topics before those of the inputs. *)
Definition topics_prefix (e : Event) (s : str) : list (list byte) := if e_anonymous e then [] else [keccak256 (utf8 s)].
(** [dealt inputs ts ds out]: dealing out the topic values [ts] to the indexed
    inputs and the data values [ds] to the others, in order, gives [out]. *)
Inductive dealt : list EventParam -> list Token -> list Token -> list LogParam -> Prop :=
| dealt_nil : dealt [] [] [] []
| dealt_indexed name kind inputs v ts ds out : dealt inputs ts ds out ->
    dealt (mkEventParam name kind true :: inputs) (v :: ts) ds (mkLogParam name v :: out)
| dealt_data name kind inputs v ts ds out : dealt inputs ts ds out ->
    dealt (mkEventParam name kind false :: inputs) ts (v :: ds) (mkLogParam name v :: out).

(** The last entry called [name] has the value [v]. *)
Definition last_named (l : list LogParam) (name : str) (v : Token) : Prop :=
  exists a b, l = a ++ mkLogParam name v :: b /\ ~ In name (map lp_name b).
(** The inputs of either kind with the values found for them. *)
Definition named (indexed : bool) (inputs : list EventParam) (vs : list Token) : list LogParam :=
  map (fun x => mkLogParam (ep_name (fst x)) (snd x)) (combine (isel indexed inputs) vs).

(** ** Emitting logs (Solidity ABI, "Events" and "Encoding of Indexed Event
    Parameters") *)
(** The encoding of a value nested in an indexed array or struct: padded to a
    multiple of 32 bytes, no lengths and no offsets. *)
Fixpoint in_place (t : ParamType) (v : Token) {struct t} : list byte :=
  match t, v with
  | PBytes, TBytes b => b ++ padding (len b)
  | PString, TString s => utf8 s ++ padding (len (utf8 s))
  | PArray t', TArray vs | PFixedArray t' _, TFixedArray vs => concat (map (in_place t') vs)
  | PTuple ts, TTuple vs =>
    (fix go (ts : list ParamType) (vs : list Token) : list byte :=
       match ts, vs with
       | t' :: ts', v' :: vs' => in_place t' v' ++ go ts' vs'
       | _, _ => []
       end) ts vs
  | _, _ => abi_enc t v
  end.
(** bytes and string themselves are not padded. *)
Definition hashed_encoding (t : ParamType) (v : Token) : list byte :=
  match t, v with
  | PBytes, TBytes b => b
  | PString, TString s => utf8 s
  | _, _ => in_place t v
  end.
Definition topic_of (t : ParamType) (v : Token) : list byte :=
  if value_type t then abi_encode [t] [v] else keccak256 (hashed_encoding t v).
(** The inputs of either kind with their values. *)
Definition select (indexed : bool) (inputs : list EventParam) (vs : list Token) : list (EventParam * Token) :=
  filter (fun x => Bool.eqb (ep_indexed (fst x)) indexed) (combine inputs vs).
Definition kinds_of (l : list (EventParam * Token)) : list ParamType := map (fun x => ep_kind (fst x)) l.
Definition values_of (l : list (EventParam * Token)) : list Token := map snd l.
Definition indexed_topics (inputs : list EventParam) (vs : list Token) : list (list byte) :=
  map (fun x => topic_of (ep_kind (fst x)) (snd x)) (select true inputs vs).
(** [emits e vs log]: emitting [e] with the values [vs] produces [log]. *)
Definition emits (e : Event) (vs : list Token) (log : RawLog) : Prop :=
  (exists s, canonical_signature (e_name e) (map ep_kind (e_inputs e)) s /\
     rl_topics log = (if e_anonymous e then [] else [keccak256 (utf8 s)]) ++ indexed_topics (e_inputs e) vs) /\
  rl_data log = abi_encode (kinds_of (select false (e_inputs e) vs)) (values_of (select false (e_inputs e) vs)).
(** What can be recovered of an input's value from a log. *)
Definition visible (p : EventParam) (v : Token) : Token :=
  if ep_indexed p && negb (value_type (ep_kind p)) then TFixedBytes (topic_of (ep_kind p) v) else v.

(** Types for which the code computes the right topic: value types, and
    hashed static types whose encoding is not exactly one word. *)
Definition topic_exact (k : ParamType) : bool :=
  value_type k || (negb (dynamic k) && negb (head_width k =? 32) && (head_width k <? two32)).

(** The topic a filter asks for: the encoding if it is one word, else its
    hash. *)
Definition asked_topic (k : ParamType) (v : Token) : list byte :=
  let enc := abi_encode [k] [v] in if len enc =? 32 then enc else keccak256 enc.

(** ** Matching *)
(** Does the alternative list [t] allow the (possibly missing) item? *)
Definition topic_matches {A} (t : Topic A) (o : option A) : Prop :=
  match t with
  | Any => True
  | This a => o = Some a
  | OneOf l => exists a, In a l /\ o = Some a
  end.
Definition filter_matches (f : TopicFilter) (topics : list (list byte)) : Prop :=
  topic_matches (topic0 f) (nth_error topics 0) /\ topic_matches (topic1 f) (nth_error topics 1) /\
  topic_matches (topic2 f) (nth_error topics 2) /\ topic_matches (topic3 f) (nth_error topics 3).
Definition raw_matches (r : RawTopicFilter) (vs : list Token) : Prop :=
  topic_matches (raw_topic0 r) (nth_error vs 0) /\ topic_matches (raw_topic1 r) (nth_error vs 1) /\
  topic_matches (raw_topic2 r) (nth_error vs 2).
(** All alternatives are values of the type of the input they are for. *)
Definition topic_tokens {A} (t : Topic A) : list A :=
  match t with Any => [] | This a => [a] | OneOf l => l end.
Definition topic_typed (t : Topic Token) (kind : option ParamType) : Prop :=
  Forall (fun v => exists k, kind = Some k /\ has_type v k = true) (topic_tokens t).
Definition raw_typed (r : RawTopicFilter) (kinds : list ParamType) : Prop :=
  topic_typed (raw_topic0 r) (nth_error kinds 0) /\ topic_typed (raw_topic1 r) (nth_error kinds 1) /\
  topic_typed (raw_topic2 r) (nth_error kinds 2).
(** A requested topic is well formed: nothing, or values of an indexed input
    that pass the type check. *)
Definition topic_accepted (t : Topic Token) (kind : option ParamType) : bool :=
  match t, kind with
  | Any, _ => true
  | _, None => false
  | _, Some k => forallb (fun v => loosely_typed v k) (topic_tokens t)
  end.
Definition raw_accepted (raw : RawTopicFilter) (kinds : list ParamType) : bool :=
  topic_accepted (raw_topic0 raw) (nth_error kinds 0) && topic_accepted (raw_topic1 raw) (nth_error kinds 1) &&
  topic_accepted (raw_topic2 raw) (nth_error kinds 2).
(** [out] is [raw] with every alternative [v] turned into its topic. *)
Definition turned (h : Token -> list byte -> Prop) (raw : Topic Token) (out : Topic (list byte)) : Prop :=
  match raw, out with
  | Any, Any => True
  | This v, This w => h v w
  | OneOf vs, OneOf ws => Forall2 h vs ws
  | _, _ => False
  end.
(** Some requested value asks for the topic of the emitted value. *)
Definition asked_matches (t : Topic Token) (kind : option ParamType) (o : option Token) : Prop :=
  t = Any \/ exists k a v, kind = Some k /\ In a (topic_tokens t) /\ o = Some v /\ asked_topic k a = topic_of k v.
(** Values the encoder handles. *)
Definition topic_small (t : Topic Token) (kind : option ParamType) : Prop :=
  forall k a, kind = Some k -> In a (topic_tokens t) -> short_arrays a = true /\ enc_size (PTuple [k]) (TTuple [a]) < two32.

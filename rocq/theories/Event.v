(** * Topics, filters, logs and events *)
From Verif Require Import Base Types TypeNames Encoder Decoder Keccak Function.
Set Implicit Arguments.
Local Open Scope N_scope.
Local Open Scope list_scope.

(** [Hash] is H256: a byte list that has length 32 in every real value. *)
Notation hash := (list byte) (only parsing).

(** ** /repo/ethabi/src/filter.rs *)
(** filter.rs:47-56 *)
Inductive Topic (A : Type) :=
| Any
| OneOf (topics : list A)
| This (topic : A).
Arguments Any {A}.
(** filter.rs:14-24 *)
Record RawTopicFilter := mkRawFilter {
  raw_topic0 : Topic Token;
  raw_topic1 : Topic Token;
  raw_topic2 : Topic Token }.
(** filter.rs:26-37 *)
Record TopicFilter := mkFilter {
  topic0 : Topic hash;
  topic1 : Topic hash;
  topic2 : Topic hash;
  topic3 : Topic hash }.
(** filter.rs:60-69 *)
Definition topic_map {A B} (f : A -> B) (t : Topic A) : Topic B :=
  match t with
  | Any => Any
  | OneOf topics => OneOf (map f topics)
  | This topic => This (f topic)
  end.
(** filter.rs:72-77 *)
Definition is_any {A} (t : Topic A) : bool :=
  match t with Any => true | This _ | OneOf _ => false end.
(** filter.rs:80-84 *)
Definition topic_default {A} : Topic A := Any.
(** filter.rs:86-93 *)
Definition topic_from_option {A} (o : option A) : Topic A :=
  match o with Some topic => This topic | None => Any end.
(** filter.rs:95-99 *)
Definition topic_from {A} (a : A) : Topic A := This a.
(** filter.rs:101-105 *)
Definition topic_from_vec {A} (l : list A) : Topic A := OneOf l.
(** filter.rs:107-115 *)
Definition topic_into_vec {A} (t : Topic A) : list A :=
  match t with Any => [] | This topic => [topic] | OneOf topics => topics end.
(** filter.rs:134-149 *)
Definition topic_index {A} (t : Topic A) (index : N) : res A :=
  match t with
  | Any => Panic
  | This topic => if negb (index =? 0) then Panic else Ok topic
  | OneOf topics => match nth_error topics (N.to_nat index) with Some x => Ok x | None => Panic end
  end.

(** ** /repo/ethabi/src/log.rs:31-57 *)
Record RawLog := mkRawLog { rl_topics : list hash; rl_data : list byte }.
(** /repo/ethabi/src/log.rs:45-51 *)
Record LogParam := mkLogParam { lp_name : str; lp_value : Token }.
(** /repo/ethabi/src/log.rs:54-57 *)
Record Log := mkLog { l_params : list LogParam }.

(** ** /repo/ethabi/src/event_param.rs:20-28 *)
Record EventParam := mkEventParam { ep_name : str; ep_kind : ParamType; ep_indexed : bool }.

(** ** /repo/ethabi/src/event.rs:20-30 *)
Record Event := mkEvent { e_name : str; e_inputs : list EventParam; e_anonymous : bool }.

(** [HashMap<String, Token>]: collected from pairs in order, so that a later
    pair replaces an earlier one with the same key; [get] is the last one. *)
Definition hm_get (m : list (str * Token)) (k : str) : option Token :=
  option_map snd (find (fun e => str_eqb (fst e) k) (rev m)).
(** [&m[k]]: panics if the key is absent. *)
Definition hm_index (m : list (str * Token)) (k : str) : res Token :=
  match hm_get m k with Some v => Ok v | None => Panic end.

(** event.rs:34-36 *)
Definition params_names (e : Event) : list str := map ep_name (e_inputs e).
(** event.rs:39-41 *)
Definition event_param_types (e : Event) : list ParamType := map ep_kind (e_inputs e).
(** event.rs:44-46 *)
Definition indexed_params (e : Event) (indexed : bool) : list EventParam :=
  filter (fun p => Bool.eqb (ep_indexed p) indexed) (e_inputs e).
(** event.rs:49-51 *)
Definition event_signature (e : Event) : res hash := long_signature (e_name e) (event_param_types e).

(** event.rs:55-67.  [Hash::from_slice] panics unless given 32 bytes. *)
Definition convert_token (p : profile) (token : Token) (kind : ParamType) : res hash :=
  do ok <- type_check token kind;
  if negb ok then Err InvalidData
  else
    do encoded <- encode p [token];
    if len encoded =? 32 then copy_from_slice 32 encoded
    else copy_from_slice 32 (keccak256 encoded).
(** event.rs:69-85 *)
Definition convert_topic (p : profile) (topic : Topic Token) (kind : option ParamType) : res (Topic hash) :=
  match topic with
  | Any => Ok Any
  | OneOf tokens =>
    match kind with
    | None => Err InvalidData
    | Some kind => do topics <- mapM (fun token => convert_token p token kind) tokens; Ok (OneOf topics)
    end
  | This token =>
    match kind with
    | None => Err InvalidData
    | Some kind => do h <- convert_token p token kind; Ok (This h)
    end
  end.
(** event.rs:54, 87-105 *)
Definition event_filter (p : profile) (e : Event) (raw : RawTopicFilter) : res TopicFilter :=
  let kinds := map ep_kind (indexed_params e true) in
  if e_anonymous e then
    do t0 <- convert_topic p (raw_topic0 raw) (nth_error kinds 0);
    do t1 <- convert_topic p (raw_topic1 raw) (nth_error kinds 1);
    do t2 <- convert_topic p (raw_topic2 raw) (nth_error kinds 2);
    Ok (mkFilter t0 t1 t2 Any)
  else
    do s <- event_signature e;
    do t1 <- convert_topic p (raw_topic0 raw) (nth_error kinds 0);
    do t2 <- convert_topic p (raw_topic1 raw) (nth_error kinds 1);
    do t3 <- convert_topic p (raw_topic2 raw) (nth_error kinds 2);
    Ok (mkFilter (This s) t1 t2 t3).

(** event.rs:111-120 *)
Definition convert_topic_param_type (kind : ParamType) : ParamType :=
  match kind with
  | PString | PBytes | PArray _ | PFixedArray _ _ | PTuple _ => PFixedBytes 32
  | _ => kind
  end.

(** [H256 == H256]: event.rs:136 *)
Definition bytes_eqb (a b : list byte) : bool :=
  (len a =? len b) && forallb (fun x => Byte.eqb (fst x) (snd x)) (combine a b).

(** event.rs:123-173.  [topics_len - to_skip] cannot underflow: [to_skip] is 1
    only if there is a topic. *)
Definition parse_log (p : profile) (e : Event) (log : RawLog) : res Log :=
  let topics := rl_topics log in
  let data := rl_data log in
  let topics_len := len topics in
  let topic_params := indexed_params e true in
  let data_params := indexed_params e false in
  do to_skip <-
    (if e_anonymous e then Ok 0
     else match topics with
          | [] => Err InvalidData
          | t0 :: _ =>
            do s <- event_signature e;
            if negb (bytes_eqb t0 s) then Err InvalidData else Ok 1
          end);
  let topic_types := map (fun p => convert_topic_param_type (ep_kind p)) topic_params in
  let flat_topics := concat (skipn (N.to_nat to_skip) topics) in
  do topic_tokens <- decode p topic_types flat_topics;
  if negb (len topic_tokens =? topics_len - to_skip) then Err InvalidData
  else
    let topics_named_tokens := combine (map ep_name topic_params) topic_tokens in
    let data_types := map ep_kind data_params in
    do data_tokens <- decode p data_types data;
    let data_named_tokens := combine (map ep_name data_params) data_tokens in
    let named_tokens := topics_named_tokens ++ data_named_tokens in
    do decoded_params <-
      mapM (fun name => do v <- hm_index named_tokens name; Ok (mkLogParam name v)) (params_names e);
    Ok (mkLog decoded_params).

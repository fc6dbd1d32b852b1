(** * What a filter asks for, and when asking for it goes wrong, independent of the model *)
From Verif Require Import Base Types AbiSpec Event EventSpec ShapeSpec WrapSpec.
Set Implicit Arguments.
Local Open Scope N_scope.

(** The alternatives of one position with the type of its input; a position
    that is asked for without being an indexed input counts as [None]. *)
Definition asked (t : Topic Token) (kind : option ParamType) : list (option (Token * ParamType)) :=
  match t, kind with
  | Any, _ => []
  | _, None => [None]
  | _, Some k => map (fun v => Some (v, k)) (topic_tokens t)
  end.
Definition all_asked (raw : RawTopicFilter) (kinds : list ParamType) : list (option (Token * ParamType)) :=
  asked (raw_topic0 raw) (nth_error kinds 0) ++ asked (raw_topic1 raw) (nth_error kinds 1) ++ asked (raw_topic2 raw) (nth_error kinds 2).

(** The value passes the check and its encoding can be computed. *)
Definition fine (p : profile) (x : option (Token * ParamType)) : Prop :=
  match x with
  | Some (v, k) => loosely_typed v k = true /\ (p = Release \/ len (encoding32 [v]) < 2 ^ 32)
  | None => False
  end.
(** It has too many fields, or its encoding is too long for a checked build. *)
Definition breaks (p : profile) (x : option (Token * ParamType)) : Prop :=
  match x with
  | Some (v, k) => overruns v k \/ loosely_typed v k = true /\ p = Debug /\ 2 ^ 32 <= len (encoding32 [v])
  | None => False
  end.
(** It does not pass the check. *)
Definition misfits (x : option (Token * ParamType)) : Prop :=
  match x with
  | Some (v, k) => loosely_typed v k = false /\ ~ overruns v k
  | None => True
  end.
(** What is not [fine] first is [bad]. *)
Definition first_bad (p : profile) (bad : option (Token * ParamType) -> Prop) (l : list (option (Token * ParamType))) : Prop :=
  exists before x after, l = before ++ x :: after /\ Forall (fine p) before /\ bad x.
(** Well-formed values whose encodings are below 128 GiB. *)
Definition measured (x : option (Token * ParamType)) : Prop :=
  match x with
  | Some (v, _) => wf_token v = true /\ len (encoding32 [v]) < 2 ^ 37
  | None => True
  end.

(** * How deep calls are nested: a specification, independent of the model *)
From Verif Require Import Base Types AbiSpec WrapSpec.
Set Implicit Arguments.
Local Open Scope N_scope.

(** The largest [f x] *)
Definition most {A} (f : A -> N) : list A -> N := fix go l := match l with [] => 0 | x :: l' => N.max (f x) (go l') end.
(** The largest [f x], up to the first [x] that is [q] *)
Definition most_until {A} (q : A -> bool) (f : A -> N) : list A -> N :=
  fix go l := match l with [] => 0 | x :: l' => N.max (f x) (if q x then 0 else go l') end.

(** ** Decoding *)
(** Asking whether a type is dynamic: the search ends at the first field that is. *)
Fixpoint asking_type (t : ParamType) : N :=
  match t with
  | PFixedArray t' _ => 1 + asking_type t'
  | PTuple ts => 1 + most_until dynamic asking_type ts
  | _ => 1
  end.
(** Reading the value [v] of type [t]: the call and what is above it, two calls
    for a word, one for bytes. *)
Fixpoint reading_calls (t : ParamType) (v : Token) {struct t} : N :=
  match t, v with
  | PFixedBytes _, _ => 2
  | PArray t', TArray vs => 1 + N.max 2 (most (reading_calls t') vs)
  | PFixedArray t' _, TFixedArray vs => 1 + N.max (asking_type t) (N.max (if dynamic t then 2 else 0) (most (reading_calls t') vs))
  | PTuple ts, TTuple vs =>
    1 + N.max (asking_type t) (N.max (if dynamic t then 2 else 0)
      ((fix go ts vs := match ts, vs with t :: ts', v :: vs' => N.max (reading_calls t v) (go ts' vs') | _, _ => 0 end) ts vs))
  | _, _ => 3
  end.
Definition readings_calls : list ParamType -> list Token -> N :=
  fix go ts vs := match ts, vs with t :: ts', v :: vs' => N.max (reading_calls t v) (go ts' vs') | _, _ => 0 end.
Definition decoding_calls (ts : list ParamType) (vs : list Token) : N := 1 + readings_calls ts vs.

(** ** Encoding *)
Fixpoint asking_value (v : Token) : N :=
  match v with
  | TFixedArray vs | TTuple vs => 1 + most_until dynamic_value asking_value vs
  | _ => 1
  end.
(** Measuring the head and the tail of a value *)
Fixpoint head_measured (v : Token) : N :=
  match v with
  | TTuple vs => if existsb dynamic_value vs then 1 else 1 + most head_measured vs
  | _ => 1
  end.
Fixpoint tail_measured (v : Token) : N :=
  match v with
  | TArray vs => 1 + most (fun v => N.max (head_measured v) (tail_measured v)) vs
  | TFixedArray vs | TTuple vs =>
    if existsb dynamic_value vs then 1 + most (fun v => N.max (head_measured v) (tail_measured v)) vs else 1
  | _ => 1
  end.
(** Writing them; an offset or a length is a call more *)
Fixpoint head_written (v : Token) : N :=
  match v with
  | TBytes _ | TString _ | TArray _ => 2
  | TFixedArray vs => if existsb dynamic_value vs then 2 else 1
  | TTuple vs => if existsb dynamic_value vs then 2 else 1 + most head_written vs
  | _ => 1
  end.
Definition sequence_with (tail_written : Token -> N) (vs : list Token) : N :=
  1 + most (fun v => N.max (N.max (head_measured v) (tail_measured v)) (N.max (head_written v) (tail_written v))) vs.
Fixpoint tail_written (v : Token) : N :=
  match v with
  | TArray vs => 1 + sequence_with tail_written vs
  | TFixedArray vs | TTuple vs => if existsb dynamic_value vs then 1 + sequence_with tail_written vs else 1
  | _ => 1
  end.
Definition sequence : list Token -> N := sequence_with tail_written.
(** Preparing a value *)
Fixpoint prepared (v : Token) : N :=
  match v with
  | TBytes _ | TString _ => 3
  | TFixedBytes _ => 2
  | TArray vs => 1 + most prepared vs
  | TFixedArray vs =>
    1 + N.max (most prepared vs) (N.max (asking_value v) (if existsb dynamic_value vs then 0 else sequence vs))
  | TTuple vs => 1 + N.max (asking_value v) (most prepared vs)
  | TAddress _ | TInt _ | TUint _ | TBool _ => 1
  end.
Definition encoding_calls (vs : list Token) : N := 1 + N.max (most prepared vs) (sequence vs).

(** ** Text that is read as a value *)
(** The call of [tokenize], that for the kind of value, one more for an array
    of a fixed length, and what is above them.  [own t]: the calls for a value
    without members. *)
Fixpoint text_calls (own : ParamType -> N) (t : ParamType) (v : Token) {struct t} : N :=
  match t, v with
  | PArray t', TArray vs => 2 + most (text_calls own t') vs
  | PFixedArray t' _, TFixedArray vs => 3 + most (text_calls own t') vs
  | PTuple ts, TTuple vs =>
    2 + (fix go ts vs := match ts, vs with t :: ts', v :: vs' => N.max (text_calls own t v) (go ts' vs') | _, _ => 0 end) ts vs
  | _, _ => 1 + own t
  end.

(** * How much work encoding takes: a specification, independent of the model

    Counted on the values themselves, before anything is turned into
    mediates: one step for each call of a function of the encoder, one for
    each value that is asked whether it is dynamic and one for each word of 32
    bytes that is made or copied. *)
From Verif Require Import Base Types AbiSpec WrapSpec MemSpec.
Set Implicit Arguments.
Local Open Scope N_scope.

Definition sum_of (f : Token -> N) : list Token -> N := fix go vs := match vs with [] => 0 | v :: vs' => f v + go vs' end.
(** How many words hold that many bytes. *)
Definition words_for (n : N) : N := (n + 31) / 32.
(** The words a value puts among the heads of its sequence, and among the tails. *)
Fixpoint head_room (v : Token) : N :=
  match v with
  | TAddress _ | TInt _ | TUint _ | TBool _ => 1
  | TFixedBytes b => words_for (len b)
  | TBytes _ | TString _ | TArray _ => 1
  | TFixedArray vs | TTuple vs => if existsb dynamic_value vs then 1 else sum_of head_room vs
  end.
Fixpoint tail_room (v : Token) : N :=
  match v with
  | TAddress _ | TInt _ | TUint _ | TBool _ | TFixedBytes _ => 0
  | TBytes b => 1 + words_for (len b)
  | TString s => 1 + words_for (len (utf8 s))
  | TArray vs => 1 + sum_of (fun v => head_room v + tail_room v) vs
  | TFixedArray vs | TTuple vs => if existsb dynamic_value vs then sum_of (fun v => head_room v + tail_room v) vs else 0
  end.
Definition words (v : Token) : N := head_room v + tail_room v.
(** The number of values in a value, itself included. *)
Fixpoint nodes (v : Token) : N :=
  match v with
  | TArray vs | TFixedArray vs | TTuple vs => 1 + sum_of nodes vs
  | _ => 1
  end.

(** Asking whether a value is dynamic: the search ends at the first member that is. *)
Definition upto_dynamic (f : Token -> N) : list Token -> N :=
  fix go vs := match vs with [] => 0 | v :: vs' => f v + (if dynamic_value v then 0 else go vs') end.
Fixpoint asking (v : Token) : N :=
  match v with
  | TFixedArray vs | TTuple vs => 1 + upto_dynamic asking vs
  | _ => 1
  end.
(** Measuring the head and the tail. *)
Fixpoint measuring_head (v : Token) : N :=
  match v with
  | TTuple vs => if existsb dynamic_value vs then 1 else 1 + sum_of measuring_head vs
  | _ => 1
  end.
Fixpoint measuring_tail (v : Token) : N :=
  match v with
  | TArray vs => 1 + sum_of (fun v => measuring_head v + measuring_tail v) vs
  | TFixedArray vs | TTuple vs => if existsb dynamic_value vs then 1 + sum_of (fun v => measuring_head v + measuring_tail v) vs else 1
  | _ => 1
  end.
(** Writing the head: a tuple without tails collects the heads of its members. *)
Fixpoint writing_head (v : Token) : N :=
  match v with
  | TTuple vs => if existsb dynamic_value vs then 2 else 1 + sum_of (fun v => writing_head v + head_room v) vs
  | _ => 1 + head_room v
  end.
(** Writing a sequence, given what writing a tail takes: every head is
    measured, written and copied, every tail is measured, written and copied
    twice. *)
Definition writing_with (writing_tail : Token -> N) (vs : list Token) : N :=
  1 + sum_of (fun v => measuring_head v + (writing_head v + head_room v) + measuring_tail v + (writing_tail v + tail_room v) + tail_room v) vs.
Fixpoint writing_tail (v : Token) : N :=
  match v with
  | TBytes _ | TString _ => 1 + tail_room v
  | TArray vs => 1 + writing_with writing_tail vs + tail_room v
  | TFixedArray vs | TTuple vs => if existsb dynamic_value vs then 1 + writing_with writing_tail vs else 1
  | _ => 1
  end.
Definition writing : list Token -> N := writing_with writing_tail.
(** Before anything is written: a fixed array without tails is written here. *)
Fixpoint preparing (v : Token) : N :=
  match v with
  | TAddress _ | TInt _ | TUint _ | TBool _ => 2
  | TFixedBytes b => 1 + words_for (len b)
  | TBytes b => 1 + (1 + words_for (len b))
  | TString s => 1 + (1 + words_for (len (utf8 s)))
  | TArray vs => 1 + sum_of preparing vs
  | TFixedArray vs => 1 + sum_of preparing vs + asking v + (if existsb dynamic_value vs then 0 else writing vs)
  | TTuple vs => 1 + asking v + sum_of preparing vs
  end.
Definition encoding (vs : list Token) : N := 1 + sum_of preparing vs + writing vs + sum_of words vs.

(** The size of what is encoded, and how deep it is nested. *)
Definition size (vs : list Token) : N := sum_of (fun v => nodes v + words v) vs.
Definition deepest (vs : list Token) : N := fold_right (fun v d => N.max (depth v) d) 0 vs.
(** [k] arrays of one member, one within the other, around an empty one. *)
Fixpoint nested (k : nat) : Token := match k with O => TArray [] | S k' => TArray [nested k'] end.

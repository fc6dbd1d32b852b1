(** * The ABI encoding with 32-bit offsets and lengths, independent of the model

    As in AbiSpec.v, but every offset and every length is written modulo 2^32.
    The values need not be of any type: a component is dynamic if its value
    shows it, being bytes, a string, an array, or containing one. *)
From Verif Require Import Base Types AbiSpec.
Set Implicit Arguments.
Local Open Scope N_scope.

Fixpoint dynamic_value (v : Token) : bool :=
  match v with
  | TBytes _ | TString _ | TArray _ => true
  | TFixedArray vs | TTuple vs => existsb dynamic_value vs
  | TAddress _ | TFixedBytes _ | TInt _ | TUint _ | TBool _ => false
  end.
Definition word32 (n : N) : list byte := word (n mod 2 ^ 32).
Fixpoint heads32 (next_tail : N) (cs : list (bool * list byte)) : list byte :=
  match cs with
  | [] => []
  | (true, e) :: cs' => word32 next_tail ++ heads32 (next_tail + len e) cs'
  | (false, e) :: cs' => e ++ heads32 next_tail cs'
  end.
Definition seq32 (cs : list (bool * list byte)) : list byte := heads32 (heads_size cs) cs ++ tails cs.
Fixpoint value32 (v : Token) : list byte :=
  match v with
  | TAddress a => zeros 12 ++ a
  | TInt n | TUint n => word n
  | TBool b => word (if b then 1 else 0)
  | TFixedBytes b => b ++ padding (len b)
  | TBytes b => word32 (len b) ++ b ++ padding (len b)
  | TString s => word32 (len (utf8 s)) ++ utf8 s ++ padding (len (utf8 s))
  | TArray vs => word32 (len vs) ++ seq32 (map (fun v => (dynamic_value v, value32 v)) vs)
  | TFixedArray vs | TTuple vs => seq32 (map (fun v => (dynamic_value v, value32 v)) vs)
  end.
(** Arguments are encoded as one tuple. *)
Definition encoding32 (vs : list Token) : list byte := value32 (TTuple vs).

(** All offsets and lengths inside fit into 32 bits. *)
Fixpoint offsets_fit (next_tail : N) (cs : list (bool * list byte)) : bool :=
  match cs with
  | [] => true
  | (true, e) :: cs' => (next_tail <? 2 ^ 32) && offsets_fit (next_tail + len e) cs'
  | (false, _) :: cs' => offsets_fit next_tail cs'
  end.
Definition seq_fits (cs : list (bool * list byte)) : bool := offsets_fit (heads_size cs) cs.
Fixpoint words_fit (v : Token) : bool :=
  match v with
  | TBytes b => len b <? 2 ^ 32
  | TString s => len (utf8 s) <? 2 ^ 32
  | TArray vs => (len vs <? 2 ^ 32) && seq_fits (map (fun v => (dynamic_value v, value32 v)) vs) && forallb words_fit vs
  | TFixedArray vs | TTuple vs => seq_fits (map (fun v => (dynamic_value v, value32 v)) vs) && forallb words_fit vs
  | TAddress _ | TFixedBytes _ | TInt _ | TUint _ | TBool _ => true
  end.

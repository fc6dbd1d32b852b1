(** * Specification of the Solidity ABI, independent of the model.

    Transcribed from the "Formal Specification of the Encoding" of the
    Solidity contract ABI (docs.soliditylang.org, abi-spec).  Nothing here
    refers to the encoder or decoder model; only the data types [ParamType]
    and [Token] and list functions are shared. *)
From Verif Require Import Base Types.
Set Implicit Arguments.
Local Open Scope N_scope.

(** "Dynamic types: bytes, string, T[] for any T, T[k] for any dynamic T and
    any k >= 0, (T1,...,Tk) if Ti is dynamic for some i." *)
Fixpoint dynamic (t : ParamType) : bool :=
  match t with
  | PBytes | PString | PArray _ => true
  | PFixedArray t _ => dynamic t
  | PTuple ts => existsb dynamic ts
  | PAddress | PInt _ | PUint _ | PBool | PFixedBytes _ => false
  end.

(** A number as one 32-byte big-endian word. *)
Definition word (n : N) : list byte := be_bytes 32 n.

(** Zero bytes needed to reach a multiple of 32. *)
Definition padding (n : N) : list byte := zeros (N.to_nat ((32 - n mod 32) mod 32)).

(** enc(X) for a sequence X = (X1,...,Xk) given, per component, whether its
    type is dynamic and its own encoding:
    head(X1)...head(Xk) tail(X1)...tail(Xk), where for a static component
    head(Xi) = enc(Xi), tail(Xi) = "", and for a dynamic component
    head(Xi) = enc(len(head(X1)...head(Xk) tail(X1)...tail(Xi-1))),
    tail(Xi) = enc(Xi). *)
Definition head_size (c : bool * list byte) : N :=
  let '(dyn, e) := c in if dyn then 32 else len e.
Fixpoint heads_size (cs : list (bool * list byte)) : N :=
  match cs with [] => 0 | c :: cs' => head_size c + heads_size cs' end.
Fixpoint heads (next_tail : N) (cs : list (bool * list byte)) : list byte :=
  match cs with
  | [] => []
  | (true, e) :: cs' => word next_tail ++ heads (next_tail + len e) cs'
  | (false, e) :: cs' => e ++ heads next_tail cs'
  end.
Fixpoint tails (cs : list (bool * list byte)) : list byte :=
  match cs with
  | [] => []
  | (true, e) :: cs' => e ++ tails cs'
  | (false, _) :: cs' => tails cs'
  end.
Definition enc_seq (cs : list (bool * list byte)) : list byte :=
  heads (heads_size cs) cs ++ tails cs.

(** enc(X) for a value X of type T.  Ill-typed pairs map to [] (they are
    excluded by [has_type] wherever this is used). *)
Fixpoint abi_enc (t : ParamType) (v : Token) {struct t} : list byte :=
  match t, v with
  | PAddress, TAddress a => zeros 12 ++ a
  | PInt _, TInt n => word n
  | PUint _, TUint n => word n
  | PBool, TBool b => word (if b then 1 else 0)
  | PFixedBytes _, TFixedBytes b => b ++ padding (len b)
  | PBytes, TBytes b => word (len b) ++ b ++ padding (len b)
  | PString, TString s => word (len (utf8 s)) ++ utf8 s ++ padding (len (utf8 s))
  | PArray t', TArray vs =>
    word (len vs) ++ enc_seq (map (fun v => (dynamic t', abi_enc t' v)) vs)
  | PFixedArray t' _, TFixedArray vs =>
    enc_seq (map (fun v => (dynamic t', abi_enc t' v)) vs)
  | PTuple ts, TTuple vs =>
    enc_seq ((fix go (ts : list ParamType) (vs : list Token) :=
                match ts, vs with
                | t' :: ts', v' :: vs' => (dynamic t', abi_enc t' v') :: go ts' vs'
                | _, _ => []
                end) ts vs)
  | _, _ => []
  end.

(** Arguments are encoded as one tuple. *)
Definition abi_encode (ts : list ParamType) (vs : list Token) : list byte :=
  abi_enc (PTuple ts) (TTuple vs).

(** Values of a type.  Integers are 256-bit patterns whatever the width. *)
Fixpoint has_type (v : Token) (t : ParamType) {struct t} : bool :=
  match t, v with
  | PAddress, TAddress a => len a =? 20
  | PBytes, TBytes _ => true
  | PInt _, TInt n => n <? two256
  | PUint _, TUint n => n <? two256
  | PBool, TBool _ => true
  | PString, TString s => wf_str s
  | PFixedBytes n, TFixedBytes b => len b =? n
  | PArray t', TArray vs => forallb (fun v => has_type v t') vs
  | PFixedArray t' n, TFixedArray vs => (len vs =? n) && forallb (fun v => has_type v t') vs
  | PTuple ts, TTuple vs =>
    (fix go (ts : list ParamType) (vs : list Token) : bool :=
       match ts, vs with
       | [], [] => true
       | t' :: ts', v' :: vs' => has_type v' t' && go ts' vs'
       | _, _ => false
       end) ts vs
  | _, _ => false
  end.
Definition have_types (vs : list Token) (ts : list ParamType) : bool :=
  has_type (TTuple vs) (PTuple ts).

(** Types of the Solidity ABI the crate supports: bytes1..bytes32, and no
    zero-length array of a dynamic type. *)
Fixpoint solidity_type (t : ParamType) : bool :=
  match t with
  | PFixedBytes n => (1 <=? n) && (n <=? 32)
  | PArray t' => solidity_type t'
  | PFixedArray t' n => solidity_type t' && ((1 <=? n) || negb (dynamic t'))
  | PTuple ts => forallb solidity_type ts
  | _ => true
  end.

(** Types whose values all encode to the empty byte string. *)
Fixpoint zero_size (t : ParamType) : bool :=
  match t with
  | PFixedArray t' n => (n =? 0) && negb (dynamic t') || zero_size t'
  | PTuple ts => forallb zero_size ts
  | _ => false
  end.

(** No array inside the value has 2^32 elements or more. *)
Fixpoint short_arrays (v : Token) : bool :=
  match v with
  | TArray vs => (len vs <? two32) && forallb short_arrays vs
  | TFixedArray vs | TTuple vs => forallb short_arrays vs
  | _ => true
  end.

(** Bytes a value of type [t] occupies in the head of its enclosing sequence:
    one offset word for a dynamic type, its own (value independent) size for a
    static type. *)
Fixpoint head_width (t : ParamType) : N :=
  if dynamic t then 32
  else match t with
       | PFixedArray t' n => n * head_width t'
       | PTuple ts => fold_right (fun t' acc => head_width t' + acc) 0 ts
       | _ => 32
       end.
Definition heads_width (ts : list ParamType) : N :=
  fold_right (fun t acc => head_width t + acc) 0 ts.

(** Size in bytes of an encoding, computed without building it. *)
Definition ceil32 (n : N) : N := 32 * ((n + 31) / 32).
Fixpoint enc_size (t : ParamType) (v : Token) {struct t} : N :=
  match t, v with
  | PFixedBytes _, TFixedBytes b => ceil32 (len b)
  | PBytes, TBytes b => 32 + ceil32 (len b)
  | PString, TString s => 32 + ceil32 (len (utf8 s))
  | PArray t', TArray vs =>
    32 + fold_right (fun v acc => (if dynamic t' then 32 else 0) + enc_size t' v + acc) 0 vs
  | PFixedArray t' _, TFixedArray vs =>
    fold_right (fun v acc => (if dynamic t' then 32 else 0) + enc_size t' v + acc) 0 vs
  | PTuple ts, TTuple vs =>
    (fix go (ts : list ParamType) (vs : list Token) : N :=
       match ts, vs with
       | t' :: ts', v' :: vs' => (if dynamic t' then 32 else 0) + enc_size t' v' + go ts' vs'
       | _, _ => 0
       end) ts vs
  | _, _ => 32
  end.

(** Every array inside [v] has at most [n] elements. *)
Fixpoint arrays_bounded (n : N) (v : Token) : bool :=
  match v with
  | TArray vs => (len vs <=? n) && forallb (arrays_bounded n) vs
  | TFixedArray vs | TTuple vs => forallb (arrays_bounded n) vs
  | _ => true
  end.

(** [T[]] is only applied to element types that take room, at any depth. *)
Fixpoint sized_elements (t : ParamType) : bool :=
  match t with
  | PArray t' => negb (zero_size t') && sized_elements t'
  | PFixedArray t' _ => sized_elements t'
  | PTuple ts => forallb sized_elements ts
  | _ => true
  end.

(** No dynamic fixed-size array anywhere inside. *)
Fixpoint no_dynamic_fixed_array (t : ParamType) : bool :=
  match t with
  | PFixedArray t' _ => negb (dynamic t') && no_dynamic_fixed_array t'
  | PArray t' => no_dynamic_fixed_array t'
  | PTuple ts => forallb no_dynamic_fixed_array ts
  | _ => true
  end.
(** Every [bytesN] has N < 2^62. *)
Fixpoint fixed_bytes_sane (t : ParamType) : bool :=
  match t with
  | PFixedBytes n => n <? 2 ^ 62
  | PArray t' | PFixedArray t' _ => fixed_bytes_sane t'
  | PTuple ts => forallb fixed_bytes_sane ts
  | _ => true
  end.

(** Rust slices are at most [isize::MAX] bytes long. *)
Definition fits (data : list byte) : Prop := len data < 2 ^ 63.

(** Wherever a tuple value faces a tuple type they have the same number of
    fields, and wherever a fixed-bytes value faces a bytesN type it has N bytes. *)
Fixpoint same_shape (v : Token) (t : ParamType) {struct v} : bool :=
  match v, t with
  | TFixedBytes b, PFixedBytes n => len b =? n
  | TArray vs, PArray t' => forallb (fun v => same_shape v t') vs
  | TFixedArray vs, PFixedArray t' _ => forallb (fun v => same_shape v t') vs
  | TTuple vs, PTuple ts =>
    (fix go (vs : list Token) (ts : list ParamType) : bool :=
       match vs, ts with
       | [], [] => true
       | v' :: vs', t' :: ts' => same_shape v' t' && go vs' ts'
       | _, _ => false
       end) vs ts
  | _, _ => true
  end.

(** The relation [Token::type_check] really decides: like [has_type], but a
    bytesN value may be shorter than N and a tuple value may stop early. *)
Fixpoint loosely_typed (v : Token) (t : ParamType) {struct v} : bool :=
  match v, t with
  | TAddress _, PAddress | TBytes _, PBytes | TInt _, PInt _ | TUint _, PUint _
  | TBool _, PBool | TString _, PString => true
  | TFixedBytes b, PFixedBytes n => len b <=? n
  | TArray vs, PArray t' => forallb (fun v => loosely_typed v t') vs
  | TFixedArray vs, PFixedArray t' n => (len vs =? n) && forallb (fun v => loosely_typed v t') vs
  | TTuple vs, PTuple ts =>
    (fix go (vs : list Token) (ts : list ParamType) : bool :=
       match vs, ts with
       | [], _ => true
       | v' :: vs', t' :: ts' => loosely_typed v' t' && go vs' ts'
       | _ :: _, [] => false
       end) vs ts
  | _, _ => false
  end.

(** No tuple value faces a tuple type with fewer fields. *)
Fixpoint no_long_tuple (v : Token) (t : ParamType) {struct v} : bool :=
  match v, t with
  | TArray vs, PArray t' => forallb (fun v => no_long_tuple v t') vs
  | TFixedArray vs, PFixedArray t' _ => forallb (fun v => no_long_tuple v t') vs
  | TTuple vs, PTuple ts =>
    (fix go (vs : list Token) (ts : list ParamType) : bool :=
       match vs, ts with
       | [], _ => true
       | v' :: vs', t' :: ts' => no_long_tuple v' t' && go vs' ts'
       | _ :: _, [] => false
       end) vs ts
  | _, _ => true
  end.

(** * ParamType and Token: /repo/ethabi/src/param_type/param_type.rs and
    /repo/ethabi/src/token/token.rs *)
From Verif Require Import Base.
Set Implicit Arguments.
Local Open Scope N_scope.

(** /repo/ethabi/src/param_type/param_type.rs:16-37.  [usize] sizes are [N]
    (below 2^64 on a 64-bit target). *)
Inductive ParamType :=
| PAddress
| PBytes
| PInt (size : N)
| PUint (size : N)
| PBool
| PString
| PArray (t : ParamType)
| PFixedBytes (size : N)
| PFixedArray (t : ParamType) (size : N)
| PTuple (ts : list ParamType).

(** /repo/ethabi/src/token/token.rs:15-64.  [Address] is 20 bytes, [Int] and
    [Uint] are the 256-bit pattern as a number. *)
Inductive Token :=
| TAddress (a : list byte)
| TFixedBytes (b : list byte)
| TBytes (b : list byte)
| TInt (n : N)
| TUint (n : N)
| TBool (b : bool)
| TString (s : str)
| TFixedArray (vs : list Token)
| TArray (vs : list Token)
| TTuple (vs : list Token).

(** What the Rust types guarantee of any [Token] value (H160, U256, String). *)
Fixpoint wf_token (v : Token) : bool :=
  match v with
  | TAddress a => len a =? 20
  | TFixedBytes _ | TBytes _ | TBool _ => true
  | TInt n | TUint n => n <? two256
  | TString s => wf_str s
  | TFixedArray vs | TArray vs | TTuple vs => forallb wf_token vs
  end.
(** What the Rust types guarantee of any [ParamType] value ([usize] sizes). *)
Fixpoint wf_type (t : ParamType) : bool :=
  match t with
  | PInt n | PUint n | PFixedBytes n => n <? two64
  | PArray t => wf_type t
  | PFixedArray t n => wf_type t && (n <? two64)
  | PTuple ts => forallb wf_type ts
  | _ => true
  end.

(** /repo/ethabi/src/param_type/param_type.rs:48-54 *)
Definition is_empty_bytes_valid_encoding (t : ParamType) : bool :=
  match t with
  | PFixedBytes n => n =? 0
  | PFixedArray _ n => n =? 0
  | _ => false
  end.

(** /repo/ethabi/src/param_type/param_type.rs:58-65 *)
Fixpoint ptype_is_dynamic (t : ParamType) : bool :=
  match t with
  | PBytes | PString | PArray _ => true
  | PFixedArray t _ => ptype_is_dynamic t
  | PTuple ts => existsb ptype_is_dynamic ts
  | _ => false
  end.

(** /repo/ethabi/src/token/token.rs:216-223 *)
Fixpoint token_is_dynamic (v : Token) : bool :=
  match v with
  | TBytes _ | TString _ | TArray _ => true
  | TFixedArray vs => existsb token_is_dynamic vs
  | TTuple vs => existsb token_is_dynamic vs
  | _ => false
  end.

(** [vs.iter().enumerate().all(|(i,v)| f(v, ts[i]))]: short-circuits on
    [false]; indexing past the end of [ts] panics. *)
Definition all_indexed {A B} (f : A -> B -> res bool) : list A -> list B -> res bool :=
  fix go (vs : list A) (ts : list B) : res bool :=
    match vs with
    | [] => Ok true
    | v :: vs' =>
      match ts with
      | [] => Panic
      | t :: ts' => do b <- f v t; if b then go vs' ts' else Ok false
      end
    end.

(** [iter.all(f)] where [f] may panic. *)
Definition allM {A} (f : A -> res bool) : list A -> res bool :=
  fix go (l : list A) : res bool :=
    match l with
    | [] => Ok true
    | x :: l' => do b <- f x; if b then go l' else Ok false
    end.

(** /repo/ethabi/src/token/token.rs:93-134 *)
Fixpoint type_check (v : Token) (t : ParamType) : res bool :=
  match v with
  | TAddress _ => Ok match t with PAddress => true | _ => false end
  | TBytes _ => Ok match t with PBytes => true | _ => false end
  | TInt _ => Ok match t with PInt _ => true | _ => false end
  | TUint _ => Ok match t with PUint _ => true | _ => false end
  | TBool _ => Ok match t with PBool => true | _ => false end
  | TString _ => Ok match t with PString => true | _ => false end
  | TFixedBytes b => Ok match t with PFixedBytes n => len b <=? n | _ => false end
  | TArray vs =>
    match t with PArray t' => allM (fun v => type_check v t') vs | _ => Ok false end
  | TFixedArray vs =>
    match t with
    | PFixedArray t' n =>
      if n =? len vs then allM (fun v => type_check v t') vs else Ok false
    | _ => Ok false
    end
  | TTuple vs =>
    match t with PTuple ts => all_indexed type_check vs ts | _ => Ok false end
  end.

(** [zip(vs, ts).all(f)] *)
Definition zip_all {A B} (f : A -> B -> res bool) : list A -> list B -> res bool :=
  fix go (vs : list A) (ts : list B) : res bool :=
    match vs, ts with
    | v :: vs', t :: ts' => do b <- f v t; if b then go vs' ts' else Ok false
    | _, _ => Ok true
    end.

(** /repo/ethabi/src/token/token.rs:209-213 *)
Definition types_check (vs : list Token) (ts : list ParamType) : res bool :=
  if len vs =? len ts then zip_all type_check vs ts else Ok false.

(** /repo/ethabi/src/token/token.rs:137-206 *)
Definition into_address v := match v with TAddress a => Some a | _ => None end.
(** token.rs:145-150 *)
Definition into_fixed_bytes v := match v with TFixedBytes b => Some b | _ => None end.
(** token.rs:153-158 *)
Definition into_bytes v := match v with TBytes b => Some b | _ => None end.
(** token.rs:161-166 *)
Definition into_int v := match v with TInt n => Some n | _ => None end.
(** token.rs:169-174 *)
Definition into_uint v := match v with TUint n => Some n | _ => None end.
(** token.rs:177-182 *)
Definition into_bool v := match v with TBool b => Some b | _ => None end.
(** token.rs:185-190 *)
Definition into_string v := match v with TString s => Some s | _ => None end.
(** token.rs:193-198 *)
Definition into_fixed_array v := match v with TFixedArray l => Some l | _ => None end.
(** token.rs:201-206 *)
Definition into_array v := match v with TArray l => Some l | _ => None end.

(** ** Induction principles for the nested types *)
Section PInd.
  Variable P : ParamType -> Prop.
  Hypothesis HA : P PAddress.
  Hypothesis HB : P PBytes.
  Hypothesis HI : forall n, P (PInt n).
  Hypothesis HU : forall n, P (PUint n).
  Hypothesis HBo : P PBool.
  Hypothesis HS : P PString.
  Hypothesis HAr : forall t, P t -> P (PArray t).
  Hypothesis HFB : forall n, P (PFixedBytes n).
  Hypothesis HFA : forall t n, P t -> P (PFixedArray t n).
  Hypothesis HT : forall ts, Forall P ts -> P (PTuple ts).
  Fixpoint ParamType_ind' (t : ParamType) : P t :=
    match t with
    | PAddress => HA | PBytes => HB | PInt n => HI n | PUint n => HU n
    | PBool => HBo | PString => HS | PArray t => HAr (ParamType_ind' t)
    | PFixedBytes n => HFB n | PFixedArray t n => HFA n (ParamType_ind' t)
    | PTuple ts => HT ((fix go l : Forall P l :=
        match l with [] => Forall_nil P | x :: l' => Forall_cons x (ParamType_ind' x) (go l') end) ts)
    end.
End PInd.

Section TInd.
  Variable P : Token -> Prop.
  Hypothesis HA : forall a, P (TAddress a).
  Hypothesis HFB : forall b, P (TFixedBytes b).
  Hypothesis HB : forall b, P (TBytes b).
  Hypothesis HI : forall n, P (TInt n).
  Hypothesis HU : forall n, P (TUint n).
  Hypothesis HBo : forall b, P (TBool b).
  Hypothesis HS : forall s, P (TString s).
  Hypothesis HFA : forall vs, Forall P vs -> P (TFixedArray vs).
  Hypothesis HAr : forall vs, Forall P vs -> P (TArray vs).
  Hypothesis HT : forall vs, Forall P vs -> P (TTuple vs).
  Fixpoint Token_ind' (v : Token) : P v :=
    let all := (fix go l : Forall P l :=
        match l with [] => Forall_nil P | x :: l' => Forall_cons x (Token_ind' x) (go l') end) in
    match v with
    | TAddress a => HA a | TFixedBytes b => HFB b | TBytes b => HB b
    | TInt n => HI n | TUint n => HU n | TBool b => HBo b | TString s => HS s
    | TFixedArray vs => HFA (all vs)
    | TArray vs => HAr (all vs)
    | TTuple vs => HT (all vs)
    end.
End TInd.

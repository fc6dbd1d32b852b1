(** * Notions used to state properties of the tokenizers (independent of the
    tokenizer model) *)
From Verif Require Import Base Types.
From Coq Require Import String.
Set Implicit Arguments.
Local Open Scope N_scope.
Local Open Scope list_scope.

(** A hexadecimal digit of either case and its value. *)
Definition hex_digit_value (c d : N) : Prop :=
  (48 <= c /\ c <= 57 /\ d = c - 48) \/ (97 <= c /\ c <= 102 /\ d = c - 97 + 10) \/
  (65 <= c /\ c <= 70 /\ d = c - 65 + 10).
(** Text made of two hexadecimal digits per byte. *)
Inductive hex_text : str -> list byte -> Prop :=
| hex_nil : hex_text [] []
| hex_cons : forall a x b y s (o : byte) l, hex_digit_value a x -> hex_digit_value b y ->
    Byte.to_N o = 16 * x + y -> hex_text s l -> hex_text (a :: b :: s) (o :: l).

(** A string of decimal digits (possibly empty, leading zeros allowed) and
    the number it denotes. *)
Definition decimal_text (s : str) (n : N) : Prop :=
  Forall (fun c => 48 <= c /\ c <= 57) s /\ n = fold_left (fun acc c => 10 * acc + (c - 48)) s 0.
(** Optional minus sign and at least one digit. *)
Definition signed_text (s : str) (z : Z) : Prop :=
  exists ds n, ds <> [] /\ decimal_text ds n /\
    ((s = ds /\ z = Z.of_N n) \/ (s = 45 :: ds /\ z = (- Z.of_N n)%Z)).
(** Any number of minus signs and of digits, even none. *)
Definition minus_text (s : str) (z : Z) : Prop :=
  exists k ds n, s = repeat 45 k ++ ds /\ decimal_text ds n /\ z = (if (k =? 0)%nat then Z.of_N n else - Z.of_N n)%Z.
(** The 256-bit two's complement pattern of an integer. *)
Definition twos_complement (z : Z) : N := Z.to_N (z mod 2 ^ 256)%Z.

(** Types without arrays and tuples. *)
Definition scalar (t : ParamType) : bool :=
  match t with PArray _ | PFixedArray _ _ | PTuple _ => false | _ => true end.

(** Text that can stand as one item between brackets [op] [cl]: quotes are
    closed, and outside quotes brackets are balanced and commas are inside
    brackets.  [q]: inside quotes; [depth]: open brackets. *)
Fixpoint separable (op cl : char) (q : bool) (depth : nat) (s : str) : bool :=
  match s with
  | [] => negb q && match depth with O => true | _ => false end
  | c :: s' =>
    if c =? 34 then separable op cl (negb q) depth s'
    else if q then separable op cl q depth s'
    else if c =? op then separable op cl q (S depth) s'
    else if c =? cl then match depth with O => false | S d => separable op cl q d s' end
    else if c =? 44 then match depth with O => false | _ => separable op cl q depth s' end
    else separable op cl q depth s'
  end.
(** Fields of a list of texts, once separated, are those texts. *)
Definition items_readable (op cl : char) (l : list str) : bool :=
  forallb (fun s => separable op cl false 0 s && all_ascii s) l &&
  match l with [s] => negb (len s =? 0) | _ => true end.
(** The range of int256. *)
Definition in_int256 (z : Z) : bool := ((- 2 ^ 255 <=? z) && (z <? 2 ^ 255))%Z.

(** ** Values whose displayed text can be read back *)
Section Readable.
Context (display : Token -> str).
(** Numbers that fill all 64 hex digits; containers whose items' texts can be
    separated. *)
Fixpoint readable (v : Token) : bool :=
  match v with
  | TInt n | TUint n => 2 ^ 252 <=? n
  | TArray vs | TFixedArray vs => items_readable 91 93 (map display vs) && forallb readable vs
  | TTuple vs => items_readable 40 41 (map display vs) && forallb readable vs
  | _ => true
  end.
End Readable.
(** address, bool and non-empty bytesN leaves. *)
Definition plain_leaf (t : ParamType) : bool :=
  match t with PAddress | PBool => true | PFixedBytes n => 1 <=? n | _ => false end.
(** (Arrays of)* leaves. *)
Fixpoint leaf_arrays (t : ParamType) : bool :=
  match t with PArray t' | PFixedArray t' _ => leaf_arrays t' | _ => plain_leaf t end.
(** (Tuples of)* leaves. *)
Fixpoint leaf_tuples (t : ParamType) : bool :=
  match t with PTuple ts => forallb leaf_tuples ts | _ => plain_leaf t end.
(** Like [has_type], but a tuple value may stop early. *)
Fixpoint typed_prefix (v : Token) (t : ParamType) {struct v} : bool :=
  match v, t with
  | TAddress a, PAddress => len a =? 20
  | TBytes _, PBytes | TBool _, PBool => true
  | TFixedBytes b, PFixedBytes n => len b =? n
  | TInt k, PInt _ | TUint k, PUint _ => k <? two256
  | TString s, PString => wf_str s
  | TArray vs, PArray t' => forallb (fun v => typed_prefix v t') vs
  | TFixedArray vs, PFixedArray t' n => (len vs =? n) && forallb (fun v => typed_prefix v t') vs
  | TTuple vs, PTuple ts =>
    (fix go (vs : list Token) (ts : list ParamType) : bool :=
       match vs, ts with
       | [], _ => true
       | v' :: vs', t' :: ts' => typed_prefix v' t' && go vs' ts'
       | _ :: _, [] => false
       end) vs ts
  | _, _ => false
  end.

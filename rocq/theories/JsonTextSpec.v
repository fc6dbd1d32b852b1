(** * The grammar of JSON (RFC 8259), as a relation between a text and the
    value it denotes.  Independent of the reader. *)
From Verif Require Import Base Types Function Event Json JsonSpec.
From Coq Require Import String.
Set Implicit Arguments.
Local Open Scope N_scope.
Local Open Scope list_scope.

Definition blanks (s : str) : Prop := Forall (fun c => In c [32; 9; 10; 13]) s.

(** Section 6: numbers *)
Definition digits (s : str) : Prop := s <> [] /\ Forall (fun c => 48 <= c <= 57) s.
Definition integer_text (s : str) : Prop := s = [48] \/ exists c r, s = c :: r /\ 49 <= c <= 57 /\ Forall (fun c => 48 <= c <= 57) r.
Definition fraction_text (s : str) : Prop := s = [] \/ exists r, s = 46 :: r /\ digits r.
Definition exponent_text (s : str) : Prop :=
  s = [] \/ exists e g r, s = e :: g ++ r /\ (e = 101 \/ e = 69) /\ (g = [] \/ g = [43] \/ g = [45]) /\ digits r.
Definition number_text (s : str) : Prop :=
  exists m i f e, s = m ++ i ++ f ++ e /\ (m = [] \/ m = [45]) /\ integer_text i /\ fraction_text f /\ exponent_text e.

(** Section 7: strings *)
Definition hex_digit (c v : N) : Prop :=
  48 <= c <= 57 /\ v = c - 48 \/ 65 <= c <= 70 /\ v = c - 55 \/ 97 <= c <= 102 /\ v = c - 87.
Definition hex_quad (s : str) (v : N) : Prop :=
  exists a b c d w x y z, s = [a; b; c; d] /\ hex_digit a w /\ hex_digit b x /\ hex_digit c y /\ hex_digit d z /\
    v = w * 4096 + x * 256 + y * 16 + z.
Definition escapes : list (N * N) := [(34, 34); (92, 92); (47, 47); (98, 8); (102, 12); (110, 10); (114, 13); (116, 9)].
(** What stands between the quotes, and the characters it denotes. *)
Inductive string_text : str -> str -> Prop :=
| st_end : string_text [] []
| st_plain c s r : 32 <= c -> c <> 34 -> c <> 92 -> string_text s r -> string_text (c :: s) (c :: r)
| st_escape e c s r : In (e, c) escapes -> string_text s r -> string_text (92 :: e :: s) (c :: r)
| st_unicode q c s r : hex_quad q c -> (c < 0xD800 \/ 0xE000 <= c) -> string_text s r -> string_text (92 :: 117 :: q ++ s) (c :: r)
| st_surrogates q1 hi q2 lo s r : hex_quad q1 hi -> 0xD800 <= hi < 0xDC00 -> hex_quad q2 lo -> 0xDC00 <= lo < 0xE000 ->
    string_text s r -> string_text (92 :: 117 :: q1 ++ 92 :: 117 :: q2 ++ s) (0x10000 + (hi - 0xD800) * 1024 + (lo - 0xDC00) :: r).

(** Sections 3-5: values, arrays and objects *)
Inductive value_text : str -> json -> Prop :=
| vt_null : value_text (lit "null") JNull
| vt_true : value_text (lit "true") (JBool true)
| vt_false : value_text (lit "false") (JBool false)
| vt_number s : number_text s -> value_text s (JNum s)
| vt_string s r : string_text s r -> value_text (34 :: s ++ [34]) (JStr r)
| vt_no_elements w : blanks w -> value_text (91 :: w ++ [93]) (JArr [])
| vt_elements s l : elements_text s l -> value_text (91 :: s ++ [93]) (JArr l)
| vt_no_members w : blanks w -> value_text (123 :: w ++ [125]) (JObj [])
| vt_members s l : members_text s l -> value_text (123 :: s ++ [125]) (JObj l)
with elements_text : str -> list json -> Prop :=
| el_one a s v b : blanks a -> value_text s v -> blanks b -> elements_text (a ++ s ++ b) [v]
| el_more a s v b t l : blanks a -> value_text s v -> blanks b -> elements_text t l -> elements_text (a ++ s ++ b ++ 44 :: t) (v :: l)
with members_text : str -> list (str * json) -> Prop :=
| mb_one a k n b c s v d : blanks a -> string_text k n -> blanks b -> blanks c -> value_text s v -> blanks d ->
    members_text (a ++ 34 :: k ++ 34 :: b ++ 58 :: c ++ s ++ d) [(n, v)]
| mb_more a k n b c s v d t l : blanks a -> string_text k n -> blanks b -> blanks c -> value_text s v -> blanks d -> members_text t l ->
    members_text (a ++ 34 :: k ++ 34 :: b ++ 58 :: c ++ s ++ d ++ 44 :: t) ((n, v) :: l).

(** Section 2: a JSON text *)
Definition json_text (s : str) (j : json) : Prop :=
  exists a t b, s = a ++ t ++ b /\ blanks a /\ value_text t j /\ blanks b.

(** The trees which can be written: all numbers are JSON numbers. *)
Inductive writable : json -> Prop :=
| wr_null : writable JNull
| wr_bool b : writable (JBool b)
| wr_num s : number_text s -> writable (JNum s)
| wr_str s : writable (JStr s)
| wr_arr l : Forall writable l -> writable (JArr l)
| wr_obj l : Forall (fun e => writable (snd e)) l -> writable (JObj l).

(** All strings are made of Unicode scalar values, as in every [String]. *)
Fixpoint scalar_json (j : json) : bool :=
  match j with
  | JNull | JBool _ => true
  | JNum s | JStr s => wf_str s
  | JArr l => forallb scalar_json l
  | JObj l => forallb (fun e => wf_str (fst e) && scalar_json (snd e)) l
  end.
(** ... and in every parameter, function and event. *)
Definition scalar_opt (o : option str) : bool := match o with Some s => wf_str s | None => true end.
Definition scalar_param (a : Param) : bool := wf_str (p_name a) && scalar_opt (p_internal_type a).
Definition scalar_event_param (a : EventParam) : bool := wf_str (ep_name a).
Definition scalar_tuple_param (a : TupleParam) : bool := scalar_opt (tp_name a) && scalar_opt (tp_internal_type a).
Definition scalar_operation (o : Operation) : bool :=
  match o with
  | OpConstructor c => forallb scalar_param (k_inputs c)
  | OpFunction f => wf_str (f_name f) && forallb scalar_param (f_inputs f) && forallb scalar_param (f_outputs f)
  | OpEvent e => wf_str (e_name e) && forallb scalar_event_param (e_inputs e)
  | OpFallback | OpReceive => true
  end.

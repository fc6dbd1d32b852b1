(** * What code uses, in the order in which it runs

    To say that no value is used after it has been moved.  Nothing here comes
    from /repo. *)
From Verif Require Import Base RustSyntax RustCheck.
Set Implicit Arguments.
Local Open Scope list_scope.

(** Names bound inside are not those outside. *)
Definition without (x : str) (l : list (str * bool)) : list (str * bool) := filter (fun z => negb (str_eqb x (fst z))) l.
Definition unbound (b : binder) (l : list (str * bool)) : list (str * bool) := match b with Let x | LetMut x => without x l | Do => l end.
(** The variables that an expression uses, and whether it takes their values
    ([true]) or only borrows them *)
Fixpoint uses (e : expr) (own : bool) : list (str * bool) :=
  match e with
  | EPath [x] => [(x, own)]
  | EPath _ | EStr _ | ENum _ _ | EBool _ => []
  | ECall _ l | ETuple l | EArray l | EVec l => List.concat (map (fun a => uses a true) l)
  | EMethod e m _ l => uses e (negb (borrowing m)) ++ List.concat (map (fun a => uses a true) l)
  | EMap e x body => uses e true ++ without x (uses body true)
  | EField e _ | ETry e | ECast e _ | ERepeat e _ => uses e true
  | EFirst e | ERef e => uses e false
  | EBlock l e => (fix go l := match l with [] => uses e true | x :: l' => uses (snd x) true ++ unbound (fst x) (go l') end) l
  | EStruct _ l | EStructTrailing _ l | EStructDefault _ l _ => List.concat (map (fun x => uses (snd x) true) l)
  end.
(** Values that are copied when they are taken are those of numbers, of bools
    and of references, and what is made of these. *)
Inductive copies : rt -> Prop :=
| cp_plain t : In t [SUnit; SBool; SUsize; SU8; SAddress; SHash; SInt; SUint] -> copies t
| cp_ref t : copies (SRef t)
| cp_arr t n : copies t -> copies (SArr t n)
| cp_option t : copies t -> copies (SOption t)
| cp_tuple l : Forall copies l -> copies (STuple l).

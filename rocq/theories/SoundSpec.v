(** * What checked code may do when it runs

    The types of RustCheck.v as sets of the values of RustEval.v, to say that
    code that passes the check never gets stuck.  Nothing here comes from
    /repo. *)
From Verif Require Import Base Types Function Event Derive RustSyntax RustEval RustCheck.
From Coq Require Import String.
Set Implicit Arguments.
Notation length := List.length.
Local Open Scope N_scope.
Local Open Scope list_scope.

(** ** Values of a type.  [L]: those of the structs of the generated code;
    [D]: those of type parameters *)
Section Values.
Context (L : path -> val -> Prop) (D : str -> val -> Prop).
Fixpoint vt (t : rt) (v : val) {struct t} : Prop :=
  match t with
  | SUnit => v = VUnit
  | SBool => exists b, v = VBool b
  | SUsize | SU8 => exists n, v = VNum n
  | SStr | SString => exists s, v = VStr s
  | SAddress => exists a, v = VAddr a
  | SHash => exists h, v = VHash h
  | SInt => exists n, v = VInt n
  | SUint => exists n, v = VUint n
  | SRef a | SInto a => vt a v
  | SBox (SSlice a) => exists l, v = VArr l /\ Forall (vt a) l
  | SBox a => vt a v
  | SVec SU8 | SSlice SU8 => exists b, v = VBytes b
  | SVec a | SSlice a => exists l, v = VVec l /\ Forall (vt a) l
  | SCollect a => is_byte a = false /\ exists l, v = VVec l /\ Forall (vt a) l
  | SArr SU8 n => exists b, v = VByteArr b /\ len b = n
  | SArr a n => exists l, v = VArr l /\ len l = n /\ Forall (vt a) l
  | STuple ts => exists l, v = VTuple l /\ (fix go ts l := match ts, l with [], [] => True | t :: ts', w :: l' => vt t w /\ go ts' l' | _, _ => False end) ts l
  | SOption a => v = VNone \/ exists w, v = VSome w /\ vt a w
  | SResult a => (exists e, v = VErr e) \/ exists w, v = VOk w /\ vt a w
  | SIter a => exists l, v = VIter l /\ Forall (vt a) l
  | STopic a => exists t, v = VTopic t /\ match t with Any => True | OneOf l => Forall (vt a) l | This w => vt a w end
  | SKind => exists k, v = VKind k
  | SMutability => exists m, v = VMut m
  | SParam => exists x, v = VParam x
  | SEventParam => exists x, v = VEParam x
  | SFunction => exists f, v = VFun f
  | SConstructor => exists k, v = VCtor k
  | SEvent => exists e, v = VEvent e
  | SToken => exists t, v = VTok t
  | SRawFilter => exists f, v = VRaw f
  | SFilter => exists f, v = VFilter f
  | SRawLog => exists l, v = VRawLog l
  | SLog => exists l, v = VLog l
  | SLogParam => exists x, v = VLogParam x
  | SLocal q => L q v
  | SVar x => D x v
  | SAny => False
  end.
End Values.
(** The newtypes of the module [c], and the structs of the module logs *)
Definition locals (c : ctx) (q : path) (v : val) : Prop :=
  (exists x w y u, q = cx_here c ++ [x] /\ v = VNewtype x w /\ newtype_of x (cx_items c) = Some y /\ rt_of c [] None y = Some u /\ vt (fun _ _ => False) (fun _ _ => False) u w) \/
  (exists x p l, q = [lit "logs"; x] /\ cx_here c <> [lit "logs"] /\ v = VRecord p l).
Definition of_rt (c : ctx) (D : str -> val -> Prop) : rt -> val -> Prop := vt (locals c) D.
(** What the type parameters of a function stand for: values of the very types
    that their bounds name *)
Definition meets_bounds (c : ctx) (gs : list generic) (D : str -> val -> Prop) : Prop :=
  forall x g, bound_of gs x = Some g -> forall v, D x v ->
    match g with
    | GInto _ y => forall u, rt_of c (map generic_var gs) None y = Some u -> of_rt c D u v
    | GIter _ u => exists l, v = VVec l /\ Forall (D u) l
    end.

(** ** Modules of a program *)
Inductive inside (items : list item) : ctx -> Prop :=
| in_root : inside items (mkCtx [] items items (existsb sees_err items))
| in_module c doc x its : inside items c -> In (IMod doc x its) (cx_items c) -> inside items (mkCtx (cx_here c ++ [x]) its (cx_root c) (existsb sees_err its)).

(** ** Calls nested to any depth: [call] of RustEval.v, but running out of
    depth is no way to get stuck *)
Section Profile.
Context (p : profile).
Fixpoint called (depth : nat) (items : list item) (q : path) (args : list val) : out val :=
  match depth with
  | O => Panics
  | S depth =>
    match resolve items q args with
    | Some (inl f) => run_fn p (called depth items) f args
    | Some (inr x) => match args with [v] => Done (VNewtype x v) | _ => Stuck end
    | None => Stuck
    end
  end.
End Profile.

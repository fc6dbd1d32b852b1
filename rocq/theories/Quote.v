(** * Templates: the macro [quote!] of the crate quote

    [read_template] turns the text between the braces of a [quote!] into
    tokens with holes, [quote] fills the holes.  Texts are taken over from
    /repo/derive/src literally. *)
From Verif Require Import Base Heck RustSyntax.
From Coq Require Import String.
Set Implicit Arguments.
Local Open Scope N_scope.
Local Open Scope list_scope.

(** Tokens of a template: what [quote!] is given at lib.rs:85-315 *)
Inductive qtok :=
| QTok (t : tok)
| QHole (x : str)                  (* #x *)
| QRepeat (x : str) (sep : toks).  (* #(#x)sep* *)

(** ** Lexing *)
(** What the characters read so far make up. *)
Inductive partial :=
| LNone
| LIdent (hole : bool) (s : str)   (* letters, digits and '_' *)
| LNumber (n : N) (suffix : str)
| LString (s : str)
| LLife (s : str)
| LHash                            (* # *)
| LDoc (s : str).                  (* what follows // *)
Definition token_of (q : partial) : list qtok :=
  match q with
  | LNone => []
  | LIdent true s => [QHole s]
  | LIdent false s => [QTok (KId s)]
  | LNumber n s => [QTok (KNum n s)]
  | LString s => [QTok (KStr s)]
  | LLife s => [QTok (KLife s)]
  | LHash => [QTok (KPu 35)]
  | LDoc (47 :: s) => map QTok (pu "#[" ++ [kw "doc"] ++ pu "=" ++ [KStr s] ++ pu "]")
  | LDoc _ => []
  end.
(** A character that starts a token *)
Definition start (c : char) : partial * list qtok :=
  if is_upper c || is_lower c || (c =? 95) then (LIdent false [c], [])
  else if is_num c then (LNumber (c - 48) [], [])
  else if c =? 34 then (LString [], [])
  else if c =? 39 then (LLife [], [])
  else if c =? 35 then (LHash, [])
  else if (c =? 32) || (c =? 9) || (c =? 10) then (LNone, [])
  else (LNone, [QTok (KPu c)]).
(** The state after a character that starts a token *)
Definition restart (q : partial) (c : char) : partial * list qtok :=
  let (q', l) := start c in (q', token_of q ++ l).
(** One character of the text of a template *)
Definition step (q : partial) (c : char) : partial * list qtok :=
  match q with
  | LNone => start c
  | LIdent hole s => if ident_char c then (LIdent hole (s ++ [c]), []) else restart q c
  | LNumber n [] => if is_num c then (LNumber (10 * n + (c - 48)) [], []) else if ident_char c then (LNumber n [c], []) else restart q c
  | LNumber n s => if ident_char c then (LNumber n (s ++ [c]), []) else restart q c
  | LString s => if c =? 34 then (LNone, token_of q) else (LString (s ++ [c]), [])
  | LLife s => if ident_char c then (LLife (s ++ [c]), []) else restart q c
  | LHash => if is_upper c || is_lower c || (c =? 95) then (LIdent true [c], []) else restart q c
  | LDoc s => if c =? 10 then (LNone, token_of q) else (LDoc (s ++ [c]), [])
  end.
(** Comments: [// text] is dropped, [/// text] is an attribute. *)
Fixpoint lex (q : partial) (s : str) : list qtok :=
  match s with
  | [] => token_of q
  | c :: s' =>
    match q, s' with
    | LNone, d :: s'' =>
      if (c =? 47) && (d =? 47) then lex (LDoc []) s''
      else let (q', l) := step q c in l ++ lex q' s'
    | _, _ => let (q', l) := step q c in l ++ lex q' s'
    end
  end.
(** Repetitions [#(#x)*] and [#(#x),*] *)
Fixpoint repetitions (l : list qtok) : list qtok :=
  match l with
  | QTok (KPu 35) :: QTok (KPu 40) :: QHole x :: QTok (KPu 41) :: QTok (KPu 42) :: l' => QRepeat x [] :: repetitions l'
  | QTok (KPu 35) :: QTok (KPu 40) :: QHole x :: QTok (KPu 41) :: QTok (KPu c) :: QTok (KPu 42) :: l' => QRepeat x [KPu c] :: repetitions l'
  | q :: l' => q :: repetitions l'
  | [] => []
  end.
(** The tokens of the text between the braces of [quote!] *)
Definition read_template (s : string) : list qtok := repetitions (lex LNone (lit s)).

(** ** Filling in *)
Inductive filling := One (t : toks) | Many (l : list toks).
(** The variable of Rust that is interpolated *)
Fixpoint lookup (env : list (string * filling)) (x : str) : option filling :=
  match env with
  | [] => None
  | (y, v) :: env' => if str_eqb (lit y) x then Some v else lookup env' x
  end.
(** A template that names what is not there does not compile: [[]]. *)
Definition fill (env : list (string * filling)) (q : qtok) : toks :=
  match q with
  | QTok t => [t]
  | QHole x => match lookup env x with Some (One t) => t | _ => [] end
  | QRepeat x s => match lookup env x with Some (Many l) => sep s l | _ => [] end
  end.
(** [quote! { q }] where the variables are [env] *)
Definition quote (q : list qtok) (env : list (string * filling)) : toks := List.concat (map (fill env) q).

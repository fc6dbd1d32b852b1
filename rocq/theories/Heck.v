(** * Case conversion: crate heck 0.3 (used by /repo/derive/src)

    [to_snake_case] and [to_camel_case] for names of ASCII letters, digits and
    '_' ([ident_char]).  Such a name is a single word for
    [UnicodeSegmentation::unicode_words] (or none, if it has only '_'; the
    loop below then yields no word either).  Other names are outside the
    model: what the definitions say about them means nothing. *)
From Verif Require Import Base.
From Coq Require Import String.
Set Implicit Arguments.
Local Open Scope N_scope.
Local Open Scope list_scope.

(** [char::is_uppercase] on ASCII *)
Definition is_upper (c : char) : bool := (65 <=? c) && (c <=? 90).
(** [char::is_lowercase] on ASCII *)
Definition is_lower (c : char) : bool := (97 <=? c) && (c <=? 122).
(** [char::is_numeric] on ASCII *)
Definition is_num (c : char) : bool := (48 <=? c) && (c <=? 57).
(** What an identifier of Rust is made of, on ASCII *)
Definition ident_char (c : char) : bool := is_upper c || is_lower c || is_num c || (c =? 95).
(** [char::to_uppercase] on ASCII *)
Definition to_upper (c : char) : char := if is_lower c then c - 32 else c.
(** [char::to_lowercase] on ASCII *)
Definition to_lower (c : char) : char := if is_upper c then c + 32 else c.

(** heck lib.rs, [enum WordMode] *)
Inductive mode := Boundary | Lowercase | Uppercase.
(** heck lib.rs, [transform]: the loop over the characters; [cur] is
    [word[init..i]], the result is the list of words.  'c' is the character
    at i, the peeked character is the next one. *)
Fixpoint words (s : str) (cur : str) (m : mode) : list str :=
  match s with
  | [] => []
  | c :: s' =>
    if c =? 95 then words s' (match cur with [] => [] | _ => cur ++ [c] end) m
    else match s' with
      | [] => [cur ++ [c]]
      | next :: _ =>
        let next_mode := if is_lower c then Lowercase else if is_upper c then Uppercase else m in
        if (next =? 95) || (match next_mode with Lowercase => true | _ => false end && is_upper next) then
          (cur ++ [c]) :: words s' [] Boundary
        else if match m with Uppercase => true | _ => false end && is_upper c && is_lower next then
          cur :: words s' [c] Boundary
        else words s' (cur ++ [c]) next_mode
      end
  end.
(** heck lib.rs, [capitalize] *)
Definition capitalize (w : str) : str :=
  match w with [] => [] | c :: w' => to_upper c :: map to_lower w' end.
(** heck snake.rs and camel.rs *)
Definition to_snake_case (s : str) : str := join (lit "_") (map (map to_lower) (words s [] Boundary)).
(** heck camel.rs: derive/src/event.rs:140 and 153-155 *)
Definition to_camel_case (s : str) : str := List.concat (map capitalize (words s [] Boundary)).

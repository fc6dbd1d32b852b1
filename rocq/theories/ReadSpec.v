(** * Which descriptions are written as text that reads as Rust

    Conditions on the interface alone.  The names are those of DeriveSpec.v,
    and each is decided on its own: nothing is said about names that clash. *)
From Verif Require Import Base Types Function Event Contract Heck Derive DeriveSpec RustSyntax RustParse RustCheck.
Local Open Scope list_scope.

Definition readable_params (l : list Param) : Prop := forallb argument_type (map p_kind l) = true /\ exists names, named parameter_name l names /\ Forall usable names.
Definition readable_constructor (k : Constructor) : Prop := readable_params (k_inputs k).
Definition readable_function (f : Function) : Prop :=
  readable_params (f_inputs f) /\ forallb plain_type (map p_kind (f_outputs f)) = true /\ usable (to_snake_case (f_name f)).
(** The module of an event names the struct of its log by a path, where
    [Self] may stand, but the struct cannot have that name. *)
Definition readable_event (e : Event) : Prop :=
  forallb plain_type (map ep_kind (e_inputs e)) = true /\ (exists names, named field_name (e_inputs e) names /\ Forall usable names) /\
  usable (to_snake_case (e_name e)) /\ usable (to_camel_case (e_name e)).
Definition readable (c : Contract) (fs : groups Function) (es : groups Event) : Prop :=
  (forall k, c_constructor c = Some k -> readable_constructor k) /\ Forall readable_function (iterate fs) /\ Forall readable_event (iterate es).
(** A text is accepted if it reads as Rust and its names, types and moves are
    in order. *)
Definition accepted (text : toks) : Prop := exists items, parse text = Some items /\ program_ok items = true.

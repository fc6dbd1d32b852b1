(** * ethabi-derive: /repo/derive/src

    The macro turns a loaded contract into Rust code.  The model gives, for
    each generator, the meaning of the code it generates: a [res] of a
    function, where the outer [Panic] is the macro panicking, the outer [Err]
    is generated code that the compiler rejects, and the function is what the
    generated code does when it runs ([Panic]: it panics).

    Of what makes the compiler reject the code, these are modelled: the type
    [[T, n]] that [rust_type] writes for fixed-size arrays, two parameters,
    fields or modules with the same name, a keyword as a name, a parameter
    hidden by a local variable, a parameter that hides the generated function
    called in its scope, and an event called String or Vec, which hides the
    type in the module of the logs.  When the macro
    panics for one item and another item does not compile, which of the two
    the model reports means nothing.  The text of
    the code is in DeriveText.v, attribute and path handling (lib.rs:27-83) in
    Attr.v. *)
From Verif Require Import Base Types TypeNames Encoder Decoder Function Tokenizer Event Json Contract Heck.
From Coq Require Import String.
Set Implicit Arguments.
Local Open Scope N_scope.
Local Open Scope list_scope.

(** No result of /repo/derive/src: the compiler refuses what it wrote. *)
Definition compile_error {A} : res A := Err (OtherErr (lit "generated code does not compile")).
(** [.expect(INTERNAL_ERR)] on an Option and on a Result *)
Definition expect {A} (o : option A) : res A := match o with Some a => Ok a | None => Panic end.
(** [Result::expect(INTERNAL_ERR)] *)
Definition expect_ok {A} (r : res A) : res A := match r with Ok a => Ok a | _ => Panic end.

(** ** Rust types and values of generated interfaces *)
(** [YComma t n] is the text "[t, n]", which is not a type. *)
Inductive rty := YAddress | YBytes | YHash | YByteArray (n : N) | YInt | YUint | YBool | YString | YVec (t : rty) | YComma (t : rty) (n : N).
(** Whether the text at lib.rs:130-152 is a type *)
Fixpoint compiles (t : rty) : bool :=
  match t with YVec t' => compiles t' | YComma _ _ => false | _ => true end.
(** Values; [RArr] is an array [U; n], only met as an argument. *)
Inductive rval :=
| RAddress (a : list byte) | RBytes (b : list byte) | RHash (h : list byte) | RByteArray (b : list byte)
| RInt (n : N) | RUint (n : N) | RBool (b : bool) | RString (s : str) | RVec (l : list rval) | RArr (l : list rval).

(** lib.rs:130-152 *)
Fixpoint rust_type (kind : ParamType) : res rty :=
  match kind with
  | PAddress => Ok YAddress
  | PBytes => Ok YBytes
  | PFixedBytes n => Ok (if n =? 32 then YHash else YByteArray n)
  | PInt _ => Ok YInt
  | PUint _ => Ok YUint
  | PBool => Ok YBool
  | PString => Ok YString
  | PArray kind => do t <- rust_type kind; Ok (YVec t)
  | PFixedArray kind n => do t <- rust_type kind; Ok (YComma t n)
  | PTuple _ => Panic
  end.
(** lib.rs:154-182: what the argument must be convertible to *)
Inductive bound := BInto (t : rty) | BIter (t : rty) | BArray (t : rty) (n : N).
(** lib.rs:154-182 *)
Definition template_param_type (kind : ParamType) : res bound :=
  match kind with
  | PArray kind => do t <- rust_type kind; Ok (BIter t)
  | PFixedArray kind n => do t <- rust_type kind; Ok (BArray t n)
  | _ => do t <- rust_type kind; Ok (BInto t)
  end.
(** Whether the text at lib.rs:154-182 is a bound *)
Definition bound_compiles (b : bound) : bool := match b with BInto t | BIter t | BArray t _ => compiles t end.
(** lib.rs:184-192: the argument, converted.  [Into] is the identity here:
    callers are taken to pass values of the very type. *)
Definition from_template_param (kind : ParamType) (v : rval) : rval :=
  match kind, v with
  | PFixedArray _ _, RArr l => RVec l
  | _, _ => v
  end.

(** lib.rs:85-106: the ParamType expression that is written, evaluated *)
Fixpoint to_syntax (kind : ParamType) : res ParamType :=
  match kind with
  | PArray kind => do k <- to_syntax kind; Ok (PArray k)
  | PFixedArray kind n => do k <- to_syntax kind; Ok (PFixedArray k n)
  | PTuple _ => Panic
  | k => Ok k
  end.
(** lib.rs:108-128 *)
Definition to_ethabi_param_vec (params : list Param) : res (list Param) :=
  mapM (fun x => do k <- to_syntax (p_kind x); Ok (mkParam (p_name x) k None)) params.

(** lib.rs:194-229.  A value of a wrong type would be rejected by the
    compiler: [Panic] stands for that. *)
Fixpoint to_token (kind : ParamType) : res (rval -> res Token) :=
  match kind with
  | PAddress => Ok (fun v => match v with RAddress a => Ok (TAddress a) | _ => Panic end)
  | PBytes => Ok (fun v => match v with RBytes b => Ok (TBytes b) | _ => Panic end)
  | PFixedBytes _ => Ok (fun v => match v with RHash b | RByteArray b => Ok (TFixedBytes b) | _ => Panic end)
  | PInt _ => Ok (fun v => match v with RInt n => Ok (TInt n) | _ => Panic end)
  | PUint _ => Ok (fun v => match v with RUint n => Ok (TUint n) | _ => Panic end)
  | PBool => Ok (fun v => match v with RBool b => Ok (TBool b) | _ => Panic end)
  | PString => Ok (fun v => match v with RString s => Ok (TString s) | _ => Panic end)
  | PArray kind =>
    do inner <- to_token kind;
    Ok (fun v => match v with RVec l => do ts <- mapM inner l; Ok (TArray ts) | _ => Panic end)
  | PFixedArray kind _ =>
    do inner <- to_token kind;
    Ok (fun v => match v with RVec l => do ts <- mapM inner l; Ok (TFixedArray ts) | _ => Panic end)
  | PTuple _ => Panic
  end.

(** lib.rs:231-283.  For fixed-size arrays the code calls [to_array], which
    Token does not have: the compiler rejects it, as it does the type of the
    result, see [compiles]. *)
Fixpoint from_token (kind : ParamType) : res (Token -> res rval) :=
  match kind with
  | PAddress => Ok (fun t => rmap RAddress (expect (into_address t)))
  | PBytes => Ok (fun t => rmap RBytes (expect (into_bytes t)))
  | PFixedBytes n =>
    if n =? 32 then Ok (fun t => do v <- expect (into_fixed_bytes t); rmap RHash (copy_from_slice 32 v))
    else Ok (fun t => do v <- expect (into_fixed_bytes t); rmap RByteArray (copy_from_slice n v))
  | PInt _ => Ok (fun t => rmap RInt (expect (into_int t)))
  | PUint _ => Ok (fun t => rmap RUint (expect (into_uint t)))
  | PBool => Ok (fun t => rmap RBool (expect (into_bool t)))
  | PString => Ok (fun t => rmap RString (expect (into_string t)))
  | PArray kind =>
    do inner <- from_token kind;
    Ok (fun t => do l <- expect (into_array t); do vs <- mapM inner l; Ok (RVec vs))
  | PFixedArray kind _ => do inner <- from_token kind; Ok (fun _ => compile_error)
  | PTuple _ => Panic
  end.

(** ** Names *)
(** [format!("{}{}", prefix, index)] *)
Definition numbered (prefix : str) (index : nat) : str := prefix ++ show_dec (N.of_nat index).
(** [Ident::new]: panics on texts that are not identifiers.  Simplification:
    identifiers of ASCII characters only, as in Heck.v. *)
Definition ident (s : str) : res str :=
  match s with
  | [] => Panic
  | c :: s' => if (is_upper c || is_lower c || (c =? 95)) && forallb ident_char s' then Ok s else Panic
  end.
(** The strict and the reserved keywords of Rust 2018, the edition of the
    crates: [Ident::new] takes them, the parser of the generated code does not. *)
Definition keywords : list str := map lit [
  "as"; "break"; "const"; "continue"; "crate"; "else"; "enum"; "extern"; "false"; "fn"; "for"; "if"; "impl"; "in"; "let"; "loop"; "match"; "mod"; "move";
  "mut"; "pub"; "ref"; "return"; "self"; "Self"; "static"; "struct"; "super"; "trait"; "true"; "type"; "unsafe"; "use"; "where"; "while"; "async"; "await"; "dyn";
  "abstract"; "become"; "box"; "do"; "final"; "macro"; "override"; "priv"; "typeof"; "unsized"; "virtual"; "yield"; "try"]%string.
(** Whether [syn::Ident::new], lib.rs:285-297, writes a keyword *)
Definition keyword (s : str) : bool := existsb (str_eqb s) keywords.
(** lib.rs:320-326 *)
Definition rust_variable (name : str) : str := if str_eqb name (lit "self") then lit "_self" else to_snake_case name.
(** [iter.enumerate().map(f)], from the index [i] *)
Fixpoint mapi_from {A B} (f : nat -> A -> B) (i : nat) (l : list A) : list B :=
  match l with [] => [] | x :: l' => f i x :: mapi_from f (S i) l' end.
(** [iter.enumerate().map(f)]: lib.rs:285-301 *)
Definition mapi {A B} (f : nat -> A -> B) (l : list A) : list B := mapi_from f 0 l.
(** lib.rs:285-297 *)
Definition input_names (inputs : list Param) : res (list str) :=
  mapM (fun r => r) (mapi (fun index param =>
    match p_name param with [] => ident (numbered (lit "param") index) | name => ident (rust_variable name) end) inputs).
(** Parameters of a Rust function have different names: function.rs:87-90 *)
Fixpoint distinct (l : list str) : bool :=
  match l with [] => true | x :: l' => negb (existsb (str_eqb x) l') && distinct l' end.
(** Names declared in the same scope *)
Definition declarable (l : list str) : bool := distinct l && negb (existsb keyword l).
(** The compiler's view of what it is given. *)
Definition check {A} (ok : bool) (a : A) : res A := if ok then Ok a else compile_error.

(** ** Functions: /repo/derive/src/function.rs *)
(** The generated module of a function. *)
Record DFunction := mkDFunction {
  df_module : str;
  df_function : Function;
  df_bounds : list bound;
  df_encode_input : list rval -> res (list byte);
  df_results : list rty;
  df_decode_output : list byte -> res (list rval) }.
(** function.rs:98-102 and constructor.rs:48-52 *)
Definition tokenize_params (inputs : list Param) : res (list rval -> res (list Token)) :=
  do fs <- mapM (fun param => do f <- to_token (p_kind param); Ok (fun v => f (from_template_param (p_kind param) v))) inputs;
  Ok (fun args => mapM (fun x => fst x (snd x)) (combine fs args)).
(** [out.next().expect(INTERNAL_ERR)] for each output in turn *)
Fixpoint convert_all (fs : list (Token -> res rval)) (out : list Token) : res (list rval) :=
  match fs with
  | [] => Ok []
  | f :: fs' =>
    match out with
    | [] => Panic
    | t :: out' => do v <- f t; do vs <- convert_all fs' out'; Ok (v :: vs)
    end
  end.

Section Profile.
Context (p : profile).
(** function.rs:72-146 and 148-216.  In the generated [encode_input] and
    [call] the local variable f hides a parameter of that name, and a
    parameter called function hides the function called there. *)
Definition derive_function (f : Function) : res DFunction :=
  do names <- input_names (f_inputs f);
  do bounds <- mapM (fun param => template_param_type (p_kind param)) (f_inputs f);
  do kinds <- mapM (fun param => rust_type (p_kind param)) (f_inputs f);
  do tokenize <- tokenize_params (f_inputs f);
  do results <- mapM (fun param => rust_type (p_kind param)) (f_outputs f);
  do converts <- mapM (fun param => from_token (p_kind param)) (f_outputs f);
  do inputs <- to_ethabi_param_vec (f_inputs f);
  do outputs <- to_ethabi_param_vec (f_outputs f);
  do module <- ident (to_snake_case (f_name f));
  do _ <- check (forallb bound_compiles bounds && forallb compiles results && declarable (lit "f" :: lit "function" :: names) && negb (keyword module)) tt;
  let function := mkFunction (f_name f) inputs outputs (f_constant f) (f_state_mutability f) in
  Ok (mkDFunction module function bounds
    (fun args => do tokens <- tokenize args; expect_ok (encode_input p function tokens))
    results
    (fun output =>
      match converts with
      | [] => Ok []
      | _ => do out <- decode_output p function output; convert_all converts out
      end)).

(** ** Constructors: /repo/derive/src/constructor.rs:24-82.  The parameter
    code and the local variable c come first. *)
Record DConstructor := mkDConstructor {
  dk_constructor : Constructor;
  dk_bounds : list bound;
  dk_encode : list byte -> list rval -> res (list byte) }.
(** constructor.rs:24-82 *)
Definition derive_constructor (c : Constructor) : res DConstructor :=
  do names <- input_names (k_inputs c);
  do bounds <- mapM (fun param => template_param_type (p_kind param)) (k_inputs c);
  do kinds <- mapM (fun param => rust_type (p_kind param)) (k_inputs c);
  do tokenize <- tokenize_params (k_inputs c);
  do inputs <- to_ethabi_param_vec (k_inputs c);
  do _ <- check (forallb bound_compiles bounds && declarable (lit "c" :: lit "code" :: names)) tt;
  let constructor := mkConstructor inputs in
  Ok (mkDConstructor constructor bounds
    (fun code args => do tokens <- tokenize args; expect_ok (constructor_encode_input p constructor code tokens))).

(** ** Events: /repo/derive/src/event.rs *)
Record DEvent := mkDEvent {
  de_module : str;
  de_event : Event;
  de_topic_types : list rty;
  de_filter : list (Topic rval) -> res TopicFilter;
  de_wildcard_filter : res TopicFilter;
  de_fields : list rty;
  de_parse_log : RawLog -> res (list rval) }.
(** event.rs:30-45 and 59-71 *)
Definition field_names (inputs : list EventParam) : res (list str) :=
  mapM (fun r => r) (mapi (fun index param =>
    match ep_name param with
    | [] => ident (numbered (if ep_indexed param then lit "topic" else lit "param") index)
    | name => ident (to_snake_case name)
    end) inputs).
(** [param_name.into().map(|i| to_token)] *)
Definition topic_mapM (f : rval -> res Token) (t : Topic rval) : res (Topic Token) :=
  match t with
  | Any => Ok Any
  | OneOf l => do l' <- mapM f l; Ok (OneOf l')
  | This x => do y <- f x; Ok (This y)
  end.
(** event.rs:104-121 *)
Definition event_inputs (inputs : list EventParam) : res (list EventParam) :=
  mapM (fun x => do k <- to_syntax (ep_kind x); Ok (mkEventParam (ep_name x) k (ep_indexed x))) inputs.
(** event.rs:91-102 and 177-185: the raw filter, [..Default::default()] for
    the topics not given *)
Definition raw_filter (topics : list (Topic Token)) : RawTopicFilter :=
  mkRawFilter (nth 0 topics Any) (nth 1 topics Any) (nth 2 topics Any).
(** event.rs:59-71: those of the names above that belong to topics *)
Definition topic_names (inputs : list EventParam) (names : list str) : list str :=
  map snd (filter (fun x => ep_indexed (fst x)) (combine inputs names)).
(** event.rs:28-135 and 137-202.  A topic called event hides the function
    called in the generated [filter]. *)
Definition derive_event (e : Event) : res DEvent :=
  let topics := filter ep_indexed (e_inputs e) in
  do names <- field_names (e_inputs e);
  do kinds <- mapM (fun param => rust_type (ep_kind param)) (e_inputs e);
  do converts <- mapM (fun param => from_token (ep_kind param)) (e_inputs e);
  do topic_kinds <- mapM (fun param => rust_type (ep_kind param)) topics;
  do to_tokens <- mapM (fun param => to_token (ep_kind param)) (firstn 3 topics);
  do inputs <- event_inputs (e_inputs e);
  do camel <- ident (to_camel_case (e_name e));
  do module <- ident (to_snake_case (e_name e));
  do _ <- check (forallb compiles kinds && declarable names && negb (existsb (str_eqb (lit "event")) (topic_names (e_inputs e) names)) &&
    negb (keyword module) && negb (keyword camel)) tt;
  let event := mkEvent (to_camel_case (e_name e)) inputs (e_anonymous e) in
  let filter args :=
    do raw <- mapM (fun x => topic_mapM (fst x) (snd x)) (combine to_tokens args);
    expect_ok (event_filter p event (raw_filter raw)) in
  Ok (mkDEvent module event topic_kinds
    filter
    (filter (map (fun _ => Any) topics))
    kinds
    (fun log => do l <- parse_log p event log; convert_all converts (map lp_value (l_params l)))).

(** ** Contracts: /repo/derive/src/contract.rs:14-64, on the entries of the
    maps in iteration order.  The module events and the module logs contain
    one module and one struct for each event.  In the module logs, a struct
    String or Vec stands for the type of that name in all fields. *)
Record DContract := mkDContract {
  dc_constructor : option DConstructor;
  dc_functions : list DFunction;
  dc_events : list DEvent }.
(** Whether the type at lib.rs:130-152 is written with the name [n] *)
Fixpoint mentions (n : str) (t : rty) : bool :=
  match t with
  | YString => str_eqb n (lit "String")
  | YVec t' => str_eqb n (lit "Vec") || mentions n t'
  | _ => false
  end.
(** Whether a struct of that name, event.rs:137-149, changes what a field's type means *)
Definition hides (logs : list (list rty)) (n : str) : bool := existsb (existsb (mentions n)) logs.
(** contract.rs:14-64 *)
Definition derive_contract (c : Contract) (functions : groups Function) (events : groups Event) : res DContract :=
  do constructor <- match c_constructor c with
                    | None => Ok None
                    | Some k => do d <- derive_constructor k; Ok (Some d)
                    end;
  do fs <- mapM derive_function (iterate functions);
  do es <- mapM derive_event (iterate events);
  check (distinct (map df_module fs) && distinct (map de_module es) && distinct (map (fun e => e_name (de_event e)) es) &&
      negb (existsb (hides (map de_fields es)) (map (fun e => e_name (de_event e)) es)))
    (mkDContract constructor fs es).
End Profile.

(** * ethabi-derive: the generated text

    The generators of /repo/derive/src with their templates.  [Panic] is the
    macro panicking.  In the code the parts of a template are computed when a
    generator is created ([From]) and used when it writes ([generate]): here
    both are one function, so that of several panics another one may come
    first.  [input_names] and [field_names], the names, are those of
    Derive.v. *)
From Verif Require Import Base Types TypeNames Function Event Contract Heck Derive RustSyntax Quote.
From Coq Require Import String.
Set Implicit Arguments.
Local Open Scope N_scope.
Local Open Scope list_scope.
Local Open Scope string_scope.

(** ** Interpolated values: crate quote, to_tokens.rs *)
Definition q_usize (n : N) : filling := One [KNum n (lit "usize")].
(** [syn::Index] *)
Definition q_index (n : N) : filling := One [KNum n []].
(** [ToTokens for String]: function.rs:176, event.rs:114 and 171 *)
Definition q_str (s : str) : filling := One [KStr s].
(** [ToTokens for bool]: function.rs:179, event.rs:116 and 173 *)
Definition q_bool (b : bool) : filling := One [kw (if b then "true" else "false")].
(** [ToTokens for Ident]: lib.rs:155-156 and 285-301 *)
Definition q_ident (s : str) : filling := One [KId s].

(** ** /repo/derive/src/lib.rs *)
(** lib.rs:85-106 *)
Definition t_syntax_address := Eval vm_compute in read_template "ethabi::ParamType::Address".
(** lib.rs:88 *)
Definition t_syntax_bytes := Eval vm_compute in read_template "ethabi::ParamType::Bytes".
(** lib.rs:89 *)
Definition t_syntax_int := Eval vm_compute in read_template "ethabi::ParamType::Int(#x)".
(** lib.rs:90 *)
Definition t_syntax_uint := Eval vm_compute in read_template "ethabi::ParamType::Uint(#x)".
(** lib.rs:91 *)
Definition t_syntax_bool := Eval vm_compute in read_template "ethabi::ParamType::Bool".
(** lib.rs:92 *)
Definition t_syntax_string := Eval vm_compute in read_template "ethabi::ParamType::String".
(** lib.rs:95 *)
Definition t_syntax_array := Eval vm_compute in read_template "ethabi::ParamType::Array(Box::new(#param_type_quote))".
(** lib.rs:97 *)
Definition t_syntax_fixed_bytes := Eval vm_compute in read_template "ethabi::ParamType::FixedBytes(#x)".
(** lib.rs:100 *)
Definition t_syntax_fixed_array := Eval vm_compute in read_template "ethabi::ParamType::FixedArray(Box::new(#param_type_quote), #x)".
(** lib.rs:85-106 *)
Fixpoint to_syntax_string (param_type : ParamType) : res toks :=
  match param_type with
  | PAddress => Ok (quote t_syntax_address [])
  | PBytes => Ok (quote t_syntax_bytes [])
  | PInt x => Ok (quote t_syntax_int [("x", q_usize x)])
  | PUint x => Ok (quote t_syntax_uint [("x", q_usize x)])
  | PBool => Ok (quote t_syntax_bool [])
  | PString => Ok (quote t_syntax_string [])
  | PArray param_type =>
    do param_type_quote <- to_syntax_string param_type;
    Ok (quote t_syntax_array [("param_type_quote", One param_type_quote)])
  | PFixedBytes x => Ok (quote t_syntax_fixed_bytes [("x", q_usize x)])
  | PFixedArray param_type x =>
    do param_type_quote <- to_syntax_string param_type;
    Ok (quote t_syntax_fixed_array [("param_type_quote", One param_type_quote); ("x", q_usize x)])
  | PTuple _ => Panic
  end.
(** lib.rs:108-128 *)
Definition t_param := Eval vm_compute in read_template "
				ethabi::Param {
					name: #name.to_owned(),
					kind: #kind,
					internal_type: None
				}
".
(** lib.rs:127 *)
Definition t_vec := Eval vm_compute in read_template "vec![ #(#p),* ]".
(** lib.rs:108-128 *)
Definition param_vec (params : list Param) : res toks :=
  do p <- mapM (fun x => do kind <- to_syntax_string (p_kind x); Ok (quote t_param [("name", q_str (p_name x)); ("kind", One kind)])) params;
  Ok (quote t_vec [("p", Many p)]).
(** lib.rs:130-152 *)
Definition t_type_address := Eval vm_compute in read_template "ethabi::Address".
(** lib.rs:133 *)
Definition t_type_bytes := Eval vm_compute in read_template "ethabi::Bytes".
(** lib.rs:134 *)
Definition t_type_hash := Eval vm_compute in read_template "ethabi::Hash".
(** lib.rs:135 *)
Definition t_type_byte_array := Eval vm_compute in read_template "[u8; #size]".
(** lib.rs:136 *)
Definition t_type_int := Eval vm_compute in read_template "ethabi::Int".
(** lib.rs:137 *)
Definition t_type_uint := Eval vm_compute in read_template "ethabi::Uint".
(** lib.rs:138 *)
Definition t_type_bool := Eval vm_compute in read_template "bool".
(** lib.rs:139 *)
Definition t_type_string := Eval vm_compute in read_template "String".
(** lib.rs:142 *)
Definition t_type_vec := Eval vm_compute in read_template "Vec<#t>".
(** lib.rs:146 *)
Definition t_type_comma := Eval vm_compute in read_template "[#t, #size]".
(** lib.rs:130-152 *)
Fixpoint type_text (input : ParamType) : res toks :=
  match input with
  | PAddress => Ok (quote t_type_address [])
  | PBytes => Ok (quote t_type_bytes [])
  | PFixedBytes size => Ok (if N.eqb size 32 then quote t_type_hash [] else quote t_type_byte_array [("size", q_usize size)])
  | PInt _ => Ok (quote t_type_int [])
  | PUint _ => Ok (quote t_type_uint [])
  | PBool => Ok (quote t_type_bool [])
  | PString => Ok (quote t_type_string [])
  | PArray kind => do t <- type_text kind; Ok (quote t_type_vec [("t", One t)])
  | PFixedArray kind size => do t <- type_text kind; Ok (quote t_type_comma [("t", One t); ("size", q_usize size)])
  | PTuple _ => Panic
  end.
(** lib.rs:154-182 *)
Definition t_bound_address := Eval vm_compute in read_template "#t_ident: Into<ethabi::Address>".
(** lib.rs:159 *)
Definition t_bound_bytes := Eval vm_compute in read_template "#t_ident: Into<ethabi::Bytes>".
(** lib.rs:160 *)
Definition t_bound_hash := Eval vm_compute in read_template "#t_ident: Into<ethabi::Hash>".
(** lib.rs:161 *)
Definition t_bound_byte_array := Eval vm_compute in read_template "#t_ident: Into<[u8; #size]>".
(** lib.rs:162 *)
Definition t_bound_int := Eval vm_compute in read_template "#t_ident: Into<ethabi::Int>".
(** lib.rs:163 *)
Definition t_bound_uint := Eval vm_compute in read_template "#t_ident: Into<ethabi::Uint>".
(** lib.rs:164 *)
Definition t_bound_bool := Eval vm_compute in read_template "#t_ident: Into<bool>".
(** lib.rs:165 *)
Definition t_bound_string := Eval vm_compute in read_template "#t_ident: Into<String>".
(** lib.rs:154-182 *)
Definition t_bound_array := Eval vm_compute in read_template "
				#t_ident: IntoIterator<Item = #u_ident>, #u_ident: Into<#t>
".
(** lib.rs:154-182 *)
Definition t_bound_fixed_array := Eval vm_compute in read_template "
				#t_ident: Into<[#u_ident; #size]>, #u_ident: Into<#t>
".
(** lib.rs:154-182 *)
Definition bound_text (input : ParamType) (index : nat) : res toks :=
  let t_ident := ("t_ident", q_ident (numbered (lit "T") index)) in
  let u_ident := ("u_ident", q_ident (numbered (lit "U") index)) in
  match input with
  | PAddress => Ok (quote t_bound_address [t_ident])
  | PBytes => Ok (quote t_bound_bytes [t_ident])
  | PFixedBytes size => Ok (if N.eqb size 32 then quote t_bound_hash [t_ident] else quote t_bound_byte_array [t_ident; ("size", q_usize size)])
  | PInt _ => Ok (quote t_bound_int [t_ident])
  | PUint _ => Ok (quote t_bound_uint [t_ident])
  | PBool => Ok (quote t_bound_bool [t_ident])
  | PString => Ok (quote t_bound_string [t_ident])
  | PArray kind => do t <- type_text kind; Ok (quote t_bound_array [t_ident; u_ident; ("t", One t)])
  | PFixedArray kind size => do t <- type_text kind; Ok (quote t_bound_fixed_array [t_ident; u_ident; ("size", q_usize size); ("t", One t)])
  | PTuple _ => Panic
  end.
(** lib.rs:184-192 *)
Definition t_template_array := Eval vm_compute in read_template "#name.into_iter().map(Into::into).collect::<Vec<_>>()".
(** lib.rs:184-192 *)
Definition t_template_fixed_array := Eval vm_compute in read_template
  "(Box::new(#name.into()) as Box<[_]>).into_vec().into_iter().map(Into::into).collect::<Vec<_>>()".
(** lib.rs:190 *)
Definition t_template := Eval vm_compute in read_template "#name.into() ".
(** lib.rs:184-192 *)
Definition template_text (input : ParamType) (name : str) : toks :=
  match input with
  | PArray _ => quote t_template_array [("name", q_ident name)]
  | PFixedArray _ _ => quote t_template_fixed_array [("name", q_ident name)]
  | _ => quote t_template [("name", q_ident name)]
  end.
(** lib.rs:194-229 *)
Definition t_token_address := Eval vm_compute in read_template "ethabi::Token::Address(#name)".
(** lib.rs:197 *)
Definition t_token_bytes := Eval vm_compute in read_template "ethabi::Token::Bytes(#name)".
(** lib.rs:198 *)
Definition t_token_fixed_bytes := Eval vm_compute in read_template "ethabi::Token::FixedBytes(#name.as_ref().to_vec())".
(** lib.rs:199 *)
Definition t_token_int := Eval vm_compute in read_template "ethabi::Token::Int(#name)".
(** lib.rs:200 *)
Definition t_token_uint := Eval vm_compute in read_template "ethabi::Token::Uint(#name)".
(** lib.rs:201 *)
Definition t_token_bool := Eval vm_compute in read_template "ethabi::Token::Bool(#name)".
(** lib.rs:202 *)
Definition t_token_string := Eval vm_compute in read_template "ethabi::Token::String(#name)".
(** lib.rs:194-229 *)
Definition t_inner := Eval vm_compute in read_template "inner".
(** lib.rs:194-229 *)
Definition t_token_array := Eval vm_compute in read_template "
				// note the double {{
				{
					let v = #name.into_iter().map(|#inner_name| #inner_loop).collect();
					ethabi::Token::Array(v)
				}
".
(** lib.rs:194-229 *)
Definition t_token_fixed_array := Eval vm_compute in read_template "
				// note the double {{
				{
					let v = #name.into_iter().map(|#inner_name| #inner_loop).collect();
					ethabi::Token::FixedArray(v)
				}
".
(** lib.rs:194-229 *)
Fixpoint to_token_text (name : toks) (kind : ParamType) : res toks :=
  match kind with
  | PAddress => Ok (quote t_token_address [("name", One name)])
  | PBytes => Ok (quote t_token_bytes [("name", One name)])
  | PFixedBytes _ => Ok (quote t_token_fixed_bytes [("name", One name)])
  | PInt _ => Ok (quote t_token_int [("name", One name)])
  | PUint _ => Ok (quote t_token_uint [("name", One name)])
  | PBool => Ok (quote t_token_bool [("name", One name)])
  | PString => Ok (quote t_token_string [("name", One name)])
  | PArray kind =>
    let inner_name := quote t_inner [] in
    do inner_loop <- to_token_text inner_name kind;
    Ok (quote t_token_array [("name", One name); ("inner_name", One inner_name); ("inner_loop", One inner_loop)])
  | PFixedArray kind _ =>
    let inner_name := quote t_inner [] in
    do inner_loop <- to_token_text inner_name kind;
    Ok (quote t_token_fixed_array [("name", One name); ("inner_name", One inner_name); ("inner_loop", One inner_loop)])
  | PTuple _ => Panic
  end.
(** lib.rs:231-283 *)
Definition t_from_address := Eval vm_compute in read_template "#token.into_address().expect(INTERNAL_ERR)".
(** lib.rs:234 *)
Definition t_from_bytes := Eval vm_compute in read_template "#token.into_bytes().expect(INTERNAL_ERR)".
(** lib.rs:231-283 *)
Definition t_from_hash := Eval vm_compute in read_template "
			{
				let mut result = [0u8; 32];
				let v = #token.into_fixed_bytes().expect(INTERNAL_ERR);
				result.copy_from_slice(&v);
				ethabi::Hash::from(result)
			}
".
(** lib.rs:231-283 *)
Definition t_from_byte_array := Eval vm_compute in read_template "
				{
					let mut result = [0u8; #size];
					let v = #token.into_fixed_bytes().expect(INTERNAL_ERR);
					result.copy_from_slice(&v);
					result
				}
".
(** lib.rs:254 *)
Definition t_from_int := Eval vm_compute in read_template "#token.into_int().expect(INTERNAL_ERR)".
(** lib.rs:255 *)
Definition t_from_uint := Eval vm_compute in read_template "#token.into_uint().expect(INTERNAL_ERR)".
(** lib.rs:256 *)
Definition t_from_bool := Eval vm_compute in read_template "#token.into_bool().expect(INTERNAL_ERR)".
(** lib.rs:257 *)
Definition t_from_string := Eval vm_compute in read_template "#token.into_string().expect(INTERNAL_ERR)".
(** lib.rs:231-283 *)
Definition t_from_array := Eval vm_compute in read_template "
				#token.into_array().expect(INTERNAL_ERR).into_iter()
					.map(|#inner| #inner_loop)
					.collect()
".
(** lib.rs:270 *)
Definition t_next := Eval vm_compute in read_template "iter.next()".
(** lib.rs:231-283 *)
Definition t_from_fixed_array := Eval vm_compute in read_template "
				{
					let iter = #token.to_array().expect(INTERNAL_ERR).into_iter()
						.map(|#inner| #inner_loop);
					[#(#to_array),*]
				}
".
(** lib.rs:231-283 *)
Fixpoint from_token_text (kind : ParamType) (token : toks) : res toks :=
  match kind with
  | PAddress => Ok (quote t_from_address [("token", One token)])
  | PBytes => Ok (quote t_from_bytes [("token", One token)])
  | PFixedBytes size =>
    Ok (if N.eqb size 32 then quote t_from_hash [("token", One token)] else quote t_from_byte_array [("size", q_index size); ("token", One token)])
  | PInt _ => Ok (quote t_from_int [("token", One token)])
  | PUint _ => Ok (quote t_from_uint [("token", One token)])
  | PBool => Ok (quote t_from_bool [("token", One token)])
  | PString => Ok (quote t_from_string [("token", One token)])
  | PArray kind =>
    let inner := quote t_inner [] in
    do inner_loop <- from_token_text kind inner;
    Ok (quote t_from_array [("token", One token); ("inner", One inner); ("inner_loop", One inner_loop)])
  | PFixedArray kind size =>
    let inner := quote t_inner [] in
    do inner_loop <- from_token_text kind inner;
    let to_array := repeat (quote t_next []) (N.to_nat size) in
    Ok (quote t_from_fixed_array [("token", One token); ("inner", One inner); ("inner_loop", One inner_loop); ("to_array", Many to_array)])
  | PTuple _ => Panic
  end.
(** lib.rs:299-301 *)
Definition template_names {A} (kinds : list A) : list str := mapi (fun index _ => numbered (lit "T") index) kinds.
(** lib.rs:303-315 *)
Definition t_unit := Eval vm_compute in read_template "()".
(** lib.rs:308 *)
Definition t_one := Eval vm_compute in read_template "#t".
(** lib.rs:312 *)
Definition t_outs := Eval vm_compute in read_template "(#(#outs),*)".
(** lib.rs:303-315 *)
Definition output_kinds (outputs : list Param) : res toks :=
  match outputs with
  | [] => Ok (quote t_unit [])
  | [x] => do t <- type_text (p_kind x); Ok (quote t_one [("t", One t)])
  | _ => do outs <- mapM (fun param => type_text (p_kind param)) outputs; Ok (quote t_outs [("outs", Many outs)])
  end.

(** ** /repo/derive/src/function.rs *)
(** function.rs:87-90, constructor.rs:40-43 and event.rs:82-86 *)
Definition t_definition := Eval vm_compute in read_template "#param_name: #template_name".
(** function.rs:87-90, constructor.rs:40-43 and event.rs:82-86 *)
Definition definitions (names : list str) (template_names : list str) : list toks :=
  map (fun x => quote t_definition [("param_name", q_ident (fst x)); ("template_name", q_ident (snd x))]) (combine names template_names).
(** function.rs:98-102 and constructor.rs:48-52 *)
Definition tokenize_text (names : list str) (inputs : list Param) : res (list toks) :=
  mapM (fun x => to_token_text (template_text (p_kind (snd x)) (fst x)) (p_kind (snd x))) (combine names inputs).
(** function.rs:106-128 *)
Definition t_output_none := Eval vm_compute in read_template "
				let _output = output;
				Ok(())
".
(** function.rs:112 *)
Definition t_out := Eval vm_compute in read_template "out".
(** function.rs:106-128 *)
Definition t_output_one := Eval vm_compute in read_template "
					let out = self.0.decode_output(output)?.into_iter().next().expect(INTERNAL_ERR);
					Ok(#from_first)
".
(** function.rs:120 *)
Definition t_out_next := Eval vm_compute in read_template "out.next().expect(INTERNAL_ERR)".
(** function.rs:106-128 *)
Definition t_output_many := Eval vm_compute in read_template "
					let mut out = self.0.decode_output(output)?.into_iter();
					Ok(( #(#outs),* ))
".
(** function.rs:106-128 *)
Definition output_implementation (outputs : list Param) : res toks :=
  match outputs with
  | [] => Ok (quote t_output_none [])
  | [x] =>
    let o := quote t_out [] in
    do from_first <- from_token_text (p_kind x) o;
    Ok (quote t_output_one [("from_first", One from_first)])
  | _ =>
    let o := quote t_out_next [] in
    do outs <- mapM (fun param => from_token_text (p_kind param) o) outputs;
    Ok (quote t_output_many [("outs", Many outs)])
  end.
(** function.rs:160-165 *)
Definition t_pure := Eval vm_compute in read_template "::ethabi::StateMutability::Pure".
(** function.rs:162 *)
Definition t_payable := Eval vm_compute in read_template "::ethabi::StateMutability::Payable".
(** function.rs:163 *)
Definition t_non_payable := Eval vm_compute in read_template "::ethabi::StateMutability::NonPayable".
(** function.rs:164 *)
Definition t_view := Eval vm_compute in read_template "::ethabi::StateMutability::View".
(** function.rs:160-165 *)
Definition mutability_text (m : StateMutability) : toks :=
  match m with
  | Pure => quote t_pure []
  | Payable => quote t_payable []
  | NonPayable => quote t_non_payable []
  | View => quote t_view []
  end.
(** function.rs:169-214 *)
Definition t_function := Eval vm_compute in read_template "
			pub mod #module_name {
				use ethabi;
				use super::INTERNAL_ERR;

				fn function() -> ethabi::Function {
					ethabi::Function {
						name: #name.into(),
						inputs: #recreate_inputs,
						outputs: #recreate_outputs,
						constant: #constant,
						state_mutability: #state_mutability
					}
				}

				/// Generic function output decoder.
				pub struct Decoder(ethabi::Function);

				impl ethabi::FunctionOutputDecoder for Decoder {
					type Output = #outputs_result;

					fn decode(&self, output: &[u8]) -> ethabi::Result<Self::Output> {
						#outputs_implementation
					}
				}

				/// Encodes function input.
				pub fn encode_input<#(#declarations),*>(#(#definitions),*) -> ethabi::Bytes {
					let f = function();
					let tokens = vec![#(#tokenize),*];
					f.encode_input(&tokens).expect(INTERNAL_ERR)
				}

				/// Decodes function output.
				pub fn decode_output(output: &[u8]) -> ethabi::Result<#outputs_result> {
					ethabi::FunctionOutputDecoder::decode(&Decoder(function()), output)
				}

				/// Encodes function output and creates a `Decoder` instance.
				pub fn call<#(#declarations),*>(#(#definitions),*) -> (ethabi::Bytes, Decoder) {
					let f = function();
					let tokens = vec![#(#tokenize),*];
					(f.encode_input(&tokens).expect(INTERNAL_ERR), Decoder(f))
				}
			}
".
(** function.rs:72-146 and 148-216 *)
Definition function_text (f : Function) : res toks :=
  do names <- input_names (f_inputs f);
  do declarations <- mapM (fun r => r) (mapi (fun index param => bound_text (p_kind param) index) (f_inputs f));
  do kinds <- mapM (fun param => type_text (p_kind param)) (f_inputs f);
  do tokenize <- tokenize_text names (f_inputs f);
  do outputs_result <- output_kinds (f_outputs f);
  do outputs_implementation <- output_implementation (f_outputs f);
  do recreate_inputs <- param_vec (f_inputs f);
  do recreate_outputs <- param_vec (f_outputs f);
  do module_name <- ident (to_snake_case (f_name f));
  Ok (quote t_function [
    ("module_name", q_ident module_name); ("name", q_str (f_name f)); ("recreate_inputs", One recreate_inputs);
    ("recreate_outputs", One recreate_outputs); ("constant", q_bool (f_constant f)); ("state_mutability", One (mutability_text (f_state_mutability f)));
    ("outputs_result", One outputs_result); ("outputs_implementation", One outputs_implementation);
    ("declarations", Many declarations); ("definitions", Many (definitions names (template_names kinds))); ("tokenize", Many tokenize)]).

(** ** /repo/derive/src/constructor.rs *)
(** constructor.rs:45 *)
Definition t_code := Eval vm_compute in read_template "code: ethabi::Bytes".
(** constructor.rs:71-79 *)
Definition t_constructor := Eval vm_compute in read_template "
			/// Encodes a call to contract's constructor.
			pub fn constructor<#(#declarations),*>(#(#definitions),*) -> ethabi::Bytes {
				let c = ethabi::Constructor {
					inputs: #recreate_inputs,
				};
				let tokens = vec![#(#tokenize),*];
				c.encode_input(code, &tokens).expect(INTERNAL_ERR)
			}
".
(** constructor.rs:24-82 *)
Definition constructor_text (c : Constructor) : res toks :=
  do names <- input_names (k_inputs c);
  do declarations <- mapM (fun r => r) (mapi (fun index param => bound_text (p_kind param) index) (k_inputs c));
  do kinds <- mapM (fun param => type_text (p_kind param)) (k_inputs c);
  do tokenize <- tokenize_text names (k_inputs c);
  do recreate_inputs <- param_vec (k_inputs c);
  Ok (quote t_constructor [
    ("declarations", Many declarations); ("definitions", Many (quote t_code [] :: definitions names (template_names kinds)));
    ("recreate_inputs", One recreate_inputs); ("tokenize", Many tokenize)]).

(** ** /repo/derive/src/event.rs *)
(** event.rs:46-55 *)
Definition t_log_field := Eval vm_compute in read_template "pub #param_name: #kind".
(** event.rs:50 *)
Definition t_log_next := Eval vm_compute in read_template "log.next().expect(INTERNAL_ERR).value".
(** event.rs:55 *)
Definition t_log_init := Eval vm_compute in read_template "#param_name: #convert".
(** event.rs:76-80, 89 and 91-102 *)
Definition t_filter_declaration := Eval vm_compute in read_template "#template_name: Into<ethabi::Topic<#kind>>".
(** event.rs:89 *)
Definition t_any := Eval vm_compute in read_template "ethabi::Topic::Any".
(** event.rs:98 *)
Definition t_i := Eval vm_compute in read_template "i".
(** event.rs:100 *)
Definition t_filter_init := Eval vm_compute in read_template "#topic: #param_name.into().map(|#i| #to_token),".
(** event.rs:112-118 and 121 *)
Definition t_event_param := Eval vm_compute in read_template "
					ethabi::EventParam {
						name: #name.to_owned(),
						kind: #kind,
						indexed: #indexed
					}
".
(** event.rs:121 *)
Definition t_event_vec := Eval vm_compute in read_template "vec![ #(#event_inputs),* ]".
(** event.rs:143-148 *)
Definition t_log := Eval vm_compute in read_template "
			#[derive(Debug, Clone, PartialEq)]
			pub struct #name {
				#(#log_fields),*
			}
".
(** event.rs:164-200 *)
Definition t_event := Eval vm_compute in read_template "
			pub mod #name {
				use ethabi;
				use super::INTERNAL_ERR;

				pub fn event() -> ethabi::Event {
					ethabi::Event {
						name: #name_as_string.into(),
						inputs: #recreate_inputs_quote,
						anonymous: #anonymous,
					}
				}

				pub fn filter<#(#filter_declarations),*>(#(#filter_definitions),*) -> ethabi::TopicFilter {
					let raw = ethabi::RawTopicFilter {
						#(#filter_init)*
						..Default::default()
					};

					let e = event();
					e.filter(raw).expect(INTERNAL_ERR)
				}

				pub fn wildcard_filter() -> ethabi::TopicFilter {
					filter(#(#wildcard_filter_params),*)
				}

				pub fn parse_log(log: ethabi::RawLog) -> ethabi::Result<super::super::logs::#camel_name> {
					let e = event();
					let mut log = e.parse_log(log)?.params.into_iter();
					let result = super::super::logs::#camel_name {
						#(#log_init),*
					};
					Ok(result)
				}
			}
".
(** event.rs:28-57 and 137-149 *)
Definition log_text (e : Event) : res toks :=
  do names <- field_names (e_inputs e);
  do kinds <- mapM (fun param => type_text (ep_kind param)) (e_inputs e);
  do name <- ident (to_camel_case (e_name e));
  let log_fields := map (fun x => quote t_log_field [("param_name", q_ident (fst x)); ("kind", One (snd x))]) (combine names kinds) in
  Ok (quote t_log [("name", q_ident name); ("log_fields", Many log_fields)]).
(** event.rs:28-135 and 151-202 *)
Definition event_text (e : Event) : res toks :=
  let topics := filter ep_indexed (e_inputs e) in
  do names <- field_names (e_inputs e);
  do to_log <- mapM (fun param => from_token_text (ep_kind param) (quote t_log_next [])) (e_inputs e);
  let log_init := map (fun x => quote t_log_init [("param_name", q_ident (fst x)); ("convert", One (snd x))]) (combine names to_log) in
  do topic_kinds <- mapM (fun param => type_text (ep_kind param)) topics;
  let topic_names := topic_names (e_inputs e) names in
  let template_names := template_names topic_kinds in
  let filter_declarations :=
    map (fun x => quote t_filter_declaration [("template_name", q_ident (snd x)); ("kind", One (fst x))]) (combine topic_kinds template_names) in
  let filter_definitions := definitions topic_names template_names in
  let wildcard_filter_params := map (fun _ => quote t_any []) filter_definitions in
  do filter_init <- mapM (fun r => r) (mapi (fun index x =>
       do to_token <- to_token_text (quote t_i []) (ep_kind (snd x));
       Ok (quote t_filter_init [("topic", q_ident (numbered (lit "topic") index)); ("param_name", q_ident (fst x)); ("i", One (quote t_i []));
             ("to_token", One to_token)]))
     (firstn 3 (combine topic_names topics)));
  do event_inputs <- mapM (fun x => do kind <- to_syntax_string (ep_kind x);
       Ok (quote t_event_param [("name", q_str (ep_name x)); ("kind", One kind); ("indexed", q_bool (ep_indexed x))])) (e_inputs e);
  do name <- ident (to_snake_case (e_name e));
  do camel_name <- ident (to_camel_case (e_name e));
  Ok (quote t_event [
    ("name", q_ident name); ("name_as_string", q_str (to_camel_case (e_name e))); ("camel_name", q_ident camel_name);
    ("recreate_inputs_quote", One (quote t_event_vec [("event_inputs", Many event_inputs)])); ("anonymous", q_bool (e_anonymous e));
    ("log_init", Many log_init); ("filter_init", Many filter_init); ("filter_declarations", Many filter_declarations);
    ("filter_definitions", Many filter_definitions); ("wildcard_filter_params", Many wildcard_filter_params)]).

(** ** /repo/derive/src/contract.rs:14-64, on the entries of the maps in
    iteration order *)
Definition t_contract := Eval vm_compute in read_template "
			use ethabi;
			const INTERNAL_ERR: &'static str = ""`ethabi_derive` internal error"";

			#constructor

			/// Contract's functions.
			pub mod functions {
				use super::INTERNAL_ERR;
				#(#functions)*
			}

			/// Contract's events.
			pub mod events {
				use super::INTERNAL_ERR;
				#(#events)*
			}

			/// Contract's logs.
			pub mod logs {
				use super::INTERNAL_ERR;
				use ethabi;
				#(#logs)*
			}
".
(** contract.rs:14-64 *)
Definition contract_text (c : Contract) (functions : groups Function) (events : groups Event) : res toks :=
  do constructor <- match c_constructor c with None => Ok [] | Some k => constructor_text k end;
  do fs <- mapM function_text (iterate functions);
  do es <- mapM event_text (iterate events);
  do logs <- mapM log_text (iterate events);
  Ok (quote t_contract [("constructor", One constructor); ("functions", Many fs); ("events", Many es); ("logs", Many logs)]).

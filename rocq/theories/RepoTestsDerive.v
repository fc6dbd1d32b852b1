(** * The unit tests of /repo/derive/src

    The expected texts are those of the tests, the actual ones come from the
    generators of DeriveText.v. *)
From Verif Require Import Base Types Function Event Contract Derive RustSyntax Quote DeriveText.
From Coq Require Import String.
Local Open Scope N_scope.
Local Open Scope list_scope.
Local Open Scope string_scope.
(** function.rs:224 *)
Example function_test_no_params : function_text (mkFunction (lit "empty") [] [] false Payable) = Ok (quote (read_template "
			pub mod empty {
				use ethabi;
				use super::INTERNAL_ERR;

				fn function() -> ethabi::Function {
					ethabi::Function {
						name: ""empty"".into(),
						inputs: vec![],
						outputs: vec![],
						constant: false,
						state_mutability: ::ethabi::StateMutability::Payable
					}
				}

				/// Generic function output decoder.
				pub struct Decoder(ethabi::Function);

				impl ethabi::FunctionOutputDecoder for Decoder {
					type Output = ();

					fn decode(&self, output: &[u8]) -> ethabi::Result<Self::Output> {
						let _output = output;
						Ok(())
					}
				}

				/// Encodes function input.
				pub fn encode_input<>() -> ethabi::Bytes {
					let f = function();
					let tokens = vec![];
					f.encode_input(&tokens).expect(INTERNAL_ERR)
				}

				/// Decodes function output.
				pub fn decode_output(output: &[u8]) -> ethabi::Result<()> {
					ethabi::FunctionOutputDecoder::decode(&Decoder(function()), output)
				}

				/// Encodes function output and creates a `Decoder` instance.
				pub fn call<>() -> (ethabi::Bytes, Decoder) {
					let f = function();
					let tokens = vec![];
					(f.encode_input(&tokens).expect(INTERNAL_ERR), Decoder(f))
				}
			}
") []).
Proof. vm_compute. reflexivity. Qed.
(** function.rs:288 *)
Example function_test_one_param : function_text (mkFunction (lit "hello") [mkParam (lit "foo") PAddress None] [mkParam (lit "bar") (PUint 256) None] false Payable) = Ok (quote (read_template "
			pub mod hello {
				use ethabi;
				use super::INTERNAL_ERR;

				fn function() -> ethabi::Function {
					ethabi::Function {
						name: ""hello"".into(),
						inputs: vec![ethabi::Param {
							name: ""foo"".to_owned(),
							kind: ethabi::ParamType::Address,
							internal_type: None
						}],
						outputs: vec![ethabi::Param {
							name: ""bar"".to_owned(),
							kind: ethabi::ParamType::Uint(256usize),
							internal_type: None
						}],
						constant: false,
						state_mutability: ::ethabi::StateMutability::Payable
					}
				}

				/// Generic function output decoder.
				pub struct Decoder(ethabi::Function);

				impl ethabi::FunctionOutputDecoder for Decoder {
					type Output = ethabi::Uint;

					fn decode(&self, output: &[u8]) -> ethabi::Result<Self::Output> {
						let out = self.0.decode_output(output)?.into_iter().next().expect(INTERNAL_ERR);
						Ok(out.into_uint().expect(INTERNAL_ERR))
					}
				}

				/// Encodes function input.
				pub fn encode_input<T0: Into<ethabi::Address> >(foo: T0) -> ethabi::Bytes {
					let f = function();
					let tokens = vec![ethabi::Token::Address(foo.into())];
					f.encode_input(&tokens).expect(INTERNAL_ERR)
				}

				/// Decodes function output.
				pub fn decode_output(output: &[u8]) -> ethabi::Result<ethabi::Uint> {
					ethabi::FunctionOutputDecoder::decode(&Decoder(function()), output)
				}

				/// Encodes function output and creates a `Decoder` instance.
				pub fn call<T0: Into<ethabi::Address> >(foo: T0) -> (ethabi::Bytes, Decoder) {
					let f = function();
					let tokens = vec![ethabi::Token::Address(foo.into())];
					(f.encode_input(&tokens).expect(INTERNAL_ERR), Decoder(f))
				}
			}
") []).
Proof. vm_compute. reflexivity. Qed.
(** function.rs:364 *)
Example function_test_multiple_params : function_text (mkFunction (lit "multi") [mkParam (lit "foo") (PFixedArray PAddress 2) None; mkParam (lit "bar") (PArray (PUint 256)) None]
    [mkParam [] (PUint 256) None; mkParam [] PString None] false Payable) = Ok (quote (read_template "
			pub mod multi {
				use ethabi;
				use super::INTERNAL_ERR;

				fn function() -> ethabi::Function {
					ethabi::Function {
						name: ""multi"".into(),
						inputs: vec![ethabi::Param {
							name: ""foo"".to_owned(),
							kind: ethabi::ParamType::FixedArray(Box::new(ethabi::ParamType::Address), 2usize),
							internal_type: None
						}, ethabi::Param {
							name: ""bar"".to_owned(),
							kind: ethabi::ParamType::Array(Box::new(ethabi::ParamType::Uint(256usize))),
							internal_type: None
						}],
						outputs: vec![ethabi::Param {
							name: """".to_owned(),
							kind: ethabi::ParamType::Uint(256usize),
							internal_type: None
						}, ethabi::Param {
							name: """".to_owned(),
							kind: ethabi::ParamType::String,
							internal_type: None
						}],
						constant: false,
						state_mutability: ::ethabi::StateMutability::Payable
					}
				}

				/// Generic function output decoder.
				pub struct Decoder(ethabi::Function);

				impl ethabi::FunctionOutputDecoder for Decoder {
					type Output = (ethabi::Uint, String);

					fn decode(&self, output: &[u8]) -> ethabi::Result<Self::Output> {
						let mut out = self.0.decode_output(output)?.into_iter();
						Ok((out.next().expect(INTERNAL_ERR).into_uint().expect(INTERNAL_ERR), out.next().expect(INTERNAL_ERR).into_string().expect(INTERNAL_ERR)))
					}
				}

				/// Encodes function input.
				pub fn encode_input<T0: Into<[U0; 2usize]>, U0: Into<ethabi::Address>, T1: IntoIterator<Item = U1>, U1: Into<ethabi::Uint> >(foo: T0, bar: T1) -> ethabi::Bytes {
					let f = function();
					let tokens = vec![{
						let v = (Box::new(foo.into()) as Box<[_]>).into_vec().into_iter().map(Into::into).collect::<Vec<_>>().into_iter().map(|inner| ethabi::Token::Address(inner)).collect();
						ethabi::Token::FixedArray(v)
					}, {
						let v = bar.into_iter().map(Into::into).collect::<Vec<_>>().into_iter().map(|inner| ethabi::Token::Uint(inner)).collect();
						ethabi::Token::Array(v)
					}];
					f.encode_input(&tokens).expect(INTERNAL_ERR)
				}

				/// Decodes function output.
				pub fn decode_output(output: &[u8]) -> ethabi::Result<(ethabi::Uint, String)> {
					ethabi::FunctionOutputDecoder::decode(&Decoder(function()), output)
				}

				/// Encodes function output and creates a `Decoder` instance.
				pub fn call<T0: Into<[U0; 2usize]>, U0: Into<ethabi::Address>, T1: IntoIterator<Item = U1>, U1: Into<ethabi::Uint> >(foo: T0, bar: T1) -> (ethabi::Bytes, Decoder) {
					let f = function();
					let tokens = vec![{
						let v = (Box::new(foo.into()) as Box<[_]>).into_vec().into_iter().map(Into::into).collect::<Vec<_>>().into_iter().map(|inner| ethabi::Token::Address(inner)).collect();
						ethabi::Token::FixedArray(v)
					}, {
						let v = bar.into_iter().map(Into::into).collect::<Vec<_>>().into_iter().map(|inner| ethabi::Token::Uint(inner)).collect();
						ethabi::Token::Array(v)
					}];
					(f.encode_input(&tokens).expect(INTERNAL_ERR), Decoder(f))
				}
			}
") []).
Proof. vm_compute. reflexivity. Qed.
(** constructor.rs:90 *)
Example constructor_test_no_params : constructor_text (mkConstructor []) = Ok (quote (read_template "
			/// Encodes a call to contract's constructor.
			pub fn constructor<>(code: ethabi::Bytes) -> ethabi::Bytes {
				let c = ethabi::Constructor {
					inputs: vec![],
				};
				let tokens = vec![];
				c.encode_input(code, &tokens).expect(INTERNAL_ERR)
			}
") []).
Proof. vm_compute. reflexivity. Qed.
(** constructor.rs:110 *)
Example constructor_test_one_param : constructor_text (mkConstructor [mkParam (lit "foo") (PUint 256) None]) = Ok (quote (read_template "
			/// Encodes a call to contract's constructor.
			pub fn constructor<T0: Into<ethabi::Uint> >(code: ethabi::Bytes, foo: T0) -> ethabi::Bytes {
				let c = ethabi::Constructor {
					inputs: vec![ethabi::Param {
						name: ""foo"".to_owned(),
						kind: ethabi::ParamType::Uint(256usize),
						internal_type: None
					}],
				};
				let tokens = vec![ethabi::Token::Uint(foo.into())];
				c.encode_input(code, &tokens).expect(INTERNAL_ERR)
			}
") []).
Proof. vm_compute. reflexivity. Qed.
(** event.rs:210 *)
Example event_test_empty_log : log_text (mkEvent (lit "hello") [] false) = Ok (quote (read_template "
			#[derive(Debug, Clone, PartialEq)]
			pub struct Hello {}
") []).
Proof. vm_compute. reflexivity. Qed.
(** event.rs:224 *)
Example event_test_empty_event : event_text (mkEvent (lit "hello") [] false) = Ok (quote (read_template "
			pub mod hello {
				use ethabi;
				use super::INTERNAL_ERR;

				pub fn event() -> ethabi::Event {
					ethabi::Event {
						name: ""Hello"".into(),
						inputs: vec![],
						anonymous: false,
					}
				}

				pub fn filter<>() -> ethabi::TopicFilter {
					let raw = ethabi::RawTopicFilter {
						..Default::default()
					};

					let e = event();
					e.filter(raw).expect(INTERNAL_ERR)
				}

				pub fn wildcard_filter() -> ethabi::TopicFilter {
					filter()
				}

				pub fn parse_log(log: ethabi::RawLog) -> ethabi::Result<super::super::logs::Hello> {
					let e = event();
					let mut log = e.parse_log(log)?.params.into_iter();
					let result = super::super::logs::Hello {};
					Ok(result)
				}
			}
") []).
Proof. vm_compute. reflexivity. Qed.
(** event.rs:268 *)
Example event_test_event_with_one_input : event_text (mkEvent (lit "one") [mkEventParam (lit "foo") PAddress true] false) = Ok (quote (read_template "
			pub mod one {
				use ethabi;
				use super::INTERNAL_ERR;

				pub fn event() -> ethabi::Event {
					ethabi::Event {
						name: ""One"".into(),
						inputs: vec![ethabi::EventParam {
							name: ""foo"".to_owned(),
							kind: ethabi::ParamType::Address,
							indexed: true
						}],
						anonymous: false,
					}
				}

				pub fn filter<T0: Into<ethabi::Topic<ethabi::Address>>>(foo: T0) -> ethabi::TopicFilter {
					let raw = ethabi::RawTopicFilter {
						topic0: foo.into().map(|i| ethabi::Token::Address(i)),
						..Default::default()
					};

					let e = event();
					e.filter(raw).expect(INTERNAL_ERR)
				}

				pub fn wildcard_filter() -> ethabi::TopicFilter {
					filter(ethabi::Topic::Any)
				}

				pub fn parse_log(log: ethabi::RawLog) -> ethabi::Result<super::super::logs::One> {
					let e = event();
					let mut log = e.parse_log(log)?.params.into_iter();
					let result = super::super::logs::One {
						foo: log.next().expect(INTERNAL_ERR).value.into_address().expect(INTERNAL_ERR)
					};
					Ok(result)
				}
			}
") []).
Proof. vm_compute. reflexivity. Qed.
(** event.rs:323 *)
Example event_test_log_with_one_field : log_text (mkEvent (lit "one") [mkEventParam (lit "foo") PAddress false] false) = Ok (quote (read_template "
			#[derive(Debug, Clone, PartialEq)]
			pub struct One {
				pub foo: ethabi::Address
			}
") []).
Proof. vm_compute. reflexivity. Qed.
(** event.rs:343 *)
Example event_test_log_with_multiple_field : log_text (mkEvent (lit "many") [mkEventParam (lit "foo") PAddress false; mkEventParam (lit "bar") (PArray PString) false; mkEventParam (lit "xyz") (PUint 256) false] false) = Ok (quote (read_template "
			#[derive(Debug, Clone, PartialEq)]
			pub struct Many {
				pub foo: ethabi::Address,
				pub bar: Vec<String>,
				pub xyz: ethabi::Uint
			}
") []).
Proof. vm_compute. reflexivity. Qed.
(** contract.rs:73 *)
Example contract_test_no_body : contract_text (default_contract) [] [] = Ok (quote (read_template "
			use ethabi;
			const INTERNAL_ERR: &'static str = ""`ethabi_derive` internal error"";

			/// Contract's functions.
			pub mod functions {
				use super::INTERNAL_ERR;
			}

			/// Contract's events.
			pub mod events {
				use super::INTERNAL_ERR;
			}

			/// Contract's logs.
			pub mod logs {
				use super::INTERNAL_ERR;
				use ethabi;
			}
") []).
Proof. vm_compute. reflexivity. Qed.

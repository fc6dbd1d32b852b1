{"id": "C01", "title": "encode/decode round trip", "statement": "For every list of parameter types and every list of tokens that are values of those types (fixed bytes of exactly the declared size 1..32, fixed arrays of exactly the declared length, tuples field for field, no zero-length fixed array of a dynamic type), decode(types, encode(tokens)) returns exactly those tokens, as long as the encoding is shorter than 4 GiB and not empty.", "quantifier": "all parameter type lists of any nesting, all token values of those types, both overflow-checked and wrapping builds", "why_tests_cant": "types nest without bound and offsets are computed from all sibling sizes; tests sample a few shapes", "anchors": ["ethabi/src/encoder.rs: encode, encode_token, encode_head_tail", "ethabi/src/decoder.rs: decode, decode_param"]}
{"id": "C02", "title": "encoding conforms to the Solidity ABI specification", "statement": "encode(tokens) is byte for byte the head/tail encoding the Solidity contract ABI specification prescribes for those values (below 4 GiB).", "quantifier": "all well-typed token lists", "why_tests_cant": "the specification is recursive over unbounded types; golden vectors cover single shapes", "anchors": ["ethabi/src/encoder.rs: encode, Mediate", "ethabi/src/util.rs: pad_u32"]}
{"id": "C03", "title": "encoding is whole 32-byte words", "statement": "Whatever tokens are given, encode returns a byte string whose length is a multiple of 32; for well-typed values it is the length determined by the types and dynamic sizes.", "quantifier": "all tokens, well-typed or not, wrapping build", "why_tests_cant": "quantifies over all nesting and lengths", "anchors": ["ethabi/src/encoder.rs: encode, pad_fixed_bytes, pad_bytes"]}
{"id": "C04", "title": "encoding is injective", "statement": "Two different token lists of the same types never have the same encoding.", "quantifier": "all pairs of well-typed token lists of equal types", "why_tests_cant": "a claim about all pairs", "anchors": ["ethabi/src/encoder.rs: encode"]}
{"id": "C05", "title": "decode never panics", "statement": "decode(types, data) returns Ok or Err, never panics, for any attacker-supplied data.", "quantifier": "all byte strings, all type lists, both build profiles", "why_tests_cant": "malformed offsets and lengths are an infinite space", "anchors": ["ethabi/src/decoder.rs: decode, decode_param, peek, take_bytes, as_usize"]}
{"id": "C06", "title": "decoded tokens match the requested types", "statement": "When decode succeeds it returns exactly one token per requested type, each of them a value of that type, and Token::types_check accepts the result.", "quantifier": "all type lists and data", "why_tests_cant": "all inputs incl. malformed", "anchors": ["ethabi/src/decoder.rs: decode", "ethabi/src/token/token.rs: Token::types_check"]}
{"id": "C07", "title": "trailing bytes are ignored", "statement": "If decode succeeds on data then appending any bytes to data leaves the result unchanged.", "quantifier": "all type lists, data and suffixes", "why_tests_cant": "all suffixes", "anchors": ["ethabi/src/decoder.rs: decode, peek"]}
{"id": "C08", "title": "decode reads the ABI layout", "statement": "decode succeeds with given tokens exactly when data holds, at the positions prescribed by the ABI head/tail layout (following offset words relative to the enclosing block), the words and byte ranges of those tokens; it accepts non-canonical but valid layouts.", "quantifier": "all types, data and tokens", "why_tests_cant": "both directions over all inputs", "anchors": ["ethabi/src/decoder.rs: decode_param"]}
{"id": "C09", "title": "decoded array size is bounded by the data", "statement": "A decoded dynamic array never has more elements than the data can hold (elements occupy at least one head word each), so a forged length cannot exhaust memory.", "quantifier": "all element types, all data", "why_tests_cant": "forged lengths are unbounded", "anchors": ["ethabi/src/decoder.rs: decode_param (Array)", "CHANGELOG.md: 14.1.0 Fixed"]}
{"id": "C10", "title": "bool words are decoded strictly", "statement": "A bool word is decoded as true iff its value is 1, as false iff its value is 0, and rejected otherwise.", "quantifier": "all 32-byte words", "why_tests_cant": "2^256 words", "anchors": ["ethabi/src/decoder.rs: as_bool"]}
{"id": "C11", "title": "static words are read whole", "statement": "Decoding uintN/intN returns the full 256-bit big-endian value of the word, address its low 20 bytes, bytesN its first N bytes, and each advances by one word.", "quantifier": "all data and positions", "why_tests_cant": "all words", "anchors": ["ethabi/src/decoder.rs: decode_param"]}
{"id": "C12", "title": "offset and length words are range-checked", "statement": "An offset or length word of 2^32 or more is always rejected, never truncated.", "quantifier": "all data words", "why_tests_cant": "2^256 words", "anchors": ["ethabi/src/decoder.rs: as_usize"]}
{"id": "C13", "title": "lossy string decoding", "statement": "A decoded string is always valid Unicode; bytes that are valid UTF-8 are decoded exactly; invalid bytes yield U+FFFD and never an error or a panic.", "quantifier": "all byte strings", "why_tests_cant": "all malformed UTF-8", "anchors": ["ethabi/src/decoder.rs: decode_param (String)"]}
{"id": "C14", "title": "type_check is a total exact gate", "statement": "Token::type_check returns true exactly for values of the type and never panics.", "quantifier": "all tokens and types", "why_tests_cant": "all shapes", "anchors": ["ethabi/src/token/token.rs: type_check, types_check"]}
{"id": "C15", "title": "encode_input rejects ill-typed input and prefixes the selector", "statement": "Function::encode_input fails with InvalidData when the tokens do not match the inputs, and otherwise returns the 4-byte selector followed by encode(tokens).", "quantifier": "all functions and tokens", "why_tests_cant": "all functions/tokens", "anchors": ["ethabi/src/function.rs: Function::encode_input"]}
{"id": "C16", "title": "decode_input inverts encode_input", "statement": "decode_input applied to the call data produced by encode_input (without its selector) returns the tokens; decode_output does the same for outputs.", "quantifier": "all functions and well-typed tokens", "why_tests_cant": "unbounded types", "anchors": ["ethabi/src/function.rs: encode_input, decode_input, decode_output"]}
{"id": "C17", "title": "constructor input is code followed by arguments", "statement": "Constructor::encode_input returns the code unchanged followed by encode(tokens), or InvalidData when the tokens do not match.", "quantifier": "all constructors, code and tokens", "why_tests_cant": "all inputs", "anchors": ["ethabi/src/constructor.rs: Constructor::encode_input"]}
{"id": "C18", "title": "Function::signature is unique", "statement": "Two functions (with names free of '(') have the same signature() string only if they have the same name, input types and output types.", "quantifier": "all pairs of functions", "why_tests_cant": "claim about all pairs", "anchors": ["ethabi/src/function.rs: Function::signature", "ethabi/src/param_type/writer.rs: Writer::write"]}
{"id": "C19", "title": "selectors and topics hash the canonical signature", "statement": "short_signature is the first 4 and Event::signature all 32 bytes of Keccak-256 of name(type,...), and depend only on the name and canonical input types.", "quantifier": "all names and types", "why_tests_cant": "all names", "anchors": ["ethabi/src/signature.rs", "ethabi/src/event.rs: Event::signature"]}
{"id": "C20", "title": "type names round trip", "statement": "Reader::read(Writer::write(t)) returns t for every parameter type t.", "quantifier": "all parameter types", "why_tests_cant": "unbounded nesting", "anchors": ["ethabi/src/param_type/reader.rs: Reader::read", "ethabi/src/param_type/writer.rs: Writer::write"]}
{"id": "C21", "title": "type name parser never panics", "statement": "Reader::read returns Ok or Err for every string.", "quantifier": "all strings", "why_tests_cant": "all strings", "anchors": ["ethabi/src/param_type/reader.rs: Reader::read"]}
{"id": "C22", "title": "type names are injective", "statement": "Different parameter types have different written names.", "quantifier": "all pairs of types", "why_tests_cant": "all pairs", "anchors": ["ethabi/src/param_type/writer.rs"]}
{"id": "C23", "title": "ABI JSON of a parameter round trips", "statement": "Serializing any Param, EventParam or TupleParam and deserializing the JSON yields the same value, whatever tuples and arrays its type nests.", "quantifier": "all parameters", "why_tests_cant": "unbounded types", "anchors": ["ethabi/src/param.rs", "ethabi/src/event_param.rs", "ethabi/src/tuple_param.rs"]}
{"id": "C24", "title": "ABI JSON of a contract round trips", "statement": "Serializing a loaded Contract and loading it again yields an equal Contract, for any HashMap iteration order.", "quantifier": "all contracts, all iteration orders", "why_tests_cant": "iteration order is nondeterministic", "anchors": ["ethabi/src/contract.rs: Serialize, ContractVisitor"]}
{"id": "C25", "title": "Contract groups entries by name in file order", "statement": "After loading, functions_by_name(n) / events_by_name(n) list exactly the entries named n in file order, function(n)/event(n) is the first, absent names are errors, and functions()/events() enumerate every entry exactly once.", "quantifier": "all ABI files", "why_tests_cant": "all files", "anchors": ["ethabi/src/contract.rs"]}
{"id": "C26", "title": "parse_log pairs each parameter with its value", "statement": "parse_log returns one entry per event input, in declaration order, with its name and the value of that very input (from its topic if indexed, from data otherwise).", "quantifier": "all events and logs", "why_tests_cant": "all events", "anchors": ["ethabi/src/event.rs: parse_log"]}
{"id": "C27", "title": "parse_log rejects foreign logs", "statement": "For a non-anonymous event parse_log fails unless topic 0 is the event signature; it fails unless the number of remaining topics equals the number of indexed inputs.", "quantifier": "all events and logs", "why_tests_cant": "all logs", "anchors": ["ethabi/src/event.rs: parse_log"]}
{"id": "C28", "title": "parse_log inverts log emission", "statement": "A log emitted per the ABI for given values (static indexed values as topics, others as data) is parsed back to those values.", "quantifier": "all events with well-typed values", "why_tests_cant": "unbounded types", "anchors": ["ethabi/src/event.rs: parse_log"]}
{"id": "C29", "title": "Event::filter builds the right topic positions", "statement": "filter puts the signature in topic0 (unless anonymous) and the i-th raw topic at the i-th indexed position, wildcard stays wildcard, type mismatches or topics without an indexed input are InvalidData.", "quantifier": "all events and raw filters", "why_tests_cant": "all filters", "anchors": ["ethabi/src/event.rs: filter"]}
{"id": "C30", "title": "filters match emitted logs", "statement": "A filter built for a value matches exactly the topic an EVM log carries for that value (word encoding for value types, Keccak of the in-place encoding for dynamic types).", "quantifier": "all indexed types and values", "why_tests_cant": "all values", "anchors": ["ethabi/src/event.rs: filter, convert_token"]}
{"id": "C31", "title": "Topic conversions", "statement": "Topic::map, is_any, From<Option/T/Vec>, Into<Vec>, and indexing behave as a list of alternatives; indexing panics exactly when out of range.", "quantifier": "all topics", "why_tests_cant": "all topics", "anchors": ["ethabi/src/filter.rs"]}
{"id": "C32", "title": "strict tokenizer parses hex exactly", "statement": "StrictTokenizer accepts for bytesN/address/uint/int exactly hex strings of the right length and returns those bytes.", "quantifier": "all strings", "why_tests_cant": "all strings", "anchors": ["ethabi/src/token/strict.rs"]}
{"id": "C33", "title": "lenient decimal integers", "statement": "LenientTokenizer parses a decimal string as that number if it is below 2^256, rejecting larger ones.", "quantifier": "all decimal strings", "why_tests_cant": "all strings", "anchors": ["ethabi/src/token/lenient.rs: tokenize_uint"]}
{"id": "C34", "title": "lenient signed integers", "statement": "LenientTokenizer parses [-]digits as the two's complement of that number iff it lies in [-2^255, 2^255).", "quantifier": "all decimal strings", "why_tests_cant": "boundaries and all strings", "anchors": ["ethabi/src/token/lenient.rs: tokenize_int"]}
{"id": "C35", "title": "lenient extends strict", "statement": "Whatever StrictTokenizer accepts LenientTokenizer accepts with the same result.", "quantifier": "all types and strings", "why_tests_cant": "all strings", "anchors": ["ethabi/src/token/lenient.rs"]}
{"id": "C36", "title": "tokenized values have the requested type", "statement": "If tokenize(type, s) succeeds the token is a value of that type.", "quantifier": "all types and strings", "why_tests_cant": "all strings", "anchors": ["ethabi/src/token/mod.rs: tokenize, tokenize_struct, tokenize_array"]}
{"id": "C37", "title": "tokenizer never panics", "statement": "tokenize returns Ok or Err for every string.", "quantifier": "all types and strings", "why_tests_cant": "all strings", "anchors": ["ethabi/src/token/mod.rs"]}
{"id": "C38", "title": "Display of a token is parsed back", "statement": "StrictTokenizer::tokenize(type, token.to_string()) returns the token.", "quantifier": "all types and tokens", "why_tests_cant": "all tokens", "anchors": ["ethabi/src/token/token.rs: Display", "ethabi/src/token/mod.rs"]}
{"id": "C39", "title": "dynamic types agree", "statement": "Token::is_dynamic and ParamType::is_dynamic agree on every token of a type, so encoder and decoder choose the same layout.", "quantifier": "all well-typed tokens", "why_tests_cant": "all tokens", "anchors": ["ethabi/src/token/token.rs: is_dynamic", "ethabi/src/param_type/param_type.rs: is_dynamic"]}
{"id": "C40", "title": "empty return data is diagnosed", "statement": "decode on empty data fails unless every type is a zero-length fixed bytes/array.", "quantifier": "all type lists", "why_tests_cant": "all types", "anchors": ["ethabi/src/decoder.rs: decode", "ethabi/src/param_type/param_type.rs: is_empty_bytes_valid_encoding"]}
{"id": "C41", "title": "names are sanitized", "statement": "A function or event name is loaded as the part before the first '(' and nothing else changes; sanitizing is idempotent.", "quantifier": "all names", "why_tests_cant": "all strings", "anchors": ["ethabi/src/util.rs: sanitize_name"]}
{"id": "C42", "title": "encode never panics", "statement": "encode returns normally for all tokens (wrapping build), and in overflow-checked builds whenever the encoding is below 4 GiB.", "quantifier": "all tokens", "why_tests_cant": "sizes beyond test reach", "anchors": ["ethabi/src/encoder.rs"]}
{"id": "C43", "title": "CLI encode/decode select the named entry", "statement": "The CLI resolves a name or full signature to the unique matching entry of the ABI, reports ambiguity, and never reaches unreachable!().", "quantifier": "all contracts and names", "why_tests_cant": "all contracts", "anchors": ["cli/src/main.rs: load_function, load_event"]}
{"id": "C44", "title": "CLI uses every supplied value", "statement": "`encode function` fails unless exactly one value per input is supplied.", "quantifier": "all functions and value lists", "why_tests_cant": "all lists", "anchors": ["cli/src/main.rs: encode_input"]}
{"id": "C45", "title": "derive-generated conversions are inverse", "statement": "For the types ethabi-derive supports, converting a Rust value to a token and back yields the same value, so the generated encode_input never hits its expect().", "quantifier": "all supported types and values", "why_tests_cant": "all values", "anchors": ["derive/src/lib.rs: to_token, from_token"]}
{"id": "C46", "title": "derive-generated events keep their identity", "statement": "The event() a derived contract builds has the same signature as the event in the ABI file.", "quantifier": "all events", "why_tests_cant": "all names", "anchors": ["derive/src/event.rs: generate_event"]}
{"id": "C47", "title": "list literals are read item by item", "statement": "[a,b,..] and (a,b,..) with separable items (balanced brackets, closed quotes) tokenize exactly when every item does, to the list of the items' tokens.", "quantifier": "all element types, item lists and nested values", "why_tests_cant": "unbounded nesting and quoting combinations", "anchors": ["ethabi/src/token/mod.rs: tokenize_struct, tokenize_array"]}
{"id": "C48", "title": "parse_log does not panic", "statement": "Event::parse_log returns Ok or an error on every log, never panics, whatever the event, topics and data.", "quantifier": "all events and logs", "why_tests_cant": "Logs come from untrusted nodes: the set of byte strings and of event types is infinite and panics depend on offsets hidden in the data.", "anchors": ["ethabi/src/event.rs: parse_log"]}
{"id": "C49", "title": "standard ABI JSON loads as the contract it describes", "statement": "Contract::load accepts every JSON text that follows the ABI JSON format (keys in any order, further keys allowed, defaults for constant, stateMutability and indexed, tuples described by components) and yields exactly the functions, events, constructor and flags it describes.", "quantifier": "all standard ABI files up to serde_json's nesting limit", "why_tests_cant": "Key orders, extra keys, nesting of components and overloads combine without bound.", "anchors": ["ethabi/src/param.rs: visit_map, set_tuple_components", "ethabi/src/event_param.rs: visit_map", "ethabi/src/tuple_param.rs: visit_map", "ethabi/src/operation.rs", "ethabi/src/contract.rs: visit_seq"]}
{"id": "C50", "title": "the order of JSON keys does not matter", "statement": "Permuting the keys of a parameter, tuple component or contract item does not change what is loaded.", "quantifier": "all JSON objects and permutations", "why_tests_cant": "n! orders per object; the visitors are hand written loops over keys.", "anchors": ["ethabi/src/param.rs: visit_map", "ethabi/src/event_param.rs: visit_map", "ethabi/src/tuple_param.rs: visit_map"]}
{"id": "C51", "title": "loading does not panic", "statement": "Contract::load returns Ok or an error for every JSON text, never panics.", "quantifier": "all JSON texts", "why_tests_cant": "Type names inside the file reach slicing code with computed offsets.", "anchors": ["ethabi/src/contract.rs: load", "ethabi/src/param_type/reader.rs: read", "ethabi/src/util.rs: sanitize_name"]}
{"id": "C52", "title": "unknown keys are skipped, known keys occur once", "statement": "Keys a visitor does not know have no effect on what is loaded, and a key that occurs twice is an error.", "quantifier": "all JSON objects", "why_tests_cant": "Unknown keys are infinitely many, and the visitors skip a key without consuming its value, which only matters for some deserializers.", "anchors": ["ethabi/src/param.rs: visit_map", "ethabi/src/event_param.rs: visit_map", "ethabi/src/tuple_param.rs: visit_map"]}
{"id": "C53", "title": "loaded contracts are well formed", "statement": "All sizes in the types of a loaded contract are 64 bit and no function or event name contains '('.", "quantifier": "all loadable JSON texts", "why_tests_cant": "An invariant of every loadable file.", "anchors": ["ethabi/src/contract.rs: load", "ethabi/src/util.rs: sanitize_name"]}
{"id": "C54", "title": "filter JSON tells filters apart", "statement": "TopicFilter serializes different filters to different JSON: four places, each null, a hash, or a list of hashes. A node that reads it place by place as the JSON-RPC convention says selects exactly the logs the filter matches. Hence the text of the filter that an event makes of a request selects a log of that event (indexed inputs of value types) exactly if the request allows its values, and, if the event is not anonymous, only logs that begin with the hash of its signature.", "quantifier": "all filters, events, requests, values and lists of topics", "why_tests_cant": "Infinitely many filters; Any, an empty OneOf and a one-element OneOf must stay distinct.", "anchors": ["ethabi/src/filter.rs: Serialize", "ethabi/src/event.rs: filter"]}
{"id": "C55", "title": "encode commands print the ABI encoding", "statement": "`ethabi encode function` and `ethabi encode params` print the hex of the selector and the ABI encoding (resp. of the ABI encoding alone) of the values that the argument texts denote under the chosen tokenizer.", "quantifier": "all ABI files, functions, type names, argument texts, both tokenizers", "why_tests_cant": "The repository tests run a few literal commands; the property ranges over every file, type and text.", "anchors": ["cli/src/main.rs: encode_input, encode_params, parse_tokens"]}
{"id": "C56", "title": "decode params undoes encode params", "statement": "Feeding the text printed by `encode params` to `decode params` with the same type names prints each value beside its canonical type name.", "quantifier": "all lists of types and argument texts denoting values of them", "why_tests_cant": "The repository tests run a few literal commands; the property ranges over every file, type and text.", "anchors": ["cli/src/main.rs: encode_params, decode_params"]}
{"id": "C57", "title": "what the decode commands print and when they panic", "statement": "The decode commands print exactly one line per declared type, of the values the decoder returns; the assertions on equal lengths never fail, so that a panic can only come from the library.", "quantifier": "all ABI files, type names and data texts", "why_tests_cant": "The repository tests run a few literal commands; the property ranges over every file, type and text.", "anchors": ["cli/src/main.rs: decode_call_output, decode_params, encode_params"]}
{"id": "C58", "title": "decode log prints the inputs of an emitted event", "statement": "Given the topics and data of a log an event emitted, `decode log` prints the name and value of every input in declaration order.", "quantifier": "all events, values and logs emitted", "why_tests_cant": "The repository tests run a few literal commands; the property ranges over every file, type and text.", "anchors": ["cli/src/main.rs: decode_log"]}
{"id": "C59", "title": "derived parse_log returns the emitted values", "statement": "Given a log that the event of the ABI file emitted, the generated parse_log returns the Rust values standing for the values of the inputs, and does not panic.", "quantifier": "all events, values and emitted logs", "why_tests_cant": "The repository's derive tests generate interfaces for a few literal items; the property ranges over every event or function, every name and every value.", "anchors": ["derive/src/event.rs: generate_event (parse_log)", "derive/src/lib.rs: from_token"]}
{"id": "C60", "title": "derived filters match exactly the requested logs", "statement": "The generated filter function never hits its expect() and its filter matches an emitted log exactly if the requested alternatives include the log's values; the wildcard filter asks only for the signature.", "quantifier": "all events, arguments and emitted logs", "why_tests_cant": "The repository's derive tests generate interfaces for a few literal items; the property ranges over every event or function, every name and every value.", "anchors": ["derive/src/event.rs: filter_init, generate_event (filter, wildcard_filter)"]}
{"id": "C61", "title": "derived functions and constructors keep their identity", "statement": "The function() and constructor the generated code builds have the name, parameter names and types of the ABI file, in order, and every entry of the contract gets an interface.", "quantifier": "all contracts", "why_tests_cant": "The repository's derive tests generate interfaces for a few literal items; the property ranges over every event or function, every name and every value.", "anchors": ["derive/src/function.rs: generate", "derive/src/constructor.rs: generate", "derive/src/contract.rs: generate", "derive/src/lib.rs: to_syntax_string, to_ethabi_param_vec"]}
{"id": "C62", "title": "which contracts the derive macro accepts", "statement": "The generated code exists and compiles exactly for functions, constructors and events with supported types and non-clashing names.", "quantifier": "all contracts", "why_tests_cant": "The repository's derive tests generate interfaces for a few literal items; the property ranges over every event or function, every name and every value.", "anchors": ["derive/src/lib.rs: rust_type, input_names, rust_variable", "derive/src/function.rs", "derive/src/constructor.rs", "derive/src/contract.rs"]}
{"id": "C63", "title": "every outcome of decode is accounted for", "statement": "For all types and data, decode panics exactly when, after some readable values, the offset of a fixed-size array of dynamic elements points beyond its frame or the end of a bytesN overflows 64 bits; every other failure is InvalidData, or the empty-data error exactly for empty data and a type that needs data.", "quantifier": "all lists of types with machine-sized N, all data, both build profiles", "why_tests_cant": "Tests that expect an error check a few malformed inputs; which of the infinitely many malformed inputs abort the process is a statement about all of them, at every nesting depth.", "anchors": ["ethabi/src/decoder.rs: decode, decode_param, peek, take_bytes"]}
{"id": "C64", "title": "the signature hash is Keccak-256", "statement": "The hash used for selectors and topics is the Keccak-256 function of the standard: the sponge over the 24-round permutation Keccak-f[1600] with rate 1088 and padding 10*1, for messages of every length.", "quantifier": "all byte strings", "why_tests_cant": "Test vectors check a few messages; the property covers every message length, including those that need several blocks or whose padding fills a block exactly.", "anchors": ["ethabi/src/signature.rs: short_signature, long_signature", "ethabi/src/event.rs: convert_topic_param_type"]}
{"id": "C65", "title": "accepted type names", "statement": "Reader::read returns t for a string exactly if the string spells t by a fixed grammar: base names, int/uint/bytes with a decimal size below 2^64 that may have a leading + or zeros, array suffixes, and parenthesized fields between which nothing may stand. On other strings it returns an error, except the strings with a lone closing bracket or a mis-cut non-ASCII prefix, where it panics.", "quantifier": "all strings shorter than 2^63 bytes", "why_tests_cant": "all strings", "anchors": ["ethabi/src/param_type/reader.rs: Reader::read"]}
{"id": "C66", "title": "brackets of array and tuple literals", "statement": "tokenize reads an array or tuple literal exactly if its brackets are balanced outside quotes, its quotes are closed, and each item between top-level separators is a text of its type; no text of an accepted literal is lost.", "quantifier": "all tokenizers, types and texts, ASCII or not", "why_tests_cant": "all texts; the interplay of nesting, quotes and byte offsets has unboundedly many cases", "anchors": ["ethabi/src/token/mod.rs: tokenize_struct, tokenize_array, tokenize_fixed_array"]}
{"id": "C67", "title": "JSON text", "statement": "Contract::load and the other readers of JSON accept exactly the UTF-8 texts of the JSON grammar (RFC 8259) nested at most 127 deep, give the value the text denotes to the visitors, and the JSON that is written denotes the value that was written; a contract therefore loads from bytes exactly if they are the text of a JSON value it loads from.", "quantifier": "all byte strings, all JSON trees", "why_tests_cant": "escapes, surrogate pairs, number forms, blanks and nesting combine without bound", "anchors": ["ethabi/src/contract.rs: Contract::load", "ethabi/src/filter.rs: Serialize for TopicFilter", "serde_json::from_reader, serde_json::to_string"]}
{"id": "C68", "title": "Command lines are parsed by a fixed grammar", "statement": "The program accepts exactly the argument vectors of its command grammar (command names, positional arguments, flags and options in any order, '--', attached and '=' values), gives each the intended request, can express every request, and works from the bytes of the ABI files; an argument vector never yields an odd number of types and values for encode params.", "quantifier": "for all argument vectors, all file contents, all requests and both build profiles", "why_tests_cant": "The tests run two dozen command lines with the arguments in one order; argument vectors are unbounded sequences of arbitrary texts, and which texts are swallowed as values, flags or positional arguments depends on all arguments before.", "anchors": ["cli/src/main.rs:13-65", "cli/src/main.rs:67-93"]}
{"id": "C69", "title": "the text the derive macro generates does what the interface says", "statement": "For every contract the derive macro either panics, exactly if a name does not become an identifier or a type contains a tuple, or writes a token text that is the text of a tree of Rust modules, functions and structs. Run, that code has the names and signatures of the derived interface, and each of its functions returns what the interface says: encode_input and call the call data, decode_output the values, constructor the deployment data, filter and wildcard_filter the topic filters, parse_log the struct of the log. The code is refused by the compiler exactly for the contracts the interface does not exist for.", "quantifier": "all contracts, in every iteration order of their maps, all arguments, logs and return data, both build profiles", "why_tests_cant": "the repository compares the text for a dozen literal items and never runs it except for two contracts; the property ranges over all contracts and all executions of the generated code", "anchors": ["derive/src/lib.rs: to_syntax_string, rust_type, template_param_type, from_template_param, to_token, from_token, input_names, get_template_names, get_output_kinds", "derive/src/function.rs: Function::from, generate", "derive/src/constructor.rs: Constructor::from, generate", "derive/src/event.rs: Event::from, generate_log, generate_event", "derive/src/contract.rs: generate"]}
{"id": "C70", "title": "the derive macro reads exactly the file that the attribute names", "statement": "The macro reads the first well-formed ethabi_contract_options attribute and in it the first item named path; if that item is path = \"...\", the file is that path, taken relative to the directory of the manifest unless it is absolute. There is code exactly if the file exists and is the text of a JSON value from which a contract loads that can be written, and it is the code of that contract; in all other cases the macro panics. No other file matters. use_contract! passes a string literal on as that path, and the code it yields does what the interface of the contract in the file says.", "quantifier": "all attribute lists and token sequences at any nesting depth, all directories and paths, all file systems, both build profiles, every iteration order of the maps", "why_tests_cant": "the repository uses four fixed relative paths in one attribute form; malformed, repeated, nested or literal items, absolute paths and missing directories never occur", "anchors": ["derive/src/lib.rs: ethabi_derive, impl_ethabi_derive, get_options, get_option, str_value_of_meta_item, normalize_path", "contract/src/lib.rs: use_contract"]}
{"id": "C71", "title": "encodings of any size: offsets and lengths are taken modulo 2^32", "statement": "For all values, whatever the size of their encoding, an optimised build returns the standard layout with every offset and length word reduced modulo 2^32, and a checked build returns the same if the encoding is below 4 GiB; below 128 GiB a checked build panics exactly if the encoding has 4 GiB or more. So an optimised build writes the specified encoding exactly if all offsets and lengths in it fit into 32 bits.", "quantifier": "all lists of values of any nesting depth and size, both build profiles", "why_tests_cant": "it concerns encodings of four gigabytes and more, which no test allocates; the failure is silent in the profile that is shipped", "anchors": ["ethabi/src/encoder.rs: encode, pad_bytes, Mediate::head_len, Mediate::tail_len, Mediate::head, Mediate::tail, encode_head_tail", "ethabi/src/util.rs: pad_u32"]}
{"id": "C72", "title": "the room a decoded value takes is bounded by a polynomial in the data, and the degree is attained", "statement": "Whatever decode returns, its number of tokens, bytes and characters is at most a polynomial in the size of the data whose degree is the array nesting depth of the type (element types that take no room excluded). The degree is attained: because offsets may point to the same place, d levels of arrays with k offsets each, in about d*k words, decode to k^d values.", "quantifier": "all types, data and sizes, both build profiles; all depths and widths for the attained part", "why_tests_cant": "tests decode well-formed encodings, in which no two offsets share a tail, so the result is never larger than the data", "anchors": ["ethabi/src/decoder.rs: decode, decode_param", "ethabi/src/decoder.rs: as_usize, peek_32_bytes"]}
{"id": "C73", "title": "the text the derive macro generates is a program, and that program does what the interface says", "statement": "Whenever the derived interface of a contract exists, the token text that the macro writes is accepted by a parser for Rust items (modules, functions, structs, uses, types, expressions, with the reserved words refused as names), and the items read from it, when run, have the names and signatures of the derived interface and return what it says; from the file named in the attribute on. The parameters of the generated functions have the names that the rules for parameters and fields give, the structs of logs derive Debug, Clone and PartialEq, and a decoder holds the function.", "quantifier": "all contracts in every iteration order of their maps, all names, types and arguments, all files, both build profiles", "why_tests_cant": "the repository compiles the generated code of two contracts; that the text of every contract groups as intended (closures, method chains, generics, struct literals, nested vectors and arrays of any depth) ranges over all contracts", "anchors": ["derive/src/lib.rs: impl_ethabi_derive, to_token, from_token, rust_type, template_param_type", "derive/src/function.rs: Function::generate", "derive/src/constructor.rs: Constructor::generate", "derive/src/event.rs: Event::generate_log, generate_event", "derive/src/contract.rs: Contract::generate"]}
{"id": "C74", "title": "how deeply the types that are read can be nested", "statement": "Reader::read never returns a type with more levels (arrays, fixed arrays, tuples, leaf) than its name has characters, nor, for ASCII names, more than half of them rounded up; this is attained at every depth. The types of a loaded contract have at most as many levels as the JSON has characters in its texts. The nesting limit of serde_json does not bound them: JSON that is five deep holds types of every depth, and every function that walks over types or values recurses once for each level.", "quantifier": "all names (ASCII or not) and all JSON values whose type names are shorter than 2^63 bytes, all depths for the attained part, both build profiles", "why_tests_cant": "the tests read a dozen names with at most three levels; a bound on the recursion over every accepted name is a statement about all of them", "anchors": ["ethabi/src/param_type/reader.rs: Reader::read", "ethabi/src/param.rs: set_tuple_components", "ethabi/src/contract.rs: Contract::load"]}
{"id": "C75", "title": "reading type names and values takes at most quadratic work", "statement": "Counting every call of Reader::read as one more than the characters of its text, reading an ASCII type name of n characters costs at most 3(1+n)^2, although the reader goes over the text of an inner tuple again for every closing parenthesis; names of every odd length from 3 on cost at least n^2/4. A name of any characters without a closing parenthesis costs at most (n+2)^2/4. Counting every call of Tokenizer::tokenize as one more than the bytes of its text, reading a value costs at most (levels of the type) times (1 + bytes of the value), which is attained up to a factor of two at every depth.", "quantifier": "all ASCII names shorter than 2^63 characters, all names without a closing parenthesis shorter than 2^63 bytes, and both build profiles; all types, all values and all tokenizers (strict, lenient, any other implementation of the trait)", "why_tests_cant": "tests run short names and values, on which exponential and quadratic re-reading cannot be told apart; a bound for every text is a statement about all of them", "anchors": ["ethabi/src/param_type/reader.rs: Reader::read", "ethabi/src/token/mod.rs: Tokenizer::tokenize, tokenize_struct, tokenize_array"]}
{"id": "C76", "title": "errors name what is wrong", "statement": "Reading a type name fails with a number error, or with an invalid name error that holds a part of the name which is rejected by that same error when read alone; for ASCII names, with tuples nested to any depth, the rejected names and their errors are exactly those of a grammar: unknown words, sizes that are not numbers, tuples that are not opened, stray closing parentheses, and names whose first item, or inner tuple with the text around it, is rejected. The same holds for names of any characters without a closing parenthesis, where of the name before an array suffix as many bytes are looked at as it has characters. Reading a value as a type fails as invalid data, or with the error of reading a part of the text as one of the non-container types within the type; for these types the errors of the strict and the lenient tokenizer are exactly characterised: not hex, wrong length, not a bool, not decimal, beyond 256 bits, int256 overflow, int256 underflow. For array and tuple literals, on every text, the error is exactly that of the first item that is rejected; invalid data if a tuple has an item without a type; or invalid data if no item is rejected that ends before any stray closing bracket, and there is one, or quotes are left open, or the text is not in brackets, or an array of fixed size has another number of items. Loading a contract fails only with a JSON error. Parsing a log fails as invalid data, or with the hint about empty data exactly if the topics of the indexed inputs are missing altogether, or the topics are right and data is missing. The command line program reports an I/O error exactly if the contract file it was told to read is missing, and a JSON error exactly if that file holds no contract.", "quantifier": "all names shorter than 2^63 bytes, all types, texts and tokenizers, all JSON values, all events and logs with well-formed types and 32-byte topics, all commands and file systems, both build profiles", "why_tests_cant": "the tests look at the error of a handful of bad inputs; that no other error arises for any input, and that each arises exactly in its case, is a statement about all of them", "anchors": ["ethabi/src/errors.rs: Error", "ethabi/src/param_type/reader.rs: Reader::read", "ethabi/src/token/mod.rs: Tokenizer::tokenize", "ethabi/src/token/lenient.rs: LenientTokenizer", "ethabi/src/token/strict.rs: StrictTokenizer", "ethabi/src/contract.rs: Contract::load", "ethabi/src/event.rs: Event::parse_log", "cli/src/main.rs: execute"]}
{"id": "C77", "title": "the generated code is well typed exactly for the contracts whose interface exists", "statement": "For every contract for which the derive macro writes code, that code passes a static check of names, types and moves of values - undeclared, duplicate or reserved names, argument and result types of every call, method, closure, struct literal and conversion, type parameters and their bounds, values used after they were moved - exactly if the derived interface of the contract exists. Where it exists, the token text is read as a program, the program passes the check, and run it does what the interface says.", "quantifier": "all contracts in every iteration order of their maps, all names and types of any nesting, both build profiles", "why_tests_cant": "the repository compiles the generated code of a few contracts; that the code of every contract type-checks, or is refused for exactly the listed reasons, ranges over all names, all types of any nesting and any number of arguments, functions and events", "anchors": ["derive/src/lib.rs: rust_type, template_param_type, from_template_param, to_token, from_token", "derive/src/function.rs", "derive/src/constructor.rs", "derive/src/event.rs", "derive/src/contract.rs"]}
{"id": "C78", "title": "code that passes the static check never gets stuck when it runs", "statement": "In every program that passes the static check of C77, whether the macro wrote it or not, every function and trait method of every module, called with values of the types of its parameters (type parameters standing for any values that meet their bounds), panics or comes to a value of the type it declares, to whatever depth its calls are followed; it never meets a missing name, a value of a wrong kind, a wrong number of arguments, an assignment to a variable that is not mut, or a method that does not exist. The bounded runner of C69 differs from this only by running out of depth. In particular this holds for all the code that is generated for contracts whose interface exists.", "quantifier": "all programs that pass the check, all modules, functions, arguments of the declared types, instances of the type parameters, call depths, both build profiles", "why_tests_cant": "it ranges over all programs and all values of their types; running the generated code of a few contracts exercises a few of them", "anchors": ["derive/src/lib.rs", "derive/src/function.rs", "derive/src/constructor.rs", "derive/src/event.rs", "derive/src/contract.rs"]}
{"id": "C79", "title": "in code that passes the static check no value is used after it has been moved", "statement": "In every program that passes the static check of C77, once the value of a parameter or of a variable bound by a let at the top of a function or method body has been taken, and its type is not one of those that are copied, the name does not occur again in the rest of its scope, in the order in which the code runs. The closures given to map use no name of what is around them. In particular the generated functions of every contract whose interface exists never mention a parameter again after it has been moved.", "quantifier": "all programs that pass the check, all modules, functions, parameters and let bindings; all closures; all contracts whose interface exists", "why_tests_cant": "compiling the code of a few contracts runs the borrow checker on a few functions; the property ranges over all contracts", "anchors": ["derive/src/lib.rs", "derive/src/function.rs", "derive/src/constructor.rs", "derive/src/event.rs"]}
{"id": "C80", "title": "the generated text is accepted exactly for the contracts whose interface exists", "statement": "Whenever the macro writes a text for a contract, a parser for the part of Rust in which it writes reads that text exactly if all arguments and results have types that Rust can name (no fixed-size array other than as an argument) and no module, log struct, field or parameter gets a reserved name; what it reads is then the tree of the generated code and nothing else. The text is read and passes the static check of C77 exactly if the interface of C62 exists, and then does what that interface says. The same holds from the attribute and the file on: the macro gives an accepted text exactly if the attributes name a file that is found, is JSON, loads as a contract, and has an interface.", "quantifier": "all contracts, all iteration orders of functions and events, all written texts, all attributes, directories, file systems and files", "why_tests_cant": "that every unsuitable contract is refused ranges over all names, types, and their positions in the text; the tests of the crate compile a few suitable contracts", "anchors": ["derive/src/lib.rs:20-106", "derive/src/contract.rs", "derive/src/function.rs", "derive/src/constructor.rs", "derive/src/event.rs"]}
{"id": "C81", "title": "a 32-bit target decodes the same values and differs only by panics on malformed data", "statement": "On targets where usize has 32 bits (wasm32), decode accepts the same data as on 64-bit targets, with the same values, so that whatever is encoded is decoded on every target. The only difference is that some malformed data, for which a 64-bit target reports InvalidData, makes a 32-bit target panic. Beyond the panics of 64-bit targets it panics exactly if, at the place the decoder gets to, an offset to a length is at least 2^32-32, a length of bytes or text ends at or beyond 2^32, or a bytesN of such a size does. Data in which no 32 bytes hold a number near 2^32 is treated alike.", "quantifier": "all types with 32-bit sizes, all data of less than 2^31 bytes, both build profiles", "why_tests_cant": "the test suite runs on the 64-bit host; the difference shows for offsets and lengths within a few bytes of 2^32, nested at any depth", "anchors": ["ethabi/src/decoder.rs:20-87", "ethabi/src/decoder.rs:109-245"]}
{"id": "C82", "title": "encode reserves 32 times the memory of the encoding, which 32-bit targets refuse from 64 MiB on", "statement": "encode_head_tail passes sizes in bytes to Vec::with_capacity for vectors of 32-byte words. Hence encode asks, for the arguments and for every array and tuple inside, for one vector with as many words as the heads have bytes and one with as many words as the tails have bytes, and for nothing else but the words of bytes, strings and bytesN. In all it asks for at least as many words as the encoding has bytes and for at most that number per level of nesting. A target with 64-bit usize can ask for all of it. A target with 32-bit usize panics exactly if one of these numbers is at least 2^26; never for encodings below 64 MiB, always for a single value of 64 MiB, although a slice may have 2 GiB there.", "quantifier": "all values, of any size in optimised builds and up to 4 GiB of encoding in checked builds; all limits on the size of a vector", "why_tests_cant": "capacities do not show in results; the panic shows on 32-bit targets for values of 64 MiB only", "anchors": ["ethabi/src/encoder.rs:13-39", "ethabi/src/encoder.rs:86-121", "ethabi/src/encoder.rs:124-174"]}
{"id": "C83", "title": "A JSON value is loaded as a contract exactly if it says what a contract is", "statement": "Contract::load accepts a JSON value nested at most 127 deep exactly if it is an array of items, each an object with one \"type\" tag or an array that starts with the tag, with under each known key at most one value: names that are texts (cut before the first '('), inputs and outputs that are arrays of parameter objects, whose type is the type their name spells with the components appended to the fields of the tuple at its core; defaults only for constant, stateMutability and indexed; structs also as arrays of their values. The items are then determined by the JSON, and the contract answers by them. Params, event params and tuple params alone are read by the same rule, except that from text no further key may occur.", "quantifier": "all JSON trees, any order and number of keys, any nesting of components, both build profiles", "why_tests_cant": "the accepted inputs are an infinite language with several unusual forms (arrays for structs, objects for enums, components added to fields already named) that no sample covers, and the claim is also that nothing else is accepted", "anchors": ["ethabi/src/contract.rs:36-81", "ethabi/src/operation.rs:14-33", "ethabi/src/param.rs:31-145", "ethabi/src/event_param.rs:30-93", "ethabi/src/tuple_param.rs:32-94", "ethabi/src/function.rs:20-37", "ethabi/src/event.rs:20-30", "ethabi/src/constructor.rs:14-18"]}
{"id": "C84", "title": "encode takes time proportional to size times nesting depth, no less and no more", "statement": "encode_head_tail asks every member for the length of its tail, which visits everything inside it, before it writes the tail, which asks again one level below; words are copied once per level. Hence the number of function calls and of words made or copied is exactly determined by the values, is at most 2 + (5*depth + 3)*size, where size is the number of values plus the number of words of the encoding, and the encoding has exactly the counted words. The factor depth is real: k nested one-element arrays, encoded in 64k+64 bytes, take 4k^2+17k+15 steps. Nothing is exponential, and runs that panic stop earlier.", "quantifier": "all values of any size and depth, both build profiles; the lower bound for every k in optimised builds", "why_tests_cant": "tests check results, not the number of steps; the repeated measuring shows only for deeply nested values and as time, not as a wrong result", "anchors": ["ethabi/src/encoder.rs:52-84", "ethabi/src/encoder.rs:86-121", "ethabi/src/encoder.rs:124-174", "ethabi/src/token/token.rs:216-223"]}
{"id": "C85", "title": "decode takes a bounded number of steps on any data, linear in what it returns but not in what it reads", "statement": "Every run of decode, whether it ends with values, an error or a panic, takes at most a number of steps (calls, words looked at, bytes copied, tokens pushed) given by the types and the length of the data: loops over members that take room end at the latest with the second member that starts behind the data, however many the data or the type announces; loops over members that take no room make as many rounds as announced. A run that succeeds takes exactly the steps its result determines (text: up to four bytes per character), so the time is linear in the size of the result. It is not linear in the data: d levels of k offsets take k^d steps, and two words make an array of empty tuples take 3n+6 steps for any n below 2^32.", "quantifier": "all well-formed types, all data shorter than 2^63 bytes, both build profiles; all k, d and n for the lower bounds", "why_tests_cant": "tests do not count steps, and they decode data that is well-formed or fails early; the limit for hostile data is a statement about all data", "anchors": ["ethabi/src/decoder.rs:41-63", "ethabi/src/decoder.rs:65-87", "ethabi/src/decoder.rs:89-216", "ethabi/src/param_type/param_type.rs:58-65"]}
{"id": "C86", "title": "calls nest as deep as types and values do, whatever the data or the text", "statement": "How many calls of the crate's functions are active at once is determined by the nesting of the types and values, not by the data or the text. Decoding: at most three more than the levels of the deepest type, on any data and whether or not it succeeds; at least two more than the depth of the values it returns; exactly a number read off types and values when it succeeds. Encoding: between two more than the depth of the values and two more than twice the depth, both attained; exactly a number read off the values when it succeeds. Reading a value from text: at most three for each level of the type (lenient: and one more), exactly a number read off type and value when it succeeds. Reading a type name: at most half the length of the name and a half of three if it is ASCII (attained), at most half the length and one if it has no closing parenthesis, at most the length and one otherwise; for a name that the crate writes and reads back, the levels of its type. No constant bounds them: a JSON file that is four deep holds a type for which decoding any data but the empty one nests calls as deep as one likes.", "quantifier": "all types, values, data and texts (names shorter than 2^63 bytes), both build profiles, all depths", "why_tests_cant": "tests use types a few levels deep and never measure the stack; a bound for all data, texts and types is not a statement about runs", "anchors": ["ethabi/src/encoder.rs:13-174", "ethabi/src/decoder.rs:41-216", "ethabi/src/param_type/param_type.rs:58-65", "ethabi/src/token/token.rs:216-223", "ethabi/src/param_type/reader.rs:16-166", "ethabi/src/token/mod.rs:23-155", "ethabi/src/token/strict.rs:15-65", "ethabi/src/token/lenient.rs:20-75"]}
{"id": "C87", "title": "the messages of errors say what is wrong, and where", "statement": "A text that is rejected as a value has a message. For a type that is not a container the messages are exactly: for hexadecimal text with an odd number of bytes, that it is odd; for other text that is not hexadecimal, the first byte that is no digit, quoted, with its position; for the wrong number of bytes and for other words than the four of a bool, that the data is invalid; for lenient integers, the four messages about decimal numbers. For a container the message is that the data is invalid, or it is the message for a part of the text as a value of a type inside; it is the message for the first item that is rejected, and the number of the items, quotes left open and stray brackets are complained about only after the items before were read. Different hexadecimal problems have different messages. A type name that is rejected has a message. It shows a part of the name that is rejected the same when read alone; or there is such a part with, in the place of a size, a non-empty text that is not one, and the message says that it is too large (exactly when its leading digits reach 2^64, whatever follows) or that it has an invalid digit, never that it is empty. For ASCII names, with tuples nested to any depth, the messages and the names they are given for are exactly those of the grammar of rejected names of C76. The same holds for names of any characters without a closing parenthesis.", "quantifier": "all types, all texts of Unicode scalar values, both tokenizers; names shorter than 2^63 bytes, both build profiles", "why_tests_cant": "the tests compare a few whole error values; that each of the infinitely many rejected texts is given the right reason and position is not a finite check", "anchors": ["ethabi/src/errors.rs:17-51", "ethabi/src/token/strict.rs:14-66", "ethabi/src/token/lenient.rs:20-75", "ethabi/src/token/mod.rs:22-155", "ethabi/src/param_type/reader.rs:16-166"]}
{"id": "C88", "title": "every name in generated code is bound", "statement": "In a program that passes the check of names and types, a name that a function or method uses and that is not bound inside it by a let or a closure is one of its parameters, self (of a method), None, or INTERNAL_ERR; and then the constant INTERNAL_ERR is imported with `use super::INTERNAL_ERR` by its module and each module around it up to one that defines it as a &'static str. A module that imports it is inside one for which the same holds. This is so for all the code that the derive macro writes, whatever the contract is.", "quantifier": "all programs of the modelled syntax that pass; all contracts for which the macro writes code that compiles, all their functions, events and modules", "why_tests_cant": "tests compile the code for a handful of contracts; that no contract yields code with an unbound name is a claim about all of them", "anchors": ["derive/src/contract.rs:33-65", "derive/src/function.rs:73-215", "derive/src/event.rs:29-205", "derive/src/constructor.rs:22-84"]}
{"id": "C89", "title": "the debug text of a type says which type it is", "statement": "The text that {:?} gives a parameter type is the one of Rust's rules for derived Debug (the name of the variant, its fields in parentheses, vectors in brackets, a comma and a blank between). Different types have different texts, although their names in JSON may agree; and in a longer text that begins with the text of a type, it can be told which type this is and where its text ends.", "quantifier": "all types, nested to any depth, all sizes; all texts that follow", "why_tests_cant": "there are infinitely many types and pairs of types to tell apart", "anchors": ["ethabi/src/param_type/param_type.rs:15-37"]}
{"id": "C90", "title": "the text about a bad type in JSON says what is wrong with it", "statement": "For exactly the type names that the reader rejects, the deserializer hands serde a text, the debug form of the error. For an ASCII name it is InvalidName with the rejected part of the name in quotes (quotes, backslashes and control characters escaped by Rust's rules), or ParseInt with the kind PosOverflow or InvalidDigit, for exactly the names that the grammar of rejected names of C76 and C87 gives that part or that reason. Two names with the same text are rejected with the same error: escaping loses nothing.", "quantifier": "all names shorter than 2^63 bytes for the existence of a text, all ASCII ones for its form; both build profiles; all ASCII texts for quoting", "why_tests_cant": "the tests look at one or two rejected names; that a name with any characters in any place is told unambiguously is a statement about all pairs of names", "anchors": ["ethabi/src/param_type/deserialize.rs:34-39", "ethabi/src/errors.rs:17-41", "ethabi/src/param_type/reader.rs:16-166"]}

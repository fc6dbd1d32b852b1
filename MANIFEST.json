{
 "claims": [
  {
   "property": "C01",
   "status": "proved",
   "theorems": [
    "C01_round_trip",
    "C01_exact",
    "C01_refuted_bytes33",
    "C01_refuted_empty_dynamic",
    "C01_refuted_unit"
   ],
   "note": "Round trip proved under the stated guards; C01_exact drops the guard on empty encodings and says what decoding gives then; the _refuted theorems show the guards (bytes1..32, no T[0] of dynamic T, non-empty encoding) are needed."
  },
  {
   "property": "C02",
   "status": "proved",
   "theorems": [
    "C02_conforms",
    "C02_refuted_4GiB"
   ],
   "note": "Byte-for-byte equality with the head/tail specification in AbiSpec.v; C02_refuted_4GiB shows the 4 GiB bound is needed."
  },
  {
   "property": "C03",
   "status": "proved",
   "theorems": [
    "C03_whole_words",
    "C03_length"
   ],
   "note": ""
  },
  {
   "property": "C04",
   "status": "proved",
   "theorems": [
    "C04_injective"
   ],
   "note": ""
  },
  {
   "property": "C05",
   "status": "partial",
   "theorems": [
    "C05_no_panic_partial",
    "C05_refuted",
    "C05_refuted_fixed_bytes"
   ],
   "note": "False as stated: C05_refuted and C05_refuted_fixed_bytes are panics in both profiles. Proved for types without dynamic fixed-size arrays and without bytesN of N >= 2^62; C63_panics says exactly when decode panics, for all types and data."
  },
  {
   "property": "C06",
   "status": "proved",
   "theorems": [
    "C06_typed"
   ],
   "note": ""
  },
  {
   "property": "C07",
   "status": "proved",
   "theorems": [
    "C07_suffix"
   ],
   "note": ""
  },
  {
   "property": "C08",
   "status": "proved",
   "theorems": [
    "C08_reads"
   ],
   "note": ""
  },
  {
   "property": "C09",
   "status": "partial",
   "theorems": [
    "C09_bounded_partial",
    "C09_refuted",
    "C09_exact"
   ],
   "note": "False for elements that occupy no bytes (C09_refuted); proved for all other element types (C09_bounded_partial, at any depth); C09_exact: the bound holds for arrays of a type exactly if its values take room."
  },
  {
   "property": "C10",
   "status": "partial",
   "theorems": [
    "C10_bool_partial",
    "C10_refuted"
   ],
   "note": "Exact behaviour proved; words 2..255 are accepted as false, so strictness is refuted (C10_refuted)."
  },
  {
   "property": "C11",
   "status": "proved",
   "theorems": [
    "C11_static_words",
    "C11_fixed_bytes"
   ],
   "note": ""
  },
  {
   "property": "C12",
   "status": "proved",
   "theorems": [
    "C12_offset",
    "C12_length"
   ],
   "note": ""
  },
  {
   "property": "C13",
   "status": "proved",
   "theorems": [
    "C13_string",
    "C13_lossy",
    "C13_scalar",
    "C13_exact",
    "C13_replacement"
   ],
   "note": ""
  },
  {
   "property": "C14",
   "status": "partial",
   "theorems": [
    "C14_exact_partial",
    "C14_decides",
    "C14_total_partial",
    "C14_accepts",
    "C14_refuted_panic",
    "C14_refuted_short",
    "C14_panics"
   ],
   "note": "False as stated (short tuples and short bytesN accepted, long tuples panic). The relation type_check decides is characterised exactly (C14_decides), and so are its panics (C14_panics), for all values and types."
  },
  {
   "property": "C15",
   "status": "partial",
   "theorems": [
    "C15_call_data",
    "C15_accepted",
    "C15_error",
    "C15_rejects_partial",
    "C15_refuted",
    "C15_exact",
    "C15_panics"
   ],
   "note": "Call data is selector ++ ABI encoding for all well-typed arguments; whatever is accepted is well formed; the only error is InvalidData. Rejection of all ill-typed arguments is refuted (C15_refuted): short tuples and short bytesN are accepted. C15_exact and C15_panics give the result for all arguments, typed or not, whose encoding is below 128 GiB, in both profiles."
  },
  {
   "property": "C16",
   "status": "proved",
   "theorems": [
    "C16_round_trip",
    "C16_exact",
    "C16_output",
    "C16_refuted_with_selector"
   ],
   "note": "decode_input inverts the encoding without the selector; it does not strip the selector, shown by C16_refuted_with_selector."
  },
  {
   "property": "C17",
   "status": "partial",
   "theorems": [
    "C17_call_data",
    "C17_accepted",
    "C17_rejects_partial",
    "C17_refuted",
    "C17_exact",
    "C17_panics",
    "C17_error"
   ],
   "note": "As C15 for constructors; C17_refuted shows accepted ill-typed arguments; C17_exact, C17_panics and C17_error give the result for all arguments below 128 GiB."
  },
  {
   "property": "C18",
   "status": "proved",
   "theorems": [
    "C18_unique",
    "C18_refuted_paren"
   ],
   "note": "For names without '('; C18_refuted_paren shows it fails for names containing one."
  },
  {
   "property": "C19",
   "status": "proved",
   "theorems": [
    "C19_selector",
    "C19_topic",
    "C19_canonical"
   ],
   "note": "Keccak-256 is modelled concretely and checked on vectors."
  },
  {
   "property": "C20",
   "status": "partial",
   "theorems": [
    "C20_round_trip_partial",
    "C20_exact",
    "C20_refuted",
    "C20_refuted_error",
    "C20_refuted_unit"
   ],
   "note": "False as stated: three levels of tuples are misread or rejected (C20_refuted*). C20_exact says for every type whether its name is read back; the types with at most two levels are (C20_round_trip_partial)."
  },
  {
   "property": "C21",
   "status": "partial",
   "theorems": [
    "C21_no_panic_partial",
    "C21_exact",
    "C21_terminates",
    "C21_refuted",
    "C21_refuted_rejects"
   ],
   "note": "False as stated: panics on ']' without '[' and on non-ASCII names (C21_refuted). C21_exact: for every ASCII name, at any nesting depth, it panics exactly if the grammar panicking_name derives the name. C21_no_panic: no panic for ASCII names with matched brackets. Termination proved for all names."
  },
  {
   "property": "C22",
   "status": "proved",
   "theorems": [
    "C22_injective"
   ],
   "note": ""
  },
  {
   "property": "C23",
   "status": "partial",
   "theorems": [
    "C23_param_partial",
    "C23_event_param_partial",
    "C23_tuple_param_partial",
    "C23_param_text",
    "C23_event_param_text",
    "C23_tuple_param_text",
    "C23_refuted",
    "C23_param_bytes",
    "C23_event_param_bytes",
    "C23_tuple_param_bytes"
   ],
   "note": "Proved for all parameters as JSON trees, from text and from Value. As text it holds exactly up to serde_json's nesting limit (C23_*_text); deeper types fail: C23_refuted. C23_*_bytes: the same for the bytes of the text."
  },
  {
   "property": "C24",
   "status": "partial",
   "theorems": [
    "C24_round_partial",
    "C24_text_partial",
    "C24_exact",
    "C24_written_standard",
    "C24_refuted",
    "C24_bytes"
   ],
   "note": "Proved as JSON trees for every loaded contract and every iteration order; as text for every standard ABI file. A file with parenthesised type names near the nesting limit does not reload: C24_refuted. C24_exact decides for every loaded contract whether its text reloads. C24_bytes: the same from bytes to bytes."
  },
  {
   "property": "C25",
   "status": "proved",
   "theorems": [
    "C25_grouped"
   ],
   "note": "All loadable files; iteration order is any permutation of the map entries."
  },
  {
   "property": "C26",
   "status": "partial",
   "theorems": [
    "C26_paired_partial",
    "C26_names",
    "C26_refuted",
    "C26_exact"
   ],
   "note": "False for inputs that share a name, e.g. unnamed ones (C26_refuted). C26_exact characterises the result for all events: each input gets the value of the last input of its name; for distinct names that is its own value (C26_paired_partial)."
  },
  {
   "property": "C27",
   "status": "proved",
   "theorems": [
    "C27_foreign"
   ],
   "note": "Any accepted log consists of the signature topic (unless anonymous) and exactly one topic per indexed input."
  },
  {
   "property": "C28",
   "status": "partial",
   "theorems": [
    "C28_inverse_partial",
    "C28_exact",
    "C28_refuted"
   ],
   "note": "Emitted logs parse back to the emitted values (hashes for indexed strings, arrays and structs). C28_exact covers all events: with shared names the value of the last input of that name is given, and data inputs that all take no room are found only when they are arrays, so the claim as stated fails for those (C26_refuted, C28_refuted). Excluded: encodings of 4 GiB and more."
  },
  {
   "property": "C29",
   "status": "proved",
   "theorems": [
    "C29_fine",
    "C29_panics",
    "C29_refuses",
    "C29_positions",
    "C29_error",
    "C29_accepts",
    "C29_safe"
   ],
   "note": "Success iff all requested positions are indexed inputs and all values pass the type check; the resulting positions; the only error. C29_fine, C29_panics and C29_refuses give the outcome for every filter in both builds (values below 128 GiB): the first thing asked for that is not fine decides."
  },
  {
   "property": "C30",
   "status": "partial",
   "theorems": [
    "C30_matches_partial",
    "C30_static_partial",
    "C30_refuted",
    "C30_exact",
    "C30_dynamic",
    "C30_one_word",
    "C30_confused"
   ],
   "note": "Exact matching for value types, one direction for static types of more than one word. For string, bytes, arrays and one-word structs the filter misses the log: C30_refuted. For all types: C30_exact says which logs match; C30_dynamic and C30_one_word show that values of dynamic or one-word composite types never find their own logs unless keccak256 collides or has a fixed point; C30_confused shows that a request for bytes always finds logs of other bytes."
  },
  {
   "property": "C31",
   "status": "proved",
   "theorems": [
    "C31_conversions",
    "C31_index",
    "C31_index_panics"
   ],
   "note": "All conversions as lists of alternatives; indexing panics exactly out of range."
  },
  {
   "property": "C32",
   "status": "proved",
   "theorems": [
    "C32_hex",
    "C32_bool_string"
   ],
   "note": "Exact for address, bytes, bytesN, uint, int, bool and string."
  },
  {
   "property": "C33",
   "status": "partial",
   "theorems": [
    "C33_decimal_partial",
    "C33_not_decimal",
    "C33_exact",
    "C33_refuted"
   ],
   "note": "Proved for all decimal strings except those of exactly 64 digits, which are read as hex (C33_refuted); C33_exact characterises acceptance over all strings."
  },
  {
   "property": "C34",
   "status": "partial",
   "theorems": [
    "C34_signed_partial",
    "C34_exact",
    "C34_refuted"
   ],
   "note": "Proved except for non-negative strings of exactly 64 digits (C34_refuted); C34_exact characterises acceptance over all strings (several minus signs and missing digits are accepted)."
  },
  {
   "property": "C35",
   "status": "proved",
   "theorems": [
    "C35_extends"
   ],
   "note": ""
  },
  {
   "property": "C36",
   "status": "partial",
   "theorems": [
    "C36_typed_partial",
    "C36_loose",
    "C36_refuted"
   ],
   "note": "Full for tuple-free types; with tuples the value may have too few fields (C36_refuted) and that is the only deviation (C36_loose)."
  },
  {
   "property": "C37",
   "status": "partial",
   "theorems": [
    "C37_no_panic_partial",
    "C37_refuted",
    "C37_panics_array",
    "C37_panics_fixed_array",
    "C37_panics_tuple"
   ],
   "note": "Proved for ASCII text and for scalar types; C37_refuted: '[\u00e9]' panics. C37_panics_* say exactly which array and tuple texts panic."
  },
  {
   "property": "C38",
   "status": "partial",
   "theorems": [
    "C38_display_partial",
    "C38_leaves",
    "C38_exact",
    "C38_refuted"
   ],
   "note": "Proved for readable values (C38_display_partial), unconditionally for nested arrays or nested tuples of address/bool/bytesN (C38_leaves); the full claim is refuted (C38_refuted). C38_exact: a value is read back exactly if it is readable, for all types and values."
  },
  {
   "property": "C39",
   "status": "partial",
   "theorems": [
    "C39_dynamic_partial",
    "C39_refuted",
    "C39_exact"
   ],
   "note": "Disagree on T[0] of a dynamic T (C39_refuted); agree on all other types. C39_exact: what is_dynamic says for every value of every type, and exactly for which types the two agree."
  },
  {
   "property": "C40",
   "status": "proved",
   "theorems": [
    "C40_empty"
   ],
   "note": ""
  },
  {
   "property": "C41",
   "status": "proved",
   "theorems": [
    "C41_sanitized",
    "C41_total",
    "C41_idempotent"
   ],
   "note": ""
  },
  {
   "property": "C42",
   "status": "proved",
   "theorems": [
    "C42_release",
    "C42_debug"
   ],
   "note": ""
  },
  {
   "property": "C43",
   "status": "proved",
   "theorems": [
    "C43_function_name",
    "C43_function_name_error",
    "C43_function_signature",
    "C43_function_signature_error",
    "C43_event_name",
    "C43_event_name_error",
    "C43_event_signature",
    "C43_event_signature_error",
    "C43_event_found",
    "C43_no_panic"
   ],
   "note": "By name: the only one. By signature: the first match; for events modulo keccak collisions."
  },
  {
   "property": "C44",
   "status": "partial",
   "theorems": [
    "C44_enough_partial",
    "C44_refuted",
    "C44_exact",
    "C44_output"
   ],
   "note": "Success needs at least as many values as inputs and depends on no further one; C44_exact says when release builds succeed, C44_output what is printed, in all builds for values below 32 MiB. Refuted: extra values are silently ignored (C44_refuted)."
  },
  {
   "property": "C45",
   "status": "proved",
   "theorems": [
    "C45_inverse",
    "C45_converts_only",
    "C45_arguments",
    "C45_encode_input_partial",
    "C45_never_expects",
    "C45_constructor_partial",
    "C45_constructor_never_expects",
    "C45_decode_output",
    "C45_decode_fails"
   ],
   "note": "Conversions are inverse for every plain type (C45_inverse); in an optimised build encode_input never hits its expect() (C45_never_expects). C45_encode_input_partial and C45_constructor_partial describe the bytes; missing there: encodings of 2^32 bytes and more."
  },
  {
   "property": "C46",
   "status": "partial",
   "theorems": [
    "C46_inputs",
    "C46_identity_partial",
    "C46_signature_partial",
    "C46_refuses",
    "C46_refuted"
   ],
   "note": "False in general: the generated event is given the CamelCase name (C46_refuted). C46_identity_partial and C46_signature_partial: kept exactly for names already in CamelCase."
  },
  {
   "property": "C47",
   "status": "proved",
   "theorems": [
    "C47_array",
    "C47_tuple"
   ],
   "note": "Quotes are kept in the item text; a tuple literal may have fewer items than fields."
  },
  {
   "property": "C48",
   "status": "partial",
   "theorems": [
    "C48_no_panic_partial",
    "C48_refuted",
    "C48_panics"
   ],
   "note": "Panics if a data input contains a fixed-size array of a dynamic type or an oversized bytesN (C48_refuted). C48_panics says exactly when; C48_no_panic_partial covers all events without such inputs."
  },
  {
   "property": "C49",
   "status": "proved",
   "theorems": [
    "C49_contract",
    "C49_param",
    "C49_event_param"
   ],
   "note": "Independent relational description of the format in JsonSpec.v."
  },
  {
   "property": "C50",
   "status": "proved",
   "theorems": [
    "C50_any_order"
   ],
   "note": ""
  },
  {
   "property": "C51",
   "status": "partial",
   "theorems": [
    "C51_no_panic_partial",
    "C51_reader",
    "C51_panics",
    "C51_refuted",
    "C51_exact",
    "C51_exact_any",
    "C51_otherwise",
    "C51_params",
    "C51_stream"
   ],
   "note": "Refuted as stated. C51_exact: for ASCII type names loading panics exactly on the JSON of the relation contract_crashes (LoadSpec.v), in which everything is read up to a name of the grammar panicking_name (C21); C51_exact_any for all names, those on which the reader panics; C51_otherwise: what neither loads nor panics is an error; C51_params: single parameters. C51_stream: the code reads item by item, so the panic comes before a nesting error further down. C51_no_panic_partial: none if the names are ASCII with matched brackets."
  },
  {
   "property": "C52",
   "status": "proved",
   "theorems": [
    "C52_ignored",
    "C52_ignored_event",
    "C52_rejected",
    "C52_no_duplicates"
   ],
   "note": "Within a contract unknown keys are ignored; a parameter read alone from text is rejected because of them (C52_rejected), a finding."
  },
  {
   "property": "C53",
   "status": "proved",
   "theorems": [
    "C53_well_formed"
   ],
   "note": ""
  },
  {
   "property": "C54",
   "status": "proved",
   "theorems": [
    "C54_meaning",
    "C54_hash",
    "C54_text",
    "C54_selects",
    "C54_signature",
    "C54_injective"
   ],
   "note": ""
  },
  {
   "property": "C55",
   "status": "proved",
   "theorems": [
    "C55_function",
    "C55_params",
    "C55_params_exact",
    "C55_output"
   ],
   "note": ""
  },
  {
   "property": "C56",
   "status": "proved",
   "theorems": [
    "C56_round_trip"
   ],
   "note": ""
  },
  {
   "property": "C57",
   "status": "proved",
   "theorems": [
    "C57_params",
    "C57_function",
    "C57_log",
    "C57_params_assert",
    "C57_function_assert",
    "C57_odd"
   ],
   "note": ""
  },
  {
   "property": "C58",
   "status": "proved",
   "theorems": [
    "C58_log"
   ],
   "note": ""
  },
  {
   "property": "C59",
   "status": "partial",
   "theorems": [
    "C59_values_partial",
    "C59_panics",
    "C59_refuted",
    "C59_exact",
    "C59_exact_panics"
   ],
   "note": "False for indexed string, bytes and array inputs (C59_panics, C59_refuted) and for names not in CamelCase (C46). C59_values_partial covers the rest within the limits of C28. C59_exact and C59_exact_panics say for all logs what is returned and when it panics, also for inputs that share a name."
  },
  {
   "property": "C60",
   "status": "partial",
   "theorems": [
    "C60_checked",
    "C60_never_expects",
    "C60_wildcard",
    "C60_matches_partial",
    "C60_exact",
    "C60_refuted"
   ],
   "note": "A fourth indexed input of an anonymous event is ignored (C60_refuted). C60_matches_partial covers indexed inputs of value types, C60_exact all types (in terms of the topic asked for, C30); C60_never_expects: no panic in optimised builds; C60_checked: in checked builds exactly if a value asked for takes 4 GiB or more."
  },
  {
   "property": "C61",
   "status": "proved",
   "theorems": [
    "C61_function",
    "C61_constructor",
    "C61_contract"
   ],
   "note": ""
  },
  {
   "property": "C62",
   "status": "proved",
   "theorems": [
    "C62_function_types",
    "C62_event_types",
    "C62_function_exact",
    "C62_constructor_exact",
    "C62_event_exact",
    "C62_contract_exact",
    "C62_identifiers",
    "C62_function_accepted",
    "C62_event_accepted",
    "C62_overloads",
    "C62_overloaded_events",
    "C62_hidden_parameter",
    "C62_hidden_constructor_parameter",
    "C62_event_self",
    "C62_distinct_names_clash"
   ],
   "note": "Exact conditions for functions, constructors, events and whole contracts: types, identifiers, keywords (edition 2018), clashes, hidden local names and hidden types. Distinct names of the file may still clash after the conversion of case (C62_distinct_names_clash). Relative to the compiler errors listed in Derive.v; names with non-ASCII characters or '$' are outside the model of heck."
  },
  {
   "property": "C63",
   "status": "proved",
   "theorems": [
    "C63_panics",
    "C63_errors"
   ],
   "note": "With C08 this classifies all outcomes: values (C08_reads), panic (C63_panics), errors (C63_errors)."
  },
  {
   "property": "C64",
   "status": "proved",
   "theorems": [
    "C64_keccak"
   ],
   "note": "The hash is an external crate (sha3); this shows that the function standing for it in the model, and so the hashes in all other theorems, are those of FIPS 202 without the SHA3 suffix, written as a bit-level specification."
  },
  {
   "property": "C65",
   "status": "partial",
   "theorems": [
    "C65_exact",
    "C65_refuted",
    "C65_plain_partial",
    "C65_flat_partial",
    "C65_panics_partial"
   ],
   "note": "C65_exact: for every ASCII name of any nesting depth, the reader returns t exactly if the grammar accepts it as t; the names on which it panics are characterized by C21_exact. C65_plain/C65_flat: results without the ASCII restriction for names without ')' or without inner '('. False for other non-ASCII names (C65_refuted)."
  },
  {
   "property": "C66",
   "status": "partial",
   "theorems": [
    "C66_array_partial",
    "C66_fixed_array",
    "C66_tuple_partial",
    "C66_ascii",
    "C66_refuted"
   ],
   "note": "Acceptance and result are characterised for every tokenizer, type and text by the positions of the items (C66_array_partial, C66_tuple_partial), the panics by C37_panics_*. False as stated: unclosed inner brackets are accepted and the items lost, and text after the closing bracket is taken into an item (C66_refuted)."
  },
  {
   "property": "C67",
   "status": "proved",
   "theorems": [
    "C67_reader",
    "C67_rejects",
    "C67_unique",
    "C67_writer",
    "C67_round",
    "C67_load",
    "C67_load_panic"
   ],
   "note": "The reader of the dependency serde_json is modelled from its documented behaviour; numbers out of the range of f64 are accepted by the model."
  },
  {
   "property": "C68",
   "status": "partial",
   "theorems": [
    "C68_exact",
    "C68_encode_function",
    "C68_encode_params",
    "C68_decode_params",
    "C68_decode_log",
    "C68_decode_function",
    "C68_expressible",
    "C68_even",
    "C68_files",
    "C68_round",
    "C68_refuted"
   ],
   "note": "C68_exact is the grammar for all argument vectors; the claim that every value can be given to -p as a separate argument is refuted (C68_refuted)."
  },
  {
   "property": "C69",
   "status": "proved",
   "theorems": [
    "C69_written",
    "C69_runs",
    "C69_refused",
    "C69_encode_input",
    "C69_decode_output",
    "C69_parse_log"
   ],
   "note": "The templates are transcribed verbatim and filled as crate quote does; the text is proved to be that of trees, and the trees are run by an evaluator for the part of Rust they use (RustEval.v), which knows the crate ethabi by its model. Trusted: that the printer of RustSyntax.v is the inverse of Rust's parser on these trees, and RustEval.v as the meaning of Rust (no ownership or type checking before running)."
  },
  {
   "property": "C70",
   "status": "proved",
   "theorems": [
    "C70_attribute",
    "C70_unique",
    "C70_exact",
    "C70_panics",
    "C70_local",
    "C70_use_contract",
    "C70_runs",
    "C70_refused"
   ],
   "note": "The parser of syn is modelled on token trees and proved against a grammar in both directions; C70_exact goes from the attribute through the path and the bytes of the file (C67) to the text (C69). Multi-character operators are single tokens."
  },
  {
   "property": "C71",
   "status": "proved",
   "theorems": [
    "C71_wraps",
    "C71_checked",
    "C71_right"
   ],
   "note": "Exact for both profiles; the bound of 128 GiB in C71_checked is where the number of words is itself cut off by the cast to u32."
  },
  {
   "property": "C72",
   "status": "proved",
   "theorems": [
    "C72_bounded",
    "C72_attained"
   ],
   "note": "Upper bound C72_bounded, attained degree C72_attained (100 billion values from 3904 bytes). For zero-size elements there is no bound: C09_refuted."
  },
  {
   "property": "C73",
   "status": "proved",
   "theorems": [
    "C73_parses",
    "C73_file"
   ],
   "note": "The parser (RustParse.v) is written for this purpose and trusted to be that of Rust on the texts at hand; the round trip through it is proved for all trees that are well-formed, and the trees of all derivable contracts are shown to be so."
  },
  {
   "property": "C74",
   "status": "proved",
   "theorems": [
    "C74_levels",
    "C74_any",
    "C74_attained",
    "C74_loaded",
    "C74_file"
   ],
   "note": "C74_levels (ASCII, sharp), C74_attained, C74_any (all names), C74_loaded, C74_file. The stack itself is not modelled."
  },
  {
   "property": "C75",
   "status": "proved",
   "theorems": [
    "C75_plain_names",
    "C75_names",
    "C75_names_attained",
    "C75_values",
    "C75_values_attained",
    "C75_calls_char",
    "C75_calls_array",
    "C75_calls_token"
   ],
   "note": "C75_names and C75_values are the bounds, C75_names_attained and C75_values_attained show they are tight up to a constant, C75_calls_* that the calls counted are exactly the calls made. What a call does apart from further calls is linear in its text by inspection (one pass of the loop); it is counted, not proved."
  },
  {
   "property": "C76",
   "status": "proved",
   "theorems": [
    "C76_names",
    "C76_ascii_names",
    "C76_values",
    "C76_strict",
    "C76_lenient",
    "C76_array",
    "C76_fixed_array",
    "C76_tuple",
    "C76_load",
    "C76_log",
    "C76_missing_file",
    "C76_bad_file",
    "C76_plain_names"
   ],
   "note": "C76_names: the reader on all names (induction on the fuel, which is shown not to matter); C76_ascii_names: exactly which ASCII names are rejected, and with which error; C76_plain_names: the same for names of any characters without a closing parenthesis. C76_values: any tokenizer; C76_strict and C76_lenient: exact errors for types that are not containers; C76_array, C76_fixed_array, C76_tuple: exact errors for containers, any tokenizer and text. C76_load, C76_log, C76_missing_file, C76_bad_file: contracts, logs, the program. The model's fuel error never arises (names under 2^63 bytes)."
  },
  {
   "property": "C77",
   "status": "proved",
   "theorems": [
    "C77_checked",
    "C77_decides",
    "C77_text"
   ],
   "note": "The checker RustCheck.v is written from the rules of Rust and the signatures of the ethabi crate, not from the macro; its simplifications are listed there. Lifetimes are not checked."
  },
  {
   "property": "C78",
   "status": "proved",
   "theorems": [
    "C78_sound",
    "C78_impl",
    "C78_depth",
    "C78_generated"
   ],
   "note": "Types as sets of values; soundness of inference by induction on expressions, of calls by induction on depth. Shows the two hand-written descriptions of Rust, RustCheck.v and RustEval.v, consistent with each other. Lifetimes are not part of either."
  },
  {
   "property": "C79",
   "status": "proved",
   "theorems": [
    "C79_params",
    "C79_lets",
    "C79_closures",
    "C79_generated"
   ],
   "note": "Occurrences are listed by an independent function (MoveSpec.uses) in the order of evaluation, with shadowing. Lifetimes of borrows are not modelled."
  },
  {
   "property": "C80",
   "status": "proved",
   "theorems": [
    "C80_reads",
    "C80_parse",
    "C80_decides",
    "C80_exact",
    "C80_means",
    "C80_file"
   ],
   "note": "Relative to the parser in RustParse.v and the checker in RustCheck.v, which stand for rustc and are part of the specification; both are shown to take and to refuse more than generated code."
  },
  {
   "property": "C81",
   "status": "proved",
   "theorems": [
    "C81_values",
    "C81_differs",
    "C81_panics",
    "C81_agrees",
    "C81_round_trip",
    "C81_refuted"
   ],
   "note": "C81_refuted records the defect behind the difference: an offset word of 2^32-32 (or a length of 2^32-64) makes decode panic on 32-bit targets where 64-bit targets return InvalidData."
  },
  {
   "property": "C82",
   "status": "proved",
   "theorems": [
    "C82_exact",
    "C82_data",
    "C82_least",
    "C82_most",
    "C82_each",
    "C82_wide",
    "C82_narrow",
    "C82_narrow_small",
    "C82_refuted"
   ],
   "note": "C82_refuted records the defect: 64 MiB of bytes make encode panic on 32-bit targets. Vectors made by vec!, collect and clone are not counted."
  },
  {
   "property": "C83",
   "status": "proved",
   "theorems": [
    "C83_only",
    "C83_all",
    "C83_unique",
    "C83_only_any",
    "C83_all_any",
    "C83_param",
    "C83_event_param",
    "C83_tuple_param"
   ],
   "note": "C83_only and C83_all: equivalence with the relation contract_is (LoadSpec.v); for ASCII type names the names are those of the grammar of C65, otherwise those the reader reads (C83_only_any, C83_all_any). C83_unique: the items are determined. C83_param, _event_param, _tuple_param: single parameters, from text and buffered."
  },
  {
   "property": "C84",
   "status": "proved",
   "theorems": [
    "C84_same",
    "C84_exact",
    "C84_bound",
    "C84_words",
    "C84_attained",
    "C84_tight"
   ],
   "note": "C84_same: the counting model has the results of the model of C01 and others. C84_exact: the count, on the values alone. C84_bound/C84_words: the bound. C84_attained/C84_tight: quadratic for nested arrays. Steps of the allocator and of copying single bytes are not counted."
  },
  {
   "property": "C85",
   "status": "proved",
   "theorems": [
    "C85_same",
    "C85_limit",
    "C85_result",
    "C85_exact",
    "C85_linear",
    "C85_shared",
    "C85_empty"
   ],
   "note": "C85_same: the counting model has the results of the model of C05 and others. C85_limit: all runs. C85_result, C85_exact, C85_linear: runs that succeed. C85_shared, C85_empty: lower bounds. Steps of the allocator are not counted."
  },
  {
   "property": "C86",
   "status": "proved",
   "theorems": [
    "C86_plain_names",
    "C86_same",
    "C86_decode",
    "C86_decode_most",
    "C86_decode_least",
    "C86_decode_attained",
    "C86_decode_unbounded",
    "C86_encode",
    "C86_encode_most",
    "C86_encode_least",
    "C86_encode_attained",
    "C86_names",
    "C86_names_any",
    "C86_names_attained",
    "C86_names_types",
    "C86_names_written",
    "C86_values",
    "C86_values_exact",
    "C86_values_attained"
   ],
   "note": "Calls of this crate's functions are counted, not bytes of stack; those of other crates, closures, conversions of errors and destructors are not. The counting runs of encode and decode have the results of the model (C86_same); the calls of the text readers are observed on the model's loops as for C75 (C75_calls_*)."
  },
  {
   "property": "C87",
   "status": "proved",
   "theorems": [
    "C87_hex",
    "C87_numbers",
    "C87_quoted",
    "C87_distinct",
    "C87_same",
    "C87_given",
    "C87_scalars",
    "C87_values",
    "C87_first_array",
    "C87_first_fixed",
    "C87_first_tuple",
    "C87_array",
    "C87_fixed_array",
    "C87_tuple",
    "C87_names_same",
    "C87_names_given",
    "C87_names",
    "C87_ascii_names",
    "C87_plain_names"
   ],
   "note": "Contents of hex::FromHexError and num::ParseIntError added in Message.v; the tokenizers and the reader of names with messages are shown to give the same results otherwise (C87_same, C87_names_same). C87_scalars with C87_array, C87_fixed_array and C87_tuple determine the message of every rejected text; C87_first_* say the same without positions for literals made of items with brackets and quotes balanced. C87_ascii_names determines the message of every ASCII type name, C87_plain_names that of every name of any characters without a closing parenthesis. serde_json's texts are not modelled."
  },
  {
   "property": "C88",
   "status": "proved",
   "theorems": [
    "C88_names",
    "C88_imports",
    "C88_generated"
   ],
   "note": "About the check of RustCheck.v, which C77 shows to pass exactly for the contracts that the derive model accepts. Names with several segments are resolved by the tables of RustCheck.v."
  },
  {
   "property": "C89",
   "status": "proved",
   "theorems": [
    "C89_text",
    "C89_distinct",
    "C89_prefix"
   ],
   "note": "C89_text: the text is that of Rust's rules; C89_distinct and C89_prefix: it identifies the type, also at the beginning of a longer text. The other Debug derives are not modelled."
  },
  {
   "property": "C90",
   "status": "proved",
   "theorems": [
    "C90_given",
    "C90_text",
    "C90_same",
    "C90_quotes"
   ],
   "note": "C90_given: all names; C90_text and C90_same: ASCII names, exact; C90_quotes: escaping is injective on ASCII. Debug for str on other characters is not modelled. What serde_json adds to the text (line and column) is not modelled."
  }
 ]
}
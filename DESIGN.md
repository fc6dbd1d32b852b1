# Formal model of ethabi-rs in Rocq (Coq 8.16.1)

The plan was written before the proofs and has been kept up to date since.

## 1. Modelling approach

The library is a pure codec: every function of the crate becomes a total,
computable Gallina function over lists, `N` and small inductive types.

* `res A := Ok a | Err e | Panic`.  A Rust panic (slice out of range, arithmetic
  overflow in a checked build, slicing inside a UTF-8 character, failed
  assertion, `expect`, explicit `panic!`) is the value `Panic`, never hidden.
* `profile := Debug | Release` selects overflow checks; `u32`/`usize` arithmetic
  is written with explicit wrap or panic.  `usize` is 64 bits; the decoder is also
  modelled with 32-bit `usize` (Decoder32), where it behaves differently (C81).
* Bytes are `Coq.Init.Byte.byte`; words are lists of 32 bytes; `U256` is `N`
  (with the type invariant `< 2^256` in `wf_token`); `String`/`&str` are lists
  of Unicode scalar values, with byte-indexed slicing as Rust does it.
* Keccak-256 is computed, not assumed, and proved to be the function of a
  bit-level specification (C64).
* JSON is a tree of values.  A second layer (JsonText) reads and writes the
  trees as UTF-8 text, the way serde_json does, including its nesting limit; a
  text is read completely before the visitors run.
* Where code iterates over a `HashMap`, the order is an extra argument, any
  permutation of the entries.
* Recursion that Rust does on strings (type names, value literals) runs on
  fuel computed from the input.  Running out of it is the error `OutOfFuel`,
  proved unreachable (C21_terminates and the totality lemmas).

Every definition of the model cites the `/repo` file and lines it models, and
says where it simplifies.

## 2. Files

| model | repository code | specification (no model helpers) | proofs | theorems |
|---|---|---|---|---|
| Base, Utf8 | std: machine integers, `str`, `from_utf8_lossy` | AbiSpec, DecoderSpec, LossySpec (text from bytes of any kind) | BaseFacts, StrFacts, Utf8Facts, LossyFacts | PropsCodec |
| Types | `param_type.rs`, `token/token.rs` | AbiSpec, ShapeSpec (values with too many fields) | CodecLemmas, ShapeFacts | PropsCodec, PropsShape |
| Encoder | `encoder.rs`, `util.rs` | AbiSpec (head/tail encoding), WrapSpec (the same with words modulo 2^32) | EncoderFacts, EncoderTotal, RoundTrip, RoundTripExact, WrapFacts, WrapRight | PropsCodec, PropsWrap |
| Decoder | `decoder.rs` | DecoderSpec (layout relation, crash relation), BombSpec | DecoderFacts, DecoderProps, DecoderPanics, BombFacts | PropsCodec, PropsBomb |
| EncoderMem | `encoder.rs` with its calls of `Vec::with_capacity` | MemSpec (vectors asked for, nesting depth) | MemFacts, MemErase, MemCases | PropsMemory |
| Decoder32 | `decoder.rs` on 32-bit targets | Decoder32Spec (crash relation, data without large numbers) | Decoder32Facts, Decoder32Trip | PropsTarget32 |
| TypeNames | `reader.rs`, `writer.rs` | TypeNamesSpec, ReaderSpec, NameErrorSpec, PlainErrorSpec, DepthSpec | TypeNamesFacts, ReaderFacts, ReaderTotal, ReaderGrammar, ReaderExact, ReaderNested, ReaderPanics, NameErrors, PlainErrors, NameMessages, DepthFacts, DepthJson | PropsNames, PropsDepth, PropsPlainErrors |
| Keccak | crate `sha3` | KeccakSpec (FIPS 202, bit level) | KeccakFacts | PropsFunction |
| Function | `function.rs`, `constructor.rs`, `signature.rs` | TypeNamesSpec, AbiSpec | FunctionFacts, HashFacts | PropsFunction |
| Tokenizer | `token/mod.rs`, `strict.rs`, `lenient.rs`, `Display for Token` | TokenSpec, LiteralSpec, LiteralErrorSpec | TokenFacts, TokenTotal, LiteralExact, LiteralErrors, DisplayExact | PropsToken |
| Event | `event.rs`, `filter.rs`, `log.rs` | EventSpec, AskedSpec (what a filter asks for) | EventFacts, EventExact, EventInverse, FilterFacts, FilterExact, FilterMisses, AskedFacts | PropsEvent, PropsAsked |
| Json, Contract | `param.rs`, `event_param.rs`, `tuple_param.rs`, `deserialize.rs`, `operation.rs`, `contract.rs`, `state_mutability.rs`, JSON of filters | JsonSpec, ContractSpec | JsonFacts, ItemFacts, LoadFacts, ContractFacts, LoadTotal, JsonLemmas | PropsJson |
| LoadStream | `contract.rs` (item by item) | LoadSpec (which JSON loads, which panics) | LoadExact, LoadCrash, LoadLemmas, LoadStreamFacts | PropsLoad |
| EncoderWork | `encoder.rs`, `Token::is_dynamic`, with a count of calls and words | EncWorkSpec (the count on values) | EncWorkErase, EncWorkFacts, EncWorkBound | PropsEncWork |
| DecoderWork | `decoder.rs`, `ParamType::is_dynamic`, with a count of calls, words, bytes and tokens | DecWorkSpec (the count on results, the limit on types and sizes) | DecWorkErase, DecWorkFacts, DecWorkBound, DecWorkCases | PropsDecWork |
| Stack | `encoder.rs`, `decoder.rs`, both `is_dynamic`, with the number of calls that are active at once | StackSpec (that number, read off types and values) | StackErase, StackFacts, StackBound | PropsStack |
| DebugType | `param_type.rs` (derived `Debug for ParamType`) | DebugSpec (Rust's rules for derived `Debug`) | DebugTypeFacts | PropsDebug |
| DebugError | `param_type/deserialize.rs` (the text of the error), with the derived `Debug for Error` and `Debug for str` on ASCII | DebugErrorSpec (texts in quotes) | DebugErrorFacts | PropsDebugError |
| TextStack | the calls of `reader.rs` and `token/mod.rs`, as in Work, with the number that are active at once | DepthSpec, StackSpec | TextStackFacts, TextStackExact, NameStackExact, PlainWork | PropsStack, PropsPlainWork |
| Message | `errors.rs` ([Display for Error]), with the contents of the errors of `hex::decode` and `str::parse::<usize>`, and both tokenizers and `reader.rs` with these texts | MessageSpec (why a text is wrong, and where) | MessageFacts, MessageValues, MessageNames, MessageFirst, LiteralMessages | PropsMessages |
| JsonText | crate `serde_json` (`from_reader`, `to_vec`), `Contract::load` on bytes | JsonTextSpec (grammar of RFC 8259) | JsonTextFacts, JsonTextLoad | PropsText |
| Cli | `cli/src/main.rs` | CliSpec, PrintSpec | CliFacts, CliCommands, CliAccepts, CliExact | PropsCli |
| Args | crates `structopt`/`clap` for the options of `cli/src/main.rs`, `main` on argument vectors and file bytes | ArgsSpec (grammar of the lines) | ArgsFacts | PropsMain |
| Heck, Derive | crate `heck` (case conversion), `derive/src/*.rs` | DeriveSpec | HeckFacts, DeriveFacts, DeriveCalls, DeriveEvents, DeriveAny, DeriveAccepts | PropsDerive |
| Quote, DeriveText (crate `quote`, the templates of `derive/src/*.rs`), RustSyntax, DeriveTree (the same code as trees), RustEval (running them) | `derive/src/*.rs` | GeneratedSpec | DeriveTextFacts, DeriveRun, DeriveModules, DeriveLogs, DeriveGenerated, DeriveRefused, DeriveDecides, DeriveWritten | PropsGen |
| RustParse (a parser for these texts; nothing in /repo) | `derive/src/*.rs` | GeneratedSpec | RustParseFacts, DeriveParsed, DeriveParsedFile; RustParseRejects, DeriveRejected, DeriveReadFile against ReadSpec | PropsParse, PropsRead |
| RustCheck (names, types and moves; nothing in /repo) | `derive/src/*.rs` | C62's conditions; SoundSpec (types as sets of values), MoveSpec (what code uses, in order), ScopeSpec (modules in modules, and where a constant is imported from) | CheckFacts, CheckCalls, CheckModules, CheckEvents, CheckProgram, SoundFacts, SoundEval, SoundCalls, SoundProgram, MoveFacts, MovePrograms, ScopeFacts | PropsCheck, PropsSound, PropsMoves, PropsScope |
| Work (steps of the type name reader and of the value parsers) | `reader.rs`, `token/mod.rs` | sums over the input | WorkFacts, WorkLower, WorkNames, PlainWork | PropsWork, PropsPlainWork |
| all of the above | the errors of names, values, contracts, logs and commands | ErrorSpec | ErrorFacts, ErrorMore | PropsErrors |
| Attr (attributes as crate `syn` reads them, paths, files) | `derive/src/lib.rs:27-84`, `contract/src/lib.rs` | AttrSpec | AttrFacts | PropsAttr |

`Props*.v` hold only the property theorems, each closed by `exact lemma` and
followed by `Print Assumptions`, with an `Example` that meets the hypotheses.
`Samples.v`, `JsonSamples.v`, `TextSamples.v`, `CliSamples.v`, `DeriveSamples.v` hold the data
of those examples.

`RepoTests.v`, `RepoTestsTools.v`, `RepoTestsMain.v` and `RepoTestsDerive.v` transcribe the unit tests
of the repository (`ethabi/src`, `derive/src`, `cli/src/main.rs`, `tests/src/lib.rs`) and run them on
the model; `RepoTestsMain.v` runs those of `main.rs` from the command line and the
bytes of the files in `/repo/res`.  They are tests of the faithfulness of the model, not proofs of
properties; all of them pass.

## 3. Trusted base

* Coq 8.16.1's kernel, including its `vm_compute` conversion.
* `Print Assumptions` answers "Closed under the global context" for every
  theorem listed in MANIFEST.json: no axiom is used, neither own nor of the
  standard library.  (The checker lists seven constants `Coq.ssr.ssrunder.Under_rel.*`
  as axioms of the loaded context: they come from a module type of the standard
  library's `ssreflect` plugin files and are used by no theorem.)
* That the Gallina functions do what the Rust code does.  This was checked by
  reading, by running the repository's own tests on the model, and, the other
  way round, by planting bugs in the model and looking which theorems notice
  (`seeded/LOG.jsonl`).
* The behaviour of external crates that the code relies on, as written in the
  model: `sha3` (specified and proved, C64), `hex`, `rustc-hex`/`fixed-hash`
  (`H256::from_str`), `uint` (`from_dec_str`, big endian conversions),
  `serde`/`serde_json` (visitor protocol, tagged enums, nesting limit; the text
  reader is specified by the grammar and proved, C67),
  `itertools::tuples`, `heck` (case conversion), `String::from_utf8_lossy` (specified and proved, C13),
  `str::parse::<usize>`, `structopt` 0.3/`clap` 2.33 (argument parser of the two levels
  of commands; specified by a grammar and proved, C68), `syn` 1.0 (attributes; specified by a
  grammar and proved, C70), `PathBuf::push` on Unix.

### Modelled
All functions of the crates `ethabi`, `ethabi-cli`, `ethabi-derive` and
`ethabi-contract` that compute something, see the table.

### Not modelled
* Memory: allocation and vector capacities, other than those the encoder asks for
  (EncoderMem; in Encoder only that the computation of a capacity
  can overflow).  How many calls are active at once is modelled (Stack, TextStack), not the bytes of
  stack a call takes, nor calls of other crates, closures and destructors.
* I/O errors other than "file missing", and files that change while they are read.
* Texts of serde_json's errors.  `SerdeJson`, `ParseInt` and `Hex` carry no payload in
  the other models; Message holds the texts of the last two.  hex 0.4, `ParseIntError`
  and `Debug for char` (on Latin-1) are modelled from their documentation.
* What the argument parser prints before it ends the process (help, version,
  usage errors); arguments that are not UTF-8.
* `Debug` derives (but that of `ParamType`, see DebugType, and what DebugError needs of `Error`) and `Clone` derives.
* For `ethabi-derive`: that its input is a struct; the splitting of source text into
  tokens.  Derive.v gives the meaning of the generated code directly (what types its functions have, what
  they return, when they panic, and which causes make it not compile).
  DeriveText.v gives its text.  C69 relates the two by running the tree that the
  text is the printed form of; C73 by parsing the text and running what is read.
  This trusts RustParse.v as the grammar and RustEval.v as the meaning of the part
  of Rust that the texts use.
  RustEval.v checks the kinds of values while it runs; names, types and moves of
  values are checked before by RustCheck.v (C77), which is trusted in the same
  way.  C78 shows that the two fit together: what passes the check does not get
  stuck.  Lifetimes are not checked.

## 4. Properties

How each property is stated and proved.  "Refuted" means that the faithful
model violates the property as one would want it; there is then a theorem
`…_refuted` with a witness and a theorem describing what does hold.

| id | how |
|----|-----|
| C01 | via C02 and the layout relation of C08: induction on types; refuted outside the guards (bytes33, T[0] of dynamic T, lists of unit values) |
| C02 | encoder against `AbiSpec.abi_enc`, induction on tokens; refuted from 4 GiB on |
| C03, C04, C42 | word-level invariant of the encoder; injectivity by C01 |
| C05, C63 | C05 refuted; C63 characterises panics, errors and successes of decode exactly by relations on types and data |
| C06–C12, C40 | induction on types against the relational layout specification; C09 and C10 refuted (zero-size elements, bool words 2..255) |
| C13 | lossy decoder against UTF-8 encoding and, for bytes that are not UTF-8, against the Unicode rule of replacing maximal subparts (LossySpec.v) |
| C14, C39 | type_check decides a relation that is characterised exactly; refuted for short/long tuples |
| C15–C17 | on top of C02, C14 |
| C18, C19, C22, C64 | unique decodability of the type name grammar; Keccak refinement |
| C20, C21 | reader: refuted from three tuple levels on, on `]`, and on non-ASCII; otherwise by induction; C20_exact by an invariant of the tuple loop and a simulation of it on written names |
| C65 | the reader against a grammar (`accepted`, ReaderSpec.v), both directions: all ASCII names with tuples at any depth; non-ASCII names without inner tuples; a refutation for the other non-ASCII names |
| C23–C25, C41, C49–C54 | JSON visitors: induction on trees, fold invariants, relational JSON format |
| C54 (meaning) | FilterJsonSpec says what each place of the JSON allows; FilterJson proves that this is what the filter matches, in PropsFilterJson |
| C67, and C23, C24 as bytes | recursive descent reader against the grammar, both directions, by induction on fuel and on derivations; writer by induction on trees |
| C26–C31, C48 | events: result and panics of parse_log for all events against the layout and crash relations; refuted for shared names and dynamic topics |
| C32–C38, C47, C66 | tokenizer loop invariants; C66 by simulation of the loop on positions counted in the text; C38_exact from C66 by comparing weights of texts (bytes, with 0 and 1 counted more, as they also spell bools); refutations by witness |
| C43, C44, C55–C58 | command line program on top of the loaders and the codec |
| C68 | argument parser against the grammar of its lines, both directions, by induction on the arguments; files as bytes by C67 |
| C69 | templates filled as `quote!` does, equal to the printed form of trees (symbolic execution of the templates); an evaluator for the trees; per kind of item, running equals Derive.v by induction on types and parameter lists; refused contracts: the code gets stuck |
| C70 | parser of attributes against a grammar on token trees, both directions, by induction on fuel and on derivations; then C67 for the file and C69 for the code |
| C73 | a recursive descent parser for the texts; it reads back every well-formed tree from its printed form (induction on trees); the trees of derivable contracts are well-formed (names from C62, types by induction); then C69 and C70 |
| C71 | a second description of the layout with words modulo 2^32 (WrapSpec), no bound on sizes; the encoder equals it by induction on values, its overflow checks fire exactly from 4 GiB on |
| C72 | weight of values against a limit computed from type and size, by induction on the layout relation of C08; a family of shared layouts for the lower bound |
| C74 | levels of types: ASCII names by induction on the grammar of C65, all names by an invariant of the reader's loop, loaded contracts by induction on the JSON value; a family of names that attains the bound |
| C75 | the model's loops are run with a reader that reports what it is asked for; the sum of the lengths of the texts asked for, by a potential argument over the reader's loop (the square of the last item's start and of the innermost '(' position), which first shows that an inner tuple that is read contains no other tuple; values by induction on the type |
| C76 | errors as a predicate on results, closed under the combinators of the model; the reader by induction on the fuel (for ASCII names against a grammar of rejected names, with the loop without positions of C65; for names of any characters without ')' against one that cuts names before array suffixes), values by an invariant of the separating loop, exact errors of leaves by cases on the text; exact errors of literals from the equation of C66 between the loop and the positions of items |
| C77 | a type checker for the trees of RustSyntax.v (types, bounds, moves), independent of the macro; inference computed for every form of expression the macro writes by induction on types and parameter lists, refusals by the failing premise; assembled with the exact acceptance of C62 |
| C78 | the types of RustCheck.v as sets of values of RustEval.v; type soundness of inference by induction on expressions (environments agree in shape), of calls by induction on depth, of modules from `program_ok`; transferred to the bounded runner by comparing runs whose cut-off differs |
| C79 | the occurrences of variables in the order of evaluation, listed apart from the checker; by induction on expressions the flag that the checker keeps for each entry of its environment is what is left after these occurrences (entries by position, because of shadowing) |
| C80 | rejection lemmas for the parser on what the writer writes (first bad type, parameter, field or item), by induction on the fuel; every generated item is either well formed or rejected, and well formed exactly under conditions on the description; with C73 and C77 this gives an equivalence between accepted texts and interfaces |
| C81 | the two decoders are compared by induction on the type, with three joint outcomes (same value, same error, 32-bit panic); the panics are an inductive relation shown necessary and sufficient; data in which no 32 bytes hold a number near 2^32 is shown to rule out the extra panics. The claim that the target makes no difference is refuted by one offset and by one length. |
| C82 | the encoder model once more with a record of the vectors asked for and a limit on their size; by induction on the value the record is that of MemSpec, and the run panics exactly if one entry is above the limit; sums by induction on the value. Refuted for 32-bit targets: 64 MiB of bytes are too much (C82_refuted). |
| C83 | the accepted JSON as inductive relations over the values under each key (LoadSpec), parametric in which texts are names of types; the visitor loops are turned into statements about these values (JsonFacts, ItemFacts), and the equivalence is by induction on the JSON. C51 is made exact with the same relations: a panic is a prefix that is read, then a name on which the reader panics, at each level. |
| C84 | a second model of the encoder that counts calls and words (EncoderWork), shown to have the same results; the count is specified on values alone (EncWorkSpec) and proved exact by relating every mediate to the value it comes from; the bound by induction on values; nested arrays for the lower bound. |
| C85 | a second model of the decoder that counts (DecoderWork), shown to have the same results; for runs that succeed the count is read off the result, by induction on types; for all runs the limit is by induction on types, a loop being bounded by the room its members take (reads_width_any). |
| C86 | a third model of encoder and decoder in which calls nest (Stack), shown to have the same results; the number of active calls is read off types and values by induction, and bounded by their depth from both sides; for the text readers the calls that the model's loops make are observed as for C75. |
| C87 | errors of the foreign functions with their contents (Message); a tokenizer in which the text of the hexadecimal error takes the place of the error, shown to have the same results by simulation of the loops; messages compared with a specification of what is wrong in the text and at which byte; the same for the reader of names, induction on the fuel to the size that is not one, and the grammar of C76; induction on the items of a literal to the first that is rejected, for readable items (C47) and, by positions, for all texts (C66). |
| C88 | the names that code uses (MoveSpec) against those that are bound: induction on expressions for the check of functions, on the nesting of modules for the constant that they import. |
| C89 | the derived `Debug` of types (DebugType) against a relation for Rust's rules (DebugSpec), induction on the type; that no text is the beginning of another, by induction on the type and on the fields of tuples, numbers ending at the first character that is no digit. |
| C90 | the reader with texts of C87, its errors written by `Debug` (DebugError); exact texts from the grammar of rejected names; escaping against a relation for Rust's rules (DebugErrorSpec), and undone by a function that reads one character. |
| C45, C46, C59–C62 | derive: semantics of the generated code on top of the library model |

Every property could be expressed; none is listed as not applicable.

## 5. Findings

Behaviour of the code that the proofs brought to light; the theorem is named.

Codec
* `decode` panics for a fixed-size array of a dynamic type when its offset
  points behind the data, and when the end of a `bytesN` overflows (C05_refuted,
  C63_panics); hence `parse_log` and the CLI panic as well (C48_refuted).
* An array of elements that take no room may have any length up to 2^32
  whatever the data (C09_refuted).
* Bool words 2..255 are read as false (C10_refuted).
* `T[0]` of a dynamic `T` is dynamic for the type and static for the token, so
  its encoding does not decode (C39_refuted, C01_refuted_empty_dynamic).
* `bytesN` with N > 32 is encoded in one block of words but decoded as one word
  (C01_refuted_bytes33).
* `type_check` accepts tuples with too few fields and too short `bytesN`, and
  panics on tuples with too many (C14_refuted_*); encode_input accepts such
  values (C15_refuted, C17_refuted).
* Encodings of 4 GiB and more are wrong (C02_refuted_4GiB).
* Offsets may share a tail: a few words decode to a number of values that is
  exponential in the nesting of the type (C72).
* Encoding measures every tail again at each level: the time is the size times
  the depth, quadratic for nested arrays (C84).

Type names and JSON
* Three levels of tuples are misread or rejected (C20_refuted*); `]` without
  `[` and some non-ASCII names panic (C21_refuted), also when loading an ABI
  file (C51_refuted).  For every file a panic comes from the reader of type names on some type text of
  the file (C51_reader); C51_exact says on which files.  Structs may also be arrays of their
  values, and a type name that already has fields gets the components appended (C83_case).
* Parameters read alone from text reject unknown keys, within a contract they
  are ignored (C52_rejected).
* A type may be nested as deeply as half its name is long, and serde_json's
  nesting limit does not prevent it (C74_attained, C74_file); every walk over
  the type recurses that deep: a file decides how much stack decoding takes,
  whatever the data is (C86_decode_unbounded), but the data does not (C86_decode_most).
* Reading a name takes quadratic time for some names and never more (C75):
  not exponential, although inner tuples are read again.
* serde_json's nesting limit breaks the round trip of deeply nested types
  (C23_refuted, C24_refuted).

Events
* Inputs that share a name, for example unnamed ones, get each other's values
  (C26_refuted).
* Filters for string, bytes, dynamic arrays and structs, and one-word arrays and
  structs never match their logs (C30_refuted, C30_dynamic, C30_one_word), but a
  filter for bytes matches the logs of other bytes (C30_confused).
* A log whose data inputs all take no room does not parse (C28_refuted).

Tokenizer and CLI
* 64 decimal digits are read as hex (C33_refuted, C34_refuted).
* `[é]` panics (C37_refuted).
* `[[1,2]` is read as the empty array, `[a][b]` as `a` and `[b` (C66_refuted).
* Tuple literals with too few fields are accepted (C36_refuted).
* `encode function` ignores surplus values (C44_refuted).
* A function signature given to the CLI must match to the letter including
  outputs and without blanks, an event signature may contain blanks (C43).
* `-p -5` ends the program although `-v int256 -5` is accepted; `-p=-5` works; `-p`
  directly before a flag gives no value without complaint (C68_refuted).

Derive
* Event names are changed to CamelCase, which changes the event signature
  (C46_refuted).
* The generated parse_log panics on indexed string, bytes and array inputs
  (C59_panics, C59_refuted).
* A fourth indexed input of an anonymous event is ignored by generated filters
  (C60_refuted).
* Overloaded functions, parameters called `f`, `c` or `code`, and names that
  differ only in case style (`fooBar`/`foo_bar`) give code that does not
  compile; so do fixed-size arrays as outputs or event fields (C62_*).

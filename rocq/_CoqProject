-Q theories Verif
theories/Base.v
theories/Utf8.v
theories/Types.v
theories/Encoder.v
theories/Decoder.v
theories/AbiSpec.v
theories/BaseFacts.v
theories/Utf8Facts.v
theories/EncoderFacts.v
theories/EncoderTotal.v
theories/DecoderSpec.v
theories/DecoderFacts.v
theories/RoundTrip.v
theories/DecoderProps.v
theories/CodecLemmas.v
theories/DecoderPanics.v
theories/Samples.v
theories/LossySpec.v
theories/LossyFacts.v
theories/PropsCodec.v
theories/TypeNames.v
theories/StrFacts.v
theories/TypeNamesSpec.v
theories/TypeNamesFacts.v
theories/ReaderFacts.v
theories/ReaderTotal.v
theories/ReaderSpec.v
theories/ReaderGrammar.v
theories/ReaderExact.v
theories/ReaderNested.v
theories/ReaderPanics.v
theories/PropsNames.v
theories/Keccak.v
theories/Function.v
theories/FunctionFacts.v
theories/KeccakSpec.v
theories/KeccakFacts.v
theories/HashFacts.v
theories/PropsFunction.v
theories/Tokenizer.v
theories/TokenSpec.v
theories/TokenFacts.v
theories/TokenTotal.v
theories/PropsToken.v
theories/Event.v
theories/EventSpec.v
theories/EventFacts.v
theories/EventExact.v
theories/RoundTripExact.v
theories/EventInverse.v
theories/FilterFacts.v
theories/FilterExact.v
theories/FilterMisses.v
theories/PropsEvent.v
theories/Json.v
theories/Contract.v
theories/JsonSpec.v
theories/JsonFacts.v
theories/ItemFacts.v
theories/LoadFacts.v
theories/ContractSpec.v
theories/ContractFacts.v
theories/LoadTotal.v
theories/JsonLemmas.v
theories/JsonSamples.v
theories/PropsJson.v
theories/JsonText.v
theories/JsonTextSpec.v
theories/JsonTextFacts.v
theories/JsonTextLoad.v
theories/TextSamples.v
theories/PropsText.v
theories/Cli.v
theories/CliSpec.v
theories/CliFacts.v
theories/LiteralSpec.v
theories/LiteralExact.v
theories/CliCommands.v
theories/CliAccepts.v
theories/CliSamples.v
theories/PropsCli.v
theories/Heck.v
theories/Derive.v
theories/DeriveSpec.v
theories/HeckFacts.v
theories/DeriveFacts.v
theories/DeriveCalls.v
theories/DeriveEvents.v
theories/DeriveAccepts.v
theories/DeriveSamples.v
theories/DeriveAny.v
theories/PropsDerive.v
theories/RepoTests.v
theories/RepoTestsTools.v
theories/Args.v
theories/ArgsSpec.v
theories/ArgsFacts.v
theories/RepoTestsMain.v
theories/PropsMain.v
theories/RustSyntax.v
theories/Quote.v
theories/DeriveText.v
theories/DeriveTree.v
theories/DeriveTextFacts.v
theories/RepoTestsDerive.v
theories/RustEval.v
theories/DeriveRun.v
theories/DeriveModules.v
theories/DeriveLogs.v
theories/GeneratedSpec.v
theories/DeriveGenerated.v
theories/DeriveRefused.v
theories/DeriveDecides.v
theories/DeriveWritten.v
theories/Attr.v
theories/AttrSpec.v
theories/AttrFacts.v
theories/AttrSamples.v
theories/PropsGen.v
theories/PropsAttr.v
theories/WrapSpec.v
theories/WrapFacts.v
theories/WrapRight.v
theories/PropsWrap.v
theories/ShapeSpec.v
theories/ShapeFacts.v
theories/PropsShape.v
theories/PrintSpec.v
theories/CliExact.v
theories/BombSpec.v
theories/BombFacts.v
theories/PropsBomb.v
theories/RustParse.v
theories/RustParseFacts.v
theories/DeriveParsed.v
theories/DeriveParsedFile.v
theories/PropsParse.v
theories/DisplayExact.v
theories/AskedSpec.v
theories/AskedFacts.v
theories/PropsAsked.v
theories/DepthSpec.v
theories/DepthFacts.v
theories/DepthJson.v
theories/PropsDepth.v
theories/Work.v
theories/WorkFacts.v
theories/WorkNames.v
theories/WorkLower.v
theories/PropsWork.v
theories/ErrorSpec.v
theories/ErrorFacts.v
theories/ErrorMore.v
theories/PropsErrors.v
theories/RustCheck.v
theories/CheckFacts.v
theories/CheckCalls.v
theories/CheckModules.v
theories/CheckEvents.v
theories/CheckProgram.v
theories/PropsCheck.v
theories/SoundSpec.v
theories/SoundFacts.v
theories/SoundEval.v
theories/SoundCalls.v
theories/SoundProgram.v
theories/PropsSound.v
theories/MoveSpec.v
theories/MoveFacts.v
theories/MovePrograms.v
theories/PropsMoves.v
theories/ReadSpec.v
theories/RustParseRejects.v
theories/DeriveRejected.v
theories/DeriveReadFile.v
theories/PropsRead.v
theories/Decoder32.v
theories/Decoder32Spec.v
theories/Decoder32Facts.v
theories/Decoder32Trip.v
theories/PropsTarget32.v
theories/EncoderMem.v
theories/MemSpec.v
theories/MemFacts.v
theories/MemErase.v
theories/MemCases.v
theories/PropsMemory.v
theories/LoadSpec.v
theories/LoadExact.v
theories/LoadCrash.v
theories/LoadLemmas.v
theories/LoadStream.v
theories/LoadStreamFacts.v
theories/PropsLoad.v
theories/EncoderWork.v
theories/EncWorkSpec.v
theories/EncWorkErase.v
theories/EncWorkFacts.v
theories/EncWorkBound.v
theories/PropsEncWork.v
theories/DecoderWork.v
theories/DecWorkSpec.v
theories/DecWorkErase.v
theories/DecWorkFacts.v
theories/DecWorkBound.v
theories/DecWorkCases.v
theories/PropsDecWork.v
theories/Stack.v
theories/StackSpec.v
theories/StackErase.v
theories/StackFacts.v
theories/StackBound.v
theories/TextStack.v
theories/TextStackFacts.v
theories/TextStackExact.v
theories/NameStackExact.v
theories/PropsStack.v
theories/Message.v
theories/MessageSpec.v
theories/MessageFacts.v
theories/MessageValues.v
theories/MessageNames.v
theories/MessageFirst.v
theories/LiteralErrorSpec.v
theories/LiteralErrors.v
theories/NameErrorSpec.v
theories/NameErrors.v
theories/NameMessages.v
theories/LiteralMessages.v
theories/PropsMessages.v
theories/ScopeSpec.v
theories/ScopeFacts.v
theories/PropsScope.v
theories/FilterJsonSpec.v
theories/FilterJson.v
theories/PropsFilterJson.v
theories/PlainErrorSpec.v
theories/PlainErrors.v
theories/PropsPlainErrors.v
theories/PlainWork.v
theories/PropsPlainWork.v
theories/DebugType.v
theories/DebugSpec.v
theories/DebugTypeFacts.v
theories/PropsDebug.v
theories/DebugErrorSpec.v
theories/DebugError.v
theories/DebugErrorFacts.v
theories/PropsDebugError.v

-Q theories Verif
theories/Base.v
theories/GoInt.v
theories/Iter.v
theories/IterSpec.v
theories/IterProofs.v
theories/IterGen.v
theories/IterGenProofs.v
theories/PropsIter.v
theories/Readers.v
theories/ReaderSpec.v
theories/ReaderProofs.v
theories/Writer.v
theories/WriterSpec.v
theories/WriterProofs.v
theories/PropsReader.v
theories/Slice.v
theories/Conv.v
theories/ConvSpec.v
theories/ConvProofs.v
theories/MathInt.v
theories/MathIntSpec.v
theories/MathIntProofs.v
theories/PropsMath.v
theories/GoMap.v
theories/Stream.v
theories/StreamSpec.v
theories/StreamProofs.v
theories/StreamProofs2.v
theories/PropsStream.v
theories/Parallel.v
theories/ParallelSpec.v
theories/ParallelFloatProofs.v
theories/ParallelProofs.v
theories/ParallelAnyProofs.v
theories/PropsParallel.v
theories/Decimal.v
theories/DecimalSpec.v
theories/DecDigits.v
theories/DecimalProofs.v
theories/DecimalProofs2.v
theories/DecimalProofs3.v
theories/DecimalProofs4.v
theories/DecimalProofs5.v
theories/DecimalProofs6.v
theories/PropsDecimal.v
theories/SliceMem.v
theories/SliceMemProofs.v
theories/Funcs.v
theories/FuncsSpec.v
theories/FuncsProofs.v
theories/FuncsProofs2.v
theories/FuncsFn.v
theories/FuncsFnSpec.v
theories/FuncsFnProofs.v
theories/PropsFuncs.v
theories/FuncsOrd.v
theories/FuncsOrdSpec.v
theories/FuncsOrdProofs.v
theories/PropsOrd.v
theories/GoVal.v
theories/Reflect.v
theories/ReflectSpec.v
theories/ReflectProofs.v
theories/PropsReflect.v
theories/Union.v
theories/UnionSpec.v
theories/MaybeReflect.v
theories/PropsUnion.v
theories/Rest.v
theories/RestSpec.v
theories/RestProofs.v
theories/PropsRest.v
theories/JsonLex.v
theories/Json.v
theories/JsonParse.v
theories/JsonWrite.v
theories/JsonSpec.v
theories/JsonSim.v
theories/JsonLexProofs.v
theories/JsonStrProofs.v
theories/JsonTokProofs.v
theories/JsonParseProofs.v
theories/JsonRejectProofs.v
theories/JsonDocProofs.v
theories/JsonWriteProofs.v
theories/JsonSearch.v
theories/JsonSearchProofs.v
theories/JsonApiProofs.v
theories/JsonIterProofs.v
theories/PropsJson.v
theories/Float.v
theories/FloatSpec.v
theories/FloatProofs.v
theories/FloatProofs2.v
theories/ConvFloat.v
theories/ConvFloatSpec.v
theories/ConvFloatProofs.v
theories/ConvFloatProofs2.v
theories/ConvFloatProofs3.v
theories/ConvFloatProofs4.v
theories/PropsConv.v
theories/Big.v
theories/BigSpec.v
theories/BigProofs.v
theories/BigProofs2.v
theories/PropsBig.v
theories/CaseConv.v
theories/CaseConvSpec.v
theories/CaseConvProofs.v
theories/PropsCase.v
theories/Code.v
theories/CodeSpec.v
theories/PropsCode.v
theories/Csv.v
theories/CsvSpec.v
theories/PropsCsv.v
theories/MathFloat.v
theories/MathFloatSpec.v
theories/MathFloatProofs.v
theories/PropsMathFloat.v
theories/StreamFloatProofs.v
theories/PropsStreamFloat.v
theories/BigCopy.v
theories/BigCopySpec.v
theories/PropsBigCopy.v
theories/ConvAny.v
theories/ConvAnySpec.v
theories/PropsConvAny.v
theories/EventRe.v
theories/EventReSpec.v
theories/PropsEventRe.v
theories/Literal.v
theories/LiteralSpec.v
theories/LiteralProofs.v
theories/LiteralProofs2.v
theories/LiteralProofs3.v
theories/PropsLiteral.v
theories/Supplier.v
theories/SupplierProofs.v
theories/PropsSupplier.v
theories/Regex.v
theories/RegexSpec.v
theories/RegexProofs.v
theories/RegexProofs2.v
theories/RegexProofs3.v
theories/RegexProofs4.v
theories/PropsRegex.v
theories/FloatText.v
theories/FloatTextSpec.v
theories/FloatTextProofs.v
theories/FloatTextProofs2.v
theories/FloatTextProofs3.v
theories/FloatTextProofs4.v
theories/FloatTextProofs5.v
theories/PropsFloatText.v
theories/Path.v
theories/PathSpec.v
theories/PathProofs.v
theories/PropsPath.v
theories/Fields.v
theories/FieldsSpec.v
theories/FieldsProofs.v
theories/FieldsProofs2.v
theories/PropsFields.v
theories/Content.v
theories/ContentSpec.v
theories/PropsContent.v
theories/PropsRunes.v
theories/Crash.v
theories/CrashSpec.v
theories/CrashProofs.v
theories/PropsCrash.v
theories/CsvText.v
theories/CsvTextSpec.v
theories/CsvTextProofs.v
theories/CsvTextProofs2.v
theories/PropsCsvText.v
theories/UnixFs.v
theories/UnixFsProofs.v
theories/UnixFsProofs2.v
theories/UnixFsProofs3.v
theories/UnixFsSpec.v
theories/UnixFsProofs4.v
theories/PropsUnixFs.v
theories/DecimalLaws.v
theories/PropsDecimalLaws.v
theories/Pipe.v
theories/PipeSpec.v
theories/PipeProofs.v
theories/PropsPipe.v
theories/ParallelSetup.v
theories/PropsParallelSetup.v
theories/RatErr.v
theories/JsonNum.v
theories/JsonNumSpec.v
theories/JsonNumProofs.v
theories/PropsJsonNum.v
theories/RatLitSpec.v
theories/RatLitProofs.v
theories/PropsRatLit.v
theories/PropsConvText.v
theories/EagerPipe.v
theories/EagerPipeSpec.v
theories/EagerPipeProofs.v
theories/PropsEagerPipe.v
theories/JsonFaultSpec.v
theories/JsonFaultProofs.v
theories/JsonParseSim.v
theories/JsonFaultProofs2.v
theories/JsonFaultProofs3.v
theories/PropsJsonFault.v
theories/JsonRead.v
theories/JsonReadProofs.v
theories/JsonReadProofs2.v
theories/JsonReadProofs3.v
theories/PropsJsonRead.v
theories/JsonHeap.v
theories/JsonHeapSpec.v
theories/JsonHeapProofs.v
theories/JsonHeapProofs2.v
theories/JsonHeapProofs3.v
theories/PropsJsonHeap.v
theories/LinesSpec.v
theories/LinesProofs.v
theories/LinesProofs2.v
theories/PropsLines.v
theories/MemIter.v
theories/MemIterSpec.v
theories/MemIterProofs.v
theories/MemIterProofs2.v
theories/MemIterProofs3.v
theories/PropsMemIter.v
theories/MapLive.v
theories/MapLiveSpec.v
theories/MapLiveProofs.v
theories/MapLiveProofs2.v
theories/PropsMapLive.v
theories/Shared.v
theories/SharedSpec.v
theories/SharedProofs.v
theories/SharedPeekProofs.v
theories/PropsShared.v
theories/Must.v
theories/MustSpec.v
theories/MustProofs.v
theories/PropsMust.v
theories/ParallelPipe.v
theories/ParallelPipeSpec.v
theories/ParallelPipeProofs.v
theories/PropsParallelPipe.v
theories/Kept.v
theories/KeptSpec.v
theories/KeptProofs.v
theories/PropsKept.v
theories/MapKeys.v
theories/MapKeysSpec.v
theories/MapKeysProofs.v
theories/PropsMapKeys.v
theories/BigMem.v
theories/BigMemSpec.v
theories/BigMemProofs.v
theories/PropsBigMem.v
theories/BigNil.v
theories/BigNilSpec.v
theories/BigNilProofs.v
theories/PropsBigNil.v
